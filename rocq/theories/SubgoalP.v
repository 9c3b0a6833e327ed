(** Proofs about subgoals (C67). *)
From Coq Require Import ZArith List Bool Lia.
From Verif Require Import Base F64 TruthM StampM TermM TermS NamesM EventM InferenceM VariableM TableM TableS TableP InvIndexM MemoryM EverywhereS EverywhereP QuestionM DecisionM CycleM SeqS ShapeS SubgoalS.
Import ListNotations.
Local Open Scope nat_scope.
#[local] Opaque Term_ExtractSubterm AddEvent Unify ApplySubstitute Truth_Projection Truth_GoalDeduction RevisionAndChoice fmul Truth_Expectation GetPreconditionWithoutOp FindConceptByTerm GetConceptChain el_deref Table_Remove copulaEquals stamp_make.
Lemma okJ {A} (a b : A) : Ok a = Ok b -> a = b. Proof. congruence. Qed.
Lemma readn m c k : nth_error (m_store m) c = Some k -> cread m c = Ok k. Proof. intros E. unfold cread. rewrite E. reflexivity. Qed.
Lemma nread m c k : cread m c = Ok k -> nth_error (m_store m) c = Some k. Proof. unfold cread. destruct (nth_error _ _); congruence. Qed.
Lemma upd_same {A} (l : list A) i x : i < length l -> nth_error (upd l i x) i = Some x.
Proof. revert i. induction l as [|y l IH]; intros [|i] H; cbn in *; try lia; auto. apply IH. lia. Qed.
Lemma upd_other {A} (l : list A) i j x : i <> j -> nth_error (upd l i x) j = nth_error l j.
Proof. revert i j. induction l as [|y l IH]; intros [|i] [|j] H; cbn in *; auto; try congruence. Qed.
Lemma upd_map {A B} (f : A -> B) l i x y : nth_error l i = Some y -> f x = f y -> map f (upd l i x) = map f l.
Proof. revert i. induction l as [|z l IH]; intros [|i] H E; cbn in *; try discriminate; [congruence|]. rewrite IH; auto. Qed.
Lemma Forall_updI {A} (P : A -> Prop) l i x : Forall P l -> P x -> Forall P (upd l i x).
Proof. intros F. revert i. induction F as [|y l H F IH]; intros [|i] X; cbn; constructor; auto. Qed.
Lemma upd_len {A} (l : list A) i x : length (upd l i x) = length l.
Proof. revert i. induction l as [|y l IH]; intros [|i]; cbn; auto. Qed.
Lemma nth_firstn {A} (l : list A) n i : i < n -> nth_error (firstn n l) i = nth_error l i.
Proof. revert l n. induction i as [|i IH]; intros [|x l] [|n] H; cbn; auto; try lia. apply IH. lia. Qed.
Lemma table_shape_wf t : table_shape t <-> wf t. Proof. reflexivity. Qed.

Section G.
Variable nm : names.
Variable av : Z -> option (f64 * name).
Variable simdist : f64.
Variable pd : Z -> f64.
Variable pen : nat -> f64.
Variables layers fuel : nat.
Lemma add_goal m e now p input revised layer m' : e_type e = EVENT_TYPE_GOAL -> AddEvent nm pd pen layers fuel m (EVal e) now p input revised layer = Ok m' -> exists q, m' = set_goals m q.
Proof.
  intros TY H. pose proof (ew_goal nm pd pen layers (fun _ => True) (fun _ => True) (fun _ => True) fuel m e now p input revised layer) as X. rewrite H in X.
  assert (E : everywhere (fun _ => True) (fun _ => True) (fun _ => True) m).
  { assert (F : forall (A : Type) (l : list A), Forall (fun _ => True) l) by (intros A l; apply Forall_forall; auto).
    constructor; [apply F|apply Forall_forall; intros; apply F|]. apply Forall_forall. intros k _. repeat split; auto. apply Forall_forall; intros; apply F. }
  destruct (X E Logic.I TY) as (_ & q & Q & _). exists q. exact Q.
Qed.
(** everything but the goals, links of concepts and queues is the same *)
Definition fr (m m' : memory) : Prop :=
  m_table m' = m_table m /\ m_index m' = m_index m /\ map pid1 (m_store m') = map pid1 (m_store m) /\ (tables_shaped m -> tables_shaped m').
Lemma fr_refl m : fr m m. Proof. repeat split; auto. Qed.
Lemma fr_trans a b c : fr a b -> fr b c -> fr a c.
Proof. intros (A1 & A2 & A3 & A4) (B1 & B2 & B3 & B4). repeat split; try congruence. auto. Qed.
Lemma fr_goals m q : fr m (set_goals m q). Proof. repeat split; auto. Qed.
Lemma fr_upd m c k k' : nth_error (m_store m) c = Some k -> c_pids k' = c_pids k ->
  (List.length (c_pre k) = 11 /\ Forall table_shape (c_pre k) /\ table_shape (c_links k) -> List.length (c_pre k') = 11 /\ Forall table_shape (c_pre k') /\ table_shape (c_links k')) -> fr m (set_store m (upd (m_store m) c k')).
Proof.
  intros N P S. split; [reflexivity|]. split; [reflexivity|]. split; [cbn [m_store set_store]; eapply upd_map; eauto; unfold pid1; congruence|].
  unfold tables_shaped. cbn [m_store set_store]. intros F. apply Forall_updI; auto. apply S. rewrite Forall_forall in F. apply F. eapply nth_error_In; eauto.
Qed.
Lemma fr_read m m' c k : fr m m' -> nth_error (m_store m) c = Some k -> exists k', nth_error (m_store m') c = Some k'.
Proof.
  intros (_ & _ & H & _) E. destruct (nth_error (m_store m') c) eqn:E'; eauto. apply nth_error_None in E'. assert (X : c < List.length (m_store m)) by (apply nth_error_Some; congruence).
  apply (f_equal (@List.length _)) in H. rewrite !map_length in H. lia.
Qed.
Variable now : Z.
Variable prio : f64.
Variable layer : nat.
Notation LinkUsed := (link_used nm av simdist pd pen layers fuel now prio layer).
Notation LinksUsed := (links_used nm av simdist pd pen layers fuel now prio layer).
Notation TablesUsed := (tables_used nm av simdist pd pen layers fuel now prio layer).
Notation Subgoal := (CycleM.subgoal nm av simdist pd pen layers fuel).
Notation Loop := (subgoal_loop nm av simdist pd pen layers fuel).
Lemma link_spec m c k i m' : nth_error (m_store m) c = Some k -> Subgoal m now prio layer c i = Ok m' -> LinkUsed (c_goal k) i m m' /\ exists q, m' = set_goals m q.
Proof.
  intros N. assert (SM : exists q, m = set_goals m q) by (exists (m_goals m); destruct m; reflexivity).
  unfold CycleM.subgoal. rewrite (readn _ _ _ N). cbn [rbind]. unfold link_used, applies.
  destruct (Unify nm av simdist (Term_ExtractSubterm (i_term i) 2) (e_term (c_goal k))) as [subs| |] eqn:U; cbn [rbind]; try discriminate.
  destruct (s_success subs) eqn:SU; cbn [negb]; [|intros H; apply okJ in H; subst m'; split; auto; right; split; auto; intros t (s2 & X1 & X2 & _); congruence].
  destruct (ApplySubstitute nm (i_term i) subs) as [[t ok]| |] eqn:AP; cbn [rbind]; try discriminate.
  destruct ok; cbn [negb]; [|intros H; apply okJ in H; subst m'; split; auto; right; split; auto; intros t' (s2 & X1 & X2 & X3); congruence].
  unfold GoalDeduction. destruct (_ || _)%bool; cbn [rassert rbind]; [|discriminate]. intros H.
  split.
  - left. exists t. split; [exists subs; auto|]. exact H.
  - eapply add_goal; [|exact H]. reflexivity.
Qed.
Lemma slot_entry tb j : wf tb -> j < t_items tb -> nth_error (entries tb) j = Some (slot tb j) /\ skipn j (entries tb) = slot tb j :: skipn (S j) (entries tb).
Proof.
  intros [L I] H. assert (E : nth_error (entries tb) j = Some (slot tb j)).
  { unfold entries, slot. rewrite nth_firstn by lia. apply nth_error_nth'. lia. }
  split; auto. revert E. generalize (entries tb), (slot tb j). clear. intros l x. revert j. induction l as [|y l IH]; intros [|j] E; cbn in *; try discriminate; [congruence|]. apply IH; auto.
Qed.
Lemma valid_current m i b : ImplicationValid m i = Ok b -> (b = true <-> current m i).
Proof.
  unfold ImplicationValid, current. destruct (i_source i) as [c|]; [|discriminate]. destruct (cread m c) as [k| |] eqn:R; cbn [rbind]; try discriminate. apply nread in R. intros H. apply okJ in H. subst b.
  rewrite Z.eqb_eq. split; [intros Q; exists c, k; auto|]. intros (c' & k' & A & B & C). congruence.
Qed.
Lemma get_set k opi tb tb' : table_of k opi = Some tb -> table_of (with_table k opi tb') opi = Some tb'.
Proof.
  destruct opi as [i|]; cbn [table_of with_table with_pre with_links c_pre c_links]; auto. intros H. apply upd_same. apply nth_error_Some. congruence.
Qed.
Lemma loop_spec c opi g n : forall j m k tb m', nth_error (m_store m) c = Some k -> c_goal k = g -> table_of k opi = Some tb -> wf tb -> tables_shaped m ->
  List.length (skipn j (entries tb)) <= n -> Loop n j m now prio layer c opi = Ok m' ->
  LinksUsed c opi g j (skipn j (entries tb)) m m' /\ fr m m' /\ (exists k', nth_error (m_store m') c = Some k' /\ c_goal k' = g).
Proof.
  induction n as [|n IH]; intros j m k tb m' N G TB W TS LE; cbn [subgoal_loop].
  - intros H. apply okJ in H; subst m'. destruct (skipn j (entries tb)) eqn:E; [|cbn in LE; lia]. split; [constructor|]. split; [apply fr_refl|]. eauto.
  - rewrite (readn _ _ _ N). cbn [rbind].
    assert (LO : links_of k opi = Ok tb) by (destruct opi; cbn in *; [unfold pre_at; rewrite TB; reflexivity|congruence]). rewrite LO. cbn [rbind].
    destruct (Nat.ltb_spec j (t_items tb)) as [J|J].
    2:{ intros H. apply okJ in H; subst m'. rewrite skipn_all2 by (rewrite (entries_length tb W); lia). split; [constructor|]. split; [apply fr_refl|]. eauto. }
    destruct (slot_entry tb j W J) as [S1 S2]. rewrite S2 in LE |- *. cbn [List.length] in LE.
    destruct (ImplicationValid m (slot tb j)) as [v| |] eqn:IV; cbn [rbind]; try discriminate. apply valid_current in IV. destruct v; cbn [negb].
    + destruct (Subgoal m now prio layer c (slot tb j)) as [m1| |] eqn:SG; cbn [rbind]; try discriminate. destruct (link_spec _ _ _ _ _ N SG) as (LU & q & Q). intros H.
      replace (j + 1) with (S j) in H by lia. rewrite G in LU. rewrite Q in *.
      destruct (IH (S j) (set_goals m q) k tb m' N G TB W TS ltac:(lia) H) as (X1 & X2 & X3).
      split; [eapply lu_used; [apply IV; reflexivity|exact LU|exact X1]|]. split; [eapply fr_trans; [apply fr_goals|exact X2]|exact X3].
    + destruct (cmod m c _) as [m1| |] eqn:CM; cbn [rbind]; try discriminate. unfold cmod in CM. rewrite (readn _ _ _ N) in CM. cbn [rbind] in CM. apply okJ in CM. intros H.
      destruct (remove_spec tb j W J) as (W' & EN & _). set (k1 := set_links k opi (Table_Remove tb j)) in *.
      assert (K1 : k1 = with_table k opi (Table_Remove tb j)) by (unfold k1; destruct opi; reflexivity).
      assert (N1 : nth_error (m_store m1) c = Some k1) by (subst m1; cbn [m_store set_store]; apply upd_same; apply nth_error_Some; congruence).
      assert (SH : List.length (c_pre k) = 11 /\ Forall table_shape (c_pre k) /\ table_shape (c_links k)) by (eapply Forall_forall in TS; [exact TS|]; eapply nth_error_In; exact N).
      assert (F1 : fr m m1).
      { subst m1. eapply fr_upd; [exact N|destruct opi; reflexivity|]. intros (Z1 & Z2 & Z3). unfold k1. destruct opi as [o|]; cbn [set_links c_pre c_links with_pre with_links]; [|auto].
        rewrite upd_len. split; auto. split; auto. apply Forall_updI; auto. }
      assert (SK : skipn j (entries (Table_Remove tb j)) = skipn (S j) (entries tb)).
      { rewrite EN. rewrite skipn_app. assert (L1 : List.length (firstn j (entries tb)) = j) by (rewrite firstn_length, (entries_length tb W); lia).
        rewrite L1, Nat.sub_diag, skipn_all2 by lia. reflexivity. }
      destruct (IH j m1 k1 (Table_Remove tb j) m' N1) as (X1 & X2 & X3); auto.
      * unfold k1. destruct opi; exact G.
      * rewrite K1. eapply get_set; eauto.
      * apply F1; auto.
      * rewrite SK. lia.
      * rewrite SK in X1. split; [|split; [eapply fr_trans; eauto|exact X3]].
        eapply lu_outdated; [intros Q; apply IV in Q; discriminate Q| |exact X1]. exists k, tb, (Table_Remove tb j). split; [exact N|]. split; [exact TB|]. split; [exact EN|]. rewrite <- K1. symmetry. exact CM.
Qed.
Lemma tables_spec c g L : forall m k m', nth_error (m_store m) c = Some k -> c_goal k = g -> tables_shaped m ->
  foldM (fun m opi => Loop (2 * TABLE_SIZE) 0 m now prio layer c opi) L m = Ok m' -> TablesUsed c g L m m' /\ fr m m'.
Proof.
  induction L as [|opi L IH]; intros m k m' N G TS; cbn [foldM]; [intros H; apply okJ in H; subst; split; [constructor|apply fr_refl]|].
  destruct (Loop _ _ _ _ _ _ _ _) as [m1| |] eqn:E; cbn [rbind]; try discriminate. intros H.
  assert (SH : List.length (c_pre k) = 11 /\ Forall table_shape (c_pre k) /\ table_shape (c_links k)) by (pose proof TS as TS'; eapply Forall_forall in TS'; [exact TS'|]; eapply nth_error_In; exact N).
  assert (TB : exists tb, table_of k opi = Some tb /\ wf tb).
  { destruct opi as [o|]; cbn [table_of]; [|exists (c_links k); split; auto; apply SH]. destruct (nth_error (c_pre k) o) as [tb|] eqn:Q.
    - exists tb. split; auto. destruct SH as (_ & SH & _). rewrite Forall_forall in SH. apply SH. eapply nth_error_In; eauto.
    - exfalso. change (2 * TABLE_SIZE) with (S 39) in E. revert E. generalize 39. intros n39 E. cbn [subgoal_loop] in E. rewrite (readn _ _ _ N) in E. cbn [rbind links_of] in E. unfold pre_at in E. rewrite Q in E. discriminate E. }
  destruct TB as (tb & TB & W). destruct (loop_spec c opi g (2 * TABLE_SIZE) 0 m k tb m1 N G TB W TS) as (X1 & X2 & k1 & X3 & X4); auto.
  { cbn [skipn]. rewrite (entries_length tb W). destruct W. lia. }
  destruct (IH m1 k1 m' X3 X4 (proj2 (proj2 (proj2 X2)) TS) H) as (Y1 & Y2). cbn [skipn] in X1. split; [|eapply fr_trans; eauto]. econstructor; eauto.
Qed.
Variable goal : event.
Notation WantedAt := (wanted_at nm av simdist pd pen layers fuel now prio layer goal).
Notation WantedAll := (wanted_at_all nm av simdist pd pen layers fuel now prio layer goal).
Notation Body := (subgoal_body nm av simdist pd pen layers fuel goal now prio layer).
Lemma body_spec m a c m' a' stop : tables_shaped m -> Body m a c = Ok (m', a', stop) -> stop = false /\ WantedAt c m m' /\ fr m m'.
Proof.
  intros TS. unfold subgoal_body. destruct (cread m c) as [k| |] eqn:R; cbn [rbind]; try discriminate. apply nread in R.
  destruct (Unify nm av simdist (c_term k) (e_term goal)) as [subs| |] eqn:U; cbn [rbind]; try discriminate. destruct (s_success subs) eqn:SU; cbn [negb].
  2:{ intros H. apply okJ in H. injection H as <- _ <-. split; auto. split; [|apply fr_refl]. exists k. split; auto. left. split; auto. intros (s2 & A & B). congruence. }
  destruct (RevisionAndChoice nm pd (c_goal k) goal) as [[g mg]| |] eqn:RC; cbn [rbind]; try discriminate. unfold cmod. rewrite (readn _ _ _ R). cbn [rbind fst].
  destruct (foldM _ _ _) as [m2| |] eqn:F; cbn [rbind]; try discriminate. intros H. apply okJ in H. injection H as <- _ <-. split; auto.
  assert (F1 : fr m (set_store m (upd (m_store m) c (with_goal k g)))) by (eapply fr_upd; [exact R|reflexivity|auto]).
  assert (LC : c < List.length (m_store m)) by (apply nth_error_Some; congruence).
  assert (N1 : nth_error (m_store (set_store m (upd (m_store m) c (with_goal k g)))) c = Some (with_goal k g)) by exact (upd_same (m_store m) c (with_goal k g) LC).
  pose proof (tables_spec c g _ _ (with_goal k g) m2 N1 eq_refl (proj2 (proj2 (proj2 F1)) TS) F) as (X1 & X2).
  split; [|eapply fr_trans; eauto]. exists k. split; auto. right. split; [exists subs; auto|]. exists g, mg. split; auto.
Qed.
(** *** visiting *)
Variable pid : Z.
Definition V (m : memory) (c : nat) : Prop := nth_error (map pid1 (m_store m)) c = Some pid.
Definition vis (m m' : memory) (S : nat -> Prop) : Prop :=
  m_table m' = m_table m /\ m_index m' = m_index m /\ tables_shaped m' /\
  exists l, WantedAll l m m' /\ NoDup l /\ (forall x, In x l -> ~ V m x) /\ (forall x, V m' x <-> V m x \/ In x l) /\ (forall x, In x l -> S x) /\ (forall x, S x -> V m' x).
Lemma all_app l1 l2 m m1 m2 : WantedAll l1 m m1 -> WantedAll l2 m1 m2 -> WantedAll (l1 ++ l2) m m2.
Proof. induction 1; intros H2; cbn; auto. econstructor; eauto. Qed.
Lemma vis_nil m : tables_shaped m -> vis m m (fun _ => False).
Proof. intros T. split; auto. split; auto. split; auto. exists []. split; [constructor|]. split; [constructor|]. split; [intros x []|]. split; [intros x; cbn; tauto|]. split; [intros x []|intros x []]. Qed.
Lemma vis_ext m m' (S S' : nat -> Prop) : (forall x, S x <-> S' x) -> vis m m' S -> vis m m' S'.
Proof. intros E (A & B & C & l & D1 & D2 & D3 & D4 & D5 & D6). split; auto. split; auto. split; auto. exists l. repeat split; auto; try (apply D4); intros; [apply E; auto|apply D6, E; auto]. Qed.
Lemma nodup_app {A} (l1 l2 : list A) : NoDup l1 -> NoDup l2 -> (forall x, In x l1 -> ~ In x l2) -> NoDup (l1 ++ l2).
Proof. intros N1 N2. induction N1 as [|x l H N1 IH]; intros D; cbn; auto. constructor; [rewrite in_app_iff; intros [X|X]; [auto|apply (D x); cbn; auto]|]. apply IH. intros y Y. apply D. cbn. auto. Qed.
Lemma vis_trans m m1 m2 S1 S2 : vis m m1 S1 -> vis m1 m2 S2 -> vis m m2 (fun x => S1 x \/ S2 x).
Proof.
  intros (A1 & B1 & C1 & l1 & D1 & D2 & D3 & D4 & D5 & D6) (A2 & B2 & C2 & l2 & E1 & E2 & E3 & E4 & E5 & E6). split; [congruence|]. split; [congruence|]. split; auto. exists (l1 ++ l2).
  split; [eapply all_app; eauto|]. split; [apply nodup_app; auto; intros x X Y; apply (E3 x Y), D4; auto|]. split.
  { intros x X. apply in_app_or in X as [X|X]; auto. intros Y. apply (E3 x X), D4; auto. }
  split; [intros x; rewrite E4, D4, in_app_iff; tauto|]. split; [intros x X; apply in_app_or in X as [X|X]; auto|]. intros x [X|X]; auto. apply E4. left. auto.
Qed.
Lemma visit_spec m a c m' a' stop : tables_shaped m -> visit pid Body m a (Some c) = Ok (m', a', stop) -> stop = false /\ vis m m' (fun x => x = c).
Proof.
  intros TS. unfold visit. destruct (cread m c) as [k| |] eqn:R; cbn [rbind]; try discriminate. apply nread in R. destruct (Z.eqb_spec (pid1 k) pid) as [E|E].
  - intros H. apply okJ in H. injection H as <- _ <-. split; auto. assert (VC : V m c) by (unfold V; rewrite nth_error_map, R; cbn; congruence).
    destruct (vis_nil m TS) as (A & B & C & l & D1 & D2 & D3 & D4 & D5 & D6). split; auto. split; auto. split; auto. exists l. repeat split; auto; try apply D4; [intros x X; destruct (D5 x X)|intros x ->; auto].
  - unfold cmod. rewrite (readn _ _ _ R). cbn [rbind]. set (m1 := set_store m (upd (m_store m) c (with_pid1 k pid))). intros H.
    assert (LC : c < List.length (m_store m)) by (apply nth_error_Some; congruence).
    assert (TS1 : tables_shaped m1). { unfold tables_shaped, m1. cbn [m_store set_store]. apply Forall_updI; auto. unfold tables_shaped in TS. rewrite Forall_forall in TS. apply (TS k). eapply nth_error_In; eauto. }
    apply body_spec in H as (-> & WA & (F1 & F2 & F3 & F4)); auto. split; auto. split; [exact F1|]. split; [exact F2|]. split; auto.
    assert (MK : same_but_marks m m1).
    { exists (upd (m_store m) c (with_pid1 k pid)). split; auto. clear -R. revert c R. generalize (m_store m). induction l as [|x l IH]; intros [|c] R; cbn in *; try discriminate.
      - constructor; [injection R as ->; eexists; reflexivity|]. clear. induction l as [|y l IH]; constructor; auto. exists (c_pids y). destruct y; reflexivity.
      - constructor; auto. exists (c_pids x). destruct x; reflexivity. }
    assert (V1 : forall x, V m1 x <-> V m x \/ x = c).
    { intros x. unfold V, m1. cbn [m_store set_store]. rewrite !nth_error_map. destruct (Nat.eq_dec c x) as [<-|Q]; [rewrite upd_same by auto; cbn; tauto|]. rewrite upd_other by auto. split; [tauto|]. intros [X| ->]; [auto|congruence]. }
    assert (V2 : forall x, V m' x <-> V m1 x) by (intros x; unfold V; rewrite F3; tauto).
    exists [c]. split; [econstructor; [exact MK|exact WA|constructor]|]. split; [constructor; [intros []|constructor]|]. split.
    { intros x [<-|[]]. unfold V. rewrite nth_error_map, R. cbn. congruence. }
    split; [intros x; rewrite V2, V1; cbn; intuition|]. split; [intros x [<-|[]]; auto|]. intros x ->. apply V2, V1. auto.
Qed.
Lemma visit_opt m a c m' a' stop : tables_shaped m -> visit pid Body m a c = Ok (m', a', stop) -> stop = false /\ vis m m' (fun x => c = Some x).
Proof.
  intros TS. destruct c as [c|].
  - intros H. apply visit_spec in H as (-> & X); auto. split; auto. eapply vis_ext; [|exact X]. intros x. split; congruence.
  - cbn [visit]. intros H. apply okJ in H. injection H as <- _ <-. split; auto. eapply vis_ext; [|apply vis_nil; auto]. intros x. split; [tauto|discriminate].
Qed.
Lemma chain_spec n : forall m a p m' a' stop, tables_shaped m -> chain_loop pid Body n m a p = Ok (m', a', stop) -> stop = false /\ vis m m' (in_chain (m_index m) p).
Proof.
  induction n as [|n IH]; intros m a p m' a' stop TS; destruct p as [p|]; cbn [chain_loop]; try discriminate;
    try (intros H; apply okJ in H; injection H as <- _ <-; split; auto; eapply vis_ext; [|apply vis_nil; auto]; intros x; split; [tauto|intros X; inversion X]).
  destruct (el_deref (m_index m) p) as [el| |] eqn:D; cbn [rbind]; try discriminate. destruct (visit _ _ _ _ _) as [[[m1 a1] st]| |] eqn:E; cbn [rbind]; try discriminate.
  apply visit_opt in E as (-> & X1); auto. intros H. pose proof X1 as (_ & IX & TS1 & _). apply IH in H as (-> & X2); auto. split; auto. rewrite IX in X2.
  eapply vis_ext; [|eapply vis_trans; [exact X1|exact X2]]. intros x. cbn. split.
  - intros [Q|Q]; [eapply ic_here; eauto|eapply ic_next; eauto].
  - intros Q. inversion Q as [p0 el0 c0 D0 C0|p0 el0 c0 D0 C0]; subst; assert (el0 = el) by congruence; subst; auto.
Qed.
Lemma find_table m m' t : m_table m' = m_table m -> FindConceptByTerm m' t = FindConceptByTerm m t.
Proof. intros E. Transparent FindConceptByTerm. unfold FindConceptByTerm. rewrite E. reflexivity. Opaque FindConceptByTerm. Qed.
Lemma foreach_spec n t L : forall m a m' a', tables_shaped m -> foreach_loop pid Body n t L m a = Ok (m', a') ->
  vis m m' (fun x => (L <> [] /\ own m t x) \/ exists y p, In y L /\ GetConceptChain (m_index m) y = Ok p /\ in_chain (m_index m) p x).
Proof.
  induction L as [|y L IH]; intros m a m' a' TS; cbn [foreach_loop].
  - intros H. apply okJ in H. injection H as <- _. eapply vis_ext; [|apply vis_nil; auto]. intros x. cbn. split; [tauto|]. intros [[X _]|(y & p & [] & _)]. congruence.
  - destruct (FindConceptByTerm m t) as [own1| |] eqn:FO; cbn [rbind]; try discriminate. destruct (GetConceptChain (m_index m) y) as [ch| |] eqn:GC; cbn [rbind]; try discriminate.
    destruct (visit _ _ _ _ _) as [[[m1 a1] st]| |] eqn:E; cbn [rbind]; try discriminate. apply visit_opt in E as (-> & X1); auto. pose proof X1 as (TB1 & IX1 & TS1 & _).
    destruct (chain_loop _ _ _ _ _ _) as [[[m2 a2] st]| |] eqn:E2; cbn [rbind]; try discriminate. apply chain_spec in E2 as (-> & X2); auto. pose proof X2 as (TB2 & IX2 & TS2 & _). rewrite IX1 in X2.
    intros H. apply IH in H; auto. eapply vis_ext; [|eapply vis_trans; [eapply vis_trans; [exact X1|exact X2]|exact H]]. intros x. cbn. rewrite IX2, IX1. unfold own. rewrite (find_table m m2) by congruence. rewrite FO. split.
    + intros [[Q|Q]|[[_ Q]|(y0 & p & Q1 & Q2 & Q3)]].
      * left. split; [discriminate|congruence].
      * right. exists y, ch. auto.
      * left. split; [discriminate|auto].
      * right. exists y0, p. auto.
    + intros [[_ Q]|(y0 & p & [<-|Q1] & Q2 & Q3)].
      * left; left. congruence.
      * left; right. assert (p = ch) by congruence. subst; auto.
      * right; right. exists y0, p. auto.
Qed.
Lemma related_spec n m m' a a' : tables_shaped m -> (forall k, In k (m_store m) -> (pid1 k < pid)%Z) ->
  related_foreach pid Body n m (e_term goal) a = Ok (m', a') -> exists l, NoDup l /\ (forall c, In c l <-> related m (e_term goal) c) /\ WantedAll l m m'.
Proof.
  intros TS FP H. unfold related_foreach in H. apply foreach_spec in H as (_ & _ & _ & l & D1 & D2 & D3 & D4 & D5 & D6); auto. exists l. split; auto. split; auto.
  intros c. assert (RI : related m (e_term goal) c <-> (map (at_ (e_term goal)) (seq 0 UNIFICATION_DEPTH) <> [] /\ own m (e_term goal) c) \/ exists y p, In y (map (at_ (e_term goal)) (seq 0 UNIFICATION_DEPTH)) /\ GetConceptChain (m_index m) y = Ok p /\ in_chain (m_index m) p c).
  { unfold related. split.
    - intros [O|(i & p & A & B & C)]; [left; split; [discriminate|auto]|]. right. exists (at_ (e_term goal) i), p. split; auto. apply in_map, in_seq. lia.
    - intros [[_ O]|(y & p & A & B & C)]; [left; auto|]. right. apply in_map_iff in A as (i & <- & A). apply in_seq in A. exists i, p. split; [lia|auto]. }
  rewrite RI. split; [apply D5|]. intros X. apply D6, D4 in X as [X|X]; auto. exfalso. unfold V in X. rewrite nth_error_map in X. destruct (nth_error (m_store m) c) as [k|] eqn:E; cbn in X; [|discriminate].
  specialize (FP k (nth_error_In _ _ E)). injection X as X. lia.
Qed.
End G.
