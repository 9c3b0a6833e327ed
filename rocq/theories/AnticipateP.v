(** Proofs for C55. *)
From Coq Require Import ZArith List Bool Lia Reals Lra.
From Flocq Require Import Core IEEE754.BinarySingleNaN.
From Verif Require Import Base F64 TruthM TruthS TruthP TruthP2 StampM TermM TermP NamesM EventM InferenceM TableM TableS TableP VariableM MemoryM QuestionM DecisionM DecisionS DecisionP WeakenP AnticipateS.
From Verif Require PQueueM HashTableM.
Local Open Scope nat_scope.
Import ListNotations.

(** ** the table *)
Lemma merged_good' old x : good_imp old -> valid (i_truth x) -> good_imp (merged old x).
Proof.
  intros (S1 & V1 & P1) V2. unfold good_imp, merged. cbn [i_source i_truth].
  destruct (revision_ok _ _ V1 V2 (or_introl P1)) as (V & C & _). split; auto. split; auto. lra.
Qed.
Lemma add_revise_merge t x : tinv t -> valid (i_truth x) -> (exists e, In e (entries t) /\ i_term e = i_term x) ->
  exists t' l1 old l2 m1 m2, Table_AddAndRevise t x = Ok (t', Some (length m1)) /\ tinv t' /\ entries t = l1 ++ old :: l2 /\ i_term old = i_term x /\
      m1 ++ m2 = l1 ++ l2 /\ entries t' = m1 ++ merged old x :: m2.
Proof.
  intros I VX (e0 & IE & TE). pose proof I as [W G]. unfold Table_AddAndRevise. pose proof (entries_length _ W) as EL.
  destruct (find_same_spec t x (t_items t) 0) as [FS FN].
  destruct (find_same t x 0 (t_items t)) as [k|].
  2: { exfalso. apply In_nth_error in IE as [k K]. assert (Hk : k < t_items t). { rewrite <- EL. apply nth_error_Some; congruence. }
       rewrite slot_entry in K by auto. apply (FN eq_refl k); [lia|congruence]. }
  destruct (FS k eq_refl) as (K1 & K2 & K3). clear FS FN.
  assert (GO : good_imp (slot t k)).
  { unfold all_good in G. rewrite Forall_forall in G. apply G. eapply nth_error_In. apply slot_entry; eauto; lia. }
  pose proof GO as (_ & VO & _).
  rewrite (bounds_ok _ VO), (bounds_ok _ VX). cbn [rassert rbind].
  pose proof (merged_good' _ _ GO VX) as GM. pose proof GM as (_ & VM & _).
  change (i_truth (ImplicationRevision (slot t k) x)) with (i_truth (merged (slot t k) x)).
  rewrite (bounds_ok _ VM). cbn [rassert rbind].
  change (mkImp (i_term x) _ _ _ _ _ _) with (merged (slot t k) x).
  destruct (remove_spec t k W ltac:(lia)) as (W1 & E1 & I1).
  assert (IV : tinv (Table_Remove t k)).
  { split; auto. unfold all_good. rewrite E1. apply Forall_app. split; [apply Forall_firstn; auto|apply Forall_skipn; auto]. }
  destruct (add_full _ (merged (slot t k) x) IV GM) as (t' & r & -> & IV' & R). cbn [rbind snd].
  assert (E2 : entries t = firstn k (entries t) ++ slot t k :: skipn (S k) (entries t)).
  { rewrite <- (firstn_skipn k (entries t)) at 1. f_equal. pose proof (slot_entry t k W ltac:(lia)) as Sl.
    rewrite <- (firstn_skipn k (entries t)) in Sl. rewrite nth_error_app2 in Sl by (rewrite firstn_length; lia).
    rewrite firstn_length in Sl. replace (k - Nat.min k (length (entries t))) with 0 in Sl by lia.
    assert (S2 : forall l : list implication, skipn (S k) l = tl (skipn k l)).
    { clear. induction k as [|k IH]; intros [|a l]; cbn; auto. rewrite <- IH. destruct l; auto. }
    rewrite S2. destruct (skipn k (entries t)); cbn in Sl |- *; congruence. }
  destruct r as [j|].
  - destruct R as (m1 & m2 & M1 & M2 & M3 & M4 & M5 & M6). cbn [rassert rbind].
    exists t', (firstn k (entries t)), (slot t k), (skipn (S k) (entries t)), m1, m2. rewrite M2. split; auto. split; auto. split; auto. split; auto. split; [congruence|].
    rewrite M3. apply firstn_all2. rewrite app_length. cbn [length].
    assert (length m1 + length m2 = t_items t - 1) by (rewrite <- app_length, <- M1, (entries_length _ W1); auto). destruct W as [_ W20]; unfold TABLE_SIZE in W20; lia.
  - destruct R as (_ & Q & _). exfalso. rewrite (entries_length _ W1), I1 in Q. destruct W as [_ W]. unfold TABLE_SIZE in W. lia.
Qed.
Lemma upd_app {A} (l1 : list A) a b l2 : upd (l1 ++ a :: l2) (length l1) b = l1 ++ b :: l2.
Proof. induction l1 as [|x l1 IH]; cbn [app length upd]; [reflexivity|]. rewrite IH. reflexivity. Qed.
Lemma firstn_upd {A} n (l : list A) i x : firstn n (upd l i x) = upd (firstn n l) i x.
Proof. revert n i; induction l as [|a l IH]; intros [|n] [|i]; cbn [firstn upd]; auto. rewrite IH. reflexivity. Qed.

Section Neg.
Variable powdecay : Z -> f64.
Variable ca : f64.
Hypothesis PD : forall d, (0 <= d)%Z -> u01 (powdecay d).
Hypothesis CA : rg 0 maxc ca.
Definition neg_truth (v : truth64) (offset : f64) : truth64 :=
  Truth_Eternalize f64A (Truth_Induction f64A (@mkTruth f64A f0 ca) (Truth_Projection f64A powdecay v 0 (Btrunc (@Bnearbyint 53 1024 prec_lt_emax_53 mode_NA offset)))).
Lemma neg_against v off : valid v -> against (neg_truth v off).
Proof.
  intros V. unfold neg_truth. set (p := Truth_Projection _ _ _ _ _). destruct (projection_ok powdecay v 0 (Btrunc (@Bnearbyint 53 1024 prec_lt_emax_53 mode_NA off)) PD V) as (VP & _). fold p in VP.
  assert (VN : valid (@mkTruth f64A f0 ca)) by (split; [exact const_u01_0|exact CA]).
  destruct (tfun_ok TInduction _ _ VN VP) as (VI1 & VI2 & _). cbn [apply_tfun] in VI1, VI2.
  destruct (eternalize_ok (Truth_Induction f64A (@mkTruth f64A f0 ca) p) (conj VI1 VI2)) as (VE & FE & _). split; [exact VE|]. rewrite FE. apply v_f0.
Qed.
Lemma confirmation_step t pe imp : tinv t -> valid (e_truth pe) -> i_source imp <> None -> (exists e, In e (entries t) /\ i_term e = i_term imp) ->
  exists t' l1 old l2 m1 m2 new, AddNegativeConfirmation powdecay ca t pe imp = Ok t' /\ tinv t' /\ entries t = l1 ++ old :: l2 /\ i_term old = i_term imp /\
      m1 ++ m2 = l1 ++ l2 /\ entries t' = m1 ++ new :: m2 /\ i_term new = i_term old /\ i_source new = i_source imp /\ i_sourceId new = i_sourceId imp /\
      i_truth new = Truth_Revision f64A (i_truth old) (neg_truth (e_truth pe) (i_offset imp)).
Proof.
  intros I V S X. unfold AddNegativeConfirmation. set (neg := negative_confirmation powdecay ca pe imp).
  assert (TN : i_truth neg = neg_truth (e_truth pe) (i_offset imp)) by reflexivity.
  destruct (neg_against (e_truth pe) (i_offset imp) V) as (VN & ZN). rewrite <- TN in VN.
  pose proof VN as [_ CN]. rewrite (in_unit_ok _ (conf_u01 _ CN)). cbn [rassert rbind].
  destruct (add_revise_merge t neg I VN X) as (t1 & l1 & old & l2 & m1 & m2 & E & I1 & E1 & T1 & E2 & E3). rewrite E. cbn [rbind].
  set (new := mkImp _ _ _ _ _ _ _). exists (set_slot t1 (length m1) new), l1, old, l2, m1, m2, new. split; [reflexivity|].
  assert (ES : entries (set_slot t1 (length m1) new) = m1 ++ new :: m2).
  { unfold entries, set_slot. cbn [t_items t_array]. rewrite firstn_upd. fold (entries t1). rewrite E3. apply upd_app. }
  assert (SL : slot t1 (length m1) = merged old neg).
  { destruct I1 as [W1 _]. assert (L : length m1 < t_items t1) by (rewrite <- (entries_length _ W1), E3, app_length; cbn; lia).
    pose proof (slot_entry t1 _ W1 L) as Q. rewrite E3, nth_error_app2, Nat.sub_diag in Q by lia. cbn in Q. congruence. }
  assert (GN : good_imp new).
  { destruct I1 as [_ G1]. unfold all_good in G1. rewrite Forall_forall in G1. destruct (G1 (merged old neg)) as (_ & A & B); [rewrite E3; apply in_or_app; right; left; reflexivity|].
    unfold new. rewrite SL. split; [exact S|]. split; [exact A|exact B]. }
  split.
  { split.
    - destruct I1 as [[A B] _]. split; cbn [set_slot t_array t_items]; [rewrite upd_length; exact A|exact B].
    - unfold all_good. rewrite ES. destruct I1 as [_ G1]. unfold all_good in G1. rewrite E3 in G1. apply Forall_app in G1 as (G2 & G3). inversion G3; subst. apply Forall_app. split; auto. }
  split; [exact E1|]. split; [exact T1|]. split; [exact E2|]. split; [exact ES|]. unfold new. rewrite SL. cbn [i_term i_source i_sourceId i_truth merged]. rewrite TN.
  split; [symmetry; exact T1|]. auto.
Qed.
End Neg.

(** ** memory steps *)
Definition later (m m' : memory) : Prop :=
  (m_nextid m <= m_nextid m')%Z /\
  (forall d k', nth_error (m_store m') d = Some k' -> exists k, nth_error (m_store m) d = Some k /\ (c_id k' = c_id k \/ (m_nextid m <= c_id k')%Z)) /\
  (ids_below m -> ids_below m').
Lemma later_refl m : later m m.
Proof. split; [lia|]. split; auto. intros d k H. exists k. auto. Qed.
Lemma later_trans a b c : later a b -> later b c -> later a c.
Proof.
  intros (A1 & A2 & A3) (B1 & B2 & B3). split; [lia|]. split; auto. intros d k H. destruct (B2 d k H) as (k1 & H1 & D). destruct (A2 d k1 H1) as (k2 & H2 & D2).
  exists k2. split; auto. destruct D as [->|D]; [auto|right; lia].
Qed.

(** concepts keep rules and current event, or are new *)
Definition quiet (m m' : memory) : Prop :=
  (m_nextid m <= m_nextid m')%Z /\
  (forall d k', nth_error (m_store m') d = Some k' -> exists k, nth_error (m_store m) d = Some k /\
     ((c_id k' = c_id k /\ c_pre k' = c_pre k /\ c_spike k' = c_spike k) \/
      ((m_nextid m <= c_id k' < m_nextid m')%Z /\ c_pre k' = repeat table0 11 /\ c_spike k' = event0))).
Lemma quiet_refl m : quiet m m.
Proof. split; [lia|]. intros d k H. exists k. auto. Qed.
Lemma quiet_trans a b c : quiet a b -> quiet b c -> quiet a c.
Proof.
  intros (A1 & A2) (B1 & B2). split; [lia|]. intros d k H. destruct (B2 d k H) as (k1 & H1 & D). destruct (A2 d k1 H1) as (k2 & H2 & D2).
  exists k2. split; auto. destruct D as [(D3 & D4 & D5)|(D3 & D4 & D5)].
  - destruct D2 as [(E1 & E2 & E3)|(E1 & E2 & E3)]; [left; repeat split; congruence|right]. rewrite D3, D4, D5. repeat split; auto; lia.
  - right. repeat split; auto; lia.
Qed.
Lemma ids_at m d k : ids_below m -> nth_error (m_store m) d = Some k -> (c_id k < m_nextid m)%Z.
Proof. unfold ids_below. rewrite Forall_forall. intros H E. apply H. eapply nth_error_In; eauto. Qed.
Lemma quiet_later m m' : quiet m m' -> later m m'.
Proof.
  intros (A & B). split; auto. split.
  - intros d k H. destruct (B d k H) as (k1 & H1 & [(D & _)|(D & _)]); exists k1; split; auto; right; lia.
  - intros I. unfold ids_below. rewrite Forall_forall. intros k H. apply In_nth_error in H as [d H]. destruct (B d k H) as (k1 & H1 & [(D & _)|(D & _)]); [|lia].
    pose proof (ids_at _ _ _ I H1). lia.
Qed.
Lemma store_upd m c f k : nth_error (m_store m) c = Some k -> forall d k', nth_error (upd (m_store m) c f) d = Some k' ->
  (d = c /\ k' = f) \/ (d <> c /\ nth_error (m_store m) d = Some k').
Proof.
  intros K d k' H. rewrite nth_error_upd in H. assert (L : c < length (m_store m)) by (apply nth_error_Some; congruence).
  destruct (Nat.eqb_spec d c) as [->|N]; cbn [andb] in H; [left|right; auto]. destruct (Nat.ltb_spec c (length (m_store m))); [|lia]. split; auto; congruence.
Qed.
Lemma cmod_inv m c f m' : cmod m c f = Ok m' -> exists k, nth_error (m_store m) c = Some k /\ m' = set_store m (upd (m_store m) c (f k)).
Proof. unfold cmod, cread. destruct (nth_error (m_store m) c) as [k|]; cbn [rbind]; [|discriminate]. intros H. injection H as <-. eauto. Qed.
Lemma cmod_quiet m c f m' : (forall k, c_id (f k) = c_id k /\ c_pre (f k) = c_pre k /\ c_spike (f k) = c_spike k) -> cmod m c f = Ok m' -> quiet m m'.
Proof.
  intros F H. apply cmod_inv in H as (k & K & ->). split; [cbn; lia|]. cbn [set_store m_store m_nextid]. intros d k' H. destruct (store_upd m c (f k) k K d k' H) as [(-> & ->)|(N & H')].
  - exists k. split; auto.
  - exists k'. auto.
Qed.
Lemma cmod_later m c f m' : (forall k, c_id (f k) = c_id k) -> cmod m c f = Ok m' -> later m m'.
Proof.
  intros F H. apply cmod_inv in H as (k & K & ->). split; [cbn; lia|]. cbn [set_store m_store m_nextid]. split.
  - intros d k' H. destruct (store_upd m c (f k) k K d k' H) as [(-> & ->)|(N & H')]; [exists k|exists k']; split; auto.
  - intros I. unfold ids_below. cbn [m_store m_nextid set_store]. rewrite Forall_forall. intros k' H. apply In_nth_error in H as [d H].
    destruct (store_upd m c (f k) k K d k' H) as [(-> & ->)|(N & H')]; [rewrite F|]; eapply ids_at; eauto.
Qed.
Lemma conceptualize_quiet nm m t now m' c : Conceptualize nm m t now = Ok (m', c) -> quiet m m'.
Proof.
  unfold Conceptualize. destruct (FindConceptByTerm m t) as [[f|]| |]; cbn [rbind]; try discriminate; [intros H; injection H as <- _; apply quiet_refl|].
  destruct (PQueueM.push num_ltb num0 (m_concepts m) num1) as [q fb]. destruct (PQueueM.added fb) as [it|]; [|intros H; injection H as <- _; apply quiet_refl].
  unfold cread. destruct (nth_error (m_store m) (PQueueM.address it)) as [old|] eqn:O; cbn [rbind]; [|discriminate].
  match goal with |- rbind ?r _ = _ -> _ => destruct r as [hx| |]; cbn [rbind]; [|discriminate|discriminate] end.
  match goal with |- rbind ?r _ = _ -> _ => destruct r as [x| |]; cbn [rbind]; [|discriminate|discriminate] end.
  match goal with |- rbind ?r _ = _ -> _ => destruct r as [h| |]; cbn [rbind]; [|discriminate|discriminate] end.
  intros H. injection H as <- _. split; [cbn; lia|]. cbn [m_store m_nextid]. intros d k' H.
  destruct (store_upd m _ _ old O d k' H) as [(-> & ->)|(N & H')]; [exists old|exists k'; auto]. split; auto. right. cbn [c_id c_pre c_spike]. split; [lia|]. auto.
Qed.
#[local] Opaque Unify ApplySubstitute Conceptualize RevisionAndChoice BeliefIntersection BeliefDeduction AddNegativeConfirmation Truth_Expectation stamp_check_overlap stamp_equal copulaEquals cmod fltb feqb.
Section Steps.
Variable nm : names.
Variable av : Z -> option (f64 * name).
Variable simdist : f64.
Variable powdecay : Z -> f64.
Variables athr ca : f64.
Hypothesis PD : forall d, (0 <= d)%Z -> u01 (powdecay d).
Hypothesis CA : rg 0 maxc ca.

Ltac inv1 H := match type of H with rbind ?r _ = Ok _ => let Q := fresh "Q" in destruct r eqn:Q; cbn [rbind] in H; [|discriminate H|discriminate H] end.
Ltac inv2 H x y := match type of H with rbind ?r _ = Ok _ => let Q := fresh "Q" in destruct r as [[x y]| |] eqn:Q; cbn [rbind] in H; [|discriminate H|discriminate H] end.
Lemma predict_later m now imp s result m' : predict nm av simdist powdecay m now imp s result = Ok m' -> later m m'.
Proof.
  unfold predict. intros H. inv1 H. inv1 H. destruct (negb (s_success _)); [injection H as <-; apply later_refl|]. inv2 H t ok. destruct (negb ok); [injection H as <-; apply later_refl|].
  inv2 H m1 c. apply conceptualize_quiet, quiet_later in Q2. destruct c as [c|]; [|injection H as <-; exact Q2].
  inv1 H. destruct (stamp_check_overlap _ _); [injection H as <-; exact Q2|]. inv1 H. apply (later_trans _ _ _ Q2).
  apply cmod_later in Q4; [|reflexivity]. apply (later_trans _ _ _ Q4). inv1 H. destruct (copulaEquals nm (at_ (i_term imp) 0) TEMPORAL_IMPLICATION).
  - inv1 H. apply cmod_later in H; auto.
  - destruct (stamp_equal _ _); [injection H as <-; apply later_refl|]. inv1 H. apply cmod_later in H; auto.
Qed.
Lemma predict_quiet m now imp s result m' : copulaEquals nm (at_ (i_term imp) 0) TEMPORAL_IMPLICATION = true ->
  predict nm av simdist powdecay m now imp s result = Ok m' -> quiet m m'.
Proof.
  intros T. unfold predict. intros H. inv1 H. inv1 H. destruct (negb (s_success _)); [injection H as <-; apply quiet_refl|]. inv2 H t ok. destruct (negb ok); [injection H as <-; apply quiet_refl|].
  inv2 H m1 c. apply conceptualize_quiet in Q2. destruct c as [c|]; [|injection H as <-; exact Q2].
  inv1 H. destruct (stamp_check_overlap _ _); [injection H as <-; exact Q2|]. inv1 H. apply (quiet_trans _ _ _ Q2).
  apply cmod_quiet in Q4; [|auto]. apply (quiet_trans _ _ _ Q4). inv1 H. rewrite T in H. inv1 H. apply cmod_quiet in H; auto.
Qed.
Notation step := (anticipate_imp nm av simdist powdecay athr ca).
Lemma step_later o opt now p m imp m' : step o opt now p m imp = Ok m' -> later m m'.
Proof.
  unfold anticipate_imp. destruct (i_source imp) as [s|]; [|discriminate]. intros H. inv1 H. destruct (negb (negb _)); [injection H as <-; apply later_refl|].
  inv1 H. destruct (negb a0); [injection H as <-; apply later_refl|]. inv1 H. inv2 H ok seqop. destruct (negb ok); [injection H as <-; apply later_refl|].
  inv1 H. destruct (negb (anticipates _ _ _ _)); [injection H as <-; apply later_refl|]. inv1 H. apply predict_later in H. apply later_trans with (2 := H).
  destruct (copulaEquals nm (at_ (i_term imp) 0) TEMPORAL_IMPLICATION); [|injection Q4 as <-; apply later_refl].
  inv1 Q4. inv1 Q4. inv1 Q4. apply cmod_later in Q4; auto.
Qed.
Lemma fold_later o opt now p imps : forall m m', foldM (step o opt now p) imps m = Ok m' -> later m m'.
Proof.
  induction imps as [|i imps IH]; intros m m' H; cbn [foldM] in H; [injection H as <-; apply later_refl|]. inv1 H. apply step_later in Q. apply (later_trans _ _ _ Q). auto.
Qed.
Lemma links_later o decl m p m' l : anticipate_links o decl m p = Ok (m', l) -> later m m'.
Proof.
  unfold anticipate_links. intros H. inv1 H. destruct (negb decl).
  - inv1 H. inv1 H. inv1 H. injection H as <- _. apply cmod_later in Q2; auto.
  - destruct (o =? 0); [|injection H as <- _; apply later_refl]. inv1 H. inv1 H. injection H as <- _. apply cmod_later in Q1; auto.
Qed.
Lemma loop_later o opt decl now : forall n j m m', anticipate_loop nm av simdist powdecay athr ca n o opt decl now j m = Ok m' -> later m m'.
Proof.
  induction n as [|n IH]; intros j m m' H; cbn [anticipate_loop] in H; [injection H as <-; apply later_refl|].
  destruct (nth_error (PQueueM.contents (m_concepts m)) j) as [it|]; [|injection H as <-; apply later_refl].
  inv2 H m1 imps. apply links_later in Q. apply (later_trans _ _ _ Q). inv1 H. apply fold_later in Q0. apply (later_trans _ _ _ Q0). apply IH in H. exact H.
Qed.

Definition table_good (t : table) : Prop := tinv t /\ Forall (fun x => copulaEquals nm (at_ (i_term x) 0) TEMPORAL_IMPLICATION = true) (entries t).
Lemma rules_ok_at m d k : rules_ok nm m -> nth_error (m_store m) d = Some k ->
  length (c_pre k) = 11 /\ (forall i t, nth_error (c_pre k) i = Some t -> table_good t) /\ (e_type (c_spike k) <> EVENT_TYPE_DELETED -> valid (e_truth (c_spike k))).
Proof.
  unfold rules_ok. rewrite Forall_forall. intros H E. destruct (H k (nth_error_In _ _ E)) as (A & B & C). split; auto. split; auto.
  intros i t T. rewrite Forall_forall in B. destruct (B t (nth_error_In _ _ T)) as (B1 & B2 & B3). rewrite Forall_forall in B3. split.
  - split; [split; auto|]. unfold all_good. rewrite Forall_forall. intros x X. apply B3; auto.
  - rewrite Forall_forall. intros x X. apply B3; auto.
Qed.
Lemma concept_ok_intro k : length (c_pre k) = 11 -> (forall i t, nth_error (c_pre k) i = Some t -> table_good t) ->
  (e_type (c_spike k) <> EVENT_TYPE_DELETED -> valid (e_truth (c_spike k))) -> concept_rules_ok nm k.
Proof.
  intros A B C. split; auto. split; auto. rewrite Forall_forall. intros t T. apply In_nth_error in T as [i T]. destruct (B i t T) as ((W & G) & F). destruct W. split; auto. split; auto.
  unfold all_good in G. rewrite Forall_forall in *. auto.
Qed.
Lemma table0_good : table_good table0. Proof. split; [apply table0_inv|constructor]. Qed.
Lemma fresh_tables i t : nth_error (repeat table0 11) i = Some t -> t = table0.
Proof. intros H. apply nth_error_In, repeat_spec in H. exact H. Qed.
Lemma quiet_rules_ok m m' : quiet m m' -> rules_ok nm m -> rules_ok nm m'.
Proof.
  intros (_ & Q) R. unfold rules_ok. rewrite Forall_forall. intros k' H. apply In_nth_error in H as [d H]. destruct (Q d k' H) as (k & K & [(A & B & C)|(A & B & C)]).
  - destruct (rules_ok_at m d k R K) as (R1 & R2 & R3). apply concept_ok_intro; rewrite ?B, ?C; auto.
  - apply concept_ok_intro; rewrite ?B, ?C; auto.
    + intros i t T. apply fresh_tables in T. subst. apply table0_good.
    + intros X. exfalso. apply X. reflexivity.
Qed.

Variable o : nat.
Definition related (k0 k : concept) : Prop :=
  c_id k = c_id k0 /\ (forall i, i <> o -> nth_error (c_pre k) i = nth_error (c_pre k0) i) /\ forall y, In y (rules k o) -> exists x, In x (rules k0 o) /\ weakened x y.
Record J (m0 m : memory) : Prop := mkJ {
  j_ok : rules_ok nm m; j_ids : ids_below m; j_next : (m_nextid m0 <= m_nextid m)%Z;
  j_slots : forall d k, nth_error (m_store m) d = Some k ->
    (exists k0, nth_error (m_store m0) d = Some k0 /\ related k0 k) \/ ((m_nextid m0 <= c_id k)%Z /\ no_rules k) }.
Lemma J_refl m : rules_ok nm m -> ids_below m -> J m m.
Proof. intros A B. constructor; auto; [lia|]. intros d k H. left. exists k. split; auto. split; auto. split; auto. intros y Y. exists y. split; auto. constructor. Qed.
Lemma fresh_no_rules k : c_pre k = repeat table0 11 -> no_rules k.
Proof. intros E i. unfold rules. rewrite E. destruct (nth_error (repeat table0 11) i) eqn:Q; auto. apply fresh_tables in Q. subst. reflexivity. Qed.
Lemma rules_eq k k' i : c_pre k' = c_pre k -> rules k' i = rules k i.
Proof. unfold rules. intros ->. reflexivity. Qed.
Lemma J_quiet m0 m m' : J m0 m -> quiet m m' -> J m0 m'.
Proof.
  intros [A B C D] Q. pose proof Q as (Q1 & Q2). constructor.
  - eapply quiet_rules_ok; eauto.
  - apply (quiet_later _ _ Q); auto.
  - lia.
  - intros d k' H. destruct (Q2 d k' H) as (k & K & [(E1 & E2 & E3)|(E1 & E2 & E3)]).
    + destruct (D d k K) as [(k0 & K0 & R1 & R2 & R3)|(R1 & R2)].
      * left. exists k0. split; auto. split; [congruence|]. rewrite E2. split; auto. intros y Y. rewrite (rules_eq k k' o E2) in Y. auto.
      * right. split; [lia|]. intros i. rewrite (rules_eq k k' i E2). auto.
    + right. split; [lia|]. apply fresh_no_rules. auto.
Qed.
(** concepts with rules are still there *)
Definition alive (m0 m : memory) : Prop := forall d k0, nth_error (m_store m0) d = Some k0 -> ~ no_rules k0 -> exists k, nth_error (m_store m) d = Some k /\ c_id k = c_id k0.
Lemma alive_back m0 m m' : ids_below m0 -> (m_nextid m0 <= m_nextid m)%Z -> later m m' -> alive m0 m' -> alive m0 m.
Proof.
  intros I N (_ & L & _) A d k0 K R. destruct (A d k0 K R) as (k' & K' & E). destruct (L d k' K') as (k & H & [Q|Q]).
  - exists k. split; auto. congruence.
  - exfalso. pose proof (ids_at _ _ _ I K). lia.
Qed.
(** replacing table [o] of the concept in slot [p] *)
Lemma J_table m0 m p k t t' m' : J m0 m -> nth_error (m_store m) p = Some k -> nth_error (c_pre k) o = Some t -> table_good t' ->
  (forall y, In y (entries t') -> exists x, In x (entries t) /\ (y = x \/ exists v, against v /\ i_term y = i_term x /\ i_truth y = Truth_Revision f64A (i_truth x) v)) ->
  cmod m p (fun k => with_pre k (upd (c_pre k) o t')) = Ok m' -> J m0 m'.
Proof.
  intros [A B C D] K T G W H. assert (LL : later m m') by (apply cmod_later in H; [exact H|reflexivity]). destruct LL as (L1 & L2 & L3). apply cmod_inv in H as (k1 & K1 & ->). rewrite K in K1. injection K1 as <-.
  assert (LO : o < length (c_pre k)) by (apply nth_error_Some; congruence).
  assert (RO : forall i, nth_error (upd (c_pre k) o t') i = if i =? o then Some t' else nth_error (c_pre k) i).
  { intros i. rewrite nth_error_upd. destruct (Nat.ltb_spec o (length (c_pre k))); [|lia]. rewrite andb_true_r. reflexivity. }
  set (k1 := with_pre k (upd (c_pre k) o t')) in *.
  constructor.
  - unfold rules_ok. rewrite Forall_forall. intros k' H. apply In_nth_error in H as [d H]. cbn [set_store m_store] in H. destruct (store_upd m p k1 k K d k' H) as [(-> & ->)|(N & H')].
    + destruct (rules_ok_at m p k A K) as (R1 & R2 & R3). apply concept_ok_intro; unfold k1; cbn [with_pre c_pre c_spike]; auto.
      * rewrite upd_length. auto.
      * intros i x. rewrite RO. destruct (i =? o); [intros X; injection X as <-; auto|]. intros X. apply R2 in X; auto.
    + destruct (rules_ok_at m d k' A H') as (R1 & R2 & R3). apply concept_ok_intro; auto.
  - auto.
  - cbn [set_store m_nextid] in *. lia.
  - intros d k' H. cbn [set_store m_store] in H. destruct (store_upd m p k1 k K d k' H) as [(-> & ->)|(N & H')]; [|apply D; auto].
    assert (RK : rules k o = entries t) by (unfold rules; rewrite T; reflexivity).
    assert (RK1 : rules k1 o = entries t') by (unfold rules, k1; cbn [with_pre c_pre]; rewrite RO, Nat.eqb_refl; reflexivity).
    destruct (D p k K) as [(k0 & K0 & R1 & R2 & R3)|(R1 & R2)].
    + left. exists k0. split; auto. split; [exact R1|]. split.
      * intros i I. unfold k1. cbn [with_pre c_pre]. rewrite RO. destruct (Nat.eqb_spec i o); [congruence|]. auto.
      * intros y Y. rewrite RK1 in Y. destruct (W y Y) as (x & X & [->|(v & V1 & V2 & V3)]).
        -- apply R3. rewrite RK. exact X.
        -- destruct (R3 x) as (x0 & X0 & WX); [rewrite RK; exact X|]. exists x0. split; auto. eapply weakened_once; eauto.
    + right. split; [exact R1|]. intros i. unfold rules, k1. cbn [with_pre c_pre]. rewrite RO. destruct (Nat.eqb_spec i o) as [->|N].
      * destruct (entries t') as [|y l] eqn:EY; auto. exfalso. destruct (W y (or_introl eq_refl)) as (x & X & _). specialize (R2 o). rewrite RK in R2. rewrite R2 in X. destruct X.
      * apply (R2 i).
Qed.
(** one rule *)
Lemma step_J m0 m opt now p imp m' k : J m0 m -> ids_below m0 -> nth_error (m_store m) p = Some k -> (exists e, In e (rules k o) /\ i_term e = i_term imp) -> i_source imp <> None ->
  step o opt now p m imp = Ok m' -> J m0 m' /\
  forall k', nth_error (m_store m') p = Some k' -> (c_id k' < m_nextid m)%Z -> forall e, In e (rules k o) -> exists e', In e' (rules k' o) /\ i_term e' = i_term e.
Proof.
  intros JM I0 K (e0 & IE & TE) S H.
  assert (KEEP : forall m1, quiet m m1 -> forall k', nth_error (m_store m1) p = Some k' -> (c_id k' < m_nextid m)%Z -> rules k' o = rules k o).
  { intros m1 (_ & Q) k' K' L. destruct (Q p k' K') as (k1 & K1 & [(_ & E & _)|(E & _)]); [|lia]. rewrite K in K1. injection K1 as <-. apply rules_eq. exact E. }
  assert (SAME : forall k', nth_error (m_store m) p = Some k' -> (c_id k' < m_nextid m)%Z -> forall e, In e (rules k o) -> exists e', In e' (rules k' o) /\ i_term e' = i_term e).
  { intros k' K'. rewrite K in K'. injection K' as <-. eauto. }
  pose proof (j_ok _ _ JM) as ROK. destruct (rules_ok_at m p k ROK K) as (R1 & R2 & R3).
  unfold rules in IE. destruct (nth_error (c_pre k) o) as [t|] eqn:T; [|destruct IE]. pose proof (R2 o t T) as (TI & TF).
  assert (TC : copulaEquals nm (at_ (i_term imp) 0) TEMPORAL_IMPLICATION = true) by (rewrite <- TE; rewrite Forall_forall in TF; auto).
  unfold anticipate_imp in H. destruct (i_source imp) as [s|] eqn:IS; [|contradiction]. inv1 H. rename a into prec. unfold cread in Q. destruct (nth_error (m_store m) s) as [prec'|] eqn:PS; [|discriminate Q]. injection Q as ->.
  destruct (e_type (c_spike prec) =? EVENT_TYPE_DELETED)%Z eqn:PR; cbn [negb] in H; [injection H as <-; auto|].
  inv1 H. destruct (negb a); [injection H as <-; auto|]. inv1 H. inv2 H ok seqop. destruct (negb ok); [injection H as <-; auto|].
  inv1 H. destruct (negb (anticipates _ _ _ _)); [injection H as <-; auto|]. rewrite TC in H.
  unfold cread in H at 1. rewrite K in H. cbn [rbind] in H. unfold pre_at in H. rewrite T in H. cbn [rbind] in H.
  assert (VP : valid (e_truth (c_spike prec))) by (apply (rules_ok_at m s prec ROK PS); intros X; rewrite X in PR; discriminate PR).
  assert (SI : i_source imp <> None) by congruence.
  destruct (confirmation_step powdecay ca PD CA t (c_spike prec) imp TI VP SI (ex_intro _ e0 (conj IE TE)))
    as (t' & l1 & old & l2 & m1 & m2 & new & E & TI' & E1 & TO & E2 & E3 & TN & _ & _ & TR). rewrite E in H. cbn [rbind] in H.
  inv1 H. rename a2 into ma, Q3 into CM.
  assert (OIN : In old (entries t)) by (rewrite E1; apply in_or_app; right; left; reflexivity).
  assert (SUB : forall y, In y (m1 ++ m2) -> In y (entries t)) by (intros y Y; rewrite E2 in Y; rewrite E1; apply in_app_or in Y as [Y|Y]; apply in_or_app; [left|right; right]; auto).
  assert (NEG : against (neg_truth powdecay ca (e_truth (c_spike prec)) (i_offset imp))) by (apply neg_against; auto).
  assert (Jm1 : J m0 ma).
  { eapply (J_table m0 m p k t t' ma); eauto.
    - split; auto. rewrite E3. rewrite Forall_forall in *. intros y Y. apply in_app_or in Y as [Y|[<-|Y]].
      + apply TF, SUB, in_or_app. auto.
      + rewrite TN. apply TF. exact OIN.
      + apply TF, SUB, in_or_app. auto.
    - intros y Y. rewrite E3 in Y. apply in_app_or in Y as [Y|[<-|Y]].
      + exists y. split; [apply SUB, in_or_app; auto|left; reflexivity].
      + exists old. split; [exact OIN|right]. eauto.
      + exists y. split; [apply SUB, in_or_app; auto|left; reflexivity]. }
  pose proof (predict_quiet _ _ _ _ _ _ TC H) as QP. split; [eapply J_quiet; eauto|].
  intros k' K' L e IEe. destruct QP as (QN & QP). destruct (QP p k' K') as (k1 & K1 & [(_ & EP & _)|(EP & _)]).
  2: { apply cmod_inv in CM as (? & ? & ->). cbn [set_store m_nextid] in EP. lia. }
  apply cmod_inv in CM as (k2 & K2 & ->). rewrite K in K2. injection K2 as <-. cbn [set_store m_store] in K1.
  destruct (store_upd m p _ k K p k1 K1) as [(_ & ->)|(N & _)]; [|contradiction].
  assert (RK1 : rules k' o = entries t').
  { rewrite (rules_eq _ k' o EP). unfold rules. cbn [with_pre c_pre]. rewrite nth_error_upd, Nat.eqb_refl. destruct (Nat.ltb_spec o (length (c_pre k))); [reflexivity|].
    assert (o < length (c_pre k)) by (apply nth_error_Some; congruence). lia. }
  rewrite RK1, E3. unfold rules in IEe. rewrite T, E1 in IEe. apply in_app_or in IEe as [Y|[<-|Y]].
  - exists e. split; auto. assert (Z1 : In e (m1 ++ m2)) by (rewrite E2; apply in_or_app; auto). apply in_app_or in Z1 as [?|?]; apply in_or_app; cbn; auto.
  - exists new. split; auto. apply in_or_app. right. left. reflexivity.
  - exists e. split; auto. assert (Z1 : In e (m1 ++ m2)) by (rewrite E2; apply in_or_app; auto). apply in_app_or in Z1 as [?|?]; apply in_or_app; cbn; auto.
Qed.
(** the rules of one concept *)
Lemma fold_J m0 opt now p : ids_below m0 -> forall imps m mf, J m0 m -> alive m0 mf ->
  (forall imp, In imp imps -> i_source imp <> None /\ exists k e, nth_error (m_store m) p = Some k /\ In e (rules k o) /\ i_term e = i_term imp) ->
  foldM (step o opt now p) imps m = Ok mf -> J m0 mf.
Proof.
  intros I0. induction imps as [|i imps IH]; intros m mf JM AL SN H; cbn [foldM] in H; [injection H as <-; exact JM|]. inv1 H. rename a into m1.
  destruct (SN i (or_introl eq_refl)) as (S & k & e & K & IE & TE).
  pose proof (step_later _ _ _ _ _ _ _ Q) as L1. pose proof (fold_later _ _ _ _ _ _ _ H) as L2.
  destruct (step_J m0 m opt now p i m1 k JM I0 K (ex_intro _ e (conj IE TE)) S Q) as (J1 & KP).
  apply (IH m1 mf J1 AL); auto. intros imp II. destruct (SN imp (or_intror II)) as (S' & k' & e' & K' & IE' & TE'). split; auto.
  rewrite K in K'. injection K' as <-. assert (A1 : alive m0 m1) by (eapply alive_back; eauto using j_next).
  destruct (j_slots _ _ JM p k K) as [(k0 & K0 & R1 & R2 & R3)|(_ & NR)]; [|exfalso; rewrite (NR o) in IE; destruct IE].
  assert (HR : ~ no_rules k0) by (intros NR; destruct (R3 e IE) as (x & X & _); rewrite (NR o) in X; destruct X).
  destruct (A1 p k0 K0 HR) as (k1 & K1 & E1). destruct (KP k1 K1) with (e := e') as (e1 & X1 & X2); auto.
  - rewrite E1. pose proof (ids_at _ _ _ I0 K0). pose proof (j_next _ _ JM). lia.
  - exists k1, e1. split; auto. split; auto. congruence.
Qed.
Lemma prune_ok m : forall n t k t', table_good t -> prune n m t k = Ok t' -> table_good t' /\ forall x, In x (entries t') -> In x (entries t).
Proof.
  induction n as [|n IH]; intros t k t' G H; cbn [prune] in H; [injection H as <-; auto|]. destruct (Nat.ltb_spec k (t_items t)) as [L|L]; [|injection H as <-; auto].
  inv1 H. destruct a; [eauto|]. destruct G as ((W & AG) & F). destruct (remove_spec t k W L) as (W1 & E1 & I1).
  assert (SUB : forall x, In x (entries (Table_Remove t k)) -> In x (entries t)).
  { intros x X. rewrite E1 in X. apply in_app_or in X as [X|X]; rewrite <- (firstn_skipn k (entries t)); apply in_or_app; [left; auto|right].
    assert (S2 : forall j (l : list implication), In x (skipn (S j) l) -> In x (skipn j l)). { clear. induction j as [|j IHj]; intros l Y; destruct l as [|a l]; cbn [skipn] in *; auto. right. exact Y. } auto. }
  assert (G1 : table_good (Table_Remove t k)).
  { rewrite Forall_forall in F. unfold all_good in AG. rewrite Forall_forall in AG. split; [split; [exact W1|]|]; [unfold all_good|]; rewrite Forall_forall; intros x X; auto. }
  destruct (IH _ _ _ G1 H) as (A & B). split; auto.
Qed.
Lemma links_J m0 m p m' imps : J m0 m -> anticipate_links o false m p = Ok (m', imps) -> J m0 m' /\
  forall imp, In imp imps -> i_source imp <> None /\ exists k e, nth_error (m_store m') p = Some k /\ In e (rules k o) /\ i_term e = i_term imp.
Proof.
  intros JM H. unfold anticipate_links in H. unfold cread in H. destruct (nth_error (m_store m) p) as [k|] eqn:K; cbn [rbind negb] in H; [|discriminate H].
  unfold pre_at in H. destruct (nth_error (c_pre k) o) as [t|] eqn:T; cbn [rbind] in H; [|discriminate H]. inv1 H. rename a into t'. inv1 H. injection H as <- <-.
  pose proof (proj1 (proj2 (rules_ok_at m p k (j_ok _ _ JM) K)) o t T) as TG. destruct (prune_ok m _ _ _ _ TG Q) as (TG' & SUB). split.
  - eapply (J_table m0 m p k t t'); eauto.
  - intros imp II. split.
    + destruct TG' as ((_ & AG) & _). unfold all_good in AG. rewrite Forall_forall in AG. apply (AG imp II).
    + apply cmod_inv in Q0 as (k2 & K2 & ->). rewrite K in K2. injection K2 as <-. cbn [set_store m_store].
      exists (with_pre k (upd (c_pre k) o t')), imp. split; [|split; auto].
      * rewrite nth_error_upd, Nat.eqb_refl. destruct (Nat.ltb_spec p (length (m_store m))); [reflexivity|]. assert (p < length (m_store m)) by (apply nth_error_Some; congruence). lia.
      * unfold rules. cbn [with_pre c_pre]. rewrite nth_error_upd, Nat.eqb_refl. destruct (Nat.ltb_spec o (length (c_pre k))); [exact II|]. assert (o < length (c_pre k)) by (apply nth_error_Some; congruence). lia.
Qed.
Lemma loop_J m0 opt now : ids_below m0 -> forall n j m mf, J m0 m -> alive m0 mf ->
  anticipate_loop nm av simdist powdecay athr ca n o opt false now j m = Ok mf -> J m0 mf.
Proof.
  intros I0. induction n as [|n IH]; intros j m mf JM AL H; cbn [anticipate_loop] in H; [injection H as <-; exact JM|].
  destruct (nth_error (PQueueM.contents (m_concepts m)) j) as [it|]; [|injection H as <-; exact JM].
  inv2 H m1 imps. inv1 H. rename a into m2. destruct (links_J m0 m _ m1 imps JM Q) as (J1 & SN).
  pose proof (loop_later _ _ _ _ _ _ _ _ H) as L2. assert (A2 : alive m0 m2).
  { eapply alive_back; eauto. pose proof (fold_later _ _ _ _ _ _ _ Q0) as (X & _). pose proof (j_next _ _ J1). lia. }
  eapply IH; [|exact AL|exact H]. eapply fold_J; eauto.
Qed.
End Steps.
