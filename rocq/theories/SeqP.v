(** Proofs about sequences and the decomposition of sequence goals. *)
From Coq Require Import ZArith List Bool Lia Reals.
From Flocq Require Import IEEE754.BinarySingleNaN.
From Verif Require Import Base F64 TruthM TermM TermS TermP TermP2 NamesM EventM InferenceM VariableM InvIndexM MemoryM CycleM SeqS.
Import ListNotations.
Local Open Scope Z_scope.

Lemma okI {A} (x y : A) : Ok x = Ok y -> x = y. Proof. congruence. Qed.
(** *** comparison of doubles *)
Lemma fltb_num x y : fltb x y = true -> is_nan x = false /\ is_nan y = false.
Proof. unfold fltb, Bltb. destruct x, y; cbn; auto; try discriminate. Qed.
Lemma fltb_step a b c : fltb a b = true -> fltb a c = false -> fltb b c = false.
Proof.
  intros H1 H2. destruct (fltb b c) eqn:H3; auto. destruct (fltb_num _ _ H1) as [A B]. destruct (fltb_num _ _ H3) as [_ C].
  apply fltb_ext in H1; auto. apply fltb_ext in H3; auto. assert (X : fltb a c = true) by (apply fltb_ext; auto; eapply Rlt_trans; eauto). congruence.
Qed.

Lemma F2_len {A B} (R : A -> B -> Prop) l l' : Forall2 R l l' -> length l = length l'.
Proof. induction 1; cbn; congruence. Qed.
Lemma with_pids_same k : with_pids k (c_pids k) = k. Proof. destruct k; reflexivity. Qed.
Lemma sbm_refl m : same_but_marks m m.
Proof.
  exists (m_store m). split; [destruct m; reflexivity|]. induction (m_store m); constructor; auto. eexists. symmetry. apply with_pids_same.
Qed.
Lemma sbm_trans m1 m2 m3 : same_but_marks m1 m2 -> same_but_marks m2 m3 -> same_but_marks m1 m3.
Proof.
  intros (s1 & -> & F1) (s2 & -> & F2). exists s2. split; [reflexivity|]. cbn [m_store set_store] in F2.
  revert s2 F2. induction F1 as [|k k' l l' [p ->] F1 IH]; intros s2 F2; inversion F2 as [|? k2 ? l2 [p2 ->] F2']; subst; constructor; auto. exists p2. reflexivity.
Qed.
Lemma sbm_nth m m' c k : same_but_marks m m' -> nth_error (m_store m) c = Some k -> exists p, nth_error (m_store m') c = Some (with_pids k p).
Proof.
  intros (st & -> & F) H. cbn [m_store set_store]. revert st F c H. induction (m_store m) as [|x l IH]; intros st F [|c] H; inversion F as [|? k' ? l' [p ->] F']; subst; cbn in *; try discriminate.
  - injection H as ->. eauto.
  - eapply IH; eauto.
Qed.
Lemma sbm_nth' m m' c k' : same_but_marks m m' -> nth_error (m_store m') c = Some k' -> exists k p, nth_error (m_store m) c = Some k /\ k' = with_pids k p.
Proof.
  intros (st & -> & F) H. cbn [m_store set_store] in H. revert st F c H. induction (m_store m) as [|x l IH]; intros st F [|c] H; inversion F as [|? k2 ? l' [p ->] F']; subst; cbn in *; try discriminate.
  - injection H as <-. eauto.
  - eapply IH; eauto.
Qed.
Lemma sbm_sym m m' : same_but_marks m m' -> same_but_marks m' m.
Proof.
  intros (st & -> & F). exists (m_store m). split; [destruct m; reflexivity|]. cbn [m_store set_store].
  induction F as [|k k' l l' [p ->] F IH]; constructor; auto. exists (c_pids k). destruct k; reflexivity.
Qed.
Lemma sbm_mark m c k p : nth_error (m_store m) c = Some k -> same_but_marks m (set_store m (upd (m_store m) c (with_pid1 k p))).
Proof.
  intros H. eexists. split; [reflexivity|]. revert c H. induction (m_store m) as [|x l IH]; intros [|c] H; cbn in H; try discriminate.
  - injection H as ->. unfold upd; cbn. constructor; [eexists; reflexivity|]. clear. induction l; constructor; auto. eexists. symmetry. apply with_pids_same.
  - unfold upd in *; cbn. constructor; [|apply IH; auto]. eexists. symmetry. apply with_pids_same.
Qed.

Section Goals.
Variable nm : names.
Variable av : Z -> option (f64 * name).
Variable simdist : f64.
Variable powdecay : Z -> f64.
Variable condition : f64.
Notation satisfies := (satisfies nm av simdist powdecay condition).
Notation used := (used nm av simdist powdecay condition).
Notation subgoal := (subgoal nm av simdist powdecay condition).
Notation body := (component_body nm av simdist powdecay condition).

Lemma satisfies_sbm m m' now comp rest last c subs ex : same_but_marks m m' -> satisfies m now comp rest last c subs ex -> satisfies m' now comp rest last c subs ex.
Proof. intros S [k H0 H1 H2 H3 H4 H5 H6 H7 H8 H9]. destruct (sbm_nth _ _ _ _ S H0) as [p Q]. econstructor; eauto. Qed.
Lemma related_sbm m m' t c : same_but_marks m m' -> related m t c -> related m' t c.
Proof. intros (st & -> & F) H. exact H. Qed.
Lemma own_sbm m m' t c : same_but_marks m m' -> own m t c -> own m' t c.
Proof. intros (st & -> & F) H. exact H. Qed.
Lemma used_sbm m m' now comp rest last r : same_but_marks m m' -> used m now comp rest last r -> used m' now comp rest last r.
Proof.
  intros S. pose proof (sbm_sym _ _ S) as S'. destruct r as [[c subs]|]; unfold SeqS.used.
  - intros (ex & A & B & C). exists ex. split; [eapply satisfies_sbm; eauto|]. split; [eapply related_sbm; eauto|].
    destruct (hasVariable _ _ _ _ _); intros c' subs' ex' Q1 Q2; (eapply C; [first [eapply related_sbm; eauto|eapply own_sbm; eauto]|eapply satisfies_sbm; eauto]).
  - destruct (hasVariable _ _ _ _ _); intros A c subs ex Q1 Q2; (eapply A; [first [eapply related_sbm; eauto|eapply own_sbm; eauto]|eapply satisfies_sbm; eauto]).
Qed.
Lemma subgoal_sbm m m' now l first last g r : same_but_marks m m' -> subgoal m now l first last g r -> subgoal m' now l first last g r.
Proof.
  intros S. induction 1 as [| | |comp rest first last g c subs k next rest' r H H1 H2 H3 IH].
  - apply sg_first. eapply used_sbm; eauto.
  - apply sg_here. eapply used_sbm; eauto.
  - eapply sg_all. eapply used_sbm; eauto.
  - destruct (sbm_nth _ _ _ _ S H1) as [p Q]. eapply (sg_next _ _ _ _ _ m' now comp rest first last g c subs (with_pids k p)); eauto. eapply used_sbm; eauto.
Qed.

(** *** one visit *)
Section Visits.
Variables (now : Z) (comp : term) (rest : list term) (last : Z) (pid : Z).
Lemma applies_spec l subs : forall b, applies nm l subs = Ok b -> (b = true <-> Forall (fun t => exists t', ApplySubstitute nm t subs = Ok (t', true)) l).
Proof.
  induction l as [|t l IH]; intros b; cbn [applies]; [intros H; apply okI in H; subst; split; auto|].
  destruct (ApplySubstitute nm t subs) as [[t' ok]| |] eqn:E; cbn [rbind]; try discriminate. destruct ok.
  - intros H. rewrite (IH _ H). split; [intros F; constructor; eauto|intros F; inversion F; auto].
  - intros H; apply okI in H; subst. split; [discriminate|]. intros F; inversion F as [|? ? [t2 Q]]; congruence.
Qed.
(** the accumulator after the concepts in [V] *)
Definition acc_ok (m : memory) (V : nat -> Prop) (a : f64 * option (nat * substitution)) : Prop :=
  match snd a with
  | None => fst a = f0 /\ forall c subs ex, V c -> ~ satisfies m now comp rest last c subs ex
  | Some (c, subs) => V c /\ satisfies m now comp rest last c subs (fst a) /\ forall c' subs' ex', V c' -> satisfies m now comp rest last c' subs' ex' -> fltb (fst a) ex' = false
  end.
Lemma satisfies_fun m c s1 e1 s2 e2 : satisfies m now comp rest last c s1 e1 -> satisfies m now comp rest last c s2 e2 -> s1 = s2 /\ e1 = e2.
Proof. intros [k H0 H1 H2 H3 H4 H5 H6 H7 H8 H9] [k' G0 G1 G2 G3 G4 G5 G6 G7 G8 G9]. rewrite H0 in G0. injection G0 as <-. rewrite H2 in G2. split; congruence. Qed.
Lemma acc_skip m V a c : acc_ok m V a -> (forall subs ex, ~ satisfies m now comp rest last c subs ex) -> acc_ok m (fun x => V x \/ x = c) a.
Proof.
  unfold acc_ok. intros H N. destruct (snd a) as [[b subs]|].
  - destruct H as (A & B & C). split; auto. split; auto. intros c' subs' ex' [Q| ->] S; [eauto|destruct (N _ _ S)].
  - destruct H as [A B]. split; auto. intros c' subs' ex' [Q| ->] S; [eapply B; eauto|destruct (N _ _ S)].
Qed.
Lemma body_spec m V a c m' a' stop : acc_ok m V a -> body now comp rest last m a c = Ok (m', a', stop) ->
  m' = m /\ acc_ok m (fun x => V x \/ x = c) a' /\ (hasVariable nm comp true true true = true -> stop = false) /\
  (hasVariable nm comp true true true = false -> (exists subs ex, satisfies m now comp rest last c subs ex /\ fltb (fst a) ex = true) -> stop = true /\ exists subs, snd a' = Some (c, subs)).
Proof.
  intros H. unfold component_body. destruct (cread m c) as [k| |] eqn:R; cbn [rbind]; try discriminate. unfold cread in R. destruct (nth_error (m_store m) c) as [k'|] eqn:NE; [|discriminate]. apply okI in R; subst k'.
  destruct (hasVariable nm (c_term k) true true true) eqn:HV.
  { intros Q; apply okI in Q; injection Q as <- <- <-. split; auto. split; [apply acc_skip; auto|].
    - intros subs ex [k' G0 G1 G2 G3 G4 G5 G6 G7 G8 G9]. congruence.
    - split; [intros ->; auto|]. intros _ (subs & ex & [k' G0 G1 G2 G3 G4 G5 G6 G7 G8 G9] & _). congruence. }
  destruct (Unify nm av simdist comp (c_term k)) as [subs| |] eqn:U; cbn [rbind]; try discriminate.
  destruct (negb (s_success subs) || negb (negb (e_type (c_spike k) =? EVENT_TYPE_DELETED))) eqn:P.
  { intros Q; apply okI in Q; injection Q as <- <- <-.
    assert (N : forall subs ex, ~ satisfies m now comp rest last c subs ex).
    { intros s2 ex [k' G0 G1 G2 G3 G4 G5 G6 G7 G8 G9]. assert (k' = k) by congruence; subst. assert (s2 = subs) by congruence; subst. rewrite G3 in P. cbn in P. apply negb_true_iff, negb_false_iff, Z.eqb_eq in P. auto. }
    split; auto. split; [apply acc_skip; auto|]. split; [intros ->; auto|]. intros _ (s2 & ex & S & _). destruct (N _ _ S). }
  apply orb_false_iff in P as [P1 P2]. apply negb_false_iff in P1. apply negb_false_iff, negb_true_iff, Z.eqb_neq in P2.
  destruct (Z.ltb_spec (e_occ (c_spike k)) last) as [L|L].
  { intros Q; apply okI in Q; injection Q as <- <- <-.
    assert (N : forall subs ex, ~ satisfies m now comp rest last c subs ex).
    { intros s2 ex [k' G0 G1 G2 G3 G4 G5 G6 G7 G8 G9]. assert (k' = k) by congruence; subst. lia. }
    split; auto. split; [apply acc_skip; auto|]. split; auto. intros _ (s2 & ex & S & _). destruct (N _ _ S). }
  set (ex := Truth_Expectation f64A _). destruct (fltb ex condition) eqn:CO.
  { intros Q; apply okI in Q; injection Q as <- <- <-.
    assert (N : forall subs ex, ~ satisfies m now comp rest last c subs ex).
    { intros s2 ex2 [k' G0 G1 G2 G3 G4 G5 G6 G7 G8 G9]. assert (k' = k) by congruence; subst. unfold ex in CO. congruence. }
    split; auto. split; [apply acc_skip; auto|]. split; auto. intros _ (s2 & ex2 & S & _). destruct (N _ _ S). }
  destruct (applies nm rest subs) as [ok| |] eqn:AP; cbn [rbind]; try discriminate. pose proof (applies_spec _ _ _ AP) as APS.
  intros Q; apply okI in Q; injection Q as <- <- <-. split; auto.
  assert (F0 : fltb (fst a) ex = true -> fltb f0 ex = true).
  { intros Q. unfold acc_ok in H. destruct (snd a) as [[b s2]|]; [|destruct H as [<- _]; auto]. destruct H as (_ & [k' _ _ _ _ _ _ _ _ G _] & _).
    destruct (fltb_num _ _ G) as [A1 A2]. destruct (fltb_num _ _ Q) as [A3 A4]. apply fltb_ext; auto. apply fltb_ext in G; auto. apply fltb_ext in Q; auto. eapply Rlt_trans; eauto. }
  assert (ME : forall s2 ex2, satisfies m now comp rest last c s2 ex2 -> ok = true /\ ex2 = ex).
  { intros s2 ex2 [k' G0 G1 G2 G3 G4 G5 G6 G7 G8 G9]. assert (k' = k) by congruence; subst. assert (s2 = subs) by congruence; subst. split; auto. apply APS; auto. }
  destruct (ok && fltb (fst a) ex) eqn:B.
  - apply andb_prop in B as [B1 B2]. subst ok.
    assert (S : satisfies m now comp rest last c subs ex) by (econstructor; eauto; apply APS; auto).
    split; [|split; [intros ->; auto|intros ->; split; [auto|exists subs; reflexivity]]]. unfold acc_ok. cbn [fst snd]. split; auto. split; auto.
    intros c' s2 ex2 [Q| ->] S2.
    + unfold acc_ok in H. destruct (snd a) as [[b s3]|]; [destruct H as (_ & _ & H); eapply fltb_step; eauto|destruct H as [_ H]; destruct (H _ _ _ Q S2)].
    + destruct (ME _ _ S2) as [_ ->]. destruct (fltb ex ex) eqn:X; auto. destruct (fltb_num _ _ X) as [A1 A2]. apply fltb_ext in X; auto. destruct (Rlt_irrefl _ X).
  - split; [|split; [intros ->; auto|intros _ (s2 & ex2 & S & Q)]].
    + unfold acc_ok in *. destruct (snd a) as [[b s3]|] eqn:SA.
      * destruct H as (A1 & A2 & A3). split; auto. split; auto. intros c' s2 ex2 [Q| ->] S2; [eauto|]. destruct (ME _ _ S2) as [-> ->]. auto.
      * destruct H as [A1 A2]. split; auto. intros c' s2 ex2 [Q| ->] S2; [eapply A2; eauto|]. destruct (ME _ _ S2) as [-> EE]. cbn [andb] in B. rewrite A1 in B. destruct S2 as [k' G0 G1 G2 G3 G4 G5 G6 G7 G8 G9]. rewrite EE in G8. congruence.
    + destruct (ME _ _ S) as [-> ->]. rewrite Q in B. discriminate.
Qed.

Variable m0 : memory.
Lemma acc_sbm m m' V a : same_but_marks m m' -> acc_ok m V a -> acc_ok m' V a.
Proof.
  intros S. pose proof (sbm_sym _ _ S) as S'. unfold acc_ok. destruct (snd a) as [[c subs]|].
  - intros (A & B & C). split; auto. split; [eapply satisfies_sbm; eauto|]. intros c' s2 e2 Q1 Q2. eapply C; eauto. eapply satisfies_sbm; eauto.
  - intros [A B]. split; auto. intros c s2 e2 Q1 Q2. eapply B; eauto. eapply satisfies_sbm; eauto.
Qed.
Definition vinv (V : nat -> Prop) (m : memory) (a : f64 * option (nat * substitution)) : Prop :=
  same_but_marks m0 m /\ (forall c k, nth_error (m_store m) c = Some k -> (pid1 k = pid <-> V c)) /\ acc_ok m0 V a /\ forall k, In k (m_store m) -> pid1 k <= pid.
Lemma nth_error_upd {A} (l : list A) i x j y : nth_error (upd l i x) j = Some y -> j = i /\ y = x \/ j <> i /\ nth_error l j = Some y.
Proof.
  revert i j. induction l as [|h l IH]; intros i j; [destruct j; discriminate|]. destruct i as [|i], j as [|j]; cbn [upd nth_error]; intros H.
  - left; split; congruence.
  - right; split; [lia|auto].
  - right; split; [lia|auto].
  - destruct (IH _ _ H) as [[-> ->]|[Q1 Q2]]; auto.
Qed.
Lemma visit_spec V m a oc m' a' stop : vinv V m a -> visit pid (body now comp rest last) m a oc = Ok (m', a', stop) ->
  exists V', vinv V' m' a' /\ (forall x, V x -> V' x) /\ (forall c, oc = Some c -> V' c) /\ (forall x, V' x -> V x \/ oc = Some x) /\ (hasVariable nm comp true true true = true -> stop = false) /\
  (forall c, oc = Some c -> a = (f0, None) -> ~ V c -> hasVariable nm comp true true true = false -> (exists subs ex, satisfies m0 now comp rest last c subs ex) -> stop = true /\ exists subs, snd a' = Some (c, subs)).
Proof.
  intros (A1 & A2 & A3 & A4). destruct oc as [c|]; cbn [visit].
  2: { intros H; apply okI in H; injection H as <- <- <-. exists V. split; [split; [auto|split; auto]|]. split; auto. split; [discriminate|]. split; auto. split; [auto|discriminate]. }
  unfold cread at 1. destruct (nth_error (m_store m) c) as [k|] eqn:NE; cbn [rbind]; try discriminate. destruct (Z.eqb_spec (pid1 k) pid) as [EP|EP].
  - intros H; apply okI in H; injection H as <- <- <-. apply (A2 _ _ NE) in EP. exists V. split; [split; [auto|split; auto]|]. split; [auto|]. split; [intros x Q; injection Q as <-; auto|]. split; [auto|].
    split; [auto|]. intros x Q _ N. injection Q as <-. tauto.
  - unfold cmod, cread. rewrite NE; cbn [rbind]. set (m1 := set_store _ _). intros H. assert (S1 : same_but_marks m m1) by (apply sbm_mark; auto). pose proof (sbm_trans _ _ _ A1 S1) as S2.
    destruct (body_spec m1 V a c m' a' stop (acc_sbm _ _ _ _ S2 A3) H) as (-> & B1 & B2 & B3).
    exists (fun x => V x \/ x = c). split; [|split; [auto|split; [|split; [|split; [auto|]]]]].
    + split; auto. split; [|split; [eapply acc_sbm; [apply sbm_sym; exact S2|auto]|]].
      2: { intros kx Q. apply In_nth_error in Q as [j Q]. cbn [m1 m_store set_store] in Q. apply nth_error_upd in Q as [[-> ->]|[Q1 Q2]]; [cbn; lia|apply A4; eapply nth_error_In; eauto]. }
      intros x kx Q. cbn [m1 m_store set_store] in Q. apply nth_error_upd in Q as [[-> ->]|[Q1 Q2]].
      * split; auto.
      * rewrite (A2 _ _ Q2). split; [auto|intros [Q| ->]; [auto|tauto]].
    + intros x Q; injection Q as ->; auto.
    + intros x [Q| ->]; auto.
    + intros x Q E1 N HV (subs & ex & S). injection Q as <-. apply B3; auto. subst a. exists subs, ex. split; [eapply satisfies_sbm; eauto|]. destruct S; auto.
Qed.
Lemma sbm_index m : same_but_marks m0 m -> m_index m = m_index m0. Proof. intros (st & -> & _). reflexivity. Qed.
Lemma chain_spec fuel : forall p V m a m' a' stop, vinv V m a -> chain_loop pid (body now comp rest last) fuel m a p = Ok (m', a', stop) ->
  exists V', vinv V' m' a' /\ (forall x, V x -> V' x) /\ (forall x, V' x -> V x \/ in_chain (m_index m0) p x) /\
    (hasVariable nm comp true true true = true -> stop = false /\ forall x, in_chain (m_index m0) p x -> V' x).
Proof.
  induction fuel as [|fuel IH]; intros [p|] V m a m' a' stop I0; cbn [chain_loop]; try discriminate.
  1,3: intros H; apply okI in H; injection H as <- <- <-; exists V; split; [auto|]; split; [auto|]; split; [auto|]; intros _; split; [auto|]; intros x Q; inversion Q.
  rewrite (sbm_index m) by apply I0. destruct (el_deref (m_index m0) p) as [el| |] eqn:ED; cbn [rbind]; try discriminate.
  destruct (visit _ _ _ _ _) as [[[m1 a1] st1]| |] eqn:VI; cbn [rbind]; try discriminate. destruct (visit_spec _ _ _ _ _ _ _ I0 VI) as (V1 & B1 & B2 & B3 & B4 & B5 & _). destruct st1.
  - intros H; apply okI in H; injection H as <- <- <-. exists V1. split; auto. split; auto. split; [intros x Q; destruct (B4 x Q); auto; right; eapply ic_here; eauto|]. intros HV. specialize (B5 HV). discriminate.
  - intros H. destruct (IH _ _ _ _ _ _ _ B1 H) as (V2 & C1 & C2 & C3 & C4). exists V2. split; auto. split; auto. split.
    + intros x Q. destruct (C3 x Q) as [Q'|Q']; [|right; eapply ic_next; eauto]. destruct (B4 x Q'); auto. right; eapply ic_here; eauto.
    + intros HV. destruct (C4 HV) as [-> C5]. split; auto. intros x Q. inversion Q as [? el' ? D1 D2|? el' ? D1 D2]; subst; rewrite ED in D1; apply okI in D1; subst el'; auto.
Qed.
Lemma foreach_spec fuel l : forall V m a m' a', vinv V m a -> foreach_loop pid (body now comp rest last) fuel comp l m a = Ok (m', a') ->
  exists V', vinv V' m' a' /\ (forall x, V x -> V' x) /\ (l <> [] -> forall x, own m0 comp x -> V' x) /\
    (forall x, V' x -> V x \/ own m0 comp x \/ exists y p, In y l /\ GetConceptChain (m_index m0) y = Ok p /\ in_chain (m_index m0) p x) /\
    (hasVariable nm comp true true true = true -> forall x, (exists y p, In y l /\ GetConceptChain (m_index m0) y = Ok p /\ in_chain (m_index m0) p x) -> V' x).
Proof.
  induction l as [|y l IH]; intros V m a m' a' I0; cbn [foreach_loop].
  - intros H; apply okI in H; injection H as <- <-. exists V. split; auto. split; auto. split; [congruence|]. split; auto. intros HV x (y & p & [] & _).
  - destruct (FindConceptByTerm m comp) as [ow| |] eqn:FO; cbn [rbind]; try discriminate. assert (FO' : FindConceptByTerm m0 comp = Ok ow) by (destruct I0 as [(st & -> & _) _]; exact FO). clear FO.
    rewrite (sbm_index m) by apply I0. destruct (GetConceptChain (m_index m0) y) as [ch| |] eqn:GC; cbn [rbind]; try discriminate.
    destruct (visit _ _ _ _ _) as [[[m1 a1] st1]| |] eqn:VI; cbn [rbind]; try discriminate. destruct (visit_spec _ _ _ _ _ _ _ I0 VI) as (V1 & B1 & B2 & B3 & B4 & B5 & _).
    assert (OW : forall x, own m0 comp x -> V1 x) by (intros x Q; apply B3; unfold own in Q; congruence).
    assert (FR : forall x, V1 x -> V x \/ own m0 comp x \/ exists y0 p, In y0 (y :: l) /\ GetConceptChain (m_index m0) y0 = Ok p /\ in_chain (m_index m0) p x).
    { intros x Q. destruct (B4 x Q) as [Q'|Q']; auto. right; left. unfold own. congruence. }
    destruct st1.
    { intros H; apply okI in H; injection H as <- <-. exists V1. split; auto. split; auto. split; auto. split; auto. intros HV. specialize (B5 HV). discriminate. }
    destruct (chain_loop _ _ _ _ _ _) as [[[m2 a2] st2]| |] eqn:CL; cbn [rbind]; try discriminate. destruct (chain_spec _ _ _ _ _ _ _ _ B1 CL) as (V2 & C1 & C2 & C3 & C4).
    assert (FR2 : forall x, V2 x -> V x \/ own m0 comp x \/ exists y0 p, In y0 (y :: l) /\ GetConceptChain (m_index m0) y0 = Ok p /\ in_chain (m_index m0) p x).
    { intros x Q. destruct (C3 x Q) as [Q'|Q']; auto. right; right. exists y, ch. split; [left; auto|auto]. }
    destruct st2.
    { intros H; apply okI in H; injection H as <- <-. exists V2. split; auto. split; auto. split; auto. split; auto. intros HV. destruct (C4 HV). discriminate. }
    intros H. destruct (IH _ _ _ _ _ C1 H) as (V3 & D1 & D2 & D3 & D4 & D5). exists V3. split; auto. split; auto. split; auto. split.
    + intros x Q. destruct (D4 x Q) as [Q'|[Q'|(y0 & p & Q1 & Q2 & Q3)]]; auto. right; right. exists y0, p. split; [right; auto|auto].
    + intros HV x (y0 & p & [<-|Q1] & Q2 & Q3); [|apply D5; auto; exists y0, p; auto]. apply D2. apply C4; auto. congruence.
Qed.
Lemma foreach_own fuel y l m m' a' c : vinv (fun _ => False) m (f0, None) -> foreach_loop pid (body now comp rest last) fuel comp (y :: l) m (f0, None) = Ok (m', a') ->
  hasVariable nm comp true true true = false -> own m0 comp c -> (exists subs ex, satisfies m0 now comp rest last c subs ex) -> exists subs, snd a' = Some (c, subs).
Proof.
  intros I0 H HV OW SA. cbn [foreach_loop] in H. assert (FO : FindConceptByTerm m comp = Ok (Some c)) by (destruct I0 as [(st & -> & _) _]; exact OW). rewrite FO in H. cbn [rbind] in H.
  destruct (GetConceptChain _ _) as [ch| |]; cbn [rbind] in H; try discriminate. destruct (visit _ _ _ _ _) as [[[m1 a1] st1]| |] eqn:VI; cbn [rbind] in H; try discriminate.
  destruct (visit_spec _ _ _ _ _ _ _ I0 VI) as (V1 & _ & _ & _ & _ & _ & B). destruct (B c eq_refl eq_refl ltac:(tauto) HV SA) as [-> [subs E]]. apply okI in H. injection H as <- <-. eauto.
Qed.
Lemma related_in t c : related m0 t c <-> own m0 t c \/ exists y p, In y (map (at_ t) (seq 0 UNIFICATION_DEPTH)) /\ GetConceptChain (m_index m0) y = Ok p /\ in_chain (m_index m0) p c.
Proof.
  unfold related. split; intros [H|H]; auto; right.
  - destruct H as (i & p & A & B & C). exists (at_ t i), p. split; auto. apply in_map_iff. exists i. split; auto. apply in_seq. lia.
  - destruct H as (y & p & A & B & C). apply in_map_iff in A as (i & <- & A). apply in_seq in A. exists i, p. split; [lia|auto].
Qed.
Lemma search_spec fuel m m' a' : same_but_marks m0 m -> (forall k, In k (m_store m) -> pid1 k < pid) ->
  related_foreach pid (body now comp rest last) fuel m comp (f0, None) = Ok (m', a') ->
  same_but_marks m0 m' /\ used m0 now comp rest last (snd a') /\ forall k, In k (m_store m') -> pid1 k <= pid.
Proof.
  intros S FR H. assert (I0 : vinv (fun _ => False) m (f0, None)).
  { split; auto. split; [|split; [split; auto|]]. - intros c k Q. split; [|tauto]. intros E. apply nth_error_In in Q. specialize (FR _ Q). lia. - intros k Q. specialize (FR _ Q). lia. }
  unfold related_foreach in H. pose proof H as H'. apply (foreach_spec _ _ _ _ _ _ _ I0) in H as (V & (B1 & B2 & B3 & B7) & _ & B4 & B5 & B6). split; [auto|]. split; [|auto].
  assert (NE : map (at_ comp) (seq 0 UNIFICATION_DEPTH) <> []) by discriminate. specialize (B4 NE).
  assert (RV : forall x, V x -> related m0 comp x) by (intros x Q; apply related_in; destruct (B5 x Q) as [[]|Q']; auto).
  assert (VR : hasVariable nm comp true true true = true -> forall x, related m0 comp x -> V x) by (intros HV x Q; apply related_in in Q as [Q|Q]; auto).
  unfold acc_ok in B3. unfold SeqS.used. destruct (snd a') as [[c subs]|] eqn:SA.
  - destruct B3 as (C1 & C2 & C3). exists (fst a'). split; auto. split; auto. destruct (hasVariable nm comp true true true) eqn:HV; [intros c1 s1 e1 Q1 Q2; eapply (C3 c1); [apply VR; auto|exact Q2]|].
    intros c2 s2 e2 OW S2. change (map (at_ comp) (seq 0 UNIFICATION_DEPTH)) with (at_ comp 0 :: map (at_ comp) (seq 1 (UNIFICATION_DEPTH - 1))) in H'.
    destruct (foreach_own _ _ _ _ _ _ c2 I0 H' HV OW ltac:(eauto)) as [s3 Q]. congruence.
  - destruct B3 as [_ C2]. destruct (hasVariable nm comp true true true) eqn:HV; intros c s2 e2 Q; apply C2; auto.
Qed.
End Visits.

Lemma apply_all_spec l subs l' : apply_all nm l subs = Ok l' -> Forall2 (fun t t' => ApplySubstitute nm t subs = Ok (t', true)) l l'.
Proof.
  revert l'. induction l as [|t l IH]; intros l'; cbn [apply_all]; [intros H; apply okI in H; subst; constructor|].
  destruct (ApplySubstitute nm t subs) as [[t' ok]| |] eqn:E; cbn [rbind]; try discriminate. destruct ok; cbn [rassert rbind]; try discriminate.
  destruct (apply_all nm l subs) as [l2| |] eqn:E2; cbn [rbind]; try discriminate. intros H; apply okI in H; subst. constructor; auto.
Qed.
Variable penalty : nat -> f64.
Variable layers fuel : nat.
Notation Add m e now p layer := (AddEvent nm powdecay penalty layers fuel m (EVal e) now p false false layer).
(** *** the decomposition *)
Lemma decompose_spec n : forall s prio layer todo first last g s', (n = length todo)%nat -> todo <> [] -> (forall k, In k (m_store (s_mem s)) -> pid1 k <= s_pid s) ->
  decompose nm av simdist powdecay penalty layers condition fuel n s prio layer todo first last g = Ok s' ->
  exists r m1, subgoal (s_mem s) (s_time s) todo first last g r /\ same_but_marks (s_mem s) m1 /\
    match r with
    | None => s_mem s' = m1
    | Some g' => Add m1 g' (s_time s) (fmul prio (Truth_Expectation f64A (e_truth g'))) layer = Ok (s_mem s')
    end.
Proof.
  induction n as [|n IH]; intros s prio layer todo first last g s' LN NE FR; [destruct todo; [congruence|discriminate]|].
  cbn [decompose]. destruct todo as [|comp rest]; [congruence|]. cbv zeta. cbn [s_pid next_pid set_pids s_mem s_time].
  destruct (related_foreach _ _ _ _ _ _) as [[m a]| |] eqn:RF; cbn [rbind]; try discriminate.
  apply (search_spec _ _ _ _ _ (s_mem s)) in RF; [|apply sbm_refl|intros k Q; specialize (FR _ Q); lia]. destruct RF as (S1 & U & P1).
  destruct (snd a) as [[c subs]|].
  - destruct rest as [|r1 rest].
    + intros H; apply okI in H; subst s'. exists None, m. split; [eapply sg_all; eauto|]. split; auto.
    + destruct (apply_all nm (r1 :: rest) subs) as [rest'| |] eqn:AA; cbn [rbind]; try discriminate. apply apply_all_spec in AA. cbn [s_mem set_mem].
      unfold cread. destruct (nth_error (m_store m) c) as [k|] eqn:NC; cbn [rbind]; try discriminate.
      inversion AA as [|? next ? rest2 AH AT]; subst. cbn [hd]. intros H. apply IH in H; [|cbn in *; injection LN as ->; f_equal; eapply F2_len; eauto|discriminate|cbn; intros k' Q; specialize (P1 _ Q); lia].
      destruct H as (r & m1 & SG & S2 & R). cbn [s_mem set_mem s_time next_pid set_pids] in SG, S2, R. exists r, m1. split; [|split; [eapply sbm_trans; eauto|exact R]].
      destruct (sbm_nth _ _ _ _ (sbm_sym _ _ S1) NC) as [p NC']. eapply sg_next; eauto. eapply subgoal_sbm; [apply sbm_sym; exact S1|]. exact SG.
  - destruct first.
    + cbn [s_mem set_mem]. destruct (AddEvent _ _ _ _ _ _ _ _ _ _ _ _) as [m2| |] eqn:AE; cbn [rbind]; try discriminate. intros H; apply okI in H; subst s'.
      eexists (Some _), m. split; [apply sg_first; auto|]. split; auto.
    + cbn [s_mem set_mem]. destruct (AddEvent _ _ _ _ _ _ _ _ _ _ _ _) as [m2| |] eqn:AE; cbn [rbind]; try discriminate. intros H; apply okI in H; subst s'.
      eexists (Some _), m. split; [apply sg_here; auto|]. split; auto.
Qed.
End Goals.

Section Events.
Variable nm : names.
(** *** the events of a sequence *)
Lemma events_pos tr : (1 <= length (events nm tr))%nat.
Proof. destruct tr as [|a l r]; cbn [events]; [cbn; lia|]. destruct (copulaEquals nm a SEQUENCE); [rewrite app_length; cbn; lia|cbn; lia]. Qed.
Lemma seq_root t : closed t -> copulaEquals nm (at_ t 0) SEQUENCE = true ->
  events nm (tree_at t 0) = events nm (tree_at (Term_ExtractSubterm t 1) 0) ++ [tree_at (Term_ExtractSubterm t 2) 0] /\
  (height (tree_at (Term_ExtractSubterm t 1) 0) < height (tree_at t 0))%nat.
Proof.
  intros C H. rewrite !height_extract by auto. rewrite (tree_at_unfold t 0) by apply C. destruct (Z.eqb_spec (at_ t 0) 0) as [Q|Q]; [rewrite Q in H; discriminate|].
  cbn [events height]. rewrite H. change (child 0 false) with 1%nat. change (child 0 true) with 2%nat. split; [auto|lia].
Qed.
Lemma not_seq_root t : closed t -> copulaEquals nm (at_ t 0) SEQUENCE = false -> events nm (tree_at t 0) = [tree_at t 0].
Proof. intros C H. rewrite (tree_at_unfold t 0) by apply C. destruct (Z.eqb_spec (at_ t 0) 0); auto. cbn [events]. rewrite H. auto. Qed.
Lemma components_spec n : forall t acc, closed t -> (height (tree_at t 0) <= n)%nat -> (length acc <= 4)%nat ->
  let k := (length acc + length (events nm (tree_at t 0)))%nat in
  match seq_components nm n t acc with
  | Ok r => (k <= 4)%nat /\ exists l, r = acc ++ l /\ Forall closed l /\ map (fun c => tree_at c 0) (rev l) = events nm (tree_at t 0)
  | UB => k = 5%nat
  | Abort => (6 <= k)%nat
  end.
Proof.
  induction n as [|n IH]; intros t acc C HT LA; cbn [seq_components]; cbv zeta.
  - destruct (copulaEquals nm (at_ t 0) SEQUENCE) eqn:SQ; [apply seq_root in SQ; auto; lia|]. rewrite not_seq_root by auto. cbn [length].
    change MAX_SEQUENCE_LEN with 3%nat. destruct (Nat.leb_spec (length acc) 3); [|lia]. split; [lia|]. exists [t]. split; auto.
  - destruct (copulaEquals nm (at_ t 0) SEQUENCE) eqn:SQ.
    + destruct (seq_root t C SQ) as [E1 E2]. rewrite E1, app_length. cbn [length]. pose proof (events_pos (tree_at (Term_ExtractSubterm t 1) 0)) as EP.
      change MAX_SEQUENCE_LEN with 3%nat. destruct (Nat.leb_spec (length acc) 3); cbn [rassert rbind]; [|lia].
      specialize (IH (Term_ExtractSubterm t 1) (acc ++ [Term_ExtractSubterm t 2]) (closed_extract _ _ C) ltac:(lia) ltac:(rewrite app_length; cbn; lia)). cbv zeta in IH. rewrite app_length in IH. cbn [length] in IH.
      destruct (seq_components nm n _ _) as [r| |]; [|lia|lia]. destruct IH as [K (l & -> & F & M)]. split; [lia|]. exists (Term_ExtractSubterm t 2 :: l). rewrite <- app_assoc. split; auto.
      split; [constructor; auto using closed_extract|]. cbn [rev]. rewrite map_app, M. reflexivity.
    + rewrite not_seq_root by auto. cbn [length]. change MAX_SEQUENCE_LEN with 3%nat. destruct (Nat.leb_spec (length acc) 3); [|lia]. split; [lia|]. exists [t]. split; auto.
Qed.
Lemma seq_len_spec t : closed t -> sequence_len nm t = Nat.min 3 (length (events nm (tree_at t 0)) - 1).
Proof.
  intros C. unfold sequence_len. pose proof (closed_extract t 1 C) as C1. pose proof (closed_extract _ 1 C1) as C2.
  assert (A1 : at_ t 1 = at_ (Term_ExtractSubterm t 1) 0) by (rewrite (at_tree t 1), (at_tree _ 0) by (apply C || apply C1); rewrite height_extract by auto; auto).
  assert (A3 : copulaEquals nm (at_ t 0) SEQUENCE = true -> copulaEquals nm (at_ t 1) SEQUENCE = true -> at_ t 3 = at_ (Term_ExtractSubterm (Term_ExtractSubterm t 1) 1) 0).
  { intros H0 H1. rewrite (at_tree t 3), (at_tree _ 0) by (apply C || apply C2). rewrite height_extract by auto. 
    destruct (tree_at t 1) as [|a l r] eqn:T1. { rewrite (at_tree t 1), T1 in H1 by apply C. discriminate. }
    destruct (tree_children _ _ _ _ (proj1 C) 1 T1) as (Q1 & _). change (child 1 false) with 3%nat in Q1. rewrite Q1.
    assert (T1' : tree_at (Term_ExtractSubterm t 1) 0 = N a l r) by (rewrite height_extract; auto).
    destruct (tree_children _ _ _ _ (proj1 C1) 0 T1') as (Q2 & _). change (child 0 false) with 1%nat in Q2. rewrite Q2. auto. }
  destruct (copulaEquals nm (at_ t 0) SEQUENCE) eqn:S0; [|rewrite not_seq_root by auto; reflexivity]. destruct (seq_root t C S0) as [E0 _]. rewrite E0, app_length. cbn [length].
  pose proof (events_pos (tree_at (Term_ExtractSubterm t 1) 0)).
  destruct (copulaEquals nm (at_ t 1) SEQUENCE) eqn:S1; [|rewrite A1 in S1; rewrite not_seq_root by auto; cbn; lia]. rewrite A3 by auto. clear A3. rewrite A1 in S1. destruct (seq_root _ C1 S1) as [E1 _]. rewrite E1, app_length. cbn [length].
  pose proof (events_pos (tree_at (Term_ExtractSubterm (Term_ExtractSubterm t 1) 1) 0)).
  destruct (copulaEquals nm (at_ (Term_ExtractSubterm (Term_ExtractSubterm t 1) 1) 0) SEQUENCE) eqn:S2; [|rewrite not_seq_root by auto; cbn; lia].
  destruct (seq_root _ C2 S2) as [E2 _]. rewrite E2, app_length. cbn [length]. pose proof (events_pos (tree_at (Term_ExtractSubterm (Term_ExtractSubterm (Term_ExtractSubterm t 1) 1) 1) 0)). lia.
Qed.
End Events.
