(** What the invariants of the memory mean (C34, C36). *)
From Coq Require Import ZArith List Bool Permutation Reals Lra.
From Flocq Require Import IEEE754.BinarySingleNaN.
From Verif Require Import Base F64 TruthM TruthS TruthP StampM TermM TermS TermP NamesM EventM InferenceM TableM UsageM RingM StackM InvIndexM InvIndexS InvIndexP InvIndexP2 MemoryM MemoryS MemoryP UsefulP EQueueP MemoryP2.
From Verif Require PQueueM PQueueP HashTableM HashTableP SubstP.
Local Open Scope nat_scope.
Section Inv.
Variable strict : bool.
Variable nm : names.
Variables cmax buckets atoms bmax gmax layers : nat.
Variable Tm : term -> Prop.
Hypothesis P1 : 0 < cmax.
Hypothesis P2 : 0 < buckets.
Hypothesis P4 : 0 < bmax.
Hypothesis P5 : 0 < gmax.
Lemma cinv_consistent m : cinv nm cmax atoms m -> consistent nm cmax atoms m.
Proof.
  intros C. unfold consistent.
  assert (SP : forall c t, In (c, t) (pairs_of m) <-> exists k, stores m c k /\ c_term k = t) by (intros c0 t0; apply (stores_pairs nm cmax buckets atoms P1 P2); assumption).
  assert (FD : forall t, exists r, FindConceptByTerm m t = Ok r /\ forall c, r = Some c <-> exists k, stores m c k /\ c_term k = t).
  { intros t. destruct (find_ok nm cmax atoms m t C) as (r & E & H). exists r. split; auto. intros c. rewrite H. apply SP. }
  split; [exact FD|]. split; [|split; [|split; [|split; [|split]]]].
  - intros c k d k' H1 H2 E. destruct (FD (c_term k)) as (r & _ & H).
    assert (r = Some c) by (apply H; eauto). assert (r = Some d) by (apply H; eauto). congruence.
  - apply (ci_idinj _ _ _ m C).
  - apply (qinv_nodup cmax buckets P1 P2 cmax (m_concepts m)). apply C.
  - destruct (qinv_count cmax buckets P1 P2 cmax (m_concepts m) (ci_q _ _ _ m C)) as [A B]. unfold concept_count. unfold addrs in A. unfold stored_slots. lia.
  - intros c H. destruct (SP c (c_term (nth c (m_store m) concept0))) as [X _]. destruct X as (k & X & _); [apply pairs_in; auto|]. eauto.
  - intros a Ha. destruct (ci_idx _ _ _ m C) as (ch & R1 & EX & L1 & L2). destruct (Z.eq_dec a 0) as [->|N].
    + exists []. split; [unfold concepts_under, GetConceptChain; cbn [Z.eqb rbind]; destruct (length (ix_storage (m_index m))); reflexivity|]. split; [constructor|]. intros c; split; [intros []|]. intros (Q & _). discriminate.
    + destruct (nth_error ch (nat_of a)) as [l|] eqn:E.
      2:{ apply nth_error_None in E. unfold nat_of in E. lia. }
      exists l. split; [apply (concepts_under_ok (IsSimpleAtom nm) (m_index m) ch); auto; lia|]. destruct (EX _ _ E) as [D1 D2]. split; auto.
      intros c. rewrite D2. split.
      * intros (t & a' & S0 & S1 & S2 & S3). unfold nat_of in S3. assert (a' = a) as ->.
        { assert (0 < a')%Z by (unfold IsSimpleAtom in S1; destruct (Z.ltb_spec 0 a'); [auto|discriminate]). lia. }
        split; auto. apply SP in S0 as (k & K1 & <-). exists k. auto.
      * intros (S1 & k & K & S2). exists (c_term k), a. split; [apply SP; eauto|]. auto.
Qed.
Lemma inv_queues m : minv strict nm cmax atoms bmax gmax layers Tm m -> queues_in_order bmax gmax layers m.
Proof.
  intros I. unfold queues_in_order.
  assert (LN : forall n ty q, 0 < n -> qok strict n ty q -> length (queued q) <= n).
  { intros n ty q Hn Q. unfold queued. rewrite map_length. destruct (qinv_count 1 1 Nat.lt_0_1 Nat.lt_0_1 n (eq_q q) (qo_inv _ _ _ _ Q)) as [A B].
    unfold addrs in A. rewrite map_length in A. lia. }
  assert (IT : forall n ty q e, qok strict n ty q -> In e (queued q) -> e_type e = ty /\ fltb (confidence (e_truth e)) (fdec 1 100) = false).
  { intros n ty q e Q H. rewrite queued_qitems in H. apply in_map_iff in H as (x & <- & H). pose proof (qo_items _ _ _ _ Q) as F. rewrite Forall_forall in F.
    destruct (F x H) as (A & B & _). split; auto. }
  pose proof (mi_g _ _ _ _ _ _ _ _ m I) as G. rewrite Forall_forall in G.
  split; [apply (LN bmax EVENT_TYPE_BELIEF); auto; apply I|]. split; [apply I|]. split; [intros q Hq; apply (LN gmax EVENT_TYPE_GOAL); auto|].
  split; [apply pairwise_nodup, I|]. split; [apply pairwise_nodup, I|].
  split; [intros e He; apply (IT bmax EVENT_TYPE_BELIEF (m_beliefs m)); auto; apply I|]. intros q e Hq He. apply (IT gmax EVENT_TYPE_GOAL q); auto.
Qed.
Lemma inv_selection m q : minv strict nm cmax atoms bmax gmax layers Tm m -> q = m_beliefs m \/ In q (m_goals m) ->
  match PopEvent q with
  | (q', None) => q' = q /\ qitems q = []
  | (q', Some (e, p)) => Permutation (qitems q) ((e, p) :: qitems q') /\ forall e' p', In (e', p') (qitems q) -> num_ltb p p' = false
  end.
Proof.
  intros I HQ.
  assert (X : exists n ty, 0 < n /\ qok strict n ty q).
  { destruct HQ as [->|HQ]; [exists bmax, EVENT_TYPE_BELIEF; split; auto; apply I|]. exists gmax, EVENT_TYPE_GOAL. split; auto.
    pose proof (mi_g _ _ _ _ _ _ _ _ m I) as G. rewrite Forall_forall in G. auto. }
  destruct X as (n & ty & Hn & Q). destruct (PopEvent q) as [q' r] eqn:E. destruct (pop_ok strict n ty q q' r Hn Q E) as [_ H].
  destruct r as [[e p]|]; [|exact H]. destruct H as (H1 & _ & H2). split; auto. intros e' p' H. apply (H2 (e', p') H).
Qed.
End Inv.
Section Evict.
Variable strict : bool.
Variable nm : names.
Variable powdecay : Z -> f64.
Variable penalty : nat -> f64.
Variables cmax buckets atoms bmax gmax layers : nat.
Variable Tm : term -> Prop.
Hypothesis SZ : sizes_ok cmax buckets atoms bmax gmax layers.
Hypothesis PEN : strict = true -> penalty_ok penalty.
Hypothesis T0 : Tm zero_term.
Hypothesis TE : forall t j, Tm t -> Tm (Term_ExtractSubterm t j).
Hypothesis TR : forall t, Tm t -> atoms_in_range atoms t.
Lemma conceptualised_ok m t now : minv strict nm cmax atoms bmax gmax layers Tm m -> Tm t -> conceptualised nm cmax atoms m t now.
Proof.
  intros I HT. pose proof SZ as (P1 & P2 & P3 & P4 & P5 & P6). unfold conceptualised.
  pose proof (mi_c _ _ _ _ _ _ _ _ m I) as C.
  destruct (conceptualize_ok strict nm powdecay penalty cmax buckets atoms bmax gmax layers P1 P2 P4 P5 P6 P3 PEN Tm T0 TE TR m t now I HT) as (m' & c & E & I' & HC & O & _).
  pose proof (mi_c _ _ _ _ _ _ _ _ m' I') as C'. exists m', c. split; auto.
  destruct (cinv_consistent nm cmax buckets atoms bmax gmax layers Tm P1 P2 P4 P5 m' C') as (FD & _ & _ & _ & _ & _ & IX).
  assert (LS : length (m_store m) = cmax) by apply C.
  assert (SP : forall c t, In (c, t) (pairs_of m) <-> exists k, stores m c k /\ c_term k = t) by (intros c0 t0; apply (stores_pairs nm cmax buckets atoms P1 P2); assumption).
  assert (SP' : forall c t, In (c, t) (pairs_of m') <-> exists k, stores m' c k /\ c_term k = t) by (intros c0 t0; apply (stores_pairs nm cmax buckets atoms P1 P2); assumption).
  assert (FK : forall k, stores m' c k -> c_term k = t -> FindConceptByTerm m' t = Ok (Some c)).
  { intros k K1 K2. destruct (FD t) as (r & -> & H). f_equal. apply H. eauto. }
  inversion O as [c0 Y0 Y1 Y2| |m1 c0 Y0 Y1 Y2 Y3 Y4 CR Y5 Y6|m1 e rest Y0 Y1 Y2 Y3 Y3' Y4 Y5 Y6 CR Y7 Y8]; [subst c0; subst m'|subst c0; subst m1|subst c; subst m1].
  - assert (X : exists k, stores m c k /\ c_term k = t) by (apply SP; auto). split; [destruct X as (k & K1 & K2); eauto|left; auto].
  - destruct CR as (A1 & A2 & A3).
    pose proof (Permutation_map PQueueM.address Y4) as PM. cbn [map PQueueM.address] in PM.
    assert (ST : forall d k, stores m' d k <-> (d = c /\ k = new_concept (m_nextid m) t now) \/ stores m d k).
    { intros d k. unfold stores. rewrite A1. rewrite nth_error_upd. split.
      - intros [X Y]. apply (Permutation_in _ PM) in X as [<-|X].
        + left. rewrite Nat.eqb_refl in Y. replace (c <? length (m_store m)) with true in Y by (symmetry; apply Nat.ltb_lt; lia). cbn in Y. split; congruence.
        + right. split; [exact X|]. destruct (Nat.eqb_spec d c) as [->|]; [contradiction|]. exact Y.
      - intros [[-> ->]|[X Y]].
        + split; [apply (Permutation_in _ (Permutation_sym PM)); left; reflexivity|]. rewrite Nat.eqb_refl. replace (c <? length (m_store m)) with true by (symmetry; apply Nat.ltb_lt; lia). reflexivity.
        + split; [apply (Permutation_in _ (Permutation_sym PM)); right; exact X|]. destruct (Nat.eqb_spec d c) as [->|]; [contradiction|]. exact Y. }
    split; [apply (FK (new_concept (m_nextid m) t now)); [apply ST; auto|reflexivity]|]. right. left.
    split; [intros d k K1 K2; apply (Y0 d); apply SP; eauto|].
    destruct (qinv_count cmax buckets P1 P2 cmax (m_concepts m) (ci_q _ _ _ m C)) as [B1 _]. unfold addrs in B1.
    split; [unfold concept_count, stored_slots; lia|]. split; [unfold concept_count; apply Permutation_length in PM; exact PM|].
    exists (new_concept (m_nextid m) t now). split; [repeat split|exact ST].
  - destruct CR as (A1 & A2 & A3).
    set (c := PQueueM.address e) in *.
    pose proof (Permutation_map PQueueM.address Y6) as PM. cbn [map PQueueM.address] in PM.
    pose proof (Permutation_map PQueueM.address Y5) as PM0. cbn [map] in PM0. fold c in PM0.
    assert (ST : forall d k, stores m' d k <-> (d = c /\ k = new_concept (m_nextid m) t now) \/ (d <> c /\ stores m d k)).
    { intros d k. unfold stores. rewrite A1. rewrite nth_error_upd. split.
      - intros [X Y]. apply (Permutation_in _ PM) in X as [<-|X].
        + left. fold c in Y |- *. rewrite Nat.eqb_refl in Y. replace (c <? length (m_store m)) with true in Y by (symmetry; apply Nat.ltb_lt; lia). cbn in Y. split; congruence.
        + right. destruct (Nat.eqb_spec d c) as [->|Hn]; [contradiction|]. split; auto. split; [|exact Y].
          apply (Permutation_in _ (Permutation_sym PM0)). right. exact X.
      - intros [[-> ->]|[Hn [X Y]]].
        + split; [apply (Permutation_in _ (Permutation_sym PM)); left; reflexivity|]. rewrite Nat.eqb_refl. replace (c <? length (m_store m)) with true by (symmetry; apply Nat.ltb_lt; lia). reflexivity.
        + apply (Permutation_in _ PM0) in X as [X|X]; [congruence|].
          split; [apply (Permutation_in _ (Permutation_sym PM)); right; exact X|]. destruct (Nat.eqb_spec d c) as [->|]; [contradiction|]. exact Y. }
    split; [apply (FK (new_concept (m_nextid m) t now)); [apply ST; auto|reflexivity]|]. right. right.
    split; [intros d k K1 K2; apply (Y0 d); apply SP; eauto|].
    destruct (qinv_count cmax buckets P1 P2 cmax (m_concepts m) (ci_q _ _ _ m C)) as [B1 _]. unfold addrs in B1.
    split; [unfold concept_count, stored_slots; lia|].
    split; [unfold concept_count, stored_slots; apply Permutation_length in PM; apply Permutation_length in PM0; cbn [length] in *; lia|].
    destruct (nth_error (m_store m) c) as [old|] eqn:EO; [|apply nth_error_None in EO; lia].
    assert (SO : stores m c old) by (split; [apply (Permutation_in _ (Permutation_sym PM0)); left; reflexivity|exact EO]).
    exists (new_concept (m_nextid m) t now), old, (PQueueM.priority e). split; [repeat split|]. split; [exact SO|]. split; [|split; [|split; [exact ST|split]]].
    + unfold has_priority. apply (Permutation_in _ (Permutation_sym Y5)). left. unfold c. destruct e; reflexivity.
    + intros d q Hq. apply (Y2 _ Hq).
    + intros HD. destruct (FD (c_term old)) as (r & -> & HR). destruct r as [d|]; auto. exfalso.
      destruct (proj1 (HR d) eq_refl) as (k & K1 & K2). apply ST in K1 as [[-> ->]|[Hn K1]]; [cbn in K2; congruence|].
      apply Hn. destruct (cinv_consistent nm cmax buckets atoms bmax gmax layers Tm P1 P2 P4 P5 m C) as (_ & U & _). apply (U d k c old); auto.
    + intros a Ha. destruct (IX a Ha) as (l & E1 & _ & HL). exists l. split; auto. rewrite HL. split; intros [X Y]; split; auto.
      * destruct Y as (k & K1 & K2). apply ST in K1 as [[_ ->]|[Hn _]]; [exact K2|contradiction].
      * exists (new_concept (m_nextid m) t now). split; [apply ST; auto|exact Y].
Qed.
End Evict.
