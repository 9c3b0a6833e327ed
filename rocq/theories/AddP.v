(** Proofs about adding events to the memory (C36, C64). *)
From Coq Require Import ZArith List Bool Permutation Lia.
From Flocq Require Import IEEE754.BinarySingleNaN.
From Verif Require Import Base F64 TruthM StampM StampP TermM TermP NamesM EventM InferenceM TableM UsageM RingM RingP InvIndexM InvIndexS MemoryM MemoryS MemoryP UsefulP EQueueP MemoryP2 MemoryP3 AddS.
From Verif Require PQueueM PQueueP.
Local Open Scope nat_scope.
#[local] Opaque fofZ fdec fadd fmul fdiv fltb fleb MIN_CONFIDENCE Term_ExtractSubterm RevisionAndChoice Table_AddAndRevise OccurrenceTimeIndex_Add Term_Complexity Conceptualize.
Lemma okE {A} (x y : A) : Ok x = Ok y -> x = y. Proof. congruence. Qed.
Section Add.
Variable strict : bool.
Variable nm : names.
Variable powdecay : Z -> f64.
Variable penalty : nat -> f64.
Variables cmax buckets atoms bmax gmax layers : nat.
Hypothesis SZ : sizes_ok cmax buckets atoms bmax gmax layers.
Hypothesis PEN : strict = true -> penalty_ok penalty.
Variable Tm : term -> Prop.
Hypothesis T0 : Tm zero_term.
Hypothesis TE : forall t j, Tm t -> Tm (Term_ExtractSubterm t j).
Hypothesis TR : forall t, Tm t -> atoms_in_range atoms t.
Notation minv := (minv strict nm cmax atoms bmax gmax layers Tm).
Notation Add := (AddEvent nm powdecay penalty layers).

(** *** the queues *)
Lemma joins_ok n ty q e p : 0 < n -> qok strict n ty q -> is_nan p = false -> exists q' b, epush q e p = Ok (q', b) /\ joins n q e (num_of p) q' b.
Proof.
  intros Hn [I L F] NP. unfold epush. rewrite NP. destruct (PQueueM.push num_ltb num0 (eq_q q) (num_of p)) as [q1 fb] eqn:E.
  assert (LQ : length (queued q) = PQueueM.amount (eq_q q)).
  { unfold queued. rewrite map_length. destruct (qinv_count 1 1 Nat.lt_0_1 Nat.lt_0_1 n (eq_q q) I) as [A B]. unfold addrs in A. rewrite map_length in A. lia. }
  assert (MX : PQueueM.maxElements (eq_q q) = n) by apply I.
  pose proof I as (W & O & _).
  assert (HM : 0 < PQueueM.maxElements (eq_q q)) by lia.
  destruct (qpush 1 1 Nat.lt_0_1 Nat.lt_0_1 n (eq_q q) (num_of p) q1 fb Hn I E) as (I1 & C).
  destruct (PQueueP.push_spec num_ltb num0 num_ltb_asym num_nlt_trans (eq_q q) (num_of p) W O HM q1 fb E) as (_ & _ & _ & D).
  destruct C as [C|[C|C]].
  - destruct C as (C1 & a & -> & C2 & C3 & C4). cbn [PQueueM.added PQueueM.address]. eexists _, true. split; [reflexivity|]. left.
    split; [lia|]. split; auto. rewrite !qitems_look. cbn [eq_store eq_q]. apply (Permutation_map (look (upd (eq_store q) a e))) in C4. rewrite C4. cbn [map].
    rewrite look_upd by exact C3. unfold look at 1. cbn [PQueueM.address PQueueM.priority]. rewrite nth_upd_same by lia. reflexivity.
  - destruct C as (C1 & -> & -> & C2). cbn [PQueueM.added]. eexists _, false. split; [reflexivity|]. right. left. split; [lia|]. split; auto. split; [destruct q; reflexivity|].
    intros x px H. rewrite qitems_look in H. apply in_map_iff in H as (it & X & H). injection X as <- <-. apply C2. exact H.
  - destruct C as (C1 & it & rest & -> & C2 & C3 & C4 & C5 & C6 & C7). cbn [PQueueM.added PQueueM.address]. eexists _, true. split; [reflexivity|]. right. right. split; [lia|]. split; auto.
    set (a := PQueueM.address it) in *. exists (nth a (eq_store q) event0), (PQueueM.priority it), (map (look (eq_store q)) rest). split; [|split; [|split]].
    + rewrite qitems_look. apply (Permutation_map (look (eq_store q))) in C6. exact C6.
    + rewrite !qitems_look. cbn [eq_store eq_q]. apply (Permutation_map (look (upd (eq_store q) a e))) in C7. rewrite C7. cbn [map].
      rewrite look_upd by exact C5. unfold look at 1. cbn [PQueueM.address PQueueM.priority]. rewrite nth_upd_same by lia. reflexivity.
    + destruct D as [(D & _)|[(_ & _ & D & _)|(_ & _ & e0 & D1 & D2 & D3 & _)]]; [lia|discriminate D|]. injection D1 as D1 D1'. subst e0. exact D3.
    + intros y py H. rewrite qitems_look in H. apply in_map_iff in H as (jt & X & H). injection X as <- <-. auto.
Qed.
Lemma existsb_false {A} (f : A -> bool) l : existsb f l = false -> forall x, In x l -> f x = false.
Proof. intros H x Hx. destruct (f x) eqn:E; auto. assert (existsb f l = true) by (apply existsb_exists; eauto). congruence. Qed.
Lemma find_stores m t : minv m -> exists r, FindConceptByTerm m t = Ok r /\ forall c, r = Some c <-> exists k, stores m c k /\ c_term k = t.
Proof. intros I. pose proof SZ as (P1 & P2 & P3 & P4 & P5 & P6). apply (cinv_consistent nm cmax buckets atoms bmax gmax layers Tm P1 P2 P4 P5 m (mi_c _ _ _ _ _ _ _ _ m I)). Qed.
Lemma stores_uniq m c k k' : stores m c k -> stores m c k' -> k = k'. Proof. intros [_ A] [_ B]. congruence. Qed.
Lemma stores_read m c k : stores m c k -> cread m c = Ok k. Proof. intros [_ A]. unfold cread. rewrite A. reflexivity. Qed.
Lemma stores_term_uniq m c k d k' : minv m -> stores m c k -> stores m d k' -> c_term k = c_term k' -> c = d /\ k = k'.
Proof.
  intros I A B E. pose proof SZ as (P1 & P2 & P3 & P4 & P5 & P6). pose proof (cinv_consistent nm cmax buckets atoms bmax gmax layers Tm P1 P2 P4 P5 m (mi_c _ _ _ _ _ _ _ _ m I)) as (_ & U & _).
  assert (c = d) as -> by (eapply U; eauto). split; auto. eapply stores_uniq; eauto.
Qed.
Lemma admission m e p layer : minv m -> is_nan p = false -> e_type e = EVENT_TYPE_BELIEF \/ e_type e = EVENT_TYPE_GOAL ->
  (told_before m e -> addCyclingEvent layers m (EVal e) p layer = Ok (m, false)) /\
  (~ told_before m e -> e_type e = EVENT_TYPE_BELIEF -> exists q' b, addCyclingEvent layers m (EVal e) p layer = Ok (set_beliefs m q', b) /\ joins bmax (m_beliefs m) e (num_of p) q' b) /\
  (~ told_before m e -> e_type e = EVENT_TYPE_GOAL -> exists q q' b, nth_error (m_goals m) (Nat.min (layers - 1) (layer + 1)) = Some q /\
     addCyclingEvent layers m (EVal e) p layer = Ok (set_goals m (upd (m_goals m) (Nat.min (layers - 1) (layer + 1)) q'), b) /\ joins gmax q e (num_of p) q' b).
Proof.
  intros I NP TY. pose proof SZ as (P1 & P2 & P3 & P4 & P5 & P6). destruct (find_stores m (e_term e) I) as (r & F & HF).
  assert (ST : match r with Some c => exists k, stores m c k /\ c_term k = e_term e | None => forall c k, stores m c k -> c_term k <> e_term e end).
  { destruct r as [c|]; [apply HF; reflexivity|]. intros c k A B. assert (X : None = Some c) by (apply HF; eauto). discriminate X. }
  unfold addCyclingEvent. cbn [ev rbind].
  assert (RA : rassert ((e_type e =? EVENT_TYPE_BELIEF)%Z || (e_type e =? EVENT_TYPE_GOAL)%Z) = Ok tt) by (destruct TY as [-> | ->]; reflexivity). rewrite RA. cbn [rbind].
  unfold containsBeliefOrGoal. rewrite F. cbn [rbind].
  assert (U : forall c k k', r = Some c -> stores m c k -> c_term k = e_term e -> forall d, stores m d k' -> c_term k' = e_term e -> k = k').
  { intros c k k' _ A B d C D. eapply stores_term_uniq; eauto. congruence. }
  destruct TY as [TY|TY]; rewrite TY; [change (EVENT_TYPE_BELIEF =? EVENT_TYPE_GOAL)%Z with false|change (EVENT_TYPE_GOAL =? EVENT_TYPE_BELIEF)%Z with false; change (EVENT_TYPE_GOAL =? EVENT_TYPE_GOAL)%Z with true].
  - change (EVENT_TYPE_BELIEF =? EVENT_TYPE_BELIEF)%Z with true. cbn [andb].
    assert (PUSH : exists q' b, rbind (epush (m_beliefs m) e p) (fun qb => Ok (set_beliefs m (fst qb), snd qb)) = Ok (set_beliefs m q', b) /\ joins bmax (m_beliefs m) e (num_of p) q' b).
    { destruct (joins_ok bmax EVENT_TYPE_BELIEF (m_beliefs m) e p P4 (mi_b _ _ _ _ _ _ _ _ m I) NP) as (q' & b & E & J). exists q', b. rewrite E. split; [reflexivity|exact J]. }
    destruct (containsEvent (m_beliefs m) e) eqn:CE.
    { cbn [rbind]. split; [intros _; reflexivity|]. assert (TB : told_before m e) by (left; split; auto; left; apply existsb_exists in CE as (x & A & B); eauto).
      split; intros NT; contradiction. }
    pose proof (existsb_false _ _ CE) as NC. destruct r as [c|].
    + destruct ST as (k & S & TK). rewrite (stores_read _ _ _ S). cbn [rbind].
      set (b1 := if (e_occ e =? OCCURRENCE_ETERNAL)%Z then _ else _).
      set (b2 := negb (e_type (c_belief k) =? EVENT_TYPE_DELETED)%Z && (e_occ e =? OCCURRENCE_ETERNAL)%Z && fltb (confidence (e_truth e)) (confidence (e_truth (c_belief k)))).
      assert (TB : told_before m e <-> b1 = true \/ b2 = true).
      { unfold b1, b2. unfold told_before. rewrite TY. split.
        - intros [(_ & [(x & A & B)|(d & k' & A & B & C)])|(X & _)]; [rewrite (NC x A) in B; discriminate| |discriminate].
          assert (k' = k) as -> by (symmetry; eapply U; eauto). destruct C as [(C1 & C2 & C3)|(C1 & C2 & C3)].
          + rewrite (proj2 (Z.eqb_eq _ _) C1). rewrite (proj2 (Z.eqb_neq _ _) C2). cbn [negb andb]. exact C3.
          + rewrite (proj2 (Z.eqb_neq _ _) C1). rewrite (proj2 (Z.eqb_neq _ _) C2). cbn [negb andb]. auto.
        - intros X. left. split; auto. right. exists c, k. split; auto. split; auto. unfold there.
          destruct (Z.eqb_spec (e_occ e) OCCURRENCE_ETERNAL) as [EO|EO].
          + left. split; auto. destruct (Z.eqb_spec (e_type (c_belief k)) EVENT_TYPE_DELETED) as [Q|Q]; cbn [negb andb] in X; [destruct X; discriminate|]. auto.
          + right. split; auto. destruct X as [X|X]; [|rewrite andb_false_r in X; discriminate].
            destruct (Z.eqb_spec (e_type (c_spike k)) EVENT_TYPE_DELETED) as [Q|Q]; cbn [negb andb] in X; [discriminate|auto]. }
      destruct b1; [split; [intros _; reflexivity|]; split; intros NT; exfalso; apply NT, TB; auto|]. cbn [rbind].
      destruct b2; [split; [intros _; reflexivity|]; split; intros NT; exfalso; apply NT, TB; auto|].
      split; [intros X; apply TB in X as [X|X]; discriminate|]. split; [intros _ _; exact PUSH|intros _ X; discriminate X].
    + cbn [rbind]. split; [|split; [intros _ _; exact PUSH|intros _ X; discriminate X]].
      intros [(_ & [(x & A & B)|(d & k' & A & B & C)])|(X & _)]; [rewrite (NC x A) in B; discriminate| |rewrite TY in X; discriminate]. exfalso. apply (ST d k'); auto.
  - cbn [andb].
    assert (PUSH : exists q q' b, nth_error (m_goals m) (Nat.min (layers - 1) (layer + 1)) = Some q /\
       match nth_error (m_goals m) (Nat.min (layers - 1) (layer + 1)) with None => UB | Some q => rbind (epush q e p) (fun qb => Ok (set_goals m (upd (m_goals m) (Nat.min (layers - 1) (layer + 1)) (fst qb)), snd qb)) end
       = Ok (set_goals m (upd (m_goals m) (Nat.min (layers - 1) (layer + 1)) q'), b) /\ joins gmax q e (num_of p) q' b).
    { set (l := Nat.min (layers - 1) (layer + 1)). destruct (nth_error (m_goals m) l) as [q|] eqn:EQ.
      2: { apply nth_error_None in EQ. rewrite (mi_gl _ _ _ _ _ _ _ _ m I) in EQ. unfold l in EQ. lia. }
      pose proof (mi_g _ _ _ _ _ _ _ _ m I) as G. rewrite Forall_forall in G. apply nth_error_In in EQ as HI.
      destruct (joins_ok gmax EVENT_TYPE_GOAL q e p P5 (G q HI) NP) as (q' & b & E & J). exists q, q', b. rewrite E. auto. }
    set (g := match r with Some c => _ | None => _ end).
    assert (G : exists b, g = Ok b /\ (b = true <-> exists c k, stores m c k /\ c_term k = e_term e /\ there (c_goal k) /\ Event_Equal (c_goal k) e = true)).
    { unfold g. destruct r as [c|].
      - destruct ST as (k & S & TK). rewrite (stores_read _ _ _ S). cbn [rbind]. eexists. split; [reflexivity|]. unfold there. split.
        + intros X. apply andb_prop in X as [X1 X2]. exists c, k. apply negb_true_iff, Z.eqb_neq in X1. auto.
        + intros (d & k' & A & B & C & D). assert (k' = k) as -> by (symmetry; eapply U; eauto). rewrite (proj2 (Z.eqb_neq _ _) C), D. reflexivity.
      - eexists. split; [reflexivity|]. split; [discriminate|]. intros (d & k' & A & B & _). exfalso. apply (ST d k'); auto. }
    destruct G as (b & -> & HB). cbn [rbind].
    assert (TB : told_before m e <-> b = true \/ existsb (fun q => containsEvent q e) (m_goals m) = true).
    { unfold told_before. rewrite TY. split.
      - intros [(X & _)|(_ & [(q & x & A & B & C)|X])]; [discriminate| |left; apply HB; exact X]. right. apply existsb_exists. exists q. split; auto. apply existsb_exists. eauto.
      - intros X. right. split; auto. destruct X as [X|X]; [right; apply HB; exact X|left]. apply existsb_exists in X as (q & A & B). apply existsb_exists in B as (x & C & D). eauto. }
    destruct b; [split; [intros _; reflexivity|]; split; intros NT; exfalso; apply NT, TB; auto|].
    destruct (existsb _ (m_goals m)) eqn:EX; [split; [intros _; reflexivity|]; split; intros NT; exfalso; apply NT, TB; auto|].
    split; [intros X; apply TB in X as [X|X]; discriminate|]. split; [intros _ X; discriminate X|]. intros _ _.
    destruct r as [c|]; [destruct ST as (k & S & TK); rewrite (stores_read _ _ _ S)|]; cbn [rbind]; exact PUSH.
Qed.
End Add.
