(** Proofs about the event queues of MemoryM (C36). *)
From Coq Require Import ZArith List Bool Permutation Reals Lra.
From Flocq Require Import Core.Core IEEE754.BinarySingleNaN.
From Verif Require Import Base F64 TruthM TruthS TruthP StampM TermM NamesM EventM InferenceM TableM UsageM RingM InvIndexM InvIndexS MemoryM MemoryS MemoryP.
From Verif Require PQueueM PQueueP.
Local Open Scope nat_scope.
Notation qinv n := (PQueueP.pq_inv num_ltb num0 (fresh_items n) n).

(** *** pairwise relations *)
Definition pairwise {A} (P : A -> A -> Prop) (l : list A) : Prop := ForallOrdPairs P l.
Lemma pairwise_cons {A} (P : A -> A -> Prop) x l : pairwise P (x :: l) <-> Forall (P x) l /\ pairwise P l.
Proof. split; [inversion 1; auto|]. intros [H1 H2]. constructor; auto. Qed.
Lemma pairwise_perm {A} (P : A -> A -> Prop) (l l' : list A) : (forall a b, P a b -> P b a) -> Permutation l l' -> pairwise P l -> pairwise P l'.
Proof.
  intros S H. induction H as [|x l l' H IH|x y l|l l' l'' H1 IH1 H2 IH2]; auto.
  - rewrite !pairwise_cons. intros [A1 A2]. split; auto. rewrite Forall_forall in *. intros z Hz. apply A1. apply (Permutation_in _ (Permutation_sym H)). exact Hz.
  - rewrite !pairwise_cons. intros (A1 & A2 & A3). inversion A1; subst. split; [constructor; auto|]. split; auto.
Qed.
Lemma differ_sym a b : differ a b -> differ b a. Proof. unfold differ. tauto. Qed.
Lemma pairwise_nodup l : pairwise differ l <-> no_duplicates l.
Proof.
  unfold no_duplicates. induction l as [|x l IH].
  - split; [intros _ i j a b _ H; destruct i; discriminate|]. constructor.
  - rewrite pairwise_cons, IH. split.
    + intros [H1 H2] [|i] [|j] a b L E1 E2; cbn in E1, E2; try lia.
      * injection E1 as ->. rewrite Forall_forall in H1. apply H1. eapply nth_error_In; eauto.
      * apply (H2 i j); auto. lia.
    + intros H. split.
      * apply Forall_forall. intros y Hy. apply In_nth_error in Hy as (j & E). apply (H 0 (S j)); auto. lia.
      * intros i j a b L E1 E2. apply (H (S i) (S j)); auto. lia.
Qed.
Lemma pairwise_sub {A} (P : A -> A -> Prop) l1 l2 : pairwise P (l1 ++ l2) -> pairwise P l1 /\ pairwise P l2.
Proof.
  induction l1 as [|x l1 IH]; cbn.
  - intros H; split; auto. constructor.
  - rewrite !pairwise_cons. intros [H1 H2]. apply IH in H2 as [H2 H3]. rewrite Forall_app in H1. tauto.
Qed.

(** *** one queue *)
Definition pos_prio (p : num64) : Prop := is_finite (proj1_sig p) = true /\ (0 < B2R (proj1_sig p) <= 1)%R.
(** the lemmas come in two strengths: with [strict] priorities are in range (C54), without it only
    the structure is kept *)
Section Q.
Variable strict : bool.
Definition spos (p : num64) : Prop := strict = true -> pos_prio p.
Definition item_ok (ty : Z) (x : event * num64) : Prop :=
  e_type (fst x) = ty /\ fltb (confidence (e_truth (fst x))) (MIN_CONFIDENCE f64A) = false /\ spos (snd x).
Record qok (n : nat) (ty : Z) (q : equeue) : Prop := {
  qo_inv : qinv n (eq_q q);
  qo_st : length (eq_store q) = n;
  qo_items : Forall (item_ok ty) (qitems q)
}.
Lemma queued_qitems q : queued q = map fst (qitems q).
Proof. unfold queued, qitems. rewrite map_map. reflexivity. Qed.
Definition look (st : list event) (it : PQueueM.item num64) : event * num64 := (nth (PQueueM.address it) st event0, PQueueM.priority it).
Lemma qitems_look q : qitems q = map (look (eq_store q)) (PQueueM.contents (eq_q q)). Proof. reflexivity. Qed.
Lemma look_upd st a e l : ~ In a (map PQueueM.address l) -> map (look (upd st a e)) l = map (look st) l.
Proof.
  intros H. apply map_ext_in. intros it Hi. unfold look. f_equal. apply nth_upd_diff. intros ->. apply H. apply in_map. exact Hi.
Qed.
Lemma num_of_val p : is_nan p = false -> proj1_sig (num_of p) = p.
Proof. intros H. unfold num_of. destruct (bool_dec (is_nan p) false); [reflexivity|congruence]. Qed.
(** membership survives, at most one item is lost *)
Definition shrunk {A} (l l' : list A) : Prop := Permutation l l' \/ exists x, Permutation l (x :: l').
Lemma shrunk_incl {A} (l l' : list A) x : shrunk l l' -> In x l' -> In x l.
Proof. intros [H|[y H]] Hx; apply (Permutation_in _ (Permutation_sym H)); [|right]; auto. Qed.
Lemma shrunk_pairwise {A} (P : A -> A -> Prop) (l l' : list A) : (forall a b, P a b -> P b a) -> shrunk l l' -> pairwise P l -> pairwise P l'.
Proof. intros S [H|[x H]] HP; apply (pairwise_perm P l _ S H) in HP; auto. apply pairwise_cons in HP. tauto. Qed.
Lemma shrunk_map {A B} (f : A -> B) l l' : shrunk l l' -> shrunk (map f l) (map f l').
Proof. intros [H|[x H]]; [left|right; exists (f x)]; apply (Permutation_map f) in H; exact H. Qed.
Lemma epush_ok n ty q e p q' b : 0 < n -> qok n ty q -> e_type e = ty ->
  fltb (confidence (e_truth e)) (MIN_CONFIDENCE f64A) = false -> spos (num_of p) -> epush q e p = Ok (q', b) ->
  qok n ty q' /\ (q' = q \/ exists l, shrunk (qitems q) l /\ Permutation (qitems q') ((e, num_of p) :: l)).
Proof.
  intros Hn [I L F] HT HC HP. unfold epush. destruct (is_nan p) eqn:NP; [discriminate|].
  destruct (PQueueM.push num_ltb num0 (eq_q q) (num_of p)) as [q1 fb] eqn:E.
  destruct (qpush 1 1 Nat.lt_0_1 Nat.lt_0_1 n (eq_q q) (num_of p) q1 fb Hn I E) as (I1 & [C|[C|C]]).
  - destruct C as (C1 & a & -> & C2 & C3 & C4). cbn [PQueueM.added PQueueM.address]. intros [= <- <-].
    assert (Q : Permutation (qitems (mkEq q1 (upd (eq_store q) a e))) ((e, num_of p) :: qitems q)).
    { rewrite !qitems_look. cbn [eq_store eq_q]. apply (Permutation_map (look (upd (eq_store q) a e))) in C4. rewrite C4. cbn [map].
      rewrite look_upd by exact C3. unfold look at 1. cbn [PQueueM.address PQueueM.priority]. rewrite nth_upd_same by lia. reflexivity. }
    split.
    + constructor; cbn [eq_q eq_store]; auto; [rewrite upd_length; auto|].
      apply (Permutation_Forall (Permutation_sym Q)). constructor; auto. split; auto.
    + right. exists (qitems q). split; [left; reflexivity|exact Q].
  - destruct C as (C1 & -> & -> & C2). cbn [PQueueM.added]. intros [= <- <-]. split; [constructor; auto|]. left. destruct q; reflexivity.
  - destruct C as (C1 & it & rest & -> & C2 & C3 & C4 & C5 & C6 & C7). cbn [PQueueM.added PQueueM.address]. intros [= <- <-].
    set (a := PQueueM.address it) in *.
    assert (Q : Permutation (qitems (mkEq q1 (upd (eq_store q) a e))) ((e, num_of p) :: map (look (eq_store q)) rest)).
    { rewrite !qitems_look. cbn [eq_store eq_q]. apply (Permutation_map (look (upd (eq_store q) a e))) in C7. rewrite C7. cbn [map].
      rewrite look_upd by exact C5. unfold look at 1. cbn [PQueueM.address PQueueM.priority]. rewrite nth_upd_same by lia. reflexivity. }
    assert (Q0 : Permutation (qitems q) (look (eq_store q) it :: map (look (eq_store q)) rest)).
    { rewrite qitems_look. apply (Permutation_map (look (eq_store q))) in C6. exact C6. }
    split.
    + constructor; cbn [eq_q eq_store]; auto; [rewrite upd_length; auto|].
      apply (Permutation_Forall (Permutation_sym Q)). constructor; [split; auto|].
      apply (Permutation_Forall Q0) in F. inversion F; auto.
    + right. exists (map (look (eq_store q)) rest). split; [right; eauto|exact Q].
Qed.
Lemma pop_ok n ty q q' r : 0 < n -> qok n ty q -> PopEvent q = (q', r) ->
  qok n ty q' /\ match r with None => q' = q /\ qitems q = [] | Some x => Permutation (qitems q) (x :: qitems q') /\ item_ok ty x /\
     forall y, In y (qitems q) -> num_ltb (snd x) (snd y) = false end.
Proof.
  intros Hn [I L F]. unfold PopEvent. destruct (PQueueM.pop_max num_ltb num0 (eq_q q)) as [[q1 it]|] eqn:E; intros [= <- <-].
  - assert (I1 : qinv n q1).
    { pose proof (PQueueP.pq_step_inv num_ltb num0 num_ltb_asym num_nlt_trans (fresh_items n) n (eq_q q) (PQueueM.OpPopMax) Hn I) as X.
      cbn [PQueueM.pq_step] in X. rewrite E in X. exact X. }
    pose proof I as (W & O & _). pose proof (PQueueP.pop_max_spec num_ltb num0 num_ltb_asym num_nlt_trans (eq_q q) W O) as X. rewrite E in X.
    assert (P : Permutation (PQueueM.contents (eq_q q)) (it :: PQueueM.contents q1)) by tauto.
    assert (MX : forall y, In y (PQueueM.contents (eq_q q)) -> num_ltb (PQueueM.priority it) (PQueueM.priority y) = false) by tauto.
    assert (Q : Permutation (qitems q) (look (eq_store q) it :: qitems (mkEq q1 (eq_store q)))).
    { rewrite !qitems_look. cbn [eq_store eq_q]. apply (Permutation_map (look (eq_store q))) in P. exact P. }
    apply (Permutation_Forall Q) in F. inversion F as [|? ? F1 F2]; subst. split; [constructor; auto|]. split; [exact Q|]. split; [exact F1|].
    intros y Hy. rewrite qitems_look in Hy. apply in_map_iff in Hy as (z & <- & Hz). cbn. apply MX. exact Hz.
  - split; [constructor; auto|]. split; auto. unfold PQueueM.pop_max in E. destruct (PQueueM.amount (eq_q q) =? 0) eqn:Z0; [|discriminate].
    apply Nat.eqb_eq in Z0. unfold qitems, PQueueM.contents. rewrite Z0. reflexivity.
Qed.
(** decay: 0.9999 * p rounded is positive for every positive double p *)
Lemma durability_rg : u01 EVENT_DURABILITY /\ (1/2 < B2R EVENT_DURABILITY)%R.
Proof.
  assert (E : B2R EVENT_DURABILITY = (IZR 9006298534815518 / IZR 9007199254740992)%R).
  { unfold EVENT_DURABILITY. rewrite (val_closed _ false 9006298534815518 (-53)) by (vm_compute; reflexivity).
    unfold F2R. cbn [cond_Zopp Fnum Fexp]. unfold bpow, radix_val, radix2.
    replace (Z.pow_pos 2 53) with 9007199254740992%Z by reflexivity. reflexivity. }
  split; [split; [vm_compute; reflexivity|]|]; rewrite E; lra.
Qed.
Lemma rnd_pos x : (bpow radix2 (-1075) < x <= 1)%R -> (0 < rnd x)%R.
Proof.
  intros H. destruct (Rlt_or_le x (bpow radix2 (-1074))) as [L|L].
  - assert (U : ulp radix2 fexp64 x = bpow radix2 (-1074)).
    { apply ulp_FLT_small; [typeclasses eauto|]. rewrite Rabs_pos_eq; [|pose proof (bpow_gt_0 radix2 (-1075)); lra].
      apply Rlt_le_trans with (1 := L). apply bpow_le. lia. }
    pose proof (error_le_half_ulp radix2 fexp64 (fun z => negb (Z.even z)) x) as E. rewrite U in E.
    apply Rabs_le_inv in E. assert (B : (/ 2 * bpow radix2 (-1074) = bpow radix2 (-1075))%R).
    { change (-1074)%Z with (1 + -1075)%Z. rewrite bpow_plus. change (bpow radix2 1) with 2%R. lra. }
    unfold rnd, ZnearestE in *. rewrite B in E. lra.
  - assert (G : rnd (bpow radix2 (-1074)) = bpow radix2 (-1074)).
    { apply round_generic; [typeclasses eauto|]. apply generic_format_bpow. vm_compute. discriminate. }
    apply Rlt_le_trans with (rnd (bpow radix2 (-1074))); [rewrite G; apply bpow_gt_0|]. apply rnd_mono. exact L.
Qed.
Lemma pos_min (x : f64) : is_finite x = true -> (0 < B2R x)%R -> (bpow radix2 (-1074) <= B2R x)%R.
Proof.
  intros F P. pose proof (generic_format_B2R 53 1024 x) as G.
  pose proof (abs_B2R_ge_emin 53 1024 x) as H. rewrite Rabs_pos_eq in H by lra. apply H. destruct x; try discriminate; auto. cbn in P. lra.
Qed.
Lemma decay_pos p : pos_prio p -> pos_prio (num_of (fmul (proj1_sig p) EVENT_DURABILITY)).
Proof.
  intros [F [P1 P2]]. destruct durability_rg as [D1 D2].
  destruct (mul_rg 1 (proj1_sig p) EVENT_DURABILITY ltac:(lra)) as (R1 & R2 & R3); [split; auto; lra|exact D1|].
  destruct R1 as [R0 R1]. assert (N : is_nan (fmul (proj1_sig p) EVENT_DURABILITY) = false) by (destruct (fmul _ _); auto; discriminate).
  unfold pos_prio. rewrite num_of_val by exact N. split; [exact R0|]. split; [|lra].
  rewrite R3. apply rnd_pos. pose proof (pos_min _ F P1) as M. destruct D1 as [_ D1]. split; [|nra].
  change (-1075)%Z with (-1 + -1074)%Z. rewrite bpow_plus. change (bpow radix2 (-1)) with (/2)%R. pose proof (bpow_gt_0 radix2 (-1074)). nra.
Qed.
Lemma decay_ok n ty q : 0 < n -> qok n ty q -> qok n ty (decay_events q) /\ Permutation (queued (decay_events q)) (queued q) /\
  Permutation (qitems (decay_events q)) (map (fun x => (fst x, num_of (fmul (proj1_sig (snd x)) EVENT_DURABILITY))) (qitems q)).
Proof.
  intros Hn [I L F]. unfold decay_events.
  set (f := fun it : PQueueM.item num64 => num_of (fmul (proj1_sig (PQueueM.priority it)) EVENT_DURABILITY)).
  pose proof (PQueueP.pq_step_inv num_ltb num0 num_ltb_asym num_nlt_trans (fresh_items n) n (eq_q q) (PQueueM.OpReprioritizeRebuild f) Hn I) as X.
  cbn [PQueueM.pq_step] in X. pose proof I as (W & O & _).
  destruct (PQueueP.reprioritize_facts num_ltb num0 num_ltb_asym num_nlt_trans f (eq_q q) W) as (F1 & F2 & F3 & F4 & F5).
  destruct (PQueueP.rebuild_spec num_ltb num0 num_ltb_asym num_nlt_trans _ F1) as (P1 & P2 & P3 & P4 & P5 & P6).
  rewrite F4 in P5.
  assert (Q : Permutation (qitems (mkEq (PQueueM.rebuild num_ltb num0 (PQueueM.reprioritize f (eq_q q))) (eq_store q)))
                (map (fun x => (fst x, num_of (fmul (proj1_sig (snd x)) EVENT_DURABILITY))) (qitems q))).
  { rewrite !qitems_look. cbn [eq_store eq_q]. apply (Permutation_map (look (eq_store q))) in P5. rewrite P5. rewrite !map_map. reflexivity. }
  split; [|split; [|exact Q]].
  - constructor; auto. apply (Permutation_Forall (Permutation_sym Q)). rewrite Forall_map. eapply Forall_impl; [|exact F].
    intros [e p] (A1 & A2 & A3). split; [exact A1|]. split; [exact A2|]. change (spos (num_of (fmul (proj1_sig p) EVENT_DURABILITY))). intros ST. apply decay_pos. exact (A3 ST).
  - rewrite !queued_qitems. apply (Permutation_map fst) in Q. rewrite map_map in Q. exact Q.
Qed.
Lemma reset_ok n ty q : qok n ty q ->
  qok n ty (mkEq (PQueueM.pq_init (PQueueM.items (eq_q q)) (PQueueM.maxElements (eq_q q))) (eq_store q)) /\
  qitems (mkEq (PQueueM.pq_init (PQueueM.items (eq_q q)) (PQueueM.maxElements (eq_q q))) (eq_store q)) = [].
Proof.
  intros [I L F]. split; [|reflexivity]. constructor; cbn [eq_q eq_store]; auto; [|constructor].
  destruct I as (W & O & M & P). destruct W as [W1 W2]. split; [split; cbn; auto; lia|]. split; [|split; auto].
  intros a d Ha Hd. cbn in Hd. lia.
Qed.
Lemma fresh_ok n ty : qok n ty (fresh_events n) /\ qitems (fresh_events n) = [].
Proof.
  split; [|reflexivity]. constructor; cbn; [|apply repeat_length|constructor].
  apply (PQueueP.pq_init_inv num_ltb num0 num_ltb_asym num_nlt_trans). unfold fresh_items. rewrite map_length, seq_length. reflexivity.
Qed.
End Q.
