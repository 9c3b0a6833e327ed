(** Proofs about motor babbling. *)
From Coq Require Import ZArith List Bool Lia.
From Flocq Require Import IEEE754.BinarySingleNaN.
From Verif Require Import Base F64 TruthM HashM HashP TermM TermS TermP TermP2 NamesM EventM TableM VariableM MemoryM QuestionM DecisionM DecisionS.
Local Open Scope Z_scope.
Import ListNotations.

Lemma op_run_spec ops : (op_run ops <= length ops)%nat /\ (forall j p, (j < op_run ops)%nat -> nth_error ops j = Some p -> at_ (op_term p) 0 <> 0) /\
  (forall p, nth_error ops (op_run ops) = Some p -> at_ (op_term p) 0 = 0).
Proof.
  induction ops as [|o ops (IH1 & IH2 & IH3)]; cbn [op_run length]; [split; [lia|]; split; [lia|intros p H; discriminate H]|].
  destruct (Z.eqb_spec (at_ (op_term o) 0) 0) as [Q|Q].
  - split; [lia|]. split; [lia|]. intros p H. injection H as <-. exact Q.
  - split; [lia|]. split; [|exact IH3]. intros [|j] p H G; cbn in G; [injection G as <-; exact Q|]. apply (IH2 j); [lia|exact G].
Qed.
Lemma term_run_spec l : (term_run l <= length l)%nat /\ (forall j p, (j < term_run l)%nat -> nth_error l j = Some p -> at_ p 0 <> 0) /\ (at_ (nth 0 l zero_term) 0 <> 0 -> (0 < term_run l)%nat).
Proof.
  induction l as [|o ops (IH1 & IH2 & IH3)]; cbn [term_run length]; [split; [lia|]; split; [lia|intros H; exfalso; apply H; reflexivity]|].
  destruct (Z.eqb_spec (at_ o 0) 0) as [Q|Q].
  - split; [lia|]. split; [lia|]. cbn [nth]. intros H. contradiction.
  - split; [lia|]. split; [|intros; lia]. intros [|j] p H G; cbn in G; [injection G as <-; exact Q|]. apply (IH2 j); [lia|exact G].
Qed.
Lemma usable_run ops i o : usable ops i o <-> (1 <= i <= op_run ops)%nat /\ nth_error ops (i - 1) = Some o.
Proof.
  destruct (op_run_spec ops) as (R1 & R2 & R3). unfold usable. split.
  - intros (A & B & C). split; [|exact B]. split; [exact A|]. destruct (Nat.le_gt_cases i (op_run ops)) as [|G]; [assumption|].
    exfalso. assert (L : (op_run ops < length ops)%nat). { pose proof (nth_error_Some ops (i - 1)) as NE. rewrite B in NE. assert (i - 1 < length ops)%nat by (apply NE; discriminate). lia. }
    destruct (nth_error ops (op_run ops)) as [p|] eqn:Q; [|apply nth_error_None in Q; lia]. apply (C (op_run ops) p G Q). apply R3. reflexivity.
  - intros (A & B). split; [lia|]. split; [exact B|]. intros j p J E. apply (R2 j); [lia|exact E].
Qed.
Lemma rand_bounds s : 0 <= snd (myrand s) <= 32767.
Proof. unfold myrand. cbn [snd]. unfold rand_out. pose proof (Z.mod_pos_bound (rand_step s / 65536 mod 2 ^ 32) 32768 ltac:(lia)). lia. Qed.

Lemma babble_args_tree a : closed a -> at_ a 0 <> 0 -> fits (tree_at a 0) 2 -> tree_at (babble_args a) 0 = self_and (tree_at a 0).
Proof.
  intros C N0 F. unfold babble_args. set (b := upd (upd zero_term 0 (copula_index PRODUCT)) 1 (copula_index EXT_SET)).
  assert (Tb : is_term b) by (apply is_term_upd, is_term_upd, zero_is_term).
  assert (B : forall k, (2 <= k)%nat -> at_ b k = 0).
  { intros k K. unfold b. rewrite at_upd by (auto using zero_is_term, is_term_upd; unfold SIZE; lia). destruct (Nat.eqb_spec k 1); [lia|]. apply at_root_upd. lia. }
  pose proof (override_positions b 2 a Tb C N0 ltac:(unfold SIZE; lia)) as R. destruct (Term_OverrideSubterm b 2 a) as [ok r]. cbn [snd].
  destruct R as (T & O & K & P). { intros p _. apply B. pose proof (idx_ge 2 p). lia. }
  assert (ok = true) as -> by (apply O; exact F). specialize (P eq_refl).
  set (t := upd (upd r 3 SELF) 4 (copula_index SET_TERMINATOR)).
  assert (T' : is_term t) by (apply is_term_upd, is_term_upd, T).
  assert (A : forall k, at_ t k = if (k =? 4)%nat then copula_index SET_TERMINATOR else if (k =? 3)%nat then SELF else at_ r k).
  { intros k. unfold t. rewrite at_upd by (auto using is_term_upd; unfold SIZE; lia). destruct (k =? 4)%nat; auto. rewrite at_upd by (auto; unfold SIZE; lia). reflexivity. }
  assert (NU : forall k, at_ r (idx 1 k) = at_ b (idx 1 k)) by (intros k; apply K, under_21).
  assert (A0 : at_ t 0 = copula_index PRODUCT). { rewrite A. cbn [Nat.eqb]. rewrite K by (apply under_0; lia). reflexivity. }
  assert (A1 : at_ t 1 = copula_index EXT_SET). { rewrite A. cbn [Nat.eqb]. exact (NU []). }
  assert (Z1 : forall p, p <> [] -> p <> [false] -> p <> [true] -> at_ t (idx 1 p) = 0).
  { intros p P0 P1 P2. rewrite A. assert (G : (7 <= idx 1 p)%nat).
    { destruct p as [|x [|y q]]; [congruence|destruct x; congruence|]. cbn [idx]. pose proof (idx_ge (child (child 1 x) y) q). clear - H; destruct x, y; cbn [child] in *; lia. }
    destruct (Nat.eqb_spec (idx 1 p) 4); [lia|]. destruct (Nat.eqb_spec (idx 1 p) 3); [lia|]. rewrite NU. apply B. lia. }
  assert (LEAF : forall i x, at_ t i = x -> x <> 0 -> at_ t (child i false) = 0 -> at_ t (child i true) = 0 -> tree_at t i = N x E E).
  { intros i x X NX L0 L1. rewrite tree_at_unfold by auto. rewrite X. destruct (Z.eqb_spec x 0); [contradiction|]. rewrite (tree_at_unfold t (child i false)), (tree_at_unfold t (child i true)) by auto. rewrite L0, L1. reflexivity. }
  assert (T3 : tree_at t 3 = N SELF E E).
  { apply LEAF; [rewrite A; reflexivity|discriminate|apply (Z1 [false; false])|apply (Z1 [false; true])]; discriminate. }
  assert (T4 : tree_at t 4 = N (copula_index SET_TERMINATOR) E E).
  { apply LEAF; [rewrite A; reflexivity|discriminate|apply (Z1 [true; false])|apply (Z1 [true; true])]; discriminate. }
  assert (T2 : tree_at t 2 = tree_at a 0).
  { assert (X : forall p, at_ t (idx 2 p) = at_ a (idx 0 p)).
    { intros p. rewrite A. destruct (Nat.eqb_spec (idx 2 p) 4) as [Q|Q]; [exfalso; apply (under_12 p); exists [true]; exact Q|].
      destruct (Nat.eqb_spec (idx 2 p) 3) as [Q3|Q3]; [exfalso; apply (under_12 p); exists [false]; exact Q3|]. apply P. }
    apply tree_at_same; [apply (X [])|]. intros; apply X. }
  rewrite tree_at_unfold by auto. rewrite A0. change (child 0 false) with 1%nat. change (child 0 true) with 2%nat. rewrite T2.
  rewrite (tree_at_unfold t 1) by auto. rewrite A1. change (child 1 false) with 3%nat. change (child 1 true) with 4%nat. rewrite T3, T4. reflexivity.
Qed.

(** every value 0..32767 is drawn in some generator state *)
Definition before (r : Z) : Z := (r * 65536 - 12345) * 17850689345304521573 mod 2 ^ 64.
Lemma before_ok r : 0 <= r <= 32767 -> snd (myrand (before r)) = r.
Proof.
  intros H. unfold myrand. cbn [snd]. unfold rand_step, before.
  rewrite <- Z.add_mod_idemp_l, Z.mul_mod_idemp_l, Z.add_mod_idemp_l by lia.
  replace ((r * 65536 - 12345) * 17850689345304521573 * 1103515245 + 12345) with (r * 65536 + (r * 65536 - 12345) * (17850689345304521573 * 1103515245 - 1)) by ring.
  assert (D : (17850689345304521573 * 1103515245 - 1) mod 2 ^ 64 = 0) by (vm_compute; reflexivity).
  rewrite <- Z.add_mod_idemp_r, <- (Z.mul_mod_idemp_r _ (17850689345304521573 * 1103515245 - 1)), D by lia. rewrite Z.mul_0_r, Z.mod_0_l, Z.add_0_r by lia.
  rewrite Z.mod_small by lia. unfold rand_out. rewrite Z.div_mul by lia. rewrite (Z.mod_small r (2 ^ 32)) by lia. apply Z.mod_small. lia.
Qed.
