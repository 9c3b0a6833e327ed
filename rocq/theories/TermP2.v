(** More facts on terms: compounds built from two parts, heights. *)
From Verif Require Import Base HashM TermM TermS TermP.

Lemma override_positions t i s : is_term t -> closed s -> at_ s 0 <> 0%Z -> i < SIZE -> (forall p, p <> [] -> at_ t (idx i p) = 0%Z) ->
  let '(ok, r) := Term_OverrideSubterm t i s in
  is_term r /\ (ok = true <-> fits (tree_at s 0) i) /\ (forall k, ~ under i k -> at_ r k = at_ t k) /\
  (ok = true -> forall p, at_ r (idx i p) = at_ s (idx 0 p)).
Proof.
  intros Ht Cs N0 Hi L. unfold Term_OverrideSubterm.
  pose proof (rel_override_spec 7 t i s 0 (enough_7 0) Ht (proj1 Cs) ltac:(unfold SIZE; lia)) as R.
  destruct (RelativeOverride 7 t i s 0) as [ok r]. destruct R as (R1 & R2 & R3 & R4).
  split; auto. split; [rewrite R2; symmetry; apply fits_live; auto using enough_7; apply Cs|].
  split; [intros k Hk; apply R3; intros p _ ->; apply Hk; exists p; reflexivity|].
  intros O p. destruct (live_dec s p 0) as [V|NV]; [auto|].
  rewrite R3 by (intros q V X; apply idx_inj in X; subst q; auto).
  destruct (Z.eq_dec (at_ s (idx 0 p)) 0) as [Z0|NZ].
  - rewrite Z0. apply L. intros ->. apply NV. exact I.
  - exfalso. apply NV. apply (closed_live s Cs p 0 NZ).
Qed.

(** the compound (c a b), as built by two Term_OverrideSubterm calls *)
Definition mk2 (c : Z) (a b : term) : bool * term :=
  let '(ok1, t) := Term_OverrideSubterm (upd zero_term 0 c) 1 a in
  if ok1 then Term_OverrideSubterm t 2 b else (false, t).

Lemma under_12 p : ~ under 1 (idx 2 p).
Proof.
  intros (q & H). assert (X : idx 0 (true :: p) = idx 0 (false :: q)) by exact H. apply idx_inj in X. discriminate.
Qed.
Lemma under_21 p : ~ under 2 (idx 1 p).
Proof.
  intros (q & H). assert (X : idx 0 (false :: p) = idx 0 (true :: q)) by exact H. apply idx_inj in X. discriminate.
Qed.
Lemma under_0 i : i <> 0 -> ~ under i 0.
Proof. intros N (q & H). pose proof (idx_ge i q). lia. Qed.
Lemma at_root_upd c k : k <> 0 -> at_ (upd zero_term 0 c) k = 0%Z.
Proof. intros H. rewrite at_upd by (auto using zero_is_term; unfold SIZE; lia). destruct (Nat.eqb_spec k 0); [lia|]. apply at_zero. Qed.

Lemma mk2_spec c a b : c <> 0%Z -> closed a -> closed b -> at_ a 0 <> 0%Z -> at_ b 0 <> 0%Z ->
  let '(ok, r) := mk2 c a b in
  (ok = true <-> fits (tree_at a 0) 1 /\ fits (tree_at b 0) 2) /\
  (ok = true -> closed r /\ at_ r 0 = c /\ tree_at r 0 = N c (tree_at a 0) (tree_at b 0) /\
      Term_ExtractSubterm r 1 = a /\ Term_ExtractSubterm r 2 = b).
Proof.
  intros Nc Ca Cb Na Nb. unfold mk2.
  pose proof (override_positions (upd zero_term 0 c) 1 a (is_term_upd _ _ _ zero_is_term) Ca Na ltac:(unfold SIZE; lia)) as R1.
  destruct (Term_OverrideSubterm (upd zero_term 0 c) 1 a) as [ok1 t1].
  destruct R1 as (T1 & O1 & K1 & P1). { intros p _. apply at_root_upd. pose proof (idx_ge 1 p). lia. }
  destruct ok1; [|split; [split; [discriminate|]|discriminate]].
  2: { intros [F _]. apply O1 in F. exact F. }
  specialize (P1 eq_refl).
  pose proof (override_positions t1 2 b T1 Cb Nb ltac:(unfold SIZE; lia)) as R2.
  destruct (Term_OverrideSubterm t1 2 b) as [ok2 r].
  destruct R2 as (T2 & O2 & K2 & P2).
  { intros p _. rewrite K1 by apply under_12. apply at_root_upd. pose proof (idx_ge 2 p). lia. }
  split; [rewrite O2; split; [intros H; split; auto; apply O1; auto|tauto]|]. intros ->. specialize (P2 eq_refl).
  assert (A0 : at_ r 0 = c).
  { rewrite K2, K1 by (apply under_0; lia). rewrite at_upd by (auto using zero_is_term; unfold SIZE; lia). reflexivity. }
  assert (A1 : forall p, at_ r (idx 1 p) = at_ a (idx 0 p)). { intros p. rewrite K2 by apply under_21. apply P1. }
  assert (CL : closed r).
  { split; auto. intros i bb H. destruct (idx_root i) as (p & ->). destruct p as [|[] p]; cbn [idx] in *.
    - rewrite A0. exact Nc.
    - change (child 0 true) with 2 in *. change (child (idx 2 p) bb) with (idx (idx 2 p) [bb]) in H. rewrite <- idx_app, P2, idx_app in H.
      rewrite P2. apply Cb in H. exact H.
    - change (child 0 false) with 1 in *. change (child (idx 1 p) bb) with (idx (idx 1 p) [bb]) in H. rewrite <- idx_app, A1, idx_app in H.
      rewrite A1. apply Ca in H. exact H. }
  assert (TR1 : tree_at r 1 = tree_at a 0). { apply tree_at_same; [apply (A1 [])|]. intros; apply A1. }
  assert (TR2 : tree_at r 2 = tree_at b 0). { apply tree_at_same; [apply (P2 [])|]. intros; apply P2. }
  split; auto. split; auto. split.
  - rewrite tree_at_unfold by auto. rewrite A0. destruct (Z.eqb_spec c 0); [contradiction|]. change (child 0 false) with 1. change (child 0 true) with 2. congruence.
  - destruct (extract_correct r 1 CL) as (_ & _ & U1). destruct (extract_correct r 2 CL) as (_ & _ & U2).
    split; symmetry; [apply U1|apply U2]; auto.
Qed.

(** heights *)
Fixpoint height (tr : tree) : nat := match tr with E => 0 | N _ l r => S (Nat.max (height l) (height r)) end.
Lemma tree_f_height fuel : forall t i, height (tree_f fuel t i) <= fuel.
Proof. induction fuel as [|f IH]; intros t i; cbn [tree_f height]; [lia|]. destruct (at_ t i =? 0)%Z; cbn [height]; [lia|]. pose proof (IH t (child i false)). pose proof (IH t (child i true)). lia. Qed.
Lemma height_le_7 t i : height (tree_at t i) <= 7.
Proof. apply tree_f_height. Qed.
Lemma height_extract t j : closed t -> tree_at (Term_ExtractSubterm t j) 0 = tree_at t j.
Proof. intros C. apply extract_correct; auto. Qed.
Lemma closed_extract t j : closed t -> closed (Term_ExtractSubterm t j).
Proof. intros C. apply extract_correct; auto. Qed.
Lemma at_tree t i : is_term t -> at_ t i = match tree_at t i with E => 0%Z | N a _ _ => a end.
Proof. intros H. rewrite tree_at_unfold by auto. destruct (Z.eqb_spec (at_ t i) 0); auto. Qed.
Lemma tree_children t a l r : is_term t -> forall i, tree_at t i = N a l r -> tree_at t (child i false) = l /\ tree_at t (child i true) = r /\ at_ t i = a /\ a <> 0%Z.
Proof.
  intros H i T. rewrite tree_at_unfold in T by auto. destruct (Z.eqb_spec (at_ t i) 0) as [|NZ]; [discriminate|]. injection T as T1 T2 T3. subst a. auto.
Qed.
Lemma closed_zero t : closed t -> at_ t 0 = 0%Z -> t = zero_term.
Proof.
  intros C Z0. apply closed_same_tree; auto; [apply closedb_ok; vm_compute; reflexivity|].
  rewrite (tree_at_unfold t 0) by apply C. rewrite Z0. reflexivity.
Qed.
