From Coq Require Import ZArith Reals Lra Lia Psatz.
From Flocq Require Import Core.Core IEEE754.BinarySingleNaN.
From Flocq Require Import Relative.
From Verif Require Import F64 UsageM.
Local Open Scope R_scope.
#[local] Opaque fofZ fadd fdiv.

Definition eps : R := bpow radix2 (-53).
Lemma eps_small : 0 < eps <= / 1000000.
Proof.
  split; [apply bpow_gt_0|]. unfold eps. change (bpow radix2 (-53)) with (/ IZR (2 ^ 53)).
  apply Rinv_le; [lra|]. apply IZR_le. apply Z.leb_le. vm_compute. reflexivity.
Qed.
Lemma rnd_rel x : bpow radix2 (-1000) <= Rabs x -> exists d, Rabs d <= eps /\ rnd x = x * (1 + d).
Proof.
  intros H. destruct (relative_error_N_FLT_ex radix2 (-1074) 53 eq_refl (fun z => negb (Z.even z)) x) as (d & D1 & D2).
  - apply Rle_trans with (2 := H). apply bpow_le. lia.
  - exists d. split; [|exact D2]. apply Rle_trans with (1 := D1). unfold eps.
    replace (/ 2 * bpow radix2 (- (53) + 1)) with (bpow radix2 (-53)); [apply Rle_refl|].
    change (/ 2) with (bpow radix2 (-1)). rewrite <- bpow_plus. reflexivity.
Qed.
Lemma recip_big y : 1 <= y <= IZR (2 ^ 54) -> bpow radix2 (-1000) <= / y.
Proof.
  intros H. apply Rle_trans with (/ IZR (2 ^ 54)); [|apply Rinv_le; lra].
  change (/ IZR (2 ^ 54)) with (bpow radix2 (-54)). apply bpow_le. lia.
Qed.
Lemma big_ge : IZR (2 ^ 60) <= big.
Proof. change (IZR (2 ^ 60)) with (bpow radix2 60). apply bpow_le. lia. Qed.

(** range, for all counts: monotonicity of rounding *)
Lemma v_ofZ_range z : (0 <= z < 2 ^ 63)%Z -> is_finite (fofZ z) = true /\ 0 <= B2R (fofZ z) <= IZR (2 ^ 63).
Proof.
  intros H. Transparent fofZ. unfold fofZ. Opaque fofZ.
  pose proof (binary_normalize_correct 53 1024 prec_gt_0_53 prec_lt_emax_53 mode_NE z 0 false) as C.
  assert (F : F2R (Float radix2 z 0) = IZR z) by (unfold F2R; simpl; ring). rewrite F in C. cbv zeta in C.
  assert (B : 0 <= IZR z <= IZR (2 ^ 63)) by (split; apply IZR_le; lia).
  assert (M : rnd (IZR (2 ^ 63)) = IZR (2 ^ 63)).
  { apply round_generic; [typeclasses eauto|]. change (IZR (2 ^ 63)) with (bpow radix2 63). apply generic_format_bpow. vm_compute; discriminate. }
  assert (R1 : 0 <= rnd (IZR z)) by (rewrite <- rnd_0; apply rnd_mono; lra).
  assert (R2 : rnd (IZR z) <= IZR (2 ^ 63)) by (rewrite <- M; apply rnd_mono; lra).
  rewrite Rlt_bool_true in C.
  - destruct C as (A1 & A2 & _). split; auto. rewrite A1. split; assumption.
  - change (Rabs (rnd (IZR z)) < bpow radix2 1024). rewrite Rabs_pos_eq by assumption. apply Rle_lt_trans with (1 := R2).
    change (IZR (2 ^ 63)) with (bpow radix2 63). apply bpow_lt. reflexivity.
Qed.
Lemma usefulness_range u now : (0 <= useCount u < 2 ^ 63)%Z -> (now - lastUsed u < 2 ^ 63)%Z ->
  is_finite (Usage_usefulness u now) = true /\ 0 <= B2R (Usage_usefulness u now) <= 1.
Proof.
  intros H1 H2. unfold Usage_usefulness. cbv zeta.
  destruct (v_ofZ_range (useCount u) H1) as [A1 A2].
  destruct (v_ofZ_range (Z.max 0 (now - lastUsed u)) ltac:(lia)) as [B1 B2].
  set (n := fofZ (useCount u)) in *. set (r := fofZ (Z.max 0 (now - lastUsed u))) in *.
  assert (BG : IZR (2 ^ 63) + 1 <= big).
  { apply Rle_trans with (bpow radix2 63 + bpow radix2 63).
    - change (IZR (2 ^ 63)) with (bpow radix2 63). apply Rplus_le_compat_l. change 1 with (bpow radix2 0). apply bpow_le. lia.
    - replace (bpow radix2 63 + bpow radix2 63) with (bpow radix2 64) by (change (bpow radix2 64) with (IZR (2 ^ 64)); change (bpow radix2 63) with (IZR (2 ^ 63)); rewrite <- plus_IZR; reflexivity).
      apply bpow_le. lia. }
  destruct (fadd_ok r f1 B1 fin_f1) as [C1 C2]. { rewrite v_f1. rewrite Rabs_pos_eq; lra. }
  rewrite v_f1 in C2.
  assert (C3 : 1 <= B2R (fadd r f1)) by (rewrite C2, <- rnd_1 at 1; apply rnd_mono; lra).
  assert (Q : 0 <= B2R n / B2R (fadd r f1) <= IZR (2 ^ 63)).
  { split; [apply Rmult_le_pos; [lra|apply Rlt_le, Rinv_0_lt_compat; lra]|].
    apply Rle_trans with (B2R n / 1); [|lra]. apply Rmult_le_compat_l; [lra|]. apply Rinv_le; lra. }
  destruct (fdiv_ok n (fadd r f1) A1) as [D1 D2]; [lra| |]. { rewrite Rabs_pos_eq; lra. }
  set (q := fdiv n (fadd r f1)) in *.
  assert (M : rnd (IZR (2 ^ 63)) = IZR (2 ^ 63)).
  { apply round_generic; [typeclasses eauto|]. change (IZR (2 ^ 63)) with (bpow radix2 63). apply generic_format_bpow. vm_compute; discriminate. }
  assert (D3 : 0 <= B2R q <= IZR (2 ^ 63)).
  { rewrite D2. split; [rewrite <- rnd_0; apply rnd_mono; lra|rewrite <- M; apply rnd_mono; lra]. }
  destruct (fadd_ok q f1 D1 fin_f1) as [E1 E2]. { rewrite v_f1. rewrite Rabs_pos_eq; lra. }
  rewrite v_f1 in E2.
  assert (E3 : 1 <= B2R (fadd q f1)) by (rewrite E2, <- rnd_1 at 1; apply rnd_mono; lra).
  assert (E4 : B2R q <= B2R (fadd q f1)) by (rewrite E2, <- (rnd_B q) at 1; apply rnd_mono; lra).
  assert (F : 0 <= B2R q / B2R (fadd q f1) <= 1).
  { split; [apply Rmult_le_pos; [lra|apply Rlt_le, Rinv_0_lt_compat; lra]|]. apply Rmult_le_reg_r with (B2R (fadd q f1)); [lra|].
    unfold Rdiv. rewrite Rmult_assoc, Rinv_l by lra. lra. }
  destruct (fdiv_ok q (fadd q f1) D1) as [G1 G2]; [lra| |]. { rewrite Rabs_pos_eq; lra. }
  split; auto. rewrite G2. split; [rewrite <- rnd_0; apply rnd_mono; lra|rewrite <- rnd_1; apply rnd_mono; lra].
Qed.

Lemma le_div a b x : 0 < b -> x * b <= a -> x <= a / b.
Proof. intros H1 H2. apply Rmult_le_reg_r with b; auto. unfold Rdiv. rewrite Rmult_assoc, Rinv_l; lra. Qed.
Lemma div_le a b x : 0 < b -> a <= x * b -> a / b <= x.
Proof. intros H1 H2. apply Rmult_le_reg_r with b; auto. unfold Rdiv. rewrite Rmult_assoc, Rinv_l; lra. Qed.
(** relative error *)
Lemma usefulness_error u now : (1 <= useCount u <= 2 ^ 53)%Z -> (now - lastUsed u < 2 ^ 53)%Z ->
  score u now * (1 - 5 * eps) <= B2R (Usage_usefulness u now) <= score u now * (1 + 5 * eps).
Proof.
  intros H1 H2. unfold Usage_usefulness, score. cbv zeta. set (rz := Z.max 0 (now - lastUsed u)).
  assert (Hr : (0 <= rz < 2 ^ 53)%Z) by (unfold rz; lia). clearbody rz. clear H2.
  destruct (v_ofZ_small (useCount u)) as [A1 A2]; [lia|]. destruct (v_ofZ_small rz) as [B1 B2]; [lia|].
  assert (N1 : 1 <= IZR (useCount u) <= IZR (2 ^ 53)) by (split; apply IZR_le; lia).
  assert (R1 : 0 <= IZR rz <= IZR (2 ^ 53) - 1) by (rewrite <- minus_IZR; split; apply IZR_le; lia).
  assert (BG : 4 * IZR (2 ^ 53) <= big).
  { apply Rle_trans with (2 := big_ge). rewrite <- mult_IZR. apply IZR_le. vm_compute; discriminate. }
  assert (P53 : 1000 <= IZR (2 ^ 53)) by (apply IZR_le; vm_compute; discriminate).
  assert (P54 : IZR (2 ^ 54) = IZR (2 ^ 53) + IZR (2 ^ 53)) by (rewrite <- plus_IZR; reflexivity).
  destruct (fadd_ok (fofZ rz) f1 B1 fin_f1) as [C1 C2]. { rewrite B2, v_f1. rewrite Rabs_pos_eq; lra. }
  rewrite B2, v_f1 in C2.
  assert (C3 : B2R (fadd (fofZ rz) f1) = IZR rz + 1).
  { rewrite C2. destruct (v_ofZ_small (rz + 1)) as [_ X]; [lia|]. rewrite plus_IZR in X. rewrite <- X, rnd_B. reflexivity. }
  set (n := IZR (useCount u)) in *. set (r := IZR rz + 1) in *. assert (R2 : 1 <= r <= IZR (2 ^ 53)) by (unfold r; lra).
  replace (n + IZR rz + 1) with (n + r) by (unfold r; ring).
  pose proof eps_small as EP.
  assert (IR : 0 < / r <= 1). { split; [apply Rinv_0_lt_compat; lra|]. rewrite <- Rinv_1. apply Rinv_le; lra. }
  assert (Q1 : / r <= n / r <= n) by (unfold Rdiv; nra).
  assert (QB : bpow radix2 (-1000) <= n / r) by (apply Rle_trans with (2 := proj1 Q1); apply recip_big; lra).
  destruct (fdiv_ok (fofZ (useCount u)) (fadd (fofZ rz) f1) A1) as [D1 D2]; [rewrite C3; lra| |].
  { rewrite C3, A2. fold n. rewrite Rabs_pos_eq; lra. }
  rewrite C3, A2 in D2. fold n in D2. destruct (rnd_rel (n / r)) as (d1 & E1 & E2); [rewrite Rabs_pos_eq; lra|]. rewrite E2 in D2.
  apply Rabs_le_inv in E1. set (q := fdiv _ _) in *.
  assert (Qp : 0 < n / r) by lra.
  assert (Q2 : / r * / 2 <= B2R q <= 2 * n) by (rewrite D2; nra).
  destruct (fadd_ok q f1 D1 fin_f1) as [F1 F2]. { rewrite v_f1. assert (0 <= B2R q) by nra. rewrite Rabs_pos_eq; lra. }
  rewrite v_f1 in F2. assert (Q3 : 0 < B2R q) by nra.
  destruct (rnd_rel (B2R q + 1)) as (d2 & G1 & G2).
  { rewrite Rabs_pos_eq by lra. apply Rle_trans with 1; [|lra]. change 1 with (bpow radix2 0). apply bpow_le. lia. }
  rewrite G2 in F2. apply Rabs_le_inv in G1.
  assert (S1 : 0 < B2R (fadd q f1)) by (rewrite F2; nra).
  assert (S2 : B2R (fadd q f1) <= 3 * IZR (2 ^ 53)).
  { rewrite F2. assert (B2R q <= IZR (2 ^ 53) * (1 + / 1000000)).
    { rewrite D2. apply Rmult_le_compat; lra. }
    apply Rle_trans with ((IZR (2 ^ 53) * (1 + / 1000000) + 1) * (1 + / 1000000)); [apply Rmult_le_compat; lra|lra]. }
  assert (S3 : B2R q <= B2R (fadd q f1) * 2) by (rewrite F2; nra).
  assert (T : B2R q / B2R (fadd q f1) <= 2). { apply Rmult_le_reg_r with (B2R (fadd q f1)); [lra|]. unfold Rdiv. rewrite Rmult_assoc, Rinv_l by lra. lra. }
  assert (TL : bpow radix2 (-1000) <= B2R q / B2R (fadd q f1)).
  { apply Rle_trans with (bpow radix2 (-54) * bpow radix2 (-55)).
    - rewrite <- bpow_plus. apply bpow_le. lia.
    - apply Rmult_le_compat; try apply bpow_ge_0.
      + apply Rle_trans with (2 := proj1 Q2). change (bpow radix2 (-54)) with (/ IZR (2 ^ 54)). rewrite P54.
        rewrite <- Rinv_mult. apply Rinv_le; lra.
      + change (bpow radix2 (-55)) with (/ IZR (2 ^ 55)). apply Rinv_le; [lra|].
        replace (IZR (2 ^ 55)) with (4 * IZR (2 ^ 53)) by (rewrite <- mult_IZR; reflexivity). lra. }
  destruct (fdiv_ok q (fadd q f1) D1) as [U1 U2]; [lra| |].
  { rewrite Rabs_pos_eq; [|apply Rle_trans with (2 := TL); apply bpow_ge_0]. apply Rle_trans with 2; lra. }
  destruct (rnd_rel (B2R q / B2R (fadd q f1))) as (d3 & V1 & V2). { rewrite Rabs_pos_eq; auto. apply Rle_trans with (2 := TL); apply bpow_ge_0. }
  rewrite U2, V2, F2, D2. apply Rabs_le_inv in V1.
  assert (EQ : n / r * (1 + d1) / ((n / r * (1 + d1) + 1) * (1 + d2)) * (1 + d3) = n * (1 + d1) * (1 + d3) / ((n * (1 + d1) + r) * (1 + d2))).
  { field. repeat split; try lra; nra. }
  rewrite EQ.
  assert (DEN : 0 < (n * (1 + d1) + r) * (1 + d2)) by (apply Rmult_lt_0_compat; nra).
  assert (NR : 0 < n + r) by lra.
  assert (X1 : (n + r) * (1 - eps) <= n * (1 + d1) + r <= (n + r) * (1 + eps)).
  { assert (n * - eps <= n * d1 <= n * eps) by (split; apply Rmult_le_compat_l; lra).
    assert (0 <= r * eps) by (apply Rmult_le_pos; lra). lra. }
  assert (NR2 : 0 <= (n + r) * (1 - eps)) by (apply Rmult_le_pos; lra).
  assert (Y1 : (n + r) * ((1 - eps) * (1 - eps)) <= (n * (1 + d1) + r) * (1 + d2) <= (n + r) * ((1 + eps) * (1 + eps))).
  { split.
    - rewrite <- Rmult_assoc. apply Rmult_le_compat; lra.
    - rewrite <- Rmult_assoc. apply Rmult_le_compat; lra. }
  assert (EE : 0 <= eps * eps <= eps * / 1000000) by (split; [apply Rmult_le_pos; lra|apply Rmult_le_compat_l; lra]).
  assert (E3 : 0 <= eps * eps * eps <= eps * eps) by (split; [apply Rmult_le_pos; lra|rewrite <- (Rmult_1_r (eps * eps)) at 2; apply Rmult_le_compat_l; lra]).
  assert (Z1 : (1 - eps) * (1 - eps) <= (1 + d1) * (1 + d3) <= (1 + eps) * (1 + eps)) by (split; apply Rmult_le_compat; lra).
  split.
  - apply le_div; [exact DEN|].
    apply Rle_trans with (n / (n + r) * (1 - 5 * eps) * ((n + r) * ((1 + eps) * (1 + eps)))).
    + apply Rmult_le_compat_l; [|lra]. apply Rmult_le_pos; [|lra]. apply Rmult_le_pos; [lra|apply Rlt_le, Rinv_0_lt_compat; lra].
    + replace (n / (n + r) * (1 - 5 * eps) * ((n + r) * ((1 + eps) * (1 + eps)))) with (n * ((1 - 5 * eps) * ((1 + eps) * (1 + eps)))) by (field; lra).
      rewrite Rmult_assoc. apply Rmult_le_compat_l; [lra|]. apply Rle_trans with (2 := proj1 Z1). clear - EE E3 EP. lra.
  - apply div_le; [exact DEN|].
    apply Rle_trans with (n / (n + r) * (1 + 5 * eps) * ((n + r) * ((1 - eps) * (1 - eps)))).
    + replace (n / (n + r) * (1 + 5 * eps) * ((n + r) * ((1 - eps) * (1 - eps)))) with (n * ((1 + 5 * eps) * ((1 - eps) * (1 - eps)))) by (field; lra).
      rewrite Rmult_assoc. apply Rmult_le_compat_l; [lra|]. apply Rle_trans with (1 := proj2 Z1). clear - EE E3 EP. lra.
    + apply Rmult_le_compat_l; [|lra]. apply Rmult_le_pos; [|lra]. apply Rmult_le_pos; [lra|apply Rlt_le, Rinv_0_lt_compat; lra].
Qed.
Lemma score_pos u now : (1 <= useCount u)%Z -> 0 < score u now.
Proof.
  intros H. unfold score. apply IZR_le in H. assert (0 <= IZR (Z.max 0 (now - lastUsed u))) by (apply IZR_le; lia).
  apply Rdiv_lt_0_compat; lra.
Qed.
Lemma eps_49 m : 1 <= m <= IZR (2 ^ 49) -> 11 * eps < / m.
Proof.
  intros H. apply Rlt_le_trans with (/ IZR (2 ^ 49)); [|apply Rinv_le; lra].
  unfold eps. change (/ IZR (2 ^ 49)) with (bpow radix2 (-49)). change (-49)%Z with (4 + -53)%Z. rewrite bpow_plus.
  assert (0 < bpow radix2 (-53)) by apply bpow_gt_0. change (bpow radix2 4) with 16. lra.
Qed.
Lemma gap (a b : R) : 0 < a -> 11 * eps < (b - a) / a -> a * (1 + 5 * eps) < b * (1 - 5 * eps).
Proof.
  intros H G. pose proof eps_small as EP. assert (X : 11 * eps * a < b - a).
  { apply Rmult_lt_reg_r with (/ a); [apply Rinv_0_lt_compat; lra|]. rewrite Rmult_assoc, Rinv_r by lra. unfold Rdiv in G. lra. }
  assert (b > a * (1 + 11 * eps)) by lra.
  apply Rlt_le_trans with (a * (1 + 11 * eps) * (1 - 5 * eps)); [|apply Rmult_le_compat_r; lra].
  rewrite Rmult_assoc. apply Rmult_lt_compat_l; [lra|].
  assert (eps * eps <= eps * / 1000000) by (apply Rmult_le_compat_l; lra). lra.
Qed.
Lemma decays u now now' : (1 <= useCount u)%Z -> (lastUsed u <= now < now')%Z -> (useCount u + (now' - lastUsed u) < 2 ^ 49)%Z ->
  B2R (Usage_usefulness u now') < B2R (Usage_usefulness u now).
Proof.
  intros H1 H2 H3. destruct (usefulness_error u now) as [A _]; [lia|lia|]. destruct (usefulness_error u now') as [_ B]; [lia|lia|].
  apply Rle_lt_trans with (1 := B). apply Rlt_le_trans with (2 := A). apply gap; [apply score_pos; lia|].
  unfold score. replace (Z.max 0 (now - lastUsed u)) with (now - lastUsed u)%Z by lia. replace (Z.max 0 (now' - lastUsed u)) with (now' - lastUsed u)%Z by lia.
  apply IZR_le in H1 as N1.
  set (n := IZR (useCount u)) in *. set (r := IZR (now - lastUsed u)). set (r' := IZR (now' - lastUsed u)).
  assert (R0 : 0 <= r) by (apply IZR_le; lia). assert (R1 : r + 1 <= r') by (unfold r, r'; rewrite <- plus_IZR; apply IZR_le; lia).
  assert (R2 : n + r' <= IZR (2 ^ 49) - 1) by (unfold n, r'; rewrite <- plus_IZR, <- minus_IZR; apply IZR_le; lia).
  replace ((n / (n + r + 1) - n / (n + r' + 1)) / (n / (n + r' + 1))) with ((r' - r) / (n + r + 1)) by (field; repeat split; lra).
  apply Rlt_le_trans with (/ (n + r + 1)); [apply eps_49; lra|]. unfold Rdiv.
  rewrite <- (Rmult_1_l (/ (n + r + 1))) at 1. apply Rmult_le_compat_r; [apply Rlt_le, Rinv_0_lt_compat; lra|lra].
Qed.
Lemma use_increases u now e : (1 <= useCount u < 2 ^ 24)%Z -> (lastUsed u <= now)%Z -> (now - lastUsed u < 2 ^ 53)%Z ->
  B2R (Usage_usefulness u now) < B2R (Usage_usefulness (Usage_use u now e) now).
Proof.
  intros H1 H2 H3. set (v := Usage_use u now e). assert (Hv : (useCount u + 1 <= useCount v < 2 ^ 25)%Z) by (unfold v, Usage_use; cbn [useCount]; destruct e; lia).
  assert (Lv : lastUsed v = now) by reflexivity. clearbody v.
  destruct (usefulness_error u now) as [_ A]; [lia|lia|]. destruct (usefulness_error v now) as [B _]; [lia|lia|].
  apply Rle_lt_trans with (1 := A). apply Rlt_le_trans with (2 := B). apply gap; [apply score_pos; lia|].
  unfold score. rewrite Lv, Z.sub_diag, Z.max_id. replace (Z.max 0 (now - lastUsed u)) with (now - lastUsed u)%Z by lia.
  destruct H1 as [H1 H1']. apply IZR_le in H1 as N1. apply IZR_lt in H1' as N1'. destruct Hv as [Hv Hv']. apply IZR_le in Hv as V1. rewrite plus_IZR in V1.
  set (n := IZR (useCount u)) in *. set (m := IZR (useCount v)) in *. set (r := IZR (now - lastUsed u)).
  assert (R0 : 0 <= r) by (apply IZR_le; lia).
  replace (m + 0 + 1) with (m + 1) by ring.
  assert (E : (m / (m + 1) - n / (n + r + 1)) / (n / (n + r + 1)) = (m * (n + r + 1) - n * (m + 1)) / (n * (m + 1))) by (field; repeat split; lra).
  rewrite E.
  apply Rlt_le_trans with (/ (n * (n + 2))).
  - apply eps_49. split; [nra|]. apply Rle_trans with (IZR (2 ^ 24) * IZR (2 ^ 25)); [|rewrite <- mult_IZR; apply IZR_le; vm_compute; discriminate].
    apply Rmult_le_compat; lra.
  - apply Rle_trans with ((m - n) / (n * (m + 1))).
    + replace (/ (n * (n + 2))) with (1 / (n * (n + 2))) by (unfold Rdiv; ring). apply le_div; [apply Rmult_lt_0_compat; lra|].
      unfold Rdiv. rewrite Rmult_1_l. apply Rmult_le_reg_l with (n * (n + 2)); [apply Rmult_lt_0_compat; lra|]. rewrite <- Rmult_assoc, Rinv_r, Rmult_1_l by (apply Rgt_not_eq, Rmult_lt_0_compat; lra).
      assert (0 <= (m - (n + 1)) * (n + 1)) by (apply Rmult_le_pos; lra). nra.
    + apply Rmult_le_compat_r; [apply Rlt_le, Rinv_0_lt_compat, Rmult_lt_0_compat; lra|]. nra.
Qed.
