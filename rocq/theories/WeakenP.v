(** Lemmas for C55: revision with negative evidence. *)
From Coq Require Import ZArith List Bool Lia Reals Lra.
From Flocq Require Import Core Relative IEEE754.BinarySingleNaN.
From Verif Require Import Base F64 TruthM TruthS TruthP TruthP2.
Local Open Scope R_scope.

Definition u53 : R := bpow radix2 (-53).
Lemma u53_pos : 0 < u53 < 1/1000000. Proof. unfold u53. cbn. lra. Qed.
Lemma rel_err x : bpow radix2 (-1022) <= Rabs x -> Rabs (rnd x - x) <= u53 * Rabs x.
Proof.
  intros H. pose proof (relative_error_N_FLT radix2 (-1074) 53 ltac:(lia) (fun x => negb (Z.even x)) x) as E.
  unfold u53. replace (bpow radix2 (-53)) with (/ 2 * bpow radix2 (- (53) + 1)).
  - apply E. exact H.
  - cbn. lra.
Qed.
Lemma rel_up x : bpow radix2 (-1022) <= x -> rnd x <= x * (1 + u53).
Proof. intros H. assert (P : 0 < bpow radix2 (-1022)) by apply bpow_gt_0. pose proof (rel_err x) as E. rewrite (Rabs_right x) in E by lra. specialize (E H). apply Rabs_le_inv in E. lra. Qed.
Lemma rel_down x : bpow radix2 (-1022) <= x -> x * (1 - u53) <= rnd x.
Proof. intros H. assert (P : 0 < bpow radix2 (-1022)) by apply bpow_gt_0. pose proof (rel_err x) as E. rewrite (Rabs_right x) in E by lra. specialize (E H). apply Rabs_le_inv in E. lra. Qed.

Definition tiny : R := bpow radix2 (-500).
Lemma negative_evidence v1 v2 : valid v1 -> valid v2 -> val (frequency v2) = 0 -> bpow radix2 (-40) <= val (confidence v2) ->
  val (frequency v1) = 0 \/ (tiny <= val (frequency v1) /\ tiny <= val (confidence v1)) ->
  val (frequency (Truth_Revision f64A v1 v2)) <= val (frequency v1).
Proof.
  intros V1 V2 Z2 C2 S. assert (P40 : 0 < bpow radix2 (-40)) by apply bpow_gt_0.
  destruct (revision_parts v1 v2 V1 V2 ltac:(right; lra)) as ((Fw & Ew & Pw) & (E1 & E2 & En) & Uq & Eq).
  destruct (c2w_ok _ (proj2 V1)) as (W1 & A1 & B1). destruct (c2w_ok _ (proj2 V2)) as (W2 & A2 & B2).
  pose proof V1 as [[F1 R1] _].
  set (w1 := Truth_c2w f64A (confidence v1)) in *. set (w2 := Truth_c2w f64A (confidence v2)) in *.
  rewrite Z2, Rmult_0_r, rnd_0 in E2. rewrite E2, Rplus_0_r, rnd_B in En.
  assert (LE : val (fdiv (fadd (fmul w1 (frequency v1)) (fmul w2 (frequency v2))) (fadd w1 w2)) <= val (frequency v1)).
  { rewrite Eq. apply rnd_le_B. rewrite En. apply Rmult_le_reg_r with (val (fadd w1 w2)); [lra|]. unfold Rdiv. rewrite Rmult_assoc, Rinv_l by lra. rewrite Rmult_1_r, E1.
    destruct S as [Z1|(T1 & T2)]; [rewrite Z1, Rmult_0_r, rnd_0; lra|].
    assert (TT : bpow radix2 (-1022) <= tiny * tiny). { unfold tiny. rewrite <- bpow_plus. apply bpow_le. lia. }
    assert (T0 : 0 < tiny) by apply bpow_gt_0.
    assert (G : tiny * tiny <= val w1 * val (frequency v1)) by (apply Rmult_le_compat; lra).
    apply Rle_trans with (val w1 * val (frequency v1) * (1 + u53)); [apply rel_up; lra|].
    rewrite Ew. apply Rle_trans with (val (frequency v1) * ((val w1 + val w2) * (1 - u53))).
    - assert (X : val w1 * (1 + u53) <= (val w1 + val w2) * (1 - u53)).
      { assert (Y : 1000 * u53 <= bpow radix2 (-40)) by (unfold u53; cbn; lra). pose proof u53_pos. nra. }
      nra.
    - apply Rmult_le_compat_l; [lra|]. apply rel_down. assert (M : bpow radix2 (-1022) <= bpow radix2 (-40)) by (apply bpow_le; lia). lra. }
  destruct (amin_ok _ _ one_fin (proj1 Uq)) as [Fq Em].
  change (frequency (Truth_Revision f64A v1 v2)) with (amin f64A (aconst f64A 1 1) (fdiv (fadd (fmul w1 (frequency v1)) (fmul w2 (frequency v2))) (fadd w1 w2))).
  rewrite Em. apply Rle_trans with (2 := LE). apply Rmin_r.
Qed.
Lemma half_down x : bpow radix2 (-1022) <= x -> x / 2 <= rnd x.
Proof. intros H. assert (P : 0 < bpow radix2 (-1022)) by apply bpow_gt_0. pose proof (rel_down x H). pose proof u53_pos. nra. Qed.
Lemma mul_half b x y : b <= 1000 -> rg 0 b x -> u01 y -> bpow radix2 (-1022) <= val x * val y -> val x * val y / 2 <= val (fmul x y).
Proof. intros B X Y P. destruct (mul_rg b x y B X Y) as (_ & _ & E). rewrite E. apply half_down. exact P. Qed.
Lemma w2c_quarter w : u01 w -> bpow radix2 (-500) <= val w -> val w / 4 <= val (Truth_w2c f64A w).
Proof.
  intros [Fw [W1 W2]] P. unfold Truth_w2c, HORIZON. cbn [aadd adiv f64A].
  destruct (fadd_ok w (aconst f64A 1 1) Fw one_fin) as [F1 E1]; [rewrite one_val; apply big_ge; rewrite Rabs_right; lra|].
  rewrite one_val in E1. set (s := fadd w (aconst f64A 1 1)) in *. change (fofZ 1) with (aconst f64A 1 1). fold s.
  assert (S1 : 1 <= val s) by (rewrite E1; apply rnd_ge_1; lra).
  assert (S2 : val s <= 2). { rewrite E1. destruct (v_ofZ_small 2) as [_ E]; [cbv; congruence|]. rewrite <- E. apply rnd_le_B. rewrite E. lra. }
  assert (Q : val w / 2 <= val w / val s). { unfold Rdiv. apply Rmult_le_compat_l; [lra|]. apply Rinv_le; lra. }
  assert (Q2 : val w / val s <= 1). { apply Rmult_le_reg_r with (val s); [lra|]. unfold Rdiv. rewrite Rmult_assoc, Rinv_l by lra. lra. }
  destruct (fdiv_ok w s Fw) as [F2 E2]; [lra|apply big_ge; rewrite Rabs_right; lra|]. rewrite E2.
  assert (T : bpow radix2 (-1022) <= bpow radix2 (-500) / 2). { apply Rle_trans with (bpow radix2 (-501)); [apply bpow_le; lia|]. right. cbn. lra. }
  apply Rle_trans with (val w / val s / 2); [lra|]. apply half_down. lra.
Qed.
Lemma evidence_amount (powdecay : Z -> f64) ca v t : (forall d, (0 <= d)%Z -> u01 (powdecay d)) -> rg 0 maxc ca -> valid v ->
  bpow radix2 (-33) <= val (frequency v) * val (confidence v) * val (powdecay (Z.abs t)) * val ca ->
  bpow radix2 (-40) <= val (confidence (Truth_Eternalize f64A (Truth_Induction f64A (@mkTruth f64A f0 ca) (Truth_Projection f64A powdecay v 0 t)))).
Proof.
  intros PD CA [FV CV] P. unfold Truth_Projection. destruct (Z.eqb_spec 0 OCCURRENCE_ETERNAL) as [X|_]; [discriminate X|]. rewrite Z.sub_0_r.
  unfold Truth_Eternalize, Truth_Induction, Truth_Abduction. cbn [frequency confidence amul f64A]. set (pw := powdecay (Z.abs t)) in *.
  assert (PW : u01 pw) by (apply PD; lia). pose proof maxc_bounds as MB.
  assert (CV1 : u01 (confidence v)) by (apply conf_u01; auto). assert (CA1 : u01 ca) by (apply conf_u01; auto).
  set (f := val (frequency v)) in *. set (c := val (confidence v)) in *. set (a := val ca) in *. set (q := val pw) in *.
  assert (F1 : 0 <= f <= 1) by apply FV. assert (C1 : 0 <= c <= 1) by apply CV1. assert (A1 : 0 <= a <= 1) by apply CA1. assert (Q1 : 0 <= q <= 1) by apply PW.
  assert (T0 : 0 < bpow radix2 (-33)) by apply bpow_gt_0.
  assert (B1 : bpow radix2 (-33) <= c * q). { apply Rle_trans with (1 := P). replace (f * c * q * a) with (c * q * (f * a)) by ring. assert (0 <= c * q) by nra. assert (f * a <= 1) by nra. nra. }
  assert (B2 : bpow radix2 (-33) <= f * (c * q)). { apply Rle_trans with (1 := P). assert (0 <= f * (c * q)) by (apply Rmult_le_pos; nra). nra. }
  assert (G : forall n : Z, (-1022 <= n)%Z -> bpow radix2 (-1022) <= bpow radix2 n) by (intros; apply bpow_le; auto).
  assert (N33 : bpow radix2 (-33) = 128 * bpow radix2 (-40)) by (cbn; lra). assert (P40 : 0 < bpow radix2 (-40)) by apply bpow_gt_0.
  assert (S40 : bpow radix2 (-1022) <= bpow radix2 (-40)) by (apply G; lia). assert (S500 : bpow radix2 (-500) <= bpow radix2 (-40)) by (apply bpow_le; lia).
  pose proof (mul_half 1 (confidence v) pw ltac:(lra) CV1 PW) as H1. fold c q in H1. specialize (H1 ltac:(lra)).
  destruct (mul_rg 1 (confidence v) pw ltac:(lra) CV1 PW) as (R1 & _ & _).
  pose proof (mul_half 1 (frequency v) (fmul (confidence v) pw) ltac:(lra) FV R1) as H2. fold f in H2.
  assert (H1' : f * (c * q) / 2 <= f * val (fmul (confidence v) pw)) by nra.
  specialize (H2 ltac:(lra)). destruct (mul_rg 1 (frequency v) _ ltac:(lra) FV R1) as (R2 & _ & _).
  pose proof (mul_half 1 (fmul (frequency v) (fmul (confidence v) pw)) ca ltac:(lra) R2 CA1) as H3. fold a in H3.
  assert (H2' : f * c * q * a / 4 <= val (fmul (frequency v) (fmul (confidence v) pw)) * a) by nra.
  specialize (H3 ltac:(lra)). destruct (mul_rg 1 _ ca ltac:(lra) R2 CA1) as (R3 & _ & _).
  set (x := fmul (fmul (frequency v) (fmul (confidence v) pw)) ca) in *. assert (X16 : 16 * bpow radix2 (-40) <= val x) by lra.
  pose proof (w2c_quarter x R3 ltac:(lra)) as H4. assert (R4 : u01 (Truth_w2c f64A x)) by (apply (w2c_rg 1); [lra|exact R3]).
  pose proof (w2c_quarter _ R4 ltac:(lra)) as H5. lra.
Qed.
