(** Proofs about TruthM, second part: expectation, projection, eternalisation, exact arithmetic. *)
From Coq Require Import ZArith Reals Lra Lia Bool.
From Flocq Require Import Core.Core IEEE754.BinarySingleNaN.
From Verif Require Import F64 TruthM TruthS TruthP.
Open Scope R_scope.

(** ** Expectation *)
Lemma valid_validt v : valid v -> validt v.
Proof. intros [A B]; split; [exact A|apply conf_u01, B]. Qed.

Lemma rnd_half : rnd (1/2) = 1/2. Proof. rewrite <- half_val at 1. rewrite rnd_B. apply half_val. Qed.
Lemma rnd_mhalf : rnd (-(1/2)) = -(1/2).
Proof. unfold rnd. rewrite round_NE_opp. fold (rnd (1/2)). rewrite rnd_half. reflexivity. Qed.
Lemma rnd_in_half x : -(1/2) <= x <= 1/2 -> -(1/2) <= rnd x <= 1/2.
Proof. intros [A B]. split; [rewrite <- rnd_mhalf|rewrite <- rnd_half]; apply rnd_mono; auto. Qed.

Lemma expectation_val v : validt v ->
  Fin (Truth_Expectation f64A v) /\
  val (Truth_Expectation f64A v) = rnd (rnd (val (confidence v) * rnd (val (frequency v) - 1/2)) + 1/2).
Proof.
  intros [[Ff Hf] [Fc Hc]]. unfold Truth_Expectation. cbn [amul asub aadd f64A].
  destruct (fsub_ok (frequency v) (aconst f64A 5 10) Ff half_fin) as [F1 E1]; [rewrite half_val; absle|].
  rewrite half_val in E1. pose proof (rnd_in_half (val (frequency v) - 1/2) ltac:(lra)) as B1.
  destruct (fmul_ok (confidence v) _ Fc F1) as [F2 E2]; [rewrite E1; absle|]. rewrite E1 in E2.
  pose proof (rnd_in_half (val (confidence v) * rnd (val (frequency v) - 1/2)) ltac:(nra)) as B2.
  destruct (fadd_ok _ (aconst f64A 5 10) F2 half_fin) as [F3 E3]; [rewrite half_val, E2; absle|].
  rewrite half_val, E2 in E3. split; [exact F3|exact E3].
Qed.

Lemma expectation_range v : validt v -> u01 (Truth_Expectation f64A v).
Proof.
  intros V. destruct (expectation_val v V) as [F E]. destruct V as [[Ff Hf] [Fc Hc]]. split; [exact F|]. rewrite E.
  pose proof (rnd_in_half (val (frequency v) - 1/2) ltac:(lra)) as B1.
  pose proof (rnd_in_half (val (confidence v) * rnd (val (frequency v) - 1/2)) ltac:(nra)) as B2.
  split; [apply rnd_nonneg; lra|apply rnd_le_1; lra].
Qed.
Lemma expectation_zero_conf v : validt v -> val (confidence v) = 0 -> val (Truth_Expectation f64A v) = 1/2.
Proof.
  intros V H. destruct (expectation_val v V) as [F E]. rewrite E, H, Rmult_0_l, rnd_0, Rplus_0_l. apply rnd_half.
Qed.
Lemma expectation_mono_freq v v' : validt v -> validt v' ->
  val (confidence v) = val (confidence v') -> val (frequency v) <= val (frequency v') ->
  val (Truth_Expectation f64A v) <= val (Truth_Expectation f64A v').
Proof.
  intros V V' Hc Hf. destruct (expectation_val v V) as [F E]. destruct (expectation_val v' V') as [F' E'].
  rewrite E, E', Hc. apply rnd_mono. apply Rplus_le_compat_r. apply rnd_mono.
  apply Rmult_le_compat_l; [apply V'|]. apply rnd_mono. lra.
Qed.
Lemma expectation_mono_conf v v' : validt v -> validt v' ->
  val (frequency v) = val (frequency v') -> val (confidence v) <= val (confidence v') ->
  (1/2 <= val (frequency v) -> 1/2 <= val (Truth_Expectation f64A v) <= val (Truth_Expectation f64A v')) /\
  (val (frequency v) <= 1/2 -> val (Truth_Expectation f64A v') <= val (Truth_Expectation f64A v) <= 1/2).
Proof.
  intros V V' Hf Hc. destruct (expectation_val v V) as [F E]. destruct (expectation_val v' V') as [F' E'].
  rewrite E, E', <- Hf. destruct V as [[_ VF] [_ VC]]. split; intros H.
  - assert (N : 0 <= rnd (val (frequency v) - 1/2)) by (apply rnd_nonneg; lra).
    assert (N2 : 0 <= rnd (val (confidence v) * rnd (val (frequency v) - 1/2))) by (apply rnd_nonneg; nra).
    split.
    + apply Rle_trans with (rnd (1/2)); [rewrite rnd_half; lra|apply rnd_mono; lra].
    + apply rnd_mono, Rplus_le_compat_r, rnd_mono. nra.
  - assert (N : rnd (val (frequency v) - 1/2) <= 0) by (rewrite <- rnd_0; apply rnd_mono; lra).
    assert (N2 : rnd (val (confidence v) * rnd (val (frequency v) - 1/2)) <= 0) by (rewrite <- rnd_0; apply rnd_mono; nra).
    split.
    + apply rnd_mono, Rplus_le_compat_r, rnd_mono. nra.
    + apply Rle_trans with (rnd (1/2)); [apply rnd_mono; lra|rewrite rnd_half; lra].
Qed.

(** ** Projection, eternalisation *)
Lemma projection_ok (powdecay : Z -> f64) v t1 t2 :
  (forall d, (0 <= d)%Z -> u01 (powdecay d)) -> valid v ->
  let v' := Truth_Projection f64A powdecay v t1 t2 in
  valid v' /\ frequency v' = frequency v /\
  val (confidence v') <= val (confidence v) /\
  (t1 = OCCURRENCE_ETERNAL -> v' = v) /\
  (t1 <> OCCURRENCE_ETERNAL -> t2 = t1 -> val (powdecay 0%Z) = 1 -> val (confidence v') = val (confidence v)).
Proof.
  intros HP [F C] v'. unfold v', Truth_Projection.
  destruct (Z.eqb_spec t1 OCCURRENCE_ETERNAL) as [E|E].
  - repeat split; try apply F; try apply C; auto; try lra; try congruence.
  - cbn [frequency confidence amul f64A].
    destruct (mul_rg maxc (confidence v) (powdecay (Z.abs (t2 - t1))) maxc_le1 C (HP _ (Z.abs_nonneg _))) as (A & B & D).
    split; [split; [exact F|exact A]|]. split; [reflexivity|]. split; [exact B|]. split; [congruence|].
    intros _ -> HE. rewrite Z.sub_diag in D. cbn [Z.abs] in D. rewrite HE, Rmult_1_r, rnd_B in D.
    rewrite Z.sub_diag. exact D.
Qed.
Lemma projection_farther (powdecay : Z -> f64) v t1 t2 t3 :
  (forall d, (0 <= d)%Z -> u01 (powdecay d)) ->
  (forall d d', (0 <= d <= d')%Z -> val (powdecay d') <= val (powdecay d)) -> valid v ->
  (Z.abs (t2 - t1) <= Z.abs (t3 - t1))%Z ->
  val (confidence (Truth_Projection f64A powdecay v t1 t3)) <= val (confidence (Truth_Projection f64A powdecay v t1 t2)).
Proof.
  intros HP HM [F C] HT. unfold Truth_Projection. destruct (Z.eqb_spec t1 OCCURRENCE_ETERNAL) as [E|E]; [lra|].
  cbn [frequency confidence amul f64A].
  destruct (mul_rg maxc (confidence v) (powdecay (Z.abs (t2 - t1))) maxc_le1 C (HP _ (Z.abs_nonneg _))) as (_ & _ & D2).
  destruct (mul_rg maxc (confidence v) (powdecay (Z.abs (t3 - t1))) maxc_le1 C (HP _ (Z.abs_nonneg _))) as (_ & _ & D3).
  rewrite D2, D3. apply rnd_mono. apply Rmult_le_compat_l; [apply C|]. apply HM. lia.
Qed.
Lemma eternalize_ok v : valid v ->
  let v' := Truth_Eternalize f64A v in
  valid v' /\ frequency v' = frequency v /\
  val (confidence v') <= val (confidence v) /\ val (confidence v') <= 1/2.
Proof.
  intros [F C] v'. unfold v', Truth_Eternalize. cbn [frequency confidence].
  destruct (w2c_ok maxc _ maxc_le1 C) as (Fw & (W1 & W2) & W3 & W4).
  split; [split; [exact F|apply (w2c_rg maxc); [apply maxc_le1|exact C]]|].
  split; [reflexivity|]. split; [exact W2|]. apply W4. destruct C as [_ C]. pose proof maxc_bounds; lra.
Qed.

(** ** Exact arithmetic *)
Lemma amin_R (x y : R) : amin realA x y = Rmin x y.
Proof.
  unfold amin, Rmin; cbn. unfold Rltb. destruct (Rlt_dec x y), (Rle_dec x y); try reflexivity;
    try (exfalso; lra); try (apply Rle_antisym; lra).
Qed.
Lemma amax_R (x y : R) : amax realA x y = Rmax x y.
Proof.
  unfold amax, Rmax; cbn. unfold Rltb. destruct (Rlt_dec y x), (Rle_dec x y); try reflexivity;
    try (exfalso; lra); try (apply Rle_antisym; lra).
Qed.
Lemma c2w_R (c : R) : Truth_c2w realA c = c / (1 - c).
Proof. unfold Truth_c2w, HORIZON; cbn. replace (1/1) with 1 by field. rewrite Rmult_1_l. reflexivity. Qed.
Lemma w2c_R (w : R) : Truth_w2c realA w = w / (w + 1).
Proof. unfold Truth_w2c, HORIZON; cbn. replace (1/1) with 1 by field. reflexivity. Qed.

(** w2c and c2w are inverse *)
Lemma w2c_c2w_R (c : R) : 0 <= c < 1 -> Truth_w2c realA (Truth_c2w realA c) = c.
Proof. intros H. rewrite w2c_R, c2w_R. cbv beta. change (carrier realA) with R in *. field. split; [|lra]. replace (c + (1 - c)) with 1 by ring. lra. Qed.
Lemma c2w_w2c_R (w : R) : 0 <= w -> Truth_c2w realA (Truth_w2c realA w) = w.
Proof. intros H. rewrite w2c_R, c2w_R. cbv beta. change (carrier realA) with R in *. field. replace (w + 1 - w) with 1 by ring. lra. Qed.

Lemma revision_R v1 v2 : validR v1 -> validR v2 -> 0 < confidence v1 \/ 0 < confidence v2 ->
  let w1 := confidence v1 / (1 - confidence v1) in
  let w2 := confidence v2 / (1 - confidence v2) in
  let v := Truth_Revision realA v1 v2 in
  frequency v = (w1 * frequency v1 + w2 * frequency v2) / (w1 + w2) /\
  confidence v = Rmin (99/100) ((w1 + w2) / (w1 + w2 + 1)) /\
  Rmin (frequency v1) (frequency v2) <= frequency v <= Rmax (frequency v1) (frequency v2) /\
  (0 < confidence v1 < 99/100 -> 0 < confidence v2 < 99/100 ->
     confidence v1 < confidence v /\ confidence v2 < confidence v).
Proof.
  intros [F1 C1] [F2 C2] HP w1 w2 v.
  assert (W1 : 0 <= w1) by (apply Rmult_le_pos; [lra|]; apply Rlt_le, Rinv_0_lt_compat; lra).
  assert (W2 : 0 <= w2) by (apply Rmult_le_pos; [lra|]; apply Rlt_le, Rinv_0_lt_compat; lra).
  assert (Wp : 0 < w1 + w2).
  { destruct HP as [HP|HP]; [assert (0 < w1) by (apply Rmult_lt_0_compat; [lra|]; apply Rinv_0_lt_compat; lra)
    |assert (0 < w2) by (apply Rmult_lt_0_compat; [lra|]; apply Rinv_0_lt_compat; lra)]; lra. }
  set (f1 := frequency v1) in *. set (f2 := frequency v2) in *.
  assert (Q : Rmin f1 f2 <= (w1 * f1 + w2 * f2) / (w1 + w2) <= Rmax f1 f2).
  { split.
    - apply Rmult_le_reg_r with (w1 + w2); [lra|]. unfold Rdiv. rewrite Rmult_assoc, Rinv_l by lra.
      unfold Rmin. destruct (Rle_dec f1 f2); nra.
    - apply Rmult_le_reg_r with (w1 + w2); [lra|]. unfold Rdiv. rewrite Rmult_assoc, Rinv_l by lra.
      unfold Rmax. destruct (Rle_dec f1 f2); nra. }
  assert (E1 : frequency v = (w1 * f1 + w2 * f2) / (w1 + w2)).
  { unfold v, Truth_Revision. cbv zeta. cbn [frequency]. rewrite amin_R, !c2w_R. cbn [aadd amul adiv aconst realA].
    fold w1 w2 f1 f2. rewrite Rmin_right; [reflexivity|]. replace (1 / 1) with 1 by field.
    apply Rle_trans with (1 := proj2 Q). unfold Rmax. destruct (Rle_dec f1 f2); lra. }
  assert (G : forall c x y, 0 <= c < 1 -> x = c / (1 - c) -> 0 <= y -> c <= (x + y) / (x + y + 1) /\ (0 < y -> c < (x + y) / (x + y + 1))).
  { intros c x y Hc Hx Hy. assert (X : 0 <= x) by (subst x; apply Rmult_le_pos; [lra|]; apply Rlt_le, Rinv_0_lt_compat; lra).
    assert (XE : x * (1 - c) = c) by (subst x; field; lra).
    split; [|intros Hy'].
    - apply Rmult_le_reg_r with (x + y + 1); [lra|]. unfold Rdiv. rewrite Rmult_assoc, Rinv_l by lra. nra.
    - apply Rmult_lt_reg_r with (x + y + 1); [lra|]. unfold Rdiv. rewrite Rmult_assoc, Rinv_l by lra. nra. }
  assert (E2 : confidence v = Rmin (99/100) ((w1 + w2) / (w1 + w2 + 1))).
  { unfold v, Truth_Revision. cbv zeta. cbn [confidence]. rewrite amin_R, !amax_R, w2c_R, !c2w_R. cbn [aadd realA].
    fold w1 w2. unfold MAX_CONFIDENCE; cbn [aconst realA]. f_equal.
    destruct (G (confidence v1) w1 w2 ltac:(lra) eq_refl W2) as [A _].
    destruct (G (confidence v2) w2 w1 ltac:(lra) eq_refl W1) as [B _]. rewrite (Rplus_comm w2 w1) in B.
    rewrite (Rmax_left _ (confidence v1)) by exact A. rewrite Rmax_left by exact B. reflexivity. }
  split; [exact E1|]. split; [exact E2|]. split; [rewrite E1; exact Q|].
  intros H1 H2. rewrite E2.
  assert (P1 : 0 < w1) by (apply Rmult_lt_0_compat; [lra|]; apply Rinv_0_lt_compat; lra).
  assert (P2 : 0 < w2) by (apply Rmult_lt_0_compat; [lra|]; apply Rinv_0_lt_compat; lra).
  destruct (G (confidence v1) w1 w2 ltac:(lra) eq_refl W2) as [_ A]. specialize (A P2).
  destruct (G (confidence v2) w2 w1 ltac:(lra) eq_refl W1) as [_ B]. specialize (B P1). rewrite (Rplus_comm w2 w1) in B.
  unfold Rmin. destruct (Rle_dec _ _); lra.
Qed.

(** ** What goes wrong outside the valid range *)
Lemma revision_nan_conf1 : is_nan (frequency (Truth_Revision f64A (tr64 1 1 1 1) (tr64 1 1 1 1))) = true.
Proof. vm_compute. reflexivity. Qed.
Lemma revision_nan_conf0 : is_nan (frequency (Truth_Revision f64A (tr64 1 1 0 1) (tr64 1 1 0 1))) = true.
Proof. vm_compute. reflexivity. Qed.
Lemma revision_loses_confidence :
  fltb (confidence (Truth_Revision f64A (tr64 1 1 995 1000) (tr64 1 1 9 10))) (aconst f64A 995 1000) = true.
Proof. vm_compute. reflexivity. Qed.

Lemma validtb (v : truth64) :
  (is_finite (frequency v) && is_finite (confidence v) &&
   fleb f0 (frequency v) && fleb (frequency v) f1 &&
   fleb f0 (confidence v) && fleb (confidence v) f1)%bool = true -> validt v.
Proof.
  rewrite !andb_true_iff. intros (((((A & B) & C) & D) & E) & F).
  apply fleb_spec in C; auto. apply fleb_spec in D; auto. apply fleb_spec in E; auto.
  apply fleb_spec in F; auto. rewrite v_f0 in C, E. rewrite v_f1 in D, F.
  repeat split; auto.
Qed.
Lemma validbb (v : truth64) :
  (is_finite (frequency v) && is_finite (confidence v) &&
   fleb f0 (frequency v) && fleb (frequency v) f1 &&
   fleb f0 (confidence v) && fleb (confidence v) (MAX_CONFIDENCE f64A))%bool = true -> valid v.
Proof.
  rewrite !andb_true_iff. intros (((((A & B) & C) & D) & E) & F).
  apply fleb_spec in C; auto. apply fleb_spec in D; auto. apply fleb_spec in E; auto.
  apply fleb_spec in F; auto. rewrite v_f0 in C, E. rewrite v_f1 in D.
  repeat split; auto.
Qed.
Lemma revision_outside_range :
  (exists v1 v2, validt v1 /\ validt v2 /\ is_nan (frequency (Truth_Revision f64A v1 v2)) = true /\
     val (confidence v1) = 1) /\
  (exists v1 v2, valid v1 /\ valid v2 /\ is_nan (frequency (Truth_Revision f64A v1 v2)) = true) /\
  (exists v1 v2, validt v1 /\ valid v2 /\
     val (confidence (Truth_Revision f64A v1 v2)) < val (confidence v1)).
Proof.
  split; [|split].
  - exists (tr64 1 1 1 1), (tr64 1 1 1 1). repeat (split; [first [apply validtb; vm_compute; reflexivity|apply revision_nan_conf1]|]).
    apply v_f1.
  - exists (tr64 1 1 0 1), (tr64 1 1 0 1). repeat (split; [apply validbb; vm_compute; reflexivity|]). apply revision_nan_conf0.
  - exists (tr64 1 1 995 1000), (tr64 1 1 9 10).
    split; [apply validtb; vm_compute; reflexivity|]. split; [apply validbb; vm_compute; reflexivity|].
    apply fltb_spec; [vm_compute; reflexivity|vm_compute; reflexivity|]. apply revision_loses_confidence.
Qed.
