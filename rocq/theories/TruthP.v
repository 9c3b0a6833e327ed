(** Proofs about TruthM. *)
From Coq Require Import ZArith Reals Lra Lia Bool.
From Flocq Require Import Core.Core IEEE754.BinarySingleNaN.
From Flocq.Prop Require Import Sterbenz.
From Verif Require Import F64 TruthM TruthS.
Open Scope R_scope.

(** value of a closed double *)
Lemma val_closed (x : f64) s m e : B2SF x = SpecFloat.S754_finite s m e ->
  val x = F2R (Float radix2 (cond_Zopp s (Zpos m)) e).
Proof. intros H. rewrite <- SF2R_B2SF. rewrite H. reflexivity. Qed.

Lemma maxc_val : maxc = IZR 8917127262193582 / IZR 9007199254740992.
Proof.
  unfold maxc. rewrite (val_closed _ false 8917127262193582 (-53)) by (vm_compute; reflexivity).
  unfold F2R. cbn [cond_Zopp Fnum Fexp]. unfold bpow, radix_val, radix2.
  replace (Z.pow_pos 2 53) with 9007199254740992%Z by reflexivity. reflexivity.
Qed.
Lemma maxc_bounds : 98 / 100 < maxc < 995 / 1000.
Proof. rewrite maxc_val. lra. Qed.
Lemma maxc_fin : Fin (MAX_CONFIDENCE f64A). Proof. vm_compute; reflexivity. Qed.

Lemma one_val : val (aconst f64A 1 1) = 1. Proof. apply v_f1. Qed.
Lemma one_fin : Fin (aconst f64A 1 1). Proof. reflexivity. Qed.
Lemma zero_val : val (aconst f64A 0 1) = 0. Proof. apply v_f0. Qed.
Lemma zero_fin : Fin (aconst f64A 0 1). Proof. reflexivity. Qed.
Lemma half_val : val (aconst f64A 5 10) = 1/2.
Proof.
  rewrite (val_closed _ false 4503599627370496 (-53)) by (vm_compute; reflexivity).
  unfold F2R. cbn [cond_Zopp Fnum Fexp]. unfold bpow, radix_val, radix2.
  replace (Z.pow_pos 2 53) with 9007199254740992%Z by reflexivity. lra.
Qed.
Lemma half_fin : Fin (aconst f64A 5 10). Proof. vm_compute; reflexivity. Qed.
Lemma reliance_rg : rg (89/100) (91/100) (RELIANCE f64A).
Proof.
  split; [vm_compute; reflexivity|].
  rewrite (val_closed _ false 8106479329266893 (-53)) by (vm_compute; reflexivity).
  unfold F2R. cbn [cond_Zopp Fnum Fexp]. unfold bpow, radix_val, radix2.
  replace (Z.pow_pos 2 53) with 9007199254740992%Z by reflexivity. lra.
Qed.

Lemma big_ge x : Rabs x <= 1000000 -> Rabs x <= big.
Proof.
  intros H. apply Rle_trans with (1 := H). unfold big.
  apply Rle_trans with (bpow radix2 20); [cbn; lra|]. apply bpow_le. lia.
Qed.
Ltac absle := apply big_ge; apply Rabs_le; split; nra.

Lemma rnd_nonneg x : 0 <= x -> 0 <= rnd x.
Proof. intros H. rewrite <- rnd_0. apply rnd_mono, H. Qed.
Lemma rnd_le_B x (y : f64) : x <= val y -> rnd x <= val y.
Proof. intros H. rewrite <- (rnd_B y). apply rnd_mono, H. Qed.
Lemma rnd_ge_B x (y : f64) : val y <= x -> val y <= rnd x.
Proof. intros H. rewrite <- (rnd_B y). apply rnd_mono, H. Qed.
Lemma rnd_le_1 x : x <= 1 -> rnd x <= 1.
Proof. intros H. rewrite <- rnd_1. apply rnd_mono, H. Qed.
Lemma rnd_ge_1 x : 1 <= x -> 1 <= rnd x.
Proof. intros H. rewrite <- rnd_1. apply rnd_mono, H. Qed.

(** products shrink *)
Lemma mul_rg b x y : b <= 1000 -> rg 0 b x -> u01 y ->
  rg 0 b (fmul x y) /\ val (fmul x y) <= val x /\ val (fmul x y) = rnd (val x * val y).
Proof.
  intros Hb [Fx [Hx1 Hx2]] [Fy [Hy1 Hy2]].
  destruct (fmul_ok x y Fx Fy) as [F E]; [absle|].
  assert (L : val (fmul x y) <= val x) by (rewrite E; apply rnd_le_B; nra).
  split; [|auto]. split; [exact F|]. split; [rewrite E; apply rnd_nonneg; nra|lra].
Qed.
Lemma mul_rg' b x y : b <= 1000 -> u01 x -> rg 0 b y ->
  rg 0 b (fmul x y) /\ val (fmul x y) <= val y.
Proof.
  intros Hb [Fx [Hx1 Hx2]] [Fy [Hy1 Hy2]].
  destruct (fmul_ok x y Fx Fy) as [F E]; [absle|].
  assert (L : val (fmul x y) <= val y) by (rewrite E; apply rnd_le_B; nra).
  split; [|auto]. split; [exact F|]. split; [rewrite E; apply rnd_nonneg; nra|lra].
Qed.
Lemma maxc_le1 : maxc <= 1000. Proof. pose proof maxc_bounds; lra. Qed.
Lemma conf_u01 x : rg 0 maxc x -> u01 x.
Proof. intros [F H]. split; auto. pose proof maxc_bounds; lra. Qed.

Lemma compl_rg x : u01 x -> u01 (fsub (aconst f64A 1 1) x) /\
  val (fsub (aconst f64A 1 1) x) = rnd (1 - val x).
Proof.
  intros [Fx [Hx1 Hx2]].
  destruct (fsub_ok (aconst f64A 1 1) x one_fin Fx) as [F E]; [rewrite one_val; absle|].
  rewrite one_val in E. split; [|auto]. split; [exact F|]. rewrite E. split; [apply rnd_nonneg; lra|apply rnd_le_1; lra].
Qed.

(** w2c on [0,b], b <= 1000: result in [0,1), at most the argument; at most 1/2 if b <= 1 *)
Lemma w2c_ok b w : b <= 1000 -> rg 0 b w ->
  Fin (Truth_w2c f64A w) /\ 0 <= val (Truth_w2c f64A w) <= val w /\ val (Truth_w2c f64A w) <= 1 /\
  (val w <= 1 -> val (Truth_w2c f64A w) <= 1/2).
Proof.
  intros Hb [Fw [Hw1 Hw2]]. unfold Truth_w2c, HORIZON. cbn [aadd adiv f64A].
  destruct (fadd_ok w (aconst f64A 1 1) Fw one_fin) as [F1 E1]; [rewrite one_val; absle|].
  rewrite one_val in E1. set (s := fadd w (aconst f64A 1 1)) in *. 
  change (fofZ 1) with (aconst f64A 1 1). fold s.
  assert (S1 : 1 <= val s) by (rewrite E1; apply rnd_ge_1; lra).
  assert (S2 : val w <= val s) by (rewrite E1; apply rnd_ge_B; lra).
  assert (Q1 : 0 <= val w / val s) by (apply Rmult_le_pos; [lra|]; apply Rlt_le, Rinv_0_lt_compat; lra).
  assert (Q2 : val w / val s <= val w).
  { apply Rmult_le_reg_r with (val s); [lra|]. unfold Rdiv. rewrite Rmult_assoc, Rinv_l by lra. nra. }
  assert (Q3 : val w / val s <= 1).
  { apply Rmult_le_reg_r with (val s); [lra|]. unfold Rdiv. rewrite Rmult_assoc, Rinv_l by lra. nra. }
  destruct (fdiv_ok w s Fw) as [F2 E2]; [lra|absle|].
  rewrite E2. repeat split; auto.
  - apply rnd_nonneg; auto.
  - apply rnd_le_B; auto.
  - apply rnd_le_1; auto.
  - intros H1.
    assert (T : 2 * val w <= val s).
    { rewrite E1. apply Rle_trans with (rnd (2 * val w)).
      - right. symmetry. apply round_generic; [typeclasses eauto|].
        apply (generic_format_FLT radix2 (3 - 1024 - 53) 53).
        pose proof (generic_format_B2R 53 1024 w) as G.
        apply FLT_format_generic in G; [|reflexivity].
        destruct G as [[m e] G1 G2 G3]. cbn [Fnum Fexp] in G2, G3.
        exists (Float radix2 m (e + 1)); cbn [Fnum Fexp]; [|exact G2|change (SpecFloat.emin 53 1024) with (3 - 1024 - 53)%Z in G3; lia].
        rewrite G1. unfold F2R; cbn [Fnum Fexp]. rewrite bpow_plus. change (bpow radix2 1) with 2. ring.
      - apply rnd_mono. lra. }
    rewrite <- half_val. apply rnd_le_B. rewrite half_val.
    apply Rmult_le_reg_r with (val s); [lra|]. unfold Rdiv. rewrite Rmult_assoc, Rinv_l by lra. nra.
Qed.

Lemma w2c_rg b w : b <= 1000 -> rg 0 b w -> rg 0 b (Truth_w2c f64A w).
Proof. intros Hb H. destruct (w2c_ok b w Hb H) as (F & (H1 & H2) & _). split; auto. destruct H as [_ H]. lra. Qed.

Lemma const_u01_1 : u01 (aconst f64A 1 1). Proof. split; [apply one_fin|rewrite one_val; lra]. Qed.
Lemma const_u01_0 : u01 (aconst f64A 0 1). Proof. split; [apply zero_fin|rewrite zero_val; lra]. Qed.

Lemma or_u01 a b : u01 a -> u01 b -> u01 (Truth_or f64A a b).
Proof.
  intros Ha Hb. unfold Truth_or. cbn [asub amul f64A].
  apply compl_rg. apply mul_rg; [lra|apply compl_rg; auto|apply compl_rg; auto].
Qed.

(** ** Comparison: the quotient of the frequency stays at most 1 despite rounding *)
Lemma pred_1 x : generic_format radix2 fexp64 x -> x < 1 -> x <= 1 - bpow radix2 (-53).
Proof.
  intros G H.
  assert (G1 : generic_format radix2 fexp64 1) by (rewrite <- v_f1; apply generic_format_B2R).
  assert (P := pred_ge_gt radix2 fexp64 x 1 G G1 H).
  replace (pred radix2 fexp64 1) with (1 - bpow radix2 (-53)) in P; [exact P|].
  change 1 with (bpow radix2 0). rewrite pred_bpow. f_equal.
Qed.
Lemma rnd_err_below_1 x : 0 <= x <= 1 -> Rabs (rnd x - x) <= bpow radix2 (-54).
Proof.
  intros H. destruct (Req_dec x 0) as [->|Hx].
  { rewrite rnd_0, Rminus_0_r, Rabs_R0. apply bpow_ge_0. }
  destruct (Req_dec x 1) as [->|Hx1].
  { rewrite rnd_1, Rminus_diag_eq, Rabs_R0 by reflexivity. apply bpow_ge_0. }
  eapply Rle_trans; [apply error_le_half_ulp; typeclasses eauto|].
  replace (bpow radix2 (-54)) with (/2 * bpow radix2 (-53)) by (change (bpow radix2 (-53)) with (bpow radix2 (-54 + 1)); rewrite bpow_plus; change (bpow radix2 1) with 2; field).
  apply Rmult_le_compat_l; [lra|].
  rewrite ulp_neq_0 by auto. apply bpow_le. unfold cexp.
  assert (M : (mag radix2 x <= 0)%Z). { apply mag_le_bpow; auto. change (bpow radix2 0) with 1. rewrite Rabs_pos_eq by lra. lra. }
  unfold SpecFloat.fexp, SpecFloat.emin. lia.
Qed.

Lemma sub_exact_half x : generic_format radix2 fexp64 x -> 1/2 <= x <= 1 -> rnd (1 - x) = 1 - x.
Proof.
  intros G H. apply round_generic; [typeclasses eauto|].
  replace (1 - x) with (1 - x) by ring.
  apply (sterbenz radix2 fexp64 1 x); [rewrite <- v_f1; apply generic_format_B2R|exact G|lra].
Qed.

Lemma or_lower a b : u01 a -> u01 b ->
  val (Truth_or f64A a b) = 0 \/ val (fmul a b) <= val (Truth_or f64A a b).
Proof.
  intros Ha Hb. unfold Truth_or. cbn [asub amul f64A]. change (fofZ 1) with (aconst f64A 1 1).
  destruct (compl_rg a Ha) as [Ca Ea]. destruct (compl_rg b Hb) as [Cb Eb].
  set (ca := fsub (aconst f64A 1 1) a) in *. set (cb := fsub (aconst f64A 1 1) b) in *.
  destruct (mul_rg 1 ca cb ltac:(lra) Ca Cb) as (Cp & Lpa & Ep).
  destruct (mul_rg' 1 ca cb ltac:(lra) Ca Cb) as (_ & Lpb).
  set (p := fmul ca cb) in *.
  destruct (compl_rg p Cp) as [Cq Eq]. set (q := fsub (aconst f64A 1 1) p) in *.
  destruct (mul_rg 1 a b ltac:(lra) Ha Hb) as (Cab & Lab1 & Eab).
  destruct (mul_rg' 1 a b ltac:(lra) Ha Hb) as (_ & Lab2).
  destruct Ha as [Fa [Ha1 Ha2]], Hb as [Fb [Hb1 Hb2]].
  destruct (Rle_or_lt (1/2) (val a)) as [A|A].
  { right. rewrite sub_exact_half in Ea by (try apply generic_format_B2R; lra).
    apply Rle_trans with (val a); [exact Lab1|]. rewrite Eq. apply rnd_ge_B. lra. }
  destruct (Rle_or_lt (1/2) (val b)) as [B|B].
  { right. rewrite sub_exact_half in Eb by (try apply generic_format_B2R; lra).
    apply Rle_trans with (val b); [exact Lab2|]. rewrite Eq. apply rnd_ge_B. lra. }
  destruct (Req_dec (val p) 1) as [P1|P1].
  { left. rewrite Eq, P1, Rminus_diag_eq by reflexivity. apply rnd_0. }
  right. destruct Cp as [Fp [Hp1 Hp2]].
  assert (P2 := pred_1 (val p) (generic_format_B2R _ _ p) ltac:(lra)).
  assert (P3 := rnd_err_below_1 (1 - val a) ltac:(lra)). rewrite <- Ea in P3. apply Rabs_le_inv in P3.
  rewrite Eab, Eq. apply rnd_mono.
  assert (H54 : bpow radix2 (-53) = 2 * bpow radix2 (-54)).
  { change (bpow radix2 (-53)) with (bpow radix2 (1 + -54)). rewrite bpow_plus. change (bpow radix2 1) with 2. ring. }
  assert (Hpos := bpow_gt_0 radix2 (-54)).
  assert (Hab : val a * val b <= val a / 2) by nra.
  rewrite H54 in P2. lra.
Qed.

Lemma comparison_freq a b : u01 a -> u01 b ->
  u01 (if feqb (Truth_or f64A a b) (aconst f64A 0 1) then aconst f64A 0 1
       else fdiv (fmul a b) (Truth_or f64A a b)).
Proof.
  intros Ha Hb. pose proof (or_u01 a b Ha Hb) as Ho.
  destruct (mul_rg 1 a b ltac:(lra) Ha Hb) as ([Fm [Hm1 Hm2]] & _ & _).
  destruct (feqb (Truth_or f64A a b) (aconst f64A 0 1)) eqn:E; [apply const_u01_0|].
  assert (N : val (Truth_or f64A a b) <> 0).
  { intros H. assert (feqb (Truth_or f64A a b) (aconst f64A 0 1) = true); [|congruence].
    apply feqb_spec; [apply Ho|apply zero_fin|]. rewrite H, zero_val. reflexivity. }
  destruct (or_lower a b Ha Hb) as [L|L]; [congruence|].
  destruct Ho as [Fo [Ho1 Ho2]]. set (o := Truth_or f64A a b) in *.
  assert (Q1 : 0 <= val (fmul a b) / val o) by (apply Rmult_le_pos; [lra|]; apply Rlt_le, Rinv_0_lt_compat; lra).
  assert (Q2 : val (fmul a b) / val o <= 1).
  { apply Rmult_le_reg_r with (val o); [lra|]. unfold Rdiv. rewrite Rmult_assoc, Rinv_l by lra. lra. }
  destruct (fdiv_ok (fmul a b) o Fm N) as [F2 E2]; [absle|].
  split; [exact F2|]. rewrite E2. split; [apply rnd_nonneg; auto|apply rnd_le_1; auto].
Qed.

(** ** closure of the valid range, and confidence bounds *)
Definition okc (b1 b2 : R) (c : f64) : Prop := rg 0 maxc c /\ val c <= b1 /\ val c <= b2.

Lemma cc_ok c1 c2 : rg 0 maxc c1 -> rg 0 maxc c2 -> okc (val c1) (val c2) (fmul c1 c2).
Proof.
  intros H1 H2. destruct (mul_rg maxc c1 c2 maxc_le1 H1 (conf_u01 _ H2)) as (A & B & _).
  destruct (mul_rg' maxc c1 c2 maxc_le1 (conf_u01 _ H1) H2) as (_ & D). split; auto.
Qed.
Lemma okc_mul b1 b2 c x : okc b1 b2 c -> u01 x -> okc b1 b2 (fmul c x).
Proof.
  intros (H & H1 & H2) Hx. destruct (mul_rg maxc c x maxc_le1 H Hx) as (A & B & _). split; auto. split; lra.
Qed.
Lemma okc_mul' b1 b2 c x : okc b1 b2 c -> u01 x -> okc b1 b2 (fmul x c).
Proof.
  intros (H & H1 & H2) Hx. destruct (mul_rg' maxc x c maxc_le1 Hx H) as (A & B). split; auto. split; lra.
Qed.
Lemma okc_w2c b1 b2 c : okc b1 b2 c -> okc b1 b2 (Truth_w2c f64A c).
Proof.
  intros (H & H1 & H2). destruct (w2c_ok maxc c maxc_le1 H) as (F & (A & B) & _).
  split; [apply w2c_rg; [apply maxc_le1|auto]|]. split; lra.
Qed.
Lemma fcc_ok f c1 c2 : u01 f -> rg 0 maxc c1 -> rg 0 maxc c2 ->
  okc (val c1) (val c2) (fmul (fmul f c1) c2).
Proof.
  intros Hf H1 H2. destruct (mul_rg' maxc f c1 maxc_le1 Hf H1) as (A & B).
  destruct (cc_ok _ c2 A H2) as (D & E & G). split; auto. split; lra.
Qed.
Lemma okc_zero b1 b2 : 0 <= b1 -> 0 <= b2 -> okc b1 b2 (aconst f64A 0 1).
Proof.
  intros. split; [|rewrite zero_val; auto]. split; [apply zero_fin|]. rewrite zero_val. pose proof maxc_bounds; lra.
Qed.

Lemma reliance_ok : rg 0 maxc (RELIANCE f64A).
Proof. destruct reliance_rg as [F H]. split; auto. pose proof maxc_bounds; lra. Qed.

Lemma deduction_ok v1 v2 : valid v1 -> valid v2 ->
  u01 (frequency (Truth_Deduction f64A v1 v2)) /\
  okc (val (confidence v1)) (val (confidence v2)) (confidence (Truth_Deduction f64A v1 v2)).
Proof.
  intros [F1 C1] [F2 C2]. cbn. split; [apply mul_rg; auto; lra|].
  apply okc_mul; [apply cc_ok; auto|apply mul_rg; auto; lra].
Qed.

Ltac tc := cbn; change (fofZ 1) with (aconst f64A 1 1).
#[local] Opaque fofZ fdec fadd fmul fsub fdiv.
Lemma tfun_ok t v1 v2 : valid v1 -> valid v2 ->
  u01 (frequency (apply_tfun f64A t v1 v2)) /\
  rg 0 maxc (confidence (apply_tfun f64A t v1 v2)) /\
  val (confidence (apply_tfun f64A t v1 v2)) <= val (confidence v1) /\
  (two_premise t = true -> val (confidence (apply_tfun f64A t v1 v2)) <= val (confidence v2)).
Proof.
  intros V1 V2. pose proof V1 as [F1 C1]. pose proof V2 as [F2 C2].
  assert (N1 : 0 <= val (confidence v1)) by apply C1.
  assert (N2 : 0 <= val (confidence v2)) by apply C2.
  assert (CF1 : u01 (fsub (aconst f64A 1 1) (frequency v1))) by (apply compl_rg; auto).
  assert (CF2 : u01 (fsub (aconst f64A 1 1) (frequency v2))) by (apply compl_rg; auto).
  assert (G : forall f c, u01 f -> okc (val (confidence v1)) (val (confidence v2)) c ->
     u01 f /\ rg 0 maxc c /\ val c <= val (confidence v1) /\ (two_premise t = true -> val c <= val (confidence v2))).
  { intros f c Hf (A & B & D). auto. }
  destruct t; cbn [apply_tfun two_premise] in *.
  - (* Deduction *) apply G; apply deduction_ok; auto.
  - (* Abduction *) apply G; [exact F2|]. apply okc_w2c, fcc_ok; auto.
  - (* Induction *)
    apply G; [exact F1|]. cbn. apply okc_w2c.
    destruct (fcc_ok _ _ _ F2 C2 C1) as (A & B & D). split; auto.
  - (* Intersection *) apply G; tc; [apply mul_rg; auto; lra|apply cc_ok; auto].
  - (* Exemplification *)
    apply G; tc; [apply const_u01_1|]. apply okc_w2c. apply fcc_ok; auto. apply mul_rg; auto; lra.
  - (* Comparison *)
    apply G; tc; [apply comparison_freq; auto|]. apply okc_w2c, fcc_ok; auto. apply or_u01; auto.
  - (* Analogy *) apply G; tc; [apply mul_rg; auto; lra|]. apply okc_mul; [apply cc_ok; auto|auto].
  - (* Resemblance *) apply G; tc; [apply mul_rg; auto; lra|]. apply okc_mul; [apply cc_ok; auto|apply or_u01; auto].
  - (* Union *) apply G; tc; [apply or_u01; auto|apply cc_ok; auto].
  - (* Difference *) apply G; tc; [apply mul_rg; auto; lra|apply cc_ok; auto].
  - (* Conversion *)
    destruct (mul_rg' maxc _ _ maxc_le1 F1 C1) as (A & B).
    destruct (w2c_ok maxc _ maxc_le1 A) as (F & (H1 & H2) & _).
    split; [apply const_u01_1|]. split; [apply (w2c_rg maxc); [apply maxc_le1|exact A]|].
    split; [exact (Rle_trans _ _ _ H2 B)|discriminate].
  - (* Negation *) cbn. split; [auto|]. split; [auto|]. split; [lra|discriminate].
  - (* StructuralDeduction *)
    destruct (deduction_ok v1 (STRUCTURAL_TRUTH f64A) V1) as (A & B & D & _); [split; [apply const_u01_1|apply reliance_ok]|].
    split; [exact A|]. split; [exact B|]. split; [exact D|discriminate].
  - (* StructuralDeductionNegated *)
    destruct (deduction_ok v1 (STRUCTURAL_TRUTH f64A) V1) as (A & B & D & _); [split; [apply const_u01_1|apply reliance_ok]|].
    split; [apply compl_rg, A|]. split; [exact B|]. split; [exact D|discriminate].
  - (* StructuralIntersection *)
    destruct (cc_ok _ _ C1 reliance_ok) as (A & B & _).
    split; [apply mul_rg; auto; try lra; apply const_u01_1|]. split; [exact A|]. split; [exact B|discriminate].
  - (* DecomposePNN *)
    apply G; tc; [apply compl_rg, mul_rg; auto; lra|]. apply fcc_ok; auto. apply mul_rg; auto; lra.
  - (* DecomposeNPP *)
    apply G; tc; [apply mul_rg; auto; lra|]. apply fcc_ok; auto. apply mul_rg; auto; lra.
  - (* DecomposePNP *)
    apply G; tc; [apply mul_rg; auto; lra|]. apply fcc_ok; auto. apply mul_rg; auto; lra.
  - (* DecomposePPP *)
    assert (CC1 : u01 (fsub (aconst f64A 1 1) (fsub (aconst f64A 1 1) (frequency v1)))) by (apply compl_rg; auto).
    apply G; tc; [apply mul_rg; auto; lra|]. apply fcc_ok; auto. apply mul_rg; auto; lra.
  - (* DecomposeNNN *)
    apply G; tc; [apply compl_rg, mul_rg; auto; lra|]. apply fcc_ok; auto. apply mul_rg; auto; lra.
  - (* AnonymousAnalogy *)
    destruct (mul_rg' maxc _ _ maxc_le1 F2 C2) as (A & B).
    destruct (w2c_ok maxc _ maxc_le1 A) as (F & (H1 & H2) & _).
    assert (W := w2c_rg maxc _ maxc_le1 A).
    destruct (cc_ok _ _ C1 W) as (D & E1 & E2).
    apply G; tc; [apply mul_rg; auto; [lra|apply const_u01_1]|].
    apply okc_mul; [|apply const_u01_1]. split; [exact D|]. split; [exact E1|]. eapply Rle_trans; [exact E2|]. lra.
  - (* GoalDeduction *)
    destruct (deduction_ok v1 v2 V1 V2) as (A1 & B1).
    assert (VN : valid (Truth_Negation f64A v1 v2)) by (split; [exact CF1|exact C1]).
    destruct (deduction_ok (Truth_Negation f64A v1 v2) v2 VN V2) as (A2 & B2).
    unfold Truth_GoalDeduction. cbv zeta.
    destruct (_ || _); [apply G; [exact A1|exact B1]|].
    apply G; [apply compl_rg, A2|exact B2].
  - (* FrequencyGreater *)
    unfold Truth_FrequencyGreater. destruct (altb _ _ _); cbn [frequency confidence]; apply G;
      auto using const_u01_1, const_u01_0, okc_zero, cc_ok.
  - (* FrequencyEqual *)
    unfold Truth_FrequencyEqual. destruct (aeqb _ _ _); cbn [frequency confidence]; apply G;
      auto using const_u01_1, const_u01_0, okc_zero, cc_ok.
Qed.

(** ** Revision in doubles *)
Lemma c2w_ok c : rg 0 maxc c ->
  Fin (Truth_c2w f64A c) /\ val c <= val (Truth_c2w f64A c) <= 256.
Proof.
  intros [Fc [Hc1 Hc2]]. pose proof maxc_bounds as MB. unfold Truth_c2w, HORIZON. cbn [amul adiv asub f64A].
  destruct (compl_rg c (conf_u01 c (conj Fc (conj Hc1 Hc2)))) as [[Fd [Hd1 Hd2]] Ed].
  set (d := fsub (aconst f64A 1 1) c) in *.
  destruct (fmul_ok (aconst f64A 1 1) c one_fin Fc) as [Fm Em]; [rewrite one_val; absle|].
  rewrite one_val, Rmult_1_l, rnd_B in Em.
  set (n := fmul (aconst f64A 1 1) c) in *.
  assert (D : 1/256 <= val d).
  { rewrite Ed. apply Rle_trans with (rnd (bpow radix2 (-8))).
    - right. unfold rnd. rewrite round_generic; [cbn; lra|typeclasses eauto|].
      apply generic_format_bpow. vm_compute; discriminate.
    - apply rnd_mono. cbn. lra. }
  assert (I1 : 1 <= / val d) by (rewrite <- Rinv_1; apply Rinv_le; lra).
  assert (I2 : / val d <= 256).
  { replace 256 with (/ (1/256)) by field. apply Rinv_le; lra. }
  assert (Q : val c <= val c / val d <= 256).
  { unfold Rdiv. split; nra. }
  destruct (fdiv_ok n d Fm) as [Fq Eq]; [lra|rewrite Em; absle|].
  split; [exact Fq|]. rewrite Eq, Em. split; [apply rnd_ge_B; lra|].
  replace 256 with (val (fofZ 256)) by (apply v_ofZ_small; cbv; congruence).
  apply rnd_le_B. destruct (v_ofZ_small 256) as [_ E]; [cbv; congruence|]. rewrite E. lra.
Qed.

Lemma amin_ok (x y : f64) : Fin x -> Fin y -> Fin (amin f64A x y) /\ val (amin f64A x y) = Rmin (val x) (val y).
Proof. exact (fmin_ok x y). Qed.
Lemma amax_ok (x y : f64) : Fin x -> Fin y -> Fin (amax f64A x y) /\ val (amax f64A x y) = Rmax (val x) (val y).
Proof. exact (fmax_ok x y). Qed.

Lemma revision_parts v1 v2 : valid v1 -> valid v2 ->
  0 < val (confidence v1) \/ 0 < val (confidence v2) ->
  let w1 := Truth_c2w f64A (confidence v1) in
  let w2 := Truth_c2w f64A (confidence v2) in
  let w := fadd w1 w2 in
  let n1 := fmul w1 (frequency v1) in
  let n2 := fmul w2 (frequency v2) in
  let n := fadd n1 n2 in
  let q := fdiv n w in
  (Fin w /\ val w = rnd (val w1 + val w2) /\ 0 < val w <= 1000) /\
  (val n1 = rnd (val w1 * val (frequency v1)) /\ val n2 = rnd (val w2 * val (frequency v2)) /\
   val n = rnd (val n1 + val n2)) /\
  u01 q /\ val q = rnd (val n / val w).
Proof.
  intros [F1 C1] [F2 C2] HP w1 w2 w n1 n2 n q.
  destruct (c2w_ok _ C1) as (W1 & A1 & B1). destruct (c2w_ok _ C2) as (W2 & A2 & B2). fold w1 in W1, A1, B1. fold w2 in W2, A2, B2.
  assert (P1 : 0 <= val (confidence v1)) by apply C1. assert (P2 : 0 <= val (confidence v2)) by apply C2.
  destruct (fadd_ok w1 w2 W1 W2) as [Fw Ew]; [absle|]. fold w in Fw, Ew.
  assert (G1 : val w1 <= val w) by (rewrite Ew; apply rnd_ge_B; lra).
  assert (G2 : val w2 <= val w) by (rewrite Ew; apply rnd_ge_B; lra).
  assert (U : val w <= 512).
  { destruct (v_ofZ_small 512) as [_ E]; [cbv; congruence|]. rewrite Ew, <- E. apply rnd_le_B. rewrite E. lra. }
  destruct (mul_rg 256 w1 (frequency v1) ltac:(lra)) as ([M1 [M1a M1b]] & L1 & E1); [split; auto; lra|auto|].
  destruct (mul_rg 256 w2 (frequency v2) ltac:(lra)) as ([M2 [M2a M2b]] & L2 & E2); [split; auto; lra|auto|].
  fold n1 in M1, M1a, M1b, L1, E1. fold n2 in M2, M2a, M2b, L2, E2.
  destruct (fadd_ok n1 n2 M1 M2) as [Fn En]; [absle|]. fold n in Fn, En.
  assert (Nw : val n <= val w) by (rewrite En, Ew; apply rnd_mono; lra).
  assert (N0 : 0 <= val n) by (rewrite En; apply rnd_nonneg; lra).
  assert (Wp : 0 < val w) by lra.
  assert (Q1 : 0 <= val n / val w) by (apply Rmult_le_pos; [lra|]; apply Rlt_le, Rinv_0_lt_compat; lra).
  assert (Q2 : val n / val w <= 1).
  { apply Rmult_le_reg_r with (val w); [lra|]. unfold Rdiv. rewrite Rmult_assoc, Rinv_l by lra. lra. }
  destruct (fdiv_ok n w Fn) as [Fq Eq]; [lra|absle|]. fold q in Fq, Eq.
  split; [repeat split; auto; lra|]. split; [auto|]. split; [|exact Eq].
  split; [exact Fq|]. rewrite Eq. split; [apply rnd_nonneg; auto|apply rnd_le_1; auto].
Qed.

Lemma conf_comb w c1 c2 : rg 0 1000 w -> rg 0 maxc c1 -> rg 0 maxc c2 ->
  let c := amin f64A (MAX_CONFIDENCE f64A) (amax f64A (amax f64A (Truth_w2c f64A w) c1) c2) in
  Fin c /\ val c = Rmin maxc (Rmax (Rmax (val (Truth_w2c f64A w)) (val c1)) (val c2)).
Proof.
  intros Rw C1 C2 c. destruct (w2c_ok 1000 _ ltac:(lra) Rw) as (Fc & _).
  destruct (amax_ok _ _ Fc (proj1 C1)) as [Fm1 Em1]. destruct (amax_ok _ _ Fm1 (proj1 C2)) as [Fm2 Em2].
  destruct (amin_ok _ _ maxc_fin Fm2) as [Fm3 Em3]. rewrite Em2, Em1 in Em3. split; [exact Fm3|exact Em3].
Qed.

Lemma revision_ok v1 v2 : valid v1 -> valid v2 ->
  0 < val (confidence v1) \/ 0 < val (confidence v2) ->
  valid (Truth_Revision f64A v1 v2) /\
  val (confidence v1) <= val (confidence (Truth_Revision f64A v1 v2)) /\
  val (confidence v2) <= val (confidence (Truth_Revision f64A v1 v2)).
Proof.
  intros V1 V2 HP. destruct (revision_parts v1 v2 V1 V2 HP) as ((Fw & Ew & Pw) & _ & Uq & _).
  destruct V1 as [F1 C1], V2 as [F2 C2].
  assert (Rw : rg 0 1000 (fadd (Truth_c2w f64A (confidence v1)) (Truth_c2w f64A (confidence v2)))) by (split; [exact Fw|lra]).
  destruct (conf_comb _ _ _ Rw C1 C2) as [Fc Ec].
  destruct (amin_ok _ _ one_fin (proj1 Uq)) as [Fq Eq].
  set (c := confidence (Truth_Revision f64A v1 v2)).
  assert (Hc : val c = Rmin maxc (Rmax (Rmax (val (Truth_w2c f64A (fadd (Truth_c2w f64A (confidence v1)) (Truth_c2w f64A (confidence v2))))) (val (confidence v1))) (val (confidence v2)))) by exact Ec.
  assert (Hf : Fin c) by exact Fc.
  set (f := frequency (Truth_Revision f64A v1 v2)).
  assert (Gf : Fin f) by exact Fq.
  assert (Gv : val f = Rmin (val (aconst f64A 1 1)) (val (fdiv (fadd (fmul (Truth_c2w f64A (confidence v1)) (frequency v1)) (fmul (Truth_c2w f64A (confidence v2)) (frequency v2))) (fadd (Truth_c2w f64A (confidence v1)) (Truth_c2w f64A (confidence v2)))))) by exact Eq.
  clear Fc Ec Fq Eq.
  assert (B : 0 <= val c <= maxc /\ val (confidence v1) <= val c /\ val (confidence v2) <= val c).
  { rewrite Hc. pose proof maxc_bounds. destruct C1 as [_ C1], C2 as [_ C2].
    unfold Rmin, Rmax. repeat destruct (Rle_dec _ _); lra. }
  split; [|tauto]. split; [|split; [exact Hf|tauto]].
  split; [exact Gf|]. fold f. rewrite Gv, one_val. destruct Uq as [_ Uq].
  unfold Rmin. destruct (Rle_dec _ _); lra.
Qed.

Lemma revision_sym v1 v2 : valid v1 -> valid v2 ->
  0 < val (confidence v1) \/ 0 < val (confidence v2) ->
  val (frequency (Truth_Revision f64A v1 v2)) = val (frequency (Truth_Revision f64A v2 v1)) /\
  val (confidence (Truth_Revision f64A v1 v2)) = val (confidence (Truth_Revision f64A v2 v1)).
Proof.
  intros V1 V2 HP.
  destruct (revision_parts v1 v2 V1 V2 HP) as ((Fw & Ew & Pw) & (E1 & E2 & En) & Uq & Eq).
  destruct (revision_parts v2 v1 V2 V1 ltac:(tauto)) as ((Fw' & Ew' & Pw') & (E1' & E2' & En') & Uq' & Eq').
  set (w1 := Truth_c2w f64A (confidence v1)) in *. set (w2 := Truth_c2w f64A (confidence v2)) in *.
  rewrite E1, E2 in En. rewrite E1', E2' in En'.
  assert (Hw : val (fadd w1 w2) = val (fadd w2 w1)) by (rewrite Ew, Ew', Rplus_comm; reflexivity).
  assert (Hn : val (fadd (fmul w1 (frequency v1)) (fmul w2 (frequency v2))) =
               val (fadd (fmul w2 (frequency v2)) (fmul w1 (frequency v1)))) by (rewrite En, En', Rplus_comm; reflexivity).
  rewrite Hn, Hw in Eq. rewrite <- Eq' in Eq.
  destruct V1 as [F1 C1], V2 as [F2 C2].
  assert (Hwc : forall x y : f64, rg 0 1000 x -> rg 0 1000 y -> val x = val y ->
     val (Truth_w2c f64A x) = val (Truth_w2c f64A y)).
  { intros x y [Fx Hx] [Fy Hy] Exy. unfold Truth_w2c, HORIZON. cbn [aadd adiv f64A].
    destruct (fadd_ok x (aconst f64A 1 1) Fx one_fin) as [G1 H1]; [rewrite one_val; absle|].
    destruct (fadd_ok y (aconst f64A 1 1) Fy one_fin) as [G2 H2]; [rewrite one_val; absle|].
    rewrite one_val in H1, H2. 
    assert (S1 : 1 <= val (fadd x (aconst f64A 1 1))) by (rewrite H1; apply rnd_ge_1; lra).
    assert (S2 : 1 <= val (fadd y (aconst f64A 1 1))) by (rewrite H2; apply rnd_ge_1; lra).
    assert (I : forall a s : R, 0 <= a <= 1000 -> 1 <= s -> Rabs (a / s) <= big).
    { intros a s Ha Hs. apply big_ge. assert (0 < / s <= 1) by (split; [apply Rinv_0_lt_compat; lra|rewrite <- Rinv_1; apply Rinv_le; lra]).
      unfold Rdiv. apply Rabs_le. split; nra. }
    destruct (fdiv_ok x _ Fx (Rgt_not_eq _ _ (Rlt_le_trans _ _ _ Rlt_0_1 S1)) (I _ _ Hx S1)) as [_ Q1].
    destruct (fdiv_ok y _ Fy (Rgt_not_eq _ _ (Rlt_le_trans _ _ _ Rlt_0_1 S2)) (I _ _ Hy S2)) as [_ Q2].
    transitivity (rnd (val x / val (fadd x (aconst f64A 1 1)))); [exact Q1|].
    transitivity (rnd (val y / val (fadd y (aconst f64A 1 1)))); [|symmetry; exact Q2].
    rewrite H1, H2, Exy. reflexivity. }
  assert (R1 : rg 0 1000 (fadd w1 w2)) by (split; [auto|lra]).
  assert (R2 : rg 0 1000 (fadd w2 w1)) by (split; [auto|lra]).
  specialize (Hwc _ _ R1 R2 Hw).
  unfold Truth_Revision. cbv zeta. cbn [frequency confidence]. fold w1 w2. split.
  - destruct (amin_ok _ _ one_fin (proj1 Uq)) as [_ Q]. destruct (amin_ok _ _ one_fin (proj1 Uq')) as [_ Q'].
    etransitivity; [exact Q|]. etransitivity; [|symmetry; exact Q']. rewrite Eq. reflexivity.
  - destruct (conf_comb _ _ _ R1 C1 C2) as [_ Em3]. destruct (conf_comb _ _ _ R2 C2 C1) as [_ Em3'].
    etransitivity; [exact Em3|]. etransitivity; [|symmetry; exact Em3'].
    rewrite Hwc. f_equal. rewrite !Rmax_assoc || idtac.
    rewrite <- !Rmax_assoc, (Rmax_comm (val (confidence v1))). reflexivity.
Qed.
