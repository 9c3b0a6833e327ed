(** C doubles: IEEE 754 binary64 with round-to-nearest-even (Flocq BinarySingleNaN).
    All operations are executable; NaN and infinities are represented. *)
From Coq Require Import ZArith Reals Lra Lia Bool.
From Flocq Require Import Core.Core IEEE754.BinarySingleNaN.
Open Scope R_scope.

#[global] Instance prec_gt_0_53 : Prec_gt_0 53 := eq_refl.
#[global] Instance prec_lt_emax_53 : Prec_lt_emax 53 1024 := eq_refl.

Definition f64 := binary_float 53 1024.
Definition fadd (x y : f64) : f64 := Bplus mode_NE x y.
Definition fsub (x y : f64) : f64 := Bminus mode_NE x y.
Definition fmul (x y : f64) : f64 := Bmult mode_NE x y.
Definition fdiv (x y : f64) : f64 := Bdiv mode_NE x y.
(** C [<], [<=], [==] on doubles (false if an argument is NaN) *)
Definition fltb (x y : f64) : bool := Bltb x y.
Definition fleb (x y : f64) : bool := Bleb x y.
Definition feqb (x y : f64) : bool := Beqb x y.
(** conversion of an integer constant, and of a decimal literal n/10^k: the literal is the
    correctly rounded quotient *)
Definition fofZ (z : Z) : f64 := binary_normalize 53 1024 prec_gt_0_53 prec_lt_emax_53 mode_NE z 0 false.
Definition fdec (n d : Z) : f64 := fdiv (fofZ n) (fofZ d).

(** Globals.h 60-61 MIN, MAX *)
Definition fmin (a b : f64) : f64 := if fltb a b then a else b.
Definition fmax (a b : f64) : f64 := if fltb b a then a else b.

(** *** facts *)
Notation fexp64 := (SpecFloat.fexp 53 1024).
Definition rnd (x : R) : R := round radix2 fexp64 ZnearestE x.
#[global] Instance fexp64_valid : Valid_exp fexp64 := fexp_correct 53 1024 _.

Notation fin x := (is_finite x = true).

Lemma rnd_mono x y : x <= y -> rnd x <= rnd y.
Proof. apply round_le; typeclasses eauto. Qed.

Lemma rnd_B (x : f64) : rnd (B2R x) = B2R x.
Proof. apply round_generic; [typeclasses eauto|]. apply generic_format_B2R. Qed.

Lemma v_ofZ_small z : (Z.abs z <= 2 ^ 53)%Z -> fin (fofZ z) /\ B2R (fofZ z) = IZR z.
Proof.
  intros H. unfold fofZ.
  pose proof (binary_normalize_correct 53 1024 prec_gt_0_53 prec_lt_emax_53 mode_NE z 0 false) as C.
  assert (F : F2R (Float radix2 z 0) = IZR z) by (unfold F2R; simpl; ring).
  rewrite F in C. cbv zeta in C.
  assert (G : round radix2 fexp64 (round_mode mode_NE) (IZR z) = IZR z).
  { apply round_generic; [typeclasses eauto|].
    replace (IZR z) with (F2R (Float radix2 z 0)) by exact F.
    destruct (Z.eq_dec z 0) as [->|Hz]; [rewrite F2R_0; apply generic_format_0|].
    destruct (Z.eq_dec (Z.abs z) (2 ^ 53)) as [E|E].
    - rewrite F. assert (G : generic_format radix2 fexp64 (bpow radix2 53)) by (apply generic_format_bpow; vm_compute; discriminate).
      assert (E2 : bpow radix2 53 = IZR (2 ^ 53)) by reflexivity. rewrite E2 in G.
      destruct (Z.abs_eq_or_opp z) as [A|A]; rewrite A in E.
      + rewrite E. exact G.
      + replace (IZR z) with (- IZR (2^53)) by (rewrite <- opp_IZR; f_equal; lia). apply generic_format_opp. exact G.
    - apply generic_format_F2R. intros _. unfold cexp. rewrite F.
      assert (M : (mag radix2 (IZR z) <= 53)%Z).
      { apply mag_le_bpow; [apply IZR_neq; auto|]. rewrite <- abs_IZR.
        assert (E2 : bpow radix2 53 = IZR (2 ^ 53)) by reflexivity. rewrite E2. apply IZR_lt. lia. }
      unfold SpecFloat.fexp, SpecFloat.emin. lia. }
  rewrite G in C.
  rewrite Rlt_bool_true in C.
  - destruct C as (A & B & _). auto.
  - rewrite <- abs_IZR. apply Rle_lt_trans with (IZR (2 ^ 53)); [apply IZR_le; auto|].
    change (IZR (2^53)) with (bpow radix2 53). apply bpow_lt. reflexivity.
Qed.

Definition f0 : f64 := fofZ 0.
Definition f1 : f64 := fofZ 1.
Lemma fin_f0 : fin f0. Proof. reflexivity. Qed.
Lemma fin_f1 : fin f1. Proof. reflexivity. Qed.
Lemma v_f0 : B2R f0 = 0. Proof. apply v_ofZ_small; cbv; congruence. Qed.
Lemma v_f1 : B2R f1 = 1. Proof. apply (v_ofZ_small 1). cbv; congruence. Qed.

Lemma rnd_0 : rnd 0 = 0. Proof. apply round_0; typeclasses eauto. Qed.
Lemma rnd_1 : rnd 1 = 1. Proof. rewrite <- v_f1 at 1. rewrite rnd_B. apply v_f1. Qed.

(** values far below the overflow threshold *)
Definition big : R := bpow radix2 1000.
Lemma big_lt : big < bpow radix2 1024. Proof. apply bpow_lt. reflexivity. Qed.
Lemma rnd_big x : Rabs x <= big -> Rabs (rnd x) < bpow radix2 1024.
Proof.
  intros H. apply Rle_lt_trans with big; [|apply big_lt].
  apply abs_round_le_generic; try typeclasses eauto; auto. apply generic_format_bpow. vm_compute; discriminate.
Qed.

Lemma fadd_ok (x y : f64) : fin x -> fin y -> Rabs (B2R x + B2R y) <= big ->
  fin (fadd x y) /\ B2R (fadd x y) = rnd (B2R x + B2R y).
Proof.
  intros Hx Hy H. pose proof (Bplus_correct 53 1024 _ _ mode_NE x y Hx Hy) as C.
  rewrite Rlt_bool_true in C by (apply rnd_big; exact H). destruct C as (A & B & _). auto.
Qed.
Lemma fsub_ok (x y : f64) : fin x -> fin y -> Rabs (B2R x - B2R y) <= big ->
  fin (fsub x y) /\ B2R (fsub x y) = rnd (B2R x - B2R y).
Proof.
  intros Hx Hy H. pose proof (Bminus_correct 53 1024 _ _ mode_NE x y Hx Hy) as C.
  rewrite Rlt_bool_true in C by (apply rnd_big; exact H). destruct C as (A & B & _). auto.
Qed.
Lemma fmul_ok (x y : f64) : fin x -> fin y -> Rabs (B2R x * B2R y) <= big ->
  fin (fmul x y) /\ B2R (fmul x y) = rnd (B2R x * B2R y).
Proof.
  intros Hx Hy H. pose proof (Bmult_correct 53 1024 _ _ mode_NE x y) as C.
  rewrite Rlt_bool_true in C by (apply rnd_big; exact H). destruct C as (A & B & _).
  rewrite Hx, Hy in B. auto.
Qed.
Lemma fdiv_ok (x y : f64) : fin x -> B2R y <> 0 -> Rabs (B2R x / B2R y) <= big ->
  fin (fdiv x y) /\ B2R (fdiv x y) = rnd (B2R x / B2R y).
Proof.
  intros Hx Hy H. pose proof (Bdiv_correct 53 1024 _ _ mode_NE x y Hy) as C.
  rewrite Rlt_bool_true in C by (apply rnd_big; exact H). destruct C as (A & B & _).
  rewrite Hx in B. auto.
Qed.

Lemma fltb_spec (x y : f64) : fin x -> fin y -> fltb x y = true <-> B2R x < B2R y.
Proof.
  intros Hx Hy. unfold fltb, Bltb. change (SpecFloat.SFltb (B2SF x) (B2SF y)) with
    (match Bcompare x y with Some Lt => true | _ => false end).
  rewrite Bcompare_correct by auto.
  destruct (Rcompare_spec (B2R x) (B2R y)); split; intros; try lra; try discriminate; auto.
Qed.
Lemma fleb_spec (x y : f64) : fin x -> fin y -> fleb x y = true <-> B2R x <= B2R y.
Proof.
  intros Hx Hy. unfold fleb, Bleb. change (SpecFloat.SFleb (B2SF x) (B2SF y)) with
    (match Bcompare x y with Some (Lt|Eq) => true | _ => false end).
  rewrite Bcompare_correct by auto.
  destruct (Rcompare_spec (B2R x) (B2R y)); split; intros; try lra; try discriminate; auto.
Qed.
Lemma feqb_spec (x y : f64) : fin x -> fin y -> feqb x y = true <-> B2R x = B2R y.
Proof.
  intros Hx Hy. unfold feqb, Beqb. change (SpecFloat.SFeqb (B2SF x) (B2SF y)) with
    (match Bcompare x y with Some Eq => true | _ => false end).
  rewrite Bcompare_correct by auto.
  destruct (Rcompare_spec (B2R x) (B2R y)); split; intros; try lra; try discriminate; auto.
Qed.

Lemma fmin_ok (x y : f64) : fin x -> fin y -> fin (fmin x y) /\ B2R (fmin x y) = Rmin (B2R x) (B2R y).
Proof.
  intros Hx Hy. unfold fmin. destruct (fltb x y) eqn:E.
  - apply fltb_spec in E; auto. split; auto. rewrite Rmin_left; lra.
  - split; auto. rewrite Rmin_right; auto. apply Rnot_lt_le. intros H. apply fltb_spec in H; auto; congruence.
Qed.
Lemma fmax_ok (x y : f64) : fin x -> fin y -> fin (fmax x y) /\ B2R (fmax x y) = Rmax (B2R x) (B2R y).
Proof.
  intros Hx Hy. unfold fmax. destruct (fltb y x) eqn:E.
  - apply fltb_spec in E; auto. split; auto. rewrite Rmax_left; lra.
  - split; auto. rewrite Rmax_right; auto. apply Rnot_lt_le. intros H. apply fltb_spec in H; auto; congruence.
Qed.

(** ** order on all non-NaN doubles (with infinities) *)
Definition ext (x : f64) : R :=
  match x with
  | B754_infinity true => - bpow radix2 1024
  | B754_infinity false => bpow radix2 1024
  | _ => B2R x
  end.
Lemma ext_compare (x y : f64) : is_nan x = false -> is_nan y = false ->
  Bcompare x y = Some (Rcompare (ext x) (ext y)).
Proof.
  intros Hx Hy.
  assert (P : 0 < bpow radix2 1024) by apply bpow_gt_0.
  assert (B : forall z : f64, - bpow radix2 1024 < B2R z < bpow radix2 1024).
  { intros z. pose proof (abs_B2R_lt_emax 53 1024 z) as H. apply Rabs_lt_inv in H. exact H. }
  destruct (is_finite x) eqn:Fx, (is_finite y) eqn:Fy.
  - rewrite Bcompare_correct by auto. destruct x as [|[|]| |], y as [|[|]| |]; try discriminate; reflexivity.
  - destruct y as [|[|]| |]; try discriminate; cbn [ext];
      replace (ext x) with (B2R x) by (destruct x as [|[|]| |]; try discriminate; reflexivity); pose proof (B x) as Bx.
    + rewrite Rcompare_Gt by lra. destruct x as [[|]|[|]| |[|]]; try discriminate; reflexivity.
    + rewrite Rcompare_Lt by lra. destruct x as [[|]|[|]| |[|]]; try discriminate; reflexivity.
  - destruct x as [|[|]| |]; try discriminate; cbn [ext];
      replace (ext y) with (B2R y) by (destruct y as [|[|]| |]; try discriminate; reflexivity); pose proof (B y) as By.
    + rewrite Rcompare_Lt by lra. destruct y as [[|]|[|]| |[|]]; try discriminate; reflexivity.
    + rewrite Rcompare_Gt by lra. destruct y as [[|]|[|]| |[|]]; try discriminate; reflexivity.
  - destruct x as [|[|]| |], y as [|[|]| |]; try discriminate; cbn [ext].
    + rewrite Rcompare_Eq by lra. reflexivity.
    + rewrite Rcompare_Lt by lra. reflexivity.
    + rewrite Rcompare_Gt by lra. reflexivity.
    + rewrite Rcompare_Eq by lra. reflexivity.
Qed.
Lemma fltb_ext (x y : f64) : is_nan x = false -> is_nan y = false -> fltb x y = true <-> ext x < ext y.
Proof.
  intros Hx Hy. unfold fltb, Bltb. change (SpecFloat.SFltb (B2SF x) (B2SF y)) with
    (match Bcompare x y with Some Lt => true | _ => false end).
  rewrite ext_compare by auto.
  destruct (Rcompare_spec (ext x) (ext y)); split; intros; try lra; try discriminate; auto.
Qed.

(** non-NaN doubles as a type *)
Definition num64 : Type := { x : f64 | is_nan x = false }.
Definition num_ltb (x y : num64) : bool := fltb (proj1_sig x) (proj1_sig y).
Definition num0 : num64 := exist _ f0 eq_refl.
Lemma num_ltb_asym x y : num_ltb x y = true -> num_ltb y x = false.
Proof.
  destruct x as [x Hx], y as [y Hy]. unfold num_ltb; cbn. intros H.
  destruct (fltb y x) eqn:E; auto. apply fltb_ext in H; auto. apply fltb_ext in E; auto. lra.
Qed.
Lemma num_nlt_trans x y z : num_ltb y x = false -> num_ltb z y = false -> num_ltb z x = false.
Proof.
  destruct x as [x Hx], y as [y Hy], z as [z Hz]. unfold num_ltb; cbn. intros H1 H2.
  destruct (fltb z x) eqn:E; auto. apply fltb_ext in E; auto.
  assert (~ ext y < ext x) by (let h := fresh in intros h; apply fltb_ext in h; auto; congruence).
  assert (~ ext z < ext y) by (let h := fresh in intros h; apply fltb_ext in h; auto; congruence). lra.
Qed.
