(** The usefulness value for every count and time, including those whose conversion to double
    overflows: NaN, or a value in [0,1]. *)
From Coq Require Import ZArith Reals Lra Lia Bool.
From Flocq Require Import Core.Core IEEE754.BinarySingleNaN.
From Verif Require Import F64 TruthM TruthS TruthP UsageM.
Local Open Scope R_scope.

Definition nn (x : f64) : Prop := is_nan x = false /\ Bsign x = false.
Lemma nn_cases x : nn x -> (is_finite x = true /\ 0 <= B2R x) \/ x = B754_infinity false.
Proof.
  intros [H1 H2]. destruct x as [s|s| |s m e B]; try discriminate; cbn in H2; subst.
  - left. split; auto. cbn. lra.
  - right. reflexivity.
  - left. split; auto. cbn. apply F2R_ge_0. cbn. lia.
Qed.
Lemma inf_of_B2SF (x : f64) s : B2SF x = SpecFloat.S754_infinity s -> x = B754_infinity s.
Proof. destruct x; cbn; try discriminate. intros [= ->]. reflexivity. Qed.
Lemma nn_inf : nn (B754_infinity false). Proof. split; reflexivity. Qed.
Lemma nn_ofZ z : (0 <= z)%Z -> nn (fofZ z).
Proof.
  intros H. unfold fofZ.
  pose proof (binary_normalize_correct 53 1024 prec_gt_0_53 prec_lt_emax_53 mode_NE z 0 false) as C.
  assert (F : F2R (Float radix2 z 0) = IZR z) by (unfold F2R; simpl; ring). rewrite F in C. cbv zeta in C.
  assert (B : 0 <= IZR z) by (apply IZR_le; lia).
  destruct (Rlt_bool _ _).
  - destruct C as (_ & A2 & A3). split.
    + destruct (binary_normalize _ _ _ _ _ _ _ _); auto; discriminate.
    + rewrite A3. destruct (Rcompare_spec (IZR z) 0); auto; lra.
  - rewrite Rlt_bool_false in C by lra. cbn in C. apply inf_of_B2SF in C. rewrite C. apply nn_inf.
Qed.
Lemma sign_f1 : Bsign f1 = false. Proof. reflexivity. Qed.
#[local] Opaque fofZ f1.
Lemma nn_add1 x : nn x -> nn (fadd x f1) /\ (is_finite (fadd x f1) = true -> is_finite x = true /\ 1 <= B2R (fadd x f1) /\ B2R x <= B2R (fadd x f1)).
Proof.
  intros H. destruct (nn_cases x H) as [[F P]| ->].
  - pose proof (Bplus_correct 53 1024 _ _ mode_NE x f1 F fin_f1) as C. rewrite v_f1 in C. fold (fadd x f1) in C.
    destruct (Rlt_bool _ _).
    + destruct C as (A1 & A2 & A3). split.
      * split; [destruct (fadd x f1); auto; discriminate|]. rewrite A3. destruct (Rcompare_spec (B2R x + 1) 0); auto; lra.
      * intros _. split; auto. change (B2R (fadd x f1) = rnd (B2R x + 1)) in A1. rewrite A1. split.
        -- rewrite <- rnd_1 at 1. apply rnd_mono. lra.
        -- rewrite <- (rnd_B x) at 1. apply rnd_mono. lra.
    + destruct C as [C1 C2]. rewrite C2, sign_f1 in C1. cbn in C1. apply inf_of_B2SF in C1. rewrite C1. split; [apply nn_inf|discriminate].
  - assert (E : fadd (B754_infinity false) f1 = B754_infinity false).
    { unfold fadd. pose proof fin_f1 as X. destruct f1 as [s|s| |s m e B]; try discriminate; reflexivity. }
    rewrite E. split; [apply nn_inf|discriminate].
Qed.
Lemma nn_div x y : nn x -> nn y -> (is_finite y = true -> 1 <= B2R y) ->
  is_nan (fdiv x y) = true \/ nn (fdiv x y).
Proof.
  intros Hx Hy H1. destruct (nn_cases y Hy) as [[Fy Py]| ->].
  - specialize (H1 Fy). destruct (nn_cases x Hx) as [[Fx Px]| ->].
    + pose proof (Bdiv_correct 53 1024 _ _ mode_NE x y ltac:(lra)) as C. fold (fdiv x y) in C.
      destruct Hx as [Nx Sx], Hy as [Ny Sy]. rewrite Sx, Sy in C. cbn [xorb] in C.
      destruct (Rlt_bool _ _).
      * destruct C as (A1 & A2 & A3). rewrite Fx in A2. right. assert (N : is_nan (fdiv x y) = false) by (destruct (fdiv x y); auto; discriminate).
        split; auto.
      * cbn in C. apply inf_of_B2SF in C. rewrite C. right. apply nn_inf.
    + right. unfold fdiv. destruct y as [s|s| |s m e B]; try discriminate; cbn in H1; try lra. destruct Hy as [_ Sy]. cbn in Sy. subst. apply nn_inf.
  - destruct (nn_cases x Hx) as [[Fx Px]| ->].
    + right. destruct Hx as [Nx Sx]. destruct x as [s|s| |s m e B]; try discriminate; cbn in Sx; subst; split; reflexivity.
    + left. reflexivity.
Qed.
Lemma div_unit x : nn x -> is_nan (fdiv x (fadd x f1)) = true \/ u01 (fdiv x (fadd x f1)).
Proof.
  intros H. destruct (nn_add1 x H) as [N G]. destruct (is_finite (fadd x f1)) eqn:F.
  - destruct (G eq_refl) as (Fx & G1 & G2). destruct (nn_cases x H) as [[_ P]| ->]; [|discriminate].
    right. assert (Q : 0 <= B2R x / B2R (fadd x f1) <= 1).
    { split; [apply Rmult_le_pos; [lra|apply Rlt_le, Rinv_0_lt_compat; lra]|]. apply Rmult_le_reg_r with (B2R (fadd x f1)); [lra|].
      unfold Rdiv. rewrite Rmult_assoc, Rinv_l by lra. lra. }
    destruct (fdiv_ok x (fadd x f1) Fx) as [G3 G4]; [lra| |]. { apply big_ge. rewrite Rabs_pos_eq; lra. }
    split; auto. rewrite G4. split; [rewrite <- rnd_0; apply rnd_mono; lra|rewrite <- rnd_1; apply rnd_mono; lra].
  - destruct (nn_cases _ N) as [[X _]|E]; [congruence|]. rewrite E. destruct (nn_cases x H) as [[Fx P]| ->].
    + right. destruct H as [_ Sx]. destruct x as [s|s| |s m e B]; try discriminate; cbn in Sx; subst; (split; [reflexivity|cbn; lra]).
    + left. reflexivity.
Qed.
Lemma usefulness_any u now : (0 <= useCount u)%Z -> is_nan (Usage_usefulness u now) = true \/ u01 (Usage_usefulness u now).
Proof.
  intros H. unfold Usage_usefulness. cbv zeta.
  pose proof (nn_ofZ _ H) as N. pose proof (nn_ofZ (Z.max 0 (now - lastUsed u)) ltac:(lia)) as M.
  destruct (nn_add1 _ M) as [A B]. destruct (nn_div _ _ N A) as [D|D]; [intros F; apply B in F; tauto| |].
  - left. set (q := fdiv _ _) in *. destruct q; try discriminate. reflexivity.
  - apply div_unit. exact D.
Qed.
