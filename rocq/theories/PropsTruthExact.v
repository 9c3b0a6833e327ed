(** C74: what each truth function computes (exact arithmetic), against a reading of truth
    values that does not mention the code: the two frequencies are the chances of two
    independent events, frequencies of conclusions are chances of Boolean combinations of
    them, and evidence [w] is worth the confidence [w / (w + 1)]. *)
From Coq Require Import ZArith Reals Lra Bool.
From Flocq Require Import IEEE754.BinarySingleNaN.
From Verif Require Import F64 TruthM TruthS.
Open Scope R_scope.

(** ** Specification *)
(** chance that [phi a b] holds, for independent events a, b of chances p, q *)
Definition chance (p q : R) (phi : bool -> bool -> bool) : R :=
  (if phi true true then p * q else 0) + (if phi true false then p * (1 - q) else 0) +
  (if phi false true then (1 - p) * q else 0) + (if phi false false then (1 - p) * (1 - q) else 0).
(** confidence of an amount of evidence *)
Definition conf_of (w : R) : R := w / (w + 1).

Definition both (a b : bool) := andb a b.
Definition either (a b : bool) := orb a b.
Definition first (a b : bool) := a.
Definition second (a b : bool) := b.
Definition only_first (a b : bool) := andb a (negb b).
Definition only_second (a b : bool) := andb (negb a) b.
Definition neither (a b : bool) := andb (negb a) (negb b).
Definition not_ (phi : bool -> bool -> bool) (a b : bool) := negb (phi a b).

(** the truth value (frequency, confidence) each function should return for premises
    (p, c) and (q, d) *)
Definition truth_table (t : tfun) (p c q d : R) : R * R :=
  let P := chance p q in
  let cd := c * d in
  match t with
  | TIntersection => (P both, cd)
  | TUnion => (P either, cd)
  | TDifference => (P only_first, cd)
  | TNegation => (P (not_ first), c)
  (* deduction-like: the conclusion is supported as far as the condition holds *)
  | TDeduction => (P both, cd * P both)
  | TAnalogy => (P both, cd * P second)
  | TResemblance => (P both, cd * P either)
  | TDecomposePNN => (P (not_ only_first), cd * P only_first)
  | TDecomposeNPP => (P only_second, cd * P only_second)
  | TDecomposePNP => (P only_first, cd * P only_first)
  | TDecomposePPP => (P both, cd * P both)
  | TDecomposeNNN => (P either, cd * P neither)
  (* induction-like: the relevant cases are an amount of evidence *)
  | TAbduction => (q, conf_of (cd * P first))
  | TInduction => (p, conf_of (cd * P second))
  | TExemplification => (1, conf_of (cd * P both))
  | TComparison => (if Req_EM_T (P either) 0 then 0 else P both / P either, conf_of (cd * P either))
  | TConversion => (1, conf_of (c * p))
  (* a second premise that is certain, of confidence 0.9 *)
  | TStructuralDeduction => (p, c * (9/10) * p)
  | TStructuralDeductionNegated => (1 - p, c * (9/10) * p)
  | TStructuralIntersection => (p, c * (9/10))
  | TAnonymousAnalogy => (p, c * conf_of (q * d))
  (* deduction from whichever of "first" and "not first" is better supported *)
  | TGoalDeduction => if Rle_dec (cd * P only_second) (cd * P both)
                      then (P both, cd * P both) else (P (not_ only_second), cd * P only_second)
  | TFrequencyGreater => if Rlt_dec q p then (1, cd) else (0, 0)
  | TFrequencyEqual => if Req_EM_T p q then (1, cd) else (0, 0)
  end.

(** ** Theorems *)
Ltac spec_unf := unfold apply_tfun, truth_table, Truth_DecomposePPP, Truth_GoalDeduction,
  Truth_StructuralDeductionNegated, Truth_StructuralDeduction, Truth_StructuralIntersection,
  Truth_AnonymousAnalogy, Truth_Induction, Truth_Abduction, Truth_Intersection, Truth_Union, Truth_Difference,
  Truth_Negation, Truth_Deduction, Truth_Analogy, Truth_Resemblance, Truth_DecomposePNN, Truth_DecomposeNPP,
  Truth_DecomposePNP, Truth_DecomposeNNN, Truth_Exemplification, Truth_Comparison, Truth_Conversion,
  Truth_FrequencyGreater, Truth_FrequencyEqual, Truth_or, Truth_w2c, HORIZON, STRUCTURAL_TRUTH, RELIANCE,
  conf_of, chance, both, either, first, second, only_first, only_second, neither, not_, Rltb, Reqb;
  simpl; unfold Rltb, Reqb.

Theorem C74_truth_functions_exact : forall t (v1 v2 : truthR), validR v1 -> validR v2 ->
  (frequency (apply_tfun realA t v1 v2), confidence (apply_tfun realA t v1 v2)) =
  truth_table t (frequency v1) (confidence v1) (frequency v2) (confidence v2).
Proof.
  intros t [p c] [q d] [Hp Hc] [Hq Hd]; simpl in *.
  assert (E : forall x, x / 1 = x) by (intros; field).
  destruct t; spec_unf; rewrite ?E;
    try (f_equal; ring || (f_equal; ring) || (f_equal; [ring|f_equal; ring])).
  all: try (f_equal; [ring | f_equal; [ring | f_equal; ring]]).
  - (* comparison *)
    replace (p * q + p * (1 - q) + (1 - p) * q + 0) with (1 - (1 - p) * (1 - q)) by ring.
    destruct (Req_EM_T (1 - (1 - p) * (1 - q)) 0); f_equal;
      try (f_equal; ring); f_equal; try ring; f_equal; ring.
  - (* goal deduction *)
    replace (0 + 0 + (1 - p) * q + 0) with ((1 - p) * q) by ring.
    replace (p * q + 0 + 0 + 0) with (p * q) by ring.
    set (x := c * d * ((1 - p) * q)). set (y := c * d * (p * q)).
    destruct (Rlt_dec x y), (Req_EM_T y x), (Rle_dec x y); simpl; try lra; f_equal; ring.
  - destruct (Rlt_dec q p); reflexivity.
  - destruct (Req_EM_T p q); reflexivity.
Qed.
Print Assumptions C74_truth_functions_exact.

(** The doubles: equality of truth values is equality of both numbers, and the comparing
    functions decide on the exact values of the frequencies, with no tolerance. *)
Theorem C74_truth_equal : forall v1 v2 : truth64, validt v1 -> validt v2 ->
  (Truth_Equal f64A v1 v2 = true <->
   val (frequency v1) = val (frequency v2) /\ val (confidence v1) = val (confidence v2)).
Proof.
  intros v1 v2 [[F1 _] [C1 _]] [[F2 _] [C2 _]]. unfold Truth_Equal. simpl.
  rewrite andb_true_iff, !feqb_spec by assumption. tauto.
Qed.
Print Assumptions C74_truth_equal.
Theorem C74_frequency_comparisons : forall v1 v2 : truth64, validt v1 -> validt v2 ->
  frequency (Truth_FrequencyGreater f64A v1 v2) =
    (if Rlt_dec (val (frequency v2)) (val (frequency v1)) then f1 else f0) /\
  frequency (Truth_FrequencyEqual f64A v1 v2) =
    (if Req_EM_T (val (frequency v1)) (val (frequency v2)) then f1 else f0).
Proof.
  intros v1 v2 [[F1 _] [C1 _]] [[F2 _] [C2 _]]. unfold Truth_FrequencyGreater, Truth_FrequencyEqual. simpl.
  pose proof (fltb_spec (frequency v2) (frequency v1) F2 F1) as L.
  pose proof (feqb_spec (frequency v1) (frequency v2) F1 F2) as E.
  split.
  - destruct (fltb (frequency v2) (frequency v1)), (Rlt_dec (val (frequency v2)) (val (frequency v1))); try reflexivity.
    + exfalso. tauto.
    + exfalso. assert (false = true) by tauto. discriminate.
  - destruct (feqb (frequency v1) (frequency v2)), (Req_EM_T (val (frequency v1)) (val (frequency v2))); try reflexivity.
    + exfalso. tauto.
    + exfalso. assert (false = true) by tauto. discriminate.
Qed.
Print Assumptions C74_frequency_comparisons.

(** Non-vacuity: chances and values on concrete premises. *)
Example C74_example : let v1 : truthR := @mkTruth realA (8/10) (9/10) in let v2 : truthR := @mkTruth realA (5/10) (9/10) in
  validR v1 /\ validR v2 /\ chance (8/10) (5/10) either = 9/10 /\
  frequency (apply_tfun realA TDifference v1 v2) = 4/10 /\
  frequency (apply_tfun realA TDifference v2 v1) = 1/10.
Proof.
  unfold validR, chance, either, apply_tfun, Truth_Difference; simpl. repeat split; lra.
Qed.
