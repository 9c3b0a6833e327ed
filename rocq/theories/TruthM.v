(** Model of /repo/src/Truth.c and Truth.h.
    Every function is written once, over an arithmetic [A], and used at two instances:
    [f64A], the C doubles (IEEE binary64), and [realA], exact real arithmetic. *)
From Coq Require Import ZArith Reals Bool.
From Flocq Require Import IEEE754.BinarySingleNaN.
From Verif Require Import F64.

(** The arithmetic operations the C code uses on doubles; [aconst n d] is the decimal
    literal n/d. *)
Record arith := mkArith {
  carrier :> Type;
  aadd : carrier -> carrier -> carrier;
  asub : carrier -> carrier -> carrier;
  amul : carrier -> carrier -> carrier;
  adiv : carrier -> carrier -> carrier;
  altb : carrier -> carrier -> bool;
  aeqb : carrier -> carrier -> bool;
  aconst : Z -> Z -> carrier
}.
Definition f64A : arith := mkArith f64 fadd fsub fmul fdiv fltb feqb
  (fun n d => if (d =? 1)%Z then fofZ n else fdec n d).
Definition Rltb (x y : R) : bool := if Rlt_dec x y then true else false.
Definition Reqb (x y : R) : bool := if Req_EM_T x y then true else false.
Definition realA : arith := mkArith R Rplus Rminus Rmult Rdiv Rltb Reqb (fun n d => (IZR n / IZR d)%R).

Section Truth.
Variable A : arith.
Notation "x + y" := (aadd A x y).
Notation "x - y" := (asub A x y).
Notation "x * y" := (amul A x y).
Notation "x / y" := (adiv A x y).
Notation "1" := (aconst A 1 1).
Notation "0" := (aconst A 0 1).

(** Globals.h 62-63 [MIN], [MAX]. *)
Definition amin (a b : A) : A := if altb A a b then a else b.
Definition amax (a b : A) : A := if altb A b a then a else b.

(** Truth.h 43-48 [Truth]. *)
Record truth := mkTruth { frequency : A; confidence : A }.

(** Config.h 162-170: constants; TRUTH_EVIDENTIAL_HORIZON is a variable initialised with
    1.0 (Truth.c 27) and assigned nowhere else. *)
Definition HORIZON : A := 1.
Definition RELIANCE : A := aconst A 9 10.
Definition MAX_CONFIDENCE : A := aconst A 99 100.
Definition MIN_CONFIDENCE : A := aconst A 1 100.
(** Truth.h 55 *)
Definition STRUCTURAL_TRUTH : truth := mkTruth 1 RELIANCE.

(** Truth.c 31-34 *)
Definition Truth_w2c (w : A) : A := w / (w + HORIZON).
(** Truth.c 36-39 *)
Definition Truth_c2w (c : A) : A := HORIZON * c / (1 - c).
(** Truth.c 41-44 *)
Definition Truth_Expectation (v : truth) : A :=
  confidence v * (frequency v - aconst A 5 10) + aconst A 5 10.
(** Truth.c 46-67; the branch for MAX_CONFIDENCE == 1.0 is dead (it is 0.99). *)
Definition Truth_Revision (v1 v2 : truth) : truth :=
  let w1 := Truth_c2w (confidence v1) in
  let w2 := Truth_c2w (confidence v2) in
  let w := w1 + w2 in
  mkTruth (amin 1 ((w1 * frequency v1 + w2 * frequency v2) / w))
          (amin MAX_CONFIDENCE (amax (amax (Truth_w2c w) (confidence v1)) (confidence v2))).
(** Truth.c 69-74 *)
Definition Truth_Deduction (v1 v2 : truth) : truth :=
  let f := frequency v1 * frequency v2 in
  mkTruth f (confidence v1 * confidence v2 * f).
(** Truth.c 76-80 *)
Definition Truth_Abduction (v1 v2 : truth) : truth :=
  mkTruth (frequency v2) (Truth_w2c (frequency v1 * confidence v1 * confidence v2)).
(** Truth.c 82-85 *)
Definition Truth_Induction (v1 v2 : truth) : truth := Truth_Abduction v2 v1.
(** Truth.c 87-91 *)
Definition Truth_Intersection (v1 v2 : truth) : truth :=
  mkTruth (frequency v1 * frequency v2) (confidence v1 * confidence v2).
(** Truth.c 93-96 *)
Definition Truth_Eternalize (v : truth) : truth := mkTruth (frequency v) (Truth_w2c (confidence v)).
(** Truth.c 98-103; [OCCURRENCE_ETERNAL] is -1 (Truth.h 54).  [powdecay d] stands for
    pow(TRUTH_PROJECTION_DECAY, (double) d), a libm call. *)
Definition OCCURRENCE_ETERNAL : Z := (-1)%Z.
Definition Truth_Projection (powdecay : Z -> A) (v : truth) (originalTime targetTime : Z) : truth :=
  if (originalTime =? OCCURRENCE_ETERNAL)%Z then v
  else mkTruth (frequency v) (confidence v * powdecay (Z.abs (targetTime - originalTime)%Z)).
(** Truth.c 117-121 *)
Definition Truth_Exemplification (v1 v2 : truth) : truth :=
  mkTruth 1 (Truth_w2c (frequency v1 * frequency v2 * confidence v1 * confidence v2)).
(** Truth.c 123-126 *)
Definition Truth_or (a b : A) : A := 1 - (1 - a) * (1 - b).
(** Truth.c 128-133 *)
Definition Truth_Comparison (v1 v2 : truth) : truth :=
  let f0 := Truth_or (frequency v1) (frequency v2) in
  mkTruth (if aeqb A f0 0 then 0 else (frequency v1 * frequency v2) / f0)
          (Truth_w2c (f0 * confidence v1 * confidence v2)).
(** Truth.c 135-139 *)
Definition Truth_Analogy (v1 v2 : truth) : truth :=
  mkTruth (frequency v1 * frequency v2) (confidence v1 * confidence v2 * frequency v2).
(** Truth.c 141-145 *)
Definition Truth_Resemblance (v1 v2 : truth) : truth :=
  mkTruth (frequency v1 * frequency v2)
          (confidence v1 * confidence v2 * Truth_or (frequency v1) (frequency v2)).
(** Truth.c 147-151 *)
Definition Truth_Union (v1 v2 : truth) : truth :=
  mkTruth (Truth_or (frequency v1) (frequency v2)) (confidence v1 * confidence v2).
(** Truth.c 153-157 *)
Definition Truth_Difference (v1 v2 : truth) : truth :=
  mkTruth (frequency v1 * (1 - frequency v2)) (confidence v1 * confidence v2).
(** Truth.c 159-162 *)
Definition Truth_Conversion (v1 v2 : truth) : truth :=
  mkTruth 1 (Truth_w2c (frequency v1 * confidence v1)).
(** Truth.c 164-168 *)
Definition Truth_Negation (v1 v2 : truth) : truth := mkTruth (1 - frequency v1) (confidence v1).
(** Truth.c 170-173 *)
Definition Truth_StructuralDeduction (v1 v2 : truth) : truth := Truth_Deduction v1 STRUCTURAL_TRUTH.
(** Truth.c 175-178 *)
Definition Truth_StructuralDeductionNegated (v1 v2 : truth) : truth :=
  Truth_Negation (Truth_Deduction v1 STRUCTURAL_TRUTH) v2.
(** Truth.c 180-183 *)
Definition Truth_Equal (v1 v2 : truth) : bool :=
  aeqb A (confidence v1) (confidence v2) && aeqb A (frequency v1) (frequency v2).
(** Truth.c 185-188 *)
Definition Truth_StructuralIntersection (v1 v2 : truth) : truth := Truth_Intersection v1 STRUCTURAL_TRUTH.
(** Truth.c 190-195 *)
Definition Truth_DecomposePNN (v1 v2 : truth) : truth :=
  let fn := frequency v1 * (1 - frequency v2) in
  mkTruth (1 - fn) (fn * confidence v1 * confidence v2).
(** Truth.c 197-202 *)
Definition Truth_DecomposeNPP (v1 v2 : truth) : truth :=
  let f := (1 - frequency v1) * frequency v2 in
  mkTruth f (f * confidence v1 * confidence v2).
(** Truth.c 204-209 *)
Definition Truth_DecomposePNP (v1 v2 : truth) : truth :=
  let f := frequency v1 * (1 - frequency v2) in
  mkTruth f (f * confidence v1 * confidence v2).
(** Truth.c 211-214 *)
Definition Truth_DecomposePPP (v1 v2 : truth) : truth := Truth_DecomposeNPP (Truth_Negation v1 v2) v2.
(** Truth.c 216-221 *)
Definition Truth_DecomposeNNN (v1 v2 : truth) : truth :=
  let fn := (1 - frequency v1) * (1 - frequency v2) in
  mkTruth (1 - fn) (fn * confidence v1 * confidence v2).
(** Truth.c 223-228 *)
Definition Truth_AnonymousAnalogy (v1 v2 : truth) : truth :=
  Truth_Analogy v1 (mkTruth 1 (Truth_w2c (frequency v2 * confidence v2))).
(** Truth.c 230-235 ([a >= b] is written [b < a || a == b]). *)
Definition Truth_GoalDeduction (v1 v2 : truth) : truth :=
  let res1 := Truth_Deduction v1 v2 in
  let res2 := Truth_Negation (Truth_Deduction (Truth_Negation v1 v2) v2) v2 in
  if altb A (confidence res2) (confidence res1) || aeqb A (confidence res1) (confidence res2)
  then res1 else res2.
(** Truth.c 237-242 *)
Definition Truth_FrequencyGreater (v1 v2 : truth) : truth :=
  let condition := altb A (frequency v2) (frequency v1) in
  mkTruth (if condition then 1 else 0) (if condition then confidence v1 * confidence v2 else 0).
(** Truth.c 244-249 *)
Definition Truth_FrequencyEqual (v1 v2 : truth) : truth :=
  let condition := aeqb A (frequency v1) (frequency v2) in
  mkTruth (if condition then 1 else 0) (if condition then confidence v1 * confidence v2 else 0).

(** The truth functions the rule table may apply (NAL.h rules use them by name), all of type
    Truth x Truth -> Truth; Truth_Revision is listed apart (it is partial). *)
Inductive tfun :=
| TDeduction | TAbduction | TInduction | TIntersection | TExemplification | TComparison
| TAnalogy | TResemblance | TUnion | TDifference | TConversion | TNegation
| TStructuralDeduction | TStructuralDeductionNegated | TStructuralIntersection
| TDecomposePNN | TDecomposeNPP | TDecomposePNP | TDecomposePPP | TDecomposeNNN
| TAnonymousAnalogy | TGoalDeduction | TFrequencyGreater | TFrequencyEqual.
Definition apply_tfun (t : tfun) : truth -> truth -> truth :=
  match t with
  | TDeduction => Truth_Deduction | TAbduction => Truth_Abduction | TInduction => Truth_Induction
  | TIntersection => Truth_Intersection | TExemplification => Truth_Exemplification
  | TComparison => Truth_Comparison | TAnalogy => Truth_Analogy | TResemblance => Truth_Resemblance
  | TUnion => Truth_Union | TDifference => Truth_Difference | TConversion => Truth_Conversion
  | TNegation => Truth_Negation | TStructuralDeduction => Truth_StructuralDeduction
  | TStructuralDeductionNegated => Truth_StructuralDeductionNegated
  | TStructuralIntersection => Truth_StructuralIntersection
  | TDecomposePNN => Truth_DecomposePNN | TDecomposeNPP => Truth_DecomposeNPP
  | TDecomposePNP => Truth_DecomposePNP | TDecomposePPP => Truth_DecomposePPP
  | TDecomposeNNN => Truth_DecomposeNNN | TAnonymousAnalogy => Truth_AnonymousAnalogy
  | TGoalDeduction => Truth_GoalDeduction | TFrequencyGreater => Truth_FrequencyGreater
  | TFrequencyEqual => Truth_FrequencyEqual
  end.
End Truth.
Arguments mkTruth {A} _ _.
Arguments frequency {A} _.
Arguments confidence {A} _.
