(** Specification vocabulary for truth values: what "in range" means for doubles and reals. *)
From Coq Require Import ZArith Reals.
From Flocq Require Import IEEE754.BinarySingleNaN.
From Verif Require Import F64 TruthM.
Open Scope R_scope.

Notation truth64 := (truth f64A).
Notation "'Fin' x" := (@is_finite 53 1024 x = true) (at level 9).
Notation "'val' x" := (@B2R 53 1024 x) (at level 9).

(** x is a finite double with value in [a,b] *)
Definition rg (a b : R) (x : f64) : Prop := Fin x /\ a <= val x <= b.
Notation u01 := (rg 0 1).
(** the double nearest to 0.99 *)
Definition maxc : R := val (MAX_CONFIDENCE f64A).
(** frequency in [0,1], confidence in [0, MAX_CONFIDENCE] *)
Definition valid (v : truth64) : Prop := u01 (frequency v) /\ rg 0 maxc (confidence v).

(** frequency and confidence both anywhere in [0,1] *)
Definition validt (v : truth64) : Prop := u01 (frequency v) /\ u01 (confidence v).
(** two-premise functions whose confidence is limited by both premises *)
Definition two_premise (t : tfun) : bool :=
  match t with
  | TConversion | TNegation | TStructuralDeduction | TStructuralDeductionNegated
  | TStructuralIntersection => false
  | _ => true
  end.

(** the same range in exact arithmetic *)
Notation truthR := (truth realA).
Definition validR (v : truthR) : Prop := 0 <= frequency v <= 1 /\ 0 <= confidence v <= 99/100.
(** the truth value written with two decimal literals fn/fd and cn/cd *)
Definition tr64 (fn fd cn cd : Z) : truth64 := mkTruth (aconst f64A fn fd) (aconst f64A cn cd).
