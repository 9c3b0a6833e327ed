(** Model of /repo/src/Usage.c.  useCount and lastUsed are C longs, here integers (no overflow:
    useCount grows by at most 1000000 per use). *)
From Coq Require Import ZArith Reals.
From Flocq Require Import IEEE754.BinarySingleNaN.
From Verif Require Import F64.
Local Open Scope Z_scope.

Record usage := mkUsage { useCount : Z; lastUsed : Z }.
(** Usage.c 27-32 *)
Definition Usage_usefulness (u : usage) (currentTime : Z) : f64 :=
  let recency := fofZ (Z.max 0 (currentTime - lastUsed u)) in
  let usefulnessToNormalize := fdiv (fofZ (useCount u)) (fadd recency f1) in
  fdiv usefulnessToNormalize (fadd usefulnessToNormalize f1).
(** Usage.c 34-38; ETERNAL_INPUT_USAGE_BOOST = 1000000 (Config.h) *)
Definition Usage_use (u : usage) (currentTime : Z) (eternalInput : bool) : usage :=
  mkUsage (useCount u + if eternalInput then 1000000 else 1) currentTime.
(** specification: the same score in exact arithmetic: n/(n + r + 1), n uses, r ticks ago *)
Definition score (u : usage) (currentTime : Z) : R :=
  (IZR (useCount u) / (IZR (useCount u) + IZR (Z.max 0 (currentTime - lastUsed u)) + 1))%R.
