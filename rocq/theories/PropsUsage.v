(** Property theorem C31: usefulness, in binary64. *)
From Coq Require Import ZArith Reals Lia Lra.
From Flocq Require Import Core.Core IEEE754.BinarySingleNaN.
From Verif Require Import F64 UsageM UsageP.
Local Open Scope Z_scope.

(** always a number in [0,1], for all counts and times of type long *)
Theorem C31_range : forall u now, 0 <= useCount u < 2 ^ 63 -> now - lastUsed u < 2 ^ 63 ->
  is_finite (Usage_usefulness u now) = true /\ (0 <= B2R (Usage_usefulness u now) <= 1)%R.
Proof. exact usefulness_range. Qed.
Print Assumptions C31_range.
(** an unused concept gets strictly less useful with every tick; the sum of count and age must
    stay below 2^49 (about 5*10^14) *)
Theorem C31_unused_decays_partial : forall u now now',
  1 <= useCount u -> lastUsed u <= now < now' -> useCount u + (now' - lastUsed u) < 2 ^ 49 ->
  (B2R (Usage_usefulness u now') < B2R (Usage_usefulness u now))%R.
Proof. exact decays. Qed.
Print Assumptions C31_unused_decays_partial.
(** using a concept makes it strictly more useful, for counts below 2^24 (about 1.6*10^7) *)
Theorem C31_use_increases_partial : forall u now e,
  1 <= useCount u < 2 ^ 24 -> lastUsed u <= now -> now - lastUsed u < 2 ^ 53 ->
  (B2R (Usage_usefulness u now) < B2R (Usage_usefulness (Usage_use u now e) now))%R /\
  useCount u < useCount (Usage_use u now e) /\ lastUsed (Usage_use u now e) = now.
Proof.
  intros u now e H1 H2 H3. split; [apply use_increases; auto|]. split; [|reflexivity]. unfold Usage_use; cbn [useCount]. destruct e; lia.
Qed.
Print Assumptions C31_use_increases_partial.
(** without the bound the claim fails in the last bit: the score grows while the concept is unused *)
Theorem C31_unused_never_increases_refuted :
  let u := mkUsage 15372227736038879 0 in
  (B2R (Usage_usefulness u 4020735570515066) < B2R (Usage_usefulness u 4020735570515067))%R.
Proof.
  cbv zeta. apply fltb_spec.
  - apply usefulness_range; cbn [useCount lastUsed]; lia.
  - apply usefulness_range; cbn [useCount lastUsed]; lia.
  - vm_compute. reflexivity.
Qed.
Print Assumptions C31_unused_never_increases_refuted.
Example C31_example :
  let u := mkUsage 3 10 in fltb (Usage_usefulness u 20) (Usage_usefulness u 11) = true /\
  fltb (Usage_usefulness u 20) (Usage_usefulness (Usage_use u 20 false) 20) = true.
Proof. vm_compute. auto. Qed.
