(** Property theorems C05-C10 (truth values), in IEEE binary64 arithmetic unless they say
    "exact", which means real arithmetic.  Vocabulary: TruthS.v. *)
From Coq Require Import ZArith Reals Lra Bool.
From Flocq Require Import Core.Core IEEE754.BinarySingleNaN.
From Verif Require Import F64 TruthM TruthS TruthP TruthP2.
Open Scope R_scope.

(** A decidable version of [valid], for the examples. *)
Definition validb (v : truth64) : bool :=
  is_finite (frequency v) && is_finite (confidence v) &&
  fleb f0 (frequency v) && fleb (frequency v) f1 &&
  fleb f0 (confidence v) && fleb (confidence v) (MAX_CONFIDENCE f64A).
Lemma validb_valid v : validb v = true -> valid v.
Proof.
  unfold validb. rewrite !andb_true_iff. intros (((((A & B) & C) & D) & E) & F).
  apply fleb_spec in C; auto. apply fleb_spec in D; auto. apply fleb_spec in E; auto.
  apply fleb_spec in F; auto. rewrite v_f0 in C, E. rewrite v_f1 in D.
  repeat split; auto.
Qed.

(** C05 *)
Theorem C05_truth_functions_stay_in_range : forall t v1 v2, valid v1 -> valid v2 ->
  Fin (frequency (apply_tfun f64A t v1 v2)) /\ Fin (confidence (apply_tfun f64A t v1 v2)) /\
  0 <= val (frequency (apply_tfun f64A t v1 v2)) <= 1 /\
  0 <= val (confidence (apply_tfun f64A t v1 v2)) <= val (MAX_CONFIDENCE f64A).
Proof.
  exact (fun t v1 v2 V1 V2 => match tfun_ok t v1 v2 V1 V2 with
   conj (conj A B) (conj (conj C D) _) => conj A (conj C (conj B D)) end).
Qed.
Print Assumptions C05_truth_functions_stay_in_range.
Theorem C05_revision_stays_in_range : forall v1 v2, valid v1 -> valid v2 ->
  0 < val (confidence v1) \/ 0 < val (confidence v2) -> valid (Truth_Revision f64A v1 v2).
Proof. exact (fun v1 v2 V1 V2 H => proj1 (revision_ok v1 v2 V1 V2 H)). Qed.
Print Assumptions C05_revision_stays_in_range.
(** The double that 0.99 denotes. *)
Theorem C05_max_confidence_value :
  val (MAX_CONFIDENCE f64A) = IZR 8917127262193582 / IZR 9007199254740992.
Proof. exact maxc_val. Qed.
Print Assumptions C05_max_confidence_value.
Example C05_example : valid (tr64 9 10 9 10) /\ valid (tr64 0 1 99 100) /\ valid (tr64 1 3 0 1).
Proof. repeat split; apply validb_valid; vm_compute; reflexivity. Qed.

(** C06 *)
Theorem C06_revision_never_loses_confidence : forall v1 v2, valid v1 -> valid v2 ->
  0 < val (confidence v1) \/ 0 < val (confidence v2) ->
  val (confidence v1) <= val (confidence (Truth_Revision f64A v1 v2)) <= val (MAX_CONFIDENCE f64A) /\
  val (confidence v2) <= val (confidence (Truth_Revision f64A v1 v2)).
Proof.
  exact (fun v1 v2 V1 V2 H => match revision_ok v1 v2 V1 V2 H with
    conj (conj _ (conj _ (conj _ U))) (conj A B) => conj (conj A U) B end).
Qed.
Print Assumptions C06_revision_never_loses_confidence.
Theorem C06_revision_order_irrelevant : forall v1 v2, valid v1 -> valid v2 ->
  0 < val (confidence v1) \/ 0 < val (confidence v2) ->
  val (frequency (Truth_Revision f64A v1 v2)) = val (frequency (Truth_Revision f64A v2 v1)) /\
  val (confidence (Truth_Revision f64A v1 v2)) = val (confidence (Truth_Revision f64A v2 v1)).
Proof. exact revision_sym. Qed.
Print Assumptions C06_revision_order_irrelevant.
(** exact arithmetic: the weighted mean, and evidence amounts add up *)
Theorem C06_revision_exact : forall v1 v2, validR v1 -> validR v2 ->
  0 < confidence v1 \/ 0 < confidence v2 ->
  let w1 := confidence v1 / (1 - confidence v1) in
  let w2 := confidence v2 / (1 - confidence v2) in
  let v := Truth_Revision realA v1 v2 in
  frequency v = (w1 * frequency v1 + w2 * frequency v2) / (w1 + w2) /\
  confidence v = Rmin (99/100) ((w1 + w2) / (w1 + w2 + 1)) /\
  Rmin (frequency v1) (frequency v2) <= frequency v <= Rmax (frequency v1) (frequency v2) /\
  (0 < confidence v1 < 99/100 -> 0 < confidence v2 < 99/100 ->
     confidence v1 < confidence v /\ confidence v2 < confidence v).
Proof. exact revision_R. Qed.
Print Assumptions C06_revision_exact.
Example C06_example :
  let v := Truth_Revision f64A (tr64 1 1 9 10) (tr64 0 1 9 10) in
  fltb (confidence (tr64 0 1 9 10)) (confidence v) && feqb (frequency v) (aconst f64A 5 10) = true.
Proof. vm_compute. reflexivity. Qed.

(** C07: no truth function exceeds the confidence of its first premise; those with two
    genuine premises do not exceed the second either. *)
Theorem C07_confidence_never_grows : forall t v1 v2, valid v1 -> valid v2 ->
  val (confidence (apply_tfun f64A t v1 v2)) <= val (confidence v1) /\
  (two_premise t = true -> val (confidence (apply_tfun f64A t v1 v2)) <= val (confidence v2)).
Proof.
  exact (fun t v1 v2 V1 V2 => proj2 (proj2 (tfun_ok t v1 v2 V1 V2))).
Qed.
Print Assumptions C07_confidence_never_grows.
Example C07_example :
  fltb (confidence (apply_tfun f64A TDeduction (tr64 1 1 9 10) (tr64 9 10 8 10))) (aconst f64A 8 10) = true /\
  two_premise TDeduction = true.
Proof. vm_compute. auto. Qed.

(** C08.  pow(0.8, d) is a libm call; [powdecay] stands for it.  Assumed of it: a double in
    [0,1]; for "farther is weaker", that it does not increase with the distance. *)
Theorem C08_projection_only_discounts : forall (powdecay : Z -> f64) v t1 t2,
  (forall d, (0 <= d)%Z -> Fin (powdecay d) /\ 0 <= val (powdecay d) <= 1) -> valid v ->
  let v' := Truth_Projection f64A powdecay v t1 t2 in
  valid v' /\ frequency v' = frequency v /\
  val (confidence v') <= val (confidence v) /\
  (t1 = OCCURRENCE_ETERNAL -> v' = v) /\
  (t1 <> OCCURRENCE_ETERNAL -> t2 = t1 -> val (powdecay 0%Z) = 1 ->
     val (confidence v') = val (confidence v)).
Proof. exact projection_ok. Qed.
Print Assumptions C08_projection_only_discounts.
Theorem C08_farther_is_weaker : forall (powdecay : Z -> f64) v t1 t2 t3,
  (forall d, (0 <= d)%Z -> Fin (powdecay d) /\ 0 <= val (powdecay d) <= 1) ->
  (forall d d', (0 <= d <= d')%Z -> val (powdecay d') <= val (powdecay d)) -> valid v ->
  (Z.abs (t2 - t1) <= Z.abs (t3 - t1))%Z ->
  val (confidence (Truth_Projection f64A powdecay v t1 t3)) <=
  val (confidence (Truth_Projection f64A powdecay v t1 t2)).
Proof. exact projection_farther. Qed.
Print Assumptions C08_farther_is_weaker.
Theorem C08_eternalise_discounts : forall v, valid v ->
  let v' := Truth_Eternalize f64A v in
  valid v' /\ frequency v' = frequency v /\
  val (confidence v') <= val (confidence v) /\ val (confidence v') <= 1/2.
Proof. exact eternalize_ok. Qed.
Print Assumptions C08_eternalise_discounts.
(** a [powdecay] that meets both hypotheses *)
Example C08_hypotheses_meet :
  let p := fun d : Z => if (d =? 0)%Z then f1 else f0 in
  (forall d, (0 <= d)%Z -> Fin (p d) /\ 0 <= val (p d) <= 1) /\
  (forall d d', (0 <= d <= d')%Z -> val (p d') <= val (p d)) /\ val (p 0%Z) = 1.
Proof.
  cbv zeta. split; [|split].
  - intros d _. destruct (d =? 0)%Z; (split; [reflexivity|]); [rewrite v_f1|rewrite v_f0]; lra.
  - intros d d' [H1 H2]. destruct (Z.eqb_spec d' 0) as [E|E].
    + replace (d =? 0)%Z with true by (symmetry; apply Z.eqb_eq; apply Z.le_antisymm; [rewrite <- E|]; assumption). lra.
    + destruct (Z.eqb_spec d 0); rewrite ?v_f1, ?v_f0; lra.
  - apply v_f1.
Qed.

(** C09 *)
Theorem C09_expectation_is_probability : forall v, validt v ->
  Fin (Truth_Expectation f64A v) /\ 0 <= val (Truth_Expectation f64A v) <= 1 /\
  (val (confidence v) = 0 -> val (Truth_Expectation f64A v) = 1/2).
Proof.
  exact (fun v V => match expectation_range v V with
    conj A B => conj A (conj B (expectation_zero_conf v V)) end).
Qed.
Print Assumptions C09_expectation_is_probability.
Theorem C09_expectation_monotone_in_frequency : forall v v', validt v -> validt v' ->
  val (confidence v) = val (confidence v') -> val (frequency v) <= val (frequency v') ->
  val (Truth_Expectation f64A v) <= val (Truth_Expectation f64A v').
Proof. exact expectation_mono_freq. Qed.
Print Assumptions C09_expectation_monotone_in_frequency.
Theorem C09_confidence_moves_expectation_away_from_half : forall v v', validt v -> validt v' ->
  val (frequency v) = val (frequency v') -> val (confidence v) <= val (confidence v') ->
  (1/2 <= val (frequency v) ->
     1/2 <= val (Truth_Expectation f64A v) <= val (Truth_Expectation f64A v')) /\
  (val (frequency v) <= 1/2 ->
     val (Truth_Expectation f64A v') <= val (Truth_Expectation f64A v) <= 1/2).
Proof. exact expectation_mono_conf. Qed.
Print Assumptions C09_confidence_moves_expectation_away_from_half.
Example C09_example : validt (tr64 9 10 9 10) /\
  fltb (Truth_Expectation f64A (tr64 9 10 5 10)) (Truth_Expectation f64A (tr64 9 10 9 10)) = true.
Proof. split; [apply valid_validt, validb_valid|]; vm_compute; reflexivity. Qed.

(** C10 is false as stated: confidences above 0.99 and pairs of confidence 0 are accepted on
    input, and revising them gives a NaN frequency, or a confidence below the existing one (on
    which Inference_RevisionAndChoice aborts: see PropsEvent.v). *)
Theorem C10_any_input_truth_is_revisable_refuted :
  (exists v1 v2, validt v1 /\ validt v2 /\ is_nan (frequency (Truth_Revision f64A v1 v2)) = true /\
     val (confidence v1) = 1) /\
  (exists v1 v2, valid v1 /\ valid v2 /\ is_nan (frequency (Truth_Revision f64A v1 v2)) = true) /\
  (exists v1 v2, validt v1 /\ valid v2 /\
     val (confidence (Truth_Revision f64A v1 v2)) < val (confidence v1)).
Proof. exact revision_outside_range. Qed.
Print Assumptions C10_any_input_truth_is_revisable_refuted.
