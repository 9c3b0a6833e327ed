(** Property theorems C01-C04 (evidential bases). *)
From Verif Require Import Base StampM StampP.
Local Open Scope Z_scope.

(** Two stamps used in the non-vacuity examples. *)
Definition st_a : stamp := [3;1;4;0;0;0;0;0;0;0].
Definition st_b : stamp := [2;7;0;0;0;0;0;0;0;0].
Definition st_full1 : stamp := [1;2;3;4;5;6;7;8;9;10].
Definition st_full2 : stamp := [11;12;13;14;15;16;17;18;19;20].

(** C01: the derived base lists only premise ids, at most 10, none lost while they fit. *)
Theorem C01_derived_evidence_from_premises : forall s1 s2, stamp_wf s1 -> stamp_wf s2 ->
  stamp_wf (stamp_make s1 s2) /\
  ids (stamp_make s1 s2) = firstn 10 (interleave (ids s1) (ids s2)).
Proof. exact stamp_make_ids. Qed.
Print Assumptions C01_derived_evidence_from_premises.

(** C01, the same without [interleave]: membership, length and position of each id. *)
Theorem C01_derived_evidence_pointwise : forall s1 s2, stamp_wf s1 -> stamp_wf s2 ->
  (forall x, In x (ids (stamp_make s1 s2)) -> In x (ids s1) \/ In x (ids s2)) /\
  length (ids (stamp_make s1 s2)) = Nat.min 10 (length (ids s1) + length (ids s2)) /\
  (forall i, (i < length (ids s1))%nat -> (i < length (ids s2))%nat -> (2 * i < 10)%nat ->
     nth (2 * i) (ids (stamp_make s1 s2)) 0 = nth i (ids s1) 0) /\
  (forall i, (i < length (ids s1))%nat -> (i < length (ids s2))%nat -> (2 * i + 1 < 10)%nat ->
     nth (2 * i + 1) (ids (stamp_make s1 s2)) 0 = nth i (ids s2) 0) /\
  ((length (ids s1) + length (ids s2) <= 10)%nat ->
     forall x, In x (ids s1) \/ In x (ids s2) -> In x (ids (stamp_make s1 s2))).
Proof. exact stamp_make_pointwise. Qed.
Print Assumptions C01_derived_evidence_pointwise.

Example C01_example : ids (stamp_make st_a st_b) = [3;2;1;7;4] /\
  ids (stamp_make st_full1 st_full2) = [1;11;2;12;3;13;4;14;5;15].
Proof. vm_compute. auto. Qed.

(** C02: overlap is reported exactly if an id is shared; argument order is irrelevant. *)
Theorem C02_overlap_exact : forall a b,
  (stamp_check_overlap a b = true <-> exists x, In x (ids a) /\ In x (ids b)) /\
  stamp_check_overlap a b = stamp_check_overlap b a.
Proof. exact (fun a b => conj (stamp_overlap_spec a b) (stamp_overlap_sym a b)). Qed.
Print Assumptions C02_overlap_exact.

Example C02_example : stamp_check_overlap st_a st_b = false /\
  stamp_check_overlap st_full1 [20;30;5;0;0;0;0;0;0;0] = true.
Proof. vm_compute. auto. Qed.

(** C03, what holds for all bases: a conclusion overlaps with each of its own premises,
    truncated or not; reported overlaps are never spurious; while both bases fit, the check
    against any third stamp is exact. *)
Theorem C03_conclusion_overlaps_premises : forall s1 s2, stamp_wf s1 -> stamp_wf s2 ->
  (ids s1 <> [] -> stamp_check_overlap (stamp_make s1 s2) s1 = true) /\
  (ids s2 <> [] -> stamp_check_overlap (stamp_make s1 s2) s2 = true).
Proof. exact stamp_make_overlaps_premises. Qed.
Print Assumptions C03_conclusion_overlaps_premises.

Theorem C03_overlap_with_derived_exact_if_fits : forall s1 s2 z, stamp_wf s1 -> stamp_wf s2 ->
  (length (ids s1) + length (ids s2) <= 10)%nat ->
  stamp_check_overlap (stamp_make s1 s2) z = stamp_check_overlap s1 z || stamp_check_overlap s2 z.
Proof. exact stamp_make_overlap_exact. Qed.
Print Assumptions C03_overlap_with_derived_exact_if_fits.

Theorem C03_overlap_with_derived_sound : forall s1 s2 z, stamp_wf s1 -> stamp_wf s2 ->
  stamp_check_overlap (stamp_make s1 s2) z = true ->
  stamp_check_overlap s1 z = true \/ stamp_check_overlap s2 z = true.
Proof. exact stamp_make_overlap_sound. Qed.
Print Assumptions C03_overlap_with_derived_sound.

(** disjoint premises give a base without repetitions *)
Theorem C03_disjoint_premises_no_repetition : forall s1 s2, stamp_wf s1 -> stamp_wf s2 ->
  NoDup (ids s1) -> NoDup (ids s2) -> stamp_check_overlap s1 s2 = false ->
  NoDup (ids (stamp_make s1 s2)).
Proof. exact stamp_make_NoDup. Qed.
Print Assumptions C03_disjoint_premises_no_repetition.

(** C03 in full is false of the code: with full bases, evidence of a premise is forgotten, and
    an event resting on it is not recognised as overlapping. *)
Theorem C03_overlap_with_derived_exact_refuted : exists s1 s2 z,
  stamp_wf s1 /\ stamp_wf s2 /\ stamp_wf z /\ NoDup (ids s1) /\ NoDup (ids s2) /\
  stamp_check_overlap s1 s2 = false /\
  stamp_check_overlap s1 z = true /\
  stamp_check_overlap (stamp_make s1 s2) z = false.
Proof. exact stamp_make_truncation_loses_evidence. Qed.
Print Assumptions C03_overlap_with_derived_exact_refuted.

Example C03_example : stamp_wf st_a /\ stamp_wf st_b /\ ids st_a <> [] /\ ids st_b <> [] /\
  (length (ids st_a) + length (ids st_b) <= 10)%nat /\ NoDup (ids st_a) /\
  stamp_check_overlap st_a st_b = false.
Proof. repeat split; try (vm_compute; congruence); try (vm_compute; lia).
  vm_compute. repeat (constructor; [cbn; intuition discriminate|]). constructor. Qed.

(** C04: for stamps without repeated ids, equality is set equality (hence symmetric). *)
Theorem C04_equal_iff_same_evidence : forall a b, stamp_wf a -> stamp_wf b ->
  NoDup (ids a) -> NoDup (ids b) ->
  (stamp_equal a b = true <-> (forall x, In x (ids a) <-> In x (ids b))).
Proof. exact stamp_equal_spec. Qed.
Print Assumptions C04_equal_iff_same_evidence.

Theorem C04_equal_symmetric : forall a b, stamp_wf a -> stamp_wf b ->
  NoDup (ids a) -> NoDup (ids b) -> stamp_equal a b = stamp_equal b a.
Proof. exact stamp_equal_sym. Qed.
Print Assumptions C04_equal_symmetric.

(** with repeated ids (which Stamp_make can produce from overlapping premises) it is not *)
Theorem C04_equal_symmetric_refuted : exists a b, stamp_wf a /\ stamp_wf b /\
  stamp_equal a b = true /\ stamp_equal b a = false /\
  ~ (forall x, In x (ids a) <-> In x (ids b)) /\
  (exists s, stamp_wf s /\ a = stamp_make s s).
Proof. exact stamp_equal_not_symmetric. Qed.
Print Assumptions C04_equal_symmetric_refuted.

Example C04_example : NoDup (ids st_a) /\ stamp_equal st_a [4;3;1;0;0;0;0;0;0;0] = true /\
  stamp_equal st_a st_b = false.
Proof. split; [|vm_compute; auto]. vm_compute. repeat (constructor; [cbn; intuition discriminate|]). constructor. Qed.
