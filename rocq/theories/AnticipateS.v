(** Specification vocabulary for C55: failed anticipations. *)
From Coq Require Import ZArith List Bool Reals.
From Flocq Require Import Core IEEE754.BinarySingleNaN.
From Verif Require Import Base F64 TruthM TruthS StampM TermM NamesM EventM TableM TableS VariableM MemoryM.
Local Open Scope R_scope.
Import ListNotations.

(** the rules a concept keeps for operation [i] *)
Definition rules (k : concept) (i : nat) : list implication :=
  match nth_error (c_pre k) i with Some t => entries t | None => [] end.
Definition no_rules (k : concept) : Prop := forall i, rules k i = [].
(** evidence against a rule *)
Definition against (v : truth64) : Prop := valid v /\ val (frequency v) = 0.
(** [y] is the rule [x] after zero or more failed anticipations: the statement is the same, and the
    truth value was revised with evidence against it *)
Inductive weakened (x : implication) : implication -> Prop :=
| weakened_same : weakened x x
| weakened_once : forall y z v, weakened x y -> against v -> i_term z = i_term y ->
    i_truth z = Truth_Revision f64A (i_truth y) v -> weakened x z.
(** amounts of evidence above which rounding does not hide the evidence: about 9e-13 for the
    evidence against the rule, about 3e-151 for the rule *)
Definition counts (v : truth64) : Prop := bpow radix2 (-40) <= val (confidence v).
Definition not_tiny (v : truth64) : Prop :=
  val (frequency v) = 0 \/ (bpow radix2 (-500) <= val (frequency v) /\ bpow radix2 (-500) <= val (confidence v)).
(** concept numbers were given out in ascending order *)
Definition ids_below (m : memory) : Prop := Forall (fun k => (c_id k < m_nextid m)%Z) (m_store m).
(** what the rest of the program keeps true: tables of rules for the operations 0 to 10 with valid
    truth values and <.. =/> ..> statements; current events have valid truth values *)
Definition concept_rules_ok (nm : names) (k : concept) : Prop :=
  length (c_pre k) = 11%nat /\
  Forall (fun t => length (t_array t) = 20%nat /\ (t_items t <= 20)%nat /\
     Forall (fun x => good_imp x /\ copulaEquals nm (at_ (i_term x) 0) TEMPORAL_IMPLICATION = true) (entries t)) (c_pre k) /\
  (e_type (c_spike k) <> EVENT_TYPE_DELETED -> valid (e_truth (c_spike k))).
Definition rules_ok (nm : names) (m : memory) : Prop := Forall (concept_rules_ok nm) (m_store m).
