(** Specification vocabulary: a property of all events and rules the memory holds.  The storage
    arrays are meant as a whole, which includes everything queued and everything in a concept
    (and the zeros of unused cells). *)
From Coq Require Import ZArith List Bool.
From Verif Require Import Base EventM TableM MemoryM.

Section E.
(** of belief events, of goal events, of rules *)
Variables PB PG : event -> Prop.
Variable PI : implication -> Prop.
Definition in_concept (k : concept) : Prop :=
  PB (c_belief k) /\ PB (c_spike k) /\ PB (c_predicted k) /\ PG (c_goal k) /\
  Forall (fun t => Forall PI (t_array t)) (c_pre k) /\ Forall PI (t_array (c_links k)).
Record everywhere (m : memory) : Prop := {
  ew_b : Forall PB (eq_store (m_beliefs m));
  ew_g : Forall (fun q => Forall PG (eq_store q)) (m_goals m);
  ew_k : Forall in_concept (m_store m) }.
End E.
