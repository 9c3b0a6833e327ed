(** Specification vocabulary: the shape of the link tables, and the marks of visited concepts. *)
From Coq Require Import ZArith List Bool.
From Verif Require Import Base TableM MemoryM CycleM.
Import ListNotations.
(** a table of links has 20 places, of which so many are used *)
Definition table_shape (t : table) : Prop := (List.length (t_array t) = 20 /\ t_items t <= 20)%nat.
(** a concept has tables for no operation, for each of the 10 operations, and for <.. ==> ..> *)
Definition concept_shape (k : concept) : Prop := List.length (c_pre k) = 11%nat /\ Forall table_shape (c_pre k) /\ table_shape (c_links k).
Definition tables_shaped (m : memory) : Prop := Forall concept_shape (m_store m).
(** no concept is marked with a number above [b] *)
Definition marks_below (b : Z) (m : memory) : Prop := Forall (fun k => (pid1 k <= b)%Z) (m_store m).
