(** Vocabulary for printed evidence. *)
From Coq Require Import ZArith String List.
From Verif Require Import Base StampM RulesM MetricS.
Import ListNotations.
Local Open Scope Z_scope.

(** the ids in decimal notation, separated by commas *)
Inductive listed : list Z -> list Z -> Prop :=
| l_nil : listed [] []
| l_one v ds : numeral v ds -> listed [v] ds
| l_more v ds w l t : numeral v ds -> listed (w :: l) t -> listed (v :: w :: l) (ds ++ [44] ++ t).
(** the ids of a stamp: those before the first free place *)
Definition ids_of (s : stamp) (ids : list Z) : Prop :=
  ~ In 0 ids /\ exists r, s = ids ++ r /\ (r = [] \/ exists r', r = 0 :: r').
(** a stamp as the program makes them: ids, then free places only *)
Definition filled (s : stamp) : Prop :=
  length s = STAMP_SIZE /\ exists ids n, ~ In 0 ids /\ s = ids ++ repeat 0 n.
Definition is_long (v : Z) : Prop := - 2 ^ 63 <= v < 2 ^ 63.
