(** Printing of evidence: Stamp.c 126-145. *)
From Coq Require Import ZArith String List Bool.
From Verif Require Import Base StampM RulesM MetricM.
Import ListNotations.
Local Open Scope Z_scope.

(** printf's %ld (C library), for the 64-bit long *)
Definition percent_ld (v : Z) : list Z :=
  if v <? 0 then 45 :: digits_before 19 (- v) [] else digits_before 19 v [].
(** Stamp.c 129-143: the loop; the list is the array from index i on *)
Fixpoint print_ids (l : list Z) : list Z :=
  match l with
  | [] => []
  | x :: r =>
    if x =? STAMP_FREE then [] else
    percent_ld x ++ match r with [] => [] | y :: _ => if y =? STAMP_FREE then [] else [44] end ++ print_ids r
  end.
(** Stamp.c 126-145 [Stamp_print] *)
Definition Stamp_print (s : stamp) : list Z := str "Stamp=["%string ++ print_ids s ++ [93].
