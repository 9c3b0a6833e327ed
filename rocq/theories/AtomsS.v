(** Specification of interning: names are numbered 1, 2, ... in order of first appearance. *)
From Verif Require Import Base TermM NamesM.
Definition name_dec : forall a b : name, {a = b} + {a <> b} := list_eq_dec Z.eq_dec.
(** distinct names in order of first appearance, after those already in [acc] *)
Fixpoint firsts (acc : names) (ns : names) : names :=
  match ns with
  | [] => acc
  | n :: ns => if in_dec name_dec n acc then firsts acc ns else firsts (acc ++ [n]) ns
  end.
