(** Specification vocabulary for C45: the registry as a list of names and procedures. *)
From Coq Require Import ZArith List Bool.
From Verif Require Import Base TermM NamesM AtomsM AtomsS.
Local Open Scope Z_scope.
(** registering name [n] with procedure [a]: replace the procedure of a known name, otherwise add *)
Fixpoint put (l : list (name * Z)) (n : name) (a : Z) : list (name * Z) :=
  match l with
  | [] => [(n, a)]
  | (m, b) :: l => if name_dec m n then (m, a) :: l else (m, b) :: put l n a
  end.
(** the registry after a history; names are significant in 31 characters *)
Definition registry (hs : list (name * Z)) : list (name * Z) :=
  fold_left (fun l h => put l (firstn 31 (fst h)) (snd h)) hs [].
(** an operator name: ^ and at least one more character (characters are never 0) *)
Definition operator_name (n : name) : Prop := exists c r, n = 94 :: c :: r /\ c <> 0.
(** The operator of a term, by the names in its tree positions (0 the root, 1 and 2 its
    components, 3 the first component of position 1): ^op itself, an operation
    <({..} * ..) --> ^op>, or a sequence (a &/ x) with such an x that is not itself a sequence. *)
Inductive operator_of (nm : names) : term -> name -> Prop :=
| op_bare t n : name_of nm (at_ t 0) = n -> operator_name n -> operator_of nm t n
| op_call t n : name_of nm (at_ t 0) = [INHERITANCE] -> name_of nm (at_ t 1) = [PRODUCT] -> name_of nm (at_ t 3) = [EXT_SET] ->
    name_of nm (at_ t 2) = n -> operator_name n -> operator_of nm t n
| op_last t n : name_of nm (at_ t 0) = [SEQUENCE] -> name_of nm (at_ (Term_ExtractSubterm t 2) 0) <> [SEQUENCE] ->
    operator_of nm (Term_ExtractSubterm t 2) n -> operator_of nm t n.
