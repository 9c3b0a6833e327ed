(** Specification vocabulary for C49: the statement shapes declarative inference must not produce.
    A term is an array of 64 atoms holding a binary tree: the root at 0, the children of position
    i at 2i+1 and 2i+2. *)
From Coq Require Import ZArith List Bool.
From Verif Require Import Base TermM NamesM EventM TableM MemoryM EverywhereS.
Local Open Scope Z_scope.

Section S.
Variable nm : names.
(** the copula k is at position i of t *)
Definition copula (t : term) (i : nat) (k : Z) : Prop := copulaEquals nm (at_ t i) k = true.
Definition first_order (t : term) : Prop := copula t 0 INHERITANCE \/ copula t 0 SIMILARITY.
Definition higher_order (t : term) : Prop := copula t 0 IMPLICATION \/ copula t 0 EQUIVALENCE.
Definition junction (t : term) (i : nat) : Prop := copula t i CONJUNCTION \/ copula t i DISJUNCTION.
(** number of positions of t whose atom satisfies p *)
Definition occurrences (p : Z -> bool) (t : term) : nat := length (filter (fun i => p (at_ t i)) (seq 0 SIZE)).
Definition is_higher (a : Z) : bool := copulaEquals nm a IMPLICATION || copulaEquals nm a EQUIVALENCE.
Definition is_temporal (a : Z) : bool := copulaEquals nm a TEMPORAL_IMPLICATION.
(** the leftmost member of a conjunction nested to the left: (((A && B) && C) && D) has A *)
Inductive leftmost : term -> term -> Prop :=
| lm_here t : copula t 0 CONJUNCTION -> leftmost t (Term_ExtractSubterm t 1)
| lm_down t x : copula t 0 CONJUNCTION -> leftmost (Term_ExtractSubterm t 1) x -> leftmost t x.

Inductive implausible (t : term) : Prop :=
(** <a --> a>-like: a symbol occurs twice in an inheritance or similarity statement (relations
    between pairs <((A * B) * (C * D)) --> r> excepted) *)
| ip_repeated i j : first_order t -> ~ (copula t 1 PRODUCT /\ copula t 3 PRODUCT /\ copula t 4 PRODUCT) ->
    (i < j < SIZE)%nat -> at_ t i = at_ t j -> IsSimpleAtom nm (at_ t i) = true -> implausible t
(** <A ==> A>, <A <=> A> *)
| ip_tautology : higher_order t -> Term_ExtractSubterm t 1 = Term_ExtractSubterm t 2 -> implausible t
(** more than one ==> or <=>, or more than two =/> *)
| ip_nested : (2 <= occurrences is_higher t)%nat -> implausible t
| ip_nested_temporal : (3 <= occurrences is_temporal t)%nat -> implausible t
(** a dependent variable in an inheritance or similarity statement *)
| ip_dependent i : first_order t -> (i < SIZE)%nat -> isDependentVariable nm (at_ t i) = true -> implausible t
(** a conjunction or disjunction as right member of one *)
| ip_right_nested i : (i < SIZE)%nat -> junction t i -> junction t (2 * i + 2) -> implausible t
(** an intersection of two extensional (intensional) sets as subject (predicate) *)
| ip_ext_sets : copula t 0 INHERITANCE -> copula t 1 EXT_INTERSECTION -> copula t 3 EXT_SET -> copula t 4 EXT_SET -> implausible t
| ip_int_sets : copula t 0 INHERITANCE -> copula t 2 INT_INTERSECTION -> copula t 5 INT_SET -> copula t 6 INT_SET -> implausible t
(** an independent or dependent variable that occurs only once *)
| ip_single i : (i < SIZE)%nat -> (isIndependentVariable nm (at_ t i) = true \/ isDependentVariable nm (at_ t i) = true) ->
    (forall j, (j < SIZE)%nat -> j <> i -> at_ t j <> at_ t i) -> implausible t
(** an implication whose condition is a conjunction beginning with an operation *)
| ip_operation o : higher_order t -> leftmost (Term_ExtractSubterm t 1) o -> isOperation nm o = true -> implausible t.
End S.

(** t is the term of an event or rule the memory holds *)
Definition mentioned (m : memory) (t : term) : Prop :=
  (exists e, In e (eq_store (m_beliefs m)) /\ e_term e = t) \/
  (exists q e, In q (m_goals m) /\ In e (eq_store q) /\ e_term e = t) \/
  (exists k, In k (m_store m) /\
     (e_term (c_belief k) = t \/ e_term (c_spike k) = t \/ e_term (c_predicted k) = t \/ e_term (c_goal k) = t \/
      (exists tb i, In tb (c_links k :: c_pre k) /\ In i (t_array tb) /\ i_term i = t))).

(** histories: everything the program does to its memory except writing concept fields directly,
    and derivations *)
From Verif Require Import F64 MemoryS NalM.
Inductive nop := NMem (o : mop) | NDerive (t : term) (d : deriv) (varIntro onlyExtTwo : bool).
Section H.
Variable nm : names.
Variable powdecay : Z -> f64.
Variable penalty : nat -> f64.
Variable layers : nat.
Definition nstep (fuel : nat) (m : memory) (o : nop) : res memory :=
  match o with
  | NMem o => mstep nm powdecay penalty layers fuel m o
  | NDerive t d v two => DerivedEvent nm powdecay penalty layers fuel m t d v two
  end.
Fixpoint nrun (fuel : nat) (m : memory) (os : list nop) : res memory :=
  match os with nil => Ok m | o :: os => do m <- nstep fuel m o ; nrun fuel m os end.
End H.
Definition no_update (o : nop) : Prop := match o with NMem (OUpdate _ _) => False | _ => True end.
(** t is the term of an event put into the memory without inference (input, sequences, predictions, ...) *)
Definition was_input (os : list nop) (t : term) : Prop :=
  exists e now p i r l, In (NMem (OAdd e now p i r l)) os /\ e_term e = t.
