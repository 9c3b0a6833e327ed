(** Specification vocabulary for variables: instances, arities. *)
From Verif Require Import Base F64 TruthM TermM TermS NamesM VariableM.
Local Open Scope Z_scope.

(** replace every leaf that is a variable (as told by [isvar]) by the tree [sg] gives it *)
Fixpoint inst (isvar : Z -> bool) (sg : Z -> tree) (tr : tree) : tree :=
  match tr with
  | E => E
  | N a l r => if isvar a then sg a else N a (inst isvar sg l) (inst isvar sg r)
  end.
(** each atom has a fixed number of arguments (0, 1 or 2) wherever it occurs in the term *)
Definition arity_ok (ar : Z -> nat) (t : term) : Prop :=
  forall i, at_ t i <> 0 -> (at_ t (child i false) <> 0 <-> (1 <= ar (at_ t i))%nat) /\
                            (at_ t (child i true) <> 0 <-> (2 <= ar (at_ t i))%nat).
(** the variables in [t] have no arguments *)
Definition var_leaves (isvar : Z -> bool) (t : term) : Prop :=
  forall i b, isvar (at_ t i) = true -> at_ t (child i b) = 0.
(** root symbol of a tree, 0 for the empty tree *)
Definition root (tr : tree) : Z := match tr with E => 0 | N a _ _ => a end.
(** [s] is an instance of [g] in which atoms may be replaced by atoms related by [R] *)
Fixpoint matches (isvar : Z -> bool) (R : Z -> Z -> Prop) (sg : Z -> tree) (g s : tree) : Prop :=
  match g with
  | E => s = E
  | N a l r => if isvar a then s = sg a
               else exists b l' r', s = N b l' r' /\ R a b /\ matches isvar R sg l l' /\ matches isvar R sg r r'
  end.
(** the distinct elements of a list, in order of first occurrence (after those in [acc]) *)
Fixpoint order_from (acc l : list Z) : list Z :=
  match l with
  | [] => acc
  | a :: l => if in_dec Z.eq_dec a acc then order_from acc l else order_from (acc ++ [a]) l
  end.
Definition order (l : list Z) : list Z := order_from [] l.
(** 1-based position of an element (length + 1 if absent) *)
Fixpoint position (a : Z) (l : list Z) : Z :=
  match l with [] => 1 | b :: l => if a =? b then 1 else 1 + position a l end.
(** number of occurrences of an atom in a tree *)
Fixpoint tocc (a : Z) (tr : tree) : nat :=
  match tr with E => 0 | N b l r => (if Z.eqb a b then 1 else 0) + tocc a l + tocc a r end.
Section Order.
Variable nm : names.
(** connectors of first-order statements, and of statements made of statements *)
Definition is_statement (a : Z) : bool :=
  copulaEquals nm a INHERITANCE || copulaEquals nm a SIMILARITY || copulaEquals nm a HAS_CONTINUOUS_PROPERTY.
Definition is_connector (a : Z) : bool :=
  copulaEquals nm a SEQUENCE || copulaEquals nm a CONJUNCTION || copulaEquals nm a TEMPORAL_IMPLICATION
  || copulaEquals nm a IMPLICATION || copulaEquals nm a EQUIVALENCE.
(** no statement inside *)
Fixpoint flat (tr : tree) : Prop :=
  match tr with E => True | N a l r => is_statement a = false /\ flat l /\ flat r end.
(** statements occur only under connectors and negations, not inside other statements *)
Fixpoint first_order (tr : tree) : Prop :=
  match tr with
  | E => True
  | N a l r => if copulaEquals nm a NEGATION then first_order l
               else if is_connector a then first_order l /\ first_order r
               else flat l /\ flat r
  end.
End Order.

(** the tree a variable is bound to by a substitution (E: not bound) *)
Definition binding (s : substitution) (v : Z) : tree := tree_at (lookup_map (s_map s) v) 0.
(** what a variable becomes when the substitution is applied: its binding, or itself *)
Definition image (s : substitution) (v : Z) : tree := match binding s v with E => N v E E | tr => tr end.
(** a variable may be bound to a term with root symbol [r]: nothing may be bound to the set
    terminator, a query variable not to a variable *)
Definition bindable (nm : names) (v r : Z) : Prop :=
  copulaEquals nm r SET_TERMINATOR = false /\ (isQueryVariable nm v = true -> isVariable nm r = false).
(** the symbol table is one the program can have: the reserved symbols come first *)
Definition symbol_table (nm : names) : Prop := exists rest, nm = init_list ++ rest.
(** the variables that unification may bind *)
Definition unifiable (nm : names) (query_only : bool) (a : Z) : bool :=
  if query_only then isQueryVariable nm a else isVariable nm a.
(** all variables in the term are numbered ones, #1..#9 $1..$9 ?1..?9 (atoms 1..27) *)
Definition numbered (nm : names) (t : term) : Prop := forall a, In a t -> isVariable nm a = true -> a <= 27.

(** the three kinds of variables; the variable of a kind with a number *)
Inductive kind := Indep | Dep | Query.
Definition is_kind (nm : names) (k : kind) (a : Z) : bool :=
  match k with Indep => isIndependentVariable nm a | Dep => isDependentVariable nm a | Query => isQueryVariable nm a end.
Definition kind_atom (k : kind) (i : Z) : Z := match k with Indep => indep_atom i | Dep => dep_atom i | Query => query_atom i end.
(** the variables of one kind in a term, in order of first occurrence (in slot order) *)
Definition kvars (nm : names) (t : term) (k : kind) : list Z := order (filter (is_kind nm k) t).
(** at most nine variables of each kind *)
Definition few_vars (nm : names) (t : term) : Prop := forall k, Z.of_nat (length (kvars nm t k)) <= 9.
(** no variable already carries a number that normalising gives to a variable before it *)
Definition no_clash (nm : names) (t : term) : Prop :=
  forall k a m, In a (kvars nm t k) -> 1 <= m <= 9 -> a = kind_atom k m -> position a (kvars nm t k) <= m.
(** numbered variables occur only together with those of lower number (as after normalising) *)
Definition gapless (t : term) : Prop := forall i, 1 <= i < 9 ->
  (In (indep_atom (i + 1)) t -> In (indep_atom i) t) /\ (In (dep_atom (i + 1)) t -> In (dep_atom i) t).
