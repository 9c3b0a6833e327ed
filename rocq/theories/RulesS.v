(** Specification vocabulary for C60: rules as trees with variables. *)
From Coq Require Import ZArith List Bool String.
From Verif Require Import Base F64 TruthM TermM TermS NamesM AtomsM ParserM RulesM.
Local Open Scope Z_scope.
Import ListNotations.

(** replacing the variables of a pattern *)
Fixpoint instantiate (s : Z -> tree) (p : tree) : tree :=
  match p with
  | E => E
  | N a l r => if rule_var a then s a else N a (instantiate s l) (instantiate s r)
  end.
(** the symbols of copulas and connectors; "@" ends sets and one-place compounds *)
Definition connective (a : Z) : bool := existsb (fun c => a =? copula_index c) (tl CanonicalCopulas).
(** what Narsese terms look like: connectives have two components, other symbols none *)
Fixpoint well_formed (t : tree) : Prop :=
  match t with
  | E => True
  | N a l r => if connective a then l <> E /\ r <> E /\ well_formed l /\ well_formed r else l = E /\ r = E
  end.
(** t is a term: not empty, well-formed *)
Definition statement (t : term) : Prop := closed t /\ at_ t 0 <> 0 /\ well_formed (tree_at t 0).
(** the text s of a rule denotes the pattern p, whatever the size of the symbol table *)
Definition denotes (s : string) (p : tree) : Prop :=
  exists t, closed t /\ tree_at t 0 = p /\ forall cap st is, symbols cap [] = Ok (st, is) -> Narsese_Term cap st (str s) = Ok (st, t).
Section S.
Variable nm : names.
(** values of rule variables: a term, not "@" *)
Definition admissible (p : tree) (s : Z -> tree) : Prop :=
  forall a, rule_var a = true -> occurs a p -> match s a with E => False | N b _ _ => copulaEquals nm b SET_TERMINATOR = false end.
(** the rule p1, p2 |- c yields the term r from t1, t2 *)
Definition yields2 (p1 p2 c : tree) (t1 t2 r : term) : Prop :=
  exists s, admissible p1 s /\ admissible p2 s /\ tree_at t1 0 = instantiate s p1 /\ tree_at t2 0 = instantiate s p2 /\
    closed r /\ tree_at r 0 = instantiate s c.
(** the rule p |- c *)
Definition yields1 (p c : tree) (t r : term) : Prop :=
  exists s, admissible p s /\ tree_at t 0 = instantiate s p /\ closed r /\ tree_at r 0 = instantiate s c.
(** a two-premise rule of NAL.h applied to the judgements (t1, v1), (t2, v2), in either order *)
Definition infers2 (t1 : term) (v1 : truth f64A) (t2 : term) (v2 : truth f64A) (r : term) (v : truth f64A) (intro : bool) : Prop :=
  exists p1 p2 c f P1 P2 C,
    In (if intro then R2VarIntro p1 p2 c f else R2 p1 p2 c f) NAL_RULES /\ denotes p1 P1 /\ denotes p2 P2 /\ denotes c C /\
    ((yields2 P1 P2 C t1 t2 r /\ v = apply_tfun f64A f v1 v2) \/ (yields2 P1 P2 C t2 t1 r /\ v = apply_tfun f64A f v2 v1)).
(** a one-premise rule; [none] is the truth value passed for the missing premise *)
Definition infers1 (t : term) (v1 none : truth f64A) (r : term) (v : truth f64A) : Prop :=
  exists p c f P C, (In (R1 p c f) NAL_RULES \/ In (R1Bidirectional p c f) NAL_RULES \/ In (R1Bidirectional c p f) NAL_RULES) /\
    denotes p P /\ denotes c C /\ yields1 P C t r /\ v = apply_tfun f64A f v1 none.
(** one step with the reductions; reductions of terms apply to subject and predicate *)
Definition reduction_texts (p c : string) : Prop :=
  In (ReduceStatement p c) NAL_REDUCTIONS \/
  exists a b, In (ReduceTerm a b) NAL_REDUCTIONS /\
    ((p = ("(" ++ a ++ " --> M) ")%string /\ c = ("(" ++ b ++ " --> M)")%string) \/ (p = ("(M --> " ++ a ++ ")")%string /\ c = ("(M --> " ++ b ++ ")")%string)).
Definition reduces (t r : term) : Prop := exists p c P C, reduction_texts p c /\ denotes p P /\ denotes c C /\ yields1 P C t r.
End S.
