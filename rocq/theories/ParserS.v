(** Specification vocabulary for the parser and printer properties C42, C43, C44, C59. *)
From Coq Require Import ZArith List Bool.
From Verif Require Import Base TermM TermS NamesM AtomsM ParserM.
Local Open Scope Z_scope.

(** *** copulas (C59) *)
(** the multi-character copulas and connectors of the Narsese language with their one-character codes *)
Definition copula_table : list (text * Z) :=
  [([45;45;62], INHERITANCE); ([60;45;62], SIMILARITY); ([61;47;62], TEMPORAL_IMPLICATION); ([61;61;62], IMPLICATION);
   ([60;61;62], EQUIVALENCE); ([124;45;62], HAS_CONTINUOUS_PROPERTY); ([38;47], SEQUENCE); ([38;38], CONJUNCTION);
   ([124;124], DISJUNCTION); ([47;49], EXT_IMAGE1); ([47;50], EXT_IMAGE2); ([92;49], INT_IMAGE1); ([92;50], INT_IMAGE2);
   ([45;45], NEGATION)].
(** characters with a meaning of their own: , [ ] { } < > & | / \ - = *)
Definition special : list Z := [44;91;93;123;125;60;62;38;124;47;92;45;61].
(** [s] ends in [--] *)
Definition ends_negation (s : text) : Prop := exists p, s = p ++ [45;45].

(** *** what a token sequence means (C42) *)
(** a term as a tree of names *)
Inductive ntree := NE | NN (n : name) (l r : ntree).
Definition OPEN : name := [40].
Definition CLOSE : name := [41].
(** a token that does not start with a bracket *)
Definition word (w : name) : Prop := exists c w', w = c :: w' /\ c <> 40 /\ c <> 41.
Definition no_arg : ntree := NN [SET_TERMINATOR] NE NE.
(** Narsese at token level: words; compounds ( copula a b ... ) and ( a copula b ... ), where a
    missing second argument is the terminator @ and further arguments are not represented in the
    term (the program drops them) *)
Inductive parses : list name -> ntree -> Prop :=
| p_word w : word w -> parses [w] (NN w NE NE)
| p_prefix c t1 l ts r : In c CanonicalCopulas -> parses t1 l -> second ts r ->
    parses (OPEN :: [c] :: t1 ++ ts ++ [CLOSE]) (NN [c] l r)
| p_infix op t1 l ts r : word op -> parses t1 l -> (forall c, In c CanonicalCopulas -> nth 0 t1 [] <> [c]) -> second ts r ->
    parses (OPEN :: t1 ++ op :: ts ++ [CLOSE]) (NN (firstn 1 op) l r)
with second : list name -> ntree -> Prop :=
| s_none : second [] no_arg
| s_some t2 r more : parses t2 r -> others more -> second (t2 ++ more) r
with others : list name -> Prop :=
| o_nil : others []
| o_cons t x more : parses t x -> others more -> others (t ++ more).
(** the tree has all its nodes at slots below [size] when the root is at slot [i] *)
Fixpoint nfits (size : nat) (tr : ntree) (i : nat) : Prop :=
  match tr with NE => True | NN _ l r => (i < size)%nat /\ nfits size l (child i false) /\ nfits size r (child i true) end.
(** the tree of names a tree of atoms stands for; names are significant in 31 characters *)
Fixpoint names_of (nm : names) (tr : tree) : ntree :=
  match tr with E => NE | N a l r => NN (name_of nm a) (names_of nm l) (names_of nm r) end.
Fixpoint cut31 (tr : ntree) : ntree :=
  match tr with NE => NE | NN n l r => NN (firstn 31 n) (cut31 l) (cut31 r) end.
(** the names a tree mentions, in the order they are read *)
Fixpoint mentioned (tr : ntree) : names :=
  match tr with NE => [] | NN n l r => n :: mentioned l ++ mentioned r end.

(** *** printable terms (C44) *)
(** a plain name: letters, digits and other characters without a meaning in Narsese; not a
    one-character copula *)
Definition plain_char (c : Z) : Prop := ~ In c special /\ c <> 32 /\ c <> 40 /\ c <> 41 /\ c <> 0.
Definition plain_name (n : name) : Prop := n <> [] /\ Forall plain_char n /\ forall c, In c CanonicalCopulas -> n <> [c].
Definition binary_copula (c : Z) : Prop := In c CanonicalCopulas /\ c <> SET_TERMINATOR.
Definition unary_copula (c : Z) : Prop := In c [NEGATION; PRODUCT; SEQUENCE; SIMILARITY; EXT_SET; INT_SET].
Inductive printable : ntree -> Prop :=
| pr_name n : plain_name n -> printable (NN n NE NE)
| pr_unary c l : unary_copula c -> printable l -> printable (NN [c] l no_arg)
| pr_binary c l r : binary_copula c -> printable l -> printable r -> printable (NN [c] l r).

(** *** sentences (C42) *)
(** the text of a tense mark: none, " :|:", " :\:", " :/:" *)
Definition tense_text (tense : Z) : text :=
  if tense =? 1 then [32; 58; 124; 58] else if tense =? 2 then [32; 58; 92; 58] else if tense =? 3 then [32; 58; 47; 58] else [].
Definition has_dt (s : text) : Prop := exists r, s = [100; 116; 61] ++ r.
