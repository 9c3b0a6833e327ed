(** Model of the symbol-table queries of /repo/src/Narsese.c and /repo/src/Variable.c: what
    kind of symbol an atom is, and the shape of operation terms.
    Atom a > 0 has the name stored at index a-1 of Narsese_atomNames; the table is a parameter
    [nm] of the functions (a global in C).  Names are lists of character codes without the
    terminating 0 of the C string. *)
From Verif Require Import Base TermM.
Local Open Scope Z_scope.

Definition name := list Z.
Definition names := list name.
(** [Narsese_atomNames[atom-1]]; a slot never filled is the empty string (Narsese.c 665-669), and
    so is the "name" of atom 0 (every C reader of the table tests atom > 0 first). *)
Definition name_of (nm : names) (a : Z) : name := if a <=? 0 then [] else nth (Z.to_nat (a - 1)) nm [].

(** Narsese.h 51-76: copula characters (ASCII codes). *)
Definition PRODUCT := 42.              (* '*' *)
Definition EXT_INTERSECTION := 38.     (* '&' *)
Definition INT_INTERSECTION := 124.    (* '|' *)
Definition CONJUNCTION := 59.          (* ';' *)
Definition INHERITANCE := 58.          (* ':' *)
Definition SIMILARITY := 61.           (* '=' *)
Definition TEMPORAL_IMPLICATION := 36. (* '$' *)
Definition INT_SET := 39.              (* quote *)
Definition EXT_SET := 34.              (* double quote *)
Definition EXT_IMAGE1 := 47.           (* '/' *)
Definition INT_IMAGE1 := 92.           (* backslash *)
Definition SET_ELEMT := 46.            (* '.' *)
Definition EXT_DIFFERENCE := 45.       (* '-' *)
Definition EXT_IMAGE2 := 37.           (* '%' *)
Definition INT_IMAGE2 := 35.           (* '#' *)
Definition INT_DIFFERENCE := 126.      (* '~' *)
Definition SEQUENCE := 43.             (* '+' *)
Definition NEGATION := 33.             (* '!' *)
Definition IMPLICATION := 63.          (* '?' *)
Definition EQUIVALENCE := 94.          (* '^' *)
Definition DISJUNCTION := 95.          (* '_' *)
Definition HAS_CONTINUOUS_PROPERTY := 44. (* ',' *)
Definition SET_TERMINATOR := 64.       (* '@' *)
(** Narsese.h 51 [Narsese_RuleTableVars] "ABCMRSPXYZ". *)
Definition RuleTableVars : list Z := [65;66;67;77;82;83;80;88;89;90].
(** Narsese.h 52 [Narsese_CanonicalCopulas]. *)
Definition CanonicalCopulas : list Z :=
  [SET_TERMINATOR; PRODUCT; EXT_INTERSECTION; INT_INTERSECTION; CONJUNCTION; INHERITANCE; SIMILARITY;
   TEMPORAL_IMPLICATION; INT_SET; EXT_SET; EXT_IMAGE1; INT_IMAGE1; SET_ELEMT; EXT_DIFFERENCE; EXT_IMAGE2;
   INT_IMAGE2; INT_DIFFERENCE; SEQUENCE; NEGATION; IMPLICATION; EQUIVALENCE; DISJUNCTION; HAS_CONTINUOUS_PROPERTY].

(** The names [Narsese_INIT] (Narsese.c 660-699) interns, in that order: #i $i ?i for i = 1..9,
    the rule table variables, Op1, Op2, the copulas, SELF. *)
Definition init_list : names :=
  concat (map (fun i => [[35; 48 + i]; [36; 48 + i]; [63; 48 + i]]) [1;2;3;4;5;6;7;8;9])
  ++ map (fun c => [c]) RuleTableVars
  ++ [[79;112;49]; [79;112;50]]
  ++ map (fun c => [c]) CanonicalCopulas
  ++ [[83;69;76;70]].

(** Atom of a copula: [Narsese_CopulaIndex] (Narsese.c 321-326) looks the one-character name
    up; all copulas are interned by [Narsese_INIT], so the answer is their fixed position in
    [init_list] (proved of the interning model in AtomsP.v). *)
Fixpoint index_from (k : Z) (c : Z) (l : list Z) : Z :=
  match l with [] => 0 | x :: l' => if x =? c then k else index_from (k + 1) c l' end.
Definition copula_index (c : Z) : Z := index_from 40 c CanonicalCopulas.
(** Narsese.c 697 [SELF] is the last symbol of [init_list]. *)
Definition SELF : Z := 63.

Section Names.
Variable nm : names.

(** first and second character of the name, 0 beyond its end (C string) *)
Definition ch0 (a : Z) : Z := nth 0 (name_of nm a) 0.
Definition ch1 (a : Z) : Z := nth 1 (name_of nm a) 0.

(** Narsese.c 701-704 *)
Definition copulaEquals (a c : Z) : bool := (0 <? a) && (ch0 a =? c) && (ch1 a =? 0).
(** Narsese.c 706-709 *)
Definition isOperator (a : Z) : bool := (0 <? a) && (ch0 a =? 94) && negb (ch1 a =? 0).
(** Variable.c 29-47 *)
Definition isIndependentVariable (a : Z) : bool := (0 <? a) && negb (ch1 a =? 0) && (ch0 a =? 36).
Definition isDependentVariable (a : Z) : bool := (0 <? a) && negb (ch1 a =? 0) && (ch0 a =? 35).
Definition isQueryVariable (a : Z) : bool := (0 <? a) && negb (ch1 a =? 0) && (ch0 a =? 63).
Definition isVariable (a : Z) : bool := isIndependentVariable a || isDependentVariable a || isQueryVariable a.
(** Variable.c 49-60 *)
Definition hasVariable (t : term) (independent dependent query : bool) : bool :=
  existsb (fun i => (independent && isIndependentVariable (at_ t i)) || (dependent && isDependentVariable (at_ t i))
                    || (query && isQueryVariable (at_ t i))) (seq 0 SIZE).
(** Narsese.c 711-717 *)
Definition isOperation (t : term) : bool :=
  isOperator (at_ t 0) ||
  (copulaEquals (at_ t 0) INHERITANCE && copulaEquals (at_ t 1) PRODUCT && isOperator (at_ t 2)
   && copulaEquals (at_ t 3) EXT_SET).
(** Narsese.c 719-722 *)
Definition isExecutableOperation (t : term) : bool :=
  isOperation t && (isOperator (at_ t 0) || ((at_ t 7 =? SELF) || isVariable (at_ t 7))).
(** Narsese.c 724-744; the recursion goes at most one level deep *)
Definition getOperationAtom0 (t : term) : Z :=
  if isOperator (at_ t 0) then at_ t 0 else if isOperation t then at_ t 2 else 0.
Definition getOperationAtom (t : term) : Z :=
  if copulaEquals (at_ t 0) SEQUENCE then
    let p := Term_ExtractSubterm t 2 in
    if copulaEquals (at_ p 0) SEQUENCE then 0 else getOperationAtom0 p
  else getOperationAtom0 t.
(** Narsese.c 450-456 [Narsese_Sequence]: success flag and term *)
Definition Narsese_Sequence (a b : term) : bool * term :=
  let ret := upd zero_term 0 (copula_index SEQUENCE) in
  let '(ok1, ret) := Term_OverrideSubterm ret 1 a in
  if ok1 then
    let '(ok2, ret) := Term_OverrideSubterm ret 2 b in
    if ok2 then (true, ret) else (false, zero_term)
  else (false, zero_term).
(** Narsese.c 770-782; [fuel]: nesting depth, at most 6 for arrays of 64 atoms *)
Fixpoint GetPreconditionWithoutOp_fuel (fuel : nat) (p : term) : term :=
  match fuel with
  | O => p
  | S fuel =>
    if copulaEquals (at_ p 0) SEQUENCE && isOperation (Term_ExtractSubterm p 2)
    then GetPreconditionWithoutOp_fuel fuel (Term_ExtractSubterm p 1) else p
  end.
Definition GetPreconditionWithoutOp : term -> term := GetPreconditionWithoutOp_fuel 7.
(** Narsese.c 784-790 *)
Definition IsSimpleAtom (a : Z) : bool :=
  (0 <? a) && ((ch0 a =? 94) || ((97 <=? ch0 a) && (ch0 a <=? 122)) || ((65 <=? ch0 a) && (ch0 a <=? 90))
               || ((48 <=? ch0 a) && (ch0 a <=? 57))).
(** Narsese.c 792-802 *)
Definition HasSimpleAtom (t : term) : bool := existsb (fun i => IsSimpleAtom (at_ t i)) (seq 0 SIZE).
(** Narsese.c 804-821 *)
Definition HasOperation (t : term) : bool :=
  if negb (getOperationAtom t =? 0) then true
  else if copulaEquals (at_ t 0) SEQUENCE then existsb (fun i => isOperator (at_ t i)) (seq 0 SIZE) else false.
(** Narsese.c 823-850: returns the flag and the new [*start]; on failure of
    [Narsese_Sequence] [*start] is the zero term *)
Fixpoint OpSeqAppend_fuel (fuel : nat) (start sequence : term) : bool * term :=
  match fuel with
  | O => (false, start)
  | S fuel =>
    if copulaEquals (at_ sequence 0) SEQUENCE then
      let '(ok1, start) := OpSeqAppend_fuel fuel start (Term_ExtractSubterm sequence 1) in
      if ok1 then OpSeqAppend_fuel fuel start (Term_ExtractSubterm sequence 2) else (false, start)
    else if isOperation sequence then
      if at_ start 0 =? 0 then (true, sequence) else Narsese_Sequence start sequence
    else (true, start)
  end.
Definition OperationSequenceAppendLeftNested : term -> term -> bool * term := OpSeqAppend_fuel 7.
(** Narsese.c 746-768; a temporal implication in an implication's precondition recurses, hence
    the fuel *)
Fixpoint getOperationTerm_fuel (fuel : nat) (t : term) : term :=
  match fuel with
  | O => zero_term
  | S fuel =>
    if copulaEquals (at_ t 0) TEMPORAL_IMPLICATION then getOperationTerm_fuel fuel (Term_ExtractSubterm t 1)
    else if copulaEquals (at_ t 0) SEQUENCE then
      if negb (isOperation (Term_ExtractSubterm t 2)) then zero_term
      else let '(ok, s) := OperationSequenceAppendLeftNested zero_term t in if ok then s else zero_term
    else if isOperation t then t else zero_term
  end.
Definition getOperationTerm : term -> term := getOperationTerm_fuel 7.
(** Narsese.c 873-885 *)
Fixpoint SequenceLength_fuel (fuel : nat) (t : term) : nat :=
  match fuel with
  | O => 1%nat
  | S fuel =>
    if copulaEquals (at_ t 0) SEQUENCE
    then (SequenceLength_fuel fuel (Term_ExtractSubterm t 1) + SequenceLength_fuel fuel (Term_ExtractSubterm t 2))%nat
    else 1%nat
  end.
Definition SequenceLength : term -> nat := SequenceLength_fuel 7.
End Names.
