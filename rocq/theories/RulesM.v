(** Model of the rule table: the rules of /repo/src/NAL.h and the code NAL.c 28-130 generates for
    them (RuleTable.c: RuleTable_Apply, RuleTable_Reduce). *)
From Coq Require Import ZArith List Bool Ascii String.
From Verif Require Import Base F64 TruthM StampM TermM NamesM EventM AtomsM MemoryM ParserM NalM DecisionM.
Local Open Scope Z_scope.
Import ListNotations.

(** NAL.h 47-58: the macros.  Their arguments become text (the preprocessor's # operator; the
    source writes \\1, which in the string literal denotes \1). *)
Inductive entry :=
| R2 (premise1 premise2 conclusion : string) (f : tfun)
| R2VarIntro (premise1 premise2 conclusion : string) (f : tfun)
| R1 (premise1 conclusion : string) (f : tfun)
| R1Bidirectional (rep1 rep2 : string) (f : tfun).
Inductive reduction := ReduceTerm (pattern replacement : string) | ReduceStatement (pattern replacement : string).
(** NAL.h 66-240 with SEMANTIC_INFERENCE_NAL_LEVEL = 6 (Config.h), which leaves out lines 203-210 *)
Definition NAL_RULES : list entry := [
  R2 "(S --> M)" "(M --> P)" "(S --> P)" TDeduction;
  R2 "(A --> B)" "(A --> C)" "(C --> B)" TInduction;
  R2 "(A --> C)" "(B --> C)" "(B --> A)" TAbduction;
  R2 "(A --> B)" "(B --> C)" "(C --> A)" TExemplification;
  R2 "S" "(S --> P)" "P" TDeduction;
  R2 "P" "(S --> P)" "S" TAbduction;
  R1 "(S <-> P)" "(P <-> S)" TStructuralIntersection;
  R2 "(M <-> P)" "(S <-> M)" "(S <-> P)" TResemblance;
  R2 "(P --> M)" "(S --> M)" "(S <-> P)" TComparison;
  R2 "(M --> P)" "(M --> S)" "(S <-> P)" TComparison;
  R2 "(M --> P)" "(S <-> M)" "(S --> P)" TAnalogy;
  R2 "(P --> M)" "(S <-> M)" "(P --> S)" TAnalogy;
  R2 "S" "(S <-> P)" "P" TAnalogy;
  R2 "S" "(P <-> S)" "P" TAnalogy;
  R1 "(S --> {P})" "(S <-> {P})" TStructuralIntersection;
  R1 "([S] --> P)" "([S] <-> P)" TStructuralIntersection;
  R2 "({M} --> P)" "(S <-> M)" "({S} --> P)" TAnalogy;
  R2 "(P --> [M])" "(S <-> M)" "(P --> [S])" TAnalogy;
  R1 "({A} <-> {B})" "(A <-> B)" TStructuralIntersection;
  R1 "([A] <-> [B])" "(A <-> B)" TStructuralIntersection;
  R1 "({A B} --> M)" "<{A} --> M>" TStructuralDeduction;
  R1 "({A B} --> M)" "<{B} --> M>" TStructuralDeduction;
  R1 "(M --> [A B])" "<M --> [A]>" TStructuralDeduction;
  R1 "(M --> [A B])" "<M --> [B]>" TStructuralDeduction;
  R1 "((S | P) --> M)" "(S --> M)" TStructuralDeduction;
  R1 "(M --> (S & P))" "(M --> S)" TStructuralDeduction;
  R1 "((S | P) --> M)" "(P --> M)" TStructuralDeduction;
  R1 "(M --> (S & P))" "(M --> P)" TStructuralDeduction;
  R1 "((A ~ S) --> M)" "(A --> M)" TStructuralDeduction;
  R1 "(M --> (B - S))" "(M --> B)" TStructuralDeduction;
  R1 "((A ~ S) --> M)" "(S --> M)" TStructuralDeductionNegated;
  R1 "(M --> (B - S))" "(M --> S)" TStructuralDeductionNegated;
  R2 "(P --> M)" "(S --> M)" "((P | S) --> M)" TIntersection;
  R2 "(P --> M)" "(S --> M)" "((P & S) --> M)" TUnion;
  R2 "(P --> M)" "(S --> M)" "((P ~ S) --> M)" TDifference;
  R2 "(M --> P)" "(M --> S)" "(M --> (P & S))" TIntersection;
  R2 "(M --> P)" "(M --> S)" "(M --> (P | S))" TUnion;
  R2 "(M --> P)" "(M --> S)" "(M --> (P - S))" TDifference;
  R2 "(S --> M)" "((S | P) --> M)" "(P --> M)" TDecomposePNN;
  R2 "(P --> M)" "((S | P) --> M)" "(S --> M)" TDecomposePNN;
  R2 "(S --> M)" "((S & P) --> M)" "(P --> M)" TDecomposeNPP;
  R2 "(P --> M)" "((S & P) --> M)" "(S --> M)" TDecomposeNPP;
  R2 "(S --> M)" "((S ~ P) --> M)" "(P --> M)" TDecomposePNP;
  R2 "(S --> M)" "((P ~ S) --> M)" "(P --> M)" TDecomposeNNN;
  R2 "(M --> S)" "(M --> (S & P))" "(M --> P)" TDecomposePNN;
  R2 "(M --> P)" "(M --> (S & P))" "(M --> S)" TDecomposePNN;
  R2 "(M --> S)" "(M --> (S | P))" "(M --> P)" TDecomposeNPP;
  R2 "(M --> P)" "(M --> (S | P))" "(M --> S)" TDecomposeNPP;
  R2 "(M --> S)" "(M --> (S - P))" "(M --> P)" TDecomposePNP;
  R2 "(M --> S)" "(M --> (P - S))" "(M --> P)" TDecomposeNNN;
  R1 "((A * B) --> (S * M))" "(A --> S)" TStructuralDeduction;
  R1 "((A * B) --> (S * M))" "(B --> M)" TStructuralDeduction;
  R1Bidirectional "((A * B) --> R)" "(A --> (R /1 B))" TStructuralIntersection;
  R1Bidirectional "((A * B) --> R)" "(B --> (R /2 A))" TStructuralIntersection;
  R1Bidirectional "(R --> (A * B))" "((R \1 B) --> A)" TStructuralIntersection;
  R1Bidirectional "(R --> (A * B))" "((R \2 A) --> B)" TStructuralIntersection;
  R2 "({R} |-> [P])" "({S} |-> [P])" "(({R} * {S}) --> (+ P))" TFrequencyGreater;
  R2 "((A * B) --> (+ P))" "((B * C) --> (+ P))" "((A * C) --> (+ P))" TDeduction;
  R2 "({R} |-> [P])" "({S} |-> [P])" "(({R} * {S}) --> (= P))" TFrequencyEqual;
  R2 "((A * B) --> (= P))" "((B * C) --> (= P))" "((A * C) --> (= P))" TDeduction;
  R1 "((A * B) --> (= P))" "((B * A) --> (= P))" TStructuralIntersection;
  R2 "((A * B) --> R)" "((C * B) --> R)" "(C --> A)" TAbduction;
  R2 "((A * B) --> R)" "((A * C) --> R)" "(C --> B)" TAbduction;
  R2 "(R --> (A * B))" "(R --> (C * B))" "(C --> A)" TInduction;
  R2 "(R --> (A * B))" "(R --> (A * C))" "(C --> B)" TInduction;
  R2 "((A * B) --> R)" "(C --> A)" "((C * B) --> R)" TDeduction;
  R2 "((A * B) --> R)" "(A --> C)" "((C * B) --> R)" TInduction;
  R2 "((A * B) --> R)" "(C <-> A)" "((C * B) --> R)" TAnalogy;
  R2 "((A * B) --> R)" "(C --> B)" "((A * C) --> R)" TDeduction;
  R2 "((A * B) --> R)" "(B --> C)" "((A * C) --> R)" TInduction;
  R2 "((A * B) --> R)" "(C <-> B)" "((A * C) --> R)" TAnalogy;
  R2 "(R --> (A * B))" "(A --> C)" "(R --> (C * B))" TDeduction;
  R2 "(R --> (A * B))" "(C --> A)" "(R --> (C * B))" TAbduction;
  R2 "(R --> (A * B))" "(C <-> A)" "(R --> (C * B))" TAnalogy;
  R2 "(R --> (A * B))" "(B --> C)" "(R --> (A * C))" TDeduction;
  R2 "(R --> (A * B))" "(C --> B)" "(R --> (A * C))" TAbduction;
  R2 "(R --> (A * B))" "(C <-> B)" "(R --> (A * C))" TAnalogy;
  R2 "((A * B) --> R)" "((C * B) --> R)" "(A <-> C)" TComparison;
  R2 "((A * B) --> R)" "((A * C) --> R)" "(B <-> C)" TComparison;
  R2 "(R --> (A * B))" "(R --> (C * B))" "(A <-> C)" TComparison;
  R2 "(R --> (A * B))" "(R --> (A * C))" "(B <-> C)" TComparison;
  R1 "(! A)" "A" TNegation;
  R1 "(A && B)" "A" TStructuralDeduction;
  R1 "(A && B)" "B" TStructuralDeduction;
  R1 "(A && B)" "(B && A)" TStructuralIntersection;
  R2 "S" "(&& S A)" "A" TDecomposePNN;
  R2 "S" "(|| S A)" "A" TDecomposeNPP;
  R2 "S" "(&& (! S) A)" "A" TDecomposeNNN;
  R2 "S" "(|| (! S) A)" "A" TDecomposePPP;
  R2 "(S ==> M)" "(M ==> P)" "(S ==> P)" TDeduction;
  R2 "(A ==> B)" "(A ==> C)" "(C ==> B)" TInduction;
  R2 "(A ==> C)" "(B ==> C)" "(B ==> A)" TAbduction;
  R2 "(A ==> B)" "(B ==> C)" "(C ==> A)" TExemplification;
  R2 "(A ==> C)" "(B ==> C)" "((A && B) ==> C)" TUnion;
  R2 "(A ==> C)" "(B ==> C)" "((A || B) ==> C)" TIntersection;
  R2 "(C ==> A)" "(C ==> B)" "(C ==> (A && B))" TIntersection;
  R2 "(C ==> A)" "(C ==> B)" "(C ==> (A || B))" TUnion;
  R2 "((S && P) ==> M)" "(S ==> M)" "P" TAbduction;
  R2 "((C && M) ==> P)" "(S ==> M)" "((C && S) ==> P)" TDeduction;
  R2 "((C && P) ==> M)" "((C && S) ==> M)" "(S ==> P)" TAbduction;
  R2 "((C && M) ==> P)" "(M ==> S)" "((C && S) ==> P)" TInduction;
  R1 "(S <=> P)" "(P <=> S)" TStructuralIntersection;
  R2 "(S ==> P)" "(P ==> S)" "(S <=> P)" TIntersection;
  R2 "(P ==> M)" "(S ==> M)" "(S <=> P)" TComparison;
  R2 "(M ==> P)" "(M ==> S)" "(S <=> P)" TComparison;
  R2 "(M ==> P)" "(S <=> M)" "(S ==> P)" TAnalogy;
  R2 "(P ==> M)" "(S <=> M)" "(P ==> S)" TAnalogy;
  R2 "(M <=> P)" "(S <=> M)" "(S <=> P)" TResemblance;
  R2VarIntro "(C --> A)" "(C --> B)" "((C --> B) ==> (C --> A))" TInduction;
  R2VarIntro "(A --> C)" "(B --> C)" "((B --> C) ==> (A --> C))" TInduction;
  R2VarIntro "(C --> A)" "(C --> B)" "((C --> B) <=> (C --> A))" TComparison;
  R2VarIntro "(A --> C)" "(B --> C)" "((B --> C) <=> (A --> C))" TComparison;
  R2VarIntro "(! (C --> A))" "(C --> B)" "((C --> B) ==> (! (C --> A)))" TInduction;
  R2VarIntro "(! (A --> C))" "(B --> C)" "((B --> C) ==> (! (A --> C)))" TInduction;
  R2VarIntro "(! (C --> A))" "(C --> B)" "((C --> B) <=> (! (C --> A)))" TComparison;
  R2VarIntro "(! (A --> C))" "(B --> C)" "((B --> C) <=> (! (A --> C)))" TComparison;
  R2VarIntro "(C --> A)" "(! (C --> B))" "((! (C --> B)) ==> (C --> A))" TInduction;
  R2VarIntro "(A --> C)" "(! (B --> C))" "((! (B --> C)) ==> (A --> C))" TInduction;
  R2VarIntro "(C --> A)" "(! (C --> B))" "((! (C --> B)) <=> (C --> A))" TComparison;
  R2VarIntro "(A --> C)" "(! (B --> C))" "((! (B --> C)) <=> (A --> C))" TComparison;
  R2VarIntro "(C --> A)" "(C --> B)" "((C --> B) && (C --> A))" TIntersection;
  R2VarIntro "(A --> C)" "(B --> C)" "((B --> C) && (A --> C))" TIntersection;
  R2VarIntro "(! (C --> A))" "(C --> B)" "((C --> B) && (! (C --> A)))" TIntersection;
  R2VarIntro "(! (A --> C))" "(B --> C)" "((B --> C) && (! (A --> C)))" TIntersection;
  R2VarIntro "(C --> A)" "(! (C --> B))" "((! (C --> B)) && (C --> A))" TIntersection;
  R2VarIntro "(A --> C)" "(! (B --> C))" "((! (B --> C)) && (A --> C))" TIntersection;
  R2VarIntro "(<$1 --> B> ==> <$1 --> C>)" "A" "(A && (<$1 --> B> ==> <$1 --> C>))" TIntersection;
  R2VarIntro "(<#1 --> B> && <#1 --> C>)" "A" "(A ==> (<#1 --> B> && <#1 --> C>))" TInduction;
  R2VarIntro "(B ==> C)" "A" "((A && B) ==> C)" TInduction;
  R2VarIntro "((A * B) --> R)" "((B * A) --> S)" "(((B * A) --> S) ==> ((A * B) --> R))" TInduction;
  R2VarIntro "(! ((B * A) --> R))" "((A * B) --> S)" "(((A * B) --> S) ==> (! ((B * A) --> R)))" TInduction;
  R2VarIntro "((B * A) --> R)" "(! ((A * B) --> S))" "((! ((A * B) --> S)) ==> ((B * A) --> R))" TInduction;
  R2 "((A * B) --> R)" "((B * C) --> S)" "(((A * B) --> R) && ((B * C) --> S))" TIntersection;
  R2VarIntro "((A * C) --> M)" "(((A * B) --> R) && ((B * C) --> S))" "((((A * B) --> R) && ((B * C) --> S)) ==> ((A * C) --> M))" TInduction].
(** NAL.h 252-266 *)
Definition NAL_REDUCTIONS : list reduction := [
  ReduceTerm "(A & A)" "A";
  ReduceTerm "(A | A)" "A";
  ReduceStatement "(A && A)" "A";
  ReduceStatement "(A || A)" "A";
  ReduceTerm "({A} | {B})" "{A B}";
  ReduceTerm "({A B} | {C})" "{(A . B) C}";
  ReduceTerm "({C} | {A B})" "{C (A . B)}";
  ReduceTerm "([A] & [B])" "[A B]";
  ReduceTerm "([A B] & [C])" "[(A . B) C]";
  ReduceTerm "([A] & [B C])" "[A (B . C)]";
  ReduceTerm "{(A . B)}" "{A B}";
  ReduceTerm "[(A . B)]" "[A B]"].

Definition str (s : string) : text := map (fun c => Z.of_N (N_of_ascii c)) (list_ascii_of_string s).
(** one generated rule (NAL_GenerateRule): second premise for two-premise rules *)
Record grule := mkG { g_p1 : string; g_p2 : option string; g_c : string; g_f : tfun; g_switch : bool; g_intro : bool }.
(** NAL.h 47-54 *)
Definition generate (e : entry) : list grule :=
  match e with
  | R2 p1 p2 c f => [mkG p1 (Some p2) c f false false; mkG p2 (Some p1) c f true false]
  | R2VarIntro p1 p2 c f => [mkG p1 (Some p2) c f false true; mkG p2 (Some p1) c f true true]
  | R1 p c f => [mkG p None c f false false]
  | R1Bidirectional a b f => [mkG a None b f false false; mkG b None a f false false]
  end.
(** NAL.h 56-58 *)
Definition generate_reduction (r : reduction) : list (string * string) :=
  match r with
  | ReduceTerm p q => [("(" ++ p ++ " --> M) ", "(" ++ q ++ " --> M)"); ("(M --> " ++ p ++ ")", "(M --> " ++ q ++ ")")]%string
  | ReduceStatement p q => [(p, q)]
  end.
(** The first-stage program parses the rules after Narsese_INIT.  The parser state is threaded
    through (no rule interns a new atom, shown below). *)
Record prule := mkR { r_p1 : term; r_p2 : option term; r_c : term; r_f : tfun; r_switch : bool; r_intro : bool }.
Definition parse_rule (cap : nat) (st : astate) (g : grule) : res (astate * prule) :=
  do (st, p1) <- Narsese_Term cap st (str (g_p1 g)) ;
  do (st, p2) <- (match g_p2 g with Some p => do (st, t) <- Narsese_Term cap st (str p) ; Ok (st, Some t) | None => Ok (st, None) end) ;
  do (st, c) <- Narsese_Term cap st (str (g_c g)) ;
  Ok (st, mkR p1 p2 c (g_f g) (g_switch g) (g_intro g)).
Definition parse_reduction (cap : nat) (st : astate) (r : string * string) : res (astate * (term * term)) :=
  do (st, p) <- Narsese_Term cap st (str (fst r)) ;
  do (st, c) <- Narsese_Term cap st (str (snd r)) ;
  Ok (st, (p, c)).
Fixpoint parse_all {X Y} (f : astate -> X -> res (astate * Y)) (st : astate) (l : list X) : res (astate * list Y) :=
  match l with
  | [] => Ok (st, [])
  | x :: l => do (st, y) <- f st x ; do (st, ys) <- parse_all f st l ; Ok (st, y :: ys)
  end.

(** the parser state after Narsese_INIT, here with a small symbol table (cf. RulesP.v) *)
Definition st_init : res astate := Narsese_INIT 200.
(** drop the zeros at the end of a term *)
Fixpoint trim (t : list Z) : list Z :=
  match t with [] => [] | a :: t => match a, trim t with 0, [] => [] | _, t' => a :: t' end end.
Definition parsed_rules : res (names * list (list Z * option (list Z) * list Z * (tfun * bool * bool))) :=
  do st <- st_init ; do (st, l) <- parse_all (parse_rule 200) st (flat_map generate NAL_RULES) ;
  Ok (a_names st, map (fun r => (trim (r_p1 r), option_map trim (r_p2 r), trim (r_c r), (r_f r, r_switch r, r_intro r))) l).
Definition parsed_reductions : res (names * list (list Z * list Z)) :=
  do st <- st_init ; do (st, l) <- parse_all (parse_reduction 200) st (flat_map generate_reduction NAL_REDUCTIONS) ;
  Ok (a_names st, map (fun r => (trim (fst r), trim (snd r))) l).
(** the parsed rules and reductions, computed; that this is what parsing yields is checked in RulesP.v *)
Definition rules_data := Eval vm_compute in match parsed_rules with Ok (_, l) => l | _ => [] end.
Definition reductions_data := Eval vm_compute in match parsed_reductions with Ok (_, l) => l | _ => [] end.
Definition fill (l : list Z) : term := l ++ repeat 0 (SIZE - length l).
Definition rules : list prule := map (fun '(p1, p2, c, (f, sw, vi)) => mkR (fill p1) (option_map fill p2) (fill c) f sw vi) rules_data.
Definition reductions : list (term * term) := map (fun '(p, c) => (fill p, fill c)) reductions_data.

(** NAL.c 35: symbols that begin with a capital letter are variables of the rule language.  The
    names are those of the first-stage program.  (Names beginning with "Op" would be restricted to
    operations, NAL.c 33; no rule has one.) *)
Definition rule_var (a : Z) : bool := let c := nth 0 (name_of init_list a) 0 in (65 <=? c) && (c <=? 90).

Section Apply.
Variable nm : names.
(** the local array of 40 terms; NAL.c 79: 27 + sizeof "ABCMRSPXYZ" + 2 *)
Definition subst := list term.
Definition subst0 : subst := repeat zero_term 40.
Definition sub (s : subst) (a : Z) : term := nth (Z.to_nat a) s zero_term.
(** NAL.c 29-51: the code generated for position i of a premise pattern with atom a *)
Definition unify1 (t : term) (s : subst) (i : nat) (a : Z) : option subst :=
  if a =? 0 then Some s
  else if rule_var a then
    let subtree := Term_ExtractSubterm t i in
    if (negb (at_ (sub s a) 0 =? 0) && negb (term_eqb (sub s a) subtree)) || copulaEquals nm (at_ subtree 0) SET_TERMINATOR then None
    else Some (upd s (Z.to_nat a) subtree)
  else if at_ t i =? a then Some s else None.
(** NAL.c 80-90: all positions in order *)
Fixpoint unify_loop (p t : term) (l : list nat) (s : subst) : option subst :=
  match l with
  | [] => Some s
  | i :: l => match unify1 t s i (at_ p i) with Some s => unify_loop p t l s | None => None end
  end.
Definition unify_premise (p t : term) (s : subst) : option subst := unify_loop p t (seq 0 SIZE) s.
(** NAL.c 53-68, 91-95 *)
Definition conclude1 (s : subst) (r : term) (i : nat) (a : Z) : option term :=
  if a =? 0 then Some r
  else if rule_var a then let '(ok, r) := Term_OverrideSubterm r i (sub s a) in if ok then Some r else None
  else Some (upd r i a).
Fixpoint conclude_loop (c : term) (s : subst) (l : list nat) (r : term) : option term :=
  match l with
  | [] => Some r
  | i :: l => match conclude1 s r i (at_ c i) with Some r => conclude_loop c s l r | None => None end
  end.
Definition conclude (c : term) (s : subst) : option term := conclude_loop c s (seq 0 SIZE) zero_term.
(** NAL.c 70-96, one rule: its conclusion if it applies *)
Definition apply_rule (r : prule) (double : bool) (t1 t2 : term) : option term :=
  match r_p2 r, double with
  | Some p2, true =>
    match unify_premise (r_p1 r) t1 subst0 with
    | Some s => match unify_premise p2 t2 s with Some s => conclude (r_c r) s | None => None end
    | None => None
    end
  | None, false => match unify_premise (r_p1 r) t1 subst0 with Some s => conclude (r_c r) s | None => None end
  | _, _ => None
  end.
(** NAL.c 112-116, 126-130 [RuleTable_Reduce]: the first reduction that applies *)
Fixpoint reduce_with (l : list (term * term)) (t : term) : term :=
  match l with
  | [] => t
  | (p, c) :: l =>
    match unify_premise p t subst0 with
    | Some s => match conclude c s with Some t' => t' | None => reduce_with l t end
    | None => reduce_with l t
    end
  end.
Definition RuleTable_Reduce (t : term) : term := reduce_with reductions t.
(** NAL.c 98-110: conclusions of all applicable rules in order: term, truth, varIntro flag *)
Definition conclusions (double : bool) (t1 t2 : term) (v1 v2 : truth f64A) : list (term * truth f64A * bool) :=
  flat_map (fun r => match apply_rule r double t1 t2 with
    | Some c => [(RuleTable_Reduce c, if r_switch r then apply_tfun f64A (r_f r) v2 v1 else apply_tfun f64A (r_f r) v1 v2, r_intro r)]
    | None => [] end) rules.
Variable powdecay : Z -> f64.
Variable penalty : nat -> f64.
Variable layers : nat.
(** RuleTable_Apply: the arguments are passed by value; [d] carries those handed through *)
Definition with_dtruth (d : deriv) (v : truth f64A) : deriv :=
  mkDv (dv_occ d) v (dv_stamp d) (dv_now d) (dv_parent d) (dv_concept d) (dv_offset d) (dv_valid d) (dv_cid d).
Definition RuleTable_Apply (fuel : nat) (m : memory) (double : bool) (t1 t2 : term) (v1 v2 : truth f64A) (d : deriv) : res memory :=
  foldM (fun m '(c, v, vi) => DerivedEvent nm powdecay penalty layers fuel m c (with_dtruth d v) vi false) (conclusions double t1 t2 v1 v2) m.
End Apply.
