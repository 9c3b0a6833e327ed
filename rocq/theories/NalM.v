(** Model of /repo/src/NAL.c 133-453: the shape filters and NAL_DerivedEvent.  All filter switches
    of Config.h are on. *)
From Coq Require Import ZArith List Bool.
From Verif Require Import Base F64 TruthM StampM TermM NamesM EventM VariableM MemoryM.
Local Open Scope Z_scope.
Import ListNotations.

Section Nal.
Variable nm : names.
Notation cop a k := (copulaEquals nm a k).

(** NAL.c 146-158: the loop over the atoms; [seen] are the simple atoms marked with the current
    atomsCounter (the counter is fresh for every call, so nothing is marked at the start) *)
Fixpoint appears_loop (seen l : list Z) : bool :=
  match l with
  | [] => false
  | a :: l => existsb (Z.eqb a) seen || appears_loop (if IsSimpleAtom nm a then a :: seen else seen) l
  end.
(** NAL.c 133-171 *)
Definition AtomAppearsTwice (t : term) : bool :=
  ((cop (at_ t 0) INHERITANCE || cop (at_ t 0) SIMILARITY)
   && negb (cop (at_ t 1) PRODUCT && cop (at_ t 3) PRODUCT && cop (at_ t 4) PRODUCT)
   && appears_loop [] (map (at_ t) (seq 0 SIZE)))
  || ((cop (at_ t 0) EQUIVALENCE || cop (at_ t 0) IMPLICATION)
      && term_eqb (Term_ExtractSubterm t 1) (Term_ExtractSubterm t 2)).
(** NAL.c 173-196: imp_equ >= 2 or temp_equ > 2 at some point of the loop *)
Fixpoint nested_loop (l : list Z) (imp_equ temp_equ : Z) : bool :=
  match l with
  | [] => false
  | a :: l =>
    let i := if cop a IMPLICATION || cop a EQUIVALENCE then imp_equ + 1 else imp_equ in
    let t := if cop a TEMPORAL_IMPLICATION then temp_equ + 1 else temp_equ in
    (2 <=? i) || (2 <? t) || nested_loop l i t
  end.
Definition NestedHOLStatement (t : term) : bool := nested_loop (map (at_ t) (seq 0 SIZE)) 0 0.
(** NAL.c 198-211 *)
Definition InhOrSimHasDepVar (t : term) : bool :=
  (cop (at_ t 0) INHERITANCE || cop (at_ t 0) SIMILARITY) && hasVariable nm t false true false.
(** NAL.c 213-270; the recursion descends into subterms (at most 6 levels) *)
Definition mixed (t : term) : bool := hasVariable nm t true true false && HasSimpleAtom nm t.
Fixpoint invalid_component (fuel : nat) (t : term) (first : bool) : bool :=
  match fuel with
  | O => false
  | S fuel =>
    let c := at_ t 0 in
    let subject := Term_ExtractSubterm t 1 in
    let predicate := Term_ExtractSubterm t 2 in
    if cop c EQUIVALENCE || cop c IMPLICATION || cop c CONJUNCTION || cop c DISJUNCTION then
      invalid_component fuel subject false || invalid_component fuel predicate false
    else if negb first && (cop c INHERITANCE || cop c SIMILARITY) then
      let var a := isIndependentVariable nm a || isDependentVariable nm a in
      let subject_image := cop (at_ subject 0) INT_IMAGE1 || cop (at_ subject 0) INT_IMAGE2 in
      (* sic: the second test looks at the subject *)
      let predicate_image := cop (at_ predicate 0) EXT_IMAGE1 || cop (at_ subject 0) EXT_IMAGE2 in
      if term_eqb subject predicate || (var (at_ subject 0) && var (at_ predicate 0)) then true
      else if negb (hasVariable nm t true true false) then true
      else if negb (HasSimpleAtom nm t) then true
      else if negb subject_image && negb predicate_image && negb (cop (at_ subject 0) SET_ELEMT)
              && negb (cop (at_ predicate 0) SET_ELEMT) && (mixed subject || mixed predicate) then true
      else if subject_image && (mixed (Term_ExtractSubterm subject 1) || mixed (Term_ExtractSubterm subject 2)) then true
      else predicate_image && (mixed (Term_ExtractSubterm predicate 1) || mixed (Term_ExtractSubterm predicate 2))
    else false
  end.
Definition HOLStatementComponentHasInvalidInhOrSim (t : term) : bool := invalid_component 7 t true.
(** NAL.c 272-291: the test [i < COMPOUND_TERM_SIZE_MAX] does not guard the read of the right
    child; reading past the 64 atoms is UB *)
Fixpoint junction_loop (t : term) (l : list nat) : res bool :=
  match l with
  | [] => Ok false
  | i :: l =>
    if cop (at_ t i) CONJUNCTION || cop (at_ t i) DISJUNCTION then
      let r := ((i + 1) * 2 + 1 - 1)%nat in
      if (r <? SIZE)%nat then
        if cop (at_ t r) CONJUNCTION || cop (at_ t r) DISJUNCTION then Ok true else junction_loop t l
      else UB
    else junction_loop t l
  end.
Definition JunctionNotRightNested (t : term) : res bool := junction_loop t (seq 0 SIZE).
(** NAL.c 293-309 *)
Definition InvalidSetOp (t : term) : bool :=
  cop (at_ t 0) INHERITANCE
  && ((cop (at_ t 1) EXT_INTERSECTION && cop (at_ t 3) EXT_SET && cop (at_ t 4) EXT_SET)
      || (cop (at_ t 2) INT_INTERSECTION && cop (at_ t 5) INT_SET && cop (at_ t 6) INT_SET)).
(** NAL.c 311-329 *)
Definition IndepOrDepVariableAppearsOnce (t : term) : bool :=
  existsb (fun i => (isIndependentVariable nm (at_ t i) || isDependentVariable nm (at_ t i))
                    && negb (existsb (fun j => negb (i =? j)%nat && (at_ t i =? at_ t j)) (seq 0 SIZE))) (seq 0 SIZE).
(** NAL.c 331-341 *)
Definition DeclarativeImplicationWithoutIndependentVar (t : term) : bool :=
  (cop (at_ t 0) IMPLICATION || cop (at_ t 0) EQUIVALENCE) && negb (hasVariable nm t true false false).
(** NAL.c 343-369; the recursion descends into left subterms *)
Fixpoint lefthand_operation (fuel : nat) (t : term) (recurse : bool) : bool :=
  match fuel with
  | O => false
  | S fuel =>
    if (cop (at_ t 0) IMPLICATION || cop (at_ t 0) EQUIVALENCE) && cop (at_ t 1) CONJUNCTION then
      lefthand_operation fuel (Term_ExtractSubterm t 1) true
    else if recurse && cop (at_ t 0) CONJUNCTION then
      let l := Term_ExtractSubterm t 1 in
      if isOperation nm l then true
      else if cop (at_ l 0) CONJUNCTION then lefthand_operation fuel l true else false
    else false
  end.
Definition ImplicationWithLefthandOperation (t : term) : bool := lefthand_operation 8 t false.

(** NAL.c 447: true if some filter rejects the term; C evaluates left to right *)
Definition rejected (t : term) : res bool :=
  if AtomAppearsTwice t || NestedHOLStatement t || InhOrSimHasDepVar t then Ok true else
  do j <- JunctionNotRightNested t ;
  Ok (j || InvalidSetOp t || IndepOrDepVariableAppearsOnce t || ImplicationWithLefthandOperation t).

Variable powdecay : Z -> f64.
Variable penalty : nat -> f64.
Variable layers : nat.

(** What a derivation carries along (NAL.c 371, the parameters after the term) *)
Record deriv := mkDv {
  dv_occ : Z; dv_truth : truth f64A; dv_stamp : stamp; dv_now : Z; dv_parent : f64; dv_concept : f64; dv_offset : f64;
  dv_valid : option nat; dv_cid : Z }.
(** NAL.c 434-440 *)
Definition derived_event (t : term) (d : deriv) : event :=
  mkEvent t EVENT_TYPE_BELIEF (dv_truth d) (dv_stamp d) (dv_occ d) (dv_offset d) false (dv_now d) false.
(** NAL.c 434-452: without variable introduction.  [fuel]: call stack for Memory_AddEvent *)
Definition add_derived (fuel : nat) (m : memory) (t : term) (d : deriv) : res memory :=
  do valid <- (match dv_valid d with
               | None => Ok true
               | Some c => do k <- cread m c ; Ok (c_id k =? dv_cid d)
               end) ;
  if negb valid then Ok m else
  do r <- rejected t ;
  if r then Ok m else
  AddEvent nm powdecay penalty layers fuel m (EVal (derived_event t d)) (dv_now d)
    (fmul (fmul (dv_concept d) (dv_parent d)) (Truth_Expectation f64A (dv_truth d))) false false 0.
(** NAL.c 375-394: one variable introduction; $2 is the atom [indep_atom 2] (Narsese_INIT) *)
Definition intro_derived (fuel : nat) (m : memory) (t : term) (d : deriv) (r : res (bool * term)) (implication two : bool) : res memory :=
  do (ok, t') <- r ;
  if ok && negb (term_eqb t' t) && negb (HOLStatementComponentHasInvalidInhOrSim t')
     && negb (implication && DeclarativeImplicationWithoutIndependentVar t')
     && (negb two || Term_HasAtom t' (indep_atom 2))
  then add_derived fuel m t' d else Ok m.
(** NAL.c 371-453 *)
Definition DerivedEvent (fuel : nat) (m : memory) (t : term) (d : deriv) (varIntro onlyExtTwo : bool) : res memory :=
  let c := at_ t 0 in
  if varIntro && (cop c TEMPORAL_IMPLICATION || cop c IMPLICATION || cop c EQUIVALENCE) then
    do m <- intro_derived fuel m t d (IntroduceImplicationVariables nm t true) true onlyExtTwo ;
    do m <- (if negb onlyExtTwo then intro_derived fuel m t d (IntroduceImplicationVariables nm t false) true false else Ok m) ;
    if cop c IMPLICATION || cop c EQUIVALENCE || onlyExtTwo then Ok m
    else add_derived fuel m t d
  else if varIntro && cop c CONJUNCTION then
    do m <- intro_derived fuel m t d (IntroduceConjunctionVariables nm t true) false false ;
    intro_derived fuel m t d (IntroduceConjunctionVariables nm t false) false false
  else add_derived fuel m t d.
End Nal.
