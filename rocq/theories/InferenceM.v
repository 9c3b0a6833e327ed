(** Model of /repo/src/Inference.c: the temporal inference rules.
    [nm] is the symbol table (Narsese_atomNames), [powdecay d] stands for
    pow(TRUTH_PROJECTION_DECAY, d).  Conclusions get default 0 for all fields the C compound
    literals do not mention. *)
From Coq Require Import ZArith List Bool.
From Flocq Require Import IEEE754.BinarySingleNaN.
From Verif Require Import Base F64 TruthM StampM TermM NamesM EventM.
Local Open Scope Z_scope.

(** Inference.c 35-38, over any arithmetic *)
Definition weighted_average (A : arith) (a1 a2 w1 w2 : A) : A :=
  adiv A (aadd A (amul A a1 w1) (amul A a2 w2)) (aadd A w1 w2).
(** C conversion long -> double and (truncating) double -> long *)
Definition double_of (z : Z) : f64 := fofZ z.
Definition long_of (x : f64) : Z := Btrunc x.

Section Inference.
Variable nm : names.
Variable powdecay : Z -> f64.
Notation Projection := (Truth_Projection f64A powdecay).

(** Inference.c 27-33: the macros DERIVATION_STAMP, DERIVATION_STAMP_AND_TIME are inlined:
    stamp [stamp_make a b], creation time the maximum, time and truth of [b], truth of [a]
    projected to the time of [b].

    Inference.c 40-53 *)
Definition BeliefIntersection (a b : event) : res (bool * event) :=
  do _ <- rassert (e_occ a <=? e_occ b) ;
  let truthA := Projection (e_truth a) (e_occ a) (e_occ b) in
  let '(ok, t) := Narsese_Sequence (e_term a) (e_term b) in
  Ok (ok, if ok then
        mkEvent t EVENT_TYPE_BELIEF (Truth_Intersection f64A truthA (e_truth b))
          (stamp_make (e_stamp a) (e_stamp b)) (e_occ b) f0 false (Z.max (e_creation a) (e_creation b)) false
      else event0).
(** Inference.c 55-69 *)
Definition BeliefInduction (a b : event) : res (bool * implication) :=
  do _ <- rassert (e_occ a <=? e_occ b) ;
  let truthA := Projection (e_truth a) (e_occ a) (e_occ b) in
  let t := upd zero_term 0 (copula_index TEMPORAL_IMPLICATION) in
  let '(ok1, t) := Term_OverrideSubterm t 1 (e_term a) in
  let '(ok, t) := if ok1 then Term_OverrideSubterm t 2 (e_term b) else (false, t) in
  Ok (ok, if ok then
        mkImp t (Truth_Induction f64A (e_truth b) truthA) (stamp_make (e_stamp a) (e_stamp b))
          (double_of (e_occ b - e_occ a)) None 0 (Z.max (e_creation a) (e_creation b))
      else imp0).
(** Inference.c 71-82 *)
Definition EventRevision (a b : event) : event :=
  mkEvent (e_term a) (e_type a)
    (Truth_Revision f64A (Projection (e_truth a) (e_occ a) (e_occ b)) (e_truth b))
    (stamp_make (e_stamp a) (e_stamp b)) (e_occ b) f0 false (Z.max (e_creation a) (e_creation b)) false.
(** Inference.c 84-96 *)
Definition ImplicationRevision (a b : implication) : implication :=
  mkImp (i_term a) (Truth_Revision f64A (i_truth a) (i_truth b)) (stamp_make (i_stamp a) (i_stamp b))
    (weighted_average f64A (i_offset a) (i_offset b)
       (Truth_c2w f64A (confidence (i_truth a))) (Truth_c2w f64A (confidence (i_truth b))))
    (i_source a) (i_sourceId a) (Z.max (i_creation a) (i_creation b)).
(** Inference.c 99-112 *)
Definition GoalDeduction (component : event) (compound : implication) (now : Z) : res event :=
  do _ <- rassert (copulaEquals nm (at_ (i_term compound) 0) TEMPORAL_IMPLICATION
                   || copulaEquals nm (at_ (i_term compound) 0) IMPLICATION) ;
  Ok (mkEvent (GetPreconditionWithoutOp nm (Term_ExtractSubterm (i_term compound) 1)) EVENT_TYPE_GOAL
        (Truth_GoalDeduction f64A (e_truth component) (i_truth compound))
        (stamp_make (e_stamp component) (i_stamp compound)) now f0 false
        (Z.max (e_creation component) (i_creation compound)) false).
(** Inference.c 114-121 *)
Definition EventUpdate (e : event) (target : Z) : event :=
  mkEvent (e_term e) (e_type e) (Projection (e_truth e) (e_occ e) target) (e_stamp e) target
    (e_offset e) (e_processed e) (e_creation e) (e_input e).
(** Inference.c 123-134 *)
Definition GoalSequenceDeduction (compound component : event) (now : Z) : event :=
  mkEvent (e_term compound) EVENT_TYPE_GOAL
    (Truth_GoalDeduction f64A (e_truth (EventUpdate compound now)) (e_truth (EventUpdate component now)))
    (stamp_make (e_stamp component) (e_stamp compound)) now f0 false
    (Z.max (e_creation component) (e_creation compound)) false.
(** Inference.c 136-179: the result and the [*revised] flag *)
Definition RevisionAndChoice (existing incoming : event) : res (event * bool) :=
  if e_type existing =? EVENT_TYPE_DELETED then Ok (incoming, false)
  else
    let later := if e_occ incoming <? e_occ existing then e_occ existing else e_occ incoming in
    let ex := EventUpdate existing later in
    let inc := EventUpdate incoming later in
    let overlap := stamp_check_overlap (e_stamp incoming) (e_stamp existing) in
    let isDepVarConj :=
      (copulaEquals nm (at_ (e_term incoming) 0) CONJUNCTION || copulaEquals nm (at_ (e_term incoming) 0) SEQUENCE)
      && hasVariable nm (e_term incoming) false true false in
    if overlap || isDepVarConj
       || (negb (e_occ existing =? OCCURRENCE_ETERNAL) && negb (e_occ existing =? e_occ incoming))
       || negb (term_eqb (e_term existing) (e_term incoming))
    then if fltb (confidence (e_truth ex)) (confidence (e_truth inc))
         then Ok (incoming, false) else Ok (existing, false)
    else
      let r := EventRevision ex inc in
      if fleb (confidence (e_truth ex)) (confidence (e_truth r)) then Ok (r, true)
      else Abort.
(** Inference.c 181-194; the conclusion's time is a double sum truncated to long *)
Definition BeliefDeduction (component : event) (compound : implication) : res event :=
  do _ <- rassert (copulaEquals nm (at_ (i_term compound) 0) TEMPORAL_IMPLICATION
                   || copulaEquals nm (at_ (i_term compound) 0) IMPLICATION) ;
  Ok (mkEvent (Term_ExtractSubterm (i_term compound) 2) EVENT_TYPE_BELIEF
        (Truth_Deduction f64A (i_truth compound) (e_truth component))
        (stamp_make (e_stamp component) (i_stamp compound))
        (if e_occ component =? OCCURRENCE_ETERNAL then OCCURRENCE_ETERNAL
         else long_of (fadd (double_of (e_occ component)) (i_offset compound)))
        f0 false (Z.max (e_creation component) (i_creation compound)) false).
End Inference.
