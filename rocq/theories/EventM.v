(** Model of /repo/src/Event.c, Event.h, Implication.h: events and implications.
    Truth values and time offsets are C doubles (binary64); times, ids are C longs (Z; counters
    do not reach 2^63).  Terms are atom arrays (no hash cache): Term_Equal is [term_eqb], exact
    by C14. *)
From Coq Require Import ZArith List Bool.
From Verif Require Import Base F64 TruthM StampM TermM.
Local Open Scope Z_scope.

(** Event.h 47-49 *)
Definition EVENT_TYPE_GOAL : Z := 1.
Definition EVENT_TYPE_BELIEF : Z := 2.
Definition EVENT_TYPE_DELETED : Z := 0.
(** Event.h 50-60 *)
Record event := mkEvent {
  e_term : term; e_type : Z; e_truth : truth f64A; e_stamp : stamp;
  e_occ : Z; e_offset : f64; e_processed : bool; e_creation : Z; e_input : bool }.
(** Implication.h 40-51; [i_source] is the pointer sourceConcept (None: NULL) *)
Record implication := mkImp {
  i_term : term; i_truth : truth f64A; i_stamp : stamp; i_offset : f64;
  i_source : option nat; i_sourceId : Z; i_creation : Z }.
(** [(Truth) {0}], [(Event) {0}], [(Implication) {0}] *)
Definition truth0 : truth f64A := @mkTruth f64A f0 f0.
Definition event0 : event := mkEvent zero_term EVENT_TYPE_DELETED truth0 stamp_zero 0 f0 false 0 false.
Definition imp0 : implication := mkImp zero_term truth0 stamp_zero f0 None 0 0.

(** Globals of Event.c 27-28: the next id and the stamp set by *stampimport. *)
Record idstate := mkIds { g_base : Z; g_import : stamp }.
(** Event.c 49-52 [Event_INIT]: resets [base] only. *)
Definition Event_INIT (g : idstate) : idstate := mkIds 1 (g_import g).
(** Event.c 30-47 [Event_InputEvent] *)
Definition Event_InputEvent (g : idstate) (t : term) (ty : Z) (tv : truth f64A) (off : f64) (now : Z)
  : event * idstate :=
  let s := upd stamp_zero 0 (g_base g) in
  let '(s, g') :=
    if negb (nth 0 (g_import g) 0 =? 0)
    then (g_import g, mkIds (g_base g + 1 - 1) stamp_zero)
    else (s, mkIds (g_base g + 1) (g_import g)) in
  (mkEvent t ty tv s now off false now true, g').
(** Event.c 54-57 *)
Definition Event_Equal (a b : event) : bool :=
  Truth_Equal f64A (e_truth a) (e_truth b) && (e_occ a =? e_occ b) && term_eqb (e_term a) (e_term b)
  && stamp_equal (e_stamp a) (e_stamp b).
(** Event.c 59-68 *)
Definition Event_Eternalized (e : event) : event :=
  if e_occ e =? OCCURRENCE_ETERNAL then e
  else mkEvent (e_term e) (e_type e) (Truth_Eternalize f64A (e_truth e)) (e_stamp e)
         OCCURRENCE_ETERNAL (e_offset e) (e_processed e) (e_creation e) (e_input e).
(** Event.c 70-73 *)
Definition Event_EqualTermEqualStampLessConfidentThan (a b : event) : bool :=
  fleb (confidence (e_truth a)) (confidence (e_truth b)) && (e_occ a =? e_occ b)
  && term_eqb (e_term a) (e_term b) && stamp_equal (e_stamp a) (e_stamp b).
