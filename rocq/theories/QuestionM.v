(** Model of question answering: /repo/src/NAR.c 123-281, the branch punctuation == '?' of
    [NAR_AddInputNarsese2] (the term is already parsed).  Printing is modelled as output: the list
    of answers printed, in order.  The concepts are visited in queue order. *)
From Coq Require Import ZArith List Bool.
From Verif Require Import Base F64 TruthM StampM TermM NamesM EventM TableM UsageM VariableM MemoryM.
From Verif Require PQueueM.
Local Open Scope Z_scope.
Import ListNotations.

(** the arguments of one call of NAR_PrintAnswer *)
Record answer := mkAns { a_stamp : stamp; a_term : term; a_truth : truth f64A; a_occ : Z; a_creation : Z }.
(** NAR.c 98-120 [NAR_PrintAnswer]: confidence 1.1 prints "None." ([None]) *)
Definition f11 : f64 := @aconst f64A 11 10.
Definition printed (a : answer) : option answer := if feqb (confidence (a_truth a)) f11 then None else Some a.

(** the locals of NAR.c 141-147; [q_out] the answers printed so far, newest first *)
Record qstate := mkQ { q_best : answer; q_proj : truth f64A; q_concept : option nat; q_out : list (option answer) }.
(** NAR.c 141-147 *)
Definition qstate0 : qstate :=
  mkQ (mkAns stamp_zero zero_term (@mkTruth f64A f0 f11) OCCURRENCE_ETERNAL 0) (@mkTruth f64A f0 f1) None [].

Section Question.
Variable nm : names.
(** measured values of atoms and SIMILARITY_DISTANCE, unused by these calls *)
Variable av : Z -> option (f64 * name).
Variable simdist : f64.
Variable powdecay : Z -> f64.
(** currentTime, queryCommand, answerTruthExpThreshold, QUESTION_PRIMING *)
Variable now : Z.
Variable query : bool.
Variable threshold : f64.
Variable priming : f64.

(** Variable_Unify2(unused, general, specific, true).success *)
Definition unifies (general specific : term) : res bool :=
  do s <- Unify2 nm av simdist truth0 general specific true ; Ok (s_success s).
Notation expectation v := (Truth_Expectation f64A v).
(** the query part: print if above the threshold *)
Definition print_if (s : qstate) (e : f64) (a : answer) : qstate :=
  if query && fltb threshold e then mkQ (q_best s) (q_proj s) (q_concept s) (printed a :: q_out s) else s.
(** NAR.c 166-183, 195-207 *)
Definition try_implication (term : term) (s : qstate) (imp : implication) : res qstate :=
  do u <- unifies term (i_term imp) ;
  if negb u then Ok s else
  let a := mkAns (i_stamp imp) (i_term imp) (i_truth imp) (a_occ (q_best s)) (i_creation imp) in
  let s := print_if s (expectation (i_truth imp)) a in
  Ok (if fleb (expectation (a_truth (q_best s))) (expectation (i_truth imp)) then mkQ a (q_proj s) (q_concept s) (q_out s) else s).
Fixpoint try_implications (term : term) (s : qstate) (l : list implication) : res qstate :=
  match l with [] => Ok s | imp :: l => do s <- try_implication term s imp ; try_implications term s l end.
(** the used part of a table *)
Definition items (t : table) : list implication := firstn (t_items t) (t_array t).
Fixpoint try_tables (term : term) (s : qstate) (l : list table) : res qstate :=
  match l with [] => Ok s | t :: l => do s <- try_implications term s (items t) ; try_tables term s l end.
Definition event_answer (e : event) : answer := mkAns (e_stamp e) (e_term e) (e_truth e) (e_occ e) (e_creation e).
(** NAR.c 213-233 *)
Definition try_spike (s : qstate) (c : nat) (e : event) (tense : Z) : qstate :=
  if negb (e_type e =? EVENT_TYPE_DELETED) && ((tense =? 1) || (tense =? 2)) then
    let p := Truth_Projection f64A powdecay (e_truth e) (e_occ e) now in
    let s := print_if s (expectation p) (event_answer e) in
    if fltb (expectation (q_proj s)) (expectation p)
       || (fltb (expectation (a_truth (q_best s))) (expectation (e_truth e)) && (e_occ e =? a_occ (q_best s)))
       || (feqb (expectation p) (expectation (q_proj s)) && (a_occ (q_best s) <? e_occ e))
    then mkQ (event_answer e) p (Some c) (q_out s) else s
  else s.
(** NAR.c 234-253 *)
Definition try_predicted (s : qstate) (c : nat) (e : event) (tense : Z) : qstate :=
  if negb (e_type e =? EVENT_TYPE_DELETED) && ((tense =? 1) || (tense =? 3)) then
    let p := Truth_Projection f64A powdecay (e_truth e) (e_occ e) now in
    let s := print_if s (expectation p) (event_answer e) in
    if fltb (expectation (q_proj s)) (expectation p)
       || (feqb (expectation p) (expectation (q_proj s)) && (a_occ (q_best s) <? e_occ e))
    then mkQ (event_answer e) p (Some c) (q_out s) else s
  else s.
(** NAR.c 257-269; the printed answer has the belief's own occurrence time, the best answer keeps
    OCCURRENCE_ETERNAL *)
Definition try_belief (s : qstate) (c : nat) (e : event) : qstate :=
  if e_type e =? EVENT_TYPE_DELETED then s else
  let s := print_if s (expectation (e_truth e)) (event_answer e) in
  if fleb (expectation (a_truth (q_best s))) (expectation (e_truth e))
  then mkQ (mkAns (e_stamp e) (e_term e) (e_truth e) (a_occ (q_best s)) (e_creation e)) (q_proj s) (Some c) (q_out s) else s.
(** NAR.c 153-271: the loop body for the concept in slot [c] *)
Definition question_concept (term : term) (tense : Z) (s : qstate) (c : nat) (k : concept) : res qstate :=
  let isImplication := copulaEquals nm (at_ term 0) TEMPORAL_IMPLICATION in
  let toCompare := if isImplication then Term_ExtractSubterm term 2 else term in
  do r <- (if copulaEquals nm (at_ term 0) IMPLICATION then
             do u <- unifies (Term_ExtractSubterm term 2) (c_term k) ;
             if negb u then Ok (s, false) else do s <- try_implications term s (items (c_links k)) ; Ok (s, true)
           else Ok (s, true)) ;
  let '(s, go) := r in
  if negb go then Ok s else
  do u <- unifies toCompare (c_term k) ;
  if negb u then Ok s else
  if isImplication then try_tables term s (firstn OPERATIONS_MAX (c_pre k))
  else Ok (if negb (tense =? 0) then try_predicted (try_spike s c (c_spike k) tense) c (c_predicted k) tense
           else try_belief s c (c_belief k)).
Fixpoint question_loop (term : term) (tense : Z) (s : qstate) (l : list (nat * concept)) : res qstate :=
  match l with
  | [] => Ok s
  | (c, k) :: l => do s <- question_concept term tense s c k ; question_loop term tense s l
  end.
(** NAR.c 273-277 *)
Definition prime (tense : Z) (k : concept) : concept :=
  with_usage (with_priority k (fmax (c_priority k) priming)) (Usage_use (c_usage k) now (tense =? 0)).
(** the concepts in queue order (Memory.c concepts.items) *)
Definition visited (m : memory) : list (nat * concept) :=
  map (fun it => (PQueueM.address it, nth (PQueueM.address it) (m_store m) concept0)) (PQueueM.contents (m_concepts m)).
(** NAR.c 138-281: new memory and the printed answers in order *)
Definition Question (m : memory) (term : term) (tense : Z) : res (memory * list (option answer)) :=
  do s <- question_loop term tense qstate0 (visited m) ;
  do m <- (match q_concept s with
           | Some c => if fltb f0 priming then cmod m c (prime tense) else Ok m
           | None => Ok m
           end) ;
  Ok (m, rev (if query then q_out s else printed (q_best s) :: q_out s)).
End Question.
