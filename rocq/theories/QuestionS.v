(** Specification vocabulary for C48: the stored answers to a question. *)
From Coq Require Import ZArith List Bool.
From Verif Require Import Base F64 TruthM StampM TermM NamesM EventM TableM VariableM MemoryM QuestionM.
Local Open Scope Z_scope.
Import ListNotations.
Section Spec.
Variable nm : names.
Variable av : Z -> option (f64 * name).
Variable simdist : f64.
Variable powdecay : Z -> f64.
Variable now : Z.
(** the statement [t] is an instance of the question [q] (what this means is C38 and C39) *)
Definition answers (q t : term) : bool :=
  match Unify2 nm av simdist truth0 q t true with Ok s => s_success s | _ => false end.
(** there is an event in this slot *)
Definition present (e : event) : bool := negb (e_type e =? EVENT_TYPE_DELETED).
Definition link_answer (i : implication) : answer := mkAns (i_stamp i) (i_term i) (i_truth i) OCCURRENCE_ETERNAL (i_creation i).
(** the belief of a concept, if it answers [q] *)
Definition stored_belief (q : term) (k : concept) : list answer :=
  if answers q (c_term k) && present (c_belief k) then [event_answer (c_belief k)] else [].
(** the entries of a list of tables that answer [q] *)
Definition stored_in (q : term) (ts : list table) : list answer :=
  flat_map (fun t => map link_answer (filter (fun i => answers q (i_term i)) (firstn (t_items t) (t_array t)))) ts.
(** for a question <a =/> b>: the entries of the given tables of the concept of b *)
Definition stored_rule (ops : nat) (q : term) (k : concept) : list answer :=
  if answers (Term_ExtractSubterm q 2) (c_term k) then stored_in q (firstn ops (c_pre k)) else [].
(** for a question <a ==> b>: the implication links of the concept of b, and its belief if b
    itself answers the question *)
Definition stored_implication (q : term) (k : concept) : list answer :=
  if answers (Term_ExtractSubterm q 2) (c_term k) then stored_in q [c_links k] ++ stored_belief q k else [].
(** for a question about the present (1), the past (2) or the future (3) *)
Definition stored_events (tense : Z) (q : term) (k : concept) : list answer :=
  if answers q (c_term k) then
    (if present (c_spike k) && ((tense =? 1) || (tense =? 2)) then [event_answer (c_spike k)] else []) ++
    (if present (c_predicted k) && ((tense =? 1) || (tense =? 3)) then [event_answer (c_predicted k)] else [])
  else [].
(** expectation, and expectation when projected to the present time *)
Definition exp_of (a : answer) : f64 := Truth_Expectation f64A (a_truth a).
Definition pexp_of (a : answer) : f64 := Truth_Expectation f64A (Truth_Projection f64A powdecay (a_truth a) (a_occ a) now).
(** the printed line is the newest of the answers with the highest expectation, or "None" *)
Definition best_answer (stored : list answer) (out : option answer) : Prop :=
  match out with
  | None => stored = []
  | Some a => exists before after, stored = before ++ a :: after /\
      Forall (fun b => fleb (exp_of b) (exp_of a) = true) before /\ Forall (fun b => fltb (exp_of b) (exp_of a) = true) after
  end.
(** no other answer has a higher projected expectation, or the same and is later *)
Definition best_event (stored : list answer) (out : option answer) : Prop :=
  match out with
  | None => stored = []
  | Some a => In a stored /\ forall b, In b stored ->
      fltb (pexp_of b) (pexp_of a) = true \/ (feqb (pexp_of b) (pexp_of a) = true /\ a_occ b <= a_occ a)
  end.
End Spec.
