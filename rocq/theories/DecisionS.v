(** Specification vocabulary for the decision properties C46, C47, C55. *)
From Coq Require Import ZArith List Bool.
From Verif Require Import Base F64 TruthM StampM TermM TermS NamesM EventM TableM VariableM MemoryM QuestionM.
Local Open Scope Z_scope.
Import ListNotations.

(** operation number [i] (1, 2, ...) is [o], and it and all operations before it have a name *)
Definition usable (ops : list operation) (i : nat) (o : operation) : Prop :=
  (1 <= i)%nat /\ nth_error ops (i - 1) = Some o /\
  forall j p, (j < i)%nat -> nth_error ops j = Some p -> at_ (op_term p) 0 <> 0.
(** [a] is one of the configured arguments of [o], which are listed without gaps *)
Definition configured (o : operation) (a : term) : Prop :=
  exists k, nth_error (op_args o) k = Some a /\ forall j b, (j <= k)%nat -> nth_error (op_args o) j = Some b -> at_ b 0 <> 0.
(** the tree of the arguments ({SELF} * a) of an operation *)
Definition self_and (a : tree) : tree :=
  N (copula_index PRODUCT) (N (copula_index EXT_SET) (N SELF E E) (N (copula_index SET_TERMINATOR) E E)) a.

(** *** C46 *)
From Verif Require Import InferenceM DecisionM.
Section Candidates.
Variable nm : names.
Variable av : Z -> option (f64 * name).
Variable simdist : f64.
Variable powdecay : Z -> f64.
(** an event is in this slot *)
Definition present (e : event) : bool := negb (e_type e =? EVENT_TYPE_DELETED).
(** table number [i] of concept [k] holds [x] *)
Definition holds (k : concept) (i : nat) (x : implication) : Prop :=
  exists t, nth_error (c_pre k) i = Some t /\ In x (firstn (t_items t) (t_array t)).
(** the condition of a rule <(condition &/ ^op) =/> goal>: its subject without the operation *)
Definition condition_of (rule : term) : term := GetPreconditionWithoutOp nm (Term_ExtractSubterm rule 1).
(** how well the current event of concept [cm] fits the condition [t]: the substitution, with the
    event's truth discounted by the distance of the measured values *)
Definition fits_event (t : term) (cm : concept) (s : substitution) : Prop :=
  UnifyWithAnalogy nm av simdist (e_truth (c_spike cm)) t (c_term cm) = Ok s /\ s_success s = true.
(** the rule [t] of operation [opi] is already known to fail *)
Definition known_to_fail (m : memory) (opi : nat) (t : term) : Prop :=
  exists r k i, FindConceptByTerm m (Term_ExtractSubterm t 2) = Ok (Some r) /\ nth_error (m_store m) r = Some k /\ holds k opi i /\ i_term i = t /\
    fltb SUBSUMPTION_CONFIDENCE (confidence (i_truth i)) = true /\ fltb (frequency (i_truth i)) SUBSUMPTION_FREQUENCY = true.
(** The options considered for the goal of concept [gc], whose term unifies with the goal by
    [subs]: a rule [used] of a usable operation [opi], made specific to the goal ([impt]) and to
    the current event of a concept [cm] without variables ([t]), such that no other rule of this
    concept fits that event better.  [d] is the evaluation of the specific rule. *)
Record option_for (m : memory) (now : Z) (goal : event) (gc : concept) (subs : substitution)
    (opi : nat) (used : implication) (c : nat) (cm : concept) (specific : implication) (d : decision) : Prop := mkOption {
  opt_op : exists o, usable (m_ops m) opi o;
  opt_rule : holds gc opi used;
  opt_event : In (c, cm) (visited m) /\ hasVariable nm (c_term cm) true true true = false /\ present (c_spike cm) = true;
  opt_specific : exists impt s2, ApplySubstitute nm (i_term used) subs = Ok (impt, true) /\ fits_event (condition_of impt) cm s2 /\
    ApplySubstitute nm impt s2 = Ok (i_term specific, true) /\
    (feqb (confidence (s_truth s2)) (confidence (e_truth (c_spike cm))) = true \/
     forall opk o x s3, usable (m_ops m) opk o -> holds gc opk x -> fits_event (condition_of (i_term x)) cm s3 ->
       fltb (confidence (s_truth s2)) (confidence (s_truth s3)) = false) /\
    ConsiderImplication nm powdecay m now goal specific (s_truth s2) = Ok d;
  opt_ground : hasVariable nm (c_term gc) true true true = true -> hasVariable nm (e_term goal) true true true = true ->
    hasVariable nm (i_term specific) true false false = false;
  opt_copy : specific = mkImp (i_term specific) (i_truth used) (i_stamp used) (i_offset used) (Some c) (c_id cm) (i_creation used);
  opt_not_failing : hasVariable nm (i_term used) true true true = true -> ~ known_to_fail m opi (i_term specific) }.
(** all rules of the goal concept refer to concepts that still exist *)
Definition links_valid (m : memory) (gc : concept) : Prop :=
  forall opi x, holds gc opi x -> exists c k, i_source x = Some c /\ nth_error (m_store m) c = Some k /\ i_sourceId x = c_id k.
(** the desire for the operation: the goal and the rule give a goal to do the operation in that
    context, which with the event of truth [ctx] at time [t] gives a goal to do it now *)
Definition desire_value (goal rule ctx : truth f64A) (t now : Z) : f64 :=
  Truth_Expectation f64A (Truth_GoalDeduction f64A
    (Truth_Projection f64A powdecay (Truth_GoalDeduction f64A goal rule) now now) (Truth_Projection f64A powdecay ctx t now)).
End Candidates.
