(** Specification vocabulary: what is learned from two events, one after the other (C66). *)
From Coq Require Import ZArith List Bool.
From Verif Require Import Base F64 TruthM StampM TermM TermS NamesM EventM InferenceM TableM VariableM MemoryM MemoryS NalM NalS AddS.
Local Open Scope Z_scope.
(** the concept of [t] is in memory *)
Definition known_concept (m : memory) (t : term) : Prop := exists c k, stores m c k /\ c_term k = t.
(** The events may be connected by <a =/> b>: both are beliefs, the concepts of a (without its
    operations) and of b are in memory and different, and no evidence is shared. *)
Definition connectable (nm : names) (m : memory) (a b : event) : Prop :=
  e_type a = EVENT_TYPE_BELIEF /\ e_type b = EVENT_TYPE_BELIEF /\
  known_concept m (GetPreconditionWithoutOp nm (e_term a)) /\ known_concept m (e_term b) /\ GetPreconditionWithoutOp nm (e_term a) <> e_term b /\
  ~ (exists id, In id (ids (e_stamp a)) /\ In id (ids (e_stamp b))).
(** the truth of <a =/> b>: induction from b and from a, discounted by the time in between *)
Definition connection_truth (pd : Z -> f64) (a b : event) : truth f64A :=
  Truth_Induction f64A (e_truth b) (Truth_Projection f64A pd (e_truth a) (e_occ a) (e_occ b)).
(** the belief of statement [t] gained at [time] from the events *)
Definition connection (pd : Z -> f64) (time : Z) (a b : event) (t : term) : event :=
  mkEvent t EVENT_TYPE_BELIEF (connection_truth pd a b) (stamp_make (e_stamp a) (e_stamp b)) time (double_of (e_occ b - e_occ a)) false time false.
(** [t] is <a =/> b> *)
Definition temporal_implication (t a b : term) : Prop :=
  closed t /\ at_ t 0 = copula_index TEMPORAL_IMPLICATION /\ Term_ExtractSubterm t 1 = a /\ Term_ExtractSubterm t 2 = b.
(** [t'] generalises [t] (C41) by variables in the place of subjects ([ext]) or of predicates, in a
    way that makes sense *)
Definition generalisation (nm : names) (t t' : term) (ext : bool) : Prop :=
  IntroduceImplicationVariables nm t ext = Ok (true, t') /\ t' <> t /\ HOLStatementComponentHasInvalidInhOrSim nm t' = false /\
  DeclarativeImplicationWithoutIndependentVar nm t' = false.
(** the generalisation is told to the memory, if there is one and it is not implausible *)
Definition generalised (nm : names) (t : term) (ext : bool) (tell : term -> memory -> memory -> Prop) (m m' : memory) : Prop :=
  (exists t', generalisation nm t t' ext /\ ~ implausible nm t' /\ tell t' m m') \/
  (forall t', generalisation nm t t' ext -> implausible nm t') /\ m' = m.

(** *** what is connected *)
From Coq Require Import Relation_Operators.
From Verif Require Import QuestionM DecisionM CycleM SeqS.
Definition no_shared_evidence (a b : event) : Prop := ~ (exists id, In id (ids (e_stamp a)) /\ In id (ids (e_stamp b))).
(** the latest event of concept [k] is near [post] in time, and so is the last selection of [k] *)
Definition near (k : concept) (post : event) : Prop :=
  there (c_spike k) /\ Z.abs (e_occ (c_spike k) - e_occ post) < 20 /\ Z.abs (c_lastsel k - e_occ post) < 20.
Definition higher_order_event (nm : names) (e : event) : Prop := copula nm (e_term e) 0 EQUIVALENCE \/ copula nm (e_term e) 0 IMPLICATION.
(** the concept [o] of a registered operation: it was done shortly before [post], and this was
    known before [now] *)
Definition operation_before (nm : names) (m : memory) (now : Z) (post : event) (o : concept) : Prop :=
  getOperationID nm m (c_term o) <> 0%nat /\ near o post /\ e_creation (c_spike o) < now /\ e_occ (c_spike o) < e_occ post.
(** the latest event of concept [p] is something that was the case when the operation was done *)
Definition condition_before (nm : names) (m : memory) (now : Z) (post : event) (o p : concept) : Prop :=
  getOperationID nm m (c_term p) = 0%nat /\ near p post /\ e_creation (c_spike p) < now /\ e_occ (c_spike p) < e_occ (c_spike o) /\
  ~ higher_order_event nm (c_spike p) /\ no_shared_evidence (c_spike p) post.
Section Steps.
Variable nm : names.
Variable pd : Z -> f64.
Variable pen : nat -> f64.
Variables layers fuel : nat.
(** (x &/ y) as event: at the time of y, with the evidence of both *)
Definition happened (x y : event) (t : term) : event :=
  mkEvent t EVENT_TYPE_BELIEF (Truth_Intersection f64A (Truth_Projection f64A pd (e_truth x) (e_occ x) (e_occ y)) (e_truth y))
    (stamp_make (e_stamp x) (e_stamp y)) (e_occ y) f0 false (Z.max (e_creation x) (e_creation y)) false.
(** one link is learned: from what was the case (event of [p]) and the operation of id [oid] to [post] *)
Definition learns_rule (time now : Z) (post : event) (oid : Z) (m m' : memory) : Prop :=
  exists o ko p kp t, nth_error (m_store m) o = Some ko /\ c_id ko = oid /\ nth_error (m_store m) p = Some kp /\
    condition_before nm m now post ko kp /\ OperationSequenceAppendLeftNested nm (e_term (c_spike kp)) (e_term (c_spike ko)) = (true, t) /\
    let x := happened (c_spike kp) (c_spike ko) t in
    fltb (confidence (e_truth x)) (fdec 1 100) = false /\ ReinforceLink nm pd pen layers fuel m time x post = Ok m'.
Definition marks_or (R : memory -> memory -> Prop) (m m' : memory) : Prop := same_but_marks m m' \/ R m m'.
(** the links learned for one operation *)
Definition learns_for_operation (time now : Z) (post : event) (m m' : memory) : Prop :=
  exists o ko, nth_error (m_store m) o = Some ko /\ operation_before nm m now post ko /\
    clos_refl_trans _ (marks_or (learns_rule time now post (c_id ko))) m m'.
End Steps.
(** the latest event of concept [k] was there when [post] came *)
Definition event_before (nm : names) (now : Z) (post : event) (k : concept) : Prop :=
  there (c_spike k) /\ e_creation (c_spike k) <= now /\ e_occ post - 20 <= e_occ (c_spike k) <= e_occ post /\ Z.abs (c_lastsel k - e_occ post) <= 20 /\
  ~ higher_order_event nm (c_spike k) /\ no_shared_evidence (c_spike k) post.
