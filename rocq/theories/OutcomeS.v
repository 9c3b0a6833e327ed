(** Specification vocabulary: the side effects an operation is checked for before it is chosen (C46). *)
From Coq Require Import ZArith List Bool.
From Verif Require Import Base F64 TruthM TermM NamesM EventM InferenceM TableM TableS MemoryM QuestionM DecisionM DecisionS.
Local Open Scope Z_scope.
Import ListNotations.
Section Outcomes.
Variable nm : names.
Variable powdecay : Z -> f64.
Definition younger (now : Z) (e : event) : bool := present e && (now - e_occ e <? 20).
(** the operations of the subject of a rule, as one sequence *)
Definition operations_of (rule : term) : term := snd (OperationSequenceAppendLeftNested nm zero_term (Term_ExtractSubterm rule 1)).
(** the rules of operation number [id] that matter: towards a recent goal, with a recent event of their
    condition, with the same operations *)
Definition source_event (m : memory) (i : implication) : event :=
  match i_source i with Some s => match nth_error (m_store m) s with Some k => c_spike k | None => event0 end | None => event0 end.
Definition side_effects (m : memory) (now : Z) (id : nat) (ops : term) : list (event * implication * event) :=
  flat_map (fun '(_, k) => if younger now (c_goal k) then
      map (fun i => (c_goal k, i, source_event m i))
        (filter (fun i => younger now (source_event m i) && term_eqb ops (operations_of (i_term i))) (entries (nth id (c_pre k) table0)))
    else []) (visited m).
(** the goals to do the operation that result, combined one after the other *)
Inductive combined (now : Z) : event -> list (event * implication * event) -> event -> Prop :=
| cb_nil acc : combined now acc [] acc
| cb_cons acc goal i ctx l todo acc' merged out : GoalDeduction nm goal i now = Ok todo ->
    RevisionAndChoice nm powdecay acc (GoalSequenceDeduction powdecay todo ctx now) = Ok (acc', merged) ->
    combined now acc' l out -> combined now acc ((goal, i, ctx) :: l) out.
(** the subject of the rule calls no operation, or it calls the operation with this number *)
Definition has_op (subject : term) : bool := copulaEquals nm (at_ subject 0) SEQUENCE && isOperation nm (Term_ExtractSubterm subject 2).
Definition calls (m : memory) (subject : term) (id : nat) : Prop :=
  has_op subject = false /\ id = O \/ has_op subject = true /\ id = getOperationID nm m (Term_ExtractSubterm subject 2).
(** it is an operation of another agent: <({other} * ..) --> ^op> *)
Definition foreign (subject : term) : Prop :=
  has_op subject = true /\ let op := Term_ExtractSubterm subject 2 in isOperator nm (at_ op 0) = false /\ at_ (Term_ExtractSubterm op 1) 3 <> SELF.
End Outcomes.
