(** Vocabulary for sequences of events and the decomposition of sequence goals. *)
From Coq Require Import ZArith List Bool.
From Verif Require Import Base F64 TruthM TermM TermS NamesM EventM InferenceM VariableM InvIndexM MemoryM CycleM.
Import ListNotations.

(** the events of a sequence ((a &/ b) &/ c) in temporal order *)
Fixpoint events (nm : names) (tr : tree) : list tree :=
  match tr with
  | E => [E]
  | N a l r => if copulaEquals nm a SEQUENCE then events nm l ++ [r] else [tr]
  end.
(** their number when events that are sequences themselves count by their events *)
Fixpoint total_events (nm : names) (tr : tree) : nat :=
  match tr with
  | E => 1
  | N a l r => if copulaEquals nm a SEQUENCE then total_events nm l + total_events nm r else 1
  end.

Section Goals.
Variable nm : names.
Variable av : Z -> option (f64 * name).
Variable simdist : f64.
Variable powdecay : Z -> f64.
Variable condition : f64.
Local Open Scope Z_scope.

(** concept [c] occurs in a chain of the inverted atom index *)
Inductive in_chain (x : iidx) : option nat -> nat -> Prop :=
| ic_here p el c : el_deref x p = Ok el -> el_c el = Some c -> in_chain x (Some p) c
| ic_next p el c : el_deref x p = Ok el -> in_chain x (el_next el) c -> in_chain x (Some p) c.
(** the concepts looked at for a term: its own, and those sharing one of its first atoms *)
Definition own (m : memory) (t : term) (c : nat) : Prop := FindConceptByTerm m t = Ok (Some c).
Definition related (m : memory) (t : term) (c : nat) : Prop :=
  own m t c \/ exists i p, (i < UNIFICATION_DEPTH)%nat /\ GetConceptChain (m_index m) (at_ t i) = Ok p /\ in_chain (m_index m) p c.
(** the belief of [c] satisfies the event [comp] of a goal: it matches (with [subs]), is not earlier
    than [last], is expected strongly enough now ([ex]), and the substitution works for the [rest] *)
Inductive satisfies (m : memory) (now : Z) (comp : term) (rest : list term) (last : Z) (c : nat) (subs : substitution) (ex : f64) : Prop :=
| sat k : nth_error (m_store m) c = Some k -> hasVariable nm (c_term k) true true true = false ->
    Unify nm av simdist comp (c_term k) = Ok subs -> s_success subs = true ->
    e_type (c_spike k) <> EVENT_TYPE_DELETED -> last <= e_occ (c_spike k) ->
    ex = Truth_Expectation f64A (Truth_Projection f64A powdecay (e_truth (c_spike k)) (e_occ (c_spike k)) now) ->
    fltb ex condition = false -> fltb f0 ex = true ->
    Forall (fun t => exists t', ApplySubstitute nm t subs = Ok (t', true)) rest ->
    satisfies m now comp rest last c subs ex.
(** the belief used for [comp], if any: for an event with variables the strongest one among the
    related concepts; for an event without, that of its own concept if it satisfies the event *)
Definition used (m : memory) (now : Z) (comp : term) (rest : list term) (last : Z) (r : option (nat * substitution)) : Prop :=
  match r with
  | None =>
    if hasVariable nm comp true true true then forall c subs ex, related m comp c -> ~ satisfies m now comp rest last c subs ex
    else forall c subs ex, own m comp c -> ~ satisfies m now comp rest last c subs ex
  | Some (c, subs) =>
    exists ex, satisfies m now comp rest last c subs ex /\ related m comp c /\
    (if hasVariable nm comp true true true then forall c' subs' ex', related m comp c' -> satisfies m now comp rest last c' subs' ex' -> fltb ex ex' = false
     else forall c' subs' ex', own m comp c' -> satisfies m now comp rest last c' subs' ex' -> c' = c)
  end.
(** the subgoal derived from the goal [g] whose events [comps] are still to be looked at *)
Inductive subgoal (m : memory) (now : Z) : list term -> bool -> Z -> event -> option event -> Prop :=
| sg_first comp rest last g : used m now comp rest last None ->
    subgoal m now (comp :: rest) true last g (Some (with_truth (with_term g comp) (Truth_StructuralDeduction f64A (e_truth g) (e_truth g))))
| sg_here comp rest last g : used m now comp rest last None -> subgoal m now (comp :: rest) false last g (Some g)
| sg_all comp first last g c subs : used m now comp [] last (Some (c, subs)) -> subgoal m now [comp] first last g None
| sg_next comp rest first last g c subs k next rest' r : used m now comp rest last (Some (c, subs)) -> nth_error (m_store m) c = Some k ->
    Forall2 (fun t t' => ApplySubstitute nm t subs = Ok (t', true)) rest (next :: rest') ->
    subgoal m now (next :: rest') false (e_occ (c_spike k)) (with_term (GoalSequenceDeduction powdecay g (c_spike k) now) next) r ->
    subgoal m now (comp :: rest) first last g r.
(** memories that differ only in the marks of visited concepts *)
Definition same_but_marks (m m' : memory) : Prop :=
  exists st, m' = set_store m st /\ Forall2 (fun k k' => exists p, k' = with_pids k p) (m_store m) st.
End Goals.
