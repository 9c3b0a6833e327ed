(** Specification vocabulary: subgoals derived from a goal and what was learned (C67). *)
From Coq Require Import ZArith List Bool.
From Verif Require Import Base F64 TruthM StampM TermM NamesM EventM InferenceM VariableM TableM TableS MemoryM QuestionM DecisionM CycleM SeqS.
Import ListNotations.
Local Open Scope Z_scope.
(** the link is current: the concept it starts from has not been forgotten *)
Definition current (m : memory) (i : implication) : Prop :=
  exists c k, i_source i = Some c /\ nth_error (m_store m) c = Some k /\ c_id k = i_sourceId i.
(** the links of a concept under operation number [opi] (0: under none), or (None) the <.. ==> ..> ones *)
Definition table_of (k : concept) (opi : option nat) : option table :=
  match opi with Some i => nth_error (c_pre k) i | None => Some (c_links k) end.
Definition with_table (k : concept) (opi : option nat) (t : table) : concept :=
  match opi with Some i => with_pre k (upd (c_pre k) i t) | None => with_links k t end.
(** the j-th link is removed *)
Definition link_removed (c : nat) (opi : option nat) (j : nat) (m m' : memory) : Prop :=
  exists k tb tb', nth_error (m_store m) c = Some k /\ table_of k opi = Some tb /\
    entries tb' = firstn j (entries tb) ++ skipn (S j) (entries tb) /\ m' = set_store m (upd (m_store m) c (with_table k opi tb')).
Section G.
Variable nm : names.
Variable av : Z -> option (f64 * name).
Variable simdist : f64.
Variable pd : Z -> f64.
Variable pen : nat -> f64.
Variables layers fuel : nat.
Variable now : Z.
(** priority of the goal and layer of its queue *)
Variable prio : f64.
Variable layer : nat.
(** what the link leads to matches the goal; [t] is the link for this case (C38) *)
Definition applies (goal : event) (i : implication) (t : term) : Prop :=
  exists subs, Unify nm av simdist (Term_ExtractSubterm (i_term i) 2) (e_term goal) = Ok subs /\ s_success subs = true /\ ApplySubstitute nm (i_term i) subs = Ok (t, true).
(** the subgoal: the condition of [t] (without its operations), wanted now as much as the goal is
    and the link says, on the evidence of both *)
Definition means_for (goal : event) (i : implication) (t : term) : event :=
  mkEvent (GetPreconditionWithoutOp nm (Term_ExtractSubterm t 1)) EVENT_TYPE_GOAL
    (Truth_Projection f64A pd (Truth_GoalDeduction f64A (e_truth goal) (i_truth i)) now now)
    (stamp_make (e_stamp goal) (i_stamp i)) now f0 false (Z.max (e_creation goal) (i_creation i)) false.
(** the link is used for the goal: the subgoal is told to the memory if the link applies *)
Definition link_used (goal : event) (i : implication) (m m' : memory) : Prop :=
  (exists t, applies goal i t /\ let g := means_for goal i t in
     AddEvent nm pd pen layers fuel m (EVal g) now (fmul prio (Truth_Expectation f64A (e_truth g))) false false layer = Ok m') \/
  (forall t, ~ applies goal i t) /\ m' = m.
(** all links [l] of the table, of which [j] were kept before, are used in order; outdated ones are removed *)
Inductive links_used (c : nat) (opi : option nat) (goal : event) : nat -> list implication -> memory -> memory -> Prop :=
| lu_nil j m : links_used c opi goal j [] m m
| lu_outdated j i l m m1 m' : ~ current m i -> link_removed c opi j m m1 -> links_used c opi goal j l m1 m' -> links_used c opi goal j (i :: l) m m'
| lu_used j i l m m1 m' : current m i -> link_used goal i m m1 -> links_used c opi goal (S j) l m1 m' -> links_used c opi goal j (i :: l) m m'.
(** one table after the other *)
Inductive tables_used (c : nat) (goal : event) : list (option nat) -> memory -> memory -> Prop :=
| tu_nil m : tables_used c goal [] m m
| tu_cons opi l m m1 m' k tb : nth_error (m_store m) c = Some k -> table_of k opi = Some tb -> links_used c opi goal 0 (entries tb) m m1 ->
    tables_used c goal l m1 m' -> tables_used c goal (opi :: l) m m'.
(** The goal at the concept in slot [c]: if the concept matches, the goal is combined with the one the
    concept has (C33), and all its links are used for the result. *)
Definition matches (goal : event) (k : concept) : Prop := exists subs, Unify nm av simdist (c_term k) (e_term goal) = Ok subs /\ s_success subs = true.
Definition wanted_at (goal : event) (c : nat) (m m' : memory) : Prop :=
  exists k, nth_error (m_store m) c = Some k /\
    (~ matches goal k /\ m' = m \/
     matches goal k /\ exists g merged, RevisionAndChoice nm pd (c_goal k) goal = Ok (g, merged) /\
       tables_used c g (map Some (seq 0 11) ++ [None]) (set_store m (upd (m_store m) c (with_goal k g))) m').
(** at one concept after the other, marking them *)
Inductive wanted_at_all (goal : event) : list nat -> memory -> memory -> Prop :=
| wa_nil m : wanted_at_all goal [] m m
| wa_cons c l m m1 m2 m' : same_but_marks m m1 -> wanted_at goal c m1 m2 -> wanted_at_all goal l m2 m' -> wanted_at_all goal (c :: l) m m'.
End G.
(** *** the goal phase of a cycle *)
Section P.
Variable nm : names.
Variable av : Z -> option (f64 * name).
Variable simdist : f64.
Variable pd : Z -> f64.
Variable pen : nat -> f64.
Variable layers : nat.
Variables threshold condition ca chance : f64.
Variable babbling_ops : Z.
Variable act : list exec -> exec -> feedback.
Variable fuel : nat.
Variable cyc : cstate -> res cstate.
Variable now : Z.
(** what is to be done for the goal: nothing if it is a sequence (C57), else what C46 and C47 say *)
Definition considered (s : cstate) (goal : event) (prio : f64) (layer : nat) (s1 : cstate) (best : decision) : Prop :=
  exists s0 is_sequence, GoalSequenceDecomposition nm av simdist pd pen layers condition fuel s goal prio layer = Ok (s0, is_sequence) /\
    if is_sequence : bool then s1 = s0 /\ best = decision0
    else exists d, ProcessSensorimotorEvent nm av simdist pd threshold chance babbling_ops fuel s0 goal now = Ok (s1, d) /\ best = BetterDecision decision0 d.
(** the selected goal, if any, is pursued: it is executed, or subgoals are derived at all related concepts *)
Definition pursued (layer : nat) (s s' : cstate) : Prop :=
  match s_selG s with
  | None => s' = s
  | Some (goal, p) => exists s1 best, considered s goal (proj1_sig p) layer s1 best /\
      (d_execute best = true ->
         if Nat.eqb (d_opid best) 0 then s' = s1
         else Decision_Execute nm av simdist pd pen layers ca act fuel cyc (set_selG (set_mem s1 (ResetGoals (s_mem s1))) None) now best = Ok s') /\
      (d_execute best = false -> exists l, NoDup l /\ (forall c, In c l <-> related (s_mem s1) (e_term goal) c) /\
         wanted_at_all nm av simdist pd pen layers fuel now (proj1_sig p) layer goal l (s_mem s1) (s_mem s') /\ s' = set_mem (next_pid s1) (s_mem s'))
  end.
(** one layer of goals after the other *)
Inductive goal_phase : list nat -> cstate -> cstate -> Prop :=
| gp_nil s : goal_phase [] s s
| gp_cons layer l s s1 s2 s' : PopGoal s layer = Ok s1 -> pursued layer s1 s2 -> goal_phase l s2 s' -> goal_phase (layer :: l) s s'.
End P.
