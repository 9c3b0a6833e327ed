(** Specification vocabulary: what the execution of a decision does (C70). *)
From Coq Require Import ZArith List Bool.
From Verif Require Import Base F64 TruthM StampM TermM NamesM AtomsM EventM InferenceM TableM VariableM MemoryM NalM QuestionM DecisionM CycleM LearnS.
Import ListNotations.
Local Open Scope Z_scope.
Section X.
Variable nm : names.
Variable av : Z -> option (f64 * name).
Variable simdist : f64.
Variable pd : Z -> f64.
Variable pen : nat -> f64.
Variable layers : nat.
Variable ca : f64.
Variable act : list exec -> exec -> feedback.
Variable fuel : nat.
Variable now : Z.
(** [e] is told to the memory with priority 1 *)
Definition tell_now (e : event) (m m' : memory) : Prop := AddEvent nm pd pen layers fuel m (EVal e) now f1 false false 0 = Ok m'.
(** the belief [t], of the present *)
Definition present_belief (t : term) (v : truth f64A) (st : stamp) : event := mkEvent t EVENT_TYPE_BELIEF v st now f0 false 0 false.
(** neither a =/> b nor b =/> a is believed *)
Definition unrelated_in_time (m : memory) (a b : term) : Prop :=
  exists v w, getTemporalLinkTruth m a b = Ok v /\ getTemporalLinkTruth m b a = Ok w /\
    fleb (Truth_Expectation f64A v) (fdec 5 10) = true /\ fleb (Truth_Expectation f64A w) (fdec 5 10) = true.
(** the generalisation of [e], of the kind [side], is told too, unless it is [seen] *)
Definition general_form (e : event) (side : Z) (seen t : term) : Prop :=
  IntroduceImplicationVariables2 nm (e_term e) true side = Ok (true, t) /\ hasVariable nm t true true false = true /\ seen <> t.
Definition general_told (e : event) (side : Z) (seen : term) (m m' : memory) (t : term) : Prop :=
  general_form e side seen t /\ tell_now (with_term e t) m m' \/
  (forall t', ~ general_form e side seen t') /\ t = zero_term /\ m' = m.
(** <a ==> b> and its two generalisations are told, unless it does not fit in a term or is a
    matter of time; [seen], [told]: the generalisations of the other direction and of this one *)
Definition implication_told (a b : term) (v : truth f64A) (st : stamp) (seen told : term * term) (m m' : memory) : Prop :=
  (exists t m1 m2, implication_of a b = (true, t) /\ unrelated_in_time m a b /\ tell_now (present_belief t v st) m m1 /\
     general_told (present_belief t v st) 2 (fst seen) m1 m2 (fst told) /\ general_told (present_belief t v st) 1 (snd seen) m2 m' (snd told)) \/
  (fst (implication_of a b) = false \/ ~ unrelated_in_time m a b) /\ told = (zero_term, zero_term) /\ m' = m.
(** common first or last parts of two sequences are dropped, at most [n] times *)
Inductive reduced : nat -> term -> term -> term -> term -> Prop :=
| reduced_deep a b : reduced 0 a b a b
| reduced_other n a b : copulaEquals nm (at_ a 0) SEQUENCE = false \/ copulaEquals nm (at_ b 0) SEQUENCE = false -> reduced n a b a b
| reduced_first n a b a' b' : copulaEquals nm (at_ a 0) SEQUENCE = true -> copulaEquals nm (at_ b 0) SEQUENCE = true ->
    Term_ExtractSubterm a 1 = Term_ExtractSubterm b 1 -> reduced n (Term_ExtractSubterm a 2) (Term_ExtractSubterm b 2) a' b' -> reduced (S n) a b a' b'
| reduced_last n a b a' b' : copulaEquals nm (at_ a 0) SEQUENCE = true -> copulaEquals nm (at_ b 0) SEQUENCE = true ->
    Term_ExtractSubterm a 1 <> Term_ExtractSubterm b 1 -> Term_ExtractSubterm a 2 = Term_ExtractSubterm b 2 ->
    reduced n (Term_ExtractSubterm a 1) (Term_ExtractSubterm b 1) a' b' -> reduced (S n) a b a' b'
| reduced_different n a b : Term_ExtractSubterm a 1 <> Term_ExtractSubterm b 1 -> Term_ExtractSubterm a 2 <> Term_ExtractSubterm b 2 -> reduced n a b a b.
(** the rules <(p1 &/ op) =/> c> and <(p2 &/ op) =/> c> differ in their conditions only, have
    separate evidence, and [p1'], [p2'] are the parts in which the conditions differ, of the same length *)
Definition alike (rule other : implication) (p1' p2' : term) : Prop :=
  let a1 := Term_ExtractSubterm (i_term rule) 1 in let a2 := Term_ExtractSubterm (i_term other) 1 in
  let p1 := GetPreconditionWithoutOp nm a1 in let p2 := GetPreconditionWithoutOp nm a2 in
  hasVariable nm (i_term other) true true false = false /\ p1 <> p2 /\ reduced 7 p1 p2 p1' p2' /\
  Term_ExtractSubterm (i_term rule) 2 = Term_ExtractSubterm (i_term other) 2 /\ Term_ExtractSubterm a1 2 = Term_ExtractSubterm a2 2 /\
  SequenceLength nm p1' = SequenceLength nm p2' /\ ~ (exists id, In id (ids (i_stamp rule)) /\ In id (ids (i_stamp other))).
(** what is learned from another rule *)
Definition generalised_from (rule other : implication) (m m' : memory) : Prop :=
  (exists p1 p2 m1 seen told, alike rule other p1 p2 /\
     implication_told p1 p2 (Truth_Induction f64A (i_truth rule) (i_truth other)) (stamp_make (i_stamp rule) (i_stamp other)) (zero_term, zero_term) seen m m1 /\
     implication_told p2 p1 (Truth_Abduction f64A (i_truth rule) (i_truth other)) (stamp_make (i_stamp rule) (i_stamp other)) seen told m1 m') \/
  (forall p1 p2, ~ alike rule other p1 p2) /\ m' = m.
(** ... from the rules for operation [opi] kept at the concept in slot [g], from the [j]-th on *)
Inductive generalised_from_all (rule : implication) (g opi : nat) : nat -> memory -> memory -> Prop :=
| all_rules j m k t : nth_error (m_store m) g = Some k -> nth_error (c_pre k) opi = Some t -> (t_items t <= j)%nat -> generalised_from_all rule g opi j m m
| full_rules j m : (20 <= j)%nat -> generalised_from_all rule g opi j m m
| next_rule j m k t m1 m' : nth_error (m_store m) g = Some k -> nth_error (c_pre k) opi = Some t -> (j < t_items t)%nat -> (j < 20)%nat ->
    generalised_from rule (slot t j) m m1 -> generalised_from_all rule g opi (j + 1) m1 m' -> generalised_from_all rule g opi j m m'.
(** the conditions under which the executed rule worked are compared with those of the others *)
Definition conditions_compared (d : decision) (m m' : memory) : Prop :=
  let rule := d_specific d in let c := Term_ExtractSubterm (i_term rule) 2 in
  if (at_ (i_term rule) 0 =? 0) || hasVariable nm (i_term rule) true true false then m' = m
  else exists g, FindConceptByTerm m c = Ok g /\ match g with None => m' = m | Some g => generalised_from_all rule g (d_table d) 0 m m' end.
(** negative evidence for the rule never seen to work in this case is added to the concept of its consequence *)
Definition failure_assumed (d : decision) (m m' : memory) : Prop :=
  if at_ (i_term (d_missing d)) 0 =? 0 then m' = m
  else exists m1 p, Conceptualize nm m (Term_ExtractSubterm (i_term (d_missing d)) 2) now = Ok (m1, p) /\
    match p with
    | None => m' = m1
    | Some p => exists r kr k t t', d_reason d = Some r /\ nth_error (m_store m1) r = Some kr /\ nth_error (m_store m1) p = Some k /\ nth_error (c_pre k) (d_opid d) = Some t /\
        AddNegativeConfirmation pd ca t (c_spike kr) (d_missing d) = Ok t' /\ m' = set_store m1 (upd (m_store m1) p (with_pre k (upd (c_pre k) (d_opid d) t')))
    end.
(** the procedure's answer: whether it is to be fed back, and with which replacements *)
Definition answer (op : operation) (args : term) (fb : feedback) (subs : substitution) : Prop :=
  fb_failed fb = false /\
  (op_stdout op = false /\ subs = mkSubst (fb_map fb) true truth0 \/
   op_stdout op = true /\ exists line, fb_stdin fb = SLine line /\ Unify nm av simdist (Term_ExtractSubterm args 2) line = Ok subs /\ s_success subs = true).
(** the operation is done, once; if the procedure answers, this is input as belief, and a cycle
    ([cyc]) is performed *)
Definition carried_out (cyc : cstate -> res cstate) (d : decision) (s s' : cstate) : Prop :=
  (d_opid d = 0%nat -> s' = s) /\
  (d_opid d <> 0%nat -> exists op, nth_error (m_ops (s_mem s)) (d_opid d - 1) = Some op /\
    match feedback_term (op_term op) (d_args d) with
    | None => s' = s
    | Some t => op_action op <> 0 /\ let x := mkX op (d_args d) in let s1 := set_trace s (x :: s_trace s) in
        (exists subs t' s2 m', answer op (d_args d) (act (s_trace s) x) subs /\ ApplySubstitute nm t subs = Ok (t', true) /\
           AddInput nm pd pen layers fuel cyc s1 t' EVENT_TYPE_BELIEF (@mkTruth f64A f1 (fdec 9 10)) false f0 = Ok s2 /\ failure_assumed d (s_mem s2) m' /\ s' = set_mem s2 m') \/
        (forall subs t', answer op (d_args d) (act (s_trace s) x) subs -> ApplySubstitute nm t subs <> Ok (t', true)) /\ s' = s1
    end).
End X.
