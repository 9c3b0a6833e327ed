(** Sequences of events: their length (C56), and the decomposition of goals that are sequences (C57). *)
From Coq Require Import ZArith List Bool String Lia.
From Verif Require Import Base F64 TruthM StampM StampP TermM TermS TermP TermP2 NamesM AtomsM ParserM RulesM EventM InferenceM InferenceS VariableM MemoryM QuestionM DecisionM OpsM CycleM CycleS ShellM.
From Verif Require Import PropsEvent PropsMemory PropsQuestion PropsCycle PropsShell SeqS SeqP.
Import ListNotations.
Local Open Scope Z_scope.
Local Open Scope list_scope.

#[local] Opaque tree_at.
Section Statements.
Variable nm : names.
Variable av : Z -> option (f64 * name).
Variable simdist : f64.
Variable powdecay : Z -> f64.
Variable penalty : nat -> f64.
Variable layers : nat.
Variables threshold condition anticipation_threshold anticipation_confidence chance : f64.
Variable babbling_ops : Z.
Variable fuel : nat.
Notation Add m e now p layer := (AddEvent nm powdecay penalty layers fuel m (EVal e) now p false false layer).
Notation Decompose := (GoalSequenceDecomposition nm av simdist powdecay penalty layers condition fuel).
Notation Process := (ProcessSensorimotorEvent nm av simdist powdecay threshold chance babbling_ops fuel).
Notation Link := (ReinforceLink nm powdecay penalty layers fuel).
Notation Correlate := (correlate nm av simdist powdecay penalty layers threshold anticipation_threshold anticipation_confidence chance babbling_ops fuel).

(** C57: a goal that is not a sequence is left alone; the events of a sequence goal of up to 4
    events are looked at from the first to the last, and one subgoal is derived as [subgoal] says:
    for the first event no current belief satisfies, none if all are satisfied.  Partial: only for
    the marks [pid1] the memory has in running systems, and 5 events are refuted below. *)
Theorem C57_decomposition_partial : forall s goal prio layer s' b, closed (e_term goal) ->
  (forall k, In k (m_store (s_mem s)) -> pid1 k <= s_pid s) ->
  Decompose s goal prio layer = Ok (s', b) ->
  let evs := events nm (tree_at (e_term goal) 0) in
  if (Nat.leb 2 (List.length evs)) then
    b = true /\ (List.length evs <= 4)%nat /\ exists comps r m1,
      map (fun c => tree_at c 0) comps = evs /\ Forall closed comps /\
      subgoal nm av simdist powdecay condition (s_mem s) (s_time s) comps true (-1) (EventUpdate powdecay goal (s_time s)) r /\
      same_but_marks (s_mem s) m1 /\
      match r with
      | None => s_mem s' = m1
      | Some g => Add m1 g (s_time s) (fmul prio (Truth_Expectation f64A (e_truth g))) layer = Ok (s_mem s')
      end
  else b = false /\ s' = s.
Proof.
  intros s goal prio layer s' b C FR. unfold GoalSequenceDecomposition. destruct (copulaEquals nm (at_ (e_term goal) 0) SEQUENCE) eqn:SQ; cbn [negb].
  - pose proof (components_spec nm 7 (e_term goal) [] C (height_le_7 _ _) ltac:(cbn; lia)) as CS. cbv zeta in CS.
    destruct (seq_components nm 7 (e_term goal) []) as [comps| |]; cbn [rbind]; try discriminate. destruct CS as [L (l & -> & F & M)]. cbn [app List.length] in *.
    destruct (seq_root nm (e_term goal) C SQ) as [E0 _]. pose proof (events_pos nm (tree_at (Term_ExtractSubterm (e_term goal) 1) 0)) as P.
    assert (L2 : (2 <= List.length (events nm (tree_at (e_term goal) 0)))%nat) by (rewrite E0, app_length; cbn [List.length]; lia).
    destruct (Nat.leb_spec 2 (List.length (events nm (tree_at (e_term goal) 0)))); [|lia].
    destruct (decompose _ _ _ _ _ _ _ _ _ _ _ _ _ _ _ _) as [s1| |] eqn:D; cbn [rbind]; try discriminate. intros H1; apply okI in H1; injection H1 as <- <-.
    apply decompose_spec in D; auto; [|rewrite rev_length; auto|intros Q; rewrite Q in M; cbn in M; rewrite <- M in L2; cbn in L2; lia]. destruct D as (r & m1 & D1 & D2 & D3).
    split; auto. split; auto. exists (rev l), r, m1. split; auto. split; [apply Forall_rev; auto|]. auto.
  - rewrite not_seq_root by auto. cbn. intros H; apply okI in H; injection H as <- <-. auto.
Qed.

(** C57 for goals without variables, in plain terms: a subgoal is derived for the first event [c]
    that is not satisfied, all earlier ones being satisfied by beliefs in temporal order. *)
Inductive in_order (m : memory) (now : Z) : Z -> list term -> Z -> Prop :=
| io_nil last : in_order m now last [] last
| io_cons last c l rest slot k subs ex last' : satisfies nm av simdist powdecay condition m now c rest last slot subs ex -> related m c slot ->
    nth_error (m_store m) slot = Some k -> in_order m now (e_occ (c_spike k)) l last' -> in_order m now last (c :: l) last'.
Lemma no_var_apply t subs t' : hasVariable nm t true true true = false -> ApplySubstitute nm t subs = Ok (t', true) -> t' = t.
Proof.
  intros H. unfold ApplySubstitute. destruct (s_success subs); cbn [rassert rbind]; try discriminate. unfold hasVariable in H.
  assert (G : forall l ok, existsb (fun i => (true && isIndependentVariable nm (at_ t i)) || (true && isDependentVariable nm (at_ t i)) || (true && isQueryVariable nm (at_ t i))) l = false ->
    forall r, apply_loop nm (s_map subs) l t ok = Ok r -> fst r = t).
  { induction l as [|i l IH]; intros ok E r; cbn [apply_loop]; [intros Q; apply okI in Q; subst; auto|]. cbn [existsb] in E. apply orb_false_iff in E as [E1 E2].
    cbn [andb] in E1. unfold isVariable. rewrite E1. cbn [negb orb andb rassert rbind]. intros Q. eapply IH; eauto. }
  intros Q. specialize (G _ true H _ Q). exact G.
Qed.
Theorem C57_first_unsatisfied : forall m now comps first last g g', Forall (fun c => hasVariable nm c true true true = false) comps ->
  subgoal nm av simdist powdecay condition m now comps first last g (Some g') ->
  (first = false -> e_term g = hd zero_term comps) ->
  exists pre c post last', comps = pre ++ c :: post /\ e_term g' = c /\ in_order m now last pre last' /\
    forall slot subs ex, own m c slot -> ~ satisfies nm av simdist powdecay condition m now c post last' slot subs ex.
Proof.
  intros m now comps first last g g' F H. remember (Some g') as r eqn:R. revert F R. induction H as [comp rest last g U|comp rest last g U|comp first last g c subs U|comp rest first last g c subs k next rest' r U NE AP H IH]; intros F R TG.
  - injection R as <-. inversion F as [|? ? HV F']; subst. exists [], comp, rest, last. split; auto. split; auto. split; [constructor|]. unfold used in U. rewrite HV in U. exact U.
  - injection R as <-. inversion F as [|? ? HV F']; subst. exists [], comp, rest, last. split; auto. split; [apply TG; auto|]. split; [constructor|]. unfold used in U. rewrite HV in U. exact U.
  - discriminate.
  - inversion F as [|? ? HV F']; subst.
    assert (Q : rest = next :: rest'). { clear -AP F'. induction AP as [|t t' l l' A1 A2 IH]; auto. inversion F'; subst. f_equal; auto. symmetry. eapply no_var_apply; eauto. }
    subst rest. destruct IH as (pre & c0 & post & last' & E1 & E2 & E3 & E4); auto.
    destruct U as (ex & U1 & U2 & _). exists (comp :: pre), c0, post, last'. rewrite E1. split; auto. split; auto. split; auto. econstructor; eauto.
Qed.

(** C57: the events of a goal with exactly 5 events are written outside the array (undefined
    behaviour), with more an assertion stops the program. *)
Theorem C57_long_refuted : forall s goal prio layer, closed (e_term goal) ->
  let n := List.length (events nm (tree_at (e_term goal) 0)) in
  (n = 5%nat -> Decompose s goal prio layer = UB) /\ ((6 <= n)%nat -> Decompose s goal prio layer = Abort).
Proof.
  intros s goal prio layer C. cbv zeta. pose proof (components_spec nm 7 (e_term goal) [] C (height_le_7 _ _) ltac:(cbn; lia)) as CS. cbv zeta in CS. cbn [List.length] in CS.
  assert (SQ : (2 <= List.length (events nm (tree_at (e_term goal) 0)))%nat -> copulaEquals nm (at_ (e_term goal) 0) SEQUENCE = true).
  { intros L. destruct (copulaEquals nm (at_ (e_term goal) 0) SEQUENCE) eqn:Q; auto. rewrite not_seq_root in L by auto. cbn in L. lia. }
  unfold GoalSequenceDecomposition. split; intros N; rewrite SQ by lia; cbn [negb]; destruct (seq_components nm 7 (e_term goal) []) as [r| |]; cbn [rbind]; auto; exfalso; first [lia|destruct CS as [CS _]; lia].
Qed.

(** C56, one step of composing events ([sp], the latest event of the concept in slot [c], with
    [post]): besides links (at most two), a sequence (sp &/ post) may be formed, of at most 3
    events (those of [sp] and [post]); none if [sp] has 3 or more, and none with operations. *)
Theorem C56_composition_partial : forall s now post op_id prio c s' k, nth_error (m_store (s_mem s)) c = Some k ->
  closed (e_term (c_spike k)) -> closed (e_term post) -> at_ (e_term (c_spike k)) 0 <> 0 -> at_ (e_term post) 0 <> 0 ->
  stamp_wf (e_stamp (c_spike k)) -> stamp_wf (e_stamp post) -> name_of nm (copula_index SEQUENCE) = [SEQUENCE] ->
  Correlate s now post op_id prio c = Ok s' ->
  let evs := events nm (tree_at (e_term (c_spike k)) 0) ++ [tree_at (e_term post) 0] in
  exists m1, (op_id <> 0%nat -> m1 = s_mem s) /\
    (m1 = s_mem s \/ exists m2, Link (s_mem s) (s_time s) (c_spike k) post = Ok m2 /\
       (m1 = m2 \/ exists k2, nth_error (m_store m2) c = Some k2 /\ Link m2 (s_time s) post (c_spike k2) = Ok m1)) /\
    (s' = set_mem s m1 \/
     (op_id = 0%nat /\ (List.length evs <= 3)%nat /\ exists sq s2 d, events nm (tree_at (e_term sq) 0) = evs /\
       Process (set_mem s m1) sq now = Ok (s2, d) /\
       (s' = s2 \/ exists t m3, attribute_relation nm av (e_term sq) = Ok (Some t) /\ Add (s_mem s2) (with_term sq t) now f1 0 = Ok m3 /\ s' = set_mem s2 m3))).
Proof.
  intros s now post op_id prio c s' k NE C1 C2 N1 N2 W1 W2 NQ. unfold correlate, cread. rewrite NE. cbn [rbind].
  assert (SAME : exists m1, (op_id <> 0%nat -> m1 = s_mem s) /\ (m1 = s_mem s \/ exists m2, Link (s_mem s) (s_time s) (c_spike k) post = Ok m2 /\ (m1 = m2 \/ exists k2, nth_error (m_store m2) c = Some k2 /\ Link m2 (s_time s) post (c_spike k2) = Ok m1)) /\ s = set_mem s m1).
  { exists (s_mem s). split; auto. split; auto. destruct s; reflexivity. }
  destruct (_ && _ && _ && _ && _ && _); [|intros H; apply okI in H; subst s'; destruct SAME as (m1 & A & B & D); exists m1; auto].
  set (op2 := getOperationID _ _ _). destruct ((_ || _) && _) eqn:CO; [|intros H; apply okI in H; subst s'; destruct SAME as (m1 & A & B & D); exists m1; auto].
  pose proof (C50_belief_intersection powdecay (c_spike k) post C1 C2 N1 N2 W1 W2) as BI. destruct (BeliefIntersection powdecay (c_spike k) post) as [[ok sq]| |]; cbn [rbind]; try discriminate.
  destruct ok; cbn [andb]; [|intros H; apply okI in H; subst s'; destruct SAME as (m1 & A & B & D); exists m1; auto]. destruct BI as (_ & X1 & X2 & X0 & CS & _ & XO & _).
  destruct (negb (fltb _ _)); [|intros H; apply okI in H; subst s'; destruct SAME as (m1 & A & B & D); exists m1; auto]. clear SAME.
  assert (EV : events nm (tree_at (e_term sq) 0) = events nm (tree_at (e_term (c_spike k)) 0) ++ [tree_at (e_term post) 0]).
  { destruct (seq_root nm (e_term sq) CS) as [Q _]; [|rewrite Q, X1, X2; auto]. rewrite X0. unfold copulaEquals, ch0, ch1. rewrite NQ. reflexivity. }
  pose proof (events_pos nm (tree_at (e_term (c_spike k)) 0)) as EP.
  match goal with |- (do m <- ?e ; _) = _ -> _ => destruct e as [m1| |] eqn:LK; cbn [rbind]; try discriminate end.
  destruct (nth_error (m_store m1) c) as [k1|] eqn:NE1; cbn [rbind]; try discriminate. intros H. exists m1.
  assert (LO : (op_id <> 0%nat -> m1 = s_mem s) /\ (m1 = s_mem s \/ exists m2, Link (s_mem s) (s_time s) (c_spike k) post = Ok m2 /\ (m1 = m2 \/ exists k2, nth_error (m_store m2) c = Some k2 /\ Link m2 (s_time s) post (c_spike k2) = Ok m1))).
  { destruct ((op_id =? 0)%nat && (op2 =? 0)%nat) eqn:CD; [|apply okI in LK; subst m1; auto]. apply andb_prop in CD as [CD1 _]. apply Nat.eqb_eq in CD1. split; [congruence|]. right.
    destruct (ReinforceLink _ _ _ _ _ _ _ _ _) as [m2| |] eqn:L1; cbn [rbind] in LK; try discriminate. exists m2. split; auto.
    destruct (nth_error (m_store m2) c) as [k2|]; cbn [rbind] in LK; try discriminate. destruct (_ =? _); [right; exists k2; auto|left; apply okI in LK; auto]. }
  destruct LO as [LO1 LO2]. split; auto. split; auto. destruct (_ <=? _); [|left; apply okI in H; auto].
  unfold build_sequence in H. rewrite (seq_len_spec nm _ CS), EV, app_length in H. cbn [List.length] in H. change MAX_SEQUENCE_LEN with 3%nat in H. change MAX_COMPOUND_OP_LEN with 1%nat in H.
  replace (Nat.min 3 (List.length (events nm (tree_at (e_term (c_spike k)) 0)) + 1 - 1) <? 1)%nat with false in H by (symmetry; apply Nat.ltb_ge; lia).
  rewrite andb_false_r, orb_false_r in H. destruct ((op_id =? 0)%nat && (op2 =? 0)%nat && _)%bool eqn:B; [|left; apply okI in H; auto]. right.
  apply andb_prop in B as [B1 B2]. apply andb_prop in B1 as [B1 B3]. apply Nat.eqb_eq in B1. apply Nat.ltb_lt in B2. split; auto. split; [rewrite app_length; cbn; lia|].
  destruct (ProcessSensorimotorEvent _ _ _ _ _ _ _ _ _ _ _) as [[s2 d]| |] eqn:PS; cbn [rbind] in H; try discriminate. exists sq, s2, d. split; auto. split; auto.
  destruct (attribute_relation nm av (e_term sq)) as [ar| |] eqn:AR; cbn [rbind] in H; try discriminate. rewrite B1 in H. cbn [Nat.eqb negb andb] in H. destruct ar as [t|]; cbn [rbind] in H.
  - destruct (AddEvent _ _ _ _ _ _ _ _ _ _ _ _) as [m3| |] eqn:AE; cbn [rbind] in H; try discriminate. apply okI in H. right. exists t, m3. auto.
  - apply okI in H. left. subst s'. destruct s2; reflexivity.
Qed.
(** in particular nothing is composed with an operation, and nothing onto 3 events *)
Theorem C56_no_longer_sequences : forall s now post op_id prio c s' k, nth_error (m_store (s_mem s)) c = Some k ->
  closed (e_term (c_spike k)) -> closed (e_term post) -> at_ (e_term (c_spike k)) 0 <> 0 -> at_ (e_term post) 0 <> 0 ->
  stamp_wf (e_stamp (c_spike k)) -> stamp_wf (e_stamp post) -> name_of nm (copula_index SEQUENCE) = [SEQUENCE] ->
  op_id <> 0%nat \/ (3 <= List.length (events nm (tree_at (e_term (c_spike k)) 0)))%nat ->
  Correlate s now post op_id prio c = Ok s' ->
  exists m1, (op_id <> 0%nat -> m1 = s_mem s) /\ s' = set_mem s m1 /\
    (m1 = s_mem s \/ exists m2, Link (s_mem s) (s_time s) (c_spike k) post = Ok m2 /\
       (m1 = m2 \/ exists k2, nth_error (m_store m2) c = Some k2 /\ Link m2 (s_time s) post (c_spike k2) = Ok m1)).
Proof.
  intros s now post op_id prio c s' k NE C1 C2 N1 N2 W1 W2 NQ L H. eapply C56_composition_partial in H; eauto. destruct H as (m1 & A & B & [D|(D1 & D2 & _)]); [exists m1; auto|].
  exfalso. destruct L as [L|L]; [auto|]. rewrite app_length in D2. cbn in D2. lia.
Qed.
End Statements.
Print Assumptions C57_decomposition_partial.
Print Assumptions C57_first_unsatisfied.
Print Assumptions C57_long_refuted.
Print Assumptions C56_composition_partial.
Print Assumptions C56_no_longer_sequences.

#[local] Transparent tree_at.
Lemma stored_ex (a : res (nar * list output)) n m : 
  match a with Ok (z, _) => existsb (fun k => let tr := tree_at (c_term k) 0 in Nat.eqb (List.length (events (a_names (z_st z)) tr)) n && Nat.eqb (total_events (a_names (z_st z)) tr) m && (e_type (c_spike k) =? EVENT_TYPE_BELIEF)) (m_store (s_mem (z_core z))) | _ => false end = true ->
  exists z o k, a = Ok (z, o) /\ In k (m_store (s_mem (z_core z))) /\ List.length (events (a_names (z_st z)) (tree_at (c_term k) 0)) = n /\
    total_events (a_names (z_st z)) (tree_at (c_term k) 0) = m /\ e_type (c_spike k) = EVENT_TYPE_BELIEF.
Proof.
  destruct a as [[z o]| |]; try discriminate. intros G. apply existsb_exists in G as (k & K & G). cbv zeta in G. apply andb_prop in G as [G G3]. apply andb_prop in G as [G1 G2].
  apply Nat.eqb_eq in G1, G2. apply Z.eqb_eq in G3. exists z, o, k. auto.
Qed.
(** C56, refuted as stated: only the left edge is counted, so an event that is a sequence counts as
    one; here a composition of 4 events is formed and stored. *)
Theorem C56_length_refuted : exists z o k, wrun ["a. :|:"; "((b &/ c) &/ d). :|:"]%string = Ok (z, o) /\ In k (m_store (s_mem (z_core z))) /\
  List.length (events (a_names (z_st z)) (tree_at (c_term k) 0)) = 2%nat /\ total_events (a_names (z_st z)) (tree_at (c_term k) 0) = 4%nat /\ e_type (c_spike k) = EVENT_TYPE_BELIEF.
Proof. apply stored_ex. vm_compute. reflexivity. Qed.
Print Assumptions C56_length_refuted.
(** C57, refuted for 5 events as input at the shell; 6 events stop the program *)
Theorem C57_input_refuted : wrun ["((((a &/ b) &/ c) &/ d) &/ e)! :|:"]%string = UB /\ wrun ["(((((a &/ b) &/ c) &/ d) &/ e) &/ f)! :|:"]%string = Abort.
Proof. split; vm_compute; reflexivity. Qed.
Print Assumptions C57_input_refuted.

(** Examples.  After "a. :|:" (atom 74) the goal ((a &/ b) &/ c) meets the hypotheses of
    [C57_decomposition_partial], and the subgoal b (atom 75) is queued. *)
Definition goal_abc (z : nar) : event :=
  mkEvent (mk_term [57; 57; 76; 74; 75]) EVENT_TYPE_GOAL ((@mkTruth f64A f1 half)) (1000 :: repeat 0 9) (s_time (z_core z)) f0 false (s_time (z_core z)) false.
Definition decomposed (z : nar) : res (cstate * bool) :=
  GoalSequenceDecomposition (a_names (z_st z)) (z_av z) (z_simdist z) qpow ex_pen 1 half 60 (z_core z) (goal_abc z) half 0.
Definition next_goal (s : cstate) : option Z := match m_goals (s_mem s) with q :: _ => option_map (fun x => at_ (e_term (fst x)) 0) (snd (PopEvent q)) | [] => None end.
Definition oz_eqb (a b : option Z) : bool := match a, b with Some x, Some y => x =? y | None, None => true | _, _ => false end.
Lemma subgoal_ex (a : res (nar * list output)) :
  match a with
  | Ok (z, _) => closedb (e_term (goal_abc z)) && Nat.eqb (List.length (events (a_names (z_st z)) (tree_at (e_term (goal_abc z)) 0))) 3 && forallb (fun k => pid1 k <=? s_pid (z_core z)) (m_store (s_mem (z_core z)))
      && oz_eqb (next_goal (z_core z)) None && match decomposed z with Ok (s', b) => b && oz_eqb (next_goal s') (Some 75) | _ => false end
  | _ => false end = true ->
  exists z o s', a = Ok (z, o) /\ closed (e_term (goal_abc z)) /\ List.length (events (a_names (z_st z)) (tree_at (e_term (goal_abc z)) 0)) = 3%nat /\
    (forall k, In k (m_store (s_mem (z_core z))) -> pid1 k <= s_pid (z_core z)) /\ next_goal (z_core z) = None /\ decomposed z = Ok (s', true) /\ next_goal s' = Some 75.
Proof.
  assert (OZ : forall x y, oz_eqb x y = true -> x = y) by (intros [x|] [y|]; cbn; try discriminate; auto; intros Q; apply Z.eqb_eq in Q; congruence).
  destruct a as [[z o]| |]; try discriminate. intros G. apply andb_prop in G as [G G5]. apply andb_prop in G as [G G4]. apply andb_prop in G as [G G3]. apply andb_prop in G as [G1 G2].
  destruct (decomposed z) as [[s' b]| |] eqn:D; try discriminate. apply andb_prop in G5 as [G5 G6]. subst b. apply Nat.eqb_eq in G2. rewrite forallb_forall in G3.
  exists z, o, s'. split; auto. split; [apply closedb_ok; auto|]. split; auto. split; [intros k K; apply Z.leb_le; auto|]. split; auto.
Qed.
Example C57_ex : exists z o s', wrun ["a. :|:"]%string = Ok (z, o) /\ closed (e_term (goal_abc z)) /\ List.length (events (a_names (z_st z)) (tree_at (e_term (goal_abc z)) 0)) = 3%nat /\
  (forall k, In k (m_store (s_mem (z_core z))) -> pid1 k <= s_pid (z_core z)) /\ next_goal (z_core z) = None /\ decomposed z = Ok (s', true) /\ next_goal s' = Some 75.
Proof. apply subgoal_ex. vm_compute. reflexivity. Qed.

(** After "a. :|:" the event of concept 0 (a) and a new event b meet the hypotheses of
    [C56_composition_partial], and the concept of (a &/ b) appears. *)
Definition event_b (z : nar) : event :=
  mkEvent (mk_term [75]) EVENT_TYPE_BELIEF ((@mkTruth f64A f1 half)) (1000 :: repeat 0 9) (s_time (z_core z)) f0 false (s_time (z_core z)) false.
Definition correlated (z : nar) : res cstate :=
  correlate (a_names (z_st z)) (z_av z) (z_simdist z) qpow ex_pen 1 half half half half 10 60 (z_core z) (s_time (z_core z)) (event_b z) 0 half 0.
Definition has_ab (s : cstate) : bool := existsb (fun k => term_eqb (c_term k) (mk_term [57; 74; 75])) (m_store (s_mem s)).
Lemma compose_ex (a : res (nar * list output)) :
  match a with
  | Ok (z, _) => match nth_error (m_store (s_mem (z_core z))) 0 with
      | Some k => list_eqb (e_term (c_spike k)) (mk_term [74]) && list_eqb (e_stamp (c_spike k)) (1 :: repeat 0 9) && list_eqb (name_of (a_names (z_st z)) (copula_index SEQUENCE)) [SEQUENCE]
          && negb (has_ab (z_core z)) && match correlated z with Ok s' => has_ab s' | _ => false end
      | None => false end
  | _ => false end = true ->
  exists z o k s', a = Ok (z, o) /\ nth_error (m_store (s_mem (z_core z))) 0 = Some k /\ e_term (c_spike k) = mk_term [74] /\ e_stamp (c_spike k) = 1 :: repeat 0 9 /\
    name_of (a_names (z_st z)) (copula_index SEQUENCE) = [SEQUENCE] /\ has_ab (z_core z) = false /\ correlated z = Ok s' /\ has_ab s' = true.
Proof.
  destruct a as [[z o]| |]; try discriminate. destruct (nth_error _ 0) as [k|] eqn:NE; try discriminate. intros G. apply andb_prop in G as [G G5]. apply andb_prop in G as [G G4]. apply andb_prop in G as [G G3]. apply andb_prop in G as [G1 G2].
  destruct (correlated z) as [s'| |] eqn:D; try discriminate. apply list_eqb_spec in G1, G2, G3. apply negb_true_iff in G4. exists z, o, k, s'. auto 10.
Qed.
Example C56_ex : exists z o k s', wrun ["a. :|:"]%string = Ok (z, o) /\ nth_error (m_store (s_mem (z_core z))) 0 = Some k /\ e_term (c_spike k) = mk_term [74] /\ e_stamp (c_spike k) = 1 :: repeat 0 9 /\
    name_of (a_names (z_st z)) (copula_index SEQUENCE) = [SEQUENCE] /\ has_ab (z_core z) = false /\ correlated z = Ok s' /\ has_ab s' = true.
Proof. apply compose_ex. vm_compute. reflexivity. Qed.
Example C56_ex_terms : closed (mk_term [74]) /\ closed (mk_term [75]) /\ stamp_wf (1 :: repeat 0 9) /\ stamp_wf (1000 :: repeat 0 9).
Proof. split; [apply closedb_ok; reflexivity|]. split; [apply closedb_ok; reflexivity|]. split; reflexivity. Qed.
