(** Goals and their subgoals (C67), and the decomposition of goals in running systems (C57).
    Vocabulary: SubgoalS.v, SeqS.v, SysS.v. *)
From Coq Require Import ZArith List Bool String Lia.
From Verif Require Import Base F64 TruthM StampM TermM TermS NamesM AtomsM RulesM EventM InferenceM UsageM TableM VariableM MemoryM MemoryS EverywhereP QuestionM DecisionM CycleM CycleS ShellM ShellS SysS SysP SysP2 SeqS ShapeS ShapeP2 ShapeP3 SubgoalS SubgoalP SubgoalP2.
From Verif Require Import PropsMemory PropsQuestion PropsCycle PropsShell PropsSys PropsSeq.
Import ListNotations.
Local Open Scope nat_scope.
#[local] Opaque Cycle_Perform.
Section Lives.
Variables cmax buckets atoms bmax gmax layers : nat.
Notation Lives := (lives cmax buckets atoms bmax gmax layers).
(** C67: at any time of a life, a cycle consists of the processing of the selected belief event, of
    what is expected to happen by itself, of the goals, of inference, and of forgetting; and the
    goals are processed as [goal_phase] says: the best goal of each layer is selected and decomposed,
    executed, or passed on to subgoals at all concepts related to it -- each exactly once --, one for
    every current link that leads to the goal, and outdated links are dropped. *)
Theorem C67_goals_of_a_cycle : forall nm s p s', 0 < layers -> Lives nm s -> p_layers p = layers -> cycle p s = Ok s' ->
  let now := s_time s in exists depth s2 m3 s4 s5, p_depth p = S depth /\
    ProcessBeliefEvents (p_nm p) (p_av p) (p_simdist p) (p_pow p) (p_penalty p) layers (p_thr p) (p_athr p) (p_aconf p) (p_chance p) (p_bops p) (p_fuel p) (PopBelief s) now = Ok s2 /\
    Anticipate (p_nm p) (p_av p) (p_simdist p) (p_pow p) (p_athr p) (p_aconf p) (s_mem s2) 0 zero_term true now = Ok m3 /\
    goal_phase (p_nm p) (p_av p) (p_simdist p) (p_pow p) (p_penalty p) layers (p_thr p) (p_cond p) (p_aconf p) (p_chance p) (p_bops p) (p_act p) (p_fuel p)
      (one_cycle (p_nm p) (p_av p) (p_simdist p) (p_pow p) (p_penalty p) layers (p_thr p) (p_cond p) (p_athr p) (p_aconf p) (p_chance p) (p_bops p) (p_act p) (p_fuel p) depth)
      now (seq 0 layers) (set_mem s2 m3) s4 /\
    Cycle_Inference (p_nm p) (p_av p) (p_simdist p) (p_pow p) (p_penalty p) layers (p_fuel p) s4 now = Ok s5 /\
    s' = set_time (set_mem s5 (RelativeForgetting (s_mem s5) now)) (s_time s5 + 1).
Proof.
  intros nm s p s' LY L PL H now. pose proof (lives_st cmax buckets atoms bmax gmax layers LY nm s L) as ST. unfold cycle in H. rewrite PL in H.
  destruct (p_depth p) as [|depth]; [discriminate H|]. exists depth. cbn [one_cycle] in H.
  destruct (Cycle_Perform _ _ _ _ _ _ _ _ _ _ _ _ _ _ _ s) as [s1| |] eqn:E; cbn [rbind] in H; try discriminate H. apply okJ in H. subst s'.
  assert (SW : sw layers s) by (constructor; [exact ST|left; exact LY]).
  pose proof (perform_spec (p_nm p) (p_av p) (p_simdist p) (p_pow p) (p_penalty p) layers (p_thr p) (p_cond p) (p_aconf p) (p_chance p) (p_bops p) (p_act p) (p_fuel p) _ now
    (u_cycle (p_nm p) (p_av p) (p_simdist p) (p_pow p) (p_penalty p) layers (p_thr p) (p_cond p) (p_athr p) (p_aconf p) (p_chance p) (p_bops p) (p_act p) (p_fuel p) depth) (p_athr p) s s1 SW LY E eq_refl) as (s2 & m3 & s4 & s5 & A & B & C & D & F).
  exists s2, m3, s4, s5. split; [reflexivity|]. split; [exact A|]. split; [exact B|]. split; [exact C|]. split; [exact D|]. rewrite F. reflexivity.
Qed.
(** C57 at any time of a life: as C57_decomposition_partial says, for goals of up to 4 events (5 are
    refuted: C57_long_refuted). *)
Theorem C57_decomposition_in_lives_partial : forall nm s nm' av simdist powdecay penalty lays condition fuel goal prio layer s' b, 0 < layers -> Lives nm s -> TermS.closed (e_term goal) ->
  GoalSequenceDecomposition nm' av simdist powdecay penalty lays condition fuel s goal prio layer = Ok (s', b) ->
  let evs := events nm' (tree_at (e_term goal) 0) in
  if 2 <=? List.length evs then
    b = true /\ List.length evs <= 4 /\ exists comps r m1,
      map (fun c => tree_at c 0) comps = evs /\ Forall TermS.closed comps /\
      SeqS.subgoal nm' av simdist powdecay condition (s_mem s) (s_time s) comps true (-1) (EventUpdate powdecay goal (s_time s)) r /\
      same_but_marks (s_mem s) m1 /\
      match r with
      | None => s_mem s' = m1
      | Some g => AddEvent nm' powdecay penalty lays fuel m1 (EVal g) (s_time s) (fmul prio (Truth_Expectation f64A (e_truth g))) false false layer = Ok (s_mem s')
      end
  else b = false /\ s' = s.
Proof.
  intros nm s nm' av sd pd pen lays cond fuel goal prio layer s' b LY L C H. destruct (lives_shaped cmax buckets atoms bmax gmax layers LY nm s L) as [_ M].
  apply (C57_decomposition_partial nm' av sd pd pen lays cond 0%Z fuel s goal prio layer s' b C); [|exact H]. intros k K. unfold marks_below in M. rewrite Forall_forall in M. exact (M k K).
Qed.
End Lives.
Print Assumptions C67_goals_of_a_cycle.
Print Assumptions C57_decomposition_in_lives_partial.

(** Example: after "*motorbabbling=false", "<a =/> b>.", "<b =/> c>.", "c! :|:" (atoms 74, 75, 76) the
    subgoal b waits; the next cycle meets the hypotheses of C67_goals_of_a_cycle and derives the
    subgoal a. *)
Lemma chain_ex (a : res nar) ls :
  (forall z, a = Ok z -> room wenv z -> roomy wenv z) ->
  match (do z <- a ; roomy_session z ls) with
  | Ok z => oz_eqb (next_goal (z_core z)) (Some 75%Z) && match cycle (params_of wenv z) (z_core z) with Ok s' => oz_eqb (next_goal s') (Some 74%Z) | _ => false end
  | _ => false end = true ->
  exists z s', roomy wenv z /\ lives (v_cmax wenv) (v_buckets wenv) (v_atoms wenv) (v_bmax wenv) (v_gmax wenv) (v_layers wenv) (a_names (z_st z)) (z_core z) /\
    next_goal (z_core z) = Some 75%Z /\ cycle (params_of wenv z) (z_core z) = Ok s' /\ next_goal s' = Some 74%Z.
Proof.
  assert (OZ : forall x y, oz_eqb x y = true -> x = y) by (intros [x|] [y|]; cbn; try discriminate; auto; intros Q; apply Z.eqb_eq in Q; congruence).
  intros HA H. destruct a as [z0| |]; cbn [rbind] in H; try discriminate H. destruct (roomy_session z0 ls) as [z| |] eqn:E1; try discriminate H.
  assert (R : roomy wenv z) by (eapply roomy_session_ok; [|exact E1]; intros R; apply HA; auto).
  apply andb_prop in H as [H1 H2]. destruct (cycle (params_of wenv z) (z_core z)) as [s'| |] eqn:C; try discriminate H2.
  pose proof (roomy_live wenv wenv_sizes wenv_plain z R) as (_ & LV).
  exists z, s'. split; [exact R|]. split; [exact LV|]. split; [apply OZ; exact H1|]. split; [exact C|apply OZ; exact H2].
Qed.
Example C67_example : exists z s', roomy wenv z /\ lives (v_cmax wenv) (v_buckets wenv) (v_atoms wenv) (v_bmax wenv) (v_gmax wenv) (v_layers wenv) (a_names (z_st z)) (z_core z) /\
    next_goal (z_core z) = Some 75%Z /\ cycle (params_of wenv z) (z_core z) = Ok s' /\ next_goal s' = Some 74%Z.
Proof. apply (chain_ex (start wenv 1) (map str ["*motorbabbling=false"; "<a =/> b>."; "<b =/> c>."; "c! :|:"]%string) (ro_start wenv 1)). vm_compute. reflexivity. Qed.
