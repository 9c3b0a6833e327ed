(** The goal phase of a cycle (C67). *)
From Coq Require Import ZArith List Bool Lia.
From Verif Require Import Base F64 TruthM StampM TermM NamesM EventM InferenceM VariableM TableM MemoryM EverywhereP QuestionM DecisionM CycleM SeqS ShapeS ShapeP1 ShapeP2 SubgoalS SubgoalP.
Import ListNotations.
Local Open Scope nat_scope.
#[local] Opaque GoalSequenceDecomposition ProcessSensorimotorEvent related_foreach subgoal_body Decision_Execute PopGoal.
Lemma st_shape s : st s -> tables_shaped (s_mem s) /\ forall k, In k (m_store (s_mem s)) -> (pid1 k < s_pid s + 1)%Z.
Proof.
  intros [_ [_ F]]. rewrite Forall_forall in F. split; [apply Forall_forall; intros k H; apply (F k H)|]. intros k H. specialize (F k H). destruct F as [_ F]. lia.
Qed.
Section G.
Variable nm : names.
Variable av : Z -> option (f64 * name).
Variable simdist : f64.
Variable pd : Z -> f64.
Variable pen : nat -> f64.
Variable layers : nat.
Variables threshold condition ca chance : f64.
Variable babbling_ops : Z.
Variable act : list exec -> exec -> feedback.
Variable fuel : nat.
Variable cyc : cstate -> res cstate.
Variable now : Z.
Notation Goals := (ProcessAndInferGoalEvents nm av simdist pd pen layers threshold condition ca chance babbling_ops act fuel cyc).
Notation Pursued := (pursued nm av simdist pd pen layers threshold condition ca chance babbling_ops act fuel cyc now).
Lemma pursue_spec layer s s' : sv s -> Goals s now layer = Ok s' -> Pursued layer s s'.
Proof.
  intros S. unfold ProcessAndInferGoalEvents, pursued. destruct (s_selG s) as [[goal p]|] eqn:SGx.
  2:{ cbn [rbind]. change (d_execute decision0) with false. cbn [andb rbind]. rewrite SGx. intros H. apply okJ in H. auto. }
  pose proof (sv_g _ S _ _ SGx) as PG.
  destruct (GoalSequenceDecomposition _ _ _ _ _ _ _ _ s goal _ layer) as [[s0 iss]| |] eqn:GD; cbn [rbind]; try discriminate.
  pose proof (s_sequence nm av simdist pd pen layers condition 0%Z fuel s goal (proj1_sig p) layer (sv_e _ S) PG) as Q0. rewrite GD in Q0. cbn [ifok fst] in Q0.
  assert (X : forall s1 best, considered nm av simdist pd pen layers threshold condition chance babbling_ops fuel now s goal (proj1_sig p) layer s1 best -> Sq s s1 ->
    (do s <- (if d_execute best && (0 <? d_opid best) then Decision_Execute nm av simdist pd pen layers ca act fuel cyc (set_selG (set_mem s1 (ResetGoals (s_mem s1))) None) now best else Ok s1) ;
     match s_selG s with
     | Some (goal, p) => if d_execute best then Ok s else
         let s := next_pid s in
         do (m, _) <- related_foreach (s_pid s) (subgoal_body nm av simdist pd pen layers fuel goal now (proj1_sig p) layer) fuel (s_mem s) (e_term goal) tt ;
         Ok (set_mem s m)
     | None => Ok s end) = Ok s' ->
    exists s1 best, considered nm av simdist pd pen layers threshold condition chance babbling_ops fuel now s goal (proj1_sig p) layer s1 best /\
      (d_execute best = true -> if Nat.eqb (d_opid best) 0 then s' = s1 else Decision_Execute nm av simdist pd pen layers ca act fuel cyc (set_selG (set_mem s1 (ResetGoals (s_mem s1))) None) now best = Ok s') /\
      (d_execute best = false -> exists l, NoDup l /\ (forall c, In c l <-> related (s_mem s1) (e_term goal) c) /\
         wanted_at_all nm av simdist pd pen layers fuel now (proj1_sig p) layer goal l (s_mem s1) (s_mem s') /\ s' = set_mem (next_pid s1) (s_mem s'))).
  { intros s1 best CO Q H. exists s1, best. split; [exact CO|]. destruct (d_execute best) eqn:EX; cbn [andb] in H.
    - split; [intros _|discriminate]. destruct (d_opid best) as [|o]; cbn [Nat.eqb Nat.ltb Nat.leb] in *.
      + cbn [rbind] in H. destruct (s_selG s1) as [[g q]|]; apply okJ in H; auto.
      + destruct (Decision_Execute _ _ _ _ _ _ _ _ _ _ _ _ _) as [s2| |]; cbn [rbind] in H; try discriminate. destruct (s_selG s2) as [[g q]|]; exact H.
    - split; [discriminate|intros _]. cbn [rbind] in H. rewrite (sq_selG _ _ Q), SGx in H. cbv zeta in H.
      destruct (related_foreach _ _ _ _ _ _) as [[m u]| |] eqn:R; cbn [rbind] in H; try discriminate. apply okJ in H. subst s'. cbn [s_mem set_mem].
      destruct (st_shape _ (sq_mem _ _ Q)) as [T1 T2].
      destruct (related_spec nm av simdist pd pen layers fuel now (proj1_sig p) layer goal (s_pid s1 + 1) _ _ _ _ _ T1 T2 R) as (l & L1 & L2 & L3).
      exists l. split; [exact L1|]. split; [exact L2|]. split; [exact L3|reflexivity]. }
  destruct iss.
  - cbn [rbind]. intros H. apply (X s0 decision0); auto. exists s0, true. auto.
  - destruct (ProcessSensorimotorEvent _ _ _ _ _ _ _ _ s0 goal now) as [[s1 d]| |] eqn:PS; cbn [rbind]; try discriminate. intros H.
    pose proof (s_sensorimotor nm av simdist pd pen threshold chance babbling_ops fuel s0 goal now (sq_mem _ _ Q0)) as Q1. rewrite PS in Q1. cbn [ifok fst] in Q1.
    apply (X s1 (BetterDecision decision0 d)); auto.
    + exists s0, false. split; [exact GD|]. exists d. auto.
    + destruct Q0 as [A1 A2 A3 A4]; destruct (Q1 (let (P1, P2) := PG in conj P1 (or_intror P2))) as [B1 B2 B3 B4]; constructor; [exact B1|lia|congruence|congruence].
Qed.
Hypothesis CE : forall s, sw layers s -> ifok (cyc s) (up s).
Lemma phase_spec L : forall s s', sw layers s -> selB_ok s ->
  foldM (goal_layer nm av simdist pd pen layers threshold condition ca chance babbling_ops act fuel cyc now) L s = Ok s' ->
  goal_phase nm av simdist pd pen layers threshold condition ca chance babbling_ops act fuel cyc now L s s'.
Proof.
  induction L as [|layer L IH]; intros s s' S B; cbn [foldM]; [intros H; apply okJ in H; subst; constructor|].
  destruct (goal_layer _ _ _ _ _ _ _ _ _ _ _ _ _ _ _ s layer) as [s2| |] eqn:GL; cbn [rbind]; try discriminate. intros H.
  pose proof (u_layer nm av simdist pd pen layers threshold condition ca chance babbling_ops act fuel cyc CE now s layer S B) as U. rewrite GL in U. cbn [ifok] in U.
  unfold goal_layer in GL. destruct (PopGoal s layer) as [s1| |] eqn:PO; cbn [rbind] in GL; try discriminate.
  pose proof (u_popG av pd pen layers babbling_ops cyc CE s layer S B) as U1. rewrite PO in U1. cbn [ifok] in U1.
  econstructor; [exact PO|apply pursue_spec; [apply U1|exact GL]|]. apply IH; [apply sv_w, U|exact (sv_b _ (proj1 U))|exact H].
Qed.
Variable athr : f64.
(** a cycle: the belief phase, the outcomes expected to come by themselves (C48), the goal phase, inference (C64) and forgetting *)
Lemma perform_spec s s' : sw layers s -> 0 < layers ->
  Cycle_Perform nm av simdist pd pen layers threshold condition athr ca chance babbling_ops act fuel cyc s = Ok s' -> now = s_time s ->
  exists s2 m3 s4 s5, ProcessBeliefEvents nm av simdist pd pen layers threshold athr ca chance babbling_ops fuel (PopBelief s) now = Ok s2 /\
    Anticipate nm av simdist pd athr ca (s_mem s2) 0 zero_term true now = Ok m3 /\
    goal_phase nm av simdist pd pen layers threshold condition ca chance babbling_ops act fuel cyc now (seq 0 layers) (set_mem s2 m3) s4 /\
    Cycle_Inference nm av simdist pd pen layers fuel s4 now = Ok s5 /\ s' = set_mem s5 (RelativeForgetting (s_mem s5) now).
Proof.
  intros S LY H NW. unfold Cycle_Perform in H. cbv zeta in H. rewrite <- NW in H. destruct (u_popB _ _ S) as (S1 & B1 & G1 & I1). set (s1 := PopBelief s) in *. clearbody s1.
  pose proof (s_beliefs nm av simdist pd pen layers threshold athr ca chance babbling_ops fuel s1 now (sw_e _ _ S1)) as Q2.
  destruct (ProcessBeliefEvents _ _ _ _ _ _ _ _ _ _ _ _ s1 now) as [s2| |] eqn:E2; cbn [rbind] in H; try discriminate. cbn [ifok] in Q2.
  destruct (sw_Sq _ _ _ S1 B1 Q2) as (S2 & B2 & I2).
  pose proof (s_anticipate nm av simdist pd athr ca (s_pid s2)) as K3. specialize (K3 (proj1 (sw_e _ _ S2)) (s_mem s2) 0 zero_term true now (proj2 (sw_e _ _ S2))).
  destruct (Anticipate _ _ _ _ _ _ (s_mem s2) 0 zero_term true now) as [m3| |] eqn:E3; cbn [rbind] in H; try discriminate. cbn [ifok] in K3.
  assert (S3 : sw layers (set_mem s2 m3)) by (destruct S2 as [[X1 X2] X3]; constructor; auto; split; auto).
  destruct (foldM _ _ _) as [s4| |] eqn:E4; cbn [rbind] in H; try discriminate.
  destruct (Cycle_Inference _ _ _ _ _ _ _ s4 now) as [s5| |] eqn:E5; cbn [rbind] in H; try discriminate. apply okJ in H.
  exists s2, m3, s4, s5. split; [reflexivity|]. split; [exact E3|]. split; [apply phase_spec; [exact S3|exact B2|exact E4]|]. split; [exact E5|]. symmetry; exact H.
Qed.
End G.
