(** The shape of the link tables and the marks of concepts: states, cycles, calls. *)
From Coq Require Import ZArith List Bool Lia.
From Flocq Require Import IEEE754.BinarySingleNaN.
From Verif Require Import Base F64 TruthM StampM HashM TermM NamesM EventM InferenceM TableM UsageM RingM InvIndexM VariableM MemoryM QuestionM DecisionM NalM RulesM CycleM CycleS EverywhereS EverywhereP CycleP1 CycleP2 CycleP3 CycleP4 ShapeS ShapeP1.
From Verif Require PQueueM HashTableM.
Local Open Scope nat_scope.
Import ListNotations.
#[local] Opaque Term_ExtractSubterm Term_OverrideSubterm zero_term implication_of RevisionAndChoice OccurrenceTimeIndex_Add Term_Complexity fmul fltb fleb feqb
  PQueueM.push copulaEquals Truth_Expectation stamp_check_overlap stamp_equal stamp_make fmax Unify UnifyWithAnalogy ApplySubstitute BeliefDeduction BeliefIntersection BeliefInduction
  Conceptualize AddEvent Table_AddAndRevise FindConceptByTerm GetConceptChain ImplicationValid DerivedEvent hasVariable conclusions
  OperationSequenceAppendLeftNested GetPreconditionWithoutOp Truth_Projection Truth_Eternalize Truth_Induction Truth_Intersection getOperationTerm getOperationID
  GoalDeduction GoalSequenceDeduction term_eqb kth_newest IntroduceImplicationVariables2 SequenceLength Anticipate.
Lemma ew_mono b b' m : (b <= b')%Z -> ew b m -> ew b' m.
Proof. intros L [A B]. split; [exact A|]. eapply Forall_impl; [|exact B]. intros k [X Y]. split; [exact X|lia]. Qed.
Section W.
Variable nm : names.
Variable av : Z -> option (f64 * name).
Variable simdist : f64.
Variable powdecay : Z -> f64.
Variable penalty : nat -> f64.
Variable layers : nat.
Variables threshold condition athr ca chance : f64.
Variable babbling_ops : Z.
Variable act : list exec -> exec -> feedback.
Variable fuel : nat.
Definition st (s : cstate) : Prop := (0 <= s_pid s)%Z /\ ew (s_pid s) (s_mem s).
(** *** states *)
Record Sq (s s' : cstate) : Prop := {
  sq_mem : st s'; sq_pid : (s_pid s <= s_pid s')%Z; sq_selB : s_selB s' = s_selB s; sq_selG : s_selG s' = s_selG s }.
Lemma Sq_refl s : st s -> Sq s s. Proof. intros; constructor; auto; lia. Qed.
Lemma Sq_trans a b c : Sq a b -> Sq b c -> Sq a c. Proof. intros [A1 A2 A3 A4] [B1 B2 B3 B4]. constructor; [exact B1|lia|congruence|congruence]. Qed.
Lemma Sq_mem s m : (0 <= s_pid s)%Z -> ew (s_pid s) m -> Sq s (set_mem s m). Proof. intros; constructor; auto; [split; auto|cbn; lia]. Qed.
Lemma Sq_st s s' : Sq s s' -> st s'. Proof. intros H. apply H. Qed.
Lemma Sq_mem' s s' m : Sq s s' -> ew (s_pid s') m -> Sq s (set_mem s' m). Proof. intros H M. eapply Sq_trans; [exact H|]. apply Sq_mem; [apply H|exact M]. Qed.
Ltac memo := first [eassumption|exact Logic.I].
Lemma s_sensorimotor s e now : st s -> SE e ->
  ifok (ProcessSensorimotorEvent nm av simdist powdecay threshold chance babbling_ops fuel s e now) (fun r => Sq s (fst r)).
Proof.
  intros [I0 I] P. unfold ProcessSensorimotorEvent. apply ifok_assert; intros _.
  eapply ifok_bind; [eapply (s_conc nm powdecay); eassumption|]. intros [m c] K1. cbn [fst] in K1.
  destruct c as [c|]; [|cbn; auto using Sq_mem].
  eapply ifok_bind with (P := ew (s_pid s)).
  { destruct (_ && _); [|exact K1]. apply ifok_bind'; intros f Hf. cbn [ifok]. apply s_ring; auto. }
  intros m1 K2. cbv zeta. assert (B1 : (0 <= s_pid s + 1)%Z) by lia. eapply ifok_bind.
  { eapply s_related with (P := fun a : Z * decision => SD (snd a)) (b0 := (s_pid s + 1)%Z); [cbn; lia|intros mm a cc I1 Da; eapply s_body; auto|eapply ew_mono; [|exact K2]; lia|split; exact Logic.I]. }
  intros [m2 a] [K3 D]. cbn [fst snd ifok] in *. constructor; auto; [split; [exact B1|exact K3]|cbn; lia].
Qed.
(** *** beliefs *)
Lemma s_build s now sq op_id prio cond op : st s -> e_type sq = EVENT_TYPE_BELIEF ->
  ifok (build_sequence nm av simdist powdecay penalty layers threshold athr ca chance babbling_ops fuel s now sq op_id prio cond op) (Sq s).
Proof.
  intros I B. unfold build_sequence. destruct (_ || _); [|apply Sq_refl; auto]. eapply ifok_bind; [apply s_sensorimotor; auto; apply SE_B; auto|].
  intros [s1 d] Q1. cbn [fst snd] in *. destruct (Sq_st _ _ Q1) as [I1 K1]. apply ifok_bind'; intros r R. eapply ifok_bind with (P := ew (s_pid s1)).
  { destruct r as [t|]; [|exact K1]. eapply s_add; auto. split; [exact Logic.I|]. cbn. rewrite B. discriminate. }
  intros m2 K2. eapply ifok_bind with (P := ew (s_pid s1)).
  { destruct (_ && _); [|exact K2]. eapply s_anticipate; auto. }
  intros m3 K3. cbn [ifok]. apply Sq_mem'; auto.
Qed.
Lemma s_correlate s now post op_id prio c : st s ->
  ifok (correlate nm av simdist powdecay penalty layers threshold athr ca chance babbling_ops fuel s now post op_id prio c) (Sq s).
Proof.
  intros [I0 I]. assert (RF : Sq s s) by (apply Sq_refl; split; auto). unfold correlate. cbv zeta. apply ifok_bind'; intros k Hk. destruct (_ && _); [|exact RF]. destruct (_ && _); [|exact RF].
  apply ifok_bind'; intros [ok sq] H. apply s_intersection in H as [T1 T2]; try exact Logic.I.
  destruct ok; cbn [andb]; [|exact RF]. destruct (negb _); [|exact RF].
  eapply ifok_bind with (P := ew (s_pid s)).
  { destruct (_ && _); [|exact I]. eapply ifok_bind; [eapply s_reinforce with (b0 := s_pid s); auto; exact Logic.I|]. intros m1 K1. apply ifok_bind'; intros k1 Hk1. destruct (_ =? _)%Z; [|exact K1].
    eapply s_reinforce with (b0 := s_pid s); auto; exact Logic.I. }
  intros m1 K1. apply ifok_bind'; intros k1 _. destruct (_ <=? _)%Z; [|apply Sq_mem; auto].
  eapply ifok_impl; [apply s_build; auto; split; auto|]. intros s2 Q2. eapply Sq_trans; [|exact Q2]. apply Sq_mem; auto.
Qed.
Lemma pid2_ok b m c p : ew b m -> ifok (cmod m c (fun k => with_pid2 k p)) (ew b).
Proof. intros I. apply s_cmod; auto. Qed.
Lemma s_correlate_loop n : forall i s now post op_id prio, st s ->
  ifok (correlate_loop nm av simdist powdecay penalty layers threshold athr ca chance babbling_ops fuel n i s now post op_id prio) (Sq s).
Proof.
  induction n as [|n IH]; intros i s now post op_id prio I; cbn [correlate_loop]; [apply Sq_refl; auto|]. destruct (_ <? _)%Z; [|apply Sq_refl; auto].
  apply ifok_bind'; intros c _. apply ifok_bind'; intros k _. eapply ifok_bind; [apply pid2_ok, I|]. intros m1 K1. cbv zeta.
  assert (Q1 : Sq s (set_mem s m1)) by (apply Sq_mem; [apply I|exact K1]).
  eapply ifok_bind with (P := Sq s).
  { destruct (_ =? _)%Z; [exact Q1|]. eapply ifok_impl; [apply s_correlate; apply Q1|]. intros s2 Q2. eapply Sq_trans; eauto. }
  intros s2 Q2. eapply ifok_impl; [apply IH; apply Q2|]. intros; eapply Sq_trans; eauto.
Qed.
Lemma s_beliefs s now : st s -> 
  ifok (ProcessBeliefEvents nm av simdist powdecay penalty layers threshold athr ca chance babbling_ops fuel s now) (Sq s).
Proof.
  intros I. unfold ProcessBeliefEvents. destruct (s_selB s) as [[e p]|]; [|apply Sq_refl; auto]. cbv zeta. destruct (_ && _); [|apply Sq_refl; auto].
  apply ifok_assert; intros TY. apply Z.eqb_eq in TY. eapply ifok_bind; [apply s_sensorimotor; auto; apply SE_B; auto; exact Logic.I|]. intros [s1 d] Q1. cbn [fst snd] in *.
  assert (N2 : forall x y, Sq x y -> Sq x (next_pid2 y)) by (intros x y [A1 A2 A3 A4]; constructor; auto).
  eapply ifok_bind with (P := Sq s).
  { destruct (_ =? _); [|apply N2; exact Q1]. eapply ifok_bind; [eapply s_ops; [apply Q1|apply Q1|exact Logic.I]|]. intros [m2 p3] K2. cbn [fst ifok] in *.
    destruct Q1 as [[A0 A1] A2 A3 A4]; constructor; auto. split; auto. }
  intros s2 Q2. eapply ifok_bind.
  { apply s_correlate_loop. apply (N2 _ _ Q2). }
  intros s3 Q3. assert (Q4 : Sq s s3). { eapply Sq_trans; [apply N2; exact Q2|exact Q3]. }
  destruct (fleb _ _); [|exact Q4]. eapply ifok_bind; [eapply s_anticipate; apply Q4|]. intros m4 K4. cbn [ifok]. apply Sq_mem'; auto.
Qed.
Lemma s_rounds n : forall s e prio now matched, st s -> SB e ->
  ifok (infer_rounds nm av simdist powdecay penalty layers fuel n s e prio now matched) (Sq s).
Proof.
  induction n as [|n IH]; intros s e prio now matched [I0 I] P; cbn [infer_rounds]; [exact Logic.I|]. destruct (_ =? _)%Z; [exact Logic.I|]. cbv zeta.
  eapply ifok_bind; [eapply s_rules; [exact I0|exact I|exact Logic.I]|]. intros m1 K1. eapply ifok_bind.
  { eapply s_related with (P := fun _ : Z * Z => True) (b0 := s_pid s); [cbn; lia|intros mm a cc I1 _; eapply s_infer_body; eauto|apply K1|exact Logic.I]. }
  intros [m2 a] [K2 _]. cbn [fst snd] in *. assert (Q1 : Sq s (set_stats (set_mem s m2) (adapt (s_thr s) (s_total s) now) (s_total s + fst a) (if (s_max s <? snd a)%Z then snd a else s_max s))).
  { constructor; auto; [split; auto|cbn; lia]. }
  destruct (_ || _); [exact Q1|]. eapply ifok_impl; [apply IH; auto; apply Q1|]. intros; eapply Sq_trans; [|eauto]. exact Q1.
Qed.
Lemma s_inference s now : st s -> (forall e p, s_selB s = Some (e, p) -> SB e) -> ifok (Cycle_Inference nm av simdist powdecay penalty layers fuel s now) (Sq s).
Proof.
  intros [I0 I] S. unfold Cycle_Inference. destruct (s_selB s) as [[e p]|] eqn:E; [|apply Sq_refl; split; auto].
  assert (Q : Sq s (next_pid s)). { constructor; auto; [split; cbn; [lia|eapply ew_mono; [|exact I]; lia]|cbn; lia]. }
  eapply ifok_impl; [apply s_rounds; [apply Q|eapply S; eauto]|]. intros s1 Q1. eapply Sq_trans; eauto.
Qed.
Lemma s_decompose n : forall s prio layer todo first last g, st s -> SG g ->
  ifok (decompose nm av simdist powdecay penalty layers condition fuel n s prio layer todo first last g) (Sq s).
Proof.
  induction n as [|n IH]; intros s prio layer todo first last g I P; cbn [decompose]; [apply Sq_refl; auto|]. destruct todo as [|comp rest]; [apply Sq_refl; auto|]. cbv zeta.
  destruct I as [I0 I]. assert (B1 : (0 <= s_pid s + 1)%Z) by lia. eapply ifok_bind.
  { apply (s_related (s_pid s + 1)) with (P := fun _ : f64 * option (nat * substitution) => True); [cbn; lia|intros; eapply s_component; auto|eapply ew_mono; [|exact I]; lia|exact Logic.I]. }
  intros [m a] [K1 _]. cbn [fst snd] in *. assert (Q1 : Sq s (set_mem (next_pid s) m)). { constructor; auto; [split; auto|cbn; lia]. }
  destruct (snd a) as [[c su]|].
  - destruct rest as [|r1 rest]; [exact Q1|]. apply ifok_bind'; intros rest' AA. apply ifok_bind'; intros k Hk.
    assert (SGx : SG (with_term (GoalSequenceDeduction powdecay g (c_spike k) (s_time s)) (hd zero_term rest'))) by (split; [exact Logic.I|left; reflexivity]).
    eapply ifok_impl; [apply IH; [apply Q1|exact SGx]|]. intros; eapply Sq_trans; eauto.
  - eapply ifok_bind; [eapply (s_addg nm powdecay penalty layers fuel (s_pid s + 1) B1); [apply K1|]|].
    + destruct first; [split; apply P|exact P].
    + intros m1 G1. cbn [ifok]. apply (Sq_mem' s (set_mem (next_pid s) m)); auto.
Qed.
Lemma s_sequence s goal prio layer : st s -> SG goal ->
  ifok (GoalSequenceDecomposition nm av simdist powdecay penalty layers condition fuel s goal prio layer) (fun r => Sq s (fst r)).
Proof.
  intros I P. unfold GoalSequenceDecomposition. destruct (negb _); [apply Sq_refl; auto|]. apply ifok_bind'; intros comps C.
  eapply ifok_bind; [apply s_decompose; [exact I|split; apply P]|]. intros s1 Q1. exact Q1.
Qed.
(** *** whole cycles *)
Record sv (s : cstate) : Prop := { sv_e : st s; sv_b : forall e p, s_selB s = Some (e, p) -> SB e; sv_g : forall e p, s_selG s = Some (e, p) -> SG e }.
Record sw (s : cstate) : Prop := { sw_e : st s; sw_g : 0 < layers \/ forall e p, s_selG s = Some (e, p) -> SG e }.
Lemma sv_w s : sv s -> sw s. Proof. intros [S1 S2 S3]. constructor; auto. Qed.
Definition up (s s' : cstate) : Prop := sv s' /\ (s_pid s <= s_pid s')%Z.
Lemma up_refl s : sv s -> up s s. Proof. split; auto. lia. Qed.
Lemma up_trans a b c : up a b -> up b c -> up a c. Proof. intros [A1 A2] [B1 B2]. split; auto. lia. Qed.
Lemma sv_Sq s s' : sv s -> Sq s s' -> up s s'.
Proof. intros [S1 S2 S3] [Q1 Q2 Q3 Q4]. split; [|lia]. constructor; rewrite ?Q3, ?Q4; auto. Qed.
Lemma sv_mem s m : sv s -> ew (s_pid s) m -> up s (set_mem s m).
Proof. intros S E. apply sv_Sq; auto. apply Sq_mem; auto. apply S. Qed.
Section Nested.
Variable cyc : cstate -> res cstate.
Hypothesis CE : forall s, sw s -> ifok (cyc s) (up s).
Lemma s_addinputevent s m e now : (0 <= s_pid s)%Z -> ew (s_pid s) m -> ifok (AddInputEvent nm powdecay penalty layers fuel m e now) (ew (s_pid s)).
Proof.
  intros I0 I. unfold AddInputEvent. destruct (Z.eq_dec (e_type e) EVENT_TYPE_GOAL) as [E|E].
  - eapply s_addg; auto. split; auto.
  - eapply s_add; auto. split; auto.
Qed.
Lemma u_input s t ty tv et off : sw s -> ifok (AddInput nm powdecay penalty layers fuel cyc s t ty tv et off) (up s).
Proof.
  intros S. unfold AddInput. destruct (Event_InputEvent _ _ _ _ _ _) as [e g] eqn:E. cbv zeta in *.
  set (e' := if et then _ else _) in *. clearbody e'. assert (S1 : sw (set_ids s g)) by (destruct S; constructor; auto).
  eapply ifok_bind; [apply (s_addinputevent (set_ids s g)); apply S1|]. intros m K1. eapply ifok_impl; [apply CE|].
  { destruct S1 as [[X1 X2] X3]. constructor; auto. split; auto. }
  intros s' [U1 U2]. split; auto.
Qed.
Lemma u_call s now d : sv s -> ifok (call_operation nm av simdist powdecay penalty layers ca act fuel cyc s now d) (up s).
Proof.
  intros S. unfold call_operation. pose proof (up_refl _ S) as Z.
  destruct (_ =? _); [exact Z|]. destruct (nth_error _ _) as [op|] eqn:O; [|exact Logic.I]. destruct (feedback_term _ _) as [t|] eqn:FT; [|exact Z]. destruct (_ =? _)%Z; [exact Logic.I|].
  cbv zeta. set (x := mkX op (d_args d)). set (s1 := set_trace s (x :: s_trace s)). assert (S1 : sv s1) by (destruct S; constructor; auto).
  assert (X : up s s1) by (split; [exact S1|cbn; lia]).
  destruct (fb_failed _); [exact X|]. apply ifok_bind'; intros su SU. destruct su as [su|]; [|exact X]. apply ifok_bind'; intros [t' ok] AP. destruct (negb ok); [exact X|].
  eapply ifok_bind; [apply u_input, sv_w; auto|]. intros s2 [U1 U2]. eapply ifok_bind.
  { eapply s_missing; [apply U1|apply U1|split; exact Logic.I]. }
  intros m3 K3. cbn [ifok]. eapply up_trans; [exact X|]. eapply up_trans; [split; [exact U1|exact U2]|]. apply sv_mem; auto.
Qed.
Lemma u_execute s now d : sv s -> ifok (Decision_Execute nm av simdist powdecay penalty layers ca act fuel cyc s now d) (up s).
Proof.
  intros S. unfold Decision_Execute. eapply ifok_bind; [eapply s_functional; [apply S|apply S|split; exact Logic.I]|]. intros m K1.
  pose proof (sv_mem _ _ S K1) as U. eapply ifok_impl; [apply u_call; apply U|]. intros s2 U2. exact (up_trans _ _ _ U U2).
Qed.
Lemma u_goals s now layer : sv s -> ifok (ProcessAndInferGoalEvents nm av simdist powdecay penalty layers threshold condition ca chance babbling_ops act fuel cyc s now layer) (up s).
Proof.
  intros S. unfold ProcessAndInferGoalEvents.
  eapply ifok_bind with (P := fun r => Sq s (fst r)).
  { destruct (s_selG s) as [[goal p]|] eqn:SGx; [|cbn [ifok fst snd]; apply Sq_refl, S]. pose proof (sv_g _ S _ _ SGx) as PGg.
    eapply ifok_bind; [apply s_sequence; [apply S|exact PGg]|]. intros [s1 isseq] Q1. cbn [fst] in Q1. destruct isseq; [exact Q1|].
    eapply ifok_bind; [apply s_sensorimotor; [apply Q1|destruct PGg as [_ X]; split; [exact Logic.I|right; exact X]]|].
    intros [s2 d] Q2. cbn [fst snd ifok] in *. eapply Sq_trans; eauto. }
  intros [s1 d] Q1. cbn [fst snd] in *. pose proof (sv_Sq _ _ S Q1) as U1. pose proof (proj1 U1) as S1.
  eapply ifok_bind with (P := up s).
  { destruct (d_execute d && _); [|exact U1]. assert (S2 : sv (set_selG (set_mem s1 (ResetGoals (s_mem s1))) None)).
    { destruct S1 as [[X1 X2] X3 X4]. constructor; cbn; auto; [split; [exact X1|cbn; apply (s_reset (s_pid s1)); auto]|discriminate]. }
    eapply ifok_impl; [apply u_execute; exact S2|]. intros s2 [V1 V2]. split; auto. cbn in V2. destruct U1. lia. }
  intros s2 U2. pose proof (proj1 U2) as S2. destruct (s_selG s2) as [[g2 p2]|] eqn:SG2; [|exact U2]. destruct (d_execute d); [exact U2|]. cbv zeta.
  destruct (sv_e _ S2) as [I0 I]. assert (B1 : (0 <= s_pid s2 + 1)%Z) by lia.
  eapply ifok_bind; [apply (s_related (s_pid s2 + 1)) with (P := fun _ : unit => True); [cbn; lia|intros; eapply s_gbody; auto; eapply (sv_g _ S2); eauto|eapply ew_mono; [|exact I]; lia|exact Logic.I]|].
  intros [m u] [K1 _]. cbn [fst ifok] in *. eapply up_trans; [exact U2|]. split; [|cbn; lia]. destruct S2 as [X1 X2 X3]; constructor; auto. split; auto.
Qed.
Definition selB_ok (s : cstate) : Prop := forall e p, s_selB s = Some (e, p) -> SB e.
Lemma u_popB s : sw s -> sw (PopBelief s) /\ selB_ok (PopBelief s) /\ s_selG (PopBelief s) = s_selG s /\ s_pid (PopBelief s) = s_pid s.
Proof.
  intros [[S0 [S1 S2]] S4]. unfold PopBelief. destruct (PopEvent _) as [q x] eqn:E.
  assert (Z0 : SB event0) by (split; [exact Logic.I|discriminate]). destruct (pop_nth SB _ _ _ (ew_b _ _ _ _ S1) Z0 E) as [P1 P2].
  split; [|split; [exact P2|split; reflexivity]]. constructor; cbn; auto. split; [exact S0|]. split; [|exact S2]. destruct S1 as [W1 W2 W3]. constructor; auto. cbn. rewrite P1. auto.
Qed.
Lemma sw_Sq s s' : sw s -> selB_ok s -> Sq s s' -> sw s' /\ selB_ok s' /\ (s_pid s <= s_pid s')%Z.
Proof. intros [S1 S2] B [Q1 Q2 Q3 Q4]. unfold selB_ok in *. rewrite Q3. split; auto. constructor; rewrite ?Q4; auto. Qed.
Lemma u_popG s layer : sw s -> selB_ok s -> ifok (PopGoal s layer) (up s).
Proof.
  intros [[S0 [S1 S2]] S4] S3. unfold PopGoal. destruct (nth_error _ _) as [q|] eqn:N; [|exact Logic.I]. destruct (PopEvent q) as [q' x] eqn:E.
  pose proof (Forall_error _ _ _ _ (ew_g _ _ _ _ S1) N) as Fq. cbn in Fq.
  assert (Z0 : SG event0) by (split; [exact Logic.I|right; reflexivity]). destruct (pop_nth SG _ _ _ Fq Z0 E) as [P1 P2]. cbn [ifok].
  split; [|cbn; lia]. constructor; cbn; auto. split; [exact S0|]. split; [|exact S2]. destruct S1 as [W1 W2 W3]. constructor; auto. cbn. apply Forall_upd; auto. rewrite P1. auto.
Qed.
Lemma u_layer now s layer : sw s -> selB_ok s -> ifok (goal_layer nm av simdist powdecay penalty layers threshold condition ca chance babbling_ops act fuel cyc now s layer) (up s).
Proof. intros S B. unfold goal_layer. eapply ifok_bind; [apply u_popG; auto|]. intros s1 U1. eapply ifok_impl; [apply u_goals, U1|]. intros s2 U2. exact (up_trans _ _ _ U1 U2). Qed.
Lemma u_layers now l : forall s, sw s -> selB_ok s -> (l = [] -> forall e p, s_selG s = Some (e, p) -> SG e) ->
  ifok (foldM (goal_layer nm av simdist powdecay penalty layers threshold condition ca chance babbling_ops act fuel cyc now) l s) (up s).
Proof.
  induction l as [|x l IH]; intros s S B GG; cbn [foldM]; [apply up_refl; destruct S; constructor; [assumption|exact B|exact (GG eq_refl)]|]. eapply ifok_bind; [apply u_layer; auto|].
  intros s1 U1. eapply ifok_impl; [apply IH; [apply sv_w, U1|exact (sv_b _ (proj1 U1))|intros _; exact (sv_g _ (proj1 U1))]|]. intros s2 U2. exact (up_trans _ _ _ U1 U2).
Qed.
Lemma u_perform s : sw s -> ifok (Cycle_Perform nm av simdist powdecay penalty layers threshold condition athr ca chance babbling_ops act fuel cyc s) (up s).
Proof.
  intros S. unfold Cycle_Perform. cbv zeta. destruct (u_popB _ S) as (S1 & B1 & G1 & I1). set (s1 := PopBelief s) in *. clearbody s1.
  eapply ifok_bind; [apply s_beliefs; apply S1|]. intros s2 Q2.
  destruct (sw_Sq _ _ S1 B1 Q2) as (S2 & B2 & I2).
  eapply ifok_bind; [eapply s_anticipate; apply S2|]. intros m3 K3.
  assert (S3 : sw (set_mem s2 m3)) by (destruct S2 as [[X1 X2] X3]; constructor; auto; split; auto).
  eapply ifok_bind; [apply u_layers; [exact S3|exact B2|]|].
  { intros L e p X. cbn in X. rewrite (sq_selG _ _ Q2), G1 in X. destruct (sw_g _ S) as [GG|GG]; [apply (f_equal (@length _)) in L; rewrite seq_length in L; cbn in L; lia|]. eapply GG; eauto. }
  intros s4 U4. pose proof (proj1 U4) as S4.
  eapply ifok_bind; [apply s_inference; apply S4|]. intros s5 Q5. pose proof (sv_Sq _ _ S4 Q5) as U5. cbn [ifok].
  assert (U : up s4 (set_mem s5 (RelativeForgetting (s_mem s5) (s_time s)))). { eapply up_trans; [exact U5|]. apply sv_mem; [apply U5|]. apply s_forget, U5. }
  split; [apply U|]. destruct U as [_ U]. destruct U4 as [_ U4]. cbn in U, U4 |- *. lia.
Qed.
End Nested.
Lemma u_cycle depth : forall s, sw s -> ifok (one_cycle nm av simdist powdecay penalty layers threshold condition athr ca chance babbling_ops act fuel depth s) (up s).
Proof.
  induction depth as [|depth IH]; intros s S; cbn [one_cycle]; [exact Logic.I|]. eapply ifok_bind; [apply u_perform; auto|]. intros s1 [U1 U2]. cbn [ifok]. split; [destruct U1; constructor; auto|exact U2].
Qed.
Lemma u_cycles depth n : forall s, sw s -> ifok (Cycles nm av simdist powdecay penalty layers threshold condition athr ca chance babbling_ops act fuel depth n s) sw.
Proof.
  induction n as [|n IH]; intros s S; cbn [Cycles]; [exact S|]. eapply ifok_bind; [apply u_cycle; auto|]. intros s1 U1. apply IH, sv_w, U1.
Qed.
Lemma u_docall depth s c : sw s -> ifok (do_call nm av simdist powdecay penalty layers threshold condition athr ca chance babbling_ops act fuel depth s c) sw.
Proof.
  intros S. destruct c; cbn [do_call]; [apply u_cycles; auto|]. unfold NAR_AddInput. eapply ifok_impl; [apply u_input; [intros; apply u_cycle; auto|exact S]|]. intros s' [U _]. apply sv_w, U.
Qed.
End W.
