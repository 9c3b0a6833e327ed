(** Evidence: whole cycles and histories. *)
From Coq Require Import ZArith List Bool Lia.
From Flocq Require Import IEEE754.BinarySingleNaN.
From Verif Require Import Base F64 TruthM StampM StampP HashM TermM NamesM EventM InferenceM TableM UsageM RingM InvIndexM VariableM MemoryM QuestionM DecisionM NalM RulesM CycleM CycleS EverywhereS EverywhereP EvidS CycleP1 CycleP2 CycleP3 CycleP4 EvidP1 EvidP2.
From Verif Require PQueueM HashTableM SysP.
Local Open Scope nat_scope.
Import ListNotations.
#[local] Opaque Term_ExtractSubterm Term_OverrideSubterm zero_term RevisionAndChoice OccurrenceTimeIndex_Add Term_Complexity fmul fltb fleb feqb
  PQueueM.push copulaEquals Truth_Expectation stamp_check_overlap stamp_equal stamp_make fmax Unify UnifyWithAnalogy ApplySubstitute BeliefDeduction BeliefIntersection BeliefInduction
  Conceptualize AddEvent Table_AddAndRevise FindConceptByTerm GetConceptChain ImplicationValid DerivedEvent hasVariable conclusions
  OperationSequenceAppendLeftNested GetPreconditionWithoutOp Truth_Projection Truth_Eternalize Truth_Induction Truth_Intersection getOperationTerm getOperationID
  GoalDeduction GoalSequenceDeduction term_eqb Anticipate kth_newest IntroduceImplicationVariables2 SequenceLength
  GoalSequenceDecomposition ProcessSensorimotorEvent.
Section W.
Variable nm : names.
Variable av : Z -> option (f64 * name).
Variable simdist : f64.
Variable powdecay : Z -> f64.
Variable penalty : nat -> f64.
Variable layers : nat.
Variables threshold condition athr ca chance : f64.
Variable babbling_ops : Z.
Variable act : list exec -> exec -> feedback.
Variable fuel : nat.
(** *** states: evidence from [A] and from the inputs numbered from [b0] on *)
Section N.
Variable A : Z -> Prop.
Variable b0 : Z.
Definition Wn (n : Z) : stamp -> Prop := rests_on (fun i => A i \/ (b0 <= i < n)%Z).
Lemma Wn0 n : Wn n stamp_zero. Proof. split; [reflexivity|]. constructor. Qed.
Lemma WnM n a b : Wn n a -> Wn n b -> Wn n (stamp_make a b).
Proof.
  intros [A1 A2] [B1 B2]. destruct (stamp_make_ids a b A1 B1) as [E L]. Transparent stamp_make. split; [exact E|]. Opaque stamp_make. rewrite L. rewrite Forall_forall in *. intros x X. apply In_firstn, interleave_In in X. destruct X; auto.
Qed.
Lemma Wn_mono n n' st : (n <= n')%Z -> Wn n st -> Wn n' st.
Proof. intros L [H1 H2]. split; [exact H1|]. eapply Forall_impl; [|exact H2]. cbn. intros i [X|X]; [left; exact X|right; lia]. Qed.
Lemma Wn_A n st : rests_on A st -> Wn n st.
Proof. intros [H1 H2]. split; [exact H1|]. eapply Forall_impl; [|exact H2]. cbn. intros i X. left; exact X. Qed.
Notation base s := (g_base (s_ids s)).
Notation ev n := (everywhere (SB (Wn n)) (SG (Wn n)) (SI (Wn n))).
Lemma ev_mono n n' m : (n <= n')%Z -> ev n m -> ev n' m.
Proof. intros L. apply SysP.everywhere_impl; [intros e [X Y]|intros e [X Y]|intros i X]; try split; auto; eapply Wn_mono; eauto. Qed.
Record sv (s : cstate) : Prop := {
  sv_n : (b0 <= base s)%Z; sv_e : ev (base s) (s_mem s); sv_b : forall e p, s_selB s = Some (e, p) -> SB (Wn (base s)) e;
  sv_g : forall e p, s_selG s = Some (e, p) -> SG (Wn (base s)) e; sv_i : rests_on A (g_import (s_ids s)) }.
(** ... with nothing said about what was picked earlier, which is picked anew unless there are no goal layers *)
Record sw (s : cstate) : Prop := {
  sw_n : (b0 <= base s)%Z; sw_e : ev (base s) (s_mem s); sw_g : 0 < layers \/ forall e p, s_selG s = Some (e, p) -> SG (Wn (base s)) e; sw_i : rests_on A (g_import (s_ids s)) }.
Lemma sv_w s : sv s -> sw s. Proof. intros [S1 S2 S3 S4 S5]. constructor; auto. Qed.
Definition up (s s' : cstate) : Prop := sv s' /\ (base s <= base s')%Z.
Lemma up_refl s : sv s -> up s s. Proof. split; auto. lia. Qed.
Lemma up_trans a b c : up a b -> up b c -> up a c. Proof. intros [A1 A2] [B1 B2]. split; auto. lia. Qed.
Lemma sv_Sq s s' : sv s -> EvidP1.Sq (Wn (base s)) s s' -> up s s'.
Proof. intros [S1 S2 S3 S4 S5] [Q1 Q2 Q3 Q4]. split; [|rewrite Q2; lia]. constructor; rewrite ?Q2, ?Q3, ?Q4; auto. Qed.
Lemma sv_mem s m : sv s -> ev (base s) m -> up s (set_mem s m).
Proof. intros S E. apply sv_Sq; auto. constructor; auto. Qed.
Lemma ids_input b : Forall (fun i => i = b) (ids (upd stamp_zero 0 b)).
Proof. cbn. destruct (b =? STAMP_FREE)%Z; repeat constructor. Qed.
Lemma s_input s t ty tv off et : sw s ->
  let e := fst (Event_InputEvent (s_ids s) t ty tv off (s_time s)) in let g := snd (Event_InputEvent (s_ids s) t ty tv off (s_time s)) in
  let e := if et : bool then with_occ e OCCURRENCE_ETERNAL else e in
  (base s <= g_base g)%Z /\ Wn (g_base g) (e_stamp e) /\ rests_on A (g_import g) /\ e_type e = ty.
Proof.
  intros [S1 S2 S4 S5]. cbv zeta. assert (E : forall x, e_stamp (if et then with_occ x OCCURRENCE_ETERNAL else x) = e_stamp x /\ e_type (if et then with_occ x OCCURRENCE_ETERNAL else x) = e_type x) by (intros; destruct et; auto).
  destruct (E (fst (Event_InputEvent (s_ids s) t ty tv off (s_time s)))) as [-> ->]. clear E. unfold Event_InputEvent. destruct (negb _); cbn [fst snd e_stamp e_type g_base g_import].
  - replace (base s + 1 - 1)%Z with (base s) by lia. split; [lia|]. split; [apply Wn_A, S5|]. split; [split; [reflexivity|constructor]|reflexivity].
  - split; [lia|]. split; [|split; [exact S5|reflexivity]]. split; [reflexivity|]. eapply Forall_impl; [|apply ids_input]. cbn. intros i ->. right; lia.
Qed.
Lemma s_addinputevent s m e now : ev (base s) m -> Wn (base s) (e_stamp e) -> ifok (AddInputEvent nm powdecay penalty layers fuel m e now) (ev (base s)).
Proof.
  intros I H. unfold AddInputEvent. destruct (Z.eq_dec (e_type e) EVENT_TYPE_GOAL) as [E|E].
  - apply (s_addg nm powdecay penalty layers fuel _ (Wn0 _) (WnM _)); auto. split; auto.
  - apply (s_add nm powdecay penalty layers fuel _ (Wn0 _) (WnM _)); auto. split; auto.
Qed.
Section Nested.
Variable cyc : cstate -> res cstate.
Hypothesis CE : forall s, sw s -> ifok (cyc s) (up s).
Lemma u_input s t ty tv et off : sw s -> ifok (AddInput nm powdecay penalty layers fuel cyc s t ty tv et off) (up s).
Proof.
  intros S. unfold AddInput. pose proof (s_input s t ty tv off et S) as X. destruct (Event_InputEvent _ _ _ _ _ _) as [e g] eqn:E. cbn [fst snd] in X. cbv zeta in *.
  set (e' := if et then _ else _) in *. clearbody e'. destruct X as (L & X1 & X2 & X3).
  assert (S1 : sw (set_ids s g)). { destruct S as [S1 S2 S4 S5]. constructor; cbn; auto; try lia; [eapply ev_mono; eauto|].
    destruct S4 as [S4|S4]; [left; exact S4|right]. intros e0 p0 X. destruct (S4 _ _ X) as [Y1 Y2]. split; auto. eapply Wn_mono; eauto. }
  eapply ifok_bind; [apply (s_addinputevent (set_ids s g)); [apply S1|exact X1]|]. intros m K1. eapply ifok_impl; [apply CE|].
  { destruct S1. constructor; auto. }
  intros s' [U1 U2]. split; auto. cbn in U2. lia.
Qed.
Notation SDn s := (EvidP1.SD (Wn (base s))).
Lemma u_call s now d : sv s -> SDn s d -> ifok (call_operation nm av simdist powdecay penalty layers ca act fuel cyc s now d) (up s).
Proof.
  intros S D. unfold call_operation. pose proof (up_refl _ S) as Z.
  destruct (_ =? _); [exact Z|]. destruct (nth_error _ _) as [op|] eqn:O; [|exact Logic.I]. destruct (feedback_term _ _) as [t|] eqn:FT; [|exact Z]. destruct (_ =? _)%Z; [exact Logic.I|].
  cbv zeta. set (x := mkX op (d_args d)). set (s1 := set_trace s (x :: s_trace s)). assert (S1 : sv s1) by (destruct S; constructor; auto).
  assert (X : up s s1) by (split; [exact S1|cbn; lia]).
  destruct (fb_failed _); [exact X|]. apply ifok_bind'; intros su SU. destruct su as [su|]; [|exact X]. apply ifok_bind'; intros [t' ok] AP. destruct (negb ok); [exact X|].
  eapply ifok_bind; [apply u_input, sv_w; auto|]. intros s2 [U1 U2]. eapply ifok_bind.
  { apply (s_missing nm powdecay ca (Wn (base s2)) (Wn0 (base s2)) (WnM _)); [apply U1|]. cbn in U2. destruct D as [D1 D2]. split; unfold SI in *; eapply Wn_mono; eauto. }
  intros m3 K3. cbn [ifok]. eapply up_trans; [exact X|]. eapply up_trans; [split; [exact U1|exact U2]|]. apply sv_mem; auto.
Qed.
Lemma u_execute s now d : sv s -> SDn s d -> ifok (Decision_Execute nm av simdist powdecay penalty layers ca act fuel cyc s now d) (up s).
Proof.
  intros S D. unfold Decision_Execute. eapply ifok_bind; [apply (s_functional nm powdecay penalty layers fuel _ (Wn0 (base s)) (WnM _)); [apply S|exact D]|]. intros m K1.
  pose proof (sv_mem _ _ S K1) as U. eapply ifok_impl; [apply u_call; [apply U|exact D]|]. intros s2 U2. exact (up_trans _ _ _ U U2).
Qed.
Lemma u_goals s now layer : sv s -> ifok (ProcessAndInferGoalEvents nm av simdist powdecay penalty layers threshold condition ca chance babbling_ops act fuel cyc s now layer) (up s).
Proof.
  intros S. unfold ProcessAndInferGoalEvents.
  eapply ifok_bind with (P := fun r => EvidP1.Sq (Wn (base s)) s (fst r) /\ SDn s (snd r)).
  { destruct (s_selG s) as [[goal p]|] eqn:SGx; [|cbn [ifok fst snd]; split; [apply Sq_refl, S|apply SD0, Wn0]]. pose proof (sv_g _ S _ _ SGx) as PGg.
    eapply ifok_bind; [apply (s_sequence nm av simdist powdecay penalty layers condition fuel _ (Wn0 (base s)) (WnM _)); [apply S|exact PGg]|]. intros [s1 isseq] Q1. cbn [fst] in Q1. destruct isseq; [split; [exact Q1|apply SD0, Wn0]|].
    eapply ifok_bind; [apply (s_sensorimotor nm av simdist powdecay penalty layers threshold chance babbling_ops fuel _ (Wn0 (base s)) (WnM _)); [apply Q1|destruct PGg as [Y1 Y2]; split; [exact Y1|right; exact Y2]]|].
    intros [s2 d] [Q2 D]. cbn [fst snd ifok] in *. split; [|apply sd_better; auto; apply SD0, Wn0]. eapply Sq_trans; eauto. }
  intros [s1 d] [Q1 D]. cbn [fst snd] in *. pose proof (sv_Sq _ _ S Q1) as U1. pose proof (proj1 U1) as S1. pose proof (sq_ids _ _ _ Q1) as EI.
  eapply ifok_bind with (P := up s).
  { destruct (d_execute d && _); [|exact U1]. assert (S2 : sv (set_selG (set_mem s1 (ResetGoals (s_mem s1))) None)).
    { destruct S1 as [X1 X2 X3 X4 X5]. constructor; cbn; auto; [apply (s_reset _); auto|discriminate]. }
    eapply ifok_impl; [apply u_execute; [exact S2|cbn; rewrite EI; exact D]|]. intros s2 [V1 V2]. split; auto. cbn in V2. rewrite EI in V2. exact V2. }
  intros s2 U2. pose proof (proj1 U2) as S2. destruct (s_selG s2) as [[g2 p2]|] eqn:SG2; [|exact U2]. destruct (d_execute d); [exact U2|]. cbv zeta.
  eapply ifok_bind; [apply (s_related (Wn (base s2))) with (P := fun _ : unit => True); [intros; apply (s_gbody nm av simdist powdecay penalty layers fuel _ (Wn0 (base s2)) (WnM _)); auto; eapply (sv_g _ S2); eauto|apply S2|exact Logic.I]|].
  intros [m u] [K1 _]. cbn [fst ifok] in *. eapply up_trans; [exact U2|]. split; [|cbn; lia]. destruct S2; constructor; auto.
Qed.
Definition selB_ok (s : cstate) : Prop := forall e p, s_selB s = Some (e, p) -> SB (Wn (base s)) e.
Lemma u_popB s : sw s -> sw (PopBelief s) /\ selB_ok (PopBelief s) /\ s_selG (PopBelief s) = s_selG s /\ s_ids (PopBelief s) = s_ids s.
Proof.
  intros [S1 S2 S4 S5]. unfold PopBelief. destruct (PopEvent _) as [q x] eqn:E.
  assert (Z0 : SB (Wn (base s)) event0) by (split; [apply Wn0|discriminate]). destruct (pop_nth (SB (Wn (base s))) _ _ _ (ew_b _ _ _ _ S2) Z0 E) as [P1 P2].
  split; [|split; [exact P2|split; reflexivity]]. constructor; cbn; auto. destruct S2 as [W1 W2 W3]. constructor; auto. cbn. rewrite P1. auto.
Qed.
Lemma sw_Sq s s' : sw s -> selB_ok s -> EvidP1.Sq (Wn (base s)) s s' -> sw s' /\ selB_ok s' /\ base s' = base s.
Proof. intros [S1 S2 S4 S5] B [Q1 Q2 Q3 Q4]. unfold selB_ok in *. rewrite Q2, Q3. split; auto. constructor; rewrite ?Q2, ?Q4; auto. Qed.
Lemma u_popG s layer : sw s -> selB_ok s -> ifok (PopGoal s layer) (up s).
Proof.
  intros [S1 S2 S4 S5] S3. unfold PopGoal. destruct (nth_error _ _) as [q|] eqn:N; [|exact Logic.I]. destruct (PopEvent q) as [q' x] eqn:E.
  pose proof (Forall_error _ _ _ _ (ew_g _ _ _ _ S2) N) as Fq. cbn in Fq.
  assert (Z0 : SG (Wn (base s)) event0) by (split; [apply Wn0|right; reflexivity]). destruct (pop_nth (SG (Wn (base s))) _ _ _ Fq Z0 E) as [P1 P2]. cbn [ifok].
  split; [|cbn; lia]. constructor; cbn; auto. destruct S2 as [W1 W2 W3]. constructor; auto. cbn. apply Forall_upd; auto. rewrite P1. auto.
Qed.
Lemma u_layer now s layer : sw s -> selB_ok s -> ifok (goal_layer nm av simdist powdecay penalty layers threshold condition ca chance babbling_ops act fuel cyc now s layer) (up s).
Proof. intros S B. unfold goal_layer. eapply ifok_bind; [apply u_popG; auto|]. intros s1 U1. eapply ifok_impl; [apply u_goals, U1|]. intros s2 U2. exact (up_trans _ _ _ U1 U2). Qed.
Lemma u_layers now l : forall s, sw s -> selB_ok s -> (l = [] -> forall e p, s_selG s = Some (e, p) -> SG (Wn (base s)) e) ->
  ifok (foldM (goal_layer nm av simdist powdecay penalty layers threshold condition ca chance babbling_ops act fuel cyc now) l s) (up s).
Proof.
  induction l as [|x l IH]; intros s S B GG; cbn [foldM]; [apply up_refl; destruct S; constructor; [assumption|assumption|exact B|exact (GG eq_refl)|assumption]|]. eapply ifok_bind; [apply u_layer; auto|].
  intros s1 U1. eapply ifok_impl; [apply IH; [apply sv_w, U1|exact (sv_b _ (proj1 U1))|intros _; exact (sv_g _ (proj1 U1))]|]. intros s2 U2. exact (up_trans _ _ _ U1 U2).
Qed.
Lemma u_perform s : sw s -> ifok (Cycle_Perform nm av simdist powdecay penalty layers threshold condition athr ca chance babbling_ops act fuel cyc s) (up s).
Proof.
  intros S. unfold Cycle_Perform. cbv zeta. destruct (u_popB _ S) as (S1 & B1 & G1 & I1). set (s1 := PopBelief s) in *. clearbody s1.
  eapply ifok_bind; [apply (s_beliefs nm av simdist powdecay penalty layers threshold athr ca chance babbling_ops fuel _ (Wn0 (base s1)) (WnM _)); [apply S1|exact B1]|]. intros s2 Q2.
  destruct (sw_Sq _ _ S1 B1 Q2) as (S2 & B2 & I2).
  eapply ifok_bind; [apply (s_anticipate nm av simdist powdecay athr ca _ (Wn0 (base s2)) (WnM _)); apply S2|]. intros m3 K3.
  assert (S3 : sw (set_mem s2 m3)) by (destruct S2; constructor; auto).
  eapply ifok_bind; [apply u_layers; [exact S3|exact B2|]|].
  { intros L e p X. cbn in X. rewrite (sq_selG _ _ _ Q2), G1 in X. destruct (sw_g _ S) as [GG|GG]; [apply (f_equal (@length _)) in L; rewrite seq_length in L; cbn in L; lia|]. cbn. rewrite I2, I1. eapply GG; eauto. }
  intros s4 U4. pose proof (proj1 U4) as S4.
  eapply ifok_bind; [apply (s_inference nm av simdist powdecay penalty layers fuel _ (Wn0 (base s4)) (WnM _)); apply S4|]. intros s5 Q5. pose proof (sv_Sq _ _ S4 Q5) as U5. cbn [ifok].
  assert (U : up s4 (set_mem s5 (RelativeForgetting (s_mem s5) (s_time s)))). { eapply up_trans; [exact U5|]. apply sv_mem; [apply U5|]. apply s_forget, U5. }
  split; [apply U|]. destruct U as [_ U]. destruct U4 as [_ U4]. cbn in U, U4 |- *. rewrite I2, I1 in U4. lia.
Qed.
End Nested.
Lemma u_cycle depth : forall s, sw s -> ifok (one_cycle nm av simdist powdecay penalty layers threshold condition athr ca chance babbling_ops act fuel depth s) (up s).
Proof.
  induction depth as [|depth IH]; intros s S; cbn [one_cycle]; [exact Logic.I|]. eapply ifok_bind; [apply u_perform; auto|]. intros s1 [U1 U2]. cbn [ifok]. split; [destruct U1; constructor; auto|exact U2].
Qed.
Definition upw (s s' : cstate) : Prop := sw s' /\ (base s <= base s')%Z /\ (sv s -> sv s').
Lemma up_w s s' : up s s' -> upw s s'. Proof. intros [A1 A2]. split; [apply sv_w; auto|auto]. Qed.
Lemma upw_trans a b c : upw a b -> upw b c -> upw a c. Proof. intros (A1 & A2 & A3) (B1 & B2 & B3). split; auto. split; [lia|auto]. Qed.
Lemma u_cycles depth n : forall s, sw s -> ifok (Cycles nm av simdist powdecay penalty layers threshold condition athr ca chance babbling_ops act fuel depth n s) (upw s).
Proof.
  induction n as [|n IH]; intros s S; cbn [Cycles]; [split; [exact S|split; [lia|auto]]|]. eapply ifok_bind; [apply u_cycle; auto|]. intros s1 U1.
  eapply ifok_impl; [apply IH, sv_w, U1|]. intros s2 U2. exact (upw_trans _ _ _ (up_w _ _ U1) U2).
Qed.
Lemma u_docall depth s c : sw s -> ifok (do_call nm av simdist powdecay penalty layers threshold condition athr ca chance babbling_ops act fuel depth s c) (upw s).
Proof.
  intros S. destruct c; cbn [do_call]; [apply u_cycles; auto|]. unfold NAR_AddInput. eapply ifok_impl; [apply u_input; [intros; apply u_cycle; auto|exact S]|]. apply up_w.
Qed.
End N.
End W.
