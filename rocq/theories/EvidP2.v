(** Evidence: goals, executions, whole cycles and histories. *)
From Coq Require Import ZArith List Bool Lia.
From Flocq Require Import IEEE754.BinarySingleNaN.
From Verif Require Import Base F64 TruthM StampM StampP HashM TermM NamesM EventM InferenceM TableM UsageM RingM InvIndexM VariableM MemoryM QuestionM DecisionM NalM RulesM CycleM CycleS EverywhereS EverywhereP EvidS CycleP1 CycleP2 CycleP3 CycleP4 EvidP1.
From Verif Require PQueueM HashTableM SysP.
Local Open Scope nat_scope.
Import ListNotations.
#[local] Opaque Term_ExtractSubterm Term_OverrideSubterm zero_term RevisionAndChoice OccurrenceTimeIndex_Add Term_Complexity fmul fltb fleb feqb
  PQueueM.push copulaEquals Truth_Expectation stamp_check_overlap stamp_equal stamp_make fmax Unify UnifyWithAnalogy ApplySubstitute BeliefDeduction BeliefIntersection BeliefInduction
  Conceptualize AddEvent Table_AddAndRevise FindConceptByTerm GetConceptChain ImplicationValid DerivedEvent hasVariable conclusions
  OperationSequenceAppendLeftNested GetPreconditionWithoutOp Truth_Projection Truth_Eternalize Truth_Induction Truth_Intersection getOperationTerm getOperationID
  GoalDeduction GoalSequenceDeduction term_eqb Anticipate kth_newest IntroduceImplicationVariables2 SequenceLength.
Section W.
Variable nm : names.
Variable av : Z -> option (f64 * name).
Variable simdist : f64.
Variable powdecay : Z -> f64.
Variable penalty : nat -> f64.
Variable layers : nat.
Variables threshold condition athr ca chance : f64.
Variable babbling_ops : Z.
Variable act : list exec -> exec -> feedback.
Variable fuel : nat.
Section M.
Variable W : stamp -> Prop.
Hypothesis W0 : W stamp_zero.
Hypothesis WM : forall a b, W a -> W b -> W (stamp_make a b).
Notation SB := (SB W).
Notation SG := (SG W).
Notation SI := (SI W).
Notation SD := (SD W).
Notation Sq := (Sq W).
Notation ew := (everywhere SB SG SI).
Notation all t := (Forall SI (t_array t)).
Lemma s_component now comp rest last m a c : ew m -> True ->
  ifok (component_body nm av simdist powdecay condition now comp rest last m a c) (fun r => ew (fst (fst r)) /\ True).
Proof.
  intros I _. unfold component_body. cbv zeta. apply ifok_bind'; intros k Hk. destruct (hasVariable _ _ _ _ _); [cbn; auto|].
  apply ifok_bind'; intros su U. destruct (_ || _); [cbn; auto|]. destruct (_ <? _)%Z; [cbn; auto|].
  destruct (fltb _ _); [cbn; auto|]. apply ifok_bind'; intros ok _. cbn [ifok fst snd]. auto.
Qed.
Lemma s_decompose n : forall s prio layer todo first last g, ew (s_mem s) -> SG g ->
  ifok (decompose nm av simdist powdecay penalty layers condition fuel n s prio layer todo first last g) (Sq s).
Proof.
  induction n as [|n IH]; intros s prio layer todo first last g I P; cbn [decompose]; [apply Sq_refl; auto|]. destruct todo as [|comp rest]; [apply Sq_refl; auto|]. cbv zeta.
  eapply ifok_bind.
  { apply (s_related W) with (P := fun _ : f64 * option (nat * substitution) => True); [intros; apply s_component; auto|exact I|exact Logic.I]. }
  intros [m a] [K1 _]. cbn [fst snd] in *. assert (Q1 : Sq s (set_mem (next_pid s) m)). { constructor; auto. }
  destruct (snd a) as [[c su]|].
  - destruct rest as [|r1 rest]; [exact Q1|]. apply ifok_bind'; intros rest' AA. apply ifok_bind'; intros k Hk.
    assert (SGx : SG (with_term (GoalSequenceDeduction powdecay g (c_spike k) (s_time s)) (hd zero_term rest'))).
    { split; [|left; reflexivity]. cbn. apply WM; [apply (s_spike W _ _ _ K1 Hk)|apply P]. }
    eapply ifok_impl; [apply IH; [apply K1|]|].
    + exact SGx.
    + intros; eapply Sq_trans; eauto.
  - eapply ifok_bind; [apply (s_addg nm powdecay penalty layers fuel W W0 WM); [apply K1|]|].
    + destruct first; [split; apply P|exact P].
    + intros m1 G1. cbn [ifok]. eapply Sq_trans; [exact Q1|]. apply Sq_mem. exact G1.
Qed.
Lemma s_sequence s goal prio layer : ew (s_mem s) -> SG goal ->
  ifok (GoalSequenceDecomposition nm av simdist powdecay penalty layers condition fuel s goal prio layer) (fun r => Sq s (fst r)).
Proof.
  intros I P. unfold GoalSequenceDecomposition. destruct (negb _); [apply Sq_refl; auto|]. apply ifok_bind'; intros comps C.
  eapply ifok_bind; [apply s_decompose; [exact I|split; apply P]|]. intros s1 Q1. exact Q1.
Qed.
Lemma s_subgoal m now prio layer c imp : ew m -> SI imp -> ifok (subgoal nm av simdist powdecay penalty layers fuel m now prio layer c imp) ew.
Proof.
  intros I P. unfold subgoal. apply ifok_bind'; intros k Hk. apply ifok_bind'; intros su U. destruct (negb _); [exact I|].
  apply ifok_bind'; intros [t ok] AP. destruct (negb ok); [exact I|]. apply ifok_bind'; intros g Hg. cbv zeta. eapply s_addg; eauto.
  Transparent GoalDeduction. unfold GoalDeduction in Hg. Opaque GoalDeduction. destruct (rassert _); cbn [rbind] in Hg; try discriminate. apply okinj in Hg. subst g.
  split; [|left; reflexivity]. cbn. pose proof (proj1 (s_goal W _ _ _ I Hk)). apply WM; auto.
Qed.
Lemma s_linksof m c k opi t : ew m -> cread m c = Ok k -> links_of k opi = Ok t -> all t.
Proof. intros I H. pose proof (s_read W _ _ _ I H) as KA. destruct opi; cbn [links_of]; [apply (s_pre W); auto|]. intros X; apply okinj in X; subst. apply KA. Qed.
Lemma s_setlinks m c opi t : ew m -> all t -> ifok (cmod m c (fun k => set_links k opi t)) ew.
Proof. intros I A. apply (s_cmod W); auto. intros k _ KA. destruct opi; cbn [set_links]; [apply kall_pre|apply kall_links]; auto. Qed.
Lemma s_loop n : forall j m now prio layer c opi, ew m -> ifok (subgoal_loop nm av simdist powdecay penalty layers fuel n j m now prio layer c opi) ew.
Proof.
  induction n as [|n IH]; intros j m now prio layer c opi I; cbn [subgoal_loop]; [exact I|]. apply ifok_bind'; intros k Hk. apply ifok_bind'; intros t Ht.
  pose proof (s_linksof _ _ _ _ _ I Hk Ht) as A. destruct (_ <? _); [|exact I]. apply ifok_bind'; intros v _. destruct (negb v).
  - eapply ifok_bind; [apply s_setlinks; auto; apply all_remove; auto; exact W0|]. intros m1 K1. apply IH; auto.
  - eapply ifok_bind; [apply s_subgoal; auto; apply (s_slot W W0); auto|]. intros m1 G1. apply IH; auto.
Qed.
Lemma s_gbody goal now prio layer m a c : SG goal -> ew m -> ifok (subgoal_body nm av simdist powdecay penalty layers fuel goal now prio layer m a c) (fun r => ew (fst (fst r)) /\ True).
Proof.
  intros P I. unfold subgoal_body. apply ifok_bind'; intros k Hk. apply ifok_bind'; intros su _. destruct (negb _); [cbn; auto|]. apply ifok_bind'; intros r R.
  apply (rac_SG nm powdecay W WM) in R; [|eapply (s_goal W); eauto|exact P]. eapply ifok_bind; [apply (s_cmod W); [exact I|intros; apply kall_goal; auto]|]. intros m1 K1.
  eapply ifok_bind; [apply (s_foldM' W); [intros; apply s_loop; auto|exact K1]|]. intros m2 G2. cbn [ifok fst]. auto.
Qed.
Lemma s_generalised m now e side seen : ew m -> SB e -> ifok (add_generalised nm powdecay penalty layers fuel m now e side seen) (fun r => ew (fst r)).
Proof.
  intros I P. unfold add_generalised. apply ifok_bind'; intros [ok t] H. destruct (_ && _); [|exact I].
  eapply ifok_bind; [eapply s_add; eauto; split; apply P|]. intros m1 K1. exact K1.
Qed.
Lemma s_equivalence m now t v st seen : ew m -> W st -> ifok (add_equivalence nm powdecay penalty layers fuel m now t v st seen) (fun r => ew (fst r)).
Proof.
  intros I H. unfold add_equivalence. cbv zeta. assert (P : SB (mkEvent t EVENT_TYPE_BELIEF v st now f0 false 0 false)) by (split; [exact H|discriminate]).
  eapply ifok_bind; [eapply s_add; eauto|]. intros m1 K1. eapply ifok_bind; [apply s_generalised; auto; apply K1|]. intros [m2 t2] K2. cbn [fst] in K2.
  eapply ifok_bind; [apply s_generalised; auto; apply K2|]. intros [m3 t3] K3. exact K3.
Qed.
Lemma s_compare m now spec cons cmp : ew m -> SI spec -> SI cmp -> ifok (compare_links nm powdecay penalty layers fuel m now spec cons cmp) ew.
Proof.
  intros I A B. unfold compare_links. destruct (hasVariable _ _ _ _ _); [exact I|]. cbv zeta. destruct (term_eqb _ _); [exact I|].
  destruct (if _ && _ then _ else _) as [q1 q2]. destruct (negb _); [exact I|]. destruct (stamp_check_overlap _ _); [exact I|].
  assert (WW : W (stamp_make (i_stamp spec) (i_stamp cmp))) by (apply WM; auto).
  destruct (implication_of q1 q2) as [ok1 t1]. apply ifok_bind'; intros free _. eapply ifok_bind with (P := fun r => ew (fst r)). { destruct free; [apply s_equivalence; auto|exact I]. }
  intros [m1 seen] K1. cbn [fst] in K1. destruct (implication_of q2 q1) as [ok2 t2]. apply ifok_bind'; intros free2 _. destruct free2; [|exact K1].
  eapply ifok_bind; [apply s_equivalence; auto; apply K1|]. intros [m2 s2] K2. exact K2.
Qed.
Lemma s_eqloop n : forall j m now spec cons g opi, ew m -> SI spec -> ifok (equivalence_loop nm powdecay penalty layers fuel n j m now spec cons g opi) ew.
Proof.
  induction n as [|n IH]; intros j m now spec cons g opi I P; cbn [equivalence_loop]; [exact I|]. apply ifok_bind'; intros k Hk. apply ifok_bind'; intros t Ht.
  destruct (_ <? _); [|exact I]. eapply ifok_bind; [apply s_compare; auto; apply (s_slot W W0), (s_pre W _ _ _ (s_read W _ _ _ I Hk) Ht)|]. intros m1 K1. apply IH; auto.
Qed.
Lemma s_functional m now d : ew m -> SD d -> ifok (functional_equivalence nm powdecay penalty layers fuel m now d) ew.
Proof.
  intros I D. unfold functional_equivalence. cbv zeta. destruct (_ && _); [|exact I]. apply ifok_bind'; intros g _. destruct g; [|exact I]. apply s_eqloop; auto. apply D.
Qed.
Lemma s_missing m now d : ew m -> SD d -> ifok (missing_case nm powdecay ca m now d) ew.
Proof.
  intros I D. unfold missing_case. destruct (_ =? _)%Z; [exact I|]. eapply ifok_bind; [apply (s_conc nm powdecay W W0 WM); auto|]. intros [m1 p] K1. cbn [fst] in K1.
  destruct p as [p|]; [|exact K1]. destruct (d_reason d) as [r|]; [|exact Logic.I]. apply ifok_bind'; intros rk _. apply ifok_bind'; intros k Hk. apply ifok_bind'; intros t Ht.
  eapply ifok_bind; [eapply s_negative; eauto; apply (s_pre W _ _ _ (s_read W _ _ _ K1 Hk) Ht)|]. intros t' A.
  apply (s_cmod W); auto. intros; apply kall_pre; auto.
Qed.
Lemma s_reset m : ew m -> ew (ResetGoals m).
Proof. intros [W1 W2 W3]. constructor; auto. cbn. rewrite Forall_map. exact W2. Qed.
Lemma s_forget m now : ew m -> ew (RelativeForgetting m now).
Proof.
  intros [W1 W2 W3]. constructor; cbn; auto; [rewrite Forall_map; exact W2|]. revert W3. generalize (m_store m). generalize (map PQueueM.address (PQueueM.contents (m_concepts m))) as l.
  intros l. induction l as [|c l IH]; intros st F; cbn [fold_left]; auto. apply IH. destruct (nth_error st c) as [k|] eqn:N; auto. apply Forall_upd; auto. apply (Forall_error _ _ _ _ F N).
Qed.
End M.
End W.
