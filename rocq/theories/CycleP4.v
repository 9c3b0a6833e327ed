(** The walk continued: goals, executions, whole cycles and histories of calls. *)
From Coq Require Import ZArith List Bool Lia.
From Flocq Require Import IEEE754.BinarySingleNaN.
From Verif Require Import Base F64 TruthM StampM HashM TermM NamesM EventM InferenceM TableM UsageM RingM InvIndexM VariableM MemoryM QuestionM DecisionM NalM RulesM CycleM EverywhereS EverywhereP CycleP1 CycleP2 CycleP3.
From Verif Require PQueueM HashTableM.
Local Open Scope nat_scope.
Import ListNotations.
#[local] Opaque Term_ExtractSubterm Term_OverrideSubterm zero_term RevisionAndChoice OccurrenceTimeIndex_Add Term_Complexity fmul fltb fleb feqb
  PQueueM.push copulaEquals Truth_Expectation stamp_check_overlap stamp_equal stamp_make fmax Unify UnifyWithAnalogy ApplySubstitute BeliefDeduction BeliefIntersection BeliefInduction
  Conceptualize AddEvent Table_AddAndRevise FindConceptByTerm GetConceptChain ImplicationValid DerivedEvent hasVariable conclusions
  OperationSequenceAppendLeftNested GetPreconditionWithoutOp Truth_Projection Truth_Eternalize Truth_Induction Truth_Intersection getOperationTerm getOperationID
  GoalDeduction GoalSequenceDeduction term_eqb Anticipate kth_newest IntroduceImplicationVariables2 SequenceLength.

(** no goal is queued *)
Definition no_goals (m : memory) : Prop := Forall (fun q => PQueueM.amount (eq_q q) = 0) (m_goals m).

Section W.
Variable nm : names.
Variable av : Z -> option (f64 * name).
Variable simdist : f64.
Variable powdecay : Z -> f64.
Variable penalty : nat -> f64.
Variable layers : nat.
Variables threshold condition athr ca chance : f64.
Variable babbling_ops : Z.
Variable act : list exec -> exec -> feedback.
Variable fuel : nat.
Variable T : term -> Prop.
Hypothesis TC : tclosed T.
Variable J : memory -> Prop.
Hypothesis JC : jclosed nm powdecay penalty layers fuel T J.
Hypothesis AT : forall l x, Forall T (fb_map (act l x)) /\ forall t, fb_stdin (act l x) = SLine t -> T t.
Notation PB := (PB T).
Notation PG := (PG T).
Notation PI := (PI T).
Notation Inv := (Inv T J).
Notation K := (K T J).
Notation G := (G T J).
Notation Q := (Q T J).
Notation DK := (DK T).
Notation all t := (Forall PI (t_array t)).
Ltac kt := eapply K_trans; eauto.
Ltac gt := eapply G_trans; eauto.
(** *** goals that are sequences *)
Record QG (s s' : cstate) : Prop := {
  qg_mem : G (s_mem s) (s_mem s'); qg_time : s_time s' = s_time s; qg_trace : s_trace s' = s_trace s; qg_ids : s_ids s' = s_ids s;
  qg_selB : s_selB s' = s_selB s; qg_selG : s_selG s' = s_selG s }.
Lemma QG_refl s : Inv (s_mem s) -> QG s s. Proof. intros; constructor; auto using G_refl. Qed.
Lemma QG_trans a b c : QG a b -> QG b c -> QG a c. Proof. intros [A1 A2 A3 A4 A5 A6] [B1 B2 B3 B4 B5 B6]. constructor; try congruence. gt. Qed.
Lemma Q_QG a b : Q a b -> QG a b. Proof. intros [A1 A2 A3 A4 A5 A6]. constructor; auto using K_G. Qed.
Lemma QG_mem s m : G (s_mem s) m -> QG s (set_mem s m). Proof. intros; constructor; auto. Qed.
Lemma G_inv a b : G a b -> Inv b. Proof. intros H; apply H. Qed.
Definition PC (a : f64 * option (nat * substitution)) : Prop := match snd a with Some (_, s) => Forall T (s_map s) | None => True end.
Lemma k_component now comp rest last m a c : Inv m -> PC a ->
  ifok (component_body nm av simdist powdecay condition now comp rest last m a c) (fun r => K m (fst (fst r)) /\ PC (snd (fst r))).
Proof.
  intros I P. assert (Z : K m m) by auto using K_refl. unfold component_body. cbv zeta. apply ifok_bind'; intros k Hk. destruct (hasVariable _ _ _ _ _); [cbn; auto|].
  apply ifok_bind'; intros su U. apply (t_unify nm T TC) in U; [|eapply (r_term _ _ _ _ _ _ _ JC); eauto]. destruct (_ || _); [cbn; auto|]. destruct (_ <? _)%Z; [cbn; auto|].
  destruct (fltb _ _); [cbn; auto|]. apply ifok_bind'; intros ok _. cbn [ifok fst snd]. split; auto. destruct (_ && _); auto.
Qed.
Lemma t_components n : forall t acc l, T t -> Forall T acc -> seq_components nm n t acc = Ok l -> Forall T l.
Proof.
  induction n as [|n IH]; intros t acc l P F; cbn [seq_components].
  - destruct (copulaEquals _ _ _); [destruct (rassert _); discriminate|]. destruct (_ <=? _); [|discriminate]. intros H; apply okinj in H; subst. apply Forall_app. auto.
  - destruct (copulaEquals _ _ _).
    + destruct (rassert _); cbn [rbind]; try discriminate. apply IH; [apply (te T TC); auto|]. apply Forall_app. split; auto. constructor; auto. apply (te T TC); auto.
    + destruct (_ <=? _); [|discriminate]. intros H; apply okinj in H; subst. apply Forall_app. auto.
Qed.
Lemma t_applyall s l : Forall T (s_map s) -> forall l', Forall T l -> apply_all nm l s = Ok l' -> Forall T l'.
Proof.
  intros F. induction l as [|t l IH]; intros l' H; cbn [apply_all]; [intros X; apply okinj in X; subst; auto|]. inversion H; subst.
  destruct (ApplySubstitute nm t s) as [[t' ok]| |] eqn:E; cbn [rbind]; try discriminate. apply (t_apply nm T TC) in E; auto. destruct (rassert _); cbn [rbind]; try discriminate.
  destruct (apply_all nm l s) as [l2| |] eqn:E2; cbn [rbind]; try discriminate. intros X; apply okinj in X; subst. constructor; auto.
Qed.
Lemma seqded_PG c k now : PG c -> T (e_term (GoalSequenceDeduction powdecay c k now)) /\ e_type (GoalSequenceDeduction powdecay c k now) = EVENT_TYPE_GOAL.
Proof. intros [A B]. Transparent GoalSequenceDeduction. unfold GoalSequenceDeduction. Opaque GoalSequenceDeduction. cbn. auto. Qed.
Lemma qg_decompose n : forall s prio layer todo first last g, Inv (s_mem s) -> Forall T todo -> PG g ->
  ifok (decompose nm av simdist powdecay penalty layers condition fuel n s prio layer todo first last g) (QG s).
Proof.
  induction n as [|n IH]; intros s prio layer todo first last g I F P; cbn [decompose]; [apply QG_refl; auto|]. destruct todo as [|comp rest]; [apply QG_refl; auto|]. cbv zeta.
  inversion F; subst.
  eapply ifok_bind.
  { eapply (related_ok nm powdecay penalty layers fuel T J JC K) with (P := PC); try (exact (K_refl T J) || exact (K_trans T J) || exact (K_inv T J) || (intros; assumption));
      [intros; apply k_component; auto|exact Logic.I]. }
  intros [m a] [K1 C]. cbn [fst snd] in *. assert (Q1 : QG s (set_mem (next_pid s) m)). { constructor; auto. apply K_G, K1. }
  unfold PC in C. destruct (snd a) as [[c su]|].
  - destruct rest as [|r1 rest]; [exact Q1|]. set (RR := r1 :: rest) in *. apply ifok_bind'; intros rest' AA. apply t_applyall in AA; auto. apply ifok_bind'; intros k Hk.
    eapply ifok_impl; [apply IH; [apply K1|exact AA|]|].
    + destruct (seqded_PG g (c_spike k) (s_time s) P) as [A1 A2]. split; [|left; exact A2]. cbn. destruct AA; cbn [hd]; [apply (t0 T TC)|auto].
    + intros; eapply QG_trans; eauto.
  - eapply ifok_bind; [eapply g_add; eauto; [apply K1|]|].
    + destruct first; auto. split; [cbn; auto|apply P].
    + intros m1 G1. cbn [ifok]. eapply QG_trans; [exact Q1|]. apply QG_mem. exact G1.
Qed.
Lemma qg_sequence s goal prio layer : Inv (s_mem s) -> PG goal ->
  ifok (GoalSequenceDecomposition nm av simdist powdecay penalty layers condition fuel s goal prio layer) (fun r => QG s (fst r)).
Proof.
  intros I P. unfold GoalSequenceDecomposition. destruct (negb _); [apply QG_refl; auto|]. apply ifok_bind'; intros comps C. apply t_components in C; auto; [|apply P].
  eapply ifok_bind; [apply qg_decompose; [exact I|apply Forall_rev; auto|split; apply P]|]. intros s1 Q1. exact Q1.
Qed.
(** *** subgoals *)
Lemma g_subgoal m now prio layer c imp : Inv m -> PI imp -> ifok (subgoal nm av simdist powdecay penalty layers fuel m now prio layer c imp) (G m).
Proof.
  intros I P. unfold subgoal. apply ifok_bind'; intros k Hk. apply ifok_bind'; intros su U. apply (t_unify nm T TC) in U; [|eapply (r_goal T J); eauto]. destruct (negb _); [apply G_refl; auto|].
  apply ifok_bind'; intros [t ok] AP. apply (t_apply nm T TC) in AP; auto. destruct (negb ok); [apply G_refl; auto|]. apply ifok_bind'; intros g Hg. cbv zeta. eapply g_add; eauto.
  Transparent GoalDeduction. unfold GoalDeduction in Hg. Opaque GoalDeduction. destruct (rassert _); cbn [rbind] in Hg; try discriminate. apply okinj in Hg. subst g.
  split; [|left; reflexivity]. cbn. apply (t_precond nm T TC), (te T TC). exact AP.
Qed.
Lemma r_linksof m c k opi t : Inv m -> cread m c = Ok k -> links_of k opi = Ok t -> all t.
Proof. intros I H. pose proof (r_kall T J _ _ _ I H) as KA. destruct opi; cbn [links_of]; [apply (r_pre T); auto|]. intros X; apply okinj in X; subst. apply KA. Qed.
Lemma k_setlinks m c opi t : Inv m -> all t -> ifok (cmod m c (fun k => set_links k opi t)) (K m).
Proof. intros I A. destruct opi; cbn [set_links]; [eapply k_pre|eapply k_links]; eauto. Qed.
Lemma g_loop n : forall j m now prio layer c opi, Inv m -> ifok (subgoal_loop nm av simdist powdecay penalty layers fuel n j m now prio layer c opi) (G m).
Proof.
  induction n as [|n IH]; intros j m now prio layer c opi I; cbn [subgoal_loop]; [apply G_refl; auto|]. apply ifok_bind'; intros k Hk. apply ifok_bind'; intros t Ht.
  pose proof (r_linksof _ _ _ _ _ I Hk Ht) as A. destruct (_ <? _); [|apply G_refl; auto]. apply ifok_bind'; intros v _. destruct (negb v).
  - eapply ifok_bind; [apply k_setlinks; auto; apply all_remove; auto; apply (PI0 T TC)|]. intros m1 K1. eapply ifok_impl; [apply IH, K1|]. intros; eapply G_trans; [apply K_G, K1|auto].
  - eapply ifok_bind; [apply g_subgoal; auto; apply (r_slot T TC); auto|]. intros m1 G1. eapply ifok_impl; [apply IH, G1|]. intros; gt.
Qed.
Lemma foldM_G {A} (f : memory -> A -> res memory) l : (forall m a, Inv m -> ifok (f m a) (G m)) -> forall m, Inv m -> ifok (foldM f l m) (G m).
Proof.
  intros H. induction l as [|a l IH]; intros m I; cbn [foldM]; [apply G_refl; auto|]. eapply ifok_bind; [apply H; auto|]. intros m1 G1. eapply ifok_impl; [apply IH, G1|]. intros; gt.
Qed.
Lemma g_body goal now prio layer m a c : PG goal -> Inv m -> ifok (subgoal_body nm av simdist powdecay penalty layers fuel goal now prio layer m a c) (fun r => G m (fst (fst r)) /\ True).
Proof.
  intros P I. unfold subgoal_body. apply ifok_bind'; intros k Hk. apply ifok_bind'; intros su _. destruct (negb _); [cbn; auto using G_refl|]. apply ifok_bind'; intros r R.
  apply (rac_PG nm powdecay T) in R; [|eapply (r_goal T J); eauto|exact P]. eapply ifok_bind; [eapply k_goal; eauto|]. intros m1 K1. eapply ifok_bind; [apply foldM_G; [|apply K1]|].
  - intros; apply g_loop; auto.
  - intros m2 G2. cbn [ifok fst]. split; auto. eapply G_trans; [apply K_G, K1|auto].
Qed.
(** *** execution *)
Lemma t_drop n : forall a b, T a -> T b -> T (fst (drop_common nm n a b)) /\ T (snd (drop_common nm n a b)).
Proof.
  pose proof (te T TC) as E. induction n as [|n IH]; intros a b A B; cbn [drop_common]; [cbn [fst snd]; split; assumption|].
  pose proof (E a 1 A) as A1. pose proof (E a 2 A) as A2. pose proof (E b 1 B) as B1. pose proof (E b 2 B) as B2. cbv zeta.
  generalize dependent (Term_ExtractSubterm a 1). generalize dependent (Term_ExtractSubterm a 2). generalize dependent (Term_ExtractSubterm b 1). generalize dependent (Term_ExtractSubterm b 2).
  intros b2 B2 b1 B1 a2 A2 a1 A1. destruct (term_eqb a1 b1); [destruct (_ && _); [apply IH; assumption|cbn [fst snd]; split; assumption]|].
  destruct (term_eqb a2 b2); [destruct (_ && _); [apply IH; assumption|cbn [fst snd]; split; assumption]|]. cbn [fst snd]; split; assumption.
Qed.
Lemma t_implication a b : T a -> T b -> T (snd (implication_of a b)).
Proof.
  intros A B. unfold implication_of. cbv zeta. destruct (Term_OverrideSubterm _ 1 a) as [o1 t1] eqn:E1. apply (to' T TC) in E1; auto; [|apply (t_cop' T TC), (t0 T TC)].
  destruct (Term_OverrideSubterm t1 2 b) as [o2 t2] eqn:E2. apply (to' T TC) in E2; auto.
Qed.
Notation Addg := (AddEvent nm powdecay penalty layers fuel).
Lemma k_generalised m now e side seen : Inv m -> PB e -> ifok (add_generalised nm powdecay penalty layers fuel m now e side seen) (fun r => K m (fst r)).
Proof.
  intros I P. unfold add_generalised. apply ifok_bind'; intros [ok t] H. apply (t_intro2 nm T TC) in H; [|apply P]. destruct (_ && _); [|apply K_refl; auto].
  eapply ifok_bind; [eapply k_add; eauto; split; [exact H|apply P]|]. intros m1 K1. exact K1.
Qed.
Lemma k_equivalence m now t v st seen : Inv m -> T t -> ifok (add_equivalence nm powdecay penalty layers fuel m now t v st seen) (fun r => K m (fst r)).
Proof.
  intros I H. unfold add_equivalence. cbv zeta. assert (P : PB (mkEvent t EVENT_TYPE_BELIEF v st now f0 false 0 false)) by (split; [exact H|discriminate]).
  eapply ifok_bind; [eapply k_add; eauto|]. intros m1 K1. eapply ifok_bind; [apply k_generalised; auto; apply K1|]. intros [m2 t2] K2. cbn [fst] in K2.
  eapply ifok_bind; [apply k_generalised; auto; apply K2|]. intros [m3 t3] K3. cbn [fst ifok] in *. eapply K_trans; [exact K1|]. kt.
Qed.
Lemma k_compare m now spec cons cmp : Inv m -> PI spec -> PI cmp -> ifok (compare_links nm powdecay penalty layers fuel m now spec cons cmp) (K m).
Proof.
  intros I A B. unfold compare_links. destruct (hasVariable _ _ _ _ _); [apply K_refl; auto|]. cbv zeta. destruct (term_eqb _ _); [apply K_refl; auto|].
  set (p1 := GetPreconditionWithoutOp nm (Term_ExtractSubterm (i_term spec) 1)). set (p2 := GetPreconditionWithoutOp nm (Term_ExtractSubterm (i_term cmp) 1)).
  assert (T1 : T p1) by (apply (t_precond nm T TC), (te T TC); exact A). assert (T2 : T p2) by (apply (t_precond nm T TC), (te T TC); exact B). clearbody p1 p2.
  assert (T12 : forall b, T (fst (if b : bool then drop_common nm 7 p1 p2 else (p1, p2))) /\ T (snd (if b then drop_common nm 7 p1 p2 else (p1, p2)))).
  { intros [|]; [apply t_drop; auto|auto]. }
  specialize (T12 (copulaEquals nm (at_ p1 0) SEQUENCE && copulaEquals nm (at_ p2 0) SEQUENCE)). destruct (if _ && _ then _ else _) as [q1 q2]. cbn [fst snd] in T12. destruct T12 as [X1 X2].
  destruct (negb _); [apply K_refl; auto|]. destruct (stamp_check_overlap _ _); [apply K_refl; auto|].
  pose proof (t_implication _ _ X1 X2) as I1. destruct (implication_of q1 q2) as [ok1 t1]. pose proof (t_implication _ _ X2 X1) as I2. cbn [snd] in *.
  apply ifok_bind'; intros free _. eapply ifok_bind with (P := fun r => K m (fst r)). { destruct free; [apply k_equivalence; auto|apply K_refl; auto]. }
  intros [m1 seen] K1. cbn [fst] in K1. destruct (implication_of q2 q1) as [ok2 t2]. cbn [snd] in *. apply ifok_bind'; intros free2 _. destruct free2; [|exact K1].
  eapply ifok_bind; [apply k_equivalence; auto; apply K1|]. intros [m2 s2] K2. cbn [ifok fst] in *. kt.
Qed.
Lemma k_eqloop n : forall j m now spec cons g opi, Inv m -> PI spec -> ifok (equivalence_loop nm powdecay penalty layers fuel n j m now spec cons g opi) (K m).
Proof.
  induction n as [|n IH]; intros j m now spec cons g opi I P; cbn [equivalence_loop]; [apply K_refl; auto|]. apply ifok_bind'; intros k Hk. apply ifok_bind'; intros t Ht.
  destruct (_ <? _); [|apply K_refl; auto]. eapply ifok_bind; [apply k_compare; auto; apply (r_slot T TC), (r_pre T _ _ _ (r_kall T J _ _ _ I Hk) Ht)|].
  intros m1 K1. eapply ifok_impl; [apply IH; auto; apply K1|]. intros; kt.
Qed.
Lemma k_functional m now d : Inv m -> DK d -> ifok (functional_equivalence nm powdecay penalty layers fuel m now d) (K m).
Proof.
  intros I D. unfold functional_equivalence. cbv zeta. destruct (_ && _); [|apply K_refl; auto]. apply ifok_bind'; intros g _. destruct g; [|apply K_refl; auto]. apply k_eqloop; auto. apply D.
Qed.
Lemma t_feedback op args t : T op -> T args -> feedback_term op args = Some t -> T t.
Proof.
  intros A B. unfold feedback_term. destruct (_ <=? _)%Z; [intros H; inversion H; subst; auto|]. cbv zeta.
  destruct (Term_OverrideSubterm _ 1 args) as [o1 t1] eqn:E1. apply (to' T TC) in E1; auto; [|apply (t_cop' T TC), (t0 T TC)]. destruct o1; [|discriminate].
  destruct (Term_OverrideSubterm t1 2 op) as [o2 t2] eqn:E2. apply (to' T TC) in E2; auto. destruct o2; [|discriminate]. intros H; inversion H; subst; auto.
Qed.
Lemma k_missing m now d : Inv m -> DK d -> ifok (missing_case nm powdecay ca m now d) (K m).
Proof.
  intros I D. unfold missing_case. destruct (_ =? _)%Z; [apply K_refl; auto|]. eapply ifok_bind; [eapply k_conc; eauto; apply (te T TC), D|]. intros [m1 p] K1. cbn [fst] in K1.
  destruct p as [p|]; [|exact K1]. destruct (d_reason d) as [r|]; [|exact Logic.I]. apply ifok_bind'; intros rk _. apply ifok_bind'; intros k Hk. apply ifok_bind'; intros t Ht.
  eapply ifok_bind; [apply (k_negative powdecay ca T TC); [apply (r_pre T _ _ _ (r_kall T J _ _ _ (K_inv _ _ _ _ K1) Hk) Ht)|apply D]|]. intros t' A.
  eapply ifok_impl; [eapply k_pre; eauto; apply K1|]. intros; kt.
Qed.
(** *** states *)
Record sok (s : cstate) : Prop := {
  so_i : Inv (s_mem s); so_b : forall e p, s_selB s = Some (e, p) -> PB e; so_g : forall e p, s_selG s = Some (e, p) -> PG e }.
(** ... and at the start of a cycle, whatever was selected before (a cycle selects anew) *)
Definition sokw (s : cstate) : Prop := Inv (s_mem s) /\ (0 < layers \/ forall e p, s_selG s = Some (e, p) -> PG e).
Lemma sok_w s : sok s -> sokw s. Proof. intros [A B C]. split; auto. Qed.
Definition sokb (s : cstate) : Prop := Inv (s_mem s) /\ forall e p, s_selB s = Some (e, p) -> PB e.
Lemma sok_b s : sok s -> sokb s. Proof. intros [A B C]. split; auto. Qed.
Lemma sok_Q s s' : sok s -> Q s s' -> sok s'. Proof. intros [A B C] [D1 D2 D3 D4 D5 D6]. constructor; [apply D1|rewrite D5; auto|rewrite D6; auto]. Qed.
Lemma sok_QG s s' : sok s -> QG s s' -> sok s'. Proof. intros [A B C] [D1 D2 D3 D4 D5 D6]. constructor; [apply D1|rewrite D5; auto|rewrite D6; auto]. Qed.
Lemma sok_mem s m : sok s -> Inv m -> sok (set_mem s m). Proof. intros [A B C] I. constructor; auto. Qed.
Lemma ng_K m m' : K m m' -> no_goals m -> no_goals m'. Proof. intros (_ & E & _). unfold no_goals. rewrite E. auto. Qed.
Lemma ops_K m m' : K m m' -> m_ops m' = m_ops m. Proof. intros (_ & _ & E & _). exact E. Qed.
Lemma ops_G m m' : G m m' -> m_ops m' = m_ops m. Proof. intros (_ & E & _). exact E. Qed.
Lemma pop_nth P q q' x : Forall P (eq_store q) -> P event0 -> PopEvent q = (q', x) -> eq_store q' = eq_store q /\ forall e p, x = Some (e, p) -> P e.
Proof.
  intros F Z. unfold PopEvent. destruct (PQueueM.pop_max _ _ _) as [[q1 it]|]; intros H; injection H as <- <-; cbn; split; auto; [|discriminate].
  intros e p X. injection X as <- <-. apply Forall_nth'; auto.
Qed.
Lemma ok_popB s : Inv (s_mem s) -> sokb (PopBelief s) /\ s_selG (PopBelief s) = s_selG s /\ same_rest (s_mem s) (s_mem (PopBelief s)) /\ s_time (PopBelief s) = s_time s /\ s_trace (PopBelief s) = s_trace s.
Proof.
  intros I. unfold PopBelief. pose proof (jc_popb _ _ _ _ _ _ _ JC _ (iv_j _ _ _ I)) as JJ. destruct (PopEvent _) as [q x] eqn:E. cbn [fst] in JJ.
  destruct (pop_nth PB _ _ _ (ew_b _ _ _ _ (iv_e _ _ _ I)) (PB0 nm powdecay T TC) E) as [S1 S2].
  split; [|split; [reflexivity|repeat split]]. split; cbn; auto. constructor; [|exact JJ|apply I]. destruct (iv_e _ _ _ I) as [W1 W2 W3]. constructor; auto. cbn. rewrite S1. auto.
Qed.
Lemma pop_empty q q' x : PQueueM.amount (eq_q q) = 0 -> PopEvent q = (q', x) -> q' = q /\ x = None.
Proof. unfold PopEvent, PQueueM.pop_max. intros H. rewrite H. change (0 =? 0) with true. cbv iota. intros X; injection X as <- <-; auto. Qed.
Lemma ok_popG s layer : sokb s -> ifok (PopGoal s layer) (fun s' => sok s' /\ G (s_mem s) (s_mem s') /\ s_time s' = s_time s /\ s_trace s' = s_trace s /\
   (no_goals (s_mem s) -> no_goals (s_mem s') /\ s_selG s' = None)).
Proof.
  intros [I B]. unfold PopGoal. destruct (nth_error _ _) as [q|] eqn:N; [|exact Logic.I]. pose proof (jc_popg _ _ _ _ _ _ _ JC _ _ _ (iv_j _ _ _ I) N) as JJ.
  destruct (PopEvent q) as [q' x] eqn:E. cbn [fst] in JJ. pose proof (Forall_error _ _ _ _ (ew_g _ _ _ _ (iv_e _ _ _ I)) N) as Fq. cbn in Fq.
  destruct (pop_nth PG _ _ _ Fq (PG0 nm powdecay T TC) E) as [S1 S2]. cbn [ifok].
  assert (I' : Inv (set_goals (s_mem s) (upd (m_goals (s_mem s)) layer q'))).
  { constructor; [|exact JJ|apply I]. destruct (iv_e _ _ _ I) as [W1 W2 W3]. constructor; auto. cbn. apply Forall_upd; auto. rewrite S1; auto. }
  split; [constructor; cbn; auto|]. split; [split; [exact I'|]; cbn; rewrite upd_length; auto|]. split; auto. split; auto. unfold no_goals. cbn. intros F.
  pose proof (Forall_error _ _ _ _ F N) as Z. cbn in Z. destruct (pop_empty _ _ _ Z E) as [-> ->]. split; auto. apply Forall_upd; auto.
Qed.
Lemma ok_reset m : Inv m -> G m (ResetGoals m) /\ no_goals (ResetGoals m).
Proof.
  intros I. split; [split; [constructor|]|].
  - destruct (iv_e _ _ _ I) as [W1 W2 W3]. constructor; auto. cbn. rewrite Forall_map. exact W2.
  - apply (jc_reset _ _ _ _ _ _ _ JC), I.
  - apply I.
  - cbn. rewrite map_length. auto.
  - unfold no_goals. cbn. rewrite Forall_map. apply Forall_forall. reflexivity.
Qed.
Lemma kall_store l : forall st, Forall (in_concept PB PG PI) st -> Forall (in_concept PB PG PI) (fold_left (fun st c => match nth_error st c with
                                   | Some k => upd st c (with_priority k (fmul (c_priority k) CONCEPT_DURABILITY))
                                   | None => st end) l st).
Proof. induction l as [|c l IH]; intros st F; cbn [fold_left]; auto. apply IH. destruct (nth_error st c) as [k|] eqn:N; auto. apply Forall_upd; auto. apply (Forall_error _ _ _ _ F N). Qed.
Lemma ok_forget m now : Inv m -> G m (RelativeForgetting m now) /\ (no_goals m -> no_goals (RelativeForgetting m now)).
Proof.
  intros I. split; [split; [constructor|]|].
  - destruct (iv_e _ _ _ I) as [W1 W2 W3]. constructor; cbn; auto; [|apply kall_store; auto]. rewrite Forall_map. exact W2.
  - apply (jc_forget _ _ _ _ _ _ _ JC), I.
  - apply I.
  - cbn. rewrite map_length. auto.
  - unfold no_goals. cbn. rewrite Forall_map. auto.
Qed.
(** *** cycles *)
Notation DoGoals := (ProcessAndInferGoalEvents nm av simdist powdecay penalty layers threshold condition ca chance babbling_ops act fuel).
Notation Input := (AddInput nm powdecay penalty layers fuel).
(** what a cycle without goals does *)
Record idle (s s' : cstate) : Prop := {
  id_ok : sok s'; id_ops : m_ops (s_mem s') = m_ops (s_mem s); id_goals : no_goals (s_mem s'); id_time : s_time s' = (s_time s + 1)%Z; id_trace : s_trace s' = s_trace s }.
Section Nested.
Variable cyc : cstate -> res cstate.
Hypothesis CE : forall s, sok s -> no_goals (s_mem s) -> ifok (cyc s) (idle s).
(** what a goal phase does: nothing to clock and executions, or exactly one execution *)
Inductive done (s s' : cstate) : Prop :=
| done_not : s_time s' = s_time s -> s_trace s' = s_trace s -> done s s'
| done_exec x : s_trace s' = x :: s_trace s -> In (x_op x) (m_ops (s_mem s)) -> T (x_args x) -> no_goals (s_mem s') ->
    (s_time s' = s_time s \/ s_time s' = (s_time s + 1)%Z /\ fb_failed (act (s_trace s) x) = false) -> done s s'.
Definition phase (s s' : cstate) : Prop := sok s' /\ m_ops (s_mem s') = m_ops (s_mem s) /\ done s s'.
Lemma ok_input s t ty tv et off : Inv (s_mem s) -> T t ->
  ifok (AddInputEvent nm powdecay penalty layers fuel (s_mem s) (let e := fst (Event_InputEvent (s_ids s) t ty tv off (s_time s)) in if et : bool then with_occ e OCCURRENCE_ETERNAL else e) (s_time s))
    (fun m => G (s_mem s) m /\ (ty <> EVENT_TYPE_GOAL -> K (s_mem s) m)).
Proof.
  intros S H. unfold AddInputEvent. set (e := if et then _ else _).
  assert (TE : T (e_term e) /\ e_type e = ty). { unfold e, Event_InputEvent. destruct (negb _), et; cbn; auto. } destruct TE as [TE TY]. clearbody e.
  destruct (Z.eq_dec ty EVENT_TYPE_GOAL) as [E|E].
  - eapply ifok_impl; [eapply g_add; eauto; [split; auto; left; congruence]|]. intros; split; auto. congruence.
  - eapply ifok_impl; [eapply k_add; eauto; [split; auto; congruence]|]. intros; split; auto using K_G.
Qed.
Lemma ok_feedback s t tv : sok s -> T t -> no_goals (s_mem s) -> ifok (Input cyc s t EVENT_TYPE_BELIEF tv false f0) (idle s).
Proof.
  intros S H N. unfold AddInput. pose proof (ok_input s t EVENT_TYPE_BELIEF tv false f0 (so_i _ S) H) as A. destruct (Event_InputEvent _ _ _ _ _ _) as [e g] eqn:E. cbn [fst] in A. cbv zeta in *.
  change (s_mem (set_ids s g)) with (s_mem s). change (s_time (set_ids s g)) with (s_time s).
  eapply ifok_bind; [exact A|]. intros m [_ K1]. specialize (K1 ltac:(discriminate)). eapply ifok_impl; [apply CE|].
  - apply sok_mem; [|apply K1]. destruct S; constructor; auto.
  - eapply ng_K; eauto.
  - intros s' [A1 A2 A3 A4 A5]. constructor; auto. rewrite A2. apply (ops_K _ _ K1).
Qed.
Lemma ok_call s now d : sok s -> DK d -> no_goals (s_mem s) ->
  ifok (call_operation nm av simdist powdecay penalty layers ca act fuel cyc s now d) (fun s' => phase s s' /\ no_goals (s_mem s')).
Proof.
  intros S D N. unfold call_operation. assert (Z : phase s s /\ no_goals (s_mem s)). { split; auto. split; auto. split; auto. constructor; auto. }
  destruct (_ =? _); [exact Z|]. destruct (nth_error _ _) as [op|] eqn:O; [|exact Logic.I]. destruct (feedback_term _ _) as [t|] eqn:FT; [|exact Z]. destruct (_ =? _)%Z; [exact Logic.I|].
  cbv zeta. set (x := mkX op (d_args d)). set (s1 := set_trace s (x :: s_trace s)). assert (S1 : sok s1) by (destruct S; constructor; auto).
  pose proof (Forall_error _ _ _ _ (iv_o _ _ _ (so_i _ S)) O) as [TO _]. apply t_feedback in FT; [|exact TO|apply D].
  assert (X : phase s s1 /\ no_goals (s_mem s1)).
  { split; auto. split; auto. split; auto. eapply done_exec with (x := x); auto; [eapply nth_error_In; eauto|apply D]. }
  destruct (fb_failed _) eqn:FF; [exact X|]. eapply ifok_bind with (P := fun o => forall su, o = Some su -> Forall T (s_map su)).
  { destruct (AT (s_trace s) x) as [AT1 AT2]. destruct (op_stdout op).
    - destruct (fb_stdin _) as [| |line]; [cbn; discriminate|exact Logic.I|]. apply ifok_bind'; intros su U. cbn [ifok]. apply (t_unify nm T TC) in U; [|apply AT2; auto].
      destruct (s_success su); [|discriminate]. intros su' X'. injection X' as <-. exact U.
    - cbn [ifok]. intros su X'. injection X' as <-. exact AT1. }
  intros su SU. destruct su as [su|]; [|exact X]. specialize (SU su eq_refl). apply ifok_bind'; intros [t' ok] AP. apply (t_apply nm T TC) in AP; auto. destruct (negb ok); [exact X|].
  eapply ifok_bind; [apply ok_feedback; auto; apply N|]. intros s2 [A1 A2 A3 A4 A5]. eapply ifok_bind; [apply k_missing; [apply A1|exact D]|]. intros m3 K3. cbn [ifok].
  assert (N3 : no_goals m3) by (eapply ng_K; eauto). split; auto. split; [apply sok_mem; auto; apply K3|]. split; [cbn; rewrite (ops_K _ _ K3); auto|].
  eapply done_exec with (x := x); auto; [eapply nth_error_In; eauto|apply D].
Qed.
Lemma done_G s0 s s' : m_ops (s_mem s) = m_ops (s_mem s0) -> s_time s = s_time s0 -> s_trace s = s_trace s0 -> done s s' -> done s0 s'.
Proof. intros A B C [D1 D2|x D1 D2 D3 D4 D5]; [left; congruence|]. rewrite B in D5; rewrite C in D1, D5; rewrite A in D2. apply done_exec with (x := x); auto. Qed.
Lemma ok_execute s now d : sok s -> DK d -> no_goals (s_mem s) ->
  ifok (Decision_Execute nm av simdist powdecay penalty layers ca act fuel cyc s now d) (fun s' => phase s s' /\ no_goals (s_mem s')).
Proof.
  intros S D N. unfold Decision_Execute. eapply ifok_bind; [apply k_functional; auto; apply S|]. intros m K1. pose proof (ops_K _ _ K1) as O.
  eapply ifok_impl; [apply ok_call; auto; [apply sok_mem; auto; apply K1|eapply ng_K; eauto]|]. intros s' [(A1 & A2 & A3) A4]. split; auto. split; auto. cbn in A2. split; [congruence|].
  eapply done_G; [| | |exact A3]; auto.
Qed.
Lemma ok_goals s now layer : sok s -> ifok (DoGoals cyc s now layer) (fun s' => phase s s' /\ (s_selG s = None -> s' = s)).
Proof.
  intros S. unfold ProcessAndInferGoalEvents. destruct (s_selG s) as [[goal p]|] eqn:SG.
  2:{ cbn [rbind]. cbn [d_execute decision0 andb rbind]. rewrite SG. cbn. split; auto. split; auto. split; auto. constructor; auto. }
  pose proof (so_g _ S _ _ SG) as PGg.
  eapply ifok_bind with (P := fun r => QG s (fst r) /\ DK (snd r)).
  { eapply ifok_bind; [apply qg_sequence; auto; apply S|]. intros [s1 isseq] Q1. cbn [fst] in Q1. destruct isseq; [split; [exact Q1|apply (DK0 T TC)]|].
    eapply ifok_bind; [eapply q_sensorimotor; eauto; [apply Q1|apply PE_G; auto]|]. intros [s2 d] [Q2 D]. cbn [fst snd ifok] in *. split; [|apply dk_better; auto; apply (DK0 T TC)].
    eapply QG_trans; [exact Q1|]. apply Q_QG; auto. }
  intros [s1 d] [Q1 D]. cbn [fst snd] in *. pose proof (sok_QG _ _ S Q1) as S1.
  assert (P1 : phase s s1). { split; auto. split; [apply (ops_G _ _ (qg_mem _ _ Q1))|]. left; apply Q1. }
  destruct (d_execute d) eqn:DE.
  - destruct (0 <? d_opid d); cbn [andb].
    + destruct (ok_reset (s_mem s1) (so_i _ S1)) as [R1 R2]. eapply ifok_bind.
      { apply ok_execute; [|exact D|exact R2]. destruct S1 as [X1 X2 X3]. constructor; cbn; auto; [apply R1|discriminate]. }
      intros s2 [P2 N2]. assert (P02 : phase s s2).
      { destruct P2 as (A1 & A2 & A3). split; auto. split; [cbn in A2; rewrite A2; apply P1|]. eapply done_G; [| | |exact A3]; [apply P1|apply Q1|apply Q1]. }
      destruct (s_selG s2) as [[g2 p2]|]; cbn; split; auto; discriminate.
    + cbn [rbind]. destruct (s_selG s1) as [[g2 p2]|]; cbn; split; auto; discriminate.
  - cbn [andb rbind]. destruct (s_selG s1) as [[g2 p2]|] eqn:SG1; [|cbn; split; auto; discriminate]. eapply ifok_bind.
    { eapply (related_ok nm powdecay penalty layers fuel T J JC G) with (P := fun _ : unit => True); try (exact (G_refl T J) || exact (G_trans T J) || exact G_inv || exact (K_G T J) || (intros; assumption));
      [intros; apply g_body; auto; rewrite (qg_selG _ _ Q1) in SG1; rewrite SG in SG1; injection SG1 as <- <-; auto|apply S1|exact Logic.I]. }
    intros [m2 u] [G2 _]. cbn [fst snd ifok] in *. split; [|discriminate]. destruct P1 as (A1 & A2 & A3). split; [|split].
    + destruct S1. constructor; auto. apply G2.
    + cbn. rewrite (ops_G _ _ G2). exact A2.
    + left; apply Q1.
Qed.
Lemma ok_layer now s layer : sokb s -> ifok (goal_layer nm av simdist powdecay penalty layers threshold condition ca chance babbling_ops act fuel cyc now s layer)
  (fun s' => phase s s' /\ (no_goals (s_mem s) -> no_goals (s_mem s') /\ s_time s' = s_time s /\ s_trace s' = s_trace s)).
Proof.
  intros S. unfold goal_layer. eapply ifok_bind; [apply ok_popG; auto|]. intros s1 (S1 & G1 & T1 & R1 & N1). eapply ifok_impl; [apply ok_goals; auto|].
  intros s2 [(A1 & A2 & A3) A4]. split.
  - split; auto. pose proof (ops_G _ _ G1) as O. split; [congruence|]. eapply done_G; eauto.
  - intros N. destruct (N1 N) as [N2 N3]. rewrite (A4 N3). auto.
Qed.
Lemma ok_layers now l : forall s, sokb s -> (l = [] -> forall e p, s_selG s = Some (e, p) -> PG e) -> ifok (foldM (goal_layer nm av simdist powdecay penalty layers threshold condition ca chance babbling_ops act fuel cyc now) l s)
  (fun s' => phase s s' /\ (no_goals (s_mem s) -> no_goals (s_mem s') /\ s_time s' = s_time s /\ s_trace s' = s_trace s)).
Proof.
  induction l as [|x l IH]; intros s S GG; cbn [foldM]; [cbn [ifok]; split; [split; [constructor; [exact (proj1 S)|exact (proj2 S)|exact (GG eq_refl)]|split; [reflexivity|left; reflexivity]]|auto]|]. eapply ifok_bind; [apply ok_layer; auto|]. intros s1 [(A1 & A2 & A3) A4].
  eapply ifok_impl; [apply IH; [apply sok_b; auto|intros _; apply A1]|]. intros s2 [(B1 & B2 & B3) B4]. split.
  - split; auto. split; [congruence|]. destruct A3 as [T1 R1|x' D1 D2 D3 D4 D5]; [eapply done_G; eauto|]. destruct (B4 D4) as (C1 & C2 & C3).
    apply done_exec with (x := x'); auto; [congruence|rewrite C2; auto].
  - intros N. destruct (A4 N) as (C1 & C2 & C3). destruct (B4 C1) as (E1 & E2 & E3). repeat split; auto; congruence.
Qed.
Lemma ok_perform s : sokw s -> ifok (Cycle_Perform nm av simdist powdecay penalty layers threshold condition athr ca chance babbling_ops act fuel cyc s)
  (fun s' => phase s s' /\ (no_goals (s_mem s) -> no_goals (s_mem s') /\ s_time s' = s_time s /\ s_trace s' = s_trace s)).
Proof.
  intros S. unfold Cycle_Perform. cbv zeta. destruct S as [S GG]. destruct (ok_popB s S) as (S1 & G1 & (E1 & E2 & E3) & T1 & R1). set (s1 := PopBelief s) in *. clearbody s1.
  eapply ifok_bind; [eapply q_beliefs; eauto; apply S1|]. intros s2 Q2. assert (S2 : sokb s2). { split; [apply Q2|]. rewrite (q_selB _ _ _ _ Q2). apply S1. }
  eapply ifok_bind; [eapply k_anticipate; eauto; apply S2|]. intros m3 K3. eapply ifok_bind; [apply ok_layers; [split; [apply K3|apply S2]|
    intros L e p X; destruct GG as [GG|GG]; [apply (f_equal (@length _)) in L; rewrite seq_length in L; cbn in L; lia|apply (GG e p); cbn in X; rewrite (q_selG _ _ _ _ Q2), G1 in X; exact X]]|]. intros s4 [(A1 & A2 & A3) A4].
  eapply ifok_bind; [eapply q_inference; eauto; apply A1|]. intros s5 Q5. pose proof (sok_Q _ _ A1 Q5) as S5. destruct (ok_forget (s_mem s5) (s_time s) (so_i _ S5)) as [F1 F2]. cbn [ifok].
  assert (O2 : m_ops (s_mem s2) = m_ops (s_mem s)) by (rewrite (ops_K _ _ (q_mem _ _ _ _ Q2)); auto).
  assert (TT : s_time s2 = s_time s) by (rewrite (q_time _ _ _ _ Q2); auto).
  assert (RR : s_trace s2 = s_trace s) by (rewrite (q_trace _ _ _ _ Q2); auto).
  assert (N5 : no_goals (s_mem s4) -> no_goals (RelativeForgetting (s_mem s5) (s_time s))).
  { intros N. apply F2. eapply ng_K; [apply Q5|exact N]. }
  assert (D4 : done s s4). { eapply done_G; [| | |exact A3]; cbn; auto. rewrite (ops_K _ _ K3). auto. }
  split; [split; [apply sok_mem; auto; apply F1|split]|].
  - cbn. rewrite (ops_K _ _ (q_mem _ _ _ _ Q5)), A2. cbn. rewrite (ops_K _ _ K3). auto.
  - destruct D4 as [U1 U2|x U1 U2 U3 U4 U5]; [left; cbn; rewrite ?(q_time _ _ _ _ Q5), ?(q_trace _ _ _ _ Q5); auto|].
    apply done_exec with (x := x); cbn; rewrite ?(q_time _ _ _ _ Q5), ?(q_trace _ _ _ _ Q5); auto.
  - intros N. destruct A4 as (B1 & B2 & B3).
    + cbn. eapply ng_K; [exact K3|]. eapply ng_K; [apply Q2|]. unfold no_goals. rewrite E1. exact N.
    + cbn in *. repeat split; auto; rewrite ?(q_time _ _ _ _ Q5), ?(q_trace _ _ _ _ Q5); congruence.
Qed.
End Nested.
Notation Cycle1 := (one_cycle nm av simdist powdecay penalty layers threshold condition athr ca chance babbling_ops act fuel).
(** without goals, at any nesting: by induction on the nesting *)
Lemma idle_cycle depth : forall s, sokw s -> no_goals (s_mem s) -> ifok (Cycle1 depth s) (idle s).
Proof.
  induction depth as [|depth IH]; intros s S N; cbn [one_cycle]; [exact Logic.I|]. eapply ifok_bind; [apply (ok_perform _ (fun s X => IH s (sok_w s X))); auto|]. intros s1 [(A1 & A2 & _) A4].
  destruct (A4 N) as (B1 & B2 & B3). cbn [ifok]. constructor; cbn; auto; try lia. destruct A1; constructor; auto.
Qed.
Inductive cycled (s s' : cstate) : Prop :=
| cycled_quiet : s_time s' = (s_time s + 1)%Z -> s_trace s' = s_trace s -> cycled s s'
| cycled_exec x : s_trace s' = x :: s_trace s -> In (x_op x) (m_ops (s_mem s)) -> T (x_args x) -> no_goals (s_mem s') ->
    (s_time s' = s_time s + 1 \/ s_time s' = s_time s + 2 /\ fb_failed (act (s_trace s) x) = false)%Z -> cycled s s'.
Lemma ok_cycle depth s : sokw s -> ifok (Cycle1 depth s) (fun s' => sok s' /\ m_ops (s_mem s') = m_ops (s_mem s) /\ cycled s s').
Proof.
  intros S. destruct depth as [|depth]; cbn [one_cycle]; [exact Logic.I|]. eapply ifok_bind; [apply (ok_perform _ (fun s X => idle_cycle depth s (sok_w s X))); auto|]. intros s1 [(A1 & A2 & A3) _]. cbn [ifok].
  split; [destruct A1; constructor; auto|]. split; auto. destruct A3 as [D1 D2|x D1 D2 D3 D4 D5]; [left; cbn; auto; lia|]. apply cycled_exec with (x := x); cbn; auto. lia.
Qed.
Definition call_ok (c : call) : Prop := match c with CCycles _ => True | CInput t _ _ _ _ => T t end.
Lemma ok_addinput depth s t ty tv et off : sokw s -> T t ->
  ifok (NAR_AddInput nm av simdist powdecay penalty layers threshold condition athr ca chance babbling_ops act fuel depth s t ty tv et off)
   (fun s' => sok s' /\ m_ops (s_mem s') = m_ops (s_mem s) /\ cycled s s' /\ (ty <> EVENT_TYPE_GOAL -> no_goals (s_mem s) -> no_goals (s_mem s') /\ s_trace s' = s_trace s)).
Proof.
  intros S H. unfold NAR_AddInput, AddInput. pose proof (ok_input s t ty tv et off (proj1 S) H) as A. destruct (Event_InputEvent _ _ _ _ _ _) as [e g] eqn:E. cbn [fst] in A. cbv zeta in *.
  change (s_mem (set_ids s g)) with (s_mem s). change (s_time (set_ids s g)) with (s_time s).
  eapply ifok_bind; [exact A|]. intros m [G1 K1]. assert (S1 : sokw (set_mem (set_ids s g) m)). { destruct S; split; auto. apply G1. }
  apply ifok_intro. intros s' E'. pose proof (ok_cycle depth _ S1) as C. pose proof (idle_cycle depth _ S1) as ID. rewrite E' in C, ID. cbn [ifok] in C, ID. destruct C as (C1 & C2 & C3).
  pose proof (ops_G _ _ G1) as O. split; auto. split; [cbn in C2; congruence|]. split.
  - destruct C3 as [D1 D2|x D1 D2 D3 D4 D5]; [left; auto|]. apply cycled_exec with (x := x); auto. cbn in D2. congruence.
  - intros TY N. destruct ID as [I1 I2 I3 I4 I5]; [eapply ng_K; [apply K1; auto|exact N]|]. auto.
Qed.
End W.
