(** The walk continued: decisions, the processing of events, and beliefs. *)
From Coq Require Import ZArith List Bool Lia.
From Flocq Require Import IEEE754.BinarySingleNaN.
From Verif Require Import Base F64 TruthM StampM HashM TermM NamesM EventM InferenceM TableM UsageM RingM InvIndexM VariableM MemoryM QuestionM DecisionM NalM RulesM CycleM EverywhereS EverywhereP CycleP1 CycleP2.
From Verif Require PQueueM HashTableM.
Local Open Scope nat_scope.
Import ListNotations.
#[local] Opaque Term_ExtractSubterm Term_OverrideSubterm zero_term RevisionAndChoice OccurrenceTimeIndex_Add Term_Complexity fmul fltb fleb feqb
  PQueueM.push copulaEquals Truth_Expectation stamp_check_overlap stamp_equal stamp_make fmax Unify UnifyWithAnalogy ApplySubstitute BeliefDeduction BeliefIntersection BeliefInduction
  Conceptualize AddEvent Table_AddAndRevise FindConceptByTerm GetConceptChain ImplicationValid DerivedEvent hasVariable conclusions
  OperationSequenceAppendLeftNested GetPreconditionWithoutOp Truth_Projection Truth_Eternalize Truth_Induction Truth_Intersection getOperationTerm getOperationID
  GoalDeduction GoalSequenceDeduction term_eqb Anticipate kth_newest.

Section W.
Variable nm : names.
Variable av : Z -> option (f64 * name).
Variable simdist : f64.
Variable powdecay : Z -> f64.
Variable penalty : nat -> f64.
Variable layers : nat.
Variables threshold condition athr ca chance : f64.
Variable babbling_ops : Z.
Variable act : list exec -> exec -> feedback.
Variable fuel : nat.
Variable T : term -> Prop.
Hypothesis TC : tclosed T.
Variable J : memory -> Prop.
Hypothesis JC : jclosed nm powdecay penalty layers fuel T J.
Notation PB := (PB T).
Notation PG := (PG T).
Notation PI := (PI T).
Notation Inv := (Inv T J).
Notation K := (K T J).
Notation G := (G T J).
Notation all t := (Forall PI (t_array t)).
Ltac kt := eapply K_trans; eauto.
(** *** decisions *)
Record DK (d : decision) : Prop := { dk_args : T (d_args d); dk_missing : PI (d_missing d); dk_specific : PI (d_specific d) }.
Lemma DK0 : DK decision0. Proof. constructor; cbn; try apply (PI0 T TC); apply (t0 T TC). Qed.
Lemma self_small : (0 <= SELF < 64)%Z. Proof. vm_compute. split; congruence. Qed.
Lemma dk_babble ops rs : Forall (fun o => T (op_term o) /\ Forall T (op_args o)) ops -> ifok (MotorBabbling babbling_ops ops rs) (fun r => DK (snd r)).
Proof.
  intros F. unfold MotorBabbling. cbv zeta. destruct (_ <? _)%Z; [|apply DK0]. destruct (myrand rs) as [rs1 r]. destruct (_ =? _)%Z; [exact Logic.I|].
  destruct (_ <? _)%Z; [exact Logic.I|]. destruct (nth_error ops _) as [o|] eqn:N; [|exact Logic.I]. pose proof (Forall_error _ _ _ _ F N) as [_ FA].
  pose proof (PI0 T TC) as P0. destruct (negb _).
  - destruct (myrand rs1) as [rs2 r2]. constructor; cbn; auto. unfold babble_args.
    repeat apply (tu T TC); try apply t_copula; try apply self_small. apply (to T TC); [repeat apply (tu T TC); try apply t_copula; apply (t0 T TC)|].
    apply Forall_nth'; auto; apply (t0 T TC).
  - constructor; cbn; auto; apply (t0 T TC).
Qed.
Lemma foldM_any {A B} (f : B -> A -> res B) (P : B -> Prop) l : (forall b a, In a l -> P b -> ifok (f b a) P) -> forall b, P b -> ifok (foldM f l b) P.
Proof.
  induction l as [|a l IH]; intros H b Pb; cbn [foldM]; [exact Pb|]. eapply ifok_bind; [apply H; cbn; auto|]. intros b1 P1. apply IH; auto. intros; apply H; cbn; auto.
Qed.
Lemma dk_negative m now d : DK d -> ifok (ConsiderNegativeOutcomes nm powdecay m now d) DK.
Proof. intros D. unfold ConsiderNegativeOutcomes. apply ifok_bind'; intros out _. cbn [ifok]. destruct (fltb _ _); auto using DK0. Qed.
Lemma t_extract m s o a : T s -> extract_operation nm m s = Ok (Some (o, a)) -> T a.
Proof.
  intros H. unfold extract_operation. cbv zeta. pose proof (te T TC) as E. pose proof (t0 T TC) as Z.
  destruct (_ && isOperation _ (Term_ExtractSubterm s 2)); [|intros X; apply okinj in X; inversion X; subst; auto].
  destruct (isOperator nm (at_ (Term_ExtractSubterm s 2) 0)); cbn [rbind].
  - destruct (rassert _); cbn [rbind]; try discriminate. intros X; apply okinj in X; inversion X; subst; auto.
  - destruct (rassert _); cbn [rbind]; try discriminate. destruct (_ =? _)%Z; [|discriminate]. destruct (rassert _); cbn [rbind]; try discriminate.
    intros X; apply okinj in X; inversion X; subst; auto.
Qed.
Lemma dk_consider m now goal imp tr : PI imp -> ifok (ConsiderImplication nm powdecay m now goal imp tr) DK.
Proof.
  intros P. unfold ConsiderImplication. destruct (i_source imp) as [s|]; [|exact Logic.I]. apply ifok_bind'; intros k _. apply ifok_bind'; intros ctx _. cbv zeta.
  destruct (OperationSequenceAppendLeftNested _ _ _) as [ok opterm]. apply ifok_assert; intros _. apply ifok_bind'; intros op X. destruct op as [[o a]|]; [|apply DK0].
  apply t_extract in X; [|apply (te T TC); exact P]. apply dk_negative. constructor; cbn; auto; apply (PI0 T TC).
Qed.
Lemma dk_context m now goal gc gen opi used impt best ck : PI used -> T impt -> DK (fst best) -> T (c_term (snd ck)) ->
  ifok (try_context nm av simdist powdecay m now goal gc gen opi used impt best ck) (fun b => DK (fst b)).
Proof.
  intros P I D C. unfold try_context. destruct ck as [c cm]. cbn [snd] in C. destruct (_ || _); [exact D|]. cbv zeta.
  apply ifok_bind'; intros s2 U. apply (t_unifyA nm T TC) in U; [|exact C]. destruct (negb _); [exact D|]. apply ifok_bind'; intros cl _. destruct cl; [exact D|].
  apply ifok_bind'; intros [t ok] AP. apply (t_apply nm T TC) in AP; [|exact I|exact U]. destruct (negb _); [exact D|].
  eapply ifok_bind; [apply dk_consider; exact AP|]. intros d [D1 D2 D3]. 
  assert (M : forall b, DK (if b : bool then with_missing d (mkImp t (i_truth used) (i_stamp used) (i_offset used) (Some c) (c_id cm) (i_creation used)) else d)).
  { intros [|]; constructor; cbn; auto. }
  destruct (hasVariable nm (i_term used) true true true).
  - apply ifok_bind'; intros [kn inh] _. cbn [ifok]. destruct (_ && _); [|exact D]. cbn [fst]. destruct (M (negb kn || negb (feqb (confidence (s_truth s2)) (confidence (e_truth (c_spike cm)))))) as [M1 M2 M3].
    constructor; cbn; auto.
  - cbn [ifok]. destruct (improves _ _ _); [|exact D]. cbn [fst]. destruct (M (negb (feqb (confidence (s_truth s2)) (confidence (e_truth (c_spike cm)))))) as [M1 M2 M3].
    constructor; cbn; auto.
Qed.
Lemma k_entries now goal g gen subs opi n : Forall T (s_map subs) -> forall m j best, Inv m -> DK (fst best) ->
  ifok (try_entries nm av simdist powdecay n m now goal g gen subs opi j best) (fun r => K m (fst r) /\ DK (fst (snd r))).
Proof.
  intros S. induction n as [|n IH]; intros m j best I D; cbn [try_entries]; [cbn; auto using K_refl|].
  apply ifok_bind'; intros gc Hg. apply ifok_bind'; intros t Ht. pose proof (r_pre T _ _ _ (r_kall T J _ _ _ I Hg) Ht) as A.
  destruct (_ <? _); [|cbn; auto using K_refl]. cbv zeta. apply ifok_bind'; intros v _. destruct v; cbn [negb].
  - apply ifok_bind'; intros [impt ok] AP. pose proof (r_slot T TC t j A) as PS. apply (t_apply nm T TC) in AP; auto. destruct (negb ok); [apply IH; auto|].
    apply ifok_assert; intros _. eapply ifok_bind with (P := fun b => DK (fst b)).
    { apply foldM_any; auto. intros b ck H HB. apply dk_context; auto. apply (r_visited nm powdecay penalty layers fuel T TC J JC m ck I H). }
    intros b HB. apply IH; auto.
  - eapply ifok_bind; [eapply k_pre; eauto; apply all_remove; auto; apply (PI0 T TC)|]. intros m1 K1. eapply ifok_impl; [apply IH; auto; apply K1|].
    intros r (A1 & A2). split; auto. kt.
Qed.
Lemma k_tables now goal g gen subs opis : Forall T (s_map subs) -> forall m best, Inv m -> DK (fst best) ->
  ifok (try_tables nm av simdist powdecay opis m now goal g gen subs best) (fun r => K m (fst r) /\ DK (fst (snd r))).
Proof.
  intros S. induction opis as [|o l IH]; intros m best I D; cbn [try_tables]; [cbn; auto using K_refl|]. apply ifok_bind'; intros gc Hg. apply ifok_bind'; intros t Ht.
  eapply ifok_bind; [apply k_entries; auto|]. intros [m1 b1] [K1 D1]. cbn [fst snd] in *. eapply ifok_impl; [apply IH; auto; apply K1|]. intros r (A1 & A2). split; auto. kt.
Qed.
Lemma k_best m g goal now : Inv m -> T (e_term goal) -> ifok (BestCandidate nm av simdist powdecay threshold m g goal now) (fun r => K m (fst r) /\ DK (snd r)).
Proof.
  intros I P. unfold BestCandidate. apply ifok_bind'; intros gc Hg. cbv zeta. apply ifok_bind'; intros su U. apply (t_unify nm T TC) in U; auto.
  eapply ifok_bind with (P := fun r => K m (fst r) /\ DK (fst (snd r))).
  { destruct (s_success su); [apply k_tables; auto using DK0|cbn; auto using K_refl, DK0]. }
  intros [m1 [d c]] [K1 D1]. cbn [fst snd] in *. destruct (fltb _ _); [cbn; auto using DK0|]. destruct (d_reason d); [|exact Logic.I]. cbn. split; auto. destruct D1; constructor; cbn; auto.
Qed.
Lemma k_suggest m g goal now rs : Inv m -> T (e_term goal) ->
  ifok (Suggest nm av simdist powdecay threshold chance babbling_ops m g goal now rs) (fun r => K m (snd (fst r)) /\ DK (snd r)).
Proof.
  intros I P. unfold Suggest. destruct (myrand rs) as [rs1 r]. cbv zeta. destruct (_ || _); [exact Logic.I|].
  eapply ifok_bind with (P := fun r => DK (snd r)). { destruct (_ <? _)%Z; [apply dk_babble, I|apply DK0]. }
  intros [rs2 bd] DB. eapply ifok_bind; [apply k_best; auto|]. intros [m1 d] [K1 D1]. cbn [ifok fst snd] in *. split; auto. destruct (_ || _); auto.
Qed.
(** *** processing an event *)
Definition PE (e : event) : Prop := T (e_term e) /\ (e_type e = EVENT_TYPE_BELIEF \/ e_type e = EVENT_TYPE_GOAL \/ e_type e = EVENT_TYPE_DELETED).
Lemma PE_B e : T (e_term e) -> e_type e = EVENT_TYPE_BELIEF -> PE e. Proof. split; auto. Qed.
Lemma PE_G e : PG e -> PE e. Proof. intros (A & B); split; tauto. Qed.
Lemma k_activate m rs c e now : Inv m -> PE e -> ifok (Activate nm av simdist powdecay threshold chance babbling_ops m rs c e now) (fun r => K m (fst (fst r)) /\ DK (snd r)).
Proof.
  intros I [P TY]. unfold Activate. eapply ifok_bind; [eapply k_lastsel; eauto|]. intros m1 K1. eapply ifok_bind; [eapply k_use; eauto using K_inv|]. intros m2 K2.
  assert (K02 : K m m2) by kt. pose proof (K_inv _ _ _ _ K02) as I2. apply ifok_bind'; intros k Hk. cbv zeta. destruct (Z.eqb_spec (e_type e) EVENT_TYPE_BELIEF) as [B|B].
  - eapply ifok_bind with (P := K m); [|intros m3 K3; cbn; auto using DK0].
    destruct (_ || _); [|exact K02]. eapply ifok_impl; [eapply k_spike; eauto|intros; kt]. split; auto. rewrite B. discriminate.
  - eapply ifok_bind with (P := K m).
    { destruct (_ || _); [|exact K02]. eapply ifok_impl; [eapply k_goal; eauto|intros; kt]. split; auto. tauto. }
    intros m3 K3. eapply ifok_bind; [apply k_suggest; auto; apply K3|]. intros [[rs4 m4] d] [K4 D]. cbn [fst snd ifok] in *. split; auto. kt.
Qed.
Lemma dk_better a b : DK a -> DK b -> DK (BetterDecision a b). Proof. unfold BetterDecision. destruct (_ && _); auto. Qed.
Lemma k_body e now m a c : PE e -> Inv m -> DK (snd a) -> ifok (process_body nm av simdist powdecay threshold chance babbling_ops e now m a c) (fun r => K m (fst (fst r)) /\ DK (snd (snd (fst r)))).
Proof.
  intros P I D. unfold process_body. cbv zeta.
  eapply ifok_bind with (P := fun r => K m (fst r) /\ DK (snd (snd r))).
  { destruct (_ || _); [|cbn; auto using K_refl]. apply ifok_bind'; intros k Hk. apply ifok_bind'; intros su _. destruct (s_success su); [|cbn; auto using K_refl].
    eapply ifok_bind; [apply k_activate; auto; split; apply P|]. intros [[m1 rs] d] [K1 D1]. cbn [fst snd ifok] in *. auto using dk_better. }
  intros [m1 a1] [K1 D1]. cbn [fst snd] in *. eapply ifok_bind with (P := fun r => K m (fst r) /\ DK (snd (snd r))); [|intros [m2 a2] H; exact H].
  destruct (hasVariable _ _ _ _ _); [|cbn; auto]. apply ifok_bind'; intros k Hk. apply ifok_bind'; intros su U. destruct (s_success su); [|cbn; auto].
  apply ifok_bind'; intros [t ok] AP. destruct ok; [|cbn; auto].
  apply (t_apply nm T TC) in AP; [|apply P|eapply (t_unify nm T TC); [|exact U]; eapply (r_term _ _ _ _ _ _ _ JC); [apply K1|exact Hk]].
  eapply ifok_bind; [apply k_activate; [apply K1|split; [exact AP|apply P]]|]. intros [[m2 rs] d] [K2 D2]. cbn [fst snd ifok] in *. split; auto using dk_better. kt.
Qed.
(** *** states.  [Q]: only belief-side memory, the random numbers, process ids and statistics change *)
Record Q (s s' : cstate) : Prop := {
  q_mem : K (s_mem s) (s_mem s'); q_time : s_time s' = s_time s; q_trace : s_trace s' = s_trace s; q_ids : s_ids s' = s_ids s;
  q_selB : s_selB s' = s_selB s; q_selG : s_selG s' = s_selG s }.
Lemma Q_refl s : Inv (s_mem s) -> Q s s. Proof. intros; constructor; auto using K_refl. Qed.
Lemma Q_trans a b c : Q a b -> Q b c -> Q a c. Proof. intros [A1 A2 A3 A4 A5 A6] [B1 B2 B3 B4 B5 B6]. constructor; try congruence. kt. Qed.
Lemma Q_inv a b : Q a b -> Inv (s_mem b). Proof. intros H; apply H. Qed.
Lemma Q_mem s m : K (s_mem s) m -> Q s (set_mem s m). Proof. intros; constructor; auto. Qed.
(** states that differ in nothing but the random numbers, process ids and statistics *)
Definition same_but (s s' : cstate) : Prop := s_mem s' = s_mem s /\ s_time s' = s_time s /\ s_trace s' = s_trace s /\ s_ids s' = s_ids s /\ s_selB s' = s_selB s /\ s_selG s' = s_selG s.
Lemma Q_but s s' s'' : Q s s' -> same_but s' s'' -> Q s s''.
Proof. intros [A1 A2 A3 A4 A5 A6] (B1 & B2 & B3 & B4 & B5 & B6). constructor; congruence. Qed.
Lemma but_Q s s' s'' : same_but s s' -> Q s' s'' -> Q s s''.
Proof. intros (B1 & B2 & B3 & B4 & B5 & B6) [A1 A2 A3 A4 A5 A6]. constructor; congruence. Qed.
Lemma ring_K m t now m' f c : Inv m -> T t -> Conceptualize nm m t now = Ok (m', Some c) -> OccurrenceTimeIndex_Add c (m_ring m') = Ok f -> Inv m' -> K m' (set_ring m' f).
Proof. intros I H C E I'. split; [|repeat split]. constructor; [|eapply (jc_ring _ _ _ _ _ _ _ JC); eauto; apply I|apply I']. destruct (iv_e _ _ _ I'). constructor; auto. Qed.
Lemma q_sensorimotor s e now : Inv (s_mem s) -> PE e ->
  ifok (ProcessSensorimotorEvent nm av simdist powdecay threshold chance babbling_ops fuel s e now) (fun r => Q s (fst r) /\ DK (snd r)).
Proof.
  intros I P. unfold ProcessSensorimotorEvent. apply ifok_assert; intros _.
  apply ifok_bind'; intros [m c] CO. assert (K1 : K (s_mem s) m) by (pose proof (k_conc nm powdecay penalty layers fuel T TC J JC _ (e_term e) now I (proj1 P)) as X; rewrite CO in X; exact X).
  destruct c as [c|]; [|cbn; auto using Q_mem, DK0].
  eapply ifok_bind with (P := K (s_mem s)).
  { destruct (_ && _); [|exact K1]. apply ifok_bind'; intros f Hf. cbn [ifok]. eapply K_trans; [exact K1|]. eapply ring_K; [exact I|apply P|exact CO|exact Hf|apply K1]. }
  intros m1 K2. cbv zeta. eapply ifok_bind.
  { eapply (related_ok nm powdecay penalty layers fuel T J JC K) with (P := fun a : Z * decision => DK (snd a)); try (exact (K_refl T J) || exact (K_trans T J) || exact (K_inv T J) || (intros; assumption));
      [intros mm a cc I1 Da; apply k_body; auto|apply K2|apply DK0]. }
  intros [m2 a] [K3 D]. cbn [fst snd ifok] in *. split; auto. constructor; auto. cbn. kt.
Qed.
(** *** beliefs *)
Lemma t_induction a b ok i : BeliefInduction powdecay a b = Ok (ok, i) -> T (e_term a) -> T (e_term b) -> T (i_term i).
Proof.
  intros H A B. Transparent BeliefInduction. unfold BeliefInduction in H. Opaque BeliefInduction. destruct (rassert _); cbn [rbind] in H; try discriminate. cbv zeta in H.
  destruct (Term_OverrideSubterm (upd zero_term 0 _) 1 (e_term a)) as [o1 r1] eqn:E1. apply (to' T TC) in E1; auto; [|apply (t_cop' T TC), (t0 T TC)].
  destruct o1.
  - destruct (Term_OverrideSubterm r1 2 (e_term b)) as [o2 r2] eqn:E2. apply (to' T TC) in E2; auto. apply okinj in H. inversion H; subst. destruct ok; auto. apply (t0 T TC).
  - apply okinj in H. inversion H; subst. apply (t0 T TC).
Qed.
Lemma b_intersection a b ok e : BeliefIntersection powdecay a b = Ok (ok, e) -> T (e_term a) -> T (e_term b) -> T (e_term e) /\ (ok = true -> e_type e = EVENT_TYPE_BELIEF).
Proof.
  intros H A B. Transparent BeliefIntersection. unfold BeliefIntersection in H. Opaque BeliefIntersection. destruct (rassert _); cbn [rbind] in H; try discriminate. cbv zeta in H.
  pose proof (t_sequence T TC _ _ A B) as S. destruct (Narsese_Sequence _ _) as [o t]. cbn [snd] in S. apply okinj in H. inversion H; subst. destruct ok; cbn; auto. split; [apply (t0 T TC)|discriminate].
Qed.
Lemma k_reinforce m time a b : Inv m -> T (e_term a) -> T (e_term b) -> ifok (ReinforceLink nm powdecay penalty layers fuel m time a b) (K m).
Proof.
  intros I A B. unfold ReinforceLink. destruct (_ || _); [apply K_refl; auto|]. apply ifok_bind'; intros a' _. apply ifok_bind'; intros b' _.
  destruct a' as [a'|]; [|apply K_refl; auto]. destruct b' as [b'|]; [|apply K_refl; auto]. destruct (_ || _); [apply K_refl; auto|].
  apply ifok_bind'; intros [ok i] H. apply t_induction in H; auto. destruct (_ && _); [|apply K_refl; auto]. eapply k_derived; eauto.
Qed.
Lemma k_mine m time now post o p : Inv m -> T (e_term post) -> ifok (mine_prec nm powdecay penalty layers fuel m time now post o p) (K m).
Proof.
  intros I P. unfold mine_prec. apply ifok_bind'; intros prec H1. apply ifok_bind'; intros opc H2. destruct (_ && _); [|apply K_refl; auto].
  pose proof (proj1 (r_spike T J _ _ _ I H1)) as S1. pose proof (proj1 (r_spike T J _ _ _ I H2)) as S2.
  apply ifok_bind'; intros [ok sq] H. destruct (ok && _); [|apply K_refl; auto]. pose proof (t_append nm T TC _ _ S1 S2) as TA.
  destruct (OperationSequenceAppendLeftNested _ _ _) as [ok5 t]. cbn [snd] in TA. destruct ok5; [|apply K_refl; auto]. apply k_reinforce; auto.
Qed.
Lemma k_prec n : forall i m pid time now post o oid, Inv m -> T (e_term post) -> ifok (prec_loop nm powdecay penalty layers fuel n i m pid time now post o oid) (K m).
Proof.
  induction n as [|n IH]; intros i m pid time now post o oid I P; cbn [prec_loop]; [apply K_refl; auto|]. apply ifok_bind'; intros opc _. destruct (_ && _); [|apply K_refl; auto].
  apply ifok_bind'; intros p _. apply ifok_bind'; intros k _. eapply ifok_bind; [eapply k_pid3; eauto|]. intros m1 K1.
  eapply ifok_bind with (P := K m). { destruct (_ =? _)%Z; [exact K1|]. eapply ifok_impl; [apply k_mine; auto; apply K1|intros; kt]. }
  intros m2 K2. eapply ifok_impl; [apply IH; auto; apply K2|intros; kt].
Qed.
Lemma k_ops n : forall j m p2 p3 time now post, Inv m -> T (e_term post) -> ifok (op_loop nm powdecay penalty layers fuel n j m p2 p3 time now post) (fun r => K m (fst r)).
Proof.
  induction n as [|n IH]; intros j m p2 p3 time now post I P; cbn [op_loop]; [apply K_refl; auto|]. destruct (_ <? _)%Z; [|apply K_refl; auto].
  apply ifok_bind'; intros o _. apply ifok_bind'; intros k _. eapply ifok_bind; [eapply k_pid2; eauto|]. intros m1 K1. destruct (_ && _).
  - eapply ifok_bind; [apply k_prec; auto; apply K1|]. intros m2 K2. eapply ifok_impl; [apply IH; auto; apply K2|]. intros r K3. eapply K_trans; [exact K1|]. kt.
  - eapply ifok_impl; [apply IH; auto; apply K1|]. intros; kt.
Qed.
Lemma t_override t i x : T t -> T x -> T (override t i x). Proof. apply (to T TC). Qed.
Lemma t_pair t : T t -> T (fst (attribute_pair nm t)) /\ T (snd (attribute_pair nm t)).
Proof.
  intros H. unfold attribute_pair. pose proof (t0 T TC) as Z. destruct (_ && _); cbn [fst snd]; [|auto]. split; [apply (te T TC); auto|].
  apply t_override; [apply t_override|]; try apply (te T TC); auto. apply (t_cop' T TC); auto.
Qed.
Lemma t_relation t r : T t -> attribute_relation nm av t = Ok (Some r) -> T r.
Proof.
  intros H. unfold attribute_relation. pose proof (t_pair t H) as [P1 P2]. destruct (attribute_pair nm t) as [rest st]. cbn [fst snd] in *. cbv zeta. pose proof (t0 T TC) as Z.
  destruct (_ && _); [|discriminate]. destruct (hasAtomValue av (at_ st 8)) as [v1| |]; cbn [rbind]; try discriminate.
  destruct (if v1 then _ else _) as [v2| |]; cbn [rbind]; try discriminate. destruct (negb _); [discriminate|].
  intros X; apply okinj in X. injection X as <-.
  set (R := upd _ 6 _). assert (TR : T R).
  { unfold R. apply (t_cop' T TC). repeat apply t_override; repeat match goal with |- context [if ?b then _ else _] => destruct b end;
      repeat first [exact Z|exact P2|apply (t_cop' T TC)|apply (te T TC)]. }
  clearbody R. destruct (_ =? _)%Z; auto. apply t_override; auto. apply t_override; auto. apply (t_cop' T TC); auto.
Qed.
Notation Psm := (ProcessSensorimotorEvent nm av simdist powdecay threshold chance babbling_ops fuel).
Lemma q_build s now sq op_id prio cond op : Inv (s_mem s) -> T (e_term sq) -> e_type sq = EVENT_TYPE_BELIEF ->
  ifok (build_sequence nm av simdist powdecay penalty layers threshold athr ca chance babbling_ops fuel s now sq op_id prio cond op) (Q s).
Proof.
  intros I P B. unfold build_sequence. destruct (_ || _); [|apply Q_refl; auto]. eapply ifok_bind; [apply q_sensorimotor; auto; apply PE_B; auto|].
  intros [s1 d] [Q1 _]. cbn [fst snd] in *. apply ifok_bind'; intros r R. eapply ifok_bind with (P := K (s_mem s1)).
  { destruct r as [t|]; [|apply K_refl, Q1]. apply t_relation in R; auto. eapply k_add; eauto; [apply Q1|]. split; [exact R|]. cbn. rewrite B. discriminate. }
  intros m2 K2. eapply ifok_bind with (P := K (s_mem s1)).
  { destruct (_ && _); [|exact K2]. eapply ifok_impl; [eapply k_anticipate; eauto; apply K2|]. intros; kt. }
  intros m3 K3. cbn [ifok]. eapply Q_trans; [exact Q1|]. apply Q_mem; auto.
Qed.
Lemma q_correlate s now post op_id prio c : Inv (s_mem s) -> T (e_term post) ->
  ifok (correlate nm av simdist powdecay penalty layers threshold athr ca chance babbling_ops fuel s now post op_id prio c) (Q s).
Proof.
  intros I P. unfold correlate. cbv zeta. apply ifok_bind'; intros k Hk. destruct (_ && _); [|apply Q_refl; auto]. destruct (_ && _); [|apply Q_refl; auto].
  pose proof (proj1 (r_spike T J _ _ _ I Hk)) as S1. apply ifok_bind'; intros [ok sq] H. apply b_intersection in H as [T1 T2]; auto.
  destruct ok; cbn [andb]; [|apply Q_refl; auto]. destruct (negb _); [|apply Q_refl; auto].
  eapply ifok_bind with (P := K (s_mem s)).
  { destruct (_ && _); [|apply K_refl; auto]. eapply ifok_bind; [apply k_reinforce; auto|]. intros m1 K1. apply ifok_bind'; intros k1 Hk1. destruct (_ =? _)%Z; [|exact K1].
    eapply ifok_impl; [apply k_reinforce; auto; [apply K1|apply (r_spike T J _ _ _ (K_inv _ _ _ _ K1) Hk1)]|]. intros; kt. }
  intros m1 K1. apply ifok_bind'; intros k1 _. destruct (_ <=? _)%Z; [|apply Q_mem; auto].
  eapply ifok_impl; [apply q_build; auto; apply K1|]. intros s2 Q2. eapply Q_trans; [|exact Q2]. apply Q_mem; auto.
Qed.
Lemma q_correlate_loop n : forall i s now post op_id prio, Inv (s_mem s) -> T (e_term post) ->
  ifok (correlate_loop nm av simdist powdecay penalty layers threshold athr ca chance babbling_ops fuel n i s now post op_id prio) (Q s).
Proof.
  induction n as [|n IH]; intros i s now post op_id prio I P; cbn [correlate_loop]; [apply Q_refl; auto|]. destruct (_ <? _)%Z; [|apply Q_refl; auto].
  apply ifok_bind'; intros c _. apply ifok_bind'; intros k _. eapply ifok_bind; [eapply k_pid2; eauto|]. intros m1 K1. cbv zeta.
  eapply ifok_bind with (P := Q s).
  { destruct (_ =? _)%Z; [apply Q_mem; auto|]. eapply ifok_impl; [apply q_correlate; auto; apply K1|]. intros s2 Q2. eapply Q_trans; [|exact Q2]. apply Q_mem; auto. }
  intros s2 Q2. eapply ifok_impl; [apply IH; auto; apply Q2|]. intros; eapply Q_trans; eauto.
Qed.
Lemma q_beliefs s now : Inv (s_mem s) -> (forall e p, s_selB s = Some (e, p) -> PB e) ->
  ifok (ProcessBeliefEvents nm av simdist powdecay penalty layers threshold athr ca chance babbling_ops fuel s now) (Q s).
Proof.
  intros I S. unfold ProcessBeliefEvents. destruct (s_selB s) as [[e p]|]; [|apply Q_refl; auto]. specialize (S e p eq_refl). cbv zeta. destruct (_ && _); [|apply Q_refl; auto].
  apply ifok_assert; intros TY. apply Z.eqb_eq in TY. eapply ifok_bind; [apply q_sensorimotor; auto; apply PE_B; auto; apply S|]. intros [s1 d] [Q1 _]. cbn [fst snd] in *.
  eapply ifok_bind with (P := Q s).
  { destruct (_ =? _); [|eapply Q_but; [exact Q1|repeat split]]. eapply ifok_bind; [apply k_ops; [apply Q1|apply S]|]. intros [m2 p3] K2. cbn [fst ifok] in *.
    eapply Q_trans; [exact Q1|]. constructor; auto. }
  intros s2 Q2. eapply ifok_bind.
  { apply q_correlate_loop; [apply Q2|apply S]. }
  intros s3 Q3. assert (Q4 : Q s s3). { eapply Q_trans; [exact Q2|]. eapply but_Q; [|exact Q3]. repeat split. }
  destruct (fleb _ _); [|exact Q4]. eapply ifok_bind; [eapply k_anticipate; eauto; apply Q4|]. intros m4 K4. cbn [ifok]. eapply Q_trans; [exact Q4|]. apply Q_mem; auto.
Qed.
(** *** inference *)
Lemma q_rounds n : forall s e prio now matched, Inv (s_mem s) -> PB e ->
  ifok (infer_rounds nm av simdist powdecay penalty layers fuel n s e prio now matched) (Q s).
Proof.
  induction n as [|n IH]; intros s e prio now matched I P; cbn [infer_rounds]; [exact Logic.I|]. destruct (_ =? _)%Z; [exact Logic.I|]. cbv zeta.
  eapply ifok_bind; [eapply k_rules; eauto; [apply P|apply (t0 T TC)]|]. intros m1 K1. eapply ifok_bind.
  { eapply (related_ok nm powdecay penalty layers fuel T J JC K) with (P := fun _ : Z * Z => True); try (exact (K_refl T J) || exact (K_trans T J) || exact (K_inv T J) || (intros; assumption));
      [intros mm a cc I1 _; eapply k_infer_body; eauto|apply K1|exact Logic.I]. }
  intros [m2 a] [K2 _]. cbn [fst snd] in *. assert (Q1 : Q s (set_stats (set_mem s m2) (adapt (s_thr s) (s_total s) now) (s_total s + fst a) (if (s_max s <? snd a)%Z then snd a else s_max s))).
  { constructor; auto. cbn. kt. }
  destruct (_ || _); [exact Q1|]. eapply ifok_impl; [apply IH; auto; apply Q1|]. intros; eapply Q_trans; [|eauto]. exact Q1.
Qed.
Lemma q_inference s now : Inv (s_mem s) -> (forall e p, s_selB s = Some (e, p) -> PB e) -> ifok (Cycle_Inference nm av simdist powdecay penalty layers fuel s now) (Q s).
Proof.
  intros I S. unfold Cycle_Inference. destruct (s_selB s) as [[e p]|] eqn:E; [|apply Q_refl; auto]. eapply ifok_impl; [apply q_rounds; auto; eapply S; eauto|].
  intros s1 Q1. eapply but_Q; [|exact Q1]. repeat split.
Qed.
End W.
