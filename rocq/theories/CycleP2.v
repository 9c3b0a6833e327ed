(** The walk through the functions of a cycle that do not concern goals: they keep the invariant
    and leave the goal queues and the operations alone. *)
From Coq Require Import ZArith List Bool Lia.
From Flocq Require Import IEEE754.BinarySingleNaN.
From Verif Require Import Base F64 TruthM StampM TermM NamesM EventM InferenceM TableM UsageM RingM InvIndexM VariableM MemoryM QuestionM DecisionM NalM RulesM CycleM EverywhereS EverywhereP CycleP1.
From Verif Require PQueueM HashTableM.
Local Open Scope nat_scope.
Import ListNotations.
#[export] Hint Opaque Term_ExtractSubterm : core.
#[local] Opaque Term_ExtractSubterm Term_OverrideSubterm zero_term RevisionAndChoice OccurrenceTimeIndex_Add Term_Complexity fmul fltb fleb feqb
  PQueueM.push copulaEquals Truth_Expectation stamp_check_overlap stamp_equal stamp_make fmax Unify UnifyWithAnalogy ApplySubstitute BeliefDeduction BeliefIntersection BeliefInduction
  Conceptualize AddEvent Table_AddAndRevise FindConceptByTerm GetConceptChain ImplicationValid DerivedEvent hasVariable conclusions
  OperationSequenceAppendLeftNested GetPreconditionWithoutOp Truth_Projection Truth_Eternalize Truth_Induction Truth_Intersection getOperationTerm getOperationID.

(** updates of a concept that concern neither its identity nor its belief or priority *)
Definition small (k k' : concept) : Prop :=
  c_term k' = c_term k /\ c_id k' = c_id k /\ c_priority k' = c_priority k /\ c_belief k' = c_belief k /\ length (c_pre k') = length (c_pre k) /\
  (c_usage k' = c_usage k \/ exists now b, c_usage k' = Usage_use (c_usage k) now b).

Section W.
Variable nm : names.
Variable av : Z -> option (f64 * name).
Variable simdist : f64.
Variable powdecay : Z -> f64.
Variable penalty : nat -> f64.
Variable layers : nat.
Variables threshold condition athr ca chance : f64.
Variable babbling_ops : Z.
Variable fuel : nat.
Variable T : term -> Prop.
Hypothesis TC : tclosed T.
Definition PB (e : event) : Prop := T (e_term e) /\ e_type e <> EVENT_TYPE_GOAL.
Definition PG (e : event) : Prop := T (e_term e) /\ (e_type e = EVENT_TYPE_GOAL \/ e_type e = EVENT_TYPE_DELETED).
Definition PI (i : implication) : Prop := T (i_term i).
Notation kall := (in_concept PB PG PI).
Notation ew := (everywhere PB PG PI).
Notation all t := (Forall PI (t_array t)).
Lemma rac_cases ex inc r : RevisionAndChoice nm powdecay ex inc = Ok r ->
  (e_type (fst r) = e_type ex \/ e_type (fst r) = e_type inc) /\ (e_term (fst r) = e_term ex \/ e_term (fst r) = e_term inc).
Proof.
  Transparent RevisionAndChoice. unfold RevisionAndChoice. destruct (_ =? _)%Z; [intros H; apply okinj in H; subst; auto|]. cbv zeta. Opaque RevisionAndChoice.
  destruct (_ || _); [destruct (fltb _ _); intros H; apply okinj in H; subst; auto|]. destruct (fleb _ _); [|discriminate]. intros H; apply okinj in H; subst. cbn. auto.
Qed.
Lemma rac_PB ex inc r : PB ex -> PB inc -> RevisionAndChoice nm powdecay ex inc = Ok r -> PB (fst r).
Proof. intros (A & B) (C & D) H. apply rac_cases in H as [H1 H2]. split; [destruct H2 as [-> | ->]|destruct H1 as [-> | ->]]; auto. Qed.
Lemma rac_PG ex inc r : PG ex -> PG inc -> RevisionAndChoice nm powdecay ex inc = Ok r -> PG (fst r).
Proof. intros (A & B) (C & D) H. apply rac_cases in H as [H1 H2]. split; [destruct H2 as [-> | ->]|destruct H1 as [-> | ->]]; auto. Qed.
Lemma CLW : EverywhereP.closed nm powdecay PB PG PI.
Proof.
  pose proof (t0 T TC) as Z. constructor; unfold PI; auto.
  - split; auto. discriminate.
  - split; auto.
  - intros e H; apply H.
  - intros e (A & B). unfold Event_Eternalized. destruct (_ =? _)%Z; split; auto.
  - intros a b r. apply rac_PB.
  - intros e1 e2 e3 o s' id now (A & _) _ _. exact A.
Qed.
Variable J : memory -> Prop.
Record jclosed : Prop := {
  jc_term : forall m, J m -> Forall (fun k => T (c_term k)) (m_store m);
  jc_conc : forall m t now m' c, J m -> T t -> Conceptualize nm m t now = Ok (m', c) -> J m';
  jc_cmod : forall m c f m', J m -> cmod m c f = Ok m' -> (forall k, small k (f k)) -> J m';
  jc_ring : forall m t now m' c f, J m -> T t -> Conceptualize nm m t now = Ok (m', Some c) -> OccurrenceTimeIndex_Add c (m_ring m') = Ok f -> J (set_ring m' f);
  jc_add : forall m e now p input revised layer m', J m -> ew m -> T (e_term e) ->
    AddEvent nm powdecay penalty layers fuel m (EVal e) now p input revised layer = Ok m' -> J m';
  jc_popb : forall m, J m -> J (set_beliefs m (fst (PopEvent (m_beliefs m))));
  jc_popg : forall m l q, J m -> nth_error (m_goals m) l = Some q -> J (set_goals m (upd (m_goals m) l (fst (PopEvent q))));
  jc_reset : forall m, J m -> J (ResetGoals m);
  jc_forget : forall m now, J m -> J (RelativeForgetting m now) }.
Hypothesis JC : jclosed.

Definition ops_ok (m : memory) : Prop := Forall (fun o => T (op_term o) /\ Forall T (op_args o)) (m_ops m).
Record Inv (m : memory) : Prop := { iv_e : ew m; iv_j : J m; iv_o : ops_ok m }.
Definition K (m m' : memory) : Prop := Inv m' /\ same_rest m m'.
Lemma K_refl m : Inv m -> K m m. Proof. intros; split; auto using sr_refl. Qed.
Lemma K_trans a b c : K a b -> K b c -> K a c. Proof. intros (A & B) (C & D). split; auto. eapply sr_trans; eauto. Qed.
Lemma K_inv a b : K a b -> Inv b. Proof. intros H; apply H. Qed.
Lemma keeps_ops m m' : same_rest m m' -> ops_ok m -> ops_ok m'. Proof. intros (_ & E & _). unfold ops_ok. rewrite E. auto. Qed.
(** *** reading *)
Lemma r_kall m c k : Inv m -> cread m c = Ok k -> kall k. Proof. intros I. apply (ew_read PB PG PI). apply I. Qed.
Lemma r_term m c k : Inv m -> cread m c = Ok k -> T (c_term k).
Proof. intros I. unfold cread. destruct (nth_error _ _) eqn:E; [|discriminate]. intros H; apply okinj in H; subst. apply (Forall_error _ _ _ _ (jc_term JC _ (iv_j _ I)) E). Qed.
Lemma r_spike m c k : Inv m -> cread m c = Ok k -> PB (c_spike k). Proof. intros I H. apply (r_kall _ _ _ I H). Qed.
Lemma r_belief m c k : Inv m -> cread m c = Ok k -> PB (c_belief k). Proof. intros I H. apply (r_kall _ _ _ I H). Qed.
Lemma r_pred m c k : Inv m -> cread m c = Ok k -> PB (c_predicted k). Proof. intros I H. apply (r_kall _ _ _ I H). Qed.
Lemma r_goal m c k : Inv m -> cread m c = Ok k -> PG (c_goal k). Proof. intros I H. apply (r_kall _ _ _ I H). Qed.
Lemma r_pre k i t : kall k -> pre_at k i = Ok t -> all t.
Proof. intros (_ & _ & _ & _ & F & _). unfold pre_at. destruct (nth_error _ _) eqn:E; [|discriminate]. intros H; apply okinj in H; subst. apply (Forall_error _ _ _ _ F E). Qed.
Lemma PI0 : PI imp0. Proof. apply (t0 T TC). Qed.
Lemma r_slot t i : all t -> PI (slot t i). Proof. intros F. unfold slot. apply Forall_nth'; auto. apply PI0. Qed.
Lemma r_items t : all t -> Forall PI (items t).
Proof. intros F. unfold items. rewrite Forall_forall in *. intros x H. apply F. rewrite <- (firstn_skipn (t_items t)). apply in_or_app. auto. Qed.
Lemma PB0 : PB event0. Proof. apply (cl_b0 _ _ _ _ _ CLW). Qed.
Lemma PG0 : PG event0. Proof. apply (cl_g0 _ _ _ _ _ CLW). Qed.
Lemma concept0_all : kall concept0.
Proof. apply (kall_new nm powdecay PB PG PI CLW 0%Z (mkUsage 0 0) zero_term f0). Qed.
Lemma r_visited m ck : Inv m -> In ck (visited m) -> kall (snd ck) /\ T (c_term (snd ck)).
Proof.
  intros I H. unfold visited in H. apply in_map_iff in H as (it & <- & _). cbn [snd]. split.
  - apply Forall_nth'; [apply (ew_k _ _ _ _ (iv_e _ I))|apply concept0_all].
  - apply (Forall_nth' (fun k => T (c_term k))); [apply (jc_term JC _ (iv_j _ I))|apply (t0 T TC)].
Qed.
(** *** writing *)
Lemma k_cmod m c f : Inv m -> (forall k, cread m c = Ok k -> kall k -> kall (f k)) -> (forall k, small k (f k)) -> ifok (cmod m c f) (K m).
Proof.
  intros I H S. apply ifok_intro. intros m' E. pose proof (ew_cmod PB PG PI m c f (iv_e _ I) H) as X. rewrite E in X. destruct X as [X1 X2].
  split; auto. constructor; auto. - eapply (jc_cmod JC); eauto. apply I. - eapply keeps_ops; eauto. apply I.
Qed.
Ltac sm := unfold small; cbn; rewrite ?upd_length; do 5 (split; [reflexivity|]); first [left; reflexivity|right; do 2 eexists; reflexivity].
Lemma k_use m c now b : Inv m -> ifok (cmod m c (fun k => with_usage k (Usage_use (c_usage k) now b))) (K m).
Proof. intros I. apply k_cmod; auto. intros k. sm. Qed.
Lemma k_lastsel m c now : Inv m -> ifok (cmod m c (fun k => with_lastsel k now)) (K m).
Proof. intros I. apply k_cmod; auto. intros k. sm. Qed.
Lemma k_pid1 m c p : Inv m -> ifok (cmod m c (fun k => with_pid1 k p)) (K m).
Proof. intros I. apply k_cmod; auto. intros k. sm. Qed.
Lemma k_pid2 m c p : Inv m -> ifok (cmod m c (fun k => with_pid2 k p)) (K m).
Proof. intros I. apply k_cmod; auto. intros k. sm. Qed.
Lemma k_pid3 m c p : Inv m -> ifok (cmod m c (fun k => with_pid3 k p)) (K m).
Proof. intros I. apply k_cmod; auto. intros k. sm. Qed.
Lemma k_spike m c e : Inv m -> PB e -> ifok (cmod m c (fun k => with_spike k e)) (K m).
Proof. intros I P. apply k_cmod; auto; [intros k _ H; apply kall_spike; auto|]. intros k. sm. Qed.
Lemma k_predicted m c e : Inv m -> PB e -> ifok (cmod m c (fun k => with_predicted k e)) (K m).
Proof. intros I P. apply k_cmod; auto; [intros k _ H; apply kall_predicted; auto|]. intros k. sm. Qed.
Lemma k_goal m c e : Inv m -> PG e -> ifok (cmod m c (fun k => with_goal k e)) (K m).
Proof. intros I P. apply k_cmod; auto; [intros k _ H; apply kall_goal; auto|]. intros k. sm. Qed.
Lemma k_pre m c i t : Inv m -> all t -> ifok (cmod m c (fun k => with_pre k (upd (c_pre k) i t))) (K m).
Proof. intros I P. apply k_cmod; auto; [intros k _ H; apply kall_pre; auto|]. intros k. sm. Qed.
Lemma k_links m c t : Inv m -> all t -> ifok (cmod m c (fun k => with_links k t)) (K m).
Proof. intros I P. apply k_cmod; auto; [intros k _ H; apply kall_links; auto|]. intros k. sm. Qed.
Lemma k_conc m t now : Inv m -> T t -> ifok (Conceptualize nm m t now) (fun r => K m (fst r)).
Proof.
  intros I H. apply ifok_intro. intros [m' c] E. pose proof (ew_conceptualize nm powdecay PB PG PI CLW m t now (iv_e _ I)) as X. rewrite E in X. destruct X as [X1 X2]. cbn [fst snd] in *.
  pose proof (jc_conc JC _ _ _ _ _ (iv_j _ I) H E) as X3. split; auto. constructor; auto. eapply keeps_ops; eauto. apply I.
Qed.
Lemma k_add m e now p input revised layer : Inv m -> PB e -> ifok (AddEvent nm powdecay penalty layers fuel m (EVal e) now p input revised layer) (K m).
Proof.
  intros I P. apply ifok_intro. intros m' E. pose proof (ew_add nm powdecay penalty layers PB PG PI CLW fuel m (EVal e) now p input revised layer (iv_e _ I)) as X.
  rewrite E in X. destruct X as [X1 X2]; [intros e0 H; inversion H; subst; auto|]. split; auto. constructor; auto; [|eapply keeps_ops; eauto; apply I].
  eapply (jc_add JC); [apply I|apply I| |exact E]. apply P.
Qed.
(** goals may be added *)
Definition G (m m' : memory) : Prop := Inv m' /\ m_ops m' = m_ops m /\ m_restricted m' = m_restricted m /\ length (m_goals m') = length (m_goals m).
Lemma G_refl m : Inv m -> G m m. Proof. intros; split; auto. Qed.
Lemma G_trans a b c : G a b -> G b c -> G a c. Proof. intros (A & B & C & D) (A' & B' & C' & D'). split; auto. repeat split; congruence. Qed.
Lemma K_G a b : K a b -> G a b. Proof. intros (A & B & C & D). split; auto. repeat split; auto. rewrite B; auto. Qed.
Lemma g_add m e now p input revised layer : Inv m -> PG e -> ifok (AddEvent nm powdecay penalty layers fuel m (EVal e) now p input revised layer) (G m).
Proof.
  intros I P. destruct (proj2 P) as [TY|TY].
  - apply ifok_intro. intros m' E. pose proof (ew_goal nm powdecay penalty layers PB PG PI fuel m e now p input revised layer (iv_e _ I) P TY) as X.
    rewrite E in X. destruct X as (X1 & g & X2 & X3). pose proof (jc_add JC _ _ _ _ _ _ _ _ (iv_j _ I) (iv_e _ I) (proj1 P) E) as X4.
    rewrite X2 in *. split; [constructor; auto; apply I|]. cbn. auto.
  - apply ifok_impl with (P := K m); [|intros; apply K_G; auto]. apply k_add; auto. split; [apply P|]. rewrite TY. discriminate.
Qed.
Ltac kt := eapply K_trans; eauto.
(** use a lemma about the first computation, chaining the relation *)
Ltac kstep L := eapply ifok_bind; [eapply L; eauto using K_inv|intros ? ?].

(** *** iteration over related concepts *)
Section F.
Context {A : Type}.
Variable R : memory -> memory -> Prop.
Hypothesis R_refl : forall m, Inv m -> R m m.
Hypothesis R_trans : forall a b c, R a b -> R b c -> R a c.
Hypothesis R_inv : forall a b, R a b -> Inv b.
Hypothesis K_R : forall a b, K a b -> R a b.
Variable P : A -> Prop.
Variable pid : Z.
Variable body : memory -> A -> nat -> res (memory * A * bool).
Hypothesis B : forall m a c, Inv m -> P a -> ifok (body m a c) (fun r => R m (fst (fst r)) /\ P (snd (fst r))).
Lemma visit_ok m a c : Inv m -> P a -> ifok (visit pid body m a c) (fun r => R m (fst (fst r)) /\ P (snd (fst r))).
Proof.
  intros I PA. unfold visit. destruct c as [c|]; [|cbn; auto]. apply ifok_bind'; intros k _. destruct (_ =? _)%Z; [cbn; auto|].
  eapply ifok_bind; [apply k_pid1; auto|]. intros m1 K1. eapply ifok_impl; [apply B; [apply K1|auto]|]. intros r (R1 & P1). split; eauto.
Qed.
Lemma chain_ok n : forall m a p, Inv m -> P a -> ifok (chain_loop pid body n m a p) (fun r => R m (fst (fst r)) /\ P (snd (fst r))).
Proof.
  induction n as [|n IH]; intros m a p I PA; destruct p as [p|]; cbn [chain_loop]; try (cbn; auto; fail). apply ifok_bind'; intros el _.
  eapply ifok_bind; [apply visit_ok; auto|]. intros [[m1 a1] b] [R1 P1]. cbn [fst snd] in *. destruct b; [cbn; auto|].
  eapply ifok_impl; [apply IH; eauto|]. intros r (R2 & P2). split; eauto.
Qed.
Lemma foreach_ok n t : forall l m a, Inv m -> P a -> ifok (foreach_loop pid body n t l m a) (fun r => R m (fst r) /\ P (snd r)).
Proof.
  induction l as [|x l IH]; intros m a I PA; cbn [foreach_loop]; [cbn; auto|]. apply ifok_bind'; intros own _. apply ifok_bind'; intros ch _.
  eapply ifok_bind; [apply visit_ok; auto|]. intros [[m1 a1] b] [R1 P1]. cbn [fst snd] in *. destruct b; [cbn; auto|].
  eapply ifok_bind; [apply chain_ok; eauto|]. intros [[m2 a2] b2] [R2 P2]. cbn [fst snd] in *. destruct b2; [cbn; split; eauto|].
  eapply ifok_impl; [apply IH; eauto|]. intros r (R3 & P3). split; eauto.
Qed.
Lemma related_ok n m t a : Inv m -> P a -> ifok (related_foreach pid body n m t a) (fun r => R m (fst r) /\ P (snd r)).
Proof. apply foreach_ok. Qed.
End F.
Lemma foldM_K {A} (f : memory -> A -> res memory) (P : A -> Prop) l : Forall P l -> (forall m a, Inv m -> P a -> ifok (f m a) (K m)) ->
  forall m, Inv m -> ifok (foldM f l m) (K m).
Proof.
  intros F H. induction F as [|a l Pa F IH]; intros m I; cbn [foldM]; [apply K_refl; auto|].
  eapply ifok_bind; [apply H; auto|]. intros m1 K1. eapply ifok_impl; [apply IH, K1|]. intros; kt.
Qed.
(** *** declarative inference *)
Notation Derived := (DerivedEvent nm powdecay penalty layers fuel).
Lemma k_add_derived m t d : Inv m -> T t -> ifok (add_derived nm powdecay penalty layers fuel m t d) (K m).
Proof.
  intros I H. unfold add_derived. apply ifok_bind'; intros v _. destruct v; cbn [negb]; [|apply K_refl; auto].
  apply ifok_bind'; intros r _. destruct r; [apply K_refl; auto|]. apply k_add; auto. split; [exact H|discriminate].
Qed.
Lemma k_intro_derived m t d r b two : Inv m -> (forall x, r = Ok x -> T (snd x)) -> ifok (intro_derived nm powdecay penalty layers fuel m t d r b two) (K m).
Proof.
  intros I H. unfold intro_derived. apply ifok_bind'; intros [ok t'] R. destruct (_ && _); [|apply K_refl; auto].
  apply k_add_derived; auto. apply (H _ R).
Qed.
Lemma k_derived m t d vi two : Inv m -> T t -> ifok (Derived m t d vi two) (K m).
Proof.
  intros I H. Transparent DerivedEvent. unfold DerivedEvent. Opaque DerivedEvent. cbv zeta.
  assert (H1 : forall ext x, IntroduceImplicationVariables nm t ext = Ok x -> T (snd x)) by (intros; eapply t_intro; eauto).
  assert (H2 : forall ext x, IntroduceConjunctionVariables nm t ext = Ok x -> T (snd x)) by (intros; eapply t_introc; eauto).
  destruct (_ && _).
  - eapply ifok_bind; [apply k_intro_derived; eauto|]. intros m1 K1. eapply ifok_bind with (P := K m).
    { destruct (negb two); [|exact K1]. eapply ifok_impl; [apply k_intro_derived; [apply K1|eauto]|]. intros; kt. }
    intros m2 K2. destruct (_ || _); [exact K2|]. eapply ifok_impl; [apply k_add_derived; [apply K2|auto]|]. intros; kt.
  - destruct (_ && _).
    + eapply ifok_bind; [apply k_intro_derived; eauto|]. intros m1 K1. eapply ifok_impl; [apply k_intro_derived; [apply K1|eauto]|]. intros; kt.
    + apply k_add_derived; auto.
Qed.
Lemma k_rules m double t1 t2 v1 v2 d : Inv m -> T t1 -> T t2 -> ifok (RuleTable_Apply nm powdecay penalty layers fuel m double t1 t2 v1 v2 d) (K m).
Proof.
  intros I A B. unfold RuleTable_Apply. apply foldM_K with (P := fun x => T (fst (fst x))); [apply t_conclusions; auto| |auto].
  intros m1 [[c v] vi] I1 H. apply k_derived; auto.
Qed.
Notation Un := (Unify nm av simdist).
Lemma k_match m g t1 target v d : Inv m -> T t1 -> T target -> ifok (derive_match nm av simdist powdecay penalty layers fuel m g t1 target v d) (K m).
Proof.
  intros I A B. unfold derive_match. apply ifok_bind'; intros s U. apply (t_unify nm T TC) in U; auto. destruct (negb _); [apply K_refl; auto|].
  apply ifok_bind'; intros [t ok] AP. apply (t_apply nm T TC) in AP; auto. destruct (negb ok); [apply K_refl; auto|]. apply k_derived; auto.
Qed.
Lemma t_cop' c t i : T t -> T (upd t i (copula_index c)). Proof. intros. apply (tu T TC); auto using t_copula. Qed.
Lemma k_remaining m s p t1 v d : Inv m -> T s -> T p -> T t1 -> ifok (remaining_condition nm av simdist powdecay penalty layers fuel m s p t1 v d) (K m).
Proof.
  intros I A B C. unfold remaining_condition. cbv zeta. pose proof (te T TC s 1 A) as S1. pose proof (te T TC s 2 A) as S2.
  apply ifok_bind'; intros s1 U. apply (t_unify nm T TC) in U; auto.
  eapply ifok_bind with (P := fun x => Forall T (s_map (fst x)) /\ T (snd x)).
  { destruct (s_success s1); [cbn; auto|]. apply ifok_bind'; intros s2 U2. apply (t_unify nm T TC) in U2; auto. cbn; auto. }
  intros [subs rem] [F R]. cbn [fst snd] in *. destruct (negb _); [apply K_refl; auto|].
  destruct (Term_OverrideSubterm _ 1 rem) as [o1 r1] eqn:E1. apply (to' T TC) in E1; auto; [|apply t_cop'; apply (t0 T TC)]. destruct (negb o1); [apply K_refl; auto|].
  destruct (Term_OverrideSubterm r1 2 p) as [o2 r2] eqn:E2. apply (to' T TC) in E2; auto. destruct (negb o2); [apply K_refl; auto|].
  apply ifok_bind'; intros [t ok] AP. apply (t_apply nm T TC) in AP; auto. destruct (negb ok); [apply K_refl; auto|]. apply k_derived; auto.
Qed.
Lemma k_special m t1 t2 v1 v2 d : Inv m -> T t1 -> T t2 -> ifok (SpecialInferences nm av simdist powdecay penalty layers fuel m t1 t2 v1 v2 d) (K m).
Proof.
  intros I A B. unfold SpecialInferences. cbv zeta. pose proof (te T TC t2 1 B) as S1. pose proof (te T TC t2 2 B) as S2.
  eapply ifok_bind with (P := K m).
  { destruct (_ || _); [|apply K_refl; auto]. eapply ifok_bind; [apply k_match; auto|]. intros m1 K1.
    eapply ifok_bind with (P := K m). { destruct (_ && _); [|exact K1]. eapply ifok_impl; [apply k_remaining; auto; apply K1|]. intros; kt. }
    intros m2 K2. eapply ifok_impl; [apply k_match; auto; apply K2|]. intros; kt. }
  intros m1 K1. destruct (copulaEquals _ _ _); [|exact K1]. eapply ifok_impl; [apply k_match; auto; apply K1|]. intros; kt.
Qed.
Lemma k_belief_of m c e sp b : Inv m -> PB sp -> belief_of m c (projected powdecay e sp) = Ok b -> PB b.
Proof.
  intros I S. unfold projected. destruct (_ && _); cbn [belief_of].
  - intros H; apply okinj in H; subst. split; [apply S|apply S].
  - destruct (cread m c) as [k| |] eqn:E; cbn [rbind]; try discriminate. intros H; apply okinj in H; subst. eapply r_belief; eauto.
Qed.
Lemma k_infer_with m e prio now c cid : Inv m -> PB e -> ifok (infer_with nm av simdist powdecay penalty layers fuel m e prio now c cid) (K m).
Proof.
  intros I P. unfold infer_with. apply ifok_bind'; intros k Hk. cbv zeta. apply ifok_bind'; intros b Hb.
  destruct (stamp_check_overlap _ _); [apply K_refl; auto|]. eapply ifok_bind; [apply k_use; auto|]. intros m1 K1. pose proof (K_inv _ _ K1) as I1.
  apply ifok_bind'; intros k1 Hk1. apply ifok_bind'; intros b1 Hb1. pose proof (r_term _ _ _ I1 Hk1) as T1.
  eapply ifok_bind; [apply k_rules; auto; apply P|]. intros m2 K2. pose proof (K_inv _ _ K2) as I2.
  apply ifok_bind'; intros k2 Hk2. apply ifok_bind'; intros b2 Hb2. pose proof (r_term _ _ _ I2 Hk2) as T2.
  eapply ifok_bind; [apply k_special; auto; apply P|]. intros m3 K3. pose proof (K_inv _ _ K3) as I3.
  apply ifok_bind'; intros k3 Hk3. apply ifok_bind'; intros b3 Hb3. pose proof (r_term _ _ _ I3 Hk3) as T3.
  eapply ifok_impl; [apply k_special; auto; apply P|]. intros m4 K4. eapply K_trans; [exact K1|]. eapply K_trans; [exact K2|]. kt.
Qed.
Lemma k_infer_body e prio now thr m a c : Inv m -> PB e -> ifok (infer_body nm av simdist powdecay penalty layers fuel e prio now thr m a c) (fun r => K m (fst (fst r)) /\ True).
Proof.
  intros I P. unfold infer_body. apply ifok_bind'; intros k Hk. destruct (fltb _ _); [cbn; auto using K_refl|]. cbv zeta.
  eapply ifok_bind with (P := K m). { destruct (_ && _); [apply k_infer_with; auto|apply K_refl; auto]. } intros m1 K1. cbn. auto.
Qed.
(** *** anticipation *)
Lemma all_set t i x : all t -> PI x -> all (set_slot t i x). Proof. intros A B. unfold set_slot. cbn [t_array]. apply Forall_upd; auto. Qed.
Lemma all_revise t x : all t -> PI x -> ifok (Table_AddAndRevise t x) (fun r => all (fst r)).
Proof. intros A B. apply all_addrevise; auto using PI0. Qed.
Lemma k_negative t pe imp : all t -> PI imp -> ifok (AddNegativeConfirmation powdecay ca t pe imp) (fun t' => all t').
Proof.
  intros A B. unfold AddNegativeConfirmation. cbv zeta. apply ifok_assert; intros _. eapply ifok_bind; [apply all_revise; auto|]. intros [t' i] H. cbn [fst] in H. cbn [ifok].
  destruct i as [i|]; auto. apply all_set; auto. apply (r_slot t' i H).
Qed.
Lemma k_prune m n : forall t j, all t -> ifok (prune n m t j) (fun t' => all t').
Proof.
  induction n as [|n IH]; intros t j A; cbn [prune]; [exact A|]. destruct (_ <? _); [|exact A]. apply ifok_bind'; intros v _. destruct v; auto.
  apply IH. apply all_remove; auto using PI0.
Qed.
Lemma k_deduction e imp x : T (i_term imp) -> BeliefDeduction nm e imp = Ok x -> PB x.
Proof.
  intros A. Transparent BeliefDeduction. unfold BeliefDeduction. Opaque BeliefDeduction. destruct (rassert _); cbn [rbind]; try discriminate. intros H; apply okinj in H; subst.
  split; [cbn; apply (te T TC); auto|discriminate].
Qed.
Lemma k_predict m now imp s result : Inv m -> PB result -> ifok (predict nm av simdist powdecay m now imp s result) (K m).
Proof.
  intros I P. unfold predict. apply ifok_bind'; intros k Hk. apply ifok_bind'; intros su U. apply (t_unify nm T TC) in U; [|apply (r_spike _ _ _ I Hk)].
  destruct (negb _); [apply K_refl; auto|]. apply ifok_bind'; intros [t ok] AP. apply (t_apply nm T TC) in AP; [|apply P|exact U]. destruct (negb ok); [apply K_refl; auto|]. cbv zeta.
  eapply ifok_bind; [apply k_conc; auto|]. intros [m1 c] K1. cbn [fst snd] in *. destruct c as [c|]; [|exact K1].
  apply ifok_bind'; intros k1 Hk1. destruct (stamp_check_overlap _ _); [exact K1|]. eapply ifok_bind; [apply k_use, K1|]. intros m2 K2. pose proof (K_inv _ _ K2) as I2.
  assert (K02 : K m m2) by kt. apply ifok_bind'; intros k2 Hk2. destruct (copulaEquals _ _ _).
  - apply ifok_bind'; intros r Hr. eapply ifok_impl; [apply k_predicted; auto|intros; kt]. eapply rac_PB; [| |exact Hr]; [eapply r_pred; eauto|]. split; [exact AP|apply P].
  - destruct (stamp_equal _ _); [exact K02|]. apply ifok_bind'; intros r Hr. eapply ifok_impl; [apply k_spike; auto|intros; kt]. eapply rac_PB; [| |exact Hr]; [eapply r_spike; eauto|]. split; [exact AP|apply P].
Qed.
Lemma k_anticipate_imp o opt now p m imp : Inv m -> PI imp -> ifok (anticipate_imp nm av simdist powdecay athr ca o opt now p m imp) (K m).
Proof.
  intros I P. unfold anticipate_imp. destruct (i_source imp) as [s|]; [|exact Logic.I]. apply ifok_bind'; intros k Hk. cbv zeta. destruct (negb _); [apply K_refl; auto|].
  apply ifok_bind'; intros same _. destruct (negb same); [apply K_refl; auto|]. apply ifok_assert; intros _. apply ifok_bind'; intros [ok sq] BI. destruct (negb ok); [apply K_refl; auto|].
  apply ifok_bind'; intros result RD. apply k_deduction in RD; auto. destruct (negb _); [apply K_refl; auto|].
  eapply ifok_bind with (P := K m).
  { destruct (copulaEquals _ _ _); [|apply K_refl; auto]. apply ifok_bind'; intros k1 Hk1. apply ifok_bind'; intros t Ht. pose proof (r_pre _ _ _ (r_kall _ _ _ I Hk1) Ht) as A.
    eapply ifok_bind; [apply k_negative; auto|]. intros t' A'. apply k_pre; auto. }
  intros m1 K1. eapply ifok_impl; [apply k_predict; auto; apply K1|]. intros; kt.
Qed.
Lemma k_alinks o decl m p : Inv m -> ifok (anticipate_links o decl m p) (fun r => K m (fst r) /\ Forall PI (snd r)).
Proof.
  intros I. unfold anticipate_links. apply ifok_bind'; intros k Hk. pose proof (r_kall _ _ _ I Hk) as KA. destruct (negb decl).
  - apply ifok_bind'; intros t Ht. eapply ifok_bind; [apply k_prune, (r_pre _ _ _ KA Ht)|]. intros t' A. eapply ifok_bind; [apply k_pre; auto|]. intros m1 K1. cbn. auto using r_items.
  - destruct (_ =? _); [|cbn; auto using K_refl]. eapply ifok_bind; [apply k_prune, KA|]. intros t' A. eapply ifok_bind; [apply k_links; auto|]. intros m1 K1. cbn. auto using r_items.
Qed.
Lemma k_aloop o opt decl now n : forall j m, Inv m -> ifok (anticipate_loop nm av simdist powdecay athr ca n o opt decl now j m) (K m).
Proof.
  induction n as [|n IH]; intros j m I; cbn [anticipate_loop]; [apply K_refl; auto|]. destruct (nth_error _ _) as [it|]; [|apply K_refl; auto]. cbv zeta.
  eapply ifok_bind; [apply k_alinks; auto|]. intros [m1 imps] [K1 F]. cbn [fst snd] in *.
  eapply ifok_bind; [apply foldM_K with (P := PI); [exact F|intros; apply k_anticipate_imp; auto|apply K1]|]. intros m2 K2.
  eapply ifok_impl; [apply IH, K2|]. intros; eapply K_trans; [exact K1|]. kt.
Qed.
Lemma k_anticipate m o opt decl now : Inv m -> ifok (Anticipate nm av simdist powdecay athr ca m o opt decl now) (K m).
Proof. intros I. unfold Anticipate. apply ifok_assert; intros _. apply k_aloop; auto. Qed.
End W.
