(** Evidence: the walk through a cycle with a property of stamps that combination keeps. *)
From Coq Require Import ZArith List Bool Lia.
From Flocq Require Import IEEE754.BinarySingleNaN.
From Verif Require Import Base F64 TruthM StampM HashM TermM NamesM EventM InferenceM TableM UsageM RingM InvIndexM VariableM MemoryM QuestionM DecisionM NalM RulesM CycleM EverywhereS EverywhereP CycleP1 CycleP2 CycleP3.
From Verif Require PQueueM HashTableM.
Local Open Scope nat_scope.
Import ListNotations.
#[local] Opaque Term_ExtractSubterm Term_OverrideSubterm zero_term RevisionAndChoice OccurrenceTimeIndex_Add Term_Complexity fmul fltb fleb feqb
  PQueueM.push copulaEquals Truth_Expectation stamp_check_overlap stamp_equal stamp_make fmax Unify UnifyWithAnalogy ApplySubstitute BeliefDeduction BeliefIntersection BeliefInduction
  Conceptualize AddEvent Table_AddAndRevise FindConceptByTerm GetConceptChain ImplicationValid DerivedEvent hasVariable conclusions
  OperationSequenceAppendLeftNested GetPreconditionWithoutOp Truth_Projection Truth_Eternalize Truth_Induction Truth_Intersection getOperationTerm getOperationID
  GoalDeduction GoalSequenceDeduction term_eqb kth_newest IntroduceImplicationVariables2 SequenceLength.
Section W.
Variable nm : names.
Variable av : Z -> option (f64 * name).
Variable simdist : f64.
Variable powdecay : Z -> f64.
Variable penalty : nat -> f64.
Variable layers : nat.
Variables threshold condition athr ca chance : f64.
Variable babbling_ops : Z.
Variable fuel : nat.
Variable W : stamp -> Prop.
Hypothesis W0 : W stamp_zero.
Hypothesis WM : forall a b, W a -> W b -> W (stamp_make a b).
Definition SB (e : event) : Prop := W (e_stamp e) /\ e_type e <> EVENT_TYPE_GOAL.
Definition SG (e : event) : Prop := W (e_stamp e) /\ (e_type e = EVENT_TYPE_GOAL \/ e_type e = EVENT_TYPE_DELETED).
Definition SI (i : implication) : Prop := W (i_stamp i).
Notation kall := (in_concept SB SG SI).
Notation ew := (everywhere SB SG SI).
Notation all t := (Forall SI (t_array t)).
Lemma rac_stamp ex inc r : RevisionAndChoice nm powdecay ex inc = Ok r ->
  (e_type (fst r) = e_type ex \/ e_type (fst r) = e_type inc) /\ (W (e_stamp ex) -> W (e_stamp inc) -> W (e_stamp (fst r))).
Proof.
  Transparent RevisionAndChoice. unfold RevisionAndChoice. destruct (_ =? _)%Z; [intros H; apply okinj in H; subst; auto|]. cbv zeta. Opaque RevisionAndChoice.
  destruct (_ || _); [destruct (fltb _ _); intros H; apply okinj in H; subst; auto|]. destruct (fleb _ _); [|discriminate]. intros H; apply okinj in H; subst. cbn. auto.
Qed.
Lemma rac_SB ex inc r : SB ex -> SB inc -> RevisionAndChoice nm powdecay ex inc = Ok r -> SB (fst r).
Proof. intros (A & B) (C & D) H. apply rac_stamp in H as [H1 H2]. split; auto. destruct H1 as [-> | ->]; auto. Qed.
Lemma rac_SG ex inc r : SG ex -> SG inc -> RevisionAndChoice nm powdecay ex inc = Ok r -> SG (fst r).
Proof. intros (A & B) (C & D) H. apply rac_stamp in H as [H1 H2]. split; auto. destruct H1 as [-> | ->]; auto. Qed.
Lemma CLS : EverywhereP.closed nm powdecay SB SG SI.
Proof.
  constructor; unfold SI; auto.
  - split; auto. discriminate.
  - split; auto.
  - intros e H; apply H.
  - intros e (A & B). unfold Event_Eternalized. destruct (_ =? _)%Z; split; auto.
  - intros a b r. apply rac_SB.
  - intros e1 e2 e3 o s' id now _ (A & _) _. unfold Event_Eternalized. destruct (_ =? _)%Z; exact A.
  - intros a b A B _ _ _ _. cbn. apply WM; auto.
Qed.
Lemma s_read m c k : ew m -> cread m c = Ok k -> kall k. Proof. apply (ew_read SB SG SI). Qed.
Lemma s_spike m c k : ew m -> cread m c = Ok k -> SB (c_spike k). Proof. intros I H. apply (s_read _ _ _ I H). Qed.
Lemma s_belief m c k : ew m -> cread m c = Ok k -> SB (c_belief k). Proof. intros I H. apply (s_read _ _ _ I H). Qed.
Lemma s_goal m c k : ew m -> cread m c = Ok k -> SG (c_goal k). Proof. intros I H. apply (s_read _ _ _ I H). Qed.
Lemma s_pre k i t : kall k -> pre_at k i = Ok t -> all t.
Proof. intros (_ & _ & _ & _ & F & _). unfold pre_at. destruct (nth_error _ _) eqn:E; [|discriminate]. intros H; apply okinj in H; subst. apply (Forall_error _ _ _ _ F E). Qed.
Lemma SI0 : SI imp0. Proof. exact W0. Qed.
Lemma s_slot t i : all t -> SI (slot t i). Proof. intros F. unfold slot. apply Forall_nth'; auto using SI0. Qed.
Lemma s_items t : all t -> Forall SI (items t).
Proof. intros F. unfold items. rewrite Forall_forall in *. intros x H. apply F. rewrite <- (firstn_skipn (t_items t)). apply in_or_app. auto. Qed.
Lemma s_cmod m c f : ew m -> (forall k, cread m c = Ok k -> kall k -> kall (f k)) -> ifok (cmod m c f) ew.
Proof. intros I H. eapply ifok_impl; [apply ew_cmod; eauto|]. intros r X; apply X. Qed.
Lemma s_conc m t now : ew m -> ifok (Conceptualize nm m t now) (fun r => ew (fst r)).
Proof. intros I. eapply ifok_impl; [apply (ew_conceptualize nm powdecay SB SG SI CLS m t now I)|]. intros r X; apply X. Qed.
Lemma s_add m e now p input revised layer : ew m -> SB e -> ifok (AddEvent nm powdecay penalty layers fuel m (EVal e) now p input revised layer) ew.
Proof.
  intros I P. eapply ifok_impl; [apply (ew_add nm powdecay penalty layers SB SG SI CLS fuel m (EVal e) now p input revised layer I)|].
  - intros e0 H; inversion H; subst; auto.
  - intros r X; apply X.
Qed.
Lemma s_addg m e now p input revised layer : ew m -> SG e -> ifok (AddEvent nm powdecay penalty layers fuel m (EVal e) now p input revised layer) ew.
Proof.
  intros I P. destruct (proj2 P) as [TY|TY].
  - eapply ifok_impl; [apply (ew_goal nm powdecay penalty layers SB SG SI fuel m e now p input revised layer I P TY)|]. intros r X; apply X.
  - apply s_add; auto. split; [apply P|]. rewrite TY. discriminate.
Qed.
Ltac kk := first [assumption|apply kall_spike; assumption|apply kall_predicted; assumption|apply kall_goal; assumption|apply kall_pre; assumption|apply kall_links; assumption].
Ltac mods := eapply s_cmod; [assumption|intros; kk].
Section F.
Context {A : Type}.
Variable P : A -> Prop.
Variable pid : Z.
Variable body : memory -> A -> nat -> res (memory * A * bool).
Hypothesis B : forall m a c, ew m -> P a -> ifok (body m a c) (fun r => ew (fst (fst r)) /\ P (snd (fst r))).
Lemma s_visit m a c : ew m -> P a -> ifok (visit pid body m a c) (fun r => ew (fst (fst r)) /\ P (snd (fst r))).
Proof.
  intros I PA. unfold visit. destruct c as [c|]; [|cbn; auto]. apply ifok_bind'; intros k _. destruct (_ =? _)%Z; [cbn; auto|].
  eapply ifok_bind; [mods|]. intros m1 K1. apply B; auto.
Qed.
Lemma s_chain n : forall m a p, ew m -> P a -> ifok (chain_loop pid body n m a p) (fun r => ew (fst (fst r)) /\ P (snd (fst r))).
Proof.
  induction n as [|n IH]; intros m a p I PA; destruct p as [p|]; cbn [chain_loop]; try (cbn; auto; fail). apply ifok_bind'; intros el _.
  eapply ifok_bind; [apply s_visit; auto|]. intros [[m1 a1] b] [R1 P1]. cbn [fst snd] in *. destruct b; [cbn; auto|]. apply IH; auto.
Qed.
Lemma s_foreach n t : forall l m a, ew m -> P a -> ifok (foreach_loop pid body n t l m a) (fun r => ew (fst r) /\ P (snd r)).
Proof.
  induction l as [|x l IH]; intros m a I PA; cbn [foreach_loop]; [cbn; auto|]. apply ifok_bind'; intros own _. apply ifok_bind'; intros ch _.
  eapply ifok_bind; [apply s_visit; auto|]. intros [[m1 a1] b] [R1 P1]. cbn [fst snd] in *. destruct b; [cbn; auto|].
  eapply ifok_bind; [apply s_chain; eauto|]. intros [[m2 a2] b2] [R2 P2]. cbn [fst snd] in *. destruct b2; [cbn; split; eauto|]. apply IH; auto.
Qed.
Lemma s_related n m t a : ew m -> P a -> ifok (related_foreach pid body n m t a) (fun r => ew (fst r) /\ P (snd r)).
Proof. apply s_foreach. Qed.
End F.
Lemma s_foldM {A} (f : memory -> A -> res memory) (P : A -> Prop) l : Forall P l -> (forall m a, ew m -> P a -> ifok (f m a) ew) -> forall m, ew m -> ifok (foldM f l m) ew.
Proof. intros F H. induction F as [|a l Pa F IH]; intros m I; cbn [foldM]; [exact I|]. eapply ifok_bind; [apply H; auto|]. intros m1 K1. apply IH; auto. Qed.
Lemma s_foldM' {A} (f : memory -> A -> res memory) l : (forall m a, ew m -> ifok (f m a) ew) -> forall m, ew m -> ifok (foldM f l m) ew.
Proof. intros H. apply s_foldM with (P := fun _ => True); auto. apply Forall_forall; auto. Qed.
(** *** declarative inference *)
Lemma s_add_derived m t d : ew m -> W (dv_stamp d) -> ifok (add_derived nm powdecay penalty layers fuel m t d) ew.
Proof.
  intros I H. unfold add_derived. apply ifok_bind'; intros v _. destruct v; cbn [negb]; [|exact I].
  apply ifok_bind'; intros r _. destruct r; [exact I|]. apply s_add; auto. split; [exact H|discriminate].
Qed.
Lemma s_intro_derived m t d r b two : ew m -> W (dv_stamp d) -> ifok (intro_derived nm powdecay penalty layers fuel m t d r b two) ew.
Proof. intros I H. unfold intro_derived. apply ifok_bind'; intros [ok t'] R. destruct (_ && _); [|exact I]. apply s_add_derived; auto. Qed.
Lemma s_derived m t d vi two : ew m -> W (dv_stamp d) -> ifok (DerivedEvent nm powdecay penalty layers fuel m t d vi two) ew.
Proof.
  intros I H. Transparent DerivedEvent. unfold DerivedEvent. Opaque DerivedEvent. cbv zeta. destruct (_ && _).
  - eapply ifok_bind; [apply s_intro_derived; eauto|]. intros m1 K1. eapply ifok_bind with (P := ew).
    { destruct (negb two); [|exact K1]. apply s_intro_derived; auto. }
    intros m2 K2. destruct (_ || _); [exact K2|]. apply s_add_derived; auto.
  - destruct (_ && _).
    + eapply ifok_bind; [apply s_intro_derived; eauto|]. intros m1 K1. apply s_intro_derived; auto.
    + apply s_add_derived; auto.
Qed.
Lemma s_rules m double t1 t2 v1 v2 d : ew m -> W (dv_stamp d) -> ifok (RuleTable_Apply nm powdecay penalty layers fuel m double t1 t2 v1 v2 d) ew.
Proof. intros I A. unfold RuleTable_Apply. apply s_foldM'; auto. intros m1 [[c v] vi] I1. apply s_derived; auto. Qed.
Lemma s_match m g t1 target v d : ew m -> W (dv_stamp d) -> ifok (derive_match nm av simdist powdecay penalty layers fuel m g t1 target v d) ew.
Proof.
  intros I A. unfold derive_match. apply ifok_bind'; intros s U. destruct (negb _); [exact I|]. apply ifok_bind'; intros [t ok] AP. destruct (negb ok); [exact I|]. apply s_derived; auto.
Qed.
Lemma s_remaining m s p t1 v d : ew m -> W (dv_stamp d) -> ifok (remaining_condition nm av simdist powdecay penalty layers fuel m s p t1 v d) ew.
Proof.
  intros I A. unfold remaining_condition. cbv zeta. apply ifok_bind'; intros s1 U. apply ifok_bind'; intros [subs rem] _. destruct (negb _); [exact I|].
  destruct (Term_OverrideSubterm _ 1 rem) as [o1 r1]. destruct (negb o1); [exact I|]. destruct (Term_OverrideSubterm r1 2 p) as [o2 r2]. destruct (negb o2); [exact I|].
  apply ifok_bind'; intros [t ok] AP. destruct (negb ok); [exact I|]. apply s_derived; auto.
Qed.
Lemma s_special m t1 t2 v1 v2 d : ew m -> W (dv_stamp d) -> ifok (SpecialInferences nm av simdist powdecay penalty layers fuel m t1 t2 v1 v2 d) ew.
Proof.
  intros I A. unfold SpecialInferences. cbv zeta. eapply ifok_bind with (P := ew).
  { destruct (_ || _); [|exact I]. eapply ifok_bind; [apply s_match; auto|]. intros m1 K1.
    eapply ifok_bind with (P := ew). { destruct (_ && _); [|exact K1]. apply s_remaining; auto. }
    intros m2 K2. apply s_match; auto. }
  intros m1 K1. destruct (copulaEquals _ _ _); [|exact K1]. apply s_match; auto.
Qed.
Lemma s_belief_of m c e sp b : ew m -> SB sp -> belief_of m c (projected powdecay e sp) = Ok b -> SB b.
Proof.
  intros I S. unfold projected. destruct (_ && _); cbn [belief_of].
  - intros H; apply okinj in H; subst. split; [apply S|apply S].
  - destruct (cread m c) as [k| |] eqn:E; cbn [rbind]; try discriminate. intros H; apply okinj in H; subst. eapply s_belief; eauto.
Qed.
Lemma s_infer_with m e prio now c cid : ew m -> SB e -> ifok (infer_with nm av simdist powdecay penalty layers fuel m e prio now c cid) ew.
Proof.
  intros I P. unfold infer_with. apply ifok_bind'; intros k Hk. cbv zeta. apply ifok_bind'; intros b Hb. pose proof (s_belief_of _ _ _ _ _ I (s_spike _ _ _ I Hk) Hb) as SBb.
  destruct (stamp_check_overlap _ _); [exact I|]. eapply ifok_bind; [mods|]. intros m1 K1. assert (WW : W (stamp_make (e_stamp e) (e_stamp b))) by (apply WM; [apply P|apply SBb]).
  apply ifok_bind'; intros k1 Hk1. apply ifok_bind'; intros b1 Hb1. eapply ifok_bind; [apply s_rules; auto|]. intros m2 K2.
  apply ifok_bind'; intros k2 Hk2. apply ifok_bind'; intros b2 Hb2. eapply ifok_bind; [apply s_special; auto|]. intros m3 K3.
  apply ifok_bind'; intros k3 Hk3. apply ifok_bind'; intros b3 Hb3. apply s_special; auto.
Qed.
Lemma s_infer_body e prio now thr m a c : ew m -> SB e -> ifok (infer_body nm av simdist powdecay penalty layers fuel e prio now thr m a c) (fun r => ew (fst (fst r)) /\ True).
Proof.
  intros I P. unfold infer_body. apply ifok_bind'; intros k Hk. destruct (fltb _ _); [cbn; auto|]. cbv zeta.
  eapply ifok_bind with (P := ew). { destruct (_ && _); [apply s_infer_with; auto|exact I]. } intros m1 K1. cbn. auto.
Qed.
(** *** anticipation *)
Lemma sall_set t i x : all t -> SI x -> all (set_slot t i x). Proof. intros A B. unfold set_slot. cbn [t_array]. apply Forall_upd; auto. Qed.
Lemma sall_revise t x : all t -> SI x -> ifok (Table_AddAndRevise t x) (fun r => all (fst r)).
Proof. intros A B. apply all_addrevise; auto using SI0. apply CLS. Qed.
Lemma s_negative t pe imp : all t -> ifok (AddNegativeConfirmation powdecay ca t pe imp) (fun t' => all t').
Proof.
  intros A. unfold AddNegativeConfirmation. cbv zeta. apply ifok_assert; intros _. eapply ifok_bind; [apply sall_revise; auto; exact W0|]. intros [t' i] H. cbn [fst] in H. cbn [ifok].
  destruct i as [i|]; auto. apply sall_set; auto. apply (s_slot t' i H).
Qed.
Lemma s_prune m n : forall t j, all t -> ifok (prune n m t j) (fun t' => all t').
Proof.
  induction n as [|n IH]; intros t j A; cbn [prune]; [exact A|]. destruct (_ <? _); [|exact A]. apply ifok_bind'; intros v _. destruct v; auto.
  apply IH. apply all_remove; auto using SI0.
Qed.
Lemma s_deduction e imp x : W (e_stamp e) -> SI imp -> BeliefDeduction nm e imp = Ok x -> SB x.
Proof.
  intros A B. Transparent BeliefDeduction. unfold BeliefDeduction. Opaque BeliefDeduction. destruct (rassert _); cbn [rbind]; try discriminate. intros H; apply okinj in H; subst.
  split; [cbn; apply WM; auto|discriminate].
Qed.
Lemma s_predict m now imp s result : ew m -> SB result -> ifok (predict nm av simdist powdecay m now imp s result) ew.
Proof.
  intros I P. unfold predict. apply ifok_bind'; intros k Hk. apply ifok_bind'; intros su U.
  destruct (negb _); [exact I|]. apply ifok_bind'; intros [t ok] AP. destruct (negb ok); [exact I|]. cbv zeta.
  eapply ifok_bind; [apply s_conc; auto|]. intros [m1 c] K1. cbn [fst snd] in *. destruct c as [c|]; [|exact K1].
  apply ifok_bind'; intros k1 Hk1. destruct (stamp_check_overlap _ _); [exact K1|]. eapply ifok_bind; [mods|]. intros m2 K2.
  apply ifok_bind'; intros k2 Hk2. pose proof (s_read _ _ _ K2 Hk2) as KA. destruct (copulaEquals _ _ _).
  - apply ifok_bind'; intros r Hr. apply rac_SB in Hr; [|apply KA|split; apply P]. mods.
  - destruct (stamp_equal _ _); [exact K2|]. apply ifok_bind'; intros r Hr. apply rac_SB in Hr; [|apply KA|split; apply P]. mods.
Qed.
Lemma s_intersection a b ok e : BeliefIntersection powdecay a b = Ok (ok, e) -> W (e_stamp a) -> W (e_stamp b) -> W (e_stamp e) /\ (ok = true -> e_type e = EVENT_TYPE_BELIEF).
Proof.
  intros H A B. Transparent BeliefIntersection. unfold BeliefIntersection in H. Opaque BeliefIntersection. destruct (rassert _); cbn [rbind] in H; try discriminate. cbv zeta in H.
  destruct (Narsese_Sequence _ _) as [o t]. apply okinj in H. inversion H; subst. destruct ok; cbn; auto. split; [exact W0|discriminate].
Qed.
Lemma s_anticipate_imp o opt now p m imp : ew m -> SI imp -> ifok (anticipate_imp nm av simdist powdecay athr ca o opt now p m imp) ew.
Proof.
  intros I P. unfold anticipate_imp. destruct (i_source imp) as [s|]; [|exact Logic.I]. apply ifok_bind'; intros k Hk. cbv zeta. destruct (negb _); [exact I|].
  apply ifok_bind'; intros same _. destruct (negb same); [exact I|]. apply ifok_assert; intros _. apply ifok_bind'; intros [ok sq] BI. destruct (negb ok); [exact I|].
  apply ifok_bind'; intros result RD. 
  match type of RD with BeliefDeduction _ ?x _ = _ => assert (WX : W (e_stamp x)) end.
  { apply s_intersection in BI; [|apply (s_spike _ _ _ I Hk)|exact W0]. destruct (_ =? _); [apply (s_spike _ _ _ I Hk)|apply BI]. }
  apply s_deduction in RD; auto. destruct (negb _); [exact I|].
  eapply ifok_bind with (P := ew).
  { destruct (copulaEquals _ _ _); [|exact I]. apply ifok_bind'; intros k1 Hk1. apply ifok_bind'; intros t Ht. pose proof (s_pre _ _ _ (s_read _ _ _ I Hk1) Ht) as A.
    eapply ifok_bind; [apply s_negative; auto|]. intros t' A'. mods. }
  intros m1 K1. apply s_predict; auto.
Qed.
Lemma s_alinks o decl m p : ew m -> ifok (anticipate_links o decl m p) (fun r => ew (fst r) /\ Forall SI (snd r)).
Proof.
  intros I. unfold anticipate_links. apply ifok_bind'; intros k Hk. pose proof (s_read _ _ _ I Hk) as KA. destruct (negb decl).
  - apply ifok_bind'; intros t Ht. eapply ifok_bind; [apply s_prune, (s_pre _ _ _ KA Ht)|]. intros t' A. eapply ifok_bind; [mods|]. intros m1 K1. cbn. auto using s_items.
  - destruct (_ =? _); [|cbn; auto]. eapply ifok_bind; [apply s_prune, KA|]. intros t' A. eapply ifok_bind; [mods|]. intros m1 K1. cbn. auto using s_items.
Qed.
Lemma s_aloop o opt decl now n : forall j m, ew m -> ifok (anticipate_loop nm av simdist powdecay athr ca n o opt decl now j m) ew.
Proof.
  induction n as [|n IH]; intros j m I; cbn [anticipate_loop]; [exact I|]. destruct (nth_error _ _) as [it|]; [|exact I]. cbv zeta.
  eapply ifok_bind; [apply s_alinks; auto|]. intros [m1 imps] [K1 F]. cbn [fst snd] in *.
  eapply ifok_bind; [apply s_foldM with (P := SI); [exact F|intros; apply s_anticipate_imp; auto|apply K1]|]. intros m2 K2. apply IH; auto.
Qed.
Lemma s_anticipate m o opt decl now : ew m -> ifok (Anticipate nm av simdist powdecay athr ca m o opt decl now) ew.
Proof. intros I. unfold Anticipate. apply ifok_assert; intros _. apply s_aloop; auto. Qed.
(** *** decisions *)
Definition SD (d : decision) : Prop := SI (d_missing d) /\ SI (d_specific d).
Lemma SD0 : SD decision0. Proof. split; exact W0. Qed.
Lemma sd_babble ops rs : ifok (MotorBabbling babbling_ops ops rs) (fun r => SD (snd r)).
Proof.
  unfold MotorBabbling. cbv zeta. destruct (_ <? _)%Z; [|apply SD0]. destruct (myrand rs) as [rs1 r]. destruct (_ =? _)%Z; [exact Logic.I|].
  destruct (_ <? _)%Z; [exact Logic.I|]. destruct (nth_error ops _) as [o|] eqn:N; [|exact Logic.I]. destruct (negb _).
  - destruct (myrand rs1) as [rs2 r2]. split; exact W0.
  - split; exact W0.
Qed.
Lemma sd_negative m now d : SD d -> ifok (ConsiderNegativeOutcomes nm powdecay m now d) SD.
Proof. intros D. unfold ConsiderNegativeOutcomes. apply ifok_bind'; intros out _. cbn [ifok]. destruct (fltb _ _); auto using SD0. Qed.
Lemma sd_consider m now goal imp tr : ifok (ConsiderImplication nm powdecay m now goal imp tr) SD.
Proof.
  unfold ConsiderImplication. destruct (i_source imp) as [s|]; [|exact Logic.I]. apply ifok_bind'; intros k _. apply ifok_bind'; intros ctx _. cbv zeta.
  destruct (OperationSequenceAppendLeftNested _ _ _) as [ok opterm]. apply ifok_assert; intros _. apply ifok_bind'; intros op X. destruct op as [[o a]|]; [|apply SD0].
  apply sd_negative. split; exact W0.
Qed.
Lemma sd_context m now goal gc gen opi used impt best ck : SI used -> SD (fst best) ->
  ifok (try_context nm av simdist powdecay m now goal gc gen opi used impt best ck) (fun b => SD (fst b)).
Proof.
  intros P D. unfold try_context. destruct ck as [c cm]. destruct (_ || _); [exact D|]. cbv zeta.
  apply ifok_bind'; intros s2 U. destruct (negb _); [exact D|]. apply ifok_bind'; intros cl _. destruct cl; [exact D|].
  apply ifok_bind'; intros [t ok] AP. destruct (negb _); [exact D|].
  eapply ifok_bind; [apply sd_consider|]. intros d [D2 D3].
  assert (M : forall b, SD (if b : bool then with_missing d (mkImp t (i_truth used) (i_stamp used) (i_offset used) (Some c) (c_id cm) (i_creation used)) else d)).
  { intros [|]; split; cbn; auto. }
  destruct (hasVariable nm (i_term used) true true true).
  - apply ifok_bind'; intros [kn inh] _. cbn [ifok]. destruct (_ && _); [|exact D]. cbn [fst]. destruct (M (negb kn || negb (feqb (confidence (s_truth s2)) (confidence (e_truth (c_spike cm)))))) as [M2 M3].
    split; cbn; auto.
  - cbn [ifok]. destruct (improves _ _ _); [|exact D]. cbn [fst]. destruct (M (negb (feqb (confidence (s_truth s2)) (confidence (e_truth (c_spike cm)))))) as [M2 M3].
    split; cbn; auto.
Qed.
Lemma s_entries now goal g gen subs opi n : forall m j best, ew m -> SD (fst best) ->
  ifok (try_entries nm av simdist powdecay n m now goal g gen subs opi j best) (fun r => ew (fst r) /\ SD (fst (snd r))).
Proof.
  induction n as [|n IH]; intros m j best I D; cbn [try_entries]; [cbn; auto|].
  apply ifok_bind'; intros gc Hg. apply ifok_bind'; intros t Ht. pose proof (s_pre _ _ _ (s_read _ _ _ I Hg) Ht) as A.
  destruct (_ <? _); [|cbn; auto]. cbv zeta. apply ifok_bind'; intros v _. destruct v; cbn [negb].
  - apply ifok_bind'; intros [impt ok] AP. pose proof (s_slot t j A) as PS. destruct (negb ok); [apply IH; auto|].
    apply ifok_assert; intros _. eapply ifok_bind with (P := fun b => SD (fst b)).
    { apply foldM_any; auto. intros b ck H HB. apply sd_context; auto. }
    intros b HB. apply IH; auto.
  - eapply ifok_bind; [eapply s_cmod; [exact I|]; intros; apply kall_pre; auto; apply all_remove; auto using SI0|]. intros m1 K1. apply IH; auto.
Qed.
Lemma s_tables now goal g gen subs opis : forall m best, ew m -> SD (fst best) ->
  ifok (try_tables nm av simdist powdecay opis m now goal g gen subs best) (fun r => ew (fst r) /\ SD (fst (snd r))).
Proof.
  induction opis as [|o l IH]; intros m best I D; cbn [try_tables]; [cbn; auto|]. apply ifok_bind'; intros gc Hg. apply ifok_bind'; intros t Ht.
  eapply ifok_bind; [apply s_entries; auto|]. intros [m1 b1] [K1 D1]. cbn [fst snd] in *. apply IH; auto.
Qed.
Lemma s_best m g goal now : ew m -> ifok (BestCandidate nm av simdist powdecay threshold m g goal now) (fun r => ew (fst r) /\ SD (snd r)).
Proof.
  intros I. unfold BestCandidate. apply ifok_bind'; intros gc Hg. cbv zeta. apply ifok_bind'; intros su U.
  eapply ifok_bind with (P := fun r => ew (fst r) /\ SD (fst (snd r))).
  { destruct (s_success su); [apply s_tables; auto using SD0|cbn; auto using SD0]. }
  intros [m1 [d c]] [K1 D1]. cbn [fst snd] in *. destruct (fltb _ _); [cbn; auto using SD0|]. destruct (d_reason d); [|exact Logic.I]. cbn. split; auto.
Qed.
Lemma s_suggest m g goal now rs : ew m -> ifok (Suggest nm av simdist powdecay threshold chance babbling_ops m g goal now rs) (fun r => ew (snd (fst r)) /\ SD (snd r)).
Proof.
  intros I. unfold Suggest. destruct (myrand rs) as [rs1 r]. cbv zeta. destruct (_ || _); [exact Logic.I|].
  eapply ifok_bind with (P := fun r => SD (snd r)). { destruct (_ <? _)%Z; [apply sd_babble|apply SD0]. }
  intros [rs2 bd] DB. eapply ifok_bind; [apply s_best; auto|]. intros [m1 d] [K1 D1]. cbn [ifok fst snd] in *. split; auto. destruct (_ || _); auto.
Qed.
(** *** processing an event *)
Definition SE (e : event) : Prop := W (e_stamp e) /\ (e_type e = EVENT_TYPE_BELIEF \/ e_type e = EVENT_TYPE_GOAL \/ e_type e = EVENT_TYPE_DELETED).
Lemma SE_B e : W (e_stamp e) -> e_type e = EVENT_TYPE_BELIEF -> SE e. Proof. split; auto. Qed.
Lemma SE_G e : SG e -> SE e. Proof. intros (A & B); split; tauto. Qed.
Lemma s_activate m rs c e now : ew m -> SE e -> ifok (Activate nm av simdist powdecay threshold chance babbling_ops m rs c e now) (fun r => ew (fst (fst r)) /\ SD (snd r)).
Proof.
  intros I [P TY]. unfold Activate. eapply ifok_bind; [mods|]. intros m1 K1. eapply ifok_bind; [mods|]. intros m2 K2.
  apply ifok_bind'; intros k Hk. cbv zeta. destruct (Z.eqb_spec (e_type e) EVENT_TYPE_BELIEF) as [B|B].
  - eapply ifok_bind with (P := ew); [|intros m3 K3; cbn; auto using SD0].
    destruct (_ || _); [|exact K2]. eapply s_cmod; [exact K2|]. intros; apply kall_spike; auto. split; auto. cbn. rewrite B. discriminate.
  - eapply ifok_bind with (P := ew).
    { destruct (_ || _); [|exact K2]. eapply s_cmod; [exact K2|]. intros; apply kall_goal; auto. split; auto. cbn. tauto. }
    intros m3 K3. eapply ifok_bind; [apply s_suggest; auto|]. intros [[rs4 m4] d] [K4 D]. cbn [fst snd ifok] in *. auto.
Qed.
Lemma sd_better a b : SD a -> SD b -> SD (BetterDecision a b). Proof. unfold BetterDecision. destruct (_ && _); auto. Qed.
Lemma s_body e now m a c : SE e -> ew m -> SD (snd a) -> ifok (process_body nm av simdist powdecay threshold chance babbling_ops e now m a c) (fun r => ew (fst (fst r)) /\ SD (snd (snd (fst r)))).
Proof.
  intros P I D. unfold process_body. cbv zeta.
  eapply ifok_bind with (P := fun r => ew (fst r) /\ SD (snd (snd r))).
  { destruct (_ || _); [|cbn; auto]. apply ifok_bind'; intros k Hk. apply ifok_bind'; intros su _. destruct (s_success su); [|cbn; auto].
    eapply ifok_bind; [apply s_activate; auto; split; apply P|]. intros [[m1 rs] d] [K1 D1]. cbn [fst snd ifok] in *. auto using sd_better. }
  intros [m1 a1] [K1 D1]. cbn [fst snd] in *. eapply ifok_bind with (P := fun r => ew (fst r) /\ SD (snd (snd r))); [|intros [m2 a2] H; exact H].
  destruct (hasVariable _ _ _ _ _); [|cbn; auto]. apply ifok_bind'; intros k Hk. apply ifok_bind'; intros su U. destruct (s_success su); [|cbn; auto].
  apply ifok_bind'; intros [t ok] AP. destruct ok; [|cbn; auto].
  eapply ifok_bind; [apply s_activate; [apply K1|split; apply P]|]. intros [[m2 rs] d] [K2 D2]. cbn [fst snd ifok] in *. split; auto using sd_better.
Qed.
(** *** states *)
Record Sq (s s' : cstate) : Prop := {
  sq_mem : ew (s_mem s'); sq_ids : s_ids s' = s_ids s; sq_selB : s_selB s' = s_selB s; sq_selG : s_selG s' = s_selG s }.
Lemma Sq_refl s : ew (s_mem s) -> Sq s s. Proof. intros; constructor; auto. Qed.
Lemma Sq_trans a b c : Sq a b -> Sq b c -> Sq a c. Proof. intros [A1 A2 A3 A4] [B1 B2 B3 B4]. constructor; congruence. Qed.
Lemma Sq_mem s m : ew m -> Sq s (set_mem s m). Proof. intros; constructor; auto. Qed.
Lemma s_ring m f : ew m -> ew (set_ring m f). Proof. intros [A B C]. constructor; auto. Qed.
Lemma s_sensorimotor s e now : ew (s_mem s) -> SE e ->
  ifok (ProcessSensorimotorEvent nm av simdist powdecay threshold chance babbling_ops fuel s e now) (fun r => Sq s (fst r) /\ SD (snd r)).
Proof.
  intros I P. unfold ProcessSensorimotorEvent. apply ifok_assert; intros _.
  eapply ifok_bind; [apply s_conc; auto|]. intros [m c] K1. cbn [fst] in K1.
  destruct c as [c|]; [|cbn; auto using Sq_mem, SD0].
  eapply ifok_bind with (P := ew).
  { destruct (_ && _); [|exact K1]. apply ifok_bind'; intros f Hf. cbn [ifok]. apply s_ring; auto. }
  intros m1 K2. cbv zeta. eapply ifok_bind.
  { eapply s_related with (P := fun a : Z * decision => SD (snd a)); [intros mm a cc I1 Da; apply s_body; auto|apply K2|apply SD0]. }
  intros [m2 a] [K3 D]. cbn [fst snd ifok] in *. split; auto. constructor; auto.
Qed.
(** *** beliefs *)
Lemma s_induction a b ok i : BeliefInduction powdecay a b = Ok (ok, i) -> W (e_stamp a) -> W (e_stamp b) -> W (i_stamp i).
Proof.
  intros H A B. Transparent BeliefInduction. unfold BeliefInduction in H. Opaque BeliefInduction. destruct (rassert _); cbn [rbind] in H; try discriminate. cbv zeta in H.
  destruct (Term_OverrideSubterm (upd zero_term 0 _) 1 (e_term a)) as [o1 r1]. destruct o1.
  - destruct (Term_OverrideSubterm r1 2 (e_term b)) as [o2 r2]. apply okinj in H. inversion H; subst. destruct ok; [|exact W0]. cbn. unfold Event_Eternalized. repeat destruct (_ =? _)%Z; apply WM; auto.
  - apply okinj in H. inversion H; subst. exact W0.
Qed.
Lemma s_reinforce m time a b : ew m -> W (e_stamp a) -> W (e_stamp b) -> ifok (ReinforceLink nm powdecay penalty layers fuel m time a b) ew.
Proof.
  intros I A B. unfold ReinforceLink. destruct (_ || _); [exact I|]. apply ifok_bind'; intros a' _. apply ifok_bind'; intros b' _.
  destruct a' as [a'|]; [|exact I]. destruct b' as [b'|]; [|exact I]. destruct (_ || _); [exact I|].
  apply ifok_bind'; intros [ok i] H. apply s_induction in H; auto. destruct (_ && _); [|exact I]. apply s_derived; auto.
Qed.
Lemma s_mine m time now post o p : ew m -> W (e_stamp post) -> ifok (mine_prec nm powdecay penalty layers fuel m time now post o p) ew.
Proof.
  intros I P. unfold mine_prec. apply ifok_bind'; intros prec H1. apply ifok_bind'; intros opc H2. destruct (_ && _); [|exact I].
  pose proof (proj1 (s_spike _ _ _ I H1)) as S1. pose proof (proj1 (s_spike _ _ _ I H2)) as S2.
  apply ifok_bind'; intros [ok sq] H. apply s_intersection in H as [H _]; auto. destruct (ok && _); [|exact I].
  destruct (OperationSequenceAppendLeftNested _ _ _) as [ok5 t]. destruct ok5; [|exact I]. apply s_reinforce; auto.
Qed.
Lemma s_prec n : forall i m pid time now post o oid, ew m -> W (e_stamp post) -> ifok (prec_loop nm powdecay penalty layers fuel n i m pid time now post o oid) ew.
Proof.
  induction n as [|n IH]; intros i m pid time now post o oid I P; cbn [prec_loop]; [exact I|]. apply ifok_bind'; intros opc _. destruct (_ && _); [|exact I].
  apply ifok_bind'; intros p _. apply ifok_bind'; intros k _. eapply ifok_bind; [mods|]. intros m1 K1.
  eapply ifok_bind with (P := ew). { destruct (_ =? _)%Z; [exact K1|]. apply s_mine; auto. }
  intros m2 K2. apply IH; auto.
Qed.
Lemma s_ops n : forall j m p2 p3 time now post, ew m -> W (e_stamp post) -> ifok (op_loop nm powdecay penalty layers fuel n j m p2 p3 time now post) (fun r => ew (fst r)).
Proof.
  induction n as [|n IH]; intros j m p2 p3 time now post I P; cbn [op_loop]; [exact I|]. destruct (_ <? _)%Z; [|exact I].
  apply ifok_bind'; intros o _. apply ifok_bind'; intros k _. eapply ifok_bind; [mods|]. intros m1 K1. destruct (_ && _).
  - eapply ifok_bind; [apply s_prec; auto|]. intros m2 K2. apply IH; auto.
  - apply IH; auto.
Qed.
Lemma s_build s now sq op_id prio cond op : ew (s_mem s) -> W (e_stamp sq) -> e_type sq = EVENT_TYPE_BELIEF ->
  ifok (build_sequence nm av simdist powdecay penalty layers threshold athr ca chance babbling_ops fuel s now sq op_id prio cond op) (Sq s).
Proof.
  intros I P B. unfold build_sequence. destruct (_ || _); [|apply Sq_refl; auto]. eapply ifok_bind; [apply s_sensorimotor; auto; apply SE_B; auto|].
  intros [s1 d] [Q1 _]. cbn [fst snd] in *. apply ifok_bind'; intros r R. eapply ifok_bind with (P := ew).
  { destruct r as [t|]; [|apply Q1]. apply s_add; [apply Q1|]. split; [exact P|]. cbn. rewrite B. discriminate. }
  intros m2 K2. eapply ifok_bind with (P := ew).
  { destruct (_ && _); [|exact K2]. apply s_anticipate; auto. }
  intros m3 K3. cbn [ifok]. eapply Sq_trans; [exact Q1|]. apply Sq_mem; auto.
Qed.
Lemma s_correlate s now post op_id prio c : ew (s_mem s) -> W (e_stamp post) ->
  ifok (correlate nm av simdist powdecay penalty layers threshold athr ca chance babbling_ops fuel s now post op_id prio c) (Sq s).
Proof.
  intros I P. unfold correlate. cbv zeta. apply ifok_bind'; intros k Hk. destruct (_ && _); [|apply Sq_refl; auto]. destruct (_ && _); [|apply Sq_refl; auto].
  pose proof (proj1 (s_spike _ _ _ I Hk)) as S1. apply ifok_bind'; intros [ok sq] H. apply s_intersection in H as [T1 T2]; auto.
  destruct ok; cbn [andb]; [|apply Sq_refl; auto]. destruct (negb _); [|apply Sq_refl; auto].
  eapply ifok_bind with (P := ew).
  { destruct (_ && _); [|exact I]. eapply ifok_bind; [apply s_reinforce; auto|]. intros m1 K1. apply ifok_bind'; intros k1 Hk1. destruct (_ =? _)%Z; [|exact K1].
    apply s_reinforce; auto. apply (s_spike _ _ _ K1 Hk1). }
  intros m1 K1. apply ifok_bind'; intros k1 _. destruct (_ <=? _)%Z; [|apply Sq_mem; auto].
  eapply ifok_impl; [apply s_build; auto; apply K1|]. intros s2 Q2. eapply Sq_trans; [|exact Q2]. apply Sq_mem; auto.
Qed.
Lemma s_correlate_loop n : forall i s now post op_id prio, ew (s_mem s) -> W (e_stamp post) ->
  ifok (correlate_loop nm av simdist powdecay penalty layers threshold athr ca chance babbling_ops fuel n i s now post op_id prio) (Sq s).
Proof.
  induction n as [|n IH]; intros i s now post op_id prio I P; cbn [correlate_loop]; [apply Sq_refl; auto|]. destruct (_ <? _)%Z; [|apply Sq_refl; auto].
  apply ifok_bind'; intros c _. apply ifok_bind'; intros k _. eapply ifok_bind; [mods|]. intros m1 K1. cbv zeta.
  eapply ifok_bind with (P := Sq s).
  { destruct (_ =? _)%Z; [apply Sq_mem; auto|]. eapply ifok_impl; [apply s_correlate; auto; apply K1|]. intros s2 Q2. eapply Sq_trans; [|exact Q2]. apply Sq_mem; auto. }
  intros s2 Q2. eapply ifok_impl; [apply IH; auto; apply Q2|]. intros; eapply Sq_trans; eauto.
Qed.
Lemma s_beliefs s now : ew (s_mem s) -> (forall e p, s_selB s = Some (e, p) -> SB e) ->
  ifok (ProcessBeliefEvents nm av simdist powdecay penalty layers threshold athr ca chance babbling_ops fuel s now) (Sq s).
Proof.
  intros I S. unfold ProcessBeliefEvents. destruct (s_selB s) as [[e p]|]; [|apply Sq_refl; auto]. specialize (S e p eq_refl). cbv zeta. destruct (_ && _); [|apply Sq_refl; auto].
  apply ifok_assert; intros TY. apply Z.eqb_eq in TY. eapply ifok_bind; [apply s_sensorimotor; auto; apply SE_B; auto; apply S|]. intros [s1 d] [Q1 _]. cbn [fst snd] in *.
  eapply ifok_bind with (P := Sq s).
  { destruct (_ =? _); [|destruct Q1; constructor; auto]. eapply ifok_bind; [apply s_ops; [apply Q1|apply S]|]. intros [m2 p3] K2. cbn [fst ifok] in *.
    destruct Q1; constructor; auto. }
  intros s2 Q2. eapply ifok_bind.
  { apply s_correlate_loop; [apply Q2|apply S]. }
  intros s3 Q3. assert (Q4 : Sq s s3). { eapply Sq_trans; [exact Q2|]. destruct Q3; constructor; auto. }
  destruct (fleb _ _); [|exact Q4]. eapply ifok_bind; [apply s_anticipate; eauto; apply Q4|]. intros m4 K4. cbn [ifok]. eapply Sq_trans; [exact Q4|]. apply Sq_mem; auto.
Qed.
Lemma s_rounds n : forall s e prio now matched, ew (s_mem s) -> SB e ->
  ifok (infer_rounds nm av simdist powdecay penalty layers fuel n s e prio now matched) (Sq s).
Proof.
  induction n as [|n IH]; intros s e prio now matched I P; cbn [infer_rounds]; [exact Logic.I|]. destruct (_ =? _)%Z; [exact Logic.I|]. cbv zeta.
  eapply ifok_bind; [apply s_rules; auto; apply P|]. intros m1 K1. eapply ifok_bind.
  { eapply s_related with (P := fun _ : Z * Z => True); [intros mm a cc I1 _; eapply s_infer_body; eauto|apply K1|exact Logic.I]. }
  intros [m2 a] [K2 _]. cbn [fst snd] in *. assert (Q1 : Sq s (set_stats (set_mem s m2) (adapt (s_thr s) (s_total s) now) (s_total s + fst a) (if (s_max s <? snd a)%Z then snd a else s_max s))).
  { constructor; auto. }
  destruct (_ || _); [exact Q1|]. eapply ifok_impl; [apply IH; auto; apply Q1|]. intros; eapply Sq_trans; [|eauto]. exact Q1.
Qed.
Lemma s_inference s now : ew (s_mem s) -> (forall e p, s_selB s = Some (e, p) -> SB e) -> ifok (Cycle_Inference nm av simdist powdecay penalty layers fuel s now) (Sq s).
Proof.
  intros I S. unfold Cycle_Inference. destruct (s_selB s) as [[e p]|] eqn:E; [|apply Sq_refl; auto]. eapply ifok_impl; [apply s_rounds; auto; eapply S; eauto|].
  intros s1 Q1. destruct Q1; constructor; auto.
Qed.
End W.
