(** The shape of the link tables and the marks of concepts: the walk through a cycle, on memories. *)
From Coq Require Import ZArith List Bool Lia.
From Flocq Require Import IEEE754.BinarySingleNaN.
From Verif Require Import Base F64 TruthM StampM HashM TermM NamesM EventM InferenceM TableM UsageM RingM InvIndexM VariableM MemoryM QuestionM DecisionM NalM RulesM CycleM EverywhereS EverywhereP CycleP1 CycleP2 CycleP3 TableP ShapeS.
From Verif Require PQueueM HashTableM.
Local Open Scope nat_scope.
Import ListNotations.
#[local] Opaque Term_ExtractSubterm Term_OverrideSubterm zero_term implication_of RevisionAndChoice OccurrenceTimeIndex_Add Term_Complexity fmul fltb fleb feqb
  PQueueM.push copulaEquals Truth_Expectation stamp_check_overlap stamp_equal stamp_make fmax Unify UnifyWithAnalogy ApplySubstitute BeliefDeduction BeliefIntersection BeliefInduction
  Conceptualize AddEvent Table_AddAndRevise FindConceptByTerm GetConceptChain ImplicationValid DerivedEvent hasVariable conclusions
  OperationSequenceAppendLeftNested GetPreconditionWithoutOp Truth_Projection Truth_Eternalize Truth_Induction Truth_Intersection getOperationTerm getOperationID
  GoalDeduction GoalSequenceDeduction term_eqb kth_newest IntroduceImplicationVariables2 SequenceLength.

(** nothing is said about stamps *)
Definition W (_ : stamp) : Prop := True.
Lemma W0 : W stamp_zero. Proof. exact Logic.I. Qed.
Lemma WM a b : W a -> W b -> W (stamp_make a b). Proof. intros; exact Logic.I. Qed.
#[export] Hint Extern 0 (W _) => exact Logic.I : core.
Definition KP (b : Z) (k : concept) : Prop := concept_shape k /\ (pid1 k <= b)%Z.
(** *** tables *)
Lemma shape_remove t i : table_shape t -> table_shape (Table_Remove t i).
Proof. intros [A B]. unfold table_shape, Table_Remove. cbn [t_array t_items]. rewrite shift_up_length. split; [exact A|lia]. Qed.
Lemma shape_set t i x : table_shape t -> table_shape (set_slot t i x).
Proof. intros [A B]. unfold table_shape, set_slot. cbn [t_array t_items]. rewrite upd_length. auto. Qed.
Lemma shape_add t x t' r : table_shape t -> Table_AddAndRevise t x = Ok (t', r) -> table_shape t'.
Proof. intros S E. apply (wf_run [TableS.AddRevise x] t t' S). cbn [TableS.trun TableS.tstep]. rewrite E. reflexivity. Qed.
Lemma shape0 : table_shape table0. Proof. split; [reflexivity|cbn; lia]. Qed.
(** *** what is stored *)
Section A.
Variable nm : names.
Variable powdecay : Z -> f64.
Variable penalty : nat -> f64.
Variable layers : nat.
Variable b : Z.
Hypothesis B0 : (0 <= b)%Z.
Notation KP := (KP b).
Notation h m := (Forall KP (m_store m)).
Lemma h_read m c k : h m -> cread m c = Ok k -> KP k.
Proof. intros E. unfold cread. destruct (nth_error (m_store m) c) eqn:Q; [|discriminate]. intros H; inversion H; subst. eapply Forall_error; eauto. Qed.
Lemma h_cmod m c f : h m -> (forall k, cread m c = Ok k -> KP k -> KP (f k)) -> ifok (cmod m c f) (fun m' => h m').
Proof. intros E H. unfold cmod. destruct (cread m c) as [k| |] eqn:Q; cbn [rbind ifok]; auto. cbn. apply Forall_upd; auto. apply H; auto. eapply h_read; eauto. Qed.
Lemma h_same m c (f : concept -> concept) : h m -> (forall k, c_pre (f k) = c_pre k /\ c_links (f k) = c_links k /\ c_pids (f k) = c_pids k) -> ifok (cmod m c f) (fun m' => h m').
Proof. intros E H. apply h_cmod; auto. intros k _ [A B]. destruct (H k) as (X & Y & Z). split; [unfold concept_shape; rewrite X, Y; exact A|unfold pid1; rewrite Z; exact B]. Qed.
Ltac same := apply h_same; [assumption|intros; repeat split; reflexivity].
Lemma h_conc m t now : h m -> ifok (Conceptualize nm m t now) (fun r => h (fst r)).
Proof.
  Transparent Conceptualize. intros E. unfold Conceptualize. destruct (FindConceptByTerm m t) as [[c|]| |]; cbn [rbind]; try exact Logic.I; try exact E. Opaque Conceptualize.
  destruct (PQueueM.push _ _ _ _) as [q fb]. destruct (PQueueM.added fb) as [it|]; [|exact E].
  apply ifok_bind'; intros old _. apply ifok_bind'; intros [hh x] _. apply ifok_bind'; intros x' _. apply ifok_bind'; intros h' _.
  cbn. apply Forall_upd; auto. split; [|exact B0]. split; [reflexivity|]. split; [|apply shape0]. change (Forall table_shape (repeat table0 11)). apply Forall_repeat, shape0.
Qed.
Lemma h_cycling m r p layer : ifok (addCyclingEvent layers m r p layer) (fun mb => m_store (fst mb) = m_store m).
Proof.
  unfold addCyclingEvent. apply ifok_bind'; intros e He. apply ifok_assert; intros AS. apply ifok_bind'; intros known _. destruct known; [reflexivity|].
  destruct (_ && existsb _ _); [reflexivity|]. apply ifok_bind'; intros found _. apply ifok_bind'; intros better _. destruct better; [reflexivity|].
  destruct (_ =? _)%Z.
  - apply ifok_bind'; intros [q bb] Q. reflexivity.
  - destruct (nth_error _ _); [|exact Logic.I]. apply ifok_bind'; intros [q bb] Q. reflexivity.
Qed.
Lemma h_link m target bb opi imp : h m -> ifok (add_link m target bb opi imp) (fun m' => h m').
Proof.
  intros E. unfold add_link. apply ifok_bind'; intros k Hk. pose proof (h_read _ _ _ E Hk) as [(K1 & K2 & K3) K4]. destruct bb.
  - apply ifok_bind'; intros [t j] T. apply shape_add in T; auto. apply h_cmod; auto. intros k' _ [(L1 & L2 & L3) L4]. split; [split; [exact L1|split; [exact L2|exact T]]|exact L4].
  - destruct (nth_error (c_pre k) opi) as [t|] eqn:N; [|exact Logic.I]. apply ifok_bind'; intros [t' j] T. apply shape_add in T; [|apply (Forall_error _ _ _ _ K2 N)].
    apply h_cmod; auto. intros k' _ [(L1 & L2 & L3) L4]. split; [|exact L4]. split; [cbn; rewrite upd_length; exact L1|]. split; [cbn; apply Forall_upd; auto|exact L3].
Qed.
Lemma h_implication m r now et ei : h m -> ifok (ProcessImplication nm m r now et ei) (fun mb => h (fst mb)).
Proof.
  intros E. unfold ProcessImplication. apply ifok_bind'; intros e He.
  eapply ifok_bind; [apply h_conc; auto|]. intros [m1 target] K1. cbn [fst] in K1. destruct target as [target|]; [|exact K1].
  eapply ifok_bind; [same|]. intros m2 K2. apply ifok_bind'; intros e1 He1. destruct (source_of _ _ _ _) as [[opi st]|]; [|exact K2].
  eapply ifok_bind; [apply h_conc; exact K2|]. intros [m3 source] K3. cbn [fst] in K3. destruct source as [source|]; [|exact K3].
  eapply ifok_bind; [same|]. intros m4 K4. apply ifok_bind'; intros k Hk. apply ifok_bind'; intros e2 He2.
  eapply ifok_bind; [apply h_link; exact K4|]. intros m5 K5. exact K5.
Qed.
Lemma h_concept rec m r now et ei p : (forall m c p, h m -> ifok (rec m c p) (fun m' => h m')) -> h m -> ifok (ProcessConcept nm powdecay rec m r now et ei p) (fun m' => h m').
Proof.
  intros REC E. unfold ProcessConcept. apply ifok_bind'; intros e0 _.
  eapply ifok_bind; [apply h_conc; auto|]. intros [m1 c] K1. cbn [fst] in K1. destruct c as [c|]; [|exact K1].
  apply ifok_bind'; intros e He. eapply ifok_bind with (P := fun m' => h m').
  { destruct (_ && _); [|exact K1]. apply ifok_bind'; intros f _. exact K1. }
  intros m2 K2. eapply ifok_bind; [same|]. intros m3 K3. eapply ifok_bind; [same|]. intros m4 K4. eapply ifok_bind with (P := fun m' => h m').
  { destruct (_ && _); [|exact K4]. apply ifok_bind'; intros k Hk. apply ifok_bind'; intros rv Hrv. same. }
  intros m5 K5. eapply ifok_bind with (P := fun m' => h m').
  { destruct (_ && _); [|exact K5]. apply ifok_bind'; intros k Hk. apply ifok_bind'; intros rv Hrv. same. }
  intros m6 K6. apply ifok_bind'; intros k Hk. apply ifok_bind'; intros rv Hrv. eapply ifok_bind; [same|]. intros m7 K7. destruct (snd rv); [|exact K7]. apply REC, K7.
Qed.
Lemma h_add fuel : forall m r now p input revised layer, h m -> ifok (AddEvent nm powdecay penalty layers fuel m r now p input revised layer) (fun m' => h m').
Proof.
  Transparent AddEvent. induction fuel as [|fuel IH]; intros m r now p input revised layer E; cbn [AddEvent]; [exact Logic.I|]. Opaque AddEvent.
  assert (CY : forall m r p layer, h m -> ifok (addCyclingEvent layers m r p layer) (fun mb => h (fst mb))).
  { intros m0 r0 p0 l0 H0. eapply ifok_impl; [apply h_cycling|]. intros [m1 bb] X. cbn [fst] in *. rewrite X. exact H0. }
  apply ifok_bind'; intros e He. apply ifok_bind'; intros unknown _. destruct unknown; [exact E|]. destruct (_ || _); [exact E|].
  eapply ifok_bind with (P := fun m' => h m').
  { destruct (_ =? _)%Z; [|exact E]. eapply ifok_bind with (P := fun m' => h m').
    { destruct (_ && _); [|exact E]. eapply ifok_bind; [apply CY; auto|]. intros [m' bb] H; exact H. }
    intros m1 K1. unfold ProcessNewBeliefEvent. apply ifok_bind'; intros e1 He1. eapply ifok_bind with (P := fun mb => h (fst mb)).
    { destruct (_ || _); [|exact K1]. apply h_implication; auto. }
    intros [m2 ret] K2. cbn [fst] in K2. destruct ret; [exact K2|]. apply ifok_bind'; intros e2 _. destruct (negb _); [|exact K2].
    apply h_concept; auto. }
  intros m1 K1. apply ifok_bind'; intros e1 He1. eapply ifok_bind with (P := fun m' => h m').
  { destruct (_ =? _)%Z; [|exact K1]. eapply ifok_bind; [apply CY; auto|]. intros [m' bb] H. apply ifok_assert; intros _. exact H. }
  intros m2 K2. apply ifok_assert; intros _. exact K2.
Qed.
End A.
Section W.
Variable nm : names.
Variable av : Z -> option (f64 * name).
Variable simdist : f64.
Variable powdecay : Z -> f64.
Variable penalty : nat -> f64.
Variable layers : nat.
Variables threshold condition athr ca chance : f64.
Variable babbling_ops : Z.
Variable fuel : nat.
Definition SB (e : event) : Prop := W (e_stamp e) /\ e_type e <> EVENT_TYPE_GOAL.
Definition SG (e : event) : Prop := W (e_stamp e) /\ (e_type e = EVENT_TYPE_GOAL \/ e_type e = EVENT_TYPE_DELETED).
Definition SI (i : implication) : Prop := W (i_stamp i).
Variable b0 : Z.
Hypothesis B0 : (0 <= b0)%Z.
Notation kallE := (in_concept SB SG SI).
Notation ewE := (everywhere SB SG SI).
Notation KP := (KP b0).
Definition kall (k : concept) : Prop := kallE k /\ KP k.
Definition ew (m : memory) : Prop := ewE m /\ Forall KP (m_store m).
Definition all (t : table) : Prop := Forall SI (t_array t) /\ table_shape t.
Lemma rac_stamp ex inc r : RevisionAndChoice nm powdecay ex inc = Ok r ->
  (e_type (fst r) = e_type ex \/ e_type (fst r) = e_type inc) /\ (W (e_stamp ex) -> W (e_stamp inc) -> W (e_stamp (fst r))).
Proof.
  Transparent RevisionAndChoice. unfold RevisionAndChoice. destruct (_ =? _)%Z; [intros H; apply okinj in H; subst; auto|]. cbv zeta. Opaque RevisionAndChoice.
  destruct (_ || _); [destruct (fltb _ _); intros H; apply okinj in H; subst; auto|]. destruct (fleb _ _); [|discriminate]. intros H; apply okinj in H; subst. cbn. auto.
Qed.
Lemma rac_SB ex inc r : SB ex -> SB inc -> RevisionAndChoice nm powdecay ex inc = Ok r -> SB (fst r).
Proof. intros (A & B) (C & D) H. apply rac_stamp in H as [H1 H2]. split; auto. destruct H1 as [-> | ->]; auto. Qed.
Lemma rac_SG ex inc r : SG ex -> SG inc -> RevisionAndChoice nm powdecay ex inc = Ok r -> SG (fst r).
Proof. intros (A & B) (C & D) H. apply rac_stamp in H as [H1 H2]. split; auto. destruct H1 as [-> | ->]; auto. Qed.
Lemma CLS : EverywhereP.closed nm powdecay SB SG SI.
Proof.
  constructor; unfold SI; auto.
  - split; auto. discriminate.
  - split; auto.
  - intros e H; apply H.
  - intros e (A & B). unfold Event_Eternalized. destruct (_ =? _)%Z; split; auto.
  - intros a b r. apply rac_SB.
Qed.
Lemma s_read m c k : ew m -> cread m c = Ok k -> kall k. Proof. intros [A B] H. split; [apply (ew_read SB SG SI _ _ _ A H)|eapply h_read; eauto]. Qed.
Lemma s_spike m c k : ew m -> cread m c = Ok k -> SB (c_spike k). Proof. intros I H. apply (s_read _ _ _ I H). Qed.
Lemma s_belief m c k : ew m -> cread m c = Ok k -> SB (c_belief k). Proof. intros I H. apply (s_read _ _ _ I H). Qed.
Lemma s_goal m c k : ew m -> cread m c = Ok k -> SG (c_goal k). Proof. intros I H. apply (s_read _ _ _ I H). Qed.
Lemma s_pre k i t : kall k -> pre_at k i = Ok t -> all t.
Proof.
  intros [(_ & _ & _ & _ & F & _) [(_ & G & _) _]]. unfold pre_at. destruct (nth_error _ _) eqn:E; [|discriminate]. intros H; apply okinj in H; subst.
  split; [apply (Forall_error _ _ _ _ F E)|apply (Forall_error _ _ _ _ G E)].
Qed.
Lemma s_klinks k : kall k -> all (c_links k). Proof. intros [K1 [(K2 & K3 & K4) K5]]. split; [apply K1|exact K4]. Qed.
Lemma SI0 : SI imp0. Proof. exact W0. Qed.
Lemma s_slot t i : all t -> SI (slot t i). Proof. intros F. exact Logic.I. Qed.
Lemma s_items t : all t -> Forall SI (items t).
Proof. intros F. apply Forall_forall. intros; exact Logic.I. Qed.
Lemma kall_spike k e : kall k -> SB e -> kall (with_spike k e). Proof. intros [A B] H. split; [apply kall_spike; auto|exact B]. Qed.
Lemma kall_predicted k e : kall k -> SB e -> kall (with_predicted k e). Proof. intros [A B] H. split; [apply kall_predicted; auto|exact B]. Qed.
Lemma kall_belief k e : kall k -> SB e -> kall (with_belief k e). Proof. intros [A B] H. split; [apply kall_belief; auto|exact B]. Qed.
Lemma kall_goal k e : kall k -> SG e -> kall (with_goal k e). Proof. intros [A B] H. split; [apply kall_goal; auto|exact B]. Qed.
Lemma kall_pre k i t : kall k -> all t -> kall (with_pre k (upd (c_pre k) i t)).
Proof. intros [A [(B1 & B2 & B3) B4]] [H1 H2]. split; [apply kall_pre; auto|]. split; [|exact B4]. split; [cbn; rewrite upd_length; exact B1|]. split; [cbn; apply Forall_upd; auto|exact B3]. Qed.
Lemma kall_links k t : kall k -> all t -> kall (with_links k t).
Proof. intros [A [(B1 & B2 & B3) B4]] [H1 H2]. split; [apply kall_links; auto|]. split; [|exact B4]. split; [exact B1|]. split; [exact B2|exact H2]. Qed.
Lemma kall_usage k u : kall k -> kall (with_usage k u). Proof. exact (fun H => H). Qed.
Lemma kall_priority k u : kall k -> kall (with_priority k u). Proof. exact (fun H => H). Qed.
Lemma kall_lastsel k u : kall k -> kall (with_lastsel k u). Proof. exact (fun H => H). Qed.
Lemma kall_pid1 k p : (p <= b0)%Z -> kall k -> kall (with_pid1 k p). Proof. intros P [A [B C]]. split; [exact A|]. split; [exact B|exact P]. Qed.
Lemma all_remove t i : all t -> all (Table_Remove t i). Proof. intros [A B]. split; [apply all_remove; auto; exact W0|apply shape_remove; auto]. Qed.
Lemma s_cmod m c f : ew m -> (forall k, cread m c = Ok k -> kall k -> kall (f k)) -> ifok (cmod m c f) ew.
Proof.
  intros [I1 I2] H. apply ifok_intro. intros m' E. unfold cmod in E. destruct (cread m c) as [k| |] eqn:Q; cbn [rbind] in E; try discriminate. apply okinj in E; subst m'.
  destruct (H k eq_refl (s_read _ _ _ (conj I1 I2) Q)) as [X1 X2]. split; [|cbn; apply Forall_upd; auto]. destruct I1. constructor; cbn; auto. apply Forall_upd; auto.
Qed.
Lemma s_conc m t now : ew m -> ifok (Conceptualize nm m t now) (fun r => ew (fst r)).
Proof.
  intros [I1 I2]. apply ifok_intro. intros r E. split.
  - pose proof (ew_conceptualize nm powdecay SB SG SI CLS m t now I1) as X. rewrite E in X. apply X.
  - pose proof (h_conc nm b0 B0 m t now I2) as X. rewrite E in X. exact X.
Qed.
Lemma s_add m e now p input revised layer : ew m -> SB e -> ifok (AddEvent nm powdecay penalty layers fuel m (EVal e) now p input revised layer) ew.
Proof.
  intros [I1 I2] P. apply ifok_intro. intros r E. split.
  - pose proof (ew_add nm powdecay penalty layers SB SG SI CLS fuel m (EVal e) now p input revised layer I1) as X. rewrite E in X. apply X. intros e0 H; inversion H; subst; auto.
  - pose proof (h_add nm powdecay penalty layers b0 B0 fuel m (EVal e) now p input revised layer I2) as X. rewrite E in X. exact X.
Qed.
Lemma s_addg m e now p input revised layer : ew m -> SG e -> ifok (AddEvent nm powdecay penalty layers fuel m (EVal e) now p input revised layer) ew.
Proof.
  intros [I1 I2] P. destruct (proj2 P) as [TY|TY].
  - apply ifok_intro. intros r E. split.
    + pose proof (ew_goal nm powdecay penalty layers SB SG SI fuel m e now p input revised layer I1 P TY) as X. rewrite E in X. apply X.
    + pose proof (h_add nm powdecay penalty layers b0 B0 fuel m (EVal e) now p input revised layer I2) as X. rewrite E in X. exact X.
  - apply s_add; [split; auto|]. split; [apply P|]. rewrite TY. discriminate.
Qed.
Ltac kk := first [assumption|apply kall_pid1; assumption|apply kall_spike; assumption|apply kall_predicted; assumption|apply kall_goal; assumption|apply kall_pre; assumption|apply kall_links; assumption].
Ltac mods := eapply s_cmod; [assumption|intros; kk].
Section F.
Context {A : Type}.
Variable P : A -> Prop.
Variable pid : Z.
Hypothesis PB0 : (pid <= b0)%Z.
Variable body : memory -> A -> nat -> res (memory * A * bool).
Hypothesis B : forall m a c, ew m -> P a -> ifok (body m a c) (fun r => ew (fst (fst r)) /\ P (snd (fst r))).
Lemma s_visit m a c : ew m -> P a -> ifok (visit pid body m a c) (fun r => ew (fst (fst r)) /\ P (snd (fst r))).
Proof.
  intros I PA. unfold visit. destruct c as [c|]; [|cbn; auto]. apply ifok_bind'; intros k _. destruct (_ =? _)%Z; [cbn; auto|].
  eapply ifok_bind; [mods|]. intros m1 K1. apply B; auto.
Qed.
Lemma s_chain n : forall m a p, ew m -> P a -> ifok (chain_loop pid body n m a p) (fun r => ew (fst (fst r)) /\ P (snd (fst r))).
Proof.
  induction n as [|n IH]; intros m a p I PA; destruct p as [p|]; cbn [chain_loop]; try (cbn; auto; fail). apply ifok_bind'; intros el _.
  eapply ifok_bind; [apply s_visit; auto|]. intros [[m1 a1] b] [R1 P1]. cbn [fst snd] in *. destruct b; [cbn; auto|]. apply IH; auto.
Qed.
Lemma s_foreach n t : forall l m a, ew m -> P a -> ifok (foreach_loop pid body n t l m a) (fun r => ew (fst r) /\ P (snd r)).
Proof.
  induction l as [|x l IH]; intros m a I PA; cbn [foreach_loop]; [cbn; auto|]. apply ifok_bind'; intros own _. apply ifok_bind'; intros ch _.
  eapply ifok_bind; [apply s_visit; auto|]. intros [[m1 a1] b] [R1 P1]. cbn [fst snd] in *. destruct b; [cbn; auto|].
  eapply ifok_bind; [apply s_chain; eauto|]. intros [[m2 a2] b2] [R2 P2]. cbn [fst snd] in *. destruct b2; [cbn; split; eauto|]. apply IH; auto.
Qed.
Lemma s_related n m t a : ew m -> P a -> ifok (related_foreach pid body n m t a) (fun r => ew (fst r) /\ P (snd r)).
Proof. apply s_foreach. Qed.
End F.
Lemma s_foldM {A} (f : memory -> A -> res memory) (P : A -> Prop) l : Forall P l -> (forall m a, ew m -> P a -> ifok (f m a) ew) -> forall m, ew m -> ifok (foldM f l m) ew.
Proof. intros F H. induction F as [|a l Pa F IH]; intros m I; cbn [foldM]; [exact I|]. eapply ifok_bind; [apply H; auto|]. intros m1 K1. apply IH; auto. Qed.
Lemma s_foldM' {A} (f : memory -> A -> res memory) l : (forall m a, ew m -> ifok (f m a) ew) -> forall m, ew m -> ifok (foldM f l m) ew.
Proof. intros H. apply s_foldM with (P := fun _ => True); auto. apply Forall_forall; auto. Qed.
(** *** declarative inference *)
Lemma s_add_derived m t d : ew m -> W (dv_stamp d) -> ifok (add_derived nm powdecay penalty layers fuel m t d) ew.
Proof.
  intros I H. unfold add_derived. apply ifok_bind'; intros v _. destruct v; cbn [negb]; [|exact I].
  apply ifok_bind'; intros r _. destruct r; [exact I|]. apply s_add; auto. split; [exact H|discriminate].
Qed.
Lemma s_intro_derived m t d r b two : ew m -> W (dv_stamp d) -> ifok (intro_derived nm powdecay penalty layers fuel m t d r b two) ew.
Proof. intros I H. unfold intro_derived. apply ifok_bind'; intros [ok t'] R. destruct (_ && _); [|exact I]. apply s_add_derived; auto. Qed.
Lemma s_derived m t d vi two : ew m -> W (dv_stamp d) -> ifok (DerivedEvent nm powdecay penalty layers fuel m t d vi two) ew.
Proof.
  intros I H. Transparent DerivedEvent. unfold DerivedEvent. Opaque DerivedEvent. cbv zeta. destruct (_ && _).
  - eapply ifok_bind; [apply s_intro_derived; eauto|]. intros m1 K1. eapply ifok_bind with (P := ew).
    { destruct (negb two); [|exact K1]. apply s_intro_derived; auto. }
    intros m2 K2. destruct (_ || _); [exact K2|]. apply s_add_derived; auto.
  - destruct (_ && _).
    + eapply ifok_bind; [apply s_intro_derived; eauto|]. intros m1 K1. apply s_intro_derived; auto.
    + apply s_add_derived; auto.
Qed.
Lemma s_rules m double t1 t2 v1 v2 d : ew m -> W (dv_stamp d) -> ifok (RuleTable_Apply nm powdecay penalty layers fuel m double t1 t2 v1 v2 d) ew.
Proof. intros I A. unfold RuleTable_Apply. apply s_foldM'; auto. intros m1 [[c v] vi] I1. apply s_derived; auto. Qed.
Lemma s_match m g t1 target v d : ew m -> W (dv_stamp d) -> ifok (derive_match nm av simdist powdecay penalty layers fuel m g t1 target v d) ew.
Proof.
  intros I A. unfold derive_match. apply ifok_bind'; intros s U. destruct (negb _); [exact I|]. apply ifok_bind'; intros [t ok] AP. destruct (negb ok); [exact I|]. apply s_derived; auto.
Qed.
Lemma s_remaining m s p t1 v d : ew m -> W (dv_stamp d) -> ifok (remaining_condition nm av simdist powdecay penalty layers fuel m s p t1 v d) ew.
Proof.
  intros I A. unfold remaining_condition. cbv zeta. apply ifok_bind'; intros s1 U. apply ifok_bind'; intros [subs rem] _. destruct (negb _); [exact I|].
  destruct (Term_OverrideSubterm _ 1 rem) as [o1 r1]. destruct (negb o1); [exact I|]. destruct (Term_OverrideSubterm r1 2 p) as [o2 r2]. destruct (negb o2); [exact I|].
  apply ifok_bind'; intros [t ok] AP. destruct (negb ok); [exact I|]. apply s_derived; auto.
Qed.
Lemma s_special m t1 t2 v1 v2 d : ew m -> W (dv_stamp d) -> ifok (SpecialInferences nm av simdist powdecay penalty layers fuel m t1 t2 v1 v2 d) ew.
Proof.
  intros I A. unfold SpecialInferences. cbv zeta. eapply ifok_bind with (P := ew).
  { destruct (_ || _); [|exact I]. eapply ifok_bind; [apply s_match; auto|]. intros m1 K1.
    eapply ifok_bind with (P := ew). { destruct (_ && _); [|exact K1]. apply s_remaining; auto. }
    intros m2 K2. apply s_match; auto. }
  intros m1 K1. destruct (copulaEquals _ _ _); [|exact K1]. apply s_match; auto.
Qed.
Lemma s_belief_of m c e sp b : ew m -> SB sp -> belief_of m c (projected powdecay e sp) = Ok b -> SB b.
Proof.
  intros I S. unfold projected. destruct (_ && _); cbn [belief_of].
  - intros H; apply okinj in H; subst. split; [apply S|apply S].
  - destruct (cread m c) as [k| |] eqn:E; cbn [rbind]; try discriminate. intros H; apply okinj in H; subst. eapply s_belief; eauto.
Qed.
Lemma s_infer_with m e prio now c cid : ew m -> SB e -> ifok (infer_with nm av simdist powdecay penalty layers fuel m e prio now c cid) ew.
Proof.
  intros I P. unfold infer_with. apply ifok_bind'; intros k Hk. cbv zeta. apply ifok_bind'; intros b Hb. pose proof (s_belief_of _ _ _ _ _ I (s_spike _ _ _ I Hk) Hb) as SBb.
  destruct (stamp_check_overlap _ _); [exact I|]. eapply ifok_bind; [mods|]. intros m1 K1. assert (WW : W (stamp_make (e_stamp e) (e_stamp b))) by (apply WM; [apply P|apply SBb]).
  apply ifok_bind'; intros k1 Hk1. apply ifok_bind'; intros b1 Hb1. eapply ifok_bind; [apply s_rules; auto|]. intros m2 K2.
  apply ifok_bind'; intros k2 Hk2. apply ifok_bind'; intros b2 Hb2. eapply ifok_bind; [apply s_special; auto|]. intros m3 K3.
  apply ifok_bind'; intros k3 Hk3. apply ifok_bind'; intros b3 Hb3. apply s_special; auto.
Qed.
Lemma s_infer_body e prio now thr m a c : ew m -> SB e -> ifok (infer_body nm av simdist powdecay penalty layers fuel e prio now thr m a c) (fun r => ew (fst (fst r)) /\ True).
Proof.
  intros I P. unfold infer_body. apply ifok_bind'; intros k Hk. destruct (fltb _ _); [cbn; auto|]. cbv zeta.
  eapply ifok_bind with (P := ew). { destruct (_ && _); [apply s_infer_with; auto|exact I]. } intros m1 K1. cbn. auto.
Qed.
(** *** anticipation *)
Lemma sall_set t i x : all t -> SI x -> all (set_slot t i x). Proof. intros [A1 A2] B. split; [unfold set_slot; cbn [t_array]; apply Forall_upd; auto|apply shape_set; auto]. Qed.
Lemma sall_revise t x : all t -> SI x -> ifok (Table_AddAndRevise t x) (fun r => all (fst r)).
Proof.
  intros [A1 A2] B. apply ifok_intro. intros [t' j] E. split; [|eapply shape_add; eauto].
  pose proof (all_addrevise SI SI0 (cl_im _ _ _ _ _ CLS) t x A1 B) as X. rewrite E in X. exact X.
Qed.
Lemma s_negative t pe imp : all t -> ifok (AddNegativeConfirmation powdecay ca t pe imp) (fun t' => all t').
Proof.
  intros A. unfold AddNegativeConfirmation. cbv zeta. apply ifok_assert; intros _. eapply ifok_bind; [apply sall_revise; auto; exact W0|]. intros [t' i] H. cbn [fst] in H. cbn [ifok].
  destruct i as [i|]; auto. apply sall_set; auto. apply (s_slot t' i H).
Qed.
Lemma s_prune m n : forall t j, all t -> ifok (prune n m t j) (fun t' => all t').
Proof.
  induction n as [|n IH]; intros t j A; cbn [prune]; [exact A|]. destruct (_ <? _); [|exact A]. apply ifok_bind'; intros v _. destruct v; auto.
  apply IH. apply all_remove; auto.
Qed.
Lemma s_deduction e imp x : W (e_stamp e) -> SI imp -> BeliefDeduction nm e imp = Ok x -> SB x.
Proof.
  intros A B. Transparent BeliefDeduction. unfold BeliefDeduction. Opaque BeliefDeduction. destruct (rassert _); cbn [rbind]; try discriminate. intros H; apply okinj in H; subst.
  split; [cbn; apply WM; auto|discriminate].
Qed.
Lemma s_predict m now imp s result : ew m -> SB result -> ifok (predict nm av simdist powdecay m now imp s result) ew.
Proof.
  intros I P. unfold predict. apply ifok_bind'; intros k Hk. apply ifok_bind'; intros su U.
  destruct (negb _); [exact I|]. apply ifok_bind'; intros [t ok] AP. destruct (negb ok); [exact I|]. cbv zeta.
  eapply ifok_bind; [apply s_conc; auto|]. intros [m1 c] K1. cbn [fst snd] in *. destruct c as [c|]; [|exact K1].
  apply ifok_bind'; intros k1 Hk1. destruct (stamp_check_overlap _ _); [exact K1|]. eapply ifok_bind; [mods|]. intros m2 K2.
  apply ifok_bind'; intros k2 Hk2. pose proof (s_read _ _ _ K2 Hk2) as KA. destruct (copulaEquals _ _ _).
  - apply ifok_bind'; intros r Hr. apply rac_SB in Hr; [|apply KA|split; apply P]. mods.
  - destruct (stamp_equal _ _); [exact K2|]. apply ifok_bind'; intros r Hr. apply rac_SB in Hr; [|apply KA|split; apply P]. mods.
Qed.
Lemma s_intersection a b ok e : BeliefIntersection powdecay a b = Ok (ok, e) -> W (e_stamp a) -> W (e_stamp b) -> W (e_stamp e) /\ (ok = true -> e_type e = EVENT_TYPE_BELIEF).
Proof.
  intros H A B. Transparent BeliefIntersection. unfold BeliefIntersection in H. Opaque BeliefIntersection. destruct (rassert _); cbn [rbind] in H; try discriminate. cbv zeta in H.
  destruct (Narsese_Sequence _ _) as [o t]. apply okinj in H. inversion H; subst. destruct ok; cbn; auto. split; [exact W0|discriminate].
Qed.
Lemma s_anticipate_imp o opt now p m imp : ew m -> SI imp -> ifok (anticipate_imp nm av simdist powdecay athr ca o opt now p m imp) ew.
Proof.
  intros I P. unfold anticipate_imp. destruct (i_source imp) as [s|]; [|exact Logic.I]. apply ifok_bind'; intros k Hk. cbv zeta. destruct (negb _); [exact I|].
  apply ifok_bind'; intros same _. destruct (negb same); [exact I|]. apply ifok_assert; intros _. apply ifok_bind'; intros [ok sq] BI. destruct (negb ok); [exact I|].
  apply ifok_bind'; intros result RD. 
  match type of RD with BeliefDeduction _ ?x _ = _ => assert (WX : W (e_stamp x)) end.
  { apply s_intersection in BI; [|apply (s_spike _ _ _ I Hk)|exact W0]. destruct (_ =? _); [apply (s_spike _ _ _ I Hk)|apply BI]. }
  apply s_deduction in RD; auto. destruct (negb _); [exact I|].
  eapply ifok_bind with (P := ew).
  { destruct (copulaEquals _ _ _); [|exact I]. apply ifok_bind'; intros k1 Hk1. apply ifok_bind'; intros t Ht. pose proof (s_pre _ _ _ (s_read _ _ _ I Hk1) Ht) as A.
    eapply ifok_bind; [apply s_negative; auto|]. intros t' A'. mods. }
  intros m1 K1. apply s_predict; auto.
Qed.
Lemma s_alinks o decl m p : ew m -> ifok (anticipate_links o decl m p) (fun r => ew (fst r) /\ Forall SI (snd r)).
Proof.
  intros I. unfold anticipate_links. apply ifok_bind'; intros k Hk. pose proof (s_read _ _ _ I Hk) as KA. destruct (negb decl).
  - apply ifok_bind'; intros t Ht. eapply ifok_bind; [apply s_prune, (s_pre _ _ _ KA Ht)|]. intros t' A. eapply ifok_bind; [mods|]. intros m1 K1. cbn. auto using s_items.
  - destruct (_ =? _); [|cbn; auto]. eapply ifok_bind; [apply s_prune, s_klinks, KA|]. intros t' A. eapply ifok_bind; [mods|]. intros m1 K1. cbn. auto using s_items.
Qed.
Lemma s_aloop o opt decl now n : forall j m, ew m -> ifok (anticipate_loop nm av simdist powdecay athr ca n o opt decl now j m) ew.
Proof.
  induction n as [|n IH]; intros j m I; cbn [anticipate_loop]; [exact I|]. destruct (nth_error _ _) as [it|]; [|exact I]. cbv zeta.
  eapply ifok_bind; [apply s_alinks; auto|]. intros [m1 imps] [K1 F]. cbn [fst snd] in *.
  eapply ifok_bind; [apply s_foldM with (P := SI); [exact F|intros; apply s_anticipate_imp; auto|apply K1]|]. intros m2 K2. apply IH; auto.
Qed.
Lemma s_anticipate m o opt decl now : ew m -> ifok (Anticipate nm av simdist powdecay athr ca m o opt decl now) ew.
Proof. intros I. unfold Anticipate. apply ifok_assert; intros _. apply s_aloop; auto. Qed.
(** *** decisions *)
Definition SD (d : decision) : Prop := SI (d_missing d) /\ SI (d_specific d).
Lemma SD0 : SD decision0. Proof. split; exact W0. Qed.
Lemma sd_babble ops rs : ifok (MotorBabbling babbling_ops ops rs) (fun r => SD (snd r)).
Proof.
  unfold MotorBabbling. cbv zeta. destruct (_ <? _)%Z; [|apply SD0]. destruct (myrand rs) as [rs1 r]. destruct (_ =? _)%Z; [exact Logic.I|].
  destruct (_ <? _)%Z; [exact Logic.I|]. destruct (nth_error ops _) as [o|] eqn:N; [|exact Logic.I]. destruct (negb _).
  - destruct (myrand rs1) as [rs2 r2]. split; exact W0.
  - split; exact W0.
Qed.
Lemma sd_negative m now d : SD d -> ifok (ConsiderNegativeOutcomes nm powdecay m now d) SD.
Proof. intros D. unfold ConsiderNegativeOutcomes. apply ifok_bind'; intros out _. cbn [ifok]. destruct (fltb _ _); auto using SD0. Qed.
Lemma sd_consider m now goal imp tr : ifok (ConsiderImplication nm powdecay m now goal imp tr) SD.
Proof.
  unfold ConsiderImplication. destruct (i_source imp) as [s|]; [|exact Logic.I]. apply ifok_bind'; intros k _. apply ifok_bind'; intros ctx _. cbv zeta.
  destruct (OperationSequenceAppendLeftNested _ _ _) as [ok opterm]. apply ifok_assert; intros _. apply ifok_bind'; intros op X. destruct op as [[o a]|]; [|apply SD0].
  apply sd_negative. split; exact W0.
Qed.
Lemma sd_context m now goal gc gen opi used impt best ck : SI used -> SD (fst best) ->
  ifok (try_context nm av simdist powdecay m now goal gc gen opi used impt best ck) (fun b => SD (fst b)).
Proof.
  intros P D. unfold try_context. destruct ck as [c cm]. destruct (_ || _); [exact D|]. cbv zeta.
  apply ifok_bind'; intros s2 U. destruct (negb _); [exact D|]. apply ifok_bind'; intros cl _. destruct cl; [exact D|].
  apply ifok_bind'; intros [t ok] AP. destruct (negb _); [exact D|].
  eapply ifok_bind; [apply sd_consider|]. intros d [D2 D3].
  assert (M : forall b, SD (if b : bool then with_missing d (mkImp t (i_truth used) (i_stamp used) (i_offset used) (Some c) (c_id cm) (i_creation used)) else d)).
  { intros [|]; split; cbn; auto. }
  destruct (hasVariable nm (i_term used) true true true).
  - apply ifok_bind'; intros [kn inh] _. cbn [ifok]. destruct (_ && _); [|exact D]. cbn [fst]. destruct (M (negb kn || negb (feqb (confidence (s_truth s2)) (confidence (e_truth (c_spike cm)))))) as [M2 M3].
    split; cbn; auto.
  - cbn [ifok]. destruct (improves _ _ _); [|exact D]. cbn [fst]. destruct (M (negb (feqb (confidence (s_truth s2)) (confidence (e_truth (c_spike cm)))))) as [M2 M3].
    split; cbn; auto.
Qed.
Lemma s_entries now goal g gen subs opi n : forall m j best, ew m -> SD (fst best) ->
  ifok (try_entries nm av simdist powdecay n m now goal g gen subs opi j best) (fun r => ew (fst r) /\ SD (fst (snd r))).
Proof.
  induction n as [|n IH]; intros m j best I D; cbn [try_entries]; [cbn; auto|].
  apply ifok_bind'; intros gc Hg. apply ifok_bind'; intros t Ht. pose proof (s_pre _ _ _ (s_read _ _ _ I Hg) Ht) as A.
  destruct (_ <? _); [|cbn; auto]. cbv zeta. apply ifok_bind'; intros v _. destruct v; cbn [negb].
  - apply ifok_bind'; intros [impt ok] AP. pose proof (s_slot t j A) as PS. destruct (negb ok); [apply IH; auto|].
    apply ifok_assert; intros _. eapply ifok_bind with (P := fun b => SD (fst b)).
    { apply foldM_any; auto. intros b ck H HB. apply sd_context; auto. }
    intros b HB. apply IH; auto.
  - eapply ifok_bind; [eapply s_cmod; [exact I|]; intros; apply kall_pre; auto; apply all_remove; auto|]. intros m1 K1. apply IH; auto.
Qed.
Lemma s_tables now goal g gen subs opis : forall m best, ew m -> SD (fst best) ->
  ifok (try_tables nm av simdist powdecay opis m now goal g gen subs best) (fun r => ew (fst r) /\ SD (fst (snd r))).
Proof.
  induction opis as [|o l IH]; intros m best I D; cbn [try_tables]; [cbn; auto|]. apply ifok_bind'; intros gc Hg. apply ifok_bind'; intros t Ht.
  eapply ifok_bind; [apply s_entries; auto|]. intros [m1 b1] [K1 D1]. cbn [fst snd] in *. apply IH; auto.
Qed.
Lemma s_best m g goal now : ew m -> ifok (BestCandidate nm av simdist powdecay threshold m g goal now) (fun r => ew (fst r) /\ SD (snd r)).
Proof.
  intros I. unfold BestCandidate. apply ifok_bind'; intros gc Hg. cbv zeta. apply ifok_bind'; intros su U.
  eapply ifok_bind with (P := fun r => ew (fst r) /\ SD (fst (snd r))).
  { destruct (s_success su); [apply s_tables; auto using SD0|cbn; auto using SD0]. }
  intros [m1 [d c]] [K1 D1]. cbn [fst snd] in *. destruct (fltb _ _); [cbn; auto using SD0|]. destruct (d_reason d); [|exact Logic.I]. cbn. split; auto.
Qed.
Lemma s_suggest m g goal now rs : ew m -> ifok (Suggest nm av simdist powdecay threshold chance babbling_ops m g goal now rs) (fun r => ew (snd (fst r)) /\ SD (snd r)).
Proof.
  intros I. unfold Suggest. destruct (myrand rs) as [rs1 r]. cbv zeta. destruct (_ || _); [exact Logic.I|].
  eapply ifok_bind with (P := fun r => SD (snd r)). { destruct (_ <? _)%Z; [apply sd_babble|apply SD0]. }
  intros [rs2 bd] DB. eapply ifok_bind; [apply s_best; auto|]. intros [m1 d] [K1 D1]. cbn [ifok fst snd] in *. split; [exact K1|]. split; exact Logic.I.
Qed.
(** *** processing an event *)
Definition SE (e : event) : Prop := W (e_stamp e) /\ (e_type e = EVENT_TYPE_BELIEF \/ e_type e = EVENT_TYPE_GOAL \/ e_type e = EVENT_TYPE_DELETED).
Lemma SE_B e : W (e_stamp e) -> e_type e = EVENT_TYPE_BELIEF -> SE e. Proof. split; auto. Qed.
Lemma SE_G e : SG e -> SE e. Proof. intros (A & B); split; tauto. Qed.
Lemma s_activate m rs c e now : ew m -> SE e -> ifok (Activate nm av simdist powdecay threshold chance babbling_ops m rs c e now) (fun r => ew (fst (fst r)) /\ SD (snd r)).
Proof.
  intros I [P TY]. unfold Activate. eapply ifok_bind; [mods|]. intros m1 K1. eapply ifok_bind; [mods|]. intros m2 K2.
  apply ifok_bind'; intros k Hk. cbv zeta. destruct (Z.eqb_spec (e_type e) EVENT_TYPE_BELIEF) as [B|B].
  - eapply ifok_bind with (P := ew); [|intros m3 K3; cbn; auto using SD0].
    destruct (_ || _); [|exact K2]. eapply s_cmod; [exact K2|]. intros; apply kall_spike; auto. split; auto. cbn. rewrite B. discriminate.
  - eapply ifok_bind with (P := ew).
    { destruct (_ || _); [|exact K2]. eapply s_cmod; [exact K2|]. intros; apply kall_goal; auto. split; auto. cbn. tauto. }
    intros m3 K3. eapply ifok_bind; [apply s_suggest; auto|]. intros [[rs4 m4] d] [K4 D]. cbn [fst snd ifok] in *. auto.
Qed.
Lemma sd_better a b : SD a -> SD b -> SD (BetterDecision a b). Proof. unfold BetterDecision. destruct (_ && _); auto. Qed.
Lemma s_body e now m a c : SE e -> ew m -> SD (snd a) -> ifok (process_body nm av simdist powdecay threshold chance babbling_ops e now m a c) (fun r => ew (fst (fst r)) /\ SD (snd (snd (fst r)))).
Proof.
  intros P I D. unfold process_body. cbv zeta.
  eapply ifok_bind with (P := fun r => ew (fst r) /\ SD (snd (snd r))).
  { destruct (_ || _); [|cbn; auto]. apply ifok_bind'; intros k Hk. apply ifok_bind'; intros su _. destruct (s_success su); [|cbn; auto].
    eapply ifok_bind; [apply s_activate; auto; split; apply P|]. intros [[m1 rs] d] [K1 D1]. cbn [fst snd ifok] in *. auto using sd_better. }
  intros [m1 a1] [K1 D1]. cbn [fst snd] in *. eapply ifok_bind with (P := fun r => ew (fst r) /\ SD (snd (snd r))); [|intros [m2 a2] H; exact H].
  destruct (hasVariable _ _ _ _ _); [|cbn; auto]. apply ifok_bind'; intros k Hk. apply ifok_bind'; intros su U. destruct (s_success su); [|cbn; auto].
  apply ifok_bind'; intros [t ok] AP. destruct ok; [|cbn; auto].
  eapply ifok_bind; [apply s_activate; [apply K1|split; apply P]|]. intros [[m2 rs] d] [K2 D2]. cbn [fst snd ifok] in *. split; auto using sd_better.
Qed.
Lemma s_ring m f : ew m -> ew (set_ring m f). Proof. intros [[A B C] D]. split; [constructor; auto|exact D]. Qed.
Lemma s_induction a b ok i : BeliefInduction powdecay a b = Ok (ok, i) -> W (e_stamp a) -> W (e_stamp b) -> W (i_stamp i).
Proof.
  intros H A B. Transparent BeliefInduction. unfold BeliefInduction in H. Opaque BeliefInduction. destruct (rassert _); cbn [rbind] in H; try discriminate. cbv zeta in H.
  destruct (Term_OverrideSubterm (upd zero_term 0 _) 1 (e_term a)) as [o1 r1]. destruct o1.
  - destruct (Term_OverrideSubterm r1 2 (e_term b)) as [o2 r2]. apply okinj in H. inversion H; subst. destruct ok; [|exact W0]. cbn. unfold Event_Eternalized. repeat destruct (_ =? _)%Z; apply WM; auto.
  - apply okinj in H. inversion H; subst. exact W0.
Qed.
Lemma s_reinforce m time a b : ew m -> W (e_stamp a) -> W (e_stamp b) -> ifok (ReinforceLink nm powdecay penalty layers fuel m time a b) ew.
Proof.
  intros I A B. unfold ReinforceLink. destruct (_ || _); [exact I|]. apply ifok_bind'; intros a' _. apply ifok_bind'; intros b' _.
  destruct a' as [a'|]; [|exact I]. destruct b' as [b'|]; [|exact I]. destruct (_ || _); [exact I|].
  apply ifok_bind'; intros [ok i] H. apply s_induction in H; auto. destruct (_ && _); [|exact I]. apply s_derived; auto.
Qed.
Lemma s_mine m time now post o p : ew m -> W (e_stamp post) -> ifok (mine_prec nm powdecay penalty layers fuel m time now post o p) ew.
Proof.
  intros I P. unfold mine_prec. apply ifok_bind'; intros prec H1. apply ifok_bind'; intros opc H2. destruct (_ && _); [|exact I].
  pose proof (proj1 (s_spike _ _ _ I H1)) as S1. pose proof (proj1 (s_spike _ _ _ I H2)) as S2.
  apply ifok_bind'; intros [ok sq] H. apply s_intersection in H as [H _]; auto. destruct (ok && _); [|exact I].
  destruct (OperationSequenceAppendLeftNested _ _ _) as [ok5 t]. destruct ok5; [|exact I]. apply s_reinforce; auto.
Qed.
Lemma s_prec n : forall i m pid time now post o oid, ew m -> W (e_stamp post) -> ifok (prec_loop nm powdecay penalty layers fuel n i m pid time now post o oid) ew.
Proof.
  induction n as [|n IH]; intros i m pid time now post o oid I P; cbn [prec_loop]; [exact I|]. apply ifok_bind'; intros opc _. destruct (_ && _); [|exact I].
  apply ifok_bind'; intros p _. apply ifok_bind'; intros k _. eapply ifok_bind; [mods|]. intros m1 K1.
  eapply ifok_bind with (P := ew). { destruct (_ =? _)%Z; [exact K1|]. apply s_mine; auto. }
  intros m2 K2. apply IH; auto.
Qed.
Lemma s_ops n : forall j m p2 p3 time now post, ew m -> W (e_stamp post) -> ifok (op_loop nm powdecay penalty layers fuel n j m p2 p3 time now post) (fun r => ew (fst r)).
Proof.
  induction n as [|n IH]; intros j m p2 p3 time now post I P; cbn [op_loop]; [exact I|]. destruct (_ <? _)%Z; [|exact I].
  apply ifok_bind'; intros o _. apply ifok_bind'; intros k _. eapply ifok_bind; [mods|]. intros m1 K1. destruct (_ && _).
  - eapply ifok_bind; [apply s_prec; auto|]. intros m2 K2. apply IH; auto.
  - apply IH; auto.
Qed.
Lemma s_component now comp rest last m a c : ew m -> True ->
  ifok (component_body nm av simdist powdecay condition now comp rest last m a c) (fun r => ew (fst (fst r)) /\ True).
Proof.
  intros I _. unfold component_body. cbv zeta. apply ifok_bind'; intros k Hk. destruct (hasVariable _ _ _ _ _); [cbn; auto|].
  apply ifok_bind'; intros su U. destruct (_ || _); [cbn; auto|]. destruct (_ <? _)%Z; [cbn; auto|].
  destruct (fltb _ _); [cbn; auto|]. apply ifok_bind'; intros ok _. cbn [ifok fst snd]. auto.
Qed.
Lemma s_subgoal m now prio layer c imp : ew m -> SI imp -> ifok (subgoal nm av simdist powdecay penalty layers fuel m now prio layer c imp) ew.
Proof.
  intros I P. unfold subgoal. apply ifok_bind'; intros k Hk. apply ifok_bind'; intros su U. destruct (negb _); [exact I|].
  apply ifok_bind'; intros [t ok] AP. destruct (negb ok); [exact I|]. apply ifok_bind'; intros g Hg. cbv zeta. eapply s_addg; eauto.
  Transparent GoalDeduction. unfold GoalDeduction in Hg. Opaque GoalDeduction. destruct (rassert _); cbn [rbind] in Hg; try discriminate. apply okinj in Hg. subst g.
  split; [|left; reflexivity]. cbn. pose proof (proj1 (s_goal _ _ _ I Hk)). apply WM; auto.
Qed.
Lemma s_linksof m c k opi t : ew m -> cread m c = Ok k -> links_of k opi = Ok t -> all t.
Proof. intros I H. pose proof (s_read _ _ _ I H) as KA. destruct opi; cbn [links_of]; [apply s_pre; auto|]. intros X; apply okinj in X; subst. apply s_klinks, KA. Qed.
Lemma s_setlinks m c opi t : ew m -> all t -> ifok (cmod m c (fun k => set_links k opi t)) ew.
Proof. intros I A. apply s_cmod; auto. intros k _ KA. destruct opi; cbn [set_links]; [apply kall_pre|apply kall_links]; auto. Qed.
Lemma s_loop n : forall j m now prio layer c opi, ew m -> ifok (subgoal_loop nm av simdist powdecay penalty layers fuel n j m now prio layer c opi) ew.
Proof.
  induction n as [|n IH]; intros j m now prio layer c opi I; cbn [subgoal_loop]; [exact I|]. apply ifok_bind'; intros k Hk. apply ifok_bind'; intros t Ht.
  pose proof (s_linksof _ _ _ _ _ I Hk Ht) as A. destruct (_ <? _); [|exact I]. apply ifok_bind'; intros v _. destruct (negb v).
  - eapply ifok_bind; [apply s_setlinks; auto; apply all_remove; auto|]. intros m1 K1. apply IH; auto.
  - eapply ifok_bind; [apply s_subgoal; auto; apply s_slot; auto|]. intros m1 G1. apply IH; auto.
Qed.
Lemma s_gbody goal now prio layer m a c : SG goal -> ew m -> ifok (subgoal_body nm av simdist powdecay penalty layers fuel goal now prio layer m a c) (fun r => ew (fst (fst r)) /\ True).
Proof.
  intros P I. unfold subgoal_body. apply ifok_bind'; intros k Hk. apply ifok_bind'; intros su _. destruct (negb _); [cbn; auto|]. apply ifok_bind'; intros r R.
  apply rac_SG in R; [|eapply s_goal; eauto|exact P]. eapply ifok_bind; [apply s_cmod; [exact I|intros; apply kall_goal; auto]|]. intros m1 K1.
  eapply ifok_bind; [apply s_foldM'; [intros; apply s_loop; auto|exact K1]|]. intros m2 G2. cbn [ifok fst]. auto.
Qed.
Lemma s_generalised m now e side seen : ew m -> SB e -> ifok (add_generalised nm powdecay penalty layers fuel m now e side seen) (fun r => ew (fst r)).
Proof.
  intros I P. unfold add_generalised. apply ifok_bind'; intros [ok t] H. destruct (_ && _); [|exact I].
  eapply ifok_bind; [eapply s_add; eauto; split; apply P|]. intros m1 K1. exact K1.
Qed.
Lemma s_equivalence m now t v st seen : ew m -> W st -> ifok (add_equivalence nm powdecay penalty layers fuel m now t v st seen) (fun r => ew (fst r)).
Proof.
  intros I H. unfold add_equivalence. cbv zeta. assert (P : SB (mkEvent t EVENT_TYPE_BELIEF v st now f0 false 0 false)) by (split; [exact H|discriminate]).
  eapply ifok_bind; [eapply s_add; eauto|]. intros m1 K1. eapply ifok_bind; [apply s_generalised; auto; apply K1|]. intros [m2 t2] K2. cbn [fst] in K2.
  eapply ifok_bind; [apply s_generalised; auto; apply K2|]. intros [m3 t3] K3. exact K3.
Qed.
Lemma s_compare m now spec cons cmp : ew m -> SI spec -> SI cmp -> ifok (compare_links nm powdecay penalty layers fuel m now spec cons cmp) ew.
Proof.
  intros I A B. unfold compare_links. destruct (hasVariable _ _ _ _ _); [exact I|]. cbv zeta. destruct (term_eqb _ _); [exact I|].
  destruct (if _ && _ then _ else _) as [q1 q2]. destruct (negb _); [exact I|]. destruct (stamp_check_overlap _ _); [exact I|].
  assert (WW : W (stamp_make (i_stamp spec) (i_stamp cmp))) by (apply WM; auto).
  destruct (implication_of q1 q2) as [ok1 t1]. apply ifok_bind'; intros free _. eapply ifok_bind with (P := fun r => ew (fst r)). { destruct free; [apply s_equivalence; auto|exact I]. }
  intros [m1 seen] K1. cbn [fst] in K1. destruct (implication_of q2 q1) as [ok2 t2]. apply ifok_bind'; intros free2 _. destruct free2; [|exact K1].
  eapply ifok_bind; [apply s_equivalence; auto; apply K1|]. intros [m2 s2] K2. exact K2.
Qed.
Lemma s_eqloop n : forall j m now spec cons g opi, ew m -> SI spec -> ifok (equivalence_loop nm powdecay penalty layers fuel n j m now spec cons g opi) ew.
Proof.
  induction n as [|n IH]; intros j m now spec cons g opi I P; cbn [equivalence_loop]; [exact I|]. apply ifok_bind'; intros k Hk. apply ifok_bind'; intros t Ht.
  destruct (_ <? _); [|exact I]. eapply ifok_bind; [apply s_compare; auto; apply s_slot, (s_pre _ _ _ (s_read _ _ _ I Hk) Ht)|]. intros m1 K1. apply IH; auto.
Qed.
Lemma s_functional m now d : ew m -> SD d -> ifok (functional_equivalence nm powdecay penalty layers fuel m now d) ew.
Proof.
  intros I D. unfold functional_equivalence. cbv zeta. destruct (_ && _); [|exact I]. apply ifok_bind'; intros g _. destruct g; [|exact I]. apply s_eqloop; auto. apply D.
Qed.
Lemma s_missing m now d : ew m -> SD d -> ifok (missing_case nm powdecay ca m now d) ew.
Proof.
  intros I D. unfold missing_case. destruct (_ =? _)%Z; [exact I|]. eapply ifok_bind; [apply s_conc; auto|]. intros [m1 p] K1. cbn [fst] in K1.
  destruct p as [p|]; [|exact K1]. destruct (d_reason d) as [r|]; [|exact Logic.I]. apply ifok_bind'; intros rk _. apply ifok_bind'; intros k Hk. apply ifok_bind'; intros t Ht.
  eapply ifok_bind; [eapply s_negative; eauto; apply (s_pre _ _ _ (s_read _ _ _ K1 Hk) Ht)|]. intros t' A.
  apply s_cmod; auto. intros; apply kall_pre; auto.
Qed.
Lemma s_reset m : ew m -> ew (ResetGoals m).
Proof. intros [[W1 W2 W3] H]. split; [|exact H]. constructor; auto. cbn. rewrite Forall_map. exact W2. Qed.
Lemma s_forget m now : ew m -> ew (RelativeForgetting m now).
Proof.
  intros [[W1 W2 W3] H]. assert (X : forall P : concept -> Prop, (forall k p, P k -> P (with_priority k p)) -> Forall P (m_store m) -> Forall P (m_store (RelativeForgetting m now))).
  { intros P HP. cbn. generalize (m_store m). generalize (map PQueueM.address (PQueueM.contents (m_concepts m))) as l.
    intros l. induction l as [|c l IH]; intros st F; cbn [fold_left]; auto. apply IH. destruct (nth_error st c) as [k|] eqn:N; auto. apply Forall_upd; auto. apply HP. apply (Forall_error _ _ _ _ F N). }
  split; [|apply X; auto]. constructor; [exact W1|cbn; rewrite Forall_map; exact W2|apply X; auto].
Qed.
End W.
