(** Properties of all events and rules in memory are preserved by everything the program does to
    its memory, if inference and revision preserve them. *)
From Coq Require Import ZArith List Bool Lia.
From Flocq Require Import IEEE754.BinarySingleNaN.
From Verif Require Import Base F64 TruthM StampM TermM NamesM EventM InferenceM TableM UsageM RingM InvIndexM VariableM MemoryM QuestionM DecisionM EverywhereS TermP.
From Verif Require PQueueM HashTableM.
Local Open Scope nat_scope.
Import ListNotations.
#[local] Opaque Term_ExtractSubterm RevisionAndChoice OccurrenceTimeIndex_Add Term_Complexity fmul fltb fleb feqb
  HashTableM.HashTable_Get HashTableM.HashTable_Delete HashTableM.HashTable_Set InvertedAtomIndex_RemoveConcept InvertedAtomIndex_AddConcept
  PQueueM.push copulaEquals Truth_Expectation Unify ApplySubstitute BeliefDeduction BeliefIntersection stamp_check_overlap stamp_equal fmax.

(** partial correctness *)
Definition ifok {A} (r : res A) (P : A -> Prop) : Prop := match r with Ok x => P x | _ => True end.
Lemma ifok_elim {A} (r : res A) P x : ifok r P -> r = Ok x -> P x. Proof. intros H ->; exact H. Qed.
Lemma ifok_intro {A} (r : res A) (P : A -> Prop) : (forall x, r = Ok x -> P x) -> ifok r P. Proof. destruct r; cbn; auto. Qed.
Lemma ifok_bind {A B} (x : res A) (f : A -> res B) (P : A -> Prop) (Q : B -> Prop) :
  ifok x P -> (forall a, P a -> ifok (f a) Q) -> ifok (rbind x f) Q.
Proof. destruct x; cbn; auto. Qed.
Lemma ifok_bind' {A B} (x : res A) (f : A -> res B) (Q : B -> Prop) : (forall a, x = Ok a -> ifok (f a) Q) -> ifok (rbind x f) Q.
Proof. destruct x; cbn; auto. Qed.
Lemma ifok_impl {A} (x : res A) (P Q : A -> Prop) : ifok x P -> (forall a, P a -> Q a) -> ifok x Q.
Proof. destruct x; cbn; auto. Qed.
Lemma ifok_assert {B} (b : bool) (f : unit -> res B) (Q : B -> Prop) : (b = true -> ifok (f tt) Q) -> ifok (rbind (rassert b) f) Q.
Proof. destruct b; cbn; auto. Qed.

Lemma Forall_upd {A} (P : A -> Prop) l i x : Forall P l -> P x -> Forall P (upd l i x).
Proof. intros F X. revert i. induction F as [|a l Pa F IH]; intros [|i]; cbn [upd]; auto. Qed.
Lemma Forall_nth' {A} (P : A -> Prop) l i d : Forall P l -> P d -> P (nth i l d).
Proof. intros F X. revert i. induction F as [|a l Pa F IH]; intros [|i]; cbn [nth]; auto. Qed.
Lemma Forall_repeat {A} (P : A -> Prop) x n : P x -> Forall P (repeat x n).
Proof. intros X. induction n; cbn [repeat]; auto. Qed.
Lemma Forall_error {A} (P : A -> Prop) l i x : Forall P l -> nth_error l i = Some x -> P x.
Proof. intros F E. rewrite Forall_forall in F. eapply F, nth_error_In, E. Qed.

(** ** tables *)
Section T.
Variable PI : implication -> Prop.
Hypothesis PI0 : PI imp0.
Notation all t := (Forall PI (t_array t)).
Lemma all_shift_down n : forall a j, Forall PI a -> Forall PI (shift_down a j n).
Proof. induction n as [|n IH]; intros a j F; cbn [shift_down]; auto. apply IH, Forall_upd; auto. apply Forall_nth'; auto. Qed.
Lemma all_shift_up items n : forall a j, Forall PI a -> Forall PI (shift_up a items j n).
Proof.
  induction n as [|n IH]; intros a j F; cbn [shift_up]; auto. apply IH, Forall_upd; auto.
  destruct (_ =? _); auto. apply Forall_nth'; auto.
Qed.
Lemma all_add_loop x n : PI x -> forall t i, all t -> all (fst (add_loop t x i n)).
Proof.
  intros X. induction n as [|n IH]; intros t i F; cbn [add_loop]; auto.
  destruct (goes_here t x i); [|apply IH; auto]. cbn [fst t_array]. apply Forall_upd; auto. apply all_shift_down; auto.
Qed.
Lemma all_remove t i : all t -> all (Table_Remove t i).
Proof. intros F. unfold Table_Remove. cbn [t_array]. apply all_shift_up; auto. Qed.
Lemma all_slot t i : all t -> PI (slot t i).
Proof. intros F. unfold slot. apply Forall_nth'; auto. Qed.
Hypothesis PIM : forall a b, PI a -> PI b -> i_term a = i_term b -> truth_in_bounds (i_truth a) = true -> truth_in_bounds (i_truth b) = true ->
  truth_in_bounds (i_truth (ImplicationRevision a b)) = true ->
  PI (mkImp (i_term b) (i_truth (ImplicationRevision a b)) (i_stamp (ImplicationRevision a b)) (i_offset (ImplicationRevision a b))
       (i_source (ImplicationRevision a b)) (i_sourceId (ImplicationRevision a b)) (i_creation (ImplicationRevision a b))).
Lemma find_same_eq t x n : forall i k, find_same t x i n = Some k -> i_term (slot t k) = i_term x.
Proof.
  induction n as [|n IH]; intros i k; cbn [find_same]; [discriminate|].
  destruct (term_eqb _ _) eqn:E; [|apply IH]. intros H; inversion H; subst. symmetry. apply term_eqb_spec, E.
Qed.
Lemma all_addrevise t x : all t -> PI x -> ifok (Table_AddAndRevise t x) (fun r => all (fst r)).
Proof.
  intros F X. unfold Table_AddAndRevise. destruct (find_same t x 0 (t_items t)) as [k|] eqn:E.
  - apply find_same_eq in E. apply ifok_assert; intros B1. apply ifok_assert; intros B2. apply ifok_assert; intros B3.
    unfold Table_Add. destruct (rassert _); cbn [rbind]; try exact Logic.I. destruct (rassert _); cbn [rbind ifok]; try exact Logic.I.
    apply all_add_loop; [|apply all_remove; auto]. apply PIM; auto. apply all_slot; auto.
  - unfold Table_Add. destruct (rassert _); cbn [rbind ifok]; try exact Logic.I. apply all_add_loop; auto.
Qed.
End T.

Section G.
Variable nm : names.
Variable powdecay : Z -> f64.
Variable penalty : nat -> f64.
Variable layers : nat.
Variables PB PG : event -> Prop.
Variable PI : implication -> Prop.
Notation all t := (Forall PI (t_array t)).
Notation kall := (in_concept PB PG PI).
Notation ew := (everywhere PB PG PI).
(** what is assumed of the properties: the zero values have them, and revision, eternalisation,
    projection and turning an event into a rule keep them *)
Record closed : Prop := {
  cl_b0 : PB event0; cl_g0 : PG event0; cl_i0 : PI imp0;
  cl_bg : forall e, PB e -> e_type e <> EVENT_TYPE_GOAL;
  cl_et : forall e, PB e -> PB (Event_Eternalized e);
  cl_cr : forall e t, PB e -> PB (with_creation e t);
  cl_rb : forall a b r, PB a -> PB b -> RevisionAndChoice nm powdecay a b = Ok r -> PB (fst r);
  cl_li : forall e1 e2 e3 o s id now, PB e1 -> PB e2 -> PB e3 ->
     PI (mkImp (e_term e1) (e_truth (Event_Eternalized e2)) (e_stamp (Event_Eternalized e2)) o (Some s) id now);
  cl_im : forall a b, PI a -> PI b -> i_term a = i_term b -> truth_in_bounds (i_truth a) = true -> truth_in_bounds (i_truth b) = true ->
     truth_in_bounds (i_truth (ImplicationRevision a b)) = true ->
     PI (mkImp (i_term b) (i_truth (ImplicationRevision a b)) (i_stamp (ImplicationRevision a b)) (i_offset (ImplicationRevision a b))
       (i_source (ImplicationRevision a b)) (i_sourceId (ImplicationRevision a b)) (i_creation (ImplicationRevision a b))) }.
Hypothesis CL : closed.

Lemma kall_new id u t pr : kall (mkConcept id u t event0 event0 event0 event0 (repeat table0 (S OPERATIONS_MAX)) table0 pr (0, 0, 0)%Z 0).
Proof.
  pose proof (cl_b0 CL). pose proof (cl_g0 CL). pose proof (cl_i0 CL).
  unfold in_concept. cbn [c_belief c_spike c_predicted c_goal c_pre c_links]. repeat split; auto.
  - apply Forall_repeat. unfold table0; cbn [t_array]. apply Forall_repeat; auto.
  - unfold table0; cbn [t_array]. apply Forall_repeat; auto.
Qed.
Lemma ew_read m c k : ew m -> cread m c = Ok k -> kall k.
Proof. intros E. unfold cread. destruct (nth_error (m_store m) c) eqn:Q; [|discriminate]. intros H; inversion H; subst. eapply Forall_error; [apply (ew_k _ _ _ _ E)|eauto]. Qed.
(** the rest of the memory is not touched by writes to a concept *)
Definition same_rest (m m' : memory) : Prop :=
  m_goals m' = m_goals m /\ m_ops m' = m_ops m /\ m_restricted m' = m_restricted m.
Lemma sr_refl m : same_rest m m. Proof. repeat split. Qed.
Lemma sr_trans a b c : same_rest a b -> same_rest b c -> same_rest a c.
Proof. intros (A1 & A2 & A3) (B1 & B2 & B3). repeat split; congruence. Qed.
Definition keeps (m m' : memory) : Prop := ew m' /\ same_rest m m'.
Lemma keeps_trans a b c : keeps a b -> keeps b c -> keeps a c.
Proof. intros (A1 & A2) (B1 & B2). split; auto. eapply sr_trans; eauto. Qed.
Lemma keeps_refl m : ew m -> keeps m m. Proof. split; auto using sr_refl. Qed.
Lemma ew_cmod m c f : ew m -> (forall k, cread m c = Ok k -> kall k -> kall (f k)) -> ifok (cmod m c f) (keeps m).
Proof.
  intros E H. unfold cmod. destruct (cread m c) as [k| |] eqn:Q; cbn [rbind ifok]; auto.
  specialize (H k eq_refl (ew_read _ _ _ E Q)). destruct E. split; [|repeat split]. constructor; cbn; auto. apply Forall_upd; auto.
Qed.
Lemma ew_ev m r e : ew m -> ev m r = Ok e -> (forall e0, r = EVal e0 -> PB e0) -> PB e.
Proof.
  intros E. destruct r as [e0|c]; cbn [ev].
  - intros H R. inversion H; subst. apply R; auto.
  - destruct (cread m c) as [k| |] eqn:Q; cbn [rbind]; try discriminate. intros H _; inversion H; subst. apply (ew_read _ _ _ E Q).
Qed.
Lemma ew_conceptualize m t now : ew m -> ifok (Conceptualize nm m t now) (fun r => keeps m (fst r)).
Proof.
  intros E. unfold Conceptualize. destruct (FindConceptByTerm m t) as [[c|]| |]; cbn [rbind]; try exact Logic.I.
  - apply keeps_refl; auto.
  - destruct (PQueueM.push _ _ _ _) as [q fb]. destruct (PQueueM.added fb) as [it|]; [|apply keeps_refl; auto].
    apply ifok_bind'; intros old _. apply ifok_bind'; intros [h x] _. apply ifok_bind'; intros x' _. apply ifok_bind'; intros h' _.
    destruct E. split; [|repeat split]. constructor; cbn; auto. apply Forall_upd; auto. apply kall_new.
Qed.
Lemma ew_epush q e p : Forall PB (eq_store q) -> PB e -> ifok (epush q e p) (fun r => Forall PB (eq_store (fst r))).
Proof.
  intros F X. unfold epush. destruct (is_nan p); cbn [ifok]; auto. destruct (PQueueM.push _ _ _ _) as [pq fb].
  destruct (PQueueM.added fb); cbn [ifok fst eq_store]; auto using Forall_upd.
Qed.
Lemma ew_add_belief m r p layer : ew m -> (forall e0, r = EVal e0 -> PB e0) -> ifok (addCyclingEvent layers m r p layer) (fun mb => keeps m (fst mb)).
Proof.
  intros E R. unfold addCyclingEvent. apply ifok_bind'; intros e He. pose proof (ew_ev _ _ _ E He R) as Pe.
  apply ifok_assert; intros AS. apply ifok_bind'; intros known _. destruct known; [apply keeps_refl; auto|].
  destruct (_ && existsb _ _); [apply keeps_refl; auto|].
  apply ifok_bind'; intros found _. apply ifok_bind'; intros better _. destruct better; [apply keeps_refl; auto|].
  pose proof (cl_bg CL _ Pe) as NG. destruct (Z.eqb_spec (e_type e) EVENT_TYPE_BELIEF) as [T|T].
  - eapply ifok_bind; [apply ew_epush; [apply (ew_b _ _ _ _ E)|exact Pe]|]. intros [q b] Q. cbn [fst snd ifok] in *.
    destruct E. split; [|repeat split]. constructor; cbn; auto.
  - destruct (Z.eqb_spec (e_type e) EVENT_TYPE_GOAL) as [T2|T2]; [congruence|]. cbn in AS. discriminate.
Qed.
Lemma ew_link m target b opi imp : ew m -> PI imp -> ifok (add_link m target b opi imp) (keeps m).
Proof.
  intros E X. unfold add_link. apply ifok_bind'; intros k Hk. pose proof (ew_read _ _ _ E Hk) as (K1 & K2 & K3 & K4 & K5 & K6). destruct b.
  - eapply ifok_bind; [apply all_addrevise with (PI := PI); auto; [apply (cl_i0 CL)|apply (cl_im CL)]|]. intros [t j] T. cbn [fst] in *.
    apply ew_cmod; auto. intros k' _ (L1 & L2 & L3 & L4 & L5 & L6). unfold in_concept; cbn; auto 10.
  - destruct (nth_error (c_pre k) opi) as [t|] eqn:N; [|exact Logic.I].
    eapply ifok_bind; [apply all_addrevise with (PI := PI); auto; [apply (cl_i0 CL)|apply (cl_im CL)|apply (Forall_error _ _ _ _ K5 N)]|]. intros [t' j] T. cbn [fst] in *.
    apply ew_cmod; auto. intros k' _ (L1 & L2 & L3 & L4 & L5 & L6). unfold in_concept; cbn. repeat split; auto. apply Forall_upd; auto.
Qed.
Lemma kall_usage k u : kall k -> kall (with_usage k u). Proof. exact (fun H => H). Qed.
Lemma kall_priority k u : kall k -> kall (with_priority k u). Proof. exact (fun H => H). Qed.
Lemma kall_lastsel k u : kall k -> kall (with_lastsel k u). Proof. exact (fun H => H). Qed.
Lemma kall_spike k e : kall k -> PB e -> kall (with_spike k e).
Proof. intros (A & B & C & D & F & G) H. unfold in_concept; cbn; auto 10. Qed.
Lemma kall_predicted k e : kall k -> PB e -> kall (with_predicted k e).
Proof. intros (A & B & C & D & F & G) H. unfold in_concept; cbn; auto 10. Qed.
Lemma kall_belief k e : kall k -> PB e -> kall (with_belief k e).
Proof. intros (A & B & C & D & F & G) H. unfold in_concept; cbn; auto 10. Qed.
Lemma kall_goal k e : kall k -> PG e -> kall (with_goal k e).
Proof. intros (A & B & C & D & F & G) H. unfold in_concept; cbn; auto 10. Qed.
Lemma kall_pre k i t : kall k -> all t -> kall (with_pre k (upd (c_pre k) i t)).
Proof. intros (A & B & C & D & F & G) H. unfold in_concept; cbn. repeat split; auto. apply Forall_upd; auto. Qed.
Lemma kall_links k t : kall k -> all t -> kall (with_links k t).
Proof. intros (A & B & C & D & F & G) H. unfold in_concept; cbn; auto 10. Qed.

Ltac step := first [apply ifok_bind'; intros | apply ifok_assert; intros].
Ltac use L := eapply ifok_bind; [apply L; auto |].
Lemma k2 m m' m'' : keeps m m' -> keeps m' m'' -> keeps m m''. Proof. apply keeps_trans. Qed.

Lemma ew_implication m r now et ei : ew m -> (forall e0, r = EVal e0 -> PB e0) -> (exists e, PB e /\ et = Event_Eternalized e) ->
  ifok (ProcessImplication nm m r now et ei) (fun mb => keeps m (fst mb)).
Proof.
  intros E R (e0 & P0 & ->). unfold ProcessImplication. apply ifok_bind'; intros e He.
  eapply ifok_bind; [apply ew_conceptualize; auto|]. intros [m1 target] K1. cbn [fst] in K1. destruct target as [target|]; [|exact K1].
  eapply ifok_bind; [apply ew_cmod with (c := target); [apply K1|intros; apply kall_usage; auto]|]. intros m2 K2.
  apply ifok_bind'; intros e1 He1. pose proof (ew_ev _ _ _ (proj1 K2) He1 R) as P1.
  assert (K12 : keeps m m2) by (eapply keeps_trans; eauto). destruct (source_of _ _ _ _) as [[opi st]|]; [|exact K12].
  eapply ifok_bind; [apply ew_conceptualize; apply K2|]. intros [m3 source] K3. cbn [fst] in K3.
  assert (K13 : keeps m m3) by (eapply keeps_trans; eauto). destruct source as [source|]; [|exact K13].
  eapply ifok_bind; [apply ew_cmod with (c := source); [apply K3|intros; apply kall_usage; auto]|]. intros m4 K4.
  apply ifok_bind'; intros k Hk. apply ifok_bind'; intros e2 He2. pose proof (ew_ev _ _ _ (proj1 K4) He2 R) as P2.
  eapply ifok_bind; [apply ew_link; [apply K4|eapply (cl_li CL); eauto]|]. intros m5 K5. cbn [ifok fst].
  eapply keeps_trans; [exact K13|]. eapply keeps_trans; eauto.
Qed.
Lemma ew_concept rec m r now et ei p : (forall m c p, ew m -> ifok (rec m c p) (keeps m)) -> ew m -> (forall e0, r = EVal e0 -> PB e0) -> PB et ->
  ifok (ProcessConcept nm powdecay rec m r now et ei p) (keeps m).
Proof.
  intros REC E R PE. unfold ProcessConcept. apply ifok_bind'; intros e0 _.
  eapply ifok_bind; [apply ew_conceptualize; auto|]. intros [m1 c] K1. cbn [fst] in K1. destruct c as [c|]; [|exact K1].
  apply ifok_bind'; intros e He. pose proof (ew_ev _ _ _ (proj1 K1) He R) as Pe.
  eapply ifok_bind with (P := keeps m).
  { destruct (_ && _); [|exact K1]. apply ifok_bind'; intros f _. cbn [ifok]. eapply keeps_trans; [exact K1|]. destruct K1 as [[A B C] _]. split; [|repeat split]. constructor; auto. }
  intros m2 K2. eapply ifok_bind with (P := keeps m). { eapply ifok_impl; [apply ew_cmod; [apply K2|intros; apply kall_usage; auto]|]. intros; eapply keeps_trans; eauto. }
  intros m3 K3. eapply ifok_bind with (P := keeps m). { eapply ifok_impl; [apply ew_cmod; [apply K3|intros; apply kall_priority; auto]|]. intros; eapply keeps_trans; eauto. }
  intros m4 K4. eapply ifok_bind with (P := keeps m).
  { destruct (_ && _); [|exact K4]. apply ifok_bind'; intros k Hk. pose proof (ew_read _ _ _ (proj1 K4) Hk) as (_ & KS & _). apply ifok_bind'; intros rv Hrv.
    eapply ifok_impl; [apply ew_cmod; [apply K4|]|intros; eapply keeps_trans; eauto]. intros k' _ Hk'. apply kall_spike; auto. apply (cl_cr CL). eapply (cl_rb CL); [| |exact Hrv]; auto. }
  intros m5 K5. eapply ifok_bind with (P := keeps m).
  { destruct (_ && _); [|exact K5]. apply ifok_bind'; intros k Hk. pose proof (ew_read _ _ _ (proj1 K5) Hk) as (_ & _ & KS & _). apply ifok_bind'; intros rv Hrv.
    eapply ifok_impl; [apply ew_cmod; [apply K5|]|intros; eapply keeps_trans; eauto]. intros k' _ Hk'. apply kall_predicted; auto. apply (cl_cr CL). eapply (cl_rb CL); [| |exact Hrv]; auto. }
  intros m6 K6. apply ifok_bind'; intros k Hk. pose proof (ew_read _ _ _ (proj1 K6) Hk) as (KS & _). apply ifok_bind'; intros rv Hrv.
  eapply ifok_bind with (P := keeps m).
  { eapply ifok_impl; [apply ew_cmod; [apply K6|]|intros; eapply keeps_trans; eauto]. intros k' _ Hk'. apply kall_belief; auto. apply (cl_cr CL). eapply (cl_rb CL); [| |exact Hrv]; auto. }
  intros m7 K7. destruct (snd rv); [|exact K7]. eapply ifok_impl; [apply REC, K7|]. intros; eapply keeps_trans; eauto.
Qed.
(** [evb] is known to be no goal, as far as its reference goes *)
Lemma ew_add fuel : forall m r now p input revised layer, ew m -> (forall e0, r = EVal e0 -> PB e0) ->
  ifok (AddEvent nm powdecay penalty layers fuel m r now p input revised layer) (keeps m).
Proof.
  induction fuel as [|fuel IH]; intros m r now p input revised layer E R; cbn [AddEvent]; [exact Logic.I|].
  apply ifok_bind'; intros e He. pose proof (ew_ev _ _ _ E He R) as Pe. apply ifok_bind'; intros unknown _. destruct unknown; [apply keeps_refl; auto|].
  destruct (_ || _); [apply keeps_refl; auto|].
  eapply ifok_bind with (P := keeps m).
  { destruct (_ =? _)%Z; [|apply keeps_refl; auto]. eapply ifok_bind with (P := keeps m).
    { destruct (_ && _); [|apply keeps_refl; auto]. eapply ifok_bind; [apply ew_add_belief; auto|]. intros [m' b] H; exact H. }
    intros m1 K1. unfold ProcessNewBeliefEvent. apply ifok_bind'; intros e1 He1. pose proof (ew_ev _ _ _ (proj1 K1) He1 R) as P1.
    eapply ifok_bind with (P := fun mb => keeps m (fst mb)).
    { destruct (_ || _); [|exact K1]. eapply ifok_impl; [apply ew_implication; [apply K1|auto|eauto]|]. intros; eapply keeps_trans; eauto. }
    intros [m2 ret] K2. cbn [fst] in K2. destruct ret; [exact K2|]. apply ifok_bind'; intros e2 _. destruct (negb _); [|exact K2].
    eapply ifok_impl; [apply ew_concept; [|apply K2|auto|apply (cl_et CL); auto]|intros; eapply keeps_trans; eauto].
    intros m' c p'' E'. apply IH; auto. intros; discriminate. }
  intros m1 K1. apply ifok_bind'; intros e1 He1. pose proof (ew_ev _ _ _ (proj1 K1) He1 R) as P1.
  destruct (Z.eqb_spec (e_type e1) EVENT_TYPE_GOAL) as [T|T]; [exfalso; eapply (cl_bg CL); eauto|]. cbn [rbind].
  apply ifok_assert; intros _. exact K1.
Qed.
(** goals: only the queues change *)
Lemma ew_goal fuel m e now p input revised layer : ew m -> PG e -> e_type e = EVENT_TYPE_GOAL ->
  ifok (AddEvent nm powdecay penalty layers fuel m (EVal e) now p input revised layer) (fun m' => ew m' /\ exists g, m' = set_goals m g /\ length g = length (m_goals m)).
Proof.
  intros E PE TY. destruct fuel as [|fuel]; cbn [AddEvent]; [exact Logic.I|]. cbn [ev rbind].
  assert (ID : ew m /\ exists g, m = set_goals m g /\ length g = length (m_goals m)). { split; auto. exists (m_goals m). split; auto. destruct m; reflexivity. }
  apply ifok_bind'; intros unknown _. destruct unknown; [exact ID|]. destruct (_ || _); [exact ID|].
  rewrite TY. change (EVENT_TYPE_GOAL =? EVENT_TYPE_BELIEF)%Z with false. change (EVENT_TYPE_GOAL =? EVENT_TYPE_GOAL)%Z with true. cbn [rbind].
  eapply ifok_bind with (P := fun m' => ew m' /\ exists g, m' = set_goals m g /\ length g = length (m_goals m)); [|intros m1 H; cbn; exact H].
  eapply ifok_bind with (P := fun mb => ew (fst mb) /\ exists g, fst mb = set_goals m g /\ length g = length (m_goals m)); [|intros [m1 b] H; apply ifok_assert; intros _; exact H].
  unfold addCyclingEvent. cbn [ev rbind]. apply ifok_assert; intros _. rewrite TY. change (EVENT_TYPE_GOAL =? EVENT_TYPE_BELIEF)%Z with false. change (EVENT_TYPE_GOAL =? EVENT_TYPE_GOAL)%Z with true. cbn [andb].
  apply ifok_bind'; intros known _. destruct known; [exact ID|]. destruct (existsb _ _); [exact ID|].
  apply ifok_bind'; intros found _. apply ifok_bind'; intros better _. destruct better; [exact ID|].
  destruct (nth_error _ _) as [q|] eqn:N; [|exact Logic.I]. pose proof (Forall_error _ _ _ _ (ew_g _ _ _ _ E) N) as Fq. cbn in Fq.
  apply ifok_bind'. intros [q' b] Q. cbn [fst]. cbn [ifok].
  assert (FQ : Forall PG (eq_store q')).
  { unfold epush in Q. destruct (is_nan _); [discriminate|]. destruct (PQueueM.push _ _ _ _) as [pq fb]. destruct (PQueueM.added fb); inversion Q; subst; cbn [eq_store]; auto using Forall_upd. }
  cbn [fst snd]. split; [|eexists; split; [reflexivity|apply upd_length]]. destruct E. constructor; cbn; auto. apply Forall_upd; auto.
Qed.
End G.
