(** The invariant of the whole memory and its preservation by every operation. *)
From Coq Require Import ZArith List Bool Permutation Reals Lra.
From Flocq Require Import Core.Core IEEE754.BinarySingleNaN.
From Verif Require Import Base F64 TruthM TruthS TruthP StampM TermM TermP SubstP NamesM EventM InferenceM TableM UsageM RingM RingP InvIndexM InvIndexS MemoryM MemoryS MemoryP UsefulP EQueueP.
From Verif Require PQueueM PQueueP InvIndexP2.
Local Open Scope nat_scope.
#[local] Opaque fofZ fdec fadd fmul fdiv fltb fleb Usage_usefulness MIN_CONFIDENCE Term_ExtractSubterm RevisionAndChoice Table_AddAndRevise OccurrenceTimeIndex_Add Term_Complexity.

Section M.
(** with [strict]: priorities are in range and there is no undefined behaviour (C34, C36, C54 for
    histories of memory operations); without it: what holds of whatever priorities the inference
    computes (C34, C36 for histories of the reasoner) *)
Variable strict : bool.
(** the result, if there is one, satisfies P; never undefined behaviour if strict *)
Definition post {A} (r : res A) (P : A -> Prop) : Prop := match r with Ok x => P x | Abort => True | UB => strict = false end.
Lemma post_bind {A B} (x : res A) (f : A -> res B) (P : A -> Prop) (Q : B -> Prop) :
  post x P -> (forall a, P a -> post (f a) Q) -> post (rbind x f) Q.
Proof. destruct x; cbn; auto. Qed.
Lemma post_ok {A} (x : A) (P : A -> Prop) : P x -> post (Ok x) P. Proof. auto. Qed.
Lemma post_impl {A} (x : res A) (P Q : A -> Prop) : post x P -> (forall a, P a -> Q a) -> post x Q.
Proof. destruct x; cbn; auto. Qed.
Lemma post_assert {B} (b : bool) (f : unit -> res B) (Q : B -> Prop) : (b = true -> post (f tt) Q) -> post (rbind (rassert b) f) Q.
Proof. destruct b; cbn; auto. Qed.
Variable nm : names.
Variable powdecay : Z -> f64.
Variable penalty : nat -> f64.
Variables cmax buckets atoms bmax gmax layers : nat.
Hypothesis cpos : 0 < cmax.
Hypothesis bpos : 0 < buckets.
Hypothesis qbpos : 0 < bmax.
Hypothesis qgpos : 0 < gmax.
Hypothesis lpos : 0 < layers.
Hypothesis apos : 0 < atoms.
Hypothesis PEN : strict = true -> penalty_ok penalty.
(** the terms of the memory *)
Variable Tm : term -> Prop.
Hypothesis rng0 : Tm zero_term.
Hypothesis rng_extract : forall t j, Tm t -> Tm (Term_ExtractSubterm t j).
Hypothesis TR : forall t, Tm t -> atoms_in_range atoms t.
Definition su01 (x : f64) : Prop := strict = true -> u01 x.
Definition concept_in (k : concept) : Prop :=
  su01 (c_priority k) /\ (0 <= useCount (c_usage k))%Z /\ Tm (e_term (c_belief k)) /\
  e_type (c_belief k) <> EVENT_TYPE_GOAL /\ length (c_pre k) = 11 /\ Tm (c_term k).
Notation cinv := (cinv nm cmax atoms).
Notation kok := concept_in.
Notation qinv n := (PQueueP.pq_inv num_ltb num0 (fresh_items n) n).
Notation rng t := (Tm t).
Notation qok := (qok strict).

Record minv (m : memory) : Prop := {
  mi_c : cinv m;
  mi_k : Forall kok (m_store m);
  mi_p : Forall (fun it => u01 (proj1_sig (PQueueM.priority it))) (PQueueM.contents (m_concepts m));
  mi_r : exists l, ring_inv (m_ring m) l;
  mi_o : length (m_ops m) = OPERATIONS_MAX;
  mi_b : qok bmax EVENT_TYPE_BELIEF (m_beliefs m);
  mi_bd : pairwise differ (queued (m_beliefs m));
  mi_gl : length (m_goals m) = layers;
  mi_g : Forall (qok gmax EVENT_TYPE_GOAL) (m_goals m);
  mi_gd : pairwise differ (concat (map queued (m_goals m)))
}.

Lemma rng_pre t : rng t -> rng (GetPreconditionWithoutOp nm t).
Proof.
  unfold GetPreconditionWithoutOp. generalize 7. intros n. revert t. induction n as [|n IH]; intros t H; cbn [GetPreconditionWithoutOp_fuel]; auto.
  destruct (_ && _); auto.
Qed.
Lemma u01_0 : u01 f0. Proof. split; [reflexivity|]. rewrite v_f0. lra. Qed.
Lemma u01_1 : u01 f1. Proof. split; [reflexivity|]. rewrite v_f1. lra. Qed.
Lemma kok_new id t now : rng t -> kok (new_concept id t now).
Proof. intros R. split; [intros _; apply u01_0|]. split; [cbn; lia|]. split; [apply rng0|]. split; [discriminate|]. split; [reflexivity|exact R]. Qed.

(** *** operations that keep the concept memory *)
Lemma table_ok_ext h S S' : length S = length S' -> (forall x, In x S <-> In x S') -> table_ok cmax h S -> table_ok cmax h S'.
Proof.
  intros L H (al & Bs & free & A1 & A2 & A3 & A4 & A5 & A6). exists al, Bs, free. repeat (split; auto); try congruence.
  - intros X. apply H, A6, X.
  - intros X. apply A6, H, X.
Qed.
Lemma index_ok_ext x S S' : (forall y, In y S <-> In y S') -> index_ok nm cmax atoms x S -> index_ok nm cmax atoms x S'.
Proof.
  intros H (ch & A1 & A2 & A3 & A4). exists ch. split; auto. split; [|split; auto].
  assert (E : forall b c, listedS nm S b c <-> listedS nm S' b c).
  { intros b c. unfold listedS. split; intros (t & a & X & Y); exists t, a; split; auto; apply H; auto. }
  eapply InvIndexP2.exact_ext; eauto.
Qed.
Lemma cinv_ext m m' : cinv m -> qinv cmax (m_concepts m') -> Permutation (stored_slots m') (stored_slots m) ->
  m_table m' = m_table m -> m_index m' = m_index m -> m_nextid m' = m_nextid m -> length (m_store m') = length (m_store m) ->
  (forall c, c_term (nth c (m_store m') concept0) = c_term (nth c (m_store m) concept0) /\
             c_id (nth c (m_store m') concept0) = c_id (nth c (m_store m) concept0)) -> cinv m'.
Proof.
  intros I Q P T X NI L K.
  assert (PI : forall x, In x (pairs_of m) <-> In x (pairs_of m')).
  { intros [d u]. rewrite !pairs_in. rewrite (proj1 (K d)). split; intros [A B]; (split; [|exact B]); [apply (Permutation_in _ (Permutation_sym P) A)|apply (Permutation_in _ P A)]. }
  assert (ST : forall c k', stores m' c k' -> exists k, stores m c k /\ c_id k = c_id k').
  { intros c k' [A B]. exists (nth c (m_store m) concept0). split.
    - split; [eapply Permutation_in; eauto|]. apply nth_error_nth'. rewrite <- L. apply nth_error_Some. congruence.
    - rewrite <- (proj2 (K c)). f_equal. apply nth_error_nth. exact B. }
  constructor.
  - exact Q.
  - rewrite L. apply I.
  - rewrite T. eapply table_ok_ext; [|exact PI|apply I]. rewrite !pairs_len. symmetry. apply Permutation_length. exact P.
  - rewrite X. eapply index_ok_ext; [exact PI|apply I].
  - intros c t H. apply PI in H. eapply ci_range; eauto.
  - intros c k' H. apply ST in H as (k & H & E). rewrite NI, <- E. eapply ci_ids; eauto.
  - intros c k d k' H1 H2 E. apply ST in H1 as (k1 & H1 & E1). apply ST in H2 as (k2 & H2 & E2).
    eapply (ci_idinj nm cmax atoms m I); eauto. congruence.
Qed.
Lemma cinv_same m m' : cinv m -> m_concepts m' = m_concepts m -> m_store m' = m_store m -> m_table m' = m_table m ->
  m_index m' = m_index m -> m_nextid m' = m_nextid m -> cinv m'.
Proof.
  intros I A B C D F. apply (cinv_ext m); auto; rewrite ?A, ?B; auto; [apply I|]. unfold stored_slots. rewrite A. apply Permutation_refl.
Qed.
Lemma cread_ok m c : minv m -> c < cmax -> exists k, cread m c = Ok k /\ kok k /\ nth_error (m_store m) c = Some k.
Proof.
  intros I H. unfold cread. destruct (nth_error (m_store m) c) as [k|] eqn:E.
  - exists k. split; auto. split; auto. pose proof (mi_k m I) as F. rewrite Forall_forall in F. apply F. eapply nth_error_In; eauto.
  - apply nth_error_None in E. rewrite (ci_st _ _ _ m (mi_c m I)) in E. lia.
Qed.
Lemma minv_set m c k' : minv m -> c < cmax -> kok k' ->
  c_term k' = c_term (nth c (m_store m) concept0) -> c_id k' = c_id (nth c (m_store m) concept0) -> minv (set_store m (upd (m_store m) c k')).
Proof.
  intros I HC HK HT HI. constructor; try apply I.
  - apply (cinv_ext m); try apply I; auto.
    + cbn. apply upd_length.
    + intros d. cbn [m_store set_store]. destruct (Nat.eq_dec c d) as [<-|N].
      * rewrite nth_upd_same by (try rewrite (ci_st _ _ _ m (mi_c m I)); lia). auto.
      * rewrite (nth_upd_other 1 1) by (auto; lia). auto.
  - cbn. apply upd_Forall; auto. apply I.
Qed.
Lemma cmod_ok m c f : minv m -> c < cmax -> (forall k, kok k -> kok (f k) /\ c_term (f k) = c_term k /\ c_id (f k) = c_id k) ->
  exists m' k, cmod m c f = Ok m' /\ minv m' /\ nth_error (m_store m) c = Some k /\ kok k /\ m' = set_store m (upd (m_store m) c (f k)).
Proof.
  intros I HC HF. unfold cmod. destruct (cread_ok m c I HC) as (k & E & HK & N). rewrite E. cbn [rbind].
  destruct (HF k HK) as (F1 & F2 & F3). eexists _, k. split; [reflexivity|]. split; [|split; [exact N|split; [exact HK|reflexivity]]].
  apply minv_set; auto; rewrite (nth_error_nth _ _ _ N); auto.
Qed.
Lemma find_ok' m t : minv m -> exists r, FindConceptByTerm m t = Ok r /\ (forall c, r = Some c -> c < cmax /\ In (c, t) (pairs_of m)).
Proof.
  intros I. destruct (find_ok nm cmax atoms m t (mi_c m I)) as (r & E & H). exists r. split; auto.
  intros c X. apply H in X. split; auto. apply pairs_in in X as [X _]. apply (qinv_lt cmax buckets cpos bpos cmax (m_concepts m)); auto. apply (ci_q _ _ _ m (mi_c m I)).
Qed.
Lemma created_minv m m' c t now : minv m -> rng t -> cinv m' -> created m m' c t now ->
  Forall (fun it => u01 (proj1_sig (PQueueM.priority it))) (PQueueM.contents (m_concepts m')) -> minv m'.
Proof.
  intros I RT C (A1 & A2 & A3 & A4 & A5 & A6 & A7) F. constructor; auto; try (rewrite ?A3, ?A4, ?A5, ?A6; apply I).
  rewrite A1. apply upd_Forall; [apply I|apply kok_new; exact RT].
Qed.
Lemma num1_u01 : u01 (proj1_sig num1). Proof. exact u01_1. Qed.
(** conceptualising: total, a slot of the memory, never refused; the other globals stay *)
Lemma conceptualize_ok m t now : minv m -> rng t ->
  exists m' c, Conceptualize nm m t now = Ok (m', Some c) /\ minv m' /\ c < cmax /\ cz_outcome cmax m t now m' (Some c) /\ m_ops m' = m_ops m.
Proof.
  intros I HT. destruct (Conceptualize_ok nm cmax buckets atoms cpos bpos m t now (mi_c m I) (TR _ HT)) as (m' & r & E & C & O).
  pose proof (mi_p m I) as F. rewrite Forall_forall in F. inversion O; subst.
  - exists m', c. split; auto. split; auto. split; [|split; auto]. apply pairs_in in H as [H _].
    apply (qinv_lt cmax buckets cpos bpos cmax (m_concepts m')); auto. apply (ci_q _ _ _ m' C).
  - exfalso. assert (PO : 0 < PQueueM.amount (m_concepts m')) by lia.
    destruct (PQueueM.contents (m_concepts m')) as [|it l] eqn:CE.
    + destruct (qinv_count cmax buckets cpos bpos cmax (m_concepts m') (ci_q _ _ _ m' C)) as [K _]. unfold addrs in K. rewrite CE in K. cbn in K. lia.
    + specialize (H1 it (or_introl eq_refl)). specialize (F it (or_introl eq_refl)). unfold num_ltb in H1.
      destruct F as [F1 F2]. change (proj1_sig num1) with f1 in H1. apply fltb_spec in H1; [|reflexivity|exact F1]. rewrite v_f1 in H1. apply (Rlt_not_le _ _ H1). apply F2.
  - exists m', c. split; auto. split; [|split; [auto|split; [auto|]]].
    + apply (created_minv m m' c t now); auto. apply (Permutation_Forall (Permutation_sym H3)). constructor; [exact num1_u01|apply Forall_forall; exact F].
    + destruct H4 as (_ & _ & _ & _ & _ & X & _). exact X.
  - exists m', (PQueueM.address e). split; auto. split; [|split; [auto|split; [auto|]]].
    + apply (created_minv m m' (PQueueM.address e) t now); auto. apply (Permutation_Forall (Permutation_sym H6)). constructor; [exact num1_u01|].
      assert (F' : Forall (fun it => u01 (proj1_sig (PQueueM.priority it))) (PQueueM.contents (m_concepts m))) by (apply Forall_forall; exact F).
      apply (Permutation_Forall H5) in F'. inversion F'; auto.
    + destruct H7 as (_ & _ & _ & _ & _ & X & _). exact X.
Qed.

(** *** event references *)
Definition ref_ok (r : evref) : Prop := match r with EVal e => rng (e_term e) | EBelief c => c < cmax end.
Lemma ev_ok m r : minv m -> ref_ok r -> exists e, ev m r = Ok e /\ rng (e_term e) /\
  (match r with EVal e' => e = e' | EBelief c => exists k, nth_error (m_store m) c = Some k /\ e = c_belief k /\ e_type e <> EVENT_TYPE_GOAL end).
Proof.
  intros I H. destruct r as [e|c]; cbn [ev ref_ok] in *; [eauto|]. destruct (cread_ok m c I H) as (k & E & K & N). rewrite E. cbn [rbind].
  exists (c_belief k). split; auto. destruct K as (_ & _ & K1 & K2 & _). split; auto. exists k. auto.
Qed.
Definition good_prio (p : f64) : Prop := su01 p /\ fleb p f0 = false.
Lemma good_pos p : good_prio p -> spos strict (num_of p).
Proof.
  intros [FB L] ST. destruct (FB ST) as [F B]. unfold pos_prio. assert (N : is_nan p = false) by (destruct p; auto; discriminate).
  rewrite num_of_val by exact N. split; auto. split; [|apply B]. apply Rnot_le_lt. intros H.
  assert (X : fleb p f0 = true) by (apply fleb_spec; [exact F|reflexivity|rewrite v_f0; exact H]). congruence.
Qed.
(** *** the attention queues *)
Lemma fst_perm q e p l : Permutation (qitems q) ((e, p) :: l) -> Permutation (queued q) (e :: map fst l).
Proof. intros H. rewrite queued_qitems. apply (Permutation_map fst) in H. exact H. Qed.
Lemma contains_none q e : containsEvent q e = false -> Forall (differ e) (queued q).
Proof.
  unfold containsEvent. intros H. apply Forall_forall. intros x Hx. left. destruct (Event_Equal e x) eqn:E; auto.
  assert (X : existsb (Event_Equal e) (queued q) = true) by (apply existsb_exists; eauto). congruence.
Qed.
Lemma shrunk_Forall {A} (P : A -> Prop) l l' : shrunk l l' -> Forall P l -> Forall P l'.
Proof. intros S F. rewrite Forall_forall in *. intros x Hx. apply F. eapply shrunk_incl; eauto. Qed.
Lemma shrunk_app {A} (a l l' b : list A) : shrunk l l' -> shrunk (a ++ l ++ b) (a ++ l' ++ b).
Proof.
  intros [H|[x H]].
  - left. apply Permutation_app_head, Permutation_app_tail, H.
  - right. exists x. rewrite H. cbn. symmetry. apply Permutation_middle.
Qed.
Lemma nth_split_upd {A} (l : list A) : forall i q q', nth_error l i = Some q -> exists a b, l = a ++ q :: b /\ upd l i q' = a ++ q' :: b /\ length a = i.
Proof.
  induction l as [|x l IH]; intros [|i] q q' H; cbn in H; try discriminate.
  - injection H as ->. exists [], l. auto.
  - destruct (IH i q q' H) as (a & b & -> & E & <-). exists (x :: a), b. cbn. rewrite E. auto.
Qed.
Lemma add_cycling m r p layer : minv m -> ref_ok r -> good_prio p ->
  (forall e, ev m r = Ok e -> fltb (confidence (e_truth e)) (MIN_CONFIDENCE f64A) = false) ->
  post (addCyclingEvent layers m r p layer) (fun mb => minv (fst mb) /\ m_store (fst mb) = m_store m).
Proof.
  intros I R GP HC. destruct (ev_ok m r I R) as (e & E & _ & _). specialize (HC e E). unfold addCyclingEvent. rewrite E. cbn [rbind].
  apply post_assert. intros TY.
  assert (NN : strict = true -> is_nan p = false) by (intros ST; destruct GP as [FF _]; destruct (FF ST) as [F _]; destruct p; auto; discriminate).
  set (known := if _ && containsEvent _ _ then Ok true else _).
  assert (K : exists b, known = Ok b /\ (b = false -> e_type e = EVENT_TYPE_BELIEF -> containsEvent (m_beliefs m) e = false)).
  { unfold known. destruct (Z.eqb_spec (e_type e) EVENT_TYPE_BELIEF) as [T|T]; cbn [andb].
    - destruct (containsEvent (m_beliefs m) e) eqn:CE; [exists true; split; auto; discriminate|].
      unfold containsBeliefOrGoal. destruct (find_ok' m (e_term e) I) as (f & -> & F). cbn [rbind]. destruct f as [c|]; [|eauto].
      destruct (cread_ok m c I (proj1 (F c eq_refl))) as (k & -> & _). cbn [rbind]. eauto.
    - unfold containsBeliefOrGoal. destruct (find_ok' m (e_term e) I) as (f & -> & F). cbn [rbind].
      destruct f as [c|]; [|eexists; split; [reflexivity|congruence]].
      destruct (cread_ok m c I (proj1 (F c eq_refl))) as (k & -> & _). cbn [rbind]. eexists; split; [reflexivity|congruence]. }
  destruct K as (b & -> & KB). cbn [rbind]. destruct b; [cbn; auto|]. specialize (KB eq_refl).
  destruct ((e_type e =? EVENT_TYPE_GOAL)%Z && existsb (fun q => containsEvent q e) (m_goals m)) eqn:GE; [cbn; auto|].
  destruct (find_ok' m (e_term e) I) as (f & -> & F). cbn [rbind].
  set (better := match f with None => _ | Some c => _ end).
  assert (B : exists b, better = Ok b).
  { unfold better. destruct f as [c|]; [|eauto]. destruct (cread_ok m c I (proj1 (F c eq_refl))) as (k & -> & _). cbn [rbind]. eauto. }
  destruct B as (b & ->). cbn [rbind]. destruct b; [cbn; auto|].
  destruct (Z.eqb_spec (e_type e) EVENT_TYPE_BELIEF) as [T|T].
  - destruct (epush (m_beliefs m) e p) as [[q' b]| |] eqn:EP; cbn [rbind post fst snd]; auto.
    2: { unfold epush in EP. destruct strict; auto. rewrite NN in EP by auto. destruct (PQueueM.push _ _ _ _); discriminate. }
    destruct (epush_ok strict bmax EVENT_TYPE_BELIEF (m_beliefs m) e p q' b qbpos (mi_b m I) T HC (good_pos p GP) EP) as (Q & D).
    split; [|reflexivity]. constructor; try apply I; auto; [apply (cinv_same m); auto; apply I|]. cbn [m_beliefs set_beliefs].
    destruct D as [->|(l & S & P)]; [apply I|].
    apply (pairwise_perm differ (e :: map fst l)); auto using differ_sym. { apply Permutation_sym, (fst_perm _ _ _ _ P). }
    apply pairwise_cons. apply (shrunk_map fst) in S. rewrite <- queued_qitems in S. split.
    + apply (shrunk_Forall _ _ _ S). apply contains_none. auto.
    + apply (shrunk_pairwise differ _ _ differ_sym S). apply I.
  - destruct (Z.eqb_spec (e_type e) EVENT_TYPE_GOAL) as [TG|]; [|cbn in TY; discriminate]. cbn [andb] in GE.
    set (l := Nat.min (layers - 1) (layer + 1)). assert (HL : l < length (m_goals m)) by (rewrite (mi_gl m I); unfold l; lia).
    destruct (nth_error (m_goals m) l) as [q|] eqn:EQ; [|apply nth_error_None in EQ; lia].
    destruct (epush q e p) as [[q' b]| |] eqn:EP; cbn [rbind post fst snd]; auto.
    2: { unfold epush in EP. destruct strict; auto. rewrite NN in EP by auto. destruct (PQueueM.push _ _ _ _); discriminate. }
    assert (QI : qok gmax EVENT_TYPE_GOAL q) by (pose proof (mi_g m I) as G; rewrite Forall_forall in G; apply G; eapply nth_error_In; eauto).
    destruct (epush_ok strict gmax EVENT_TYPE_GOAL q e p q' b qgpos QI TG HC (good_pos p GP) EP) as (Q & D).
    split; [|reflexivity]. constructor; try apply I; cbn [m_goals set_goals].
    + apply (cinv_same m); auto; apply I.
    + rewrite upd_length. apply I.
    + apply upd_Forall; auto. apply I.
    + destruct (nth_split_upd _ _ _ q' EQ) as (x & y & E1 & E2 & _). rewrite E2. pose proof (mi_gd m I) as GD. rewrite E1 in GD.
      rewrite map_app, concat_app in *. cbn [map concat] in *.
      destruct D as [->|(l' & S & P)]; [exact GD|]. apply fst_perm in P. apply (shrunk_map fst) in S. rewrite <- queued_qitems in S.
      set (A := concat (map queued x)) in *. set (B := concat (map queued y)) in *.
      apply (pairwise_perm differ (e :: A ++ map fst l' ++ B)); auto using differ_sym.
      { rewrite P. cbn. apply Permutation_middle. }
      apply (shrunk_app A _ _ B) in S. apply pairwise_cons. split.
      * apply (shrunk_Forall _ _ _ S). apply Forall_forall. intros z Hz.
        assert (CN : forall w, In w (m_goals m) -> containsEvent w e = false).
        { intros w Hw. destruct (containsEvent w e) eqn:CE; auto.
          assert (X : existsb (fun q => containsEvent q e) (m_goals m) = true) by (apply existsb_exists; eauto). congruence. }
        assert (HZ : In z (concat (map queued (m_goals m)))) by (rewrite E1, map_app, concat_app; exact Hz).
        apply in_concat in HZ as (lz & HZ1 & HZ2). apply in_map_iff in HZ1 as (w & <- & HW).
        pose proof (contains_none w e (CN w HW)) as FD. rewrite Forall_forall in FD. apply FD. exact HZ2.
      * apply (shrunk_pairwise differ _ _ differ_sym S). exact GD.
Qed.

(** *** processing beliefs *)
Lemma cmod_post m c f : minv m -> c < cmax -> (forall k, kok k -> kok (f k) /\ c_term (f k) = c_term k /\ c_id (f k) = c_id k) -> post (cmod m c f) minv.
Proof. intros I HC HF. destruct (cmod_ok m c f I HC HF) as (m' & k & E & M & _). rewrite E. exact M. Qed.
Lemma find_op_le ops : forall n a, n <= 1 + length ops + (n - 1) -> find_op n a ops <= length ops + n - 1 \/ find_op n a ops = 0.
Proof.
  induction ops as [|o ops IH]; intros n a H; cbn [find_op length]; [right; reflexivity|].
  destruct (_ =? _)%Z; [left; lia|]. destruct (IH (S n) a) as [X|X]; [lia|left; lia|right; exact X].
Qed.
Lemma opid_le m t : minv m -> getOperationID nm m t <= OPERATIONS_MAX.
Proof.
  intros I. unfold getOperationID. cbv zeta. destruct (_ =? 0)%Z; [lia|]. destruct (find_op_le (m_ops m) 1 (getOperationAtom nm t)) as [X|X]; [lia| |lia].
  rewrite (mi_o m I) in X. lia.
Qed.
Lemma source_ok m cop subject opi t : minv m -> rng subject -> source_of nm m cop subject = Some (opi, t) -> opi <= OPERATIONS_MAX /\ rng t.
Proof.
  intros I R. unfold source_of. destruct (_ && _); [|intros [= <- <-]; split; [lia|auto]]. cbv zeta.
  destruct (isOperation nm _); [|intros [= <- <-]; split; [lia|auto]]. destruct (negb _); [discriminate|]. intros [= <- <-].
  split; [apply opid_le; auto|apply rng_pre; auto].
Qed.
Lemma table_post t x : post (Table_AddAndRevise t x) (fun _ => True).
Proof.
  Transparent Table_AddAndRevise. unfold Table_AddAndRevise, Table_Add. destruct (find_same t x 0 (t_items t)); cbv zeta.
  - repeat (apply post_assert; intros _). eapply post_bind with (P := fun _ => True).
    + apply post_assert. intros _. exact I.
    + intros r _. apply post_assert. intros _. exact I.
  - apply post_assert. intros _. exact I.
Qed.
Lemma link_ok m target b opi imp : minv m -> target < cmax -> opi <= OPERATIONS_MAX -> post (add_link m target b opi imp) minv.
Proof.
  intros I HT HO. unfold add_link. destruct (cread_ok m target I HT) as (k & -> & K & _). cbn [rbind].
  assert (P : forall t, post (Table_AddAndRevise t imp) (fun _ => True)) by (intros; apply table_post). destruct b.
  - eapply post_bind; [apply P|]. intros r _. apply cmod_post; auto.
  - destruct K as (K1 & K2 & K3 & K4 & K5 & K6). destruct (nth_error (c_pre k) opi) as [t|] eqn:E.
    + eapply post_bind; [apply P|]. intros r _. apply cmod_post; auto. intros k' (L1 & L2 & L3 & L4 & L5 & L6). split; [|auto].
      split; [exact L1|]. repeat (split; auto). cbn. rewrite upd_length. exact L5.
    + exfalso. apply nth_error_None in E. unfold OPERATIONS_MAX in HO. lia.
Qed.
Lemma use_ok now b : forall k, kok k -> kok (with_usage k (Usage_use (c_usage k) now b)) /\ c_term (with_usage k (Usage_use (c_usage k) now b)) = c_term k /\ c_id (with_usage k (Usage_use (c_usage k) now b)) = c_id k.
Proof. intros k (L1 & L2 & L3 & L4 & L5 & L6). split; [|auto]. split; auto. split; [cbn; destruct b; lia|]. auto. Qed.
Lemma implication_ok m r now eternal ei : minv m -> ref_ok r -> post (ProcessImplication nm m r now eternal ei) (fun mb => minv (fst mb)).
Proof.
  intros I R. unfold ProcessImplication. destruct (ev_ok m r I R) as (e & -> & RE & _). cbn [rbind]. cbv zeta.
  destruct (conceptualize_ok m (Term_ExtractSubterm (e_term e) 2) now I (rng_extract _ _ RE)) as (m1 & c & -> & I1 & HC & _). cbn [rbind].
  eapply post_bind; [apply cmod_post; [exact I1|exact HC|apply use_ok]|]. intros m2 I2. cbn beta.
  destruct (ev_ok m2 r I2 R) as (e1 & -> & RE1 & _). cbn [rbind].
  destruct (source_of nm m2 (at_ (e_term e1) 0) (Term_ExtractSubterm (e_term e) 1)) as [[opi st]|] eqn:ES; [|exact I2].
  apply source_ok in ES as [HO RS]; auto using rng_extract.
  destruct (conceptualize_ok m2 st now I2 RS) as (m3 & s & -> & I3 & HS & _). cbn [rbind].
  eapply post_bind; [apply cmod_post; [exact I3|exact HS|apply use_ok]|]. intros m4 I4. cbn beta.
  destruct (cread_ok m4 s I4 HS) as (k & -> & _). cbn [rbind]. destruct (ev_ok m4 r I4 R) as (e2 & -> & _). cbn [rbind].
  eapply post_bind; [apply link_ok; [exact I4|exact HC|exact HO]|]. intros m5 I5. exact I5.
Qed.
Lemma rac_post ex inc : post (RevisionAndChoice nm powdecay ex inc) (fun rv =>
  (e_type (fst rv) = e_type ex \/ e_type (fst rv) = e_type inc) /\ (e_term (fst rv) = e_term ex \/ e_term (fst rv) = e_term inc)).
Proof.
  Transparent RevisionAndChoice. unfold RevisionAndChoice. destruct (e_type ex =? EVENT_TYPE_DELETED)%Z; [cbn; auto|]. cbv zeta.
  match goal with |- context [if ?c then (if ?d then _ else _) else _] => destruct c; [destruct d; cbn; auto|] end.
  destruct (fleb _ _); [|exact I]. cbn [post fst]. unfold EventRevision, EventUpdate. cbn. auto.
Qed.
#[local] Opaque RevisionAndChoice Table_AddAndRevise.
Lemma fmax_u01 a b : su01 a -> su01 b -> su01 (fmax a b).
Proof. intros A B ST. unfold fmax. destruct (fltb b a); auto. Qed.
Lemma concept_step rec m r now eternal ei p : minv m -> ref_ok r -> rng (e_term eternal) -> e_type eternal <> EVENT_TYPE_GOAL -> good_prio p ->
  (forall m c, minv m -> c < cmax -> post (rec m c p) minv) -> post (ProcessConcept nm powdecay rec m r now eternal ei p) minv.
Proof.
  intros I R RE TE GP HR. unfold ProcessConcept. destruct (ev_ok m r I R) as (e & -> & RE0 & _). cbn [rbind].
  destruct (conceptualize_ok m (e_term e) now I RE0) as (m1 & c & -> & I1 & HC & _). cbn [rbind].
  destruct (ev_ok m1 r I1 R) as (e1 & -> & RE1 & _). cbn [rbind]. cbv zeta.
  eapply post_bind with (P := minv).
  { destruct (_ && _); [|exact I1]. destruct (mi_r m1 I1) as (l & RI). destruct (add_inv (m_ring m1) l c RI) as (f' & -> & RI'). cbn [rbind post].
    constructor; try apply I1; [apply (cinv_same m1); auto; apply I1|]. exists (c :: l). exact RI'. }
  intros m2 I2. eapply post_bind; [apply cmod_post; [exact I2|exact HC|apply use_ok]|]. intros m3 I3. cbn beta.
  eapply post_bind; [apply cmod_post; [exact I3|exact HC|]|].
  { intros k (L1 & L2 & L3 & L4 & L5 & L6). split; [|auto]. split; [|auto]. apply fmax_u01; auto. apply GP. }
  intros m4 I4. cbn beta. eapply post_bind with (P := minv).
  { destruct (_ && _); [|exact I4]. destruct (cread_ok m4 c I4 HC) as (k & -> & _). cbn [rbind].
    eapply post_bind; [apply rac_post|]. intros rv _. apply cmod_post; auto. }
  intros m5 I5. eapply post_bind with (P := minv).
  { destruct (_ && _); [|exact I5]. destruct (cread_ok m5 c I5 HC) as (k & -> & _). cbn [rbind].
    eapply post_bind; [apply rac_post|]. intros rv _. apply cmod_post; auto. }
  intros m6 I6. destruct (cread_ok m6 c I6 HC) as (k & -> & K & _). cbn [rbind].
  eapply post_bind; [apply rac_post|]. intros rv [TY TM]. cbn beta. destruct K as (K1 & K2 & K3 & K4 & K5 & K6).
  eapply post_bind; [apply cmod_post; [exact I6|exact HC|]|].
  { intros k' (L1 & L2 & L3 & L4 & L5 & L6). split; [|auto]. split; auto. split; auto. cbn [c_belief with_belief with_creation e_term e_type].
    split; [destruct TM as [-> | ->]; auto|]. split; [destruct TY as [-> | ->]; auto|split; [exact L5|exact L6]]. }
  intros m7 I7. cbn beta. destruct (snd rv); [|exact I7]. apply HR; auto.
Qed.
Lemma eternalized e : e_term (Event_Eternalized e) = e_term e /\ e_type (Event_Eternalized e) = e_type e.
Proof. unfold Event_Eternalized. destruct (_ =? _)%Z; auto. Qed.
Lemma belief_step rec m r now p input : minv m -> ref_ok r -> good_prio p -> (forall e, ev m r = Ok e -> e_type e <> EVENT_TYPE_GOAL) ->
  (forall m c, minv m -> c < cmax -> post (rec m c p) minv) -> post (ProcessNewBeliefEvent nm powdecay rec m r now p input) minv.
Proof.
  intros I R GP TY HR. unfold ProcessNewBeliefEvent. destruct (ev_ok m r I R) as (e & E & RE & _). specialize (TY e E). rewrite E. cbn [rbind]. cbv zeta.
  destruct (eternalized e) as [ET EY].
  apply post_bind with (P := fun mb => minv (fst mb)).
  { destruct (_ || _); [apply implication_ok; auto|exact I]. }
  intros [m1 ret] I1. cbn [fst] in I1. destruct ret; [exact I1|]. destruct (ev_ok m1 r I1 R) as (e1 & -> & _). cbn [rbind].
  destruct (negb _); [|exact I1]. apply concept_step; auto; rewrite ?ET, ?EY; auto.
Qed.
Lemma add_event fuel : forall m r now p input revised layer, minv m -> ref_ok r -> su01 p ->
  (strict = true -> input = true \/ revised = true \/ forall e, ev m r = Ok e -> 1 <= Term_Complexity (e_term e)) ->
  post (AddEvent nm powdecay penalty layers fuel m r now p input revised layer) minv.
Proof.
  induction fuel as [|fuel IH]; intros m r now p input revised layer I R UP CX; cbn [AddEvent]; [exact Logic.I|].
  destruct (ev_ok m r I R) as (e & E & RE & BR). rewrite E. cbn [rbind].
  set (unknown := if m_restricted m && _ && _ then _ else _).
  assert (U : exists b, unknown = Ok b).
  { unfold unknown. destruct (_ && _); [|eauto]. destruct (find_ok' m (e_term e) I) as (f & -> & _). cbn [rbind]. eauto. }
  destruct U as (b & ->). cbn [rbind]. destruct b; [exact I|]. cbv zeta.
  set (p' := if negb revised && negb input then _ else p).
  assert (UP' : su01 p').
  { intros ST. specialize (CX ST). specialize (UP ST). unfold p'. destruct (negb revised && negb input) eqn:X; auto. apply andb_true_iff in X as [X1 X2].
    destruct CX as [->|[->|CX]]; try discriminate. destruct (mul_rg 1 p (penalty (Term_Complexity (e_term e))) ltac:(lra) UP (PEN ST _ (CX e E))) as (M & _). exact M. }
  clearbody p'. destruct (fltb (confidence (e_truth e)) (MIN_CONFIDENCE f64A)) eqn:MC; [exact I|]. cbn [orb].
  destruct (fleb p' f0) eqn:PZ; [exact I|]. assert (GP : good_prio p') by (split; auto).
  assert (HC : forall e', ev m r = Ok e' -> fltb (confidence (e_truth e')) (MIN_CONFIDENCE f64A) = false) by (intros e' X; congruence).
  apply post_bind with (P := fun m1 => minv m1 /\ (e_type e <> EVENT_TYPE_BELIEF -> m1 = m)).
  { destruct (Z.eqb_spec (e_type e) EVENT_TYPE_BELIEF) as [T|T]; [|split; [exact I|auto]].
    apply post_impl with (P := minv); [|intros a Ha; split; [exact Ha|intros; contradiction]].
    apply post_bind with (P := fun m1 => minv m1 /\ m_store m1 = m_store m).
    { destruct (_ && _); [|split; [exact I|reflexivity]]. eapply post_bind; [apply add_cycling; eauto|]. intros mb H. exact H. }
    intros m1 [I1 S1]. apply belief_step; [exact I1|exact R|exact GP| |].
    - intros e' X. assert (X' : ev m r = Ok e') by (destruct r; cbn [ev] in *; auto; unfold cread in *; rewrite S1 in X; exact X).
      rewrite E in X'. injection X' as <-. rewrite T. discriminate.
    - intros m2 c I2 HC2. apply IH; auto. }
  intros m1 [I1 S1]. destruct (ev_ok m1 r I1 R) as (e1 & E1 & RE1 & BR1). rewrite E1. cbn [rbind].
  apply post_bind with (P := minv).
  { destruct (Z.eqb_spec (e_type e1) EVENT_TYPE_GOAL) as [T|T]; [|exact I1].
    assert (EV : exists e', r = EVal e') by (destruct r as [e'|c]; [eauto|destruct BR1 as (k & _ & _ & X); contradiction]). destruct EV as (e' & ->).
    assert (M1 : m1 = m) by (apply S1; cbn [ev] in *; intros TT; assert (X : e = e1) by congruence; rewrite X, T in TT; discriminate TT). subst m1.
    eapply post_bind; [apply add_cycling; eauto|]. intros mb [H _]. apply post_assert. intros _. exact H. }
  intros m2 I2. apply post_assert. intros _. exact I2.
Qed.

(** *** forgetting, selection, reset, initialisation *)
Lemma durability_u01 : u01 CONCEPT_DURABILITY.
Proof.
  assert (E : B2R CONCEPT_DURABILITY = (IZR 8106479329266893 / IZR 9007199254740992)%R).
  { unfold CONCEPT_DURABILITY. rewrite (val_closed _ false 8106479329266893 (-53)) by (vm_compute; reflexivity).
    unfold F2R. cbn [cond_Zopp Fnum Fexp]. unfold bpow, radix_val, radix2.
    replace (Z.pow_pos 2 53) with 9007199254740992%Z by reflexivity. reflexivity. }
  split; [vm_compute; reflexivity|]. rewrite E. lra.
Qed.
#[local] Opaque CONCEPT_DURABILITY EVENT_DURABILITY.
Definition fdecay (st : list concept) (c : nat) : list concept :=
  match nth_error st c with Some k => upd st c (with_priority k (fmul (c_priority k) CONCEPT_DURABILITY)) | None => st end.
Lemma fdecay_ok used : forall st, Forall kok st -> Forall kok (fold_left fdecay used st) /\ length (fold_left fdecay used st) = length st /\
  forall c, c_term (nth c (fold_left fdecay used st) concept0) = c_term (nth c st concept0) /\ c_id (nth c (fold_left fdecay used st) concept0) = c_id (nth c st concept0).
Proof.
  induction used as [|a used IH]; intros st F; cbn [fold_left]; auto.
  assert (S : Forall kok (fdecay st a) /\ length (fdecay st a) = length st /\ forall c, c_term (nth c (fdecay st a) concept0) = c_term (nth c st concept0) /\ c_id (nth c (fdecay st a) concept0) = c_id (nth c st concept0)).
  { unfold fdecay. destruct (nth_error st a) as [k|] eqn:E; [|auto].
    assert (K : kok k) by (rewrite Forall_forall in F; apply F; eapply nth_error_In; eauto). destruct K as (K1 & K2 & K3).
    split; [|split; [apply upd_length|]].
    - apply upd_Forall; auto. split; auto. cbn [c_priority with_priority]. intros ST.
      destruct (mul_rg 1 (c_priority k) CONCEPT_DURABILITY ltac:(lra) (K1 ST) durability_u01) as (M & _). exact M.
    - intros c. destruct (Nat.eq_dec a c) as [<-|N].
      + rewrite nth_upd_same by (apply nth_error_Some; congruence). rewrite (nth_error_nth _ _ _ E). auto.
      + rewrite (nth_upd_other 1 1) by (auto; lia). auto. }
  destruct S as (S1 & S2 & S3). destruct (IH (fdecay st a) S1) as (A & B & C). split; auto. split; [congruence|].
  intros c. destruct (C c) as [C1 C2]. destruct (S3 c) as [D1 D2]. split; congruence.
Qed.
Lemma forget_ok m now : minv m -> minv (RelativeForgetting m now).
Proof.
  intros I. unfold RelativeForgetting. cbv zeta. fold fdecay. change (fun (st : list concept) (c : nat) => _) with fdecay.
  set (used := map PQueueM.address (PQueueM.contents (m_concepts m))).
  destruct (fdecay_ok used (m_store m) (mi_k m I)) as (F1 & F2 & F3). set (st := fold_left fdecay used (m_store m)) in *. clearbody st.
  set (f := fun it : PQueueM.item num64 => num_of (Usage_usefulness (c_usage (nth (PQueueM.address it) st concept0)) now)).
  pose proof (ci_q _ _ _ m (mi_c m I)) as Q. pose proof Q as (W & O & _).
  pose proof (PQueueP.pq_step_inv num_ltb num0 num_ltb_asym num_nlt_trans (fresh_items cmax) cmax (m_concepts m) (PQueueM.OpReprioritizeRebuild f) cpos Q) as X.
  cbn [PQueueM.pq_step] in X.
  destruct (PQueueP.reprioritize_facts num_ltb num0 num_ltb_asym num_nlt_trans f (m_concepts m) W) as (G1 & G2 & G3 & G4 & G5).
  destruct (PQueueP.rebuild_spec num_ltb num0 num_ltb_asym num_nlt_trans _ G1) as (P1 & P2 & P3 & P4 & P5 & P6). rewrite G4 in P5.
  set (q := PQueueM.rebuild num_ltb num0 (PQueueM.reprioritize f (m_concepts m))) in *.
  constructor; cbn [m_concepts m_store m_ring m_ops m_beliefs m_goals].
  - apply (cinv_ext m); auto; [apply I|]. unfold stored_slots. cbn [m_concepts]. apply (Permutation_map PQueueM.address) in P5. rewrite map_map in P5. exact P5.
  - exact F1.
  - apply (Permutation_Forall (Permutation_sym P5)). rewrite Forall_map. apply Forall_forall. intros it _. cbn [PQueueM.priority]. unfold f.
    set (k := nth (PQueueM.address it) st concept0). assert (UC : (0 <= useCount (c_usage k))%Z).
    { unfold k. destruct (Nat.ltb_spec (PQueueM.address it) (length st)) as [L|L].
      - rewrite Forall_forall in F1. apply (F1 (nth (PQueueM.address it) st concept0)). apply nth_In. exact L.
      - rewrite nth_overflow by lia. cbn. lia. }
    destruct (usefulness_any (c_usage k) now UC) as [N|N].
    + unfold num_of. destruct (bool_dec _ _) as [H|H]; [congruence|]. exact u01_0.
    + rewrite num_of_val; [exact N|]. destruct N as [N _]. destruct (Usage_usefulness (c_usage k) now); auto; discriminate.
  - apply I.
  - apply I.
  - apply decay_ok; auto. apply I.
  - destruct (decay_ok strict bmax EVENT_TYPE_BELIEF (m_beliefs m) qbpos (mi_b m I)) as (_ & D & _).
    apply (pairwise_perm differ (queued (m_beliefs m))); auto using differ_sym; [apply Permutation_sym, D|apply I].
  - rewrite map_length. apply I.
  - rewrite Forall_map. pose proof (mi_g m I) as G. eapply Forall_impl; [|exact G]. intros w Hw. apply decay_ok; auto.
  - apply (pairwise_perm differ (concat (map queued (m_goals m)))); auto using differ_sym; [|apply I].
    pose proof (mi_g m I) as G. clear -G qgpos. induction G as [|w l H G IH]; cbn; [constructor|].
    apply Permutation_app; auto. apply Permutation_sym. apply (decay_ok strict gmax EVENT_TYPE_GOAL w qgpos H).
Qed.
Lemma sub_pairwise {A} (P : A -> A -> Prop) a l l' b : (forall x y, P x y -> P y x) -> shrunk l l' -> pairwise P (a ++ l ++ b) -> pairwise P (a ++ l' ++ b).
Proof. intros S H. apply shrunk_pairwise; auto. apply shrunk_app. exact H. Qed.
Lemma pop_shrunk n ty q : 0 < n -> qok n ty q -> qok n ty (fst (PopEvent q)) /\ shrunk (queued q) (queued (fst (PopEvent q))).
Proof.
  intros Hn Q. destruct (PopEvent q) as [q' r] eqn:E. destruct (pop_ok strict n ty q q' r Hn Q E) as [Q' H]. split; auto. cbn [fst].
  destruct r as [x|].
  - destruct H as [H _]. right. exists (fst x). rewrite !queued_qitems. apply (Permutation_map fst) in H. exact H.
  - destruct H as [-> _]. left. apply Permutation_refl.
Qed.
Lemma init_ok : forall m, Memory_INIT cmax buckets atoms bmax gmax layers = Ok m -> cinv m -> minv m.
Proof.
  intros m E C. unfold Memory_INIT in E. destruct (HashTableM.HashTable_INIT buckets cmax) as [h| |]; try discriminate. cbn [rbind] in E.
  destruct (InvertedAtomIndex_INIT atoms (31 * cmax)) as [x| |]; try discriminate. cbn [rbind] in E. injection E as <-.
  destruct (fresh_ok strict bmax EVENT_TYPE_BELIEF) as [B1 B2]. destruct (fresh_ok strict gmax EVENT_TYPE_GOAL) as [G1 G2].
  constructor; cbn [m_concepts m_store m_ring m_ops m_beliefs m_goals]; auto.
  - apply Forall_forall. intros k H. apply repeat_spec in H. subst k. split; [intros _; apply u01_0|]. split; [cbn; lia|]. split; [apply rng0|]. split; [discriminate|]. split; [reflexivity|apply rng0].
  - constructor.
  - exists []. apply ring0_inv.
  - rewrite queued_qitems, B2. constructor.
  - apply repeat_length.
  - apply Forall_forall. intros q H. apply repeat_spec in H. subst q. exact G1.
  - assert (Z0 : forall n, concat (map queued (repeat (fresh_events gmax) n)) = []).
    { induction n as [|n IH]; cbn [repeat map concat]; auto. }
    rewrite Z0. constructor.
Qed.
(** what is required of an operation *)
Definition gop_ok (o : mop) : Prop :=
  match o with
  | OConceptualize t _ => Tm t
  | OAdd e _ p input revised _ => Tm (e_term e) /\ su01 p /\ (strict = true -> input = true \/ revised = true \/ (1 <= Term_Complexity (e_term e)))
  | OUpdate _ f => forall k, c_term (f k) = c_term k /\ c_id (f k) = c_id k /\ (kok k -> kok (f k))
  | _ => True
  end.
Lemma step_ok fuel m o : minv m -> gop_ok o -> (match o with OPopGoal l => l < layers | OUpdate c _ => c < cmax | _ => True end) ->
  post (mstep nm powdecay penalty layers fuel m o) minv.
Proof.
  intros I H B. destruct o as [t now|e now p input revised layer|now| |l| |c f]; cbn [mstep gop_ok] in *.
  - destruct (conceptualize_ok m t now I H) as (m' & c & -> & I' & _). exact I'.
  - destruct H as (H1 & H2 & H3). apply add_event; auto. intros ST. specialize (H3 ST). destruct H3 as [H3|[H3|H3]]; auto. right. right. intros e' X. injection X as <-. exact H3.
  - apply forget_ok. exact I.
  - destruct (pop_shrunk bmax EVENT_TYPE_BELIEF (m_beliefs m) qbpos (mi_b m I)) as [Q S]. cbn [post].
    constructor; try apply I; auto; [apply (cinv_same m); auto; apply I|]. cbn [m_beliefs set_beliefs].
    apply (shrunk_pairwise differ _ _ differ_sym S). apply I.
  - destruct (nth_error (m_goals m) l) as [q|] eqn:E; [|apply nth_error_None in E; rewrite (mi_gl m I) in E; lia]. cbn [post].
    assert (QI : qok gmax EVENT_TYPE_GOAL q) by (pose proof (mi_g m I) as G; rewrite Forall_forall in G; apply G; eapply nth_error_In; eauto).
    destruct (pop_shrunk gmax EVENT_TYPE_GOAL q qgpos QI) as [Q S]. constructor; try apply I; cbn [m_goals set_goals].
    + apply (cinv_same m); auto; apply I.
    + rewrite upd_length. apply I.
    + apply upd_Forall; auto. apply I.
    + destruct (nth_split_upd _ _ _ (fst (PopEvent q)) E) as (x & y & E1 & E2 & _). rewrite E2. pose proof (mi_gd m I) as GD. rewrite E1 in GD.
      rewrite map_app, concat_app in *. cbn [map concat] in *. revert GD. apply sub_pairwise; auto using differ_sym.
  - cbn [post]. unfold ResetGoals. constructor; try apply I; cbn [m_goals set_goals].
    + apply (cinv_same m); auto; apply I.
    + rewrite map_length. apply I.
    + rewrite Forall_map. pose proof (mi_g m I) as G. eapply Forall_impl; [|exact G]. intros w Hw. apply (reset_ok strict gmax EVENT_TYPE_GOAL w Hw).
    + assert (Z0 : concat (map queued (map (fun q => mkEq (PQueueM.pq_init (PQueueM.items (eq_q q)) (PQueueM.maxElements (eq_q q))) (eq_store q)) (m_goals m))) = []).
      { induction (m_goals m) as [|w l IH]; cbn [map concat]; auto. }
      rewrite Z0. constructor.
  - apply cmod_post; auto. intros k K. destruct (H k) as (H1 & H2 & H3). auto.
Qed.
Lemma run_ok fuel os : forall m, minv m -> Forall (fun o => gop_ok o /\ match o with OPopGoal l => l < layers | OUpdate c _ => c < cmax | _ => True end) os ->
  post (mrun nm powdecay penalty layers fuel m os) minv.
Proof.
  induction os as [|o os IH]; intros m I F; cbn [mrun]; [exact I|]. inversion F as [|? ? [H1 H2] F2]; subst.
  eapply post_bind; [apply step_ok; eauto|]. intros m' I'. apply IH; auto.
Qed.
End M.
Lemma mop_gop atoms o : mop_ok atoms o -> gop_ok true (atoms_in_range atoms) o.
Proof.
  destruct o as [t now|e now p input revised layer|now| |l| |c f]; cbn [mop_ok gop_ok]; auto.
  - intros (A & B & C). split; [exact A|]. split; [intros _; exact B|intros _; exact C].
  - intros H k. destruct (H k) as (H1 & H2 & H3). split; [exact H1|]. split; [exact H2|]. intros (K1 & K2 & K3 & K4 & K5 & K6).
    destruct H3 as (A1 & A2 & A3 & A4 & A5); [repeat split; auto; apply K1; reflexivity|]. split; [intros _; exact A1|]. repeat (split; auto). rewrite H1. exact K6.
Qed.
