(** Property theorems C34, C35, C36, C54: concept memory and attention queues.  Vocabulary: MemoryS.v. *)
From Coq Require Import ZArith List Bool Permutation Reals Lra.
From Flocq Require Import IEEE754.BinarySingleNaN.
From Verif Require Import Base F64 TruthM TruthS TruthP StampM TermM TermS TermP NamesM EventM InferenceM TableM UsageM RingM StackM InvIndexM InvIndexS InvIndexP InvIndexP2 MemoryM MemoryS MemoryP UsefulP EQueueP MemoryP2 MemoryP3.
From Verif Require PQueueM PQueueP HashTableM HashTableP SubstP.
Local Open Scope nat_scope.

Lemma rng0 atoms : 0 < atoms -> atoms_in_range atoms zero_term. Proof. intros H. apply SubstP.zero_Forall. lia. Qed.
Lemma rng_extract atoms : 0 < atoms -> forall t j, atoms_in_range atoms t -> atoms_in_range atoms (Term_ExtractSubterm t j).
Proof. intros H t j. apply SubstP.extract_Forall. lia. Qed.
Lemma history_gop cmax atoms layers os : history_ok cmax atoms layers os -> Forall (fun o => gop_ok true (atoms_in_range atoms) o /\ match o with OPopGoal l => l < layers | OUpdate c _ => c < cmax | _ => True end) os.
Proof. intros F. eapply Forall_impl; [|exact F]. intros o [A B]. split; [apply mop_gop; exact A|exact B]. Qed.
Lemma init_total nm cmax buckets atoms bmax gmax layers : sizes_ok cmax buckets atoms bmax gmax layers ->
  exists m0, Memory_INIT cmax buckets atoms bmax gmax layers = Ok m0 /\ minv true nm cmax atoms bmax gmax layers (atoms_in_range atoms) m0.
Proof.
  intros (P1 & P2 & P3 & P4 & P5 & P6).
  destruct (@HashTableP.init_ok term nat term_eqb atoms_hash buckets cmax P2) as (h & Bs & free & E1 & H1 & H2 & H3).
  destruct (InvIndexP2.init_ok atoms (31 * cmax)) as (x & E2 & R1 & L1).
  assert (E : Memory_INIT cmax buckets atoms bmax gmax layers = Ok (mkMem (PQueueM.pq_init (fresh_items cmax) cmax) (repeat concept0 cmax) h x 0 ring0
        (fresh_events bmax) (repeat (fresh_events gmax) layers) (repeat op0 OPERATIONS_MAX) false)).
  { unfold Memory_INIT. rewrite E1. cbn [rbind]. rewrite E2. reflexivity. }
  rewrite E. eexists. split; [reflexivity|]. apply (MemoryP2.init_ok true nm (fun _ => f1) cmax buckets atoms bmax gmax layers P1 P2 P4 P5 P6 P3 (fun _ n _ => u01_1) (atoms_in_range atoms) (rng0 _ P3) (rng_extract _ P3) _ E).
  constructor; cbn [m_concepts m_store m_table m_index m_nextid].
  - apply (fresh_ok true cmax EVENT_TYPE_BELIEF).
  - apply repeat_length.
  - exists [], Bs, free. split; auto. split; auto. split; [constructor|]. split; auto. split; [reflexivity|]. intros t c; split; intros [].
  - exists (repeat [] atoms). split; auto. split; [|split; [apply repeat_length|auto]].
    intros b l Hb. apply nth_error_In in Hb. apply repeat_spec in Hb. subst l. split; [constructor|]. intros c; split; [intros []|].
    intros (t & a & [] & _).
  - intros c t [].
  - intros c k [[] _].
  - intros c k d k' [[] _].
Qed.
Lemma reachable_inv nm pd pen cmax buckets atoms bmax gmax layers m : sizes_ok cmax buckets atoms bmax gmax layers -> penalty_ok pen ->
  reachable nm pd pen cmax buckets atoms bmax gmax layers m -> minv true nm cmax atoms bmax gmax layers (atoms_in_range atoms) m.
Proof.
  intros S PEN (m0 & fuel & os & E & F & R). destruct (init_total nm _ _ _ _ _ _ S) as (m1 & E1 & I). rewrite E in E1. injection E1 as <-.
  destruct S as (P1 & P2 & P3 & P4 & P5 & P6).
  pose proof (run_ok true nm pd pen cmax buckets atoms bmax gmax layers P1 P2 P4 P5 P6 P3 (fun _ => PEN) _ (rng0 _ P3) (rng_extract _ P3) (fun t H => H) fuel os m0 I (history_gop _ _ _ _ F)) as X. rewrite R in X. exact X.
Qed.

Section Props.
Variable nm : names.
Variable powdecay : Z -> f64.
Variable penalty : nat -> f64.
Variables cmax buckets atoms bmax gmax layers : nat.
Notation Sizes := (sizes_ok cmax buckets atoms bmax gmax layers).
Notation Reach m := (reachable nm powdecay penalty cmax buckets atoms bmax gmax layers m).

(** C34: after any history. *)
Theorem C34_memory_is_consistent : forall m, Sizes -> penalty_ok penalty -> Reach m ->
  (forall t, exists r, FindConceptByTerm m t = Ok r /\ forall c, r = Some c <-> exists k, stores m c k /\ c_term k = t) /\
  (forall c k d k', stores m c k -> stores m d k' -> c_term k = c_term k' -> c = d) /\
  (forall c k d k', stores m c k -> stores m d k' -> c_id k = c_id k' -> c = d) /\
  NoDup (stored_slots m) /\ concept_count m <= cmax /\ (forall c, In c (stored_slots m) -> exists k, stores m c k) /\
  (forall a, (0 <= a < Z.of_nat atoms)%Z -> exists l, concepts_under (m_index m) a = Ok l /\ NoDup l /\
     forall c, In c l <-> IsSimpleAtom nm a = true /\ exists k, stores m c k /\ In a (firstn 31 (c_term k))).
Proof. intros m S PEN R. pose proof S as (P1 & P2 & P3 & P4 & P5 & P6). apply (cinv_consistent nm cmax buckets atoms bmax gmax layers (fun _ => True) P1 P2 P4 P5 m). apply (mi_c true nm cmax atoms bmax gmax layers (atoms_in_range atoms)). eapply reachable_inv; eauto. Qed.
(** ... and no operation of such a history touches memory it should not (it returns, or stops the
    program with an assertion message). *)
Theorem C34_memory_is_safe : forall fuel os, Sizes -> penalty_ok penalty -> history_ok cmax atoms layers os ->
  exists m0, Memory_INIT cmax buckets atoms bmax gmax layers = Ok m0 /\ mrun nm powdecay penalty layers fuel m0 os <> UB.
Proof.
  intros fuel os S PEN F. destruct (init_total nm _ _ _ _ _ _ S) as (m0 & E & I). exists m0. split; auto.
  destruct S as (P1 & P2 & P3 & P4 & P5 & P6).
  pose proof (run_ok true nm powdecay penalty cmax buckets atoms bmax gmax layers P1 P2 P4 P5 P6 P3 (fun _ => PEN) _ (rng0 _ P3) (rng_extract _ P3) (fun t H => H) fuel os m0 I (history_gop _ _ _ _ F)) as X.
  intros U. rewrite U in X. discriminate X.
Qed.

(** C35: conceptualising a term. *)
Theorem C35_one_least_useful_concept_is_evicted : forall m t now, Sizes -> penalty_ok penalty -> Reach m -> atoms_in_range atoms t ->
  exists m' c, Conceptualize nm m t now = Ok (m', Some c) /\ FindConceptByTerm m' t = Ok (Some c) /\
  (* it was already stored *)
  ((exists k, stores m c k /\ c_term k = t) /\ m' = m \/
  (* or a fresh concept is stored in addition *)
   ((forall d k, stores m d k -> c_term k <> t) /\ concept_count m < cmax /\ concept_count m' = S (concept_count m) /\
    exists new, fresh_concept new t now /\ (forall d k, stores m' d k <-> (d = c /\ k = new) \/ stores m d k)) \/
  (* or it replaces exactly one concept, of lowest priority; only that one is not found any more *)
   ((forall d k, stores m d k -> c_term k <> t) /\ concept_count m = cmax /\ concept_count m' = cmax /\
    exists new old p, fresh_concept new t now /\ stores m c old /\ has_priority m c p /\
      (forall d q, has_priority m d q -> num_ltb q p = false) /\
      (forall d k, stores m' d k <-> (d = c /\ k = new) \/ (d <> c /\ stores m d k)) /\
      (c_term old <> t -> FindConceptByTerm m' (c_term old) = Ok None) /\
      (forall a, (0 <= a < Z.of_nat atoms)%Z -> exists l, concepts_under (m_index m') a = Ok l /\
         (In c l <-> IsSimpleAtom nm a = true /\ In a (firstn 31 t))))).
Proof.
  intros m t now S PEN R HT. pose proof S as (P1 & P2 & P3 & P4 & P5 & P6).
  exact (conceptualised_ok true nm powdecay penalty cmax buckets atoms bmax gmax layers (atoms_in_range atoms) S (fun _ => PEN) (rng0 _ P3) (rng_extract _ P3) (fun t H => H) m t now (reachable_inv _ _ _ _ _ _ _ _ _ m S PEN R) HT).
Qed.

(** C36: the attention queues after any history. *)
Theorem C36_attention_queues : forall m, Sizes -> penalty_ok penalty -> Reach m ->
  (* bounded *)
  length (queued (m_beliefs m)) <= bmax /\ length (m_goals m) = layers /\ (forall q, In q (m_goals m) -> length (queued q) <= gmax) /\
  (* no event twice; goals in no two layers *)
  no_duplicates (queued (m_beliefs m)) /\ no_duplicates (concat (map queued (m_goals m))) /\
  (* beliefs and goals, of sufficient confidence *)
  (forall e, In e (queued (m_beliefs m)) -> e_type e = EVENT_TYPE_BELIEF /\ fltb (confidence (e_truth e)) (fdec 1 100) = false) /\
  (forall q e, In q (m_goals m) -> In e (queued q) -> e_type e = EVENT_TYPE_GOAL /\ fltb (confidence (e_truth e)) (fdec 1 100) = false).
Proof. intros m S PEN R. pose proof S as (P1 & P2 & P3 & P4 & P5 & P6). apply (inv_queues true nm cmax buckets atoms bmax gmax layers (atoms_in_range atoms) P1 P2 P4 P5 m). eapply reachable_inv; eauto. Qed.
(** Selecting an event takes out one of highest priority and nothing else. *)
Theorem C36_selection_takes_the_best : forall m q, Sizes -> penalty_ok penalty -> Reach m -> q = m_beliefs m \/ In q (m_goals m) ->
  match PopEvent q with
  | (q', None) => q' = q /\ qitems q = []
  | (q', Some (e, p)) => Permutation (qitems q) ((e, p) :: qitems q') /\ forall e' p', In (e', p') (qitems q) -> num_ltb p p' = false
  end.
Proof. intros m q S PEN R HQ. pose proof S as (P1 & P2 & P3 & P4 & P5 & P6). apply (inv_selection true nm cmax atoms bmax gmax layers (atoms_in_range atoms) P4 P5 m q); auto. eapply reachable_inv; eauto. Qed.
(** Events of too low confidence or no priority are ignored altogether. *)
Theorem C36_weak_events_are_ignored : forall fuel m e now p input revised layer, Sizes -> penalty_ok penalty -> Reach m ->
  fltb (confidence (e_truth e)) (fdec 1 100) = true \/ (fleb p f0 = true /\ (input = true \/ revised = true)) ->
  AddEvent nm powdecay penalty layers (S fuel) m (EVal e) now p input revised layer = Ok m.
Proof.
  intros fuel m e now p input revised layer S PEN R H. pose proof (reachable_inv _ _ _ _ _ _ _ _ _ m S PEN R) as I.
  cbn [AddEvent ev rbind]. set (unknown := if m_restricted m && _ && _ then _ else _).
  assert (U : exists b, unknown = Ok b).
  { unfold unknown. destruct (_ && _); [|eauto]. destruct (find_ok nm cmax atoms m (e_term e) (mi_c _ _ _ _ _ _ _ _ m I)) as (f & -> & _). cbn [rbind]. eauto. }
  destruct U as (b & ->). cbn [rbind]. destruct b; auto. cbv zeta. change (MIN_CONFIDENCE f64A) with (fdec 1 100).
  destruct H as [->|[H1 H2]]; [reflexivity|]. replace (negb revised && negb input) with false by (destruct H2 as [-> | ->]; rewrite ?andb_false_r; reflexivity).
  rewrite H1, orb_true_r. reflexivity.
Qed.

(** C54: all priorities are numbers in [0,1]; queued events have positive priority. *)
Theorem C54_priorities_stay_in_range : forall m, Sizes -> penalty_ok penalty -> Reach m ->
  (forall c k, stores m c k -> u01 (c_priority k)) /\
  (forall c p, has_priority m c p -> u01 (proj1_sig p)) /\
  (forall q e p, q = m_beliefs m \/ In q (m_goals m) -> In (e, p) (qitems q) -> u01 (proj1_sig p) /\ (0 < val (proj1_sig p))%R).
Proof.
  intros m S PEN R. pose proof (reachable_inv _ _ _ _ _ _ _ _ _ m S PEN R) as I. split; [|split].
  - intros c k [_ H]. pose proof (mi_k _ _ _ _ _ _ _ _ m I) as F. rewrite Forall_forall in F. apply (F k); auto. eapply nth_error_In; eauto.
  - intros c p H. pose proof (mi_p _ _ _ _ _ _ _ _ m I) as F. rewrite Forall_forall in F. apply (F _ H).
  - intros q e p HQ H. assert (X : exists n ty, qok true n ty q).
    { destruct HQ as [->|HQ]; [exists bmax, EVENT_TYPE_BELIEF; apply I|]. exists gmax, EVENT_TYPE_GOAL.
      pose proof (mi_g _ _ _ _ _ _ _ _ m I) as G. rewrite Forall_forall in G. auto. }
    destruct X as (n & ty & Q). pose proof (qo_items _ _ _ _ Q) as F. rewrite Forall_forall in F. destruct (F _ H) as (_ & _ & F0). destruct (F0 eq_refl) as (F1 & F2 & F3).
    cbn [snd] in *. split; [split; [exact F1|]; split; [apply Rlt_le, F2|exact F3]|exact F2].
Qed.
End Props.
Print Assumptions C34_memory_is_consistent.
Print Assumptions C34_memory_is_safe.
Print Assumptions C35_one_least_useful_concept_is_evicted.
Print Assumptions C36_attention_queues.
Print Assumptions C36_selection_takes_the_best.
Print Assumptions C36_weak_events_are_ignored.
Print Assumptions C54_priorities_stay_in_range.

(** *** Examples: a memory of two concepts, 100 atoms, queues of 2 beliefs and 2 goals, 2 layers *)
Definition ex_pow (_ : Z) : f64 := f1.
Definition ex_pen (_ : nat) : f64 := aconst f64A 1 1.
Lemma ex_pen_ok : penalty_ok ex_pen.
Proof. intros n _. apply const_u01_1. Qed.
Lemma ex_sizes : sizes_ok 2 3 100 2 2 2.
Proof. unfold sizes_ok. lia. Qed.
Definition ex_names : names := init_list ++ [[97]; [98]; [99]; [100]; [94; 111; 112]]%Z.
Definition ex_event (ty : Z) (t : term) (cn id occ : Z) : event :=
  mkEvent t ty (tr64 1 1 cn 1000) (id :: repeat 0%Z 9) occ f0 false occ true.
Definition A_ : term := mk_term [64%Z].
Definition B_ : term := mk_term [65%Z].
Definition C_ : term := mk_term [66%Z].
(** a. and b. as events at 1, 2, forgetting in between, then the goal a! twice and the event c. *)
Definition ex_history : list mop :=
  [OAdd (ex_event EVENT_TYPE_BELIEF A_ 900 1 1) 1 f1 true false 0; OForget 1;
   OAdd (ex_event EVENT_TYPE_BELIEF B_ 900 2 2) 2 f1 true false 0;
   OConceptualize A_ 3; OForget 20000;
   OAdd (ex_event EVENT_TYPE_GOAL A_ 900 3 20000) 20000 f1 true false 0;
   OAdd (ex_event EVENT_TYPE_GOAL A_ 900 3 20000) 20000 f1 true false 0;
   OAdd (ex_event EVENT_TYPE_GOAL B_ 1 4 20000) 20000 f1 true false 0].
Ltac u01_const := change f1 with (aconst f64A 1 1); apply const_u01_1.
Lemma ex_range t : forallb (fun a => (0 <=? a)%Z && (a <? 100)%Z) t = true -> atoms_in_range 100 t.
Proof.
  intros H. apply Forall_forall. intros a Ha. rewrite forallb_forall in H. specialize (H a Ha). apply andb_prop in H as [H1 H2].
  apply Z.leb_le in H1. apply Z.ltb_lt in H2. change (Z.of_nat 100) with 100%Z. auto.
Qed.
Definition ex_run (os : list mop) : res memory := do m0 <- Memory_INIT 2 3 100 2 2 2 ; mrun ex_names ex_pow ex_pen 2 9 m0 os.
(** first atom, id and use count per slot; number of beliefs; number of goals per layer *)
Definition ex_view (m : memory) : list (Z * Z * Z) * nat * list nat :=
  (map (fun k => (hd 0%Z (c_term k), c_id k, useCount (c_usage k))) (m_store m), length (queued (m_beliefs m)), map (fun q => length (queued q)) (m_goals m)).
Definition ex_summary (os : list mop) := match ex_run os with Ok m => Some (ex_view m) | _ => None end.
Lemma ex_add_ok ty t cn id occ now layer : forallb (fun a => (0 <=? a)%Z && (a <? 100)%Z) t = true ->
  mop_ok 100 (OAdd (ex_event ty t cn id occ) now f1 true false layer) /\ in_bounds 2 2 (OAdd (ex_event ty t cn id occ) now f1 true false layer).
Proof. intros H. split; [|exact I]. split; [apply ex_range; exact H|]. split; [apply const_u01_1|]. left. reflexivity. Qed.
Lemma ex_history_ok : history_ok 2 100 2 ex_history.
Proof.
  unfold history_ok, ex_history.
  repeat match goal with
  | |- Forall _ [] => apply Forall_nil
  | |- Forall _ (_ :: _) => apply Forall_cons
  | |- _ (OAdd _ _ _ _ _ _) /\ _ => apply ex_add_ok; vm_compute; reflexivity
  | |- _ => split; [|exact I]; (exact I || (apply ex_range; vm_compute; reflexivity))
  end.
Qed.
Lemma rbind_inv {A B} (r : res A) (f : A -> res B) b : rbind r f = Ok b -> exists a, r = Ok a /\ f a = Ok b.
Proof. destruct r; cbn; intros H; [eauto|discriminate|discriminate]. Qed.
Lemma ex_reachable os m : history_ok 2 100 2 os -> ex_run os = Ok m -> reachable ex_names ex_pow ex_pen 2 3 100 2 2 2 m.
Proof.
  intros H R. destruct (rbind_inv _ _ _ R) as (m0 & E & R'). exists m0, 9, os. split; [exact E|]. split; [exact H|exact R'].
Qed.
(** the hypotheses of C34, C35, C36 and C54 are met by a full memory with queued beliefs and a
    goal (the second, equal goal and the weak one were dropped); a new concept then evicts a *)
Lemma ex_summary_ok os v : ex_summary os = Some v -> exists m, ex_run os = Ok m /\ ex_view m = v.
Proof. unfold ex_summary. destruct (ex_run os) as [m| |]; intros H; [|discriminate|discriminate]. exists m. split; [reflexivity|]. injection H as H. exact H. Qed.
Example C34_example : exists m, ex_run ex_history = Ok m /\ reachable ex_names ex_pow ex_pen 2 3 100 2 2 2 m /\
  ex_view m = ([(64, 0, 2); (65, 1, 2)]%Z, 2, [0; 1]).
Proof.
  destruct (ex_summary_ok ex_history ([(64, 0, 2); (65, 1, 2)]%Z, 2, [0; 1])) as (m & E & V); [vm_cast_no_check (eq_refl (Some ([(64, 0, 2); (65, 1, 2)]%Z, 2, [0; 1])))|].
  exists m. split; [exact E|]. split; [exact (ex_reachable ex_history m ex_history_ok E)|exact V].
Qed.
Example C35_example : ex_summary (ex_history ++ [OConceptualize C_ 20000]) = Some ([(66, 2, 1); (65, 1, 2)]%Z, 2, [0; 1]).
Proof. vm_compute. reflexivity. Qed.
