(** What happens to events given to the memory: admission to the attention queues (C36), what the
    concepts remember (C64).  Vocabulary: AddS.v, MemoryS.v, SysS.v. *)
From Coq Require Import ZArith List Bool String Lia Permutation.
From Flocq Require Import IEEE754.BinarySingleNaN.
From Verif Require Import Base F64 TruthM StampM TermM TermP NamesM AtomsM AtomsS RulesM EventM InferenceM UsageM TableM TableS MemoryM MemoryS TruthS TermS VariableM MemoryP2 MemoryP3 QuestionM DecisionM CycleM CycleS EverywhereP CycleP2 ShellM ShellS SysS SysP SysP2 AddS AddP AddP2.
From Verif Require Import PropsMemory PropsQuestion PropsSys.
From Verif Require PQueueM.
Import ListNotations.
Local Open Scope nat_scope.
Lemma no_penalty (pen : nat -> f64) : false = true -> penalty_ok pen. Proof. discriminate. Qed.

Section Lives.
Variables cmax buckets atoms bmax gmax layers : nat.
Notation Sizes := (sizes_ok cmax buckets atoms bmax gmax layers).
Notation Lives := (lives cmax buckets atoms bmax gmax layers).
(** C36: at any time of a life, an event that the memory was told before is not queued again; any
    other belief joins the queue of beliefs, any other goal the queue of the layer below the one it
    was derived in, or is dropped because the queue is full of events of higher priority; nothing
    else changes. *)
Theorem C36_admission : forall nm s e p layer, Sizes -> 64 <= atoms -> Lives nm s -> is_nan p = false ->
  e_type e = EVENT_TYPE_BELIEF \/ e_type e = EVENT_TYPE_GOAL -> let m := s_mem s in
  (told_before m e -> addCyclingEvent layers m (EVal e) p layer = Ok (m, false)) /\
  (~ told_before m e -> e_type e = EVENT_TYPE_BELIEF -> exists q' joined,
     addCyclingEvent layers m (EVal e) p layer = Ok (set_beliefs m q', joined) /\ joins bmax (m_beliefs m) e (num_of p) q' joined) /\
  (~ told_before m e -> e_type e = EVENT_TYPE_GOAL -> let l := Nat.min (layers - 1) (layer + 1) in exists q q' joined,
     nth_error (m_goals m) l = Some q /\
     addCyclingEvent layers m (EVal e) p layer = Ok (set_goals m (upd (m_goals m) l q'), joined) /\ joins gmax q e (num_of p) q' joined).
Proof.
  intros nm s e p layer S A L NP TY m. destruct (lives_inv _ _ _ _ _ _ S A nm s L) as (N & I).
  exact (admission false nm (fun _ => f1) (fun _ => f1) cmax buckets atoms bmax gmax layers S (no_penalty _) (known atoms nm) (known_ext atoms A nm N) m e p layer (iv_j _ _ _ I) NP TY).
Qed.
(** C64: at any time, a belief that is accepted and is not an implication is then remembered by the
    concept of its statement -- as event if it is of the present or past, as prediction if it is of
    the future, and as timeless belief, each combined with what was remembered before -- and all
    other concepts are as they were (one of them may have been forgotten: C35). *)
Theorem C64_statement_is_remembered : forall nm s e now p input revised layer powdecay penalty fuel m', Sizes -> 64 <= atoms -> Lives nm s ->
  known atoms nm (e_term e) -> e_type e = EVENT_TYPE_BELIEF -> no_implication nm (e_term e) -> hd 0%Z (e_stamp e) <> 0%Z ->
  (forall c k, stores (s_mem s) c k -> c_term k = e_term e -> stamp_wf (e_stamp (c_belief k))) ->
  accepted (s_mem s) e (entry_priority penalty e p input revised) input ->
  AddEvent nm powdecay penalty layers fuel (s_mem s) (EVal e) now p input revised layer = Ok m' ->
  exists c k0 k, concept_for (s_mem s) (e_term e) now c k0 /\ stores m' c k /\
    remembers nm powdecay now (entry_priority penalty e p input revised) e k0 k /\
    forall d x, d <> c -> stores m' d x -> stores (s_mem s) d x.
Proof.
  intros nm s e now p input revised layer pd pen fuel m' S A L K TY NI HS WF AC E. destruct (lives_inv _ _ _ _ _ _ S A nm s L) as (N & I).
  exact (add_val nm pd pen cmax buckets atoms bmax gmax layers S (known atoms nm) (known0 atoms A nm N) (known_ext atoms A nm N) (known_rng atoms A nm N)
    fuel (s_mem s) e now p input revised layer m' (iv_j _ _ _ I) K TY NI HS WF AC E).
Qed.
(** C64: at any time, an accepted belief <a =/> b> or <(a &/ op) =/> b> becomes a link of the concept
    of b, in the table of the operation, from the concept of a -- provided that the concept of b is
    not forgotten at once to make room for the concept of a ([_partial]: it may be, see
    C64_link_refuted), which it is not if there is room for two new concepts or both are there. *)
Theorem C64_link_is_stored_partial : forall nm s e now p input revised layer powdecay penalty fuel m' opi a, Sizes -> 64 <= atoms -> Lives nm s ->
  known atoms nm (e_term e) -> e_type e = EVENT_TYPE_BELIEF ->
  copulaEquals nm (at_ (e_term e) 0) TEMPORAL_IMPLICATION = true -> copulaEquals nm (at_ (e_term e) 0) IMPLICATION = false ->
  fltb (confidence (e_truth e)) (fdec 1 100) = false -> fleb (entry_priority penalty e p input revised) f0 = false ->
  kept_under nm (s_mem s) (Term_ExtractSubterm (e_term e) 1) opi a ->
  AddEvent nm powdecay penalty layers fuel (s_mem s) (EVal e) now p input revised layer = Ok m' ->
  let b := Term_ExtractSubterm (e_term e) 2 in
  ((exists c k, stores m' c k /\ c_term k = b) -> linked now (s_mem s) m' b a opi e) /\
  (concept_count (s_mem s) + 2 <= cmax \/
   (exists c k, stores (s_mem s) c k /\ c_term k = b) /\ (exists c k, stores (s_mem s) c k /\ c_term k = a) -> exists c k, stores m' c k /\ c_term k = b).
Proof.
  intros nm s e now p input revised layer pd pen fuel m' opi a S A L K TY T1 T2 HC HP KU E. destruct (lives_inv _ _ _ _ _ _ S A nm s L) as (N & I).
  exact (add_link_val nm pd pen cmax buckets atoms bmax gmax layers S (known atoms nm) (known0 atoms A nm N) (known_ext atoms A nm N) (known_rng atoms A nm N)
    fuel (s_mem s) e now p input revised layer m' (iv_j _ _ _ I) K TY T1 T2 HC HP opi a KU E).
Qed.
(** The strength of the link from a to b, where it is asked for, is the truth of the link <a =/> b>
    kept (under no operation) by the concept of b; without one it is {0 0}. *)
Theorem C64_link_strength : forall nm s a b v, Sizes -> 64 <= atoms -> Lives nm s -> getTemporalLinkTruth (s_mem s) a b = Ok v ->
  let kept i := exists c k tb, stores (s_mem s) c k /\ c_term k = b /\ nth_error (c_pre k) 0 = Some tb /\ In i (entries tb) /\
    Term_ExtractSubterm (i_term i) 1 = a in
  (exists i, kept i /\ Term_ExtractSubterm (i_term i) 2 = b /\ v = i_truth i) \/ (forall i, ~ kept i) /\ v = @mkTruth f64A f0 f0.
Proof.
  intros nm s a b v S A L E kept. destruct (lives_inv _ _ _ _ _ _ S A nm s L) as (N & I). pose proof (iv_j _ _ _ I) as J.
  unfold getTemporalLinkTruth in E. destruct (find_stores false nm cmax buckets atoms bmax gmax layers S (known atoms nm) (s_mem s) b J) as (r & F & H). rewrite F in E. cbn [rbind] in E.
  destruct r as [c|].
  - destruct (proj1 (H c) eq_refl) as (k & SK & TK). unfold cread in E. rewrite (proj2 SK) in E. cbn [rbind] in E. destruct (nth_error (c_pre k) 0) as [tb|] eqn:NT; [|discriminate].
    assert (X : (exists i, In i (entries tb) /\ Term_ExtractSubterm (i_term i) 1 = a /\ Term_ExtractSubterm (i_term i) 2 = b /\ v = i_truth i) \/
      (forall i, In i (entries tb) -> Term_ExtractSubterm (i_term i) 1 <> a) /\ v = truth0).
    { unfold entries. revert E. generalize (firstn (t_items tb) (t_array tb)). induction l as [|i l IH]; cbn [link_loop].
      - intros X. injection X as <-. right. split; [intros i []|auto].
      - destruct (term_eqb (Term_ExtractSubterm (i_term i) 2) b) eqn:Q; cbn [rassert rbind]; [|discriminate]. apply term_eqb_spec in Q.
        destruct (term_eqb (Term_ExtractSubterm (i_term i) 1) a) eqn:Q1.
        + apply term_eqb_spec in Q1. intros X. injection X as <-. left. exists i. split; [left; auto|]. auto.
        + intros X. destruct (IH X) as [(j & J1 & J2)|[J1 J2]]; [left; exists j; split; [right; auto|auto]|right; split; auto].
          intros j [<-|HJ]; auto. intros Q2. apply term_eqb_spec in Q2. congruence. }
    destruct X as [(i & X1 & X2 & X3 & X4)|[X1 X2]].
    + left. exists i. split; auto. exists c, k, tb. auto.
    + right. split; auto. intros i (c' & k' & tb' & Y1 & Y2 & Y3 & Y4 & Y5). assert (c' = c) as ->.
      { assert (Z : Some c = Some c') by (apply H; eauto). congruence. }
      assert (k' = k) as -> by (eapply stores_uniq; eauto). assert (tb' = tb) as -> by congruence. apply (X1 i); auto.
  - right. injection E as <-. split; auto. intros i (c' & k' & tb' & Y1 & Y2 & _). assert (Z : @None nat = Some c') by (apply H; eauto). discriminate.
Qed.
End Lives.
Print Assumptions C36_admission.
Print Assumptions C64_statement_is_remembered.
Print Assumptions C64_link_is_stored_partial.
Print Assumptions C64_link_strength.

(** *** examples *)
Definition bel (t : term) (id occ : Z) : event := mkEvent t EVENT_TYPE_BELIEF (tr64 1 1 900 1000) (id :: repeat 0%Z 9) occ f0 false 1 true.
Definition tell (m : memory) (e : event) : res memory := AddEvent qn qpow ex_pen 2 9 m (EVal e) 1 f1 true false 0.
Definition born (n : nat) : res memory := Memory_INIT n 4 200 2 2 2.
(** a reasoner with ten operations that has just been started *)
Definition newborn (m : memory) : cstate := configured (cstate0 m 1) qops (m_restricted m) 1 (mkIds 1 stamp_zero).
Lemma newborn_lives n m : born n = Ok m -> lives n 4 200 2 2 2 qn (newborn m) /\ s_mem (newborn m) = with_ops m.
Proof.
  intros E. split; [|reflexivity]. apply lv_config; [apply lv_names; apply (lv_start _ _ _ _ _ _ m 1 E)|]. split; [reflexivity|].
  assert (K : forall t, forallb (fun a => (0 <=? a)%Z && (a <=? 76)%Z) t = true -> known 200 qn t).
  { intros t H. apply Forall_forall. intros a Ha. rewrite forallb_forall in H. specialize (H a Ha). apply andb_prop in H as [H1 H2]. apply Z.leb_le in H1, H2.
    change (Z.of_nat (List.length qn)) with 76%Z. change (Z.of_nat 200) with 200%Z. lia. }
  apply Forall_forall. intros o H. unfold qops in H. apply in_map_iff in H as (i & <- & H). apply in_seq in H. cbn [op_term op_args]. split.
  - apply K. do 10 (destruct i as [|i]; [vm_compute; reflexivity|]). lia.
  - apply (Forall_repeat _ zero_term 10). apply K. vm_compute. reflexivity.
Qed.
Lemma qn_known t : forallb (fun a => (0 <=? a)%Z && (a <=? 76)%Z) t = true -> known 200 qn t.
Proof.
  intros H. apply Forall_forall. intros a Ha. rewrite forallb_forall in H. specialize (H a Ha). apply andb_prop in H as [H1 H2]. apply Z.leb_le in H1, H2.
  change (Z.of_nat (List.length qn)) with 76%Z. change (Z.of_nat 200) with 200%Z. lia.
Qed.
(** <a --> c>. told to it meets the hypotheses of C64_statement_is_remembered *)
Example C64_example : exists s m', lives 4 4 200 2 2 2 qn s /\ let e := bel (EVT 64) 1 1 in
  known 200 qn (e_term e) /\ no_implication qn (e_term e) /\ hd 0%Z (e_stamp e) <> 0%Z /\
  (forall c k, stores (s_mem s) c k -> c_term k = e_term e -> stamp_wf (e_stamp (c_belief k))) /\
  accepted (s_mem s) e (entry_priority ex_pen e f1 true false) true /\ tell (s_mem s) e = Ok m' /\ (concept_count m' =? 1) = true.
Proof.
  destruct (res_ex' (do m <- born 4 ; do m' <- tell (with_ops m) (bel (EVT 64) 1 1) ; Ok (m, m')) (fun '(m, m') => (concept_count (with_ops m) =? 0) && (concept_count m' =? 1))) as ((m & m') & E & H); [vm_compute; reflexivity|].
  apply rbind_inv in E as (m0 & E1 & E). apply rbind_inv in E as (m1 & E2 & E). injection E as -> ->. apply andb_prop in H as [H1 H2].
  exists (newborn m), m'. split; [apply newborn_lives; exact E1|]. rewrite (proj2 (newborn_lives 4 m E1)). cbv zeta.
  split; [apply qn_known; vm_compute; reflexivity|]. split; [split; vm_compute; reflexivity|]. split; [discriminate|].
  split; [intros c k [X _]; apply Nat.eqb_eq in H1; unfold concept_count, stored_slots in *; destruct (map _ _); [destruct X|discriminate H1]|].
  split; [split; [vm_compute; reflexivity|split; [vm_compute; reflexivity|intros _ X; discriminate X]]|]. split; [exact E2|exact H2].
Qed.
(** <(a &/ ^o8) =/> b>. told to it meets those of C64_link_is_stored_partial: the table of ^o8 (9) of b *)
Example C64_link_example : exists s m', lives 4 4 200 2 2 2 qn s /\ let e := bel RULE9 1 (-1) in
  known 200 qn (e_term e) /\ copulaEquals qn (at_ (e_term e) 0) TEMPORAL_IMPLICATION = true /\ copulaEquals qn (at_ (e_term e) 0) IMPLICATION = false /\
  fltb (confidence (e_truth e)) (fdec 1 100) = false /\ fleb (entry_priority ex_pen e f1 true false) f0 = false /\
  kept_under qn (s_mem s) (Term_ExtractSubterm (e_term e) 1) 9 (atomic_term 64) /\
  concept_count (s_mem s) + 2 <= 4 /\ tell (s_mem s) e = Ok m'.
Proof.
  destruct (res_ex' (do m <- born 4 ; do m' <- tell (with_ops m) (bel RULE9 1 (-1)) ; Ok (m, m')) (fun '(m, m') => (concept_count (with_ops m) =? 0) && (getOperationID qn (with_ops m) (Term_ExtractSubterm (Term_ExtractSubterm RULE9 1) 2) =? 9))) as ((m & m') & E & H); [vm_compute; reflexivity|].
  apply rbind_inv in E as (m0 & E1 & E). apply rbind_inv in E as (m1 & E2 & E). injection E as -> ->. apply andb_prop in H as [H1 H2]. apply Nat.eqb_eq in H1, H2.
  exists (newborn m), m'. split; [apply newborn_lives; exact E1|]. rewrite (proj2 (newborn_lives 4 m E1)). cbv zeta.
  split; [apply qn_known; vm_compute; reflexivity|]. split; [vm_compute; reflexivity|]. split; [vm_compute; reflexivity|]. split; [vm_compute; reflexivity|]. split; [vm_compute; reflexivity|].
  split; [|split; [rewrite H1; lia|exact E2]].
  assert (P : GetPreconditionWithoutOp qn (Term_ExtractSubterm (e_term (bel RULE9 1 (-1))) 1) = atomic_term 64) by (vm_compute; reflexivity). rewrite <- P, <- H2. apply ku_op; vm_compute; reflexivity.
Qed.
(** When the memory is full, making room for the concept of a may forget the concept of b, just
    made: the program then writes the link into the concept that took its place, that of a.  Here:
    room for two concepts, <a --> c>. and then <a =/> b>. *)
Definition NOOP : term := mk_term [copula_index TEMPORAL_IMPLICATION; 64; 65]%Z.
Theorem C64_link_refuted : exists m m' k tb i, (do m <- born 2 ; tell (with_ops m) (bel (EVT 64) 1 (-1))) = Ok m /\ tell m (bel NOOP 2 (-1)) = Ok m' /\
  FindConceptByTerm m' (atomic_term 65) = Ok None /\ FindConceptByTerm m' (atomic_term 64) = Ok (Some 1) /\
  nth_error (m_store m') 1 = Some k /\ nth_error (c_pre k) 0 = Some tb /\ entries tb = [i] /\ i_term i = NOOP.
Proof.
  destruct (res_ex' (do m <- (do m <- born 2 ; tell (with_ops m) (bel (EVT 64) 1 (-1))) ; do m' <- tell m (bel NOOP 2 (-1)) ; do fb <- FindConceptByTerm m' (atomic_term 65) ; do fa <- FindConceptByTerm m' (atomic_term 64) ; Ok (m, m', fb, fa))
    (fun '(m, m', fb, fa) => match fb, fa, nth_error (m_store m') 1 with None, Some 1, Some k => match nth_error (c_pre k) 0 with Some tb => match entries tb with [i] => term_eqb (i_term i) NOOP | _ => false end | _ => false end | _, _, _ => false end))
    as ((((m & m') & fb) & fa) & E & H); [vm_compute; reflexivity|].
  apply rbind_inv in E as (m0 & E1 & E). apply rbind_inv in E as (m1 & E2 & E). apply rbind_inv in E as (f1 & E3 & E). apply rbind_inv in E as (f2 & E4 & E). injection E as -> -> -> ->.
  destruct fb; [discriminate H|]. destruct fa as [[|[|?]]|]; try discriminate H. destruct (nth_error (m_store m') 1) as [k|] eqn:E5; [|discriminate H]. destruct (nth_error (c_pre k) 0) as [tb|] eqn:E6; [|discriminate H].
  destruct (entries tb) as [|i [|? ?]] eqn:E7; try discriminate H. apply term_eqb_spec in H. exists m, m', k, tb, i.
  split; [exact E1|]. split; [exact E2|]. split; [exact E3|]. split; [exact E4|]. split; [exact E5|]. split; [exact E6|]. split; [exact E7|exact H].
Qed.
Print Assumptions C64_link_refuted.
