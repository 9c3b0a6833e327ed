(** C69: a selected belief event reaches every concept it concerns, is related to what was the case
    shortly before, and measurements are compared. *)
From Coq Require Import ZArith List Bool Lia Relation_Operators String.
From Verif Require Import Base F64 HashM TruthM StampM TermM TermS TermP NamesM AtomsM EventM InferenceM UsageM TableM RingM VariableM MemoryM MemoryS QuestionM DecisionM DecisionP CycleM CycleS SeqS SeqP AddS LearnS LearnP2.
From Verif Require Import SysS ShapeP1 ShapeP3 SubgoalP2 PerceiveS PerceiveP CompareP ShellM ShellS PropsMemory PropsQuestion PropsShell.
Import ListNotations.
Local Open Scope Z_scope.
#[local] Opaque fofZ fdec fltb fleb ProcessSensorimotorEvent op_loop correlate getOperationID Anticipate Conceptualize.
Lemma remark k : with_pid2 k (pid2 k) = k.
Proof. unfold with_pid2, pid2, with_pids, pid1, pid3. destruct k. cbn. match goal with |- context [fst (fst ?x)] => destruct x as [[? ?] ?] end. reflexivity. Qed.
(** C69, perception: in every reachable state, a belief event gets its concept; if there is room for
    it, exactly the concepts sharing a part with the event are looked at, each once, and there
    the event (or the case of it the concept is about) becomes the concept's latest one if it is
    a case of what the concept is about and no later one is known; nothing else changes, and no decision is made. *)
Theorem C69_perception : forall cmax buckets atoms bmax gmax layers nm s av simdist powdecay threshold chance ops fuel e now s' d,
  (0 < layers)%nat -> lives cmax buckets atoms bmax gmax layers nm s -> e_type e = EVENT_TYPE_BELIEF ->
  ProcessSensorimotorEvent nm av simdist powdecay threshold chance ops fuel s e now = Ok (s', d) ->
  d = decision0 /\ exists m c, Conceptualize nm (s_mem s) (e_term e) now = Ok (m, c) /\
  match c with
  | None => s' = set_mem s m
  | Some c => exists m1 m', (if copulaEquals nm (at_ (e_term e) 0) SEQUENCE && negb (hasVariable nm (e_term e) true true false)
                             then exists f, OccurrenceTimeIndex_Add c (m_ring m) = Ok f /\ m1 = set_ring m f else m1 = m) /\
      noticed_everywhere nm av simdist now e (s_pid s + 1) m1 m' /\ s' = set_mem (set_pids s (s_pid s + 1) (s_pid2 s) (s_pid3 s)) m'
  end.
Proof.
  intros cmax buckets atoms bmax gmax layers nm s av sd pd th ch ops fuel e now s' d LY L T H.
  pose proof (lives_st cmax buckets atoms bmax gmax layers LY nm s L) as ST. destruct (st_shape s ST) as [TS MB]. destruct ST as [P0 _].
  destruct (process_spec nm av sd pd th ch ops fuel s e now s' d T P0 TS ltac:(apply Forall_forall; intros k K; specialize (MB k K); lia) H) as (m & c & A & B & C). split; [exact B|]. exists m, c. split; [exact A|exact C].
Qed.
Print Assumptions C69_perception.
(** C69, a whole phase: an event that is too old, eternal, processed before or a continuous property
    of a single thing changes nothing.  Otherwise it is perceived; unless it is the doing of an
    operation, links from what was done before are learned (C66); it is then related to the
    events of the concepts noticed last, newest first (C56, C66); and if it was input, the
    expectations of this operation, or without operation, are checked (C55). *)
Theorem C69_belief_phase : forall nm av simdist powdecay penalty layers threshold athr aconf chance ops fuel s now s',
  ProcessBeliefEvents nm av simdist powdecay penalty layers threshold athr aconf chance ops fuel s now = Ok s' ->
  match s_selB s with
  | None => s' = s
  | Some (e, priority) =>
    (~ fresh nm now e -> s' = s) /\
    (fresh nm now e -> e_type e = EVENT_TYPE_BELIEF /\ exists s1 d m2 p3 s3,
      ProcessSensorimotorEvent nm av simdist powdecay threshold chance ops fuel s e now = Ok (s1, d) /\
      let op := getOperationID nm (s_mem s1) (e_term e) in
      (op = 0%nat -> clos_refl_trans _ (marks_or (learns_for_operation nm powdecay penalty layers fuel (s_time s1) now e)) (s_mem s1) m2) /\
      (op <> 0%nat -> m2 = s_mem s1) /\
      looked_back (fun s c => correlate nm av simdist powdecay penalty layers threshold athr aconf chance ops fuel s now e op (proj1_sig priority) c) 0
        (set_pids (set_mem s1 m2) (s_pid s1) (s_pid2 s1 + 2) p3) s3 /\
      (fleb f1 (proj1_sig priority) = true -> exists m', Anticipate nm av simdist powdecay athr aconf (s_mem s3) op (getOperationTerm nm (e_term e)) false now = Ok m' /\ s' = set_mem s3 m') /\
      (fleb f1 (proj1_sig priority) = false -> s' = s3))
  end.
Proof.
  intros nm av sd pd pen layers th athr ac ch ops fuel s now s'. unfold ProcessBeliefEvents. destruct (s_selB s) as [[e p]|]; [|intros H; apply okP in H; auto]. cbv zeta.
  destruct (_ && _ && _ && _ && _) eqn:B.
  - assert (F : fresh nm now e).
    { apply andb_prop in B as [B B5]. apply andb_prop in B as [B B4]. apply andb_prop in B as [B B3]. apply andb_prop in B as [B1 B2]. apply negb_true_iff in B1, B2, B4. apply present_there in B3. apply Z.ltb_lt in B5. apply Z.eqb_neq in B4.
      split; [intros [X Y]; rewrite X, Y in B1; discriminate B1|]. split; auto. }
    intros H. split; [intros X; contradiction|]. intros _. destruct (Z.eqb_spec (e_type e) EVENT_TYPE_BELIEF) as [T|T]; cbn [rassert rbind] in H; [|discriminate H]. split; [exact T|].
    destruct (ProcessSensorimotorEvent _ _ _ _ _ _ _ _ s e now) as [[s1 d]| |]; cbn [rbind] in H; try discriminate H.
    set (op := getOperationID nm (s_mem s1) (e_term e)) in *.
    match type of H with (do s <- ?x ; _) = _ => destruct x as [s2| |] eqn:OP; cbn [rbind] in H; try discriminate H end.
    assert (S2 : exists m2 p3, s2 = set_pids (set_mem s1 m2) (s_pid s1) (s_pid2 s1 + 1) p3 /\ (op = 0%nat -> clos_refl_trans _ (marks_or (learns_for_operation nm pd pen layers fuel (s_time s1) now e)) (s_mem s1) m2) /\ (op <> 0%nat -> m2 = s_mem s1)).
    { destruct (Nat.eqb_spec op 0) as [O|O].
      - destruct (op_loop _ _ _ _ _ _ _ _ _ _ _ _ _) as [[m2 p3]| |] eqn:L; cbn [rbind] in OP; try discriminate OP. apply okP in OP. exists m2, p3. split; [subst s2; destruct s1; reflexivity|]. split; [|contradiction]. intros _. apply op_spec in L. exact L.
      - apply okP in OP. exists (s_mem s1), (s_pid3 s1). split; [subst s2; destruct s1; reflexivity|]. split; auto. contradiction. }
    destruct S2 as (m2 & p3 & -> & S3 & S4).
    destruct (correlate_loop _ _ _ _ _ _ _ _ _ _ _ _ _ _ _ _ _ _ _) as [s3| |] eqn:CL; cbn [rbind] in H; try discriminate H.
    exists s1, d, m2, p3, s3. split; [reflexivity|]. split; [exact S3|]. split; [exact S4|]. split.
    + assert (LB : forall n i s s', Z.of_nat n + i = 512 -> correlate_loop nm av sd pd pen layers th athr ac ch ops fuel n i s now e op (proj1_sig p) = Ok s' ->
        looked_back (fun s c => correlate nm av sd pd pen layers th athr ac ch ops fuel s now e op (proj1_sig p) c) i s s').
      { clear. induction n as [|n IH]; intros i s s' L; cbn [correlate_loop]. { intros H; apply okP in H; subst s'. apply looked_all. lia. }
        destruct (Z.ltb_spec i (r_amount (m_ring (s_mem s)))) as [A|A]; [|intros H; apply okP in H; subst s'; apply looked_all; lia].
        unfold kth_newest. destruct (GetKthNewestElement (m_ring (s_mem s)) i) as [[c|]| |] eqn:K; cbn [rbind]; try discriminate. unfold cread, cmod, cread. destruct (nth_error (m_store (s_mem s)) c) as [k|] eqn:NE; cbn [rbind]; [|discriminate].
        destruct (Z.eqb_spec (pid2 k) (s_pid2 s)) as [P|P].
        - replace (with_pid2 k (s_pid2 s)) with k by (rewrite <- P; symmetry; exact (remark k)). cbn [rbind]. rewrite set_self by auto. replace (set_mem s (s_mem s)) with s by (destruct s; reflexivity).
          change (s_pid2 (set_mem s (s_mem s))) with (s_pid2 s). destruct (Z.eqb_spec (pid2 k) (s_pid2 s)) as [_|X]; [|contradiction]. cbn [rbind]. intros H. eapply looked_again; eauto; try lia. eapply IH; [lia|exact H].
        - change (s_pid2 (set_mem s _)) with (s_pid2 s). destruct (Z.eqb_spec (pid2 k) (s_pid2 s)); [contradiction|]. destruct (correlate _ _ _ _ _ _ _ _ _ _ _ _ _ _ _ _ _ _) as [s1c| |] eqn:CO; cbn [rbind]; try discriminate. intros H. eapply looked_new; eauto; try lia. eapply IH; [lia|exact H]. }
      apply LB in CL; [|reflexivity]. match type of CL with looked_back _ _ ?x _ => replace x with (set_pids (set_mem s1 m2) (s_pid s1) (s_pid2 s1 + 2) p3) in CL; [exact CL|] end.
      unfold next_pid2, set_pids, set_mem. cbn. f_equal. lia.
    + destruct (fleb f1 (proj1_sig p)); [|apply okP in H; subst s'; split; [discriminate|reflexivity]]. destruct (Anticipate _ _ _ _ _ _ _ _ _ _ _) as [m'| |]; cbn [rbind] in H; try discriminate H. apply okP in H. subst s'. split; [|discriminate]. intros _. exists m'. auto.
  - intros H. apply okP in H. subst s'. split; [auto|]. intros (F1 & F2 & F3 & F4 & F5). exfalso.
    assert (X : forall b1 b2 b3 b4 b5, b1 = true -> b2 = true -> b3 = true -> b4 = true -> b5 = true -> b1 && b2 && b3 && b4 && b5 = true) by (intros; subst; reflexivity).
    rewrite X in B; [discriminate B| | | | |].
    + apply negb_true_iff. destruct (copulaEquals nm (at_ (e_term e) 0) HAS_CONTINUOUS_PROPERTY) eqn:Q1; [|reflexivity]. destruct (copulaEquals nm (at_ (e_term e) 1) PRODUCT) eqn:Q2; [reflexivity|]. exfalso. apply F1. split; reflexivity.
    + rewrite F2. reflexivity.
    + apply present_there. exact F3.
    + apply negb_true_iff, Z.eqb_neq. exact F4.
    + apply Z.ltb_lt. exact F5.
Qed.
Print Assumptions C69_belief_phase.

(** C69, comparison: two measurements of the same (atomic) attribute in a row, e.g.
    (<(l1 * v1) --> a> &/ <(l2 * v2) --> a>), yield the statement that relates the location of the larger value to the
    other one, or both as equal. *)
Theorem C69_comparison : forall nm av sq q T1 T2 c1 v1 x1 L1 c2 v2 x2 L2 a, TermS.closed sq ->
  tree_at sq 0 = N q T1 T2 -> copulaEquals nm q SEQUENCE = true ->
  measurement nm av T1 c1 v1 x1 L1 (N a E E) -> measurement nm av T2 c2 v2 x2 L2 (N a E E) ->
  exists r, attribute_relation nm av sq = Ok (Some r) /\ TermS.closed r /\
    compared (if copulaEquals nm c1 INHERITANCE then copula_index INHERITANCE else copula_index HAS_CONTINUOUS_PROPERTY) x1 x2 L1 L2 (N a E E) (tree_at r 0).
Proof.
  intros nm av sq q T1 T2 c1 v1 x1 L1 c2 v2 x2 L2 a C TT Q M1 M2. exists (relation_of nm sq x1 x2). split; [exact (direct nm av sq q T1 T2 c1 v1 x1 L1 c2 v2 x2 L2 a E E C TT Q M1 M2)|].
  destruct (relation_tree nm av sq q c1 v1 x1 L1 c2 v2 x2 L2 a E E C (ex_intro _ T1 (ex_intro _ T2 (conj TT (conj M1 M2))))) as [R1 R2]. split; [exact R1|]. rewrite R2. exact (as_compared nm c1 x1 x2 L1 L2 (N a E E)).
Qed.
Print Assumptions C69_comparison.
(** C69, comparison after something else: ((w &/ <(l1 * v1) --> a>) &/ <(l2 * v2) --> a>) yields
    (w &/ r), if it fits in a term *)
Theorem C69_comparison_in_context : forall nm av sq q q' W T1 T2 c1 v1 x1 L1 c2 v2 x2 L2 a, TermS.closed sq -> copulaEquals nm (copula_index SEQUENCE) SEQUENCE = true ->
  tree_at sq 0 = N q (N q' W T1) T2 -> copulaEquals nm q SEQUENCE = true -> copulaEquals nm q' SEQUENCE = true -> W <> E ->
  measurement nm av T1 c1 v1 x1 L1 (N a E E) -> measurement nm av T2 c2 v2 x2 L2 (N a E E) ->
  exists r t, attribute_relation nm av sq = Ok (Some t) /\
    compared (if copulaEquals nm c1 INHERITANCE then copula_index INHERITANCE else copula_index HAS_CONTINUOUS_PROPERTY) x1 x2 L1 L2 (N a E E) r /\
    (fits W 1 -> fits r 2 -> TermS.closed t /\ tree_at t 0 = N (copula_index SEQUENCE) W r).
Proof.
  intros nm av sq q q' W T1 T2 c1 v1 x1 L1 c2 v2 x2 L2 a C QS TT Q Q' NW M1 M2.
  destruct (pair_rest nm av sq q q' W T1 T2 c1 v1 x1 L1 c2 v2 x2 L2 (N a E E) C TT Q Q' M1 M2) as (rest & st & PR & CR & TR & CS & TS).
  destruct (relation_tree nm av st (copula_index SEQUENCE) c1 v1 x1 L1 c2 v2 x2 L2 a E E CS (ex_intro _ T1 (ex_intro _ T2 (conj TS (conj M1 M2))))) as [R1 R2].
  set (R := relation_of nm st x1 x2) in *. exists (tree_at R 0). eexists. split; [|split].
  - rewrite relation_second, PR. cbn [fst snd]. exact (second_ok nm av rest st (copula_index SEQUENCE) T1 T2 c1 v1 x1 L1 c2 v2 x2 L2 a E E CS TS QS M1 M2).
  - rewrite R2. exact (as_compared nm c1 x1 x2 L1 L2 (N a E E)).
  - intros F1 F2. fold R. assert (NR : at_ rest 0 <> 0). { apply nonempty; [exact (proj1 CR)|]. rewrite TR. exact NW. } destruct (Z.eqb_spec (at_ rest 0) 0) as [X|_]; [contradiction|].
    assert (NRR : at_ R 0 <> 0). { apply nonempty; [exact (proj1 R1)|]. rewrite R2. discriminate. }
    rewrite <- TR in F1. rewrite <- TR. exact (two_parts rest R CR R1 NR NRR F1 F2).
Qed.
Print Assumptions C69_comparison_in_context.
(** C69, only measurements are compared *)
Theorem C69_only_measurements : forall nm av sq r, TermS.closed sq -> copulaEquals nm (at_ sq 1) SEQUENCE = false -> attribute_relation nm av sq = Ok (Some r) ->
  exists q c1 p1 L1 v1 X1 Y1 x1 w1 c2 p2 L2 v2 X2 Y2 x2 w2 A, tree_at sq 0 = N q (N c1 (N p1 L1 (N v1 X1 Y1)) A) (N c2 (N p2 L2 (N v2 X2 Y2)) A) /\
    copulaEquals nm q SEQUENCE = true /\ copulaEquals nm c1 INHERITANCE || copulaEquals nm c1 HAS_CONTINUOUS_PROPERTY = true /\
    copulaEquals nm c2 INHERITANCE || copulaEquals nm c2 HAS_CONTINUOUS_PROPERTY = true /\ copulaEquals nm p1 PRODUCT = true /\ copulaEquals nm p2 PRODUCT = true /\
    av v1 = Some (x1, w1) /\ av v2 = Some (x2, w2).
Proof. intros nm av sq r C H R. exact (converse nm av sq r C H R). Qed.
Print Assumptions C69_only_measurements.
(** C69, refuted for compound attributes: whenever the attribute measured has parts, the conclusion is
    no comparison as stated above for any relation: the end mark of its property has the parts of
    the attribute below it. *)
Theorem C69_compound_attribute_refuted : forall nm av sq q T1 T2 c1 v1 x1 L1 c2 v2 x2 L2 a l r, TermS.closed sq -> l <> E ->
  tree_at sq 0 = N q T1 T2 -> copulaEquals nm q SEQUENCE = true ->
  measurement nm av T1 c1 v1 x1 L1 (N a l r) -> measurement nm av T2 c2 v2 x2 L2 (N a l r) ->
  exists t, attribute_relation nm av sq = Ok (Some t) /\ forall cop rel M1 M2 B, tree_at t 0 <> comparison cop rel M1 M2 B.
Proof.
  intros nm av sq q T1 T2 c1 v1 x1 L1 c2 v2 x2 L2 a l r C NE TT Q M1 M2. exists (relation_of nm sq x1 x2). split; [exact (direct nm av sq q T1 T2 c1 v1 x1 L1 c2 v2 x2 L2 a l r C TT Q M1 M2)|].
  destruct (relation_tree nm av sq q c1 v1 x1 L1 c2 v2 x2 L2 a l r C (ex_intro _ T1 (ex_intro _ T2 (conj TT (conj M1 M2))))) as [_ R2]. intros cop rel K1 K2 B. rewrite R2. unfold comparison. intros X. injection X as _ _ _ _ _ X _. exact (NE X).
Qed.
Print Assumptions C69_compound_attribute_refuted.
(** Examples.  In the session below, every hypothesis of [C69_perception] and of [C69_belief_phase] is met: the event b is selected, fresh,
    and after the phase the concept b has it as its latest event. *)
Definition perceive_next (z : nar) : res cstate :=
  let p := params_of wenv z in
  ProcessBeliefEvents (p_nm p) (p_av p) (p_simdist p) (p_pow p) (p_penalty p) (p_layers p) (p_thr p) (p_athr p) (p_aconf p) (p_chance p) (p_bops p) (p_fuel p)
    (z_core z) (s_time (z_core z)).
Definition noted_b (s : cstate) : bool := existsb (fun k => term_eqb (c_term k) (atomic_term 75) && (at_ (e_term (c_spike k)) 0 =? 75) && negb (e_type (c_spike k) =? EVENT_TYPE_DELETED)) (m_store (s_mem s)).
Definition selected_fresh (z : nar) : bool := match s_selB (z_core z) with Some (e, _) => negb (e_processed e) && negb (e_type e =? EVENT_TYPE_DELETED) && (s_time (z_core z) - e_occ e <? 20) && (at_ (e_term e) 0 =? 75) | None => false end.
Lemma perceive_ex (a : res (nar * list output)) :
  match a with Ok (z, _) => selected_fresh z && (match perceive_next z with Ok s => noted_b s | _ => false end) | _ => false end = true ->
  (forall z o, a = Ok (z, o) -> running wenv z) ->
  exists z s', running wenv z /\ selected_fresh z = true /\ perceive_next z = Ok s' /\ noted_b s' = true.
Proof.
  intros H R. destruct a as [[z o]| |]; try discriminate H. apply andb_prop in H as [H1 H2]. destruct (perceive_next z) as [s'| |] eqn:I; try discriminate H2.
  exists z, s'. split; [eapply R; reflexivity|]. split; [exact H1|]. split; [exact I|exact H2].
Qed.
Example C69_example : exists z s', running wenv z /\ selected_fresh z = true /\ perceive_next z = Ok s' /\ noted_b s' = true.
Proof. apply (perceive_ex (wrun ["a. :|:"; "b. :|:"]%string)); [vm_compute; reflexivity|intros z o; apply wrun_running]. Qed.
(** the comparison: with 74 = l1, 75 = l2, 76 = a; 77 and 78 have the values 1 and 0.9 *)
Definition values (a : Z) : option (f64 * name) := if a =? 77 then Some (f1, []) else if a =? 78 then Some (fdec 9 10, []) else None.
Definition two_measured : term := mk_term [copula_index SEQUENCE; copula_index INHERITANCE; copula_index INHERITANCE; copula_index PRODUCT; 76; copula_index PRODUCT; 76; 74; 78; 0; 0; 75; 77].
Definition in_context : term := mk_term [copula_index SEQUENCE; copula_index SEQUENCE; copula_index INHERITANCE; 79; copula_index INHERITANCE; copula_index PRODUCT; 76; 0; 0; copula_index PRODUCT; 76; 75; 77; 0; 0; 0; 0; 0; 0; 74; 78].
Definition compound_attr : term := mk_term [copula_index SEQUENCE; copula_index INHERITANCE; copula_index INHERITANCE; copula_index PRODUCT; copula_index PRODUCT; copula_index PRODUCT; copula_index PRODUCT; 74; 78; 76; 76; 75; 77; 76; 76].
Definition shown (x : res (option term)) : list Z := match x with Ok (Some t) => t | _ => [] end.
Example C69_comparison_example :
  closedb two_measured = true /\ closedb in_context = true /\ closedb compound_attr = true /\ fltb (fdec 9 10) f1 = true /\
  forallb (fun c => copulaEquals qn (copula_index c) c) [SEQUENCE; INHERITANCE; PRODUCT] = true /\
  shown (attribute_relation qn values two_measured) = mk_term [copula_index INHERITANCE; copula_index PRODUCT; copula_index SEQUENCE; 75; 74; 76; copula_index SET_TERMINATOR] /\
  shown (attribute_relation qn values in_context) = mk_term [copula_index SEQUENCE; 79; copula_index INHERITANCE; 0; 0; copula_index PRODUCT; copula_index SEQUENCE; 0; 0; 0; 0; 75; 74; 76; copula_index SET_TERMINATOR] /\
  shown (attribute_relation qn values compound_attr) = mk_term [copula_index INHERITANCE; copula_index PRODUCT; copula_index SEQUENCE; 75; 74; copula_index PRODUCT; copula_index SET_TERMINATOR; 0; 0; 0; 0; 76; 76; 76; 76].
Proof. vm_compute. repeat split; reflexivity. Qed.
