(** Learning of temporal links (C66).  Vocabulary: LearnS.v, AddS.v, NalS.v, MemoryS.v, SysS.v. *)
From Coq Require Import ZArith List Bool String Lia Relation_Operators.
From Flocq Require Import IEEE754.BinarySingleNaN.
From Verif Require Import Base F64 TruthM StampM TermM TermS TermP NamesM AtomsM RulesM EventM InferenceM UsageM TableM VariableM MemoryM MemoryS MemoryP2 MemoryP3 NalM NalS QuestionM DecisionM CycleM CycleS EverywhereP CycleP2 ShellM ShellS SysS SysP SysP2 SeqS AddS AddP AddP2 LearnS LearnP LearnP2.
From Verif Require Import PropsMemory PropsQuestion PropsCycle PropsShell PropsSys.
Import ListNotations.
Local Open Scope nat_scope.
Section Lives.
Variables cmax buckets atoms bmax gmax layers : nat.
Notation Sizes := (sizes_ok cmax buckets atoms bmax gmax layers).
Notation Lives := (lives cmax buckets atoms bmax gmax layers).
(** C66: at any time of a life, when an event a is connected to a later event b:
    - nothing happens unless both are beliefs about different known concepts with separate evidence,
      and the connection fits in a term and is confident enough;
    - otherwise the belief <a =/> b> -- of the truth, evidence and time offset that [connection]
      says -- and its generalisations are told to the memory, unless they are implausible (C49);
    - <a =/> b> then is (as C64 says) a link of the concept of b, from the concept of a, under the
      operation in a, if it has some priority. *)
Theorem C66_connecting_events : forall nm s a b time powdecay penalty fuel m', Sizes -> 64 <= atoms -> Lives nm s -> let m := s_mem s in
  known atoms nm (e_term a) -> known atoms nm (e_term b) -> TermS.closed (e_term a) -> TermS.closed (e_term b) -> at_ (e_term a) 0 <> 0%Z -> at_ (e_term b) 0 <> 0%Z ->
  ReinforceLink nm powdecay penalty layers fuel m time a b = Ok m' ->
  let fit := fits (tree_at (e_term a) 0) 1 /\ fits (tree_at (e_term b) 0) 2 in
  let truth := connection_truth powdecay a b in
  let priority := fmul (fmul f1 f1) (Truth_Expectation f64A truth) in
  let tell t m m' := AddEvent nm powdecay penalty layers fuel m (EVal (connection powdecay time a b t)) time priority false false 0 = Ok m' in
  (~ connectable nm m a b \/ ~ fit \/ fltb (confidence truth) (fdec 1 100) = true -> m' = m) /\
  (connectable nm m a b -> (e_occ a <= e_occ b)%Z) /\
  (connectable nm m a b -> fit -> fltb (confidence truth) (fdec 1 100) = false -> exists t m0 m1,
     temporal_implication t (e_term a) (e_term b) /\ generalised nm t true tell m m0 /\ generalised nm t false tell m0 m1 /\
     (implausible nm t -> m' = m1) /\
     (~ implausible nm t -> tell t m1 m' /\
        forall opi st, kept_under nm m (e_term a) opi st -> fleb (entry_priority penalty (connection powdecay time a b t) priority false false) f0 = false ->
          (known_concept m' (e_term b) -> linked time m1 m' (e_term b) st opi (connection powdecay time a b t)) /\
          (concept_count m1 + 2 <= cmax \/ known_concept m1 (e_term b) /\ known_concept m1 st -> known_concept m' (e_term b)))).
Proof.
  intros nm s a b time pd pen fuel m' S A L m Ka Kb Ca Cb Na Nb E fit truth priority tell. destruct (lives_inv _ _ _ _ _ _ S A nm s L) as (N & I).
  destruct (lives_names _ _ _ _ _ _ nm s L) as (rest & ->).
  destruct (reinforce_spec cmax buckets atoms bmax gmax layers S A rest pd pen fuel m time a b m' I Ka Kb Ca Cb Na Nb E) as (H1 & H2).
  split; [|split].
  - intros [X|X]; [apply H1; exact X|].
    assert (DC : connectable (init_list ++ rest) m a b \/ ~ connectable (init_list ++ rest) m a b).
    { unfold connectable, known_concept. pose proof (iv_j _ _ _ I) as IJ.
      assert (KC : forall t, (exists c k, stores m c k /\ c_term k = t) \/ ~ (exists c k, stores m c k /\ c_term k = t)).
      { intros t. destruct (find_stores false (init_list ++ rest) cmax buckets atoms bmax gmax layers S (known atoms (init_list ++ rest)) m t IJ) as (r & _ & H). destruct r as [c|]; [left; exists c; apply H; reflexivity|].
        right. intros (c & k & Y). assert (Q : None = Some c) by (apply H; eauto). discriminate Q. }
      destruct (Z.eq_dec (e_type a) EVENT_TYPE_BELIEF); [|right; tauto]. destruct (Z.eq_dec (e_type b) EVENT_TYPE_BELIEF); [|right; tauto].
      destruct (KC (GetPreconditionWithoutOp (init_list ++ rest) (e_term a))); [|right; tauto]. destruct (KC (e_term b)); [|right; tauto].
      destruct (list_eq_dec Z.eq_dec (GetPreconditionWithoutOp (init_list ++ rest) (e_term a)) (e_term b)); [right; tauto|].
      destruct (stamp_check_overlap (e_stamp a) (e_stamp b)) eqn:OV; [right; apply StampP.stamp_overlap_spec in OV; tauto|].
      left. repeat split; auto. intros Y. apply StampP.stamp_overlap_spec in Y. congruence. }
    destruct DC as [C|C]; [apply (proj1 (proj2 (H2 C))); exact X|apply H1; exact C].
  - intros C. apply (H2 C).
  - intros C F W. destruct (proj2 (proj2 (H2 C)) F W) as (t & m0 & m1 & T1 & T2 & G0 & G1 & I1 & O1 & D). exists t, m0, m1.
    split; [exact T1|]. split; [exact G0|]. split; [exact G1|]. split; [intros Y; destruct D as [D|D]; [apply D|destruct D; contradiction]|].
    intros Y. destruct D as [D|[_ D]]; [destruct D; contradiction|]. split; [exact D|]. intros opi st KU PR.
    destruct T1 as (T1 & R & X1 & X2). destruct (temporal_root rest) as (R1 & R2 & _). rewrite <- R in R1, R2.
    assert (KU' : kept_under (init_list ++ rest) m1 (Term_ExtractSubterm (e_term (connection pd time a b t)) 1) opi st).
    { cbn [connection e_term]. rewrite X1. destruct KU as [KU|K1 K2 K3]; [constructor; exact KU|].
      replace (getOperationID (init_list ++ rest) m (Term_ExtractSubterm (e_term a) 2)) with (getOperationID (init_list ++ rest) m1 (Term_ExtractSubterm (e_term a) 2)) by (unfold getOperationID; rewrite O1; reflexivity).
      constructor; auto. }
    pose proof (add_link_val (init_list ++ rest) pd pen cmax buckets atoms bmax gmax layers S (known atoms (init_list ++ rest)) (known0 atoms A _ N) (known_ext atoms A _ N) (known_rng atoms A _ N)
      fuel m1 (connection pd time a b t) time priority false false 0 m' (iv_j _ _ _ I1) T2 eq_refl R1 R2 W PR opi st KU' D) as Z.
    cbv zeta in Z. cbn [connection e_term] in Z. rewrite X2 in Z. exact Z.
Qed.
End Lives.
Print Assumptions C66_connecting_events.

(** C66, which events: the search for operations that may have led to [post] changes the memory
    only by connecting, for an operation done shortly before [post], something that was the case
    just before it and the operation, to [post] (and by marking concepts as visited). *)
Theorem C66_rules_of_what_was_done : forall nm powdecay penalty layers fuel n j m p2 p3 time now post m' p3',
  op_loop nm powdecay penalty layers fuel n j m p2 p3 time now post = Ok (m', p3') ->
  clos_refl_trans _ (marks_or (learns_for_operation nm powdecay penalty layers fuel time now post)) m m'.
Proof. intros nm pd pen layers fuel n j m p2 p3 time now post m' p3' H. exact (op_spec nm pd pen layers fuel n j m p2 p3 time now post m' p3' H). Qed.
Print Assumptions C66_rules_of_what_was_done.
(** C66, events without operations: the concept in slot [c] changes nothing when [post] comes,
    unless its latest event came at most 20 time steps before, is no implication, has separate
    evidence, and both or none are operations. *)
Theorem C66_only_recent_events : forall nm av simdist powdecay penalty layers threshold athr ca chance babbling_ops fuel s now post op_id prio c k s',
  nth_error (m_store (s_mem s)) c = Some k ->
  correlate nm av simdist powdecay penalty layers threshold athr ca chance babbling_ops fuel s now post op_id prio c = Ok s' ->
  s' = s \/ event_before nm now post k /\ (op_id = 0 <-> getOperationID nm (s_mem s) (e_term (c_spike k)) = 0).
Proof.
  intros nm av sd pd pen layers th at' ca ch bo fuel s now post op prio c k s' N. unfold correlate, cread. rewrite N. cbn [rbind].
  destruct (_ && _ && _ && _ && _ && _) eqn:B; [|left; congruence].
  apply andb_prop in B as [B B6]. apply andb_prop in B as [B B5]. apply andb_prop in B as [B B4]. apply andb_prop in B as [B B3]. apply andb_prop in B as [B1 B2].
  apply present_there in B1. apply Z.leb_le in B2, B3, B4, B5. apply negb_true_iff in B6. change MAX_SEQUENCE_TIMEDIFF with 20%Z in *.
  set (op2 := getOperationID nm (s_mem s) (e_term (c_spike k))). destruct (_ && negb (stamp_check_overlap (e_stamp (c_spike k)) (e_stamp post))) eqn:C; [|left; congruence]. intros _. right.
  apply andb_prop in C as [C1 C2]. apply negb_true_iff in C2. split; [split; auto|].
  - split; auto. split; [lia|]. split; auto. split; [|apply no_overlap; auto]. unfold higher_order_event, copula. intros X. apply orb_false_iff in B6 as [X1 X2]. destruct X; congruence.
  - apply orb_prop in C1 as [C1|C1]; apply andb_prop in C1 as [C1 C3].
    + apply Nat.eqb_eq in C1, C3. tauto.
    + apply negb_true_iff, Nat.eqb_neq in C1, C3. tauto.
Qed.
Print Assumptions C66_only_recent_events.

(** *** examples *)
(** After "a. :|:" and "b. :|:" (atoms 74, 75) the events of the two concepts meet the hypotheses of
    C66_connecting_events; the connection is learned. *)
Definition latest (z : nar) (a : Z) : option event := match FindConceptByTerm (s_mem (z_core z)) (atomic_term a) with Ok (Some c) => option_map c_spike (nth_error (m_store (s_mem (z_core z))) c) | _ => None end.
Definition connect (z : nar) (a b : event) : res memory := ReinforceLink (a_names (z_st z)) qpow ex_pen 1 60 (s_mem (z_core z)) (s_time (z_core z)) a b.
Definition links_now (m : memory) (b : Z) : nat := match FindConceptByTerm m (atomic_term b) with Ok (Some c) => match nth_error (m_store m) c with Some k => match nth_error (c_pre k) 0 with Some tb => t_items tb | None => 0 end | None => 0 end | _ => 0 end.
Lemma connect_ex (a : res nar) ls :
  (forall z, a = Ok z -> room wenv z -> roomy wenv z) ->
  match (do z <- a ; roomy_session z ls) with
  | Ok z => match latest z 74, latest z 75 with Some x, Some y =>
      match connect z x y with Ok m' =>
        List.forallb (fun t => List.forallb (fun i => (0 <=? i)%Z && (i <=? Z.of_nat (List.length (a_names (z_st z))))%Z && (i <? 120)%Z) t && closedb t && negb (at_ t 0 =? 0)%Z) [e_term x; e_term y]
        && term_eqb (e_term x) (atomic_term 74) && term_eqb (e_term y) (atomic_term 75) && negb (fltb (confidence (connection_truth qpow x y)) (fdec 1 100))
        && (e_type x =? EVENT_TYPE_BELIEF)%Z && (e_type y =? EVENT_TYPE_BELIEF)%Z && negb (stamp_check_overlap (e_stamp x) (e_stamp y)) && term_eqb (GetPreconditionWithoutOp (a_names (z_st z)) (e_term x)) (e_term x)
        && (links_now m' 75 =? 1)
      | _ => false end | _, _ => false end
  | _ => false end = true ->
  exists z x y m', roomy wenv z /\ connect z x y = Ok m' /\ Forall (fun e => known 120 (a_names (z_st z)) (e_term e) /\ TermS.closed (e_term e) /\ at_ (e_term e) 0 <> 0%Z) [x; y] /\
    connectable (a_names (z_st z)) (s_mem (z_core z)) x y /\ fltb (confidence (connection_truth qpow x y)) (fdec 1 100) = false /\
    e_term x = atomic_term 74 /\ e_term y = atomic_term 75 /\ links_now m' 75 = 1.
Proof.
  intros HA H. destruct a as [z0| |]; cbn [rbind] in H; try discriminate H. destruct (roomy_session z0 ls) as [z| |] eqn:E1; try discriminate H.
  assert (R : roomy wenv z) by (eapply roomy_session_ok; [|exact E1]; intros R; apply HA; auto).
  destruct (latest z 74) as [x|] eqn:X; try discriminate H. destruct (latest z 75) as [y|] eqn:Y; try discriminate H. destruct (connect z x y) as [m'| |] eqn:C; try discriminate H.
  exists z, x, y, m'. split; [exact R|]. split; [exact C|].
  apply andb_prop in H as [H H9]. apply andb_prop in H as [H H8]. apply andb_prop in H as [H H7]. apply andb_prop in H as [H H6]. apply andb_prop in H as [H H5]. apply andb_prop in H as [H H4]. apply andb_prop in H as [H H3]. apply andb_prop in H as [H1 H2].
  apply term_eqb_spec in H2, H3, H8. apply Z.eqb_eq in H5, H6. apply negb_true_iff in H4, H7. apply Nat.eqb_eq in H9.
  assert (ST : forall e a, latest z a = Some e -> known_concept (s_mem (z_core z)) (atomic_term a)).
  { intros e a0 L. unfold latest in L. pose proof (roomy_live wenv wenv_sizes wenv_plain z R) as (_ & LV).
    destruct (lives_inv _ _ _ _ _ _ (SZ' wenv wenv_sizes) ltac:(apply wenv_sizes) _ _ LV) as (_ & I).
    destruct (find_stores false _ _ _ _ _ _ _ (SZ' wenv wenv_sizes) _ _ (atomic_term a0) (iv_j _ _ _ I)) as (r & F & HF). rewrite F in L. destruct r as [c|]; [|discriminate L].
    exists c. apply HF. reflexivity. }
  split; [|split; [|auto]].
  - rewrite forallb_forall in H1. apply Forall_forall. intros e He. assert (In (e_term e) [e_term x; e_term y]) as He' by (destruct He as [<-|[<-|[]]]; cbn; auto).
    specialize (H1 _ He'). apply andb_prop in H1 as [H1 Q3]. apply andb_prop in H1 as [Q1 Q2]. split; [|split; [apply closedb_ok; exact Q2|apply Z.eqb_neq, negb_true_iff; exact Q3]].
    rewrite forallb_forall in Q1. apply Forall_forall. intros i Hi. specialize (Q1 i Hi). apply andb_prop in Q1 as [Q1 P3]. apply andb_prop in Q1 as [P1 P2]. apply Z.leb_le in P1, P2. apply Z.ltb_lt in P3. lia.
  - split; [exact H5|]. split; [exact H6|]. rewrite H8, H2, H3. split; [apply (ST x); exact X|]. split; [apply (ST y); exact Y|]. split; [intros Q; apply (f_equal (fun t => at_ t 0)) in Q; discriminate Q|].
    intros Q. apply StampP.stamp_overlap_spec in Q. congruence.
Qed.
Example C66_example : exists z x y m', roomy wenv z /\ connect z x y = Ok m' /\ Forall (fun e => known 120 (a_names (z_st z)) (e_term e) /\ TermS.closed (e_term e) /\ at_ (e_term e) 0 <> 0%Z) [x; y] /\
    connectable (a_names (z_st z)) (s_mem (z_core z)) x y /\ fltb (confidence (connection_truth qpow x y)) (fdec 1 100) = false /\
    e_term x = atomic_term 74 /\ e_term y = atomic_term 75 /\ links_now m' 75 = 1.
Proof. apply (connect_ex (start wenv 1) (map str ["a. :|:"; "b. :|:"]%string) (ro_start wenv 1)). vm_compute. reflexivity. Qed.
(** With "*setopname 1 ^go", after "b. :|:", "a. :|:", "^go. :|:", the search for the reasons of a new
    event b learns two links under ^go: what C66_rules_of_what_was_done is about. *)
Definition b_now (z : nar) : event := mkEvent (atomic_term 74) EVENT_TYPE_BELIEF (@mkTruth f64A f1 half) (1000 :: repeat 0 9)%Z (s_time (z_core z)) f0 false (s_time (z_core z)) true.
Definition rule_links (m : memory) (b : Z) : nat := match FindConceptByTerm m (atomic_term b) with Ok (Some c) => match nth_error (m_store m) c with Some k => match nth_error (c_pre k) 1 with Some tb => t_items tb | None => 0 end | None => 0 end | _ => 0 end.
Definition search (z : nar) : res (memory * Z) := op_loop (a_names (z_st z)) qpow ex_pen 1 60 20 0 (s_mem (z_core z)) 1000 1000 (s_time (z_core z)) (s_time (z_core z)) (b_now z).
Example C66_rules_example : exists z m' p', search z = Ok (m', p') /\ rule_links (s_mem (z_core z)) 74 = 0 /\ rule_links m' 74 = 2.
Proof.
  destruct (res_ex' (do z <- start wenv 1 ; do z <- roomy_session z (map str ["*setopname 1 ^go"; "b. :|:"; "a. :|:"; "^go. :|:"]%string) ; do r <- search z ; Ok (z, r))
    (fun '(z, (m', _)) => (rule_links (s_mem (z_core z)) 74 =? 0) && (rule_links m' 74 =? 2))) as ((z & m' & p') & E & H); [vm_compute; reflexivity|].
  apply rbind_inv in E as (z0 & _ & E). apply rbind_inv in E as (z1 & _ & E). apply rbind_inv in E as (r & E & Q). injection Q as -> ->. apply andb_prop in H as [H1 H2]. apply Nat.eqb_eq in H1, H2.
  exists z, m', p'. split; [exact E|auto].
Qed.
