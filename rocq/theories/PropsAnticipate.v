(** Property theorems C55: failed anticipations only weaken the responsible rule. *)
From Coq Require Import ZArith List Bool Lia Reals Lra.
From Flocq Require Import Core IEEE754.BinarySingleNaN.
From Verif Require Import Base F64 TruthM TruthS TruthP TruthP2 PropsTruth StampM TermM TermS TermP NamesM AtomsM EventM TableM TableS TableP UsageM VariableM MemoryM MemoryS PropsMemory QuestionM PropsQuestion DecisionM DecisionS DecisionP WeakenP AnticipateS AnticipateP PruneP.
From Verif Require PQueueM.
Local Open Scope R_scope.
Import ListNotations.

(** C55, one rule: anticipating the outcome of the rule [imp], present in the table, after the
    event [pe] revises exactly that entry with evidence against it (frequency 0, confidence at
    most the configured one and at most 1/2); all other entries stay, in the same order.  Its
    confidence does not fall, it is again linked to its source concept. *)
Theorem C55_only_the_responsible_rule_changes : forall powdecay ca t pe imp,
  (forall d, (0 <= d)%Z -> u01 (powdecay d)) -> rg 0 maxc ca -> tinv t -> valid (e_truth pe) -> i_source imp <> None ->
  (exists e, In e (entries t) /\ i_term e = i_term imp) ->
  exists t' l1 old l2 m1 m2 new v, AddNegativeConfirmation powdecay ca t pe imp = Ok t' /\
    entries t = l1 ++ old :: l2 /\ i_term old = i_term imp /\ m1 ++ m2 = l1 ++ l2 /\ entries t' = m1 ++ new :: m2 /\
    i_term new = i_term old /\ i_source new = i_source imp /\ i_sourceId new = i_sourceId imp /\
    i_truth new = Truth_Revision f64A (i_truth old) v /\ against v /\ val (confidence v) <= Rmin (val ca) (1/2) /\
    valid (i_truth new) /\ val (confidence (i_truth old)) <= val (confidence (i_truth new)).
Proof.
  intros powdecay ca t pe imp PD CA I V S X.
  destruct (confirmation_step powdecay ca PD CA t pe imp I V S X) as (t' & l1 & old & l2 & m1 & m2 & new & A & I' & B & C & D & E & F & G & H & K).
  exists t', l1, old, l2, m1, m2, new, (neg_truth powdecay ca (e_truth pe) (i_offset imp)).
  repeat (split; [assumption|]). pose proof (neg_against powdecay ca PD CA (e_truth pe) (i_offset imp) V) as N. split; [exact N|]. split.
  - unfold neg_truth. set (tt := Btrunc _). destruct (projection_ok powdecay (e_truth pe) 0 tt PD V) as (VP & _).
    assert (VN : valid (@mkTruth f64A f0 ca)) by (split; [exact const_u01_0|exact CA]).
    destruct (tfun_ok TInduction _ _ VN VP) as (VI1 & VI2 & VI3 & _). cbn [apply_tfun confidence] in VI1, VI2, VI3.
    destruct (eternalize_ok (Truth_Induction f64A (@mkTruth f64A f0 ca) (Truth_Projection f64A powdecay (e_truth pe) 0 tt)) (conj VI1 VI2)) as (_ & _ & L1 & L2).
    apply Rmin_glb; lra.
  - destruct I as [_ AG]. unfold all_good in AG. rewrite Forall_forall in AG. destruct (AG old) as (_ & VO & PO); [rewrite B; apply in_or_app; right; left; reflexivity|].
    rewrite K. destruct (revision_ok _ _ VO (proj1 N) (or_introl PO)) as (R1 & R2 & _). auto.
Qed.
Print Assumptions C55_only_the_responsible_rule_changes.

(** The frequency: evidence against a rule never raises it, if the evidence is at least 2^-40 and
    the rule's truth value is not extremely small.  Missing: smaller evidence is absorbed by
    rounding and the frequency may then rise in its last bit (see the refutation below). *)
Theorem C55_frequency_never_rises_partial : forall old v, valid old -> against v -> counts v -> not_tiny old ->
  val (frequency (Truth_Revision f64A old v)) <= val (frequency old).
Proof. intros old v V (A & Z) C N. apply negative_evidence; auto. Qed.
Print Assumptions C55_frequency_never_rises_partial.
(** ... and the evidence is at least 2^-40 if the product of frequency and confidence of the event,
    decay over the anticipated delay [t], and anticipation confidence is at least 2^-33 (about 1e-10) *)
Theorem C55_amount_of_evidence : forall powdecay ca pe imp v, (forall d, (0 <= d)%Z -> u01 (powdecay d)) -> rg 0 maxc ca -> valid (e_truth pe) ->
  i_truth (negative_confirmation powdecay ca pe imp) = v ->
  forall t, Btrunc (@Bnearbyint 53 1024 prec_lt_emax_53 mode_NA (i_offset imp)) = t ->
  bpow radix2 (-33) <= val (frequency (e_truth pe)) * val (confidence (e_truth pe)) * val (powdecay (Z.abs t)) * val ca ->
  against v /\ counts v.
Proof.
  intros powdecay ca pe imp v PD CA V <- t <- P. split; [apply (neg_against powdecay ca PD CA _ _ V)|]. exact (evidence_amount powdecay ca _ _ PD CA V P).
Qed.
Print Assumptions C55_amount_of_evidence.
(** In exact arithmetic every failure lowers a positive frequency, by the share of the evidence. *)
Theorem C55_frequency_falls_exact : forall old v : truthR, validR old -> validR v -> frequency v = 0 -> 0 < confidence v -> 0 < confidence old -> 0 < frequency old ->
  let w1 := confidence old / (1 - confidence old) in let w2 := confidence v / (1 - confidence v) in
  frequency (Truth_Revision realA old v) = frequency old * (w1 / (w1 + w2)) /\ frequency (Truth_Revision realA old v) < frequency old.
Proof.
  intros old v V1 V2 Z C1 C2 F w1 w2. destruct (revision_R old v V1 V2 (or_introl C2)) as (E & _). cbn zeta in E. fold w1 w2 in E.
  destruct V1 as [_ V1], V2 as [_ V2].
  assert (W1 : 0 < w1) by (unfold w1; apply Rdiv_lt_0_compat; lra). assert (W2 : 0 < w2) by (unfold w2; apply Rdiv_lt_0_compat; lra).
  assert (Q : @eq R (frequency (Truth_Revision realA old v)) (frequency old * (w1 / (w1 + w2)))) by (etransitivity; [exact E|]; rewrite Z; field; lra). split; [exact Q|]. rewrite Q.
  assert (L : w1 / (w1 + w2) < 1). { apply Rmult_lt_reg_r with (w1 + w2); [lra|]. unfold Rdiv. rewrite Rmult_assoc, Rinv_l by lra. lra. }
  nra.
Qed.
Print Assumptions C55_frequency_falls_exact.

(** C55, a whole round of anticipations for operation [o]: if no concept with rules is forgotten
    on the way, then every concept keeps its rules for other operations, and each rule it has for
    [o] is one it had before, weakened by zero or more failures (outdated rules may be removed).
    New concepts have no rules. *)
Theorem C55_anticipation_only_weakens_partial : forall nm av simdist powdecay athr ca m o opterm now m',
  (forall d, (0 <= d)%Z -> u01 (powdecay d)) -> rg 0 maxc ca -> rules_ok nm m -> ids_below m ->
  Anticipate nm av simdist powdecay athr ca m o opterm false now = Ok m' ->
  (forall d k, nth_error (m_store m) d = Some k -> ~ no_rules k -> exists k', nth_error (m_store m') d = Some k' /\ c_id k' = c_id k) ->
  forall d k', nth_error (m_store m') d = Some k' ->
  no_rules k' \/
  exists k, nth_error (m_store m) d = Some k /\ c_id k' = c_id k /\
    (forall i, i <> o -> rules k' i = rules k i) /\ (forall y, In y (rules k' o) -> exists x, In x (rules k o) /\ weakened x y).
Proof.
  intros nm av simdist powdecay athr ca m o opterm now m' PD CA RO IB H AL d k' K'. unfold Anticipate in H.
  destruct (Nat.leb o OPERATIONS_MAX); cbn [rassert rbind] in H; [|discriminate H].
  pose proof (loop_J nm av simdist powdecay athr ca PD CA o m opterm now IB _ _ _ _ (J_refl nm o m RO IB) AL H) as JM.
  destruct (j_slots _ _ _ _ JM d k' K') as [(k & K & R1 & R2 & R3)|(_ & NR)]; [right|left; exact NR].
  exists k. split; auto. split; auto. split; auto. intros i N. unfold rules. rewrite (R2 i N). reflexivity.
Qed.
Print Assumptions C55_anticipation_only_weakens_partial.

(** C55, outdated rules: when the rules of a concept are considered, exactly those whose condition's
    concept is no longer in its place are removed, all others are considered. *)
Theorem C55_outdated_rules_removed : forall m o declarative p m' L k t, nth_error (m_store m) p = Some k ->
  declarative = false /\ nth_error (c_pre k) o = Some t \/ declarative = true /\ o = 0%nat /\ t = c_links k ->
  wf t -> anticipate_links o declarative m p = Ok (m', L) ->
  (forall i, In i L <-> In i (entries t) /\ current m i) /\
  exists t', entries t' = L /\ m' = set_store m (upd (m_store m) p (if declarative then with_links k t' else with_pre k (upd (c_pre k) o t'))).
Proof.
  intros m o de p m' L k t N C W H. unfold anticipate_links, cmod, cread in H. rewrite N in H. cbn [rbind] in H.
  assert (G : exists t', prune (t_items t) m t 0 = Ok t' /\ L = items t' /\ m' = set_store m (upd (m_store m) p (if de then with_links k t' else with_pre k (upd (c_pre k) o t')))).
  { destruct C as [(-> & T)|(-> & -> & ->)]; cbn [negb Nat.eqb] in H.
    - unfold pre_at in H. rewrite T in H. cbn [rbind] in H. destruct (prune _ m t 0) as [t'| |]; cbn [rbind] in H; try discriminate H. exists t'. split; [reflexivity|]. injection H as <- <-. auto.
    - destruct (prune _ m (c_links k) 0) as [t'| |]; cbn [rbind] in H; try discriminate H. exists t'. split; [reflexivity|]. injection H as <- <-. auto. }
  destruct G as (t' & P & -> & ->). apply prune_all in P as (_ & P); [|exact W]. split; [exact P|]. exists t'. split; reflexivity.
Qed.
Print Assumptions C55_outdated_rules_removed.

(** ** refutations *)
Definition CA1 : f64 := aconst f64A 1 100.
Definition one_rule (v : truth64) : implication := mkImp (upd zero_term 0 100%Z) v (upd stamp_zero 0 1%Z) (fofZ 1) (Some 0%nat) 7 1.
(** Rounding: a rule {0.93 0.9} whose precondition {0.0 0.9} is a negated event is revised with no
    evidence at all (w = 0), and its frequency rises in the last bit. *)
Theorem C55_frequency_never_rises_refuted : exists t t', Table_AddAndRevise table0 (one_rule (tr64 93 100 9 10)) = Ok (t, Some 0%nat) /\
  AddNegativeConfirmation qpow CA1 t (mkEvent (upd zero_term 0 64%Z) EVENT_TYPE_BELIEF (tr64 0 1 9 10) (2 :: repeat 0 9)%Z 1 f0 false 1 true) (one_rule (tr64 93 100 9 10)) = Ok t' /\
  match entries t, entries t' with [x], [y] => i_term y = i_term x /\ fltb (frequency (i_truth x)) (frequency (i_truth y)) = true | _, _ => False end.
Proof.
  set (pe := mkEvent _ _ _ _ _ _ _ _ _).
  assert (X : match Table_AddAndRevise table0 (one_rule (tr64 93 100 9 10)) with Ok (t, Some 0%nat) =>
     match AddNegativeConfirmation qpow CA1 t pe (one_rule (tr64 93 100 9 10)) with Ok t' =>
       match entries t, entries t' with [x], [y] => term_eqb (i_term y) (i_term x) && fltb (frequency (i_truth x)) (frequency (i_truth y)) | _, _ => false end | _ => false end | _ => false end = true) by (vm_compute; reflexivity).
  destruct (Table_AddAndRevise table0 (one_rule (tr64 93 100 9 10))) as [[t [[|?]|]]| |]; [|discriminate X|discriminate X|discriminate X|discriminate X].
  destruct (AddNegativeConfirmation qpow CA1 t pe (one_rule (tr64 93 100 9 10))) as [t'| |] eqn:E; [|discriminate X|discriminate X].
  exists t, t'. split; [reflexivity|]. split; [exact E|]. destruct (entries t) as [|x [|? ?]]; [discriminate X| |discriminate X]. destruct (entries t') as [|y [|? ?]]; [discriminate X| |discriminate X].
  apply andb_prop in X as [X1 X2]. split; [apply term_eqb_spec; exact X1|exact X2].
Qed.
Print Assumptions C55_frequency_never_rises_refuted.

(** Forgetting: with room for 3 concepts, the concept <$1 --> b> holds the rules
    <<$1 --> a> =/> <$1 --> b>> and <<$1 --> c> =/> <$1 --> b>>, and the events <d --> a>, <d --> c>
    have just happened.  The first anticipation creates the concept <d --> b>, which replaces
    <$1 --> b>; the second adds its failure, as a rule of frequency 0, to the concept <d --> b>. *)
Local Open Scope Z_scope.
Definition an : names := init_list ++ [[97]; [98]; [99]; [100]].
Definition SV (p : Z) : term := mk_term [copula_index INHERITANCE; 2; p].
Definition rule_ab (a : Z) : term := mk_term [copula_index TEMPORAL_IMPLICATION; copula_index INHERITANCE; copula_index INHERITANCE; 2; a; 2; 65].
Definition ev_at (t : term) (id : Z) : event := mkEvent t EVENT_TYPE_BELIEF (tr64 100 100 90 100) (id :: repeat 0%Z 9) 1 f0 false 1 true.
Definition spike_of (a id : Z) (k : concept) : concept := with_spike (boost k) (ev_at (mk_term [copula_index INHERITANCE; 67; a]) id).
Definition arun (n : nat) (os : list mop) : res memory := do m <- Memory_INIT n 4 200 2 2 2 ; mrun an qpow ex_pen 2 9 m os.
Definition aos := [input (rule_ab 64) 100 90 1 (-1); input (rule_ab 66) 100 90 2 (-1); OUpdate 1 (spike_of 64 3); OUpdate 2 (spike_of 66 4); OForget 2].
Definition anticipated (n : nat) : res (memory * memory) :=
  do m <- arun n aos ; do m' <- Anticipate an (fun _ => None) f1 qpow (aconst f64A 501 1000) CA1 m 0 zero_term false 2 ; Ok (m, m').
Lemma anticipated_ok n m m' : anticipated n = Ok (m, m') -> arun n aos = Ok m /\ Anticipate an (fun _ => None) f1 qpow (aconst f64A 501 1000) CA1 m 0 zero_term false 2 = Ok m'.
Proof.
  unfold anticipated. destruct (arun n aos) as [m1| |]; cbn [rbind]; [|discriminate|discriminate]. destruct (Anticipate _ _ _ _ _ _ m1 _ _ _ _) as [m2| |] eqn:E; cbn [rbind]; [|discriminate|discriminate].
  intros H. injection H as <- <-. auto.
Qed.
(** boolean versions of the hypotheses *)
Definition goodb (x : implication) : bool := match i_source x with Some _ => true | None => false end && (validb (i_truth x) && fltb f0 (confidence (i_truth x))).
Definition concept_okb (nm : names) (k : concept) : bool :=
  (length (c_pre k) =? 11)%nat && (forallb (fun t => (length (t_array t) =? 20)%nat && ((t_items t <=? 20)%nat && forallb (fun x => goodb x && copulaEquals nm (at_ (i_term x) 0) TEMPORAL_IMPLICATION) (entries t))) (c_pre k) &&
   ((e_type (c_spike k) =? EVENT_TYPE_DELETED) || validb (e_truth (c_spike k)))).
Lemma goodb_ok x : goodb x = true -> good_imp x.
Proof.
  unfold goodb. intros H. apply andb_prop in H as [A H]. apply andb_prop in H as [B C]. apply validb_valid in B. split; [destruct (i_source x); [discriminate|discriminate A]|]. split; auto.
  apply fltb_spec in C; [rewrite v_f0 in C; exact C|reflexivity|apply B].
Qed.
Lemma concept_okb_ok nm k : concept_okb nm k = true -> concept_rules_ok nm k.
Proof.
  unfold concept_okb. intros H. apply andb_prop in H as [A H]. apply andb_prop in H as [B C]. split; [apply Nat.eqb_eq; auto|]. split.
  - rewrite forallb_forall in B. rewrite Forall_forall. intros t T. specialize (B t T). apply andb_prop in B as [B1 B]. apply andb_prop in B as [B2 B3]. split; [apply Nat.eqb_eq; auto|]. split; [apply Nat.leb_le; auto|].
    rewrite forallb_forall in B3. rewrite Forall_forall. intros x X. specialize (B3 x X). apply andb_prop in B3 as [B3 B4]. split; [apply goodb_ok; auto|auto].
  - intros N. apply orb_prop in C as [C|C]; [apply Z.eqb_eq in C; contradiction|apply validb_valid; auto].
Qed.
Definition okb (m : memory) : bool := forallb (fun k => concept_okb an k && (c_id k <? m_nextid m)) (m_store m).
Lemma okb_ok m : okb m = true -> rules_ok an m /\ ids_below m.
Proof.
  unfold okb. rewrite forallb_forall. intros H. unfold rules_ok, ids_below. rewrite !Forall_forall. split; intros k K; specialize (H k K); apply andb_prop in H as [A B]; [apply concept_okb_ok; auto|apply Z.ltb_lt; auto].
Qed.
Definition SD (p : Z) : term := mk_term [copula_index INHERITANCE; 67; p].
Theorem C55_anticipation_only_weakens_refuted : exists m m' d k k' y, arun 3 aos = Ok m /\ rules_ok an m /\ ids_below m /\
  Anticipate an (fun _ => None) f1 qpow (aconst f64A 501 1000) CA1 m 0 zero_term false 2 = Ok m' /\
  nth_error (m_store m) d = Some k /\ c_term k = SV 65 /\ length (rules k 0) = 2%nat /\
  nth_error (m_store m') d = Some k' /\ c_term k' = SD 65 /\ rules k' 0 = [y] /\ i_term y = rule_ab 66 /\ feqb (frequency (i_truth y)) f0 = true /\
  (forall k2, In k2 (m_store m') -> c_term k2 <> SV 65).
Proof.
  destruct (res_ex' (anticipated 3) (fun '(m, m') => okb m &&
     match nth_error (m_store m) 0, nth_error (m_store m') 0 with Some k, Some k' => term_eqb (c_term k) (SV 65) && ((length (rules k 0) =? 2)%nat && (term_eqb (c_term k') (SD 65) &&
        (match rules k' 0 with [y] => term_eqb (i_term y) (rule_ab 66) && feqb (frequency (i_truth y)) f0 | _ => false end &&
         forallb (fun k2 => negb (term_eqb (c_term k2) (SV 65))) (m_store m')))) | _, _ => false end)) as ((m & m') & E & H); [vm_compute; reflexivity|].
  apply anticipated_ok in E as (E1 & E2). apply andb_prop in H as [H0 H]. destruct (okb_ok m H0) as (R & I).
  destruct (nth_error (m_store m) 0) as [k|] eqn:K; [|discriminate H]. destruct (nth_error (m_store m') 0) as [k'|] eqn:K'; [|discriminate H].
  apply andb_prop in H as [H1 H]. apply andb_prop in H as [H2 H]. apply andb_prop in H as [H3 H]. apply andb_prop in H as [H4 H5]. destruct (rules k' 0) as [|y [|? ?]] eqn:RK; [discriminate H4| |discriminate H4].
  apply andb_prop in H4 as [H4 H6]. exists m, m', 0%nat, k, k', y. split; [exact E1|]. split; [exact R|]. split; [exact I|]. split; [exact E2|]. split; [exact K|]. split; [apply term_eqb_spec; exact H1|].
  split; [apply Nat.eqb_eq; exact H2|]. split; [exact K'|]. split; [apply term_eqb_spec; exact H3|]. split; [exact RK|]. split; [apply term_eqb_spec; exact H4|]. split; [exact H6|].
  intros k2 IK. rewrite forallb_forall in H5. specialize (H5 k2 IK). intros X. rewrite X in H5. rewrite (proj2 (term_eqb_spec _ _) eq_refl) in H5. discriminate H5.
Qed.
Print Assumptions C55_anticipation_only_weakens_refuted.
(** with room for 5 concepts both rules are weakened: the hypotheses of the theorem hold *)
Example C55_example : exists m m' d k k', arun 5 aos = Ok m /\ rules_ok an m /\ ids_below m /\
  Anticipate an (fun _ => None) f1 qpow (aconst f64A 501 1000) CA1 m 0 zero_term false 2 = Ok m' /\
  (forall d k, nth_error (m_store m) d = Some k -> ~ no_rules k -> exists k', nth_error (m_store m') d = Some k' /\ c_id k' = c_id k) /\
  nth_error (m_store m) d = Some k /\ length (rules k 0) = 2%nat /\ nth_error (m_store m') d = Some k' /\ length (rules k' 0) = 2%nat /\
  (forall y, In y (rules k' 0) -> fltb (frequency (i_truth y)) f1 = true).
Proof.
  destruct (res_ex' (anticipated 5) (fun '(m, m') => okb m && (forallb (fun d => match nth_error (m_store m) d, nth_error (m_store m') d with
         Some k, Some k' => forallb (fun i => match rules k i with [] => true | _ => false end) (seq 0 11) || (c_id k =? c_id k') | _, _ => true end) (seq 0 5) && ((length (m_store m) =? 5)%nat && ((length (m_store m') =? 5)%nat &&
     match nth_error (m_store m) 0, nth_error (m_store m') 0 with Some k, Some k' => (length (rules k 0) =? 2)%nat && ((length (rules k' 0) =? 2)%nat && forallb (fun y => fltb (frequency (i_truth y)) f1) (rules k' 0)) | _, _ => false end)))))
    as ((m & m') & E & H); [vm_compute; reflexivity|].
  apply anticipated_ok in E as (E1 & E2). apply andb_prop in H as [H0 H]. destruct (okb_ok m H0) as (R & I). apply andb_prop in H as [H1 H]. apply andb_prop in H as [L1 H]. apply andb_prop in H as [L2 H].
  apply Nat.eqb_eq in L1. apply Nat.eqb_eq in L2.
  destruct (nth_error (m_store m) 0) as [k|] eqn:K; [|discriminate H]. destruct (nth_error (m_store m') 0) as [k'|] eqn:K'; [|discriminate H].
  apply andb_prop in H as [H2 H]. apply andb_prop in H as [H3 H4].
  exists m, m', 0%nat, k, k'. split; [exact E1|]. split; [exact R|]. split; [exact I|]. split; [exact E2|]. split.
  - intros d kd KD NR. assert (LD : (d < 5)%nat) by (rewrite <- L1; apply nth_error_Some; congruence). rewrite forallb_forall in H1.
    specialize (H1 d ltac:(apply in_seq; lia)). rewrite KD in H1. destruct (nth_error (m_store m') d) as [kd'|] eqn:KD'; [|exfalso; apply nth_error_None in KD'; lia].
    exists kd'. split; auto. apply orb_prop in H1 as [H1|H1]; [|apply Z.eqb_eq in H1; auto]. exfalso. apply NR. intros i. destruct (Nat.lt_ge_cases i 11) as [LI|LI].
    + rewrite forallb_forall in H1. specialize (H1 i ltac:(apply in_seq; lia)). destruct (rules kd i); [reflexivity|discriminate H1].
    + unfold rules. destruct (nth_error (c_pre kd) i) eqn:Q; auto. assert (i < length (c_pre kd))%nat by (apply nth_error_Some; congruence).
      pose proof R as R0. unfold rules_ok in R0. rewrite Forall_forall in R0. destruct (R0 kd (nth_error_In _ _ KD)) as (R1 & _). lia.
  - split; [exact K|]. split; [apply Nat.eqb_eq; exact H2|]. split; [exact K'|]. split; [apply Nat.eqb_eq; exact H3|]. rewrite forallb_forall in H4. exact H4.
Qed.
