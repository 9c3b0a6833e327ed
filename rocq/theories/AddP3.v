(** Proofs about declarative implications told to the memory (C64). *)
From Coq Require Import ZArith List Bool Permutation Lia.
From Flocq Require Import IEEE754.BinarySingleNaN.
From Verif Require Import Base F64 TruthM StampM StampP TermM TermP NamesM EventM InferenceM TableM UsageM RingM RingP InvIndexM InvIndexS MemoryM MemoryS MemoryP UsefulP EQueueP MemoryP2 MemoryP3 AddS AddS2 AddP AddP2.
From Verif Require PQueueM PQueueP.
Local Open Scope nat_scope.
#[local] Opaque fofZ fdec fadd fmul fdiv fltb fleb MIN_CONFIDENCE Term_ExtractSubterm Table_AddAndRevise OccurrenceTimeIndex_Add Term_Complexity Conceptualize Usage_use Truth_Projection Truth_Revision RevisionAndChoice.
Section Add.
Variable nm : names.
Variable powdecay : Z -> f64.
Variable penalty : nat -> f64.
Variables cmax buckets atoms bmax gmax layers : nat.
Hypothesis SZ : sizes_ok cmax buckets atoms bmax gmax layers.
Variable Tm : term -> Prop.
Hypothesis T0 : Tm zero_term.
Hypothesis TE : forall t j, Tm t -> Tm (Term_ExtractSubterm t j).
Hypothesis TR : forall t, Tm t -> atoms_in_range atoms t.
Notation minv := (minv false nm cmax atoms bmax gmax layers Tm).
Notation Add := (AddEvent nm powdecay penalty layers).
Notation find_stores := (find_stores false nm cmax buckets atoms bmax gmax layers SZ Tm).
Notation cspec := (conceptualize_spec nm powdecay penalty cmax buckets atoms bmax gmax layers SZ Tm T0 TE TR).
Notation su' := (su nm cmax buckets atoms bmax gmax layers SZ Tm).
Notation ND' := (ND penalty).
Definition has (m : memory) (t : term) : Prop := exists c k, stores m c k /\ c_term k = t.
(** the memory has room for the concepts of the terms *)
Definition space (m : memory) (l : list term) : Prop := concept_count m + length l <= cmax \/ forall t, In t l -> has m t.
Lemma cf_back m m1 t now c k : concept_for m1 t now c k -> (forall d x, stores m d x -> c_term x = t -> stores m1 d x) -> (forall d x, stores m1 d x -> c_term x = t -> stores m d x) -> concept_for m t now c k.
Proof. intros [[A B]|[A B]] H1 H2; [left; auto|right; split; auto]. intros d x H E. apply (A d x); auto. Qed.
Lemma decl_link m e now ei m5 flag a b : minv m -> Tm (e_term e) -> copulaEquals nm (at_ (e_term e) 0) TEMPORAL_IMPLICATION = false ->
  copulaEquals nm (at_ (e_term e) 0) IMPLICATION = true -> Term_ExtractSubterm (e_term e) 1 = a -> Term_ExtractSubterm (e_term e) 2 = b -> a <> b -> space m [b; a] ->
  ProcessImplication nm m (EVal e) now (Event_Eternalized e) ei = Ok (m5, flag) ->
  flag = false /\ minv m5 /\ linked_statement now m m5 a b e /\ concept_count m5 <= concept_count m + 2 /\ (forall t, has m t -> has m5 t) /\ has m5 a /\ has m5 b.
Proof.
  intros I HT NI1 NI2 EA EB NAB RM E. pose proof SZ as (P1 & P2 & P3 & P4 & P5 & P6).
  assert (I5 : minv m5).
  { pose proof (implication_ok false nm powdecay penalty cmax buckets atoms bmax gmax layers P1 P2 P4 P5 P6 P3 ND' Tm T0 TE TR m (EVal e) now (Event_Eternalized e) ei I HT) as X. rewrite E in X. exact X. }
  revert E. unfold ProcessImplication. cbn [ev rbind]. rewrite EA, EB.
  assert (TA : Tm a) by (subst a; apply TE; auto). assert (TB : Tm b) by (subst b; apply TE; auto).
  destruct (cspec m b now I TB) as (m1 & t & kt0 & EC & I1 & ST1 & TT & CF1 & OPS1 & OTH1 & FR1 & RM1). rewrite EC. cbn [rbind].
  destruct (cmod m1 t _) as [m2| |] eqn:E2; cbn [rbind]; try discriminate.
  assert (I2 : minv m2).
  { pose proof (cmod_post false nm penalty cmax buckets atoms bmax gmax layers P1 P2 P4 P5 P6 P3 ND' Tm TE m1 t (fun k => with_usage k (Usage_use (c_usage k) now ei)) I1) as X.
    rewrite E2 in X. apply X; [|apply (use_ok false powdecay penalty cmax buckets atoms bmax gmax layers P1 P2 P4 P5 P6 P3 ND' Tm TE)]. rewrite <- (ci_st _ _ _ m1 (mi_c _ _ _ _ _ _ _ _ m1 I1)). apply nth_error_Some. rewrite (proj2 ST1). discriminate. }
  apply one_mod in E2 as (k1 & O2). assert (k1 = kt0) as -> by (pose proof (o_k _ _ _ _ _ O2); destruct ST1; congruence).
  set (kt1 := with_usage _ _) in O2.
  assert (SRC : source_of nm m2 (at_ (e_term e) 0) a = Some (0, a)) by (unfold source_of; rewrite NI1; reflexivity).
  rewrite SRC. assert (ST2 : stores m2 t kt1) by (eapply one_stores_c; eauto).
  destruct (cspec m2 a now I2 TA) as (m3 & s & ks0 & EC3 & I3 & ST3 & TS & CF3 & OPS3 & OTH3 & FR3 & RM3). rewrite EC3. cbn [rbind].
  destruct (cmod m3 s _) as [m4| |] eqn:E4; cbn [rbind]; try discriminate. apply one_mod in E4 as (k1 & O4). assert (k1 = ks0) as -> by (pose proof (o_k _ _ _ _ _ O4); destruct ST3; congruence).
  set (ks1 := with_usage ks0 _) in O4. unfold cread. rewrite (one_at _ _ _ _ _ O4). cbn [rbind]. rewrite NI2.
  unfold add_link. destruct (cread m4 t) as [k4| |] eqn:R4; cbn [rbind]; try discriminate.
  fold (link_of e s (c_id ks1) now). destruct (Table_AddAndRevise (c_links k4) _) as [[tb ev']| |] eqn:TAR; cbn [rbind fst]; try discriminate.
  destruct (cmod m4 t _) as [m5'| |] eqn:E5; cbn [rbind]; try discriminate. intros X. apply okE in X. injection X as -> <-. split; [reflexivity|]. split; [exact I5|].
  apply one_mod in E5 as (k1 & O5). assert (k1 = k4) as -> by (unfold cread in R4; rewrite (o_k _ _ _ _ _ O5) in R4; apply okE in R4; auto).
  assert (C2 : concept_count m2 = concept_count m1) by (unfold concept_count, stored_slots; rewrite (o_q _ _ _ _ _ O2); reflexivity).
  assert (C4 : concept_count m5 = concept_count m3) by (unfold concept_count, stored_slots; rewrite (o_q _ _ _ _ _ O5), (o_q _ _ _ _ _ O4); reflexivity).
  (* no concept is forgotten *)
  destruct RM1 as [RM1 CC1]; [destruct RM as [RM|RM]; [left; cbn in RM; lia|right; apply (RM b); left; reflexivity]|].
  assert (F2 : forall d x, d <> t -> (stores m2 d x <-> stores m d x)) by (intros d x N; rewrite (one_stores _ _ _ _ _ O2 d x N); apply OTH1; auto).
  assert (H2 : forall u, has m u -> has m2 u).
  { intros u (c & k & A & B). destruct (Nat.eq_dec c t) as [->|N]; [|exists c, k; split; auto; apply F2; auto]. exists t, kt1. split; auto. apply RM1 in A. assert (k = kt0) as -> by (eapply stores_uniq; eauto). exact B. }
  destruct RM3 as [RM3 CC3]; [destruct RM as [RM|RM]; [left; cbn in RM; lia|right; apply H2; apply (RM a); right; left; reflexivity]|].
  assert (N : s <> t).
  { intros ->. pose proof (RM3 _ _ ST2) as Q. assert (kt1 = ks0) by (eapply stores_uniq; eauto). apply NAB. rewrite <- TS, <- TT. subst ks0. reflexivity. }
  assert (S3t : stores m3 t kt1) by (apply RM3; exact ST2).
  assert (S4t : stores m4 t kt1) by (apply (one_stores _ _ _ _ _ O4 t kt1 (not_eq_sym N)); exact S3t).
  assert (k4 = kt1) as -> by (pose proof (o_k _ _ _ _ _ O5); destruct S4t; congruence).
  assert (S5t : stores m5 t (with_links kt1 tb)) by (eapply one_stores_c; eauto).
  assert (S4s : stores m4 s ks1) by (eapply one_stores_c; eauto).
  assert (S5s : stores m5 s ks1) by (apply (one_stores _ _ _ _ _ O5 s ks1 N); exact S4s).
  assert (OTH : forall d x, d <> s -> d <> t -> (stores m5 d x <-> stores m d x)).
  { intros d x A B. rewrite (one_stores _ _ _ _ _ O5 d x B), (one_stores _ _ _ _ _ O4 d x A), (OTH3 d x A). apply F2. exact B. }
  split; [|split; [lia|split; [|split; [exists s, ks1; split; [exact S5s|exact TS]|exists t, (with_links kt1 tb); split; [exact S5t|exact TT]]]]].
  - exists t, s, kt0, ks0, (with_links kt1 tb), ks1, tb, ev'. split; [exact CF1|]. split.
    { apply (cf_back m m2 a now s ks0 CF3).
      - intros d x A B. destruct (Nat.eq_dec d t) as [->|D]; [exfalso|apply F2; auto]. apply RM1 in A. assert (x = kt0) as -> by (eapply stores_uniq; eauto). apply NAB. rewrite <- B, <- TT. reflexivity.
      - intros d x A B. destruct (Nat.eq_dec d t) as [->|D]; [exfalso|apply F2; auto]. assert (x = kt1) as -> by (eapply stores_uniq; eauto). apply NAB. rewrite <- B, <- TT. reflexivity. }
    split; [exact N|]. split; [exact S5t|]. split; [exact S5s|]. split; [exact TAR|]. split; [split; [reflexivity|eexists; reflexivity]|]. split; [reflexivity|].
    split; [|exact OTH]. exists kt1. split; [split; [reflexivity|eexists; reflexivity]|reflexivity].
  - intros u (c & k & A & B). destruct (Nat.eq_dec c t) as [->|D1].
    + exists t, (with_links kt1 tb). split; auto. apply RM1 in A. assert (k = kt0) as -> by (eapply stores_uniq; eauto). exact B.
    + destruct (Nat.eq_dec c s) as [->|D2]; [|exists c, k; split; auto; apply OTH; auto]. exists s, ks1. split; auto.
      assert (A2 : stores m3 s k) by (apply RM3; apply F2; auto). assert (k = ks0) as -> by (eapply stores_uniq; eauto). exact B.
Qed.
(** telling <a ==> b>: the link, then the statement; if the statement is revised, the revised belief
    is told again *)
Lemma add_decl fuel m e now p input revised layer m' a b : minv m -> Tm (e_term e) -> e_type e = EVENT_TYPE_BELIEF -> copulaEquals nm (at_ (e_term e) 0) TEMPORAL_IMPLICATION = false ->
  copulaEquals nm (at_ (e_term e) 0) IMPLICATION = true -> Term_ExtractSubterm (e_term e) 1 = a -> Term_ExtractSubterm (e_term e) 2 = b ->
  a <> b -> e_term e <> a -> e_term e <> b -> space m [b; a; e_term e] ->
  let pe := entry_priority penalty e p input revised in accepted m e pe input ->
  Add fuel m (EVal e) now p input revised layer = Ok m' ->
  exists m1 m2 c k0 k, linked_statement now m m1 a b e /\ concept_for m (e_term e) now c k0 /\ concept_for m1 (e_term e) now c k0 /\ stores m2 c k /\ remembers nm powdecay now pe e k0 k /\
    (forall d x, d <> c -> (stores m2 d x <-> stores m1 d x)) /\
    (m' = m2 \/ (exists x, RevisionAndChoice nm powdecay (c_belief k0) (Event_Eternalized e) = Ok (x, true)) /\
                exists f, Add f m2 (EBelief c) now pe false true 0 = Ok m').
Proof.
  intros I HT TB NI1 NI2 EA EB NAB NA NB RM pe (AC1 & AC2 & AC3). pose proof SZ as (P1 & P2 & P3 & P4 & P5 & P6). destruct fuel as [|fuel]; cbn [AddEvent]; [discriminate|]. cbn [ev rbind].
  assert (U : (if m_restricted m && negb input && negb (copulaEquals nm (at_ (e_term e) 0) TEMPORAL_IMPLICATION) then do f <- FindConceptByTerm m (e_term e) ; Ok (match f with None => true | Some _ => false end) else Ok false) = Ok false).
  { destruct (m_restricted m) eqn:R; [|reflexivity]. destruct input; [reflexivity|]. rewrite NI1. cbn [negb andb]. destruct (AC3 eq_refl eq_refl) as (c & k & A & B). destruct (find_stores m (e_term e) I) as (r & -> & H).
    assert (r = Some c) as -> by (apply H; eauto). reflexivity. }
  rewrite U. cbn [rbind]. cbv zeta. fold (entry_priority penalty e p input revised). fold pe. change (MIN_CONFIDENCE f64A) with (fdec 1 100). rewrite AC1, AC2. cbn [orb]. rewrite TB.
  change (EVENT_TYPE_BELIEF =? EVENT_TYPE_BELIEF)%Z with true. change (EVENT_TYPE_BELIEF =? EVENT_TYPE_GOAL)%Z with false. cbn [orb rassert].
  set (mq := if negb _ && negb _ then _ else Ok m). destruct mq as [m0| |] eqn:EQ; unfold mq in EQ; cbn [rbind]; try discriminate.
  assert (A1 : m_concepts m0 = m_concepts m /\ m_store m0 = m_store m /\ minv m0).
  { destruct (negb _ && negb _); [|apply okE in EQ; subst; auto]. pose proof (add_cycling false nm powdecay penalty cmax buckets atoms bmax gmax layers P1 P2 P4 P5 P6 P3 ND' Tm TE m (EVal e) pe layer I) as AC.
    destruct (addCyclingEvent _ _ _ _ _) as [[m2 bb]| |] eqn:EAC; cbn [rbind fst] in EQ; try discriminate. apply okE in EQ. subst m2. destruct (cycling_same _ _ _ _ _ _ _ EAC) as [A B]. split; auto. split; auto.
    destruct AC as [AC _]; [exact HT|split; [apply SU|exact AC2]| |exact AC]. intros e' X. cbn [ev] in X. apply okE in X. subst. exact AC1. }
  clear EQ. clear mq. destruct A1 as (A1 & A2 & I0).
  assert (S0 : forall c k, stores m0 c k <-> stores m c k) by (intros; unfold stores, stored_slots; rewrite A1, A2; reflexivity).
  assert (RM0 : space m0 [b; a; e_term e]).
  { destruct RM as [RM|RM]; [left; unfold concept_count, stored_slots in *; rewrite A1; exact RM|right; intros t Ht; destruct (RM t Ht) as (c & k & Q1 & Q2); exists c, k; split; auto; apply S0; auto]. }
  unfold ProcessNewBeliefEvent. cbn [ev rbind]. rewrite NI1, NI2. cbn [orb].
  destruct (ProcessImplication _ _ _ _ _ _) as [[m1 flag]| |] eqn:EL; cbn [rbind]; try discriminate.
  apply (decl_link m0 e now _ m1 flag a b I0 HT NI1 NI2 EA EB NAB) in EL; [|destruct RM0 as [R|R]; [left; cbn in *; lia|right; intros t Ht; apply R; destruct Ht as [<-|[<-|[]]]; cbn; auto]].
  destruct EL as (-> & I1 & LS & CC & HH & _ & _). cbn [rbind negb].
  destruct (ProcessConcept _ _ _ _ _ _ _ _ _) as [m2| |] eqn:EP; cbn [rbind]; try discriminate. intros X. apply okE in X. subst m2.
  apply (process_val nm powdecay penalty cmax buckets atoms bmax gmax layers SZ Tm T0 TE TR) in EP; auto; [|rewrite TB; discriminate]. destruct EP as (mc & c & k0 & m2 & k & x & again & EC & I2 & HC & O & RMB & RV & KB & AG).
  destruct (cspec m1 (e_term e) now I1 HT) as (mc' & c' & kc & EC' & IC & SC & TC & CF & OPS & OTH & FR & RMC). rewrite EC in EC'. apply okE in EC'. injection EC' as <- <-.
  assert (kc = k0) as -> by (pose proof (o_k _ _ _ _ _ O); destruct SC; congruence).
  destruct RMC as [RMC _]; [destruct RM0 as [R|R]; [left; cbn in R; lia|right; apply HH; apply R; cbn; auto]|].
  assert (LS' : linked_statement now m m1 a b e).
  { destruct LS as (t & s & kt0 & ks0 & kt & ks & tb & ev & C1 & C2 & D & S1 & S2 & R). destruct R as (R1 & R2 & R3 & R4 & R5).
    assert (CFB : forall u q kk, concept_for m0 u now q kk -> concept_for m u now q kk) by (intros u q kk W; eapply cf_back; [exact W| |]; intros d y Y _; apply S0; exact Y).
    exists t, s, kt0, ks0, kt, ks, tb, ev. split; [apply CFB, C1|]. split; [apply CFB, C2|]. split; [exact D|]. split; [exact S1|]. split; [exact S2|]. split; [exact R1|]. split; [exact R2|]. split; [exact R3|]. split; [exact R4|].
    intros d y N1 N2. rewrite (R5 d y N1 N2). apply S0. }
  exists m1, m2, c, k0, k. split; [exact LS'|]. split; [|split; [exact CF|split; [eapply one_stores_c; eauto|split; [apply RMB; exact TC|split]]]].
  - destruct LS as (t & s & kt0 & ks0 & kt & ks & tb & ev & C1 & C2 & D & S1 & S2 & R). destruct R as (R1 & (U1 & u & ->) & R3 & (k1 & (U2 & u2 & ->) & ->) & R5).
    assert (Tt : c_term kt0 = b) by (destruct C1 as [[_ W]|[_ W]]; [exact W|apply W]). assert (Ts : c_term ks0 = a) by (destruct C2 as [[_ W]|[_ W]]; [exact W|apply W]).
    apply (cf_back m m1 _ now c k0 CF).
    + intros d y Y Z. apply S0 in Y. destruct (Nat.eq_dec d t) as [->|N1].
      { exfalso. destruct C1 as [[W1 W2]|[W1 W2]].
        - assert (y = kt0) as -> by (eapply stores_uniq; eauto). congruence.
        - pose proof (mi_c _ _ _ _ _ _ _ _ m1 I1) as _. destruct (HH (c_term y)) as (d' & y' & Y1 & Y2); [exists t, y; auto|].
          destruct (Nat.eq_dec d' t) as [->|N]; [assert (y' = with_links (with_usage kt0 u2) tb) as -> by (eapply stores_uniq; eauto); cbn in Y2; congruence|].
          destruct (Nat.eq_dec d' s) as [->|N']; [assert (y' = with_usage ks0 u) as -> by (eapply stores_uniq; eauto); cbn in Y2; congruence|].
          apply R5 in Y1; auto. apply N. eapply (su' m0); eauto. }
      destruct (Nat.eq_dec d s) as [->|N2].
      { exfalso. destruct C2 as [[W1 W2]|[W1 W2]].
        - assert (y = ks0) as -> by (eapply stores_uniq; eauto). congruence.
        - destruct (HH (c_term y)) as (d' & y' & Y1 & Y2); [exists s, y; auto|].
          destruct (Nat.eq_dec d' t) as [->|N]; [assert (y' = with_links (with_usage kt0 u2) tb) as -> by (eapply stores_uniq; eauto); cbn in Y2; congruence|].
          destruct (Nat.eq_dec d' s) as [->|N']; [assert (y' = with_usage ks0 u) as -> by (eapply stores_uniq; eauto); cbn in Y2; congruence|].
          apply R5 in Y1; auto. apply N'. eapply (su' m0); eauto. }
      apply R5; auto.
    + intros d y Y Z. destruct (Nat.eq_dec d t) as [->|N1]; [exfalso; assert (y = with_links (with_usage kt0 u2) tb) as -> by (eapply stores_uniq; eauto); cbn in Z; congruence|].
      destruct (Nat.eq_dec d s) as [->|N2]; [exfalso; assert (y = with_usage ks0 u) as -> by (eapply stores_uniq; eauto); cbn in Z; congruence|].
      apply R5 in Y; auto. apply S0. exact Y.
  - intros d y Nd. rewrite (one_stores _ _ _ _ _ O d y Nd). apply OTH. exact Nd.
  - destruct again; [|left; exact AG]. right. split; [exists x; exact RV|exists fuel; exact AG].
Qed.
End Add.
