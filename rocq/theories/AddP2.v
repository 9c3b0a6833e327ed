(** Proofs about what concepts remember (C64). *)
From Coq Require Import ZArith List Bool Permutation Lia.
From Flocq Require Import IEEE754.BinarySingleNaN.
From Verif Require Import Base F64 TruthM StampM StampP TermM TermP NamesM EventM InferenceM TableM UsageM RingM RingP InvIndexM InvIndexS MemoryM MemoryS MemoryP UsefulP EQueueP MemoryP2 MemoryP3 AddS AddP.
From Verif Require PQueueM PQueueP.
Local Open Scope nat_scope.
#[local] Opaque fofZ fdec fadd fmul fdiv fltb fleb MIN_CONFIDENCE Term_ExtractSubterm Table_AddAndRevise OccurrenceTimeIndex_Add Term_Complexity Conceptualize Usage_use Truth_Projection Truth_Revision.
Lemma fltb_irr (x : f64) : fltb x x = false.
Proof.
  destruct x as [s|s| |s m e H]; try (destruct s; reflexivity); try reflexivity. destruct (fltb (B754_finite s m e H) (B754_finite s m e H)) eqn:E; auto.
  apply F64.fltb_spec in E; try reflexivity. exfalso. apply (RIneq.Rlt_irrefl _ E).
Qed.
Lemma overlap_self s : hd 0%Z s <> 0%Z -> stamp_check_overlap s s = true.
Proof.
  intros H. apply stamp_overlap_spec. destruct s as [|x s]; [contradiction|]. cbn in H. exists x. cbn [ids]. destruct (Z.eqb_spec x STAMP_FREE) as [E|E]; [rewrite E in H; contradiction|]. cbn. auto.
Qed.
Lemma make_hd a b : stamp_wf a -> hd 0%Z b <> 0%Z -> hd 0%Z (stamp_make a b) <> 0%Z.
Proof.
  intros A B. destruct a as [|x a]; [discriminate A|]. destruct b as [|y b]; [contradiction|]. cbn in B.
  assert (Z : forall l1 l2 p1 p2 acc, acc <> [] -> hd 0%Z acc <> 0%Z -> zip_loop l1 l2 p1 p2 acc <> [] /\ hd 0%Z (zip_loop l1 l2 p1 p2 acc) <> 0%Z).
  { assert (AP : forall (acc : list Z) z, acc <> [] -> hd 0%Z acc <> 0%Z -> acc ++ [z] <> [] /\ hd 0%Z (acc ++ [z]) <> 0%Z) by (intros acc z N H; destruct acc; [contradiction|]; cbn in *; split; [discriminate|exact H]).
    induction l1 as [|u l1 IH]; intros [|w l2] p1 p2 acc N H; cbn [zip_loop]; auto.
    set (p1' := p1 && _). set (p2' := p2 && _). cbv zeta.
    assert (N1 : (if p1' then acc ++ [u] else acc) <> [] /\ hd 0%Z (if p1' then acc ++ [u] else acc) <> 0%Z) by (destruct p1'; auto).
    destruct (p1' && _); auto.
    assert (N2 : (if p2' then (if p1' then acc ++ [u] else acc) ++ [w] else (if p1' then acc ++ [u] else acc)) <> [] /\ hd 0%Z (if p2' then (if p1' then acc ++ [u] else acc) ++ [w] else (if p1' then acc ++ [u] else acc)) <> 0%Z) by (destruct N1; destruct p2'; auto).
    destruct (p2' && _); auto. destruct (negb p1' && negb p2'); auto. destruct N2. apply IH; auto. }
  assert (W : zip_loop (x :: a) (y :: b) true true [] <> [] /\ hd 0%Z (zip_loop (x :: a) (y :: b) true true []) <> 0%Z).
  { cbn [zip_loop]. cbv zeta. change STAMP_FREE with 0%Z. rewrite (proj2 (Z.eqb_neq y 0) B). cbn [andb negb]. destruct (Z.eqb_spec x 0) as [E|E]; cbn [andb negb app length].
    - change (STAMP_SIZE <=? 1) with false. cbn [andb]. apply Z; [discriminate|exact B].
    - change (STAMP_SIZE <=? 1) with false. change (STAMP_SIZE <=? 2) with false. cbn [andb]. apply Z; [discriminate|exact E]. }
  unfold stamp_make. destruct (zip_loop (x :: a) (y :: b) true true []) as [|z w]; [destruct W; contradiction|]. cbn in *. apply W.
Qed.
Section Add.
Variable nm : names.
Variable powdecay : Z -> f64.
Variable penalty : nat -> f64.
Variables cmax buckets atoms bmax gmax layers : nat.
Hypothesis SZ : sizes_ok cmax buckets atoms bmax gmax layers.
Variable Tm : term -> Prop.
Hypothesis T0 : Tm zero_term.
Hypothesis TE : forall t j, Tm t -> Tm (Term_ExtractSubterm t j).
Hypothesis TR : forall t, Tm t -> atoms_in_range atoms t.
Notation minv := (minv false nm cmax atoms bmax gmax layers Tm).
Notation Add := (AddEvent nm powdecay penalty layers).
Notation find_stores := (find_stores false nm cmax buckets atoms bmax gmax layers SZ Tm).
(** *** revision of a belief with itself *)
Lemma rac_self r now : hd 0%Z (e_stamp r) <> 0%Z -> e_type r <> EVENT_TYPE_DELETED -> e_creation r = now -> RevisionAndChoice nm powdecay r r = Ok (r, false) /\ with_creation r now = r.
Proof.
  intros H T C. split; [|destruct r; cbn in *; subst; reflexivity]. unfold RevisionAndChoice. rewrite (proj2 (Z.eqb_neq _ _) T). rewrite overlap_self by exact H. cbn [orb]. destruct (fltb _ _); reflexivity.
Qed.
Lemma rac_merged old inc x : e_occ inc = OCCURRENCE_ETERNAL -> stamp_wf (e_stamp old) -> hd 0%Z (e_stamp inc) <> 0%Z ->
  RevisionAndChoice nm powdecay old inc = Ok (x, true) -> e_occ x = OCCURRENCE_ETERNAL /\ e_term x = e_term inc /\ hd 0%Z (e_stamp x) <> 0%Z /\ e_type x = e_type old /\ e_type old <> EVENT_TYPE_DELETED.
Proof.
  intros O W H. unfold RevisionAndChoice. destruct (Z.eqb_spec (e_type old) EVENT_TYPE_DELETED) as [D|D]; [intros X; discriminate X|]. cbv zeta.
  destruct (stamp_check_overlap _ _ || _ || _ || _) eqn:C; [destruct (fltb _ _); intros X; discriminate X|]. apply orb_false_elim in C as [C C4]. apply orb_false_elim in C as [C C3].
  destruct (fleb _ _); intros X; [|discriminate X]. apply okE in X. injection X as <-. apply negb_false_iff in C4. apply term_eqb_spec in C4.
  assert (EO : e_occ old = OCCURRENCE_ETERNAL).
  { destruct (Z.eqb_spec (e_occ old) OCCURRENCE_ETERNAL) as [E|E]; auto. cbn [negb andb] in C3. apply negb_false_iff in C3. apply Z.eqb_eq in C3. congruence. }
  unfold EventRevision, EventUpdate. cbn [e_occ e_term e_stamp e_type]. rewrite O, EO, Z.ltb_irrefl. repeat split; auto. apply make_hd; auto.
Qed.
#[local] Opaque RevisionAndChoice.
(** *** one concept changes *)
Record one (m m' : memory) (c : nat) (k k' : concept) : Prop := {
  o_q : m_concepts m' = m_concepts m; o_k : nth_error (m_store m) c = Some k; o_s : m_store m' = upd (m_store m) c k' }.
Lemma one_mod m c f m' : cmod m c f = Ok m' -> exists k, one m m' c k (f k).
Proof. unfold cmod, cread. destruct (nth_error (m_store m) c) as [k|] eqn:E; cbn [rbind]; [|discriminate]. intros X. apply okE in X. subst m'. exists k. constructor; auto. Qed.
Lemma one_refl m c k : nth_error (m_store m) c = Some k -> one m m c k k.
Proof. intros H. constructor; auto. symmetry. apply nth_error_ext. intros i. rewrite nth_error_upd. destruct (Nat.eqb_spec i c) as [->|]; auto. rewrite H. destruct (c <? length (m_store m)) eqn:L; auto. Qed.
Lemma upd_upd {A} (l : list A) : forall i x y, upd (upd l i x) i y = upd l i y.
Proof. induction l; intros [|i] x y; cbn; auto. f_equal. auto. Qed.
Lemma one_at m m' c k k' : one m m' c k k' -> nth_error (m_store m') c = Some k'.
Proof. intros [A B C]. rewrite C, nth_error_upd, Nat.eqb_refl. assert (L : c < length (m_store m)) by (apply nth_error_Some; congruence). apply Nat.ltb_lt in L. rewrite L. reflexivity. Qed.
Lemma one_trans m1 m2 m3 c k1 k2 k2' k3 : one m1 m2 c k1 k2 -> one m2 m3 c k2' k3 -> one m1 m3 c k1 k3 /\ k2' = k2.
Proof.
  intros O1 O2. pose proof (one_at _ _ _ _ _ O1) as X. destruct O1 as [A B C], O2 as [A' B' C']. split; [|congruence]. constructor; try congruence. rewrite C', C. apply upd_upd.
Qed.
Lemma one_same m m1 m2 c k k' : one m m1 c k k' -> m_concepts m2 = m_concepts m1 -> m_store m2 = m_store m1 -> one m m2 c k k'.
Proof. intros [A B C] D E. constructor; congruence. Qed.
Lemma same_one m m1 m2 c k k' : m_concepts m1 = m_concepts m -> m_store m1 = m_store m -> one m1 m2 c k k' -> one m m2 c k k'.
Proof. intros D E [A B C]. constructor; congruence. Qed.

Lemma ND : false = true -> penalty_ok penalty. Proof. discriminate. Qed.
Lemma SU p : su01 false p. Proof. intros X; discriminate X. Qed.
(** writing the event into its concept; [again] tells whether the belief was revised *)
Lemma process_val m e now ei p rec m' : minv m -> Tm (e_term e) -> e_type e <> EVENT_TYPE_GOAL -> fleb p f0 = false ->
  ProcessConcept nm powdecay rec m (EVal e) now (Event_Eternalized e) ei p = Ok m' ->
  exists m0 c k0 m1 k x again, Conceptualize nm m (e_term e) now = Ok (m0, Some c) /\ minv m1 /\ c < cmax /\ one m0 m1 c k0 k /\
    (c_term k0 = e_term e -> remembers nm powdecay now p e k0 k) /\
    RevisionAndChoice nm powdecay (c_belief k0) (Event_Eternalized e) = Ok (x, again) /\ c_belief k = with_creation x now /\
    (if again then rec m1 c p = Ok m' else m' = m1).
Proof.
  intros I HT NG GP E. pose proof SZ as (P1 & P2 & P3 & P4 & P5 & P6). destruct (eternalized e) as [ET EY].
  destruct (conceptualize_ok false nm powdecay penalty cmax buckets atoms bmax gmax layers P1 P2 P4 P5 P6 P3 ND Tm T0 TE TR m (e_term e) now I HT) as (m0 & c & EC & I0 & HC & _ & _).
  assert (STEP : post false (ProcessConcept nm powdecay (fun m _ _ => Ok m) m (EVal e) now (Event_Eternalized e) ei p) minv).
  { apply (concept_step false nm powdecay penalty cmax buckets atoms bmax gmax layers P1 P2 P4 P5 P6 P3 ND Tm T0 TE TR); auto; cbn [ref_ok]; try (rewrite ?ET, ?EY; auto).
    - split; [apply SU|exact GP]. }
  revert E STEP. unfold ProcessConcept. cbn [ev rbind]. rewrite EC. cbn [rbind]. cbv zeta.
  set (ma := if negb (e_occ e =? OCCURRENCE_ETERNAL)%Z && negb (_ && _) then _ else Ok m0).
  destruct ma as [m1| |] eqn:EA; unfold ma in EA; cbn [rbind]; try discriminate.
  assert (A1 : m_concepts m1 = m_concepts m0 /\ m_store m1 = m_store m0).
  { destruct (negb _ && negb _); [|apply okE in EA; subst; auto]. destruct (OccurrenceTimeIndex_Add c (m_ring m0)) as [f| |]; cbn [rbind] in EA; try discriminate. apply okE in EA. subst m1. auto. }
  clear EA. clear ma.
  destruct (cmod m1 c _) as [m2| |] eqn:E2; cbn [rbind]; try discriminate. apply one_mod in E2 as (k0 & O2).
  destruct (cmod m2 c _) as [m3| |] eqn:E3; cbn [rbind]; try discriminate. apply one_mod in E3 as (k1 & O3).
  destruct (one_trans _ _ _ _ _ _ _ _ O2 O3) as [O23 ->]. apply (same_one m0) in O23; [|apply A1|apply A1]. clear O2 O3.
  set (ka := with_priority _ _) in O23.
  set (mb := if negb (e_occ e =? OCCURRENCE_ETERNAL)%Z && (e_occ e <=? now)%Z then _ else Ok m3).
  destruct mb as [m4| |] eqn:EB; unfold mb in EB; cbn [rbind]; try discriminate.
  assert (B : exists kb, one m0 m4 c k0 kb /\ kb = with_spike ka (c_spike kb) /\
     (if negb (e_occ e =? OCCURRENCE_ETERNAL)%Z && (e_occ e <=? now)%Z then kept nm powdecay now (c_spike k0) e (c_spike kb) else c_spike kb = c_spike k0)).
  { destruct (negb (e_occ e =? OCCURRENCE_ETERNAL)%Z && (e_occ e <=? now)%Z).
    - unfold cread in EB. rewrite (one_at _ _ _ _ _ O23) in EB. cbn [rbind] in EB. destruct (RevisionAndChoice _ _ _ _) as [[x b]| |] eqn:R; cbn [rbind fst] in EB; try discriminate.
      apply one_mod in EB as (k' & O4). destruct (one_trans _ _ _ _ _ _ _ _ O23 O4) as [O4' ->]. eexists. split; [exact O4'|]. split; [reflexivity|]. exists x, b. split; [exact R|reflexivity].
    - apply okE in EB. subst m4. exists ka. split; [exact O23|]. split; reflexivity. }
  clear EB. clear mb. destruct B as (kb & OB & KB & SB).
  set (mc := if negb (e_occ e =? OCCURRENCE_ETERNAL)%Z && (now <? e_occ e)%Z then _ else Ok m4).
  destruct mc as [m5| |] eqn:EB; unfold mc in EB; cbn [rbind]; try discriminate.
  assert (B : exists kc, one m0 m5 c k0 kc /\ kc = with_predicted kb (c_predicted kc) /\
     (if negb (e_occ e =? OCCURRENCE_ETERNAL)%Z && (now <? e_occ e)%Z then kept nm powdecay now (c_predicted k0) e (c_predicted kc) else c_predicted kc = c_predicted k0)).
  { destruct (negb (e_occ e =? OCCURRENCE_ETERNAL)%Z && (now <? e_occ e)%Z).
    - unfold cread in EB. rewrite (one_at _ _ _ _ _ OB) in EB. cbn [rbind] in EB. destruct (RevisionAndChoice _ _ _ _) as [[x b]| |] eqn:R; cbn [rbind fst] in EB; try discriminate.
      apply one_mod in EB as (k' & O4). destruct (one_trans _ _ _ _ _ _ _ _ OB O4) as [O4' ->]. eexists. split; [exact O4'|]. split; [reflexivity|]. exists x, b. split; auto. rewrite KB in R. exact R.
    - apply okE in EB. subst m5. exists kb. split; [exact OB|]. split; [destruct kb; reflexivity|rewrite KB; reflexivity]. }
  clear EB. clear mc. destruct B as (kc & OC & KC & SC).
  unfold cread. rewrite (one_at _ _ _ _ _ OC). cbn [rbind].
  destruct (RevisionAndChoice nm powdecay (c_belief kc) (Event_Eternalized e)) as [[x b]| |] eqn:R; cbn [rbind fst snd]; try discriminate.
  destruct (cmod m5 c _) as [m6| |] eqn:E6; cbn [rbind]; try discriminate. apply one_mod in E6 as (k' & O6). destruct (one_trans _ _ _ _ _ _ _ _ OC O6) as [O6' ->].
  intros E STEP. assert (I6 : minv m6) by (destruct b; exact STEP). rewrite KC, KB in R. cbn in R.
  exists m0, c, k0, m6, (with_belief kc (with_creation x now)), x, b. split; auto. split; auto. split; auto. split; auto. split; [|split; [exact R|split; [reflexivity|]]].
  2: { destruct b; [exact E|apply okE in E; auto]. }
  intros TK. rewrite KC, KB. unfold remembers, ka. cbn. repeat split; auto.
  - intros [Q1 Q2]. rewrite (proj2 (Z.eqb_neq _ _) Q1) in SB. rewrite (proj2 (Z.leb_le _ _) Q2) in SB. exact SB.
  - intros [Q|Q]; [rewrite (proj2 (Z.eqb_eq _ _) Q) in SB; exact SB|]. rewrite (proj2 (Z.leb_gt _ _) Q), andb_false_r in SB. exact SB.
  - intros [Q1 Q2]. rewrite (proj2 (Z.eqb_neq _ _) Q1) in SC. rewrite (proj2 (Z.ltb_lt _ _) Q2) in SC. exact SC.
  - intros [Q|Q]; [rewrite (proj2 (Z.eqb_eq _ _) Q) in SC; exact SC|]. rewrite (proj2 (Z.ltb_ge _ _) Q), andb_false_r in SC. exact SC.
  - exists x, b. auto.
Qed.

Lemma one_stores m m' c k k' : one m m' c k k' -> forall d x, d <> c -> (stores m' d x <-> stores m d x).
Proof. intros [A B C] d x N. unfold stores, stored_slots. rewrite A, C, nth_error_upd. rewrite (proj2 (Nat.eqb_neq _ _) N). reflexivity. Qed.
Lemma one_stores_c m m' c k k' : one m m' c k k' -> stores m c k -> stores m' c k'.
Proof. intros O S. split; [|eapply one_at; eauto]. unfold stored_slots. rewrite (o_q _ _ _ _ _ O). apply S. Qed.
Lemma concept_found m t c k now : minv m -> stores m c k -> c_term k = t -> Conceptualize nm m t now = Ok (m, Some c).
Proof.
  intros I S E. destruct (find_stores m t I) as (r & F & H). assert (r = Some c) as -> by (apply H; eauto). Transparent Conceptualize. unfold Conceptualize. Opaque Conceptualize. rewrite F. reflexivity.
Qed.
(** the second round for a revised belief only counts as another use *)
Lemma process_belief m c k now ei p rec m' : minv m -> stores m c k -> e_term (c_belief k) = c_term k -> e_occ (c_belief k) = OCCURRENCE_ETERNAL ->
  hd 0%Z (e_stamp (c_belief k)) <> 0%Z -> e_type (c_belief k) <> EVENT_TYPE_DELETED -> e_creation (c_belief k) = now ->
  ProcessConcept nm powdecay rec m (EBelief c) now (Event_Eternalized (c_belief k)) ei p = Ok m' ->
  one m m' c k (with_priority (with_usage k (Usage_use (c_usage k) now ei)) (fmax (c_priority k) p)).
Proof.
  intros I S ET EO HS HD HN. unfold ProcessConcept. assert (RK : forall m1, nth_error (m_store m1) c = Some k -> ev m1 (EBelief c) = Ok (c_belief k)) by (intros m1 N; cbn [ev]; unfold cread; rewrite N; reflexivity).
  rewrite (RK m (proj2 S)). cbn [rbind]. rewrite (concept_found m _ c k now I S (eq_sym ET)). cbn [rbind]. rewrite (RK m (proj2 S)). cbn [rbind]. cbv zeta. rewrite EO, Z.eqb_refl. cbn [negb andb rbind].
  destruct (cmod m c _) as [m2| |] eqn:E2; cbn [rbind]; try discriminate. apply one_mod in E2 as (k1 & O2). assert (k1 = k) as -> by (pose proof (o_k _ _ _ _ _ O2); pose proof (proj2 S); congruence).
  destruct (cmod m2 c _) as [m3| |] eqn:E3; cbn [rbind]; try discriminate. apply one_mod in E3 as (k1 & O3). destruct (one_trans _ _ _ _ _ _ _ _ O2 O3) as [O23 ->]. clear O2 O3.
  unfold cread. rewrite (one_at _ _ _ _ _ O23). cbn [rbind].
  assert (EE : Event_Eternalized (c_belief k) = c_belief k) by (unfold Event_Eternalized; rewrite EO; reflexivity). rewrite EE.
  change (c_belief (with_priority (with_usage k (Usage_use (c_usage k) now ei)) (fmax (c_priority (with_usage k (Usage_use (c_usage k) now ei))) p))) with (c_belief k).
  destruct (rac_self (c_belief k) now HS HD HN) as [R W]. rewrite R. cbn [rbind fst snd].
  destruct (cmod m3 c _) as [m4| |] eqn:E4; cbn [rbind]; try discriminate. intros X. apply okE in X. subst m4. apply one_mod in E4 as (k1 & O4). destruct (one_trans _ _ _ _ _ _ _ _ O23 O4) as [O5 ->].
  rewrite W in O5. replace (with_belief _ _) with (with_priority (with_usage k (Usage_use (c_usage k) now ei)) (fmax (c_priority k) p)) in O5; [exact O5|]. destruct k; reflexivity.
Qed.
Lemma fmax_idem a b : fmax (fmax a b) b = fmax a b.
Proof.
  unfold fmax. destruct (fltb b a) eqn:E; [rewrite E; reflexivity|]. assert (X : fltb b b = false) by (apply fltb_irr). rewrite X. reflexivity.
Qed.
(** *** adding a belief *)
Lemma cycling_same m r p layer m' b : addCyclingEvent layers m r p layer = Ok (m', b) -> m_concepts m' = m_concepts m /\ m_store m' = m_store m.
Proof.
  unfold addCyclingEvent. destruct (ev m r) as [e| |]; cbn [rbind]; try discriminate. destruct (rassert _); cbn [rbind]; try discriminate.
  destruct (if _ : bool then _ else _) as [kn| |]; cbn [rbind]; try discriminate. destruct kn; [intros X; apply okE in X; injection X as <- <-; auto|].
  destruct (_ && _); [intros X; apply okE in X; injection X as <- <-; auto|]. destruct (FindConceptByTerm _ _) as [f| |]; cbn [rbind]; try discriminate.
  match goal with |- rbind ?x _ = _ -> _ => destruct x as [bt| |]; cbn [rbind]; try discriminate end. destruct bt; [intros X; apply okE in X; injection X as <- <-; auto|].
  destruct (_ =? _)%Z.
  - destruct (epush _ _ _) as [[q b']| |]; cbn [rbind fst snd]; try discriminate. intros X; apply okE in X; injection X as <- <-; auto.
  - destruct (nth_error _ _); [|discriminate]. destruct (epush _ _ _) as [[q b']| |]; cbn [rbind fst snd]; try discriminate. intros X; apply okE in X; injection X as <- <-; auto.
Qed.
Lemma add_again fuel m c k now p m' : minv m -> stores m c k -> e_term (c_belief k) = c_term k -> e_occ (c_belief k) = OCCURRENCE_ETERNAL ->
  hd 0%Z (e_stamp (c_belief k)) <> 0%Z -> e_type (c_belief k) <> EVENT_TYPE_DELETED -> e_creation (c_belief k) = now -> no_implication nm (c_term k) ->
  Add fuel m (EBelief c) now p false true 0 = Ok m' -> m_concepts m' = m_concepts m /\ m_store m' = m_store m \/
    one m m' c k (with_priority (with_usage k (Usage_use (c_usage k) now false)) (fmax (c_priority k) p)).
Proof.
  intros I S ET EO HS HD HN [NI1 NI2]. pose proof SZ as (P1 & P2 & P3 & P4 & P5 & P6). destruct fuel as [|fuel]; cbn [AddEvent]; [discriminate|].
  assert (RK : ev m (EBelief c) = Ok (c_belief k)) by (cbn [ev]; rewrite (stores_read _ _ _ S); reflexivity). rewrite RK. cbn [rbind].
  set (u := if m_restricted m && _ && _ then _ else _). destruct u as [b| |]; cbn [rbind]; try discriminate. destruct b; [intros X; apply okE in X; subst; auto|]. cbn [negb andb]. cbv zeta.
  destruct (fltb (confidence (e_truth (c_belief k))) (MIN_CONFIDENCE f64A)) eqn:MC; [intros X; apply okE in X; subst; auto|]. destruct (fleb p f0) eqn:PZ; [intros X; apply okE in X; subst; auto|]. cbn [orb].
  assert (TAIL : forall m1 : memory, (do m2 <- (if (e_type (c_belief k) =? EVENT_TYPE_GOAL)%Z then do mb <- addCyclingEvent layers m1 (EBelief c) p 0 ; do _ <- rassert (negb (e_occ (c_belief k) =? OCCURRENCE_ETERNAL)%Z) ; Ok (fst mb) else Ok m1) ;
      do _ <- rassert ((e_type (c_belief k) =? EVENT_TYPE_BELIEF)%Z || (e_type (c_belief k) =? EVENT_TYPE_GOAL)%Z) ; Ok m2) = Ok m' -> m_concepts m' = m_concepts m1 /\ m_store m' = m_store m1).
  { intros m1 H. destruct (_ =? EVENT_TYPE_GOAL)%Z.
    - destruct (addCyclingEvent _ _ _ _ _) as [[m2 b]| |] eqn:EA; cbn [rbind fst] in H; try discriminate. destruct (rassert _); cbn [rbind] in H; try discriminate. destruct (rassert _); cbn [rbind] in H; try discriminate.
      apply okE in H. subst m2. eapply cycling_same; eauto.
    - cbn [rbind] in H. destruct (rassert _); cbn [rbind] in H; try discriminate. apply okE in H. subst. auto. }
  destruct (Z.eqb_spec (e_type (c_belief k)) EVENT_TYPE_BELIEF) as [TB|TB].
  2:{ cbn [rbind]. rewrite RK. cbn [rbind]. intros X. left. apply TAIL. destruct (e_type (c_belief k) =? EVENT_TYPE_BELIEF)%Z eqn:Q; [apply Z.eqb_eq in Q; contradiction|]. exact X. }
  set (mq := if negb _ && negb _ then _ else Ok m). destruct mq as [m1| |] eqn:EQ; unfold mq in EQ; cbn [rbind]; try discriminate.
  assert (A1 : m_concepts m1 = m_concepts m /\ m_store m1 = m_store m /\ minv m1).
  { destruct (negb _ && negb _); [|apply okE in EQ; subst; auto]. pose proof (add_cycling false nm powdecay penalty cmax buckets atoms bmax gmax layers P1 P2 P4 P5 P6 P3 ND Tm TE m (EBelief c) p 0 I) as AC.
    destruct (addCyclingEvent _ _ _ _ _) as [[m2 b]| |] eqn:EA; cbn [rbind fst] in EQ; try discriminate. apply okE in EQ. subst m2. destruct (cycling_same _ _ _ _ _ _ EA) as [A B]. split; auto. split; auto.
    assert (HC : c < cmax). { rewrite <- (ci_st _ _ _ m (mi_c _ _ _ _ _ _ _ _ m I)). apply nth_error_Some. rewrite (proj2 S). discriminate. }
    destruct AC as [AC _]; [exact HC|split; [apply SU|exact PZ]| |exact AC]. intros e' X. rewrite RK in X. apply okE in X. subst. exact MC. }
  clear EQ. clear mq. destruct A1 as (A1 & A2 & I1).
  assert (S1 : stores m1 c k) by (unfold stores, stored_slots; rewrite A1, A2; exact S).
  unfold ProcessNewBeliefEvent. assert (RK1 : ev m1 (EBelief c) = Ok (c_belief k)) by (cbn [ev]; rewrite (stores_read _ _ _ S1); reflexivity). rewrite RK1. cbn [rbind].
  rewrite ET, NI1, NI2. cbn [orb rbind andb]. rewrite RK1. cbn [rbind]. rewrite ET, NI1. cbn [negb].
  destruct (ProcessConcept _ _ _ _ _ _ _ _ _) as [m2| |] eqn:EP; cbn [rbind]; try discriminate.
  apply (process_belief m1 c k now false p) in EP; auto. intros X. right.
  assert (RK2 : ev m2 (EBelief c) = Ok (c_belief k)) by (cbn [ev]; unfold cread; rewrite (one_at _ _ _ _ _ EP); reflexivity). rewrite RK2 in X. cbn [rbind] in X. rewrite TB in X.
  destruct (TAIL m2) as [T1 T2]; [rewrite TB; exact X|]. eapply one_same; [|exact T1|exact T2]. eapply same_one; eauto.
Qed.

Lemma add_val fuel m e now p input revised layer m' : minv m -> Tm (e_term e) -> e_type e = EVENT_TYPE_BELIEF -> no_implication nm (e_term e) -> hd 0%Z (e_stamp e) <> 0%Z ->
  (forall c k, stores m c k -> c_term k = e_term e -> stamp_wf (e_stamp (c_belief k))) ->
  let pe := entry_priority penalty e p input revised in accepted m e pe input ->
  Add fuel m (EVal e) now p input revised layer = Ok m' ->
  exists c k0 k, concept_for m (e_term e) now c k0 /\ stores m' c k /\ remembers nm powdecay now pe e k0 k /\
    forall d x, d <> c -> stores m' d x -> stores m d x.
Proof.
  intros I HT TB [NI1 NI2] HS HW pe (AC1 & AC2 & AC3). pose proof SZ as (P1 & P2 & P3 & P4 & P5 & P6). destruct fuel as [|fuel]; cbn [AddEvent]; [discriminate|]. cbn [ev rbind].
  assert (U : (if m_restricted m && negb input && negb (copulaEquals nm (at_ (e_term e) 0) TEMPORAL_IMPLICATION) then do f <- FindConceptByTerm m (e_term e) ; Ok (match f with None => true | Some _ => false end) else Ok false) = Ok false).
  { destruct (m_restricted m) eqn:R; [|reflexivity]. destruct input; [reflexivity|]. rewrite NI1. cbn [negb andb]. destruct (AC3 eq_refl eq_refl) as (c & k & A & B). destruct (find_stores m (e_term e) I) as (r & -> & H).
    assert (r = Some c) as -> by (apply H; eauto). reflexivity. }
  rewrite U. cbn [rbind]. cbv zeta. fold (entry_priority penalty e p input revised). fold pe. change (MIN_CONFIDENCE f64A) with (fdec 1 100). rewrite AC1, AC2. cbn [orb]. rewrite TB.
  change (EVENT_TYPE_BELIEF =? EVENT_TYPE_BELIEF)%Z with true. change (EVENT_TYPE_BELIEF =? EVENT_TYPE_GOAL)%Z with false. cbn [orb rassert].
  set (mq := if negb _ && negb _ then _ else Ok m). destruct mq as [m1| |] eqn:EQ; unfold mq in EQ; cbn [rbind]; try discriminate.
  assert (A1 : m_concepts m1 = m_concepts m /\ m_store m1 = m_store m /\ minv m1).
  { destruct (negb _ && negb _); [|apply okE in EQ; subst; auto]. pose proof (add_cycling false nm powdecay penalty cmax buckets atoms bmax gmax layers P1 P2 P4 P5 P6 P3 ND Tm TE m (EVal e) pe layer I) as AC.
    destruct (addCyclingEvent _ _ _ _ _) as [[m2 b]| |] eqn:EA; cbn [rbind fst] in EQ; try discriminate. apply okE in EQ. subst m2. destruct (cycling_same _ _ _ _ _ _ EA) as [A B]. split; auto. split; auto.
    destruct AC as [AC _]; [exact HT|split; [apply SU|exact AC2]| |exact AC]. intros e' X. cbn [ev] in X. apply okE in X. subst. exact AC1. }
  clear EQ. clear mq. destruct A1 as (A1 & A2 & I1).
  assert (S1 : forall c k, stores m1 c k <-> stores m c k) by (intros; unfold stores, stored_slots; rewrite A1, A2; reflexivity).
  unfold ProcessNewBeliefEvent. cbn [ev rbind]. rewrite NI1, NI2. cbn [orb rbind negb]. rewrite ?NI1. cbn [negb].
  destruct (ProcessConcept _ _ _ _ _ _ _ _ _) as [m2| |] eqn:EP; cbn [rbind]; try discriminate. intros X. apply okE in X. subst m2.
  apply process_val in EP; auto; [|rewrite TB; discriminate]. destruct EP as (m0 & c & k0 & m3 & k & x & again & EC & I3 & HC & O & RM & RV & KB & AG).
  destruct (conceptualised_ok false nm powdecay penalty cmax buckets atoms bmax gmax layers Tm SZ ND T0 TE TR m1 (e_term e) now I1 HT) as (m0' & c' & EC' & FD & CASES). rewrite EC in EC'. apply okE in EC'. injection EC' as <- <-.
  assert (Q : stores m0 c k0 /\ concept_for m (e_term e) now c k0 /\ c_term k0 = e_term e /\ forall d y, d <> c -> stores m0 d y -> stores m d y).
  { pose proof (o_k _ _ _ _ _ O) as N0. destruct CASES as [((kk & A & B) & ->)|[(A & B & C & new & D & F)|(A & B & C & new & old & pr & D & F)]].
    - assert (kk = k0) as -> by (destruct A; congruence). split; auto. split; [left; rewrite <- S1; auto|]. split; auto. intros d y _ H. apply S1. exact H.
    - assert (SN : stores m0 c new) by (apply F; auto). assert (new = k0) as -> by (destruct SN; congruence). split; auto. split; [right; split; auto; intros d y H; apply (A d); apply S1; auto|]. split; [apply D|].
      intros d y ND0 H. apply S1. apply F in H as [[-> _]|H]; [contradiction|auto].
    - destruct F as (_ & _ & _ & F & _). assert (SN : stores m0 c new) by (apply F; auto). assert (new = k0) as -> by (destruct SN; congruence). split; auto. split; [right; split; auto; intros d y H; apply (A d); apply S1; auto|]. split; [apply D|].
      intros d y ND0 H. apply S1. apply F in H as [[-> _]|[_ H]]; [contradiction|auto]. }
  destruct Q as (SK & CF & TK & OTH). specialize (RM TK). pose proof (one_stores_c _ _ _ _ _ O SK) as S3.
  assert (OTH3 : forall d y, d <> c -> stores m3 d y -> stores m d y) by (intros d y N H; apply OTH; auto; apply (one_stores _ _ _ _ _ O d y N); auto).
  destruct again; [|subst m3; exists c, k0, k; auto].
  assert (EO : e_occ (Event_Eternalized e) = OCCURRENCE_ETERNAL) by (unfold Event_Eternalized; destruct (Z.eqb_spec (e_occ e) OCCURRENCE_ETERNAL); auto).
  assert (ES : e_stamp (Event_Eternalized e) = e_stamp e) by (unfold Event_Eternalized; destruct (_ =? _)%Z; auto).
  assert (WF : stamp_wf (e_stamp (c_belief k0))).
  { destruct CF as [[A B]|[_ F]]; [eapply HW; eauto|]. destruct F as (_ & _ & -> & _). reflexivity. }
  destruct (rac_merged (c_belief k0) (Event_Eternalized e) x EO WF) as (X1 & X2 & X3 & X4 & X5); [rewrite ES; exact HS|exact RV|].
  destruct (eternalized e) as [ET _]. assert (TK' : c_term k = e_term e) by apply RM.
  assert (AA : m_concepts m' = m_concepts m3 /\ m_store m' = m_store m3 \/ one m3 m' c k (with_priority (with_usage k (Usage_use (c_usage k) now false)) (fmax (c_priority k) pe))).
  { apply (add_again fuel m3 c k now pe m' I3 S3); try (rewrite KB; cbn; auto; fail); try exact AG.
    - rewrite KB. cbn. congruence.
    - rewrite KB. cbn. congruence.
    - rewrite TK'. split; assumption. }
  destruct AA as [[B1 B2]|O'].
  - exists c, k0, k. split; auto. split; [unfold stores, stored_slots in *; rewrite B1, B2; exact S3|]. split; auto. intros d y N H. apply OTH3; auto. unfold stores, stored_slots in *. rewrite B1, B2 in H. exact H.
  - eexists c, k0, _. split; auto. split; [eapply one_stores_c; eauto|]. split; [|intros d y N H; apply OTH3; auto; apply (one_stores _ _ _ _ _ O' d y N); auto].
    destruct RM as (M1 & M2 & M3 & M4 & M5 & M6 & M7 & M8 & M9 & M10 & M11 & M12). unfold remembers. cbn. rewrite M8, fmax_idem. repeat (split; auto).
Qed.

(** *** adding an implication *)
Lemma su m c k d k' : minv m -> stores m c k -> stores m d k' -> c_term k = c_term k' -> c = d.
Proof. intros I A B E. apply (stores_term_uniq false nm cmax buckets atoms bmax gmax layers SZ Tm m c k d k' I A B E). Qed.
Lemma conceptualize_spec m t now : minv m -> Tm t -> exists m' c k, Conceptualize nm m t now = Ok (m', Some c) /\ minv m' /\ stores m' c k /\ c_term k = t /\ concept_for m t now c k /\ m_ops m' = m_ops m /\
  (forall d x, d <> c -> (stores m' d x <-> stores m d x)) /\ (stores m c k \/ forall d x, stores m d x -> c_term x <> t) /\
  (concept_count m + 1 <= cmax \/ (exists d x, stores m d x /\ c_term x = t) -> (forall d x, stores m d x -> stores m' d x) /\ concept_count m' <= concept_count m + 1).
Proof.
  intros I HT. pose proof SZ as (P1 & P2 & P3 & P4 & P5 & P6).
  destruct (conceptualize_ok false nm powdecay penalty cmax buckets atoms bmax gmax layers P1 P2 P4 P5 P6 P3 ND Tm T0 TE TR m t now I HT) as (m0 & c0 & EC0 & I0 & HC & _ & OPS).
  destruct (conceptualised_ok false nm powdecay penalty cmax buckets atoms bmax gmax layers Tm SZ ND T0 TE TR m t now I HT) as (m1 & c & EC & FD & CASES). rewrite EC0 in EC. apply okE in EC. injection EC as <- <-.
  destruct CASES as [((kk & A & B) & ->)|[(A & B & C & new & D & F)|(A & B & C & new & old & pr & D & F)]].
  - exists m, c0, kk. split; auto. split; auto. split; auto. split; auto. split; [left; auto|]. split; auto. split; [tauto|]. split; auto. intros _. split; auto. lia.
  - assert (SN : stores m0 c0 new) by (apply F; auto). exists m0, c0, new. split; auto. split; auto. split; auto. split; [apply D|]. split; [right; auto|]. split; auto. split; [|split; [right; auto|]].
    + intros d y N. rewrite F. tauto.
    + intros _. split; [intros d x H; apply F; auto|lia].
  - destruct F as (_ & _ & _ & F & _). assert (SN : stores m0 c0 new) by (apply F; auto). exists m0, c0, new. split; auto. split; auto. split; auto. split; [apply D|]. split; [right; auto|]. split; auto. split; [|split; [right; auto|]].
    + intros d y N. rewrite F. tauto.
    + intros [X|(d & x & X & Y)]; [lia|]. exfalso. apply (A d x); auto.
Qed.
Lemma add_link_val fuel m e now p input revised layer m' : minv m -> Tm (e_term e) -> e_type e = EVENT_TYPE_BELIEF -> copulaEquals nm (at_ (e_term e) 0) TEMPORAL_IMPLICATION = true ->
  copulaEquals nm (at_ (e_term e) 0) IMPLICATION = false ->
  let pe := entry_priority penalty e p input revised in fltb (confidence (e_truth e)) (fdec 1 100) = false -> fleb pe f0 = false ->
  let subject := Term_ExtractSubterm (e_term e) 1 in let post := Term_ExtractSubterm (e_term e) 2 in
  forall opi st, kept_under nm m subject opi st ->
  Add fuel m (EVal e) now p input revised layer = Ok m' ->
  ((exists c k, stores m' c k /\ c_term k = post) -> linked now m m' post st opi e) /\
  (concept_count m + 2 <= cmax \/ (exists c k, stores m c k /\ c_term k = post) /\ (exists c k, stores m c k /\ c_term k = st) -> exists c k, stores m' c k /\ c_term k = post).
Proof.
  intros I HT TB NI1 NI2 pe AC1 AC2 subject post opi st KU. pose proof SZ as (P1 & P2 & P3 & P4 & P5 & P6). destruct fuel as [|fuel]; cbn [AddEvent]; [discriminate|]. cbn [ev rbind].
  rewrite NI1. cbn [negb]. rewrite !andb_false_r. cbn [rbind]. cbv zeta. fold (entry_priority penalty e p input revised). fold pe. change (MIN_CONFIDENCE f64A) with (fdec 1 100). rewrite AC1, AC2. cbn [orb]. rewrite TB.
  change (EVENT_TYPE_BELIEF =? EVENT_TYPE_BELIEF)%Z with true. change (EVENT_TYPE_BELIEF =? EVENT_TYPE_GOAL)%Z with false. cbn [orb rassert andb rbind].
  unfold ProcessNewBeliefEvent. cbn [ev rbind]. rewrite NI1. cbn [orb rbind negb]. unfold ProcessImplication. cbn [ev rbind]. fold subject post.
  destruct (conceptualize_spec m post now I) as (m1 & t & kt0 & EC & I1 & ST1 & TT & CF1 & OPS1 & OTH1 & FR1 & RM1); [apply TE; auto|]. rewrite EC. cbn [rbind].
  destruct (cmod m1 t _) as [m2| |] eqn:E2; cbn [rbind]; try discriminate.
  assert (I2 : minv m2).
  { pose proof (cmod_post false nm penalty cmax buckets atoms bmax gmax layers P1 P2 P4 P5 P6 P3 ND Tm TE m1 t (fun k => with_usage k (Usage_use (c_usage k) now (input && (e_occ e =? OCCURRENCE_ETERNAL)%Z))) I1) as X.
    rewrite E2 in X. apply X; [|apply (use_ok false powdecay penalty cmax buckets atoms bmax gmax layers P1 P2 P4 P5 P6 P3 ND Tm TE)]. rewrite <- (ci_st _ _ _ m1 (mi_c _ _ _ _ _ _ _ _ m1 I1)). apply nth_error_Some. rewrite (proj2 ST1). discriminate. }
  assert (OPS2 : m_ops m2 = m_ops m1) by (unfold cmod in E2; destruct (cread m1 t); cbn [rbind] in E2; try discriminate; apply okE in E2; subst; reflexivity).
  apply one_mod in E2 as (k1 & O2). assert (k1 = kt0) as -> by (pose proof (o_k _ _ _ _ _ O2); destruct ST1; congruence).
  set (kt1 := with_usage _ _) in O2.
  assert (SRC : source_of nm m2 (at_ (e_term e) 0) subject = Some (opi, st)).
  { unfold source_of. rewrite NI1. cbn [andb]. assert (GO : forall t, getOperationID nm m2 t = getOperationID nm m t) by (intros; unfold getOperationID; rewrite OPS2, OPS1; reflexivity).
    inversion KU as [[H|H] Ha Hb|H1 H2 H3 Ha Hb].
    - rewrite H. reflexivity.
    - destruct (copulaEquals nm (at_ subject 0) SEQUENCE); [|reflexivity]. cbv zeta. rewrite H. reflexivity.
    - rewrite H1. cbv zeta. rewrite H2, H3. cbn [negb]. rewrite GO. reflexivity. }
  rewrite SRC. assert (TST : Tm st) by (eapply (source_ok false nm powdecay penalty cmax buckets atoms bmax gmax layers P1 P2 P4 P5 P6 P3 ND Tm TE TR); [exact I2| |exact SRC]; apply TE; auto).
  assert (ST2 : stores m2 t kt1) by (eapply one_stores_c; eauto).
  destruct (conceptualize_spec m2 st now I2 TST) as (m3 & s & ks0 & EC3 & I3 & ST3 & TS & CF3 & OPS3 & OTH3 & FR3 & RM3). rewrite EC3. cbn [rbind].
  destruct (cmod m3 s _) as [m4| |] eqn:E4; cbn [rbind]; try discriminate. apply one_mod in E4 as (k1 & O4). assert (k1 = ks0) as -> by (pose proof (o_k _ _ _ _ _ O4); destruct ST3; congruence).
  set (ks1 := with_usage ks0 _) in O4. unfold cread. rewrite (one_at _ _ _ _ _ O4). cbn [rbind]. rewrite NI2.
  unfold add_link. destruct (cread m4 t) as [k4| |] eqn:R4; cbn [rbind]; try discriminate. destruct (nth_error (c_pre k4) opi) as [tb|] eqn:NT; cbn [rbind]; [|discriminate].
  fold (link_of e s (c_id ks1) now). destruct (Table_AddAndRevise tb _) as [[tb' ev']| |] eqn:TA; cbn [rbind fst]; try discriminate.
  destruct (cmod m4 t _) as [m5| |] eqn:E5; cbn [rbind]; try discriminate. intros X. apply okE in X. subst m5.
  apply one_mod in E5 as (k1 & O5). assert (k1 = k4) as -> by (unfold cread in R4; rewrite (o_k _ _ _ _ _ O5) in R4; apply okE in R4; auto).
  set (kt := with_pre k4 _) in O5.
  assert (T4 : c_term k4 = c_term kt) by reflexivity.
  assert (ST4 : forall d x, d <> s -> (stores m4 d x <-> stores m3 d x)) by (apply (one_stores _ _ _ _ _ O4)).
  assert (ST5 : forall d x, d <> t -> (stores m' d x <-> stores m4 d x)) by (apply (one_stores _ _ _ _ _ O5)).
  assert (SK4 : stores m4 s ks1) by (eapply one_stores_c; eauto).
  pose proof (o_k _ _ _ _ _ O5) as N4. assert (N5 : nth_error (m_store m') t = Some kt) by (eapply one_at; eauto).
  assert (C2 : concept_count m2 = concept_count m1) by (unfold concept_count, stored_slots; rewrite (o_q _ _ _ _ _ O2); reflexivity).
  (* the concept of [post] after conceptualising [st] *)
  assert (KEY : (exists c k, stores m' c k /\ c_term k = post) <-> (exists k, stores m3 t k /\ c_term k = post)).
  { assert (BACK : (exists c k, stores m' c k /\ c_term k = post) -> exists c k, stores m3 c k /\ c_term k = post).
    { assert (B4 : (exists c k, stores m4 c k /\ c_term k = post) -> exists c k, stores m3 c k /\ c_term k = post).
      { intros (c & k & A & B). destruct (Nat.eq_dec c s) as [->|N]; [|exists c, k; split; auto; apply ST4; auto]. assert (k = ks1) as -> by (eapply stores_uniq; eauto). exists s, ks0. split; auto. }
      intros (c & k & A & B). apply B4. destruct (Nat.eq_dec c t) as [->|N]; [|exists c, k; split; auto; apply ST5; auto].
      assert (k = kt) as -> by (destruct A; congruence). exists t, k4. split; auto. split; auto. destruct A as [A _]. unfold stored_slots in *. rewrite (o_q _ _ _ _ _ O5) in A. exact A. }
    split.
    - intros H. destruct (BACK H) as (c & k & A & B). destruct (Nat.eq_dec c t) as [->|N]; [eauto|].
      (* then it is the new one, and [post] was not stored in m2: contradiction *)
      exfalso. destruct (Nat.eq_dec c s) as [->|N'].
      + assert (k = ks0) as -> by (eapply stores_uniq; eauto). assert (SP : st = post) by congruence. destruct FR3 as [FR3|FR3].
        * assert (s = t) by (eapply (su m2); eauto; cbn; congruence). contradiction.
        * apply (FR3 t kt1 ST2). cbn. congruence.
      + apply OTH3 in A; auto. assert (c = t) by (eapply (su m2); eauto; cbn; congruence). contradiction.
    - intros (k & A & B). exists t, kt. split.
      + split; [|exact N5]. unfold stored_slots. rewrite (o_q _ _ _ _ _ O5), (o_q _ _ _ _ _ O4). apply A.
      + rewrite <- T4. destruct (Nat.eq_dec t s) as [->|N]; [|assert (S4 : stores m4 t k) by (apply ST4; auto); destruct S4; congruence].
        assert (k4 = ks1) as -> by (destruct SK4; congruence). assert (k = ks0) as -> by (eapply stores_uniq; eauto). exact B. }
  split.
  - intros H. apply KEY in H as (k3 & A3 & B3).
    assert (K3 : t <> s -> k3 = kt1) by (intros N; apply OTH3 in A3; auto; eapply stores_uniq; eauto).
    assert (S5 : stores m' t kt) by (split; [|exact N5]; unfold stored_slots; rewrite (o_q _ _ _ _ _ O5), (o_q _ _ _ _ _ O4); apply A3).
    assert (OTH2 : forall d x, d <> t -> stores m2 d x -> stores m d x) by (intros d x N H; apply OTH1; auto; apply (one_stores _ _ _ _ _ O2 d x N); auto).
    destruct (Nat.eq_dec s t) as [->|N].
    + (* one concept for both *)
      assert (k3 = ks0) as -> by (eapply stores_uniq; eauto). assert (PS : post = st) by congruence.
      assert (KS : ks0 = kt1). { destruct FR3 as [FR3|FR3]; [exact (stores_uniq _ _ _ _ FR3 ST2)|exfalso; apply (FR3 t kt1 ST2); change (c_term kt0 = st); congruence]. } subst ks0.
      assert (k4 = ks1) as -> by (destruct SK4; congruence).
      exists t, t, kt0, kt0, kt, kt, tb, tb', ev'. split; auto.
      split; [destruct CF1 as [CF1|[_ CF1]]; [left|right]; rewrite <- PS; auto|].
      split.
      { intros d k HS HK. left. destruct CF1 as [[W1 W2]|[W1 W2]]; [|exfalso; apply (W1 d k HS); congruence].
        assert (d = t) as -> by (eapply (su m); eauto; congruence). split; auto. eapply stores_uniq; eauto. }
      split; auto. split; auto. split; [exact TT|]. split; [cbn; congruence|]. split; [reflexivity|]. split; [exact NT|]. split; [exact TA|].
      split; [exists ks1; split; [split; [reflexivity|eexists; unfold ks1, kt1; destruct kt0; reflexivity]|reflexivity]|]. split; [intros X; contradiction|]. split; [auto|].
      intros d x N _ H. apply OTH2; auto. apply OTH3; auto. apply ST4; auto. apply ST5; auto.
    + specialize (K3 (not_eq_sym N)). subst k3. assert (S4 : stores m4 t kt1) by (apply ST4; auto). assert (k4 = kt1) as -> by (destruct S4; congruence).
      exists t, s, kt0, ks0, kt, ks1, tb, tb', ev'. split; auto. split.
      { destruct CF3 as [[Q1 Q2]|[Q1 Q2]]; [left; split; auto|right; auto]. }
      split.
      { intros d x H E. destruct (Nat.eq_dec d t) as [->|ND'].
        - destruct CF1 as [[W1 W2]|[W1 W2]]; [|right; auto]. exfalso.
          assert (x = kt0) as -> by (eapply stores_uniq; eauto). destruct FR3 as [FR3|FR3]; [|apply (FR3 t kt1 ST2); exact E].
          apply N. eapply (su m2); eauto. rewrite TS. symmetry. exact E.
        - left. assert (H2 : stores m2 d x) by (apply (one_stores _ _ _ _ _ O2 d x ND'); apply OTH1; auto). destruct FR3 as [FR3|FR3]; [|exfalso; apply (FR3 d x H2 E)].
          assert (d = s) as -> by (eapply (su m2); eauto; congruence). split; auto. eapply stores_uniq; eauto. }
      split; auto. split; [apply ST5; auto|]. split; [exact TT|]. split; [exact TS|]. split; [reflexivity|]. split; [exact NT|]. split; [exact TA|].
      split; [exists kt1; split; [split; [reflexivity|eexists; reflexivity]|reflexivity]|]. split; [intros _; split; [reflexivity|eexists; reflexivity]|]. split; [intros X; contradiction|].
      intros d x N1 N2 H. apply OTH2; auto. apply OTH3; auto. apply ST4; auto. apply ST5; auto.
  - intros R. apply KEY. assert (R3 : concept_count m2 + 1 <= cmax \/ (exists d x, stores m2 d x /\ c_term x = st)).
    { destruct R as [R|[RP (c & k & A & B)]].
      - left. rewrite C2. destruct RM1 as [_ RM1]; [left; lia|]. lia.
      - right. destruct RM1 as [RM1 _]; [right; auto|]. apply RM1 in A. destruct (Nat.eq_dec c t) as [->|N].
        + assert (k = kt0) as -> by (eapply stores_uniq; eauto). exists t, kt1. split; auto.
        + exists c, k. split; auto. apply (one_stores _ _ _ _ _ O2 c k N); auto. }
    destruct (RM3 R3) as [RM3' _]. exists kt1. split; auto.
Qed.
End Add.
