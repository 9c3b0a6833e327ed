(** Proofs about inference in a cycle (C68): concepts and rounds. *)
From Coq Require Import ZArith List Bool Lia.
From Verif Require Import Base F64 TruthM StampM StampP TermM TermP NamesM EventM InferenceM UsageM TableM VariableM MemoryM NalM NalS RulesM QuestionM DecisionM CycleM SeqS AddS LearnS LearnP2 InvIndexM InferS InferP.
Import ListNotations.
Local Open Scope Z_scope.
#[local] Opaque fmul fadd fsub fofZ aconst amin amax fltb Truth_Projection zero_term conclusions FindConceptByTerm GetConceptChain InvIndexM.el_deref stamp_make stamp_check_overlap RuleTable_Apply SpecialInferences.
Lemma ltb80 n : (n + 1 <=? BELIEF_CONCEPT_MATCH_TARGET) = true -> n < 80.
Proof. intros H. apply Z.leb_le in H. unfold BELIEF_CONCEPT_MATCH_TARGET in H. lia. Qed.
Lemma geb80 n : (n + 1 <=? BELIEF_CONCEPT_MATCH_TARGET) = false -> 80 <= n.
Proof. intros H. apply Z.leb_gt in H. unfold BELIEF_CONCEPT_MATCH_TARGET in H. lia. Qed.
Section G.
Variable nm : names.
Variable av : Z -> option (f64 * name).
Variable simdist : f64.
Variable pd : Z -> f64.
Variable pen : nat -> f64.
Variables layers fuel : nat.
Lemma projected_spec e sp : event_instead pd e sp (projected pd e sp).
Proof.
  unfold event_instead, projected. destruct (negb (e_occ e =? OCCURRENCE_ETERNAL) && negb (e_type sp =? EVENT_TYPE_DELETED) && (Z.abs (e_occ e - e_occ sp) <? EVENT_BELIEF_DISTANCE)) eqn:B.
  - left. apply andb_prop in B as [B B3]. apply andb_prop in B as [B1 B2]. apply negb_true_iff, Z.eqb_neq in B1. apply Z.ltb_lt in B3. apply present_there in B2. unfold EVENT_BELIEF_DISTANCE in B3.
    split; [exact B1|]. split; [exact B2|]. split; [exact B3|reflexivity].
  - right. split; [|reflexivity]. intros (B1 & B2 & B3). apply present_there in B2. rewrite B2 in B. apply Z.eqb_neq in B1. rewrite B1 in B. apply Z.ltb_lt in B3.
    change EVENT_BELIEF_DISTANCE with 20 in B. rewrite B3 in B. discriminate B.
Qed.
Lemma belief_spec m c p k b : nth_error (m_store m) c = Some k -> belief_of m c p = Ok b -> premise m c p k b.
Proof. intros N. unfold belief_of, premise. destruct p; [intros H; apply okL in H; subst; auto|]. unfold cread. rewrite N. cbn [rbind]. intros H; apply okL in H; subst; auto. Qed.
Lemma with_spec m e prio now c cid k m' : nth_error (m_store m) c = Some k -> c_id k = cid -> infer_with nm av simdist pd pen layers fuel m e prio now c cid = Ok m' ->
  combined nm av simdist pd pen layers fuel e prio now c m m'.
Proof.
  intros N <-. unfold infer_with, combined. rewrite (proj2 (read_nth m c k) N). cbn [rbind]. cbv zeta.
  destruct (belief_of m c (projected pd e (c_spike k))) as [b| |] eqn:B; cbn [rbind]; try discriminate. pose proof (belief_spec _ _ _ _ _ N B) as PB. clear B.
  pose proof (projected_spec e (c_spike k)) as PS. revert PB PS. generalize (projected pd e (c_spike k)). intros p PB PS H. exists k, p, b. split; [exact PB|]. split; [exact PS|].
  destruct (stamp_check_overlap (e_stamp e) (e_stamp b)) eqn:O.
  - left. apply okL in H. subst m'. split; [|reflexivity]. intros X. apply X. apply stamp_overlap_spec. exact O.
  - right. split; [apply no_overlap; exact O|]. unfold cmod in H. rewrite (proj2 (read_nth m c k) N) in H. cbn [rbind] in H.
    set (k1 := with_usage k (Usage_use (c_usage k) now false)) in *. set (m1 := set_store m (upd (m_store m) c k1)) in *.
    exists k1, m1. split; [split; [reflexivity|exists (Usage_use (c_usage k) now false); reflexivity]|]. split; [reflexivity|].
    destruct (cread m1 c) as [k1'| |] eqn:R1; cbn [rbind] in H; try discriminate H. apply read_nth in R1.
    assert (k1' = k1) as ->. { unfold m1 in R1. cbn [m_store set_store] in R1. clear -R1 N. revert c N R1. generalize (m_store m) as l. induction l as [|x l IH]; intros [|c] N R; cbn in *; try discriminate; [congruence|eauto]. }
    destruct (belief_of m1 c p) as [b1| |] eqn:B1; cbn [rbind] in H; try discriminate H. pose proof (belief_spec _ _ _ _ _ R1 B1) as P1.
    destruct (RuleTable_Apply _ _ _ _ _ m1 _ _ _ _ _ _) as [m2| |] eqn:A1; cbn [rbind] in H; try discriminate H. apply apply_spec in A1.
    exists b1, m2. split; [exact P1|]. split; [exact A1|].
    destruct (cread m2 c) as [k2| |] eqn:R2; cbn [rbind] in H; try discriminate H. apply read_nth in R2.
    destruct (belief_of m2 c p) as [b2| |] eqn:B2; cbn [rbind] in H; try discriminate H. pose proof (belief_spec _ _ _ _ _ R2 B2) as P2.
    destruct (SpecialInferences _ _ _ _ _ _ _ m2 _ _ _ _ _) as [m3| |] eqn:A2; cbn [rbind] in H; try discriminate H. apply special_spec in A2.
    exists k2, b2, m3. split; [exact P2|]. split; [exact A2|].
    destruct (cread m3 c) as [k3| |] eqn:R3; cbn [rbind] in H; try discriminate H. apply read_nth in R3.
    destruct (belief_of m3 c p) as [b3| |] eqn:B3; cbn [rbind] in H; try discriminate H. pose proof (belief_spec _ _ _ _ _ R3 B3) as P3.
    exists k3, b3. split; [exact P3|]. apply special_spec in H. exact H.
Qed.
#[local] Opaque infer_with.
Notation La := (looked_at nm av simdist pd pen layers fuel).
Notation Lal := (looked_at_all nm av simdist pd pen layers fuel).
Section R.
Variable pid : Z.
Variable e : event.
Variable prio : f64.
Variable now : Z.
Variable thr : f64.
Notation body := (infer_body nm av simdist pd pen layers fuel e prio now thr).
Lemma nth_upd_same {A} (l : list A) c x y : nth_error l c = Some x -> nth_error (upd l c y) c = Some y.
Proof. revert c. induction l as [|a l IH]; intros [|c]; cbn; try discriminate; auto. Qed.
Lemma body_spec m m1 a c k x : marked_now pid c m m1 k -> body m1 a c = Ok x ->
  exists m' n, x = (m', (fst a + n, snd a + n), false) /\ 0 <= n /\ La pid e prio now thr c (m, snd a) (m', snd a + n).
Proof.
  intros M. pose proof M as (k0 & N0 & P0 & -> & E1). set (k := with_pid1 k0 pid) in *.
  assert (N1 : nth_error (m_store m1) c = Some k) by (rewrite E1; cbn [m_store set_store]; eapply nth_upd_same; exact N0).
  unfold infer_body. rewrite (proj2 (read_nth m1 c k) N1). cbn [rbind]. cbv zeta. destruct (fltb (c_priority k) thr) eqn:F.
  - intros H. apply okL in H. subst x. exists m1, 0. split; [destruct a; cbn [fst snd]; rewrite !Z.add_0_r; reflexivity|]. split; [lia|]. rewrite Z.add_0_r. eapply la_low; [exact M|exact F].
  - cbn [snd fst]. destruct (negb (e_type (c_belief k) =? EVENT_TYPE_DELETED)) eqn:PB; cbn [andb].
    + destruct (snd a + 1 <=? BELIEF_CONCEPT_MATCH_TARGET) eqn:L.
      * destruct (infer_with _ _ _ _ _ _ _ m1 e prio now c (c_id k)) as [m'| |] eqn:W; cbn [rbind]; try discriminate. intros H. apply okL in H. subst x.
        exists m', 1. split; [reflexivity|]. split; [lia|]. eapply la_use; [exact M|exact F|apply present_there; exact PB|apply ltb80; exact L|]. eapply with_spec; [exact N1|reflexivity|exact W].
      * cbn [rbind]. intros H. apply okL in H. subst x. exists m1, 1. split; [reflexivity|]. split; [lia|]. eapply la_pass; [exact M|exact F|right; apply geb80; exact L].
    + cbn [rbind]. intros H. apply okL in H. subst x. exists m1, 1. split; [reflexivity|]. split; [lia|]. eapply la_pass; [exact M|exact F|left]. intros T. apply present_there in T. rewrite PB in T. discriminate T.
Qed.
#[local] Opaque infer_body.
Lemma lal_app l1 l2 x y z : Lal pid e prio now thr l1 x y -> Lal pid e prio now thr l2 y z -> Lal pid e prio now thr (l1 ++ l2) x z.
Proof. induction 1 as [|c l x y w A _ IH]; intros H2; cbn; [exact H2|]. econstructor; [exact A|apply IH; exact H2]. Qed.
(** what each part of the iteration does *)
Definition goes (m : memory) (a : Z * Z) (x : memory * (Z * Z) * bool) (l : list nat) : Prop :=
  exists m' n, x = (m', (fst a + n, snd a + n), false) /\ 0 <= n /\ Lal pid e prio now thr l (m, snd a) (m', snd a + n).
Lemma visit_spec m a c x : visit pid body m a c = Ok x ->
  exists l, goes m a x l /\ (forall o k, c = Some o -> nth_error (m_store m) o = Some k -> pid1 k <> pid -> l = [o]).
Proof.
  unfold visit, goes. destruct c as [c|].
  - destruct (cread m c) as [k| |] eqn:R; cbn [rbind]; try discriminate. apply read_nth in R. destruct (pid1 k =? pid) eqn:P.
    + intros H. apply okL in H. subst x. exists []. split.
      * exists m, 0. split; [destruct a; cbn [fst snd]; rewrite !Z.add_0_r; reflexivity|]. split; [lia|]. rewrite Z.add_0_r. constructor.
      * intros o k' Q N' NE. assert (o = c) by congruence. subst o. assert (k' = k) by congruence. subst k'. apply Z.eqb_eq in P. contradiction.
    + apply Z.eqb_neq in P. unfold cmod. rewrite (proj2 (read_nth m c k) R). cbn [rbind]. intros H.
      apply (body_spec m _ a c (with_pid1 k pid)) in H; [|exists k; split; [exact R|]; split; [exact P|]; split; reflexivity].
      destruct H as (m' & n & -> & L0 & A). exists [c]. split; [exists m', n; split; [reflexivity|]; split; [exact L0|]; econstructor; [exact A|constructor]|]. intros o k' Q _ _. congruence.
  - intros H. apply okL in H. subst x. exists []. split; [|intros o k Q; discriminate Q]. exists m, 0. split; [destruct a; cbn [fst snd]; rewrite !Z.add_0_r; reflexivity|]. split; [lia|]. rewrite Z.add_0_r. constructor.
Qed.
#[local] Opaque visit.
Lemma chain_spec n : forall m a p x, chain_loop pid body n m a p = Ok x -> exists l, goes m a x l.
Proof.
  induction n as [|n IH]; intros m a p x; cbn [chain_loop]; destruct p as [p|].
  - discriminate.
  - intros H. apply okL in H. subst x. exists [], m, 0. split; [destruct a; cbn [fst snd]; rewrite !Z.add_0_r; reflexivity|]. split; [lia|]. rewrite Z.add_0_r. constructor.
  - destruct (InvIndexM.el_deref (m_index m) p) as [el| |]; cbn [rbind]; try discriminate.
    destruct (visit pid body m a (el_c el)) as [y| |] eqn:V; cbn [rbind]; try discriminate. apply visit_spec in V as (l1 & (m1 & n1 & -> & Z1 & L1) & _). intros H.
    apply IH in H as (l2 & m2 & n2 & -> & Z2 & L2). cbn [fst snd] in L2. exists (l1 ++ l2), m2, (n1 + n2). cbn [fst snd]. split; [f_equal; f_equal; f_equal; lia|]. split; [lia|].
    eapply lal_app; [exact L1|]. replace (snd a + (n1 + n2)) with (snd a + n1 + n2) by lia. exact L2.
  - intros H. apply okL in H. subst x. exists [], m, 0. split; [destruct a; cbn [fst snd]; rewrite !Z.add_0_r; reflexivity|]. split; [lia|]. rewrite Z.add_0_r. constructor.
Qed.
Lemma foreach_spec n t L : forall m a m' a', foreach_loop pid body n t L m a = Ok (m', a') ->
  exists l, goes m a (m', a', false) l /\ (L <> [] -> forall o k, FindConceptByTerm m t = Ok (Some o) -> nth_error (m_store m) o = Some k -> pid1 k <> pid -> hd_error l = Some o).
Proof.
  induction L as [|x L IH]; intros m a m' a'; cbn [foreach_loop].
  - intros H. apply okL in H. injection H as <- <-. exists []. split; [|intros N; contradiction N; reflexivity]. exists m, 0. split; [destruct a; cbn [fst snd]; rewrite !Z.add_0_r; reflexivity|]. split; [lia|]. rewrite Z.add_0_r. constructor.
  - destruct (FindConceptByTerm m t) as [own| |] eqn:F; cbn [rbind]; try discriminate. destruct (GetConceptChain (m_index m) x) as [ch| |]; cbn [rbind]; try discriminate.
    destruct (visit pid body m a own) as [y| |] eqn:V; cbn [rbind]; try discriminate. apply visit_spec in V as (l1 & (m1 & n1 & -> & Z1 & L1) & O1). cbn [rbind].
    destruct (chain_loop pid body n m1 _ ch) as [y| |] eqn:C; cbn [rbind]; try discriminate. apply chain_spec in C as (l2 & m2 & n2 & -> & Z2 & L2). cbn [fst snd] in *. intros H.
    apply IH in H as (l3 & (m3 & n3 & E3 & Z3 & L3) & _). cbn [fst snd] in *. exists (l1 ++ l2 ++ l3). split.
    + exists m3, (n1 + n2 + n3). split; [injection E3 as -> ->; f_equal; f_equal; f_equal; lia|]. split; [lia|]. eapply lal_app; [exact L1|]. eapply lal_app; [exact L2|].
      replace (snd a + (n1 + n2 + n3)) with (snd a + n1 + n2 + n3) by lia. exact L3.
    + intros _ o k Q N P. assert (own = Some o) as -> by congruence. rewrite (O1 o k eq_refl N P). reflexivity.
Qed.
End R.
#[local] Opaque foreach_loop.
Lemma rounds_spec e prio now n : forall s matched s', infer_rounds nm av simdist pd pen layers fuel n s e prio now matched = Ok s' ->
  rounds nm av simdist pd pen layers fuel e prio now matched s s'.
Proof.
  induction n as [|n IH]; intros s matched s'; cbn [infer_rounds]; [discriminate|]. destruct (now =? 0); [discriminate|]. cbv zeta.
  cbn [s_mem s_pid set_stats]. destruct (RuleTable_Apply _ _ _ _ _ (s_mem s) _ _ _ _ _ _) as [m| |] eqn:A; cbn [rbind]; try discriminate. apply apply_spec in A.
  unfold related_foreach. destruct (foreach_loop _ _ _ _ _ _ _) as [[m' a']| |] eqn:F; cbn [rbind]; try discriminate. apply foreach_spec in F as (l & (m2 & n2 & E2 & Z2 & L2) & O).
  injection E2 as -> ->. cbn [fst snd] in *.
  assert (R : round nm av simdist pd pen layers fuel (s_pid s) e prio now (s_thr s) (s_mem s, matched) (m2, matched + n2)).
  { exists m, l. split; [exact A|]. split; [exact L2|]. apply O. unfold UNIFICATION_DEPTH. cbn. discriminate. }
  set (s1 := set_stats (set_mem s m2) (next_threshold (s_thr s) (s_total s) now) (s_total s + (matched + n2 - matched)) (Z.max (matched + n2) (s_max s))).
  replace (set_stats (set_mem (set_stats s (adapt (s_thr s) (s_total s) now) (s_total s) (s_max s)) m2) _ _ _) with s1.
  2:{ unfold s1, set_stats, set_mem, adapt, next_threshold, BELIEF_CONCEPT_MATCH_TARGET, CONCEPT_THRESHOLD_ADAPTATION. cbn [s_mem s_thr s_total s_max s_time s_rng s_ids s_pid s_pid2 s_pid3 s_selB s_selG s_trace].
      f_equal; [lia|]. destruct (Z.ltb_spec (s_max s) (matched + n2)); lia. }
  destruct ((BELIEF_CONCEPT_MATCH_TARGET <=? matched + n2) || (n2 =? 0)) eqn:B; intros H.
  - apply okL in H. subst s'. apply rs_last; [exact R|]. apply orb_prop in B as [B|B]; [left; apply Z.leb_le in B; exact B|right; apply Z.eqb_eq in B; lia].
  - apply orb_false_elim in B as [B1 B2]. apply Z.leb_gt in B1. apply Z.eqb_neq in B2. unfold BELIEF_CONCEPT_MATCH_TARGET in B1. eapply rs_more; [exact R|lia|]. apply IH. exact H.
Qed.
End G.
