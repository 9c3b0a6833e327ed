From Coq Require Import ZArith Reals List Bool Lra Lia.
From Flocq Require Import Core.Core IEEE754.BinarySingleNaN.
From Verif Require Import Base F64 TruthM TruthS TruthP TruthP2 StampM StampP TermM TermS TermP TermP2 NamesM EventM InferenceM InferenceS.
Local Open Scope Z_scope.

#[local] Opaque fofZ fdec fadd fsub fmul fdiv Truth_Expectation Truth_Revision.

(** multiplying by 1.0 is the identity on doubles *)
Lemma fmul_1_r (x : f64) : Fin x -> fmul x f1 = x.
Proof.
  intros F. Transparent fmul. unfold fmul. pose proof (Bmult_correct 53 1024 _ _ mode_NE x f1) as H.
  assert (R1 : round radix2 (SpecFloat.fexp 53 1024) (round_mode mode_NE) (B2R x * B2R f1) = B2R x).
  { rewrite v_f1, Rmult_1_r. apply (rnd_B x). }
  rewrite R1 in H. rewrite Rlt_bool_true in H by apply abs_B2R_lt_emax.
  destruct H as (H1 & H2 & H3). rewrite F in H2. change (is_finite f1) with true in H2. cbn [andb] in H2.
  apply B2R_Bsign_inj; auto. rewrite H3; [|destruct (Bmult mode_NE x f1); try reflexivity; discriminate].
  change (Bsign f1) with false. apply xorb_false_r.
Qed.
#[local] Opaque fmul.

Lemma proj_same (p : Z -> f64) (v : truth64) t : pow_ok p -> Fin (confidence v) -> Truth_Projection f64A p v t t = v.
Proof.
  intros [_ P0] F. unfold Truth_Projection. destruct (t =? OCCURRENCE_ETERNAL); auto. rewrite Z.sub_diag. cbn [Z.abs].
  change (amul f64A) with fmul. rewrite P0, fmul_1_r by auto. destruct v; reflexivity.
Qed.

(** names *)
Lemma name_of_in nm a : name_of nm a <> [] -> In (name_of nm a) nm /\ 0 < a.
Proof.
  unfold name_of. destruct (Z.leb_spec a 0); [congruence|]. intros H0. split; [|lia].
  destruct (nth_in_or_default (Z.to_nat (a - 1)) nm []) as [|X]; auto. contradiction.
Qed.
Lemma copulaEquals_spec nm a c : names_ok nm -> c <> 0 -> (copulaEquals nm a c = true <-> name_of nm a = [c]).
Proof.
  intros OK Nc. unfold copulaEquals, ch0, ch1. rewrite !andb_true_iff, Z.ltb_lt, !Z.eqb_eq. pose proof (name_of_in nm a) as I. split.
  - intros [[P H0] H1]. destruct (name_of nm a) as [|x [|y l]] eqn:Nm; cbn in *.
    + congruence.
    + congruence.
    + exfalso. apply (OK (x :: y :: l) y); auto; [apply I; discriminate|cbn; auto].
  - intros E. rewrite E in *. cbn. destruct I as [_ I]; [discriminate|auto].
Qed.
Lemma depvar_spec nm a : names_ok nm -> (isDependentVariable nm a = true <-> exists c s, name_of nm a = 35 :: c :: s).
Proof.
  intros OK. unfold isDependentVariable, ch0, ch1. rewrite !andb_true_iff, Z.ltb_lt, negb_true_iff, Z.eqb_neq, Z.eqb_eq. split.
  - intros [[P H1] H0]. destruct (name_of nm a) as [|x [|y l]] eqn:Nm; cbn in *; try congruence. subst. eauto.
  - intros (c & s & Nm). pose proof (name_of_in nm a) as I. rewrite Nm in *. destruct I as [I P]; [discriminate|]. cbn.
    repeat split; auto. apply (OK (35 :: c :: s)); [exact I|cbn; auto].
Qed.

Definition choice_case (nm : names) (existing incoming : event) : bool :=
  stamp_check_overlap (e_stamp incoming) (e_stamp existing)
  || ((copulaEquals nm (at_ (e_term incoming) 0) CONJUNCTION || copulaEquals nm (at_ (e_term incoming) 0) SEQUENCE)
      && hasVariable nm (e_term incoming) false true false)
  || (negb (e_occ existing =? OCCURRENCE_ETERNAL) && negb (e_occ existing =? e_occ incoming))
  || negb (term_eqb (e_term existing) (e_term incoming)).

Lemma hasdep_spec nm t : names_ok nm -> (hasVariable nm t false true false = true <-> exists i c s, (i < SIZE)%nat /\ name_of nm (at_ t i) = 35 :: c :: s).
Proof.
  intros OK. unfold hasVariable. rewrite existsb_exists. split.
  - intros (i & I & H). apply in_seq in I. cbn [andb orb] in H. rewrite orb_false_r in H. apply depvar_spec in H as (c & s & H); auto. exists i, c, s. split; [lia|auto].
  - intros (i & c & s & I & H). exists i. split; [apply in_seq; lia|]. cbn [andb orb]. rewrite orb_false_r. apply depvar_spec; eauto.
Qed.
Lemma choice_case_spec nm ex inc : names_ok nm -> (choice_case nm ex inc = false <-> mergeable nm ex inc).
Proof.
  intros OK. unfold choice_case, mergeable. rewrite !orb_false_iff.
  assert (A : stamp_check_overlap (e_stamp inc) (e_stamp ex) = false <-> (forall id, In id (ids (e_stamp ex)) -> In id (ids (e_stamp inc)) -> False)).
  { rewrite <- not_true_iff_false, stamp_overlap_spec. split; [intros H id I1 I2; apply H; eauto|intros H (x & I1 & I2); eauto]. }
  assert (B : negb (term_eqb (e_term ex) (e_term inc)) = false <-> e_term ex = e_term inc).
  { rewrite negb_false_iff. apply term_eqb_spec. }
  assert (C : negb (e_occ ex =? OCCURRENCE_ETERNAL) && negb (e_occ ex =? e_occ inc) = false <-> (e_occ ex = OCCURRENCE_ETERNAL \/ e_occ ex = e_occ inc)).
  { destruct (Z.eqb_spec (e_occ ex) OCCURRENCE_ETERNAL), (Z.eqb_spec (e_occ ex) (e_occ inc)); cbn; split; auto; try tauto; discriminate. }
  rewrite A, B, C. rewrite <- (not_true_iff_false (_ && _)). rewrite andb_true_iff, orb_true_iff, !copulaEquals_spec, hasdep_spec by (auto; discriminate).
  tauto.
Qed.

(** RevisionAndChoice *)
Lemma conf_proj_fin p (v : truth64) t1 t2 : pow_ok p -> valid v -> Fin (confidence (Truth_Projection f64A p v t1 t2)).
Proof. intros [P _] V. apply (projection_ok p v t1 t2 P V). Qed.

Lemma revision_and_choice_spec nm p ex inc : names_ok nm -> pow_ok p ->
  OCCURRENCE_ETERNAL <= e_occ inc ->
  valid (e_truth ex) -> valid (e_truth inc) -> (0 < val (confidence (e_truth ex)))%R -> (0 < val (confidence (e_truth inc)))%R ->
  let later := Z.max (e_occ ex) (e_occ inc) in
  exists r merged, RevisionAndChoice nm p ex inc = Ok (r, merged) /\
  (e_type ex = EVENT_TYPE_DELETED -> r = inc /\ merged = false) /\
  (e_type ex <> EVENT_TYPE_DELETED -> mergeable nm ex inc ->
     merged = true /\ e_term r = e_term ex /\ e_type r = e_type ex /\ e_occ r = later /\
     e_truth r = Truth_Revision f64A (e_truth ex) (e_truth inc) /\ e_stamp r = stamp_make (e_stamp ex) (e_stamp inc)) /\
  (e_type ex <> EVENT_TYPE_DELETED -> ~ mergeable nm ex inc -> merged = false /\
     ((conf_at p ex later < conf_at p inc later)%R -> r = inc) /\
     ((conf_at p inc later <= conf_at p ex later)%R -> r = ex)) /\
  (e_type ex <> EVENT_TYPE_DELETED -> (conf_at p ex later <= conf_at p r later)%R) /\
  (conf_at p inc later <= conf_at p r later)%R /\ valid (e_truth r) /\ (0 < val (confidence (e_truth r)))%R.
Proof.
  intros OK PO OC VE VI PE PI later. unfold RevisionAndChoice.
  destruct (Z.eqb_spec (e_type ex) EVENT_TYPE_DELETED) as [D|ND].
  { exists inc, false. split; auto. split; auto. repeat (split; [tauto|]). split; [lra|auto]. }
  replace (if e_occ inc <? e_occ ex then e_occ ex else e_occ inc) with later
    by (unfold later; destruct (Z.ltb_spec (e_occ inc) (e_occ ex)); lia).
  change (stamp_check_overlap (e_stamp inc) (e_stamp ex) || _ || _ || _) with (choice_case nm ex inc).
  assert (FE := conf_proj_fin p _ (e_occ ex) later PO VE). assert (FI := conf_proj_fin p _ (e_occ inc) later PO VI).
  destruct (choice_case nm ex inc) eqn:CC.
  - assert (NM : ~ mergeable nm ex inc). { rewrite <- choice_case_spec by auto. congruence. }
    cbn [EventUpdate e_truth]. destruct (fltb _ _) eqn:L.
    + apply fltb_spec in L; auto. fold (conf_at p ex later) in L. fold (conf_at p inc later) in L.
      exists inc, false. split; auto. split; [tauto|]. split; [tauto|]. split; [|split; [lra|split; [lra|auto]]].
      intros _ _. split; auto. split; auto. lra.
    + assert (L' : (conf_at p inc later <= conf_at p ex later)%R).
      { apply Rnot_lt_le. intros H. apply fltb_spec in H; auto. congruence. }
      exists ex, false. split; auto. split; [tauto|]. split; [tauto|]. split; [|split; [lra|split; [lra|auto]]].
      intros _ _. split; auto. split; auto. lra.
  - assert (M : mergeable nm ex inc) by (apply choice_case_spec; auto).
    destruct M as (M1 & M2 & M3 & M4).
    assert (PE' : Truth_Projection f64A p (e_truth ex) (e_occ ex) later = e_truth ex).
    { destruct M3 as [M3|M3]; [unfold Truth_Projection; rewrite M3; reflexivity|]. unfold later. rewrite <- M3, Z.max_id. apply proj_same; auto. apply VE. }
    assert (LI : later = e_occ inc) by (unfold later, OCCURRENCE_ETERNAL in *; lia).
    assert (PI' : Truth_Projection f64A p (e_truth inc) (e_occ inc) later = e_truth inc) by (rewrite LI; apply proj_same; auto; apply VI).
    unfold EventRevision. cbn [EventUpdate e_truth e_occ e_term e_type e_stamp e_creation]. rewrite PE', PI'.
    rewrite (proj_same p (e_truth ex) later PO) by apply VE.
    destruct (revision_ok _ _ VE VI (or_introl PE)) as (VR & R1 & R2).
    assert (L : fleb (confidence (e_truth ex)) (confidence (Truth_Revision f64A (e_truth ex) (e_truth inc))) = true).
    { apply fleb_spec; auto; [apply VE|apply VR]. }
    rewrite L. eexists _, true. split; [reflexivity|]. cbn [e_truth e_occ e_term e_type e_stamp e_creation].
    split; [tauto|]. split; [auto 10|]. split; [intros _ NM; exfalso; apply NM; repeat split; auto|].
    unfold conf_at. cbn [e_truth e_occ]. rewrite PE', PI'. rewrite proj_same by (auto; apply VR).
    split; auto. split; auto. split; auto. lra.
Qed.

(** times *)
Lemma trunc_int (x : f64) z : val x = IZR z -> long_of x = z.
Proof.
  intros H. unfold long_of. apply eq_IZR. rewrite Btrunc_correct, H by typeclasses eauto.
  apply round_generic; [typeclasses eauto|]. apply generic_format_FIX. exists (Float radix2 z 0); [unfold F2R; cbn; lra|reflexivity].
Qed.
Lemma fadd_int a b : Z.abs a <= 2 ^ 52 -> Z.abs b <= 2 ^ 52 -> Fin (fadd (fofZ a) (fofZ b)) /\ val (fadd (fofZ a) (fofZ b)) = IZR (a + b).
Proof.
  intros A B. destruct (v_ofZ_small a) as [FA EA]; [lia|]. destruct (v_ofZ_small b) as [FB EB]; [lia|].
  assert (S : rnd (IZR (a + b)) = IZR (a + b)).
  { destruct (v_ofZ_small (a + b)) as [FS ES]; [lia|]. rewrite <- ES. apply rnd_B. }
  destruct (fadd_ok (fofZ a) (fofZ b)) as [F E]; auto.
  - rewrite EA, EB, <- plus_IZR. rewrite <- abs_IZR. apply Rle_trans with (IZR (2 ^ 53)); [apply IZR_le; lia|].
    change (IZR (2 ^ 53)) with (bpow radix2 53). unfold big. apply bpow_le. lia.
  - split; auto. rewrite E, EA, EB, <- plus_IZR. exact S.
Qed.
Lemma seq_index : copula_index SEQUENCE = 57. Proof. reflexivity. Qed.
Lemma sequence_mk2 a b : Narsese_Sequence a b = let '(ok, r) := mk2 (copula_index SEQUENCE) a b in (ok, if ok then r else zero_term).
Proof.
  unfold Narsese_Sequence, mk2. destruct (Term_OverrideSubterm _ 1 a) as [[] t]; auto.
  destruct (Term_OverrideSubterm t 2 b) as [[] t2]; auto.
Qed.
Lemma induction_term p a b ok i : BeliefInduction p a b = Ok (ok, i) -> ok = true -> exists t, mk2 (copula_index TEMPORAL_IMPLICATION) (e_term a) (e_term b) = (true, t) /\ i_term i = t.
Proof.
  unfold BeliefInduction, mk2. destruct (e_occ a <=? e_occ b); cbn [rassert rbind]; [|discriminate].
  destruct (Term_OverrideSubterm _ 1 (e_term a)) as [[] t]; [|intros H; injection H as <- <-; discriminate].
  destruct (Term_OverrideSubterm t 2 (e_term b)) as [[] t2]; intros H; injection H as <- <-; [|discriminate]. intros _. exists t2. auto.
Qed.

Lemma stamp_make_derived s1 s2 c1 c2 : stamp_wf s1 -> stamp_wf s2 -> derived_from s1 c1 s2 c2 (stamp_make s1 s2) (Z.max c1 c2).
Proof. intros H1 H2. split; auto. apply stamp_make_ids; auto. Qed.

(** id histories *)
Definition gwf (g : idstate) (p : option stamp) (n : Z) : Prop :=
  g_base g = 1 + n /\ match p with Some s => g_import g = s /\ nth 0 s 0 <> 0 | None => nth 0 (g_import g) 0 = 0 end.
Lemma idrun_gwf os : forall g p n, gwf g p n -> gwf (idrun g os) (pending os p) (own_inputs os p n).
Proof.
  induction os as [|o os IH]; intros g p n H; cbn [idrun pending own_inputs]; auto. destruct H as [B I].
  destruct o as [|s|]; cbn [idstep fst].
  - unfold Event_InputEvent. destruct p as [s|].
    + destruct I as [-> I]. destruct (Z.eqb_spec (nth 0 s 0) 0); [contradiction|]. cbn [negb]. cbn [fst]. apply IH. split; cbn [g_base g_import]; [lia|reflexivity].
    + rewrite I. cbn [Z.eqb negb fst]. apply IH. split; cbn [g_base g_import]; [lia|auto].
  - apply IH. split; cbn; auto. destruct (Z.eqb_spec (nth 0 s 0) 0); auto.
  - apply IH. split; cbn; auto.
Qed.
Lemma next_stamp os : snd (idstep (idrun ids_start os) Input) =
  Some (match pending os None with Some s => s | None => (1 + own_inputs os None 0) :: repeat 0 9 end).
Proof.
  pose proof (idrun_gwf os ids_start None 0 (conj eq_refl eq_refl)) as [B I]. cbn [idstep]. unfold Event_InputEvent.
  destruct (pending os None) as [s|].
  - destruct I as [-> I]. destruct (Z.eqb_spec (nth 0 s 0) 0); [contradiction|]. reflexivity.
  - rewrite I. cbn [Z.eqb negb snd e_stamp]. rewrite B. reflexivity.
Qed.
Lemma own_inputs_mono os : forall p n, Forall (fun o => o <> Reset) os -> n <= own_inputs os p n.
Proof.
  induction os as [|o os IH]; intros p n F; cbn [own_inputs]; [lia|]. inversion F as [|? ? F1 F2]; subst. destruct o.
  - specialize (IH None (match p with Some _ => n | None => n + 1 end) F2). destruct p; lia.
  - apply IH; auto.
  - congruence.
Qed.
Lemma own_inputs_nonneg os : forall p n, 0 <= n -> 0 <= own_inputs os p n.
Proof. induction os as [|o os IH]; intros p n H; cbn [own_inputs]; auto. destruct o; apply IH; auto; try lia. destruct p; lia. Qed.
Lemma own_inputs_app os1 : forall os2 p n, own_inputs (os1 ++ os2) p n = own_inputs os2 (pending os1 p) (own_inputs os1 p n).
Proof. induction os1 as [|[] os1 IH]; intros; cbn [app own_inputs pending]; auto. Qed.
Lemma inputs_disjoint os1 os2 : Forall (fun o => o <> Reset) os2 -> pending os1 None = None -> pending (os1 ++ Input :: os2) None = None ->
  exists n m, snd (idstep (idrun ids_start os1) Input) = Some (n :: repeat 0 9) /\
              snd (idstep (idrun ids_start (os1 ++ Input :: os2)) Input) = Some (m :: repeat 0 9) /\ 1 <= n < m /\
              stamp_check_overlap (n :: repeat 0 9) (m :: repeat 0 9) = false.
Proof.
  intros F P1 P2. rewrite !next_stamp, P1, P2. exists (1 + own_inputs os1 None 0), (1 + own_inputs (os1 ++ Input :: os2) None 0).
  split; auto. split; auto. rewrite own_inputs_app, P1. cbn [own_inputs].
  pose proof (own_inputs_mono os2 None (own_inputs os1 None 0 + 1) F). pose proof (own_inputs_nonneg os1 None 0 ltac:(lia)).
  split; [lia|]. apply not_true_iff_false. rewrite stamp_overlap_spec. intros (x & I1 & I2).
  assert (G : forall n, n <> 0 -> ids (n :: repeat 0 9) = [n]).
  { intros n Hn. unfold ids. fold ids. cbn. unfold STAMP_FREE. destruct (Z.eqb_spec n 0); [contradiction|reflexivity]. }
  rewrite G in I1, I2 by lia. destruct I1 as [<-|[]]. destruct I2 as [I2|[]]. lia.
Qed.

(** exact average *)
Lemma weighted_average_between (a1 a2 w1 w2 : R) : (0 <= w1 -> 0 <= w2 -> 0 < w1 + w2 ->
  Rmin a1 a2 <= weighted_average realA a1 a2 w1 w2 <= Rmax a1 a2)%R.
Proof.
  intros H1 H2 H. unfold weighted_average. cbn. 
  assert (L : (forall m, m <= a1 -> m <= a2 -> m * (w1 + w2) <= a1 * w1 + a2 * w2)%R) by (intros; nra).
  assert (U : (forall m, a1 <= m -> a2 <= m -> a1 * w1 + a2 * w2 <= m * (w1 + w2))%R) by (intros; nra).
  split.
  - apply Rmult_le_reg_r with (w1 + w2)%R; auto. unfold Rdiv. rewrite Rmult_assoc, Rinv_l, Rmult_1_r by lra. apply L; [apply Rmin_l|apply Rmin_r].
  - apply Rmult_le_reg_r with (w1 + w2)%R; auto. unfold Rdiv. rewrite Rmult_assoc, Rinv_l, Rmult_1_r by lra. apply U; [apply Rmax_l|apply Rmax_r].
Qed.
