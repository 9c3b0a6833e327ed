(** Proofs for C70. *)
From Coq Require Import ZArith List Bool Lia.
From Verif Require Import Base F64 TruthM StampM StampP TermM TermS TermP TermP2 NamesM AtomsM EventM InferenceM TableM VariableM MemoryM NalM QuestionM DecisionM CycleM LearnS ExecS.
Import ListNotations.
Local Open Scope Z_scope.
#[local] Opaque fofZ fdec fltb fleb AddEvent Term_ExtractSubterm Term_OverrideSubterm implication_of getTemporalLinkTruth IntroduceImplicationVariables2 hasVariable copulaEquals GetPreconditionWithoutOp SequenceLength
  stamp_check_overlap stamp_make Conceptualize AddNegativeConfirmation ApplySubstitute Unify AddInput feedback_term FindConceptByTerm term_eqb zero_term.
Lemma okX {A} (a b : A) : Ok a = Ok b -> a = b. Proof. congruence. Qed.
Section X.
Variable nm : names.
Variable av : Z -> option (f64 * name).
Variable simdist : f64.
Variable pd : Z -> f64.
Variable pen : nat -> f64.
Variable layers : nat.
Variable ca : f64.
Variable act : list exec -> exec -> feedback.
Variable fuel : nat.
Variable now : Z.
Lemma eqb_ne a b : term_eqb a b = false -> a <> b.
Proof. intros H X. apply term_eqb_spec in X. rewrite X in H. discriminate H. Qed.
Definition red (n : nat) (a b : term) : term * term := if copulaEquals nm (at_ a 0) SEQUENCE && copulaEquals nm (at_ b 0) SEQUENCE then drop_common nm n a b else (a, b).
Lemma red_spec n : forall a b, reduced nm n a b (fst (red n a b)) (snd (red n a b)).
Proof.
  induction n as [|n IH]; intros a b; unfold red.
  - destruct (_ && _); apply reduced_deep.
  - destruct (copulaEquals nm (at_ a 0) SEQUENCE) eqn:SA; cbn [andb]; [|apply reduced_other; auto]. destruct (copulaEquals nm (at_ b 0) SEQUENCE) eqn:SB; [|apply reduced_other; auto].
    cbn [drop_common]. destruct (term_eqb (Term_ExtractSubterm a 1) (Term_ExtractSubterm b 1)) eqn:E1.
    + apply term_eqb_spec in E1. apply reduced_first; auto. apply IH.
    + apply eqb_ne in E1. destruct (term_eqb (Term_ExtractSubterm a 2) (Term_ExtractSubterm b 2)) eqn:E2.
      * apply term_eqb_spec in E2. apply reduced_last; auto. apply IH.
      * apply eqb_ne in E2. exact (reduced_different nm _ a b E1 E2).
Qed.
Lemma eqb_f a b : a <> b -> term_eqb a b = false.
Proof. intros N. destruct (term_eqb a b) eqn:X; [|reflexivity]. apply term_eqb_spec in X. exfalso. exact (N X). Qed.
Lemma red_is n a b a' b' : reduced nm n a b a' b' -> red n a b = (a', b').
Proof.
  induction 1 as [a b|n a b H|n a b a' b' S1 S2 E1 R IH|n a b a' b' S1 S2 E1 E2 R IH|n a b E1 E2]; unfold red.
  - destruct (_ && _); reflexivity.
  - destruct H as [H|H]; rewrite H; [|rewrite andb_false_r]; reflexivity.
  - rewrite S1, S2. cbn [andb drop_common]. apply term_eqb_spec in E1. rewrite E1. exact IH.
  - rewrite S1, S2. cbn [andb drop_common]. apply eqb_f in E1. rewrite E1. apply term_eqb_spec in E2. rewrite E2. exact IH.
  - destruct (_ && _); [|reflexivity]. destruct n as [|n]; cbn [drop_common]; [reflexivity|]. apply eqb_f in E1, E2. rewrite E1, E2. reflexivity.
Qed.
Lemma red_fun n a b a' b' : reduced nm n a b a' b' -> forall a2 b2, reduced nm n a b a2 b2 -> a2 = a' /\ b2 = b'.
Proof. intros H a2 b2 H2. apply red_is in H, H2. rewrite H in H2. injection H2 as <- <-. split; reflexivity. Qed.
Lemma free_spec m a b r : not_temporal m a b = Ok r -> r = true <-> unrelated_in_time m a b.
Proof.
  unfold not_temporal, unrelated_in_time. destruct (getTemporalLinkTruth m a b) as [v| |]; cbn [rbind]; try discriminate. change NONTEMPORAL_EXP with (fdec 5 10).
  destruct (fleb (Truth_Expectation f64A v) (fdec 5 10)) eqn:F1; cbn [negb].
  - destruct (getTemporalLinkTruth m b a) as [w| |]; cbn [rbind]; try discriminate. intros H. apply okX in H. subst r. split.
    + intros F2. exists v, w. auto.
    + intros (v' & w' & A & B & C & D). apply okX in B. subst w'. exact D.
  - intros H. apply okX in H. subst r. split; [discriminate|]. intros (v' & w' & A & B & C & D). apply okX in A. subst v'. congruence.
Qed.
Lemma gen_spec m e side seen m' t : add_generalised nm pd pen layers fuel m now e side seen = Ok (m', t) -> general_told nm pd pen layers fuel now e side seen m m' t.
Proof.
  unfold add_generalised, general_told. destruct (IntroduceImplicationVariables2 nm (e_term e) true side) as [[ok t1]| |] eqn:I; cbn [rbind]; try discriminate.
  destruct (ok && hasVariable nm t1 true true false && negb (term_eqb seen t1)) eqn:B.
  - apply andb_prop in B as [B B3]. apply andb_prop in B as [B1 B2]. subst ok. apply negb_true_iff in B3. apply eqb_ne in B3.
    match goal with |- (do m <- ?x ; _) = _ -> _ => destruct x as [m1| |] eqn:A; cbn [rbind]; try discriminate end. intros H. apply okX in H. injection H as <- <-. left. split; [|exact A]. split; auto.
  - intros H. apply okX in H. injection H as <- <-. right. split; [|auto]. intros t' (X & Y & Z). rewrite X in I. apply okX in I. injection I as <- <-. rewrite Y in B. cbn [andb] in B. apply negb_false_iff in B. apply term_eqb_spec in B. contradiction.
Qed.
Lemma equiv_spec m t v st seen m' out : add_equivalence nm pd pen layers fuel m now t v st seen = Ok (m', out) ->
  exists m1 m2, tell_now nm pd pen layers fuel now (present_belief now t v st) m m1 /\ general_told nm pd pen layers fuel now (present_belief now t v st) 2 (fst seen) m1 m2 (fst out) /\
    general_told nm pd pen layers fuel now (present_belief now t v st) 1 (snd seen) m2 m' (snd out).
Proof.
  unfold add_equivalence. cbv zeta. fold (present_belief now t v st). match goal with |- (do m <- ?x ; _) = _ -> _ => destruct x as [m1| |] eqn:A; cbn [rbind]; try discriminate end.
  destruct (add_generalised _ _ _ _ _ m1 _ _ _ _) as [[m2 t2]| |] eqn:G2; cbn [rbind]; try discriminate. destruct (add_generalised _ _ _ _ _ m2 _ _ _ _) as [[m3 t3]| |] eqn:G3; cbn [rbind]; try discriminate.
  intros H. apply okX in H. injection H as <- <-. exists m1, m2. split; [exact A|]. split; [exact (gen_spec _ _ _ _ _ _ G2)|exact (gen_spec _ _ _ _ _ _ G3)].
Qed.
Lemma side_spec m a b v st seen m' out :
  (let (ok, t) := implication_of a b in do free <- (if ok then not_temporal m a b else Ok false) ; if free then add_equivalence nm pd pen layers fuel m now t v st seen else Ok (m, (zero_term, zero_term))) = Ok (m', out) ->
  implication_told nm pd pen layers fuel now a b v st seen out m m'.
Proof.
  destruct (implication_of a b) as [ok t] eqn:I. unfold implication_told. rewrite I. cbn [fst]. destruct ok.
  - destruct (not_temporal m a b) as [free| |] eqn:F; cbn [rbind]; try discriminate. apply free_spec in F. destruct free.
    + intros H. apply equiv_spec in H as (m1 & m2 & A & B & C). left. exists t, m1, m2. split; [reflexivity|]. split; [apply F; reflexivity|]. auto.
    + intros H. apply okX in H. injection H as <- <-. right. split; [|auto]. right. intros X. apply F in X. discriminate X.
  - cbn [rbind]. intros H. apply okX in H. injection H as <- <-. right. auto.
Qed.
Lemma compare_spec m spec cmp m' : compare_links nm pd pen layers fuel m now spec (Term_ExtractSubterm (i_term spec) 2) cmp = Ok m' -> generalised_from nm pd pen layers fuel now spec cmp m m'.
Proof.
  unfold compare_links, generalised_from. set (p1 := GetPreconditionWithoutOp nm (Term_ExtractSubterm (i_term spec) 1)). set (p2 := GetPreconditionWithoutOp nm (Term_ExtractSubterm (i_term cmp) 1)). cbv zeta.
  destruct (hasVariable nm (i_term cmp) true true false) eqn:HV. { intros H. apply okX in H. subst m'. right. split; [|reflexivity]. intros q1 q2 (X & _). congruence. }
  destruct (term_eqb p1 p2) eqn:EP. { intros H. apply okX in H. subst m'. right. split; [|reflexivity]. intros q1 q2 (_ & X & _). apply X. apply term_eqb_spec. exact EP. }
  apply eqb_ne in EP. fold (red 7 p1 p2). pose proof (red_spec 7 p1 p2) as R. destruct (red 7 p1 p2) as [r1 r2]. cbn [fst snd] in R.
  destruct (_ && _ && _) eqn:B; cbn [negb].
  2: { intros H. apply okX in H. subst m'. right. split; [|reflexivity]. intros q1 q2 (_ & _ & X & Y1 & Y2 & Y3 & _). destruct (red_fun 7 p1 p2 r1 r2 R q1 q2 X) as [-> ->].
    apply term_eqb_spec in Y1, Y2. apply Nat.eqb_eq in Y3. rewrite Y1, Y2, Y3 in B. discriminate B. }
  apply andb_prop in B as [B B3]. apply andb_prop in B as [B1 B2]. apply term_eqb_spec in B1, B2. apply Nat.eqb_eq in B3.
  destruct (stamp_check_overlap (i_stamp spec) (i_stamp cmp)) eqn:O. { intros H. apply okX in H. subst m'. right. split; [|reflexivity]. intros q1 q2 (_ & _ & _ & _ & _ & _ & X). apply X. apply stamp_overlap_spec. exact O. }
  assert (AL : alike nm spec cmp r1 r2). { split; [exact HV|]. split; [exact EP|]. split; [exact R|]. split; [exact B1|]. split; [exact B2|]. split; [exact B3|]. intros X. apply stamp_overlap_spec in X. congruence. }
  intros H. left. exists r1, r2.
  assert (S1 : exists m1 seen, implication_told nm pd pen layers fuel now r1 r2 (Truth_Induction f64A (i_truth spec) (i_truth cmp)) (stamp_make (i_stamp spec) (i_stamp cmp)) (zero_term, zero_term) seen m m1 /\
    (let (ok, t) := implication_of r2 r1 in do free <- (if ok then not_temporal m1 r2 r1 else Ok false) ; if free then (do (m, _) <- add_equivalence nm pd pen layers fuel m1 now t (Truth_Abduction f64A (i_truth spec) (i_truth cmp)) (stamp_make (i_stamp spec) (i_stamp cmp)) seen ; Ok m) else Ok m1) = Ok m').
  { pose proof (side_spec m r1 r2 (Truth_Induction f64A (i_truth spec) (i_truth cmp)) (stamp_make (i_stamp spec) (i_stamp cmp)) (zero_term, zero_term)) as SS.
    destruct (implication_of r1 r2) as [ok1 t1]. destruct (if ok1 then not_temporal m r1 r2 else Ok false) as [free| |]; cbn [rbind] in *; try discriminate H.
    destruct (if free then _ else _) as [[m1 seen]| |]; cbn [rbind] in H; try discriminate H. exists m1, seen. split; [apply SS; reflexivity|exact H]. }
  destruct S1 as (m1 & seen & S1 & S2). exists m1, seen.
  pose proof (side_spec m1 r2 r1 (Truth_Abduction f64A (i_truth spec) (i_truth cmp)) (stamp_make (i_stamp spec) (i_stamp cmp)) seen m') as SS.
  destruct (implication_of r2 r1) as [ok2 t2]. destruct (if ok2 then not_temporal m1 r2 r1 else Ok false) as [free| |]; cbn [rbind] in *; try discriminate S2. destruct free.
  - destruct (add_equivalence _ _ _ _ _ _ _ _ _ _ _) as [[m2 out]| |]; cbn [rbind] in S2; try discriminate S2. apply okX in S2. subst m2. exists out. split; [exact AL|]. split; [exact S1|]. apply SS. reflexivity.
  - apply okX in S2. subst m1. exists (zero_term, zero_term). split; [exact AL|]. split; [exact S1|]. apply SS. reflexivity.
Qed.
Lemma loop_spec spec g opi n : forall j m m', (n + j = 20)%nat -> equivalence_loop nm pd pen layers fuel n j m now spec (Term_ExtractSubterm (i_term spec) 2) g opi = Ok m' ->
  generalised_from_all nm pd pen layers fuel now spec g opi j m m'.
Proof.
  induction n as [|n IH]; intros j m m' L; cbn [equivalence_loop]; intros H. { apply okX in H. subst m'. apply full_rules. lia. }
  unfold cread in H. destruct (nth_error (m_store m) g) as [k|] eqn:K; cbn [rbind] in H; [|discriminate H]. unfold pre_at in H. destruct (nth_error (c_pre k) opi) as [t|] eqn:T; cbn [rbind] in H; [|discriminate H].
  destruct (Nat.ltb_spec j (t_items t)) as [A|A].
  - destruct (compare_links _ _ _ _ _ _ _ _ _ _) as [m1| |] eqn:C; cbn [rbind] in H; try discriminate H. eapply next_rule; [exact K|exact T|exact A|lia|exact (compare_spec _ _ _ _ C)|]. apply IH; [lia|exact H].
  - apply okX in H. subst m'. eapply all_rules; [exact K|exact T|exact A].
Qed.
Lemma functional_spec m d m' : functional_equivalence nm pd pen layers fuel m now d = Ok m' -> conditions_compared nm pd pen layers fuel now d m m'.
Proof.
  unfold functional_equivalence, conditions_compared. cbv zeta. destruct (at_ (i_term (d_specific d)) 0 =? 0); cbn [negb andb orb]; [intros H; apply okX in H; auto|].
  destruct (hasVariable nm (i_term (d_specific d)) true true false); cbn [negb]; [intros H; apply okX in H; auto|].
  destruct (FindConceptByTerm m _) as [g| |]; cbn [rbind]; try discriminate. intros H. exists g. split; [reflexivity|]. destruct g as [g|]; [exact (loop_spec _ _ _ 20 0 m m' eq_refl H)|apply okX in H; auto].
Qed.
Lemma missing_spec m d m' : missing_case nm pd ca m now d = Ok m' -> failure_assumed nm pd ca now d m m'.
Proof.
  unfold missing_case, failure_assumed. destruct (at_ (i_term (d_missing d)) 0 =? 0); [intros H; apply okX in H; auto|].
  destruct (Conceptualize nm m _ now) as [[m1 p]| |]; cbn [rbind]; try discriminate. intros H. exists m1, p. split; [reflexivity|]. destruct p as [p|]; [|apply okX in H; auto].
  destruct (d_reason d) as [r|]; [|discriminate H]. unfold cread, cmod, cread in H. destruct (nth_error (m_store m1) r) as [kr|] eqn:K1; cbn [rbind] in H; [|discriminate H].
  destruct (nth_error (m_store m1) p) as [k|] eqn:K2; cbn [rbind] in H; [|discriminate H]. unfold pre_at in H. destruct (nth_error (c_pre k) (d_opid d)) as [t|] eqn:T; cbn [rbind] in H; [|discriminate H].
  destruct (AddNegativeConfirmation _ _ _ _ _) as [t'| |] eqn:N; cbn [rbind] in H; try discriminate H. apply okX in H. exists r, kr, k, t, t'. split; [reflexivity|]. split; [exact K1|]. split; [first [reflexivity|exact K2]|]. split; [exact T|]. split; [exact N|]. symmetry. exact H.
Qed.
Lemma call_spec cyc s d s' : call_operation nm av simdist pd pen layers ca act fuel cyc s now d = Ok s' -> carried_out nm av simdist pd pen layers ca act fuel now cyc d s s'.
Proof.
  unfold call_operation, carried_out. destruct (Nat.eqb_spec (d_opid d) 0) as [O|O]; [intros H; apply okX in H; split; [auto|contradiction]|]. intros H. split; [contradiction|]. intros _.
  destruct (nth_error (m_ops (s_mem s)) (d_opid d - 1)) as [op|]; [|discriminate H]. exists op. split; [reflexivity|]. destruct (feedback_term (op_term op) (d_args d)) as [t|]; [|apply okX in H; auto].
  destruct (Z.eqb_spec (op_action op) 0) as [Z0|Z0]; [discriminate H|]. split; [exact Z0|]. cbv zeta in H |- *. set (x := mkX op (d_args d)) in *. set (fb := act (s_trace s) x) in *.
  destruct (fb_failed fb) eqn:FF. { apply okX in H. right. split; [|auto]. intros subs t' (X & _). congruence. }
  assert (STEP : forall subs, answer nm av simdist op (d_args d) fb subs -> (forall s2, answer nm av simdist op (d_args d) fb s2 -> s2 = subs) ->
    (do (t0, ok) <- ApplySubstitute nm t subs ; if negb ok then Ok (set_trace s (x :: s_trace s)) else do s0 <- AddInput nm pd pen layers fuel cyc (set_trace s (x :: s_trace s)) t0 EVENT_TYPE_BELIEF NAR_DEFAULT_TRUTH false f0 ; do m <- missing_case nm pd ca (s_mem s0) now d ; Ok (set_mem s0 m)) = Ok s' ->
    (exists subs t' s2 m', answer nm av simdist op (d_args d) fb subs /\ ApplySubstitute nm t subs = Ok (t', true) /\
           AddInput nm pd pen layers fuel cyc (set_trace s (x :: s_trace s)) t' EVENT_TYPE_BELIEF (@mkTruth f64A f1 (fdec 9 10)) false f0 = Ok s2 /\ failure_assumed nm pd ca now d (s_mem s2) m' /\ s' = set_mem s2 m') \/
        (forall subs t', answer nm av simdist op (d_args d) fb subs -> ApplySubstitute nm t subs <> Ok (t', true)) /\ s' = set_trace s (x :: s_trace s)).
  { clear H. intros subs AN UN H. destruct (ApplySubstitute nm t subs) as [[t' ok]| |] eqn:AP; cbn [rbind] in H; try discriminate H. destruct ok; cbn [negb] in H.
    - destruct (AddInput _ _ _ _ _ _ _ _ _ _ _ _) as [s2| |] eqn:AI; cbn [rbind] in H; try discriminate H. destruct (missing_case _ _ _ _ _ _) as [m'| |] eqn:MC; cbn [rbind] in H; try discriminate H. apply okX in H. left.
      exists subs, t', s2, m'. split; [exact AN|]. split; [exact AP|]. split; [exact AI|]. split; [exact (missing_spec _ _ _ MC)|]. symmetry. exact H.
    - apply okX in H. right. split; [|auto]. intros s2 t2 X. apply UN in X. subst s2. rewrite AP. intros Y. apply okX in Y. discriminate Y. }
  destruct (op_stdout op) eqn:SO.
  - destruct (fb_stdin fb) as [| |line] eqn:SI; cbn [rbind] in H.
    + apply okX in H. right. split; [|auto]. intros subs t' (_ & [[X _]|(_ & l & X & _)]); congruence.
    + discriminate H.
    + destruct (Unify nm av simdist (Term_ExtractSubterm (d_args d) 2) line) as [subs| |] eqn:U; cbn [rbind] in H; try discriminate H. destruct (s_success subs) eqn:SU.
      * apply (STEP subs); [split; [exact FF|right; split; [exact SO|exists line; auto]]| |exact H].
        intros s2 (_ & [[X _]|(_ & l & X & Y & _)]); [congruence|]. assert (l = line) by congruence. subst l. congruence.
      * apply okX in H. right. split; [|auto]. intros s2 t' (_ & [[X _]|(_ & l & X & Y & Z)]); [congruence|]. assert (l = line) by congruence. subst l. rewrite U in Y. apply okX in Y. subst s2. congruence.
  - cbn [rbind] in H. apply (STEP (mkSubst (fb_map fb) true truth0)); [split; [exact FF|left; auto]| |exact H]. intros s2 (_ & [[_ X]|[X _]]); congruence.
Qed.
End X.
