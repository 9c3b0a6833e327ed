(** Proofs about inference in a cycle (C68). *)
From Coq Require Import ZArith List Bool Lia.
From Verif Require Import Base F64 TruthM StampM StampP TermM TermP NamesM EventM InferenceM UsageM TableM VariableM MemoryM NalM NalS NalP RulesM QuestionM DecisionM CycleM SeqS AddS LearnS LearnP2 InvIndexM InferS.
Import ListNotations.
Local Open Scope Z_scope.
#[local] Opaque fmul Truth_Expectation Term_ExtractSubterm AddEvent Truth_Projection IntroduceImplicationVariables IntroduceConjunctionVariables rejected zero_term conclusions Unify ApplySubstitute FindConceptByTerm GetConceptChain InvIndexM.el_deref Truth_Deduction Truth_Abduction Truth_Analogy Truth_AnonymousAnalogy Usage_use stamp_make.
Lemma okL {A} (a b : A) : Ok a = Ok b -> a = b. Proof. congruence. Qed.
Lemma read_nth m c k : cread m c = Ok k <-> nth_error (m_store m) c = Some k.
Proof. unfold cread. destruct (nth_error _ _); split; congruence. Qed.
Section G.
Variable nm : names.
Variable av : Z -> option (f64 * name).
Variable simdist : f64.
Variable pd : Z -> f64.
Variable pen : nat -> f64.
Variables layers fuel : nat.
Notation Tell := (tell nm pd pen layers fuel).
Notation Concludes := (concludes nm pd pen layers fuel).
Notation All := (all_concluded nm pd pen layers fuel).
Lemma excl a c c' : copulaEquals nm a c = true -> copulaEquals nm a c' = true -> c = c'.
Proof. unfold copulaEquals. intros H H'. apply andb_prop in H as [H _]. apply andb_prop in H as [_ H]. apply andb_prop in H' as [H' _]. apply andb_prop in H' as [_ H']. apply Z.eqb_eq in H, H'. congruence. Qed.
Lemma tell_spec d t m m' : add_derived nm pd pen layers fuel m t d = Ok m' -> Tell d t m m'.
Proof.
  unfold add_derived, tell. set (va := match dv_valid d with None => _ | Some c => _ end).
  assert (V : forall b, va = Ok b -> (b = true <-> in_place d m)).
  { intros b. unfold va, in_place. destruct (dv_valid d) as [c|]; [|intros H; apply okL in H; subst; tauto].
    destruct (cread m c) as [k| |] eqn:R; cbn [rbind]; try discriminate. apply read_nth in R. intros H; apply okL in H; subst b. rewrite Z.eqb_eq. split; [eauto|]. intros (k' & N & E). congruence. }
  destruct va as [b| |]; cbn [rbind]; try discriminate. specialize (V b eq_refl). destruct b; cbn [negb].
  - destruct (rejected nm t) as [r| |] eqn:R; cbn [rbind]; try discriminate. pose proof (rejected_exact nm t r R) as X. destruct r; intros H.
    + apply okL in H. subst m'. split; [intros _ Q; exfalso; apply Q, X; reflexivity|auto].
    + split; [intros _ _; exact H|]. intros [Q|Q]; [exfalso; apply Q, V; reflexivity|]. apply X in Q. discriminate Q.
  - intros H. apply okL in H. subst m'. split; auto. intros Q. apply V in Q. discriminate Q.
Qed.
Lemma variant_spec d t r i m m' : intro_derived nm pd pen layers fuel m t d r i false = Ok m' -> variant nm pd pen layers fuel d r i t m m'.
Proof.
  unfold intro_derived, variant, introduced. destruct r as [[ok t']| |]; cbn [rbind]; try discriminate. cbn [negb orb]. rewrite andb_true_r.
  destruct (ok && negb (term_eqb t' t) && negb (HOLStatementComponentHasInvalidInhOrSim nm t') && negb (i && DeclarativeImplicationWithoutIndependentVar nm t')) eqn:B; intros H.
  - apply andb_prop in B as [B B4]. apply andb_prop in B as [B B3]. apply andb_prop in B as [B1 B2]. apply negb_true_iff in B2, B3, B4. subst ok.
    assert (N : t' <> t) by (intros Q; apply term_eqb_spec in Q; congruence). left. exists t'. split; [|apply tell_spec; exact H]. split; auto. split; auto. split; auto. intros ->. exact B4.
  - right. split; [|congruence]. intros t0 (Q & N & X & Y). assert (ok = true /\ t0 = t') as [-> ->] by (split; congruence).
    assert (Z0 : i && DeclarativeImplicationWithoutIndependentVar nm t' = false) by (destruct i; [apply Y; reflexivity|reflexivity]).
    rewrite X, Z0 in B. cbn [andb negb] in B. rewrite !andb_true_r in B. apply negb_false_iff in B. apply term_eqb_spec in B. auto.
Qed.
Lemma like_spec t : implication_like nm t <-> (copulaEquals nm (at_ t 0) TEMPORAL_IMPLICATION || copulaEquals nm (at_ t 0) IMPLICATION || copulaEquals nm (at_ t 0) EQUIVALENCE = true).
Proof. unfold implication_like, higher_order, copula. rewrite !orb_true_iff. tauto. Qed.
Lemma high_spec t : higher_order nm t <-> (copulaEquals nm (at_ t 0) IMPLICATION || copulaEquals nm (at_ t 0) EQUIVALENCE = true).
Proof. unfold higher_order, copula. rewrite !orb_true_iff. tauto. Qed.
Lemma concludes_spec d t vi m m' : DerivedEvent nm pd pen layers fuel m t d vi false = Ok m' -> Concludes d t vi m m'.
Proof.
  unfold DerivedEvent. cbv zeta. destruct vi; cbn [andb negb]; [|intros H; apply cl_plain; [left; reflexivity|apply tell_spec; exact H]].
  pose proof (like_spec t) as LS. destruct (copulaEquals nm (at_ t 0) TEMPORAL_IMPLICATION || copulaEquals nm (at_ t 0) IMPLICATION || copulaEquals nm (at_ t 0) EQUIVALENCE).
  - destruct (intro_derived _ _ _ _ _ m _ _ _ _ _) as [m0| |] eqn:E0; cbn [rbind]; try discriminate. destruct (intro_derived _ _ _ _ _ m0 _ _ _ _ _) as [m1| |] eqn:E1; cbn [rbind]; try discriminate.
    rewrite orb_false_r. intros H. eapply cl_implication; [reflexivity|apply LS; reflexivity|apply variant_spec; exact E0|apply variant_spec; exact E1|].
    pose proof (high_spec t) as HS. destruct (copulaEquals nm (at_ t 0) IMPLICATION || copulaEquals nm (at_ t 0) EQUIVALENCE).
    + left. split; [apply HS; reflexivity|]. apply okL in H. auto.
    + right. split; [intros X; apply HS in X; discriminate X|apply tell_spec; exact H].
  - assert (NL : ~ implication_like nm t) by (intros X; apply LS in X; discriminate X). destruct (copulaEquals nm (at_ t 0) CONJUNCTION) eqn:C.
    + destruct (intro_derived _ _ _ _ _ m _ _ _ _ _) as [m0| |] eqn:E0; cbn [rbind]; try discriminate. intros H.
      eapply cl_conjunction; [reflexivity|exact NL|exact C|apply variant_spec; exact E0|apply variant_spec; exact H].
    + intros H. apply cl_plain; [right; split; [exact NL|unfold copula; congruence]|apply tell_spec; exact H].
Qed.
Lemma all_spec d L : forall m m', foldM (fun m '(c, v, vi) => DerivedEvent nm pd pen layers fuel m c (with_dtruth d v) vi false) L m = Ok m' -> All d L m m'.
Proof.
  induction L as [|[[c v] vi] L IH]; intros m m'; cbn [foldM]; [intros H; apply okL in H; subst; constructor|].
  destruct (DerivedEvent _ _ _ _ _ _ _ _ _ _) as [m1| |] eqn:E; cbn [rbind]; try discriminate. intros H. econstructor; [apply concludes_spec; exact E|apply IH; exact H].
Qed.
Lemma apply_spec m double t1 t2 v1 v2 d m' : RuleTable_Apply nm pd pen layers fuel m double t1 t2 v1 v2 d = Ok m' -> All d (conclusions nm double t1 t2 v1 v2) m m'.
Proof. apply all_spec. Qed.
Lemma all_app d L1 L2 m m1 m2 : All d L1 m m1 -> All d L2 m1 m2 -> All d (L1 ++ L2) m m2.
Proof. induction 1; intros H2; cbn; auto. econstructor; eauto. Qed.
(** a list of conclusions with exactly those *)
Definition exactly (d : deriv) (P : term -> truth f64A -> Prop) (m m' : memory) : Prop :=
  exists L, All d L m m' /\ forall c v i, In (c, v, i) L <-> i = false /\ P c v.
Lemma exactly_nil d (P : term -> truth f64A -> Prop) m : (forall c v, ~ P c v) -> exactly d P m m.
Proof. intros N. exists []. split; [constructor|]. intros c v i. cbn. split; [tauto|]. intros [_ X]. destruct (N _ _ X). Qed.
Lemma exactly_app d (P Q : term -> truth f64A -> Prop) m m1 m2 : exactly d P m m1 -> exactly d Q m1 m2 -> exactly d (fun c v => P c v \/ Q c v) m m2.
Proof. intros (L1 & A1 & B1) (L2 & A2 & B2). exists (L1 ++ L2). split; [eapply all_app; eauto|]. intros c v i. rewrite in_app_iff, B1, B2. tauto. Qed.
Lemma exactly_ext d (P Q : term -> truth f64A -> Prop) m m' : (forall c v, P c v <-> Q c v) -> exactly d P m m' -> exactly d Q m m'.
Proof. intros E (L & A & B). exists L. split; auto. intros c v i. rewrite B, E. tauto. Qed.
Notation Case := (case_of nm av simdist).
Lemma match_spec m pat t1 target v d m' : derive_match nm av simdist pd pen layers fuel m pat t1 target v d = Ok m' -> exactly d (fun c w => Case pat t1 target c /\ w = v) m m'.
Proof.
  unfold derive_match, case_of. destruct (Unify nm av simdist pat t1) as [subs| |] eqn:U; cbn [rbind]; try discriminate. destruct (s_success subs) eqn:S; cbn [negb].
  2:{ intros H; apply okL in H; subst. apply exactly_nil. intros c w [(s & A & B & _) _]. congruence. }
  destruct (ApplySubstitute nm target subs) as [[t ok]| |] eqn:AP; cbn [rbind]; try discriminate. destruct ok; cbn [negb].
  2:{ intros H; apply okL in H; subst. apply exactly_nil. intros c w [(s & A & B & C) _]. assert (s = subs) by congruence. subst s. congruence. }
  intros H. exists [(t, v, false)]. split; [econstructor; [apply concludes_spec; exact H|constructor]|]. intros c w i. cbn. split.
  - intros [Q|[]]. injection Q as <- <- <-. split; auto. split; auto. exists subs. auto.
  - intros [-> [(s & A & B & C) ->]]. left. assert (s = subs) by congruence. subst s. congruence.
Qed.
Lemma built_spec rem predicate : implication_of rem predicate =
  (let (ok1, t) := Term_OverrideSubterm (upd zero_term 0 (copula_index IMPLICATION)) 1 rem in let (ok2, t) := Term_OverrideSubterm t 2 predicate in (ok1 && ok2, t)).
Proof. reflexivity. Qed.
Lemma rest_spec m subject predicate t1 v d m' : remaining_condition nm av simdist pd pen layers fuel m subject predicate t1 v d = Ok m' ->
  exactly d (fun c w => w = v /\
    ((exists t, implication_of (Term_ExtractSubterm subject 2) predicate = (true, t) /\ Case (Term_ExtractSubterm subject 1) t1 t c) \/
     (~ is_case nm av simdist (Term_ExtractSubterm subject 1) t1 /\ exists t, implication_of (Term_ExtractSubterm subject 1) predicate = (true, t) /\ Case (Term_ExtractSubterm subject 2) t1 t c))) m m'.
Proof.
  unfold remaining_condition. cbv zeta. set (a := Term_ExtractSubterm subject 1). set (b := Term_ExtractSubterm subject 2).
  assert (GO : forall pat rem subs, Unify nm av simdist pat t1 = Ok subs -> (if negb (s_success subs) then Ok m else
      let (ok1, t) := Term_OverrideSubterm (upd zero_term 0 (copula_index IMPLICATION)) 1 rem in if negb ok1 then Ok m else
      let (ok2, t) := Term_OverrideSubterm t 2 predicate in if negb ok2 then Ok m else
      do (t, ok) <- ApplySubstitute nm t subs ; if negb ok then Ok m else DerivedEvent nm pd pen layers fuel m t (with_dtruth d v) false false) = Ok m' ->
    exactly d (fun c w => w = v /\ exists t, implication_of rem predicate = (true, t) /\ Case pat t1 t c) m m').
  { intros pat rem subs U. rewrite built_spec. destruct (s_success subs) eqn:S; cbn [negb].
    2:{ intros H; apply okL in H; subst. apply exactly_nil. intros c w (_ & t & _ & s & A & B & _). congruence. }
    destruct (Term_OverrideSubterm _ 1 rem) as [ok1 u1]. destruct (Term_OverrideSubterm u1 2 predicate) as [ok2 u2].
    destruct ok1; cbn [negb andb]; [|intros H; apply okL in H; subst; apply exactly_nil; intros c w (_ & t & Q & _); discriminate Q].
    destruct ok2; cbn [negb andb]; [|intros H; apply okL in H; subst; apply exactly_nil; intros c w (_ & t & Q & _); discriminate Q].
    destruct (ApplySubstitute nm u2 subs) as [[t ok]| |] eqn:AP; cbn [rbind]; try discriminate. destruct ok; cbn [negb].
    2:{ intros H; apply okL in H; subst. apply exactly_nil. intros c w (_ & t0 & Q & s & A & B & C). assert (s = subs) by congruence. assert (t0 = u2) by congruence. subst. congruence. }
    intros H. exists [(t, v, false)]. split; [econstructor; [apply concludes_spec; exact H|constructor]|]. intros c w i. cbn. split.
    - intros [Q|[]]. injection Q as <- <- <-. split; auto. split; auto. exists u2. split; auto. exists subs. auto.
    - intros [-> (-> & t0 & Q & s & A & B & C)]. left. assert (s = subs) by congruence. assert (t0 = u2) by congruence. subst. congruence. }
  destruct (Unify nm av simdist a t1) as [s1| |] eqn:U1; cbn [rbind]; try discriminate. destruct (s_success s1) eqn:S1; cbn [rbind].
  - intros H. assert (X : exactly d (fun c w => w = v /\ exists t, implication_of b predicate = (true, t) /\ Case a t1 t c) m m') by (apply (GO a b s1 U1); exact H).
    eapply exactly_ext; [|exact X]. intros c w. split; [tauto|]. intros [E [Q|[Q _]]]; [tauto|]. exfalso. apply Q. exists s1. auto.
  - destruct (Unify nm av simdist b t1) as [s2| |] eqn:U2; cbn [rbind]; try discriminate. intros H.
    assert (X : exactly d (fun c w => w = v /\ exists t, implication_of a predicate = (true, t) /\ Case b t1 t c) m m') by (apply (GO b a s2 U2); exact H).
    eapply exactly_ext; [|exact X]. intros c w. split.
    + intros [E Q]. split; [exact E|]. right. split; [|exact Q]. clear Q X H GO. intros (s & A & B). rewrite U1 in A. apply okL in A. subst s. rewrite S1 in B. discriminate B.
    + intros [E [(t & Q & s & A & B & _)|[_ Q]]]; [|split; [exact E|exact Q]]. rewrite U1 in A. apply okL in A. subst s. rewrite S1 in B. discriminate B.
Qed.
Lemma special_spec m t1 t2 v1 v2 d m' : SpecialInferences nm av simdist pd pen layers fuel m t1 t2 v1 v2 d = Ok m' -> matching_concluded nm av simdist pd pen layers fuel d t1 t2 v1 v2 m m'.
Proof.
  unfold SpecialInferences. cbv zeta. intros H. change (exactly d (by_matching nm av simdist t1 t2 v1 v2) m m').
  set (S := Term_ExtractSubterm t2 1) in *. set (P := Term_ExtractSubterm t2 2) in *.
  destruct (copulaEquals nm (at_ t2 0) IMPLICATION) eqn:CI; cbn [orb andb] in H.
  - assert (CE : copulaEquals nm (at_ t2 0) EQUIVALENCE = false) by (destruct (copulaEquals nm (at_ t2 0) EQUIVALENCE) eqn:Q; auto; pose proof (excl _ _ _ CI Q) as W; discriminate W).
    assert (CC : copulaEquals nm (at_ t2 0) CONJUNCTION = false) by (destruct (copulaEquals nm (at_ t2 0) CONJUNCTION) eqn:Q; auto; pose proof (excl _ _ _ CI Q) as W; discriminate W).
    rewrite CC in H. destruct (derive_match _ _ _ _ _ _ _ m S t1 P _ d) as [m1| |] eqn:E1; cbn [rbind] in H; try discriminate H.
    destruct (if copulaEquals nm (at_ S 0) CONJUNCTION then _ else _) as [m2| |] eqn:E2; cbn [rbind] in H; try discriminate H.
    destruct (derive_match _ _ _ _ _ _ _ m2 P t1 S _ d) as [m3| |] eqn:E3; cbn [rbind] in H; try discriminate H. apply okL in H. subst m'.
    apply match_spec in E1, E3.
    assert (X2 : exactly d (fun c w => copulaEquals nm (at_ S 0) CONJUNCTION = true /\ w = Truth_Deduction f64A v2 v1 /\
      ((exists t, implication_of (Term_ExtractSubterm S 2) P = (true, t) /\ Case (Term_ExtractSubterm S 1) t1 t c) \/
       (~ is_case nm av simdist (Term_ExtractSubterm S 1) t1 /\ exists t, implication_of (Term_ExtractSubterm S 1) P = (true, t) /\ Case (Term_ExtractSubterm S 2) t1 t c))) m1 m2).
    { destruct (copulaEquals nm (at_ S 0) CONJUNCTION); [apply rest_spec in E2; eapply exactly_ext; [|exact E2]; intros c w; split; [intros Q; split; [reflexivity|exact Q]|intros [_ Q]; exact Q]|]. apply okL in E2. subst. apply exactly_nil. intros c w (Q & _). discriminate Q. }
    eapply exactly_ext; [|eapply exactly_app; [eapply exactly_app; [exact E1|exact X2]|exact E3]]. intros c w. cbn. split.
    + intros [[[Q ->]|(K & -> & [(t & T & Q)|(N & t & T & Q)])]|[Q ->]].
      * apply bm_deduction; [exact CI|exact Q].
      * eapply bm_rest_second; [exact CI|exact K|exact T|exact Q].
      * eapply bm_rest_first; [exact CI|exact K|exact N|exact T|exact Q].
      * apply bm_abduction; [exact CI|exact Q].
    + clear E1 X2 E2 E3. intros Q. destruct Q as [c Q1 Q2|c Q1 Q2|t c Q1 Q2 cond Q3 Q4|t c Q1 Q2 cond Q3 Q4 Q5|c i j Q1 Q2 Q3|c Q1 Q2]; unfold copula in Q1.
      * left; left. split; [exact Q2|reflexivity].
      * right. split; [exact Q2|reflexivity].
      * left; right. split; [exact Q2|]. split; [reflexivity|]. left. exists t. split; [exact Q3|exact Q4].
      * left; right. split; [exact Q2|]. split; [reflexivity|]. right. split; [exact Q3|]. exists t. split; [exact Q4|exact Q5].
      * rewrite CE in Q1. discriminate Q1.
      * rewrite CC in Q1. discriminate Q1.
  - destruct (copulaEquals nm (at_ t2 0) EQUIVALENCE) eqn:CE.
    + assert (CC : copulaEquals nm (at_ t2 0) CONJUNCTION = false) by (destruct (copulaEquals nm (at_ t2 0) CONJUNCTION) eqn:Q; auto; pose proof (excl _ _ _ CE Q) as W; discriminate W).
      rewrite CC in H. destruct (derive_match _ _ _ _ _ _ _ m S t1 P _ d) as [m1| |] eqn:E1; cbn [rbind] in H; try discriminate H.
      destruct (derive_match _ _ _ _ _ _ _ m1 P t1 S _ d) as [m3| |] eqn:E3; cbn [rbind] in H; try discriminate H. apply okL in H. subst m'.
      apply match_spec in E1, E3. eapply exactly_ext; [|eapply exactly_app; [exact E1|exact E3]]. intros c w. cbn. split.
      * intros [[Q ->]|[Q ->]]; [apply (bm_equivalence _ _ _ _ _ _ _ c 1 2); [exact CE|left; split; reflexivity|exact Q]|apply (bm_equivalence _ _ _ _ _ _ _ c 2 1); [exact CE|right; split; reflexivity|exact Q]].
      * clear E1 E3. intros Q. destruct Q as [c Q1 Q2|c Q1 Q2|t c Q1 Q2 cond Q3 Q4|t c Q1 Q2 cond Q3 Q4 Q5|c i j Q1 Q2 Q3|c Q1 Q2]; unfold copula in Q1; try (rewrite CI in Q1; discriminate Q1); try (rewrite CC in Q1; discriminate Q1).
        destruct Q2 as [[-> ->]|[-> ->]]; [left|right]; (split; [exact Q3|reflexivity]).
    + cbn [rbind] in H. destruct (copulaEquals nm (at_ t2 0) CONJUNCTION) eqn:CC.
      * apply match_spec in H. eapply exactly_ext; [|exact H]. intros c w. split; [intros [Q ->]; apply bm_conjunction; [exact CC|exact Q]|].
        clear H. intros Q. destruct Q as [c Q1 Q2|c Q1 Q2|t c Q1 Q2 cond Q3 Q4|t c Q1 Q2 cond Q3 Q4 Q5|c i j Q1 Q2 Q3|c Q1 Q2]; unfold copula in Q1; try (rewrite CI in Q1; discriminate Q1); try (rewrite CE in Q1; discriminate Q1). split; [exact Q2|reflexivity].
      * apply okL in H. subst. apply exactly_nil. intros c w Q. destruct Q as [c Q1 Q2|c Q1 Q2|t c Q1 Q2 cond Q3 Q4|t c Q1 Q2 cond Q3 Q4 Q5|c i j Q1 Q2 Q3|c Q1 Q2]; unfold copula in Q1; try (rewrite CI in Q1; discriminate Q1); try (rewrite CE in Q1; discriminate Q1); rewrite CC in Q1; discriminate Q1.
Qed.
End G.
