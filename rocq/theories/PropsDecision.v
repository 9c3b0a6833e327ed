(** Property theorems C46: operations are run only on sufficiently desired decisions, and the best
    option for a goal is taken. *)
From Coq Require Import ZArith List Bool Lia Reals Lra.
From Flocq Require Import Core IEEE754.BinarySingleNaN.
From Verif Require Import Base F64 TruthM TruthS StampM HashM TermM TermS TermP NamesM AtomsM AtomsS EventM InferenceM TableM VariableM OpsM OpsS OpsP MemoryM MemoryS PropsMemory QuestionM PropsQuestion DecisionM DecisionS BabbleP DecisionP.
From Verif Require PQueueM.
Local Open Scope Z_scope.
Import ListNotations.
#[local] Opaque fltb feqb fleb Truth_Expectation.

Section Statements.
Variable nm : names.
Variable av : Z -> option (f64 * name).
Variable simdist : f64.
Variable powdecay : Z -> f64.
Variable threshold : f64.
Notation best := (BestCandidate nm av simdist powdecay threshold).
Notation an_option := (option_for nm av simdist powdecay).

(** C46, in every state: what is decided is to do nothing, or an operation whose desire is not
    below the decision threshold. *)
Theorem C46_only_above_threshold : forall m g goal now m' d, best m g goal now = Ok (m', d) ->
  d = decision0 \/ (d_execute d = true /\ fltb (d_desire d) threshold = false).
Proof.
  intros m g goal now m' d H. unfold BestCandidate in H. destruct (cread m g) as [gc| |]; cbn [rbind] in H; [|discriminate H|discriminate H].
  destruct (Unify nm av simdist (c_term gc) (e_term goal)) as [subs| |]; cbn [rbind] in H; [|discriminate H|discriminate H].
  match type of H with rbind ?r _ = _ => destruct r as [[m1 b]| |]; cbn [rbind] in H; [|discriminate H|discriminate H] end.
  destruct (fltb (d_desire (fst b)) threshold) eqn:T; [injection H as _ <-; left; reflexivity|].
  destruct (d_reason (fst b)); [|discriminate H]. injection H as _ <-. right. split; [reflexivity|exact T].
Qed.

(** C46: if all rules of the goal's concept refer to existing concepts, the memory is unchanged, and
    either every option is below the threshold (or not a number) and nothing is decided, or an
    option not below the threshold is decided, no other option has a higher desire, and none with
    the same desire has a simpler rule. *)
Theorem C46_best_option_is_chosen_partial : forall m g gc goal now m' d, nth_error (m_store m) g = Some gc -> links_valid m gc ->
  best m g goal now = Ok (m', d) -> m' = m /\ exists subs, Unify nm av simdist (c_term gc) (e_term goal) = Ok subs /\
  ((d = decision0 /\ (s_success subs = true -> forall opi used c cm specific d', an_option m now goal gc subs opi used c cm specific d' ->
      is_nan (d_desire d') = true \/ fltb (d_desire d') threshold = true))
   \/ (s_success subs = true /\ exists opi used c cm specific d1, an_option m now goal gc subs opi used c cm specific d1 /\
      d_execute d = true /\ fltb (d_desire d) threshold = false /\
      d_desire d = d_desire d1 /\ d_opid d = d_opid d1 /\ d_args d = d_args d1 /\ d_opterm d = d_opterm d1 /\ d_reason d = d_reason d1 /\
      d_used d = used /\ d_specific d = specific /\ d_table d = opi /\
      forall opi' used' c' cm' specific' d', an_option m now goal gc subs opi' used' c' cm' specific' d' ->
        is_nan (d_desire d') = true \/ fltb (d_desire d') (d_desire d) = true \/
        (feqb (d_desire d') (d_desire d) = true /\ (Term_Complexity (i_term specific) <= Term_Complexity (i_term specific'))%nat))).
Proof.
  intros m g gc goal now m' d GC LV H. unfold BestCandidate in H. unfold cread in H at 1. rewrite GC in H. cbn [rbind] in H.
  destruct (Unify nm av simdist (c_term gc) (e_term goal)) as [subs| |]; cbn [rbind] in H; [|discriminate H|discriminate H].
  destruct (s_success subs) eqn:SS.
  2: { cbn [rbind fst] in H. destruct (fltb (d_desire decision0) threshold); [|discriminate H]. injection H as <- <-. split; auto. exists subs. split; auto.
       left. split; auto. congruence. }
  fold (gen nm goal gc) in H.
  destruct (try_tables nm av simdist powdecay (seq 1 (op_run (m_ops m))) m now goal g (gen nm goal gc) subs (decision0, S SIZE)) as [[m1 b]| |] eqn:TT; cbn [rbind] in H; [|discriminate H|discriminate H].
  assert (G0 : good nm av simdist powdecay m now goal gc subs (decision0, S SIZE)) by (split; [reflexivity|left; reflexivity]).
  destruct (tables_ok nm av simdist powdecay m now goal gc subs g GC LV _ _ _ _ (fun i I => proj1 (usable_seq (m_ops m) i) I) G0 TT) as (-> & (NB & CH) & _ & CO).
  assert (BE : forall opi' used' c' cm' specific' d', an_option m now goal gc subs opi' used' c' cm' specific' d' ->
        is_nan (d_desire d') = true \/ beaten b d' (Term_Complexity (i_term specific'))).
  { intros opi' used' c' cm' sp' d' O. destruct (is_nan (d_desire d')) eqn:NN; [left; reflexivity|right].
    apply (CO opi' used' (proj2 (usable_seq _ _) (opt_op _ _ _ _ _ _ _ _ _ _ _ _ _ _ _ O)) (opt_rule _ _ _ _ _ _ _ _ _ _ _ _ _ _ _ O) c' cm'); auto. }
  destruct (fltb (d_desire (fst b)) threshold) eqn:T.
  - injection H as <- <-. split; auto. exists subs. split; auto. left. split; auto. intros _ opi' used' c' cm' sp' d' O. destruct (BE _ _ _ _ _ _ O) as [N|B]; [left; exact N|right].
    destruct (fltb_nn _ _ T) as (_ & NT). assert (ND : is_nan (d_desire d') = false) by (destruct B as [B|[B _]]; [apply fltb_nn in B|apply feqb_nn in B]; apply B).
    apply fltb_ext in T; auto. apply fltb_ext; auto. destruct B as [B|[B _]]; [apply fltb_ext in B|apply feqb_ext in B]; auto; lra.
  - destruct (d_reason (fst b)) as [s|] eqn:RE; [|discriminate H]. injection H as <- <-. split; auto. exists subs. split; auto. right. split; auto.
    destruct CH as [CH|CH]; [rewrite CH in RE; discriminate RE|].
    destruct CH as (opi & used & c & cm & specific & d1 & O & CX & FB). exists opi, used, c, cm, specific, d1. split; auto. split; auto. split; [exact T|].
    assert (F : d_desire (fst b) = d_desire d1 /\ d_opid (fst b) = d_opid d1 /\ d_args (fst b) = d_args d1 /\ d_opterm (fst b) = d_opterm d1 /\ d_reason (fst b) = d_reason d1 /\
      d_used (fst b) = used /\ d_specific (fst b) = specific /\ d_table (fst b) = opi) by (destruct FB as [-> | ->]; cbn; repeat (split; [reflexivity|]); reflexivity).
    destruct F as (F1 & F2 & F3 & F4 & F5 & F6 & F7 & F8).
    repeat (split; [assumption|]). intros opi' used' c' cm' sp' d' O'. destruct (BE _ _ _ _ _ _ O') as [N|B]; [left; exact N|right]. unfold beaten in B. rewrite CX in B. exact B.
Qed.

(** The evaluation of an option: nothing (the operation is another agent's, or a current goal
    would suffer), or the desire computed by goal deduction from the goal, the rule and the
    event, for a registered operation of the rule's subject, or for none. *)
Theorem C46_value_of_an_option : forall m now goal imp tr d, no_zero nm -> ConsiderImplication nm powdecay m now goal imp tr = Ok d ->
  d = decision0 \/ exists s k, i_source imp = Some s /\ nth_error (m_store m) s = Some k /\ d_reason d = Some s /\
    d_desire d = desire_value powdecay (e_truth goal) (i_truth imp) tr (e_occ (c_spike k)) now /\
    (d_opid d = O \/ exists o n, nth_error (m_ops m) (d_opid d - 1) = Some o /\ (1 <= d_opid d)%nat /\ name_of nm (at_ (op_term o) 0) = n /\
       operator_of nm (Term_ExtractSubterm (Term_ExtractSubterm (i_term imp) 1) 2) n).
Proof.
  intros m now goal imp tr d NZ H. unfold ConsiderImplication in H. destruct (i_source imp) as [s|] eqn:IS; [|discriminate H].
  unfold cread in H at 1. destruct (nth_error (m_store m) s) as [k|] eqn:K; cbn [rbind] in H; [|discriminate H].
  destruct (GoalDeduction nm goal imp now) as [ctx| |] eqn:GD; cbn [rbind] in H; [|discriminate H|discriminate H].
  destruct (OperationSequenceAppendLeftNested nm zero_term (Term_ExtractSubterm (i_term imp) 1)) as [ok opterm].
  destruct ok; cbn [rassert rbind] in H; [|discriminate H].
  destruct (extract_operation nm m (Term_ExtractSubterm (i_term imp) 1)) as [op| |] eqn:EO; cbn [rbind] in H; [|discriminate H|discriminate H].
  destruct op as [[id args]|]; [|injection H as <-; left; reflexivity].
  unfold ConsiderNegativeOutcomes in H. match type of H with rbind ?r _ = _ => destruct r as [out| |]; cbn [rbind] in H; [|discriminate H|discriminate H] end.
  destruct (fltb (Truth_Expectation f64A (e_truth out)) _); [injection H as <-; left; reflexivity|]. injection H as <-. right. exists s, k.
  split; auto. split; auto. cbn [d_reason d_desire d_opid]. split; auto. split.
  - unfold GoalDeduction in GD. match type of GD with rbind ?r _ = _ => destruct r; cbn [rbind] in GD; [|discriminate GD|discriminate GD] end. injection GD as <-. reflexivity.
  - unfold extract_operation in EO. set (subject := Term_ExtractSubterm (i_term imp) 1) in *.
    destruct (copulaEquals nm (at_ subject 0) SEQUENCE && isOperation nm (Term_ExtractSubterm subject 2)); [|injection EO as <- <-; left; reflexivity].
    match type of EO with rbind ?r _ = _ => destruct r as [[a|]| |]; cbn [rbind] in EO; [|discriminate EO|discriminate EO|discriminate EO] end.
    match type of EO with rbind ?r _ = _ => destruct r; cbn [rbind] in EO; [|discriminate EO|discriminate EO] end. injection EO as <- _.
    destruct (Nat.eq_dec (getOperationID nm m (Term_ExtractSubterm subject 2)) 0) as [Z0|NZ0]; [left; exact Z0|right].
    unfold getOperationID in *. set (op := Term_ExtractSubterm subject 2) in *. destruct (Z.eqb_spec (getOperationAtom nm op) 0) as [A0|A0]; [contradiction|].
    assert (FO : forall ops j, find_op (S j) (getOperationAtom nm op) ops <> O -> exists o, nth_error ops (find_op (S j) (getOperationAtom nm op) ops - S j) = Some o /\
       (S j <= find_op (S j) (getOperationAtom nm op) ops)%nat /\ at_ (op_term o) 0 = getOperationAtom nm op).
    { induction ops as [|o ops IH]; intros j F; cbn [find_op] in *; [contradiction|]. destruct (Z.eqb_spec (at_ (op_term o) 0) (getOperationAtom nm op)) as [E|E].
      - exists o. rewrite Nat.sub_diag. split; [reflexivity|]. split; [lia|exact E].
      - destruct (IH (S j) F) as (o' & A & B & C). exists o'. split; [|split; [lia|exact C]].
        replace (find_op (S (S j)) (getOperationAtom nm op) ops - S j)%nat with (S (find_op (S (S j)) (getOperationAtom nm op) ops - S (S j))) by lia. exact A. }
    destruct (FO (m_ops m) O NZ0) as (o & A & B & C). exists o, (name_of nm (getOperationAtom nm op)). split; [exact A|]. split; [exact B|]. split; [rewrite C; reflexivity|].
    apply operator_of_iff; auto.
Qed.
End Statements.
Print Assumptions C46_only_above_threshold.
Print Assumptions C46_best_option_is_chosen_partial.
Print Assumptions C46_value_of_an_option.

(** C46: of the decisions for several goals the last one of greatest desire is kept *)
Theorem C46_best_of_several_goals : forall ds, Forall (fun d => is_nan (d_desire d) = false) ds ->
  let d := fold_left BetterDecision ds decision0 in
  (d = decision0 /\ Forall (fun d' => d_execute d' = true -> fltb (d_desire d') f0 = true) ds) \/
  (exists before after, ds = before ++ d :: after /\ d_execute d = true /\
     Forall (fun d' => d_execute d' = true -> fleb (d_desire d') (d_desire d) = true) before /\
     Forall (fun d' => d_execute d' = true -> fltb (d_desire d') (d_desire d) = true) after).
Proof.
  assert (LE : forall x y : f64, is_nan x = false -> is_nan y = false -> fleb x y = true <-> (ext x <= ext y)%R).
  { intros x y X Y. Transparent fleb. unfold fleb, Bleb. change (SpecFloat.SFleb (B2SF x) (B2SF y)) with (match Bcompare x y with Some (Lt | Eq) => true | _ => false end).
    rewrite ext_compare by auto. destruct (Rcompare_spec (ext x) (ext y)); split; intros; try lra; try discriminate; auto. }
  intros ds. induction ds as [|x ds IH] using rev_ind; intros F; cbn zeta; [left; split; [reflexivity|constructor]|].
  apply Forall_app in F as (F & FX). inversion FX as [|? ? NX _]; subst. specialize (IH F). cbn zeta in IH. rewrite fold_left_app. cbn [fold_left].
  set (d := fold_left BetterDecision ds decision0) in *. unfold BetterDecision.
  assert (ND : is_nan (d_desire d) = false).
  { destruct IH as [(E & _)|(b & a & E & _)]; [rewrite E; reflexivity|]. rewrite Forall_forall in F. apply F. rewrite E. apply in_or_app. right. left. reflexivity. }
  destruct (d_execute x) eqn:X; cbn [andb].
  - destruct (fleb (d_desire d) (d_desire x)) eqn:L.
    + right. exists ds, []. split; [reflexivity|]. split; [exact X|]. split; [|constructor].
      apply LE in L; auto. rewrite Forall_forall in F. destruct IH as [(E & G)|(b & a & E & XD & GB & GA)].
      * rewrite Forall_forall in *. intros d' I XD'. apply LE; auto. specialize (G d' I XD'). apply fltb_ext in G; auto. rewrite E in L. cbn [d_desire decision0] in L. lra.
      * rewrite E. apply Forall_app. rewrite Forall_forall in *. split; [|constructor].
        -- intros d' I XD'. assert (NN : is_nan (d_desire d') = false) by (apply F; rewrite E; apply in_or_app; auto). apply LE; auto. specialize (GB d' I XD'). apply LE in GB; auto. lra.
        -- intros _. apply LE; auto.
        -- rewrite Forall_forall. intros d' I XD'. assert (NN : is_nan (d_desire d') = false) by (apply F; rewrite E; apply in_or_app; right; right; auto). apply LE; auto. specialize (GA d' I XD'). apply fltb_ext in GA; auto. lra.
    + assert (LT : fltb (d_desire x) (d_desire d) = true).
      { apply fltb_ext; auto. destruct (Rlt_dec (ext (d_desire x)) (ext (d_desire d))); auto. exfalso. assert (Y : fleb (d_desire d) (d_desire x) = true) by (apply LE; auto; lra). congruence. }
      destruct IH as [(E & G)|(b & a & E & XD & GB & GA)].
      * left. split; [exact E|]. apply Forall_app. split; [exact G|]. constructor; [|constructor]. intros _. rewrite E in LT. exact LT.
      * right. exists b, (a ++ [x]). split; [rewrite E at 1; rewrite <- app_assoc; reflexivity|]. split; [exact XD|]. split; [exact GB|]. apply Forall_app. split; [exact GA|]. constructor; [|constructor]. intros _. exact LT.
  - destruct IH as [(E & G)|(b & a & E & XD & GB & GA)].
    + left. split; [exact E|]. apply Forall_app. split; [exact G|]. constructor; [|constructor]. congruence.
    + right. exists b, (a ++ [x]). split; [rewrite E at 1; rewrite <- app_assoc; reflexivity|]. split; [exact XD|]. split; [exact GB|]. apply Forall_app. split; [exact GA|]. constructor; [|constructor]. congruence.
Qed.
Print Assumptions C46_best_of_several_goals.

(** ** a concrete memory: after the inputs <(a &/ ^o8) =/> b>. {1.0 0.9}, <(c &/ ^o7) =/> b>. {0.6 0.9},
    a. :|: and c. :|: the goal b! is decided by operation 9 (^o8) *)
Definition drun (os : list mop) : res memory := do m <- Memory_INIT 8 8 200 2 2 2 ; mrun qn qpow ex_pen 2 9 (with_ops m) os.
Definition RULE8 : term := mk_term [copula_index TEMPORAL_IMPLICATION; copula_index SEQUENCE; 65; 66; 74].
Definition dinputs : list mop := [input RULE9 100 90 1 (-1); input RULE8 60 90 3 (-1); input (atomic_term 64) 100 90 2 1; input (atomic_term 66) 100 90 4 1].
Definition goal_b : event := mkEvent (atomic_term 65) EVENT_TYPE_GOAL (tr64 100 100 90 100) (9 :: repeat 0%Z 9) 2 f0 false 1 true.
Definition noav (_ : Z) : option (f64 * name) := None.
Definition THR : f64 := aconst f64A 501 1000.
Definition links_validb (m : memory) (gc : concept) : bool :=
  forallb (fun t => forallb (fun x => match i_source x with
     | Some c => match nth_error (m_store m) c with Some k => i_sourceId x =? c_id k | None => false end | None => false end) (firstn (t_items t) (t_array t))) (c_pre gc).
Lemma links_validb_ok m gc : links_validb m gc = true -> links_valid m gc.
Proof.
  unfold links_validb. rewrite forallb_forall. intros H opi x (t & T & I). apply nth_error_In in T. specialize (H t T). rewrite forallb_forall in H. specialize (H x I).
  destruct (i_source x) as [c|]; [|discriminate H]. destruct (nth_error (m_store m) c) as [k|] eqn:K; [|discriminate H]. exists c, k. apply Z.eqb_eq in H. auto.
Qed.
Definition holdsb (k : concept) (i : nat) (rule : term) : bool :=
  match nth_error (c_pre k) i with Some t => existsb (fun x => term_eqb (i_term x) rule) (firstn (t_items t) (t_array t)) | None => false end.
Lemma holdsb_ok k i rule : holdsb k i rule = true -> exists x, holds k i x /\ i_term x = rule.
Proof.
  unfold holdsb, holds. destruct (nth_error (c_pre k) i) as [t|]; [|discriminate]. intros H. apply existsb_exists in H as (x & I & E). exists x. split; [exists t; auto|apply term_eqb_spec; exact E].
Qed.
Definition on_goal {A} (os : list mop) (f : memory -> nat -> res A) : res (memory * nat * concept * A) :=
  do m <- drun os ; do g <- FindConceptByTerm m (atomic_term 65) ;
  match g with None => UB | Some g => do gc <- cread m g ; do r <- f m g ; Ok (m, g, gc, r) end.
Lemma on_goal_ok {A} os f m g gc (r : A) : on_goal os f = Ok (m, g, gc, r) -> drun os = Ok m /\ nth_error (m_store m) g = Some gc /\ f m g = Ok r.
Proof.
  unfold on_goal. intros E. destruct (drun os) as [m1| |]; cbn [rbind] in E; [|discriminate E|discriminate E].
  destruct (FindConceptByTerm m1 (atomic_term 65)) as [[g1|]| |]; cbn [rbind] in E; [|discriminate E|discriminate E|discriminate E].
  unfold cread in E. destruct (nth_error (m_store m1) g1) as [gc1|] eqn:GC; cbn [rbind] in E; [|discriminate E].
  destruct (f m1 g1) as [r1| |] eqn:BC; cbn [rbind] in E; [|discriminate E|discriminate E]. injection E as <- <- <- <-. auto.
Qed.
Example C46_example : exists m g gc m' d, drun dinputs = Ok m /\ nth_error (m_store m) g = Some gc /\ c_term gc = atomic_term 65 /\ links_valid m gc /\
  (exists x, holds gc 9 x /\ i_term x = RULE9) /\ (exists x, holds gc 8 x /\ i_term x = RULE8) /\
  BestCandidate qn noav f1 qpow THR m g goal_b 2 = Ok (m', d) /\ d_execute d = true /\ d_opid d = 9%nat /\ i_term (d_used d) = RULE9.
Proof.
  destruct (res_ex' (on_goal dinputs (fun m g => BestCandidate qn noav f1 qpow THR m g goal_b 2))
    (fun '(m, g, gc, r) => term_eqb (c_term gc) (atomic_term 65) && (links_validb m gc && (holdsb gc 9 RULE9 && (holdsb gc 8 RULE8 &&
       (d_execute (snd r) && ((d_opid (snd r) =? 9)%nat && term_eqb (i_term (d_used (snd r))) RULE9))))))) as ((((m & g) & gc) & (m' & d)) & E & H); [vm_compute; reflexivity|].
  apply on_goal_ok in E as (E1 & E2 & E3). cbn [snd] in H.
  apply andb_prop in H as [H1 H]. apply andb_prop in H as [H2 H]. apply andb_prop in H as [H3 H]. apply andb_prop in H as [H4 H]. apply andb_prop in H as [H5 H]. apply andb_prop in H as [H6 H7].
  exists m, g, gc, m', d. split; [exact E1|]. split; [exact E2|]. split; [apply term_eqb_spec; exact H1|]. split; [apply links_validb_ok; exact H2|].
  split; [apply holdsb_ok; exact H3|]. split; [apply holdsb_ok; exact H4|]. split; [exact E3|]. split; [exact H5|]. split; [apply Nat.eqb_eq; exact H6|apply term_eqb_spec; exact H7].
Qed.
(** With *decisionthreshold=0 a goal without any option is not ignored: the report of the decision
    dereferences the missing reason.  Here only the event b is known, and no rules. *)
Theorem C46_zero_threshold_refuted : exists m g gc, drun [input (atomic_term 65) 100 90 2 1] = Ok m /\ nth_error (m_store m) g = Some gc /\
  (forall i x, ~ holds gc i x) /\ BestCandidate qn noav f1 qpow f0 m g goal_b 2 = UB.
Proof.
  destruct (res_ex' (on_goal [input (atomic_term 65) 100 90 2 1] (fun m g => Ok (match BestCandidate qn noav f1 qpow f0 m g goal_b 2 with UB => true | _ => false end)))
    (fun '(m, g, gc, r) => r && forallb (fun t => (t_items t =? 0)%nat) (c_pre gc))) as ((((m & g) & gc) & r) & E & H); [vm_compute; reflexivity|].
  apply on_goal_ok in E as (E1 & E2 & E3). apply andb_prop in H as [-> H]. exists m, g, gc. split; [exact E1|]. split; [exact E2|]. split.
  - intros i x (t & T & I). rewrite forallb_forall in H. apply nth_error_In in T. specialize (H t T). apply Nat.eqb_eq in H. rewrite H in I. destruct I.
  - injection E3 as E3. destruct (BestCandidate qn noav f1 qpow f0 m g goal_b 2); [discriminate E3|discriminate E3|reflexivity].
Qed.
Print Assumptions C46_zero_threshold_refuted.
