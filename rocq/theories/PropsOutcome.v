(** C46: an operation is not chosen if its side effects on current goals outweigh. *)
From Coq Require Import ZArith List Bool Lia.
From Verif Require Import Base F64 TruthM StampM TermM TermP NamesM EventM InferenceM TableM TableS VariableM MemoryM QuestionM DecisionM DecisionS OutcomeS.
Local Open Scope Z_scope.
Import ListNotations.
#[local] Opaque Term_ExtractSubterm GoalDeduction GoalSequenceDeduction RevisionAndChoice fltb OperationSequenceAppendLeftNested term_eqb Truth_Expectation copulaEquals isOperation isOperator.
Section O.
Variable nm : names.
Variable powdecay : Z -> f64.
Lemma combined_app now a l1 l2 b c : combined nm powdecay now a l1 b -> combined nm powdecay now b l2 c -> combined nm powdecay now a (l1 ++ l2) c.
Proof. intros H. revert l2 c. induction H; intros l2 c H2; cbn [app]; [exact H2|]. eapply cb_cons; eauto. Qed.
Lemma outcome_entries m now ops k l : forall acc out, foldM (negative_outcome nm powdecay m now ops k) l acc = Ok out ->
  combined nm powdecay now acc (map (fun i => (c_goal k, i, source_event m i)) (filter (fun i => younger now (source_event m i) && term_eqb ops (operations_of nm (i_term i))) l)) out.
Proof.
  induction l as [|i l IH]; intros acc out; cbn [foldM filter map]; [intros H; injection H as <-; constructor|].
  unfold negative_outcome at 1. destruct (i_source i) as [s|] eqn:IS; [|discriminate]. unfold cread. destruct (nth_error (m_store m) s) as [prec|] eqn:EP; cbn [rbind]; [|discriminate].
  assert (SE : source_event m i = c_spike prec) by (unfold source_event; rewrite IS, EP; reflexivity).
  change (negb (e_type (c_spike prec) =? EVENT_TYPE_DELETED) && (now - e_occ (c_spike prec) <? EVENT_BELIEF_DISTANCE)) with (younger now (c_spike prec)). rewrite SE.
  destruct (younger now (c_spike prec)); cbn [andb rbind]; [|apply IH].
  unfold operations_of at 1. destruct (OperationSequenceAppendLeftNested nm zero_term (Term_ExtractSubterm (i_term i) 1)) as [ok ops2]. cbn [snd]. destruct ok; cbn [rassert rbind]; [|discriminate].
  destruct (term_eqb ops ops2); cbn [rbind map]; [|apply IH].
  destruct (GoalDeduction nm (c_goal k) i now) as [ctx| |] eqn:GD; cbn [rbind]; try discriminate.
  destruct (RevisionAndChoice nm powdecay acc _) as [[a b]| |] eqn:RV; cbn [rbind fst]; try discriminate. intros H. rewrite SE. eapply cb_cons; eauto.
Qed.
Lemma outcomes_ok m now d r : ConsiderNegativeOutcomes nm powdecay m now d = Ok r ->
  exists out, combined nm powdecay now event0 (side_effects nm m now (d_opid d) (d_opterm d)) out /\
    (fltb (Truth_Expectation f64A (e_truth out)) (@aconst f64A 5 10) = true /\ r = decision0 \/ fltb (Truth_Expectation f64A (e_truth out)) (@aconst f64A 5 10) = false /\ r = d).
Proof.
  unfold ConsiderNegativeOutcomes. match goal with |- rbind ?x _ = _ -> _ => destruct x as [out| |] eqn:E; cbn [rbind]; try discriminate end. intros H. exists out. split.
  - clear H r. unfold side_effects. revert E. generalize event0. generalize (visited m). induction l as [|[c k] l IH]; intros acc; cbn [foldM flat_map snd]; [intros H; injection H as <-; constructor|].
    change (negb (e_type (c_goal k) =? EVENT_TYPE_DELETED) && (now - e_occ (c_goal k) <? NEG_GOAL_AGE_MAX)) with (younger now (c_goal k)).
    destruct (younger now (c_goal k)); cbn [rbind app]; [|apply IH]. unfold pre_at. destruct (nth_error (c_pre k) (d_opid d)) as [t|] eqn:NT; cbn [rbind]; [|discriminate].
    destruct (foldM _ (items t) acc) as [a| |] eqn:F; cbn [rbind]; try discriminate. intros H. eapply combined_app; [|apply IH; exact H]. rewrite (nth_error_nth _ _ table0 NT). apply (outcome_entries m now (d_opterm d) k (items t) acc a F).
  - destruct (fltb _ _); injection H as <-; auto.
Qed.
(** C46: a rule for an operation of another agent is no option.  For any other rule the effects on all
    current goals that the operation has according to all rules that apply now are combined; the
    option is dropped if, and only if, together they speak against it.  Otherwise it has the desire of
    C46_value_of_an_option. *)
Theorem C46_side_effects : forall m now goal rule tr d, ConsiderImplication nm powdecay m now goal rule tr = Ok d ->
  let subject := Term_ExtractSubterm (i_term rule) 1 in
  foreign nm subject /\ d = decision0 \/
  ~ foreign nm subject /\ exists id out, calls nm m subject id /\ combined nm powdecay now event0 (side_effects nm m now id (operations_of nm (i_term rule))) out /\
    (fltb (Truth_Expectation f64A (e_truth out)) (@aconst f64A 5 10) = true /\ d = decision0 \/
     fltb (Truth_Expectation f64A (e_truth out)) (@aconst f64A 5 10) = false /\ d_opid d = id /\ d_opterm d = operations_of nm (i_term rule) /\
       (has_op nm subject = true -> isOperator nm (at_ (Term_ExtractSubterm subject 2) 0) = false -> d_args d = Term_ExtractSubterm (Term_ExtractSubterm subject 2) 1) /\
       exists s k, i_source rule = Some s /\ nth_error (m_store m) s = Some k /\ d_desire d = desire_value powdecay (e_truth goal) (i_truth rule) tr (e_occ (c_spike k)) now).
Proof.
  intros m now goal rule tr d. unfold ConsiderImplication. destruct (i_source rule) as [s|] eqn:IS; [|discriminate]. unfold cread at 1. destruct (nth_error (m_store m) s) as [k|] eqn:K; cbn [rbind]; [|discriminate].
  destruct (GoalDeduction nm goal rule now) as [ctx| |] eqn:GD; cbn [rbind]; try discriminate. cbv zeta.
  set (subject := Term_ExtractSubterm (i_term rule) 1). assert (OO : operations_of nm (i_term rule) = snd (OperationSequenceAppendLeftNested nm zero_term subject)) by reflexivity.
  destruct (OperationSequenceAppendLeftNested nm zero_term subject) as [ok opterm]. cbn [snd] in OO. destruct ok; cbn [rassert rbind]; [|discriminate].
  destruct (extract_operation nm m subject) as [op| |] eqn:EO; cbn [rbind]; try discriminate. unfold extract_operation in EO. fold (has_op nm subject) in EO. cbv zeta in EO.
  assert (CASE : op = None /\ foreign nm subject \/ exists id args, op = Some (id, args) /\ ~ foreign nm subject /\ calls nm m subject id /\
     (has_op nm subject = true -> isOperator nm (at_ (Term_ExtractSubterm subject 2) 0) = false -> args = Term_ExtractSubterm (Term_ExtractSubterm subject 2) 1)).
  { unfold foreign, calls. destruct (has_op nm subject) eqn:HO.
    - set (o := Term_ExtractSubterm subject 2) in *. destruct (isOperator nm (at_ o 0)) eqn:IO; cbn [rbind] in EO.
      + destruct (rassert _); cbn [rbind] in EO; try discriminate. injection EO as <-. right. do 2 eexists. split; [reflexivity|]. split; [intros (_ & X & _); discriminate X|]. split; [right; auto|]. intros _ X; discriminate X.
      + destruct (isOperator nm (at_ o 2)); cbn [rassert rbind] in EO; try discriminate. destruct (Z.eqb_spec (at_ (Term_ExtractSubterm o 1) 3) SELF) as [Q|Q].
        * destruct (rassert _); cbn [rbind] in EO; try discriminate. injection EO as <-. right. do 2 eexists. split; [reflexivity|]. split; [intros (_ & _ & X); contradiction|]. split; [right; auto|]. auto.
        * injection EO as <-. left. auto.
    - injection EO as <-. right. do 2 eexists. split; [reflexivity|]. split; [intros (X & _); discriminate X|]. split; [left; auto|]. intros X; discriminate X. }
  destruct CASE as [(-> & F)|(id & args & -> & NF & CA & AR)]; [intros H; injection H as <-; left; auto|].
  intros H. apply outcomes_ok in H as (out & C & R). cbn [d_opid d_opterm] in C. right. split; auto. exists id, out. rewrite OO. split; auto. split; auto.
  destruct R as [R|(R & ->)]; [left; auto|]. right. split; auto. cbn [d_opid d_opterm d_args d_desire]. split; auto. split; auto. split; auto. exists s, k. split; auto. split; auto.
  Transparent GoalDeduction GoalSequenceDeduction.
  unfold desire_value. unfold GoalDeduction in GD. destruct (copulaEquals nm (at_ (i_term rule) 0) TEMPORAL_IMPLICATION || _); cbn [rassert rbind] in GD; [|discriminate]. injection GD as <-. reflexivity.
Qed.
End O.
Print Assumptions C46_side_effects.

(** Examples: after <(a &/ ^o8) =/> b>., <(a &/ ^o8) =/> c>. and a. :|: the goal b! speaks for ^o8, but
    not if b! and c! {0.0 0.9} are current goals: b! is then outweighed. *)
From Coq Require Import String.
From Verif Require Import TruthS TermS MemoryS PropsMemory PropsQuestion PropsDecision.
Definition RULE9C : term := mk_term [copula_index TEMPORAL_IMPLICATION; copula_index SEQUENCE; 66; 64; 75].
Definition wants (t : term) (fn id : Z) : event := mkEvent t EVENT_TYPE_GOAL (tr64 fn 100 90 100) (id :: repeat 0%Z 9) 2 f0 false 1 true.
Definition want (e : event) (m : memory) : res memory := do f <- FindConceptByTerm m (e_term e) ; match f with Some c => cmod m c (fun k => with_goal k e) | None => UB end.
Definition evaluation (goals : list event) : res decision :=
  do m <- drun [input RULE9 60 90 1 (-1); input RULE9C 100 90 3 (-1); input (atomic_term 64) 100 90 2 1] ;
  do m <- foldM (fun m e => want e m) goals m ;
  do g <- FindConceptByTerm m (atomic_term 65) ;
  match g with None => UB | Some g => do k <- cread m g ; match nth_error (c_pre k) 9 with None => UB | Some t => match entries t with [i] => 
    do s <- (match i_source i with Some s => cread m s | None => UB end) ; ConsiderImplication qn qpow m 2 goal_b i (e_truth (c_spike s)) | _ => UB end end end.
Definition nothing (d : decision) : bool := (d_opid d =? 0)%nat && match d_reason d with None => true | Some _ => false end.
Example C46_side_effects_example :
  (exists d, evaluation [goal_b] = Ok d /\ (d_opid d =? 9)%nat = true) /\
  (exists d, evaluation [goal_b; wants (atomic_term 66) 0 10] = Ok d /\ nothing d = true).
Proof. split; apply res_ex'; vm_compute; reflexivity. Qed.
