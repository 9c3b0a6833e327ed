(** Inference in a cycle (C68).  Vocabulary: InferS.v. *)
From Coq Require Import ZArith List Bool String Lia.
From Verif Require Import Base F64 TruthM StampM TermM TermS NamesM AtomsM RulesM NalM NalS EventM InferenceM UsageM TableM VariableM MemoryM MemoryS QuestionM DecisionM CycleM CycleS ShellM ShellS SysS SysP SysP2 LearnS InferS InferP InferP2.
From Verif Require Import PropsMemory PropsQuestion PropsCycle PropsShell PropsSys PropsSeq.
From Verif Require PQueueM.
Import ListNotations.
Local Open Scope Z_scope.
(** C68, the inference phase of a cycle: without a selected belief event nothing happens; otherwise
    the conclusions of the rules from the event alone are told, then the event is combined with
    concepts, each at most once, at most 80 of them and only those whose priority reaches the
    threshold, the concept of the event itself first; a round is repeated until 80 concepts were
    counted or no more were found.  Missing: that every related concept is looked at (a concept
    may be forgotten, and its place reused, while conclusions are told). *)
Theorem C68_inference_phase_partial : forall nm av simdist powdecay penalty layers fuel s now s',
  Cycle_Inference nm av simdist powdecay penalty layers fuel s now = Ok s' ->
  match s_selB s with
  | None => s' = s
  | Some (e, priority) => rounds nm av simdist powdecay penalty layers fuel e (proj1_sig priority) now 0 (set_pids s (s_pid s + 1) (s_pid2 s) (s_pid3 s)) s'
  end.
Proof.
  intros nm av sd pd pen layers fuel s now s'. unfold Cycle_Inference. destruct (s_selB s) as [[e p]|]; [|intros H; apply okL in H; auto]. apply rounds_spec.
Qed.
Print Assumptions C68_inference_phase_partial.
(** C68, one concept: when the event and what the concept says share no evidence, the conclusions of
    the rules (C60) and exactly those by matching (cases of an implication's condition or
    consequence, of an equivalence's sides, of a conjunction's first part) are told, with the truth
    function of the rule and the evidence of both; otherwise nothing changes. *)
Theorem C68_combination : forall nm av simdist powdecay penalty layers fuel m e priority now c k m',
  nth_error (m_store m) c = Some k ->
  infer_with nm av simdist powdecay penalty layers fuel m e priority now c (c_id k) = Ok m' ->
  combined nm av simdist powdecay penalty layers fuel e priority now c m m'.
Proof. intros. eapply with_spec; [eassumption|reflexivity|eassumption]. Qed.
Print Assumptions C68_combination.
(** C68, matching alone: which conclusions are told, and which are not *)
Theorem C68_by_matching : forall nm av simdist powdecay penalty layers fuel m t1 t2 v1 v2 d m',
  SpecialInferences nm av simdist powdecay penalty layers fuel m t1 t2 v1 v2 d = Ok m' ->
  exists L, all_concluded nm powdecay penalty layers fuel d L m m' /\
    forall c v intro, In (c, v, intro) L <-> intro = false /\ by_matching nm av simdist t1 t2 v1 v2 c v.
Proof. intros. eapply special_spec; eassumption. Qed.
Print Assumptions C68_by_matching.
(** Example: after "a." and "<a ==> b>." the system holds the belief b, of the truth the rule of
    deduction gives, resting on both inputs; and it goes on from there. *)
Definition holds_b (z : nar) : bool :=
  existsb (fun k => term_eqb (c_term k) (atomic_term 75) && negb (e_type (c_belief k) =? EVENT_TYPE_DELETED) &&
    feqb (confidence (e_truth (c_belief k))) (confidence (Truth_Deduction f64A (@mkTruth f64A f1 (fdec 9 10)) (@mkTruth f64A f1 (fdec 9 10)))) &&
    existsb (Z.eqb 1) (ids (e_stamp (c_belief k))) && existsb (Z.eqb 2) (ids (e_stamp (c_belief k)))) (m_store (s_mem (z_core z))).
Definition infer_next (z : nar) : res cstate :=
  let p := params_of wenv z in let s := PopBelief (z_core z) in
  Cycle_Inference (p_nm p) (p_av p) (p_simdist p) (p_pow p) (p_penalty p) (p_layers p) (p_fuel p) s (s_time s).
Lemma infer_ex (a : res (nar * list output)) :
  match a with Ok (z, _) => holds_b z && (match s_selB (PopBelief (z_core z)) with Some _ => true | None => false end) && (match infer_next z with Ok _ => true | _ => false end) | _ => false end = true ->
  (forall z o, a = Ok (z, o) -> running wenv z) ->
  exists z s', running wenv z /\ holds_b z = true /\ s_selB (PopBelief (z_core z)) <> None /\ infer_next z = Ok s'.
Proof.
  intros H R. destruct a as [[z o]| |]; try discriminate H. apply andb_prop in H as [H H3]. apply andb_prop in H as [H1 H2]. destruct (infer_next z) as [s'| |] eqn:I; try discriminate H3.
  exists z, s'. split; [eapply R; reflexivity|]. split; [exact H1|]. split; [|exact I]. intros Q. rewrite Q in H2. discriminate H2.
Qed.
Example C68_example : exists z s', running wenv z /\ holds_b z = true /\ s_selB (PopBelief (z_core z)) <> None /\ infer_next z = Ok s'.
Proof. apply (infer_ex (wrun ["a."; "<a ==> b>."]%string)); [vm_compute; reflexivity|intros z o; apply wrun_running]. Qed.
