(** Property theorems C32, C33, C50, C51 and the crash part of C10: events and inference rules.
    Vocabulary: InferenceS.v. *)
From Coq Require Import ZArith Reals List Bool Lra Lia.
From Flocq Require Import Core.Core IEEE754.BinarySingleNaN.
From Verif Require Import Base F64 TruthM TruthS TruthP StampM StampP TermM TermS TermP TermP2 NamesM EventM InferenceM InferenceS InferenceP PropsTruth.
Local Open Scope Z_scope.

(** C32: after any history of inputs, imports and resets, the next input gets the pending import
    if there is one, otherwise the base {n+1}, n = number of inputs since the last reset that
    used an id of their own. *)
Theorem C32_next_input_id : forall os,
  snd (idstep (idrun ids_start os) Input) =
  Some (match pending os None with Some s => s | None => (1 + own_inputs os None 0) :: repeat 0 9 end).
Proof. exact next_stamp. Qed.
Print Assumptions C32_next_input_id.
(** ... so any two inputs without import and without a reset in between are independent. *)
Theorem C32_inputs_are_independent : forall os1 os2, Forall (fun o => o <> Reset) os2 ->
  pending os1 None = None -> pending (os1 ++ Input :: os2) None = None ->
  exists n m, snd (idstep (idrun ids_start os1) Input) = Some (n :: repeat 0 9) /\
              snd (idstep (idrun ids_start (os1 ++ Input :: os2)) Input) = Some (m :: repeat 0 9) /\
              1 <= n < m /\ stamp_check_overlap (n :: repeat 0 9) (m :: repeat 0 9) = false.
Proof. exact inputs_disjoint. Qed.
Print Assumptions C32_inputs_are_independent.
Example C32_example :
  let imp := [7; 8; 0; 0; 0; 0; 0; 0; 0; 0] in
  pending [Input; Import imp; Input; Input] None = None /\
  snd (idstep (idrun ids_start [Input; Import imp]) Input) = Some imp /\
  snd (idstep (idrun ids_start [Input; Import imp; Input]) Input) = Some (2 :: repeat 0 9) /\
  snd (idstep (idrun ids_start [Input; Import imp; Input; Input; Reset]) Input) = Some (1 :: repeat 0 9).
Proof. vm_compute. auto. Qed.
(** a reset does not cancel a pending import *)
Theorem C32_reset_clears_import_refuted : exists s,
  nth 0 s 0 <> 0 /\ snd (idstep (idrun ids_start [Import s; Reset]) Input) = Some s.
Proof. exists (9 :: repeat 0 9). split; [discriminate|reflexivity]. Qed.
Print Assumptions C32_reset_clears_import_refuted.

(** C33 *)
Theorem C33_belief_update : forall nm p existing incoming, names_ok nm -> pow_ok p ->
  OCCURRENCE_ETERNAL <= e_occ incoming ->
  valid (e_truth existing) -> valid (e_truth incoming) ->
  (0 < val (confidence (e_truth existing)))%R -> (0 < val (confidence (e_truth incoming)))%R ->
  let later := Z.max (e_occ existing) (e_occ incoming) in
  exists r merged, RevisionAndChoice nm p existing incoming = Ok (r, merged) /\
  (e_type existing = EVENT_TYPE_DELETED -> r = incoming /\ merged = false) /\
  (e_type existing <> EVENT_TYPE_DELETED -> mergeable nm existing incoming ->
     merged = true /\ e_term r = e_term existing /\ e_type r = e_type existing /\ e_occ r = later /\
     e_truth r = Truth_Revision f64A (e_truth existing) (e_truth incoming) /\
     e_stamp r = stamp_make (e_stamp existing) (e_stamp incoming)) /\
  (e_type existing <> EVENT_TYPE_DELETED -> ~ mergeable nm existing incoming -> merged = false /\
     ((conf_at p existing later < conf_at p incoming later)%R -> r = incoming) /\
     ((conf_at p incoming later <= conf_at p existing later)%R -> r = existing)) /\
  (e_type existing <> EVENT_TYPE_DELETED -> (conf_at p existing later <= conf_at p r later)%R) /\
  (conf_at p incoming later <= conf_at p r later)%R /\
  valid (e_truth r) /\ (0 < val (confidence (e_truth r)))%R.
Proof. exact revision_and_choice_spec. Qed.
Print Assumptions C33_belief_update.

Definition ev (a : Z) (v : truth64) (id t : Z) : event :=
  mkEvent (upd zero_term 0 a) EVENT_TYPE_BELIEF v (id :: repeat 0 9) t f0 false t true.
Definition pow_ex (d : Z) : f64 := if d =? 0 then f1 else f0.
Example pow_ex_ok : pow_ok pow_ex.
Proof. split; [|reflexivity]. intros d _. unfold pow_ex. destruct (d =? 0); (split; [reflexivity|]); rewrite ?v_f1, ?v_f0; lra. Qed.
Example names_init_ok : names_ok init_list.
Proof.
  assert (H : forallb (fun n => forallb (fun c => negb (c =? 0)) n) init_list = true) by (vm_compute; reflexivity).
  intros n c I1 I2. rewrite forallb_forall in H. specialize (H n I1). cbv beta in H. rewrite forallb_forall in H. specialize (H c I2). cbv beta in H.
  apply negb_true_iff, Z.eqb_neq in H. exact H.
Qed.
Example C33_example : mergeable init_list (ev 63 (tr64 9 10 9 10) 1 5) (ev 63 (tr64 1 2 1 2) 2 5) /\
  ~ mergeable init_list (ev 63 (tr64 9 10 9 10) 1 5) (ev 63 (tr64 1 2 1 2) 2 6).
Proof. rewrite <- !choice_case_spec by apply names_init_ok. vm_compute. split; [reflexivity|discriminate]. Qed.

(** C10, the crash: entering the same timeless statement twice with confidence 0.995 (accepted on
    input, as any confidence up to 1) fails the assertion in the belief update. *)
Theorem C10_confident_inputs_never_abort_refuted :
  let a := ev 63 (tr64 1 1 995 1000) 1 OCCURRENCE_ETERNAL in
  let b := ev 63 (tr64 1 1 995 1000) 2 OCCURRENCE_ETERNAL in
  validt (e_truth a) /\ RevisionAndChoice init_list pow_ex a b = Abort.
Proof. split; [apply TruthP2.validtb; vm_compute; reflexivity|vm_compute; reflexivity]. Qed.
Print Assumptions C10_confident_inputs_never_abort_refuted.
(** ... and never happens for confidences in (0,0.99], which all derived beliefs have. *)
Theorem C10_ordinary_inputs_never_abort_partial : forall nm p existing incoming, names_ok nm -> pow_ok p ->
  OCCURRENCE_ETERNAL <= e_occ incoming -> valid (e_truth existing) -> valid (e_truth incoming) ->
  (0 < val (confidence (e_truth existing)))%R -> (0 < val (confidence (e_truth incoming)))%R ->
  RevisionAndChoice nm p existing incoming <> Abort /\ RevisionAndChoice nm p existing incoming <> UB.
Proof.
  intros nm p ex inc A B C D E F G. destruct (revision_and_choice_spec nm p ex inc A B C D E F G) as (r & m & -> & _). split; discriminate.
Qed.
Print Assumptions C10_ordinary_inputs_never_abort_partial.

(** C50: sequences.  The conclusion is about both events in order, at the later event's time, and
    carries the evidence of both; the rule refuses wrongly ordered events. *)
Theorem C50_belief_intersection : forall p a b, closed (e_term a) -> closed (e_term b) ->
  at_ (e_term a) 0 <> 0 -> at_ (e_term b) 0 <> 0 -> stamp_wf (e_stamp a) -> stamp_wf (e_stamp b) ->
  match BeliefIntersection p a b with
  | Ok (true, c) => e_occ a <= e_occ b /\
      Term_ExtractSubterm (e_term c) 1 = e_term a /\ Term_ExtractSubterm (e_term c) 2 = e_term b /\
      at_ (e_term c) 0 = copula_index SEQUENCE /\ closed (e_term c) /\ e_type c = EVENT_TYPE_BELIEF /\ e_occ c = e_occ b /\
      e_truth c = Truth_Intersection f64A (Truth_Projection f64A p (e_truth a) (e_occ a) (e_occ b)) (e_truth b) /\
      derived_from (e_stamp a) (e_creation a) (e_stamp b) (e_creation b) (e_stamp c) (e_creation c)
  | Ok (false, _) => e_occ a <= e_occ b /\ ~ (fits (tree_at (e_term a) 0) 1 /\ fits (tree_at (e_term b) 0) 2)
  | Abort => e_occ b < e_occ a
  | UB => False
  end.
Proof.
  intros p a b Ca Cb Na Nb Sa Sb. unfold BeliefIntersection. destruct (Z.leb_spec (e_occ a) (e_occ b)) as [L|L]; cbn [rassert rbind]; [|lia].
  rewrite sequence_mk2. pose proof (mk2_spec (copula_index SEQUENCE) _ _ ltac:(rewrite seq_index; discriminate) Ca Cb Na Nb) as M.
  destruct (mk2 _ _ _) as [[] t]; destruct M as [M1 M2].
  - destruct (M2 eq_refl) as (Q1 & Q2 & Q3 & Q4 & Q5). cbn [e_occ e_term e_type e_truth e_stamp e_creation].
    split; [lia|]. repeat (split; [solve [auto]|]). apply stamp_make_derived; auto.
  - split; [lia|]. intros F. apply M1 in F. discriminate.
Qed.
Print Assumptions C50_belief_intersection.

(** C50: learning <a =/> b>; the time offset is the distance of the events (exact up to 2^53). *)
Theorem C50_belief_induction : forall p a b, closed (e_term a) -> closed (e_term b) ->
  at_ (e_term a) 0 <> 0 -> at_ (e_term b) 0 <> 0 -> stamp_wf (e_stamp a) -> stamp_wf (e_stamp b) ->
  match BeliefInduction p a b with
  | Ok (true, c) => e_occ a <= e_occ b /\
      Term_ExtractSubterm (i_term c) 1 = e_term a /\ Term_ExtractSubterm (i_term c) 2 = e_term b /\
      at_ (i_term c) 0 = copula_index TEMPORAL_IMPLICATION /\ closed (i_term c) /\
      (e_occ b - e_occ a <= 2 ^ 53 -> val (i_offset c) = IZR (e_occ b - e_occ a)) /\
      derived_from (e_stamp a) (e_creation a) (e_stamp b) (e_creation b) (i_stamp c) (i_creation c)
  | Ok (false, _) => e_occ a <= e_occ b /\ ~ (fits (tree_at (e_term a) 0) 1 /\ fits (tree_at (e_term b) 0) 2)
  | Abort => e_occ b < e_occ a
  | UB => False
  end.
Proof.
  intros p a b Ca Cb Na Nb Sa Sb. unfold BeliefInduction. destruct (Z.leb_spec (e_occ a) (e_occ b)) as [L|L]; cbn [rassert rbind]; [|lia].
  pose proof (mk2_spec (copula_index TEMPORAL_IMPLICATION) _ _ ltac:(discriminate) Ca Cb Na Nb) as M. unfold mk2 in M.
  destruct (Term_OverrideSubterm _ 1 (e_term a)) as [[] t].
  - destruct (Term_OverrideSubterm t 2 (e_term b)) as [[] t2]; destruct M as [M1 M2].
    + destruct (M2 eq_refl) as (Q1 & Q2 & Q3 & Q4 & Q5). cbn [i_term i_offset i_stamp i_creation].
      split; [lia|]. repeat (split; [solve [auto]|]). split; [|apply stamp_make_derived; auto].
      intros H. unfold double_of. apply v_ofZ_small. lia.
    + split; [lia|]. intros F. apply M1 in F. discriminate.
  - destruct M as [M1 M2]. split; [lia|]. intros F. apply M1 in F. discriminate.
Qed.
Print Assumptions C50_belief_induction.

(** C50: using what was learned.  An implication learned from a at ta and b at tb, applied to a at
    time t, predicts b at exactly t + (tb - ta). *)
Theorem C50_prediction_time : forall nm p a b imp x, names_ok nm -> (exists rest, nm = init_list ++ rest) ->
  closed (e_term a) -> closed (e_term b) -> at_ (e_term a) 0 <> 0 -> at_ (e_term b) 0 <> 0 ->
  0 <= e_occ a -> e_occ b <= 2 ^ 52 -> 0 <= e_occ x <= 2 ^ 52 ->
  BeliefInduction p a b = Ok (true, imp) ->
  exists c, BeliefDeduction nm x imp = Ok c /\ e_term c = e_term b /\ e_occ c = e_occ x + (e_occ b - e_occ a).
Proof.
  intros nm p a b imp x OK (rest & ->) Ca Cb Na Nb H1 H2 H3 E.
  assert (L : e_occ a <= e_occ b).
  { unfold BeliefInduction in E. destruct (Z.leb_spec (e_occ a) (e_occ b)); auto. discriminate. }
  destruct (induction_term _ _ _ _ _ E eq_refl) as (t & M & IT).
  pose proof (mk2_spec (copula_index TEMPORAL_IMPLICATION) _ _ ltac:(discriminate) Ca Cb Na Nb) as S. rewrite M in S.
  destruct S as [_ S]. destruct (S eq_refl) as (Q1 & Q2 & Q3 & Q4 & Q5). unfold BeliefDeduction. rewrite IT, Q2.
  replace (copulaEquals (init_list ++ rest) (copula_index TEMPORAL_IMPLICATION) TEMPORAL_IMPLICATION) with true by (vm_compute; reflexivity).
  cbn [orb rassert rbind]. eexists. split; [reflexivity|]. cbn [e_term e_occ]. split; auto.
  destruct (Z.eqb_spec (e_occ x) OCCURRENCE_ETERNAL); [unfold OCCURRENCE_ETERNAL in *; lia|].
  assert (O : i_offset imp = double_of (e_occ b - e_occ a)).
  { unfold BeliefInduction in E. destruct (e_occ a <=? e_occ b); cbn [rassert rbind] in E; [|discriminate].
    destruct (Term_OverrideSubterm _ 1 (e_term a)) as [[] t1]; [|discriminate].
    destruct (Term_OverrideSubterm t1 2 (e_term b)) as [[] t2]; [|discriminate]. injection E as <-. reflexivity. }
  rewrite O. unfold double_of. apply trunc_int. apply fadd_int; lia.
Qed.
Print Assumptions C50_prediction_time.

(** C50: revision, goal deduction, and goal sequence deduction *)
Theorem C50_revision_and_goal_rules : forall nm p,
  (forall a b, stamp_wf (e_stamp a) -> stamp_wf (e_stamp b) ->
     let c := EventRevision p a b in
     e_term c = e_term a /\ e_type c = e_type a /\ e_occ c = e_occ b /\
     derived_from (e_stamp a) (e_creation a) (e_stamp b) (e_creation b) (e_stamp c) (e_creation c)) /\
  (forall a b, stamp_wf (i_stamp a) -> stamp_wf (i_stamp b) ->
     let c := ImplicationRevision a b in
     i_term c = i_term a /\ derived_from (i_stamp a) (i_creation a) (i_stamp b) (i_creation b) (i_stamp c) (i_creation c)) /\
  (forall goal imp now c, stamp_wf (e_stamp goal) -> stamp_wf (i_stamp imp) -> GoalDeduction nm goal imp now = Ok c ->
     e_type c = EVENT_TYPE_GOAL /\ e_occ c = now /\
     derived_from (e_stamp goal) (e_creation goal) (i_stamp imp) (i_creation imp) (e_stamp c) (e_creation c)) /\
  (forall goal belief now, stamp_wf (e_stamp goal) -> stamp_wf (e_stamp belief) ->
     let c := GoalSequenceDeduction p goal belief now in
     e_term c = e_term goal /\ e_type c = EVENT_TYPE_GOAL /\ e_occ c = now /\
     derived_from (e_stamp belief) (e_creation belief) (e_stamp goal) (e_creation goal) (e_stamp c) (e_creation c)) /\
  (forall belief imp c, stamp_wf (e_stamp belief) -> stamp_wf (i_stamp imp) -> BeliefDeduction nm belief imp = Ok c ->
     e_type c = EVENT_TYPE_BELIEF /\ (e_occ belief = OCCURRENCE_ETERNAL -> e_occ c = OCCURRENCE_ETERNAL) /\
     derived_from (e_stamp belief) (e_creation belief) (i_stamp imp) (i_creation imp) (e_stamp c) (e_creation c)).
Proof.
  intros nm p. split; [|split; [|split; [|split]]].
  - intros a b A B. cbv zeta. repeat (split; [reflexivity|]). apply stamp_make_derived; auto.
  - intros a b A B. cbv zeta. repeat (split; [reflexivity|]). apply stamp_make_derived; auto.
  - intros g i now c A B. unfold GoalDeduction. destruct (_ || _); cbn [rassert rbind]; [|discriminate]. intros E.
    apply (f_equal (fun r => match r with Ok x => x | _ => c end)) in E. subst c.
    repeat (split; [reflexivity|]). apply stamp_make_derived; auto.
  - intros g b now A B. cbv zeta. repeat (split; [reflexivity|]). apply stamp_make_derived; auto.
  - intros b i c A B. unfold BeliefDeduction. destruct (_ || _); cbn [rassert rbind]; [|discriminate]. intros E.
    apply (f_equal (fun r => match r with Ok x => x | _ => c end)) in E. subst c.
    split; [reflexivity|]. split; [|apply stamp_make_derived; auto]. cbn [e_occ]. intros ->. reflexivity.
Qed.
Print Assumptions C50_revision_and_goal_rules.
Example C50_example :
  match BeliefInduction pow_ex (ev 63 (tr64 1 1 9 10) 1 5) (ev 28 (tr64 1 1 9 10) 2 9) with
  | Ok (true, imp) => match BeliefDeduction init_list (ev 63 (tr64 1 1 9 10) 3 20) imp with
                      | Ok c => (e_occ c =? 24) && (at_ (e_term c) 0 =? 28)
                      | _ => false end
  | _ => false end = true.
Proof. vm_compute. reflexivity. Qed.

(** C51, exact arithmetic: the merged offset lies between the two. *)
Theorem C51_average_between : forall (c1 c2 o1 o2 : R), (0 <= c1 < 1 -> 0 <= c2 < 1 -> 0 < c1 \/ 0 < c2 ->
  Rmin o1 o2 <= weighted_average realA o1 o2 (Truth_c2w realA c1) (Truth_c2w realA c2) <= Rmax o1 o2)%R.
Proof.
  intros c1 c2 o1 o2 H1 H2 H.
  assert (G : (forall c : R, 0 <= c < 1 -> 0 <= c / (1 - c) /\ (0 < c -> 0 < c / (1 - c)))%R).
  { intros c Hc. split; [apply Rmult_le_pos; [lra|apply Rlt_le, Rinv_0_lt_compat; lra]|intros; apply Rdiv_lt_0_compat; lra]. }
  destruct (G c1 H1), (G c2 H2). apply weighted_average_between; rewrite ?TruthP2.c2w_R; auto. destruct H as [H|H]; [specialize (H3 H)|specialize (H5 H)]; lra.
Qed.
Print Assumptions C51_average_between.
