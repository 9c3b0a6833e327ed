(** Proofs about question answering. *)
From Coq Require Import ZArith List Bool Lia Reals Lra.
From Flocq Require Import IEEE754.BinarySingleNaN.
From Verif Require Import Base F64 TruthM TruthS TruthP TruthP2 StampM TermM TermS TermP NamesM EventM TableM UsageM VariableM VariableS VariableP MemoryM SubstP QuestionM QuestionS.
From Verif Require PQueueM.
Local Open Scope Z_scope.
Import ListNotations.
#[local] Opaque fadd fsub fmul fdiv Truth_Expectation Truth_Projection Term_ExtractSubterm Unify2.

Lemma numbered_extract nm t j : numbered nm t -> numbered nm (Term_ExtractSubterm t j).
Proof.
  intros H. pose proof (extract_Forall (fun a => isVariable nm a = true -> a <= 27) t j) as X. cbn beta in X. intros a I V.
  assert (F : Forall (fun a => isVariable nm a = true -> a <= 27) (Term_ExtractSubterm t j)). { apply X; [intros; lia|]. apply Forall_forall. intros b Ib. apply H; auto. }
  rewrite Forall_forall in F. apply F; auto.
Qed.
(** *** reals *)
Definition ex (a : answer) : R := B2R (exp_of a).
Lemma exp_fin a : validt (a_truth a) -> Fin (exp_of a) /\ (0 <= ex a <= 1)%R.
Proof. intros V. destruct (expectation_range _ V) as (F & R). split; auto. Qed.
Definition a0 : answer := q_best qstate0.
Lemma a0_low : Fin (exp_of a0) /\ (ex a0 < 0)%R.
Proof.
  assert (F : Fin (exp_of a0)) by (vm_compute; reflexivity). split; auto. assert (L : fltb (exp_of a0) f0 = true) by (vm_compute; reflexivity).
  apply (fltb_spec _ _ F) in L; [|reflexivity]. exact L.
Qed.
Lemma printed_valid a : validt (a_truth a) -> printed a = Some a.
Proof.
  intros (_ & F & R). unfold printed. assert (G : fltb f1 f11 = true) by (vm_compute; reflexivity). apply fltb_spec in G; [|reflexivity|vm_compute; reflexivity].
  destruct (feqb (confidence (a_truth a)) f11) eqn:Q; auto. exfalso. apply feqb_spec in Q; [|exact F|vm_compute; reflexivity].
  change (B2R f1) with (val (aconst f64A 1 1)) in G. rewrite one_val in G. lra.
Qed.
Lemma printed_a0 : printed a0 = None. Proof. vm_compute. reflexivity. Qed.

Lemma map_filter_app {A B} (f : A -> B) g (a b : list A) : map f (filter g (a ++ b)) = map f (filter g a) ++ map f (filter g b).
Proof. rewrite filter_app, map_app. reflexivity. Qed.
Section Q.
Variable nm : names.
Variable av : Z -> option (f64 * name).
Variable simdist : f64.
Variable powdecay : Z -> f64.
Variable now : Z.
Variable query : bool.
Variable threshold : f64.
Notation unifies := (unifies nm av simdist).
Notation answers := (answers nm av simdist).
Notation print_if := (print_if query threshold).

Lemma unify_total_loop g s : numbered nm g -> forall l m tr, exists r, unify_loop nm av simdist truth0 g s true l m tr = Ok r.
Proof.
  intros H l. induction l as [|i l IH]; intros m tr; cbn [unify_loop]; [eauto|]. destruct (at_ g i =? 0) eqn:Z0; [apply IH|].
  destruct (isQueryVariable nm (at_ g i)) eqn:QV; cbn [andb].
  - assert (B : at_ g i <= 27). { apply (H (at_ g i)); [|unfold isVariable; rewrite QV; apply orb_true_r]. unfold at_ in *. destruct (nth_in_or_default i g 0) as [X|X]; auto. rewrite X in Z0. discriminate Z0. }
    apply Z.leb_le in B. rewrite B. cbn [rassert rbind].
    repeat match goal with |- context [if ?b then _ else _] => destruct b end; try (eexists; reflexivity); apply IH.
  - destruct (at_ g i =? at_ s i); [apply IH|]. assert (X : feqb (confidence truth0) f0 = true) by reflexivity. rewrite X. eauto.
Qed.
#[local] Transparent Unify2.
Lemma unifies_total g s : numbered nm g -> unifies g s = Ok (answers g s).
Proof.
  intros H. unfold QuestionM.unifies, QuestionS.answers. destruct (unify_total_loop g s H (seq 0 SIZE) (repeat zero_term 28) truth0) as (r & E). unfold Unify2. rewrite E. reflexivity.
Qed.
#[local] Opaque Unify2.

(** *** answers without a tense *)
Definition view (s : qstate) : answer * list (option answer) := (q_best s, q_out s).
Definition vstep (v : answer * list (option answer)) (a : answer) : answer * list (option answer) :=
  (if fleb (exp_of (fst v)) (exp_of a) then a else fst v, if query && fltb threshold (exp_of a) then printed a :: snd v else snd v).
Definition eternal_best (s : qstate) : Prop := a_occ (q_best s) = OCCURRENCE_ETERNAL.
Lemma view_print s e a : view (print_if s e a) = (q_best s, if query && fltb threshold e then printed a :: q_out s else q_out s).
Proof. unfold QuestionM.print_if. destruct (query && fltb threshold e); reflexivity. Qed.
Lemma best_print s e a : q_best (print_if s e a) = q_best s. Proof. unfold QuestionM.print_if. destruct (query && fltb threshold e); reflexivity. Qed.
Lemma proj_print s e a : q_proj (print_if s e a) = q_proj s. Proof. unfold QuestionM.print_if. destruct (query && fltb threshold e); reflexivity. Qed.
Lemma conc_print s e a : q_concept (print_if s e a) = q_concept s. Proof. unfold QuestionM.print_if. destruct (query && fltb threshold e); reflexivity. Qed.
Lemma out_print s e a : q_out (print_if s e a) = (if query && fltb threshold e then printed a :: q_out s else q_out s). Proof. unfold QuestionM.print_if. destruct (query && fltb threshold e); reflexivity. Qed.
Lemma imp_view q s i : numbered nm q -> eternal_best s -> exists s', try_implication nm av simdist query threshold q s i = Ok s' /\ eternal_best s' /\ q_concept s' = q_concept s /\
  view s' = if answers q (i_term i) then vstep (view s) (link_answer i) else view s.
Proof.
  intros N E. unfold try_implication. rewrite unifies_total by auto. cbn [rbind]. destruct (answers q (i_term i)); cbn [negb]; [|exists s; auto].
  eexists. split; [reflexivity|]. unfold eternal_best in *. rewrite E. rewrite best_print. change (mkAns (i_stamp i) (i_term i) (i_truth i) OCCURRENCE_ETERNAL (i_creation i)) with (link_answer i).
  change (Truth_Expectation f64A (a_truth (q_best s))) with (exp_of (q_best s)). change (Truth_Expectation f64A (i_truth i)) with (exp_of (link_answer i)).
  unfold vstep, view. cbn [fst snd]. destruct (fleb (exp_of (q_best s)) (exp_of (link_answer i))); cbn [q_best q_out q_concept]; rewrite ?best_print, ?out_print, ?conc_print; auto.
Qed.
Lemma imps_view q l : numbered nm q -> forall s, eternal_best s -> exists s', try_implications nm av simdist query threshold q s l = Ok s' /\ eternal_best s' /\ q_concept s' = q_concept s /\
  view s' = fold_left vstep (map link_answer (filter (fun i => answers q (i_term i)) l)) (view s).
Proof.
  intros N. induction l as [|i l IH]; intros s E; cbn [try_implications]; [exists s; auto|].
  destruct (imp_view q s i N E) as (s1 & R & E1 & C1 & V1). rewrite R. cbn [rbind]. destruct (IH s1 E1) as (s2 & R2 & E2 & C2 & V2). exists s2. split; auto. split; auto. split; [congruence|].
  rewrite V2, V1. cbn [filter]. destruct (answers q (i_term i)); reflexivity.
Qed.
Lemma tables_view q ts : numbered nm q -> forall s, eternal_best s -> exists s', try_tables nm av simdist query threshold q s ts = Ok s' /\ eternal_best s' /\ q_concept s' = q_concept s /\
  view s' = fold_left vstep (stored_in nm av simdist q ts) (view s).
Proof.
  intros N. induction ts as [|t ts IH]; intros s E; cbn [try_tables]; [exists s; auto|].
  destruct (imps_view q (items t) N s E) as (s1 & R & E1 & C1 & V1). rewrite R. cbn [rbind]. destruct (IH s1 E1) as (s2 & R2 & E2 & C2 & V2). exists s2. split; auto. split; auto. split; [congruence|].
  rewrite V2, V1. unfold stored_in. cbn [flat_map]. rewrite fold_left_app. reflexivity.
Qed.
Lemma belief_view s c e : eternal_best s -> (present e = true -> e_occ e = OCCURRENCE_ETERNAL) ->
  let s' := try_belief query threshold s c e in eternal_best s' /\
  view s' = fold_left vstep (if present e then [event_answer e] else []) (view s) /\
  (q_concept s' = q_concept s /\ q_best s' = q_best s \/ q_concept s' = Some c /\ present e = true /\ q_best s' = event_answer e).
Proof.
  intros E PE. unfold try_belief, present in *. destruct (e_type e =? EVENT_TYPE_DELETED); cbn [negb] in *; [auto|]. specialize (PE eq_refl). unfold eternal_best in *.
  rewrite best_print, E. assert (EA : mkAns (e_stamp e) (e_term e) (e_truth e) OCCURRENCE_ETERNAL (e_creation e) = event_answer e) by (unfold event_answer; rewrite PE; reflexivity). rewrite EA.
  change (Truth_Expectation f64A (a_truth (q_best s))) with (exp_of (q_best s)). change (Truth_Expectation f64A (e_truth e)) with (exp_of (event_answer e)).
  unfold vstep, view. cbn [fold_left fst snd]. destruct (fleb (exp_of (q_best s)) (exp_of (event_answer e))); cbn [q_best q_out q_concept]; rewrite ?best_print, ?out_print, ?conc_print; auto.
  split; [exact PE|]. split; auto.
Qed.
(** the best of a list *)
Lemma fold_best l : Forall (fun a => validt (a_truth a)) l -> forall b o, Fin (exp_of b) ->
  let r := fold_left vstep l (b, o) in
  snd r = rev (map Some (filter (fun a => query && fltb threshold (exp_of a)) l)) ++ o /\
  ((fst r = b /\ Forall (fun a => (ex a < ex b)%R) l) \/
   (exists l1 l2, l = l1 ++ fst r :: l2 /\ (ex b <= ex (fst r))%R /\ Forall (fun a => (ex a <= ex (fst r))%R) l1 /\ Forall (fun a => (ex a < ex (fst r))%R) l2)).
Proof.
  induction 1 as [|a l V F IH]; intros b o FB; cbn [fold_left filter].
  - cbn. split; auto.
  - destruct (exp_fin a V) as (FA & RA). change (vstep (b, o) a) with ((if fleb (exp_of b) (exp_of a) then a else b), (if query && fltb threshold (exp_of a) then printed a :: o else o)).
    match goal with |- context [fold_left vstep l (?x, ?y)] => set (b1 := x); set (o1 := y) end.
    assert (FB1 : Fin (exp_of b1)) by (unfold b1; destruct (fleb (exp_of b) (exp_of a)); auto).
    destruct (IH b1 o1 FB1) as (S & R). split.
    + rewrite S. unfold o1. destruct (query && fltb threshold (exp_of a)); auto. cbn [map rev]. rewrite (printed_valid a V), <- app_assoc. reflexivity.
    + unfold b1 in *. clear b1. destruct (fleb (exp_of b) (exp_of a)) eqn:Q.
      * apply (fleb_spec _ _ FB FA) in Q. fold (ex b) (ex a) in Q. right. destruct R as [(R1 & R2)|(l1 & l2 & R1 & R2 & R3 & R4)].
        -- exists [], l. rewrite R1. split; auto.
        -- exists (a :: l1), l2. split; [cbn; congruence|]. split; [lra|]. split; auto.
      * assert (QL : (ex a < ex b)%R). { destruct (Rlt_or_le (ex a) (ex b)) as [X|X]; auto. apply (fleb_spec _ _ FB FA) in X. congruence. }
        destruct R as [(R1 & R2)|(l1 & l2 & R1 & R2 & R3 & R4)]; [left; auto|]. right. exists (a :: l1), l2. split; [cbn; congruence|]. split; auto. split; auto. constructor; auto. lra.
Qed.
Lemma best_of l : Forall (fun a => validt (a_truth a)) l -> let r := fold_left vstep l (view qstate0) in
  best_answer l (printed (fst r)) /\ snd r = rev (map Some (filter (fun a => query && fltb threshold (exp_of a)) l)).
Proof.
  intros F r. destruct a0_low as (FA & LA). change (view qstate0) with (a0, @nil (option answer)) in r.
  destruct (fold_best l F a0 [] FA) as (S & R). fold r in S, R. rewrite app_nil_r in S. split; auto. destruct R as [(R1 & R2)|(l1 & l2 & R1 & _ & R3 & R4)].
  - rewrite R1, printed_a0. destruct l as [|a l]; [reflexivity|]. exfalso. apply Forall_inv in R2. apply Forall_inv in F. destruct (exp_fin a F). lra.
  - assert (VF := F). rewrite R1 in VF. apply Forall_app in VF as [V1 V2]. assert (V := Forall_inv V2). assert (V3 := Forall_inv_tail V2). rewrite (printed_valid _ V). cbn [best_answer].
    destruct (exp_fin _ V) as (FR & _). exists l1, l2. split; [exact R1|]. rewrite Forall_forall in V1, V3, R3, R4. split; apply Forall_forall; intros b I.
    + apply (fleb_spec _ _ (proj1 (exp_fin _ (V1 b I))) FR). apply R3; auto.
    + apply (fltb_spec _ _ (proj1 (exp_fin _ (V3 b I))) FR). apply R4; auto.
Qed.
(** *** the loop over the concepts, no tense *)
Lemma bool_cases (b : bool) : b = true \/ b = false. Proof. destruct b; auto. Qed.
Definition slot_of (q : term) (l : list (nat * concept)) (s : qstate) : Prop :=
  forall c, q_concept s = Some c -> exists k, In (c, k) l /\ In (q_best s) (stored_belief nm av simdist q k).
Notation loop := (question_loop nm av simdist powdecay now query threshold).
Lemma belief_loop q l : numbered nm q -> copulaEquals nm (at_ q 0) TEMPORAL_IMPLICATION = false -> copulaEquals nm (at_ q 0) IMPLICATION = false ->
  Forall (fun ck => present (c_belief (snd ck)) = true -> e_occ (c_belief (snd ck)) = OCCURRENCE_ETERNAL) l ->
  forall s l0, eternal_best s -> slot_of q (l0 ++ l) s ->
  exists s', loop q 0 s l = Ok s' /\ view s' = fold_left vstep (flat_map (fun ck => stored_belief nm av simdist q (snd ck)) l) (view s) /\ slot_of q (l0 ++ l) s'.
Proof.
  intros N T I F. induction F as [|[c k] l EK F IH]; intros s l0 E SL; cbn [question_loop]; [exists s; auto|].
  unfold question_concept. rewrite T, I. cbn [rbind negb snd] in *. rewrite unifies_total by auto. cbn [rbind flat_map]. unfold stored_belief at 1. cbn [snd].
  rewrite fold_left_app. replace (l0 ++ (c, k) :: l) with ((l0 ++ [(c, k)]) ++ l) in * by (rewrite <- app_assoc; reflexivity).
  destruct (answers q (c_term k)) eqn:AK; cbn [negb rbind andb].
  - destruct (belief_view s c (c_belief k) E EK) as (E1 & V1 & C1). cbn [Z.eqb negb]. cbn zeta in *.
    destruct (IH (try_belief query threshold s c (c_belief k)) (l0 ++ [(c, k)]) E1) as (s' & R & V & SS).
    + intros d D. destruct C1 as [(C1 & C2)|(C1 & C2 & C3)].
      * rewrite C1 in D. destruct (SL d D) as (k' & X1 & X2). exists k'. rewrite C2. auto.
      * rewrite C1 in D. injection D as <-. exists k. split; [apply in_or_app; left; apply in_or_app; right; left; reflexivity|]. unfold stored_belief. rewrite AK, C2, C3. left. reflexivity.
    + exists s'. split; auto. split; auto. rewrite V, V1. reflexivity.
  - apply IH; auto.
Qed.
Lemma rule_loop q tense l : numbered nm q -> copulaEquals nm (at_ q 0) TEMPORAL_IMPLICATION = true ->
  forall s, eternal_best s ->
  exists s', loop q tense s l = Ok s' /\ view s' = fold_left vstep (flat_map (fun ck => stored_rule nm av simdist OPERATIONS_MAX q (snd ck)) l) (view s) /\ q_concept s' = q_concept s.
Proof.
  intros N T. assert (I : copulaEquals nm (at_ q 0) IMPLICATION = false).
  { unfold copulaEquals in *. apply andb_prop in T as [T _]. apply andb_prop in T as [_ T]. apply Z.eqb_eq in T. rewrite T. rewrite andb_false_r. reflexivity. }
  induction l as [|[c k] l IH]; intros s E; cbn [question_loop]; [exists s; auto|].
  unfold question_concept. rewrite T, I. cbn [rbind negb snd] in *. rewrite unifies_total by (apply numbered_extract; auto). cbn [rbind flat_map]. unfold stored_rule at 1. cbn [snd].
  rewrite fold_left_app. destruct (answers (Term_ExtractSubterm q 2) (c_term k)); cbn [negb].
  - destruct (tables_view q (firstn OPERATIONS_MAX (c_pre k)) N s E) as (s1 & R & E1 & C1 & V1). rewrite R. cbn [rbind]. destruct (IH s1 E1) as (s2 & R2 & V2 & C2). exists s2. split; auto. split; [rewrite V2, V1; reflexivity|congruence].
  - cbn [rbind]. apply IH; auto.
Qed.
Lemma implication_loop q l : numbered nm q -> copulaEquals nm (at_ q 0) IMPLICATION = true ->
  Forall (fun ck => present (c_belief (snd ck)) = true -> e_occ (c_belief (snd ck)) = OCCURRENCE_ETERNAL) l ->
  forall s, eternal_best s ->
  exists s', loop q 0 s l = Ok s' /\ view s' = fold_left vstep (flat_map (fun ck => stored_implication nm av simdist q (snd ck)) l) (view s).
Proof.
  intros N T F. assert (I : copulaEquals nm (at_ q 0) TEMPORAL_IMPLICATION = false).
  { unfold copulaEquals in *. apply andb_prop in T as [T _]. apply andb_prop in T as [_ T]. apply Z.eqb_eq in T. rewrite T. rewrite andb_false_r. reflexivity. }
  induction F as [|[c k] l EK F IH]; intros s E; cbn [question_loop]; [exists s; auto|].
  unfold question_concept. rewrite T, I. cbn [rbind negb snd] in *. rewrite unifies_total by (apply numbered_extract; auto). cbn [rbind flat_map]. unfold stored_implication at 1. cbn [snd].
  rewrite fold_left_app. destruct (answers (Term_ExtractSubterm q 2) (c_term k)); cbn [negb rbind]; [|apply IH; auto].
  destruct (imps_view q (items (c_links k)) N s E) as (s1 & R & E1 & C1 & V1). rewrite R. cbn [rbind negb]. rewrite unifies_total by auto. cbn [rbind].
  assert (V1' : view s1 = fold_left vstep (stored_in nm av simdist q [c_links k]) (view s)) by (unfold stored_in; cbn [flat_map]; rewrite app_nil_r; exact V1).
  rewrite fold_left_app, <- V1'. unfold stored_belief. destruct (answers q (c_term k)); cbn [negb rbind andb].
  - destruct (belief_view s1 c (c_belief k) E1 EK) as (E2 & V2 & _). cbn [Z.eqb negb]. cbn zeta in *. rewrite <- V2. apply IH; auto.
  - apply IH; auto.
Qed.
(** *** questions about events *)
Hypothesis POW : forall d, 0 <= d -> u01 (powdecay d).
Notation pexp_of := (pexp_of powdecay now).
Definition px (a : answer) : R := B2R (pexp_of a).
Definition proj (a : answer) : truth f64A := Truth_Projection f64A powdecay (a_truth a) (a_occ a) now.
Lemma valid_validt v : valid v -> validt v.
Proof. intros (F & C & R). split; auto. split; auto. pose proof maxc_bounds. lra. Qed.
Lemma exp_pos v : valid v -> Fin (Truth_Expectation f64A v) /\ (0 < B2R (Truth_Expectation f64A v))%R.
Proof.
  intros V. assert (VT := valid_validt _ V). split; [apply expectation_range; auto|].
  set (z := @mkTruth f64A f0 (confidence v)). set (w := @mkTruth f64A f0 (MAX_CONFIDENCE f64A)).
  assert (V0 : u01 f0). { split; [reflexivity|]. change (B2R f0) with 0%R. lra. }
  assert (VZ : validt z) by (split; [exact V0|apply VT]). assert (VW : validt w). { apply valid_validt. split; [exact V0|]. split; [exact maxc_fin|]. unfold maxc. pose proof maxc_bounds. unfold maxc in *. cbn [confidence w]. lra. }
  assert (A : (B2R (Truth_Expectation f64A z) <= B2R (Truth_Expectation f64A v))%R). { apply expectation_mono_freq; auto. destruct V as ((_ & X) & _). change (B2R (frequency z)) with 0%R. lra. }
  assert (B : (B2R (Truth_Expectation f64A w) <= B2R (Truth_Expectation f64A z))%R). { apply (expectation_mono_conf z w VZ VW); auto; [|change (B2R (frequency z)) with 0%R; lra]. destruct V as (_ & _ & X). exact (proj2 X). }
  assert (C : fltb f0 (Truth_Expectation f64A w) = true) by (vm_compute; reflexivity). apply fltb_spec in C; [|reflexivity|apply expectation_range; auto]. change (B2R f0) with 0%R in C. lra.
Qed.
Lemma pexp_pos a : valid (a_truth a) -> Fin (pexp_of a) /\ (0 < px a)%R.
Proof. intros V. apply exp_pos. apply projection_ok; auto. Qed.
Definition beats (a b : answer) : Prop := (px b < px a)%R \/ (px b = px a /\ a_occ b <= a_occ a).
Definition einv (P : list answer) (s : qstate) : Prop :=
  (P = [] /\ q_best s = a0 /\ q_proj s = q_proj qstate0) \/ (In (q_best s) P /\ q_proj s = proj (q_best s) /\ forall b, In b P -> beats (q_best s) b).
Definition estep (mid : bool) (s : qstate) (c : nat) (a : answer) : qstate :=
  let s := print_if s (pexp_of a) a in
  if fltb (Truth_Expectation f64A (q_proj s)) (pexp_of a) || (mid && (fltb (exp_of (q_best s)) (exp_of a) && (a_occ a =? a_occ (q_best s))))
     || (feqb (pexp_of a) (Truth_Expectation f64A (q_proj s)) && (a_occ (q_best s) <? a_occ a))
  then mkQ a (proj a) (Some c) (q_out s) else s.
Lemma spike_step s c e tense : present e && ((tense =? 1) || (tense =? 2)) = true -> try_spike powdecay now query threshold s c e tense = estep true s c (event_answer e).
Proof. intros H. unfold try_spike, present in *. rewrite H. reflexivity. Qed.
Lemma pred_step s c e tense : present e && ((tense =? 1) || (tense =? 3)) = true -> try_predicted powdecay now query threshold s c e tense = estep false s c (event_answer e).
Proof. intros H. unfold try_predicted, present in *. rewrite H. unfold estep. cbn [andb]. rewrite orb_false_r. reflexivity. Qed.
Lemma estep_out mid s c a : q_out (estep mid s c a) = (if query && fltb threshold (pexp_of a) then printed a :: q_out s else q_out s).
Proof. unfold estep. match goal with |- context [if ?b then mkQ _ _ _ _ else _] => destruct b end; cbn [q_out]; apply out_print. Qed.
Lemma estep_best mid s c a : let s' := estep mid s c a in (q_best s' = q_best s /\ q_concept s' = q_concept s) \/ (q_best s' = a /\ q_concept s' = Some c).
Proof. unfold estep. match goal with |- context [if ?b then mkQ _ _ _ _ else _] => destruct b end; cbn [q_best q_concept]; rewrite ?best_print, ?conc_print; auto. Qed.
Lemma estep_ok mid L P s c a : Forall (fun a => valid (a_truth a)) L -> In a L -> incl P L ->
  (mid = true -> forall a b, In a L -> In b L -> a_occ a = a_occ b -> (ex b < ex a)%R -> (px b <= px a)%R) ->
  einv P s -> einv (P ++ [a]) (estep mid s c a).
Proof.
  intros VL IA IP MO I. rewrite Forall_forall in VL. destruct (pexp_pos a (VL a IA)) as (FA & PA). unfold estep. rewrite best_print, proj_print.
  assert (TAKE : forall o, (forall b, In b P -> beats a b) -> einv (P ++ [a]) (mkQ a (proj a) (Some c) o)).
  { intros o H. right. cbn [q_best q_proj]. split; [apply in_or_app; right; left; auto|]. split; auto. intros b [B|[<-|[]]]%in_app_or; [auto|]. right. split; [reflexivity|lia]. }
  destruct I as [(-> & E1 & E2)|(I1 & I2 & I3)].
  - rewrite E1, E2. assert (C1 : fltb (Truth_Expectation f64A (q_proj qstate0)) (pexp_of a) = true).
    { assert (Z0 : Truth_Expectation f64A (q_proj qstate0) = f0) by (vm_compute; reflexivity). rewrite Z0. apply fltb_spec; [reflexivity|exact FA|]. change (B2R f0) with 0%R. exact PA. }
    rewrite C1. cbn [orb]. apply TAKE. intros b [].
  - assert (IB : In (q_best s) L) by (apply IP; auto). destruct (pexp_pos (q_best s) (VL _ IB)) as (FB & PB). rewrite I2. change (Truth_Expectation f64A (proj (q_best s))) with (pexp_of (q_best s)).
    destruct (exp_pos _ (VL _ IB)) as (FEB & _). destruct (exp_pos _ (VL _ IA)) as (FEA & _).
    assert (TR : forall b, beats (q_best s) b -> beats a (q_best s) -> beats a b). { unfold beats. intros b X Y. destruct X as [X|(X & X2)]; destruct Y as [Y|(Y & Y2)]; try (left; lra). right. split; [congruence|lia]. }
    destruct (fltb (pexp_of (q_best s)) (pexp_of a)) eqn:C1; cbn [orb].
    { apply (fltb_spec _ _ FB FA) in C1. apply TAKE. intros b HB. apply TR; [auto|]. left. exact C1. }
    assert (N1 : (px a <= px (q_best s))%R). { destruct (Rle_or_lt (px a) (px (q_best s))) as [X|X]; auto. apply (fltb_spec _ _ FB FA) in X. congruence. }
    destruct (mid && (fltb (exp_of (q_best s)) (exp_of a) && (a_occ a =? a_occ (q_best s)))) eqn:C2; cbn [orb].
    { apply andb_prop in C2 as [C2 C3]. apply andb_prop in C3 as [C3 C4]. apply (fltb_spec _ _ FEB FEA) in C3. apply Z.eqb_eq in C4. specialize (MO C2 a (q_best s) IA IB C4 C3).
      apply TAKE. intros b HB. apply TR; [auto|]. right. split; [lra|lia]. }
    destruct (feqb (pexp_of a) (pexp_of (q_best s)) && (a_occ (q_best s) <? a_occ a)) eqn:C3.
    { apply andb_prop in C3 as [C3 C4]. apply (feqb_spec _ _ FA FB) in C3. apply Z.ltb_lt in C4. apply TAKE. intros b HB. apply TR; [auto|]. right. split; [symmetry; exact C3|lia]. }
    right. rewrite best_print, proj_print. split; [apply in_or_app; auto|]. split; auto. intros b [B|[<-|[]]]%in_app_or; auto.
    destruct (Rle_lt_or_eq_dec _ _ N1) as [X|X]; [left; exact X|]. right. split; auto. apply andb_false_iff in C3 as [C3|C3]; [|apply Z.ltb_ge in C3; lia].
    assert (feqb (pexp_of a) (pexp_of (q_best s)) = true) by (apply (feqb_spec _ _ FA FB); exact X). congruence.
Qed.
Notation stored_events := (stored_events nm av simdist).
Lemma event_loop q tense L l : numbered nm q -> copulaEquals nm (at_ q 0) TEMPORAL_IMPLICATION = false -> copulaEquals nm (at_ q 0) IMPLICATION = false -> tense <> 0 ->
  Forall (fun a => valid (a_truth a)) L -> incl (flat_map (fun ck => stored_events tense q (snd ck)) l) L ->
  (tense <> 3 -> forall a b, In a L -> In b L -> a_occ a = a_occ b -> (ex b < ex a)%R -> (px b <= px a)%R) ->
  forall s P l0, incl P L -> einv P s -> (forall c, q_concept s = Some c -> exists k, In (c, k) (l0 ++ l) /\ In (q_best s) (stored_events tense q k)) ->
  exists s', loop q tense s l = Ok s' /\ einv (P ++ flat_map (fun ck => stored_events tense q (snd ck)) l) s' /\
    q_out s' = rev (map Some (filter (fun a => query && fltb threshold (pexp_of a)) (flat_map (fun ck => stored_events tense q (snd ck)) l))) ++ q_out s /\
    (forall c, q_concept s' = Some c -> exists k, In (c, k) (l0 ++ l) /\ In (q_best s') (stored_events tense q k)).
Proof.
  intros N T I TZ VL. induction l as [|[c k] l IH]; intros IL MO s P l0 IP IV CO; cbn [question_loop flat_map].
  - exists s. rewrite !app_nil_r in *. cbn. auto.
  - unfold question_concept. rewrite T, I. cbn [rbind negb snd flat_map] in *. rewrite unifies_total by auto. cbn [rbind].
    assert (IL2 : incl (flat_map (fun ck => stored_events tense q (snd ck)) l) L) by (intros x X; apply IL, in_or_app; auto).
    replace (l0 ++ (c, k) :: l) with ((l0 ++ [(c, k)]) ++ l) in * by (rewrite <- app_assoc; reflexivity).
    assert (HERE : forall l, In (c, k) ((l0 ++ [(c, k)]) ++ l)) by (intros; apply in_or_app; left; apply in_or_app; right; left; auto).
    rewrite map_filter_app. rewrite rev_app_distr, <- app_assoc.
    remember (stored_events tense q k) as CK eqn:ECK. pose proof ECK as ECK'. unfold QuestionS.stored_events in ECK. destruct (answers q (c_term k)); cbn [negb rbind].
    2:{ subst CK. cbn [app filter map rev]. destruct (IH IL2 MO s P (l0 ++ [(c, k)]) IP IV CO) as (s' & R1 & R2 & R3 & R4). exists s'. auto. }
    destruct (Z.eqb_spec tense 0); [contradiction|]. cbn [negb].
    assert (V0 : forall a, In a CK -> valid (a_truth a)). { intros a A. rewrite Forall_forall in VL. apply VL, IL, in_or_app; auto. }
    (* the spike *)
    set (s1 := try_spike powdecay now query threshold s c (c_spike k) tense).
    assert (S1 : einv (P ++ (if present (c_spike k) && ((tense =? 1) || (tense =? 2)) then [event_answer (c_spike k)] else [])) s1 /\
       q_out s1 = rev (map Some (filter (fun a => query && fltb threshold (pexp_of a)) (if present (c_spike k) && ((tense =? 1) || (tense =? 2)) then [event_answer (c_spike k)] else []))) ++ q_out s /\
       (forall d, q_concept s1 = Some d -> exists k0, In (d, k0) ((l0 ++ [(c, k)]) ++ l) /\ In (q_best s1) (stored_events tense q k0))).
    { destruct (present (c_spike k) && ((tense =? 1) || (tense =? 2))) eqn:Q.
      - unfold s1. rewrite spike_step by auto. assert (INC : In (event_answer (c_spike k)) CK) by (rewrite ECK; left; auto).
        split; [apply (estep_ok true L); auto; [apply IL, in_or_app; auto|]|]. { intros _. apply MO. intros ->. cbn in Q. rewrite andb_false_r in Q. discriminate Q. }
        split. { rewrite estep_out. cbn [filter]. destruct (query && fltb threshold (pexp_of (event_answer (c_spike k)))); [|reflexivity]. rewrite printed_valid; [reflexivity|]. apply valid_validt, V0; auto. }
        intros d D. destruct (estep_best true s c (event_answer (c_spike k))) as [(B1 & B2)|(B1 & B2)]; [rewrite B1; apply CO; congruence|].
        rewrite B1. rewrite B2 in D. injection D as <-. exists k. split; [apply HERE|]. rewrite <- ECK'. exact INC.
      - assert (E1 : s1 = s). { unfold s1, try_spike, present in *. rewrite Q. reflexivity. } rewrite E1, app_nil_r. cbn. auto. }
    destruct S1 as (S1 & O1 & C1).
    set (s2 := try_predicted powdecay now query threshold s1 c (c_predicted k) tense).
    set (sp := if present (c_spike k) && ((tense =? 1) || (tense =? 2)) then [event_answer (c_spike k)] else []) in *.
    assert (IP1 : incl (P ++ sp) L). { intros x [X|X]%in_app_or; [auto|]. apply IL, in_or_app. left. rewrite ECK. apply in_or_app; auto. }
    assert (S2 : einv (P ++ CK) s2 /\ q_out s2 = rev (map Some (filter (fun a => query && fltb threshold (pexp_of a)) CK)) ++ q_out s /\
       (forall d, q_concept s2 = Some d -> exists k0, In (d, k0) ((l0 ++ [(c, k)]) ++ l) /\ In (q_best s2) (stored_events tense q k0))).
    { rewrite ECK at 1 2. rewrite map_filter_app, rev_app_distr, <- app_assoc, <- O1, app_assoc.
      destruct (present (c_predicted k) && ((tense =? 1) || (tense =? 3))) eqn:Q.
      - unfold s2. rewrite pred_step by auto. assert (INC : In (event_answer (c_predicted k)) CK) by (rewrite ECK; apply in_or_app; right; left; auto).
        split; [apply (estep_ok false L); auto; [apply IL, in_or_app; auto|discriminate]|].
        split. { rewrite estep_out. cbn [filter]. destruct (query && fltb threshold (pexp_of (event_answer (c_predicted k)))); [|reflexivity]. rewrite printed_valid; [reflexivity|]. apply valid_validt, V0; auto. }
        intros d D. destruct (estep_best false s1 c (event_answer (c_predicted k))) as [(B1 & B2)|(B1 & B2)]; [rewrite B1; apply C1; congruence|].
        rewrite B1. rewrite B2 in D. injection D as <-. exists k. split; [apply HERE|]. rewrite <- ECK'. exact INC.
      - assert (E1 : s2 = s1). { unfold s2, try_predicted, present in *. rewrite Q. reflexivity. } rewrite E1, app_nil_r. cbn. auto. }
    destruct S2 as (S2 & O2 & C2).
    destruct (IH IL2 MO s2 (P ++ CK) (l0 ++ [(c, k)])) as (s' & R1 & R2 & R3 & R4); auto.
    { intros x [X|X]%in_app_or; [auto|]. apply IL, in_or_app; auto. }
    exists s'. split; [exact R1|]. split; [rewrite app_assoc; exact R2|]. split; [rewrite R3, O2; reflexivity|exact R4].
Qed.
End Q.
