(** The shell: reading of lines, settings, inputs (C58), crashes (C61) and reset (C62); the clock
    and the executions of whole sessions (C52, C46). *)
From Coq Require Import ZArith List Bool String Lia.
From Verif Require Import Base F64 TruthM StampM TermM NamesM AtomsM ParserM RulesM EventM MemoryM QuestionM DecisionM OpsM CycleM CycleS CycleP5 ShellM ShellS ShellP ShellP2 ShellP3.
From Verif Require Import PropsMemory PropsQuestion PropsCycle.
Import ListNotations.
Local Open Scope Z_scope.

(** C58, every line (without the white space at its end) reads in exactly one way, and that is what
    the shell does *)
Theorem C58_one_reading : forall l, exists! k, reads (trim l) k.
Proof. intros l. exists (parse (trim l)). split; [apply parse_reads|intros k H; apply reads_parse in H; auto]. Qed.
Print Assumptions C58_one_reading.
Theorem C58_dispatch : forall v z l k, reads (trim l) k -> Shell_ProcessInput v z l = run v z k.
Proof. intros v z l k H. apply reads_parse in H. unfold Shell_ProcessInput. rewrite H. reflexivity. Qed.
Print Assumptions C58_dispatch.
Theorem C58_trim : forall l, exists sp, l = trim l ++ sp /\ Forall (fun c => c = 32 \/ 9 <= c <= 13) sp /\
  (forall u c, trim l = u ++ [c] -> ~ (c = 32 \/ 9 <= c <= 13)).
Proof. exact trim_spec. Qed.
Print Assumptions C58_trim.
(** the session ends exactly at "quit", the system is reset exactly at "*reset" *)
Theorem C58_quit_and_reset : forall v z l z' r o, Shell_ProcessInput v z l = Ok (z', r, o) ->
  (r = SHELL_EXIT <-> trim l = str "quit") /\ (r = SHELL_RESET <-> trim l = str "*reset").
Proof.
  intros v z l z' r o. unfold Shell_ProcessInput. pose proof (parse_reads (trim l)) as R. remember (trim l) as x. remember (parse x) as k. clear Heqk Heqx.
  intros H. assert (X : k = KQuit /\ r = SHELL_EXIT \/ k = KReset /\ r = SHELL_RESET \/ k <> KQuit /\ k <> KReset /\ r = SHELL_CONTINUE).
  { destruct k; cbn [run] in H; unfold quiet, loud in H;
    try (injection H as <- <- <-; auto; right; right; repeat split; discriminate);
    try (match type of H with rbind ?e _ = _ => destruct e as [y| |]; cbn [rbind] in H; try discriminate H end; try destruct y; injection H as <- <- <-; right; right; repeat split; discriminate).
    destruct (_ =? 0); try discriminate H. injection H as <- <- <-. right; right; repeat split; discriminate. }
  destruct X as [[-> ->]|[[-> ->]|(N1 & N2 & ->)]].
  - inversion R. split; split; auto; discriminate.
  - inversion R. split; split; auto; discriminate.
  - split; split; try discriminate; intros ->; apply reads_parse in R; vm_compute in R; congruence.
Qed.
Print Assumptions C58_quit_and_reset.
(** comments and listings change nothing; quit and *reset change nothing themselves *)
Theorem C58_shows_only : forall v z l k z' r o, reads (trim l) k -> shows k -> Shell_ProcessInput v z l = Ok (z', r, o) -> z' = z.
Proof.
  intros v z l k z' r o R S. rewrite (C58_dispatch v z l k R). destruct S; cbn [run]; try (intros H; apply okI in H; injection H as <- <- <-; auto; fail).
  destruct (_ =? 0); try discriminate. intros H; apply okI in H; injection H as <- <- <-; auto.
Qed.
Print Assumptions C58_shows_only.
(** a configuration command sets its setting as specified and changes nothing else *)
Theorem C58_settings : forall v z l k p z' r o, reads (trim l) k -> about k p -> Shell_ProcessInput v z l = Ok (z', r, o) ->
  r = SHELL_CONTINUE /\ o = [] /\ only (Some p) z z' /\ gives v z z' k.
Proof. intros v z l k p z' r o R A. rewrite (C58_dispatch v z l k R). apply setting_ok; auto. Qed.
Print Assumptions C58_settings.
(** commands about measured values and operations touch neither knowledge nor parameters *)
Theorem C58_values_and_operations : forall v z l k z' r o, reads (trim l) k -> about_names k \/ about_operations k -> Shell_ProcessInput v z l = Ok (z', r, o) ->
  r = SHELL_CONTINUE /\ o = [] /\ same_parameters z z' /\ same_knowledge z z' /\ (about_names k -> m_ops (s_mem (z_core z')) = m_ops (s_mem (z_core z))).
Proof.
  intros v z l k z' r o R A. rewrite (C58_dispatch v z l k R). intros H. destruct A as [A|A].
  - destruct (names_ok v z k z' r o A H) as (H1 & H2 & H3 & H4). unfold same_knowledge. rewrite H3. repeat split; auto; apply H4.
  - destruct (operations_ok v z k z' r o A H) as (H1 & H2 & H3 & _ & _ & ops & H4). unfold same_knowledge. rewrite H4. repeat split; auto; try apply H3. intros Q; destruct A; inversion Q.
Qed.
Print Assumptions C58_values_and_operations.
(** a line of digits below 2^31 runs that many cycles, an empty line one *)
Theorem C58_steps : forall v z l, number (trim l) -> value_of (trim l) < 2 ^ 31 ->
  Shell_ProcessInput v z l =
  do s <- perform (params_of v z) (z_core z) (CCycles (Z.to_nat (value_of (trim l)))) ; Ok (put_core z s, SHELL_CONTINUE, [OSteps (value_of (trim l))]).
Proof.
  intros v z l N B. rewrite (C58_dispatch v z l (KSteps (trim l))) by (constructor; auto). generalize dependent (trim l). clear l. intros a N B.
  assert (R : reads_int a (value_of a)). { replace a with ([] ++ [] ++ a ++ []) at 1 by (cbn; apply app_nil_r). constructor; auto. discriminate. }
  assert (P : 0 <= value_of a). { destruct N as [_ N]. unfold value_of. assert (G : forall x, 0 <= x -> 0 <= fold_left (fun n c => 10 * n + (c - 48)) a x). { clear B R. induction a as [|c a IH]; intros x X; cbn [fold_left]; auto. inversion N; subst. apply IH; auto. lia. } apply G; lia. }
  destruct (integer_reads _ _ R) as [r I]. cbn [run loud steps]. unfold loud, steps, scan_integer. rewrite I.
  replace ((0 <=? value_of a) && (value_of a <=? 2 ^ 32 - 1)) with true by lia. cbn [rbind]. unfold reason, to_int. replace (value_of a <? 2 ^ 31) with true by lia.
  destruct (perform _ _ _); reflexivity.
Qed.
Print Assumptions C58_steps.
Theorem C58_blank : forall v z l, trim l = [] ->
  Shell_ProcessInput v z l = do s <- perform (params_of v z) (z_core z) (CCycles 1) ; Ok (put_core z s, SHELL_CONTINUE, []).
Proof. intros v z l E. rewrite (C58_dispatch v z l KCycle) by (rewrite E; constructor). cbn [run]. unfold quiet, reason. destruct (perform _ _ _); reflexivity. Qed.
Print Assumptions C58_blank.
(** but a number from 2^31 to 2^32-1 is announced and no cycle is run *)
Theorem C58_steps_refuted : exists l, number (trim l) /\ value_of (trim l) = 3000000000 /\
  forall v z, Shell_ProcessInput v z l = Ok (z, SHELL_CONTINUE, [OSteps 3000000000]).
Proof.
  exists (str "3000000000"). assert (T : trim (str "3000000000") = str "3000000000") by reflexivity. rewrite T. split; [|split; [reflexivity|]].
  - split; [discriminate|]. apply digits_forall. reflexivity.
  - intros v z. rewrite (C58_dispatch v z _ (KSteps (str "3000000000"))) by (rewrite T; constructor; split; [discriminate|apply digits_forall; reflexivity]). destruct z. reflexivity.
Qed.
Print Assumptions C58_steps_refuted.
(** any other line is a sentence: a question is answered without reasoning (at most the answering
    concept is primed), a belief or goal is one input; goals need a tense, beliefs must not be
    about past or future *)
Theorem C58_sentences : forall v z l a z' r o, reads (trim l) (KSentence a) -> Shell_ProcessInput v z l = Ok (z', r, o) ->
  r = SHELL_CONTINUE /\ same_parameters z z' /\ exists st s,
  Narsese_Sentence (v_atoms v) (v_atof v) (v_scan1 v) (v_scan2 v) (z_st z) (trim l) = Ok (st, s) /\ z_st z' = st /\
  let t := RuleTable_Reduce (a_names st) (ParserM.s_term s) in
  (s_punctuation s = 63 /\ (exists m, one_primed (s_mem (z_core z)) m /\ z_core z' = set_mem (z_core z) m) /\ exists ans, o = map OAnswer ans) \/
  (o = [] /\ exists ty eternal, perform (params_of v (put_st z st)) (z_core z) (CInput t ty (@mkTruth f64A (fst (ParserM.s_truth s)) (snd (ParserM.s_truth s))) eternal (s_offset s)) = Ok (z_core z') /\
    (s_punctuation s = 33 /\ ty = EVENT_TYPE_GOAL /\ eternal = false \/ s_punctuation s = 46 /\ ty = EVENT_TYPE_BELIEF /\ s_tense s < 2 /\ (eternal = true <-> s_tense s = 0))).
Proof.
  intros v z l a z' r o R. assert (a = trim l) as -> by (inversion R; auto). rewrite (C58_dispatch v z l _ R). cbn [run]. unfold loud.
  destruct (AddInputNarsese2 _ _ _ _ _) as [[z1 o1]| |] eqn:E; cbn [rbind]; try discriminate. intros H; apply okI in H; injection H as <- <- <-.
  destruct (sentence_ok _ _ _ _ _ _ _ E) as (SP & _ & _ & st & s & NS & ST & C). repeat split; auto; try apply SP. exists st, s. split; auto. split; auto. cbv zeta in C |- *.
  destruct C as [(P & m & ans & Q & ZC & O)|(P & G & B & O & Q)].
  - left. split; auto. split; [|eauto]. exists m. split; auto. apply question_mem in Q. destruct Q as [->|(c & k & C & ->)]; [left; auto|right].
    unfold cread in C. destruct (nth_error _ c) as [k'|] eqn:N; try discriminate. apply okI in C; subst k'. exists c, k. do 2 eexists. split; auto. reflexivity.
  - right. split; auto. do 2 eexists. split; [exact Q|].
    assert (PP : s_punctuation s = 33 \/ s_punctuation s = 63 \/ s_punctuation s = 46).
    { clear -NS. unfold Narsese_Sentence in NS. destruct (sentence_dt _ _) as [[x dt]| |]; cbn [rbind] in NS; try discriminate. destruct (rassert _); cbn [rbind] in NS; try discriminate. destruct (rassert _); cbn [rbind] in NS; try discriminate.
      destruct (sentence_truth _ _ _) as [[y tv]| |]; cbn [rbind] in NS; try discriminate. destruct (_ <? _)%nat in NS; try discriminate. destruct (rassert (_ || _)) eqn:A; cbn [rbind] in NS; try discriminate.
      destruct (Narsese_Term _ _ _) as [[st' t]| |]; cbn [rbind] in NS; try discriminate. apply okI in NS; injection NS as <- <-. cbn [s_punctuation]. unfold rassert in A. destruct (_ || _) eqn:X in A; try discriminate. lia. }
    destruct PP as [PP|[PP|PP]]; [left|contradiction|right]; rewrite PP in *.
    + split; auto. split; auto. specialize (G eq_refl). destruct (s_tense s =? 0) eqn:X; auto. lia.
    + split; auto. split; auto. split; [apply B; auto|]. rewrite Z.eqb_eq. tauto.
Qed.
Print Assumptions C58_sentences.
(** C58 over sessions: everything the reasoner goes through is a history of API calls, to which the
    theorems about reached states apply *)
Theorem C58_sessions_are_histories : forall v z, running v z -> reached (z_core z).
Proof. exact running_reached. Qed.
Print Assumptions C58_sessions_are_histories.

(** C61, defined results: a setting command whose number, if there is one, fits its type, and whose
    stamp is closed within 999 characters, has a defined result *)
Theorem C61_settings_defined : forall v z l k p, reads (trim l) k -> about k p ->
  (forall a n, k = KVolume a \/ k = KBabblingOps a -> reads_int a n -> - 2 ^ 31 <= n < 2 ^ 31) ->
  (forall a n, k = KTime a \/ k = KStampId a -> reads_int a n -> - 2 ^ 63 <= n < 2 ^ 63) ->
  (forall a, k = KStampImport a -> exists body r, a = body ++ [93] ++ r /\ ~ In 93 r /\ (length body < 1000)%nat) ->
  exists z' r o, Shell_ProcessInput v z l = Ok (z', r, o).
Proof.
  intros v z l k p R A F1 F2 F3. rewrite (C58_dispatch v z l k R).
  assert (S1 : forall a, k = KVolume a \/ k = KBabblingOps a -> exists x, scan_d a = Ok x).
  { intros a K. unfold scan_d, scan_integer. destruct (integer a) as [[n r]|] eqn:E; eauto. pose proof (F1 a n K (integer_some _ _ _ E)). unfold INT_MIN, INT_MAX. replace (_ && _) with true by lia. eauto. }
  assert (S2 : forall a, k = KTime a \/ k = KStampId a -> exists x, scan_ld a = Ok x).
  { intros a K. unfold scan_ld, scan_integer. destruct (integer a) as [[n r]|] eqn:E; eauto. pose proof (F2 a n K (integer_some _ _ _ E)). unfold LONG_MIN, LONG_MAX. replace (_ && _) with true by lia. eauto. }
  destruct A; cbn [run]; unfold quiet, volume, stamp_import; cbn [rbind]; eauto;
    try (destruct (S1 a) as [x ->]; auto; cbn [rbind]; eauto; fail); try (destruct (S2 a) as [x ->]; auto; cbn [rbind]; eauto; fail).
  destruct (F3 a eq_refl) as (body & r & -> & N & L). destruct (last_close (body ++ [93] ++ r) 0) as [n|] eqn:E.
  - apply last_close_spec in E. destruct E as (_ & b & r' & Q & Lb & N'). assert (b = body /\ r' = r) as [-> ->]; [|replace (n <? 1000)%nat with true by lia; cbn [rbind]; eauto].
    clear -Q N N'. revert b Q. induction body as [|x body IH]; intros [|y b] Q; cbn in Q; inversion Q; auto.
    + exfalso. apply N. match goal with H : r = _ |- _ => rewrite H end. apply in_or_app. right; left; auto.
    + exfalso. apply N'. match goal with H : _ = r' |- _ => rewrite <- H end. apply in_or_app. right; left; auto.
    + subst. edestruct IH as [A1 A2]; [eassumption|]. subst. auto.
  - exfalso. clear -E. revert E. generalize 0%nat. induction body as [|x body IH]; intros n; cbn.
    + destruct (last_close r (S n)); discriminate.
    + destruct (last_close (body ++ 93 :: r) (S n)) eqn:E; [discriminate|]. exfalso. apply (IH (S n)). exact E.
Qed.
Print Assumptions C61_settings_defined.

(** Witness system: five atoms beyond the built-in names; "0.5" is the only readable double. *)
Definition half : f64 := @aconst f64A 1 2.
Definition wenv : env :=
  mkEnv 120 4 2 1 1 1 qpow ex_pen half half ok_fb 60 2 (fun _ => f0) (fun _ => None) (fun _ _ => None)
    (fun l => if prefixb (str "0.5") l then Some (half, skipn 3 l) else None) (fun _ _ => str "0.5").
Definition wrun (ls : list string) : res (nar * list output) := do z <- start wenv 1 ; session wenv z (map str ls).
Lemma started_running v rng ls z o : (do z <- start v rng ; session v z ls) = Ok (z, o) -> running v z.
Proof. destruct (start v rng) as [z0| |] eqn:E; cbn [rbind]; try discriminate. intros H. eapply session_running; eauto. eapply ru_start; eauto. Qed.
Lemma wrun_running ls z o : wrun ls = Ok (z, o) -> running wenv z.
Proof. unfold wrun. exact (started_running wenv 1 (map str ls) z o). Qed.

Lemma all_ub {A B} (f : A -> res B) l : forallb (fun x => match f x with UB => true | _ => false end) l = true -> forall x, In x l -> f x = UB.
Proof. intros G x H. rewrite forallb_forall in G. specialize (G x H). destruct (f x); auto; discriminate. Qed.
(** C61, refuted: lines of printable text that crash the program (undefined behaviour) *)
Theorem C61_no_crash_refuted : forall ls, In ls
  [["*setopstdin 0"]; ["*setopstdin 11"]; ["*stampimport=[1"]; ["*concurrent"; "*stats"];
   ["*setvalue 0.5 10 abcdefghijklmnopqrstuvwxyzabcd"]; ["*setopname x"]; ["*babblingops=99999999999"]]%string -> wrun ls = UB.
Proof. apply all_ub. vm_compute. reflexivity. Qed.
Print Assumptions C61_no_crash_refuted.

(** C62, reset: memory, clock, ids, symbols, operations and values are as after the program start,
    the parameters as before *)
Theorem C62_reset_partial : forall v z l z' go o rng z0, trim l = str "*reset" -> line v z l = Ok (z', go, o) -> start v rng = Ok z0 ->
  go = true /\ s_mem (z_core z') = s_mem (z_core z0) /\ s_time (z_core z') = s_time (z_core z0) /\ g_base (s_ids (z_core z')) = g_base (s_ids (z_core z0)) /\
  s_pid (z_core z') = s_pid (z_core z0) /\ s_pid2 (z_core z') = s_pid2 (z_core z0) /\ s_pid3 (z_core z') = s_pid3 (z_core z0) /\ s_thr (z_core z') = s_thr (z_core z0) /\
  z_st z' = z_st z0 /\ z_k z' = z_k z0 /\ (forall a, z_av z' a = z_av z0 a) /\ same_parameters z z'.
Proof.
  intros v z l z' go o rng z0 T. unfold line, Shell_ProcessInput. rewrite T. change (parse (str "*reset")) with KReset. cbn [run rbind].
  destruct (Shell_NARInit v z) as [z1| |] eqn:E; cbn [rbind]; try discriminate. intros H; apply okI in H; injection H as <- <- <-.
  unfold start. destruct (Memory_INIT _ _ _ _ _ _) as [m1| |] eqn:E1; cbn [rbind]; try discriminate. destruct (Narsese_INIT _) as [st1| |] eqn:E2; cbn [rbind]; try discriminate.
  intros H. apply init_spec in E as (m & st & q & A & B & C & ->). apply init_spec in H as (m' & st' & q' & A' & B' & C' & ->).
  assert (m' = m) by congruence. assert (st' = st) by congruence. subst m' st'. assert (q' = q) by congruence. subst q'. cbn. repeat split; auto.
Qed.
Print Assumptions C62_reset_partial.
Definition first_id (z : nar) : Z := nth 0 (e_stamp (fst (Event_InputEvent (s_ids (z_core z)) zero_term EVENT_TYPE_BELIEF truth0 f0 1))) 0.
Lemma fresh_ex (a : res (nar * list output)) (b : res nar) :
  match a, b with Ok (z, []), Ok z0 => (first_id z =? 5) && (first_id z0 =? 1) | _, _ => false end = true ->
  exists z z0, a = Ok (z, []) /\ b = Ok z0 /\ first_id z = 5 /\ first_id z0 = 1.
Proof.
  destruct a as [[z [|x o]]| |]; try discriminate. destruct b as [z0| |]; try discriminate.
  intros G. apply andb_prop in G as [G1 G2]. apply Z.eqb_eq in G1, G2. exists z, z0. auto.
Qed.
(** what a reset forgets to reset: an imported stamp (also the random numbers and the statistics that
    steer the attention threshold) *)
Theorem C62_fresh_refuted : exists z z0, wrun ["*stampimport=[5]"; "*reset"]%string = Ok (z, []) /\ start wenv 1 = Ok z0 /\
  first_id z = 5 /\ first_id z0 = 1.
Proof. apply fresh_ex. vm_compute. reflexivity. Qed.
Print Assumptions C62_fresh_refuted.

(** C46 and C52 for lines entered at the shell: a line executes only registered operations, and (unless
    it is *currenttime=, *concurrent or *reset) never sets the clock back *)
Definition went (z z1 : nar) : Prop :=
  (exists new, s_trace (z_core z1) = new ++ s_trace (z_core z) /\ Forall (fun x => In (x_op x) (m_ops (s_mem (z_core z)))) new) /\ s_time (z_core z) <= s_time (z_core z1).
Lemma run_went v z k z1 r o1 : reached (z_core z) -> run v z k = Ok (z1, r, o1) ->
  (exists new, s_trace (z_core z1) = new ++ s_trace (z_core z) /\ Forall (fun x => In (x_op x) (m_ops (s_mem (z_core z)))) new) /\
  (~ about k PTime -> s_time (z_core z) <= s_time (z_core z1)).
Proof.
  intros R E. enough (X : went z z1 \/ about k PTime /\ s_trace (z_core z1) = s_trace (z_core z)).
  { destruct X as [[X1 X2]|[X1 X2]]; [split; auto|]. split; [exists []; auto|intros X3; destruct (X3 X1)]. }
  assert (SAME : s_trace (z_core z1) = s_trace (z_core z) -> s_time (z_core z1) = s_time (z_core z) -> went z z1 \/ about k PTime /\ s_trace (z_core z1) = s_trace (z_core z)) by (intros Q Q2; left; split; [exists []; auto|rewrite Q2; apply Z.le_refl]).
  assert (CALL : forall p c s', perform p (z_core z) c = Ok s' -> s_trace (z_core z1) = s_trace s' -> s_time (z_core z1) = s_time s' -> went z z1 \/ about k PTime /\ s_trace (z_core z1) = s_trace (z_core z)).
  { intros p c s' Q Q1 Q2. left. destruct (call_run p (z_core z) c s' (reached_ok _ R) Q) as [_ _ (new & A & _ & B & C) _]. pose proof (ticks1_nonneg c). split; [exists new; rewrite Q1; auto|lia]. }
  assert (SEN : forall a q th o', AddInputNarsese2 v z a q th = Ok (z1, o') -> went z z1 \/ about k PTime /\ s_trace (z_core z1) = s_trace (z_core z)).
  { intros a q th o' Q. apply sentence_ok in Q as (_ & _ & _ & st & s & _ & _ & [(_ & m & ans & _ & ZC & _)|(_ & _ & _ & _ & P)]); [apply SAME; rewrite ZC; reflexivity|eapply CALL; [exact P|reflexivity|reflexivity]]. }
  assert (SET : forall p, about k p -> s_trace (z_core z1) = s_trace (z_core z) /\ (p <> PTime -> s_time (z_core z1) = s_time (z_core z))).
  { intros p A; destruct (setting_ok v z _ p z1 r o1 A E) as (_ & _ & O & _). split; [apply O|]. intros Q. apply O. congruence. }
  assert (NMS : about_names k -> went z z1 \/ about k PTime /\ s_trace (z_core z1) = s_trace (z_core z)) by (intros A; apply SAME; destruct (names_ok v z _ z1 r o1 A E) as (_ & _ & -> & _); auto).
  assert (OPS : about_operations k -> went z z1 \/ about k PTime /\ s_trace (z_core z1) = s_trace (z_core z)) by (intros A; apply SAME; destruct (operations_ok v z _ z1 r o1 A E) as (_ & _ & _ & _ & _ & ops & ->); auto).
  destruct k; try (apply SAME; eapply SET; first [constructor|discriminate]; fail); try (right; split; [constructor|eapply SET; constructor]; fail); try (apply NMS; constructor; fail); try (apply OPS; constructor; fail);
    cbn [run] in E; unfold quiet, loud in E; try (apply okI in E; injection E as <- <- <-; apply SAME; reflexivity).
  - unfold reason in E. destruct (perform _ _ _) as [s| |] eqn:P; cbn [rbind] in E; try discriminate. apply okI in E; injection E as <- <- <-. eapply CALL; [exact P|reflexivity|reflexivity].
  - destruct (_ =? 0); try discriminate. apply okI in E; injection E as <- <- <-. apply SAME; auto.
  - unfold query in E. destruct (v_lf v a) as [[x b]|]; cbn [rbind] in E; try discriminate. destruct (rassert _); cbn [rbind] in E; try discriminate.
    destruct (AddInputNarsese2 _ _ _ _ _) as [[z2 o2]| |] eqn:Q; cbn [rbind] in E; try discriminate. apply okI in E; injection E as <- <- <-. eapply SEN; exact Q.
  - unfold steps in E. destruct (scan_integer _ _ _) as [[[n b]|]| |]; cbn [rbind] in E; try discriminate. unfold reason in E. destruct (perform _ _ _) as [s| |] eqn:P; cbn [rbind] in E; try discriminate.
    apply okI in E; injection E as <- <- <-. eapply CALL; [exact P|reflexivity|reflexivity].
  - destruct (AddInputNarsese2 _ _ _ _ _) as [[z2 o2]| |] eqn:Q; cbn [rbind] in E; try discriminate. apply okI in E; injection E as <- <- <-. eapply SEN; exact Q.
Qed.
Theorem C46_shell : forall v z l z' go o, running v z -> line v z l = Ok (z', go, o) ->
  exists new, s_trace (z_core z') = new ++ s_trace (z_core z) /\ Forall (fun x => In (x_op x) (m_ops (s_mem (z_core z)))) new.
Proof.
  intros v z l z' go o R. apply running_reached in R. unfold line, Shell_ProcessInput. destruct (run v z (parse (trim l))) as [[[z1 r] o1]| |] eqn:E; cbn [rbind]; try discriminate.
  apply run_went in E as [X _]; auto. destruct r.
  - intros H; apply okI in H; injection H as <- <- <-; auto.
  - destruct (Shell_NARInit v z1) as [z2| |] eqn:E2; cbn [rbind]; try discriminate. intros H; apply okI in H; injection H as <- <- <-. apply init_spec in E2 as (m & st & q & _ & _ & _ & ->). exact X.
  - intros H; apply okI in H; injection H as <- <- <-; auto.
Qed.
Print Assumptions C46_shell.
Theorem C52_shell : forall v z l z' go o, running v z -> line v z l = Ok (z', go, o) ->
  trim l <> str "*reset" -> (forall k, reads (trim l) k -> ~ about k PTime) -> s_time (z_core z) <= s_time (z_core z').
Proof.
  intros v z l z' go o R. apply running_reached in R. unfold line. destruct (Shell_ProcessInput v z l) as [[[z1 r] o1]| |] eqn:E; cbn [rbind]; try discriminate.
  intros H NR NT. destruct (C58_quit_and_reset v z l z1 r o1 E) as [_ X]. unfold Shell_ProcessInput in E. apply run_went in E as [_ Y]; auto. specialize (Y (NT _ (parse_reads _))). destruct r.
  - apply okI in H; injection H as <- <- <-; auto.
  - destruct NR. apply X; auto.
  - apply okI in H; injection H as <- <- <-; auto.
Qed.
Print Assumptions C52_shell.

(** Witnesses: a session with settings, an operation renamed, a belief, a question and three steps *)
Lemma session_ex (e : res (nar * list output)) (R : nar -> Prop) : (forall z o, e = Ok (z, o) -> R z) ->
  match e with Ok (z, [OComment c; OAnswer (Some a); OSteps n]) => Some (c, n, feqb (z_thr z) half, s_time (z_core z)) | _ => None end = Some (str " hello", 3, true, 5) ->
  exists z a, e = Ok (z, [OComment (str " hello"); OAnswer (Some a); OSteps 3]) /\ R z /\ feqb (z_thr z) half = true /\ s_time (z_core z) = 5.
Proof.
  intros H G. destruct e as [[z o]| |]; try discriminate. destruct o as [|[c|x|n|k] [|[c'|[a|]|n'|k'] [|[c''|x''|n''|k''] [|]]]]; try discriminate.
  injection G as G1 G2 G3 G4. exists z, a. subst. split; auto. split; [eapply H; eauto|]. split; auto.
Qed.
Example C58_session : exists z a, wrun ["// hello "; "*decisionthreshold=0.5"; "*setopname 2 ^turn"; "a. :|:"; "a? :|:"; "3"]%string = Ok (z, [OComment (str " hello"); OAnswer (Some a); OSteps 3]) /\
  running wenv z /\ feqb (z_thr z) half = true /\ s_time (z_core z) = 5.
Proof.
  apply (session_ex (wrun _) (running wenv)).
  - exact (wrun_running _).
  - vm_compute. reflexivity.
Qed.
