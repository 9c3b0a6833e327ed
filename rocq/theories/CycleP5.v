(** Reached states, and histories of calls. *)
From Coq Require Import ZArith List Bool Lia Sorted.
From Verif Require Import Base F64 TruthM StampM TermM NamesM EventM MemoryM QuestionM DecisionM CycleM CycleS EverywhereS EverywhereP CycleP1 CycleP2 CycleP3 CycleP4.
From Verif Require NalP.
Import ListNotations.
Local Open Scope nat_scope.
#[local] Opaque one_cycle.
Definition Tt (_ : term) : Prop := True.
Definition Jt (_ : memory) : Prop := True.
Lemma TCt : tclosed Tt. Proof. constructor; unfold Tt; auto. Qed.
Lemma JCt nm pw pen lay fu : jclosed nm pw pen lay fu Tt Jt.
Proof. constructor; unfold Jt, Tt; auto. intros. apply Forall_forall. auto. Qed.
Notation okt := (sok Tt Jt).
Lemma ops_t m : ops_ok Tt m. Proof. apply Forall_forall. intros o _. split; [exact Logic.I|apply Forall_forall; unfold Tt; auto]. Qed.
Lemma act_t (act : list exec -> exec -> feedback) : forall l x, Forall Tt (fb_map (act l x)) /\ forall t, fb_stdin (act l x) = SLine t -> Tt t.
Proof. intros; split; unfold Tt; auto. apply Forall_forall; auto. Qed.
Lemma init_ew cmax b a bm gm lay m : Memory_INIT cmax b a bm gm lay = Ok m -> everywhere (PB Tt) (PG Tt) (PI Tt) m.
Proof.
  unfold Memory_INIT. destruct (HashTableM.HashTable_INIT _ _); cbn [rbind]; try discriminate. destruct (InvIndexM.InvertedAtomIndex_INIT _ _); cbn [rbind]; try discriminate.
  intros H; apply okinj in H; subst m. assert (B : PB Tt event0) by (split; [exact Logic.I|discriminate]). assert (GG : PG Tt event0) by (split; [exact Logic.I|right; reflexivity]).
  constructor; cbn [m_beliefs m_goals m_store fresh_events eq_store].
  - apply Forall_repeat; auto.
  - apply Forall_repeat. apply Forall_repeat; auto.
  - apply Forall_repeat. split; [exact B|]. split; [exact B|]. split; [exact B|]. split; [exact GG|]. split; apply Forall_forall; intros; [apply Forall_forall; intros|]; exact Logic.I.
Qed.
Lemma init_ok cmax b a bm gm lay m rng : Memory_INIT cmax b a bm gm lay = Ok m -> okt (cstate0 m rng).
Proof. intros H. constructor; cbn; try discriminate. constructor; [eapply init_ew; eauto|exact Logic.I|apply ops_t]. Qed.
Lemma cfg_ok s ops r t g : okt s -> okt (configured s ops r t g).
Proof. intros [[E JJ O] B GG]. constructor; cbn; auto. constructor; [destruct E; constructor; auto|exact Logic.I|apply ops_t]. Qed.
Section One.
Variable p : params.
Notation A := (act_t (p_act p)).
Notation J0 := (JCt (p_nm p) (p_pow p) (p_penalty p) (p_layers p) (p_fuel p)).
Lemma cyc_ok s s' : okt s -> cycle p s = Ok s' -> okt s' /\ m_ops (s_mem s') = m_ops (s_mem s) /\ cycled (p_act p) Tt s s'.
Proof. intros S H. pose proof (ok_cycle _ (p_av p) (p_simdist p) _ _ _ (p_thr p) (p_cond p) (p_athr p) (p_aconf p) (p_chance p) (p_bops p) (p_act p) _ Tt TCt Jt J0 A (p_depth p) s (sok_w _ _ _ _ S)) as X. unfold cycle in H. rewrite H in X. exact X. Qed.
Lemma cyc_idle s s' : okt s -> no_pending_goals s -> cycle p s = Ok s' -> idle Tt Jt s s'.
Proof. intros S N H. pose proof (idle_cycle _ (p_av p) (p_simdist p) _ _ _ (p_thr p) (p_cond p) (p_athr p) (p_aconf p) (p_chance p) (p_bops p) (p_act p) _ Tt TCt Jt J0 A (p_depth p) s (sok_w _ _ _ _ S) N) as X. unfold cycle in H. rewrite H in X. exact X. Qed.
(** what [k] ticks may do *)
Record run (act : list exec -> exec -> feedback) (k : Z) (s s' : cstate) : Prop := {
  ru_ok : okt s';
  ru_ops : m_ops (s_mem s') = m_ops (s_mem s);
  ru_new : exists new, s_trace s' = new ++ s_trace s /\ (Z.of_nat (length new) <= k)%Z /\ Forall (fun x => In (x_op x) (m_ops (s_mem s))) new /\
     (s_time s + k <= s_time s' <= s_time s + k + Z.of_nat (length new))%Z;
  ru_fail : (forall l x, fb_failed (act l x) = true) -> s_time s' = (s_time s + k)%Z }.
Lemma run_refl act s : okt s -> run act 0 s s.
Proof. intros S. constructor; auto; [|intros; lia]. exists []. cbn. repeat split; auto; lia. Qed.
Lemma run_trans act a b k1 s2 s3 k2 act2 : run act k1 a b -> run act2 k2 b s2 -> s3 = s2 -> (exists new, s_trace s2 = new ++ s_trace a /\ (Z.of_nat (length new) <= k1 + k2)%Z /\ Forall (fun x => In (x_op x) (m_ops (s_mem a))) new /\
     (s_time a + (k1 + k2) <= s_time s2 <= s_time a + (k1 + k2) + Z.of_nat (length new))%Z).
Proof.
  intros [A1 A2 (n1 & A3 & A4 & A5 & A6) A7] [B1 B2 (n2 & B3 & B4 & B5 & B6) B7] _. exists (n2 ++ n1). rewrite B3, A3, app_assoc, app_length, Nat2Z.inj_add. rewrite A2 in B5.
  repeat split; auto; try lia. apply Forall_app; auto.
Qed.
Lemma cycled_run s s' : okt s' -> m_ops (s_mem s') = m_ops (s_mem s) -> cycled (p_act p) Tt s s' -> run (p_act p) 1 s s'.
Proof.
  intros A1 A2 A3. constructor; auto.
  - destruct A3 as [D1 D2|x D1 D2 D3 D4 D5].
    + exists []. cbn. repeat split; auto; lia.
    + exists [x]. cbn. repeat split; auto; lia.
  - intros F. destruct A3 as [D1 D2|x D1 D2 D3 D4 D5]; auto. destruct D5 as [D5|[D5 D6]]; auto. rewrite F in D6. discriminate.
Qed.
Lemma cycles_run n : forall s s', okt s -> perform p s (CCycles n) = Ok s' -> run (p_act p) (Z.of_nat n) s s'.
Proof.
  induction n as [|n IH]; intros s s' S; unfold perform; cbn [do_call Cycles].
  - intros H; apply okinj in H; subst. apply run_refl; auto.
  - destruct (one_cycle _ _ _ _ _ _ _ _ _ _ _ _ _ _ _ _) as [s1| |] eqn:E; cbn [rbind]; try discriminate. intros H. destruct (cyc_ok s s1 S E) as (A1 & A2 & A3).
    pose proof (cycled_run _ _ A1 A2 A3) as R1. specialize (IH s1 s' A1 H). rewrite Nat2Z.inj_succ, <- Z.add_1_l. constructor.
    + apply IH.
    + rewrite (ru_ops _ _ _ _ IH); auto.
    + eapply run_trans; eauto.
    + intros F. rewrite (ru_fail _ _ _ _ IH F), (ru_fail _ _ _ _ R1 F). lia.
Qed.
Lemma input_ok s t ty tv et off s' : okt s -> perform p s (CInput t ty tv et off) = Ok s' ->
  run (p_act p) 1 s s' /\ (ty <> EVENT_TYPE_GOAL -> no_pending_goals s -> no_pending_goals s' /\ s_trace s' = s_trace s).
Proof.
  intros S H. pose proof (ok_addinput _ (p_av p) (p_simdist p) _ _ _ (p_thr p) (p_cond p) (p_athr p) (p_aconf p) (p_chance p) (p_bops p) (p_act p) _ Tt TCt Jt J0 A (p_depth p) s t ty tv et off (sok_w _ _ _ _ S) Logic.I) as X.
  unfold perform in H. cbn [do_call] in H. rewrite H in X. destruct X as (X1 & X2 & X3 & X4). split; auto. apply cycled_run; auto.
Qed.
Lemma call_run s c s' : okt s -> perform p s c = Ok s' -> run (p_act p) (ticks1 c) s s'.
Proof. intros S. destruct c as [n|t ty tv et off]; cbn [ticks1]; intros H; [apply cycles_run; auto|apply input_ok in H; tauto]. Qed.
Lemma cycles_idle n : forall s s', okt s -> no_pending_goals s -> perform p s (CCycles n) = Ok s' -> no_pending_goals s' /\ s_trace s' = s_trace s.
Proof.
  induction n as [|n IH]; intros s s' S N; unfold perform; cbn [do_call Cycles].
  - intros H; apply okinj in H; subst; auto.
  - destruct (one_cycle _ _ _ _ _ _ _ _ _ _ _ _ _ _ _ _) as [s1| |] eqn:E; cbn [rbind]; try discriminate. intros H. destruct (cyc_idle s s1 S N E) as [A1 A2 A3 A4 A5].
    destruct (IH s1 s' A1 A3 H) as [B1 B2]. split; auto. congruence.
Qed.
Lemma call_idle s c s' : okt s -> is_goal c = false -> no_pending_goals s -> perform p s c = Ok s' -> no_pending_goals s' /\ s_trace s' = s_trace s.
Proof.
  intros S GG N. destruct c as [n|t ty tv et off]; intros H; [eapply cycles_idle; eauto|]. apply input_ok in H as [_ H]; auto. apply H; auto. cbn in GG. intros ->. discriminate.
Qed.
End One.
#[local] Opaque question_loop.
Lemma question_mem nm av sd pw now q th pr m t tense m' out : Question nm av sd pw now q th pr m t tense = Ok (m', out) ->
  m' = m \/ exists c k, cread m c = Ok k /\ m' = set_store m (upd (m_store m) c (prime now pr tense k)).
Proof.
  unfold Question. destruct (question_loop _ _ _ _ _ _ _ _ _ _ _) as [s| |]; cbn [rbind]; try discriminate.
  destruct (q_concept s) as [c|]; cbn [rbind]; [|intros H; injection H as <- _; auto]. destruct (fltb f0 pr); cbn [rbind]; [|intros H; injection H as <- _; auto].
  unfold cmod. destruct (cread m c) as [k| |] eqn:E; cbn [rbind]; try discriminate. intros H; injection H as <- _. right. eauto.
Qed.
Lemma question_ok nm av sd pw now q th pr s t tense m' out : okt s -> Question nm av sd pw now q th pr (s_mem s) t tense = Ok (m', out) -> okt (set_mem s m').
Proof.
  intros [[E JJ O] B GG] H. constructor; cbn; auto. constructor; [|exact Logic.I|apply ops_t].
  destruct (question_mem _ _ _ _ _ _ _ _ _ _ _ _ _ H) as [->|(c & k & C & ->)]; auto.
  destruct E as [E1 E2 E3]. constructor; cbn; auto. apply Forall_upd; auto. unfold cread in C. destruct (nth_error _ c) eqn:N; try discriminate. apply okinj in C; subst.
  apply nth_error_In in N. rewrite Forall_forall in E3. apply E3 in N. exact N.
Qed.
Lemma reached_ok s : reached s -> okt s.
Proof.
  induction 1 as [cmax b a bm gm lay m rng H|s cmax b a bm gm lay m R IH H|s ops r t g R IH|s nm av sd pw now q th pr t tense m out R IH H|s p c s' R IH H].
  - eapply init_ok; eauto.
  - destruct IH as [I1 I2 I3]. constructor; cbn; auto. constructor; [eapply init_ew; eauto|exact Logic.I|apply ops_t].
  - apply cfg_ok; auto.
  - eapply question_ok; eauto.
  - apply (call_run p s c s' IH H).
Qed.
Lemma history_run l : forall s s', okt s -> history s l = Ok s' ->
  okt s' /\ m_ops (s_mem s') = m_ops (s_mem s) /\
  (exists new, s_trace s' = new ++ s_trace s /\ (Z.of_nat (length new) <= ticks l)%Z /\ Forall (fun x => In (x_op x) (m_ops (s_mem s))) new /\
     (s_time s + ticks l <= s_time s' <= s_time s + ticks l + Z.of_nat (length new))%Z) /\
  (Forall (fun pc => forall l x, fb_failed (p_act (fst pc) l x) = true) l -> s_time s' = (s_time s + ticks l)%Z).
Proof.
  induction l as [|[p c] l IH]; intros s s' S; cbn [history ticks fold_right].
  - intros H; apply okinj in H; subst. split; auto. split; auto. split; [exists []; cbn; repeat split; auto; lia|intros; lia].
  - destruct (perform p s c) as [s1| |] eqn:E; cbn [rbind]; try discriminate. intros H. pose proof (call_run p s c s1 S E) as R1. destruct (IH s1 s' (ru_ok _ _ _ _ R1) H) as (A1 & A2 & A3 & A4).
    fold (ticks l) in *. cbn [snd]. split; auto. split; [rewrite A2; apply R1|]. split.
    + destruct A3 as (n2 & B3 & B4 & B5 & B6). destruct R1 as [R1 R2 (n1 & R3 & R4 & R5 & R6) R7]. exists (n2 ++ n1). rewrite B3, R3, app_assoc, app_length, Nat2Z.inj_add. rewrite R2 in B5.
      repeat split; auto; try lia. apply Forall_app; auto.
    + intros F. inversion F; subst. rewrite A4 by auto. cbn [fst] in *. rewrite (ru_fail _ _ _ _ R1) by auto. lia.
Qed.
Lemma history_idle l : forall s s', okt s -> Forall (fun pc => is_goal (snd pc) = false) l -> no_pending_goals s -> history s l = Ok s' -> no_pending_goals s' /\ s_trace s' = s_trace s.
Proof.
  induction l as [|[p c] l IH]; intros s s' S F N; cbn [history]; [intros H; apply okinj in H; subst; auto|]. inversion F; subst.
  destruct (perform p s c) as [s1| |] eqn:E; cbn [rbind]; try discriminate. intros H. destruct (call_idle p s c s1 S) as [A1 A2]; auto.
  destruct (IH s1 s' (ru_ok _ _ _ _ (call_run p s c s1 S E))) as [B1 B2]; auto. split; auto. congruence.
Qed.
Lemma ticks1_nonneg c : (0 <= ticks1 c)%Z. Proof. destruct c; cbn; lia. Qed.
Lemma input_times_ok l : forall s ts, okt s -> input_times s l = Ok ts -> StronglySorted Z.lt ts /\ Forall (fun t => s_time s <= t)%Z ts.
Proof.
  induction l as [|[p c] l IH]; intros s ts S; cbn [input_times]; [intros H; apply okinj in H; subst; split; constructor|].
  destruct (perform p s c) as [s1| |] eqn:E; cbn [rbind]; try discriminate. destruct (input_times s1 l) as [r| |] eqn:R; cbn [rbind]; try discriminate.
  intros H; apply okinj in H; subst. pose proof (call_run p s c s1 S E) as R1. destruct (IH s1 r (ru_ok _ _ _ _ R1) R) as [A1 A2].
  destruct (ru_new _ _ _ _ R1) as (new & _ & _ & _ & T1). pose proof (ticks1_nonneg c) as T2.
  assert (A3 : Forall (fun t => (s_time s + ticks1 c <= t)%Z) r) by (eapply Forall_impl; [|exact A2]; cbn; intros; lia).
  assert (A4 : Forall (fun t => (s_time s <= t)%Z) r) by (eapply Forall_impl; [|exact A3]; cbn; intros; lia).
  destruct c as [n|t ty tv [|] off]; cbn [input_time app]; auto.
  assert (O : e_occ (fst (Event_InputEvent (s_ids s) t ty tv off (s_time s))) = s_time s) by (unfold Event_InputEvent; destruct (negb _); reflexivity).
  rewrite O. split; constructor; auto; try lia. eapply Forall_impl; [|exact A3]. cbn. intros; lia.
Qed.
