(** The network server: critical sections are serialised (C53); start and stop (C63). *)
From Coq Require Import ZArith List Bool String Lia.
From Verif Require Import Base RulesM MemoryM ParserM DecisionM CycleM CycleS CycleP5 ShellM ShellS ShellP3 UdpM UdpS UdpP.
From Verif Require Import PropsShell.
Import ListNotations.
Local Open Scope Z_scope.

(** C53, in every execution at most one thread is in a critical section *)
Theorem C53_mutual_exclusion : forall M body m0 tr p, steps M body (launched M m0) tr p ->
  forall c1 c2, ~ (u_rea _ p = RIn _ c1 /\ u_rcv _ p = VIn _ c2).
Proof.
  intros M body m0 tr p S c1 c2 [A B]. pose proof (i_nar1 _ _ (inv_steps _ _ _ _ _ (inv_launched _ m0) S)) as X. rewrite A, B in X. discriminate.
Qed.
Print Assumptions C53_mutual_exclusion.
Lemma serial_fold v ss : forall w, serial v w ss = fold_left (fun w s => section v s w) ss w.
Proof. induction ss as [|s ss IH]; intros w; cbn; auto. Qed.
(** whatever the accesses to memory the sections consist of, and however they are interleaved with the
    steps of the other threads: when nobody is in a section, the state of the program is that of the
    entered sections run completely, one after the other, in the order of entering; while a thread is in
    a section, it is after the rest of that section *)
Theorem C53_serialised : forall M v (abs : M -> res (nar * list output)) body, implements v abs body ->
  forall m0 tr p, steps M body (launched M m0) tr p ->
  (u_nar _ p = None -> abs (u_mem _ p) = serial v (abs m0) (entered tr)) /\
  (forall c, u_rea _ p = RIn _ c \/ u_rcv _ p = VIn _ c -> abs (exec c (u_mem _ p)) = serial v (abs m0) (entered tr)).
Proof.
  intros M v abs body IMP m0 tr p S. pose proof (inv_steps _ _ _ _ _ (inv_launched _ m0) S) as I0.
  pose proof (finish_steps M body m0 tr p _ abs (section v) IMP S) as F. rewrite <- serial_fold in F. split.
  - intros H. rewrite <- F, (free_finish _ _ I0 H). reflexivity.
  - intros c H. rewrite <- F. unfold finish, rest. pose proof (i_nar1 _ _ I0) as X. destruct H as [H|H].
    + rewrite H. reflexivity.
    + rewrite H in *. destruct (u_rea M p); try reflexivity. discriminate.
Qed.
Print Assumptions C53_serialised.
(** the inputs are the datagrams in the order of arrival, none lost but the last one received when the
    server is being stopped; nothing is read from a socket that failed *)
Theorem C53_inputs : forall M body m0 tr p, steps M body (launched M m0) tr p ->
  Forall (fun d => exists b, d = Some b) (inputs (entered tr)) /\
  exists l, received tr = inputs (entered tr) ++ l /\ (List.length l <= 1)%nat /\
    (l <> [] -> exists d, l = [d] /\ (u_rcv _ p = VTest _ d \/ u_rcv _ p = VLock _ d \/ u_rcv _ p = VDone _ /\ u_stopped _ p = true)).
Proof.
  intros M body m0 tr p S. pose proof (inv_steps _ _ _ _ _ (inv_launched _ m0) S) as I0. destruct (steps_datagrams _ _ _ _ _ S) as (A & l & B & C & D). split.
  - clear - A. induction (entered tr) as [|[|[d|]] ss IH]; cbn in *; auto.
    + constructor; eauto.
    + tauto.
  - exists l. split; auto. split; auto. intros N. destruct l as [|d [|]]; cbn in D; try lia; try congruence. exists d. split; auto.
    unfold waiting in C. destruct (u_rcv M p) eqn:E; try (specialize (C ltac:(discriminate)); first [discriminate C|injection C as ->; auto]; fail).
    right; right; split; auto. apply (i_vdone _ _ I0). rewrite E. reflexivity.
Qed.
Print Assumptions C53_inputs.
(** hence C46 and C52 hold for the server: its states between sections are those of histories of the
    reasoner *)
Theorem C53_histories : forall M v (abs : M -> res (nar * list output)) body, implements v abs body ->
  forall rng z0 m0 tr p z o, start v rng = Ok z0 -> abs m0 = Ok (z0, []) ->
  steps M body (launched M m0) tr p -> u_nar _ p = None -> abs (u_mem _ p) = Ok (z, o) -> reached (z_core z).
Proof.
  intros M v abs body IMP rng z0 m0 tr p z o ST A0 S N A. rewrite (proj1 (C53_serialised M v abs body IMP m0 tr p S) N), A0 in A.
  assert (R : reached (z_core z0)) by (eapply start_reached; eauto). clear - R A. revert A. generalize ([] : list output) at 1. revert z0 R.
  induction (entered tr) as [|s ss IH]; intros z0 R o0; cbn [serial]; [intros H; injection H as <- <-; auto|].
  assert (STRICT : forall e, (forall x, e <> Ok x) -> serial v e ss <> Ok (z, o)).
  { clear IH. induction ss as [|s' ss IH]; intros e Q; cbn [serial]; [apply Q|]. apply IH. intros x. unfold section. destruct e as [[a b]| |]; cbn [rbind]; try discriminate. destruct (Q (a, b)); auto. }
  unfold section; cbn [rbind]. destruct s as [|[d|]]; cbn [rbind].
  - unfold reason. destruct (perform _ _ _) as [s'| |] eqn:P; cbn [rbind]; try (intros H; exfalso; eapply STRICT; [|exact H]; discriminate).
    apply IH. cbn. eapply reached_call; eauto.
  - destruct (until_nul _) as [l|]; [|intros H; exfalso; eapply STRICT; [|exact H]; discriminate].
    destruct (line v z0 l) as [[[z1 go] o1]| |] eqn:L; cbn [rbind fst]; try (intros H; exfalso; eapply STRICT; [|exact H]; discriminate).
    apply IH. eapply line_reached; eauto.
  - intros H; exfalso; eapply STRICT; [|exact H]; discriminate.
Qed.
Print Assumptions C53_histories.

(** C63, stopping: once UDPNAR_Stop has been called, every execution ends, it can only end with the
    return from UDPNAR_Stop, and then both threads are done and no section is interrupted *)
Theorem C63_stop : forall M body m0 tr p, steps M body (launched M m0) tr p -> In LStop tr ->
  Acc (fun p2 p1 => exists l, step M body p1 l p2) p /\
  ((forall l p', ~ step M body p l p') <-> u_main _ p = MEnd) /\
  (u_main _ p = MEnd -> u_rea _ p = RDone _ /\ u_rcv _ p = VDone _ /\ u_nar _ p = None).
Proof.
  intros M body m0 tr p S H. pose proof (inv_steps _ _ _ _ _ (inv_launched _ m0) S) as I0.
  assert (T : u_stopped _ p = true).
  { revert H. remember (launched M m0) as p0 eqn:E. clear I0. induction S as [p|p tr p1 l p2 S IH Q]; intros H; [destruct H|]. subst. apply in_app_or in H as [H|[->|[]]].
    - eapply key_less; eauto. eapply inv_steps; eauto. apply inv_launched.
    - inversion Q; subst. reflexivity. }
  split; [apply stopped_ends; auto|]. split.
  - split; [|intros E l p' Q; eapply ended_steps; eauto]. intros Q. destruct (u_main M p) eqn:E; auto; exfalso; destruct (stopped_steps _ body p I0 T) as (l & p' & X); try (eapply Q; eauto; fail); congruence.
  - intros E. pose proof (i_join1 _ _ I0 (or_intror E)) as A. pose proof (i_join2 _ _ I0 E) as B. split; auto. split; auto. rewrite (i_nar _ _ I0), A, B. reflexivity.
Qed.
Print Assumptions C63_stop.

(** Witness: code that first notes in scratch memory that it is running *)
Definition noted (v : env) (s : sect) : code (res (nar * list output) * nat) :=
  Act (fun m => (fst m, S (snd m))) (fun _ => Act (fun m => (section v s (fst m), snd m)) (fun m => Act (fun m => (fst m, Nat.pred (snd m))) (fun _ => Ret))).
Example noted_implements v : implements v fst (noted v).
Proof. intros s m. reflexivity. Qed.
Ltac act H := eapply st_snoc in H; [|constructor].
Ltac recv H d := eapply st_snoc in H; [|apply (v_recv _ _ d)].
Definition goods : list Z := str "a. :|:" ++ [0].
(** an execution with a cycle, an input that waits for the end of that cycle, another cycle, and the end *)
Example C53_execution v m0 : exists tr p, steps _ (noted v) (launched _ m0) tr p /\ entered tr = [SCycle; SInput (Some goods); SCycle] /\ In LStop tr /\ u_main _ p = MEnd.
Proof.
  pose proof (st_nil _ (noted v) (launched _ m0)) as H. unfold launched in H.
  do 3 act H.
  eapply st_snoc in H; [|apply r_lock0]. eapply st_snoc in H; [|apply r_signal]. eapply st_snoc in H; [|apply r_unlock0].
  eapply st_snoc in H; [|apply m_woken1]. eapply st_snoc in H; [|apply m_unlock1]. eapply st_snoc in H; [|apply m_lock2]. eapply st_snoc in H; [|apply m_create2]. eapply st_snoc in H; [|apply m_wait2].
  eapply st_snoc in H; [|apply v_lock0]. eapply st_snoc in H; [|apply v_signal]. eapply st_snoc in H; [|apply v_unlock0].
  eapply st_snoc in H; [|apply m_woken2]. eapply st_snoc in H; [|apply m_unlock2]. eapply st_snoc in H; [|apply m_return].
  eapply st_snoc in H; [|apply v_arg]. recv H goods.
  eapply st_snoc in H; [|apply r_arg]. eapply st_snoc in H; [|apply r_again]. eapply st_snoc in H; [|apply r_lock]. eapply st_snoc in H; [|apply r_act].
  eapply st_snoc in H; [|apply v_again]. (* waits *)
  do 2 (eapply st_snoc in H; [|apply r_act]). eapply st_snoc in H; [|apply r_unlock].
  eapply st_snoc in H; [|apply v_lock]. do 2 (eapply st_snoc in H; [|apply v_act]). eapply st_snoc in H; [|apply r_sleep]. eapply st_snoc in H; [|apply r_again].
  eapply st_snoc in H; [|apply v_act]. eapply st_snoc in H; [|apply v_unlock].
  eapply st_snoc in H; [|apply r_lock]. eapply st_snoc in H; [|apply m_stop]. eapply st_snoc in H; [|apply m_shut].
  do 3 (eapply st_snoc in H; [|apply r_act]). eapply st_snoc in H; [|apply r_unlock]. eapply st_snoc in H; [|apply v_fail]. eapply st_snoc in H; [|apply v_stopped].
  eapply st_snoc in H; [|apply r_sleep]. eapply st_snoc in H; [|apply r_stopped]. eapply st_snoc in H; [|apply m_join1]. eapply st_snoc in H; [|apply m_join2].
  cbn [app] in H. eexists _, _. split; [exact H|]. split; [reflexivity|]. split; [|reflexivity]. cbn. tauto.
Qed.

(** C63, refuted: UDPNAR_Start hands the reasoner thread the address of its own parameter [timestep];
    it may return before the thread has read it *)
Theorem C63_timestep_refuted : forall M body m0, exists tr p tr1 tr2, steps M body (launched M m0) tr p /\ tr = tr1 ++ [LReturned] ++ tr2 ++ [LTimestep] /\ ~ In LTimestep (tr1 ++ tr2).
Proof.
  intros M body m0. pose proof (st_nil _ body (launched _ m0)) as H. unfold launched in H.
  do 3 act H.
  eapply st_snoc in H; [|apply r_lock0]. eapply st_snoc in H; [|apply r_signal]. eapply st_snoc in H; [|apply r_unlock0].
  eapply st_snoc in H; [|apply m_woken1]. eapply st_snoc in H; [|apply m_unlock1]. eapply st_snoc in H; [|apply m_lock2]. eapply st_snoc in H; [|apply m_create2]. eapply st_snoc in H; [|apply m_wait2].
  eapply st_snoc in H; [|apply v_lock0]. eapply st_snoc in H; [|apply v_signal]. eapply st_snoc in H; [|apply v_unlock0].
  eapply st_snoc in H; [|apply m_woken2]. eapply st_snoc in H; [|apply m_unlock2]. eapply st_snoc in H; [|apply m_return].
  eapply st_snoc in H; [|apply r_arg]. cbn [app] in H. eexists _, _, (repeat LTau 16), []. split; [exact H|]. split; [reflexivity|].
  cbn. repeat (intros [Q|Q]; [discriminate|revert Q]). tauto.
Qed.
Print Assumptions C63_timestep_refuted.
(** C61, refuted for the server: a datagram without a NUL byte makes it read undefined bytes *)
Theorem C61_datagram_refuted : forall v z o d, ~ In 0 d -> section v (SInput (Some d)) (Ok (z, o)) = UB.
Proof.
  intros v z o d H. unfold section; cbn [rbind]. assert (E : forall n, until_nul (firstn n d) = None).
  { induction d as [|c d IH]; intros [|n]; cbn; auto. destruct (Z.eqb_spec c 0) as [->|]; [destruct H; left; auto|]. rewrite IH; auto. intros Q; apply H; right; auto. }
  rewrite E. reflexivity.
Qed.
Print Assumptions C61_datagram_refuted.
