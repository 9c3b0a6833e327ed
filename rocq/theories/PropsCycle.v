(** Histories of cycles and inputs: the clock (C52) and executions (C46). *)
From Coq Require Import ZArith List Bool Lia Sorted.
From Verif Require Import Base F64 TruthM StampM TermM NamesM EventM VariableM InferenceM MemoryM QuestionM DecisionM CycleM CycleS CycleP5.
From Verif Require Import PropsMemory PropsQuestion.
Import ListNotations.
Local Open Scope Z_scope.

(** C52, the clock over any history of calls, each under any configuration: it advances by at least
    one tick per documented tick, and by at most one more per executed operation (the cycle that
    processes the operation's feedback).  Executions are at most one per cycle. *)
Theorem C52_clock_partial : forall s l s', reached s -> history s l = Ok s' ->
  exists new, s_trace s' = new ++ s_trace s /\ Z.of_nat (length new) <= ticks l /\
    s_time s + ticks l <= s_time s' <= s_time s + ticks l + Z.of_nat (length new).
Proof.
  intros s l s' R H. destruct (history_run l s s' (reached_ok s R) H) as (_ & _ & (new & A & B & _ & C) & _). exists new. auto.
Qed.
Print Assumptions C52_clock_partial.
(** C52, as documented when no operation succeeds ... *)
Theorem C52_exact_without_success : forall s l s', reached s -> history s l = Ok s' ->
  Forall (fun pc => forall l x, fb_failed (p_act (fst pc) l x) = true) l ->
  s_time s' = s_time s + ticks l.
Proof. intros s l s' R H F. apply (history_run l s s' (reached_ok s R) H), F. Qed.
Print Assumptions C52_exact_without_success.
(** ... and when no goal is given *)
Theorem C52_exact_without_goals : forall s l s', reached s -> history s l = Ok s' ->
  no_pending_goals s -> Forall (fun pc => is_goal (snd pc) = false) l ->
  s_time s' = s_time s + ticks l.
Proof.
  intros s l s' R H N F. pose proof (reached_ok s R) as S. destruct (history_idle l s s' S F N H) as [_ Q]. destruct (history_run l s s' S H) as (_ & _ & (new & A & B & _ & C) & _).
  rewrite Q in A. assert (new = []). { apply (f_equal (@length exec)) in A. rewrite app_length in A. destruct new; auto. cbn in A. lia. } subst. cbn in C. lia.
Qed.
Print Assumptions C52_exact_without_goals.
(** C52, occurrence times of successive inputs are strictly increasing, whatever happens between *)
Theorem C52_inputs_in_order : forall s l ts, reached s -> input_times s l = Ok ts -> StronglySorted Z.lt ts.
Proof. intros s l ts R H. apply (input_times_ok l s ts (reached_ok s R) H). Qed.
Print Assumptions C52_inputs_in_order.

(** C46, at system level: only registered operations are executed ... *)
Theorem C46_only_registered : forall s l s', reached s -> history s l = Ok s' ->
  exists new, s_trace s' = new ++ s_trace s /\ Forall (fun x => In (x_op x) (m_ops (s_mem s))) new.
Proof. intros s l s' R H. destruct (history_run l s s' (reached_ok s R) H) as (_ & _ & (new & A & _ & B & _) & _). exists new. auto. Qed.
Print Assumptions C46_only_registered.
(** ... only for goals: a history without goals executes nothing ... *)
Theorem C46_only_for_goals : forall s l s', reached s -> history s l = Ok s' ->
  no_pending_goals s -> Forall (fun pc => is_goal (snd pc) = false) l ->
  s_trace s' = s_trace s /\ no_pending_goals s'.
Proof. intros s l s' R H N F. destruct (history_idle l s s' (reached_ok s R) F N H). auto. Qed.
Print Assumptions C46_only_for_goals.
(** ... at most one per cycle, after which no goal is left *)
Theorem C46_one_execution_per_cycle : forall s p s', reached s -> cycle p s = Ok s' ->
  s_trace s' = s_trace s \/ exists x, s_trace s' = x :: s_trace s /\ In (x_op x) (m_ops (s_mem s)) /\ no_pending_goals s'.
Proof. intros s p s' R H. destruct (cyc_ok p s s' (reached_ok s R) H) as (_ & _ & [A B|x A B C D E]); eauto. Qed.
Print Assumptions C46_one_execution_per_cycle.

(** Witness: a system with ten operations that babbles; one goal input. *)
Definition ok_fb (_ : list exec) (_ : exec) : feedback := mkFb false (repeat zero_term 28) SClosed.
Definition bad_fb (_ : list exec) (_ : exec) : feedback := mkFb true (repeat zero_term 28) SClosed.
Definition cp (a : list exec -> exec -> feedback) : params :=
  mkP qn (fun _ => None) f1 qpow ex_pen 1 (@aconst f64A 501 1000) (@aconst f64A 501 1000) (@aconst f64A 501 1000) (@aconst f64A 1 100) f1 10 a 60 2.
Definition c_start : res cstate := do m <- Memory_INIT 4 2 200 1 1 1 ; Ok (configured (cstate0 m 1) (m_ops (with_ops m)) false 1 (mkIds 1 stamp_zero)).
Definition goal_a : call := CInput (atomic_term 64) EVENT_TYPE_GOAL NAR_DEFAULT_TRUTH false f0.
Definition belief_a : call := CInput (atomic_term 64) EVENT_TYPE_BELIEF NAR_DEFAULT_TRUTH false f0.
Lemma start_ok s : c_start = Ok s -> reached s.
Proof.
  unfold c_start. destruct (Memory_INIT 4 2 200 1 1 1) as [m| |] eqn:E; cbn [rbind]; intros H; try discriminate H. injection H as <-.
  apply reached_config. eapply reached_start, E.
Qed.
(** C52, exactness is false: the operation succeeds, and the one input takes two ticks. *)
Theorem C52_exact_refuted : exists s s', reached s /\ history s [(cp ok_fb, goal_a)] = Ok s' /\ s_time s' = s_time s + 2 /\ ticks [(cp ok_fb, goal_a)] = 1.
Proof.
  destruct (res_ex' (do s <- c_start ; do s' <- history s [(cp ok_fb, goal_a)] ; Ok (s, s')) (fun '(s, s') => s_time s' =? s_time s + 2)) as ([s s'] & E & H); [vm_compute; reflexivity|].
  destruct c_start as [s0| |] eqn:E0; cbn [rbind] in E; [|discriminate E|discriminate E]. destruct (history s0 _) as [s1| |] eqn:E1; cbn [rbind] in E; [|discriminate E|discriminate E].
  injection E as <- <-. exists s0, s1. split; [apply start_ok, E0|]. split; [exact E1|]. split; [apply Z.eqb_eq, H|reflexivity].
Qed.
Print Assumptions C52_exact_refuted.
(** the hypotheses of the theorems above are met: an execution that fails takes one tick, and a
    history without goals runs *)
Example C52_failure : exists s s', reached s /\ no_pending_goals s /\ history s [(cp bad_fb, goal_a)] = Ok s' /\ s_time s' = s_time s + 1 /\ length (s_trace s') = 1%nat.
Proof.
  destruct (res_ex' (do s <- c_start ; do s' <- history s [(cp bad_fb, goal_a)] ; Ok (s, s'))
    (fun '(s, s') => (s_time s' =? s_time s + 1) && (length (s_trace s') =? 1)%nat && forallb (fun q => PQueueM.amount (eq_q q) =? 0)%nat (m_goals (s_mem s)))) as ([s s'] & E & H); [vm_compute; reflexivity|].
  destruct c_start as [s0| |] eqn:E0; cbn [rbind] in E; [|discriminate E|discriminate E]. destruct (history s0 _) as [s1| |] eqn:E1; cbn [rbind] in E; [|discriminate E|discriminate E].
  injection E as <- <-. apply andb_prop in H as [H H3]. apply andb_prop in H as [H1 H2]. exists s0, s1. split; [apply start_ok, E0|].
  split; [apply Forall_forall; intros q I; rewrite forallb_forall in H3; apply Nat.eqb_eq, (H3 q I)|]. split; [exact E1|]. split; [apply Z.eqb_eq, H1|apply Nat.eqb_eq, H2].
Qed.
Example C52_beliefs : exists s s', reached s /\ history s [(cp ok_fb, belief_a)] = Ok s' /\ s_time s' = s_time s + 1.
Proof.
  destruct (res_ex' (do s <- c_start ; do s' <- history s [(cp ok_fb, belief_a)] ; Ok (s, s')) (fun '(s, s') => s_time s' =? s_time s + 1)) as ([s s'] & E & H); [vm_compute; reflexivity|].
  destruct c_start as [s0| |] eqn:E0; cbn [rbind] in E; [|discriminate E|discriminate E]. destruct (history s0 _) as [s1| |] eqn:E1; cbn [rbind] in E; [|discriminate E|discriminate E].
  injection E as <- <-. exists s0, s1. split; [apply start_ok, E0|]. split; [exact E1|]. apply Z.eqb_eq, H.
Qed.
