(** C71: metrics sent to a Graphite server. *)
From Coq Require Import ZArith String List Bool Lia.
From Verif Require Import Base RulesM MetricM MetricS MetricP.
Import ListNotations.
Local Open Scope Z_scope.

(** every metric that fits is handed to the network as one datagram with its name and value, after
    those before, through the socket; a metric that does not fit makes the process write behind the
    buffer, before its length is checked *)
Theorem C71_one_metric : forall sock g name v, c_string name -> is_int v ->
  (fits (name, v) /\ exists g' d, Metric_send sock g name v = Ok g' /\ carries d (name, v) /\
     g_sent g' = g_sent g ++ [(g_fd g', d)] /\
     (g_fd g <> 0 -> g_fd g' = g_fd g /\ g_sockets g' = g_sockets g) /\
     (g_fd g = 0 -> g_fd g' = sock (g_sockets g) /\ g_sockets g' = S (g_sockets g)))
  \/ (~ fits (name, v) /\ Metric_send sock g name v = UB).
Proof.
  intros sock g name v C I. pose proof (percent_d_spec v I) as N.
  set (t := name ++ [58] ++ percent_d v ++ [124; 99]). assert (S : statsd name v t) by (exists (percent_d v); auto).
  pose proof (send_spec sock g name v t C I S) as E. destruct (Nat.leb_spec (length t) 129) as [L|L].
  - left. split; [split; [auto|split; [auto|exists t; split; auto; lia]]|].
    eexists _, (t ++ 0 :: repeat 0 (129 - length t)). split; [exact E|]. cbv zeta. cbn [g_fd g_sockets g_sent]. split; [|split; [|split]].
    + clearbody t. split; [rewrite app_length; cbn [length]; rewrite repeat_length; lia|]. exists t. split; auto. exists (129 - length t)%nat. reflexivity.
    + unfold opened. destruct (g_fd g =? 0); reflexivity.
    + intros Z0. unfold opened. destruct (Z.eqb_spec (g_fd g) 0); [congruence|auto].
    + intros Z0. unfold opened. rewrite Z0. cbn. auto.
  - right. split; [|exact E]. intros (_ & _ & t' & S' & L'). cbn [fst snd] in S'. pose proof (statsd_fun _ _ _ _ S' S). subst t'. clearbody t. lia.
Qed.
Print Assumptions C71_one_metric.

(** name and value can be read off a datagram: different metrics have different datagrams *)
Theorem C71_unambiguous : forall d name v name' v', c_string name -> c_string name' ->
  carries d (name, v) -> carries d (name', v') -> name = name' /\ v = v'.
Proof.
  intros d n v n' v' C C' (_ & t & S & P) (_ & t' & S' & P'). cbn [fst snd] in *.
  assert (t = t') by (apply (padded_inj t t' d); auto; [exact (statsd_no_nul n v t C S)|exact (statsd_no_nul n' v' t' C' S')]). subst t'. eapply statsd_inj; eauto.
Qed.
Print Assumptions C71_unambiguous.

Lemma sends_open sock l : forall g, g_fd g <> 0 -> Forall fits l -> exists g' ds,
  Metric_sends sock g l = Ok g' /\ Forall2 carries ds l /\ g_fd g' = g_fd g /\ g_sockets g' = g_sockets g /\
  g_sent g' = g_sent g ++ map (pair (g_fd g)) ds.
Proof.
  induction l as [|[name v] l IH]; intros g O F.
  - exists g, []. cbn. rewrite app_nil_r. auto.
  - inversion F as [|? ? F1 F2]; subst. pose proof F1 as (C & I & _). cbn [fst snd] in *.
    destruct (C71_one_metric sock g name v C I) as [(_ & g1 & d & E & K & S & X & _)|(N & _)]; [|contradiction].
    destruct (X O) as [X1 X2]. destruct (IH g1 ltac:(congruence) F2) as (g' & ds & E' & K' & Y1 & Y2 & Y3).
    exists g', (d :: ds). cbn [Metric_sends]. rewrite E. cbn [rbind]. split; [auto|]. split; [constructor; auto|].
    split; [congruence|]. split; [congruence|]. rewrite Y3, S, X1, <- app_assoc. reflexivity.
Qed.

(** the metrics of a process: all arrive at the network in order, one datagram each, through the one
    socket asked for at the first metric (if the descriptor it got is not 0) *)
Theorem C71_history : forall sock m l, sock 0%nat <> 0 -> Forall fits (m :: l) -> exists g ds,
  Metric_sends sock metrics_init (m :: l) = Ok g /\ Forall2 carries ds (m :: l) /\
  g_sent g = map (pair (sock 0%nat)) ds /\ g_sockets g = 1%nat.
Proof.
  intros sock [name v] l O F. inversion F as [|? ? F1 F2]; subst. pose proof F1 as (C & I & _). cbn [fst snd] in *.
  destruct (C71_one_metric sock metrics_init name v C I) as [(_ & g1 & d & E & K & S & _ & X)|(N & _)]; [|contradiction].
  destruct (X eq_refl) as [X1 X2]. cbn [g_sockets metrics_init g_sent app] in *.
  destruct (sends_open sock l g1 ltac:(congruence) F2) as (g' & ds & E' & K' & Y1 & Y2 & Y3).
  exists g', (d :: ds). cbn [Metric_sends]. rewrite E. cbn [rbind]. split; [auto|]. split; [constructor; auto|].
  split; [rewrite Y3, S, X1; reflexivity|congruence].
Qed.
Print Assumptions C71_history.

(** refuted: a first socket that cannot be opened is not asked for again: every later metric goes to
    the descriptor -1, also when a socket could be had *)
Theorem C71_retry_refuted : forall sock m l, sock 0%nat = -1 -> Forall fits (m :: l) -> exists g ds,
  Metric_sends sock metrics_init (m :: l) = Ok g /\ Forall2 carries ds (m :: l) /\
  g_sent g = map (pair (-1)) ds /\ g_sockets g = 1%nat.
Proof.
  intros sock m l O F. destruct (C71_history sock m l ltac:(congruence) F) as (g & ds & A & B & X & D). exists g, ds. rewrite X, O. auto.
Qed.
Print Assumptions C71_retry_refuted.

(** refuted: a process started without standard input gets descriptor 0, is asked again for a socket
    at the second metric, and never closes the first *)
Theorem C71_one_socket_refuted : forall sock m1 m2 l, sock 0%nat = 0 -> sock 1%nat <> 0 -> Forall fits (m1 :: m2 :: l) -> exists g d ds,
  Metric_sends sock metrics_init (m1 :: m2 :: l) = Ok g /\ Forall2 carries (d :: ds) (m1 :: m2 :: l) /\
  g_sent g = (0, d) :: map (pair (sock 1%nat)) ds /\ g_sockets g = 2%nat.
Proof.
  intros sock [n1 v1] [n2 v2] l Z0 Z1 F. inversion F as [|? ? F1 F']; subst. inversion F' as [|? ? F2 F3]; subst.
  pose proof F1 as (C1 & I1 & _). pose proof F2 as (C2 & I2 & _). cbn [fst snd] in *.
  destruct (C71_one_metric sock metrics_init n1 v1 C1 I1) as [(_ & g1 & d1 & E1 & K1 & S1 & _ & X)|(N & _)]; [|contradiction].
  destruct (X eq_refl) as [X1 X2]. cbn [g_sockets metrics_init g_sent app] in *. rewrite Z0 in X1.
  destruct (C71_one_metric sock g1 n2 v2 C2 I2) as [(_ & g2 & d2 & E2 & K2 & S2 & _ & Y)|(N & _)]; [|contradiction].
  destruct (Y X1) as [Y1 Y2]. rewrite X2 in *.
  destruct (sends_open sock l g2 ltac:(congruence) F3) as (g' & ds & E' & K' & Q1 & Q2 & Q3).
  exists g', d1, (d2 :: ds). cbn [Metric_sends]. rewrite E1. cbn [rbind]. rewrite E2. cbn [rbind]. split; [auto|]. split; [constructor; [auto|constructor; auto]|].
  split; [rewrite Q3, S2, S1, X1, Y1; reflexivity|congruence].
Qed.
Print Assumptions C71_one_socket_refuted.

(** a case: "cpu load", -40; a name with a colon; a name of 128 bytes does not fit *)
Example C71_example :
  Forall fits [(str "cpu load"%string, -40); (str "a:1"%string, 7)] /\ ~ fits (repeat 97 128, 0) /\
  exists g, Metric_sends (fun n => 3 + Z.of_nat n) metrics_init [(str "cpu load"%string, -40); (str "a:1"%string, 7)] = Ok g /\
    map (fun d => (fst d, firstn 15 (snd d))) (g_sent g) = [(3, str "cpu load:-40|c"%string ++ [0]); (3, str "a:1:7|c"%string ++ repeat 0 8)].
Proof.
  assert (N40 : numeral (-40) (str "-40"%string)).
  { apply numeral_neg; [lia|]. apply (natural_digits 52 [48]); [lia|]. constructor; [lia|constructor]. }
  assert (N7 : numeral 7 (str "7"%string)).
  { apply numeral_pos; [lia|]. apply (natural_digits 55 []); [lia|constructor]. }
  split; [|split].
  - constructor; [|constructor; [|constructor]]; (split; [vm_compute; intuition discriminate|split; [split; vm_compute; congruence|]]).
    + exists (str "cpu load:-40|c"%string). split; [exists (str "-40"%string); split; auto|vm_compute; lia].
    + exists (str "a:1:7|c"%string). split; [exists (str "7"%string); split; auto|vm_compute; lia].
  - intros (_ & _ & t & (ds & _ & ->) & L). cbn [fst snd] in L. rewrite !app_length, repeat_length in L. cbn [length] in L. lia.
  - eexists. split; vm_compute; reflexivity.
Qed.
