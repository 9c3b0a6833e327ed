(** C72: the command line. *)
From Coq Require Import ZArith String List Bool Lia.
From Verif Require Import Base RulesM ParserM ShellM ShellS ShellP2 MainM MainS.
Import ListNotations.
Local Open Scope Z_scope.

Lemma same_spec a : forall b, same a b = true <-> a = b.
Proof.
  induction a as [|x a IH]; intros [|y b]; cbn; try (split; congruence). rewrite andb_true_iff, Z.eqb_eq, IH. split; [intros [-> ->]; auto|intros E; inversion E; auto].
Qed.
Lemma same_no a b : same a b = false <-> a <> b.
Proof. rewrite <- same_spec. destruct (same a b); split; congruence. Qed.
Lemma start_spec a n : (exists x b, named a x b /\ start a n = [SExample x (if b then Some n else None)]) \/ ((forall x b, ~ named a x b) /\ start a n = []).
Proof.
  unfold start.
  repeat match goal with |- context[if same a ?t then _ else _] => let E := fresh "E" in destruct (same a t) eqn:E; [apply same_spec in E; subst a; left; eexists _, _; split; [constructor|reflexivity]|apply same_no in E] end.
  right. split; auto. intros x b N. inversion N; congruence.
Qed.
Lemma loop_spec ts : examples ts (arg_loop ts).
Proof.
  induction ts as [|a ts IH]; cbn [arg_loop]; [constructor|].
  destruct (start_spec a (match ts with b :: _ => strtol b | [] => -1 end)) as [(x & [|] & N & ->)|(N & ->)]; cbn [app]; [econstructor; eauto|econstructor; eauto|econstructor; eauto].
  destruct ts; constructor. apply strtol_spec.
Qed.
Lemma inspect_spec ts : if inspect ts then inspected ts else ~ inspected ts.
Proof.
  unfold inspected. destruct ts as [|a1 [|a2 [|a3 ts]]]; cbn [inspect nth_error].
  - intros [|]; discriminate.
  - intros [|]; discriminate.
  - destruct (same a2 _) eqn:E; [apply same_spec in E; subst; auto|]. apply same_no in E. intros [|]; congruence.
  - destruct (same a3 _) eqn:E; [apply same_spec in E; subst; cbn [orb]; auto|]. apply same_no in E. cbn [orb].
    destruct (same a2 _) eqn:F; [apply same_spec in F; subst; auto|]. apply same_no in F. intros [|]; congruence.
Qed.
Lemma inspection_spec ts : inspection_of ts (if inspect ts then inspection else []).
Proof. pose proof (inspect_spec ts). destruct (inspect ts); [left|right]; auto. Qed.
Lemma atoi_spec t : as_int (strtol t) (atoi t).
Proof.
  unfold as_int, atoi. pose proof (Z.mod_pos_bound (strtol t + 2 ^ 31) (2 ^ 32) ltac:(lia)). split; [lia|].
  exists ((strtol t + 2 ^ 31) / 2 ^ 32). pose proof (Z.div_mod (strtol t + 2 ^ 31) (2 ^ 32) ltac:(lia)). lia.
Qed.
(** what is read is determined *)
Lemma named_fun a x b x' b' : named a x b -> named a x' b' -> x = x' /\ b = b'.
Proof. intros H H'. inversion H; subst; inversion H'; auto. Qed.
Lemma item_value_strtol t n : item_value t n -> n = strtol t.
Proof.
  intros H. unfold strtol. inversion H as [? w R|? N]; subst.
  - destruct (integer_reads _ _ R) as (r & ->). reflexivity.
  - destruct (integer t) as [[w r]|] eqn:E; auto. apply integer_some in E. exfalso. eapply N; eauto.
Qed.
Lemma as_int_fun n p q : as_int n p -> as_int n q -> p = q.
Proof. intros [A (k & ->)] [B (k' & E)]. lia. Qed.
Lemma iterations_fun ts n m : iterations ts n -> iterations ts m -> n = m.
Proof.
  intros H H'. inversion H; subst; inversion H'; subst; auto.
  match goal with A : item_value ?t n, B : item_value ?t m |- _ => rewrite (item_value_strtol _ _ A), (item_value_strtol _ _ B); reflexivity end.
Qed.
Lemma examples_fun ts l : examples ts l -> forall l', examples ts l' -> l = l'.
Proof.
  induction 1 as [|a ts x n l N I E IH|a ts x l N E IH|a ts l N E IH]; intros l' E'; inversion E' as [|? ? x' n' ? N' I' E''|? ? x' ? N' E''|? ? ? N' E'']; subst; auto.
  - destruct (named_fun _ _ _ _ _ N N') as [-> _]. rewrite (iterations_fun _ _ _ I I'). f_equal; auto.
  - destruct (named_fun _ _ _ _ _ N N') as [_ Q]; discriminate Q.
  - destruct (N' _ _ N).
  - destruct (named_fun _ _ _ _ _ N N') as [_ Q]; discriminate Q.
  - destruct (named_fun _ _ _ _ _ N N') as [-> _]. f_equal; auto.
  - destruct (N' _ _ N).
  - destruct (N _ _ N').
  - destruct (N _ _ N').
Qed.
Lemma inspection_fun ts l l' : inspection_of ts l -> inspection_of ts l' -> l = l'.
Proof. intros [[A ->]|[A ->]] [[B ->]|[B ->]]; auto; contradiction. Qed.

Lemma main_command ts : command ts (fst (main ts)) (snd (main ts)).
Proof.
  destruct ts as [|a ts]; [constructor|]. unfold main.
  destruct (same a (str "NAL_GenerateRuleTable"%string)) eqn:G; [apply same_spec in G; subst a; apply c_rules|apply same_no in G].
  pose proof (loop_spec (a :: ts)) as LO. pose proof (inspection_spec (a :: ts)) as IN. cbv zeta.
  remember (arg_loop (a :: ts)) as xs. remember (if inspect (a :: ts) then inspection else []) as is. clear Heqxs Heqis.
  destruct (same a (str "shell"%string)) eqn:S.
  - apply same_spec in S. subst a. destruct (same (str "shell"%string) (str "UDPNAR"%string)) eqn:U; [discriminate U|]. apply c_shell; auto.
  - apply same_no in S. cbn [app]. destruct (same a (str "UDPNAR"%string)) eqn:U.
    + apply same_spec in U. subst a. destruct ts as [|ip [|port [|timestep [|der ts]]]]; cbn [fst snd]; try (apply c_server_crash; [cbn; lia|auto]).
      cbn [app]. eapply c_server; eauto; [apply strtol_spec|apply atoi_spec|apply strtol_spec|apply same_spec].
    + apply same_no in U. cbn [fst snd app]. apply c_examples; auto.
Qed.
Lemma str_inj3 : str "shell"%string <> str "NAL_GenerateRuleTable"%string /\ str "UDPNAR"%string <> str "NAL_GenerateRuleTable"%string /\ str "UDPNAR"%string <> str "shell"%string.
Proof. repeat split; discriminate. Qed.
Lemma command_fun ts l c : command ts l c -> forall l' c', command ts l' c' -> l = l' /\ c = c'.
Proof.
  intros H l' c' H'. inversion H; subst; inversion H'; subst; try congruence; try (exfalso; cbn [length] in *; lia); auto.
  all: repeat match goal with
    | A : examples ?t ?x, B : examples ?t ?y |- _ => pose proof (examples_fun _ _ A _ B); subst; clear B
    | A : inspection_of ?t ?x, B : inspection_of ?t ?y |- _ => pose proof (inspection_fun _ _ _ A B); subst; clear B
    | A : item_value ?t ?x, B : item_value ?t ?y |- _ => pose proof (item_value_strtol _ _ A); pose proof (item_value_strtol _ _ B); subst; clear B
    | A : as_int ?t ?x, B : as_int ?t ?y |- _ => pose proof (as_int_fun _ _ _ A B); subst; clear B
    end; auto.
  assert (d = d0) by (destruct d, d0; intuition congruence). subst. auto.
Qed.

(** the arguments of the program determine what is started, in which order and with which numbers,
    and whether it crashes *)
Theorem C72_command_line : forall ts l crash, main ts = (l, crash) <-> command ts l crash.
Proof.
  intros ts l c. split; intros H.
  - pose proof (main_command ts) as M. rewrite H in M. exact M.
  - destruct (command_fun _ _ _ (main_command ts) _ _ H) as [A B]. destruct (main ts); cbn in *; congruence.
Qed.
Print Assumptions C72_command_line.

(** refuted: "an argument is used once": a number's place or the server's address can be the name of
    an example, which is run too *)
Theorem C72_arguments_of_the_server_refuted : forall port timestep der, exists xs p t d is,
  main [str "UDPNAR"%string; str "pong"%string; port; timestep; der] = (SInit :: SExample Pong (Some xs) :: p ++ SServer (str "pong"%string) t d (same der (str "true"%string)) :: is, false).
Proof.
  intros port timestep der. unfold main. change (same (str "UDPNAR"%string) (str "NAL_GenerateRuleTable"%string)) with false. cbv iota zeta.
  change (same (str "UDPNAR"%string) (str "shell"%string)) with false. change (same (str "UDPNAR"%string) (str "UDPNAR"%string)) with true. cbv iota.
  cbn [arg_loop]. change (start (str "UDPNAR"%string) (strtol (str "pong"%string))) with (@nil started). change (start (str "pong"%string) (strtol port)) with [SExample Pong (Some (strtol port))].
  rewrite <- !app_assoc. cbn [app]. eexists _, (start port (strtol timestep) ++ start timestep (strtol der) ++ start der (-1)), _, _, _. rewrite <- !app_assoc. reflexivity.
Qed.
Print Assumptions C72_arguments_of_the_server_refuted.

(** refuted: the server started without all of its arguments crashes instead of saying so *)
Theorem C72_missing_argument_refuted : forall ip port timestep,
  snd (main [str "UDPNAR"%string; ip; port; timestep]) = true.
Proof. reflexivity. Qed.
Print Assumptions C72_missing_argument_refuted.

Example C72_example :
  main [str "pong"%string; str "100"%string; str "testchamber"%string; str "robot"%string] = ([SInit; SExample Pong (Some 100); SExample TestChamber None; SExample Robot (Some (-1))], false) /\
  main [str "pong"%string; str "InspectionOnExit"%string] = (SInit :: SExample Pong (Some 0) :: inspection, false) /\
  main [str "UDPNAR"%string; str "127.0.0.1"%string; str "50000"%string; str "10000000"%string; str "true"%string] = ([SInit; SServer (str "127.0.0.1"%string) 50000 10000000 true], false) /\
  main [str "shell"%string] = ([SInit; SShell], false).
Proof. repeat split. Qed.
