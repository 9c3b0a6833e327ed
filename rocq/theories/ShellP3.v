(** Sessions of the shell. *)
From Coq Require Import ZArith List Bool String Lia.
From Verif Require Import Base F64 TruthM StampM TermM NamesM AtomsM ParserM RulesM EventM MemoryM QuestionM DecisionM OpsM CycleM CycleS CycleP5 ShellM ShellS ShellP ShellP2.
Import ListNotations.
Local Open Scope Z_scope.
#[local] Opaque Z.mul Z.add Z.sub perform Narsese_Sentence Narsese_Term Memory_INIT Narsese_INIT AtomicTermIndex AddOperations SetOpName RuleTable_Reduce.

Section P.
Variable v : env.
Lemma time_cfg z t : z_core (put_time z t) = configured (z_core z) (m_ops (s_mem (z_core z))) (m_restricted (s_mem (z_core z))) t (s_ids (z_core z)).
Proof. destruct z as [s]; destruct s as [m]; destruct m; reflexivity. Qed.
Lemma ids_cfg z g : z_core (put_ids z g) = configured (z_core z) (m_ops (s_mem (z_core z))) (m_restricted (s_mem (z_core z))) (s_time (z_core z)) g.
Proof. destruct z as [s]; destruct s as [m]; destruct m; reflexivity. Qed.
Lemma restricted_cfg z r : z_core (put_restricted z r) = configured (z_core z) (m_ops (s_mem (z_core z))) r (s_time (z_core z)) (s_ids (z_core z)).
Proof. destruct z as [s]; destruct s as [m]; destruct m; reflexivity. Qed.
Lemma ops_cfg z ops : z_core (put_ops z ops) = configured (z_core z) ops (m_restricted (s_mem (z_core z))) (s_time (z_core z)) (s_ids (z_core z)).
Proof. destruct z as [s]; destruct s as [m]; destruct m; reflexivity. Qed.

Lemma set_value_core z a z' : set_value v z a = Ok z' -> z_core z' = z_core z /\ same_parameters z z' /\ z_k z' = z_k z.
Proof.
  unfold set_value. match goal with |- rbind ?e _ = _ -> _ => destruct e as [[[x g] n]| |] end; cbn [rbind]; try discriminate.
  destruct (rassert _) as [u| |]; cbn [rbind]; try discriminate. destruct (_ <=? 32)%nat; try discriminate.
  destruct (AtomicTermIndex _ _ _) as [[st i]| |]; cbn [rbind]; try discriminate. destruct (rassert (0 <? to_atom i)) as [w| |]; cbn [rbind]; try discriminate.
  intros H; apply okI in H; subst z'. cbn. repeat split; auto.
Qed.
Lemma sp_refl z : same_parameters z z. Proof. repeat split; auto. Qed.
Lemma sp_trans a b c : same_parameters a b -> same_parameters b c -> same_parameters a c.
Proof. unfold same_parameters. intros (A1 & A2 & A3 & A4 & A5 & A6 & A7) (B1 & B2 & B3 & B4 & B5 & B6 & B7). rewrite B1, B2, B3, B4, B5, B6, B7. repeat split; auto. Qed.
Lemma space_loop_core n : forall i z g tn z', space_loop v n i z g tn = Ok z' -> z_core z' = z_core z /\ same_parameters z z' /\ z_k z' = z_k z.
Proof.
  induction n as [|n IH]; intros i z g tn z'; cbn [space_loop]; [intros H; apply okI in H; subst; repeat split; auto|].
  destruct (set_value v z _) as [z1| |] eqn:E; cbn [rbind]; try discriminate. intros H. apply set_value_core in E. apply IH in H. destruct E as (E1 & E2 & E3), H as (H1 & H2 & H3).
  split; [congruence|]. split; [eapply sp_trans; eauto|congruence].
Qed.
Lemma space_core z a z' : space v z a = Ok z' -> z_core z' = z_core z /\ same_parameters z z' /\ z_k z' = z_k z.
Proof.
  unfold space. destruct (scan_d a) as [[[g r]|]| |]; cbn [rbind]; try discriminate. destruct (rassert _); cbn [rbind]; try discriminate. apply space_loop_core.
Qed.
Lemma names_ok z k z' r o : about_names k -> run v z k = Ok (z', r, o) -> r = SHELL_CONTINUE /\ o = [] /\ z_core z' = z_core z /\ same_parameters z z'.
Proof.
  intros A. destruct A; cbn [run quiet]; unfold quiet.
  - destruct (set_value v z a) as [z1| |] eqn:E; cbn [rbind]; try discriminate. intros H; apply okI in H; injection H as <- <- <-. apply set_value_core in E. tauto.
  - destruct (space v z a) as [z1| |] eqn:E; cbn [rbind]; try discriminate. intros H; apply okI in H; injection H as <- <- <-. apply space_core in E. tauto.
Qed.
Lemma put_ops_st z st ops : put_ops (put_st z st) ops = put_st (put_ops z ops) st. Proof. reflexivity. Qed.
Lemma operations_ok z k z' r o : about_operations k -> run v z k = Ok (z', r, o) ->
  r = SHELL_CONTINUE /\ o = [] /\ same_parameters z z' /\ z_av z' = z_av z /\ z_k z' = z_k z /\ exists ops, z_core z' = z_core (put_ops z ops).
Proof.
  intros A. destruct A; cbn [run quiet]; unfold quiet, set_op_name, set_op_arg, set_stdin.
  - destruct (rassert _) as [u| |]; cbn [rbind]; try discriminate. destruct (scan_d a) as [[[n b]|]| |]; cbn [rbind]; try discriminate.
    destruct (SetOpName _ _ _ _ _) as [q| |]; cbn [rbind]; try discriminate. intros H; apply okI in H; injection H as <- <- <-. repeat split; auto. eexists; reflexivity.
  - destruct (scan_d a) as [[[n b]|]| |]; cbn [rbind]; try discriminate. destruct (scan_d b) as [[[k c]|]| |]; cbn [rbind]; try discriminate.
    + destruct (rassert _) as [u| |]; cbn [rbind]; try discriminate. destruct (rassert _) as [w| |]; cbn [rbind]; try discriminate.
      destruct (Narsese_Term _ _ _) as [[st t]| |]; cbn [rbind]; try discriminate. intros H; apply okI in H; injection H as <- <- <-. repeat split; auto. eexists; reflexivity.
    + destruct (rassert _) as [u| |]; cbn [rbind]; discriminate.
  - destruct (scan_d a) as [[[n b]|]| |]; cbn [rbind]; try discriminate. destruct (_ && _); cbn [rbind]; try discriminate.
    intros H; apply okI in H; injection H as <- <- <-. repeat split; auto. eexists; reflexivity.
Qed.
Lemma sentence_ok z l q th z' o : AddInputNarsese2 v z l q th = Ok (z', o) ->
  same_parameters z z' /\ z_k z' = z_k z /\ z_av z' = z_av z /\
  exists st s, Narsese_Sentence (v_atoms v) (v_atof v) (v_scan1 v) (v_scan2 v) (z_st z) l = Ok (st, s) /\ z_st z' = st /\
  let t := RuleTable_Reduce (a_names st) (ParserM.s_term s) in
  (s_punctuation s = 63 /\ exists m ans, Question (a_names st) (z_av z) (z_simdist z) (v_pow v) (s_time (z_core z)) q th (z_priming z) (s_mem (z_core z)) t (s_tense s) = Ok (m, ans)
     /\ z_core z' = set_mem (z_core z) m /\ o = map OAnswer ans) \/
  (s_punctuation s <> 63 /\ (s_punctuation s = 33 -> s_tense s <> 0) /\ (s_punctuation s = 46 -> s_tense s < 2) /\ o = [] /\
   perform (params_of v (put_st z st)) (z_core z)
     (CInput t (if s_punctuation s =? 33 then EVENT_TYPE_GOAL else EVENT_TYPE_BELIEF) (@mkTruth f64A (fst (ParserM.s_truth s)) (snd (ParserM.s_truth s))) (s_tense s =? 0) (s_offset s)) = Ok (z_core z')).
Proof.
  unfold AddInputNarsese2. destruct (Narsese_Sentence _ _ _ _ _ _) as [[st s]| |]; cbn [rbind]; try discriminate.
  destruct (s_punctuation s =? 63) eqn:P.
  - cbn [z_av z_simdist z_core z_priming put_st]. destruct (Question _ _ _ _ _ _ _ _ _ _ _) as [[m ans]| |] eqn:Q; cbn [rbind]; try discriminate. intros H; apply okI in H; injection H as <- <-.
    cbn. repeat split; auto. exists st, s. repeat split; auto. left. split; [lia|]. exists m, ans. auto.
  - destruct (rassert _) eqn:R1; cbn [rbind]; try discriminate. destruct (rassert (_ || _)) eqn:R2; cbn [rbind]; try discriminate.
    unfold reason. cbn [z_core put_st]. destruct (perform _ _ _) as [s'| |] eqn:Q; cbn [rbind]; try discriminate. intros H; apply okI in H; injection H as <- <-. unfold rassert in *.
    cbn. repeat split; auto. exists st, s. repeat split; auto. right. destruct (negb _) eqn:N1 in R1; try discriminate. destruct (_ || _) eqn:N2 in R2; try discriminate.
    split; [lia|]. split; [intros X; rewrite X in N1; cbn in N1; lia|]. split; [intros X; rewrite X in N2; cbn in N2; lia|]. split; auto.
Qed.
Lemma run_reached z k z' r o : reached (z_core z) -> run v z k = Ok (z', r, o) -> reached (z_core z').
Proof.
  intros R H.
  assert (ST : forall w a q th o', reached (z_core w) -> AddInputNarsese2 v w a q th = Ok (z', o') -> reached (z_core z')).
  { intros w a q th o' RR HH. apply sentence_ok in HH as (_ & _ & _ & st & s & _ & _ & [(_ & m & ans & Q & -> & _)|(_ & _ & _ & _ & Q)]); [eapply reached_question; eauto|eapply reached_call; eauto]. }
  assert (SET : forall p, about k p -> reached (z_core z')).
  { intros p A. destruct A; cbn [run quiet] in H; unfold quiet, volume, stamp_import, set_lf in H; cbn [rbind] in H;
    repeat match goal with
    | H : context [match v_lf v ?a with _ => _ end] |- _ => destruct (v_lf v a) as [[? ?]|]
    | H : context [scan_d ?a] |- _ => destruct (scan_d a) as [[[? ?]|]| |]; cbn [rbind] in H; try discriminate H
    | H : context [scan_ld ?a] |- _ => destruct (scan_ld a) as [[[? ?]|]| |]; cbn [rbind] in H; try discriminate H
    | H : context [last_close ?a ?b] |- _ => destruct (last_close a b); cbn [rbind] in H; try discriminate H
    | H : context [(?n <? 1000)%nat] |- _ => destruct (n <? 1000)%nat; cbn [rbind] in H; try discriminate H
    end; apply okI in H; injection H as <- <- <-; auto;
    first [rewrite time_cfg; apply reached_config; auto|rewrite ids_cfg; apply reached_config; auto|rewrite restricted_cfg; apply reached_config; auto]. }
  assert (OPS : about_operations k -> reached (z_core z')).
  { intros A. destruct (operations_ok z k z' r o A H) as (_ & _ & _ & _ & _ & ops & ->). rewrite ops_cfg. apply reached_config; auto. }
  assert (NM : about_names k -> reached (z_core z')).
  { intros A. destruct (names_ok z k z' r o A H) as (_ & _ & -> & _); auto. }
  destruct k; try (now apply OPS; constructor); try (now apply NM; constructor);
    try (now eapply SET; constructor); cbn [run quiet loud] in H; unfold quiet, loud in H; try (apply okI in H; injection H as <- <- <-; auto; fail).
  - unfold reason in H. destruct (perform _ _ _) as [s| |] eqn:E; cbn [rbind] in H; try discriminate. apply okI in H; injection H as <- <- <-. cbn. eapply reached_call; eauto.
  - destruct (_ =? 0); try discriminate. apply okI in H; injection H as <- <- <-; auto.
  - unfold query in H. destruct (v_lf v a) as [[x b]|]; cbn [rbind] in H; try discriminate. destruct (rassert _); cbn [rbind] in H; try discriminate.
    destruct (AddInputNarsese2 _ _ _ _ _) as [[z1 o1]| |] eqn:E; cbn [rbind] in H; try discriminate. apply okI in H; injection H as <- <- <-. eapply ST; eauto.
  - unfold steps in H. destruct (scan_integer _ _ _) as [[[n b]|]| |]; cbn [rbind] in H; try discriminate. unfold reason in H. destruct (perform _ _ _) as [s| |] eqn:E; cbn [rbind] in H; try discriminate.
    apply okI in H; injection H as <- <- <-. cbn. eapply reached_call; eauto.
  - destruct (AddInputNarsese2 _ _ _ _ _) as [[z1 o1]| |] eqn:E; cbn [rbind] in H; try discriminate. apply okI in H; injection H as <- <- <-. eapply ST; eauto.
Qed.
Lemma init_spec z z' : Shell_NARInit v z = Ok z' ->
  exists m st o, Memory_INIT (v_cmax v) (v_buckets v) (v_atoms v) (v_bmax v) (v_gmax v) (v_layers v) = Ok m /\ Narsese_INIT (v_atoms v) = Ok st /\
    AddOperations (v_atoms v) (mkOps st (m_ops m) 0) shell_ops = Ok o /\
    z' = mkNar (resetted (z_core z) (with_ops_restricted m (n_ops o) (m_restricted m))) (n_st o) (n_k o) (fun _ => None)
           (z_volume z) (z_aconf z) (z_thr z) (z_simdist z) (z_chance z) (z_priming z) (z_bops z).
Proof.
  unfold Shell_NARInit, NAR_INIT. destruct (Memory_INIT _ _ _ _ _ _) as [m| |]; cbn [rbind]; try discriminate. destruct (Narsese_INIT _) as [st| |]; cbn [rbind]; try discriminate.
  cbn [z_st z_core z_k resetted s_mem set_pids set_ids set_stats set_time set_mem]. destruct (AddOperations _ _ _) as [o| |] eqn:E; cbn [rbind]; try discriminate. intros H; apply okI in H; subst z'.
  exists m, st, o. repeat split; auto.
Qed.
Lemma init_reached z z' : reached (z_core z) -> Shell_NARInit v z = Ok z' -> reached (z_core z').
Proof.
  intros R H. apply init_spec in H as (m & st & o & A & B & C & ->). cbn [z_core].
  pose proof (reached_config _ (n_ops o) (m_restricted m) 1 (Event_INIT (s_ids (z_core z))) (reached_reset _ _ _ _ _ _ _ _ R A)) as X. exact X.
Qed.
Lemma line_reached z l z' go o : reached (z_core z) -> line v z l = Ok (z', go, o) -> reached (z_core z').
Proof.
  intros R. unfold line, Shell_ProcessInput. destruct (run v z (parse (trim l))) as [[[z1 r] o1]| |] eqn:E; cbn [rbind]; try discriminate.
  pose proof (run_reached _ _ _ _ _ R E) as R1. destruct r.
  - intros H; apply okI in H; injection H as <- <- <-; auto.
  - destruct (Shell_NARInit v z1) as [z2| |] eqn:E2; cbn [rbind]; try discriminate. intros H; apply okI in H; injection H as <- <- <-. eapply init_reached; eauto.
  - intros H; apply okI in H; injection H as <- <- <-; auto.
Qed.
Lemma start_reached rng z : start v rng = Ok z -> reached (z_core z).
Proof.
  unfold start. destruct (Memory_INIT _ _ _ _ _ _) as [m| |] eqn:E; cbn [rbind]; try discriminate. destruct (Narsese_INIT _) as [st| |]; cbn [rbind]; try discriminate.
  apply init_reached. cbn. eapply reached_start; eauto.
Qed.
Lemma running_reached z : running v z -> reached (z_core z).
Proof. induction 1 as [rng z H|z l z' go o R IH H]; [eapply start_reached; eauto|eapply line_reached; eauto]. Qed.
Lemma session_running ls : forall z z' o, running v z -> session v z ls = Ok (z', o) -> running v z'.
Proof.
  induction ls as [|l ls IH]; intros z z' o R; cbn [session]; [intros H; apply okI in H; injection H as <- <-; auto|].
  destruct (line v z l) as [[[z1 go] o1]| |] eqn:E; cbn [rbind]; try discriminate. assert (R1 : running v z1) by (eapply ru_line; eauto).
  destruct go; [|intros H; apply okI in H; injection H as <- <-; auto]. destruct (session v z1 ls) as [[z2 o2]| |] eqn:S; cbn [rbind]; try discriminate.
  intros H; apply okI in H; injection H as <- <-. eapply IH; eauto.
Qed.
End P.
