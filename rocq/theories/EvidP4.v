(** Evidence: sessions of the shell. *)
From Coq Require Import ZArith List Bool String Lia.
From Verif Require Import Base F64 TruthM StampM TermM NamesM AtomsM ParserM RulesM EventM MemoryM QuestionM DecisionM OpsM CycleM CycleS ShellM ShellS ShellP ShellP2 ShellP3 EvidS.
Import ListNotations.
Local Open Scope Z_scope.
#[local] Opaque Z.mul Z.add Z.sub perform Narsese_Sentence Narsese_Term Memory_INIT Narsese_INIT AtomicTermIndex AddOperations SetOpName RuleTable_Reduce.
Section P.
Variable v : env.
Hypothesis LY : (0 < v_layers v)%nat.
Definition sub (I : Z -> Prop) (s : cstate) : Prop := exists J, told J s /\ forall i, J i -> I i.
Notation more I z' := (fun i => I i \/ In i (ids (g_import (s_ids (z_core z'))))).
Lemma sub_up (I I' : Z -> Prop) s : (forall i, I i -> I' i) -> sub I s -> sub I' s. Proof. intros H (J & A & B). exists J; auto. Qed.
Lemma sub_config I s ops r t g : g = s_ids s -> sub I s -> sub I (configured s ops r t g). Proof. intros -> (J & A & B). exists J. split; auto. apply td_config; auto. Qed.
Lemma sub_call I s p c s' : (0 < p_layers p)%nat -> sub I s -> perform p s c = Ok s' -> sub I s'. Proof. intros L (J & A & B) H. exists J. split; auto. eapply td_call; eauto. Qed.
Lemma imported_wf l : stamp_wf (firstn STAMP_SIZE (l ++ stamp_zero)).
Proof. unfold stamp_wf. rewrite firstn_length, app_length. change (List.length stamp_zero) with STAMP_SIZE. lia. Qed.
Lemma run_told I z k z' r o : (forall a, k <> KStampId a) -> sub I (z_core z) -> run v z k = Ok (z', r, o) -> sub (more I z') (z_core z').
Proof.
  intros NI S H. assert (RI : sub (more I z') (z_core z)) by (eapply sub_up; [|exact S]; cbn; auto).
  assert (ST : forall w a q th o', sub I (z_core w) -> AddInputNarsese2 v w a q th = Ok (z', o') -> sub (more I z') (z_core z')).
  { intros w a q th o' RR HH. eapply sub_up with (I := I); [auto|]. apply sentence_ok in HH as (_ & _ & _ & st & s & _ & _ & [(_ & m & ans & Q & -> & _)|(_ & _ & _ & _ & Q)]).
    - destruct RR as (J & A & B). exists J. split; auto. eapply td_question; eauto.
    - eapply sub_call; [|exact RR|exact Q]. exact LY. }
  assert (SET : forall p, about k p -> sub (more I z') (z_core z')).
  { intros p A. destruct A; try (exfalso; eapply NI; reflexivity); cbn [run quiet] in H; unfold quiet, volume, stamp_import, set_lf in H; cbn [rbind] in H;
    repeat match goal with
    | H : context [match v_lf v ?a with _ => _ end] |- _ => destruct (v_lf v a) as [[? ?]|]
    | H : context [scan_d ?a] |- _ => destruct (scan_d a) as [[[? ?]|]| |]; cbn [rbind] in H; try discriminate H
    | H : context [scan_ld ?a] |- _ => destruct (scan_ld a) as [[[? ?]|]| |]; cbn [rbind] in H; try discriminate H
    | H : context [last_close ?a ?b] |- _ => destruct (last_close a b); cbn [rbind] in H; try discriminate H
    | H : context [(?n <? 1000)%nat] |- _ => destruct (n <? 1000)%nat; cbn [rbind] in H; try discriminate H
    end; apply okI in H; injection H as <- <- <-; auto;
    first [rewrite time_cfg; apply sub_config; auto; fail|rewrite restricted_cfg; apply sub_config; auto; fail|idtac].
    destruct S as (J & A & B). eexists. split; [apply (td_import J); [exact A|]|]. 
    - apply imported_wf.
    - intros i [X|X]; [left; auto|right; exact X]. }
  assert (OPS : about_operations k -> sub (more I z') (z_core z')).
  { intros A. destruct (operations_ok v z k z' r o A H) as (_ & _ & _ & _ & _ & ops & E). rewrite E at 1. rewrite ops_cfg. apply sub_config; auto. }
  assert (NM : about_names k -> sub (more I z') (z_core z')).
  { intros A. destruct (names_ok v z k z' r o A H) as (_ & _ & E & _). rewrite E at 1. auto. }
  destruct k; try (now apply OPS; constructor); try (now apply NM; constructor);
    try (now eapply SET; constructor); cbn [run quiet loud] in H; unfold quiet, loud in H; try (apply okI in H; injection H as <- <- <-; auto; fail).
  - unfold reason in H. destruct (perform _ _ _) as [s| |] eqn:E; cbn [rbind] in H; try discriminate. apply okI in H; injection H as <- <- <-. cbn. eapply sub_call; [|exact RI|exact E]; exact LY.
  - destruct (_ =? 0); try discriminate. apply okI in H; injection H as <- <- <-; auto.
  - unfold query in H. destruct (v_lf v a) as [[x b]|]; cbn [rbind] in H; try discriminate. destruct (rassert _); cbn [rbind] in H; try discriminate.
    destruct (AddInputNarsese2 _ _ _ _ _) as [[z1 o1]| |] eqn:E; cbn [rbind] in H; try discriminate. apply okI in H; injection H as <- <- <-. eapply ST; eauto.
  - unfold steps in H. destruct (scan_integer _ _ _) as [[[n b]|]| |]; cbn [rbind] in H; try discriminate. unfold reason in H. destruct (perform _ _ _) as [s| |] eqn:E; cbn [rbind] in H; try discriminate.
    apply okI in H; injection H as <- <- <-. cbn. eapply sub_call; [|exact RI|exact E]; exact LY.
  - destruct (AddInputNarsese2 _ _ _ _ _) as [[z1 o1]| |] eqn:E; cbn [rbind] in H; try discriminate. apply okI in H; injection H as <- <- <-. eapply ST; eauto.
Qed.
Lemma init_told I z z' : sub I (z_core z) -> Shell_NARInit v z = Ok z' -> sub I (z_core z') /\ g_import (s_ids (z_core z')) = g_import (s_ids (z_core z)).
Proof.
  intros S H. apply init_spec in H as (m & st & o & A & B & C & ->). cbn [z_core]. split; [|reflexivity].
  assert (R : sub I (resetted (z_core z) m)) by (destruct S as (J & S1 & S2); exists J; split; auto; eapply td_reset; eauto).
  exact (sub_config I _ (n_ops o) (m_restricted m) 1 _ eq_refl R).
Qed.
Lemma start_told rng z : start v rng = Ok z -> sub (fun _ => False) (z_core z).
Proof.
  unfold start. destruct (Memory_INIT _ _ _ _ _ _) as [m| |] eqn:E; cbn [rbind]; try discriminate. destruct (Narsese_INIT _) as [st| |]; cbn [rbind]; try discriminate.
  intros H. eapply init_told in H; [apply H|]. cbn. exists (fun _ => False). split; auto. eapply td_start; eauto.
Qed.
End P.
