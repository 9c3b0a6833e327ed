(** Proofs about which events are connected (C66). *)
From Coq Require Import ZArith List Bool Lia Relation_Operators.
From Verif Require Import Base F64 TruthM StampM StampP TermM TermS NamesM AtomsM EventM InferenceM TableM RingM VariableM MemoryM MemoryS NalM NalS QuestionM DecisionM CycleM SeqS AddS LearnS.
Import ListNotations.
Local Open Scope Z_scope.
#[local] Opaque fofZ fdec fadd fmul fdiv fltb fleb Term_ExtractSubterm AddEvent Truth_Projection Truth_Intersection Term_OverrideSubterm ReinforceLink OperationSequenceAppendLeftNested getOperationID
  stamp_check_overlap RingM.GetKthNewestElement.
Lemma read m c k : cread m c = Ok k -> nth_error (m_store m) c = Some k.
Proof. unfold cread. destruct (nth_error _ _); congruence. Qed.
Lemma present_there e : negb (e_type e =? EVENT_TYPE_DELETED) = true <-> there e.
Proof. unfold there. rewrite negb_true_iff, Z.eqb_neq. tauto. Qed.
Lemma no_overlap a b : stamp_check_overlap (e_stamp a) (e_stamp b) = false -> no_shared_evidence a b.
Proof. intros H X. apply stamp_overlap_spec in X. congruence. Qed.
Lemma marks_refl l : Forall2 (fun k k' => exists p, k' = with_pids k p) l l.
Proof. induction l as [|k l IH]; constructor; auto. exists (c_pids k). destruct k; reflexivity. Qed.
Lemma marked m c f m' : (forall k, exists p, f k = with_pids k p) -> cmod m c f = Ok m' -> same_but_marks m m'.
Proof.
  intros F. unfold cmod, cread. destruct (nth_error (m_store m) c) as [k|] eqn:E; cbn [rbind]; [|discriminate]. intros H. exists (upd (m_store m) c (f k)).
  split; [congruence|]. clear H. revert c E. generalize (m_store m). induction l as [|x l IH]; intros c E; destruct c as [|c]; cbn in *; try discriminate; constructor; auto.
  - assert (x = k) as -> by congruence. apply F.
  - apply marks_refl.
  - exists (c_pids x). destruct x; reflexivity.
Qed.
Section L.
Variable nm : names.
Variable pd : Z -> f64.
Variable pen : nat -> f64.
Variables layers fuel : nat.
Lemma intersection_event x y sq : BeliefIntersection pd x y = Ok (true, sq) -> forall t, with_term sq t = happened pd x y t.
Proof.
  unfold BeliefIntersection. destruct (_ <=? _); cbn [rassert rbind]; [|discriminate]. destruct (Narsese_Sequence _ _) as [[] t1]; [|discriminate]. intros H t. injection H as <-. reflexivity.
Qed.
Lemma mine_spec m time now post o p m' ko : nth_error (m_store m) o = Some ko -> mine_prec nm pd pen layers fuel m time now post o p = Ok m' ->
  m' = m \/ learns_rule nm pd pen layers fuel time now post (c_id ko) m m'.
Proof.
  intros NO. unfold mine_prec. destruct (cread m p) as [kp| |] eqn:RP; cbn [rbind]; try discriminate. apply read in RP. unfold cread at 1. rewrite NO. cbn [rbind].
  destruct (_ && _) eqn:B; [|left; congruence].
  apply andb_prop in B as [B B8]. apply andb_prop in B as [B B7]. apply andb_prop in B as [B B6]. apply andb_prop in B as [B B5]. apply andb_prop in B as [B B4]. apply andb_prop in B as [B B3]. apply andb_prop in B as [B1 B2].
  apply present_there in B1. apply Z.ltb_lt in B2, B3, B4, B5. apply negb_true_iff in B6, B7. apply Nat.eqb_eq in B8.
  destruct (BeliefIntersection pd (c_spike kp) (c_spike ko)) as [[ok sq]| |] eqn:BI; cbn [rbind]; try discriminate.
  destruct ok; cbn [andb]; [|left; congruence]. pose proof (intersection_event _ _ _ BI) as W.
  destruct (fltb (confidence (e_truth sq)) (MIN_CONFIDENCE f64A)) eqn:C; cbn [negb]; [left; congruence|].
  destruct (OperationSequenceAppendLeftNested nm (e_term (c_spike kp)) (e_term (c_spike ko))) as [ok5 t] eqn:OS. destruct ok5; [|left; congruence].
  intros H. right. exists o, ko, p, kp, t. split; auto. split; auto. split; auto. split.
  { split; auto. split; [split; auto|]. split; auto. split; auto. split; [|apply no_overlap; auto].
    unfold higher_order_event, copula. intros X. apply orb_false_iff in B6 as [X1 X2]. destruct X; congruence. }
  split; auto. cbv zeta. rewrite W in H. split; [|exact H]. rewrite <- (W t). exact C.
Qed.
Notation RT R := (clos_refl_trans memory (marks_or R)).
Lemma prec_spec n : forall i m pid time now post o oid m', prec_loop nm pd pen layers fuel n i m pid time now post o oid = Ok m' ->
  RT (learns_rule nm pd pen layers fuel time now post oid) m m'.
Proof.
  induction n as [|n IH]; intros i m pid time now post o oid m'; cbn [prec_loop]; [intros H; injection H as <-; apply rt_refl|].
  destruct (cread m o) as [ko| |] eqn:RO; cbn [rbind]; try discriminate. destruct (_ && _) eqn:B; [|intros H; injection H as <-; apply rt_refl].
  apply andb_prop in B as [B1 _]. apply Z.eqb_eq in B1. destruct (kth_newest m i) as [p| |]; cbn [rbind]; try discriminate.
  destruct (cread m p) as [k| |]; cbn [rbind]; try discriminate. destruct (cmod m p _) as [m1| |] eqn:M; cbn [rbind]; try discriminate.
  assert (MK : same_but_marks m m1) by (eapply marked; [|exact M]; intros k0; eexists; reflexivity).
  destruct (if pid3 k =? pid then Ok m1 else mine_prec nm pd pen layers fuel m1 time now post o p) as [m2| |] eqn:S2; cbn [rbind]; try discriminate. intros H.
  assert (KO : exists ko1, nth_error (m_store m1) o = Some ko1 /\ c_id ko1 = oid).
  { destruct MK as (st & -> & F). cbn [m_store set_store]. apply read in RO. clear -F RO B1. revert o RO. induction F as [|k k' l l' (q & ->) F IH]; intros [|o] RO; cbn in *; try discriminate; eauto.
    exists (with_pids k q). split; [reflexivity|]. injection RO as ->. rewrite B1. reflexivity. }
  destruct KO as (ko1 & N1 & <-). apply rt_trans with m1; [apply rt_step; left; exact MK|]. apply rt_trans with m2; [|eapply IH; exact H].
  destruct (pid3 k =? pid); [injection S2 as <-; apply rt_refl|]. destruct (mine_spec _ _ _ _ _ _ _ _ N1 S2) as [-> |L]; [apply rt_refl|]. apply rt_step. right. exact L.
Qed.
Lemma op_spec n : forall j m p2 p3 time now post m' p', op_loop nm pd pen layers fuel n j m p2 p3 time now post = Ok (m', p') ->
  RT (learns_for_operation nm pd pen layers fuel time now post) m m'.
Proof.
  induction n as [|n IH]; intros j m p2 p3 time now post m' p'; cbn [op_loop]; [intros H; injection H as <- _; apply rt_refl|].
  destruct (_ <? _); [|intros H; injection H as <- _; apply rt_refl]. destruct (kth_newest m j) as [o| |]; cbn [rbind]; try discriminate.
  destruct (cread m o) as [k| |] eqn:RO; cbn [rbind]; try discriminate. destruct (cmod m o _) as [m1| |] eqn:M; cbn [rbind]; try discriminate.
  assert (MK : same_but_marks m m1) by (eapply marked; [|exact M]; intros k0; eexists; reflexivity).
  destruct (_ && _) eqn:B; intros H; (apply rt_trans with m1; [apply rt_step; left; exact MK|]); [|eapply IH; exact H].
  apply andb_prop in B as [B B7]. apply andb_prop in B as [B B6]. apply andb_prop in B as [B B5]. apply andb_prop in B as [B B4]. apply andb_prop in B as [B B3]. apply andb_prop in B as [_ B2].
  apply present_there in B2. apply Z.ltb_lt in B3, B4, B5, B6. apply negb_true_iff, Nat.eqb_neq in B7.
  destruct (prec_loop _ _ _ _ _ _ _ _ _ _ _ _ _ _) as [m2| |] eqn:P; cbn [rbind] in H; try discriminate. apply prec_spec in P.
  apply rt_trans with m2; [|eapply IH; exact H]. apply rt_step. right.
  apply read in RO. unfold cmod, cread in M. rewrite RO in M. cbn [rbind] in M. assert (LO : (o < List.length (m_store m))%nat) by (apply nth_error_Some; congruence).
  assert (m1 = set_store m (upd (m_store m) o (with_pid2 k p2))) by congruence. subst m1.
  exists o, (with_pid2 k p2). split. { cbn [m_store set_store]. clear -LO. revert o LO. generalize (m_store m). induction l as [|x l IH]; intros [|o] L; cbn in *; try lia; auto. apply IH. lia. }
  split; [|exact P]. split; [exact B7|]. split; [split; auto|]. auto.
Qed.
End L.
