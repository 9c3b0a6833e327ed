(** Proofs about the removal of outdated links (C55). *)
From Coq Require Import ZArith List Bool Lia.
From Verif Require Import Base EventM TableM TableS TableP MemoryM QuestionM DecisionM.
Import ListNotations.
(** the link's source concept is still in its place *)
Definition current (m : memory) (i : implication) : Prop := exists c k, i_source i = Some c /\ nth_error (m_store m) c = Some k /\ c_id k = i_sourceId i.
Lemma valid_current m i b : ImplicationValid m i = Ok b -> (b = true <-> current m i).
Proof.
  unfold ImplicationValid, current. destruct (i_source i) as [c|]; [|discriminate]. unfold cread. destruct (nth_error (m_store m) c) as [k|] eqn:E; cbn [rbind]; [|discriminate].
  intros H. assert (b = (i_sourceId i =? c_id k)%Z) as -> by congruence. rewrite Z.eqb_eq. split; [intros Q; exists c, k; auto|]. intros (c' & k' & A & B & C). assert (c' = c) by congruence. subst c'. congruence.
Qed.
Lemma prune_exact m : forall B t A t', wf t -> entries t = A ++ B -> prune (List.length B) m t (List.length A) = Ok t' ->
  wf t' /\ forall i, In i (entries t') <-> In i A \/ In i B /\ current m i.
Proof.
  induction B as [|x B IH]; intros t A t' W E; cbn [List.length prune].
  - intros H. assert (t' = t) as -> by congruence. split; auto. intros i. rewrite E, app_nil_r. cbn. tauto.
  - pose proof (entries_length _ W) as L. rewrite E, app_length in L. cbn in L. destruct (Nat.ltb_spec (List.length A) (t_items t)) as [LT|GE]; [|lia].
    assert (SX : slot t (List.length A) = x).
    { pose proof (slot_entry t (List.length A) W LT) as S. rewrite E in S. rewrite nth_error_app2 in S by lia. rewrite Nat.sub_diag in S. cbn in S. congruence. }
    rewrite SX. destruct (ImplicationValid m x) as [v| |] eqn:V; cbn [rbind]; try discriminate. apply valid_current in V. destruct v; intros H.
    + destruct (IH t (A ++ [x]) t' W) as (W' & X); [rewrite <- app_assoc; exact E|rewrite app_length; exact H|]. split; auto. intros i. rewrite X, in_app_iff. cbn. split; [|intuition (subst; tauto)].
      intros [[Q|[<-|[]]]|[Q C]]; auto. right. split; auto. apply V. reflexivity.
    + destruct (remove_spec t (List.length A) W LT) as (W1 & E1 & _).
      destruct (IH (Table_Remove t (List.length A)) A t' W1) as (W' & X); [|exact H|].
      * rewrite E1, E, firstn_app, firstn_all, Nat.sub_diag. cbn [firstn]. rewrite app_nil_r. f_equal. rewrite skipn_app, skipn_all2 by lia. replace (S (List.length A) - List.length A) with 1 by lia. reflexivity.
      * split; auto. intros i. rewrite X. cbn. split; [intuition|]. intros [Q|[[<-|Q] C]]; auto. apply V in C. discriminate C.
Qed.
Lemma prune_all m t t' : wf t -> prune (t_items t) m t 0 = Ok t' -> wf t' /\ forall i, In i (entries t') <-> In i (entries t) /\ current m i.
Proof.
  intros W H. destruct (prune_exact m (entries t) t [] t' W eq_refl) as (W' & X); [cbn; rewrite (entries_length _ W); exact H|]. split; auto. intros i. rewrite X. cbn. tauto.
Qed.
