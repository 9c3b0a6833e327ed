(** Proofs about StackM. *)
From Verif Require Import Base StackM.

Section StackP.
Context {A : Type}.
(** [s] is a stack over an array of its full capacity, holding the list [l] (top first). *)
Definition holds (s : stack A) (l : list A) : Prop :=
  length (s_items s) = s_max s /\ s_sp s = length l /\ length l <= s_max s /\
  forall i, i < length l -> nth_error (s_items s) i = option_map Some (nth_error (rev l) i).

Lemma holds_init n : holds (Stack_INIT (repeat None n) n) [].
Proof. unfold holds, Stack_INIT; cbn. rewrite repeat_length. repeat split; auto; lia. Qed.
Lemma push_holds s l x : holds s l ->
  (length l < s_max s -> exists s', Stack_Push s x = Ok s' /\ holds s' (x :: l) /\ s_max s' = s_max s) /\
  (length l = s_max s -> Stack_Push s x = UB).
Proof.
  intros (H1 & H2 & H3 & H4). unfold Stack_Push. rewrite H1, H2. split; intros H.
  - destruct (Nat.ltb_spec (length l) (s_max s)); [|lia]. cbv zeta. cbn [s_sp].
    destruct (Nat.leb_spec (S (length l)) (s_max s)); [|lia]. cbn [rassert rbind]. eexists; split; [reflexivity|].
    split; [|reflexivity].
    unfold holds; cbn [s_items s_sp s_max length rev]. rewrite upd_length. repeat split; auto.
    intros i Hi. rewrite nth_error_upd, H1.
    destruct (Nat.eqb_spec i (length l)) as [->|N].
    + destruct (Nat.ltb_spec (length l) (s_max s)); [|lia]. cbn [andb].
      rewrite nth_error_app2, rev_length, Nat.sub_diag by (rewrite rev_length; lia). reflexivity.
    + cbn [andb]. rewrite H4 by lia. rewrite nth_error_app1 by (rewrite rev_length; lia). reflexivity.
  - destruct (Nat.ltb_spec (length l) (s_max s)); [lia|]. reflexivity.
Qed.
Lemma pop_holds s l : holds s l ->
  match l with
  | [] => Stack_Pop s = Abort
  | x :: l' => exists s', Stack_Pop s = Ok (s', x) /\ holds s' l' /\ s_max s' = s_max s
  end.
Proof.
  intros (H1 & H2 & H3 & H4). unfold Stack_Pop. destruct l as [|x l'].
  - rewrite H2. reflexivity.
  - rewrite H2. cbn [length]. rewrite H4 by (cbn; lia). cbn [rev].
    rewrite nth_error_app2, rev_length, Nat.sub_diag by (rewrite rev_length; lia). cbn [nth_error option_map].
    eexists; split; [reflexivity|]. split; [|reflexivity]. unfold holds; cbn [s_items s_sp s_max].
    cbn [length rev] in *. repeat split; auto; try lia.
    intros i Hi. rewrite H4 by lia. rewrite nth_error_app1 by (rewrite rev_length; lia). reflexivity.
Qed.
Lemma empty_holds s l : holds s l -> Stack_IsEmpty s = match l with [] => true | _ => false end.
Proof. intros (_ & H & _). unfold Stack_IsEmpty. rewrite H. destruct l; reflexivity. Qed.

(** Histories of pushes and pops *)
Inductive sop := SPush (x : A) | SPop.
Fixpoint stack_run (s : stack A) (os : list sop) : res (stack A * list A) :=
  match os with
  | [] => Ok (s, [])
  | SPush x :: os => do s' <- Stack_Push s x ; stack_run s' os
  | SPop :: os => do (s', x) <- Stack_Pop s ; do (s'', out) <- stack_run s' os ; Ok (s'', x :: out)
  end.
(** the specification: a list with capacity n; None: the history pushes on a full or pops from
    an empty stack *)
Fixpoint lifo_run (n : nat) (l : list A) (os : list sop) : res (list A * list A) :=
  match os with
  | [] => Ok (l, [])
  | SPush x :: os => if length l =? n then UB else lifo_run n (x :: l) os
  | SPop :: os => match l with
      | [] => Abort
      | x :: l' => match lifo_run n l' os with Ok (l'', out) => Ok (l'', x :: out) | Abort => Abort | UB => UB end
      end
  end.
Lemma run_lifo os : forall s l, holds s l ->
  match lifo_run (s_max s) l os with
  | Ok (l', out) => exists s', stack_run s os = Ok (s', out) /\ holds s' l'
  | Abort => stack_run s os = Abort
  | UB => stack_run s os = UB
  end.
Proof.
  induction os as [|[x|] os IH]; intros s l H; cbn [lifo_run stack_run].
  - eauto.
  - destruct (push_holds s l x H) as [P1 P2]. destruct (Nat.eqb_spec (length l) (s_max s)) as [E|E].
    + rewrite P2; auto.
    + destruct P1 as (s' & E' & H' & M'); [destruct H as (_ & _ & H & _); lia|]. rewrite E'. cbn [rbind].
      rewrite <- M'. apply IH; auto.
  - pose proof (pop_holds s l H) as P. destruct l as [|x l'].
    + rewrite P. reflexivity.
    + destruct P as (s' & E' & H' & M'). rewrite E'. cbn [rbind]. specialize (IH s' l' H'). rewrite M' in IH.
      destruct (lifo_run (s_max s) l' os) as [[l'' out]| |]; [|rewrite IH; reflexivity|rewrite IH; reflexivity].
      destruct IH as (s'' & E'' & H''). rewrite E''. cbn. eauto.
Qed.
Lemma stack_history capacity os :
  match lifo_run capacity [] os with
  | Ok (l, out) => exists s, stack_run (Stack_INIT (repeat None capacity) capacity) os = Ok (s, out) /\
                     Stack_IsEmpty s = match l with [] => true | _ => false end
  | Abort => stack_run (Stack_INIT (repeat None capacity) capacity) os = Abort
  | UB => stack_run (Stack_INIT (repeat None capacity) capacity) os = UB
  end.
Proof.
  pose proof (run_lifo os _ _ (holds_init capacity)) as R. cbn [s_max Stack_INIT] in R.
  destruct (lifo_run capacity [] os) as [[l out]| |]; auto.
  destruct R as (s' & E & H). exists s'. split; auto. apply empty_holds. exact H.
Qed.
End StackP.
Arguments sop A : clear implicits.
