(** Property theorems C47: babbling picks only enabled operations, and gives way to a decision. *)
From Coq Require Import ZArith List Bool Lia.
From Flocq Require Import IEEE754.BinarySingleNaN.
From Verif Require Import Base F64 TruthM TruthS HashM HashP TermM TermS TermP TermP2 NamesM EventM TableM VariableM MemoryM QuestionM DecisionM DecisionS BabbleP.
Local Open Scope Z_scope.
Import ListNotations.

(** the operations babbling may use: [n] is the setting *babblingops *)
Definition enabled (n : Z) (ops : list operation) (i : nat) (o : operation) : Prop := usable ops i o /\ Z.of_nat i <= n.

(** C47: for every state of the generator, with *babblingops at least 1, babbling succeeds.  If
    the first operation is not set it decides nothing, otherwise for an enabled operation, with
    full desire; an operation with configured arguments is called with one of them. *)
Theorem C47_babbling_picks_enabled_operations : forall n ops rs, 1 <= n ->
  exists rs' d, MotorBabbling n ops rs = Ok (rs', d) /\
  (((forall o, ~ usable ops 1 o) /\ d = decision0 /\ rs' = rs)
   \/ exists o, enabled n ops (d_opid d) o /\ d_execute d = true /\ d_desire d = f1 /\
        ((at_ (nth 0 (op_args o) zero_term) 0 = 0 /\ d_args d = zero_term)
         \/ exists a, configured o a /\ d_args d = babble_args a)).
Proof.
  intros n ops rs N. destruct (op_run_spec ops) as (R1 & R2 & R3). unfold MotorBabbling.
  destruct (Z.ltb_spec 0 (Z.of_nat (op_run ops))) as [P|P].
  2: { exists rs, decision0. split; auto. left. split; auto. intros o U. apply usable_run in U as (U & _). lia. }
  destruct (myrand rs) as [rs1 r] eqn:M. pose proof (rand_bounds rs) as B. rewrite M in B. cbn [snd] in B.
  set (d := if n <? Z.of_nat (op_run ops) then n else Z.of_nat (op_run ops)).
  assert (D : 1 <= d /\ d <= n /\ d <= Z.of_nat (op_run ops)) by (unfold d; destruct (Z.ltb_spec n (Z.of_nat (op_run ops))); lia).
  destruct (Z.eqb_spec d 0); [lia|]. rewrite Z.rem_mod_nonneg by lia. pose proof (Z.mod_pos_bound r d ltac:(lia)) as MB.
  set (q := r mod d) in *. replace (1 + q - 1) with q by lia. destruct (Z.ltb_spec q 0); [lia|].
  destruct (nth_error ops (Z.to_nat q)) as [o|] eqn:E; [|apply nth_error_None in E; lia].
  assert (EN : enabled n ops (Z.to_nat (1 + q)) o).
  { split; [|lia]. apply usable_run. split; [lia|]. replace (Z.to_nat (1 + q) - 1)%nat with (Z.to_nat q) by lia. exact E. }
  destruct (Z.eqb_spec (at_ (nth 0 (op_args o) zero_term) 0) 0) as [Z0|NZ]; cbn [negb].
  - eexists _, _. split; [reflexivity|]. right. exists o. cbn [d_opid d_execute d_desire d_args]. auto 6.
  - destruct (myrand rs1) as [rs2 r2] eqn:M2. pose proof (rand_bounds rs1) as B2. rewrite M2 in B2. cbn [snd] in B2.
    destruct (term_run_spec (op_args o)) as (T1 & T2 & T3). specialize (T3 NZ).
    eexists _, _. split; [reflexivity|]. right. exists o. cbn [d_opid d_execute d_desire d_args]. split; [exact EN|]. split; auto. split; auto. right.
    set (k := Z.to_nat (Z.rem r2 (Z.of_nat (term_run (op_args o))))).
    assert (K : (k < term_run (op_args o))%nat) by (unfold k; rewrite Z.rem_mod_nonneg by lia; pose proof (Z.mod_pos_bound r2 (Z.of_nat (term_run (op_args o))) ltac:(lia)); lia).
    exists (nth k (op_args o) zero_term). split; [|reflexivity]. exists k. split; [apply nth_error_nth'; lia|]. intros j b J Eb. apply (T2 j); [lia|exact Eb].
Qed.
Print Assumptions C47_babbling_picks_enabled_operations.
(** the call has the arguments ({SELF} * a), whenever a is not too deep for a term *)
Theorem C47_babbling_arguments : forall a, closed a -> at_ a 0 <> 0 -> fits (tree_at a 0) 2 ->
  tree_at (babble_args a) 0 = self_and (tree_at a 0).
Proof. exact babble_args_tree. Qed.
Print Assumptions C47_babbling_arguments.
(** every enabled operation is picked in some state of the generator *)
Theorem C47_every_enabled_operation_is_picked : forall n ops i o, enabled n ops i o -> (i <= 10)%nat ->
  exists rs rs' d, MotorBabbling n ops rs = Ok (rs', d) /\ d_opid d = i /\ d_execute d = true.
Proof.
  intros n ops i o (U & N) I10. apply usable_run in U as (I & E). exists (before (Z.of_nat (i - 1))). unfold MotorBabbling.
  destruct (Z.ltb_spec 0 (Z.of_nat (op_run ops))); [|lia].
  pose proof (before_ok (Z.of_nat (i - 1)) ltac:(lia)) as B. destruct (myrand (before (Z.of_nat (i - 1)))) as [rs1 r]. cbn [snd] in B. subst r.
  set (d := if n <? Z.of_nat (op_run ops) then n else Z.of_nat (op_run ops)).
  assert (D : Z.of_nat i <= d) by (unfold d; destruct (Z.ltb_spec n (Z.of_nat (op_run ops))); lia).
  destruct (Z.eqb_spec d 0); [lia|]. rewrite Z.rem_small by lia. replace (1 + Z.of_nat (i - 1) - 1) with (Z.of_nat (i - 1)) by lia.
  destruct (Z.ltb_spec (Z.of_nat (i - 1)) 0); [lia|]. rewrite Nat2Z.id, E.
  destruct (negb (at_ (nth 0 (op_args o) zero_term) 0 =? 0)).
  - destruct (myrand rs1) as [rs2 r2]. eexists _, _. split; [reflexivity|]. cbn [d_opid d_execute]. split; auto. lia.
  - eexists _, _. split; [reflexivity|]. cbn [d_opid d_execute]. split; auto. lia.
Qed.
Print Assumptions C47_every_enabled_operation_is_picked.
(** The setting *babblingops is not checked (Shell.c 247-250): with 0 the program divides by zero,
    with a negative number it picks operations that are not set, or reads outside the array. *)
Definition named_op : operation := mkOp (atomic_term 70) 1 (repeat zero_term 10) false.
Theorem C47_babbling_for_every_setting_refuted :
  (forall rs, MotorBabbling 0 (named_op :: repeat op0 9) rs = UB) /\
  (exists rs rs' d, MotorBabbling (-2) (named_op :: repeat op0 9) rs = Ok (rs', d) /\ d_opid d = 2%nat /\ d_execute d = true) /\
  (exists rs, MotorBabbling (-20) (named_op :: repeat op0 9) rs = UB).
Proof.
  split; [|split].
  - intros rs. unfold MotorBabbling. change (Z.of_nat (op_run (named_op :: repeat op0 9))) with 1. cbn [Z.ltb Z.compare]. destruct (myrand rs) as [a b]. reflexivity.
  - exists (before 1).
    assert (X : match MotorBabbling (-2) (named_op :: repeat op0 9) (before 1) with Ok (_, d) => (d_opid d =? 2)%nat && d_execute d | _ => false end = true) by (vm_compute; reflexivity).
    destruct (MotorBabbling (-2) (named_op :: repeat op0 9) (before 1)) as [[rs' d]| |]; [|discriminate X|discriminate X].
    apply andb_prop in X as [X1 X2]. apply Nat.eqb_eq in X1. exists rs', d. auto.
  - exists (before 15).
    assert (X : match MotorBabbling (-20) (named_op :: repeat op0 9) (before 15) with UB => true | _ => false end = true) by (vm_compute; reflexivity).
    destruct (MotorBabbling (-20) (named_op :: repeat op0 9) (before 15)) as [?| |]; [discriminate X|discriminate X|reflexivity].
Qed.
Print Assumptions C47_babbling_for_every_setting_refuted.

Section Suggest.
Variable nm : names.
Variable av : Z -> option (f64 * name).
Variable simdist : f64.
Variable powdecay : Z -> f64.
Variables threshold chance : f64.
Variable n : Z.
Notation best := (BestCandidate nm av simdist powdecay threshold).
Notation suggest := (Suggest nm av simdist powdecay threshold chance n).
(** C47: the suggestion is the best decision for the goal, unless the random draw is below the
    babbling chance, babbling yields an operation, and the best decision's desire is not above
    0.55; then it is the babbled one. *)
Theorem C47_babbling_gives_way : forall m g goal now rs rs' m' d, suggest m g goal now rs = Ok (rs', m', d) ->
  exists d0, best m g goal now = Ok (m', d0) /\
  (fltb SUPPRESSION (d_desire d0) = true -> d = d0) /\
  (d = d0 \/ (snd (myrand rs) < Btrunc (fmul chance (fofZ 32767)) /\ fltb SUPPRESSION (d_desire d0) = false /\
              MotorBabbling n (m_ops m) (fst (myrand rs)) = Ok (rs', d) /\ d_execute d = true)).
Proof.
  intros m g goal now rs rs' m' d H. unfold Suggest in H. destruct (myrand rs) as [rs1 r]. cbn [fst snd].
  destruct (negb (is_finite (fmul chance (fofZ 32767))) || _); [discriminate H|].
  destruct (Z.ltb_spec r (Btrunc (fmul chance (fofZ 32767)))) as [L|L].
  - destruct (MotorBabbling n (m_ops m) rs1) as [[rs2 b]| |] eqn:MB; cbn [rbind] in H; [|discriminate H|discriminate H].
    destruct (best m g goal now) as [[m1 d0]| |] eqn:BC; cbn [rbind] in H; [|discriminate H|discriminate H]. injection H as <- <- <-.
    exists d0. split; auto. destruct (fltb SUPPRESSION (d_desire d0)) eqn:S.
    + rewrite orb_true_r. auto.
    + rewrite orb_false_r. split; [discriminate|]. destruct (d_execute b) eqn:X; cbn [negb]; [right; auto|left; reflexivity].
  - cbn [rbind] in H. destruct (best m g goal now) as [[m1 d0]| |] eqn:BC; cbn [rbind] in H; [|discriminate H|discriminate H]. injection H as <- <- <-.
    exists d0. split; auto.
Qed.
End Suggest.
Print Assumptions C47_babbling_gives_way.
(** with *motorbabbling=false the best decision is always taken *)
Theorem C47_babbling_off : forall nm av simdist powdecay threshold n m g goal now rs rs' m' d,
  Suggest nm av simdist powdecay threshold f0 n m g goal now rs = Ok (rs', m', d) ->
  BestCandidate nm av simdist powdecay threshold m g goal now = Ok (m', d).
Proof.
  intros nm av simdist powdecay threshold n m g goal now rs rs' m' d H.
  destruct (C47_babbling_gives_way nm av simdist powdecay threshold f0 n _ _ _ _ _ _ _ _ H) as (d0 & A & _ & [-> | (L & _)]); auto.
  exfalso. pose proof (rand_bounds rs). assert (E : Btrunc (fmul f0 (fofZ 32767)) = 0) by (vm_compute; reflexivity). rewrite E in L. lia.
Qed.
Print Assumptions C47_babbling_off.
(** a configuration with two operations, the second with two arguments *)
Definition two_ops : list operation :=
  mkOp (atomic_term 70) 1 (repeat zero_term 10) false :: mkOp (atomic_term 71) 1 (atomic_term 80 :: atomic_term 81 :: repeat zero_term 8) false :: repeat op0 8.
Example C47_example : exists rs' d o, MotorBabbling 10 two_ops (before 1) = Ok (rs', d) /\ d_opid d = 2%nat /\ enabled 10 two_ops 2 o /\
  configured o (atomic_term 81).
Proof.
  assert (X : match MotorBabbling 10 two_ops (before 1) with Ok (_, d) => (d_opid d =? 2)%nat | _ => false end = true) by (vm_compute; reflexivity).
  destruct (MotorBabbling 10 two_ops (before 1)) as [[rs' d]| |]; [|discriminate X|discriminate X].
  eexists rs', d, _. split; [reflexivity|]. split; [apply Nat.eqb_eq; exact X|]. split.
  - split; [|lia]. apply usable_run. split; [split; vm_compute; lia|]. vm_compute. reflexivity.
  - exists 1%nat. split; [reflexivity|]. intros [|[|j]] b J E; [injection E as <-; discriminate|injection E as <-; discriminate|lia].
Qed.
