(** Proofs about operation registration. *)
From Coq Require Import ZArith List Bool Lia.
From Verif Require Import Base F64 HashM HashP StackM StackP HashTableM HashTableS HashTableP TermM TermS TermP NamesM AtomsM AtomsS AtomsP VariableM VariableP2 MemoryM ParserM ParserS ParserP3 PrintP ReadP OpsM OpsS.
Local Open Scope Z_scope.

Lemma atomic_at a : at_ (atomic_term a) 0 = a. Proof. reflexivity. Qed.
Lemma atomic_inj a b : atomic_term a = atomic_term b -> a = b.
Proof. intros H. rewrite <- (atomic_at a), H. reflexivity. Qed.
Definition the_op (t : term) (a : Z) : operation := mkOp t a (repeat zero_term 10) false.
Definition rel (nm : names) (r : name * Z) (o : operation) : Prop :=
  exists i, nth_error nm i = Some (fst r) /\ o = the_op (atomic_term (1 + Z.of_nat i)) (snd r).
Definition oinv (nm : names) (ops : list operation) (k : nat) (reg : list (name * Z)) : Prop :=
  exists used, ops = used ++ repeat op0 (OPERATIONS_MAX - length used) /\ Forall2 (rel nm) reg used /\ k = length reg /\ (length reg <= OPERATIONS_MAX)%nat.
Lemma rel_more nm more r o : rel nm r o -> rel (nm ++ more) r o.
Proof. intros (i & H & E). exists i. split; auto. rewrite nth_error_app1; auto. apply nth_error_Some. congruence. Qed.
Lemma F2_impl {A B} (R R' : A -> B -> Prop) l l' : (forall a b, R a b -> R' a b) -> Forall2 R l l' -> Forall2 R' l l'.
Proof. induction 2; constructor; auto. Qed.
Lemma F2_length {A B} (R : A -> B -> Prop) l l' : Forall2 R l l' -> length l = length l'.
Proof. induction 1; cbn; auto. Qed.
Lemma oinv_more nm more ops k reg : oinv nm ops k reg -> oinv (nm ++ more) ops k reg.
Proof. intros (u & E & F & R). exists u. split; auto. split; auto. eapply F2_impl; [|exact F]. intros; apply rel_more; auto. Qed.
Lemma find_empty n : forall k a, a <> 0 -> find_op k a (repeat op0 n) = O.
Proof.
  induction n as [|n IH]; intros k a H; cbn [repeat find_op]; auto. change (at_ (op_term op0) 0) with 0. destruct (Z.eqb_spec 0 a); [congruence|]. apply IH; auto.
Qed.
Lemma find_ok nm i n rest : NoDup nm -> nth_error nm i = Some n -> find_op 1 1 [] = O -> forall reg used k, Forall2 (rel nm) reg used ->
  (exists j b, nth_error reg j = Some (n, b) /\ find_op k (1 + Z.of_nat i) (used ++ repeat op0 rest) = (k + j)%nat /\ (forall x, put reg n x = upd reg j (n, x)) /\ (j < length reg)%nat) \/
  (~ In n (map fst reg) /\ find_op k (1 + Z.of_nat i) (used ++ repeat op0 rest) = O /\ (forall x, put reg n x = reg ++ [(n, x)])).
Proof.
  intros ND I _ reg used k F. revert k. induction F as [|[m b] o reg used R F IH]; intros k.
  - right. split; [intros []|]. split; auto. apply find_empty. lia.
  - cbn [app find_op]. destruct R as (i' & I' & ->). cbn [fst snd the_op op_term] in *. rewrite atomic_at.
    destruct (Z.eqb_spec (1 + Z.of_nat i') (1 + Z.of_nat i)) as [Q|Q].
    + left. assert (i' = i) by lia. subst i'. assert (m = n) by congruence. subst m. exists O, b. cbn [nth_error put upd]. split; auto. split; [lia|]. split; [|cbn; lia].
      intros x. destruct (name_dec n n); [reflexivity|congruence].
    + assert (MN : m <> n). { intros ->. apply Q. f_equal. f_equal. apply (proj1 (NoDup_nth_error nm) ND); [apply nth_error_Some; congruence|congruence]. }
      destruct (IH (S k)) as [(j & b' & H1 & H2 & H3 & H4)|(H1 & H2 & H3)].
      * left. exists (S j), b'. split; auto. split; [rewrite H2; lia|]. split; [|cbn; lia]. intros x. cbn [put upd]. destruct (name_dec m n); [congruence|]. rewrite H3. reflexivity.
      * right. split; [cbn; intros [X|X]; auto|]. split; auto. intros x. cbn [put app]. destruct (name_dec m n); [congruence|]. rewrite H3. reflexivity.
Qed.
Lemma operator_checks nm a c r : name_of nm a = 94 :: c :: r -> c <> 0 -> isOperator nm a = true /\ forall d, copulaEquals nm a d = false.
Proof.
  intros H C. assert (0 < a) by (apply (name_pos nm); rewrite H; discriminate). unfold isOperator, copulaEquals, ch0, ch1. rewrite H. cbn [nth].
  destruct (Z.ltb_spec 0 a); [|lia]. destruct (Z.eqb_spec c 0); [contradiction|]. split; [reflexivity|]. intros d. apply andb_false_r.
Qed.
Lemma atom_of_atomic nm a c r : name_of nm a = 94 :: c :: r -> c <> 0 -> getOperationAtom nm (atomic_term a) = a.
Proof.
  intros H C. destruct (operator_checks nm a c r H C) as (O & N). unfold getOperationAtom. rewrite atomic_at, N. unfold getOperationAtom0. rewrite atomic_at, O. reflexivity.
Qed.
Lemma upd_app {A} (a b : list A) x y : upd (a ++ y :: b) (length a) x = a ++ x :: b.
Proof. induction a as [|z a IH]; cbn; auto. f_equal; auto. Qed.
Lemma upd_app_l {A} (a b : list A) i x : (i < length a)%nat -> upd (a ++ b) i x = upd a i x ++ b.
Proof. revert i; induction a as [|z a IH]; intros [|i] H; cbn in *; try lia; auto. f_equal. apply IH. lia. Qed.
Lemma Forall2_upd {A B} (R : A -> B -> Prop) l l' : Forall2 R l l' -> forall i x y, R x y -> Forall2 R (upd l i x) (upd l' i y).
Proof. induction 1 as [|a b l l' H F IH]; intros [|i] x y Q; cbn; constructor; auto. Qed.
Lemma block_op n : operator_name n -> exists c r, firstn 31 n = 94 :: c :: r /\ c <> 0.
Proof. intros (c & r & -> & H). exists c, (firstn 29 r). split; auto. Qed.

Section Cap.
Variable cap : nat.
Hypothesis CAP : Z.of_nat cap < 65536.
Lemma add_op s reg n a : ainv cap (n_st s) -> (length (a_names (n_st s)) <= cap)%nat -> oinv (a_names (n_st s)) (n_ops s) (n_k s) reg -> operator_name n -> a <> 0 ->
  let known := firsts (a_names (n_st s)) [firstn 31 n] in let reg' := put reg (firstn 31 n) a in
  if (length known <=? cap)%nat && (length reg' <=? OPERATIONS_MAX)%nat
  then exists s', AddOperation cap s n a = Ok s' /\ ainv cap (n_st s') /\ a_names (n_st s') = known /\ oinv known (n_ops s') (n_k s') reg'
  else AddOperation cap s n a = Abort.
Proof.
  intros I L OI ON NZ known reg'. unfold AddOperation, AtomicTerm. destruct (Z.eqb_spec a 0); [contradiction|]. cbn [negb rassert rbind].
  destruct (intern_then cap (n_st s) n I L) as [(LK & st' & i & E & I' & N' & _ & K)|(LK & E)]; change (block n) with (firstn 31 n) in *.
  2:{ change (cap < length known)%nat in LK. rewrite (proj2 (Nat.leb_gt (length known) cap) LK). cbn [andb]. rewrite E. reflexivity. }
  change (length known <= cap)%nat in LK. rewrite (proj2 (Nat.leb_le (length known) cap) LK). cbn [andb]. rewrite E. cbn [rbind]. change (a_names st' = known) in N'.
  assert (H94 : (nth 0 n 0 =? 94) = true) by (destruct ON as (c & r & -> & _); reflexivity). rewrite H94. cbn [rassert rbind].
  destruct (block_op n ON) as (c & r & BN & CN).
  assert (IL : (i < length (a_names st'))%nat) by (apply nth_error_Some; congruence).
  assert (TA : to_atom (1 + Z.of_nat i) = 1 + Z.of_nat i) by (unfold to_atom; apply Z.mod_small; rewrite N' in IL; lia). rewrite TA.
  assert (NAM : name_of (a_names st') (1 + Z.of_nat i) = 94 :: c :: r) by (rewrite <- BN; apply nth_name_of; auto).
  unfold operationID. rewrite (atom_of_atomic _ _ c r NAM CN). destruct (Z.eqb_spec (1 + Z.of_nat i) 0); [lia|].
  assert (OI' : oinv known (n_ops s) (n_k s) reg). { unfold known. destruct (firsts_extends (a_names (n_st s)) [firstn 31 n]) as (more & ->). apply oinv_more; auto. }
  destruct OI' as (used & EO & F & EK & LR). rewrite EO. rewrite N' in K. assert (ND : NoDup known) by (rewrite <- N'; apply I').
  assert (LU : length used = length reg) by (symmetry; eapply F2_length; eauto).
  destruct (find_ok known i (firstn 31 n) (OPERATIONS_MAX - length used) ND K eq_refl reg used 1 F) as [(j & b & H1 & H2 & H3 & H4)|(H1 & H2 & H3)]; rewrite H2.
  - unfold reg'. rewrite H3. rewrite upd_length. destruct (Nat.leb_spec (length reg) OPERATIONS_MAX); [|lia]. cbn [Nat.add].
    destruct (Nat.leb_spec (S j) OPERATIONS_MAX); [|lia]. cbn [rassert rbind]. eexists. split; [reflexivity|]. split; [exact I'|]. split; [exact N'|]. cbn [n_ops n_k n_st].
    exists (upd used j (the_op (atomic_term (1 + Z.of_nat i)) a)). rewrite !upd_length. cbn [Nat.sub]. rewrite Nat.sub_0_r. split; [apply upd_app_l; lia|]. split; [|split; auto].
    apply Forall2_upd; auto. exists i. split; auto.
  - unfold reg'. rewrite H3, app_length. cbn [length]. rewrite EK.
    destruct (Nat.leb_spec (length reg + 1) OPERATIONS_MAX) as [Q|Q]; destruct (Nat.leb_spec (S (length reg)) OPERATIONS_MAX); try lia; cbn [rassert rbind]; [|reflexivity].
    eexists. split; [reflexivity|]. split; [exact I'|]. split; [exact N'|]. cbn [n_ops n_k n_st].
    exists (used ++ [the_op (atomic_term (1 + Z.of_nat i)) a]). rewrite !app_length. cbn [length]. split; [|split; [|split; lia]].
    + cbn [Nat.sub]. rewrite Nat.sub_0_r, <- LU. destruct (OPERATIONS_MAX - length used)%nat as [|m] eqn:M; [lia|]. cbn [repeat]. rewrite upd_app, <- app_assoc. cbn [app].
      replace (OPERATIONS_MAX - (length used + 1))%nat with m by lia. reflexivity.
    + apply Forall2_app; auto. constructor; [|constructor]. exists i. split; auto.
Qed.
Lemma put_len l n a : (length l <= length (put l n a))%nat.
Proof. induction l as [|[m b] l IH]; cbn [put length]; [lia|]. destruct (name_dec m n); cbn [length]; lia. Qed.
Lemma registry_len hs : forall l, (length l <= length (fold_left (fun l h => put l (firstn 31 (fst h)) (snd h)) hs l))%nat.
Proof. induction hs as [|h hs IH]; intros l; cbn [fold_left]; auto. etransitivity; [|apply IH]. apply put_len. Qed.
Lemma add_ops hs : Forall (fun h => operator_name (fst h) /\ snd h <> 0) hs -> forall s reg,
  ainv cap (n_st s) -> (length (a_names (n_st s)) <= cap)%nat -> oinv (a_names (n_st s)) (n_ops s) (n_k s) reg ->
  let known := firsts (a_names (n_st s)) (map (fun h => firstn 31 (fst h)) hs) in let reg' := fold_left (fun l h => put l (firstn 31 (fst h)) (snd h)) hs reg in
  if (length known <=? cap)%nat && (length reg' <=? OPERATIONS_MAX)%nat
  then exists s', AddOperations cap s hs = Ok s' /\ ainv cap (n_st s') /\ a_names (n_st s') = known /\ oinv known (n_ops s') (n_k s') reg'
  else AddOperations cap s hs = Abort.
Proof.
  induction 1 as [|[n a] hs (ON & NZ) F IH]; intros s reg I L OI; cbn [map fold_left AddOperations fst snd].
  - cbn [firsts]. destruct (Nat.leb_spec (length (a_names (n_st s))) cap); [|lia]. destruct OI as (u & X). destruct (Nat.leb_spec (length reg) OPERATIONS_MAX); [|lia]. cbn [andb]. exists s. split; auto. split; auto. split; auto. exists u. exact X.
  - change (firstn 31 n :: ?x) with ([firstn 31 n] ++ x). rewrite firsts_app. cbn [fst snd] in *.
    pose proof (add_op s reg n a I L OI ON NZ) as A. cbn zeta in A.
    destruct ((length (firsts (a_names (n_st s)) [firstn 31 n]) <=? cap)%nat && (length (put reg (firstn 31 n) a) <=? OPERATIONS_MAX)%nat) eqn:Q.
    + destruct A as (s' & E & I' & N' & OI'). rewrite E. cbn [rbind]. rewrite <- N' in *. apply andb_prop in Q as [Q1 Q2]. apply Nat.leb_le in Q1, Q2. apply IH; auto.
    + rewrite A. cbn [rbind].
      match goal with |- if ?b then _ else _ => destruct b eqn:Q2; [|reflexivity] end. exfalso. apply andb_prop in Q2 as [Q3 Q4]. apply Nat.leb_le in Q3, Q4.
      pose proof (firsts_len (firsts (a_names (n_st s)) [firstn 31 n]) (map (fun h => firstn 31 (fst h)) hs)).
      pose proof (registry_len hs (put reg (firstn 31 n) a)). apply andb_false_iff in Q as [Q|Q]; apply Nat.leb_gt in Q; lia.
Qed.
End Cap.
(** look-up *)
Lemma op_atom_named nm t : getOperationAtom nm t <> 0 -> isOperator nm (getOperationAtom nm t) = true.
Proof.
  assert (G : forall t, getOperationAtom0 nm t <> 0 -> isOperator nm (getOperationAtom0 nm t) = true).
  { intros u. unfold getOperationAtom0. destruct (isOperator nm (at_ u 0)) eqn:Q; auto. unfold isOperation. rewrite Q. cbn [orb].
    destruct (copulaEquals nm (at_ u 0) INHERITANCE && copulaEquals nm (at_ u 1) PRODUCT && isOperator nm (at_ u 2) && copulaEquals nm (at_ u 3) EXT_SET) eqn:R; [|congruence].
    intros _. apply andb_prop in R as [R _]. apply andb_prop in R as [_ R]. exact R. }
  unfold getOperationAtom. destruct (copulaEquals nm (at_ t 0) SEQUENCE); [|apply G]. destruct (copulaEquals _ _ _); [congruence|apply G].
Qed.
Lemma lookup_ok nm ops k reg t : NoDup nm -> oinv nm ops k reg -> NoDup (map fst reg) -> forall j,
  operationID nm ops t = S j <-> getOperationAtom nm t <> 0 /\ exists b, nth_error reg j = Some (name_of nm (getOperationAtom nm t), b).
Proof.
  intros ND (used & -> & F & _ & _) NR j. unfold operationID. set (a := getOperationAtom nm t). destruct (Z.eqb_spec a 0) as [Q|Q]; [split; [discriminate|intros (X & _); contradiction]|].
  pose proof (op_atom_named nm t Q) as O. fold a in O. assert (NE0 : name_of nm a <> []). { unfold isOperator, ch0 in O. intros X. rewrite X in O. cbn in O. rewrite andb_false_r in O. discriminate O. }
  destruct (name_of_in nm a NE0) as (R & I). assert (EA : a = 1 + Z.of_nat (Z.to_nat (a - 1))) by lia.
  destruct (find_ok nm _ _ (OPERATIONS_MAX - length used) ND I eq_refl reg used 1 F) as [(j' & b & H1 & H2 & _)|(H1 & H2 & _)]; rewrite <- EA in H2; rewrite H2.
  - split.
    + intros [= <-]. split; auto. exists b. exact H1.
    + intros (_ & b' & H3). cbn. f_equal. apply (proj1 (NoDup_nth_error (map fst reg)) NR).
      * rewrite map_length. apply nth_error_Some. congruence.
      * erewrite !map_nth_error; [|exact H3|exact H1]. reflexivity.
  - split; [discriminate|]. intros (_ & b & H3). exfalso. apply H1. apply nth_error_In in H3. apply (in_map fst) in H3. exact H3.
Qed.
Lemma put_keys l n a : NoDup (map fst l) -> NoDup (map fst (put l n a)) /\ forall x, In x (map fst (put l n a)) -> In x (map fst l) \/ x = n.
Proof.
  induction l as [|[m b] l IH]; intros H; cbn [put map fst].
  - split; [repeat constructor; intros []|]. intros x [<-|[]]; auto.
  - inversion H as [|? ? N D]; subst. destruct (IH D) as (D' & K). destruct (name_dec m n) as [->|MN]; cbn [map fst]; [split; auto|]. split.
    + constructor; auto. intros X. apply K in X as [X|X]; auto.
    + intros x [<-|X]; [left; cbn; auto|]. apply K in X as [X|X]; cbn; auto.
Qed.
Lemma registry_nodup hs : forall l, NoDup (map fst l) -> NoDup (map fst (fold_left (fun l h => put l (firstn 31 (fst h)) (snd h)) hs l)).
Proof. induction hs as [|h hs IH]; intros l H; cbn [fold_left]; auto. apply IH. apply put_keys; auto. Qed.

(** *** *setopname *)
Lemma clear_length t ops : forall f, length (clear_from t f ops) = length ops.
Proof. induction ops as [|o ops IH]; intros f; cbn; auto. Qed.
Lemma term_eqb_eq a b : term_eqb a b = true <-> a = b. Proof. apply list_eqb_eq. Qed.
Lemma clear_nth t ops : forall f k, (k < length ops)%nat ->
  nth k (clear_from t f ops) op0 = if f || existsb (fun o => term_eqb (op_term o) t) (firstn (S k) ops) then with_opterm (nth k ops op0) zero_term else nth k ops op0.
Proof.
  induction ops as [|o ops IH]; intros f k L; cbn [length] in L; [lia|]. cbn [clear_from firstn existsb]. destruct k as [|k]; cbn [nth].
  - cbn [firstn existsb]. rewrite orb_false_r. reflexivity.
  - rewrite IH by lia. rewrite orb_assoc. reflexivity.
Qed.

(** *** the operator of a term *)
Definition no_zero (nm : names) : Prop := Forall (fun n => ~ In 0 n) nm.
Lemma no_zero_of nm a : no_zero nm -> ~ In 0 (name_of nm a).
Proof.
  intros H. unfold name_of. destruct (a <=? 0); [intros []|]. destruct (nth_in_or_default (Z.to_nat (a - 1)) nm []) as [I|E]; [|rewrite E; intros []].
  unfold no_zero in H. rewrite Forall_forall in H. apply H; auto.
Qed.
Lemma copula_iff nm a c : no_zero nm -> c <> 0 -> (copulaEquals nm a c = true <-> name_of nm a = [c]).
Proof.
  intros Z0 C. unfold copulaEquals, ch0, ch1. pose proof (no_zero_of nm a Z0) as Q. split.
  - intros H. apply andb_prop in H as [H H2]. apply andb_prop in H as [_ H1]. apply Z.eqb_eq in H1, H2.
    destruct (name_of nm a) as [|x [|y r]]; cbn in *; [congruence|congruence|]. exfalso. apply Q. auto.
  - intros E. assert (0 < a) by (apply (name_pos nm); rewrite E; discriminate). rewrite E. cbn [nth]. rewrite Z.eqb_refl. destruct (Z.ltb_spec 0 a); [reflexivity|lia].
Qed.
Lemma operator_iff nm a : isOperator nm a = true <-> operator_name (name_of nm a).
Proof.
  unfold isOperator, ch0, ch1. split.
  - intros H. apply andb_prop in H as [H H2]. apply andb_prop in H as [_ H1]. apply Z.eqb_eq in H1. apply negb_true_iff, Z.eqb_neq in H2.
    destruct (name_of nm a) as [|x [|y r]]; cbn in *; [congruence|congruence|]. exists y, r. subst; auto.
  - intros (c & r & E & C). assert (0 < a) by (apply (name_pos nm); rewrite E; discriminate). rewrite E. cbn [nth].
    destruct (Z.ltb_spec 0 a); [|lia]. destruct (Z.eqb_spec c 0); [contradiction|reflexivity].
Qed.
Lemma op_name_pos nm a n : name_of nm a = n -> operator_name n -> a <> 0.
Proof. intros E (c & r & -> & _) ->. discriminate E. Qed.
Lemma op_not_copula n c : operator_name n -> n <> [c]. Proof. intros (d & r & -> & _). discriminate. Qed.
Lemma op0_iff nm t n : no_zero nm -> copulaEquals nm (at_ t 0) SEQUENCE = false ->
  (operator_of nm t n <-> getOperationAtom0 nm t <> 0 /\ name_of nm (getOperationAtom0 nm t) = n).
Proof.
  intros Z0 NS. assert (NS' : name_of nm (at_ t 0) <> [SEQUENCE]). { intros X. apply (copula_iff nm _ SEQUENCE Z0) in X; [congruence|discriminate]. }
  unfold getOperationAtom0. split.
  - intros H. inversion H as [? ? E O|? ? E1 E2 E3 E4 O|? ? E]; subst; [| |contradiction].
    + rewrite (proj2 (operator_iff nm (at_ t 0)) O). split; auto. eapply op_name_pos; eauto.
    + assert (isOperator nm (at_ t 0) = false). { destruct (isOperator nm (at_ t 0)) eqn:Q; auto. apply operator_iff in Q. rewrite E1 in Q. destruct Q as (? & ? & ? & _). discriminate. }
      rewrite H0. unfold isOperation. rewrite H0, (proj2 (operator_iff nm (at_ t 2)) O), (proj2 (copula_iff nm (at_ t 0) INHERITANCE Z0 ltac:(discriminate)) E1), (proj2 (copula_iff nm (at_ t 1) PRODUCT Z0 ltac:(discriminate)) E2), (proj2 (copula_iff nm (at_ t 3) EXT_SET Z0 ltac:(discriminate)) E3). cbn [andb orb]. split; auto. eapply op_name_pos; eauto.
  - intros (NZ & E). destruct (isOperator nm (at_ t 0)) eqn:Q; [apply op_bare; auto; subst; apply operator_iff; auto|]. unfold isOperation in *. rewrite Q in *. cbn [orb] in *.
    destruct (copulaEquals nm (at_ t 0) INHERITANCE && copulaEquals nm (at_ t 1) PRODUCT && isOperator nm (at_ t 2) && copulaEquals nm (at_ t 3) EXT_SET) eqn:R; [|congruence].
    apply andb_prop in R as [R R3]. apply andb_prop in R as [R R2]. apply andb_prop in R as [R0 R1].
    apply copula_iff in R0; auto; [|discriminate]. apply copula_iff in R1; auto; [|discriminate]. apply copula_iff in R3; auto; [|discriminate].
    apply op_call; auto. subst. apply operator_iff; auto.
Qed.
Lemma operator_of_iff nm t n : no_zero nm -> (operator_of nm t n <-> getOperationAtom nm t <> 0 /\ name_of nm (getOperationAtom nm t) = n).
Proof.
  intros Z0. unfold getOperationAtom. destruct (copulaEquals nm (at_ t 0) SEQUENCE) eqn:Q; [|apply op0_iff; auto].
  apply copula_iff in Q; auto; [|discriminate]. set (p := Term_ExtractSubterm t 2).
  assert (G : operator_of nm t n <-> name_of nm (at_ p 0) <> [SEQUENCE] /\ operator_of nm p n).
  { split; [|intros (A & B); apply op_last; auto]. intros H. inversion H as [? ? E O|? ? E1 E2 E3 E4 O|? ? E A B]; subst; auto.
    - rewrite Q in O. exfalso. eapply op_not_copula; eauto.
    - rewrite Q in E1. discriminate E1. }
  rewrite G. destruct (copulaEquals nm (at_ p 0) SEQUENCE) eqn:R.
  - apply copula_iff in R; auto; [|discriminate]. split; [intros (X & _); contradiction|intros (X & _); congruence].
  - rewrite op0_iff by auto. split; [intros (_ & X); exact X|]. intros X. split; [|exact X]. intros Y. apply (copula_iff nm _ SEQUENCE Z0) in Y; [congruence|discriminate].
Qed.
