(** Property theorems C45: registering operations. *)
From Coq Require Import ZArith List Bool Lia String.
From Verif Require Import Base F64 HashM HashP StackM StackP HashTableM HashTableS HashTableP TermM TermS TermP NamesM AtomsM AtomsS AtomsP VariableM VariableP2 MemoryM ParserM ParserS ParserP3 PrintP ReadP PropsParser OpsM OpsS OpsP.
Import ListNotations.
Local Open Scope Z_scope.
Notation length := List.length.
Notation ops_start st := (mkOps st (repeat op0 10) 0).

(** C45, for registrations through NAR_AddOperation.  After start-up and interning any names,
    and any sequence of registrations of operator names with procedures: if the symbols and the
    distinct operator names (at most 10) fit, the k-th slot holds the k-th distinct name with the
    procedure registered last for it, every other slot is empty, and look-up of a term gives slot
    j (numbered from 1) exactly if the term's operator is the name in that slot; if they do not
    fit the program stops with its error message. *)
Theorem C45_registration_partial : forall cap ns st is hs, symbols cap ns = Ok (st, is) -> Z.of_nat cap < 65536 ->
  Forall (fun n => ~ In 0 n) ns -> Forall (fun h => ~ In 0 (fst h)) hs ->
  Forall (fun h => operator_name (fst h) /\ snd h <> 0) hs ->
  if (length (firsts (a_names st) (map (fun h => firstn 31 (fst h)) hs)) <=? cap)%nat && (length (registry hs) <=? 10)%nat
  then exists s, AddOperations cap (ops_start st) hs = Ok s /\ length (n_ops s) = 10%nat /\ n_k s = length (registry hs) /\
    (forall k n a, nth_error (registry hs) k = Some (n, a) ->
       exists i, nth_error (n_ops s) k = Some (mkOp (atomic_term i) a (repeat zero_term 10) false) /\ name_of (a_names (n_st s)) i = n) /\
    (forall k, (length (registry hs) <= k < 10)%nat -> nth_error (n_ops s) k = Some op0) /\
    (forall t j, operationID (a_names (n_st s)) (n_ops s) t = S j <->
       exists n a, nth_error (registry hs) j = Some (n, a) /\ operator_of (a_names (n_st s)) t n)
  else AddOperations cap (ops_start st) hs = Abort.
Proof.
  intros cap ns st is hs S0 C65 Z1 Z2 F. destruct (ainv_symbols cap ns st is S0) as (I & LC & NMS).
  assert (OI : oinv (a_names st) (repeat op0 10) 0 []). { exists []. split; [reflexivity|]. split; [constructor|]. split; [reflexivity|cbn; lia]. }
  pose proof (add_ops cap C65 hs F (ops_start st) [] I LC OI) as H. cbn [n_st n_ops n_k] in H. cbn zeta in H.
  change (fold_left (fun l h => put l (firstn 31 (fst h)) (snd h)) hs []) with (registry hs) in H. change OPERATIONS_MAX with 10%nat in H.
  destruct ((length (firsts (a_names st) (map (fun h => firstn 31 (fst h)) hs)) <=? cap)%nat && (length (registry hs) <=? 10)%nat); [|exact H].
  destruct H as (s & E & I' & N' & OI'). exists s. split; [exact E|]. rewrite N'. pose proof OI' as OIC. destruct OI' as (used & EO & FR & EK & LR). pose proof (F2_length _ _ _ FR) as LU.
  split; [rewrite EO, app_length, repeat_length; unfold OPERATIONS_MAX in *; lia|]. split; [exact EK|]. split; [|split].
  - intros k n a K. assert (G : forall reg used k, Forall2 (rel (firsts (a_names st) (map (fun h => firstn 31 (fst h)) hs))) reg used -> nth_error reg k = Some (n, a) ->
        exists o, nth_error used k = Some o /\ rel (firsts (a_names st) (map (fun h => firstn 31 (fst h)) hs)) (n, a) o).
    { clear. intros reg used k H. revert k. induction H; intros [|k] K; cbn in *; try discriminate; [injection K as ->; eauto|auto]. }
    destruct (G _ _ _ FR K) as (o & K1 & i & K2 & ->). exists (1 + Z.of_nat i). split; [|apply nth_name_of; auto].
    rewrite EO. rewrite nth_error_app1; auto. apply nth_error_Some. congruence.
  - intros k K. rewrite EO. rewrite nth_error_app2 by lia. rewrite nth_error_nth' with (d := op0); [|rewrite repeat_length; unfold OPERATIONS_MAX; lia]. f_equal. apply nth_repeat.
  - assert (NZ : no_zero (a_names (n_st s))).
    { unfold no_zero. rewrite N'. rewrite NMS. rewrite <- firsts_app. apply Forall_forall. intros n Hn.
      assert (G : forall acc l n, In n (firsts acc l) -> In n acc \/ In n l).
      { clear. intros acc l. revert acc. induction l as [|x l IH]; intros acc n H; cbn [firsts] in H; auto. destruct (in_dec name_dec x acc); apply IH in H as [H|H]; cbn; auto.
        apply in_app_or in H as [H|[H|[]]]; auto. }
      apply G in Hn as [[]|Hn]. assert (IN : exists m, n = firstn 31 m /\ ~ In 0 m).
      { apply in_app_or in Hn as [Hn|Hn]; apply in_map_iff in Hn as (m & <- & Hm).
        - exists m. split; [reflexivity|]. apply in_app_or in Hm as [Hm|Hm]; [|rewrite Forall_forall in Z1; auto].
          assert (X : forallb (fun n => forallb (fun c => negb (c =? 0)) n) init_list = true) by (vm_compute; reflexivity).
          rewrite forallb_forall in X. specialize (X _ Hm). rewrite forallb_forall in X. intros Y. specialize (X _ Y). discriminate X.
        - exists (fst m). split; [reflexivity|]. rewrite Forall_forall in Z2. apply Z2; auto. }
      destruct IN as (m & -> & NI). intros Y. apply NI. rewrite <- (firstn_skipn 31 m). apply in_or_app. auto. }
    rewrite N' in NZ. assert (ND : NoDup (firsts (a_names st) (map (fun h => firstn 31 (fst h)) hs))) by (rewrite <- N'; apply I').
    intros t j. rewrite (lookup_ok _ _ _ _ t ND OIC); [|unfold registry; apply registry_nodup; constructor]. split.
    + intros (A & b & B). exists (name_of (firsts (a_names st) (map (fun h => firstn 31 (fst h)) hs)) (getOperationAtom (firsts (a_names st) (map (fun h => firstn 31 (fst h)) hs)) t)), b.
      split; [exact B|]. apply operator_of_iff; auto.
    + intros (n & a & A & B). apply operator_of_iff in B as (B & <-); auto. split; [exact B|]. exists a. exact A.
Qed.
Print Assumptions C45_registration_partial.

(** a null procedure or a name that does not start with ^ is refused *)
Theorem C45_refused : forall cap s n a s', AddOperation cap s n a = Ok s' -> a <> 0 /\ nth 0 n 0 = 94.
Proof.
  intros cap s n a s'. unfold AddOperation. destruct (Z.eqb_spec a 0); cbn [negb rassert rbind]; [discriminate|]. destruct (AtomicTerm cap (n_st s) n) as [[st t]| |]; cbn [rbind]; try discriminate.
  destruct (Z.eqb_spec (nth 0 n 0) 94); cbn [rassert rbind]; [auto|discriminate].
Qed.
Print Assumptions C45_refused.

Lemma res_ex {A} (r : res A) (f : A -> bool) : match r with Ok x => f x | _ => false end = true -> exists x, r = Ok x /\ f x = true.
Proof. destruct r as [x| |]; intros H; try discriminate H. exists x. auto. Qed.
(** "Every name": registering the name ^ twice fills two slots, and no look-up ever finds it. *)
Theorem C45_every_name_refuted : exists s, AddOperations 200 (ops_start st0) [(txt "^", 5); (txt "^", 6)] = Ok s /\ n_k s = 2%nat /\
  op_term (nth 0 (n_ops s) op0) = op_term (nth 1 (n_ops s) op0) /\ op_action (nth 0 (n_ops s) op0) = 5 /\ op_action (nth 1 (n_ops s) op0) = 6 /\
  operationID (a_names (n_st s)) (n_ops s) (op_term (nth 0 (n_ops s) op0)) = 0%nat.
Proof.
  destruct (res_ex (AddOperations 200 (ops_start st0) [(txt "^", 5); (txt "^", 6)]) (fun s => Nat.eqb (n_k s) 2 && term_eqb (op_term (nth 0 (n_ops s) op0)) (op_term (nth 1 (n_ops s) op0)) &&
    (op_action (nth 0 (n_ops s) op0) =? 5) && (op_action (nth 1 (n_ops s) op0) =? 6) && Nat.eqb (operationID (a_names (n_st s)) (n_ops s) (op_term (nth 0 (n_ops s) op0))) 0)) as (s & E & H); [vm_compute; reflexivity|].
  exists s. split; [exact E|]. apply andb_prop in H as [H H5]. apply andb_prop in H as [H H4]. apply andb_prop in H as [H H3]. apply andb_prop in H as [H1 H2].
  apply Nat.eqb_eq in H1, H5. apply Z.eqb_eq in H3, H4. apply term_eqb_eq in H2. auto.
Qed.
Print Assumptions C45_every_name_refuted.

(** Renaming with *setopname: accepted only while there are no concepts and for slots 1 to 10;
    the slot then holds the name, no other slot does, and its procedure is the old one (the
    do-nothing procedure if it had none); other slots keep their procedures. *)
Theorem C45_rename_slot : forall cap concepts s opID n s', length (n_ops s) = 10%nat -> SetOpName cap concepts s opID n = Ok s' ->
  concepts = 0%nat /\ 1 <= opID <= 10 /\
  exists i st, AtomicTermIndex cap (n_st s) n = Ok (st, i) /\ n_st s' = st /\
    op_term (nth (Z.to_nat (opID - 1)) (n_ops s') op0) = atomic_term (to_atom i) /\
    op_action (nth (Z.to_nat (opID - 1)) (n_ops s') op0) <> 0 /\
    (to_atom i <> 0 -> forall k, k <> Z.to_nat (opID - 1) -> op_term (nth k (n_ops s') op0) <> atomic_term (to_atom i)) /\
    (forall k, op_action (nth k (n_ops s) op0) <> 0 -> op_action (nth k (n_ops s') op0) = op_action (nth k (n_ops s) op0)).
Proof.
  intros cap concepts s opID n s' L E. unfold SetOpName in E. destruct (Nat.eqb_spec concepts 0); cbn [rassert rbind] in E; [|discriminate].
  destruct ((1 <=? opID) && (opID <=? Z.of_nat OPERATIONS_MAX)) eqn:R; cbn [rassert rbind] in E; [|discriminate]. apply andb_prop in R as [R1 R2]. apply Z.leb_le in R1, R2. unfold OPERATIONS_MAX in R2. cbn in R2.
  unfold AtomicTerm in E. destruct (AtomicTermIndex cap (n_st s) n) as [[st i]| |] eqn:A; cbn [rbind] in E; try discriminate. injection E as <-.
  split; auto. split; [lia|]. exists i, st. split; auto. cbn [n_st n_ops]. split; auto.
  set (k0 := Z.to_nat (opID - 1)). set (t := atomic_term (to_atom i)). assert (KL : (k0 < length (clear_from t false (n_ops s)))%nat) by (rewrite clear_length; unfold k0; lia).
  assert (NTH : forall (l : list operation) k x, (k < length l)%nat -> nth k (upd l k x) op0 = x).
  { clear. induction l as [|a l IH]; intros [|k] x H; cbn in *; try lia; auto. apply IH. lia. }
  assert (NTO : forall (l : list operation) k j x, k <> j -> nth j (upd l k x) op0 = nth j l op0).
  { clear. induction l as [|a l IH]; intros [|k] [|j] x H; cbn in *; try congruence; auto. }
  rewrite NTH by auto. cbn [op_term op_action]. split; [reflexivity|]. split; [destruct (Z.eqb_spec (op_action (nth k0 (clear_from t false (n_ops s)) op0)) 0); [discriminate|auto]|].
  assert (AC : forall k, op_action (nth k (clear_from t false (n_ops s)) op0) = op_action (nth k (n_ops s) op0)).
  { intros k. destruct (Nat.lt_ge_cases k (length (n_ops s))) as [Q|Q]; [|rewrite !nth_overflow; auto; rewrite clear_length; auto]. rewrite clear_nth by auto. destruct (_ || _); reflexivity. }
  split.
  - intros NZ k NK. rewrite NTO by auto. assert (ZT : zero_term <> t). { intros X. apply NZ. rewrite <- (atomic_at (to_atom i)). change (at_ t 0 = 0). rewrite <- X. reflexivity. }
    destruct (Nat.lt_ge_cases k (length (n_ops s))) as [Q|Q]; [|rewrite nth_overflow by (rewrite clear_length; auto); exact ZT]. rewrite clear_nth by auto. cbn [orb].
    destruct (existsb (fun o => term_eqb (op_term o) t) (firstn (S k) (n_ops s))) eqn:X; [exact ZT|]. intros Y.
    assert (existsb (fun o => term_eqb (op_term o) t) (firstn (S k) (n_ops s)) = true); [|congruence]. apply existsb_exists. exists (nth k (n_ops s) op0). split; [|apply term_eqb_eq; exact Y].
    rewrite <- (firstn_skipn (S k) (n_ops s)) at 1. rewrite app_nth1 by (rewrite firstn_length; lia). apply nth_In. rewrite firstn_length. lia.
  - intros k NZ. destruct (Nat.eq_dec k k0) as [->|NK]; [|rewrite NTO by auto; apply AC]. rewrite NTH by auto. cbn [op_action]. rewrite AC. destruct (Z.eqb_spec (op_action (nth k0 (n_ops s) op0)) 0); [contradiction|reflexivity].
Qed.
Print Assumptions C45_rename_slot.

(** Renaming does not touch only its slot: giving slot 1 the name of slot 2 erases the name of
    slot 3 as well, whose operation is no longer found. *)
Theorem C45_rename_only_there_refuted : exists s s', AddOperations 200 (ops_start st0) [(txt "^a", 5); (txt "^b", 6); (txt "^c", 7)] = Ok s /\
  SetOpName 200 0 s 1 (txt "^b") = Ok s' /\
  operationID (a_names (n_st s)) (n_ops s) (op_term (nth 2 (n_ops s) op0)) = 3%nat /\
  operationID (a_names (n_st s')) (n_ops s') (op_term (nth 2 (n_ops s) op0)) = 0%nat /\ op_term (nth 2 (n_ops s') op0) = zero_term.
Proof.
  destruct (res_ex (do s <- AddOperations 200 (ops_start st0) [(txt "^a", 5); (txt "^b", 6); (txt "^c", 7)] ; do s' <- SetOpName 200 0 s 1 (txt "^b") ; Ok (s, s'))
    (fun '(s, s') => Nat.eqb (operationID (a_names (n_st s)) (n_ops s) (op_term (nth 2 (n_ops s) op0))) 3 &&
      Nat.eqb (operationID (a_names (n_st s')) (n_ops s') (op_term (nth 2 (n_ops s) op0))) 0 && term_eqb (op_term (nth 2 (n_ops s') op0)) zero_term)) as ([s s'] & E & H); [vm_compute; reflexivity|].
  destruct (AddOperations 200 (ops_start st0) _) as [x| |]; cbn [rbind] in E; [|discriminate E|discriminate E]. destruct (SetOpName 200 0 x 1 (txt "^b")) as [y| |] eqn:E2; cbn [rbind] in E; [|discriminate E|discriminate E].
  injection E as <- <-. exists x, y. split; [reflexivity|]. split; [exact E2|]. apply andb_prop in H as [H H3]. apply andb_prop in H as [H1 H2].
  apply Nat.eqb_eq in H1, H2. apply term_eqb_eq in H3. auto.
Qed.
Print Assumptions C45_rename_only_there_refuted.

(** the look-up is the one the concept memory uses *)
Theorem C45_same_lookup : forall nm m t, getOperationID nm m t = operationID nm (m_ops m) t.
Proof. reflexivity. Qed.
Print Assumptions C45_same_lookup.

Example C45_example : Forall (fun h => operator_name (fst h) /\ snd h <> 0) [(txt "^left", 5); (txt "^right", 6); (txt "^left", 7)] /\
  registry [(txt "^left", 5); (txt "^right", 6); (txt "^left", 7)] = [(txt "^left", 7); (txt "^right", 6)] /\
  exists s t st', AddOperations 200 (ops_start st0) [(txt "^left", 5); (txt "^right", 6); (txt "^left", 7)] = Ok s /\
    Narsese_Term 200 (n_st s) (txt "<({SELF} * a) --> ^right>") = Ok (st', t) /\ operationID (a_names (n_st s)) (n_ops s) t = 2%nat.
Proof.
  split; [repeat constructor; try discriminate; eexists; eexists; (split; [reflexivity|discriminate])|]. split; [vm_compute; reflexivity|].
  destruct (res_ex (do s <- AddOperations 200 (ops_start st0) [(txt "^left", 5); (txt "^right", 6); (txt "^left", 7)] ; do (st', t) <- Narsese_Term 200 (n_st s) (txt "<({SELF} * a) --> ^right>") ; Ok (s, st', t))
    (fun '(s, _, t) => Nat.eqb (operationID (a_names (n_st s)) (n_ops s) t) 2)) as ([[s st'] t] & E & H); [vm_compute; reflexivity|].
  destruct (AddOperations 200 (ops_start st0) _) as [x| |]; cbn [rbind] in E; [|discriminate E|discriminate E]. destruct (Narsese_Term 200 (n_st x) (txt "<({SELF} * a) --> ^right>")) as [[y z]| |] eqn:E2; cbn [rbind] in E; [|discriminate E|discriminate E].
  injection E as <- <- <-. exists x, z, y. split; [reflexivity|]. split; [exact E2|]. apply Nat.eqb_eq in H. exact H.
Qed.
