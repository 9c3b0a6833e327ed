From Verif Require Import Base HashM HashP StackM StackP HashTableM HashTableS HashTableP TermM TermP NamesM AtomsM AtomsS.
Local Open Scope Z_scope.

Lemma list_eqb_eq a b : list_eqb a b = true <-> a = b.
Proof.
  revert b; induction a as [|x a IH]; intros [|y b]; cbn [list_eqb]; split; try discriminate; auto.
  - intros H. apply andb_true_iff in H as [H1 H2]. apply Z.eqb_eq in H1. apply IH in H2. congruence.
  - intros [= -> ->]. rewrite Z.eqb_refl. apply IH. reflexivity.
Qed.
Lemma eq_refl_ k : StringEqual k k = true. Proof. apply list_eqb_eq. reflexivity. Qed.
Lemma eq_sym_ a b : StringEqual a b = StringEqual b a.
Proof.
  unfold StringEqual. destruct (list_eqb a b) eqn:E; symmetry.
  - apply list_eqb_eq in E. subst. apply list_eqb_eq. reflexivity.
  - destruct (list_eqb b a) eqn:F; auto. apply list_eqb_eq in F. subst. rewrite <- E. symmetry. apply list_eqb_eq. reflexivity.
Qed.
Lemma eq_trans_ a b c : StringEqual a b = true -> StringEqual b c = true -> StringEqual a c = true.
Proof. unfold StringEqual. rewrite !list_eqb_eq. congruence. Qed.
Lemma eq_hash_ a b : StringEqual a b = true -> StringHash a = StringHash b.
Proof. unfold StringEqual. rewrite list_eqb_eq. congruence. Qed.
Lemma hash_nonneg_ k : 0 <= StringHash k. Proof. apply hash_range. Qed.

Notation lookup := (@HashTableS.lookup name Z StringEqual).
Notation put := (@HashTableS.put name Z StringEqual).
(** numbering of a list of names *)
Fixpoint number (k : Z) (nm : names) : list (name * Z) :=
  match nm with [] => [] | n :: nm => (n, k) :: number (k + 1) nm end.
Lemma number_app k a b : number k (a ++ b) = number k a ++ number (k + Z.of_nat (length a)) b.
Proof.
  revert k; induction a as [|n a IH]; intros k; cbn [app number length].
  - f_equal. lia.
  - f_equal. rewrite IH. do 2 f_equal. lia.
Qed.
Lemma lookup_number n nm : forall k, lookup n (number k nm) = None /\ ~ In n nm \/
  exists i, lookup n (number k nm) = Some (k + Z.of_nat i) /\ nth_error nm i = Some n.
Proof.
  induction nm as [|x nm IH]; intros k; [left; split; auto|]. unfold HashTableS.lookup. cbn [number find fst].
  destruct (StringEqual x n) eqn:E.
  - apply list_eqb_eq in E. subst. right. exists 0%nat. cbn. split; auto. do 2 f_equal. lia.
  - destruct (IH (k + 1)) as [[H1 H2]|(i & H1 & H2)].
    + left. split; auto. intros [->|H]; auto. rewrite eq_refl_ in E. discriminate.
    + right. exists (S i). split; auto. unfold HashTableS.lookup in H1. rewrite H1. f_equal. lia.
Qed.

(** the invariant: the table maps each name of the (duplicate-free) list to its number *)
Definition ainv (cap : nat) (s : astate) : Prop :=
  NoDup (a_names s) /\ exists Bs free, inv StringEqual StringHash (a_table s) Bs free /\
    same StringEqual StringHash (number 1 (a_names s)) (a_table s) Bs /\ length (storage (a_table s)) = cap.

Lemma intern_ok cap s n : ainv cap s ->
  (In (block n) (a_names s) -> exists i, AtomicTermIndex cap s n = Ok (s, 1 + Z.of_nat i) /\ nth_error (a_names s) i = Some (block n)) /\
  (~ In (block n) (a_names s) -> (length (a_names s) < cap)%nat ->
     exists s', AtomicTermIndex cap s n = Ok (s', 1 + Z.of_nat (length (a_names s))) /\ a_names s' = a_names s ++ [block n] /\ ainv cap s') /\
  (~ In (block n) (a_names s) -> (cap <= length (a_names s))%nat -> AtomicTermIndex cap s n = Abort).
Proof.
  intros (ND & Bs & free & I & S & L). unfold AtomicTermIndex.
  rewrite (get_ok StringEqual StringHash eq_refl_ eq_sym_ eq_trans_ eq_hash_ hash_nonneg_ _ _ _ _ _ I S).
  destruct (lookup_number (block n) (a_names s) 1) as [[E H2]|(i & E & H2)]; rewrite E; cbn [rbind].
  - split; [tauto|].
    assert (LN : forall k nm, length (number k nm) = length nm) by (intros k nm; revert k; induction nm; intros; cbn; auto).
    split.
    + intros _ C. replace (length (a_names s) <? cap)%nat with true by (symmetry; apply Nat.ltb_lt; auto). cbn [rassert rbind].
      destruct (set_ok StringEqual StringHash eq_refl_ eq_sym_ eq_trans_ eq_hash_ hash_nonneg_ _ _ _ _ (block n) (Z.of_nat (length (a_names s)) + 1) I S)
        as (h' & Bs' & free' & E' & I' & S' & L'); [right; rewrite LN; lia|]. rewrite E'. cbn [rbind].
      eexists. split; [rewrite Z.add_comm; reflexivity|]. split; [reflexivity|]. split; cbn [a_names a_table].
      * apply (Permutation.Permutation_NoDup (Permutation.Permutation_cons_append _ _)). constructor; auto.
      * exists Bs', free'. split; [exact I'|]. split; [|rewrite L'; exact L]. rewrite number_app. cbn [number].
        unfold HashTableS.put in S'. rewrite has_lookup, E in S'.
        rewrite Z.add_comm in S'. exact S'.
    + intros _ C. replace (length (a_names s) <? cap)%nat with false by (symmetry; apply Nat.ltb_ge; auto). reflexivity.
  - split; [intros _; exists i; auto|]. apply nth_error_In in H2. split; tauto.
Qed.
Lemma firsts_app acc a b : firsts acc (a ++ b) = firsts (firsts acc a) b.
Proof. revert acc; induction a as [|n a IH]; intros acc; cbn [app firsts]; auto. destruct (in_dec name_dec n acc); auto. Qed.
Lemma firsts_extends acc ns : exists more, firsts acc ns = acc ++ more.
Proof.
  revert acc; induction ns as [|n ns IH]; intros acc; cbn [firsts]; [exists []; rewrite app_nil_r; auto|].
  destruct (in_dec name_dec n acc); auto. destruct (IH (acc ++ [n])) as (m & ->). exists (n :: m). rewrite <- app_assoc. reflexivity.
Qed.
Lemma firsts_nodup acc ns : NoDup acc -> NoDup (firsts acc ns).
Proof.
  revert acc; induction ns as [|n ns IH]; intros acc H; cbn [firsts]; auto. destruct (in_dec name_dec n acc); auto.
  apply IH. apply (Permutation.Permutation_NoDup (Permutation.Permutation_cons_append _ _)). constructor; auto.
Qed.
Lemma nth_name_of nm k x : nth_error nm k = Some x -> name_of nm (1 + Z.of_nat k) = x.
Proof.
  intros H. unfold name_of. destruct (Z.leb_spec (1 + Z.of_nat k) 0); [lia|]. replace (Z.to_nat (1 + Z.of_nat k - 1)) with k by lia.
  apply nth_error_nth. exact H.
Qed.
Lemma intern_all_ok cap ns : forall s, ainv cap s ->
  if (length (firsts (a_names s) (map block ns)) <=? cap)%nat
  then exists s' is, intern_all cap s ns = Ok (s', is) /\ ainv cap s' /\ a_names s' = firsts (a_names s) (map block ns) /\ length is = length ns /\ forall k n i, nth_error ns k = Some n -> nth_error is k = Some i -> 1 <= i <= Z.of_nat (length (a_names s')) /\ name_of (a_names s') i = block n
  else (length (a_names s) <= cap)%nat -> intern_all cap s ns = Abort.
Proof.
  induction ns as [|n ns IH]; intros s H; cbn [map firsts intern_all].
  - destruct (Nat.leb_spec (length (a_names s)) cap); [|lia]. exists s, []. split; auto. split; auto. split; auto. split; auto.
    intros [|k]; discriminate.
  - destruct (intern_ok cap s n H) as (A & B & C).
    assert (FIN : forall s1 i, AtomicTermIndex cap s n = Ok (s1, i) -> ainv cap s1 -> (exists j, i = 1 + Z.of_nat j /\ nth_error (a_names s1) j = Some (block n)) -> (length (a_names s) <= cap -> length (a_names s1) <= cap)%nat ->
      if (length (firsts (a_names s1) (map block ns)) <=? cap)%nat
      then exists s' is, (do (s, i) <- AtomicTermIndex cap s n ; do (s, is) <- intern_all cap s ns ; Ok (s, i :: is)) = Ok (s', is) /\ ainv cap s' /\ a_names s' = firsts (a_names s1) (map block ns) /\ length is = length (n :: ns) /\ forall k n' i, nth_error (n :: ns) k = Some n' -> nth_error is k = Some i -> 1 <= i <= Z.of_nat (length (a_names s')) /\ name_of (a_names s') i = block n'
      else (length (a_names s) <= cap)%nat -> (do (s, i) <- AtomicTermIndex cap s n ; do (s, is) <- intern_all cap s ns ; Ok (s, i :: is)) = Abort).
    { intros s1 i E I1 (j & -> & Hj) LL. specialize (IH s1 I1). rewrite E. cbn [rbind].
      destruct (length (firsts (a_names s1) (map block ns)) <=? cap)%nat.
      - destruct IH as (s' & is & E2 & I2 & N2 & L2 & K2). rewrite E2. cbn [rbind]. eexists; eexists. split; [reflexivity|]. split; auto. split; auto. split; [cbn; congruence|].
        intros [|k] n' i'; cbn [nth_error].
        + intros En Ei. assert (En' : n' = n) by congruence. assert (Ei' : i' = 1 + Z.of_nat j) by congruence. clear En Ei. subst n' i'. destruct (firsts_extends (a_names s1) (map block ns)) as (more & X).
          assert (Y : nth_error (a_names s') j = Some (block n)).
          { rewrite N2, X, nth_error_app1; auto. apply nth_error_Some. congruence. }
          split; [|apply nth_name_of; auto]. assert (j < length (a_names s'))%nat by (apply nth_error_Some; congruence). lia.
        + apply K2.
      - intros LC. rewrite (IH (LL LC)). reflexivity. }
    destruct (in_dec name_dec (block n) (a_names s)) as [Y|Y].
    + destruct (A Y) as (i & E & Hi). apply (FIN s (1 + Z.of_nat i)); eauto.
    + destruct (Nat.lt_ge_cases (length (a_names s)) cap) as [LC|LC].
      * destruct (B Y LC) as (s1 & E & N1 & I1). rewrite <- N1. apply (FIN s1 (1 + Z.of_nat (length (a_names s)))); auto.
        -- exists (length (a_names s)). split; auto. rewrite N1, nth_error_app2, Nat.sub_diag by lia. reflexivity.
        -- rewrite N1, app_length. cbn. lia.
      * rewrite (C Y LC). cbn [rbind]. destruct (firsts_extends (a_names s ++ [block n]) (map block ns)) as (more & X).
        destruct (Nat.leb_spec (length (firsts (a_names s ++ [block n]) (map block ns))) cap) as [Q|Q]; [|auto].
        rewrite X, !app_length in Q. cbn in Q. lia.
Qed.
Lemma init_firsts : firsts [] (map block init_list) = init_list.
Proof. vm_compute. reflexivity. Qed.
Lemma symbols_ok cap ns : (0 < cap)%nat ->
  if (length (firsts [] (map block (init_list ++ ns))) <=? cap)%nat
  then exists s' is, symbols cap ns = Ok (s', is) /\ a_names s' = firsts [] (map block (init_list ++ ns)) /\ NoDup (a_names s') /\ length is = length ns /\ forall k n i, nth_error ns k = Some n -> nth_error is k = Some i -> 1 <= i <= Z.of_nat (length (a_names s')) /\ name_of (a_names s') i = block n
  else symbols cap ns = Abort.
Proof.
  intros P. unfold symbols, Narsese_INIT.
  destruct (@init_ok name Z StringEqual StringHash cap cap P) as (h0 & Bs & free & E & I & S & L). rewrite E. cbn [rbind].
  assert (I0 : ainv cap (mkA h0 [])) by (split; [constructor|exists Bs, free; auto]).
  pose proof (intern_all_ok cap init_list _ I0) as X. cbn [a_names] in X. rewrite init_firsts in X.
  rewrite map_app, firsts_app, init_firsts.
  destruct (Nat.leb_spec (length init_list) cap) as [Q|Q].
  - destruct X as (s1 & is1 & E1 & I1 & N1 & _ & _). rewrite E1. cbn [rbind]. pose proof (intern_all_ok cap ns s1 I1) as Y. rewrite N1 in Y.
    destruct (length (firsts init_list (map block ns)) <=? cap)%nat.
    + destruct Y as (s2 & is2 & E2 & I2 & N2 & L2 & K2). rewrite E2. exists s2, is2. split; auto. split; auto. split; [apply I2|]. split; auto.
    + apply Y. exact Q.
  - rewrite X by (cbn; lia). cbn [rbind]. destruct (firsts_extends init_list (map block ns)) as (more & Y).
    destruct (Nat.leb_spec (length (firsts init_list (map block ns))) cap) as [Z|Z]; [|reflexivity]. rewrite Y, app_length in Z. lia.
Qed.
