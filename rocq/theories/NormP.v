(** Variable_Normalize *)
From Coq Require Import ZArith List Bool.
From Verif Require Import Base F64 TruthM TermM TermS TermP TermP2 NamesM EventM VariableM VariableS.
Local Open Scope Z_scope.

Lemma order_from_app acc a b : order_from acc (a ++ b) = order_from (order_from acc a) b.
Proof. revert acc; induction a as [|x a IH]; intros acc; cbn [app order_from]; auto. destruct (in_dec Z.eq_dec x acc); auto. Qed.
Lemma order_from_extends acc l : exists more, order_from acc l = acc ++ more.
Proof.
  revert acc; induction l as [|n l IH]; intros acc; cbn [order_from]; [exists []; rewrite app_nil_r; auto|].
  destruct (in_dec Z.eq_dec n acc); auto. destruct (IH (acc ++ [n])) as (m & ->). exists (n :: m). rewrite <- app_assoc. reflexivity.
Qed.
Lemma order_from_in acc l a : In a (order_from acc l) <-> In a acc \/ In a l.
Proof.
  revert acc; induction l as [|n l IH]; intros acc; cbn [order_from]; [cbn; tauto|].
  destruct (in_dec Z.eq_dec n acc) as [I|I]; rewrite IH; [|rewrite in_app_iff]; cbn; intuition congruence.
Qed.
Lemma order_in l a : In a (order l) <-> In a l.
Proof. unfold order. rewrite order_from_in. cbn. tauto. Qed.
Lemma position_app a l l' : position a (l ++ l') = if in_dec Z.eq_dec a l then position a l else Z.of_nat (length l) + position a l'.
Proof.
  induction l as [|b l IH]; [reflexivity|]. cbn [app position]. rewrite IH. clear IH.
  destruct (Z.eqb_spec a b) as [->|N].
  - destruct (in_dec Z.eq_dec b (b :: l)) as [|X]; auto. exfalso. apply X. left. reflexivity.
  - destruct (in_dec Z.eq_dec a l) as [I|I], (in_dec Z.eq_dec a (b :: l)) as [J|J]; auto.
    + exfalso. apply J. right. exact I.
    + exfalso. destruct J as [J|J]; [congruence|auto].
    + cbn [length]. lia.
Qed.
Lemma position_range a l : In a l -> 1 <= position a l <= Z.of_nat (length l).
Proof.
  induction l as [|b l IH]; intros H; [destruct H|]. cbn [position length]. destruct (Z.eqb_spec a b); [lia|].
  destruct H as [->|H]; [congruence|]. specialize (IH H). lia.
Qed.
Lemma position_pos a l : 1 <= position a l.
Proof. induction l as [|b l IH]; cbn [position]; [lia|]. destruct (a =? b); lia. Qed.
Lemma position_inj a b l : In a l -> In b l -> position a l = position b l -> a = b.
Proof.
  induction l as [|c l IH]; intros A B; [destruct A|]. cbn [position]. pose proof (position_pos a l). pose proof (position_pos b l).
  destruct (Z.eqb_spec a c) as [->|], (Z.eqb_spec b c) as [->|]; intros; auto; try lia.
  destruct A as [->|A]; [congruence|]. destruct B as [->|B]; [congruence|]. apply IH; auto. lia.
Qed.

Section Norm.
Variable nm : names.
Hypothesis NM : exists rest, nm = init_list ++ rest.

Notation is_kind := (is_kind nm).
Lemma kind_excl k k' a : is_kind k a = true -> is_kind k' a = true -> k = k'.
Proof.
  unfold VariableS.is_kind, isIndependentVariable, isDependentVariable, isQueryVariable.
  intros H H'. destruct k, k'; auto; exfalso; apply andb_true_iff in H as [_ H]; apply andb_true_iff in H' as [_ H']; apply Z.eqb_eq in H, H'; lia.
Qed.
Lemma var_kind a : isVariable nm a = true <-> exists k, is_kind k a = true.
Proof.
  unfold isVariable. rewrite !orb_true_iff. split.
  - intros [[H|H]|H]; [exists Indep|exists Dep|exists Query]; exact H.
  - intros ([] & H); cbn in H; tauto.
Qed.
Lemma name_of_init a : 1 <= a <= 63 -> name_of nm a = name_of init_list a.
Proof.
  destruct NM as (rest & ->). intros H. unfold name_of. destruct (Z.leb_spec a 0); [lia|]. apply app_nth1. change (length init_list) with 63%nat. lia.
Qed.
Lemma kind_atom_kind k i : 1 <= i <= 9 -> is_kind k (kind_atom k i) = true.
Proof.
  intros H. assert (R : 1 <= kind_atom k i <= 63) by (destruct k; unfold kind_atom, indep_atom, dep_atom, query_atom; lia).
  unfold VariableS.is_kind, isIndependentVariable, isDependentVariable, isQueryVariable, ch0, ch1. rewrite (name_of_init _ R).
  assert (I : i = 1 \/ i = 2 \/ i = 3 \/ i = 4 \/ i = 5 \/ i = 6 \/ i = 7 \/ i = 8 \/ i = 9) by lia.
  destruct k, I as [->|[->|[->|[->|[->|[->|[->|[->| ->]]]]]]]]; reflexivity.
Qed.
Lemma kind_atom_inj k i j : kind_atom k i = kind_atom k j -> i = j.
Proof. destruct k; unfold kind_atom, indep_atom, dep_atom, query_atom; lia. Qed.

Variable t : term.
Hypothesis T : is_term t.
Notation kvars := (kvars nm t).
Definition kvars_before (k : kind) (j : nat) : list Z := order (filter (is_kind k) (firstn j t)).
(** the new name *)
Definition rename (a : Z) : Z :=
  if is_kind Indep a then indep_atom (position a (kvars Indep))
  else if is_kind Dep a then dep_atom (position a (kvars Dep))
  else if is_kind Query a then query_atom (position a (kvars Query)) else a.
Lemma rename_kind k a : is_kind k a = true -> rename a = kind_atom k (position a (kvars k)).
Proof.
  intros H. unfold rename. destruct (is_kind Indep a) eqn:A; [rewrite (kind_excl _ _ _ H A); reflexivity|].
  destruct (is_kind Dep a) eqn:B; [rewrite (kind_excl _ _ _ H B); reflexivity|].
  destruct (is_kind Query a) eqn:C; [rewrite (kind_excl _ _ _ H C); reflexivity|]. destruct k; congruence.
Qed.
Hypothesis NC : no_clash nm t.
Notation few_vars := (few_vars nm t).
Lemma kvars_split k j : exists more, kvars k = kvars_before k j ++ more.
Proof.
  unfold VariableS.kvars, kvars_before, order.
  replace (filter (is_kind k) t) with (filter (is_kind k) (firstn j t) ++ filter (is_kind k) (skipn j t)) by (rewrite <- filter_app, firstn_skipn; reflexivity).
  rewrite order_from_app. apply order_from_extends.
Qed.
Lemma firstn_S_at j : (j < SIZE)%nat -> firstn (S j) t = firstn j t ++ [at_ t j].
Proof.
  intros H. rewrite <- T in H. clear - H. unfold at_. revert j H. induction t as [|x l IH]; intros j H; [cbn in H; lia|].
  destruct j as [|j]; [reflexivity|]. cbn [firstn app nth]. f_equal. apply IH. cbn in H. lia.
Qed.
Lemma kvars_step k j : (j < SIZE)%nat -> kvars_before k (S j) =
  if is_kind k (at_ t j) then (if in_dec Z.eq_dec (at_ t j) (kvars_before k j) then kvars_before k j else kvars_before k j ++ [at_ t j])
  else kvars_before k j.
Proof.
  intros H. unfold kvars_before, order. rewrite firstn_S_at by exact H. rewrite filter_app, order_from_app. cbn [filter].
  destruct (is_kind k (at_ t j)); reflexivity.
Qed.
(** slots already renamed when the loop reaches slot j *)
Definition done (j i : nat) : Prop := exists k, is_kind k (at_ t i) = true /\ In (at_ t i) (kvars_before k j).
Record norm_inv (j : nat) (s : nstate) : Prop := {
  NI_term : is_term (n_term s);
  NI_flags : length (n_done s) = SIZE;
  NI_indep : n_indep s = 1 + Z.of_nat (length (kvars_before Indep j));
  NI_dep : n_dep s = 1 + Z.of_nat (length (kvars_before Dep j));
  NI_query : n_query s = 1 + Z.of_nat (length (kvars_before Query j));
  NI_at : forall i, (i < SIZE)%nat -> (done j i /\ nth i (n_done s) false = true /\ at_ (n_term s) i = rename (at_ t i)) \/
            (~ done j i /\ nth i (n_done s) false = false /\ at_ (n_term s) i = at_ t i) }.
Lemma fold_upd {A} (x : A) (d : A) ks : forall l i, (forall k, In k ks -> (k < length l)%nat) ->
  length (fold_left (fun l k => upd l k x) ks l) = length l /\
  nth i (fold_left (fun l k => upd l k x) ks l) d = if in_dec Nat.eq_dec i ks then x else nth i l d.
Proof.
  induction ks as [|k ks IH]; intros l i H; [cbn; auto|]. cbn [fold_left]. destruct (IH (upd l k x) i) as [A1 A2].
  { intros k' K. rewrite upd_length. apply H. right. exact K. }
  rewrite A1, A2, upd_length. split; auto. destruct (in_dec Nat.eq_dec i ks) as [I|I].
  - destruct (in_dec Nat.eq_dec i (k :: ks)) as [|J]; auto. exfalso. apply J. right. exact I.
  - destruct (in_dec Nat.eq_dec i (k :: ks)) as [[->|J]|J]; [|contradiction|].
    + apply nth_upd_same. apply H. left. reflexivity.
    + apply nth_upd_diff. intros ->. apply J. left. reflexivity.
Qed.
Lemma before_in k j a : In a (kvars_before k j) -> is_kind k a = true /\ exists i, (i < j)%nat /\ (i < SIZE)%nat /\ at_ t i = a.
Proof.
  unfold kvars_before. rewrite order_in, filter_In. intros [H K]. split; auto. apply (In_nth _ _ 0) in H as (i & L & E).
  rewrite firstn_length in L. exists i. split; [lia|]. split; [rewrite <- T; lia|]. rewrite <- E. unfold at_.
  transitivity (nth i (firstn j t ++ skipn j t) 0); [rewrite firstn_skipn; reflexivity|]. apply app_nth1. rewrite firstn_length. lia.
Qed.
Lemma in_before k j i : (i < j)%nat -> (i < SIZE)%nat -> is_kind k (at_ t i) = true -> In (at_ t i) (kvars_before k j).
Proof.
  intros H HS K. unfold kvars_before. rewrite order_in, filter_In. split; auto. unfold at_.
  assert (X : nth i t 0 = nth i (firstn j t) 0) by (transitivity (nth i (firstn j t ++ skipn j t) 0); [rewrite firstn_skipn; reflexivity|]; apply app_nth1; rewrite firstn_length, T; lia).
  rewrite X. apply nth_In. rewrite firstn_length, T. lia.
Qed.
Lemma norm_step_ok j s : (j < SIZE)%nat -> norm_inv j s ->
  (forall k, Z.of_nat (length (kvars_before k (S j))) <= 9) ->
  exists s', norm_step nm s j = Ok s' /\ norm_inv (S j) s'.
Proof.
  intros J I L9. destruct (NI_at _ _ I j J) as [(D & F & A)|(D & F & A)].
  - exists s. unfold norm_step. rewrite F. cbn [negb andb]. split; [reflexivity|].
    assert (SAME : forall k, kvars_before k (S j) = kvars_before k j).
    { intros k. rewrite kvars_step by exact J. destruct (is_kind k (at_ t j)) eqn:K; auto. destruct D as (k' & K1 & K2). rewrite (kind_excl _ _ _ K1 K) in K2.
      destruct (in_dec Z.eq_dec (at_ t j) (kvars_before k j)); [auto|contradiction]. }
    destruct I. constructor; rewrite ?SAME; auto. intros i Hi. destruct (NI_at0 i Hi) as [(X & Y)|(X & Y)]; [left|right]; (split; [|exact Y]).
    + destruct X as (k & X). exists k. rewrite SAME. exact X.
    + intros (k & Z1). apply X. exists k. rewrite SAME in Z1. exact Z1.
  - unfold norm_step. rewrite F, A. cbn [negb andb]. destruct (isVariable nm (at_ t j)) eqn:V.
    + apply var_kind in V as (k & K).
      assert (NIN : ~ In (at_ t j) (kvars_before k j)) by (intros X; apply D; exists k; auto).
      set (a := at_ t j) in *.
      assert (KS : kvars_before k (S j) = kvars_before k j ++ [a]).
      { rewrite kvars_step by exact J. fold a. rewrite K. destruct (in_dec Z.eq_dec a (kvars_before k j)); [contradiction|reflexivity]. }
      assert (KO : forall k', k' <> k -> kvars_before k' (S j) = kvars_before k' j).
      { intros k' N. rewrite kvars_step by exact J. fold a. destruct (is_kind k' a) eqn:K'; auto. destruct (N (kind_excl _ _ _ K' K)). }
      set (idx := if isIndependentVariable nm a then n_indep s else if isDependentVariable nm a then n_dep s else n_query s).
      assert (IDX : idx = 1 + Z.of_nat (length (kvars_before k j))).
      { unfold idx. change (isIndependentVariable nm a) with (is_kind Indep a). change (isDependentVariable nm a) with (is_kind Dep a). destruct I.
        destruct (is_kind Indep a) eqn:K1; [rewrite (kind_excl _ _ _ K K1); auto|]. destruct (is_kind Dep a) eqn:K2; [rewrite (kind_excl _ _ _ K K2); auto|].
        destruct k; [congruence|congruence|auto]. }
      assert (POSN : position a (kvars k) = idx).
      { destruct (kvars_split k (S j)) as (more & M). rewrite KS in M. rewrite M, <- app_assoc, position_app.
        destruct (in_dec Z.eq_dec a (kvars_before k j)); [contradiction|]. cbn [app position]. rewrite Z.eqb_refl. lia. }
      assert (I9 : idx <= 9). { specialize (L9 k). rewrite KS, app_length in L9. cbn [length] in L9. lia. }
      replace (idx <=? 9) with true by (symmetry; apply Z.leb_le; exact I9). cbn [rassert rbind].
      set (new := if isIndependentVariable nm a then indep_atom idx else if isDependentVariable nm a then dep_atom idx else query_atom idx).
      assert (NEW : new = rename a).
      { rewrite (rename_kind k a K), POSN. unfold new. change (isIndependentVariable nm a) with (is_kind Indep a). change (isDependentVariable nm a) with (is_kind Dep a).
        destruct (is_kind Indep a) eqn:K1; [rewrite (kind_excl _ _ _ K K1); reflexivity|]. destruct (is_kind Dep a) eqn:K2; [rewrite (kind_excl _ _ _ K K2); reflexivity|].
        destruct k; [congruence|congruence|reflexivity]. }
      set (ks := filter (fun k0 => at_ (n_term s) k0 =? a) (seq j (SIZE - j))).
      assert (KSIN : forall i, (i < SIZE)%nat -> (In i ks <-> at_ t i = a)).
      { intros i Hi. unfold ks. rewrite filter_In, in_seq, Z.eqb_eq. destruct (NI_at _ _ I i Hi) as [(D1 & _ & A1)|(D1 & _ & A1)]; rewrite A1.
        - (* already renamed: not [a], before or after *)
          assert (X : at_ t i <> a). { intros X. destruct D1 as (k' & K1 & K2). rewrite X in *. rewrite (kind_excl _ _ _ K1 K) in K2. contradiction. }
          split; [|intros Y; contradiction]. intros [_ R]. exfalso. destruct D1 as (k' & K1 & K2).
          destruct (kvars_split k' j) as (more & M).
          assert (P1 : position (at_ t i) (kvars k') = position (at_ t i) (kvars_before k' j)).
          { rewrite M, position_app. destruct (in_dec Z.eq_dec (at_ t i) (kvars_before k' j)); [reflexivity|contradiction]. }
          pose proof (position_range _ _ K2) as P2. rewrite <- P1 in P2.
          rewrite (rename_kind k' _ K1) in R.
          assert (B : Z.of_nat (length (kvars_before k' j)) <= 9).
          { specialize (L9 k'). rewrite kvars_step in L9 by exact J. fold a in L9. destruct (is_kind k' a); [|exact L9].
            destruct (in_dec Z.eq_dec a (kvars_before k' j)); [exact L9|]. rewrite app_length in L9. cbn in L9. lia. }
          assert (KK : k' = k). { apply (kind_excl k' k a); auto. rewrite <- R. apply kind_atom_kind. lia. } subst k'.
          assert (INA : In a (kvars k)). { destruct (kvars_split k (S j)) as (m2 & M2). rewrite M2, KS. apply in_or_app. left. apply in_or_app. right. left. reflexivity. }
          pose proof (NC k a (position (at_ t i) (kvars k)) INA ltac:(lia) (eq_sym R)) as CL. lia.
        - split; [tauto|]. intros E. split; auto. split; [|lia]. destruct (Nat.lt_ge_cases i j) as [LT|]; auto. exfalso. apply D. exists k. split; auto.
          change (In a (kvars_before k j)). rewrite <- E. apply in_before; auto. rewrite E. exact K. }
      assert (KLT : forall i, In i ks -> (i < SIZE)%nat) by (intros i X; unfold ks in X; apply filter_In in X as [X _]; apply in_seq in X; lia).
      assert (TT : forall i, (i < SIZE)%nat -> at_ (fold_left (fun t k => upd t k new) ks (n_term s)) i = if Z.eq_dec (at_ t i) a then new else at_ (n_term s) i).
      { intros i Hi. unfold at_ at 1. destruct (fold_upd new 0 ks (n_term s) i) as [_ ->]; [rewrite (NI_term _ _ I); exact KLT|].
        destruct (in_dec Nat.eq_dec i ks) as [X|X], (Z.eq_dec (at_ t i) a) as [Y|Y]; auto; [apply KSIN in X; tauto|exfalso; apply X, KSIN; auto]. }
      assert (DD : forall i, (i < SIZE)%nat -> nth i (fold_left (fun d k => upd d k true) ks (n_done s)) false = if Z.eq_dec (at_ t i) a then true else nth i (n_done s) false).
      { intros i Hi. destruct (fold_upd true false ks (n_done s) i) as [_ ->]; [rewrite (NI_flags _ _ I); exact KLT|].
        destruct (in_dec Nat.eq_dec i ks) as [X|X], (Z.eq_dec (at_ t i) a) as [Y|Y]; auto; [apply KSIN in X; tauto|exfalso; apply X, KSIN; auto]. }
      assert (LT : is_term (fold_left (fun t k => upd t k new) ks (n_term s))) by (unfold is_term; destruct (fold_upd new 0 ks (n_term s) 0) as [-> _]; [rewrite (NI_term _ _ I); exact KLT|apply (NI_term _ _ I)]).
      assert (LD : length (fold_left (fun d k => upd d k true) ks (n_done s)) = SIZE) by (destruct (fold_upd true false ks (n_done s) 0) as [-> _]; [rewrite (NI_flags _ _ I); exact KLT|apply (NI_flags _ _ I)]).
      assert (FIN : forall i, (i < SIZE)%nat ->
        (done (S j) i /\ nth i (fold_left (fun d k => upd d k true) ks (n_done s)) false = true /\ at_ (fold_left (fun t k => upd t k new) ks (n_term s)) i = rename (at_ t i)) \/
        (~ done (S j) i /\ nth i (fold_left (fun d k => upd d k true) ks (n_done s)) false = false /\ at_ (fold_left (fun t k => upd t k new) ks (n_term s)) i = at_ t i)).
      { intros i Hi. rewrite TT, DD by exact Hi. destruct (Z.eq_dec (at_ t i) a) as [E|N].
        - left. rewrite E. split; [|auto]. exists k. rewrite E, KS. split; auto. apply in_or_app. right. left. reflexivity.
        - destruct (NI_at _ _ I i Hi) as [(X & Y)|(X & Y)]; [left|right]; (split; [|exact Y]).
          + destruct X as (k' & X1 & X2). exists k'. split; auto. destruct (kvars_split k' j) as (m1 & _). rewrite kvars_step by exact J. fold a.
            destruct (is_kind k' a); auto. destruct (in_dec Z.eq_dec a (kvars_before k' j)); auto. apply in_or_app. auto.
          + intros (k' & X1 & X2). apply X. exists k'. split; auto. rewrite kvars_step in X2 by exact J. fold a in X2.
            destruct (is_kind k' a); auto. destruct (in_dec Z.eq_dec a (kvars_before k' j)); auto. apply in_app_or in X2 as [X2|[X2|[]]]; [auto|congruence]. }
      eexists. split; [reflexivity|].
      assert (LEN : Z.of_nat (length (kvars_before k (S j))) = Z.of_nat (length (kvars_before k j)) + 1) by (rewrite KS, app_length; cbn; lia).
      assert (LO : forall k', k' <> k -> length (kvars_before k' (S j)) = length (kvars_before k' j)) by (intros k' N; rewrite KO; auto).
      change (isIndependentVariable nm a) with (is_kind Indep a). change (isDependentVariable nm a) with (is_kind Dep a).
      destruct I as [_ _ I1 I2 I3 _].
      destruct (is_kind Indep a) eqn:K1; [assert (k = Indep) by (apply (kind_excl _ _ _ K K1)); subst k|
        destruct (is_kind Dep a) eqn:K2; [assert (k = Dep) by (apply (kind_excl _ _ _ K K2)); subst k|
          assert (k = Query) by (destruct k; congruence); subst k]];
      (constructor; cbn [n_term n_done n_indep n_dep n_query]; auto; rewrite ?LEN, ?(LO Indep), ?(LO Dep), ?(LO Query) by discriminate; lia).
    + exists s. split; [reflexivity|].
      assert (SAME : forall k, kvars_before k (S j) = kvars_before k j).
      { intros k. rewrite kvars_step by exact J. destruct (is_kind k (at_ t j)) eqn:K; auto. exfalso. assert (isVariable nm (at_ t j) = true) by (apply var_kind; exists k; exact K). congruence. }
      destruct I. constructor; rewrite ?SAME; auto. intros i Hi. destruct (NI_at0 i Hi) as [(X & Y)|(X & Y)]; [left|right]; (split; [|exact Y]).
      * destruct X as (k & X). exists k. rewrite SAME. exact X.
      * intros (k & Z1). apply X. exists k. rewrite SAME in Z1. exact Z1.
Qed.
Lemma norm_step_abort j s : (j < SIZE)%nat -> norm_inv j s ->
  (forall k, Z.of_nat (length (kvars_before k j)) <= 9) -> (exists k, 9 < Z.of_nat (length (kvars_before k (S j)))) ->
  norm_step nm s j = Abort.
Proof.
  intros J I L9 (k & G9). rewrite kvars_step in G9 by exact J. specialize (L9 k). destruct (is_kind k (at_ t j)) eqn:K; [|lia].
  destruct (in_dec Z.eq_dec (at_ t j) (kvars_before k j)) as [|NIN]; [lia|]. rewrite app_length in G9. cbn [length] in G9.
  assert (D : ~ done j j). { intros (k' & K1 & K2). rewrite (kind_excl _ _ _ K1 K) in K2. contradiction. }
  destruct (NI_at _ _ I j J) as [(D' & _)|(_ & F & A)]; [contradiction|].
  unfold norm_step. rewrite F, A. cbn [negb andb]. replace (isVariable nm (at_ t j)) with true by (symmetry; apply var_kind; exists k; exact K).
  set (a := at_ t j) in *. 
  replace (if isIndependentVariable nm a then n_indep s else if isDependentVariable nm a then n_dep s else n_query s) with 10; [reflexivity|].
  change (isIndependentVariable nm a) with (is_kind Indep a). change (isDependentVariable nm a) with (is_kind Dep a). destruct I.
  destruct (is_kind Indep a) eqn:K1; [rewrite (kind_excl _ _ _ K K1) in *; lia|]. destruct (is_kind Dep a) eqn:K2; [rewrite (kind_excl _ _ _ K K2) in *; lia|].
  destruct k; [congruence|congruence|lia].
Qed.
Lemma kvars_all k : kvars_before k SIZE = kvars k.
Proof. unfold kvars_before, kvars. rewrite firstn_all2; [reflexivity|]. rewrite T. apply le_n. Qed.
Lemma kvars_mono k j j' : (j <= j')%nat -> (length (kvars_before k j) <= length (kvars_before k j'))%nat.
Proof.
  intros H. unfold kvars_before, order. replace (firstn j' t) with (firstn j t ++ skipn j (firstn j' t)).
  - rewrite filter_app, order_from_app. destruct (order_from_extends (order_from [] (filter (is_kind k) (firstn j t))) (filter (is_kind k) (skipn j (firstn j' t)))) as (m & ->).
    rewrite app_length. lia.
  - rewrite <- (firstn_skipn j (firstn j' t)) at 2. f_equal. rewrite firstn_firstn. f_equal. lia.
Qed.
Lemma norm_loop_ok d : forall j s, (j + d = SIZE)%nat -> norm_inv j s -> (forall k, Z.of_nat (length (kvars_before k j)) <= 9) ->
  (few_vars -> exists s', norm_loop nm (seq j d) s = Ok s' /\ norm_inv SIZE s') /\ (~ few_vars -> norm_loop nm (seq j d) s = Abort).
Proof.
  induction d as [|d IH]; intros j s Hj I L9; cbn [seq norm_loop].
  - replace j with SIZE in * by lia. split; [intros _; exists s; auto|]. intros F. exfalso. apply F. intros k. rewrite <- kvars_all. apply L9.
  - assert (J : (j < SIZE)%nat) by lia.
    assert (DEC : (forall k, Z.of_nat (length (kvars_before k (S j))) <= 9) \/ exists k, 9 < Z.of_nat (length (kvars_before k (S j)))).
    { destruct (Z.le_gt_cases (Z.of_nat (length (kvars_before Indep (S j)))) 9) as [A|A]; [|right; exists Indep; lia].
      destruct (Z.le_gt_cases (Z.of_nat (length (kvars_before Dep (S j)))) 9) as [B|B]; [|right; exists Dep; lia].
      destruct (Z.le_gt_cases (Z.of_nat (length (kvars_before Query (S j)))) 9) as [C|C]; [|right; exists Query; lia].
      left. intros []; auto. }
    destruct DEC as [L|G].
    + destruct (norm_step_ok j s J I L) as (s1 & E & I1). rewrite E. cbn [rbind]. apply IH; auto. lia.
    + rewrite (norm_step_abort j s J I L9 G). split; [|reflexivity]. intros F. exfalso. destruct G as (k & G). specialize (F k). rewrite <- kvars_all in F.
      pose proof (kvars_mono k (S j) SIZE J). lia.
Qed.
Lemma normalize_ok : (few_vars -> Normalize nm t = Ok (map rename t)) /\ (~ few_vars -> Normalize nm t = Abort).
Proof.
  assert (I0 : norm_inv 0 (mkN 1 1 1 (repeat false SIZE) t)).
  { assert (K0 : forall k, kvars_before k 0 = []) by reflexivity.
    constructor; cbn [n_term n_done n_indep n_dep n_query]; rewrite ?K0; auto.
    - intros i Hi. right. split; [intros (k & _ & H); rewrite K0 in H; destruct H|]. split; auto.
      assert (G : forall n i, nth i (repeat false n) false = false) by (induction n; intros [|?]; cbn; auto). apply G. }
  assert (L0 : forall k, Z.of_nat (length (kvars_before k 0)) <= 9) by (intros k; cbn; lia).
  destruct (norm_loop_ok SIZE 0 _ eq_refl I0 L0) as [A B]. unfold Normalize. split; intros F.
  - destruct (A F) as (s' & E & I). rewrite E. cbn [rbind]. f_equal. apply term_ext; [apply (NI_term _ _ I)|unfold is_term; rewrite map_length; exact T|].
    intros i Hi. assert (R : at_ (map rename t) i = rename (at_ t i)).
    { unfold at_. rewrite (nth_indep _ 0 (rename 0)) by (rewrite map_length, T; exact Hi). apply map_nth. }
    rewrite R. destruct (NI_at _ _ I i Hi) as [(_ & _ & X)|(D & _ & X)]; [exact X|]. rewrite X.
    unfold rename. destruct (is_kind Indep (at_ t i)) eqn:K1; [exfalso; apply D; exists Indep; split; auto; apply in_before; auto|].
    destruct (is_kind Dep (at_ t i)) eqn:K2; [exfalso; apply D; exists Dep; split; auto; apply in_before; auto|].
    destruct (is_kind Query (at_ t i)) eqn:K3; [exfalso; apply D; exists Query; split; auto; apply in_before; auto|]. reflexivity.
  - rewrite (B F). reflexivity.
Qed.
Lemma kvars_in k a : In a (kvars k) <-> In a t /\ is_kind k a = true.
Proof. unfold VariableS.kvars. rewrite order_in, filter_In. tauto. Qed.
Lemma rename_keeps_kind k a : few_vars -> In a t -> is_kind k a = true -> is_kind k (rename a) = true.
Proof.
  intros F A K. rewrite (rename_kind k a K). apply kind_atom_kind. assert (I : In a (kvars k)) by (apply kvars_in; auto).
  pose proof (position_range _ _ I). specialize (F k). lia.
Qed.
Lemma rename_inj a b : few_vars -> In a t -> In b t -> isVariable nm a = true -> isVariable nm b = true -> rename a = rename b -> a = b.
Proof.
  intros F A B VA VB E. apply var_kind in VA as (k & K). apply var_kind in VB as (k' & K').
  pose proof (rename_keeps_kind k a F A K) as X. pose proof (rename_keeps_kind k' b F B K') as Y. rewrite E in X. assert (k' = k) by (apply (kind_excl _ _ _ Y X)). subst k'.
  rewrite (rename_kind k a K), (rename_kind k b K') in E. apply kind_atom_inj in E. apply (position_inj a b (kvars k)); auto; apply kvars_in; auto.
Qed.
Lemma rename_id a : isVariable nm a = false -> rename a = a.
Proof.
  intros H. assert (X : forall k, is_kind k a = false). { intros k. destruct (is_kind k a) eqn:K; auto. assert (isVariable nm a = true) by (apply var_kind; exists k; auto). congruence. }
  unfold rename. rewrite !X. reflexivity.
Qed.
End Norm.
