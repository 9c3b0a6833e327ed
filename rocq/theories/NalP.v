(** Proofs for C49. *)
From Coq Require Import ZArith List Bool Lia.
From Verif Require Import Base F64 TruthM StampM TermM TermS TermP TermP2 NamesM EventM InferenceM TableM VariableM MemoryM MemoryS EverywhereS EverywhereP NalM NalS.
From Verif Require PQueueM HashTableM InvIndexM.
Local Open Scope nat_scope.
Import ListNotations.

Section P.
Variable nm : names.
Notation cop a k := (copulaEquals nm a k).

Lemma ex_in {A} (f : A -> bool) l : existsb f l = true <-> exists x, In x l /\ f x = true.
Proof. apply existsb_exists. Qed.
Lemma in_seq0 i n : In i (seq 0 n) <-> i < n. Proof. rewrite in_seq. lia. Qed.

Lemma appears_spec l : forall seen, appears_loop nm seen l = true <->
  (exists i a, nth_error l i = Some a /\ In a seen) \/ (exists i j a, i < j /\ nth_error l i = Some a /\ nth_error l j = Some a /\ IsSimpleAtom nm a = true).
Proof.
  induction l as [|x l IH]; intros seen; cbn [appears_loop].
  - split; [discriminate|]. intros [(i & a & H & _)|(i & j & a & _ & H & _)]; destruct i; discriminate.
  - rewrite orb_true_iff, IH, ex_in. split.
    + intros [(y & Y & E)|[(i & a & N & I)|(i & j & a & L & N1 & N2 & S)]].
      * apply Z.eqb_eq in E; subst y. left. exists 0, x. auto.
      * destruct (IsSimpleAtom nm x) eqn:SA; [|left; exists (Datatypes.S i), a; auto].
        destruct I as [->|I]; [|left; exists (Datatypes.S i), a; auto]. right. exists 0, (Datatypes.S i), a. cbn [nth_error]. repeat split; auto. lia.
      * right. exists (Datatypes.S i), (Datatypes.S j), a. cbn [nth_error]. repeat split; auto. lia.
    + intros [(i & a & N & I)|(i & j & a & L & N1 & N2 & S)].
      * destruct i as [|i]; cbn [nth_error] in N; [inversion N; subst; left; exists a; rewrite Z.eqb_refl; auto|].
        right. left. exists i, a. split; auto. destruct (IsSimpleAtom nm x); cbn [In]; auto.
      * destruct j as [|j]; [lia|]. destruct i as [|i]; cbn [nth_error] in N1, N2.
        -- inversion N1; subst. right. left. exists j, a. split; auto. rewrite S. left; auto.
        -- right. right. exists i, j, a. repeat split; auto. lia.
Qed.
Lemma nth_map_seq (t : term) i a : nth_error (map (at_ t) (seq 0 SIZE)) i = Some a <-> i < SIZE /\ at_ t i = a.
Proof.
  rewrite nth_error_map. split.
  - destruct (nth_error (seq 0 SIZE) i) eqn:E; cbn [option_map]; [|discriminate]. intros H; inversion H; subst.
    pose proof (nth_error_Some (seq 0 SIZE) i) as L. rewrite E, seq_length in L. assert (i < SIZE) by (apply L; congruence).
    rewrite (nth_error_nth' _ 0) in E by (rewrite seq_length; auto). rewrite seq_nth in E by auto. inversion E; subst. auto.
  - intros [L E]. rewrite (nth_error_nth' _ 0) by (rewrite seq_length; auto). rewrite seq_nth by auto. cbn. congruence.
Qed.
Lemma twice_spec t : AtomAppearsTwice nm t = true <->
  ((first_order nm t /\ ~ (copula nm t 1 PRODUCT /\ copula nm t 3 PRODUCT /\ copula nm t 4 PRODUCT) /\ exists i j, i < j < SIZE /\ at_ t i = at_ t j /\ IsSimpleAtom nm (at_ t i) = true)
   \/ (higher_order nm t /\ Term_ExtractSubterm t 1 = Term_ExtractSubterm t 2)).
Proof.
  unfold AtomAppearsTwice, first_order, higher_order, copula. rewrite orb_true_iff, !andb_true_iff, !orb_true_iff, negb_true_iff, appears_spec, term_eqb_spec.
  split.
  - intros [((F & N) & [(i & a & _ & [])|(i & j & a & L & N1 & N2 & S)])|(H & T)].
    + left. split; auto. split.
      * intros (A & B & C). rewrite A, B, C in N. discriminate.
      * apply nth_map_seq in N1 as [L1 E1]. apply nth_map_seq in N2 as [L2 E2]. exists i, j. subst. repeat split; auto; try lia.
    + right. split; auto. tauto.
  - intros [(F & N & i & j & L & E & S)|(H & T)].
    + left. split; [split; auto|].
      * destruct (cop (at_ t 1) PRODUCT), (cop (at_ t 3) PRODUCT), (cop (at_ t 4) PRODUCT); auto. exfalso; apply N; auto.
      * right. exists i, j, (at_ t i). split; [lia|]. rewrite !nth_map_seq. repeat split; auto; lia.
    + right. split; auto. tauto.
Qed.
Lemma nested_spec l : forall i t, (0 <= i)%Z -> (0 <= t)%Z -> nested_loop nm l i t = true <->
  (exists n, n < length l /\ (2 <= i + Z.of_nat (length (filter (is_higher nm) (firstn (S n) l))) \/ 2 < t + Z.of_nat (length (filter (is_temporal nm) (firstn (S n) l))))%Z).
Proof.
  induction l as [|a l IH]; intros i t I T; cbn [nested_loop].
  - split; [discriminate|]. intros (n & L & _). cbn in L; lia.
  - set (i' := if cop a IMPLICATION || cop a EQUIVALENCE then (i + 1)%Z else i). set (t' := if cop a TEMPORAL_IMPLICATION then (t + 1)%Z else t).
    assert (EI : i' = (i + Z.of_nat (length (filter (is_higher nm) [a])))%Z). { unfold i'. cbn [filter]. fold (is_higher nm a). destruct (is_higher nm a); cbn [length]; lia. }
    assert (ET : t' = (t + Z.of_nat (length (filter (is_temporal nm) [a])))%Z). { unfold t'. cbn [filter]. fold (is_temporal nm a). destruct (is_temporal nm a); cbn [length]; lia. }
    assert (FS : forall p n, length (filter p (firstn (S (S n)) (a :: l))) = length (filter p [a]) + length (filter p (firstn (S n) l))).
    { intros p n. change (firstn (S (S n)) (a :: l)) with ([a] ++ firstn (S n) l). rewrite filter_app, app_length. reflexivity. }
    rewrite !orb_true_iff, IH by lia. rewrite Z.leb_le, Z.ltb_lt. split.
    + intros [[H|H]|(n & L & H)].
      * exists 0. split; [cbn; lia|]. left. change (firstn 1 (a :: l)) with [a]. lia.
      * exists 0. split; [cbn; lia|]. right. change (firstn 1 (a :: l)) with [a]. lia.
      * exists (S n). split; [cbn; lia|]. rewrite !FS. lia.
    + intros (n & L & H). destruct n as [|n].
      * change (firstn 1 (a :: l)) with [a] in H. left. lia.
      * right. exists n. split; [cbn in L; lia|]. rewrite !FS in H. lia.
Qed.
Lemma filter_firstn {A} (p : A -> bool) n l : length (filter p (firstn n l)) <= length (filter p l).
Proof. rewrite <- (firstn_skipn n l) at 2. rewrite filter_app, app_length. lia. Qed.
Lemma filter_map_len {A B} (p : B -> bool) (f : A -> B) l : length (filter p (map f l)) = length (filter (fun x => p (f x)) l).
Proof. induction l as [|a l IH]; cbn [map filter]; auto. destruct (p (f a)); cbn; auto. Qed.
Lemma nested_ok t : NestedHOLStatement nm t = true <-> 2 <= occurrences (is_higher nm) t \/ 3 <= occurrences (is_temporal nm) t.
Proof.
  unfold NestedHOLStatement. rewrite nested_spec by lia. unfold occurrences. rewrite <- !(filter_map_len _ (at_ t)).
  set (l := map (at_ t) (seq 0 SIZE)). split.
  - intros (n & L & H). pose proof (filter_firstn (is_higher nm) (S n) l). pose proof (filter_firstn (is_temporal nm) (S n) l). lia.
  - intros H. exists (SIZE - 1). assert (L : length l = SIZE) by (unfold l; rewrite map_length, seq_length; reflexivity).
    split; [rewrite L; unfold SIZE; lia|]. replace (S (SIZE - 1)) with (length l) by (rewrite L; reflexivity). rewrite firstn_all. lia.
Qed.
Lemma depvar_ok t : InhOrSimHasDepVar nm t = true <-> first_order nm t /\ exists i, i < SIZE /\ isDependentVariable nm (at_ t i) = true.
Proof.
  unfold InhOrSimHasDepVar, hasVariable, first_order, copula. rewrite andb_true_iff, orb_true_iff, ex_in. split.
  - intros (F & i & I & H). split; auto. exists i. split; [apply in_seq0; auto|]. cbn in H. rewrite orb_false_r in H. auto.
  - intros (F & i & I & H). split; auto. exists i. split; [apply in_seq0; auto|]. rewrite H. cbn. auto.
Qed.
Lemma junction_b t i : cop (at_ t i) CONJUNCTION || cop (at_ t i) DISJUNCTION = true <-> junction nm t i.
Proof. unfold junction, copula. apply orb_true_iff. Qed.
Lemma junction_ok t l b : junction_loop nm t l = Ok b -> (b = true <-> exists i, In i l /\ junction nm t i /\ junction nm t (2 * i + 2)).
Proof.
  revert b. induction l as [|i l IH]; intros b; cbn [junction_loop].
  - intros H; inversion H. split; [discriminate|]. intros (i & [] & _).
  - destruct (cop (at_ t i) _ || _) eqn:J.
    + apply junction_b in J. replace ((i + 1) * 2 + 1 - 1) with (2 * i + 2) by lia. destruct (_ <? SIZE) eqn:L; [|discriminate].
      destruct (cop (at_ t (2 * i + 2)) _ || _) eqn:J2.
      * apply junction_b in J2. intros H; inversion H. split; auto. intros _. exists i. split; [left; auto|auto].
      * intros H. rewrite (IH _ H). split.
        -- intros (k & K & A). exists k. split; [right; auto|auto].
        -- intros (k & [->|K] & A & B); [|exists k; auto]. apply junction_b in B. congruence.
    + intros H. rewrite (IH _ H). split.
      * intros (k & K & A). exists k. split; [right; auto|auto].
      * intros (k & [->|K] & A & B); [|exists k; auto]. apply junction_b in A. congruence.
Qed.
Lemma junction_ok' t b : JunctionNotRightNested nm t = Ok b -> (b = true <-> exists i, i < SIZE /\ junction nm t i /\ junction nm t (2 * i + 2)).
Proof.
  unfold JunctionNotRightNested. generalize (fun i => in_seq0 i SIZE). generalize (seq 0 SIZE). intros l L H. rewrite (junction_ok _ _ _ H).
  split; intros (i & I & X); exists i; (split; [apply L, I|exact X]).
Qed.
Lemma junction_total t l : (forall i, In i l -> junction nm t i -> 2 * i + 2 < SIZE) -> exists b, junction_loop nm t l = Ok b.
Proof.
  induction l as [|i l IH]; intros H; cbn [junction_loop]; [eauto|]. destruct (cop (at_ t i) _ || _) eqn:J.
  - apply junction_b in J. pose proof (H i (or_introl eq_refl) J). replace ((i + 1) * 2 + 1 - 1) with (2 * i + 2) by lia.
    destruct (Nat.ltb_spec (2 * i + 2) SIZE); [|lia]. destruct (_ || _); [eauto|]. apply IH. intros; apply H; auto. right; auto.
  - apply IH. intros; apply H; auto. right; auto.
Qed.
Lemma sets_ok t : InvalidSetOp nm t = true <-> copula nm t 0 INHERITANCE /\ ((copula nm t 1 EXT_INTERSECTION /\ copula nm t 3 EXT_SET /\ copula nm t 4 EXT_SET) \/ (copula nm t 2 INT_INTERSECTION /\ copula nm t 5 INT_SET /\ copula nm t 6 INT_SET)).
Proof. unfold InvalidSetOp, copula. rewrite andb_true_iff, orb_true_iff, !andb_true_iff. tauto. Qed.
Lemma single_ok t : IndepOrDepVariableAppearsOnce nm t = true <->
  exists i, i < SIZE /\ (isIndependentVariable nm (at_ t i) = true \/ isDependentVariable nm (at_ t i) = true) /\ forall j, j < SIZE -> j <> i -> at_ t j <> at_ t i.
Proof.
  unfold IndepOrDepVariableAppearsOnce. rewrite ex_in. split.
  - intros (i & I & H). apply andb_true_iff in H as [V H]. apply orb_true_iff in V. apply in_seq0 in I. exists i. split; auto. split; auto.
    intros j J N E. apply negb_true_iff in H. assert (X : existsb (fun j => negb (i =? j) && (at_ t i =? at_ t j)%Z) (seq 0 SIZE) = true).
    { apply ex_in. exists j. split; [apply in_seq0; auto|]. rewrite E, Z.eqb_refl. destruct (Nat.eqb_spec i j); [congruence|reflexivity]. }
    congruence.
  - intros (i & I & V & H). exists i. split; [apply in_seq0; auto|]. apply andb_true_iff. split; [apply orb_true_iff; auto|]. apply negb_true_iff.
    destruct (existsb _ _) eqn:X; auto. apply ex_in in X as (j & J & E). apply andb_true_iff in E as [E1 E2]. apply in_seq0 in J. exfalso.
    apply (H j J); [|apply Z.eqb_eq in E2; congruence]. destruct (Nat.eqb_spec i j); [discriminate|congruence].
Qed.

(** ** operations at the left end *)
Lemma override_len fuel : forall t i u j, length (snd (RelativeOverride fuel t i u j)) = length t.
Proof.
  induction fuel as [|f IH]; intros t i u j; cbn [RelativeOverride]; destruct (SIZE <=? i); auto; destruct (j <? SIZE); auto; cbn [snd].
  - apply upd_length.
  - destruct (if (_ && _)%bool then _ else _) as [ok t'] eqn:E.
    assert (L : length t' = length t).
    { revert E. destruct (_ && _)%bool; intros E; [|inversion E; apply upd_length]. change t' with (snd (ok, t')). rewrite <- E, IH. apply upd_length. }
    destruct ok; cbn [negb]; auto. match goal with |- context [if ?c then _ else _] => destruct c end; cbn [snd]; auto. rewrite IH; auto.
Qed.
Lemma extract_is_term t j : is_term (Term_ExtractSubterm t j).
Proof. unfold is_term, Term_ExtractSubterm. rewrite override_len. reflexivity. Qed.
Lemma override_root : forall fuel t i u j, 0 < i -> at_ (snd (RelativeOverride fuel t i u j)) 0 = at_ t 0.
Proof.
  induction fuel as [|f IH]; intros t i u j I; cbn [RelativeOverride]; destruct (SIZE <=? i); auto; destruct (j <? SIZE); auto; cbn [snd].
  - destruct i; [lia|]. unfold at_. destruct t; auto.
  - assert (U : at_ (upd t i (at_ u j)) 0 = at_ t 0) by (destruct i; [lia|]; unfold at_; destruct t; auto).
    destruct (if (_ && _)%bool then _ else _) as [ok t'] eqn:E.
    assert (L : at_ t' 0 = at_ t 0).
    { revert E. destruct (_ && _)%bool; intros E; [|inversion E; auto]. change t' with (snd (ok, t')). rewrite <- E, IH by lia. auto. }
    destruct ok; cbn [negb]; auto. match goal with |- context [if ?c then _ else _] => destruct c end; cbn [snd]; auto. rewrite IH by lia; auto.
Qed.
Lemma extract_root t : at_ (Term_ExtractSubterm t 1) 0 = at_ t 1.
Proof.
  unfold Term_ExtractSubterm. remember 6 as g eqn:G. replace 7 with (S g) by lia. clear G. cbn [RelativeOverride].
  change (SIZE <=? 0) with false. change (1 <? SIZE) with true. cbv iota.
  destruct (if (_ && _)%bool then _ else _) as [ok t'] eqn:E.
  assert (L : at_ t' 0 = at_ t 1). { revert E. destruct (_ && _)%bool; intros E; [|inversion E; reflexivity]. change t' with (snd (ok, t')). rewrite <- E, override_root by lia. reflexivity. }
  destruct ok; cbn [negb]; auto. match goal with |- context [if ?c then _ else _] => destruct c end; cbn [snd]; auto. rewrite override_root by lia; auto.
Qed.
Lemma cop_nz a k : cop a k = true -> a <> 0%Z.
Proof. unfold copulaEquals. intros H ->. discriminate. Qed.
Lemma cop_uniq a k k' : cop a k = true -> cop a k' = true -> k = k'.
Proof. unfold copulaEquals. intros H H'. apply andb_true_iff in H as [H _], H' as [H' _]. apply andb_true_iff in H as [_ H], H' as [_ H']. apply Z.eqb_eq in H, H'. congruence. Qed.
Lemma extract_0 t j : is_term t -> j < SIZE -> at_ t j <> 0%Z -> at_ (Term_ExtractSubterm t j) 0 = at_ t j.
Proof. intros. destruct (extract_spec t j) as (_ & R & _); auto. apply (R [] Logic.I). Qed.
Lemma operation_nz t : isOperation nm t = true -> at_ t 0 <> 0%Z.
Proof.
  unfold isOperation. intros H E. rewrite E in H. apply orb_true_iff in H as [H|H]; [discriminate|]. apply andb_true_iff in H as [H _]. apply andb_true_iff in H as [H _].
  apply andb_true_iff in H as [H _]. discriminate.
Qed.
#[local] Opaque Term_ExtractSubterm.
Lemma lefthand_true fuel : forall t, is_term t -> height (tree_at t 0) <= fuel -> cop (at_ t 0) CONJUNCTION = true ->
  (lefthand_operation nm fuel t true = true <-> exists o, leftmost nm t o /\ isOperation nm o = true).
Proof.
  induction fuel as [|f IH]; intros t T HT C.
  { exfalso. rewrite tree_at_unfold in HT by auto. pose proof (cop_nz _ _ C). destruct (Z.eqb_spec (at_ t 0) 0); [congruence|]. cbn [height] in HT. lia. }
  cbn [lefthand_operation]. assert (N1 : cop (at_ t 0) IMPLICATION = false).
  { destruct (cop (at_ t 0) IMPLICATION) eqn:Q; auto. pose proof (cop_uniq _ _ _ C Q). discriminate. }
  assert (N2 : cop (at_ t 0) EQUIVALENCE = false).
  { destruct (cop (at_ t 0) EQUIVALENCE) eqn:Q; auto. pose proof (cop_uniq _ _ _ C Q). discriminate. }
  rewrite N1, N2, C. cbn [orb andb]. set (l := Term_ExtractSubterm t 1).
  destruct (isOperation nm l) eqn:O.
  { split; auto. intros _. exists l. split; auto. apply lm_here. exact C. }
  destruct (cop (at_ l 0) CONJUNCTION) eqn:CL.
  - rewrite IH; auto; [|apply extract_is_term|].
    + split; intros (o & L & P); exists o; split; auto.
      * apply lm_down; auto.
      * inversion L as [? ? E|? ? ? L']; subst; [fold l in P; congruence|auto].
    + assert (NZ : at_ t 1 <> 0%Z).
      { intros Z0. unfold l in CL. rewrite extract_root, Z0 in CL. exact (cop_nz _ _ CL eq_refl). }
      destruct (extract_tree t 1 T) as [_ E]; [unfold SIZE; lia|auto|]. fold l in E. rewrite E. rewrite tree_at_unfold in HT by auto.
      destruct (Z.eqb_spec (at_ t 0) 0); [exfalso; exact (cop_nz _ _ C e)|]. cbn [height] in HT. change (child 0 false) with 1 in HT. lia.
  - split; [discriminate|]. intros (o & L & P). inversion L as [? ? E|? ? ? L']; subst; [fold l in P; congruence|].
    fold l in L'. inversion L' as [? Q|? ? Q]; subst; unfold copula in Q; congruence.
Qed.
Lemma lefthand_ok t : ImplicationWithLefthandOperation nm t = true <->
  higher_order nm t /\ copula nm t 1 CONJUNCTION /\ exists o, leftmost nm (Term_ExtractSubterm t 1) o /\ isOperation nm o = true.
Proof.
  unfold ImplicationWithLefthandOperation, higher_order, copula. remember 7 as f eqn:F. cbn [lefthand_operation].
  destruct ((cop (at_ t 0) IMPLICATION || cop (at_ t 0) EQUIVALENCE) && cop (at_ t 1) CONJUNCTION)%bool eqn:B.
  - apply andb_true_iff in B as [B1 B2]. apply orb_true_iff in B1.
    assert (X : cop (at_ (Term_ExtractSubterm t 1) 0) CONJUNCTION = true) by (rewrite extract_root; auto).
    rewrite lefthand_true; [|apply extract_is_term|subst f; apply height_le_7|auto]. tauto.
  - cbn [andb]. split; [discriminate|]. intros (H & C & _). apply orb_true_iff in H. rewrite H, C in B. discriminate.
Qed.

#[local] Opaque JunctionNotRightNested AtomAppearsTwice NestedHOLStatement InhOrSimHasDepVar InvalidSetOp IndepOrDepVariableAppearsOnce ImplicationWithLefthandOperation SIZE.
Lemma rejected_exact t b : rejected nm t = Ok b -> (b = true <-> implausible nm t).
Proof.
  unfold rejected. intros H.
  assert (FW : b = true -> implausible nm t).
  { intros ->. destruct (AtomAppearsTwice nm t) eqn:A.
    { apply twice_spec in A as [(F & N & i & j & L & E & SA)|(HO & E)]; [eapply ip_repeated; eauto|apply ip_tautology; auto]. }
    destruct (NestedHOLStatement nm t) eqn:Ne; [apply nested_ok in Ne as [X|X]; [apply ip_nested|apply ip_nested_temporal]; auto|].
    destruct (InhOrSimHasDepVar nm t) eqn:D; [apply depvar_ok in D as (F & i & L & V); eapply ip_dependent; eauto|].
    cbn [orb] in H. destruct (JunctionNotRightNested nm t) as [j| |] eqn:J; try discriminate. cbn [rbind] in H. inversion H as [X]. rewrite !orb_true_iff in X.
    destruct X as [[[X|X]|X]|X].
    - apply (junction_ok' _ _ J) in X as (i & I & J1 & J2). eapply ip_right_nested; eauto.
    - apply sets_ok in X as (X1 & [(X2 & X3 & X4)|(X2 & X3 & X4)]); [apply ip_ext_sets|apply ip_int_sets]; auto.
    - apply single_ok in X as (i & I & V & O). eapply ip_single; eauto.
    - apply lefthand_ok in X as (X1 & X2 & o & X3 & X4). eapply ip_operation; eauto. }
  split; auto. intros I.
  destruct (AtomAppearsTwice nm t || NestedHOLStatement nm t || InhOrSimHasDepVar nm t)%bool eqn:G; [inversion H; auto|].
  destruct (JunctionNotRightNested nm t) as [j| |] eqn:J; try discriminate. cbn [rbind] in H. apply orb_false_iff in G as [G G3]. apply orb_false_iff in G as [G1 G2].
  assert (Y : forall x, Ok (A := bool) x = Ok b -> x = true -> b = true) by (intros ? X ->; inversion X; auto).
  apply (Y _ H). rewrite !orb_true_iff.
  destruct I as [i k F N L E SA|HO E|C|C|i F L V|i L J1 J2|A B C D|A B C D|i L V O|o HO LM OP].
  - exfalso. assert (X : AtomAppearsTwice nm t = true) by (apply twice_spec; left; eauto 10). congruence.
  - exfalso. assert (X : AtomAppearsTwice nm t = true) by (apply twice_spec; right; auto). congruence.
  - exfalso. assert (X : NestedHOLStatement nm t = true) by (apply nested_ok; auto). congruence.
  - exfalso. assert (X : NestedHOLStatement nm t = true) by (apply nested_ok; auto). congruence.
  - exfalso. assert (X : InhOrSimHasDepVar nm t = true) by (apply depvar_ok; eauto). congruence.
  - left; left; left. apply (junction_ok' _ _ J). exists i. auto.
  - left; left; right. apply sets_ok. auto.
  - left; left; right. apply sets_ok. auto.
  - left; right. apply single_ok. eauto.
  - right. apply lefthand_ok. split; auto. split; eauto. unfold copula. rewrite <- extract_root. inversion LM as [? Q|? ? Q]; exact Q.
Qed.
Lemma rejected_total t : (forall i, i < SIZE -> junction nm t i -> 2 * i + 2 < SIZE) -> exists b, rejected nm t = Ok b.
Proof.
  intros H. unfold rejected. destruct (_ || _)%bool; [eauto|]. Transparent JunctionNotRightNested. unfold JunctionNotRightNested. destruct (junction_total t (seq 0 SIZE)) as [b ->]; [|cbn; eauto].
  intros i I. apply H. apply in_seq0, I.
Qed.
Lemma zero_fine : ~ implausible nm zero_term.
Proof.
  assert (Z : forall i, at_ zero_term i = 0%Z) by apply at_zero.
  assert (C : forall i k, ~ copula nm zero_term i k) by (intros i k H; unfold copula in H; rewrite Z in H; discriminate).
  assert (O : forall p, p 0%Z = false -> occurrences p zero_term = 0).
  { intros p P. unfold occurrences. rewrite (filter_ext _ (fun _ => false)); [|intros; rewrite Z; auto]. clear. induction (seq 0 SIZE); auto. }
  intros I. destruct I as [i k F N L E SA|HO E|X|X|i F L V|i L J1 J2|A|A|i L V O'|o HO].
  - destruct F as [F|F]; exact (C _ _ F).
  - destruct HO as [F|F]; exact (C _ _ F).
  - rewrite O in X; [lia|reflexivity].
  - rewrite O in X; [lia|reflexivity].
  - destruct F as [F|F]; exact (C _ _ F).
  - destruct J1 as [F|F]; exact (C _ _ F).
  - exact (C _ _ A).
  - exact (C _ _ A).
  - rewrite Z in V. destruct V; discriminate.
  - destruct HO as [F|F]; exact (C _ _ F).
Qed.

(** ** what the memory mentions *)
Variable powdecay : Z -> f64.
Variable penalty : nat -> f64.
Variable layers : nat.
Section M.
Variable T : term -> Prop.
Definition PBt (e : event) := T (e_term e) /\ e_type e <> EVENT_TYPE_GOAL.
Definition PGt (e : event) := T (e_term e).
Definition PIt (i : implication) := T (i_term i).
Lemma closed_t : T zero_term -> EverywhereP.closed nm powdecay PBt PGt PIt.
Proof.
  intros Z. constructor; unfold PBt, PGt, PIt; auto.
  - split; auto. discriminate.
  - intros e H; apply H.
  - intros e. unfold Event_Eternalized. destruct (_ =? _)%Z; auto.
  - intros a b [r f] (A1 & A2) (B1 & B2). unfold RevisionAndChoice. destruct (_ =? _)%Z; [intros H; inversion H; subst; auto|].
    destruct (_ || _)%bool.
    + destruct (fltb _ _); intros H; inversion H; subst; auto.
    + destruct (fleb _ _); [|discriminate]. intros H; inversion H; subst. cbn [fst EventRevision e_term e_type EventUpdate]. auto.
  - intros e1 e2 e3 o s' id now (A & _) _ _. exact A.
Qed.
End M.
Lemma everywhere_mentioned m : everywhere (fun e => e_type e <> EVENT_TYPE_GOAL) (fun _ => True) (fun _ => True) m ->
  everywhere (PBt (mentioned m)) (PGt (mentioned m)) (PIt (mentioned m)) m.
Proof.
  intros E. destruct E as [B G K]. constructor.
  - rewrite Forall_forall in *. intros e I. split; auto. left. eauto.
  - rewrite Forall_forall in *. intros q Q. rewrite Forall_forall. intros e I. right; left. exists q, e. auto.
  - rewrite Forall_forall in *. intros k I. destruct (K k I) as (K1 & K2 & K3 & K4 & K5 & K6).
    repeat split; auto; try (right; right; exists k; split; auto; tauto).
    + rewrite Forall_forall. intros tb TB. rewrite Forall_forall. intros i' I'. right; right. exists k. split; auto. do 4 right. exists tb, i'. split; [right; auto|auto].
    + rewrite Forall_forall. intros i' I'. right; right. exists k. split; auto. do 4 right. exists (c_links k), i'. split; [left; auto|auto].
Qed.
Lemma mentioned_everywhere T m : everywhere (PBt T) (PGt T) (PIt T) m -> forall t, mentioned m t -> T t.
Proof.
  intros [B G K] t [(e & I & <-)|[(q & e & Q & I & <-)|(k & I & H)]]; rewrite Forall_forall in *.
  - apply (B e I).
  - specialize (G q Q). rewrite Forall_forall in G. exact (G e I).
  - destruct (K k I) as (K1 & K2 & K3 & K4 & K5 & K6). destruct H as [<-|[<-|[<-|[<-|(tb & i & TB & I' & <-)]]]]; try apply K1; try apply K2; try apply K3; auto.
    destruct TB as [<-|TB]; [rewrite Forall_forall in K6; exact (K6 i I')|]. rewrite Forall_forall in K5. specialize (K5 tb TB). rewrite Forall_forall in K5. exact (K5 i I').
Qed.
Lemma everywhere_mono (PB PG PB' PG' : event -> Prop) (PI PI' : implication -> Prop) m : (forall e, PB e -> PB' e) -> (forall e, PG e -> PG' e) -> (forall e, PI e -> PI' e) ->
  everywhere PB PG PI m -> everywhere PB' PG' PI' m.
Proof.
  intros A B C [X Y Z]. constructor.
  - eapply Forall_impl; eauto.
  - eapply Forall_impl; [|eauto]. intros q. apply Forall_impl. auto.
  - eapply Forall_impl; [|eauto]. intros k (K1 & K2 & K3 & K4 & K5 & K6). repeat split; auto.
    + eapply Forall_impl; [|eauto]. intros tb. apply Forall_impl. auto.
    + eapply Forall_impl; [|eauto]. auto.
Qed.

(** the terms a derivation with conclusion t may add *)
Definition conclusion (t t' : term) : Prop :=
  ~ implausible nm t' /\
  (t' = t \/ exists ext, IntroduceImplicationVariables nm t ext = Ok (true, t') \/ IntroduceConjunctionVariables nm t ext = Ok (true, t')).
Section D.
Variable T : term -> Prop.
Hypothesis T0 : T zero_term.
Notation ewT := (everywhere (PBt T) (PGt T) (PIt T)).
Lemma ew_add_derived fuel m t d : ewT m -> (~ implausible nm t -> T t) -> ifok (add_derived nm powdecay penalty layers fuel m t d) (fun m' => ewT m' /\ same_rest m m').
Proof.
  intros E H. unfold add_derived. apply ifok_bind'; intros v _. destruct v; cbn [negb]; [|split; [auto|apply sr_refl]].
  apply ifok_bind'; intros r R. destruct r; [split; [auto|apply sr_refl]|]. apply (ew_add nm powdecay penalty layers _ _ _ (closed_t T T0)); auto.
  intros e0 X. inversion X; subst. split; [|discriminate]. cbn. apply H. intros I. apply (rejected_exact _ _ R) in I. discriminate.
Qed.
Lemma ew_intro_derived fuel m t d r b two : ewT m -> (forall t', r = Ok (true, t') -> ~ implausible nm t' -> T t') ->
  ifok (intro_derived nm powdecay penalty layers fuel m t d r b two) (fun m' => ewT m' /\ same_rest m m').
Proof.
  intros E H. unfold intro_derived. apply ifok_bind'; intros [ok t'] R. destruct (_ && _)%bool eqn:B; [|split; [auto|apply sr_refl]].
  apply andb_true_iff in B as [B _]. apply andb_true_iff in B as [B _]. apply andb_true_iff in B as [B _]. apply andb_true_iff in B as [-> _].
  apply ew_add_derived; auto.
Qed.
Lemma ew_derived fuel m t d vi two : ewT m -> (forall t', conclusion t t' -> T t') ->
  ifok (DerivedEvent nm powdecay penalty layers fuel m t d vi two) (fun m' => ewT m' /\ same_rest m m').
Proof.
  intros E H. unfold DerivedEvent.
  assert (H1 : forall ext t', IntroduceImplicationVariables nm t ext = Ok (true, t') -> ~ implausible nm t' -> T t') by (intros ext t' X Y; apply H; split; auto; right; exists ext; auto).
  assert (H2 : forall ext t', IntroduceConjunctionVariables nm t ext = Ok (true, t') -> ~ implausible nm t' -> T t') by (intros ext t' X Y; apply H; split; auto; right; exists ext; auto).
  assert (H3 : ~ implausible nm t -> T t) by (intros Y; apply H; split; auto).
  assert (TR : forall m m1 m2, (ewT m1 /\ same_rest m m1) -> ewT m2 /\ same_rest m1 m2 -> ewT m2 /\ same_rest m m2) by (intros ? ? ? (A & B) (C & D); split; auto; eapply sr_trans; eauto).
  destruct (_ && _)%bool.
  - eapply ifok_bind; [apply ew_intro_derived; eauto|]. intros m1 K1. cbv beta in K1.
    eapply ifok_bind with (P := fun m2 => ewT m2 /\ same_rest m m2).
    { destruct (negb two); [|exact K1]. eapply ifok_impl; [apply ew_intro_derived; [apply K1|eauto]|]. intros; eapply TR; eauto. }
    intros m2 K2. destruct (_ || _)%bool; [exact K2|]. eapply ifok_impl; [apply ew_add_derived; [apply K2|auto]|]. intros; eapply TR; eauto.
  - destruct (_ && _)%bool.
    + eapply ifok_bind; [apply ew_intro_derived; eauto|]. intros m1 K1. cbv beta in K1.
      eapply ifok_impl; [apply ew_intro_derived; [apply K1|eauto]|]. intros; eapply TR; eauto.
    + apply ew_add_derived; auto.
Qed.
End D.

(** ** histories *)
Section H.
Variable T : term -> Prop.
Hypothesis T0 : T zero_term.
Notation ewT := (everywhere (PBt T) (PGt T) (PIt T)).
Lemma ew_init cmax buckets atoms bmax gmax m : Memory_INIT cmax buckets atoms bmax gmax layers = Ok m -> ewT m.
Proof.
  unfold Memory_INIT. destruct (HashTableM.HashTable_INIT _ _); cbn [rbind]; try discriminate. destruct (InvIndexM.InvertedAtomIndex_INIT _ _); cbn [rbind]; try discriminate.
  intros H; inversion H; subst; clear H. assert (B0 : PBt T event0) by (split; [exact T0|discriminate]). constructor; cbn.
  - apply Forall_repeat; auto.
  - apply Forall_repeat. cbn. apply Forall_repeat; auto.
  - apply Forall_repeat. unfold in_concept; cbn. repeat split; auto; try discriminate.
    + apply (Forall_repeat (fun t => Forall (PIt T) (t_array t)) table0 11). cbn. apply (Forall_repeat (PIt T) imp0 20). exact T0.
    + apply (Forall_repeat (PIt T) imp0 20). exact T0.
Qed.
Lemma ew_forget m now : ewT m -> ewT (RelativeForgetting m now).
Proof.
  intros [B G K]. constructor; cbn [RelativeForgetting m_beliefs m_goals m_store].
  - exact B.
  - rewrite Forall_forall in *. intros q Q. apply in_map_iff in Q as (q' & <- & Q). exact (G q' Q).
  - generalize (map PQueueM.address (PQueueM.contents (m_concepts m))). intros l. revert K. generalize (m_store m). induction l as [|c l IH]; intros st K; cbn [fold_left]; auto.
    apply IH. destruct (nth_error st c) eqn:E; auto. apply Forall_upd; auto. pose proof (Forall_error _ _ _ _ K E) as X. exact X.
Qed.
Lemma ew_pop q : Forall (PBt T) (eq_store q) -> Forall (PBt T) (eq_store (fst (PopEvent q))).
Proof. unfold PopEvent. destruct (PQueueM.pop_max _ _ _) as [[q' it]|]; auto. Qed.
Lemma ew_popg q : Forall (PGt T) (eq_store q) -> Forall (PGt T) (eq_store (fst (PopEvent q))).
Proof. unfold PopEvent. destruct (PQueueM.pop_max _ _ _) as [[q' it]|]; auto. Qed.
Lemma ew_mstep fuel m o : ewT m -> no_update (NMem o) -> (forall e now p i r l, o = OAdd e now p i r l -> T (e_term e)) ->
  ifok (mstep nm powdecay penalty layers fuel m o) ewT.
Proof.
  intros E U H. pose proof (closed_t T T0) as CL. destruct o as [t now|e now p i r l|now| |l| |c f]; cbn [mstep].
  - eapply ifok_bind; [apply (ew_conceptualize _ _ _ _ _ CL); auto|]. intros [m' c] (K & _). exact K.
  - destruct (Z.eq_dec (e_type e) EVENT_TYPE_GOAL) as [G|G].
    + eapply ifok_impl; [apply (ew_goal _ _ _ _ (PBt T) (PGt T) (PIt T)); auto; eapply H; eauto|]. intros m' (K & _); exact K.
    + eapply ifok_impl; [apply (ew_add _ _ _ _ _ _ _ CL); auto; intros e0 X; inversion X; subst; split; eauto|]. intros m' (K & _); exact K.
  - apply ew_forget; auto.
  - destruct E as [B G K]. constructor; cbn; auto. apply ew_pop; auto.
  - destruct (nth_error _ _) eqn:N; cbn [ifok]; auto. destruct E as [B G K]. constructor; cbn; auto. apply Forall_upd; auto. apply ew_popg.
    exact (Forall_error _ _ _ _ G N).
  - destruct E as [B G K]. constructor; cbn; auto. rewrite Forall_forall in *. intros q Q. apply in_map_iff in Q as (q' & <- & Q). exact (G q' Q).
  - destruct U.
Qed.
Lemma ew_nrun fuel os : forall m, ewT m -> Forall no_update os -> (forall t, was_input os t -> T t) -> (forall t, ~ implausible nm t -> T t) ->
  ifok (nrun nm powdecay penalty layers fuel m os) ewT.
Proof.
  induction os as [|o os IH]; intros m E U I P; cbn [nrun]; [exact E|]. inversion U; subst.
  eapply ifok_bind with (P := ewT).
  - destruct o as [o|t d v two]; cbn [nstep].
    + apply ew_mstep; auto. intros e now p i r l ->. apply I. exists e, now, p, i, r, l. split; [left; auto|auto].
    + eapply ifok_impl; [apply (ew_derived T T0); [exact E|intros t' (X & _); apply P; exact X]|intros m' (K & _); exact K].
  - intros m' E'. apply IH; auto. intros t (e & now & p & i & r & l & X & Y). apply I. exists e, now, p, i, r, l. split; [right; auto|auto].
Qed.
End H.
End P.
