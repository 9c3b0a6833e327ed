From Coq Require Import ZArith Reals List Sorted Lra Lia Bool.
From Flocq Require Import IEEE754.BinarySingleNaN.
From Verif Require Import Base F64 TruthM TruthS TruthP TruthP2 StampM TermM TermP EventM InferenceM TableM TableS.
Local Open Scope nat_scope.

#[local] Opaque fofZ fdec fadd fsub fmul fdiv Truth_Expectation Truth_Revision.

Definition wf (t : table) : Prop := length (t_array t) = TABLE_SIZE /\ t_items t <= TABLE_SIZE.

Lemma entries_length t : wf t -> length (entries t) = t_items t.
Proof. intros [L I]. unfold entries. rewrite firstn_length. lia. Qed.
Lemma nth_error_nth0 {A} (l : list A) i d : i < length l -> nth_error l i = Some (nth i l d).
Proof. revert i; induction l as [|x l IH]; cbn; intros [|i] H; try lia; auto. apply IH; lia. Qed.
Lemma slot_entry t i : wf t -> i < t_items t -> nth_error (entries t) i = Some (slot t i).
Proof.
  intros [L I] H. unfold entries, slot. 
  rewrite (nth_error_nth0 _ i imp0) by (rewrite firstn_length; lia). f_equal.
  rewrite <- (firstn_skipn (t_items t) (t_array t)) at 2. rewrite app_nth1; auto. rewrite firstn_length; lia.
Qed.

Lemma shift_down_length n : forall a j, length (shift_down a j n) = length a.
Proof. induction n as [|n IH]; cbn; intros; auto. rewrite IH, upd_length; auto. Qed.
Lemma shift_down_nth n : forall a j k, n <= j -> j < length a ->
  nth k (shift_down a j n) imp0 = if (j - n <? k) && (k <=? j) then nth (k - 1) a imp0 else nth k a imp0.
Proof.
  induction n as [|n IH]; intros a j k Hn Hj; cbn [shift_down].
  - destruct (Nat.ltb_spec (j - 0) k), (Nat.leb_spec k j); cbn [andb]; auto; lia.
  - rewrite IH by (rewrite ?upd_length; lia).
    destruct (Nat.ltb_spec (j - 1 - n) k), (Nat.leb_spec k (j - 1)); cbn [andb];
      destruct (Nat.ltb_spec (j - S n) k), (Nat.leb_spec k j); cbn [andb]; try lia;
      rewrite nth_upd; try (destruct (Nat.eqb_spec (k - 1) j); [lia|]); try (destruct (Nat.eqb_spec k j)); cbn [andb]; try lia; auto.
    + subst. destruct (Nat.ltb_spec j (length a)); [reflexivity|lia].
Qed.

Lemma nth_firstn {A} (l : list A) n i d : i < n -> nth i (firstn n l) d = nth i l d.
Proof. revert l i; induction n as [|n IH]; intros [|x l] [|i] H; cbn; auto; try lia. apply IH; lia. Qed.
Lemma nth_skipn {A} (l : list A) n i d : nth i (skipn n l) d = nth (n + i) l d.
Proof. revert l; induction n as [|n IH]; intros [|x l]; cbn; auto. destruct i; auto. Qed.
Lemma list_nth_ext {A} (l l' : list A) d : length l = length l' -> (forall i, i < length l -> nth i l d = nth i l' d) -> l = l'.
Proof.
  revert l'; induction l as [|x l IH]; intros [|y l'] L H; cbn in *; try lia; auto.
  f_equal; [apply (H 0); lia|]. apply IH; [lia|]. intros i Hi; apply (H (S i)); lia.
Qed.

Lemma insert_entries t x i : wf t -> i <= t_items t -> i < TABLE_SIZE ->
  let start := Nat.min (t_items t) (TABLE_SIZE - 1) in
  let t' := mkTable (upd (shift_down (t_array t) start (start - i)) i x) (Nat.min (t_items t + 1) TABLE_SIZE) in
  wf t' /\ entries t' = firstn TABLE_SIZE (firstn i (entries t) ++ x :: skipn i (entries t)).
Proof.
  intros W Hi H20. pose proof W as [L I]. cbv zeta.
  set (start := Nat.min (t_items t) (TABLE_SIZE - 1)).
  assert (W' : wf (mkTable (upd (shift_down (t_array t) start (start - i)) i x) (Nat.min (t_items t + 1) TABLE_SIZE))).
  { split; cbn [t_array t_items]; [rewrite upd_length, shift_down_length; auto|lia]. }
  split; auto. pose proof (entries_length _ W) as EL.
  apply list_nth_ext with (d := imp0).
  - rewrite (entries_length _ W'). cbn [t_items]. rewrite firstn_length, app_length. cbn [length].
    rewrite firstn_length, skipn_length, EL. lia.
  - rewrite (entries_length _ W'). cbn [t_items]. intros k Hk. unfold entries at 1. cbn [t_array t_items].
    rewrite nth_firstn by lia. rewrite nth_firstn by lia.
    rewrite nth_upd, shift_down_length, L. 
    destruct (Nat.eqb_spec k i) as [->|Nk].
    + destruct (Nat.ltb_spec i TABLE_SIZE); [|lia]. cbn [andb]. rewrite app_nth2; rewrite firstn_length, EL; [|lia].
      replace (i - Nat.min i (t_items t)) with 0 by lia. reflexivity.
    + cbn [andb]. rewrite shift_down_nth by (rewrite ?L; lia).
      assert (G : forall j, j < t_items t -> nth j (t_array t) imp0 = nth j (entries t) imp0).
      { intros j Hj. unfold entries. rewrite nth_firstn; auto. }
      destruct (Nat.lt_ge_cases k i) as [Lk|Gk].
      * rewrite app_nth1 by (rewrite firstn_length, EL; lia). rewrite nth_firstn by lia.
        destruct (Nat.ltb_spec (start - (start - i)) k); [lia|]. cbn [andb]. apply G; lia.
      * rewrite app_nth2 by (rewrite firstn_length, EL; lia). rewrite firstn_length, EL.
        replace (k - Nat.min i (t_items t)) with (S (k - i - 1)) by lia. cbn [nth]. rewrite nth_skipn.
        replace (i + (k - i - 1)) with (k - 1) by lia.
        destruct (Nat.ltb_spec (start - (start - i)) k), (Nat.leb_spec k start); cbn [andb]; try lia. apply G. lia.
Qed.

Lemma add_loop_spec t x : wf t -> forall n i, i + n = TABLE_SIZE -> i <= t_items t ->
  (forall k, k < i -> goes_here t x k = false) ->
  (exists j, i <= j <= t_items t /\ j < TABLE_SIZE /\ goes_here t x j = true /\ (forall k, k < j -> goes_here t x k = false) /\
     let '(t', r) := add_loop t x i n in r = Some j /\ wf t' /\
       entries t' = firstn TABLE_SIZE (firstn j (entries t) ++ x :: skipn j (entries t)))
  \/ (t_items t = TABLE_SIZE /\ (forall k, k < TABLE_SIZE -> goes_here t x k = false) /\ add_loop t x i n = (t, None)).
Proof.
  intros W. induction n as [|n IH]; intros i Hi Le Hk; cbn [add_loop].
  - right. destruct W as [L I]. replace i with TABLE_SIZE in * by lia. split; [lia|]. auto.
  - destruct (goes_here t x i) eqn:G.
    + left. exists i. split; [lia|]. split; [lia|]. split; auto. split; auto. split; auto.
      apply (insert_entries t x i W Le). lia.
    + assert (i <> t_items t). { intros ->. unfold goes_here in G. rewrite Nat.eqb_refl in G. discriminate. }
      assert (Hk' : forall k, k < i + 1 -> goes_here t x k = false).
      { intros k K. destruct (Nat.eq_dec k i) as [->|]; auto. apply Hk; lia. }
      destruct (IH (i + 1) ltac:(lia) ltac:(lia) Hk') as [(j & A & B)|R]; [left; exists j; split; [lia|auto]|right; auto].
Qed.
Lemma add_spec t x : wf t ->
  (exists j, j <= t_items t /\ j < TABLE_SIZE /\ goes_here t x j = true /\ (forall k, k < j -> goes_here t x k = false) /\
     let '(t', r) := add_loop t x 0 TABLE_SIZE in r = Some j /\ wf t' /\
       entries t' = firstn TABLE_SIZE (firstn j (entries t) ++ x :: skipn j (entries t)))
  \/ (t_items t = TABLE_SIZE /\ (forall k, k < TABLE_SIZE -> goes_here t x k = false) /\ add_loop t x 0 TABLE_SIZE = (t, None)).
Proof.
  intros W. destruct (add_loop_spec t x W TABLE_SIZE 0) as [(j & A & B)|R]; try lia; auto. left; exists j; split; [lia|auto].
Qed.

(** Remove *)
Lemma shift_up_length items n : forall a j, length (shift_up a items j n) = length a.
Proof. induction n as [|n IH]; cbn [shift_up]; intros; auto. rewrite IH, upd_length; auto. Qed.
Lemma shift_up_nth items n : forall a j k, j + n = items -> items <= length a ->
  nth k (shift_up a items j n) imp0 =
    if (j <=? k) && (k <? items) then (if k =? items - 1 then imp0 else nth (k + 1) a imp0) else nth k a imp0.
Proof.
  induction n as [|n IH]; intros a j k Hn Hl; cbn [shift_up].
  - destruct (Nat.leb_spec j k), (Nat.ltb_spec k items); cbn [andb]; auto; lia.
  - rewrite IH by (rewrite ?upd_length; lia).
    destruct (Nat.leb_spec (j + 1) k), (Nat.ltb_spec k items); cbn [andb];
      destruct (Nat.leb_spec j k); cbn [andb]; try lia; try (rewrite nth_upd_diff by lia; reflexivity).
    replace k with j by lia. rewrite nth_upd_same by lia. reflexivity.
Qed.
Lemma remove_spec t i : wf t -> i < t_items t ->
  wf (Table_Remove t i) /\ entries (Table_Remove t i) = firstn i (entries t) ++ skipn (S i) (entries t) /\
  t_items (Table_Remove t i) = t_items t - 1.
Proof.
  intros W Hi. pose proof W as [L I]. unfold Table_Remove.
  assert (W' : wf (mkTable (shift_up (t_array t) (t_items t) i (t_items t - i)) (t_items t - 1))).
  { split; cbn [t_array t_items]; [rewrite shift_up_length; auto|lia]. }
  split; auto. split; auto. pose proof (entries_length _ W) as EL.
  apply list_nth_ext with (d := imp0).
  - rewrite (entries_length _ W'). cbn [t_items]. rewrite app_length, firstn_length, skipn_length. lia.
  - rewrite (entries_length _ W'). cbn [t_items]. intros k Hk. unfold entries at 1. cbn [t_array t_items].
    rewrite nth_firstn by lia. rewrite shift_up_nth by lia.
    assert (G : forall j, j < t_items t -> nth j (t_array t) imp0 = nth j (entries t) imp0).
    { intros j Hj. unfold entries. rewrite nth_firstn; auto. }
    destruct (Nat.leb_spec i k), (Nat.ltb_spec k (t_items t)); cbn [andb]; try lia.
    + destruct (Nat.eqb_spec k (t_items t - 1)); [lia|]. rewrite app_nth2 by (rewrite firstn_length; lia).
      rewrite firstn_length, nth_skipn, EL. rewrite G by lia. f_equal. lia.
    + rewrite app_nth1 by (rewrite firstn_length; lia). rewrite nth_firstn by lia. apply G; lia.
Qed.

(** find_same *)
Lemma find_same_spec t x : forall n i, 
  (forall k, find_same t x i n = Some k -> i <= k < i + n /\ i_term (slot t k) = i_term x /\ (forall j, i <= j < k -> i_term (slot t j) <> i_term x)) /\
  (find_same t x i n = None -> forall j, i <= j < i + n -> i_term (slot t j) <> i_term x).
Proof.
  induction n as [|n IH]; intros i; cbn [find_same].
  - split; [discriminate|]. intros; lia.
  - destruct (term_eqb (i_term x) (i_term (slot t i))) eqn:T.
    + apply term_eqb_spec in T. split; [|discriminate]. intros k [= <-]. split; [lia|]. split; auto. intros; lia.
    + assert (NT : i_term (slot t i) <> i_term x).
      { intros Q. rewrite (proj2 (term_eqb_spec _ _)) in T; [discriminate|]. auto. }
      destruct (IH (i + 1)) as [A B]. split.
      * intros k K. apply A in K as (K1 & K2 & K3). split; [lia|]. split; auto. intros j J. destruct (Nat.eq_dec j i) as [->|]; auto. apply K3; lia.
      * intros K j J. destruct (Nat.eq_dec j i) as [->|]; auto. apply B; auto; lia.
Qed.

(** revision and table *)
Lemma in_unit_ok x : u01 x -> in_unit x = true.
Proof.
  intros [F H]. unfold in_unit. rewrite andb_true_iff. split; apply fleb_spec; auto using fin_f0, fin_f1; rewrite ?v_f0, ?v_f1; lra.
Qed.
Lemma bounds_ok v : valid v -> truth_in_bounds v = true.
Proof. intros [A B]. unfold truth_in_bounds. rewrite !in_unit_ok; auto. apply conf_u01; auto. Qed.

Lemma merged_eq old x : 
  mkImp (i_term x) (i_truth (ImplicationRevision old x)) (i_stamp (ImplicationRevision old x)) (i_offset (ImplicationRevision old x))
     (i_source (ImplicationRevision old x)) (i_sourceId (ImplicationRevision old x)) (i_creation (ImplicationRevision old x)) = merged old x.
Proof. reflexivity. Qed.

Lemma merged_good old x : good_imp old -> good_imp x -> good_imp (merged old x).
Proof.
  intros (S1 & V1 & P1) (S2 & V2 & P2). unfold good_imp, merged. cbn [i_source i_truth].
  destruct (revision_ok _ _ V1 V2 (or_introl P1)) as (V & C & _). split; auto. split; auto. lra.
Qed.

Definition all_good (t : table) := Forall good_imp (entries t).
Definition tinv (t : table) := wf t /\ all_good t.

Lemma Forall_firstn {A} (P : A -> Prop) n l : Forall P l -> Forall P (firstn n l).
Proof. intros H. rewrite Forall_forall in *. intros x X. apply H. rewrite <- (firstn_skipn n l). apply in_or_app; auto. Qed.
Lemma Forall_skipn {A} (P : A -> Prop) n l : Forall P l -> Forall P (skipn n l).
Proof. intros H. rewrite Forall_forall in *. intros x X. apply H. rewrite <- (firstn_skipn n l). apply in_or_app; auto. Qed.

Lemma good_source x : good_imp x -> match i_source x with Some _ => true | None => false end = true.
Proof. intros (S & _). destruct (i_source x); congruence. Qed.

Lemma goes_here_outranks t x k : wf t -> k < t_items t -> good_imp x -> good_imp (slot t k) ->
  (goes_here t x k = true <-> outranks x (slot t k)).
Proof.
  intros W Hk (_ & Vx & _) (_ & Vs & _). unfold goes_here, outranks.
  destruct (Nat.eqb_spec k (t_items t)); [lia|]. cbn [orb].
  pose proof (expectation_range _ (valid_validt _ Vx)) as [FX _]. pose proof (expectation_range _ (valid_validt _ Vs)) as [FS _].
  destruct Vx as [_ [FXc _]], Vs as [_ [FSc _]].
  destruct (term_eqb (i_term (slot t k)) (i_term x)) eqn:T; cbn [negb andb orb].
  - apply term_eqb_spec in T. rewrite fltb_spec by auto. tauto.
  - assert (NT : i_term (slot t k) <> i_term x).
    { intros Q. rewrite (proj2 (term_eqb_spec _ _) Q) in T. discriminate. }
    rewrite orb_false_r. rewrite fltb_spec by auto. unfold exp_of. tauto.
Qed.

Lemma add_full t x : tinv t -> good_imp x ->
  exists t' r, Table_Add t x = Ok (t', r) /\ tinv t' /\
  match r with
  | Some j => exists l1 l2, entries t = l1 ++ l2 /\ length l1 = j /\ entries t' = firstn 20 (l1 ++ x :: l2) /\ j < 20 /\
                (forall e, In e l1 -> ~ outranks x e) /\ (forall e l3, l2 = e :: l3 -> outranks x e)
  | None => t' = t /\ length (entries t) = 20 /\ (forall e, In e (entries t) -> ~ outranks x e)
  end.
Proof.
  intros [W G] GX. unfold Table_Add. rewrite (good_source x GX). cbn [rassert rbind].
  pose proof (entries_length _ W) as EL.
  assert (GS : forall k, k < t_items t -> good_imp (slot t k)).
  { intros k Hk. unfold all_good in G. rewrite Forall_forall in G. apply G. eapply nth_error_In. apply slot_entry; eauto. }
  destruct (add_spec t x W) as [(j & J1 & J2 & J3 & J4 & R)|(J1 & J2 & ->)].
  - destruct (add_loop t x 0 TABLE_SIZE) as [t' r]. destruct R as (-> & W' & E). exists t', (Some j). split; auto. split.
    { split; auto. unfold all_good. rewrite E. apply Forall_firstn, Forall_app. split; [apply Forall_firstn; auto|]. constructor; auto. apply Forall_skipn; auto. }
    exists (firstn j (entries t)), (skipn j (entries t)). split; [symmetry; apply firstn_skipn|].
    split; [rewrite firstn_length; lia|]. split; auto. split; auto. split.
    + intros e In1. apply In_nth_error in In1 as [k K]. 
      assert (Hk : k < j). { assert (k < length (firstn j (entries t))) by (apply nth_error_Some; congruence). rewrite firstn_length in H. lia. }
      rewrite (nth_error_nth0 _ k imp0) in K by (rewrite firstn_length; lia). rewrite nth_firstn in K by lia.
      pose proof (slot_entry t k W ltac:(lia)) as S. rewrite (nth_error_nth0 _ k imp0) in S by lia.
      assert (e = slot t k) by congruence. subst e. rewrite <- (goes_here_outranks t x k W ltac:(lia) GX (GS k ltac:(lia))). rewrite J4 by auto. discriminate.
    + intros e l3 E3. assert (Hj : j < t_items t).
      { destruct (Nat.eq_dec j (t_items t)); [|lia]. exfalso. assert (length (skipn j (entries t)) = 0) by (rewrite skipn_length; lia). rewrite E3 in H. discriminate. }
      pose proof (slot_entry t j W Hj) as S. rewrite <- (firstn_skipn j (entries t)) in S. rewrite nth_error_app2 in S by (rewrite firstn_length; lia).
      rewrite firstn_length, E3 in S. replace (j - Nat.min j (length (entries t))) with 0 in S by lia. cbn in S.
      assert (e = slot t j) by congruence. subst e. apply (goes_here_outranks t x j W Hj GX (GS j Hj)). auto.
  - exists t, None. split; auto. split; [split; auto|]. split; auto. split; [rewrite EL; auto|].
    intros e In1. apply In_nth_error in In1 as [k K]. 
    assert (Hk : k < t_items t). { rewrite <- EL. apply nth_error_Some; congruence. }
    rewrite slot_entry in K by auto. assert (e = slot t k) by congruence. subst e.
    rewrite <- (goes_here_outranks t x k W ltac:(lia) GX (GS k ltac:(lia))). rewrite J2 by lia. discriminate.
Qed.

Lemma add_revise_full t x : tinv t -> good_imp x ->
  exists t' r, Table_AddAndRevise t x = Ok (t', r) /\ tinv t' /\
  ((exists l1 old l2, entries t = l1 ++ old :: l2 /\ i_term old = i_term x /\ (forall e, In e l1 -> i_term e <> i_term x) /\
      exists m1 m2, m1 ++ m2 = l1 ++ l2 /\ entries t' = m1 ++ merged old x :: m2 /\ r = Some (length m1) /\
        (forall e, In e m1 -> ~ outranks (merged old x) e) /\ (forall e m3, m2 = e :: m3 -> outranks (merged old x) e))
   \/ ((forall e, In e (entries t) -> i_term e <> i_term x) /\ Table_Add t x = Ok (t', r))).
Proof.
  intros I GX. pose proof I as [W G]. unfold Table_AddAndRevise. pose proof (entries_length _ W) as EL.
  destruct (find_same_spec t x (t_items t) 0) as [FS FN].
  destruct (find_same t x 0 (t_items t)) as [k|].
  - destruct (FS k eq_refl) as (K1 & K2 & K3). clear FS FN.
    assert (GO : good_imp (slot t k)).
    { unfold all_good in G. rewrite Forall_forall in G. apply G. eapply nth_error_In. apply slot_entry; eauto; lia. }
    pose proof GO as (_ & VO & _). pose proof GX as (_ & VX & _).
    rewrite (bounds_ok _ VO), (bounds_ok _ VX). cbn [rassert rbind].
    pose proof (merged_good _ _ GO GX) as GM. pose proof GM as (_ & VM & _).
    change (i_truth (ImplicationRevision (slot t k) x)) with (i_truth (merged (slot t k) x)).
    rewrite (bounds_ok _ VM). cbn [rassert rbind].
    change (mkImp (i_term x) _ _ _ _ _ _) with (merged (slot t k) x).
    destruct (remove_spec t k W ltac:(lia)) as (W1 & E1 & I1).
    assert (IV : tinv (Table_Remove t k)).
    { split; auto. unfold all_good. rewrite E1. apply Forall_app. split; [apply Forall_firstn; auto|apply Forall_skipn; auto]. }
    destruct (add_full _ (merged (slot t k) x) IV GM) as (t' & r & -> & IV' & R). cbn [rbind snd].
    assert (E2 : entries t = firstn k (entries t) ++ slot t k :: skipn (S k) (entries t)).
    { rewrite <- (firstn_skipn k (entries t)) at 1. f_equal. pose proof (slot_entry t k W ltac:(lia)) as Sl.
      rewrite <- (firstn_skipn k (entries t)) in Sl. rewrite nth_error_app2 in Sl by (rewrite firstn_length; lia).
      rewrite firstn_length in Sl. replace (k - Nat.min k (length (entries t))) with 0 in Sl by lia.
      assert (S2 : forall l : list implication, skipn (S k) l = tl (skipn k l)).
      { clear. induction k as [|k IH]; intros [|a l]; cbn; auto. rewrite <- IH. destruct l; auto. }
      rewrite S2. destruct (skipn k (entries t)); cbn in Sl |- *; congruence. }
    destruct r as [j|].
    + destruct R as (m1 & m2 & M1 & M2 & M3 & M4 & M5 & M6). cbn [rassert rbind]. exists t', (Some j). split; auto. split; auto.
      left. exists (firstn k (entries t)), (slot t k), (skipn (S k) (entries t)). split; auto. split; auto. split.
      { intros e Ie. apply In_nth_error in Ie as [i Ei]. assert (Hi : i < k). { assert (i < length (firstn k (entries t))) by (apply nth_error_Some; congruence). rewrite firstn_length in H; lia. }
        rewrite (nth_error_nth0 _ i imp0) in Ei by (rewrite firstn_length; lia). rewrite nth_firstn in Ei by lia.
        pose proof (slot_entry t i W ltac:(lia)) as S. rewrite (nth_error_nth0 _ i imp0) in S by lia.
        replace e with (slot t i) by congruence. apply K3; lia. }
      exists m1, m2. split; [congruence|]. split; [|split; [congruence|auto]].
      rewrite M3. apply firstn_all2. rewrite app_length. cbn [length].
      assert (length m1 + length m2 = t_items t - 1) by (rewrite <- app_length, <- M1, (entries_length _ W1); auto). destruct W as [_ W20]; unfold TABLE_SIZE in W20; lia.
    + destruct R as (_ & Q & _). exfalso. rewrite (entries_length _ W1), I1 in Q. destruct W as [_ W]. unfold TABLE_SIZE in W. lia.
  - destruct (add_full t x I GX) as (t' & r & E & IV & _). exists t', r. split; auto. split; auto. right. split; auto.
    intros e Ie. apply In_nth_error in Ie as [k K]. assert (Hk : k < t_items t). { rewrite <- EL. apply nth_error_Some; congruence. }
    rewrite slot_entry in K by auto. replace e with (slot t k) by congruence. apply (FN eq_refl). lia.
Qed.

Lemma table0_inv : tinv table0.
Proof. split; [split; cbn; auto; unfold TABLE_SIZE; lia|]. constructor. Qed.

(** ranking *)
Lemma NoDup_firstn {A} n (l : list A) : NoDup l -> NoDup (firstn n l).
Proof. intros H. rewrite <- (firstn_skipn n l) in H. apply NoDup_app_remove_r in H. auto. Qed.
Lemma SS_firstn {A} (R : A -> A -> Prop) n l : StronglySorted R l -> StronglySorted R (firstn n l).
Proof.
  revert n; induction l as [|x l IH]; intros [|n] H; cbn; try constructor.
  - inversion H; auto.
  - inversion H; subst. apply Forall_firstn; auto.
Qed.
Lemma SS_app_inv {A} (R : A -> A -> Prop) l1 l2 : StronglySorted R (l1 ++ l2) ->
  StronglySorted R l1 /\ StronglySorted R l2 /\ (forall a b, In a l1 -> In b l2 -> R a b).
Proof.
  induction l1 as [|x l1 IH]; cbn; intros H; [split; [constructor|split; [auto|intros; contradiction]]|].
  inversion H as [|? ? H1 H2]; subst. destruct (IH H1) as (A1 & A2 & A3). rewrite Forall_app in H2. destruct H2 as [F1 F2].
  split; [constructor; auto|]. split; auto. intros a b [<-|Ia] Ib; auto. rewrite Forall_forall in F2; auto.
Qed.
Lemma SS_app {A} (R : A -> A -> Prop) l1 l2 : StronglySorted R l1 -> StronglySorted R l2 -> 
  (forall a b, In a l1 -> In b l2 -> R a b) -> StronglySorted R (l1 ++ l2).
Proof.
  induction l1 as [|x l1 IH]; cbn; intros H1 H2 H; auto. inversion H1; subst. constructor.
  - apply IH; auto.
  - apply Forall_app. split; auto. apply Forall_forall. auto.
Qed.
Lemma ranked_insert l1 l2 x : ranked (l1 ++ l2) -> one_per_term (l1 ++ l2) -> (forall e, In e (l1 ++ l2) -> i_term e <> i_term x) ->
  (forall e, In e l1 -> ~ outranks x e) -> (forall e l3, l2 = e :: l3 -> outranks x e) ->
  ranked (l1 ++ x :: l2) /\ one_per_term (l1 ++ x :: l2).
Proof.
  intros R O D H1 H2. split.
  - apply SS_app_inv in R as (R1 & R2 & R3). apply SS_app; auto.
    + constructor; auto. destruct l2 as [|e l3]; [constructor|]. 
      destruct (H2 e l3 eq_refl) as [[_ Q]|[Q _]]; [|exfalso; apply (D e); auto; apply in_or_app; right; left; auto].
      inversion R2 as [|? ? _ F]; subst. constructor; [lra|]. eapply Forall_impl; [|exact F]. cbv beta. intros; lra.
    + intros a b Ia [<-|Ib]; auto. 
      destruct (Rle_dec (exp_of x) (exp_of a)); auto. exfalso. apply (H1 a Ia). left. split; [|lra]. apply D. apply in_or_app; auto.
  - unfold one_per_term in *. rewrite map_app in *. cbn [map]. apply NoDup_Add with (a := i_term x) (l := map i_term l1 ++ map i_term l2).
    + apply Add_app.
    + split; auto. rewrite <- map_app. intros X. apply in_map_iff in X as (e & E1 & E2). apply (D e); auto.
Qed.
Lemma ranked_remove l1 y l2 : ranked (l1 ++ y :: l2) -> one_per_term (l1 ++ y :: l2) -> 
  ranked (l1 ++ l2) /\ one_per_term (l1 ++ l2) /\ (forall e, In e (l1 ++ l2) -> i_term e <> i_term y).
Proof.
  intros R O. apply SS_app_inv in R as (R1 & R2 & R3). inversion R2; subst. unfold one_per_term in *. rewrite map_app in *. cbn [map] in O.
  apply NoDup_remove in O. rewrite <- map_app in O. destruct O as [O1 O2]. split; [apply SS_app; auto; intros; apply R3; auto; right; auto|].
  split; auto. rewrite <- map_app; auto. intros e Ie Q. apply O2. rewrite <- Q. apply in_map; auto.
Qed.

Definition rinv t := tinv t /\ ranked (entries t) /\ one_per_term (entries t).
Lemma rinv_add t x t' r : rinv t -> good_imp x -> (forall e, In e (entries t) -> i_term e <> i_term x) -> Table_Add t x = Ok (t', r) -> rinv t'.
Proof.
  intros (I & R & O) GX D E. destruct (add_full t x I GX) as (t2 & r2 & E2 & I2 & S). rewrite E in E2. injection E2 as <- <-.
  split; auto. destruct r as [j|].
  - destruct S as (l1 & l2 & S1 & _ & S3 & _ & S5 & S6). rewrite S1 in *. rewrite S3.
    destruct (ranked_insert l1 l2 x) as [A B]; auto. split; [apply SS_firstn; auto|].
    unfold one_per_term in *. rewrite <- firstn_map. apply NoDup_firstn; auto.
  - destruct S as (-> & _). auto.
Qed.
Lemma rinv_remove t i : rinv t -> i < t_items t -> rinv (Table_Remove t i).
Proof.
  intros (I & R & O) H. destruct I as [W G]. destruct (remove_spec t i W H) as (W1 & E1 & I1).
  assert (SP : exists y, entries t = firstn i (entries t) ++ y :: skipn (S i) (entries t)).
  { exists (slot t i). pose proof (slot_entry t i W H) as Sl. rewrite <- (firstn_skipn i (entries t)) at 1. f_equal.
    rewrite <- (firstn_skipn i (entries t)) in Sl. pose proof (entries_length _ W). rewrite nth_error_app2 in Sl by (rewrite firstn_length; lia).
    rewrite firstn_length in Sl. replace (i - Nat.min i (length (entries t))) with 0 in Sl by lia.
    assert (S2 : forall l : list implication, skipn (S i) l = tl (skipn i l)).
    { clear. induction i as [|k IH]; intros [|a l]; cbn; auto. rewrite <- IH. destruct l; auto. }
    rewrite S2. destruct (skipn i (entries t)); cbn in Sl |- *; congruence. }
  destruct SP as [y SP]. rewrite SP in R, O. destruct (ranked_remove _ _ _ R O) as (A & B & _).
  split; [split; auto|rewrite E1; auto]. unfold all_good. rewrite E1. apply Forall_app. split; [apply Forall_firstn; auto|apply Forall_skipn; auto].
Qed.
Lemma rinv_revise t x t' r : rinv t -> good_imp x -> Table_AddAndRevise t x = Ok (t', r) -> rinv t'.
Proof.
  intros (I & R & O) GX E. destruct (add_revise_full t x I GX) as (t2 & r2 & E2 & I2 & S). rewrite E in E2. injection E2 as <- <-.
  destruct S as [(l1 & old & l2 & S1 & S2 & S3 & m1 & m2 & M1 & M2 & M3 & M4 & M5)|(D & A)].
  - rewrite S1 in R, O. destruct (ranked_remove _ _ _ R O) as (A & B & C). rewrite <- M1 in A, B, C.
    split; auto. rewrite M2. apply ranked_insert; auto. cbn [merged i_term]. intros e Ie. rewrite <- S2. auto.
  - eapply rinv_add; eauto. split; auto.
Qed.

Definition good_op (t : table) (o : top) : Prop :=
  match o with Add x => False | AddRevise x => good_imp x | Remove i => True end.
Lemma rinv_run os : forall t, rinv t -> Forall (fun o => match o with Add _ => False | AddRevise x => good_imp x | Remove _ => True end) os ->
  match trun t os with Ok t' => rinv t' | Abort => False | UB => True end.
Proof.
  induction os as [|o os IH]; intros t H F; cbn [trun]; auto. inversion F as [|? ? F1 F2]; subst.
  destruct o as [x|x|i]; cbn [tstep]; [contradiction| |].
  - pose proof H as (I & _). destruct (add_revise_full t x I F1) as (t' & r & E & _). rewrite E. cbn [rbind fst].
    apply IH; auto. eapply rinv_revise; eauto.
  - destruct (Nat.ltb_spec i (t_items t)); cbn [rbind]; auto. apply IH; auto. apply rinv_remove; auto.
Qed.
Lemma table0_rinv : rinv table0.
Proof. split; [apply table0_inv|]. split; constructor. Qed.

(** boundedness needs no assumption on the implications *)
Lemma wf_run os : forall t t', wf t -> trun t os = Ok t' -> wf t'.
Proof.
  assert (AD : forall t x t' r, wf t -> Table_Add t x = Ok (t', r) -> wf t').
  { intros t x t' r W. unfold Table_Add. destruct (i_source x); cbn [rassert rbind]; [|discriminate]. intros E0. assert (E : add_loop t x 0 TABLE_SIZE = (t', r)) by congruence. clear E0.
    destruct (add_spec t x W) as [(j & _ & _ & _ & _ & R)|(_ & _ & R)]; rewrite E in R; [destruct R as (_ & R & _); auto|congruence]. }
  induction os as [|o os IH]; cbn [trun]; intros t t' W; [intros [= <-]; auto|].
  destruct (tstep t o) as [t1| |] eqn:S; cbn [rbind]; try discriminate. apply IH.
  destruct o as [x|x|i]; cbn [tstep] in S.
  - destruct (Table_Add t x) as [[t2 r]| |] eqn:E; cbn in S; try discriminate. injection S as <-. eauto.
  - destruct (Table_AddAndRevise t x) as [[t2 r]| |] eqn:E; cbn in S; try discriminate. injection S as <-.
    unfold Table_AddAndRevise in E. destruct (find_same_spec t x (t_items t) 0) as [FS _]. destruct (find_same t x 0 (t_items t)) as [k|]; [|eauto].
    destruct (FS k eq_refl) as (K & _).
    destruct (truth_in_bounds _); cbn [rassert rbind] in E; [|discriminate].
    destruct (truth_in_bounds _); cbn [rassert rbind] in E; [|discriminate].
    destruct (truth_in_bounds _); cbn [rassert rbind] in E; [|discriminate].
    match goal with H : context[Table_Add ?a ?b] |- _ => destruct (Table_Add a b) as [[t3 r3]| |] eqn:E3 end; cbn [rbind] in E; try discriminate.
    destruct (snd _); cbn [rassert rbind] in E; [|discriminate]. injection E as <- <-. eapply AD; [|exact E3]. apply remove_spec; auto. lia.
  - destruct (Nat.ltb_spec i (t_items t)); [|discriminate]. injection S as <-. apply remove_spec; auto.
Qed.
