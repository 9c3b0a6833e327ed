(** Proofs about StampM. *)
From Verif Require Import Base StampM.
Local Open Scope Z_scope.

Lemma zip_loop_spec l1 : forall l2 p1 p2 acc,
  length l1 = length l2 -> (length acc < STAMP_SIZE)%nat ->
  zip_loop l1 l2 p1 p2 acc =
  firstn STAMP_SIZE (acc ++ interleave (if p1 then ids l1 else []) (if p2 then ids l2 else [])).
Proof.
  induction l1 as [|x t1 IH]; intros l2 p1 p2 acc Hl Ha; destruct l2 as [|y t2]; try discriminate Hl.
  - cbn [zip_loop ids]. replace (interleave _ _) with (@nil Z) by (destruct p1, p2; reflexivity).
    rewrite app_nil_r, firstn_all2; [reflexivity|lia].
  - cbn [length] in Hl. injection Hl as Hl. cbn [zip_loop ids].
    destruct p1, p2, (Z.eqb_spec x STAMP_FREE) as [Hx|Hx], (Z.eqb_spec y STAMP_FREE) as [Hy|Hy];
      cbn [andb negb interleave];
      repeat match goal with |- context [(STAMP_SIZE <=? length ?z)%nat] =>
        destruct (Nat.leb_spec STAMP_SIZE (length z)) end;
      rewrite ?IH by (repeat rewrite ?app_length in *; cbn [length] in *; lia);
      repeat rewrite ?app_length in *; cbn [length] in *;
      rewrite ?app_nil_r, <- ?app_assoc; cbn [app interleave];
      repeat match goal with |- context [interleave ?a []] =>
         replace (interleave a []) with a by (destruct a; reflexivity) end;
      try (rewrite firstn_all2 by lia; reflexivity); try reflexivity;
      try (rewrite firstn_app; replace (STAMP_SIZE - length acc)%nat with 1%nat by lia; cbn [firstn];
           rewrite firstn_all2 by lia; try reflexivity).
    all: try lia.
    all: try (change (y :: ?l) with ([y] ++ l)).
    rewrite firstn_app. replace (STAMP_SIZE - length acc)%nat with 2%nat by lia. cbn [firstn].
    rewrite firstn_all2 by lia. reflexivity.
Qed.

Lemma ids_nonfree s x : In x (ids s) -> x <> STAMP_FREE.
Proof.
  induction s as [|y t IH]; cbn; [tauto|].
  destruct (Z.eqb_spec y STAMP_FREE); cbn; intuition congruence.
Qed.

Lemma ids_pad w n : (forall x, In x w -> x <> STAMP_FREE) -> ids (w ++ repeat STAMP_FREE n) = w.
Proof.
  intros H; induction w as [|x t IH]; cbn.
  - destruct n; reflexivity.
  - destruct (Z.eqb_spec x STAMP_FREE) as [E|E]; [exfalso; apply (H x); cbn; auto|].
    rewrite IH; [reflexivity|]. intros y Hy; apply H; cbn; auto.
Qed.

Lemma ids_length s : (length (ids s) <= length s)%nat.
Proof. induction s as [|x t IH]; cbn; [lia|]. destruct (x =? STAMP_FREE); cbn; lia. Qed.

Lemma interleave_In a : forall b x, In x (interleave a b) <-> In x a \/ In x b.
Proof.
  induction a as [|h t IH]; intros [|h' t'] x; cbn; try tauto. rewrite IH. tauto.
Qed.

Lemma interleave_length a : forall b, length (interleave a b) = (length a + length b)%nat.
Proof. induction a as [|h t IH]; intros [|h' t']; cbn; try rewrite IH; lia. Qed.

Lemma interleave_even a : forall b i d, (i < length a)%nat -> (i < length b)%nat ->
  nth (2 * i) (interleave a b) d = nth i a d /\ nth (2 * i + 1) (interleave a b) d = nth i b d.
Proof.
  induction a as [|h t IH]; intros [|h' t'] i d Ha Hb; cbn in Ha, Hb; try lia.
  destruct i as [|i]; [split; reflexivity|].
  replace (2 * S i)%nat with (S (S (2 * i))) by lia.
  replace (S (S (2 * i)) + 1)%nat with (S (S (2 * i + 1))) by lia. cbn [interleave nth].
  apply IH; lia.
Qed.

(** beyond the shorter list the longer one's tail follows in order *)
Lemma interleave_tail a : forall b i d, (length b <= i)%nat ->
  nth (length b + i) (interleave a b) d = nth i a d.
Proof.
  induction a as [|h t IH]; intros [|h' t'] i d Hb; cbn in Hb.
  - destruct i; reflexivity.
  - rewrite nth_overflow by (cbn in *; lia). destruct i; reflexivity.
  - reflexivity.
  - destruct i as [|i]; [lia|]. replace (length (h' :: t') + S i)%nat with (S (S (length t' + i))) by (cbn; lia).
    cbn [interleave nth]. apply IH. lia.
Qed.

Lemma In_firstn {A} (l : list A) n x : In x (firstn n l) -> In x l.
Proof. revert n; induction l as [|h t IH]; intros [|n]; cbn; try tauto. intros [H|H]; eauto. Qed.

Lemma stamp_make_ids s1 s2 : stamp_wf s1 -> stamp_wf s2 ->
  stamp_wf (stamp_make s1 s2) /\
  ids (stamp_make s1 s2) = firstn STAMP_SIZE (interleave (ids s1) (ids s2)).
Proof.
  unfold stamp_wf; intros H1 H2.
  assert (E : zip_loop s1 s2 true true [] = firstn STAMP_SIZE (interleave (ids s1) (ids s2))).
  { rewrite zip_loop_spec; [reflexivity|congruence|cbn; unfold STAMP_SIZE; lia]. }
  unfold stamp_make. rewrite E. split.
  - rewrite app_length, repeat_length. pose proof (firstn_le_length STAMP_SIZE (interleave (ids s1) (ids s2))). lia.
  - apply ids_pad. intros x Hx. apply In_firstn, interleave_In in Hx. destruct Hx as [Hx|Hx]; eapply ids_nonfree; eauto.
Qed.

Lemma overlap_inner_spec x b : x <> STAMP_FREE -> overlap_inner x b = true <-> In x (ids b).
Proof.
  intros Hx; induction b as [|y t IH]; cbn; [split; [discriminate|tauto]|].
  destruct (Z.eqb_spec y STAMP_FREE); cbn; [split; [discriminate|tauto]|].
  destruct (Z.eqb_spec x y); cbn; [split; auto|]. rewrite IH. split; [auto|]. intros [E|E]; [congruence|auto].
Qed.

Lemma stamp_overlap_spec a b :
  stamp_check_overlap a b = true <-> exists x, In x (ids a) /\ In x (ids b).
Proof.
  unfold stamp_check_overlap. induction a as [|x t IH]; cbn.
  - split; [discriminate|intros (x & [] & _)].
  - destruct (Z.eqb_spec x STAMP_FREE) as [E|E]; cbn.
    + split; [discriminate|intros (z & [] & _)].
    + destruct (overlap_inner x b) eqn:O.
      * apply overlap_inner_spec in O; auto. split; eauto.
      * rewrite IH. split; intros (z & Hz & Hb); [eauto|]. destruct Hz as [->|Hz]; [|eauto].
        apply overlap_inner_spec in Hb; [congruence|auto].
Qed.

Lemma stamp_overlap_sym a b : stamp_check_overlap a b = stamp_check_overlap b a.
Proof.
  apply eq_true_iff_eq. rewrite !stamp_overlap_spec. split; intros (x & H1 & H2); eauto.
Qed.

Lemma stamp_make_overlaps_premises s1 s2 : stamp_wf s1 -> stamp_wf s2 ->
  (ids s1 <> [] -> stamp_check_overlap (stamp_make s1 s2) s1 = true) /\
  (ids s2 <> [] -> stamp_check_overlap (stamp_make s1 s2) s2 = true).
Proof.
  intros H1 H2. destruct (stamp_make_ids s1 s2 H1 H2) as [_ E].
  split; intros N; apply stamp_overlap_spec; rewrite E.
  - destruct (ids s1) as [|x t]; [congruence|]. exists x. destruct (ids s2); cbn; auto.
  - destruct (ids s2) as [|x t]; [congruence|]. exists x. destruct (ids s1); cbn; auto.
Qed.

Lemma stamp_make_overlap_exact s1 s2 z : stamp_wf s1 -> stamp_wf s2 ->
  (length (ids s1) + length (ids s2) <= STAMP_SIZE)%nat ->
  stamp_check_overlap (stamp_make s1 s2) z = stamp_check_overlap s1 z || stamp_check_overlap s2 z.
Proof.
  intros H1 H2 HL. destruct (stamp_make_ids s1 s2 H1 H2) as [_ E].
  rewrite firstn_all2 in E by (rewrite interleave_length; lia).
  apply eq_true_iff_eq. rewrite orb_true_iff, !stamp_overlap_spec, E. setoid_rewrite interleave_In.
  split; [intros (x & [H|H] & Hz); eauto|intros [(x & H & Hz)|(x & H & Hz)]; eauto].
Qed.

(** a detected overlap is never spurious, truncated or not *)
Lemma stamp_make_overlap_sound s1 s2 z : stamp_wf s1 -> stamp_wf s2 ->
  stamp_check_overlap (stamp_make s1 s2) z = true ->
  stamp_check_overlap s1 z = true \/ stamp_check_overlap s2 z = true.
Proof.
  intros H1 H2. destruct (stamp_make_ids s1 s2 H1 H2) as [_ E].
  rewrite !stamp_overlap_spec, E. intros (x & Hx & Hz). apply In_firstn, interleave_In in Hx.
  destruct Hx; [left|right]; eauto.
Qed.

Lemma interleave_NoDup a : forall b, NoDup a -> NoDup b -> (forall x, In x a -> ~ In x b) -> NoDup (interleave a b).
Proof.
  induction a as [|h t IH]; intros [|h' t'] Ha Hb HD; cbn; auto.
  inversion_clear Ha as [|? ? Hh Ht]. inversion_clear Hb as [|? ? Hh' Ht'].
  constructor.
  - cbn. intros [E|E]; [apply (HD h); cbn; auto|]. apply interleave_In in E. destruct E as [E|E]; [tauto|].
    apply (HD h); cbn; auto.
  - constructor.
    + intros E. apply interleave_In in E. destruct E as [E|E]; [|tauto]. apply (HD h'); cbn; auto.
    + apply IH; auto. intros x Hx Hx'. apply (HD x); cbn; auto.
Qed.

Lemma NoDup_firstn {A} (l : list A) n : NoDup l -> NoDup (firstn n l).
Proof.
  revert n; induction l as [|h t IH]; intros [|n] H; cbn; try constructor.
  - inversion_clear H as [|? ? Hh Ht]. intros HI. apply In_firstn in HI. tauto.
  - apply IH. inversion_clear H; auto.
Qed.

Lemma stamp_make_NoDup s1 s2 : stamp_wf s1 -> stamp_wf s2 ->
  NoDup (ids s1) -> NoDup (ids s2) -> stamp_check_overlap s1 s2 = false ->
  NoDup (ids (stamp_make s1 s2)).
Proof.
  intros H1 H2 N1 N2 HO. destruct (stamp_make_ids s1 s2 H1 H2) as [_ E]. rewrite E.
  apply NoDup_firstn, interleave_NoDup; auto. intros x Hx Hx'.
  assert (stamp_check_overlap s1 s2 = true) by (apply stamp_overlap_spec; eauto). congruence.
Qed.

(** *** Stamp_Equal *)
Lemma equal_inner_spec x b : x <> STAMP_FREE ->
  match equal_inner x b with
  | Some true => In x (ids b)
  | Some false => ~ In x (ids b)
  | None => ~ In x (ids b)
  end.
Proof.
  intros Hx; induction b as [|y t IH]; cbn; [tauto|].
  destruct (Z.eqb_spec y STAMP_FREE); cbn; [tauto|].
  destruct (Z.eqb_spec x y); cbn; [auto|].
  destruct (equal_inner x t) as [[|]|]; intuition congruence.
Qed.

Lemma equal_loop_spec a : forall brest b, length a = length brest ->
  equal_loop a brest b = true <->
  (forall x, In x (ids a) -> In x (ids b)) /\
  ((length (ids a) < length a)%nat -> nth (length (ids a)) brest STAMP_FREE = STAMP_FREE).
Proof.
  induction a as [|x ta IH]; intros [|y tb] b HL; try discriminate HL; cbn [equal_loop ids].
  - cbn. split; [intros _; split; [tauto|lia]|reflexivity].
  - injection HL as HL. destruct (Z.eqb_spec x STAMP_FREE) as [E|E].
    + rewrite Z.eqb_eq. cbn. split; [intros ->; split; [tauto|reflexivity]|]. intros [_ H]; apply H; lia.
    + pose proof (equal_inner_spec x b E) as HI. destruct (equal_inner x b) as [[|]|].
      * rewrite (IH tb b HL). cbn [In length nth]. split; intros [H1 H2]; split.
        -- intros z [->|Hz]; auto.
        -- intros Hlt; apply H2; lia.
        -- intros z Hz; auto.
        -- intros Hlt; apply H2; lia.
      * split; [discriminate|]. intros [H _]. exfalso; apply HI, H; cbn; auto.
      * split; [discriminate|]. intros [H _]. exfalso; apply HI, H; cbn; auto.
Qed.

Lemma ids_nth_free b : forall i, nth i b STAMP_FREE = STAMP_FREE -> (length (ids b) <= i)%nat.
Proof.
  induction b as [|y t IH]; intros i H; cbn; [lia|].
  destruct (Z.eqb_spec y STAMP_FREE); cbn; [lia|]. destruct i as [|i]; cbn in H; [congruence|]. apply IH in H; lia.
Qed.

Lemma ids_nth_at b : nth (length (ids b)) b STAMP_FREE = STAMP_FREE.
Proof.
  induction b as [|y t IH]; cbn; [reflexivity|]. destruct (Z.eqb_spec y STAMP_FREE) as [E|E]; cbn; auto.
Qed.

Lemma stamp_equal_spec a b : stamp_wf a -> stamp_wf b -> NoDup (ids a) -> NoDup (ids b) ->
  stamp_equal a b = true <-> (forall x, In x (ids a) <-> In x (ids b)).
Proof.
  unfold stamp_wf; intros Ha Hb Na Nb. unfold stamp_equal. rewrite equal_loop_spec by congruence.
  split.
  - intros [Hin Hlast].
    assert (HL : (length (ids b) <= length (ids a))%nat).
    { destruct (Nat.lt_ge_cases (length (ids a)) (length a)) as [H|H].
      - apply ids_nth_free; auto.
      - pose proof (ids_length b). lia. }
    intros x; split; [apply Hin|].
    apply (NoDup_length_incl Na HL Hin).
  - intros H. split; [intros x; apply H|]. intros _.
    assert (E : length (ids a) = length (ids b)).
    { apply Nat.le_antisymm; apply NoDup_incl_length; auto; intros x; apply H. }
    rewrite E. apply ids_nth_at.
Qed.

Lemma stamp_equal_refl a : stamp_wf a -> stamp_equal a a = true.
Proof.
  intros Ha. unfold stamp_equal. apply equal_loop_spec; [reflexivity|]. split; [auto|]. intros _; apply ids_nth_at.
Qed.

Lemma firstn_nth_lt {A} n : forall (l : list A) i d, (i < n)%nat -> nth i (firstn n l) d = nth i l d.
Proof.
  induction n as [|n IH]; intros l i d H; [lia|].
  destruct l as [|h t]; [destruct i; reflexivity|]. destruct i as [|i]; cbn; [reflexivity|]. apply IH; lia.
Qed.

Lemma stamp_make_pointwise s1 s2 : stamp_wf s1 -> stamp_wf s2 ->
  (forall x, In x (ids (stamp_make s1 s2)) -> In x (ids s1) \/ In x (ids s2)) /\
  length (ids (stamp_make s1 s2)) = Nat.min 10 (length (ids s1) + length (ids s2)) /\
  (forall i, (i < length (ids s1))%nat -> (i < length (ids s2))%nat -> (2 * i < 10)%nat ->
     nth (2 * i) (ids (stamp_make s1 s2)) 0 = nth i (ids s1) 0) /\
  (forall i, (i < length (ids s1))%nat -> (i < length (ids s2))%nat -> (2 * i + 1 < 10)%nat ->
     nth (2 * i + 1) (ids (stamp_make s1 s2)) 0 = nth i (ids s2) 0) /\
  ((length (ids s1) + length (ids s2) <= 10)%nat ->
     forall x, In x (ids s1) \/ In x (ids s2) -> In x (ids (stamp_make s1 s2))).
Proof.
  intros H1 H2. destruct (stamp_make_ids s1 s2 H1 H2) as [_ E]. rewrite E. unfold STAMP_SIZE.
  repeat split.
  - intros x Hx. apply In_firstn, interleave_In in Hx. exact Hx.
  - rewrite firstn_length, interleave_length. reflexivity.
  - intros i Ha Hb Hi. rewrite firstn_nth_lt by exact Hi. apply interleave_even; auto.
  - intros i Ha Hb Hi. rewrite firstn_nth_lt by exact Hi. apply interleave_even; auto.
  - intros HL x Hx. rewrite firstn_all2 by (rewrite interleave_length; exact HL). apply interleave_In; auto.
Qed.

Lemma stamp_equal_sym a b : stamp_wf a -> stamp_wf b ->
  NoDup (ids a) -> NoDup (ids b) -> stamp_equal a b = stamp_equal b a.
Proof.
  intros Ha Hb Na Nb. apply eq_true_iff_eq. rewrite !stamp_equal_spec by auto.
  split; intros H x; split; apply H.
Qed.

Lemma NoDup_by_dec (l : list Z) : nodup Z.eq_dec l = l -> NoDup l.
Proof. intros H. rewrite <- H. apply NoDup_nodup. Qed.

Lemma stamp_make_truncation_loses_evidence : exists s1 s2 z,
  stamp_wf s1 /\ stamp_wf s2 /\ stamp_wf z /\ NoDup (ids s1) /\ NoDup (ids s2) /\
  stamp_check_overlap s1 s2 = false /\
  stamp_check_overlap s1 z = true /\
  stamp_check_overlap (stamp_make s1 s2) z = false.
Proof.
  exists [1;2;3;4;5;6;7;8;9;10], [11;12;13;14;15;16;17;18;19;20], [10;0;0;0;0;0;0;0;0;0].
  repeat split; try (apply NoDup_by_dec); vm_compute; reflexivity.
Qed.

Lemma stamp_equal_not_symmetric : exists a b, stamp_wf a /\ stamp_wf b /\
  stamp_equal a b = true /\ stamp_equal b a = false /\
  ~ (forall x, In x (ids a) <-> In x (ids b)) /\
  (exists s, stamp_wf s /\ a = stamp_make s s).
Proof.
  exists [1;1;0;0;0;0;0;0;0;0], [1;2;0;0;0;0;0;0;0;0].
  repeat split; try (vm_compute; reflexivity).
  - intros H. specialize (H 2). vm_compute in H. destruct H as [_ H]. intuition discriminate.
  - exists [1;0;0;0;0;0;0;0;0;0]. split; vm_compute; reflexivity.
Qed.
