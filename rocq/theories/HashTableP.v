(** Proofs about HashTableM. *)
From Verif Require Import Base StackM StackP HashM HashTableM HashTableS.
From Coq Require Import Permutation.

Section HT.
Context {K V : Type}.
Variable equal : K -> K -> bool.
Variable hash : K -> Z.
Hypothesis equal_refl : forall k, equal k k = true.
Hypothesis equal_sym : forall a b, equal a b = equal b a.
Hypothesis equal_trans : forall a b c, equal a b = true -> equal b c = true -> equal a c = true.
Hypothesis equal_hash : forall a b, equal a b = true -> hash a = hash b.
Hypothesis hash_nonneg : forall k, (0 <= hash k)%Z.

Notation lookup := (@HashTableS.lookup K V equal).
Notation has := (@HashTableS.has K V equal).
Notation put := (@HashTableS.put K V equal).
Notation del := (@HashTableS.del K V equal).
Notation entry := (nat * (K * V))%type.
Notation entries l := (map (@snd nat (K * V)) l).
Notation slots l := (map (@fst nat (K * V)) l).

(** ** linked segments *)
Fixpoint seg (st : list (option (item K V))) (s : option nat) (l : list entry) (e : option nat) : Prop :=
  match l with
  | [] => s = e
  | (p, (k, v)) :: l' => s = Some p /\ exists nx, nth_error st p = Some (Some (mkItem k v nx)) /\ seg st nx l' e
  end.
Lemma seg_app st l1 l2 : forall s e, seg st s (l1 ++ l2) e <-> exists m, seg st s l1 m /\ seg st m l2 e.
Proof.
  induction l1 as [|[p [k v]] l1 IH]; intros s e; cbn [app seg].
  - split; [eauto|intros (m & -> & H); exact H].
  - split.
    + intros (-> & nx & H1 & H2). apply IH in H2 as (m & A & B). exists m; eauto 6.
    + intros (m & (-> & nx & H1 & H2) & H3). split; auto. exists nx. split; auto. apply IH. eauto.
Qed.
Lemma seg_frame st p x l : ~ In p (slots l) -> forall s e, seg st s l e -> seg (upd st p x) s l e.
Proof.
  induction l as [|[q [k v]] l IH]; cbn [map fst In seg]; intros N s e; auto.
  intros (-> & nx & H1 & H2). split; auto. exists nx. split; [|apply IH; auto].
  rewrite nth_error_upd. destruct (Nat.eqb_spec q p); [tauto|]. exact H1.
Qed.
Lemma seg_lt st l : forall s e, seg st s l e -> Forall (fun p => p < length st) (slots l).
Proof.
  induction l as [|[p [k v]] l IH]; cbn [map fst seg]; intros s e; [constructor|].
  intros (_ & nx & H1 & H2). constructor; [apply nth_error_Some; rewrite H1; discriminate|eauto].
Qed.
Lemma deref_ok (h : htable K V) p it : nth_error (storage h) p = Some (Some it) -> deref h p = Ok it.
Proof. intros H. unfold deref. rewrite H. reflexivity. Qed.
Lemma store_ok (h : htable K V) p it : p < length (storage h) ->
  store h p it = Ok (mkHT (upd (storage h) p (Some it)) (HT h) (VMStack h)).
Proof. intros H. unfold store. destruct (Nat.ltb_spec p (length (storage h))); [reflexivity|lia]. Qed.

Lemma get_loop_ok (h : htable K V) key l : forall s fuel, seg (storage h) s l None -> length l <= fuel ->
  get_loop equal fuel h s key = Ok (lookup key (entries l)).
Proof.
  induction l as [|[p [k v]] l IH]; intros s fuel; cbn [seg length map snd].
  - intros -> _. destruct fuel; reflexivity.
  - intros (-> & nx & H1 & H2) Hf. destruct fuel as [|fuel]; [lia|]. cbn [get_loop].
    rewrite (deref_ok _ _ _ H1). cbn [rbind i_key i_value i_next]. unfold HashTableS.lookup. cbn [find fst].
    destruct (equal k key); [reflexivity|]. apply IH; auto. lia.
Qed.

(** first entry with an equal key *)
Lemma split_first (key : K) (l : list entry) : has key (entries l) = true ->
  exists l1 p k v l2, l = l1 ++ (p, (k, v)) :: l2 /\ equal k key = true /\ has key (entries l1) = false.
Proof.
  induction l as [|[p [k v]] l IH]; cbn [map snd has existsb fst]; [discriminate|].
  destruct (equal k key) eqn:E.
  - intros _. exists [], p, k, v, l. auto.
  - cbn [orb]. intros H. destruct (IH H) as (l1 & p' & k' & v' & l2 & -> & H1 & H2).
    exists ((p, (k, v)) :: l1), p', k', v', l2. split; [reflexivity|]. split; auto.
    cbn [map snd existsb fst]. unfold HashTableS.has; cbn [existsb fst]. rewrite E. exact H2.
Qed.
Lemma has_cons key e l : has key (e :: l) = equal (fst e) key || has key l.
Proof. reflexivity. Qed.
Lemma has_app key l l' : has key (l ++ l') = has key l || has key l'.
Proof. apply existsb_app. Qed.
Lemma lookup_app_no key l l' : has key l = false -> lookup key (l ++ l') = lookup key l'.
Proof.
  induction l as [|e l IH]; auto. rewrite has_cons. unfold HashTableS.lookup. cbn [app find].
  destruct (equal (fst e) key); [discriminate|]. exact IH.
Qed.
Lemma has_lookup key l : has key l = match lookup key l with Some _ => true | None => false end.
Proof.
  induction l as [|e l IH]; auto. rewrite has_cons. unfold HashTableS.lookup. cbn [find].
  destruct (equal (fst e) key); [reflexivity|]. exact IH.
Qed.
Lemma has_equal k1 k2 l : equal k1 k2 = true -> has k1 l = has k2 l.
Proof.
  intros E. induction l as [|e l IH]; auto. rewrite !has_cons, IH. f_equal.
  destruct (equal (fst e) k1) eqn:A, (equal (fst e) k2) eqn:B; auto.
  - rewrite (equal_trans _ _ _ A E) in B. discriminate.
  - rewrite equal_sym in E. rewrite (equal_trans _ _ _ B E) in A. discriminate.
Qed.
Lemma lookup_equal k1 k2 l : equal k1 k2 = true -> lookup k1 l = lookup k2 l.
Proof.
  intros E. unfold HashTableS.lookup. f_equal. induction l as [|e l IH]; auto. cbn [find].
  destruct (equal (fst e) k1) eqn:A, (equal (fst e) k2) eqn:B; auto.
  - rewrite (equal_trans _ _ _ A E) in B. discriminate.
  - rewrite equal_sym in E. rewrite (equal_trans _ _ _ B E) in A. discriminate.
Qed.

Lemma set_loop_found h key p k v l2 : equal k key = true -> forall l1 q fuel,
  seg (storage h) (Some q) (l1 ++ (p, (k, v)) :: l2) None -> has key (entries l1) = false ->
  length l1 < fuel -> set_loop equal fuel h q key = Ok (inl p).
Proof.
  intros E. induction l1 as [|[p' [k' v']] l1 IH]; intros q fuel S N F; destruct fuel as [|fuel]; cbn [length] in F; try lia;
    cbn [app seg] in S; destruct S as (Hq & nx & H1 & H2); injection Hq as ->; cbn [set_loop].
  - rewrite (deref_ok _ _ _ H1). cbn [rbind i_key]. rewrite E. reflexivity.
  - rewrite (deref_ok _ _ _ H1). cbn [rbind i_key i_next]. cbn [map snd] in N. rewrite has_cons in N.
    apply orb_false_iff in N as [N1 N2]. cbn [fst] in N1. rewrite N1.
    destruct nx as [q'|]; [apply IH; auto; lia|].
    destruct l1 as [|[? [? ?]] l1]; cbn [app seg] in H2; destruct H2 as (X & _); discriminate.
Qed.
Lemma set_loop_absent h key p k v : forall l1 q fuel,
  seg (storage h) (Some q) (l1 ++ [(p, (k, v))]) None -> has key (entries (l1 ++ [(p, (k, v))])) = false ->
  length l1 < fuel -> set_loop equal fuel h q key = Ok (inr p).
Proof.
  induction l1 as [|[p' [k' v']] l1 IH]; intros q fuel S N F; destruct fuel as [|fuel]; cbn [length] in F; try lia;
    cbn [app seg] in S; destruct S as (Hq & nx & H1 & H2); injection Hq as ->; cbn [set_loop];
    rewrite (deref_ok _ _ _ H1); cbn [rbind i_key i_next]; cbn [app map snd] in N; rewrite has_cons in N;
    apply orb_false_iff in N as [N1 N2]; cbn [fst] in N1; rewrite N1.
  - cbn [seg] in H2. subst nx. reflexivity.
  - destruct nx as [q'|]; [apply IH; auto; lia|].
    destruct l1 as [|[? [? ?]] l1]; cbn [app seg] in H2; destruct H2 as (X & _); discriminate.
Qed.

(** ** the invariant *)
Definition bkt (nb : nat) (k : K) : nat := Z.to_nat (bucket_of (hash k) (Z.of_nat nb)).
Fixpoint distinct (l : list (K * V)) : Prop :=
  match l with [] => True | e :: l' => has (fst e) l' = false /\ distinct l' end.
Record inv (h : htable K V) (Bs : list (list entry)) (free : list nat) : Prop := {
  inv_len : length Bs = length (HT h);
  inv_pos : 0 < length (HT h);
  inv_seg : forall b l, nth_error Bs b = Some l -> exists s, nth_error (HT h) b = Some s /\ seg (storage h) s l None;
  inv_free : holds (VMStack h) free;
  inv_max : s_max (VMStack h) = length (storage h);
  inv_perm : Permutation (free ++ slots (concat Bs)) (seq 0 (length (storage h)));
  inv_bkt : forall b l, nth_error Bs b = Some l -> Forall (fun e => bkt (length (HT h)) (fst (snd e)) = b) l;
  inv_dist : forall b l, nth_error Bs b = Some l -> distinct (entries l)
}.

Lemma bkt_lt nb k : 0 < nb -> bkt nb k < nb.
Proof.
  intros H. unfold bkt, bucket_of. pose proof (hash_nonneg k) as N.
  pose proof (Z.rem_bound_pos (hash k) (Z.of_nat nb)). lia.
Qed.
Lemma bucket_nonneg nb k : 0 < nb -> (0 <= bucket_of (hash k) (Z.of_nat nb))%Z.
Proof. intros H. unfold bucket_of. pose proof (hash_nonneg k) as N. pose proof (Z.rem_bound_pos (hash k) (Z.of_nat nb)). lia. Qed.

Lemma nth_error_split_concat {A} (Bs : list (list A)) b l : nth_error Bs b = Some l ->
  exists B1 B2, Bs = B1 ++ l :: B2 /\ length B1 = b /\ (forall x, upd Bs b x = B1 ++ x :: B2).
Proof.
  revert b; induction Bs as [|c Bs IH]; intros [|b]; cbn; try discriminate.
  - intros [= ->]. exists [], Bs. auto.
  - intros H. destruct (IH _ H) as (B1 & B2 & -> & L & U). exists (c :: B1), B2. split; [reflexivity|].
    split; [cbn; lia|]. intros x. cbn. rewrite U. reflexivity.
Qed.
Lemma slots_in_concat Bs b l : nth_error Bs b = Some l -> incl (slots l) (slots (concat Bs)).
Proof.
  intros H. destruct (nth_error_split_concat _ _ _ H) as (B1 & B2 & -> & _).
  rewrite concat_app, map_app. cbn [concat]. rewrite map_app. intros x Hx. apply in_or_app; right; apply in_or_app; auto.
Qed.
Lemma slots_concat_split (B1 B2 : list (list entry)) l :
  Permutation (slots (concat (B1 ++ l :: B2))) (slots l ++ slots (concat (B1 ++ B2))).
Proof.
  rewrite !concat_app, !map_app. cbn [concat]. rewrite map_app.
  rewrite !app_assoc. apply Permutation_app_tail, Permutation_app_comm.
Qed.
Section FromInv.
Context {h : htable K V} {Bs : list (list entry)} {free : list nat} (I : inv h Bs free).
Lemma inv_nodup : NoDup (free ++ slots (concat Bs)).
Proof. apply (Permutation_NoDup (Permutation_sym (inv_perm _ _ _ I))). apply seq_NoDup. Qed.
Lemma inv_lt x : In x (free ++ slots (concat Bs)) -> x < length (storage h).
Proof. intros H. apply (Permutation_in _ (inv_perm _ _ _ I)) in H. apply in_seq in H. lia. Qed.
Lemma inv_bucket k : exists l s, nth_error Bs (bkt (length (HT h)) k) = Some l /\
  nth_error (HT h) (bkt (length (HT h)) k) = Some s /\ seg (storage h) s l None /\ length l <= length (storage h).
Proof.
  pose proof (bkt_lt (length (HT h)) k (inv_pos _ _ _ I)) as L. rewrite <- (inv_len _ _ _ I) in L.
  destruct (nth_error Bs (bkt (length (HT h)) k)) as [l|] eqn:E.
  2:{ apply nth_error_None in E. rewrite <- (inv_len _ _ _ I) in E. lia. }
  destruct (inv_seg _ _ _ I _ _ E) as (s & H1 & H2). exists l, s. repeat split; auto.
  pose proof inv_nodup as N. apply NoDup_app_remove_l in N.
  destruct (nth_error_split_concat _ _ _ E) as (B1 & B2 & EB & _ & _).
  rewrite EB in N. apply (Permutation_NoDup (slots_concat_split B1 B2 l)) in N. apply NoDup_app_remove_r in N.
  rewrite <- (map_length fst l). apply Nat.le_trans with (length (seq 0 (length (storage h)))).
  - apply NoDup_incl_length; auto. intros x Hx. apply in_seq. split; [lia|]. cbn. apply inv_lt. apply in_or_app; right.
    apply (slots_in_concat _ _ _ E). exact Hx.
  - rewrite seq_length. lia.
Qed.
Lemma read_bucket_ok k s : nth_error (HT h) (bkt (length (HT h)) k) = Some s ->
  read_bucket h (bucket_of (hash k) (buckets h)) = Ok s.
Proof.
  intros H. unfold read_bucket, buckets. pose proof (bucket_nonneg (length (HT h)) k (inv_pos _ _ _ I)).
  destruct (Z.ltb_spec (bucket_of (hash k) (Z.of_nat (length (HT h)))) 0); [lia|].
  unfold bkt in H. rewrite H. reflexivity.
Qed.
Lemma buckets_nz : (buckets h =? 0)%Z = false.
Proof. pose proof (inv_pos _ _ _ I). unfold buckets. destruct (Z.eqb_spec (Z.of_nat (length (HT h))) 0); [lia|reflexivity]. Qed.
End FromInv.

(** The association list [m] and the table [h] have the same content. *)
Definition same (m : list (K * V)) (h : htable K V) (Bs : list (list entry)) : Prop :=
  length m = length (concat Bs) /\
  (forall k l, nth_error Bs (bkt (length (HT h)) k) = Some l -> lookup k m = lookup k (entries l)).

Lemma get_ok m h Bs free key : inv h Bs free -> same m h Bs -> HashTable_Get equal hash h key = Ok (lookup key m).
Proof.
  intros I S. unfold HashTable_Get. rewrite (buckets_nz I).
  destruct (inv_bucket I key) as (l & s & H1 & H2 & H3 & H4). rewrite (read_bucket_ok I key s H2). cbn [rbind].
  rewrite (get_loop_ok h key l s _ H3 H4). f_equal. symmetry. apply S. exact H1.
Qed.

(** ** generic re-establishment of the invariant after changing one bucket *)
Lemma write_bucket_ok (h : htable K V) k x : 0 < length (HT h) ->
  write_bucket h (bucket_of (hash k) (buckets h)) x =
  Ok (mkHT (storage h) (upd (HT h) (bkt (length (HT h)) k) x) (VMStack h)).
Proof.
  intros P. unfold write_bucket, buckets. pose proof (bucket_nonneg (length (HT h)) k P).
  pose proof (bkt_lt (length (HT h)) k P) as L. unfold bkt in *.
  destruct (Z.ltb_spec (bucket_of (hash k) (Z.of_nat (length (HT h)))) 0); [lia|].
  destruct (Nat.ltb_spec (Z.to_nat (bucket_of (hash k) (Z.of_nat (length (HT h))))) (length (HT h))); [reflexivity|lia].
Qed.

Lemma inv_update (h : htable K V) Bs free h' free' b l l' :
  inv h Bs free -> nth_error Bs b = Some l ->
  length (HT h') = length (HT h) -> length (storage h') = length (storage h) ->
  (exists s, nth_error (HT h') b = Some s /\ seg (storage h') s l' None) ->
  (forall b2, b2 <> b -> nth_error (HT h') b2 = nth_error (HT h) b2) ->
  (forall b2 l2 s, b2 <> b -> nth_error Bs b2 = Some l2 -> seg (storage h) s l2 None -> seg (storage h') s l2 None) ->
  holds (VMStack h') free' -> s_max (VMStack h') = s_max (VMStack h) ->
  Permutation (free' ++ slots l') (free ++ slots l) ->
  Forall (fun e => bkt (length (HT h)) (fst (snd e)) = b) l' ->
  distinct (entries l') ->
  inv h' (upd Bs b l') free'.
Proof.
  intros I E LH LS (s & Hs & Sg) OH OS HV HM P FB D.
  destruct (nth_error_split_concat _ _ _ E) as (B1 & B2 & EB & LB & U).
  constructor.
  - rewrite upd_length, LH. apply (inv_len _ _ _ I).
  - rewrite LH. apply (inv_pos _ _ _ I).
  - intros b2 l2 H2. rewrite nth_error_upd in H2. destruct (Nat.eqb_spec b2 b) as [->|N].
    + destruct (Nat.ltb_spec b (length Bs)); cbn [andb] in H2.
      * injection H2 as <-. eauto.
      * apply nth_error_None in H. congruence.
    + cbn [andb] in H2. destruct (inv_seg _ _ _ I _ _ H2) as (s2 & A & B). exists s2. rewrite OH by auto. split; auto.
      eapply OS; eauto.
  - exact HV.
  - rewrite HM, LS. apply (inv_max _ _ _ I).
  - rewrite LS. rewrite <- (inv_perm _ _ _ I). rewrite U. rewrite EB.
    rewrite (slots_concat_split B1 B2 l'), (slots_concat_split B1 B2 l). rewrite !app_assoc. apply Permutation_app_tail. exact P.
  - intros b2 l2 H2. rewrite LH. rewrite nth_error_upd in H2. destruct (Nat.eqb_spec b2 b) as [->|N].
    + destruct (Nat.ltb_spec b (length Bs)); cbn [andb] in H2; [injection H2 as <-; auto|].
      apply nth_error_None in H. congruence.
    + cbn [andb] in H2. apply (inv_bkt _ _ _ I _ _ H2).
  - intros b2 l2 H2. rewrite nth_error_upd in H2. destruct (Nat.eqb_spec b2 b) as [->|N].
    + destruct (Nat.ltb_spec b (length Bs)); cbn [andb] in H2; [injection H2 as <-; auto|].
      apply nth_error_None in H. congruence.
    + cbn [andb] in H2. apply (inv_dist _ _ _ I _ _ H2).
Qed.
Lemma same_update m m' h h' Bs b l l' key :
  same m h Bs -> nth_error Bs b = Some l -> length (HT h') = length (HT h) ->
  b = bkt (length (HT h)) key ->
  length m' + length l = length m + length l' ->
  (forall k, equal k key = false -> lookup k m' = lookup k m /\ lookup k (entries l') = lookup k (entries l)) ->
  lookup key m' = lookup key (entries l') ->
  same m' h' (upd Bs b l').
Proof.
  intros [S1 S2] E LH Eb Ln Oth Same. subst b.
  destruct (nth_error_split_concat _ _ _ E) as (B1 & B2 & EB & LB & U).
  assert (LL : length Bs > bkt (length (HT h)) key) by (apply nth_error_Some; congruence).
  split.
  - rewrite U, concat_app. cbn [concat]. rewrite !app_length.
    assert (S1' : length m = length (concat B1) + (length l + length (concat B2))) by (rewrite S1, EB, concat_app; cbn [concat]; rewrite !app_length; lia).
    lia.
  - rewrite LH. intros k l2 H2. destruct (equal k key) eqn:Ek.
    + assert (Hb : bkt (length (HT h)) k = bkt (length (HT h)) key) by (unfold bkt; rewrite (equal_hash _ _ Ek); reflexivity).
      rewrite Hb, nth_error_upd, Nat.eqb_refl in H2. destruct (Nat.ltb_spec (bkt (length (HT h)) key) (length Bs)); [|lia].
      cbn [andb] in H2. injection H2 as <-. rewrite !(lookup_equal k key) by auto. exact Same.
    + destruct (Oth k Ek) as [O1 O2]. rewrite O1. rewrite nth_error_upd in H2.
      destruct (Nat.eqb_spec (bkt (length (HT h)) k) (bkt (length (HT h)) key)) as [Eb|Nb].
      * destruct (Nat.ltb_spec (bkt (length (HT h)) key) (length Bs)); [|lia]. cbn [andb] in H2. injection H2 as <-.
        rewrite O2. apply S2. rewrite Eb. exact E.
      * cbn [andb] in H2. apply S2. exact H2.
Qed.

(** facts on association lists *)
Lemma lookup_map_put k key v l : equal k key = false ->
  lookup k (map (fun e => if equal (fst e) key then (fst e, v) else e) l) = lookup k l.
Proof.
  intros N. induction l as [|e l IH]; auto. unfold HashTableS.lookup in *. cbn [map find].
  destruct (equal (fst e) key) eqn:E.
  - cbn [fst]. destruct (equal (fst e) k) eqn:E2; [|exact IH].
    rewrite equal_sym in E2. rewrite (equal_trans _ _ _ E2 E) in N. discriminate.
  - destruct (equal (fst e) k); [reflexivity|exact IH].
Qed.
Lemma lookup_put_same key v l : has key l = true ->
  lookup key (map (fun e => if equal (fst e) key then (fst e, v) else e) l) = Some v.
Proof.
  induction l as [|e l IH]; [discriminate|]. rewrite has_cons. unfold HashTableS.lookup in *. cbn [map find].
  destruct (equal (fst e) key) eqn:E; cbn [fst]; rewrite E; [reflexivity|]. exact IH.
Qed.
Lemma lookup_app k l e : has k l = false -> lookup k (l ++ [e]) = if equal (fst e) k then Some (snd e) else None.
Proof. intros H. rewrite lookup_app_no by auto. unfold HashTableS.lookup; cbn [find]. destruct (equal (fst e) k); reflexivity. Qed.
Lemma lookup_app_other k l e : equal (fst e) k = false -> lookup k (l ++ [e]) = lookup k l.
Proof.
  intros H. induction l as [|x l IH]; unfold HashTableS.lookup in *; cbn [app find].
  - rewrite H. reflexivity.
  - destruct (equal (fst x) k); [reflexivity|exact IH].
Qed.
Lemma distinct_app_one l k v : distinct l -> has k l = false -> distinct (l ++ [(k, v)]).
Proof.
  induction l as [|e l IH]; cbn [app distinct]; [auto|]. intros [D1 D2] H. rewrite has_cons in H.
  apply orb_false_iff in H as [H1 H2]. split; [|auto]. rewrite has_app, D1. cbn. rewrite equal_sym, H1. reflexivity.
Qed.
Lemma distinct_mid l1 k v k' v' l2 : distinct (l1 ++ (k, v) :: l2) -> equal k k' = true -> distinct (l1 ++ (k', v') :: l2).
Proof.
  induction l1 as [|e l1 IH]; cbn [app distinct fst].
  - intros [D1 D2] E. rewrite <- (has_equal k k' l2 E). auto.
  - intros [D1 D2] E. split; [|auto]. rewrite has_app, has_cons in *. cbn [fst] in *.
    apply orb_false_iff in D1 as [A B]. apply orb_false_iff in B as [B C]. rewrite A, C. cbn [orb]. rewrite orb_false_r.
    destruct (equal k' (fst e)) eqn:X; auto. rewrite (equal_trans _ _ _ E X) in B. discriminate.
Qed.
Lemma distinct_remove l1 e l2 : distinct (l1 ++ e :: l2) -> distinct (l1 ++ l2).
Proof.
  induction l1 as [|x l1 IH]; cbn [app distinct]; [tauto|]. intros [D1 D2]. split; [|auto].
  rewrite has_app, has_cons in *. apply orb_false_iff in D1 as [A B]. apply orb_false_iff in B as [B C]. rewrite A, C. reflexivity.
Qed.
Lemma has_false_in k l e : has k l = false -> In e l -> equal (fst e) k = false.
Proof.
  intros H He. destruct (equal (fst e) k) eqn:E; auto. unfold HashTableS.has in H. assert (existsb (fun e => equal (fst e) k) l = true); [|congruence].
  apply existsb_exists. eauto.
Qed.
Lemma in_has k l e : In e l -> equal (fst e) k = true -> has k l = true.
Proof. intros He E. unfold HashTableS.has. apply existsb_exists. eauto. Qed.
Lemma distinct_not_first l1 k v l2 key : distinct (l1 ++ (k, v) :: l2) -> equal k key = true -> has key l1 = false /\ has key l2 = false.
Proof.
  intros D E. split.
  - induction l1 as [|e l1 IH]; auto. cbn [app distinct] in D. destruct D as [D1 D2]. rewrite has_cons, IH by auto.
    rewrite has_app, has_cons in D1. apply orb_false_iff in D1 as [_ B]. apply orb_false_iff in B as [B _]. cbn [fst] in B.
    rewrite orb_false_r. destruct (equal (fst e) key) eqn:X; auto. rewrite equal_sym in X. rewrite (equal_trans _ _ _ E X) in B. discriminate.
  - induction l1 as [|e l1 IH]; cbn [app distinct] in D; destruct D as [D1 D2]; [|auto].
    cbn [fst] in D1. rewrite <- (has_equal k key l2 E). exact D1.
Qed.
Lemma lookup_remove k l1 e l2 : equal (fst e) k = false -> lookup k (l1 ++ e :: l2) = lookup k (l1 ++ l2).
Proof.
  intros H. induction l1 as [|x l1 IH]; unfold HashTableS.lookup in *; cbn [app find]; [rewrite H; reflexivity|].
  destruct (equal (fst x) k); [reflexivity|exact IH].
Qed.
Lemma lookup_replace k l1 k1 v1 v2 l2 : equal k1 k = false -> lookup k (l1 ++ (k1, v1) :: l2) = lookup k (l1 ++ (k1, v2) :: l2).
Proof. intros H. rewrite !lookup_remove by exact H. reflexivity. Qed.

Lemma del_other k key m : equal k key = false -> lookup k (del key m) = lookup k m.
Proof.
  intros N. induction m as [|e m IH]; auto. unfold HashTableS.lookup, HashTableS.del in *. cbn [filter find].
  destruct (equal (fst e) key) eqn:E; cbn [negb].
  - rewrite IH. destruct (equal (fst e) k) eqn:X; auto. rewrite equal_sym in X. rewrite (equal_trans _ _ _ X E) in N. discriminate.
  - cbn [find]. destruct (equal (fst e) k); auto.
Qed.
Lemma del_same key m : lookup key (del key m) = None.
Proof.
  induction m as [|e m IH]; auto. unfold HashTableS.lookup, HashTableS.del in *. cbn [filter].
  destruct (equal (fst e) key) eqn:E; cbn [negb]; auto. cbn [find]. rewrite E. exact IH.
Qed.
Lemma del_none key m : has key m = false -> del key m = m.
Proof.
  induction m as [|e m IH]; auto. rewrite has_cons. unfold HashTableS.del in *. cbn [filter].
  destruct (equal (fst e) key); cbn [negb orb]; [discriminate|]. intros H. rewrite IH; auto.
Qed.
Lemma del_length key m : distinct m -> has key m = true -> S (length (del key m)) = length m.
Proof.
  induction m as [|e m IH]; cbn [distinct]; [discriminate|]. intros [D1 D2]. rewrite has_cons. unfold HashTableS.del in *. cbn [filter length].
  destruct (equal (fst e) key) eqn:E; cbn [negb orb length].
  - intros _. f_equal. rewrite (has_equal _ key m E) in D1. fold (del key m). rewrite (del_none key m D1). reflexivity.
  - intros H. rewrite IH; auto.
Qed.
Lemma distinct_put k v m : distinct m -> distinct (put k v m).
Proof.
  unfold HashTableS.put. destruct (has k m) eqn:H.
  - intros D. clear H. induction m as [|e m IH]; auto. cbn [map distinct] in *. destruct D as [D1 D2]. split; [|auto].
    assert (HM : forall x, has x (map (fun e => if equal (fst e) k then (fst e, v) else e) m) = has x m).
    { intros x. clear. induction m as [|a m IH]; auto. cbn [map]. rewrite !has_cons, IH. destruct (equal (fst a) k); reflexivity. }
    rewrite HM. destruct (equal (fst e) k); exact D1.
  - intros D. apply distinct_app_one; auto.
Qed.
Lemma distinct_del k m : distinct m -> distinct (del k m).
Proof.
  induction m as [|e m IH]; auto. cbn [distinct]. intros [D1 D2]. unfold HashTableS.del. cbn [filter].
  destruct (equal (fst e) k); cbn [negb]; [apply IH; auto|]. cbn [distinct]. split; [|apply IH; auto].
  clear - D1. induction m as [|a m IH]; auto. rewrite has_cons in D1. apply orb_false_iff in D1 as [A B]. cbn [filter].
  destruct (equal (fst a) k); cbn [negb]; [auto|]. rewrite has_cons, A. auto.
Qed.

Lemma has_same m h Bs key l : same m h Bs -> nth_error Bs (bkt (length (HT h)) key) = Some l -> has key m = has key (entries l).
Proof. intros [_ S] H. rewrite !has_lookup, (S _ _ H). reflexivity. Qed.

(** ** Set *)
Lemma set_ok m h Bs free key v : inv h Bs free -> same m h Bs ->
  (has key m = true \/ length m < length (storage h)) ->
  exists h' Bs' free', HashTable_Set equal hash h key v = Ok h' /\ inv h' Bs' free' /\ same (put key v m) h' Bs' /\
    length (storage h') = length (storage h).
Proof.
  intros I S Hcap. unfold HashTable_Set. rewrite (buckets_nz I).
  destruct (inv_bucket I key) as (l & s & H1 & H2 & H3 & H4). rewrite (read_bucket_ok I key s H2). cbn [rbind].
  pose proof (has_same _ _ _ _ _ S H1) as HS. set (b := bkt (length (HT h)) key) in *.
  pose proof (inv_nodup I) as ND.
  assert (NDl : NoDup (slots l)).
  { destruct (nth_error_split_concat _ _ _ H1) as (B1 & B2 & EB & _ & _). rewrite EB in ND. apply NoDup_app_remove_l in ND.
    apply (Permutation_NoDup (slots_concat_split B1 B2 l)) in ND. apply NoDup_app_remove_r in ND. exact ND. }
  assert (OTH : forall b2 l2 p, b2 <> b -> nth_error Bs b2 = Some l2 -> In p (slots l) -> ~ In p (slots l2)).
  { intros b2 l2 p Nb E2 Hp Hp2. destruct (nth_error_split_concat _ _ _ H1) as (B1 & B2 & EB & LB & U).
    apply NoDup_app_remove_l in ND. rewrite EB in ND. apply (Permutation_NoDup (slots_concat_split B1 B2 l)) in ND.
    assert (I2 : In l2 (B1 ++ B2)).
    { rewrite EB in E2. destruct (Nat.lt_ge_cases b2 (length B1)).
      - rewrite nth_error_app1 in E2 by lia. apply nth_error_In in E2. apply in_or_app; auto.
      - rewrite nth_error_app2 in E2 by lia. destruct (b2 - length B1) as [|n] eqn:Eb; [lia|]. cbn in E2. apply nth_error_In in E2. apply in_or_app; auto. }
    assert (In p (slots (concat (B1 ++ B2)))).
    { apply in_map_iff in Hp2 as (e & <- & He). apply in_map. apply in_concat. eauto. }
    clear -ND Hp H. induction (slots l) as [|x t IHt]; [contradiction|]. cbn in ND. inversion ND as [|? ? N1 N2]; subst.
    destruct Hp as [->|Hp]; [apply N1, in_or_app; auto|auto]. }
  destruct (has key m) eqn:HM.
  - (* update in place *)
    symmetry in HS. destruct (split_first key l HS) as (l1 & p & k & v0 & l2 & El & Ek & Nk).
    destruct s as [q|]; [|exfalso; rewrite El in H3; destruct l1 as [|[? [? ?]] ?]; cbn [app seg] in H3; destruct H3; discriminate].
    cbn [rbind].
    rewrite (set_loop_found h key p k v0 l2 Ek l1 q (length (storage h))); [|rewrite <- El; exact H3|exact Nk|rewrite El, app_length in H4; cbn in H4; lia].
    cbn [rbind]. pose proof H3 as H3'. rewrite El in H3'. apply seg_app in H3' as (mid & S1 & S2). cbn [seg] in S2.
    destruct S2 as (-> & nx & N1 & N2). rewrite (deref_ok _ _ _ N1). cbn [rbind i_key i_next].
    assert (Hp : p < length (storage h)) by (apply nth_error_Some; rewrite N1; discriminate).
    rewrite (store_ok h p _ Hp). eexists _, (upd Bs b (l1 ++ (p, (k, v)) :: l2)), free. split; [reflexivity|].
    rewrite El, map_app in NDl. cbn [map fst] in NDl.
    assert (P1 : ~ In p (slots l1)) by (intros X; apply NoDup_remove_2 in NDl; apply NDl, in_or_app; auto).
    assert (P2 : ~ In p (slots l2)) by (intros X; apply NoDup_remove_2 in NDl; apply NDl, in_or_app; auto).
    split; [|split].
    + eapply inv_update; eauto; cbn [storage HT VMStack].
      * apply upd_length.
      * exists (Some q). split; [exact H2|]. apply seg_app. exists (Some p). split; [apply seg_frame; auto|]. cbn [seg]. split; auto.
        exists nx. split; [|apply seg_frame; auto]. rewrite nth_error_upd, Nat.eqb_refl. destruct (Nat.ltb_spec p (length (storage h))); [reflexivity|lia].
      * intros b2 l3 s3 Nb E3 S3. apply seg_frame; auto. eapply OTH; eauto. rewrite El, map_app. apply in_or_app; right; left; reflexivity.
      * apply (inv_free _ _ _ I).
      * rewrite El, !map_app. cbn [map fst]. apply Permutation_refl.
      * pose proof (inv_bkt _ _ _ I _ _ H1) as FB. rewrite El in FB. apply Forall_app in FB as [F1 F2]. inversion F2; subst. apply Forall_app; split; auto.
      * pose proof (inv_dist _ _ _ I _ _ H1) as D. rewrite El in D. rewrite map_app in *. cbn [map snd] in *. eapply distinct_mid; eauto.
    + assert (Pt : put key v m = map (fun e => if equal (fst e) key then (fst e, v) else e) m) by (unfold HashTableS.put; rewrite HM; reflexivity).
      rewrite Pt. eapply same_update with (key := key) (l := l); eauto; cbn [HT]; try reflexivity.
      * rewrite map_length, El, !app_length. cbn. lia.
      * intros k2 N2'. split; [apply lookup_map_put; auto|]. rewrite El, !map_app. cbn [map snd]. apply lookup_replace.
        destruct (equal k k2) eqn:X; auto. rewrite equal_sym in X. rewrite (equal_trans _ _ _ X Ek) in N2'. discriminate.
      * rewrite lookup_put_same by auto. rewrite map_app, lookup_app_no by auto. unfold HashTableS.lookup. cbn [map snd find fst]. rewrite Ek. reflexivity.
    + cbn. apply upd_length.
  - (* new item *)
    destruct Hcap as [Hcap|Hcap]; [discriminate|]. symmetry in HS.
    assert (FR : exists p0 free0, free = p0 :: free0).
    { destruct free as [|p0 free0]; [|eauto]. exfalso. pose proof (Permutation_length (inv_perm _ _ _ I)) as PL.
      cbn in PL. rewrite map_length, seq_length in PL. destruct S as [S1 _]. lia. }
    destruct FR as (p0 & free0 & ->).
    pose proof (pop_holds _ _ (inv_free _ _ _ I)) as (vm & EP & HV & HVM).
    assert (Hp0 : p0 < length (storage h)) by (apply (inv_lt I); left; reflexivity).
    assert (Np0 : forall b2 l2, nth_error Bs b2 = Some l2 -> ~ In p0 (slots l2)).
    { intros b2 l2 E2 X. cbn in ND. inversion ND as [|? ? N1 N2]; subst. apply N1, in_or_app; right. eapply slots_in_concat; eauto. }
    assert (Pt : put key v m = m ++ [(key, v)]) by (unfold HashTableS.put; rewrite HM; reflexivity).
    (* the two cases of the C code *)
    assert (SL : (s = None /\ l = []) \/ exists q l1 last k' v', s = Some q /\ l = l1 ++ [(last, (k', v'))]).
    { destruct s as [q|].
      - right. destruct l as [|e l0]; [cbn in H3; discriminate|]. destruct (@exists_last _ (e :: l0)) as (l1 & [last [k' v']] & E); [discriminate|].
        exists q, l1, last, k', v'. auto.
      - left. split; auto. destruct l as [|[? [? ?]] ?]; auto. cbn in H3. destruct H3; discriminate. }
    assert (G : forall h', storage h' = storage h' -> length (HT h') = length (HT h) -> length (storage h') = length (storage h) ->
      VMStack h' = vm ->
      (exists s', nth_error (HT h') b = Some s' /\ seg (storage h') s' (l ++ [(p0, (key, v))]) None) ->
      (forall b2, b2 <> b -> nth_error (HT h') b2 = nth_error (HT h) b2) ->
      (forall b2 l2 s2, b2 <> b -> nth_error Bs b2 = Some l2 -> seg (storage h) s2 l2 None -> seg (storage h') s2 l2 None) ->
      exists Bs' free', inv h' Bs' free' /\ same (put key v m) h' Bs' /\ length (storage h') = length (storage h)).
    { intros h' _ L1 L2 EV X1 X2 X3. exists (upd Bs b (l ++ [(p0, (key, v))])), free0. split; [|split; [|exact L2]].
      - eapply inv_update with (l := l); eauto.
        + rewrite EV. exact HV.
        + rewrite EV. exact HVM.
        + rewrite map_app. cbn [map fst]. rewrite app_assoc. rewrite Permutation_app_comm. reflexivity.
        + apply Forall_app; split; [apply (inv_bkt _ _ _ I _ _ H1)|]. constructor; [reflexivity|constructor].
        + rewrite map_app. apply distinct_app_one; auto. apply (inv_dist _ _ _ I _ _ H1).
      - rewrite Pt. eapply same_update with (key := key) (l := l); eauto.
        + rewrite !app_length. cbn. lia.
        + intros k2 N2. rewrite map_app. rewrite equal_sym in N2. split; apply lookup_app_other; auto.
        + rewrite map_app. cbn [map snd]. rewrite !lookup_app; auto. }
    destruct SL as [[-> ->]|(q & l1 & last & k' & v' & -> & El)].
    + cbn [rbind]. rewrite EP. cbn [rbind]. rewrite store_ok by exact Hp0. cbn [rbind storage HT VMStack].
      change (buckets h) with (buckets (mkHT (upd (storage h) p0 (Some (mkItem key v None))) (HT h) vm)) at 1.
      rewrite write_bucket_ok by (cbn; apply (inv_pos _ _ _ I)). cbn [HT storage VMStack]. fold b.
      destruct (G (mkHT (upd (storage h) p0 (Some (mkItem key v None))) (upd (HT h) b (Some p0)) vm)) as (Bs' & free' & A1 & A2 & A3);
        cbn [HT storage VMStack]; auto using upd_length.
      * exists (Some p0). split.
        { rewrite nth_error_upd, Nat.eqb_refl. destruct (Nat.ltb_spec b (length (HT h))) as [|Lb]; [reflexivity|].
          apply nth_error_None in Lb. congruence. }
        cbn [app seg]. split; auto. exists None. split; auto. rewrite nth_error_upd, Nat.eqb_refl.
        destruct (Nat.ltb_spec p0 (length (storage h))); [reflexivity|lia].
      * intros b2 Nb. rewrite nth_error_upd. destruct (Nat.eqb_spec b2 b); [congruence|reflexivity].
      * intros b2 l2 s2 Nb E2 S2. apply seg_frame; auto. eapply Np0; eauto.
      * eauto 8.
    + cbn [rbind].
      assert (SLE : set_loop equal (length (storage h)) h q key = Ok (inr last)).
      { apply (set_loop_absent h key last k' v' l1); [rewrite <- El; exact H3|rewrite <- El; exact HS|]. rewrite El, app_length in H4. cbn in H4. lia. }
      rewrite SLE. cbn [rbind]. rewrite EP. cbn [rbind]. rewrite store_ok by exact Hp0. cbn [rbind storage HT VMStack].
      pose proof H3 as H3'. rewrite El in H3'. apply seg_app in H3' as (mid & S1 & S2). cbn [seg] in S2.
      destruct S2 as (-> & nx & N1 & N2). subst nx.
      assert (Nl : last <> p0). { intros ->. apply (Np0 _ _ H1). rewrite El, map_app. apply in_or_app; right; left; reflexivity. }
      assert (Hl : last < length (storage h)) by (apply nth_error_Some; rewrite N1; discriminate).
      rewrite (deref_ok _ last (mkItem k' v' None)) by (cbn [storage]; rewrite nth_error_upd; destruct (Nat.eqb_spec last p0); [congruence|exact N1]).
      cbn [rbind i_key i_value]. rewrite store_ok by (cbn [storage]; rewrite upd_length; exact Hl). cbn [storage HT VMStack].
      rewrite El, map_app in NDl. cbn [map fst] in NDl.
      assert (P1 : ~ In last (slots l1)) by (intros X; apply NoDup_remove_2 in NDl; apply NDl, in_or_app; auto).
      destruct (G (mkHT (upd (upd (storage h) p0 (Some (mkItem key v None))) last (Some (mkItem k' v' (Some p0)))) (HT h) vm)) as (Bs' & free' & A1 & A2 & A3);
        cbn [HT storage VMStack]; auto.
      * rewrite !upd_length. reflexivity.
      * exists (Some q). split; [exact H2|]. rewrite El, <- app_assoc. apply seg_app. exists (Some last). split.
        { apply seg_frame; auto. apply seg_frame; auto. intros X. apply (Np0 _ _ H1). rewrite El, map_app. apply in_or_app; auto. }
        cbn [app seg]. split; auto. exists (Some p0). split.
        { rewrite nth_error_upd, Nat.eqb_refl, upd_length. destruct (Nat.ltb_spec last (length (storage h))); [reflexivity|lia]. }
        split; auto. exists None. split; auto. rewrite nth_error_upd. destruct (Nat.eqb_spec p0 last); [congruence|]. cbn [andb].
        rewrite nth_error_upd, Nat.eqb_refl. destruct (Nat.ltb_spec p0 (length (storage h))); [reflexivity|lia].
      * intros b2 l2 s2 Nb E2 S2. apply seg_frame; [eapply OTH; eauto; rewrite El, map_app; apply in_or_app; right; left; reflexivity|].
        apply seg_frame; auto. eapply Np0; eauto.
      * eauto 8.
Qed.

Lemma set_full m h Bs free key v : inv h Bs free -> same m h Bs ->
  has key m = false -> length m = length (storage h) -> HashTable_Set equal hash h key v = Abort.
Proof.
  intros I S HM HL. unfold HashTable_Set. rewrite (buckets_nz I).
  destruct (inv_bucket I key) as (l & s & H1 & H2 & H3 & H4). rewrite (read_bucket_ok I key s H2). cbn [rbind].
  pose proof (has_same _ _ _ _ _ S H1) as HS. rewrite HM in HS. symmetry in HS.
  assert (FR : free = []).
  { pose proof (Permutation_length (inv_perm _ _ _ I)) as PL. rewrite app_length, map_length, seq_length in PL.
    destruct S as [S1 _]. destruct free; auto. cbn in PL. lia. }
  subst free. pose proof (pop_holds _ _ (inv_free _ _ _ I)) as EP. cbn in EP.
  destruct s as [q|].
  - destruct l as [|e l0]; [cbn in H3; discriminate|]. destruct (@exists_last _ (e :: l0)) as (l1 & [last [k' v']] & E); [discriminate|].
    rewrite E in *. rewrite (set_loop_absent h key last k' v' l1); auto; [|rewrite app_length in H4; cbn in H4; lia].
    cbn [rbind]. rewrite EP. reflexivity.
  - cbn [rbind]. rewrite EP. reflexivity.
Qed.

(** ** Delete *)
Lemma delete_loop_found h b key p k v l2 : equal k key = true -> forall l1 prev cur fuel,
  seg (storage h) cur (l1 ++ (p, (k, v)) :: l2) None -> has key (entries l1) = false -> length l1 < fuel ->
  exists nx, nth_error (storage h) p = Some (Some (mkItem k v nx)) /\ seg (storage h) nx l2 None /\
  delete_loop equal fuel h b prev cur key =
  (do h1 <- (match (match rev (slots l1) with q :: _ => Some q | [] => prev end) with
             | None => write_bucket h b nx
             | Some q => do pit <- deref h q ; store h q (mkItem (i_key pit) (i_value pit) nx)
             end) ;
   do vm <- Stack_Push (VMStack h1) p ; Ok (mkHT (storage h1) (HT h1) vm)).
Proof.
  intros E. induction l1 as [|[p' [k' v']] l1 IH]; intros prev cur fuel S N F; destruct fuel as [|fuel]; cbn [length] in F; try lia;
    cbn [app seg] in S; destruct S as (-> & nx & H1 & H2); cbn [delete_loop].
  - exists nx. split; auto. split; auto. rewrite (deref_ok _ _ _ H1). cbn [rbind i_key i_next]. rewrite E. cbn [map rev]. destruct prev; reflexivity.
  - rewrite (deref_ok _ _ _ H1). cbn [rbind i_key i_next]. cbn [map snd] in N. rewrite has_cons in N.
    apply orb_false_iff in N as [N1 N2]. cbn [fst] in N1. rewrite N1.
    destruct (IH (Some p') nx fuel H2 N2 ltac:(lia)) as (nx' & A & B & C). exists nx'. split; auto. split; auto. rewrite C.
    cbn [map fst rev]. destruct (rev (slots l1)) as [|q t]; reflexivity.
Qed.
Lemma delete_loop_absent h b key l : forall prev cur fuel,
  seg (storage h) cur l None -> has key (entries l) = false -> length l <= fuel -> delete_loop equal fuel h b prev cur key = Abort.
Proof.
  induction l as [|[p [k v]] l IH]; intros prev cur fuel S N F; cbn [seg length] in *.
  - subst cur. destruct fuel; reflexivity.
  - destruct S as (-> & nx & H1 & H2). destruct fuel as [|fuel]; [lia|]. cbn [delete_loop]. rewrite (deref_ok _ _ _ H1). cbn [rbind i_key i_next].
    cbn [map snd] in N. rewrite has_cons in N. apply orb_false_iff in N as [N1 N2]. cbn [fst] in N1. rewrite N1. apply IH; auto. lia.
Qed.

Lemma delete_ok m h Bs free key : inv h Bs free -> same m h Bs -> distinct m -> has key m = true ->
  exists h' Bs' free', HashTable_Delete equal hash h key = Ok h' /\ inv h' Bs' free' /\ same (del key m) h' Bs' /\
    length (storage h') = length (storage h).
Proof.
  intros I S Dm HM. unfold HashTable_Delete. rewrite (buckets_nz I).
  destruct (inv_bucket I key) as (l & s & H1 & H2 & H3 & H4). rewrite (read_bucket_ok I key s H2). cbn [rbind].
  pose proof (has_same _ _ _ _ _ S H1) as HS. rewrite HM in HS. symmetry in HS. set (b := bkt (length (HT h)) key) in *.
  pose proof (inv_nodup I) as ND.
  destruct (split_first key l HS) as (l1 & p & k & v & l2 & El & Ek & Nk).
  assert (NDl : NoDup (slots l)).
  { destruct (nth_error_split_concat _ _ _ H1) as (B1 & B2 & EB & _ & _). rewrite EB in ND. apply NoDup_app_remove_l in ND.
    apply (Permutation_NoDup (slots_concat_split B1 B2 l)) in ND. apply NoDup_app_remove_r in ND. exact ND. }
  assert (OTH : forall b2 l2 p, b2 <> b -> nth_error Bs b2 = Some l2 -> In p (slots l) -> ~ In p (slots l2)).
  { intros b2 l0 p' Nb E2 Hp Hp2. destruct (nth_error_split_concat _ _ _ H1) as (B1 & B2 & EB & LB & U).
    apply NoDup_app_remove_l in ND. rewrite EB in ND. apply (Permutation_NoDup (slots_concat_split B1 B2 l)) in ND.
    assert (I2 : In l0 (B1 ++ B2)).
    { rewrite EB in E2. destruct (Nat.lt_ge_cases b2 (length B1)).
      - rewrite nth_error_app1 in E2 by lia. apply nth_error_In in E2. apply in_or_app; auto.
      - rewrite nth_error_app2 in E2 by lia. destruct (b2 - length B1) as [|n] eqn:Eb; [lia|]. cbn in E2. apply nth_error_In in E2. apply in_or_app; auto. }
    assert (In p' (slots (concat (B1 ++ B2)))).
    { apply in_map_iff in Hp2 as (e & <- & He). apply in_map. apply in_concat. eauto. }
    clear -ND Hp H. induction (slots l) as [|x t IHt]; [contradiction|]. cbn in ND. inversion ND as [|? ? N1 N2]; subst.
    destruct Hp as [->|Hp]; [apply N1, in_or_app; auto|auto]. }
  assert (CAP : length free < s_max (VMStack h)).
  { rewrite (inv_max _ _ _ I). pose proof (Permutation_length (inv_perm _ _ _ I)) as PL. rewrite app_length, map_length, seq_length in PL.
    pose proof (slots_in_concat _ _ _ H1 p) as X. rewrite El, map_app in X. specialize (X ltac:(apply in_or_app; right; left; reflexivity)).
    apply in_map_iff in X as (e & _ & X). destruct (concat Bs); [contradiction|]. cbn in PL. lia. }
  destruct (proj1 (push_holds _ _ p (inv_free _ _ _ I)) CAP) as (vm & EP & HV & HVM).
  assert (G : forall h', length (HT h') = length (HT h) -> length (storage h') = length (storage h) ->
      VMStack h' = vm ->
      (exists s', nth_error (HT h') b = Some s' /\ seg (storage h') s' (l1 ++ l2) None) ->
      (forall b2, b2 <> b -> nth_error (HT h') b2 = nth_error (HT h) b2) ->
      (forall b2 l2 s2, b2 <> b -> nth_error Bs b2 = Some l2 -> seg (storage h) s2 l2 None -> seg (storage h') s2 l2 None) ->
      exists Bs' free', inv h' Bs' free' /\ same (del key m) h' Bs' /\ length (storage h') = length (storage h)).
  { pose proof (inv_dist _ _ _ I _ _ H1) as Dl. rewrite El, map_app in Dl. cbn [map snd] in Dl.
    intros h' L1 L2 EV X1 X2 X3. exists (upd Bs b (l1 ++ l2)), (p :: free). split; [|split; [|exact L2]].
    - eapply inv_update with (l := l); eauto.
      + rewrite EV. exact HV.
      + rewrite EV. exact HVM.
      + rewrite El, !map_app. cbn [map fst]. rewrite !app_assoc. rewrite <- Permutation_middle. reflexivity.
      + pose proof (inv_bkt _ _ _ I _ _ H1) as FB. rewrite El in FB. apply Forall_app in FB as [F1 F2]. inversion F2; subst. apply Forall_app; auto.
      + rewrite map_app. eapply distinct_remove; eauto.
    - eapply same_update with (key := key) (l := l); eauto.
      + pose proof (del_length key m Dm HM). rewrite El, !app_length. cbn. lia.
      + intros k2 N2. split; [apply del_other; auto|]. rewrite El, !map_app. cbn [map snd]. symmetry. apply lookup_remove. cbn.
        destruct (equal k k2) eqn:X; auto. rewrite equal_sym in X. rewrite (equal_trans _ _ _ X Ek) in N2. discriminate.
      + rewrite del_same. rewrite map_app, lookup_app_no by auto.
        destruct (distinct_not_first _ _ _ _ _ Dl Ek) as [_ N2]. rewrite has_lookup in N2. destruct (lookup key (entries l2)); [discriminate|reflexivity]. }
  assert (Pin : In p (slots l)) by (rewrite El, map_app; apply in_or_app; right; left; reflexivity).
  destruct s as [q|]; [|exfalso; rewrite El in H3; destruct l1 as [|[? [? ?]] ?]; cbn [app seg] in H3; destruct H3; discriminate].
  assert (HQ : exists it, nth_error (storage h) q = Some (Some it) /\ (i_next it = None -> l1 = [] /\ l2 = [] /\ q = p)).
  { destruct l as [|[p' [k' v']] l0]; [cbn in H3; discriminate|]. pose proof H3 as H3'. cbn [seg] in H3'. destruct H3' as (Q & nx & A & B). injection Q as ->.
    eexists; split; [exact A|]. cbn [i_next]. intros ->. destruct l0 as [|[? [? ?]] ?]; [|cbn in B; destruct B; discriminate].
    destruct l1 as [|? l1]; [|destruct l1; discriminate]. cbn in El. injection El as -> -> -> <-. auto. }
  destruct HQ as (it & Hit & Hone). rewrite (deref_ok _ _ _ Hit). cbn [rbind].
  destruct (i_next it) as [nx0|] eqn:EN.
  - (* general case *)
    rewrite El in H3. destruct (delete_loop_found h (bucket_of (hash key) (buckets h)) key p k v l2 Ek l1 None (Some q) (length (storage h)) H3 Nk) as (nx & A & B & C).
    { rewrite El, app_length in H4. cbn in H4. lia. }
    rewrite C. clear C. apply seg_app in H3 as (mid & S1 & S2). cbn [seg] in S2. destruct S2 as (-> & _).
    rewrite El, map_app in NDl. cbn [map fst] in NDl.
    assert (P1 : ~ In p (slots l1)) by (intros X; apply NoDup_remove_2 in NDl; apply NDl, in_or_app; auto).
    destruct l1 as [|e0 l10].
    + cbn [map rev]. rewrite write_bucket_ok by apply (inv_pos _ _ _ I). cbn [rbind VMStack]. rewrite EP. cbn [rbind storage HT]. fold b.
      destruct (G (mkHT (storage h) (upd (HT h) b nx) vm)) as (Bs' & free' & A1 & A2 & A3); cbn [HT storage VMStack]; auto using upd_length.
      * exists nx. split; [|exact B]. rewrite nth_error_upd, Nat.eqb_refl. destruct (Nat.ltb_spec b (length (HT h))) as [|Lb]; [reflexivity|]. apply nth_error_None in Lb. congruence.
      * intros b2 Nb. rewrite nth_error_upd. destruct (Nat.eqb_spec b2 b); [congruence|reflexivity].
      * eauto 8.
    + destruct (@exists_last _ (e0 :: l10)) as (l1' & [q' [kq vq]] & EL1); [discriminate|]. rewrite EL1 in *. clear EL1 e0 l10.
      rewrite map_app, rev_app_distr. cbn [map fst rev app].
      apply seg_app in S1 as (mid & S1 & S2). cbn [seg] in S2. destruct S2 as (-> & nxq & Q1 & Q2). subst nxq.
      rewrite (deref_ok _ _ _ Q1). cbn [rbind i_key i_value].
      assert (Hq' : q' < length (storage h)) by (apply nth_error_Some; rewrite Q1; discriminate).
      rewrite store_ok by exact Hq'. cbn [rbind VMStack]. rewrite EP. cbn [rbind storage HT].
      rewrite map_app in NDl, P1. cbn [map fst] in NDl, P1. rewrite <- app_assoc in NDl. cbn [app] in NDl.
      assert (X1 : ~ In q' (slots l1')) by (intros X; apply NoDup_remove_2 in NDl; apply NDl, in_or_app; auto).
      assert (X2 : ~ In q' (slots l2)) by (intros X; apply NoDup_remove_2 in NDl; apply NDl, in_or_app; right; right; auto).
      destruct (G (mkHT (upd (storage h) q' (Some (mkItem kq vq nx))) (HT h) vm)) as (Bs' & free' & A1 & A2 & A3); cbn [HT storage VMStack]; auto using upd_length.
      * exists (Some q). split; [exact H2|]. rewrite <- app_assoc. apply seg_app. exists (Some q'). split; [apply seg_frame; auto|]. cbn [app seg]. split; auto.
        exists nx. split; [|apply seg_frame; auto]. rewrite nth_error_upd, Nat.eqb_refl. destruct (Nat.ltb_spec q' (length (storage h))); [reflexivity|lia].
      * intros b2 l3 s2 Nb E3 S3. apply seg_frame; auto. eapply OTH; eauto. rewrite El, !map_app. cbn. apply in_or_app; left. apply in_or_app; right; left; reflexivity.
      * eexists _, Bs', free'. split; [reflexivity|]. auto.
  - destruct (Hone eq_refl) as (-> & -> & ->).
    rewrite write_bucket_ok by apply (inv_pos _ _ _ I). cbn [rbind VMStack]. rewrite EP. cbn [rbind storage HT]. fold b.
    destruct (G (mkHT (storage h) (upd (HT h) b None) vm)) as (Bs' & free' & A1 & A2 & A3); cbn [HT storage VMStack]; auto using upd_length.
    + exists None. split; [|reflexivity]. rewrite nth_error_upd, Nat.eqb_refl. destruct (Nat.ltb_spec b (length (HT h))) as [|Lb]; [reflexivity|]. apply nth_error_None in Lb. congruence.
    + intros b2 Nb. rewrite nth_error_upd. destruct (Nat.eqb_spec b2 b); [congruence|reflexivity].
    + eauto 8.
Qed.

Lemma delete_absent m h Bs free key : inv h Bs free -> same m h Bs -> has key m = false ->
  exists l, nth_error Bs (bkt (length (HT h)) key) = Some l /\
  match l with
  | [] => HashTable_Delete equal hash h key = UB
  | [(p, (k, v))] => exists h', HashTable_Delete equal hash h key = Ok h' /\ equal k key = false /\
       HashTable_Get equal hash h k = Ok (Some v) /\ HashTable_Get equal hash h' k = Ok None
  | _ => HashTable_Delete equal hash h key = Abort
  end.
Proof.
  intros I S HM. destruct (inv_bucket I key) as (l & s & H1 & H2 & H3 & H4). exists l. split; [exact H1|].
  pose proof (has_same _ _ _ _ _ S H1) as HS. rewrite HM in HS. symmetry in HS.
  assert (EQ : HashTable_Delete equal hash h key = match s with None => UB | Some p0 => do it <- deref h p0 ;
      match i_next it with
      | None => do h1 <- write_bucket h (bucket_of (hash key) (buckets h)) None ;
                do vm <- Stack_Push (VMStack h1) p0 ; Ok (mkHT (storage h1) (HT h1) vm)
      | Some _ => delete_loop equal (length (storage h)) h (bucket_of (hash key) (buckets h)) None (Some p0) key
      end end).
  { unfold HashTable_Delete. rewrite (buckets_nz I). rewrite (read_bucket_ok I key s H2). reflexivity. }
  rewrite EQ. destruct l as [|[p [k v]] l].
  - cbn in H3. subst s. reflexivity.
  - pose proof H3 as H3'. cbn [seg] in H3'. destruct H3' as (-> & nx & A & B). rewrite (deref_ok _ _ _ A). cbn [rbind i_next].
    destruct l as [|e l].
    + cbn in B. subst nx. rewrite write_bucket_ok by apply (inv_pos _ _ _ I). cbn [rbind VMStack].
      assert (CAP : length free < s_max (VMStack h)).
      { rewrite (inv_max _ _ _ I). pose proof (Permutation_length (inv_perm _ _ _ I)) as PL. rewrite app_length, map_length, seq_length in PL.
        pose proof (slots_in_concat _ _ _ H1 p ltac:(left; reflexivity)) as X.
        apply in_map_iff in X as (e & _ & X). destruct (concat Bs); [contradiction|]. cbn in PL. lia. }
      destruct (proj1 (push_holds _ _ p (inv_free _ _ _ I)) CAP) as (vm & EP & HV & HVM). rewrite EP. cbn [rbind].
      eexists; split; [reflexivity|]. cbn in HS. rewrite orb_false_r in HS. split; [exact HS|].
      assert (Hb : bkt (length (HT h)) k = bkt (length (HT h)) key) by (pose proof (inv_bkt _ _ _ I _ _ H1) as F; inversion F; auto).
      split.
      * unfold HashTable_Get. rewrite (buckets_nz I). rewrite (read_bucket_ok I k (Some p)) by (rewrite Hb; exact H2). cbn [rbind].
        rewrite (get_loop_ok h k _ _ _ H3 H4). unfold HashTableS.lookup. cbn. rewrite equal_refl. reflexivity.
      * unfold HashTable_Get, read_bucket, buckets. cbn [HT storage]. rewrite upd_length.
        pose proof (buckets_nz I) as NZ. unfold buckets in NZ. rewrite NZ.
        pose proof (bucket_nonneg (length (HT h)) k (inv_pos _ _ _ I)).
        destruct (Z.ltb_spec (bucket_of (hash k) (Z.of_nat (length (HT h)))) 0); [lia|].
        fold (bkt (length (HT h)) k). rewrite Hb, nth_error_upd, Nat.eqb_refl.
        pose proof (bkt_lt (length (HT h)) key (inv_pos _ _ _ I)) as BL.
        destruct (Nat.ltb_spec (bkt (length (HT h)) key) (length (HT h))); [|lia]. cbn [andb rbind].
        destruct (length (storage h)); reflexivity.
    + destruct nx as [q|]; [|destruct e as [? [? ?]]; cbn in B; destruct B; discriminate].
      destruct e as [? [? ?]]. eapply delete_loop_absent; eauto.
Qed.

(** ** initial state *)
Lemma init_push_ok n : forall i (s : stack nat) l, holds s l -> length l + n <= s_max s ->
  exists s', init_push s i n = Ok s' /\ holds s' (rev (seq i n) ++ l) /\ s_max s' = s_max s.
Proof.
  induction n as [|n IH]; intros i s l H L; cbn [init_push seq rev].
  - exists s. auto.
  - destruct (proj1 (push_holds s l i H)) as (s1 & E1 & H1 & M1); [lia|]. rewrite E1. cbn [rbind].
    destruct (IH (S i) s1 (i :: l) H1) as (s2 & E2 & H2 & M2); [cbn; lia|]. exists s2. split; auto.
    rewrite <- app_assoc. cbn [app]. split; congruence.
Qed.
Lemma init_ok nb cap : 0 < nb -> exists h Bs free, HashTable_INIT nb cap = Ok h /\ inv h Bs free /\ same [] h Bs /\
  length (storage h) = cap.
Proof.
  intros P. unfold HashTable_INIT.
  destruct (init_push_ok cap 0 (Stack_INIT (repeat None cap) cap) [] (holds_init cap)) as (s' & E & H & M); [cbn; lia|].
  rewrite E. cbn [rbind]. rewrite app_nil_r in H.
  assert (RN : forall b (x : list entry), nth_error (repeat [] nb) b = Some x -> x = []).
  { intros b x Hx. apply nth_error_In in Hx. apply repeat_spec in Hx. exact Hx. }
  assert (CN : forall n, concat (repeat (@nil entry) n) = []) by (induction n; cbn; auto).
  eexists _, (repeat [] nb), (rev (seq 0 cap)). split; [reflexivity|]. split; [|split].
  - constructor; cbn [HT storage VMStack]; rewrite ?repeat_length; auto.
    + intros b l Hl. rewrite (RN _ _ Hl). assert (b < nb) by (rewrite <- (repeat_length (@nil entry) nb); apply nth_error_Some; rewrite Hl; discriminate).
      exists None. split; [|reflexivity]. rewrite nth_error_repeat by auto. reflexivity.
    + rewrite CN. cbn [map]. rewrite app_nil_r. symmetry. apply Permutation_rev.
    + intros b l Hl. rewrite (RN _ _ Hl). constructor.
    + intros b l Hl. rewrite (RN _ _ Hl). exact Logic.I.
  - split; [rewrite CN; reflexivity|]. intros k l Hl. rewrite (RN _ _ Hl). reflexivity.
  - cbn. apply repeat_length.
Qed.

(** ** histories *)
Lemma run_ok os : forall m h Bs free, inv h Bs free -> same m h Bs -> distinct m ->
  match HashTableS.map_run equal (length (storage h)) m os with
  | Map m' => exists h' Bs' free', ht_run equal hash h os = Ok h' /\ inv h' Bs' free' /\ same m' h' Bs' /\ distinct m' /\
                length (storage h') = length (storage h)
  | Full => ht_run equal hash h os = Abort
  | DeletedAbsent => True
  end.
Proof.
  induction os as [|[k v|k] os IH]; intros m h Bs free I S D; cbn [HashTableS.map_run ht_run ht_step].
  - eauto 10.
  - destruct (has k m || (length m <? length (storage h))) eqn:E.
    + assert (C : has k m = true \/ length m < length (storage h)).
      { apply orb_true_iff in E as [E|E]; [auto|]. apply Nat.ltb_lt in E. auto. }
      destruct (set_ok m h Bs free k v I S C) as (h' & Bs' & free' & E' & I' & S' & L'). rewrite E'. cbn [rbind].
      rewrite <- L'. apply (IH _ _ Bs' free'); auto. apply distinct_put; auto.
    + apply orb_false_iff in E as [E1 E2]. apply Nat.ltb_ge in E2.
      assert (length m = length (storage h)).
      { destruct S as [S1 _]. pose proof (Permutation_length (inv_perm _ _ _ I)) as PL. rewrite app_length, map_length, seq_length in PL. lia. }
      rewrite (set_full m h Bs free); auto.
  - destruct (has k m) eqn:E; [|exact Logic.I].
    destruct (delete_ok m h Bs free k I S D E) as (h' & Bs' & free' & E' & I' & S' & L'). rewrite E'. cbn [rbind].
    rewrite <- L'. apply (IH _ _ Bs' free'); auto. apply distinct_del; auto.
Qed.
Theorem history_ok nb cap os : 0 < nb ->
  exists h0, HashTable_INIT nb cap = Ok h0 /\
  match HashTableS.map_run equal cap [] os with
  | Map m => exists h, ht_run equal hash h0 os = Ok h /\ forall k, HashTable_Get equal hash h k = Ok (lookup k m)
  | Full => ht_run equal hash h0 os = Abort
  | DeletedAbsent => True
  end.
Proof.
  intros P. destruct (init_ok nb cap P) as (h0 & Bs & free & E & I & S & L). exists h0. split; [exact E|].
  pose proof (run_ok os [] h0 Bs free I S Logic.I) as R. rewrite L in R. destruct (HashTableS.map_run equal cap [] os); auto.
  destruct R as (h' & Bs' & free' & E' & I' & S' & _). exists h'. split; auto. intros k. eapply get_ok; eauto.
Qed.

(** ** slots *)
Lemma reach_seg st l : forall s i, seg st s l None -> (reach st s i <-> In i (slots l)).
Proof.
  induction l as [|[p [k v]] l IH]; intros s i; cbn [seg map fst In].
  - intros ->. split; [intros H; inversion H|contradiction].
  - intros (-> & nx & H1 & H2). split.
    + intros H. inversion H as [|? it ? H3 H4]; subst; [auto|]. rewrite H1 in H3. injection H3 as <-. right. apply (IH nx i H2). exact H4.
    + intros [->|H]; [constructor|]. econstructor; [exact H1|]. cbn. apply (IH nx i H2). exact H.
Qed.
Lemma holds_free (s : stack nat) l i : holds s l -> (In (Some i) (firstn (s_sp s) (s_items s)) <-> In i l).
Proof.
  intros (H1 & H2 & H3 & H4). rewrite H2.
  assert (E : firstn (length l) (s_items s) = map Some (rev l)).
  { apply nth_error_ext. intros j. rewrite nth_error_map. destruct (Nat.lt_ge_cases j (length l)) as [L|L].
    - rewrite <- H4 by lia. rewrite <- (firstn_skipn (length l) (s_items s)) at 2. rewrite nth_error_app1; auto. rewrite firstn_length. lia.
    - rewrite (proj2 (nth_error_None _ _)) by (rewrite firstn_length; lia). rewrite (proj2 (nth_error_None (rev l) _)) by (rewrite rev_length; lia). reflexivity. }
  rewrite E, in_map_iff. split.
  - intros (x & [= ->] & Hx). apply in_rev. exact Hx.
  - intros H. exists i. split; auto. apply in_rev in H. exact H.
Qed.
Lemma slots_partition h Bs free : inv h Bs free ->
  forall i, (i < length (storage h)) ->
    (slot_free h i /\ (forall b, ~ slot_used h b i)) \/
    (~ slot_free h i /\ exists b, slot_used h b i /\ forall b', slot_used h b' i -> b' = b).
Proof.
  intros I i Hi. pose proof (inv_nodup I) as ND.
  assert (IN : In i (free ++ slots (concat Bs))) by (apply (Permutation_in _ (Permutation_sym (inv_perm _ _ _ I))), in_seq; lia).
  assert (U : forall b, slot_used h b i <-> exists l, nth_error Bs b = Some l /\ In i (slots l)).
  { intros b. split.
    - intros (s & Hs & R). destruct (nth_error Bs b) as [l|] eqn:E.
      + exists l. split; auto. destruct (inv_seg _ _ _ I _ _ E) as (s' & A & B). rewrite Hs in A. injection A as <-. apply (reach_seg _ _ _ _ B). exact R.
      + apply nth_error_None in E. rewrite (inv_len _ _ _ I) in E. apply nth_error_None in E. congruence.
    - intros (l & E & H). destruct (inv_seg _ _ _ I _ _ E) as (s & A & B). exists s. split; auto. apply (reach_seg _ _ _ _ B). exact H. }
  assert (F : slot_free h i <-> In i free) by (apply holds_free, (inv_free _ _ _ I)).
  assert (DIS : In i free -> ~ In i (slots (concat Bs))).
  { clear -ND. induction free as [|x t IH]; [contradiction|]. cbn in ND. inversion ND as [|? ? N1 N2]; subst.
    intros [->|H]; [intros X; apply N1, in_or_app; auto|auto]. }
  assert (UC : forall b, slot_used h b i -> In i (slots (concat Bs))).
  { intros b Hb. apply U in Hb as (l & E & H). eapply slots_in_concat; eauto. }
  apply in_app_or in IN as [IN|IN].
  - left. split; [apply F; auto|]. intros b Hb. apply (DIS IN). eauto.
  - right. split; [intros X; apply F in X; apply (DIS X IN)|].
    apply in_map_iff in IN as (e & <- & He). apply in_concat in He as (l & Hl & He). apply In_nth_error in Hl as (b & Hb).
    exists b. split; [apply U; exists l; split; auto; apply in_map; auto|].
    intros b' Hb'. apply U in Hb' as (l' & E' & H'). destruct (Nat.eq_dec b' b) as [|N]; auto. exfalso.
    destruct (nth_error_split_concat _ _ _ Hb) as (B1 & B2 & EB & LB & _). apply NoDup_app_remove_l in ND. rewrite EB in ND.
    apply (Permutation_NoDup (slots_concat_split B1 B2 l)) in ND.
    assert (I2 : In l' (B1 ++ B2)).
    { rewrite EB in E'. destruct (Nat.lt_ge_cases b' (length B1)).
      - rewrite nth_error_app1 in E' by lia. apply nth_error_In in E'. apply in_or_app; auto.
      - rewrite nth_error_app2 in E' by lia. destruct (b' - length B1) as [|n] eqn:Eb; [lia|]. cbn in E'. apply nth_error_In in E'. apply in_or_app; auto. }
    assert (X2 : In (fst e) (slots (concat (B1 ++ B2)))).
    { apply in_map_iff in H' as (e' & <- & He'). apply in_map. apply in_concat. eauto. }
    assert (X1 : In (fst e) (slots l)) by (apply in_map; auto).
    clear -ND X1 X2. induction (slots l) as [|x t IHt]; [contradiction|]. cbn in ND. inversion ND as [|? ? N1 N2]; subst.
    destruct X1 as [->|X1]; [apply N1, in_or_app; auto|auto].
Qed.
Theorem history_slots nb cap os h0 (h : htable K V) m : 0 < nb ->
  HashTable_INIT nb cap = Ok h0 -> HashTableS.map_run equal cap [] os = Map m -> ht_run equal hash h0 os = Ok h ->
  length (storage h) = cap /\
  forall i, i < cap ->
    (slot_free h i /\ (forall b, ~ slot_used h b i)) \/
    (~ slot_free h i /\ exists b, slot_used h b i /\ forall b', slot_used h b' i -> b' = b).
Proof.
  intros P E0 EM ER. destruct (init_ok nb cap P) as (h0' & Bs & free & E & I & S & L). rewrite E in E0. injection E0 as ->.
  pose proof (run_ok os [] h0 Bs free I S Logic.I) as R. rewrite L, EM in R.
  destruct R as (h' & Bs' & free' & E' & I' & S' & _ & L'). rewrite ER in E'. injection E' as <-. assert (L2 : length (storage h) = cap) by congruence. split; [exact L2|].
  rewrite <- L2. eapply slots_partition; eauto.
Qed.
Theorem history_delete_absent nb cap os h0 (h : htable K V) m key : 0 < nb ->
  HashTable_INIT nb cap = Ok h0 -> HashTableS.map_run equal cap [] os = Map m -> ht_run equal hash h0 os = Ok h ->
  has key m = false ->
  HashTable_Delete equal hash h key = UB \/ HashTable_Delete equal hash h key = Abort \/
  exists h' k v, HashTable_Delete equal hash h key = Ok h' /\ equal k key = false /\
       HashTable_Get equal hash h k = Ok (Some v) /\ HashTable_Get equal hash h' k = Ok None.
Proof.
  intros P E0 EM ER HM. destruct (init_ok nb cap P) as (h0' & Bs & free & E & I & S & L). rewrite E in E0. injection E0 as ->.
  pose proof (run_ok os [] h0 Bs free I S Logic.I) as R. rewrite L, EM in R.
  destruct R as (h' & Bs' & free' & E' & I' & S' & _ & L'). rewrite ER in E'. injection E' as <-.
  destruct (delete_absent m h Bs' free' key I' S' HM) as (l & _ & H). destruct l as [|[p [k v]] [|]]; auto.
  destruct H as (h2 & H). right; right. exists h2, k, v. exact H.
Qed.
End HT.
