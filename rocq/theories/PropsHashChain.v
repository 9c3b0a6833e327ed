(** C17: the chain length the statistics report. *)
From Coq Require Import Permutation.
From Verif Require Import Base StackM HashM HashTableM HashTableS HashTableP PropsHash.

(** the entries whose keys are hashed to the same bucket, of [nb] *)
Definition colliding {K V} (hash : K -> Z) (nb b : nat) (m : list (K * V)) : list (K * V) :=
  filter (fun e => (Z.rem (hash (fst e)) (Z.of_nat nb) =? Z.of_nat b)%Z) m.

Section Chain.
Context {K V : Type}.
Variable equal : K -> K -> bool.
Variable hash : K -> Z.
Hypothesis equal_refl : forall k, equal k k = true.
Hypothesis equal_sym : forall a b, equal a b = equal b a.
Hypothesis equal_trans : forall a b c, equal a b = true -> equal b c = true -> equal a c = true.
Hypothesis equal_hash : forall a b, equal a b = true -> hash a = hash b.
Hypothesis hash_nonneg : forall k, (0 <= hash k)%Z.
Notation has := (@HashTableS.has K V equal).
Notation distinct := (@HashTableP.distinct K V equal).

Lemma split_has key (l : list (K * V)) : has key l = true -> exists l1 e l2, l = l1 ++ e :: l2 /\ equal (fst e) key = true.
Proof. unfold HashTableS.has. intros H. apply existsb_exists in H as (e & I & E). apply in_split in I as (l1 & l2 & ->). eauto. Qed.
Lemma same_count a : forall b, distinct a -> distinct b -> (forall k, has k a = has k b) -> length a = length b.
Proof.
  induction a as [|e a IH]; intros b Da Db S.
  - destruct b as [|e b]; auto. specialize (S (fst e)). unfold HashTableS.has in S. cbn in S. rewrite equal_refl in S. discriminate.
  - assert (H : has (fst e) b = true) by (rewrite <- S; unfold HashTableS.has; cbn; rewrite equal_refl; reflexivity).
    apply split_has in H as (b1 & e' & b2 & -> & Q). destruct Da as [D1 D2].
    rewrite app_length. cbn [length]. rewrite Nat.add_succ_r. f_equal. rewrite <- app_length. apply IH; auto.
    + eapply (distinct_remove equal); eauto.
    + intros k. specialize (S k). rewrite (has_app equal) in *. unfold HashTableS.has in S at 1 3. cbn [existsb] in S. fold (has k a) in S. fold (has k b2) in S.
      destruct (equal (fst e) k) eqn:E.
      * assert (E' : equal (fst e') k = true) by (eapply equal_trans; eauto). destruct e' as [k' v']. cbn [fst] in *.
        destruct (distinct_not_first equal equal_sym equal_trans b1 k' v' b2 k Db E') as [A B]. rewrite A, B.
        rewrite <- (has_equal equal equal_sym equal_trans _ _ a E). exact D1.
      * assert (E' : equal (fst e') k = false). { destruct (equal (fst e') k) eqn:X; auto. rewrite equal_sym in Q. rewrite (equal_trans _ _ _ Q X) in E. discriminate. }
        rewrite E' in S. exact S.
Qed.
Lemma distinct_filter f l : distinct l -> distinct (filter f l).
Proof.
  induction l as [|e l IH]; auto. intros [D1 D2]. cbn [filter]. destruct (f e); [|auto]. split; [|auto].
  destruct (has (fst e) (filter f l)) eqn:H; auto. unfold HashTableS.has in *. apply existsb_exists in H as (x & I & E). apply filter_In in I as [I _].
  rewrite <- D1. symmetry. apply existsb_exists. eauto.
Qed.
Lemma bkt_rem nb b k : 0 < nb -> (Z.rem (hash k) (Z.of_nat nb) =? Z.of_nat b)%Z = (bkt hash nb k =? b).
Proof.
  intros P. unfold bkt, bucket_of. pose proof (Z.rem_bound_pos (hash k) (Z.of_nat nb) (hash_nonneg k) ltac:(lia)). lia.
Qed.
Lemma bucket_count m h Bs free b l : inv equal hash h Bs free -> same equal hash m h Bs -> distinct m -> nth_error Bs b = Some l ->
  length l = length (colliding hash (length (HT h)) b m).
Proof.
  intros I S D N. pose proof (inv_pos _ _ _ _ _ I) as P. rewrite <- (map_length snd l). apply same_count.
  - eapply (inv_dist _ _ _ _ _ I); eauto.
  - apply distinct_filter; auto.
  - intros k. pose proof (inv_bkt _ _ _ _ _ I b l N) as B. destruct (Nat.eq_dec (bkt hash (length (HT h)) k) b) as [E|E].
    + rewrite <- (has_same equal hash m h Bs k l S) by (rewrite E; auto). unfold HashTableS.has, colliding. clear -E P equal_refl equal_sym equal_trans equal_hash hash_nonneg.
      induction m as [|e m IH]; auto. cbn [existsb filter]. rewrite bkt_rem by auto. destruct (bkt hash (length (HT h)) (fst e) =? b) eqn:X; cbn [existsb]; rewrite IH; auto.
      destruct (equal (fst e) k) eqn:Q; auto. unfold bkt in *. rewrite (equal_hash _ _ Q) in X. apply Nat.eqb_neq in X. congruence.
    + transitivity false; [|symmetry].
      * destruct (has k (map snd l)) eqn:H; auto. unfold HashTableS.has in H. apply existsb_exists in H as (x & X & Q). apply in_map_iff in X as (y & <- & Y).
        rewrite Forall_forall in B. specialize (B y Y). exfalso. apply E. rewrite <- B. unfold bkt. rewrite (equal_hash _ _ Q). reflexivity.
      * destruct (has k (colliding hash (length (HT h)) b m)) eqn:H; auto. unfold HashTableS.has, colliding in H. apply existsb_exists in H as (x & X & Q).
        apply filter_In in X as [_ X]. rewrite bkt_rem in X by auto. apply Nat.eqb_eq in X. exfalso. apply E. rewrite <- X. unfold bkt. rewrite (equal_hash _ _ Q). reflexivity.
Qed.
Lemma chain_ok (h : htable K V) l : forall s fuel, seg (storage h) s l None -> length l <= fuel -> chain_len fuel h s = Ok (length l).
Proof.
  induction l as [|[p [k v]] l IH]; intros s fuel; cbn [seg length].
  - intros -> _. destruct fuel; reflexivity.
  - intros (-> & nx & H1 & H2) F. destruct fuel as [|fuel]; [lia|]. cbn [chain_len]. unfold deref. rewrite H1. cbn [rbind i_next]. rewrite (IH nx fuel H2 ltac:(lia)). reflexivity.
Qed.
Lemma fold_max (h : htable K V) f ps (Ls : list (list (nat * (K * V)))) : Forall2 (fun p l => chain_len f h p = Ok (length l)) ps Ls -> forall a,
  exists n, fold_left (fun acc p => do m <- acc ; do n <- chain_len f h p ; Ok (Nat.max m n)) ps (Ok a) = Ok n /\
    a <= n /\ (forall l, In l Ls -> length l <= n) /\ (n = a \/ exists l, In l Ls /\ length l = n).
Proof.
  induction 1 as [|p l ps Ls E F IH]; intros a; cbn [fold_left].
  - exists a. split; auto. split; auto. split; auto. intros l [].
  - rewrite E. cbn [rbind]. destruct (IH (Nat.max a (length l))) as (n & A & B & C & D). exists n. split; auto. split; [lia|]. split.
    + intros x [->|X]; [lia|auto].
    + destruct D as [D|(x & X & Y)]; [|right; exists x; split; auto; right; auto].
      destruct (Nat.max_spec a (length l)) as [[L M]|[L M]]; rewrite M in D; [right; exists l; split; auto; left; auto|left; auto].
Qed.
Lemma nth_error_Forall2 {A B} (R : A -> B -> Prop) a : forall b, length a = length b ->
  (forall i y, nth_error b i = Some y -> exists x, nth_error a i = Some x /\ R x y) -> Forall2 R a b.
Proof.
  induction a as [|x a IH]; intros [|y b] L H; try discriminate; constructor.
  - destruct (H 0 y eq_refl) as (x' & E & Q). injection E as ->. exact Q.
  - apply IH; [cbn in L; lia|]. intros i z Z. exact (H (S i) z Z).
Qed.
Lemma max_ok m h Bs free : inv equal hash h Bs free -> same equal hash m h Bs -> distinct m -> exists n, HashTable_MaximumChainLength h = Ok n /\
  (forall b, b < length (HT h) -> length (colliding hash (length (HT h)) b m) <= n) /\
  exists b, b < length (HT h) /\ length (colliding hash (length (HT h)) b m) = n.
Proof.
  intros I S D. pose proof (inv_len _ _ _ _ _ I) as LB. pose proof (inv_pos _ _ _ _ _ I) as P.
  assert (F : Forall2 (fun p l => chain_len (length (storage h)) h p = Ok (length l)) (HT h) Bs).
  { apply nth_error_Forall2; [auto|]. intros i l N. destruct (inv_seg _ _ _ _ _ I i l N) as (s & E & G). exists s. split; auto. apply chain_ok; auto.
    pose proof (Permutation_length (inv_perm _ _ _ _ _ I)) as PL. rewrite app_length, map_length, seq_length in PL.
    apply nth_error_split in N as (B1 & B2 & -> & _). rewrite concat_app, app_length in PL. cbn [concat] in PL. rewrite app_length in PL. lia. }
  destruct (fold_max h _ _ _ F 0) as (n & A & _ & B & C). exists n. split; [exact A|]. split.
  - intros b L. destruct (nth_error Bs b) as [l|] eqn:N; [|apply nth_error_None in N; lia]. rewrite <- (bucket_count m h Bs free b l I S D N). apply B. eapply nth_error_In; eauto.
  - destruct C as [->|(l & IN & E)].
    + exists 0. split; auto. destruct (nth_error Bs 0) as [l|] eqn:N; [|apply nth_error_None in N; lia]. rewrite <- (bucket_count m h Bs free 0 l I S D N).
      specialize (B l ltac:(eapply nth_error_In; eauto)). lia.
    + apply In_nth_error in IN as (b & N). exists b. split; [rewrite <- LB; apply nth_error_Some; congruence|]. rewrite <- (bucket_count m h Bs free b l I S D N). exact E.
Qed.
End Chain.

Lemma len_write {K V} (h h' : htable K V) b x : write_bucket h b x = Ok h' -> length (HT h') = length (HT h).
Proof. unfold write_bucket. destruct (b <? 0)%Z; [discriminate|]. destruct (_ <? _); [|discriminate]. intros H; injection H as <-. apply upd_length. Qed.
Lemma len_store {K V} (h h' : htable K V) p x : store h p x = Ok h' -> length (HT h') = length (HT h).
Proof. unfold store. destruct (_ <? _); [|discriminate]. intros H; injection H as <-. reflexivity. Qed.
Ltac step H := match type of H with rbind ?e _ = _ => let E := fresh "E" in destruct e eqn:E; cbn [rbind] in H; [|discriminate H|discriminate H] end.
Lemma len_set {K V} (equal : K -> K -> bool) (hash : K -> Z) (h h' : htable K V) key v : HashTable_Set equal hash h key v = Ok h' -> length (HT h') = length (HT h).
Proof.
  unfold HashTable_Set. intros H. destruct (buckets h =? 0)%Z; [discriminate|]. cbv zeta in H. step H. step H.
  assert (N : forall w, (do (vm, popped) <- Stack_Pop (VMStack h) ; do h1 <- store (mkHT (storage h) (HT h) vm) popped (mkItem key v None) ;
     match w with Some last => do it <- deref h1 last ; store h1 last (mkItem (i_key it) (i_value it) (Some popped)) | None => write_bucket h1 (bucket_of (hash key) (buckets h)) (Some popped) end) = Ok h' -> length (HT h') = length (HT h)).
  { intros w Q. step Q. destruct a1 as [vm popped]. step Q. apply len_store in E2. cbn [HT] in E2. destruct w as [last|]; [step Q; apply len_store in Q|apply len_write in Q]; congruence. }
  destruct a0 as [[p|last]|].
  - step H. apply len_store in H. exact H.
  - apply (N (Some last)). exact H.
  - apply (N None). exact H.
Qed.
Lemma len_delete_loop {K V} (equal : K -> K -> bool) fuel (h h' : htable K V) b key : forall q p, delete_loop equal fuel h b q p key = Ok h' -> length (HT h') = length (HT h).
Proof.
  induction fuel as [|fuel IH]; intros q p; cbn [delete_loop]; destruct p as [p|]; try discriminate. intros H. step H. destruct (equal _ _); [|eapply IH; eauto].
  step H. step H. injection H as <-. cbn [HT]. destruct q as [q|]; [step E0; apply len_store in E0|apply len_write in E0]; exact E0.
Qed.
Lemma len_delete {K V} (equal : K -> K -> bool) (hash : K -> Z) (h h' : htable K V) key : HashTable_Delete equal hash h key = Ok h' -> length (HT h') = length (HT h).
Proof.
  unfold HashTable_Delete. intros H. destruct (buckets h =? 0)%Z; [discriminate|]. cbv zeta in H. step H. destruct a as [p0|]; [|discriminate]. step H.
  destruct (i_next a); [eapply len_delete_loop; eauto|]. step H. step H. injection H as <-. cbn [HT]. eapply len_write; eauto.
Qed.
Lemma len_run {K V} (equal : K -> K -> bool) (hash : K -> Z) os : forall (h h' : htable K V), ht_run equal hash h os = Ok h' -> length (HT h') = length (HT h).
Proof.
  induction os as [|[k v|k] os IH]; intros h h'; cbn [ht_run ht_step]; [intros H; injection H as <-; auto| |]; intros H; step H; apply IH in H; [apply len_set in E|apply len_delete in E]; congruence.
Qed.
Lemma len_init {K V} nb cap (h : htable K V) : HashTable_INIT nb cap = Ok h -> length (HT h) = nb.
Proof. unfold HashTable_INIT. intros H. step H. injection H as <-. apply repeat_length. Qed.

(** the reported number is the greatest number of stored keys that share a bucket *)
Theorem C17_longest_chain : forall (K V : Type) (equal : K -> K -> bool) (hash : K -> Z),
  (forall k, equal k k = true) -> (forall a b, equal a b = equal b a) ->
  (forall a b c, equal a b = true -> equal b c = true -> equal a c = true) ->
  (forall a b, equal a b = true -> hash a = hash b) -> (forall k, (0 <= hash k)%Z) ->
  forall (nbuckets capacity : nat) (os : list (htop K V)) h0 h m, 0 < nbuckets ->
  HashTable_INIT nbuckets capacity = Ok h0 -> map_run equal capacity [] os = Map m -> ht_run equal hash h0 os = Ok h ->
  exists n, HashTable_MaximumChainLength h = Ok n /\
    (forall b, b < nbuckets -> length (colliding hash nbuckets b m) <= n) /\
    exists b, b < nbuckets /\ length (colliding hash nbuckets b m) = n.
Proof.
  intros K V equal hash E1 E2 E3 E4 E5 nb cap os h0 h m P H0 M H. destruct (@init_ok K V equal hash nb cap P) as (h0' & Bs & free & E & I & S & L).
  rewrite E in H0. injection H0 as ->. pose proof (run_ok equal hash E1 E2 E3 E4 E5 os [] h0 Bs free I S Logic.I) as R. rewrite L, M in R.
  destruct R as (h' & Bs' & free' & E' & I' & S' & D' & L'). rewrite E' in H. injection H as ->.
  assert (B : length (HT h) = nb) by (rewrite (len_run equal hash os h0 h E'); apply (len_init _ _ _ E)).
  rewrite <- B. eapply max_ok; eauto.
Qed.
Print Assumptions C17_longest_chain.
(** keys 7 and 10 of C17_example share a bucket of three *)
Example C17_longest_chain_example :
  colliding Z.abs 3 1 [(7, 70); (10, 100)]%Z = [(7, 70); (10, 100)]%Z /\
  (do h0 <- HashTable_INIT 3 3 ; do h <- ht_run Z.eqb Z.abs h0 C17_ops ; HashTable_MaximumChainLength h) = Ok 2.
Proof. vm_compute. auto. Qed.
