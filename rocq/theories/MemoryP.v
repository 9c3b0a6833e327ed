(** Proofs about MemoryM: the concept memory (C34, C35). *)
From Coq Require Import ZArith List Bool Permutation.
From Verif Require Import Base F64 TruthM StampM StackM TermM TermP HashM HashP NamesM EventM InferenceM TableM UsageM RingM InvIndexM InvIndexS InvIndexP InvIndexP2 MemoryM MemoryS.
From Verif Require PQueueM PQueueP HashTableM HashTableS HashTableP.
#[local] Opaque fofZ fdec fadd fmul fdiv.

Lemma term_eqb_refl t : term_eqb t t = true. Proof. apply term_eqb_spec; reflexivity. Qed.
Lemma term_eqb_sym a b : term_eqb a b = term_eqb b a.
Proof. destruct (term_eqb a b) eqn:E; destruct (term_eqb b a) eqn:F; auto; [apply term_eqb_spec in E|apply term_eqb_spec in F]; subst; rewrite term_eqb_refl in *; congruence. Qed.
Lemma term_eqb_trans a b c : term_eqb a b = true -> term_eqb b c = true -> term_eqb a c = true.
Proof. rewrite !term_eqb_spec. congruence. Qed.
Lemma term_eqb_hash a b : term_eqb a b = true -> atoms_hash a = atoms_hash b.
Proof. rewrite term_eqb_spec. congruence. Qed.
Lemma atoms_hash_nonneg t : (0 <= atoms_hash t)%Z.
Proof. unfold atoms_hash. apply hash_range. Qed.

Notation tlookup := (@HashTableS.lookup term nat term_eqb).
Notation thas := (@HashTableS.has term nat term_eqb).
Notation tput := (@HashTableS.put term nat term_eqb).
Notation tdel := (@HashTableS.del term nat term_eqb).
Notation tdistinct := (@HashTableP.distinct term nat term_eqb).
Notation tinv := (@HashTableP.inv term nat term_eqb atoms_hash).
Notation tsame := (@HashTableP.same term nat term_eqb atoms_hash).

(** association lists keyed by terms *)
Lemma thas_in t al : thas t al = true <-> exists c, In (t, c) al.
Proof.
  unfold HashTableS.has. rewrite existsb_exists. split.
  - intros ([t' c] & H & E). cbn in E. apply term_eqb_spec in E. subst. eauto.
  - intros (c & H). exists (t, c). cbn. rewrite term_eqb_refl. auto.
Qed.
Lemma tlookup_in t al c : tlookup t al = Some c -> In (t, c) al.
Proof.
  unfold HashTableS.lookup. destruct (find _ al) as [[t' c']|] eqn:E; cbn; [|discriminate]. intros [= ->].
  apply find_some in E as [E1 E2]. cbn in E2. apply term_eqb_spec in E2. subst. exact E1.
Qed.
Lemma tlookup_none t al : tlookup t al = None -> forall c, ~ In (t, c) al.
Proof.
  unfold HashTableS.lookup. destruct (find _ al) as [[t' c']|] eqn:E; cbn; [discriminate|]. intros _ c H.
  pose proof (find_none _ _ E _ H) as X. cbn in X. rewrite term_eqb_refl in X. discriminate.
Qed.
Lemma tdistinct_fun al : tdistinct al -> forall t c d, In (t, c) al -> In (t, d) al -> c = d.
Proof.
  induction al as [|[t0 c0] al IH]; cbn; [intros _ t c d []|]. intros [H1 H2] t c d [A|A] [B|B].
  - congruence.
  - injection A as -> ->. assert (thas t al = true) by (apply thas_in; eauto). congruence.
  - injection B as -> ->. assert (thas t al = true) by (apply thas_in; eauto). congruence.
  - eapply IH; eauto.
Qed.
Lemma tput_in t c al : thas t al = false -> forall t' c', In (t', c') (tput t c al) <-> In (t', c') al \/ (t', c') = (t, c).
Proof. intros H t' c'. unfold HashTableS.put. rewrite H. rewrite in_app_iff. cbn. intuition. Qed.
Lemma tdel_in t al : forall t' c', In (t', c') (tdel t al) <-> In (t', c') al /\ t' <> t.
Proof.
  intros t' c'. unfold HashTableS.del. rewrite filter_In. cbn [fst]. split.
  - intros [A B]. split; auto. intros ->. rewrite term_eqb_refl in B. discriminate.
  - intros [A B]. split; auto. destruct (term_eqb t' t) eqn:E; auto. apply term_eqb_spec in E. congruence.
Qed.

(** the (slot, term) pairs stored *)
Definition entry_of (st : list concept) (c : nat) : nat * term := (c, c_term (nth c st concept0)).
Definition pairs_of (m : memory) : list (nat * term) := map (entry_of (m_store m)) (stored_slots m).

Section C.
Variable nm : names.
Variables cmax buckets atoms : nat.
Hypothesis cpos : 0 < cmax.
Hypothesis bpos : 0 < buckets.
Notation simple := (IsSimpleAtom nm).

Definition listedS (S : list (nat * term)) (b c : nat) : Prop :=
  exists t a, In (c, t) S /\ simple a = true /\ In a (indexed_atoms t) /\ b = nat_of a.

Definition table_ok (h : HashTableM.htable term nat) (S : list (nat * term)) : Prop :=
  exists al Bs free, tinv h Bs free /\ tsame al h Bs /\ tdistinct al /\ length (HashTableM.storage h) = cmax /\
    length al = length S /\ forall t c, In (t, c) al <-> In (c, t) S.
Definition index_ok (x : iidx) (S : list (nat * term)) : Prop :=
  exists ch, R x ch /\ exact ch (listedS S) /\ length ch = atoms /\ length (ix_storage x) = 31 * cmax.

Record cinv (m : memory) : Prop := {
  ci_q : PQueueP.pq_inv num_ltb num0 (fresh_items cmax) cmax (m_concepts m);
  ci_st : length (m_store m) = cmax;
  ci_tab : table_ok (m_table m) (pairs_of m);
  ci_idx : index_ok (m_index m) (pairs_of m);
  ci_range : forall c t, In (c, t) (pairs_of m) -> atoms_in_range atoms t;
  ci_ids : forall c k, stores m c k -> (c_id k < m_nextid m)%Z;
  ci_idinj : forall c k d k', stores m c k -> stores m d k' -> c_id k = c_id k' -> c = d
}.

(** ** queues over fresh slots *)
Lemma skipn_nth {A} (l : list A) : forall n d, n < length l -> skipn n l = nth n l d :: skipn (S n) l.
Proof. induction l as [|x l IH]; intros [|n] d H; cbn in *; try lia; auto. apply IH. lia. Qed.
Definition addrs (q : PQueueM.pq num64) : list nat := map PQueueM.address (PQueueM.contents q).
Notation qinv n := (PQueueP.pq_inv num_ltb num0 (fresh_items n) n).
Lemma fresh_addrs n : map PQueueM.address (fresh_items n) = seq 0 n.
Proof. unfold fresh_items. rewrite map_map. cbn. apply map_id. Qed.
Lemma qinv_addrs n q : qinv n q -> NoDup (map PQueueM.address (PQueueM.items q)) /\ forall a, In a (map PQueueM.address (PQueueM.items q)) -> a < n.
Proof.
  intros (_ & _ & _ & P). rewrite fresh_addrs in P. split.
  - apply (Permutation_NoDup (Permutation_sym P)). apply seq_NoDup.
  - intros a H. apply (Permutation_in _ P) in H. apply in_seq in H. lia.
Qed.
Lemma contents_incl q a : In a (addrs q) -> In a (map PQueueM.address (PQueueM.items q)).
Proof.
  unfold addrs, PQueueM.contents. rewrite !in_map_iff. intros (x & E & H). exists x. split; auto.
  rewrite <- (firstn_skipn (PQueueM.amount q) (PQueueM.items q)). apply in_or_app; auto.
Qed.
Lemma qinv_nodup n q : qinv n q -> NoDup (addrs q).
Proof. intros H. apply PQueueP.NoDup_map_firstn. apply (qinv_addrs n q H). Qed.
Lemma qinv_lt n q a : qinv n q -> In a (addrs q) -> a < n.
Proof. intros H Ha. apply (qinv_addrs n q H). apply contents_incl; auto. Qed.
Lemma qinv_count n q : qinv n q -> length (addrs q) = PQueueM.amount q /\ PQueueM.amount q <= n.
Proof.
  intros (W & _ & M & _). destruct W as [W1 W2]. unfold addrs, PQueueM.contents. rewrite map_length, firstn_length. lia.
Qed.

Lemma qpush n q p q' fb : 0 < n -> qinv n q -> PQueueM.push num_ltb num0 q p = (q', fb) ->
  qinv n q' /\
  ((PQueueM.amount q < n /\ exists a, fb = PQueueM.mkFb (Some (PQueueM.mkItem p a)) None /\ a < n /\ ~ In a (addrs q) /\
      Permutation (PQueueM.contents q') (PQueueM.mkItem p a :: PQueueM.contents q)) \/
   (PQueueM.amount q = n /\ q' = q /\ fb = PQueueM.mkFb None None /\
      forall x, In x (PQueueM.contents q) -> num_ltb p (PQueueM.priority x) = true) \/
   (PQueueM.amount q = n /\ exists e rest, fb = PQueueM.mkFb (Some (PQueueM.mkItem p (PQueueM.address e))) (Some e) /\
      (forall x, In x (PQueueM.contents q) -> num_ltb (PQueueM.priority x) (PQueueM.priority e) = false) /\
      num_ltb p (PQueueM.priority e) = false /\
      PQueueM.address e < n /\ ~ In (PQueueM.address e) (map PQueueM.address rest) /\
      Permutation (PQueueM.contents q) (e :: rest) /\
      Permutation (PQueueM.contents q') (PQueueM.mkItem p (PQueueM.address e) :: rest))).
Proof.
  intros Hn I E. pose proof I as (W & HO & M & P).
  assert (I' : qinv n q').
  { pose proof (PQueueP.pq_step_inv num_ltb num0 num_ltb_asym num_nlt_trans (fresh_items n) n q (PQueueM.OpPush p) Hn I) as X.
    cbn [PQueueM.pq_step] in X. rewrite E in X. exact X. }
  split; [exact I'|]. destruct (qinv_addrs n q I) as [ND LT].
  destruct (PQueueP.push_spec num_ltb num0 num_ltb_asym num_nlt_trans q p W HO ltac:(lia) q' fb E) as (_ & _ & _ & [C|[C|C]]).
  - left. destruct C as (C1 & C2 & C3 & C4 & C5). split; [lia|].
    exists (PQueueM.address (PQueueM.at_ num0 (PQueueM.items q) (PQueueM.amount q))). split; [exact C3|].
    destruct W as [W1 W2]. pose proof (skipn_nth (PQueueM.items q) (PQueueM.amount q) (PQueueM.ditem num0) ltac:(lia)) as SK. fold (PQueueM.at_ num0 (PQueueM.items q) (PQueueM.amount q)) in SK.
    rewrite <- (firstn_skipn (PQueueM.amount q) (PQueueM.items q)), map_app, SK in ND. cbn [map] in ND.
    split; [|split; [|exact C4]].
    + apply LT. apply in_map. apply nth_In. lia.
    + intros Q. apply NoDup_remove_2 in ND. apply ND. apply in_or_app; left. exact Q.
  - right; left. destruct C as (C1 & C2 & C3 & C4). repeat split; auto; try lia; apply W.
  - right; right. destruct C as (C1 & C2 & e & C3 & C4 & C5 & rest & C6 & C7 & C8). split; [lia|].
    exists e, rest. split; [exact C3|]. split; [exact C4|]. split; [exact C5|].
    split; [|split; [|split; [exact C6|exact C7]]].
    + apply (qinv_lt n q); [exact I|]. unfold addrs. apply in_map. apply (Permutation_in _ (Permutation_sym C6)). left; auto.
    + pose proof (qinv_nodup n q I) as N. unfold addrs in N. apply (Permutation_map PQueueM.address) in C6.
      apply (Permutation_NoDup C6) in N. cbn [map] in N. inversion N; auto.
Qed.

(** ** the hash table *)
Lemma table_get h S t : table_ok h S -> exists r, HashTableM.HashTable_Get term_eqb atoms_hash h t = Ok r /\
  (forall c, r = Some c <-> In (c, t) S).
Proof.
  intros (al & Bs & free & I & SM & D & _ & _ & E).
  exists (tlookup t al). split.
  - eapply HashTableP.get_ok; eauto using term_eqb_refl, term_eqb_sym, term_eqb_trans, term_eqb_hash, atoms_hash_nonneg.
  - intros c. rewrite <- E. split; [apply tlookup_in|]. intros H.
    destruct (tlookup t al) as [d|] eqn:L; [|exfalso; eapply tlookup_none; eauto].
    apply tlookup_in in L. f_equal. eapply tdistinct_fun; eauto.
Qed.
Lemma table_unique h S t c d : table_ok h S -> In (c, t) S -> In (d, t) S -> c = d.
Proof. intros (al & Bs & free & I & SM & D & _ & _ & E) H1 H2. apply E in H1, H2. eapply tdistinct_fun; eauto. Qed.
Lemma table_set h S t c S' : table_ok h S -> length S < cmax -> (forall d, ~ In (d, t) S) ->
  (forall d u, In (d, u) S' <-> In (d, u) S \/ (d, u) = (c, t)) -> length S' = 1 + length S ->
  exists h', HashTableM.HashTable_Set term_eqb atoms_hash h t c = Ok h' /\ table_ok h' S'.
Proof.
  intros (al & Bs & free & I & SM & D & L & LL & E) HL HN HS' HLen.
  assert (HF : thas t al = false).
  { destruct (thas t al) eqn:X; auto. apply thas_in in X as (d & X). apply E in X. exfalso; eapply HN; eauto. }
  destruct (HashTableP.set_ok term_eqb atoms_hash term_eqb_refl term_eqb_sym term_eqb_trans term_eqb_hash atoms_hash_nonneg al h Bs free t c I SM) as (h' & Bs' & free' & H1 & H2 & H3 & H4).
  { right. rewrite L, LL. exact HL. }
  exists h'. split; auto. exists (tput t c al), Bs', free'. split; auto. split; auto.
  split; [apply HashTableP.distinct_put; auto using term_eqb_sym|]. split; [lia|].
  split.
  - unfold HashTableS.put. rewrite HF, app_length. cbn. lia.
  - intros u d. rewrite tput_in by auto. rewrite HS', E. intuition congruence.
Qed.
Lemma table_del h S t c S' : table_ok h S -> In (c, t) S ->
  (forall d u, In (d, u) S' <-> In (d, u) S /\ u <> t) -> 1 + length S' = length S ->
  exists h', HashTableM.HashTable_Delete term_eqb atoms_hash h t = Ok h' /\ table_ok h' S'.
Proof.
  intros (al & Bs & free & I & SM & D & L & LL & E) HI HS' HLen.
  assert (HF : thas t al = true) by (apply thas_in; exists c; apply E; auto).
  destruct (HashTableP.delete_ok term_eqb atoms_hash term_eqb_refl term_eqb_sym term_eqb_trans term_eqb_hash atoms_hash_nonneg al h Bs free t I SM D HF) as (h' & Bs' & free' & H1 & H2 & H3 & H4).
  exists h'. split; auto. exists (tdel t al), Bs', free'. split; auto. split; auto.
  split; [apply HashTableP.distinct_del; auto|]. split; [lia|].
  split.
  - pose proof (HashTableP.del_length term_eqb term_eqb_sym term_eqb_trans t al D HF). lia.
  - intros u d. rewrite tdel_in, HS', E. tauto.
Qed.

(** ** the index *)
Lemma index_add x S t c S' : index_ok x S -> (forall d u, In (d, u) S -> d < cmax /\ atoms_in_range atoms u) ->
  (forall d u v, In (d, u) S -> In (d, v) S -> u = v) -> (forall u, ~ In (c, u) S) -> c < cmax -> atoms_in_range atoms t ->
  (forall d u, In (d, u) S' <-> In (d, u) S \/ (d, u) = (c, t)) ->
  exists x', InvertedAtomIndex_AddConcept simple x t c = Ok x' /\ index_ok x' S'.
Proof.
  intros (ch & HR & HE & HL & HP) HS HU HN HC HT HS'.
  set (tm := fun d => if d =? c then t else match find (fun e => fst e =? d) S with Some e => snd e | None => [] end).
  destruct (add_each simple x ch (listedS S) cmax tm c (indexed_atoms t) HR HE) as (x' & ch' & A & B & C & D & F).
  - intros b d (u & a & H1 & H2 & H3 & ->). destruct (HS _ _ H1) as [G1 G2].
    pose proof (firstn_range atoms u G2) as FR. rewrite Forall_forall in FR. apply (cells_in simple); [exact (proj1 (FR a H3))|exact G1|].
    unfold tm. destruct (Nat.eqb_spec d c) as [->|N]; [exfalso; eapply HN; eauto|].
    destruct (find (fun e => fst e =? d) S) as [[d' v]|] eqn:FE.
    + apply find_some in FE as [F1 F2]. cbn in F2. apply Nat.eqb_eq in F2. subst d'. cbn. rewrite (HU _ _ _ F1 H1). exact H3.
    + apply (find_none _ _ FE) in H1. cbn in H1. rewrite Nat.eqb_refl in H1. discriminate.
  - lia.
  - auto.
  - rewrite HL. apply firstn_range; auto.
  - unfold tm. rewrite Nat.eqb_refl. intros z Hz; exact Hz.
  - exists x'. split; [exact A|]. exists ch'. split; auto. split; [|split; lia].
    eapply exact_ext; [|exact F]. intros b d; cbv beta. unfold listedS. split.
    + intros [(u & a & H1 & H2)|(-> & a & H2 & H3 & H4)]; [exists u, a; split; auto; apply HS'; auto|].
      exists t, a. split; auto. apply HS'. auto.
    + intros (u & a & H1 & H2 & H3 & H4). apply HS' in H1 as [H1|H1]; [left; exists u, a; auto|].
      injection H1 as -> ->. right. split; auto. exists a. auto.
Qed.
Lemma index_remove x S t c S' : index_ok x S -> In (c, t) S -> atoms_in_range atoms t ->
  (forall d u v, In (d, u) S -> In (d, v) S -> u = v) ->
  (forall d u, In (d, u) S' <-> In (d, u) S /\ d <> c) ->
  exists x', InvertedAtomIndex_RemoveConcept simple x t c = Ok x' /\ index_ok x' S'.
Proof.
  intros (ch & HR & HE & HL & HP) HI HT HU HS'.
  destruct (remove_each simple x ch (listedS S) c (indexed_atoms t) HR HE) as (x' & ch' & A & B & C & D & F).
  - rewrite HL. apply firstn_range; auto.
  - exists x'. split; [exact A|]. exists ch'. split; auto. split; [|split; lia].
    eapply exact_ext; [|exact F]. intros b d; cbv beta. unfold listedS. split.
    + intros [(u & a & H1 & H2 & H3 & H4) N]. exists u, a. split; auto. apply HS'. split; auto.
      intros ->. apply N. split; auto. exists a. rewrite (HU _ _ _ HI H1). auto.
    + intros (u & a & H1 & H2 & H3 & H4). apply HS' in H1 as [H1 N]. split; [exists u, a; auto|]. intros (-> & _). auto.
Qed.

(** ** Conceptualize *)
Definition new_concept (id : Z) (t : term) (now : Z) : concept :=
  mkConcept id (mkUsage 1 now) t event0 event0 event0 event0 (repeat table0 (S OPERATIONS_MAX)) table0 f0 (0, 0, 0)%Z 0%Z.
Lemma pairs_in m d u : In (d, u) (pairs_of m) <-> In d (stored_slots m) /\ u = c_term (nth d (m_store m) concept0).
Proof.
  unfold pairs_of, entry_of. rewrite in_map_iff. split.
  - intros (x & E & H). injection E as -> <-. auto.
  - intros (H & ->). exists d. auto.
Qed.
Lemma pairs_len m : length (pairs_of m) = length (stored_slots m).
Proof. apply map_length. Qed.
Lemma pairs_fun m d u v : In (d, u) (pairs_of m) -> In (d, v) (pairs_of m) -> u = v.
Proof. rewrite !pairs_in. intros [_ ->] [_ ->]. reflexivity. Qed.
Lemma stores_nth m c k : stores m c k -> In c (stored_slots m) /\ nth c (m_store m) concept0 = k.
Proof. intros [A B]. split; auto. apply nth_error_nth. exact B. Qed.
Lemma stores_pairs m c t : cinv m -> (In (c, t) (pairs_of m) <-> exists k, stores m c k /\ c_term k = t).
Proof.
  intros I. rewrite pairs_in. split.
  - intros (H & ->). exists (nth c (m_store m) concept0). split; auto. split; auto. apply nth_error_nth'.
    rewrite (ci_st m I). apply (qinv_lt cmax (m_concepts m)); [apply I|exact H].
  - intros (k & H & <-). apply stores_nth in H as [H1 H2]. rewrite H2. auto.
Qed.
Lemma nth_upd_same {A} (l : list A) i x d : i < length l -> nth i (upd l i x) d = x.
Proof. intros H. apply nth_error_nth. rewrite nth_error_upd, Nat.eqb_refl. apply Nat.ltb_lt in H. rewrite H. reflexivity. Qed.
Lemma nth_upd_other {A} (l : list A) i j x d : i <> j -> nth j (upd l i x) d = nth j l d.
Proof.
  intros H. destruct (nth_error l j) as [y|] eqn:E.
  - rewrite (nth_error_nth l j d E). apply nth_error_nth. rewrite nth_error_upd. destruct (Nat.eqb_spec j i); [congruence|]. exact E.
  - rewrite !nth_overflow; auto; [apply nth_error_None in E; lia|]. rewrite upd_length. apply nth_error_None in E. lia.
Qed.

(** the state after a new concept for t took slot c; [slots'] are the stored slots before, without c *)
Lemma cinv_new m t now q c rest h x : cinv m -> atoms_in_range atoms t -> c < cmax ->
  PQueueP.pq_inv num_ltb num0 (fresh_items cmax) cmax q ->
  Permutation (map PQueueM.address (PQueueM.contents q)) (c :: rest) -> ~ In c rest -> incl rest (stored_slots m) ->
  table_ok h (pairs_of (mkMem q (upd (m_store m) c (new_concept (m_nextid m) t now)) h x (m_nextid m + 1) (m_ring m) (m_beliefs m) (m_goals m) (m_ops m) (m_restricted m))) ->
  index_ok x (pairs_of (mkMem q (upd (m_store m) c (new_concept (m_nextid m) t now)) h x (m_nextid m + 1) (m_ring m) (m_beliefs m) (m_goals m) (m_ops m) (m_restricted m))) ->
  cinv (mkMem q (upd (m_store m) c (new_concept (m_nextid m) t now)) h x (m_nextid m + 1) (m_ring m) (m_beliefs m) (m_goals m) (m_ops m) (m_restricted m)).
Proof.
  intros I HT HC HQ HP HN HR T1 T2. set (m' := mkMem _ _ _ _ _ _ _ _ _ _) in *.
  pose proof (ci_st m I) as LS.
  assert (SS : forall d, In d (stored_slots m') -> d = c \/ (In d rest /\ d <> c)).
  { intros d Hd. unfold stored_slots in Hd. cbn in Hd. apply (Permutation_in _ HP) in Hd as [<-|Hd]; auto. right. split; auto. congruence. }
  assert (ST : forall d k, stores m' d k -> (d = c /\ k = new_concept (m_nextid m) t now) \/ (d <> c /\ stores m d k)).
  { intros d k [H1 H2]. cbn [m_store m'] in H2. rewrite nth_error_upd in H2. apply SS in H1 as [->|[H1 N]].
    - left. rewrite Nat.eqb_refl in H2. destruct (c <? length (m_store m)) eqn:X; [|apply Nat.ltb_ge in X; lia]. cbn in H2. split; congruence.
    - right. split; auto. destruct (Nat.eqb_spec d c); [congruence|]. cbn in H2. split; auto. }
  constructor.
  - exact HQ.
  - cbn. rewrite upd_length. exact LS.
  - exact T1.
  - exact T2.
  - intros d u H. apply pairs_in in H as [H1 ->]. cbn [m_store m']. apply SS in H1 as [->|[H1 N]].
    + rewrite nth_upd_same by lia. exact HT.
    + rewrite nth_upd_other by auto. apply (ci_range m I d). apply pairs_in. auto.
  - intros d k H. cbn [m_nextid m']. apply ST in H as [[-> ->]|[N H]].
    + cbn. lia.
    + pose proof (ci_ids m I d k H). lia.
  - intros d k d' k' H H' E. apply ST in H as [[-> ->]|[N H]]; apply ST in H' as [[-> ->]|[N' H']]; auto.
    + cbn in E. pose proof (ci_ids m I d' k' H'). lia.
    + cbn in E. pose proof (ci_ids m I d k H). lia.
    + eapply (ci_idinj m I); eauto.
Qed.

(** what a successful creation does *)
Definition created (m m' : memory) (c : nat) (t : term) (now : Z) : Prop :=
  m_store m' = upd (m_store m) c (new_concept (m_nextid m) t now) /\ m_nextid m' = (m_nextid m + 1)%Z /\
  m_ring m' = m_ring m /\ m_beliefs m' = m_beliefs m /\ m_goals m' = m_goals m /\ m_ops m' = m_ops m /\ m_restricted m' = m_restricted m.
Inductive cz_outcome (m : memory) (t : term) (now : Z) : memory -> option nat -> Prop :=
| cz_found c : In (c, t) (pairs_of m) -> cz_outcome m t now m (Some c)
| cz_refused : (forall c, ~ In (c, t) (pairs_of m)) -> PQueueM.amount (m_concepts m) = cmax ->
    (forall it, In it (PQueueM.contents (m_concepts m)) -> num_ltb num1 (PQueueM.priority it) = true) -> cz_outcome m t now m None
| cz_new m' c : (forall c, ~ In (c, t) (pairs_of m)) -> PQueueM.amount (m_concepts m) < cmax -> c < cmax ->
    ~ In c (stored_slots m) ->
    Permutation (PQueueM.contents (m_concepts m')) (PQueueM.mkItem num1 c :: PQueueM.contents (m_concepts m)) ->
    created m m' c t now -> cz_outcome m t now m' (Some c)
| cz_evict m' e rest : (forall c, ~ In (c, t) (pairs_of m)) -> PQueueM.amount (m_concepts m) = cmax ->
    (forall it, In it (PQueueM.contents (m_concepts m)) -> num_ltb (PQueueM.priority it) (PQueueM.priority e) = false) ->
    num_ltb num1 (PQueueM.priority e) = false -> PQueueM.address e < cmax ->
    ~ In (PQueueM.address e) (map PQueueM.address rest) ->
    Permutation (PQueueM.contents (m_concepts m)) (e :: rest) ->
    Permutation (PQueueM.contents (m_concepts m')) (PQueueM.mkItem num1 (PQueueM.address e) :: rest) ->
    created m m' (PQueueM.address e) t now -> cz_outcome m t now m' (Some (PQueueM.address e)).

Lemma find_ok m t : cinv m -> exists r, FindConceptByTerm m t = Ok r /\ forall c, r = Some c <-> In (c, t) (pairs_of m).
Proof. intros I. apply table_get. apply I. Qed.

Lemma Conceptualize_ok m t now : cinv m -> atoms_in_range atoms t ->
  exists m' r, Conceptualize nm m t now = Ok (m', r) /\ cinv m' /\ cz_outcome m t now m' r.
Proof.
  intros I HT. unfold Conceptualize. destruct (find_ok m t I) as (r & E & HR). rewrite E. cbn [rbind].
  destruct r as [c|].
  { exists m, (Some c). split; auto. split; auto. constructor. apply HR. reflexivity. }
  assert (HN : forall c, ~ In (c, t) (pairs_of m)) by (intros c H; apply HR in H; discriminate). clear HR E.
  destruct (PQueueM.push num_ltb num0 (m_concepts m) num1) as [q fb] eqn:PE.
  pose proof (ci_st m I) as LS.
  destruct (qpush cmax (m_concepts m) num1 q fb cpos (ci_q m I) PE) as (HQ & [C|[C|C]]).
  - destruct C as (C1 & c & -> & C2 & C3 & C4). cbn [PQueueM.added PQueueM.evicted PQueueM.address].
    unfold cread. destruct (nth_error (m_store m) c) as [old|] eqn:EO; [|apply nth_error_None in EO; lia]. cbn [rbind].
    pose proof (Permutation_map PQueueM.address C4) as C5. cbn [map PQueueM.address] in C5.
    set (new := mkConcept _ _ _ _ _ _ _ _ _ _ _ _).
    assert (SP : forall h x, Permutation (stored_slots (mkMem q (upd (m_store m) c new) h x (m_nextid m + 1) (m_ring m) (m_beliefs m) (m_goals m) (m_ops m) (m_restricted m))) (c :: stored_slots m)) by (intros; exact C5).
    assert (PI : forall h x d u, In (d, u) (pairs_of (mkMem q (upd (m_store m) c new) h x (m_nextid m + 1) (m_ring m) (m_beliefs m) (m_goals m) (m_ops m) (m_restricted m))) <-> In (d, u) (pairs_of m) \/ (d, u) = (c, t)).
    { intros h x d u. rewrite !pairs_in. cbn [m_store]. split.
      - intros [H ->]. apply (Permutation_in _ (SP h x)) in H as [<-|H].
        + right. rewrite nth_upd_same by lia. reflexivity.
        + left. split; auto. rewrite nth_upd_other; auto. intros ->. apply C3. exact H.
      - intros [[H ->]|H].
        + split; [apply (Permutation_in _ (Permutation_sym (SP h x))); right; auto|]. rewrite nth_upd_other; auto. intros ->. apply C3. exact H.
        + injection H as -> ->. split; [apply (Permutation_in _ (Permutation_sym (SP h x))); left; auto|]. rewrite nth_upd_same by lia. reflexivity. }
    assert (NC : forall u, ~ In (c, u) (pairs_of m)) by (intros u H; apply pairs_in in H as [H _]; apply C3; exact H).
    assert (RG : forall d u, In (d, u) (pairs_of m) -> d < cmax /\ atoms_in_range atoms u).
    { intros d u H. split; [|eapply ci_range; eauto]. apply pairs_in in H as [H _]. apply (qinv_lt cmax (m_concepts m)); [apply I|exact H]. }
    destruct (index_add (m_index m) (pairs_of m) t c (pairs_of (mkMem q (upd (m_store m) c new) (m_table m) (m_index m) (m_nextid m + 1) (m_ring m) (m_beliefs m) (m_goals m) (m_ops m) (m_restricted m))) (ci_idx m I) RG (pairs_fun m) NC C2 HT (PI (m_table m) (m_index m))) as (x' & X1 & X2).
    cbn [snd fst]. rewrite X1. cbn [rbind].
    destruct (table_set (m_table m) (pairs_of m) t c (pairs_of (mkMem q (upd (m_store m) c new) (m_table m) (m_index m) (m_nextid m + 1) (m_ring m) (m_beliefs m) (m_goals m) (m_ops m) (m_restricted m))) (ci_tab m I)) as (h' & H1 & H2).
    + rewrite pairs_len. destruct (qinv_count cmax (m_concepts m) (ci_q m I)) as [K _]. unfold addrs in K. unfold stored_slots. lia.
    + exact HN.
    + exact (PI (m_table m) (m_index m)).
    + rewrite !pairs_len. apply Permutation_length in C5. cbn in C5. exact C5.
    + rewrite H1. cbn [rbind]. eexists _, _. split; [reflexivity|]. split.
      * apply (cinv_new m t now q c (stored_slots m) h' x'); auto. intros z Hz; exact Hz.
      * apply cz_new; auto. repeat split.
  - destruct C as (C1 & -> & -> & C2). cbn [PQueueM.added]. exists m, None. split; auto. split; auto. constructor; auto.
  - destruct C as (C1 & e & rest & -> & C2 & C3 & C4 & C5 & C6 & C7). cbn [PQueueM.added PQueueM.evicted PQueueM.address].
    set (c := PQueueM.address e) in *. unfold cread. destruct (nth_error (m_store m) c) as [old|] eqn:EO; [|apply nth_error_None in EO; lia]. cbn [rbind].
    pose proof (Permutation_map PQueueM.address C6) as C8. cbn [map] in C8. fold c in C8.
    pose proof (Permutation_map PQueueM.address C7) as C9. cbn [map PQueueM.address] in C9.
    set (rs := map PQueueM.address rest) in *.
    set (new := mkConcept _ _ _ _ _ _ _ _ _ _ _ _).
    assert (IC : In c (stored_slots m)) by (apply (Permutation_in _ (Permutation_sym C8)); left; auto).
    assert (OT : In (c, c_term old) (pairs_of m)) by (apply pairs_in; split; auto; rewrite (nth_error_nth _ _ concept0 EO); reflexivity).
    set (S1 := map (entry_of (m_store m)) rs).
    assert (S1I : forall d u, In (d, u) S1 <-> In (d, u) (pairs_of m) /\ d <> c).
    { intros d u. unfold S1. rewrite in_map_iff, pairs_in. unfold entry_of. split.
      - intros (z & Ez & H). injection Ez as -> <-. split; [split; auto; apply (Permutation_in _ (Permutation_sym C8)); right; auto|]. intros ->. auto.
      - intros [[H ->] N]. exists d. split; auto. apply (Permutation_in _ C8) in H as [H|H]; [congruence|auto]. }
    assert (S1T : forall d u, In (d, u) S1 <-> In (d, u) (pairs_of m) /\ u <> c_term old).
    { intros d u. rewrite S1I. split; intros [H N]; split; auto.
      - intros ->. apply N. eapply table_unique; [apply (ci_tab m I)|exact H|exact OT].
      - intros ->. apply N. eapply pairs_fun; eauto. }
    assert (L1 : 1 + length S1 = length (pairs_of m)).
    { unfold S1. rewrite pairs_len, map_length. apply Permutation_length in C8. cbn [length] in C8. exact (eq_sym C8). }
    destruct (table_del (m_table m) (pairs_of m) (c_term old) c S1 (ci_tab m I) OT S1T L1) as (h1 & D1 & D2).
    destruct (index_remove (m_index m) (pairs_of m) (c_term old) c S1 (ci_idx m I) OT (ci_range m I _ _ OT) (pairs_fun m) S1I) as (x1 & D3 & D4).
    rewrite D1. cbn [rbind]. rewrite D3. cbn [rbind snd fst].
    assert (SP : forall h x, Permutation (stored_slots (mkMem q (upd (m_store m) c new) h x (m_nextid m + 1) (m_ring m) (m_beliefs m) (m_goals m) (m_ops m) (m_restricted m))) (c :: rs)) by (intros; exact C9).
    assert (PI : forall h x d u, In (d, u) (pairs_of (mkMem q (upd (m_store m) c new) h x (m_nextid m + 1) (m_ring m) (m_beliefs m) (m_goals m) (m_ops m) (m_restricted m))) <-> In (d, u) S1 \/ (d, u) = (c, t)).
    { intros h x d u. rewrite !pairs_in. cbn [m_store]. unfold S1. rewrite in_map_iff. unfold entry_of. split.
      - intros [H ->]. apply (Permutation_in _ (SP h x)) in H as [<-|H].
        + right. rewrite nth_upd_same by lia. reflexivity.
        + left. exists d. split; auto. rewrite nth_upd_other; auto. intros ->. apply C5. exact H.
      - intros [(z & Ez & H)|H].
        + injection Ez as -> <-. split; [apply (Permutation_in _ (Permutation_sym (SP h x))); right; auto|]. rewrite nth_upd_other; auto. intros ->. apply C5. exact H.
        + injection H as -> ->. split; [apply (Permutation_in _ (Permutation_sym (SP h x))); left; auto|]. rewrite nth_upd_same by lia. reflexivity. }
    assert (NC : forall u, ~ In (c, u) S1) by (intros u H; apply S1I in H as [_ H]; apply H; reflexivity).
    assert (RG : forall d u, In (d, u) S1 -> d < cmax /\ atoms_in_range atoms u).
    { intros d u H. apply S1I in H as [H _]. split; [|eapply ci_range; eauto]. apply pairs_in in H as [H _]. apply (qinv_lt cmax (m_concepts m)); [apply I|exact H]. }
    assert (FU : forall d u v, In (d, u) S1 -> In (d, v) S1 -> u = v) by (intros d u v H H'; apply S1I in H as [H _]; apply S1I in H' as [H' _]; eapply pairs_fun; eauto).
    destruct (index_add x1 S1 t c (pairs_of (mkMem q (upd (m_store m) c new) (m_table m) (m_index m) (m_nextid m + 1) (m_ring m) (m_beliefs m) (m_goals m) (m_ops m) (m_restricted m))) D4 RG FU NC C4 HT (PI (m_table m) (m_index m))) as (x' & X1 & X2).
    rewrite X1. cbn [rbind].
    destruct (table_set h1 S1 t c (pairs_of (mkMem q (upd (m_store m) c new) (m_table m) (m_index m) (m_nextid m + 1) (m_ring m) (m_beliefs m) (m_goals m) (m_ops m) (m_restricted m))) D2) as (h' & H1 & H2).
    + rewrite pairs_len in L1. destruct (qinv_count cmax (m_concepts m) (ci_q m I)) as [K _]. unfold addrs in K. unfold stored_slots in L1. lia.
    + intros d H. apply S1I in H as [H _]. exact (HN d H).
    + exact (PI (m_table m) (m_index m)).
    + rewrite !pairs_len. apply Permutation_length in C9. unfold S1. rewrite map_length. cbn in C9. exact C9.
    + rewrite H1. cbn [rbind]. eexists _, _. split; [reflexivity|]. split.
      * apply (cinv_new m t now q c rs h' x'); auto. intros z Hz. apply (Permutation_in _ (Permutation_sym C8)). right; auto.
      * apply (cz_evict m t now _ e rest); auto. repeat split.
Qed.
End C.
