(** Proofs about HashM. *)
From Verif Require Import Base HashM.
Local Open Scope Z_scope.

Lemma wrap64_mod x : wrap64 x = (x + 2 ^ 63) mod 2 ^ 64 - 2 ^ 63.
Proof. unfold wrap64. change 0x8000000000000000 with (2 ^ 63). change 0xffffffffffffffff with (Z.ones 64). rewrite Z.land_ones by lia. reflexivity. Qed.
Lemma wrap64_is64 x : is64 (wrap64 x).
Proof. rewrite wrap64_mod. unfold is64. pose proof (Z.mod_pos_bound (x + 2^63) (2^64)). lia. Qed.
Lemma wrap64_id x : is64 x -> wrap64 x = x.
Proof. rewrite wrap64_mod. unfold is64. intros H. rewrite Z.mod_small; lia. Qed.
Lemma lxor_bound a b n : 0 <= n -> 0 <= a < 2 ^ n -> 0 <= b < 2 ^ n -> 0 <= Z.lxor a b < 2 ^ n.
Proof.
  intros Hn Ha Hb. assert (0 <= Z.lxor a b) by (apply Z.lxor_nonneg; lia). split; auto.
  destruct (Z.eq_dec (Z.lxor a b) 0) as [E|E]; [rewrite E; apply Z.pow_pos_nonneg; lia|].
  apply Z.log2_lt_pow2; [lia|].
  destruct (Z.eq_dec n 0) as [->|Hn0]; [exfalso; apply E; replace a with 0 by lia; replace b with 0 by lia; reflexivity|].
  apply Z.le_lt_trans with (Z.max (Z.log2 a) (Z.log2 b)); [apply Z.log2_lxor; lia|].
  apply Z.max_lub_lt; [destruct (Z.eq_dec a 0) as [->|]; [cbn; lia|apply Z.log2_lt_pow2; lia]
                      |destruct (Z.eq_dec b 0) as [->|]; [cbn; lia|apply Z.log2_lt_pow2; lia]].
Qed.
Lemma fold_shift_bound x k : is64 x -> 0 <= k -> 0 <= Z.lxor x (Z.shiftr x k) < 2 ^ 63.
Proof.
  unfold is64. intros H Hk.
  assert (SB : forall y, 0 <= y < 2 ^ 63 -> 0 <= Z.shiftr y k < 2 ^ 63).
  { intros y Hy. rewrite Z.shiftr_div_pow2 by lia. assert (0 < 2 ^ k) by (apply Z.pow_pos_nonneg; lia).
    split; [apply Z.div_pos; lia|]. apply Z.le_lt_trans with y; [|lia]. apply Z.div_le_upper_bound; nia. }
  destruct (Z_lt_le_dec x 0) as [N|P].
  - rewrite <- Z.lxor_lnot_lnot. apply lxor_bound; [lia| |].
    + unfold Z.lnot. lia.
    + rewrite <- (Z.lnot_involutive x), Z.lnot_shiftr by lia. rewrite Z.lnot_involutive. apply SB. unfold Z.lnot; lia.
  - apply lxor_bound; [lia|lia|apply SB; lia].
Qed.
Lemma hash_round_range h d : 0 <= hash_round h d < 2 ^ 63.
Proof. unfold hash_round. apply fold_shift_bound; [apply wrap64_is64|lia]. Qed.
Lemma fold_left_inv {A B} (P : A -> Prop) (f : A -> B -> A) (l : list B) :
  (forall a b, P (f a b)) -> forall a, P a -> P (fold_left f l a).
Proof. intros H; induction l as [|b l IH]; intros a Ha; cbn [fold_left]; [exact Ha|apply IH, H]. Qed.
Lemma hash_range data : 0 <= Globals_Hash data < 2 ^ 63.
Proof.
  unfold Globals_Hash. apply (fold_left_inv (fun x => 0 <= x < 2 ^ 63)).
  - exact hash_round_range.
  - split; [apply Z.le_refl|reflexivity].
Qed.
Lemma bucket_range data n : 0 < n -> 0 <= bucket_of (Globals_Hash data) n < n.
Proof. intros Hn. unfold bucket_of. pose proof (hash_range data). apply Z.rem_bound_pos; lia. Qed.

(** ** random numbers *)
Lemma rand_out_range s : 0 <= rand_out s < 32768.
Proof. unfold rand_out. apply Z.mod_pos_bound. lia. Qed.
Lemma rand_seq_range n s : Forall (fun v => 0 <= v <= 32767) (rand_seq n s).
Proof.
  revert s; induction n as [|n IH]; intros s; cbn [rand_seq]; [constructor|].
  unfold myrand. constructor; [pose proof (rand_out_range (rand_step s)); lia|apply IH].
Qed.
Lemma rand_seq_length n s : length (rand_seq n s) = n.
Proof. revert s; induction n as [|n IH]; intros s; cbn; auto. Qed.
Lemma rand_seq_app n m s : rand_seq (n + m) s = rand_seq n s ++ rand_seq m (rand_state n s).
Proof. revert s; induction n as [|n IH]; intros s; cbn; [reflexivity|f_equal; apply IH]. Qed.

(** The output only depends on the low 31 bits of the state, and so does every later output. *)
Lemma mod_mod_pow a i j : 0 <= i <= j -> (a mod 2 ^ j) mod 2 ^ i = a mod 2 ^ i.
Proof.
  intros H. symmetry. assert (0 < 2 ^ i) by (apply Z.pow_pos_nonneg; lia).
  replace j with (i + (j - i)) by ring. rewrite Z.pow_add_r by lia.
  rewrite Z.rem_mul_r by (try apply Z.pow_nonzero; try apply Z.pow_pos_nonneg; lia).
  rewrite Z.mul_comm, Z_mod_plus_full. rewrite Z.mod_mod; lia.
Qed.
Lemma rand_out_low s : rand_out s = (s mod 2 ^ 31) / 2 ^ 16.
Proof.
  unfold rand_out. change 32768 with (2 ^ 15). rewrite mod_mod_pow by lia. change 65536 with (2 ^ 16).
  change (2 ^ 31) with (2 ^ 16 * 2 ^ 15). rewrite Z.rem_mul_r by lia.
  rewrite Z.mul_comm, Z.div_add by lia. rewrite (Z.div_small (s mod 2 ^ 16)) by (apply Z.mod_pos_bound; lia). lia.
Qed.
Lemma rand_step_low s : (rand_step s) mod 2 ^ 31 = (s mod 2 ^ 31 * 1103515245 + 12345) mod 2 ^ 31.
Proof.
  unfold rand_step. rewrite mod_mod_pow by lia.
  rewrite Z.add_mod by lia. rewrite Z.mul_mod by lia.
  rewrite (Z.add_mod (s mod 2 ^ 31 * 1103515245)) by lia. rewrite (Z.mul_mod (s mod 2 ^ 31)) by lia.
  rewrite Z.mod_mod by lia. reflexivity.
Qed.
