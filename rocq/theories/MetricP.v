(** Proofs about metrics. *)
From Coq Require Import ZArith List Bool Lia.
From Verif Require Import Base MetricM MetricS.
Import ListNotations.
Local Open Scope Z_scope.

Lemma horner_snoc ds c : horner (ds ++ [c]) = 10 * horner ds + (c - 48).
Proof. unfold horner. rewrite fold_left_app. reflexivity. Qed.

Lemma horner_nonneg ds : Forall (fun c => 48 <= c <= 57) ds -> 0 <= horner ds.
Proof.
  induction ds as [|c ds IH] using rev_ind; intros F; [unfold horner; cbn; lia|]. rewrite horner_snoc.
  apply Forall_app in F as [F1 F2]. inversion F2; subst. specialize (IH F1). lia.
Qed.
Lemma horner_pos d ds : 49 <= d <= 57 -> Forall (fun c => 48 <= c <= 57) ds -> 0 < horner (d :: ds).
Proof.
  intros D. induction ds as [|c ds IH] using rev_ind; intros F; [unfold horner; cbn; lia|]. rewrite app_comm_cons, horner_snoc.
  apply Forall_app in F as [F1 F2]. inversion F2; subst. specialize (IH F1). lia.
Qed.
Lemma natural_nonneg v ds : natural v ds -> 0 <= v.
Proof. intros H; inversion H; subst; [lia|]. pose proof (horner_pos d ds0 H0 H1). lia. Qed.
Lemma natural_ne v ds : natural v ds -> ds <> [].
Proof. intros H; inversion H; discriminate. Qed.
Lemma natural_digits_all v ds : natural v ds -> Forall (fun c => 48 <= c <= 57) ds.
Proof. intros H; inversion H; subst; constructor; auto; lia. Qed.
Lemma natural_snoc v ds k : natural v ds -> v <> 0 -> 0 <= k < 10 -> natural (10 * v + k) (ds ++ [48 + k]).
Proof.
  intros H NZ K. inversion H; subst; [congruence|].
  replace (10 * horner (d :: ds0) + k) with (horner (d :: (ds0 ++ [48 + k]))).
  - cbn [app]. constructor; auto. apply Forall_app; split; auto. constructor; auto; lia.
  - rewrite app_comm_cons, horner_snoc. lia.
Qed.

Lemma one_digit z : 0 <= z < 10 -> natural z [48 + z].
Proof.
  intros H. destruct (Z.eq_dec z 0) as [->|N]; [constructor|].
  assert (E : z = horner [48 + z]) by (change (horner [48 + z]) with (10 * 0 + ((48 + z) - 48)); lia).
  rewrite E at 1. apply natural_digits; [lia|constructor].
Qed.
Lemma digits_before_spec fuel : forall z acc, 0 <= z < 10 ^ Z.of_nat (S fuel) ->
  exists ds, digits_before fuel z acc = ds ++ acc /\ natural z ds.
Proof.
  induction fuel as [|fuel IH]; intros z acc Hz.
  - change (10 ^ Z.of_nat 1) with 10 in Hz. cbn [digits_before]. rewrite (Z.mod_small z 10) by lia. exists [48 + z]. split; auto.
    apply one_digit; lia.
  - cbn [digits_before]. pose proof (Z.div_mod z 10 ltac:(lia)) as DM. pose proof (Z.mod_pos_bound z 10 ltac:(lia)) as MB.
    destruct (Z.eqb_spec (z / 10) 0) as [E|E].
    + exists [48 + z mod 10]. split; auto. rewrite E in DM. assert (z mod 10 = z) by lia. rewrite H.
      apply one_digit; lia.
    + destruct (IH (z / 10) (48 + z mod 10 :: acc)) as (ds & -> & N).
      { split; [apply Z.div_pos; lia|]. apply Z.div_lt_upper_bound; [lia|]. rewrite (Nat2Z.inj_succ (S fuel)), Z.pow_succ_r in Hz by lia. lia. }
      exists (ds ++ [48 + z mod 10]). split; [rewrite <- app_assoc; reflexivity|].
      replace z with (10 * (z / 10) + z mod 10) at 1 by lia. apply natural_snoc; auto; lia.
Qed.

Lemma percent_d_spec v : is_int v -> numeral v (percent_d v).
Proof.
  intros [L U]. unfold percent_d. destruct (Z.ltb_spec v 0) as [N|N].
  - destruct (digits_before_spec 10 (- v) []) as (ds & -> & D).
    { split; [lia|]. apply Z.le_lt_trans with (2 ^ 31); [lia|]. reflexivity. }
    rewrite app_nil_r. apply numeral_neg; auto.
  - destruct (digits_before_spec 10 v []) as (ds & -> & D).
    { split; [lia|]. apply Z.lt_trans with (2 ^ 31); [lia|]. reflexivity. }
    rewrite app_nil_r. apply numeral_pos; auto.
Qed.

(** the notation is unique *)
Lemma horner_lt ds : Forall (fun c => 48 <= c <= 57) ds -> horner ds < 10 ^ Z.of_nat (length ds).
Proof.
  induction ds as [|c ds IH] using rev_ind; intros F; [unfold horner; cbn; lia|]. rewrite horner_snoc, app_length; cbn [length]. rewrite Nat.add_1_r, Nat2Z.inj_succ, Z.pow_succ_r by lia.
  apply Forall_app in F as [F1 F2]. inversion F2; subst. specialize (IH F1). lia.
Qed.
Lemma horner_ge d ds : 49 <= d <= 57 -> Forall (fun c => 48 <= c <= 57) ds -> 10 ^ Z.of_nat (length ds) <= horner (d :: ds).
Proof.
  intros D. induction ds as [|c ds IH] using rev_ind; intros F; [unfold horner; cbn; lia|]. rewrite app_comm_cons, horner_snoc, app_length; cbn [length]. rewrite Nat.add_1_r, Nat2Z.inj_succ, Z.pow_succ_r by lia.
  apply Forall_app in F as [F1 F2]. inversion F2; subst. specialize (IH F1). lia.
Qed.
Lemma horner_inj a : forall b, Forall (fun c => 48 <= c <= 57) a -> Forall (fun c => 48 <= c <= 57) b -> length a = length b -> horner a = horner b -> a = b.
Proof.
  induction a as [|c a IH] using rev_ind; intros b Fa Fb L E.
  - destruct b; [auto|discriminate].
  - destruct b as [|c' b _] using rev_ind; [rewrite app_length in L; cbn in L; lia|].
    rewrite !app_length in L; cbn in L. rewrite !horner_snoc in E.
    apply Forall_app in Fa as [Fa Ca], Fb as [Fb Cb]. inversion Ca; inversion Cb; subst.
    assert (c = c') by lia. subst. f_equal. apply IH; auto; lia.
Qed.
Lemma natural_inj v a b : natural v a -> natural v b -> a = b.
Proof.
  intros Ha Hb. inversion Ha as [E1|d ds D F E1]; subst; inversion Hb as [E2|d' ds' D' F' E2]; subst; auto.
  - pose proof (horner_pos d' ds' D' F'). lia.
  - pose proof (horner_pos d ds D F). lia.
  - pose proof (horner_ge d ds D F). pose proof (horner_ge d' ds' D' F').
    assert (G : Forall (fun c => 48 <= c <= 57) (d :: ds)) by (constructor; auto; lia).
    assert (G' : Forall (fun c => 48 <= c <= 57) (d' :: ds')) by (constructor; auto; lia).
    pose proof (horner_lt _ G). pose proof (horner_lt _ G'). cbn [length] in *.
    apply horner_inj; auto. cbn [length]. f_equal.
    assert (10 ^ Z.of_nat (length ds) < 10 ^ Z.of_nat (S (length ds'))) by lia. apply Z.pow_lt_mono_r_iff in H3; try lia.
    assert (10 ^ Z.of_nat (length ds') < 10 ^ Z.of_nat (S (length ds))) by lia. apply Z.pow_lt_mono_r_iff in H4; lia.
Qed.
Lemma numeral_inj v a b : numeral v a -> numeral v b -> a = b.
Proof.
  intros Ha Hb. inversion Ha; subst; inversion Hb; subst; try lia.
  - eapply natural_inj; eauto.
  - f_equal. eapply natural_inj; eauto.
Qed.
Lemma natural_fun v w a : natural v a -> natural w a -> v = w.
Proof. intros Ha Hb. inversion Ha as [E1|d ds D F E1]; subst; inversion Hb as [E2|d' ds' D' F' E2]; subst; auto; try lia. Qed.
Lemma numeral_fun v w a : numeral v a -> numeral w a -> v = w.
Proof.
  intros Ha Hb. inversion Ha as [? ? ? N|? ? ? N]; subst; inversion Hb as [? ? ? N'|? ? ? N']; subst.
  - eapply natural_fun; eauto.
  - apply natural_digits_all in N. inversion N; subst; lia.
  - apply natural_digits_all in N'. inversion N'; subst; lia.
  - pose proof (natural_fun _ _ _ N N'). lia.
Qed.
Lemma numeral_chars v ds : numeral v ds -> ~ In 58 ds /\ ~ In 0 ds.
Proof.
  assert (G : forall w l, natural w l -> ~ In 58 l /\ ~ In 0 l).
  { intros w l N. apply natural_digits_all in N. rewrite Forall_forall in N. split; intros I; apply N in I; lia. }
  intros H; inversion H; subst; destruct (G _ _ H1) as [A B]; split; auto; cbn; intros [|]; try lia; auto.
Qed.
Lemma statsd_fun name v t t' : statsd name v t -> statsd name v t' -> t = t'.
Proof. intros (a & Na & ->) (b & Nb & ->). rewrite (numeral_inj _ _ _ Na Nb). reflexivity. Qed.
Lemma statsd_no_nul name v t : c_string name -> statsd name v t -> ~ In 0 t.
Proof.
  intros C (ds & N & ->) I. apply numeral_chars in N as [_ N]. rewrite !in_app_iff in I. cbn in I. unfold c_string in C. intuition lia.
Qed.
Lemma last_colon (a b x y : list Z) : ~ In 58 x -> ~ In 58 y -> a ++ 58 :: x = b ++ 58 :: y -> a = b /\ x = y.
Proof.
  revert b. induction a as [|c a IH]; intros [|c' b] X Y E; cbn in E; inversion E; subst; auto.
  - destruct X. apply in_or_app; right; left; auto.
  - destruct Y. apply in_or_app; right; left; auto.
  - destruct (IH b X Y) as [-> ->]; auto.
Qed.
Lemma statsd_inj n v m w t : statsd n v t -> statsd m w t -> n = m /\ v = w.
Proof.
  intros (a & Na & E) (b & Nb & E'). rewrite E in E'. cbn [app] in E'.
  destruct (numeral_chars _ _ Na) as [A _], (numeral_chars _ _ Nb) as [B _].
  apply last_colon in E' as [-> E2].
  - apply app_inv_tail in E2. subst. split; auto. eapply numeral_fun; eauto.
  - rewrite in_app_iff. cbn. intuition lia.
  - rewrite in_app_iff. cbn. intuition lia.
Qed.
Lemma padded_inj t t' d : ~ In 0 t -> ~ In 0 t' -> padded t d -> padded t' d -> t = t'.
Proof.
  intros N N' (n & ->) (n' & E). cbn [repeat] in E. revert t' N' E. induction t as [|c t IH]; intros [|c' t'] N' E; cbn in E; inversion E; subst; auto.
  - destruct N'; left; auto.
  - destruct N; left; auto.
  - f_equal. apply IH; auto; [intros I; apply N; right; auto|intros I; apply N'; right; auto].
Qed.

(** sprintf *)
Lemma put_spec l : forall buf i, put buf i l =
  if (i + length l <? length buf)%nat then Ok (firstn i buf ++ l ++ 0 :: skipn (S (i + length l)) buf) else UB.
Proof.
  assert (U : forall (buf : list Z) i x, (i < length buf)%nat -> upd buf i x = firstn i buf ++ x :: skipn (S i) buf).
  { induction buf as [|b buf IH]; intros [|i] x L; cbn in *; try lia; auto. rewrite IH by lia. reflexivity. }
  induction l as [|c l IH]; intros buf i; cbn [put length].
  - rewrite Nat.add_0_r. destruct (Nat.ltb_spec i (length buf)); auto. rewrite U by auto. reflexivity.
  - destruct (Nat.ltb_spec i (length buf)) as [Q|Q].
    + rewrite IH, upd_length. replace (S i + length l)%nat with (i + S (length l))%nat by lia. destruct (Nat.ltb_spec (i + S (length l)) (length buf)); auto.
      f_equal. rewrite (U buf i c Q). rewrite firstn_app, firstn_length, Nat.min_l by lia. rewrite (firstn_all2 (firstn i buf)) by (rewrite firstn_length; lia).
      replace (S i - i)%nat with 1%nat by lia. cbn [firstn]. rewrite <- app_assoc. cbn [app]. do 4 f_equal.
      rewrite skipn_app, firstn_length, Nat.min_l by lia. rewrite skipn_all2 by (rewrite firstn_length; lia). cbn [app].
      replace (S (i + S (length l)) - i)%nat with (S (S (length l))) by lia. rewrite skipn_cons.
      rewrite <- (firstn_skipn (S i) buf) at 2. rewrite skipn_app, firstn_length, Nat.min_l by lia.
      rewrite (skipn_all2 (firstn (S i) buf)) by (rewrite firstn_length; lia). cbn [app]. f_equal. lia.
    + destruct (Nat.ltb_spec (i + S (length l)) (length buf)); [lia|reflexivity].
Qed.
Lemma strlen_spec l r : ~ In 0 l -> strlen (l ++ 0 :: r) = Ok (length l).
Proof.
  induction l as [|c l IH]; intros N; cbn; auto. destruct (Z.eqb_spec c 0) as [->|]; [destruct N; left; auto|].
  rewrite IH; auto. intros I; apply N; right; auto.
Qed.
Lemma skipn_repeat {A} (x : A) k n : skipn k (repeat x n) = repeat x (n - k).
Proof. revert n; induction k as [|k IH]; intros [|n]; cbn; auto. Qed.

(** Metric_send *)
Definition opened (sock : nat -> Z) (g : metrics) : metrics :=
  if g_fd g =? 0 then mkMetrics (sock (g_sockets g)) (S (g_sockets g)) (g_sent g) else g.
Lemma send_spec sock g name v t : c_string name -> is_int v -> statsd name v t ->
  Metric_send sock g name v =
  if (length t <=? 129)%nat then let g' := opened sock g in Ok (mkMetrics (g_fd g') (g_sockets g') (g_sent g' ++ [(g_fd g', t ++ 0 :: repeat 0 (129 - length t))])) else UB.
Proof.
  intros C I S. pose proof S as S0. destruct S as (ds & N & E). assert (D : ds = percent_d v) by (eapply numeral_inj; eauto; apply percent_d_spec; auto). subst ds.
  unfold Metric_send. fold (opened sock g). rewrite <- E. rewrite put_spec, repeat_length. unfold GRAPHITE_MAX_MSG_LEN.
  change (0 + length t)%nat with (length t).
  destruct (Nat.leb_spec (length t) 129) as [L|L]; destruct (Nat.ltb_spec (length t) 130) as [L'|L']; try lia; [|reflexivity].
  cbn [rbind firstn app]. rewrite strlen_spec by (eapply statsd_no_nul; eauto). cbn [rbind].
  destruct (Nat.ltb_spec (length t) 130) as [_|]; [|lia]. cbn [rassert rbind]. rewrite skipn_repeat.
  replace (130 - S (length t))%nat with (129 - length t)%nat by lia.
  assert (LN : length (t ++ 0 :: repeat 0 (129 - length t)) = 130%nat) by (rewrite app_length; cbn [length]; rewrite repeat_length; lia).
  unfold UDP_SendData. rewrite LN. destruct (Nat.leb_spec 130 130) as [_|]; [|lia].
  rewrite firstn_all2 by lia. reflexivity.
Qed.
