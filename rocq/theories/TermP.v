(** Proofs about TermM. *)
From Coq Require Import Permutation.
From Verif Require Import Base HashM HashP TermM TermS.

(** ** paths *)
Lemma idx_app i p q : idx i (p ++ q) = idx (idx i p) q.
Proof. revert i; induction p as [|b p IH]; intros i; cbn; auto. Qed.
Lemma child_gt i b : i < child i b.
Proof. destruct b; cbn; lia. Qed.
Lemma child_inj i j b c : child i b = child j c -> i = j /\ b = c.
Proof. destruct b, c; unfold child; intros; split; try lia; try reflexivity. Qed.
Lemma idx_ge i p : i + length p <= idx i p.
Proof. revert i; induction p as [|b p IH]; intros i; cbn [idx length]; [lia|]. pose proof (IH (child i b)). pose proof (child_gt i b). lia. Qed.
Lemma snoc_cases {A} (l : list A) : l = [] \/ exists l' x, l = l' ++ [x].
Proof. destruct l as [|a l]; auto. right. destruct (@exists_last _ (a :: l)) as (l' & x & E); [discriminate|]. eauto. Qed.
Lemma idx_inj i p q : idx i p = idx i q -> p = q.
Proof.
  revert q; induction p as [|b p IH] using rev_ind; intros q H.
  - destruct q as [|c q]; auto. pose proof (idx_ge i (c :: q)). cbn [idx length] in *. lia.
  - destruct (snoc_cases q) as [->|(q' & c & ->)].
    + pose proof (idx_ge i (p ++ [b])). rewrite app_length in *. cbn [idx length] in *. lia.
    + rewrite !idx_app in H. cbn [idx] in H. apply child_inj in H as [H ->]. f_equal. apply IH. exact H.
Qed.
Lemma child_mono i j b : i <= j -> child i b <= child j b.
Proof. destruct b; cbn; lia. Qed.
Lemma idx_mono i j p : i <= j -> idx i p <= idx j p.
Proof. revert i j; induction p as [|b p IH]; intros i j H; cbn; auto. apply IH, child_mono, H. Qed.
Lemma idx_child i b p : idx (child i b) p = idx i (b :: p). Proof. reflexivity. Qed.
(** every slot is reached from the root *)
Lemma idx_root k : exists p, k = idx 0 p.
Proof.
  induction k as [k IH] using lt_wf_ind. destruct k as [|k]; [exists []; reflexivity|].
  destruct (Nat.Even_or_Odd k) as [[m H]|[m H]].
  - destruct (IH m ltac:(lia)) as (p & Hp). exists (p ++ [false]). rewrite idx_app, <- Hp. cbn. lia.
  - destruct (IH m ltac:(lia)) as (p & Hp). exists (p ++ [true]). rewrite idx_app, <- Hp. cbn. lia.
Qed.
Lemma child_of k : 0 < k -> exists i b, k = child i b.
Proof.
  intros H. destruct k as [|k]; [lia|]. destruct (Nat.Even_or_Odd k) as [[m Hm]|[m Hm]].
  - exists m, false. cbn. lia.
  - exists m, true. cbn. lia.
Qed.
Lemma under_dec i k : {under i k} + {~ under i k}.
Proof.
  induction k as [k IH] using lt_wf_rec.
  destruct (Nat.eq_dec i k) as [->|N]; [left; exists []; reflexivity|].
  destruct (le_lt_dec k i) as [L|L].
  - right. intros (p & H). pose proof (idx_ge i p). destruct p; cbn in *; lia.
  - destruct k as [|k]; [lia|].
    assert (EO : {Nat.even k = true} + {Nat.even k = false}) by (destruct (Nat.even k); auto).
    assert (HB : exists b m, S k = child m b /\ m = k / 2).
    { destruct EO as [Ev|Od].
      - apply Nat.even_spec in Ev as [m Hm]. exists false, m. unfold child. split; [lia|]. apply Nat.div_unique with 0; lia.
      - assert (Od' : Nat.odd k = true) by (rewrite <- Nat.negb_even, Od; reflexivity). apply Nat.odd_spec in Od' as [m Hm]. exists true, m. unfold child. split; [lia|].
        apply Nat.div_unique with 1; lia. }
    assert (LT : k / 2 < S k) by (pose proof (Nat.div_le_upper_bound k 2 k ltac:(lia) ltac:(lia)); lia).
    destruct (IH (k / 2) LT) as [U|U].
    + left. destruct HB as (b & m & E1 & ->). destruct U as (p & Hp). exists (p ++ [b]). rewrite idx_app, <- Hp. exact E1.
    + right. intros (p & Hp). destruct HB as (b & m & E1 & ->). destruct (snoc_cases p) as [->|(p' & c & ->)]; [cbn in Hp; lia|].
      rewrite idx_app in Hp. cbn [idx] in Hp. rewrite E1 in Hp. apply child_inj in Hp as [Hp _]. apply U. exists p'. exact Hp.
Qed.

(** ** reading *)
Lemma at_out t i : is_term t -> SIZE <= i -> at_ t i = 0%Z.
Proof. intros H L. unfold at_. apply nth_overflow. rewrite H. exact L. Qed.
Lemma at_lt t i : is_term t -> at_ t i <> 0%Z -> i < SIZE.
Proof. intros H N. destruct (Nat.lt_ge_cases i SIZE); auto. rewrite (at_out t i H) in N by auto. congruence. Qed.
Lemma at_upd t i x k : is_term t -> i < SIZE -> at_ (upd t i x) k = if k =? i then x else at_ t k.
Proof.
  intros H L. unfold at_. rewrite nth_upd, H. destruct (Nat.ltb_spec i SIZE); [|lia]. rewrite andb_true_r. reflexivity.
Qed.
Lemma is_term_upd t i x : is_term t -> is_term (upd t i x).
Proof. unfold is_term. rewrite upd_length. auto. Qed.
Lemma term_ext t t' : is_term t -> is_term t' -> (forall k, k < SIZE -> at_ t k = at_ t' k) -> t = t'.
Proof.
  intros H H' E. apply nth_ext with 0%Z 0%Z; [unfold is_term in *; lia|]. intros k Hk. rewrite H in Hk. apply E. exact Hk.
Qed.
Lemma zero_is_term : is_term zero_term. Proof. reflexivity. Qed.
Lemma at_zero k : at_ zero_term k = 0%Z.
Proof.
  unfold at_, zero_term. destruct (Nat.lt_ge_cases k SIZE) as [H|H].
  - apply nth_repeat.
  - apply nth_overflow. rewrite repeat_length. exact H.
Qed.

(** ** live paths: all slots strictly below j along the path are occupied *)
Fixpoint live (t : term) (j : nat) (p : list bool) : Prop :=
  match p with [] => True | b :: p => at_ t (child j b) <> 0%Z /\ live t (child j b) p end.
Lemma live_app t j p q : live t j (p ++ q) <-> live t j p /\ live t (idx j p) q.
Proof. revert j; induction p as [|b p IH]; intros j; cbn [live app idx]; [tauto|]. rewrite IH. tauto. Qed.
Lemma live_at t j p : p <> [] -> live t j p -> at_ t (idx j p) <> 0%Z.
Proof.
  intros N. destruct (snoc_cases p) as [->|(q & b & ->)]; [congruence|]. rewrite live_app, idx_app. cbn [live idx]. tauto.
Qed.
Lemma live_lt t j p : is_term t -> j < SIZE -> live t j p -> idx j p < SIZE.
Proof. intros H L V. destruct p as [|b p]; [exact L|]. apply (at_lt t); auto. apply live_at; [discriminate|exact V]. Qed.
Lemma live_dec t p : forall j, {live t j p} + {~ live t j p}.
Proof.
  induction p as [|b p IH]; intros j; cbn [live]; [left; exact I|].
  destruct (Z.eq_dec (at_ t (child j b)) 0); [right; tauto|]. destruct (IH (child j b)); [left; tauto|right; tauto].
Qed.

Definition enough (fuel j : nat) : Prop := SIZE < (j + 1) * 2 ^ fuel.
Lemma enough_child fuel j b : enough (S fuel) j -> enough fuel (child j b).
Proof. unfold enough. rewrite Nat.pow_succ_r'. destruct b; unfold child; nia. Qed.
Lemma enough_7 j : enough 7 j.
Proof. unfold enough, SIZE. change (2 ^ 7) with 128. lia. Qed.

Lemma rel_override_spec fuel : forall t i s j, enough fuel j -> is_term t -> is_term s -> j < SIZE ->
  let '(ok, t') := RelativeOverride fuel t i s j in
  is_term t' /\
  (ok = true <-> forall p, live s j p -> idx i p < SIZE) /\
  (forall k, (forall p, live s j p -> k <> idx i p) -> at_ t' k = at_ t k) /\
  (ok = true -> forall p, live s j p -> at_ t' (idx i p) = at_ s (idx j p)).
Proof.
  induction fuel as [|fuel IH]; intros t i s j En Ht Hs Hj; cbn [RelativeOverride].
  - unfold enough in En. cbn in En. lia.
  - destruct (Nat.leb_spec SIZE i) as [Li|Li].
    { split; auto. split; [|split].
      - split; [discriminate|]. intros H. specialize (H [] I). cbn in H. lia.
      - reflexivity.
      - discriminate. }
    destruct (Nat.ltb_spec j SIZE) as [Lj|Lj]; [|lia].
    set (t1 := upd t i (at_ s j)). assert (Ht1 : is_term t1) by (apply is_term_upd; auto).
    assert (A1 : forall k, at_ t1 k = if k =? i then at_ s j else at_ t k) by (intros k; apply at_upd; auto).
    clearbody t1.
    replace ((j + 1) * 2 - 1) with (child j false) by (cbn; lia).
    replace ((i + 1) * 2 - 1) with (child i false) by (cbn; lia).
    replace ((j + 1) * 2 + 1 - 1) with (child j true) by (cbn; lia).
    replace ((i + 1) * 2 + 1 - 1) with (child i true) by (cbn; lia).
    (* one child *)
    assert (STEP : forall b u ok u', is_term u ->
      (if (child j b <? SIZE) && negb (at_ s (child j b) =? 0)%Z
       then RelativeOverride fuel u (child i b) s (child j b) else (true, u)) = (ok, u') ->
      is_term u' /\
      (ok = true <-> forall p, live s j (b :: p) -> idx i (b :: p) < SIZE) /\
      (forall k, (forall p, live s j (b :: p) -> k <> idx i (b :: p)) -> at_ u' k = at_ u k) /\
      (ok = true -> forall p, live s j (b :: p) -> at_ u' (idx i (b :: p)) = at_ s (idx j (b :: p)))).
    { intros b u ok u' Hu. destruct ((child j b <? SIZE) && negb (at_ s (child j b) =? 0)%Z) eqn:C.
      - apply andb_true_iff in C as [C1 C2]. apply Nat.ltb_lt in C1. apply negb_true_iff, Z.eqb_neq in C2.
        pose proof (IH u (child i b) s (child j b) (enough_child _ _ b En) Hu Hs C1) as R.
        intros EQ. rewrite EQ in R. destruct R as (R1 & R2 & R3 & R4).
        split; auto. cbn [live idx]. split; [|split].
        + rewrite R2. split; intros H p; [intros [_ V]|intros V]; apply H; auto.
        + intros k H. apply R3. intros p V. apply H. auto.
        + intros O p [_ V]. apply R4; auto.
      - assert (Z0 : at_ s (child j b) = 0%Z).
        { apply andb_false_iff in C as [C|C]; [apply at_out; auto; apply Nat.ltb_ge; auto|]. apply negb_false_iff, Z.eqb_eq in C. exact C. }
        intros [= <- <-]. split; auto. cbn [live]. repeat split; try tauto; try reflexivity; intros; tauto || congruence. }
    match goal with |- context [if ?c then RelativeOverride fuel t1 ?x ?y ?z else ?w] =>
      destruct (if c then RelativeOverride fuel t1 x y z else w) as [ok2 t2] eqn:E2 end.
    destruct (STEP false t1 ok2 t2 Ht1 E2) as (L1 & L2 & L3 & L4).
    assert (SPL : forall (P : list bool -> Prop), (forall p, live s j p -> P p) <->
       P [] /\ (forall p, live s j (false :: p) -> P (false :: p)) /\ (forall p, live s j (true :: p) -> P (true :: p))).
    { intros P. split.
      - intros H. split; [apply H; exact I|]. split; intros p V; apply H; exact V.
      - intros (P0 & P1 & P2) [|[] p] V; auto. }
    destruct ok2; cbn [negb].
    + match goal with |- context [if ?c then RelativeOverride fuel t2 ?x ?y ?z else ?w] =>
        destruct (if c then RelativeOverride fuel t2 x y z else w) as [ok3 t3] eqn:E3 end.
      destruct (STEP true t2 ok3 t3 L1 E3) as (R1 & R2 & R3 & R4). split; auto. split; [|split].
      * rewrite R2, SPL. pose proof (proj1 L2 eq_refl). cbn [idx] in *. tauto.
      * intros k H. apply SPL in H as (H0 & H1 & H2). rewrite R3 by auto. rewrite L3 by auto. rewrite A1. cbn [idx] in H0.
        destruct (Nat.eqb_spec k i); [congruence|reflexivity].
      * intros O. apply SPL. split; [|split].
        -- cbn [idx]. rewrite R3, L3, A1, Nat.eqb_refl; auto.
           ++ intros p _ X. change i with (idx i []) in X at 1. apply idx_inj in X. discriminate.
           ++ intros p _ X. change i with (idx i []) in X at 1. apply idx_inj in X. discriminate.
        -- intros p V. rewrite R3; [apply L4; auto|]. intros q _ X. apply idx_inj in X. discriminate.
        -- intros p V. apply R4; auto.
    + split; auto. split; [|split].
      * split; [discriminate|]. intros H. apply SPL in H as (_ & H & _). apply L2 in H. discriminate.
      * intros k H. apply SPL in H as (H0 & H1 & H2). rewrite L3 by auto. rewrite A1. cbn [idx] in H0.
        destruct (Nat.eqb_spec k i); [congruence|reflexivity].
      * discriminate.
Qed.

(** ** trees *)
Lemma tree_f_enough fuel : forall fuel' t i, is_term t -> enough fuel i -> enough fuel' i -> tree_f fuel t i = tree_f fuel' t i.
Proof.
  induction fuel as [|fuel IH]; intros [|fuel'] t i Ht E1 E2; cbn [tree_f]; auto.
  - rewrite at_out; auto. unfold enough in E1. cbn in E1. lia.
  - rewrite at_out; auto. unfold enough in E2. cbn in E2. lia.
  - destruct (at_ t i =? 0)%Z; auto. f_equal; apply IH; auto using enough_child.
Qed.
Lemma tree_at_unfold t i : is_term t ->
  tree_at t i = if (at_ t i =? 0)%Z then E else N (at_ t i) (tree_at t (child i false)) (tree_at t (child i true)).
Proof.
  intros H. unfold tree_at at 1. rewrite (tree_f_enough 7 8 t i H (enough_7 i)); [|unfold enough, SIZE; change (2^8) with 256; lia].
  reflexivity.
Qed.
(** two slots with the same atoms along all live paths denote the same tree *)
Lemma tree_same fuel : forall t i s j, at_ t i = at_ s j ->
  (forall p b, live s j p -> at_ t (idx i (p ++ [b])) = at_ s (idx j (p ++ [b]))) -> tree_f fuel t i = tree_f fuel s j.
Proof.
  induction fuel as [|fuel IH]; intros t i s j H0 H; cbn [tree_f]; auto. rewrite H0.
  destruct (at_ s j =? 0)%Z; auto.
  assert (G : forall b, tree_f fuel t (child i b) = tree_f fuel s (child j b)).
  { intros b. destruct (Z.eq_dec (at_ s (child j b)) 0) as [Z0|Z0].
    - pose proof (H [] b I) as X. cbn [app idx] in X. destruct fuel; cbn [tree_f]; auto. rewrite X, Z0. reflexivity.
    - apply IH; [apply (H [] b I)|]. intros p c V. apply (H (b :: p) c). split; auto. }
  f_equal; apply G.
Qed.
Lemma tree_at_same t i s j : at_ t i = at_ s j ->
  (forall p b, live s j p -> at_ t (idx i (p ++ [b])) = at_ s (idx j (p ++ [b]))) -> tree_at t i = tree_at s j.
Proof. apply tree_same. Qed.
(** conversely *)
Lemma tree_live fuel : forall t i s j, enough fuel i -> enough fuel j -> is_term t -> is_term s -> at_ s j <> 0%Z ->
  tree_f fuel t i = tree_f fuel s j ->
  at_ t i = at_ s j /\ forall p, live s j p -> live t i p /\ at_ t (idx i p) = at_ s (idx j p).
Proof.
  induction fuel as [|fuel IH]; intros t i s j E1 E2 Ht Hs N0 H; cbn [tree_f] in H.
  - exfalso. apply N0, at_out; auto. unfold enough in E2. cbn in E2. lia.
  - destruct (Z.eqb_spec (at_ s j) 0) as [?|_]; [congruence|]. destruct (at_ t i =? 0)%Z; [discriminate|].
    injection H as H0 HL HR. split; auto. intros [|b p]; [cbn; auto|]. cbn [live idx]. intros [V1 V2].
    destruct (IH t (child i b) s (child j b)) as (A & B); auto using enough_child.
    + destruct b; auto.
    + destruct (B p V2) as [B1 B2]. split; [split; [congruence|auto]|auto].
Qed.
Lemma closed_live t : closed t -> forall p i, at_ t (idx i p) <> 0%Z -> live t i p /\ at_ t i <> 0%Z.
Proof.
  intros [H C]. induction p as [|b p IH]; intros i; cbn [idx live]; [auto|]. intros N.
  destruct (IH _ N) as [A B]. split; [auto|]. eapply C; eauto.
Qed.
Lemma closed_same_tree t s : closed t -> closed s -> tree_at t 0 = tree_at s 0 -> t = s.
Proof.
  intros Ct Cs H. apply term_ext; [apply Ct|apply Cs|]. intros k Hk. destruct (idx_root k) as (p & ->).
  assert (G : forall t s, closed t -> closed s -> tree_at t 0 = tree_at s 0 -> at_ s (idx 0 p) <> 0%Z -> at_ t (idx 0 p) = at_ s (idx 0 p)).
  { clear. intros t s Ct Cs H N. destruct (closed_live s Cs _ _ N) as [V N0].
    destruct (tree_live 7 t 0 s 0 (enough_7 0) (enough_7 0) (proj1 Ct) (proj1 Cs) N0 H) as [_ B]. apply B. exact V. }
  destruct (Z.eq_dec (at_ s (idx 0 p)) 0) as [Z1|Z1]; [|apply G; auto].
  destruct (Z.eq_dec (at_ t (idx 0 p)) 0) as [Z2|Z2]; [congruence|]. symmetry. apply G; auto.
Qed.

(** ** extraction *)
Lemma extract_spec t j : is_term t -> j < SIZE ->
  let r := Term_ExtractSubterm t j in
  is_term r /\ (forall p, live t j p -> at_ r (idx 0 p) = at_ t (idx j p)) /\
  (forall k, (forall p, live t j p -> k <> idx 0 p) -> at_ r k = 0%Z).
Proof.
  intros Ht Hj r. unfold r, Term_ExtractSubterm.
  pose proof (rel_override_spec 7 zero_term 0 t j (enough_7 j) zero_is_term Ht Hj) as R.
  destruct (RelativeOverride 7 zero_term 0 t j) as [ok t']. destruct R as (R1 & R2 & R3 & R4). cbn [snd].
  assert (O : ok = true).
  { apply R2. intros p V. apply Nat.le_lt_trans with (idx j p); [apply idx_mono; lia|]. apply (live_lt t); auto. }
  split; auto. split; [auto|]. intros k Hk. rewrite R3 by auto. apply at_zero.
Qed.
Lemma live_snoc_zero t j p b : live t j p -> at_ t (idx j (p ++ [b])) = 0%Z -> ~ live t j (p ++ [b]).
Proof. intros V Z0 V2. apply live_at in V2; [congruence|]. destruct p; discriminate. Qed.
Lemma extract_tree t j : is_term t -> j < SIZE -> at_ t j <> 0%Z ->
  closed (Term_ExtractSubterm t j) /\ tree_at (Term_ExtractSubterm t j) 0 = tree_at t j.
Proof.
  intros Ht Hj N0. destruct (extract_spec t j Ht Hj) as (R1 & R2 & R3). set (r := Term_ExtractSubterm t j) in *.
  assert (CH : forall p, ~ live t j p -> at_ r (idx 0 p) = 0%Z).
  { intros p NV. apply R3. intros q V X. apply idx_inj in X. subst q. auto. }
  assert (NZ : forall p, live t j p -> at_ r (idx 0 p) <> 0%Z).
  { intros p V. rewrite R2 by auto. destruct p as [|b p]; [exact N0|]. apply live_at; [discriminate|auto]. }
  split.
  - split; auto. intros i b Hb. destruct (idx_root i) as (p & ->).
    change (child (idx 0 p) b) with (idx (idx 0 p) [b]) in Hb. rewrite <- idx_app in Hb.
    destruct (live_dec t (p ++ [b]) j) as [V|NV]; [|rewrite CH in Hb by auto; congruence].
    apply NZ. apply live_app in V as [V _]. exact V.
  - apply tree_at_same; [apply (R2 [] I)|]. intros p b V. destruct (live_dec t (p ++ [b]) j) as [V2|NV].
    + apply R2; auto.
    + rewrite CH by auto. symmetry. destruct (Z.eq_dec (at_ t (idx j (p ++ [b]))) 0); auto. exfalso. apply NV.
      apply live_app. split; auto. cbn [live]. rewrite idx_app in n. auto.
Qed.
Lemma extract_empty t j : closed t -> at_ t j = 0%Z -> Term_ExtractSubterm t j = zero_term.
Proof.
  intros [Ht C] Z0. destruct (Nat.lt_ge_cases j SIZE) as [Hj|Hj].
  - destruct (extract_spec t j Ht Hj) as (R1 & R2 & R3). apply term_ext; auto using zero_is_term. intros k _. rewrite at_zero.
    destruct (idx_root k) as (p & ->). destruct (live_dec t p j) as [V|NV].
    + rewrite R2 by auto. destruct p as [|b p]; [exact Z0|]. exfalso. cbn [live] in V. destruct V as [V _]. apply C in V. congruence.
    + apply R3. intros q V X. apply idx_inj in X. subst q. auto.
  - unfold Term_ExtractSubterm. cbn [RelativeOverride]. destruct (Nat.leb_spec SIZE 0); [reflexivity|].
    destruct (Nat.ltb_spec j SIZE); [lia|reflexivity].
Qed.

(** ** overriding *)
Lemma fits_live s : is_term s -> forall fuel i j, enough fuel j -> at_ s j <> 0%Z ->
  (fits (tree_f fuel s j) i <-> forall p, live s j p -> idx i p < SIZE).
Proof.
  intros Hs. induction fuel as [|fuel IH]; intros i j En N0; cbn [tree_f].
  - exfalso. apply N0, at_out; auto. unfold enough in En. cbn in En. lia.
  - destruct (Z.eqb_spec (at_ s j) 0) as [?|_]; [congruence|]. cbn [fits].
    assert (G : forall b, fits (tree_f fuel s (child j b)) (child i b) <-> forall p, live s j (b :: p) -> idx i (b :: p) < SIZE).
    { intros b. cbn [live idx]. destruct (Z.eq_dec (at_ s (child j b)) 0) as [Z0|Z0].
      - split; [intros _ p [V _]; congruence|]. intros _. destruct fuel; cbn [tree_f]; [exact I|]. rewrite Z0. exact I.
      - rewrite IH by auto using enough_child. split; intros H p; [intros [_ V]|intros V]; apply H; auto. }
    rewrite !G. split.
    + intros (A & B & C) [|[] p] V; auto.
    + intros H. split; [apply (H [] I)|]. split; intros p V; apply H; auto.
Qed.
Lemma override_spec t i s : is_term t -> closed s -> at_ s 0 <> 0%Z ->
  let '(ok, r) := Term_OverrideSubterm t i s in
  is_term r /\
  (ok = true <-> fits (tree_at s 0) i) /\
  (forall k, ~ under i k -> at_ r k = at_ t k) /\
  (ok = true -> (forall p, p <> [] -> at_ t (idx i p) = 0%Z) -> tree_at r i = tree_at s 0 /\
     (closed t -> at_ t i <> 0%Z -> closed r)).
Proof.
  intros Ht Cs N0. unfold Term_OverrideSubterm.
  pose proof (rel_override_spec 7 t i s 0 (enough_7 0) Ht (proj1 Cs) ltac:(unfold SIZE; lia)) as R.
  destruct (RelativeOverride 7 t i s 0) as [ok r]. destruct R as (R1 & R2 & R3 & R4).
  split; auto. split; [|split].
  - rewrite R2. symmetry. apply fits_live; auto using enough_7. apply Cs.
  - intros k Hk. apply R3. intros p _ ->. apply Hk. exists p. reflexivity.
  - intros O Lf.
    assert (CH : forall p, ~ live s 0 p -> at_ r (idx i p) = 0%Z).
    { intros p NV. rewrite R3; [apply Lf|].
      - intros ->. apply NV. exact I.
      - intros q V X. apply idx_inj in X. subst q. auto. }
    split.
    + apply tree_at_same; [apply (R4 O [] I)|]. intros p b V. destruct (live_dec s (p ++ [b]) 0) as [V2|NV].
      * apply R4; auto.
      * rewrite CH by auto. symmetry. destruct (Z.eq_dec (at_ s (idx 0 (p ++ [b]))) 0); auto. exfalso. apply NV.
        apply live_app. split; auto. cbn [live]. rewrite idx_app in n. auto.
    + intros [_ Ct] Ni. split; auto. intros k b Hb. destruct (under_dec i (child k b)) as [U|U].
      * destruct U as (p & Hp). destruct (snoc_cases p) as [->|(q & c & ->)].
        -- cbn [idx] in Hp. destruct (under_dec i k) as [(q & Hq)|U'].
           ++ exfalso. pose proof (idx_ge i q). pose proof (child_gt k b). lia.
           ++ rewrite R3; [apply (Ct k b); rewrite Hp; exact Ni|]. intros q _ X. apply U'. exists q. exact X.
        -- rewrite idx_app in Hp. cbn [idx] in Hp. apply child_inj in Hp as [-> ->].
           change (child (idx i q) c) with (idx (idx i q) [c]) in Hb. rewrite <- idx_app in Hb.
           destruct (live_dec s (q ++ [c]) 0) as [V|NV]; [|rewrite CH in Hb by auto; congruence].
           apply live_app in V as [V _]. rewrite R4 by auto. destruct q as [|? q]; [exact N0|]. apply live_at; [discriminate|auto].
      * assert (U' : ~ under i k). { intros (q & ->). apply U. exists (q ++ [b]). rewrite idx_app. reflexivity. }
        rewrite R3 in Hb by (intros q _ X; apply U; exists q; exact X).
        rewrite R3 by (intros q _ X; apply U'; exists q; exact X). eapply Ct; eauto.
Qed.

(** ** complexity and occurrence *)
Fixpoint cnt (f : nat -> nat) (fuel i : nat) : nat :=
  match fuel with O => 0 | S fuel => f i + cnt f fuel (child i false) + cnt f fuel (child i true) end.
Fixpoint enum (fuel i : nat) : list nat :=
  match fuel with O => [] | S fuel => i :: enum fuel (child i false) ++ enum fuel (child i true) end.
Lemma list_sum_perm l l' : Permutation l l' -> list_sum l = list_sum l'.
Proof. intros H; induction H; cbn in *; unfold list_sum in *; lia. Qed.
Lemma cnt_enum f fuel : forall i, cnt f fuel i = list_sum (map f (enum fuel i)).
Proof.
  induction fuel as [|fuel IH]; intros i; cbn [cnt enum map]; auto. rewrite map_app.
  rewrite !IH.
  change (list_sum (f i :: map f (enum fuel (child i false)) ++ map f (enum fuel (child i true)))) with
    (f i + list_sum (map f (enum fuel (child i false)) ++ map f (enum fuel (child i true)))).
  rewrite list_sum_app. lia.
Qed.
Lemma sum_filter f l : (forall k, 64 <= k -> f k = 0) ->
  list_sum (map f l) = list_sum (map f (filter (fun k => k <? 64) l)).
Proof.
  intros H; induction l as [|k l IH]; auto. cbn [map filter]. destruct (Nat.ltb_spec k 64); cbn [map];
  unfold list_sum in *; cbn [fold_right]; [|rewrite H by lia]; lia.
Qed.
Lemma enum_perm : Permutation (seq 0 64) (filter (fun k => k <? 64) (enum 7 0)).
Proof.
  apply NoDup_Permutation_bis; [apply seq_NoDup|vm_compute; lia|].
  assert (H : forallb (fun x => existsb (Nat.eqb x) (filter (fun k => k <? 64) (enum 7 0))) (seq 0 64) = true) by (vm_compute; reflexivity).
  rewrite forallb_forall in H. intros x Hx. apply H, existsb_exists in Hx as (y & Hy & E). apply Nat.eqb_eq in E. subst y. exact Hy.
Qed.
Lemma cnt_seq f : (forall k, 64 <= k -> f k = 0) -> cnt f 7 0 = list_sum (map f (seq 0 64)).
Proof.
  intros H. rewrite cnt_enum, (sum_filter f _ H). apply list_sum_perm, Permutation_map. symmetry. apply enum_perm.
Qed.
Lemma cnt_zero t : closed t -> forall fuel i, at_ t i = 0%Z -> cnt (fun k => if (at_ t k =? 0)%Z then 0 else 1) fuel i = 0.
Proof.
  intros [H C]. induction fuel as [|fuel IH]; intros i Z0; cbn [cnt]; auto. rewrite Z0. cbn [Z.eqb].
  assert (X : forall b, at_ t (child i b) = 0%Z) by (intros b; destruct (Z.eq_dec (at_ t (child i b)) 0); auto; apply C in n; congruence).
  rewrite !IH; auto.
Qed.
Lemma size_cnt t : closed t -> forall fuel i, size (tree_f fuel t i) = cnt (fun k => if (at_ t k =? 0)%Z then 0 else 1) fuel i.
Proof.
  intros C. induction fuel as [|fuel IH]; intros i; cbn [cnt tree_f]; auto. destruct (Z.eqb_spec (at_ t i) 0) as [Z0|Z0].
  - cbn [size]. destruct C as [H C].
    assert (X : forall b, at_ t (child i b) = 0%Z) by (intros b; destruct (Z.eq_dec (at_ t (child i b)) 0); auto; apply C in n; congruence).
    rewrite !cnt_zero; auto; split; auto.
  - cbn [size]. rewrite !IH. lia.
Qed.
Lemma fold_sum (g : nat -> bool) l : forall s, fold_left (fun s i => if g i then s else s + 1) l s = s + list_sum (map (fun i => if g i then 0 else 1) l).
Proof. induction l as [|x l IH]; intros s; cbn [fold_left map list_sum fold_right]; [lia|]. rewrite IH. unfold list_sum. destruct (g x); lia. Qed.
Lemma complexity_spec t : closed t -> Term_Complexity t = size (tree_at t 0).
Proof.
  intros C. unfold Term_Complexity, tree_at. rewrite size_cnt by auto. rewrite fold_sum.
  rewrite cnt_seq; [reflexivity|]. intros k Hk. rewrite at_out; auto. apply C.
Qed.
Lemma complexity_pos t : closed t -> at_ t 0 <> 0%Z -> 1 <= Term_Complexity t.
Proof.
  intros C N0. rewrite complexity_spec by auto. rewrite tree_at_unfold by apply C. destruct (Z.eqb_spec (at_ t 0) 0); [congruence|]. cbn [size]. lia.
Qed.
Lemma complexity_bound t : Term_Complexity t <= 64.
Proof.
  unfold Term_Complexity. rewrite fold_sum.
  assert (G : forall (g : nat -> bool) l, list_sum (map (fun i => if g i then 0 else 1) l) <= length l).
  { intros g; induction l as [|x l IH]; cbn [map list_sum fold_right length]; [lia|]. unfold list_sum in IH. destruct (g x); lia. }
  specialize (G (fun i => (at_ t i =? 0)%Z) (seq 0 SIZE)). rewrite seq_length in G. exact G.
Qed.
Lemma occurs_live t a fuel : is_term t -> forall i, enough fuel i -> at_ t i <> 0%Z ->
  (occurs a (tree_f fuel t i) <-> exists p, live t i p /\ at_ t (idx i p) = a).
Proof.
  intros Ht. induction fuel as [|fuel IH]; intros i En N0; cbn [tree_f].
  - exfalso. apply N0, at_out; auto. unfold enough in En. cbn in En. lia.
  - destruct (Z.eqb_spec (at_ t i) 0) as [?|_]; [congruence|]. cbn [occurs].
    assert (G : forall b, occurs a (tree_f fuel t (child i b)) <-> exists p, live t i (b :: p) /\ at_ t (idx i (b :: p)) = a).
    { intros b. cbn [live idx]. destruct (Z.eq_dec (at_ t (child i b)) 0) as [Z0|Z0].
      - split; [|intros (p & [[V _] _]); congruence]. destruct fuel; cbn [tree_f]; [contradiction|]. rewrite Z0. contradiction.
      - rewrite IH by auto using enough_child. split; intros (p & V); exists p; tauto. }
    rewrite !G. split.
    + intros [->|[(p & V)|(p & V)]]; [exists []; cbn; auto|eauto|eauto].
    + intros ([|[] p] & V); [left; cbn in V; symmetry; tauto|right; right; eauto|right; left; eauto].
Qed.
Lemma hasatom_spec t a : closed t -> a <> 0%Z -> (Term_HasAtom t a = true <-> occurs a (tree_at t 0)).
Proof.
  intros C Na. unfold Term_HasAtom. rewrite existsb_exists. split.
  - intros (k & Hk & E). apply Z.eqb_eq in E. destruct (idx_root k) as (p & ->). destruct (closed_live t C p 0 ltac:(congruence)) as [V N0].
    apply (occurs_live t a 7 (proj1 C) 0 (enough_7 0) N0). eauto.
  - intros O. destruct (Z.eq_dec (at_ t 0) 0) as [Z0|N0].
    + unfold tree_at in O. cbn [tree_f] in O. rewrite Z0 in O. contradiction.
    + apply (occurs_live t a 7 (proj1 C) 0 (enough_7 0) N0) in O as (p & V & Ea). exists (idx 0 p). split; [|apply Z.eqb_eq; auto].
      apply in_seq. pose proof (at_lt t (idx 0 p) (proj1 C) ltac:(congruence)). lia.
Qed.

(** ** equality *)
Lemma list_eqb_spec l : forall l', list_eqb l l' = true <-> l = l'.
Proof.
  induction l as [|x l IH]; intros [|y l']; cbn [list_eqb]; split; intros H; try discriminate; auto.
  - apply andb_true_iff in H as [A B]. apply Z.eqb_eq in A. apply IH in B. congruence.
  - injection H as -> ->. rewrite Z.eqb_refl. apply IH. reflexivity.
Qed.
Lemma term_hash_ok t : cache_ok t ->
  let (h, t') := Term_Hash t in h = atoms_hash (c_atoms t) /\ c_atoms t' = c_atoms t /\ c_hashed t' = true /\
    c_hash t' = h /\ c_pad t' = c_pad t /\ cache_ok t'.
Proof.
  intros C. unfold Term_Hash. destruct (c_hashed t) eqn:E.
  - rewrite (C E). repeat split; auto.
  - cbn. repeat split; auto.
Qed.
Lemma term_equal_ok a b : cache_ok a -> cache_ok b -> c_pad a = c_pad b ->
  let '(r, (a', b')) := Term_Equal a b in
  (r = true <-> c_atoms a = c_atoms b) /\ c_atoms a' = c_atoms a /\ c_atoms b' = c_atoms b /\ cache_ok a' /\ cache_ok b'.
Proof.
  intros Ca Cb P. unfold Term_Equal. pose proof (term_hash_ok a Ca) as A. pose proof (term_hash_ok b Cb) as B.
  destruct (Term_Hash a) as [ha a'], (Term_Hash b) as [hb b'].
  destruct A as (A1 & A2 & A3 & A4 & A5 & A6), B as (B1 & B2 & B3 & B4 & B5 & B6).
  repeat split; auto.
  - destruct (Z.eqb_spec ha hb); [|discriminate]. rewrite !andb_true_iff. intros [_ H]. apply list_eqb_spec in H. congruence.
  - intros H. destruct (Z.eqb_spec ha hb) as [Eh|Nh]; [|congruence].
    rewrite A3, B3, A4, B4, A5, B5, A2, B2, P, Eh, H, Z.eqb_refl. cbn [Bool.eqb andb].
    rewrite (proj2 (list_eqb_spec _ _) eq_refl). cbn [andb]. apply list_eqb_spec. reflexivity.
Qed.
Lemma term_eqb_spec a b : term_eqb a b = true <-> a = b. Proof. apply list_eqb_spec. Qed.

(** decidable closedness, for examples *)
Lemma closedb_ok t : closedb t = true -> closed t.
Proof.
  unfold closedb. rewrite andb_true_iff, Nat.eqb_eq, forallb_forall. intros [L H]. split; [exact L|].
  intros i b N0. pose proof (at_lt t _ L N0) as Hi. pose proof (child_gt i b).
  specialize (H i ltac:(apply in_seq; lia)). apply orb_true_iff in H as [H|H]; [apply negb_true_iff, Z.eqb_neq in H; exact H|].
  apply andb_true_iff in H as [H1 H2]. apply Z.eqb_eq in H1, H2. destruct b; congruence.
Qed.
Lemma extract_correct t j : closed t ->
  closed (Term_ExtractSubterm t j) /\ tree_at (Term_ExtractSubterm t j) 0 = tree_at t j /\
  (forall s, closed s -> tree_at s 0 = tree_at t j -> s = Term_ExtractSubterm t j).
Proof.
  intros C.
  assert (G : closed (Term_ExtractSubterm t j) /\ tree_at (Term_ExtractSubterm t j) 0 = tree_at t j).
  { destruct (Z.eq_dec (at_ t j) 0) as [Z0|N0].
    - rewrite extract_empty by auto. split; [apply closedb_ok; vm_compute; reflexivity|].
      rewrite (tree_at_unfold t j) by apply C. rewrite Z0. reflexivity.
    - apply extract_tree; auto; [apply C|]. apply (at_lt t); auto. apply C. }
  destruct G as [G1 G2]. split; auto. split; auto. intros s Cs Hs. apply closed_same_tree; auto. congruence.
Qed.
Lemma override_correct t i s : closed t -> closed s -> at_ s 0 <> 0%Z -> at_ t i <> 0%Z ->
  let '(ok, r) := Term_OverrideSubterm t i s in
  (ok = true <-> fits (tree_at s 0) i) /\
  (forall k, ~ under i k -> at_ r k = at_ t k) /\
  (ok = true -> tree_at t i = N (at_ t i) E E -> closed r /\ tree_at r i = tree_at s 0).
Proof.
  intros Ct Cs N0 Ni. pose proof (override_spec t i s (proj1 Ct) Cs N0) as R.
  destruct (Term_OverrideSubterm t i s) as [ok r]. destruct R as (R1 & R2 & R3 & R4). split; auto. split; auto.
  intros O Lf. assert (L : forall p, p <> [] -> at_ t (idx i p) = 0%Z).
  { intros p Np. destruct (Z.eq_dec (at_ t (idx i p)) 0) as [|NZ]; auto. exfalso. destruct (closed_live t Ct p i NZ) as [V _].
    destruct p as [|b p]; [congruence|]. cbn [live] in V. destruct V as [V _].
    rewrite tree_at_unfold in Lf by apply Ct. destruct (Z.eqb_spec (at_ t i) 0); [congruence|]. assert (HL : tree_at t (child i false) = E) by congruence. assert (HR : tree_at t (child i true) = E) by congruence.
    destruct b.
    - rewrite tree_at_unfold in HR by apply Ct. destruct (Z.eqb_spec (at_ t (child i true)) 0); [congruence|discriminate].
    - rewrite tree_at_unfold in HL by apply Ct. destruct (Z.eqb_spec (at_ t (child i false)) 0); [congruence|discriminate]. }
  destruct (R4 O L) as [A B]. split; auto.
Qed.
