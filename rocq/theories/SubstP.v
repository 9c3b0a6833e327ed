(** Variable_ApplySubstitute on an arbitrary term: the result is the substituted term, or the
    failure to fit is reported. *)
From Coq Require Import ZArith List Bool Lia.
From Verif Require Import Base F64 TruthM TermM TermS TermP TermP2 NamesM EventM VariableM VariableS VariableP VariableP2.
Local Open Scope Z_scope.

(** *** every atom of an overwritten or extracted term comes from one of the two terms *)
Lemma at_Forall (P : Z -> Prop) t i : P 0 -> Forall P t -> P (at_ t i).
Proof.
  intros P0 F. unfold at_. destruct (Nat.ltb_spec i (length t)) as [L|L].
  - rewrite Forall_forall in F. apply F. apply nth_In. exact L.
  - rewrite nth_overflow by lia. exact P0.
Qed.
Lemma upd_Forall {A} (P : A -> Prop) (l : list A) : forall i x, Forall P l -> P x -> Forall P (upd l i x).
Proof. induction l as [|y l IH]; intros [|i] x F X; cbn; auto; inversion F; subst; constructor; auto. Qed.
Lemma rel_override_Forall (P : Z -> Prop) fuel : forall t i s j, P 0 -> Forall P t -> Forall P s -> Forall P (snd (RelativeOverride fuel t i s j)).
Proof.
  induction fuel as [|fuel IH]; intros t i s j P0 Ft Fs; cbn [RelativeOverride].
  - destruct (SIZE <=? i)%nat; [exact Ft|]. destruct (j <? SIZE)%nat; [|exact Ft]. cbn [snd]. apply upd_Forall; auto. apply at_Forall; auto.
  - destruct (SIZE <=? i)%nat; [exact Ft|]. destruct (j <? SIZE)%nat; [|exact Ft].
    assert (F1 : Forall P (upd t i (at_ s j))) by (apply upd_Forall; auto; apply at_Forall; auto).
    set (t1 := upd t i (at_ s j)) in *. clearbody t1.
    destruct ((_ <? SIZE)%nat && negb (at_ s ((j + 1) * 2 - 1) =? 0)).
    + pose proof (IH t1 ((i + 1) * 2 - 1)%nat s ((j + 1) * 2 - 1)%nat P0 F1 Fs) as F2.
      destruct (RelativeOverride fuel t1 _ s _) as [ok t2]. cbn [snd] in F2. destruct (negb ok); [exact F2|].
      destruct (_ && _); [apply IH; auto|exact F2].
    + cbn [negb]. destruct (_ && _); [apply IH; auto|exact F1].
Qed.
Lemma zero_Forall (P : Z -> Prop) : P 0 -> Forall P zero_term.
Proof. intros P0. apply Forall_forall. intros x Hx. apply repeat_spec in Hx. subst x. exact P0. Qed.
Lemma extract_Forall (P : Z -> Prop) t j : P 0 -> Forall P t -> Forall P (Term_ExtractSubterm t j).
Proof. intros P0 F. apply rel_override_Forall; auto. apply zero_Forall. exact P0. Qed.
Lemma override_Forall (P : Z -> Prop) t i s : P 0 -> Forall P t -> Forall P s -> Forall P (snd (Term_OverrideSubterm t i s)).
Proof. intros. apply rel_override_Forall; auto. Qed.

Section Subst.
Variable nm : names.
Variable s : substitution.
Notation V a := (isVariable nm a).
Notation bnd v := (lookup_map (s_map s) v).
Notation image := (VariableS.image s).
Notation ins tr := (inst (fun a => V a) image tr).
Hypothesis BC : forall v, closed (bnd v).
Hypothesis BL : forall v, var_leaves (fun a => V a) (bnd v).
Hypothesis NC : forall v w, In w (bnd v) -> V w = true -> binding s w = E \/ binding s w = N w E E.

Lemma V0 : V 0 = false. Proof. reflexivity. Qed.
Lemma In_at (t : term) i : at_ t i <> 0 -> In (at_ t i) t.
Proof. intros H. unfold at_ in *. destruct (Nat.ltb_spec i (length t)) as [L|L]; [apply nth_In; exact L|]. rewrite nth_overflow in H by lia. congruence. Qed.
Lemma fixed_leaf w : binding s w = E \/ binding s w = N w E E -> image w = N w E E.
Proof. unfold VariableS.image. intros [-> | ->]; reflexivity. Qed.
(** an array whose variables are leaves and unbound (or bound to themselves) is its own image *)
Lemma inst_done t : closed t -> var_leaves (fun a => V a) t -> forall fuel i, enough fuel i ->
  (forall k, under i k -> V (at_ t k) = true -> image (at_ t k) = N (at_ t k) E E) ->
  ins (tree_f fuel t i) = tree_f fuel t i.
Proof.
  intros C L. induction fuel as [|fuel IH]; intros i En D; cbn [tree_f inst]; auto.
  destruct (Z.eqb_spec (at_ t i) 0) as [Z0|NZ]; cbn [inst]; auto.
  destruct (V (at_ t i)) eqn:A.
  - rewrite D by (auto; exists []; reflexivity). 
    assert (G : forall b, tree_f fuel t (child i b) = E).
    { intros b. destruct fuel; cbn [tree_f]; auto. rewrite (L i b A). reflexivity. }
    rewrite !G. reflexivity.
  - f_equal; apply IH; auto using enough_child; intros k (p & ->); apply D; [exists (false :: p)|exists (true :: p)]; reflexivity.
Qed.
Lemma inst_binding v : ins (binding s v) = binding s v.
Proof.
  unfold binding, tree_at. apply inst_done; auto using enough_7. intros k _ A. apply fixed_leaf. apply (NC v); auto.
  apply In_at. intros X. rewrite X, V0 in A. discriminate.
Qed.
(** changing a subtree to one with the same image *)
Lemma inst_change r g n : is_term r -> is_term g -> (forall k, ~ under n k -> at_ r k = at_ g k) -> ins (tree_at r n) = ins (tree_at g n) ->
  forall fuel k, enough fuel k -> (~ under n k \/ k = n) -> ins (tree_f fuel r k) = ins (tree_f fuel g k).
Proof.
  intros Tr Tg K X. induction fuel as [|fuel IH]; intros k En H; auto.
  destruct (Nat.eq_dec k n) as [->|Hn].
  - rewrite (tree_f_enough (S fuel) 7 r), (tree_f_enough (S fuel) 7 g); auto using enough_7.
  - destruct H as [H|H]; [|congruence]. cbn [tree_f]. rewrite (K k H). destruct (at_ g k =? 0); auto. cbn [inst]. destruct (V (at_ g k)); auto.
    assert (G : forall b, ~ under n (child k b) \/ child k b = n).
    { intros b. destruct (under_dec n (child k b)) as [(q & U)|U]; auto. destruct (snoc_cases q) as [->|(q' & c & ->)]; [right; exact U|].
      exfalso. apply H. rewrite idx_app in U. cbn [idx] in U. apply child_inj in U as [U _]. exists q'. exact U. }
    f_equal; apply IH; auto using enough_child.
Qed.
(** the image of a subtree is placed where the subtree is, if no variable is above it *)
Lemma fits_sub g : is_term g -> var_leaves (fun a => V a) g -> closed g -> forall p i, at_ g (idx i p) <> 0 -> fits (ins (tree_at g i)) i -> fits (ins (tree_at g (idx i p))) (idx i p).
Proof.
  intros T L C. induction p as [|b p IH]; intros i NZ F; cbn [idx] in *; auto.
  destruct (closed_live g C p _ NZ) as [_ N1]. pose proof (proj2 C i b N1) as N0.
  rewrite tree_at_unfold in F by auto. destruct (Z.eqb_spec (at_ g i) 0); [congruence|]. cbn [inst] in F.
  destruct (V (at_ g i)) eqn:A; [exfalso; apply N1; apply L; exact A|]. cbn [fits] in F.
  apply IH; auto. destruct b; tauto.
Qed.
Definition done (n : nat) (g : term) : Prop := forall k, (k < n)%nat -> V (at_ g k) = true -> image (at_ g k) = N (at_ g k) E E.
Definition sinv (tgt : tree) (n : nat) (g : term) : Prop :=
  closed g /\ var_leaves (fun a => V a) g /\ ins (tree_at g 0) = tgt /\ done n g.
Definition A27 (a : Z) : Prop := V a = true -> a <= 27.
Hypothesis B27 : forall v, Forall A27 (bnd v).
Lemma A27_0 : A27 0. Proof. unfold A27. lia. Qed.
Lemma binding_E v : at_ (bnd v) 0 = 0 -> binding s v = E.
Proof. intros H. unfold binding. rewrite tree_at_unfold by apply BC. rewrite H. reflexivity. Qed.
Lemma image_binding v : at_ (bnd v) 0 <> 0 -> image v = binding s v.
Proof.
  intros H. unfold VariableS.image. destruct (binding s v) eqn:B; auto. exfalso. unfold binding in B. rewrite tree_at_unfold in B by apply BC.
  destruct (Z.eqb_spec (at_ (bnd v) 0) 0); [congruence|discriminate].
Qed.
(** after a failure *)
Lemma loop_false : forall d n g, Forall A27 g -> exists r, apply_loop nm (s_map s) (seq n d) g false = Ok (r, false).
Proof.
  induction d as [|d IH]; intros n g F; cbn [seq apply_loop]; [eauto|].
  pose proof (at_Forall A27 g n A27_0 F) as A. unfold A27 in A.
  replace (negb (V (at_ g n)) || (at_ g n <=? 27)) with true.
  2: { symmetry. destruct (V (at_ g n)); auto. cbn. apply Z.leb_le. auto. }
  cbn [rassert rbind]. destruct (_ && _); [|apply IH; auto].
  pose proof (override_Forall A27 g n (bnd (at_ g n)) A27_0 F (B27 _)) as F2.
  destruct (Term_OverrideSubterm g n (bnd (at_ g n))) as [o r]. cbn [andb]. apply IH. exact F2.
Qed.
Lemma loop_ok tgt : forall d n g, (n + d = SIZE)%nat -> Forall A27 g -> sinv tgt n g ->
  exists r ok, apply_loop nm (s_map s) (seq n d) g true = Ok (r, ok) /\ (ok = true -> closed r /\ tree_at r 0 = tgt) /\ (fits tgt 0 -> ok = true).
Proof.
  induction d as [|d IH]; intros n g Hn F (C & L & T & D); cbn [seq apply_loop].
  - exists g, true. split; auto. split; auto. intros _. split; auto. rewrite <- T. symmetry. unfold tree_at. apply inst_done; auto using enough_7.
    intros k _ A. apply D; auto. assert (at_ g k <> 0) by (intros X; rewrite X, V0 in A; discriminate).
    pose proof (at_lt _ _ (proj1 C) H). lia.
  - assert (NI : (n < SIZE)%nat) by lia.
    pose proof (at_Forall A27 g n A27_0 F) as A. unfold A27 in A.
    replace (negb (V (at_ g n)) || (at_ g n <=? 27)) with true.
    2: { symmetry. destruct (V (at_ g n)); auto. cbn. apply Z.leb_le. auto. }
    cbn [rassert rbind]. clear A. destruct (V (at_ g n)) eqn:A; cbn [andb].
    2: { apply IH; auto; [lia|]. split; auto. split; auto. split; auto. intros k Hk Ak.
         destruct (Nat.eq_dec k n) as [->|]; [congruence|]. apply D; auto. lia. }
    destruct (Z.eqb_spec (at_ (bnd (at_ g n)) 0) 0) as [Z0|NZ]; cbn [negb].
    { apply IH; auto; [lia|]. split; auto. split; auto. split; auto. intros k Hk Ak.
      destruct (Nat.eq_dec k n) as [->|]; [|apply D; auto; lia]. apply fixed_leaf. left. apply binding_E. exact Z0. }
    assert (GN : at_ g n <> 0) by (intros X; rewrite X, V0 in A; discriminate).
    assert (TN : tree_at g n = N (at_ g n) E E).
    { rewrite tree_at_unfold by apply C. destruct (Z.eqb_spec (at_ g n) 0); [congruence|].
      f_equal; rewrite tree_at_unfold by apply C; rewrite (L n _ A); reflexivity. }
    assert (IN : ins (tree_at g n) = binding s (at_ g n)).
    { rewrite TN. cbn [inst]. rewrite A. apply image_binding. exact NZ. }
    pose proof (override_Forall A27 g n (bnd (at_ g n)) A27_0 F (B27 _)) as F2.
    pose proof (override_correct g n (bnd (at_ g n)) C (BC _) NZ GN) as R.
    pose proof (override_positions g n (bnd (at_ g n)) (proj1 C) (BC _) NZ NI
      (fun p Np => leaf_below (fun a => V a) g n p C L A Np)) as R'.
    destruct (Term_OverrideSubterm g n (bnd (at_ g n))) as [o r]. destruct R as (R1 & R2 & R3). destruct R' as (R4 & _ & _ & R5).
    cbn [snd] in F2. destruct o; cbn [andb].
    + destruct (R3 eq_refl TN) as [CR TR]. specialize (R5 eq_refl). apply IH; auto; [lia|]. split; auto. split; [|split].
      * intros k b Vk. destruct (under_dec n k) as [(p & ->)|U].
        -- rewrite R5 in Vk. change (child (idx n p) b) with (idx (idx n p) [b]). rewrite <- idx_app, R5, idx_app. cbn [idx]. apply (BL _ _ b Vk).
        -- rewrite R2 in Vk by exact U. destruct (under_dec n (child k b)) as [(q & Q)|U2].
           ++ destruct (snoc_cases q) as [->|(q' & c & ->)].
              ** exfalso. cbn [idx] in Q. apply GN. rewrite <- Q. apply L. exact Vk.
              ** exfalso. apply U. rewrite idx_app in Q. cbn [idx] in Q. apply child_inj in Q as [Q _]. exists q'. exact Q.
           ++ rewrite R2 by exact U2. apply L. exact Vk.
      * rewrite <- T. unfold tree_at. apply (inst_change r g n); auto using enough_7; [apply C| |].
        -- rewrite TR, IN. apply inst_binding.
        -- destruct (Nat.eq_dec 0 n); auto. left. apply under_0. lia.
      * intros k Hk Vk. destruct (under_dec n k) as [(p & ->)|U].
        -- rewrite R5 in *. apply fixed_leaf. apply (NC (at_ g n)); auto. apply In_at. intros X. rewrite X, V0 in Vk. discriminate.
        -- rewrite R2 in * by exact U. destruct (Nat.eq_dec k n) as [->|]; [exfalso; apply U; exists []; reflexivity|]. apply D; auto. lia.
    + destruct (loop_false d (S n) r F2) as (r' & E'). exists r', false. split; auto. split; [discriminate|].
      intros FT. exfalso. assert (X : fits (binding s (at_ g n)) n).
      { rewrite <- IN. destruct (idx_root n) as (p & E0). rewrite E0. apply fits_sub; auto; [apply C|rewrite <- E0; exact GN|].
        rewrite T. exact FT. }
      apply R1 in X. discriminate.
Qed.
Lemma apply_exact general : s_success s = true -> closed general -> var_leaves (fun a => V a) general -> numbered nm general ->
  exists r ok, ApplySubstitute nm general s = Ok (r, ok) /\ (ok = true <-> fits (ins (tree_at general 0)) 0) /\
    (ok = true -> closed r /\ tree_at r 0 = ins (tree_at general 0)).
Proof.
  intros S C L NB. unfold ApplySubstitute. rewrite S. cbn [rassert rbind].
  destruct (loop_ok (ins (tree_at general 0)) SIZE 0 general) as (r & ok & E0 & G1 & G2); auto.
  - apply Forall_forall. intros a I A. apply NB; auto.
  - split; auto. split; auto. split; auto. intros k Hk. lia.
  - exists r, ok. split; [exact E0|]. split; [|exact G1]. split; [|exact G2]. intros O. destruct (G1 O) as [CR TR]. rewrite <- TR.
    destruct (Z.eq_dec (at_ r 0) 0) as [Z0|NZ]; [rewrite tree_at_unfold by apply CR; rewrite Z0; exact I|]. apply fits_in_place; auto.
Qed.
End Subst.
