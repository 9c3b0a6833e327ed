From Coq Require Import ZArith List Bool.
From Verif Require Import Base F64 TruthM TermM TermS TermP TermP2 NamesM EventM VariableM VariableS VariableP.
Local Open Scope Z_scope.

Lemma override_atomic t i a : is_term t -> (i < SIZE)%nat -> Term_OverrideSubterm t i (atomic_term a) = (true, upd t i a).
Proof.
  intros T I. unfold Term_OverrideSubterm. cbn [RelativeOverride].
  destruct (Nat.leb_spec SIZE i); [lia|]. change (0 <? SIZE)%nat with true. cbv iota.
  change (at_ (atomic_term a) 0) with a. 
  change (at_ (atomic_term a) ((0 + 1) * 2 - 1)) with 0. change (at_ (atomic_term a) ((0 + 1) * 2 + 1 - 1)) with 0.
  rewrite !andb_false_r. reflexivity.
Qed.
Lemma atomic_closed a : closed (atomic_term a).
Proof.
  split; [apply is_term_upd, zero_is_term|]. intros i b H. exfalso. apply H. unfold atomic_term. apply at_root_upd. pose proof (child_gt i b). lia.
Qed.
Lemma tree_atomic a : a <> 0 -> tree_at (atomic_term a) 0 = N a E E.
Proof.
  intros H. rewrite tree_at_unfold by apply atomic_closed. change (at_ (atomic_term a) 0) with a.
  destruct (Z.eqb_spec a 0); [congruence|]. rewrite !tree_E; auto; try apply atomic_closed; apply at_root_upd; cbn; lia.
Qed.
Lemma extract_at t j p : closed t -> (j < SIZE)%nat -> at_ (Term_ExtractSubterm t j) (idx 0 p) = at_ t (idx j p).
Proof.
  intros C J. destruct (extract_spec t j (proj1 C) J) as (R1 & R2 & R3).
  destruct (live_dec t p j) as [V|NV]; [auto|].
  rewrite R3 by (intros q V X; apply idx_inj in X; subst q; auto).
  destruct (Z.eq_dec (at_ t (idx j p)) 0) as [->|NZ]; auto. exfalso. apply NV. apply (closed_live t C p j NZ).
Qed.
Lemma fits_in_place t i : closed t -> at_ t i <> 0 -> fits (tree_at t i) i.
Proof.
  intros C H. apply fits_live; auto using enough_7; [apply C|]. intros p V. apply (live_lt t); auto; [apply C|]. apply (at_lt t); auto. apply C.
Qed.
Lemma leaf_below isvar t i p : closed t -> var_leaves isvar t -> isvar (at_ t i) = true -> p <> [] -> at_ t (idx i p) = 0.
Proof.
  intros C V A Np. destruct (Z.eq_dec (at_ t (idx i p)) 0) as [|NZ]; auto. exfalso.
  destruct (closed_live t C p i NZ) as [L _]. destruct p as [|b p]; [congruence|]. cbn [live] in L. destruct L as [L _]. apply L. apply V. exact A.
Qed.
#[local] Opaque Term_ExtractSubterm Term_OverrideSubterm.

Section Apply.
Variable nm : names.
Variable qonly : bool.
Notation al a := (if qonly then isQueryVariable nm a else isVariable nm a).
Variables general specific : term.
Variable s : substitution.
Notation sub i := (Term_ExtractSubterm specific i).
Hypothesis Cg : closed general.
Hypothesis Cs : closed specific.
Hypothesis VL : var_leaves (fun a => al a) general.
(** matching positions *)
Hypothesis POSV : forall i, al (at_ general i) = true -> at_ specific i <> 0 /\ lookup_map (s_map s) (at_ general i) = sub i.
Hypothesis POSA : forall i, (forall j, al (at_ general j) = true -> ~ under j i) -> at_ general i = at_ specific i.
Hypothesis G27 : forall i, isVariable nm (at_ general i) = true -> at_ general i <= 27.
Hypothesis S27 : forall i, isVariable nm (at_ specific i) = true -> at_ specific i <= 27.
Hypothesis BOUND : forall v, 0 < v -> at_ (lookup_map (s_map s) v) 0 <> 0 -> al v = true.
Hypothesis NC : forall j k, al (at_ general j) = true -> under j k -> j <> k -> isVariable nm (at_ specific k) = true ->
  at_ (lookup_map (s_map s) (at_ specific k)) 0 <> 0 -> lookup_map (s_map s) (at_ specific k) = atomic_term (at_ specific k).

Definition covered (n k : nat) : Prop := exists j, (j < n)%nat /\ al (at_ general j) = true /\ under j k.
Lemma covered_dec n k : {covered n k} + {~ covered n k}.
Proof.
  induction n as [|n IH]; [right; intros (j & H & _); lia|].
  destruct IH as [C|C]; [left; destruct C as (j & A & B); exists j; split; [lia|auto]|].
  destruct (al (at_ general n)) eqn:A; [|right; intros (j & H1 & H2 & H3); apply C; exists j; split; [|auto]].
  - destruct (under_dec n k) as [U|U]; [left; exists n; split; [lia|auto]|right]. intros (j & H1 & H2 & H3).
    destruct (Nat.eq_dec j n) as [->|]; [auto|]. apply C. exists j. split; [lia|auto].
  - destruct (Nat.eq_dec j n) as [->|]; [|lia]. exfalso. rewrite A in H2. discriminate H2.
Qed.
Definition ginv (n : nat) (g : term) : Prop :=
  is_term g /\ forall k, (covered n k -> at_ g k = at_ specific k) /\ (~ covered n k -> at_ g k = at_ general k).
Lemma under_refl i : under i i. Proof. exists []. reflexivity. Qed.
Lemma apply_loop_ok d : forall n g, (n + d = SIZE)%nat -> ginv n g ->
  apply_loop nm (s_map s) (seq n d) g true = Ok (specific, true).
Proof.
  induction d as [|d IH]; intros n g Hn (T & K); cbn [seq apply_loop].
  - f_equal. f_equal. apply term_ext; auto; [apply Cs|]. intros k Hk. destruct (covered_dec n k) as [C|C].
    + apply K. exact C.
    + rewrite (proj2 (K k) C). apply POSA. intros j A U. apply C. exists j. split; auto.
      assert (at_ general j <> 0) by (intros X; rewrite X in A; destruct qonly; discriminate A).
      pose proof (at_lt _ _ (proj1 Cg) H). lia.
  - assert (NI : (n < SIZE)%nat) by lia.
    destruct (covered_dec n n) as [C|C].
    + (* inside a substituted term *)
      destruct (K n) as [KC _]. rewrite (KC C) in *.
      assert (STEP : ginv (S n) g).
      { split; auto. intros k. split.
        - intros (j & J1 & J2 & J3). apply K. destruct (Nat.eq_dec j n) as [->|]; [|exists j; split; [lia|auto]].
          exfalso. destruct C as (j & A1 & A2 & (p & ->)).
          assert (p <> []) by (intros ->; cbn in A1; lia).
          pose proof (leaf_below (fun a => al a) general j p Cg VL A2 H) as Z0. rewrite Z0 in J2. destruct qonly; discriminate J2.
        - intros NCv. apply K. intros (j & J1 & J2). apply NCv. exists j. split; [lia|auto]. }
      replace (negb (isVariable nm (at_ specific n)) || (at_ specific n <=? 27)) with true.
      2: { symmetry. destruct (isVariable nm (at_ specific n)) eqn:V; auto. cbn. apply Z.leb_le. apply S27. exact V. }
      cbn [rassert rbind].
      destruct (isVariable nm (at_ specific n)) eqn:V; cbn [andb]; [|apply IH; [lia|exact STEP]].
      destruct (Z.eqb_spec (at_ (lookup_map (s_map s) (at_ specific n)) 0) 0) as [Z0|Z0]; cbn [negb]; [apply IH; [lia|exact STEP]|].
      destruct C as (j & J1 & J2 & J3). rewrite (NC j n J2 J3) by (auto; lia).
      rewrite override_atomic by auto. cbn [andb]. apply IH; [lia|].
      replace (upd g n (at_ specific n)) with g; [exact STEP|]. apply term_ext; auto using is_term_upd.
      intros k _. rewrite at_upd by auto. destruct (Nat.eqb_spec k n) as [->|]; auto.
      apply K. exists j. auto.
    + destruct (K n) as [_ KC]. rewrite (KC C) in *.
      replace (negb (isVariable nm (at_ general n)) || (at_ general n <=? 27)) with true.
      2: { symmetry. destruct (isVariable nm (at_ general n)) eqn:V; auto. cbn. apply Z.leb_le. apply G27. exact V. }
      cbn [rassert rbind].
      assert (SAME : al (at_ general n) = false -> ginv (S n) g).
      { intros A. split; auto. intros k. split.
        - intros (j & J1 & J2 & J3). apply K. destruct (Nat.eq_dec j n) as [->|]; [|exists j; split; [lia|auto]]. rewrite A in J2. discriminate J2.
        - intros NCv. apply K. intros (j & J1 & J2). apply NCv. exists j. split; [lia|auto]. }
      destruct (al (at_ general n)) eqn:A.
      * rewrite (al_var nm qonly _ A). cbn [andb].
        destruct (POSV n A) as [S0 E]. rewrite E.
        assert (SR : at_ (sub n) 0 <> 0) by (change (at_ (sub n) (idx 0 []) <> 0); rewrite (extract_at specific n [] Cs NI); exact S0).
        destruct (Z.eqb_spec (at_ (sub n) 0) 0) as [|_]; [congruence|]. cbn [negb].
        pose proof (override_positions g n (sub n) T (closed_extract _ _ Cs) SR NI) as R.
        destruct (Term_OverrideSubterm g n (sub n)) as [o r]. destruct R as (R1 & R2 & R3 & R4).
        { intros p Np. assert (NU : ~ covered n (idx n p)).
          { intros (j & J1 & J2 & (q & Hq)). destruct (under_dec j n) as [U|U]; [apply C; exists j; auto|].
            (* n is not under j < n, but idx n p is: then j is under n or they are disjoint *)
            assert (G : forall p q n j, (j <= n)%nat -> idx n p = idx j q -> under j n).
            { clear. intros p. induction p as [|b p IHp] using rev_ind; intros q n j H Heq.
              - cbn in Heq. exists q. exact Heq.
              - destruct (snoc_cases q) as [->|(q' & c & ->)].
                + cbn [idx] in Heq. pose proof (idx_ge n (p ++ [b])) as X. rewrite app_length in X. cbn in X. exists []. cbn. lia.
                + rewrite !idx_app in Heq. cbn [idx] in Heq. apply child_inj in Heq as [Heq _]. eapply IHp; eauto. }
            apply U. eapply G; [|exact Hq]. lia. }
          rewrite (proj2 (K _) NU). apply (leaf_below (fun a => al a)); auto. }
        assert (O : o = true). { apply R2. rewrite height_extract by exact Cs. apply fits_in_place; auto. }
        subst o. cbn [andb]. apply IH; [lia|]. split; auto. intros k. split.
        -- intros (j & J1 & J2 & J3). destruct (under_dec n k) as [(p & ->)|U].
           ++ rewrite R4 by auto. apply extract_at; auto.
           ++ rewrite R3 by auto. apply K. exists j. split; [|auto]. destruct (Nat.eq_dec j n) as [->|]; [contradiction|lia].
        -- intros NCv. rewrite R3. { apply K. intros (j & J1 & J2). apply NCv. exists j. split; [lia|auto]. }
           intros U. apply NCv. exists n. auto.
      * specialize (SAME eq_refl).
        destruct (isVariable nm (at_ general n)) eqn:V; cbn [andb]; [|apply IH; [lia|exact SAME]].
        destruct (Z.eqb_spec (at_ (lookup_map (s_map s) (at_ general n)) 0) 0) as [Z0|Z0]; cbn [negb].
        -- apply IH; [lia|exact SAME].
        -- exfalso. apply BOUND in Z0; [|eapply var_pos; eauto]. revert A Z0. destruct qonly; congruence.
Qed.
End Apply.

Section Complete.
Variable nm : names.
Variable av : Z -> option (f64 * name).
Variable simdist : f64.
Variable tr0 : truth f64A.
Variable qonly : bool.
Notation al a := (if qonly then isQueryVariable nm a else isVariable nm a).
Variables general specific : term.
Notation sub i := (Term_ExtractSubterm specific i).
Variable sg : Z -> tree.
Hypothesis Cg : closed general.
Hypothesis Cs : closed specific.
Hypothesis VL : var_leaves (fun a => al a) general.
Hypothesis G27 : forall i, al (at_ general i) = true -> at_ general i <= 27.
Hypothesis INST : tree_at specific 0 = inst (fun a => al a) sg (tree_at general 0).
Hypothesis OKV : forall i, al (at_ general i) = true ->
  sg (at_ general i) <> E /\ bindable nm (at_ general i) (root (sg (at_ general i))).

Lemma al0 : al 0 = true -> False.
Proof. destruct qonly; discriminate. Qed.
Lemma inst_positions p : at_ general (idx 0 p) <> 0 -> tree_at specific (idx 0 p) = inst (fun a => al a) sg (tree_at general (idx 0 p)).
Proof.
  induction p as [|b p IH] using rev_ind; intros G; [exact INST|]. rewrite idx_app in *. cbn [idx] in *.
  pose proof (proj2 Cg _ _ G) as GP. specialize (IH GP).
  rewrite (tree_at_unfold general (idx 0 p)) in IH by apply Cg. destruct (Z.eqb_spec (at_ general (idx 0 p)) 0) as [|_]; [congruence|].
  cbn [inst] in IH. destruct (al (at_ general (idx 0 p))) eqn:A.
  - exfalso. apply G. apply VL. exact A.
  - apply tree_children in IH; [|apply Cs]. destruct IH as (HL & HR & _). destruct b; auto.
Qed.
Lemma inst_at i : at_ general i <> 0 ->
  if al (at_ general i) then tree_at specific i = sg (at_ general i) else at_ specific i = at_ general i.
Proof.
  intros G. destruct (idx_root i) as (p & ->). pose proof (inst_positions p G) as H.
  rewrite (tree_at_unfold general (idx 0 p)) in H by apply Cg. destruct (Z.eqb_spec (at_ general (idx 0 p)) 0) as [|_]; [congruence|].
  cbn [inst] in H. destruct (al (at_ general (idx 0 p))) eqn:A; auto. apply tree_children in H; [|apply Cs]. tauto.
Qed.
Lemma sub_root_ i : at_ (sub i) 0 = root (tree_at specific i).
Proof.
  rewrite (at_tree (sub i) 0) by apply (closed_extract _ _ Cs). rewrite height_extract by exact Cs. reflexivity.
Qed.
Definition minv (m : list term) : Prop := length m = 28%nat /\
  forall v, 0 < v <= 27 -> at_ (lookup_map m v) 0 = 0 \/ closed (lookup_map m v) /\ tree_at (lookup_map m v) 0 = sg v.
Lemma unify_loop_complete l : forall m, minv m ->
  exists m', unify_loop nm av simdist tr0 general specific qonly l m tr0 = Ok (mkSubst m' true tr0).
Proof.
  induction l as [|i l IH]; intros m M; cbn [unify_loop]; [exists m; reflexivity|].
  destruct (Z.eqb_spec (at_ general i) 0) as [G|G]; [apply IH; exact M|].
  pose proof (inst_at i G) as H. destruct (al (at_ general i)) eqn:A.
  - pose proof (G27 i A) as G2. pose proof (al_pos nm qonly _ A) as GP. destruct (OKV i A) as (NE & B1 & B2).
    replace (at_ general i <=? 27) with true by (symmetry; apply Z.leb_le; lia). cbn [rassert rbind].
    rewrite sub_root_, H.
    replace (isQueryVariable nm (at_ general i) && isVariable nm (root (sg (at_ general i)))) with false
      by (symmetry; destruct (isQueryVariable nm (at_ general i)); auto).
    rewrite B1.
    assert (EQ : negb (at_ (lookup_map m (at_ general i)) 0 =? 0) && negb (term_eqb (lookup_map m (at_ general i)) (sub i)) = false).
    { destruct M as [_ M]. destruct (M (at_ general i) ltac:(lia)) as [->|[C T]]; auto.
      apply andb_false_iff. right. apply negb_false_iff. apply term_eqb_spec. apply closed_same_tree; auto using closed_extract.
      rewrite T, height_extract; auto. }
    rewrite EQ. apply IH. destruct M as [L M]. split; [rewrite upd_length; exact L|]. intros v V.
    rewrite lookup_upd by (auto; lia). destruct (Z.eqb_spec v (at_ general i)) as [->|]; [|apply M; exact V].
    right. split; [apply closed_extract; exact Cs|]. rewrite height_extract; auto.
  - rewrite H, Z.eqb_refl. apply IH. exact M.
Qed.
Lemma nth_repeat_ {A} (x : A) n k : nth k (repeat x n) x = x.
Proof. revert k; induction n as [|n IH]; intros [|k]; cbn; auto. Qed.
Lemma lookup_none v : lookup_map (repeat zero_term 28) v = zero_term.
Proof. unfold lookup_map. apply nth_repeat_. Qed.
Lemma unify_complete : exists s, Unify2 nm av simdist tr0 general specific qonly = Ok s /\ s_success s = true /\ s_truth s = tr0 /\
  forall i, al (at_ general i) = true -> binding s (at_ general i) = sg (at_ general i).
Proof.
  destruct (unify_loop_complete (seq 0 SIZE) (repeat zero_term 28)) as (m' & E).
  { split; [reflexivity|]. intros v _. left. rewrite lookup_none. reflexivity. }
  eexists. split; [exact E|]. split; [reflexivity|]. split; [reflexivity|]. intros i A.
  destruct (unify_loop_sound nm av simdist tr0 qonly general specific (seq 0 SIZE) _ _ _ (eq_refl : length (repeat zero_term 28) = 28%nat) E eq_refl) as (_ & B & _ & _).
  assert (G : at_ general i <> 0) by (intros X; rewrite X in A; exact (al0 A)).
  pose proof (at_lt _ _ (proj1 Cg) G) as LT. specialize (B i ltac:(apply in_seq; lia) G). rewrite A in B. destruct B as (_ & _ & B).
  pose proof (inst_at i G) as H. rewrite A in H. unfold binding. rewrite B.
  - rewrite height_extract; auto.
  - rewrite sub_root_, H. destruct (OKV i A) as (NE & _). rewrite <- H in *. rewrite (tree_at_unfold specific i) by apply Cs.
    destruct (Z.eqb_spec (at_ specific i) 0) as [Z0|]; [|exact n]. exfalso. apply NE. apply tree_E; [apply Cs|exact Z0].
Qed.
End Complete.

Lemma al0_ nm (qonly : bool) : (if qonly then isQueryVariable nm 0 else isVariable nm 0) = true -> False.
Proof. destruct qonly; discriminate. Qed.
Strategy 1000 [unify_loop apply_loop Term_ExtractSubterm Term_OverrideSubterm].
Strategy -10 [Unify2].
Section SoundFinal.
Variable nm : names.
Variable av : Z -> option (f64 * name).
Variable simdist : f64.
Variable tr0 : truth f64A.
Variable qonly : bool.
Notation al a := (if qonly then isQueryVariable nm a else isVariable nm a).
Variables general specific : term.
Notation sub i := (Term_ExtractSubterm specific i).
Variable ar : Z -> nat.
Variable s : substitution.
Hypothesis Cg : closed general.
Hypothesis Cs : closed specific.
Hypothesis Ng : at_ general 0 <> 0.
Hypothesis Ns : at_ specific 0 <> 0.
Hypothesis Ag : arity_ok ar general.
Hypothesis As : arity_ok ar specific.
Hypothesis Av : forall a, al a = true -> ar a = 0%nat.
Hypothesis Rar : forall a b, match_atom av simdist tr0 a b -> ar a = ar b.
Hypothesis RUN : Unify2 nm av simdist tr0 general specific qonly = Ok s.
Hypothesis SUC : s_success s = true.

Definition sf_pos := forall i, at_ general i <> 0 ->
     if al (at_ general i)
     then at_ general i <= 27 /\ bindable nm (at_ general i) (at_ (sub i) 0) /\
          (at_ (sub i) 0 <> 0 -> lookup_map (s_map s) (at_ general i) = sub i)
     else match_atom av simdist tr0 (at_ general i) (at_ specific i).
Lemma sf_run : unify_loop nm av simdist tr0 general specific qonly (seq 0 SIZE) (repeat zero_term 28) tr0 = Ok s.
Proof. exact RUN. Qed.
Lemma sf_len : length (repeat zero_term 28) = 28%nat. Proof. apply repeat_length. Qed.
Lemma sf_all1 : sf_pos.
Proof.
  destruct (unify_loop_sound nm av simdist tr0 qonly general specific _ _ _ _ sf_len sf_run SUC) as (_ & B & _ & _).
  intros i G. apply B; auto. apply in_seq. pose proof (at_lt _ _ (proj1 Cg) G). lia.
Qed.
Lemma sf_all2 : forall v, 0 < v -> lookup_map (s_map s) v <> zero_term -> al v = true /\ exists i, at_ general i = v.
Proof.
  destruct (unify_loop_sound nm av simdist tr0 qonly general specific _ _ _ _ sf_len sf_run SUC) as (_ & _ & _ & D).
  intros v V X. destruct (D v V) as (i & _ & I & A); [rewrite lookup_none; exact X|]. split; [exact A|exists i; exact I].
Qed.
Lemma sf_all : sf_pos /\ forall v, 0 < v -> lookup_map (s_map s) v <> zero_term -> al v = true /\ exists i, at_ general i = v.
Proof. exact (conj sf_all1 sf_all2). Qed.
Lemma sf_leaves : var_leaves (fun a => al a) general.
Proof.
  intros i b A. destruct (Z.eq_dec (at_ general i) 0) as [Z0|NZ]; [rewrite Z0 in A; exfalso; exact (al0_ nm qonly A)|].
  destruct (Ag i NZ) as [A1 A2]. rewrite (Av _ A) in A1, A2. destruct (Z.eq_dec (at_ general (child i b)) 0) as [|N]; auto. exfalso. destruct b; [apply A2 in N|apply A1 in N]; lia.
Qed.
Lemma sf_nonzero p : at_ general (idx 0 p) <> 0 -> at_ specific (idx 0 p) <> 0.
Proof.
  induction p as [|b p IH] using rev_ind; intros G; [exact Ns|]. rewrite idx_app in *. cbn [idx] in *.
  pose proof (proj2 Cg _ _ G) as GP. specialize (IH GP).
  destruct (al (at_ general (idx 0 p))) eqn:A; [exfalso; apply G; apply sf_leaves; exact A|].
  pose proof (sound_children nm av simdist tr0 qonly general specific ar s Ag As Rar (proj1 sf_all) (idx 0 p) b GP A IH) as X. tauto.
Qed.
Lemma sf_same p : (forall j, al (at_ general j) = true -> ~ under j (idx 0 p)) -> at_ general (idx 0 p) = 0 -> at_ specific (idx 0 p) = 0.
Proof.
  induction p as [|b p IH] using rev_ind; intros U G; [contradiction|]. rewrite idx_app in *. cbn [idx] in *.
  assert (U' : forall j, al (at_ general j) = true -> ~ under j (idx 0 p)).
  { intros j A (q & Hq). apply (U j A). exists (q ++ [b]). rewrite idx_app. cbn [idx]. rewrite <- Hq. reflexivity. }
  destruct (Z.eq_dec (at_ general (idx 0 p)) 0) as [Z0|NZ].
  - specialize (IH U' Z0). destruct (Z.eq_dec (at_ specific (child (idx 0 p) b)) 0); auto. exfalso. apply (proj2 Cs _ _ n). exact IH.
  - destruct (al (at_ general (idx 0 p))) eqn:A; [exfalso; apply (U' _ A); exists []; reflexivity|].
    apply (sound_children nm av simdist tr0 qonly general specific ar s Ag As Rar (proj1 sf_all) (idx 0 p) b NZ A (sf_nonzero p NZ)). exact G.
Qed.
Lemma sf_tree : matches (fun a => al a) (match_atom av simdist tr0) (binding s) (tree_at general 0) (tree_at specific 0).
Proof. apply (sound_tree nm av simdist tr0 qonly general specific ar s Cs Ag As Rar (proj1 sf_all)); [apply enough_7|tauto]. Qed.
Lemma sf_binding i : al (at_ general i) = true ->
  at_ general i <= 27 /\ binding s (at_ general i) = tree_at specific i /\ binding s (at_ general i) <> E /\
  bindable nm (at_ general i) (root (binding s (at_ general i))) /\ at_ specific i <> 0 /\ lookup_map (s_map s) (at_ general i) = sub i.
Proof.
  intros A. assert (G : at_ general i <> 0) by (intros X; rewrite X in A; exact (al0_ nm qonly A)).
  destruct (idx_root i) as (p & ->). pose proof (sf_nonzero p G) as S0. pose proof (proj1 sf_all _ G) as P. rewrite A in P. destruct P as (P1 & P2 & P3).
  rewrite (sub_root_ specific Cs) in P2, P3. assert (RT : root (tree_at specific (idx 0 p)) = at_ specific (idx 0 p)) by (symmetry; apply at_tree; apply Cs). rewrite RT in P3. specialize (P3 S0).
  assert (B : binding s (at_ general (idx 0 p)) = tree_at specific (idx 0 p)) by (unfold binding; rewrite P3; apply height_extract; exact Cs).
  rewrite B. repeat split; auto; try apply P2.
  rewrite tree_at_unfold by apply Cs. destruct (Z.eqb_spec (at_ specific (idx 0 p)) 0); [congruence|discriminate].
Qed.
Lemma sf_apply : feqb (confidence tr0) f0 = true ->
  (forall i, isVariable nm (at_ general i) = true -> at_ general i <= 27) ->
  (forall i, isVariable nm (at_ specific i) = true -> at_ specific i <= 27) ->
  (forall j k, al (at_ general j) = true -> under j k -> j <> k -> isVariable nm (at_ specific k) = true ->
     binding s (at_ specific k) = E \/ binding s (at_ specific k) = N (at_ specific k) E E) ->
  ApplySubstitute nm general s = Ok (specific, true).
Proof.
  intros F G27 S27 NC. unfold ApplySubstitute. rewrite SUC. cbn [rassert rbind].
  assert (LB : forall v, 0 < v -> at_ (lookup_map (s_map s) v) 0 <> 0 -> al v = true /\ exists i, at_ general i = v).
  { intros v V X. apply (proj2 sf_all); auto. intros Y. rewrite Y in X. apply X. reflexivity. }
  apply (apply_loop_ok nm qonly general specific s); auto using sf_leaves.
  - intros i A. destruct (sf_binding i A) as (_ & _ & _ & _ & X). exact X.
  - intros i U. destruct (idx_root i) as (p & ->). destruct (Z.eq_dec (at_ general (idx 0 p)) 0) as [Z0|NZ].
    + rewrite Z0. symmetry. apply sf_same; auto.
    + pose proof (proj1 sf_all _ NZ) as P. destruct (al (at_ general (idx 0 p))) eqn:A; [exfalso; apply (U _ A); exists []; reflexivity|].
      destruct P as [P|[P _]]; [exact P|congruence].
  - intros v V X. apply LB; auto.
  - intros j k A U N V X. destruct (LB _ (var_pos _ _ V) X) as (Av' & i & Gi).
    destruct (sf_binding i) as (_ & _ & B1 & _ & _ & B2); [rewrite Gi; exact Av'|]. rewrite Gi in B1, B2.
    destruct (NC j k A U N V) as [NC'|NC']; [contradiction|].
    apply closed_same_tree; [rewrite B2; apply closed_extract; exact Cs|apply atomic_closed|].
    rewrite tree_atomic; [exact NC'|]. pose proof (var_pos _ _ V). lia.
  - split; [apply Cg|]. intros k. split; [intros (j & H & _); lia|reflexivity].
Qed.
End SoundFinal.
