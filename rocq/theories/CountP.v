(** Occurrence counts of Variable.c against actual occurrences *)
From Coq Require Import ZArith List Bool.
From Verif Require Import Base F64 TruthM TermM TermS TermP TermP2 NamesM EventM VariableM VariableS VariableP VariableP2.
Local Open Scope Z_scope.
#[local] Opaque Term_ExtractSubterm Term_OverrideSubterm.

Definition slot_f (t : term) (a : Z) (k : nat) : nat := if at_ t k =? a then 1 else 0.
Lemma cnt_zero_slot t a : closed t -> a <> 0 -> forall fuel i, at_ t i = 0 -> cnt (slot_f t a) fuel i = 0%nat.
Proof.
  intros [H C] A. induction fuel as [|fuel IH]; intros i Z0; cbn [cnt]; auto.
  unfold slot_f at 1. rewrite Z0. destruct (Z.eqb_spec 0 a); [congruence|].
  assert (X : forall b, at_ t (child i b) = 0). { intros b. destruct (Z.eq_dec (at_ t (child i b)) 0); auto. exfalso. apply (C i b n0). exact Z0. }
  rewrite !IH by apply X. reflexivity.
Qed.
Lemma tocc_cnt t a : closed t -> a <> 0 -> forall fuel i, tocc a (tree_f fuel t i) = cnt (slot_f t a) fuel i.
Proof.
  intros C A. induction fuel as [|fuel IH]; intros i; [reflexivity|]. cbn [tree_f]. destruct (Z.eqb_spec (at_ t i) 0) as [Z0|NZ].
  - symmetry. apply cnt_zero_slot; auto.
  - cbn [tocc cnt]. rewrite !IH. unfold slot_f at 3. rewrite (Z.eqb_sym a). lia.
Qed.
Lemma sum_count_occ (l : list Z) a : list_sum (map (fun x => if x =? a then 1%nat else 0%nat) l) = count_occ Z.eq_dec l a.
Proof.
  induction l as [|x l IH]; [reflexivity|]. cbn [map count_occ]. unfold list_sum in *. cbn [fold_right]. rewrite IH.
  destruct (Z.eqb_spec x a), (Z.eq_dec x a); try contradiction; lia.
Qed.
Lemma slots_list t a : is_term t -> map (slot_f t a) (seq 0 64) = map (fun x => if x =? a then 1%nat else 0%nat) t.
Proof.
  intros T.
  assert (G : forall l, length l = 64%nat -> map (fun k => at_ l k) (seq 0 64) = l).
  { intros l L. apply nth_error_ext. intros k. destruct (Nat.lt_ge_cases k 64) as [K|K].
    - rewrite (nth_error_nth' _ 0) by (rewrite map_length, seq_length; exact K). rewrite (nth_error_nth' l 0) by (rewrite L; exact K). f_equal.
      rewrite (nth_indep _ 0 (at_ l 0)) by (rewrite map_length, seq_length; exact K). rewrite (map_nth (fun k => at_ l k)). rewrite seq_nth by exact K. reflexivity.
    - transitivity (@None Z); [|symmetry]; apply nth_error_None; rewrite ?map_length, ?seq_length, ?L; exact K. }
  transitivity (map (fun x => if x =? a then 1%nat else 0%nat) (map (fun k => at_ t k) (seq 0 64))); [rewrite map_map; reflexivity|rewrite (G t T); reflexivity].
Qed.
Lemma tocc_count t a : closed t -> a <> 0 -> tocc a (tree_at t 0) = count_occ Z.eq_dec t a.
Proof.
  intros C A. unfold tree_at. rewrite tocc_cnt by auto. rewrite cnt_seq.
  - rewrite slots_list by apply C. apply sum_count_occ.
  - intros k K. unfold slot_f. rewrite at_out by (auto; apply C). destruct (Z.eqb_spec 0 a); [congruence|reflexivity].
Qed.

Section Count.
Variable nm : names.
Definition tcount (a : Z) (tr : tree) : Z := if IsSimpleAtom nm a then Z.of_nat (tocc a tr) else 0.
Lemma tcount_N a b l r : tcount a (N b l r) = (if IsSimpleAtom nm a && (a =? b) then 1 else 0) + tcount a l + tcount a r.
Proof. unfold tcount. cbn [tocc]. destruct (IsSimpleAtom nm a), (a =? b); cbn [andb]; lia. Qed.
Lemma tcount_nonneg a tr : 0 <= tcount a tr. Proof. unfold tcount. destruct (IsSimpleAtom nm a); lia. Qed.
Lemma count_all_eq t c a : closed t -> count_all nm t c a = c a + tcount a (tree_at t 0).
Proof.
  intros C. unfold count_all.
  assert (G : forall l c, fold_left (fun c i => if IsSimpleAtom nm (at_ t i) then incr c (at_ t i) else c) l c a
            = c a + (if IsSimpleAtom nm a then Z.of_nat (list_sum (map (slot_f t a) l)) else 0)).
  { induction l as [|i l IH]; intros c0; cbn [fold_left map]; [destruct (IsSimpleAtom nm a); cbn; lia|]. rewrite IH.
    change (list_sum (slot_f t a i :: map (slot_f t a) l)) with (slot_f t a i + list_sum (map (slot_f t a) l))%nat.
    unfold slot_f at 2. destruct (Z.eqb_spec (at_ t i) a) as [->|N].
    - destruct (IsSimpleAtom nm a); [unfold incr; rewrite Z.eqb_refl; lia|lia].
    - destruct (IsSimpleAtom nm (at_ t i)); [unfold incr; destruct (Z.eqb_spec a (at_ t i)); [congruence|]|]; destruct (IsSimpleAtom nm a); lia. }
  rewrite G. unfold tcount. destruct (IsSimpleAtom nm a) eqn:S; [|reflexivity]. do 2 f_equal.
  assert (A : a <> 0) by (intros ->; discriminate S). rewrite tocc_count by auto. rewrite <- sum_count_occ, <- slots_list by apply C. reflexivity.
Qed.
Lemma not_statement a : is_statement nm a = false -> copulaEquals nm a INHERITANCE = false /\ copulaEquals nm a SIMILARITY = false /\ copulaEquals nm a HAS_CONTINUOUS_PROPERTY = false.
Proof. unfold is_statement. rewrite !orb_false_iff. tauto. Qed.
Lemma tree_root t : closed t -> at_ t 0 = root (tree_at t 0). Proof. intros C. apply at_tree. apply C. Qed.
Lemma flat_root t : closed t -> flat nm (tree_at t 0) -> is_statement nm (at_ t 0) = false.
Proof. intros C F. rewrite tree_root by exact C. destruct (tree_at t 0) as [|b l r]; [reflexivity|apply F]. Qed.
Lemma count_flat fuel t ext sp side c a : closed t -> flat nm (tree_at t 0) ->
  c a <= count_statement nm fuel t ext true sp side c a <= c a + tcount a (tree_at t 0).
Proof.
  intros C F. pose proof (tcount_nonneg a (tree_at t 0)). destruct fuel as [|fuel]; cbn [count_statement]; [lia|].
  destruct (not_statement _ (flat_root t C F)) as (-> & -> & ->). cbn [andb orb].
  destruct (_ && negb sp); [lia|]. rewrite count_all_eq by exact C. lia.
Qed.
Definition tchild (b : bool) (tr : tree) : tree := match tr with E => E | N _ l r => if b then r else l end.
Lemma extract_child t b : closed t -> tree_at (Term_ExtractSubterm t (child 0 b)) 0 = tchild b (tree_at t 0).
Proof.
  intros C. rewrite height_extract by exact C. destruct (tree_at t 0) as [|x l r] eqn:T.
  - apply tree_E; [apply C|]. destruct (Z.eq_dec (at_ t (child 0 b)) 0); auto. exfalso. apply (proj2 C 0%nat b n). rewrite (at_tree t 0) by apply C. rewrite T. reflexivity.
  - destruct (tree_children t x l r (proj1 C) 0 T) as (A & B & _). destruct b; cbn [tchild]; auto.
Qed.
Lemma tcount_children a tr : tcount a (tchild false tr) + tcount a (tchild true tr) <= tcount a tr.
Proof. destruct tr as [|b l r]; cbn [tchild]; [unfold tcount; destruct (IsSimpleAtom nm a); cbn; lia|]. rewrite tcount_N. destruct (_ && _); lia. Qed.
Lemma flat_child b tr : flat nm tr -> flat nm (tchild b tr).
Proof. destruct tr; cbn; [auto|]. destruct b; tauto. Qed.
Lemma count_top fuel t ext sp side c a : closed t -> flat nm (tchild false (tree_at t 0)) -> flat nm (tchild true (tree_at t 0)) ->
  (sp = true -> is_statement nm (at_ t 0) = false) ->
  c a <= count_statement nm fuel t ext false sp side c a <= c a + tcount a (tree_at t 0).
Proof.
  intros C FL FR SP. pose proof (tcount_nonneg a (tree_at t 0)) as NN. destruct fuel as [|fuel]; cbn [count_statement]; [lia|].
  destruct sp.
  - destruct (not_statement _ (SP eq_refl)) as (-> & -> & ->). cbn [andb orb negb]. rewrite andb_false_r. rewrite count_all_eq by exact C. lia.
  - cbn [orb]. cbv iota.
    change 2%nat with (child 0 true). change 1%nat with (child 0 false).
    set (su := Term_ExtractSubterm t (child 0 false)). set (pr := Term_ExtractSubterm t (child 0 true)).
    assert (Cs : closed su) by (apply closed_extract; exact C). assert (Cp : closed pr) by (apply closed_extract; exact C).
    assert (Ts : tree_at su 0 = tchild false (tree_at t 0)) by (apply extract_child; exact C).
    assert (Tp : tree_at pr 0 = tchild true (tree_at t 0)) by (apply extract_child; exact C).
    assert (REC : forall u c, closed u -> flat nm (tree_at u 0) -> c a <= count_statement nm fuel u ext true false side c a <= c a + tcount a (tree_at u 0))
      by (intros; apply count_flat; auto).
    assert (SUB : forall u b, closed u -> flat nm (tree_at u 0) -> closed (Term_ExtractSubterm u (child 0 b)) /\ flat nm (tree_at (Term_ExtractSubterm u (child 0 b)) 0)).
    { intros u b Cu Fu. split; [apply closed_extract; exact Cu|]. rewrite extract_child by exact Cu. apply flat_child. exact Fu. }
    assert (SUM : forall u, closed u -> tcount a (tree_at (Term_ExtractSubterm u (child 0 false)) 0) + tcount a (tree_at (Term_ExtractSubterm u (child 0 true)) 0) <= tcount a (tree_at u 0)).
    { intros u Cu. rewrite !extract_child by exact Cu. apply tcount_children. }
    pose proof (tcount_children a (tree_at t 0)) as TC. rewrite <- Ts, <- Tp in TC. rewrite <- Ts in FL. rewrite <- Tp in FR.
    pose proof (SUM su Cs) as S1. pose proof (SUM pr Cp) as S2.
    destruct (SUB su false Cs FL) as [Z1 Z2]. destruct (SUB su true Cs FL) as [Z3 Z4]. destruct (SUB pr false Cp FR) as [Z5 Z6]. destruct (SUB pr true Cp FR) as [Z7 Z8].
    set (sua := Term_ExtractSubterm su (child 0 false)) in *. set (sub_ := Term_ExtractSubterm su (child 0 true)) in *.
    set (pra := Term_ExtractSubterm pr (child 0 false)) in *. set (prb := Term_ExtractSubterm pr (child 0 true)) in *.
    pose proof (fun c => REC su c Cs FL) as R1. pose proof (fun c => REC pr c Cp FR) as R2.
    pose proof (fun c => REC sua c Z1 Z2) as R3. pose proof (fun c => REC sub_ c Z3 Z4) as R4.
    pose proof (fun c => REC pra c Z5 Z6) as R5. pose proof (fun c => REC prb c Z7 Z8) as R6.
    pose proof (tcount_nonneg a (tree_at sua 0)). pose proof (tcount_nonneg a (tree_at sub_ 0)).
    pose proof (tcount_nonneg a (tree_at pra 0)). pose proof (tcount_nonneg a (tree_at prb 0)).
    pose proof (tcount_nonneg a (tree_at su 0)). pose proof (tcount_nonneg a (tree_at pr 0)).
    clear REC SUB SUM.
    destruct (_ || _ || _); [|lia].
    destruct (copulaEquals nm (at_ su 0) INT_IMAGE1 || copulaEquals nm (at_ su 0) INT_IMAGE2);
    destruct (copulaEquals nm (at_ pr 0) EXT_IMAGE1 || copulaEquals nm (at_ pr 0) EXT_IMAGE2);
    destruct (ext || _); destruct (negb ext || _); try destruct (negb (side =? 0) && _); try destruct (side =? 1); try destruct (side =? 2);
    repeat match goal with
    | |- context [count_statement nm fuel su ext true false side ?c] => pose proof (R1 c); set (count_statement nm fuel su ext true false side c) in *
    | |- context [count_statement nm fuel sua ext true false side ?c] => pose proof (R3 c); set (count_statement nm fuel sua ext true false side c) in *
    end;
    repeat match goal with
    | |- context [count_statement nm fuel prb ext true false side ?c] => is_var c; pose proof (R6 c); set (count_statement nm fuel prb ext true false side c) in *
    | |- context [count_statement nm fuel sub_ ext true false side ?c] => is_var c; pose proof (R4 c); set (count_statement nm fuel sub_ ext true false side c) in *
    | |- context [count_statement nm fuel pra ext true false side ?c] => is_var c; pose proof (R5 c); set (count_statement nm fuel pra ext true false side c) in *
    | |- context [count_statement nm fuel pr ext true false side ?c] => is_var c; pose proof (R2 c); set (count_statement nm fuel pr ext true false side c) in *
    end; lia.
Qed.
Lemma count_higher_ok fuel : forall t ext side c a, closed t -> first_order nm (tree_at t 0) ->
  c a <= count_higher nm fuel t ext side c a <= c a + tcount a (tree_at t 0).
Proof.
  induction fuel as [|fuel IH]; intros t ext side c a C F; pose proof (tcount_nonneg a (tree_at t 0)) as NN; cbn [count_higher]; [lia|].
  change 2%nat with (child 0 true). change 1%nat with (child 0 false).
  assert (CE : forall b, closed (Term_ExtractSubterm t (child 0 b))) by (intros b; apply closed_extract; exact C).
  assert (TE : forall b, tree_at (Term_ExtractSubterm t (child 0 b)) 0 = tchild b (tree_at t 0)) by (intros b; apply extract_child; exact C).
  pose proof (tcount_children a (tree_at t 0)) as TC. pose proof (tcount_nonneg a (tchild false (tree_at t 0))). pose proof (tcount_nonneg a (tchild true (tree_at t 0))).
  assert (F' : if copulaEquals nm (at_ t 0) NEGATION then first_order nm (tchild false (tree_at t 0))
               else if is_connector nm (at_ t 0) then first_order nm (tchild false (tree_at t 0)) /\ first_order nm (tchild true (tree_at t 0))
               else flat nm (tchild false (tree_at t 0)) /\ flat nm (tchild true (tree_at t 0))).
  { rewrite (tree_root t C). destruct (tree_at t 0) as [|x l r]; [cbn; auto|exact F]. }
  fold (is_connector nm (at_ t 0)).
  destruct (copulaEquals nm (at_ t 0) NEGATION).
  - pose proof (IH (Term_ExtractSubterm t (child 0 false)) ext side c a (CE false)) as X. rewrite TE in X. specialize (X F'). lia.
  - destruct (is_connector nm (at_ t 0)).
    + destruct F' as [F1 F2].
      pose proof (IH (Term_ExtractSubterm t (child 0 false)) ext side c a (CE false)) as X. rewrite TE in X. specialize (X F1).
      set (c1 := count_higher nm fuel (Term_ExtractSubterm t (child 0 false)) ext side c) in *.
      pose proof (IH (Term_ExtractSubterm t (child 0 true)) ext side c1 a (CE true)) as Y. rewrite TE in Y. specialize (Y F2). lia.
    + destruct F' as [F1 F2]. apply count_top; auto. intros IS. unfold is_statement, copulaEquals, INT_SET, INHERITANCE, SIMILARITY, HAS_CONTINUOUS_PROPERTY in *.
      apply andb_true_iff in IS as [IS1 IS2]. apply andb_true_iff in IS1 as [IS0 IS1]. apply Z.eqb_eq in IS1. rewrite IS1. cbn. rewrite !andb_false_r. reflexivity.
Qed.
(** only simple atoms of the term are ever counted *)
Lemma count_atoms_ok t ext side a : closed t -> first_order nm (tree_at t 0) ->
  0 <= count_atoms nm t ext side a <= tcount a (tree_at t 0).
Proof. intros C F. pose proof (count_higher_ok 7 t ext side (fun _ => 0) a C F). exact H. Qed.
Definition only_simple (c : counts) : Prop := forall a, 0 <= c a /\ (c a <> 0 -> IsSimpleAtom nm a = true).
Lemma count_all_simple t c : only_simple c -> only_simple (count_all nm t c).
Proof.
  unfold count_all. generalize (seq 0 SIZE). intros l. revert c. induction l as [|i l IH]; intros c H; cbn [fold_left]; auto.
  apply IH. destruct (IsSimpleAtom nm (at_ t i)) eqn:S; auto. intros a. unfold incr. destruct (H a). destruct (Z.eqb_spec a (at_ t i)) as [->|]; [split; [lia|auto]|auto].
Qed.
Lemma count_statement_simple fuel : forall t ext ig sp side c, only_simple c -> only_simple (count_statement nm fuel t ext ig sp side c).
Proof.
  induction fuel as [|fuel IH]; intros t ext ig sp side c H; cbn [count_statement]; auto.
  repeat match goal with
  | |- only_simple (if ?b then _ else _) => destruct b
  | |- only_simple (count_all _ _ _) => apply count_all_simple
  | |- only_simple (count_statement _ _ _ _ _ _ _ _) => apply IH
  end; auto.
Qed.
Lemma count_higher_simple fuel : forall t ext side c, only_simple c -> only_simple (count_higher nm fuel t ext side c).
Proof.
  induction fuel as [|fuel IH]; intros t ext side c H; cbn [count_higher]; auto.
  repeat match goal with
  | |- only_simple (if ?b then _ else _) => destruct b
  end; auto using count_statement_simple.
Qed.
Lemma count_atoms_simple t ext side : only_simple (count_atoms nm t ext side).
Proof. apply count_higher_simple. intros a. split; [lia|congruence]. Qed.
End Count.
