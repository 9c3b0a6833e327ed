(** Proofs for the comparison of two measurements (C69). *)
From Coq Require Import ZArith List Bool Lia Reals.
From Verif Require Import Base F64 HashM TermM TermS TermP TermP2 NamesM VariableM CycleM DecisionP PerceiveS.
Import ListNotations.
Local Open Scope nat_scope.
#[local] Opaque Term_OverrideSubterm Term_ExtractSubterm copulaEquals zero_term copula_index.

Lemma node t i a l r : is_term t -> tree_at t i = N a l r -> at_ t i = a /\ a <> 0%Z /\ tree_at t (child i false) = l /\ tree_at t (child i true) = r /\ i < SIZE.
Proof.
  intros Ht H. rewrite tree_at_unfold in H by auto. destruct (Z.eqb_spec (at_ t i) 0) as [X|X]; [discriminate H|]. injection H as <- <- <-. split; auto. split; auto. split; auto. split; auto.
  apply (at_lt t); auto.
Qed.
Lemma nonempty t i : is_term t -> tree_at t i <> E <-> at_ t i <> 0%Z.
Proof. intros Ht. rewrite tree_at_unfold by auto. destruct (Z.eqb_spec (at_ t i) 0) as [X|X]; split; intros H; auto; try discriminate; contradiction. Qed.
Lemma build t i a : is_term t -> at_ t i = a -> a <> 0%Z -> tree_at t i = N a (tree_at t (child i false)) (tree_at t (child i true)).
Proof. intros Ht <- H. rewrite tree_at_unfold by auto. destruct (Z.eqb_spec (at_ t i) 0) as [X|X]; [contradiction|reflexivity]. Qed.
Lemma fits_self n t : forall i, is_term t -> fits (tree_f n t i) i.
Proof. induction n as [|n IH]; intros i Ht; cbn [tree_f fits]; auto. destruct (Z.eqb_spec (at_ t i) 0) as [X|X]; cbn [fits]; auto. split; [apply (at_lt t); auto|auto]. Qed.
Lemma fits_mono tr : forall i j, j <= i -> fits tr i -> fits tr j.
Proof. induction tr as [|a l IHl r IHr]; intros i j L; cbn [fits]; auto. intros (A & B & C). split; [lia|]. split; [eapply IHl; [|exact B]|eapply IHr; [|exact C]]; unfold child; lia. Qed.
Definition quad (i : nat) : list bool := match i with 3 => [false; false] | 4 => [false; true] | 5 => [true; false] | _ => [true; true] end.
Lemma apart i j p : 3 <= i <= 6 -> 3 <= j <= 6 -> i <> j -> ~ under i (idx j p).
Proof.
  intros A B C (q & H). assert (X : idx 0 (quad j ++ p) = idx 0 (quad i ++ q)).
  { assert (Z : forall i p, 3 <= i <= 6 -> idx 0 (quad i ++ p) = idx i p). { clear. intros i p H. assert (D : i = 3 \/ i = 4 \/ i = 5 \/ i = 6) by lia. destruct D as [->|[->|[->| ->]]]; reflexivity. }
    rewrite !Z by auto. exact H. }
  apply idx_inj in X. assert (D : i = 3 \/ i = 4 \/ i = 5 \/ i = 6) by lia. assert (F : j = 3 \/ j = 4 \/ j = 5 \/ j = 6) by lia.
  destruct D as [->|[->|[->| ->]]], F as [->|[->|[->| ->]]]; cbn in X; try discriminate X; lia.
Qed.
Lemma above i k : k < i -> ~ under i k. Proof. intros L (q & ->). pose proof (idx_ge i q). lia. Qed.
Lemma place t i s : is_term t -> closed s -> at_ s 0 <> 0%Z -> i < SIZE -> (forall p, at_ t (idx i p) = 0%Z) -> fits (tree_at s 0) i ->
  let r := override t i s in is_term r /\ (forall p, at_ r (idx i p) = at_ s (idx 0 p)) /\ (forall k, ~ under i k -> at_ r k = at_ t k).
Proof.
  intros Ht Cs N0 L Z0 F. pose proof (override_positions t i s Ht Cs N0 L (fun p _ => Z0 p)) as R. unfold override. cbv zeta. destruct (Term_OverrideSubterm t i s) as [ok r]. cbn [snd].
  destruct R as (R1 & R2 & R3 & R4). split; auto. split; auto. apply R4. apply R2. exact F.
Qed.
Lemma extract_at t i : closed t -> closed (Term_ExtractSubterm t i) /\ tree_at (Term_ExtractSubterm t i) 0 = tree_at t i.
Proof. intros C. destruct (extract_correct t i C) as (A & B & _). auto. Qed.

(** the statement built from three parts *)
Definition built (c p rel te : Z) (A B T : term) : term :=
  upd (override (override (override (override (upd (upd (upd zero_term 0 c) 1 p) 2 rel) 3 A) 4 B) 5 T) 6 T) 6 te.
Section Built.
Variables c p rel te : Z.
Variables A B T : term.
Hypothesis (Nc : c <> 0%Z) (Np : p <> 0%Z) (Nr : rel <> 0%Z) (Nt : te <> 0%Z).
Hypothesis (CA : closed A) (CB : closed B) (CT : closed T) (NA : at_ A 0 <> 0%Z) (NB : at_ B 0 <> 0%Z) (NT : at_ T 0 <> 0%Z).
Hypothesis (FA : fits (tree_at A 0) 3) (FB : fits (tree_at B 0) 4) (FT : fits (tree_at T 0) 5) (FT6 : fits (tree_at T 0) 6).
Definition r0 := upd (upd (upd zero_term 0 c) 1 p) 2 rel.
Definition r1 := override r0 3 A.
Definition r2 := override r1 4 B.
Definition r3 := override r2 5 T.
Definition r4 := override r3 6 T.
Lemma at_r0 k : at_ r0 k = if k =? 2 then rel else if k =? 1 then p else if k =? 0 then c else 0%Z.
Proof. unfold r0. rewrite at_upd by (repeat apply is_term_upd; auto using zero_is_term; unfold SIZE; lia). destruct (k =? 2); auto. rewrite at_upd by (repeat apply is_term_upd; auto using zero_is_term; unfold SIZE; lia). destruct (k =? 1); auto.
  rewrite at_upd by (auto using zero_is_term; unfold SIZE; lia). destruct (k =? 0); auto. apply at_zero. Qed.
Lemma r0_high k : 3 <= k -> at_ r0 k = 0%Z.
Proof. intros H. rewrite at_r0. destruct (Nat.eqb_spec k 2); [lia|]. destruct (Nat.eqb_spec k 1); [lia|]. destruct (Nat.eqb_spec k 0); [lia|reflexivity]. Qed.
Lemma r_positions : is_term r4 /\ (forall k, k <= 2 -> at_ r4 k = at_ r0 k) /\ (forall q, at_ r4 (idx 3 q) = at_ A (idx 0 q)) /\ (forall q, at_ r4 (idx 4 q) = at_ B (idx 0 q)) /\
  (forall q, at_ r4 (idx 5 q) = at_ T (idx 0 q)) /\ (forall q, at_ r4 (idx 6 q) = at_ T (idx 0 q)).
Proof.
  assert (S6 : 6 < SIZE) by (unfold SIZE; lia).
  assert (I0 : is_term r0) by (unfold r0; repeat apply is_term_upd; apply zero_is_term).
  assert (H0 : forall j q, 3 <= j -> at_ r0 (idx j q) = 0%Z). { intros j q L. apply r0_high. pose proof (idx_ge j q). lia. }
  destruct (place r0 3 A I0 CA NA ltac:(lia) ltac:(intros; apply H0; lia) FA) as (I1 & P1 & K1). fold r1 in I1, P1, K1.
  destruct (place r1 4 B I1 CB NB ltac:(lia) ltac:(intros; rewrite K1 by (apply apart; lia); apply H0; lia) FB) as (I2 & P2 & K2). fold r2 in I2, P2, K2.
  destruct (place r2 5 T I2 CT NT ltac:(lia) ltac:(intros; rewrite K2, K1 by (apply apart; lia); apply H0; lia) FT) as (I3 & P3 & K3). fold r3 in I3, P3, K3.
  destruct (place r3 6 T I3 CT NT ltac:(lia) ltac:(intros; rewrite K3, K2, K1 by (apply apart; lia); apply H0; lia) FT6) as (I4 & P4 & K4). fold r4 in I4, P4, K4.
  clear I0 I1 I2 I3 H0. split; [exact I4|]. split; [intros k L; rewrite K4, K3, K2, K1 by (apply above; lia); reflexivity|].
  split; [intros q; rewrite K4, K3, K2 by (apply apart; lia); apply P1|]. split; [intros q; rewrite K4, K3 by (apply apart; lia); apply P2|].
  split; [intros q; rewrite K4 by (apply apart; lia); apply P3|]. exact P4.
Qed.
#[local] Opaque r0 r1 r2 r3 r4.
Definition rr := upd r4 6 te.
Lemma at_rr k : at_ rr k = if k =? 6 then te else at_ r4 k.
Proof. unfold rr. rewrite at_upd by (try apply r_positions; unfold SIZE; lia). reflexivity. Qed.
Lemma rr_is : is_term rr. Proof. unfold rr. apply is_term_upd. exact (proj1 r_positions). Qed.
#[local] Opaque rr.
Lemma rr_ne q j : 3 <= j <= 5 -> at_ rr (idx j q) = at_ r4 (idx j q).
Proof. intros H. rewrite at_rr. destruct (Nat.eqb_spec (idx j q) 6) as [X|X]; auto. exfalso. apply (apart j 6 [] ltac:(lia) ltac:(lia) ltac:(lia)). exists q. auto. Qed.
Lemma rr_tree : is_term rr /\ at_ rr 6 = te /\ (forall q, q <> [] -> at_ rr (idx 6 q) = at_ T (idx 0 q)) /\
  tree_at rr 0 = N c (N p (tree_at A 0) (tree_at B 0)) (N rel (tree_at T 0) (tree_at rr 6)).
Proof.
  destruct r_positions as (I4 & P0 & P3 & P4 & P5 & P6). pose proof rr_is as IR.
  split; [exact IR|]. split; [rewrite at_rr; reflexivity|]. split. { intros q Q. rewrite at_rr. destruct (Nat.eqb_spec (idx 6 q) 6) as [X|X]; [|apply P6]. change 6 with (idx 6 []) in X at 2. apply idx_inj in X. contradiction. }
  assert (X : forall k, k <= 2 -> at_ rr k = at_ r0 k). { intros k L. rewrite at_rr. destruct (Nat.eqb_spec k 6); [lia|]. apply P0; auto. }
  rewrite (build rr 0 c) by (auto; rewrite X by lia; rewrite at_r0; reflexivity). change (child 0 false) with 1. change (child 0 true) with 2.
  rewrite (build rr 1 p) by (auto; rewrite X by lia; rewrite at_r0; reflexivity). change (child 1 false) with 3. change (child 1 true) with 4.
  rewrite (build rr 2 rel) by (auto; rewrite X by lia; rewrite at_r0; reflexivity). change (child 2 false) with 5. change (child 2 true) with 6.
  assert (S3 : tree_at rr 3 = tree_at A 0). { apply tree_at_same; [pose proof (rr_ne [] 3 ltac:(lia)) as Y; cbn [idx] in Y; rewrite Y; apply (P3 [])|]. intros q b _. rewrite rr_ne by lia. apply P3. }
  assert (S4 : tree_at rr 4 = tree_at B 0). { apply tree_at_same; [pose proof (rr_ne [] 4 ltac:(lia)) as Y; cbn [idx] in Y; rewrite Y; apply (P4 [])|]. intros q b _. rewrite rr_ne by lia. apply P4. }
  assert (S5 : tree_at rr 5 = tree_at T 0). { apply tree_at_same; [pose proof (rr_ne [] 5 ltac:(lia)) as Y; cbn [idx] in Y; rewrite Y; apply (P5 [])|]. intros q b _. rewrite rr_ne by lia. apply P5. }
  congruence.
Qed.
Lemma rr_6 a l r : tree_at T 0 = N a l r -> tree_at (rr) 6 = N te l r.
Proof.
  intros H. destruct rr_tree as (I4 & P6 & PQ & _). destruct (node T 0 a l r (proj1 CT) H) as (_ & _ & H1 & H2 & _).
  rewrite (build rr 6 te) by auto. f_equal.
  - rewrite <- H1. apply tree_at_same; [apply (PQ [false]); discriminate|]. intros q b _. change (idx (child 6 false) (q ++ [b])) with (idx 6 (false :: q ++ [b])). rewrite PQ by discriminate. reflexivity.
  - rewrite <- H2. apply tree_at_same; [apply (PQ [true]); discriminate|]. intros q b _. change (idx (child 6 true) (q ++ [b])) with (idx 6 (true :: q ++ [b])). rewrite PQ by discriminate. reflexivity.
Qed.
Lemma rr_closed : closed rr.
Proof.
  destruct r_positions as (I4 & P0 & P3 & P4 & P5 & P6). destruct rr_tree as (IR & R6 & _). split; auto.
  assert (LOW : forall k, k <= 2 -> at_ rr k <> 0%Z). { intros k L. rewrite at_rr. destruct (Nat.eqb_spec k 6); [lia|]. rewrite P0 by auto. rewrite at_r0. destruct (Nat.eqb_spec k 2); auto. destruct (Nat.eqb_spec k 1); auto. destruct (Nat.eqb_spec k 0); [auto|lia]. }
  assert (SUB : forall j X q b, 3 <= j <= 5 -> closed X -> (forall q, at_ r4 (idx j q) = at_ X (idx 0 q)) -> at_ rr (child (idx j q) b) <> 0%Z -> at_ rr (idx j q) <> 0%Z).
  { intros j X q b L CX E H. change (child (idx j q) b) with (idx (idx j q) [b]) in H. rewrite <- idx_app in H. rewrite rr_ne in * by auto. rewrite E in *. rewrite idx_app in H. apply (proj2 CX) in H. exact H. }
  intros i b H. destruct (idx_root i) as (q & ->). destruct q as [|b1 [|b2 q]]; [apply LOW; cbn; lia|apply LOW; destruct b1; cbn; lia|].
  destruct b1, b2; cbn [idx] in *.
  - change (child (child 0 true) true) with 6 in *. destruct q as [|b3 q]; [cbn [idx]; rewrite R6; auto|].
    assert (D : forall q, q <> [] -> at_ rr (idx 6 q) = at_ T (idx 0 q)) by apply rr_tree.
    change (child (idx 6 (b3 :: q)) b) with (idx (idx 6 (b3 :: q)) [b]) in H. rewrite <- idx_app in H. rewrite D in H by (destruct q; discriminate). rewrite D by discriminate. rewrite idx_app in H. apply (proj2 CT) in H. exact H.
  - change (child (child 0 true) false) with 5 in *. exact (SUB 5 T q b ltac:(lia) CT P5 H).
  - change (child (child 0 false) true) with 4 in *. exact (SUB 4 B q b ltac:(lia) CB P4 H).
  - change (child (child 0 false) false) with 3 in *. exact (SUB 3 A q b ltac:(lia) CA P3 H).
Qed.
End Built.
Lemma cop_nz nm a c : copulaEquals nm a c = true -> a <> 0%Z.
Proof. Transparent copulaEquals. unfold copulaEquals. intros H ->. discriminate H. Qed.
Lemma cop_ex nm a c c' : copulaEquals nm a c = true -> c <> c' -> copulaEquals nm a c' = false.
Proof. unfold copulaEquals. intros H N. apply andb_prop in H as [H1 H2]. apply andb_prop in H1 as [H0 H1]. apply Z.eqb_eq in H1. rewrite H0, H2, H1. destruct (Z.eqb_spec c c'); [contradiction|reflexivity]. Opaque copulaEquals. Qed.
Lemma index_nz c : In c [SEQUENCE; SIMILARITY; PRODUCT; INHERITANCE; HAS_CONTINUOUS_PROPERTY; SET_TERMINATOR] -> copula_index c <> 0%Z.
Proof. Transparent copula_index. cbn [In]. intros H. repeat (destruct H as [<-|H]; [vm_compute; discriminate|]). destruct H. Opaque copula_index. Qed.
Section Rel.
Variable nm : names.
Variable av : Z -> option (f64 * name).
(** the copula of the conclusion *)
Definition same_copula (cop : Z) : Z := if copulaEquals nm cop INHERITANCE then copula_index INHERITANCE else copula_index HAS_CONTINUOUS_PROPERTY.
Lemma sane cop : same_copula cop <> 0%Z. Proof. unfold same_copula. destruct (copulaEquals _ _ _); apply index_nz; cbn; auto 9. Qed.
Definition relation_of (st : term) (x1 x2 : f64) : term :=
  rr (same_copula (at_ st 1)) (copula_index PRODUCT) (if fltb x2 x1 || fltb x1 x2 then copula_index SEQUENCE else copula_index SIMILARITY) (copula_index SET_TERMINATOR)
    (if fltb x1 x2 then Term_ExtractSubterm st 11 else Term_ExtractSubterm st 7) (if fltb x1 x2 then Term_ExtractSubterm st 7 else Term_ExtractSubterm st 11) (Term_ExtractSubterm st 4).
(** the second half of the function: the pair is known *)
Lemma relation_tree st q c1 v1 x1 L1 c2 v2 x2 L2 a l r : closed st ->
  (exists T1 T2, tree_at st 0 = N q T1 T2 /\ measurement nm av T1 c1 v1 x1 L1 (N a l r) /\ measurement nm av T2 c2 v2 x2 L2 (N a l r)) ->
  let R := relation_of st x1 x2 in closed R /\ tree_at R 0 = N (same_copula c1) (N (copula_index PRODUCT) (if fltb x1 x2 then L2 else L1) (if fltb x1 x2 then L1 else L2))
     (N (if fltb x2 x1 || fltb x1 x2 then copula_index SEQUENCE else copula_index SIMILARITY) (N a l r) (N (copula_index SET_TERMINATOR) l r)).
Proof.
  intros C (T1 & T2 & TT & (p1 & w1 & -> & _ & _ & NL1 & _ & _ & _) & (p2 & w2 & -> & _ & _ & NL2 & _ & _ & _)). cbv zeta.
  pose proof (proj1 C) as I. destruct (node _ _ _ _ _ I TT) as (_ & _ & H1 & H2 & _). change (child 0 false) with 1 in H1. change (child 0 true) with 2 in H2.
  destruct (node _ _ _ _ _ I H1) as (E1 & _ & H3 & H4 & _). change (child 1 false) with 3 in H3. change (child 1 true) with 4 in H4.
  destruct (node _ _ _ _ _ I H2) as (_ & _ & H5 & H6 & _). change (child 2 false) with 5 in H5. change (child 2 true) with 6 in H6.
  destruct (node _ _ _ _ _ I H3) as (_ & _ & H7 & H8 & _). change (child 3 false) with 7 in H7. change (child 3 true) with 8 in H8.
  destruct (node _ _ _ _ _ I H5) as (_ & _ & H11 & H12 & _). change (child 5 false) with 11 in H11. change (child 5 true) with 12 in H12.
  destruct (extract_at st 4 C) as (C4 & T4). destruct (extract_at st 7 C) as (C7 & T7). destruct (extract_at st 11 C) as (C11 & T11). rewrite H4 in T4. rewrite H7 in T7. rewrite H11 in T11.
  assert (N4 : at_ (Term_ExtractSubterm st 4) 0 <> 0%Z). { apply nonempty; [apply C4|]. rewrite T4. discriminate. }
  assert (N7 : at_ (Term_ExtractSubterm st 7) 0 <> 0%Z). { apply nonempty; [apply C7|]. rewrite T7. exact NL1. }
  assert (N11 : at_ (Term_ExtractSubterm st 11) 0 <> 0%Z). { apply nonempty; [apply C11|]. rewrite T11. exact NL2. }
  assert (F4 : fits (N a l r) 5 /\ fits (N a l r) 6). { rewrite <- H6. assert (X : fits (tree_at st 6) 6) by (apply fits_self; auto). split; [eapply fits_mono; [|exact X]; lia|exact X]. }
  assert (F7 : fits L1 7). { rewrite <- H7. apply fits_self; auto. }
  assert (F11 : fits L2 11). { rewrite <- H11. apply fits_self; auto. }
  unfold relation_of. rewrite E1. set (A := if fltb x1 x2 then Term_ExtractSubterm st 11 else _). set (B := if fltb x1 x2 then Term_ExtractSubterm st 7 else _). set (rel := if _ || _ then _ else _).
  assert (NR : rel <> 0%Z). { unfold rel. destruct (_ || _); apply index_nz; cbn; auto. }
  assert (HA : closed A /\ at_ A 0 <> 0%Z /\ fits (tree_at A 0) 3 /\ tree_at A 0 = if fltb x1 x2 then L2 else L1). { unfold A. destruct (fltb x1 x2); (split; [auto|]; split; [auto|]). - rewrite T11. split; auto. eapply fits_mono; [|exact F11]; lia. - rewrite T7. split; auto. eapply fits_mono; [|exact F7]; lia. }
  assert (HB : closed B /\ at_ B 0 <> 0%Z /\ fits (tree_at B 0) 4 /\ tree_at B 0 = if fltb x1 x2 then L1 else L2). { unfold B. destruct (fltb x1 x2); (split; [auto|]; split; [auto|]). - rewrite T7. split; auto. eapply fits_mono; [|exact F7]; lia. - rewrite T11. split; auto. eapply fits_mono; [|exact F11]; lia. }
  destruct HA as (CA & NA & FA & TA). destruct HB as (CB & NB & FB & TB). rewrite <- T4 in F4. destruct F4 as [F5 F6].
  pose proof (index_nz PRODUCT ltac:(cbn; auto)) as NP. pose proof (index_nz SET_TERMINATOR ltac:(cbn; auto 9)) as NS. pose proof (sane c1) as NC.
  split; [apply rr_closed; auto|].
  destruct (rr_tree (same_copula c1) (copula_index PRODUCT) rel (copula_index SET_TERMINATOR) A B (Term_ExtractSubterm st 4) NC NP NR CA CB C4 NA NB N4 FA FB F5 F6) as (_ & _ & _ & RT).
  rewrite RT, TA, TB, T4. rewrite (rr_6 (same_copula c1) (copula_index PRODUCT) rel (copula_index SET_TERMINATOR) A B (Term_ExtractSubterm st 4) NC NP NR NS CA CB C4 NA NB N4 FA FB F5 F6 a l r T4). reflexivity.
Qed.
Lemma extract_eq t i j : closed t -> tree_at t i = tree_at t j -> Term_ExtractSubterm t i = Term_ExtractSubterm t j.
Proof. intros C H. destruct (extract_correct t i C) as (A1 & A2 & _). destruct (extract_correct t j C) as (_ & _ & B3). apply B3; auto. congruence. Qed.
Lemma term_eqb_refl t : term_eqb t t = true. Proof. apply term_eqb_spec. reflexivity. Qed.
Lemma inh_any tr cop v x L A : measurement nm av tr cop v x L A -> copulaEquals nm cop INHERITANCE || copulaEquals nm cop HAS_CONTINUOUS_PROPERTY = true.
Proof. intros (p & w & _ & [H|H] & _); rewrite H; [reflexivity|apply orb_true_r]. Qed.
Lemma inh_seq tr cop v x L A : measurement nm av tr cop v x L A -> copulaEquals nm cop SEQUENCE = false.
Proof. intros (p & w & _ & [H|H] & _); eapply cop_ex; try exact H; discriminate. Qed.
Definition second (rest st : term) : res (option term) :=
  let loc1 := Term_ExtractSubterm st 7 in
  let loc2 := Term_ExtractSubterm st 11 in
  let attr := Term_ExtractSubterm st 4 in
  if copulaEquals nm (at_ st 0) SEQUENCE && (copulaEquals nm (at_ st 1) INHERITANCE || copulaEquals nm (at_ st 1) HAS_CONTINUOUS_PROPERTY) &&
     (copulaEquals nm (at_ st 2) INHERITANCE || copulaEquals nm (at_ st 2) HAS_CONTINUOUS_PROPERTY) && copulaEquals nm (at_ st 3) PRODUCT && copulaEquals nm (at_ st 5) PRODUCT
     && term_eqb attr (Term_ExtractSubterm st 6)
  then
    do v1 <- hasAtomValue av (at_ st 8) ;
    do v2 <- (if v1 : bool then hasAtomValue av (at_ st 12) else Ok false) ;
    if negb (v1 && v2) then Ok None else
    let val a := match av a with Some (x, _) => x | None => f0 end in
    let x1 := val (at_ st 8) in let x2 := val (at_ st 12) in
    let r := relation_of st x1 x2 in
    Ok (Some (if (at_ rest 0 =? 0)%Z then r
              else override (override (upd zero_term 0 (copula_index SEQUENCE)) 1 rest) 2 r))
  else Ok None.
Lemma relation_second t : attribute_relation nm av t = second (fst (attribute_pair nm t)) (snd (attribute_pair nm t)).
Proof. unfold attribute_relation, second. destruct (attribute_pair nm t) as [rest st]. reflexivity. Qed.
Lemma second_ok rest st q T1 T2 c1 v1 x1 L1 c2 v2 x2 L2 a l r : closed st -> tree_at st 0 = N q T1 T2 -> copulaEquals nm q SEQUENCE = true ->
  measurement nm av T1 c1 v1 x1 L1 (N a l r) -> measurement nm av T2 c2 v2 x2 L2 (N a l r) ->
  second rest st = Ok (Some (if (at_ rest 0 =? 0)%Z then relation_of st x1 x2 else override (override (upd zero_term 0 (copula_index SEQUENCE)) 1 rest) 2 (relation_of st x1 x2))).
Proof.
  intros C TT Q M1 M2. pose proof (inh_any _ _ _ _ _ _ M1) as Q1. pose proof (inh_any _ _ _ _ _ _ M2) as Q2.
  destruct M1 as (p1 & w1 & -> & _ & P1 & NL1 & _ & V1 & W1). destruct M2 as (p2 & w2 & -> & _ & P2 & NL2 & _ & V2 & W2).
  pose proof (proj1 C) as I. destruct (node _ _ _ _ _ I TT) as (E0 & _ & H1 & H2 & _). change (child 0 false) with 1 in H1. change (child 0 true) with 2 in H2.
  destruct (node _ _ _ _ _ I H1) as (E1 & _ & H3 & H4 & _). change (child 1 false) with 3 in H3. change (child 1 true) with 4 in H4.
  destruct (node _ _ _ _ _ I H2) as (E2 & _ & H5 & H6 & _). change (child 2 false) with 5 in H5. change (child 2 true) with 6 in H6.
  destruct (node _ _ _ _ _ I H3) as (E3 & _ & H7 & H8 & _). change (child 3 false) with 7 in H7. change (child 3 true) with 8 in H8.
  destruct (node _ _ _ _ _ I H5) as (E5 & _ & H11 & H12 & _). change (child 5 false) with 11 in H11. change (child 5 true) with 12 in H12.
  destruct (node _ _ _ _ _ I H8) as (E8 & _). destruct (node _ _ _ _ _ I H12) as (E12 & _).
  unfold second. cbv zeta. rewrite E0, Q, E1, Q1, E2, Q2, E3, P1, E5, P2. rewrite (extract_eq st 4 6 C) by congruence. rewrite term_eqb_refl. cbn [andb].
  unfold hasAtomValue. rewrite E8, E12. destruct (Z.ltb_spec 0 v1) as [_|X]; [|lia]. cbn [rassert rbind]. rewrite W1. destruct (Z.ltb_spec 0 v2) as [_|X]; [|lia]. cbn [rassert rbind]. rewrite W2. cbn [andb negb]. reflexivity.
Qed.
Lemma pair_plain sq q T1 T2 c1 v1 x1 L1 A : closed sq -> tree_at sq 0 = N q T1 T2 -> measurement nm av T1 c1 v1 x1 L1 A -> attribute_pair nm sq = (zero_term, sq).
Proof.
  intros C TT M1. pose proof (inh_seq _ _ _ _ _ _ M1) as Q1. destruct M1 as (p1 & w1 & -> & _). pose proof (proj1 C) as I.
  destruct (node _ _ _ _ _ I TT) as (E0 & _ & H1 & _). change (child 0 false) with 1 in H1. destruct (node _ _ _ _ _ I H1) as (E1 & _).
  unfold attribute_pair. rewrite E1, Q1. rewrite andb_false_r. reflexivity.
Qed.
Lemma direct sq q T1 T2 c1 v1 x1 L1 c2 v2 x2 L2 a l r : closed sq -> tree_at sq 0 = N q T1 T2 -> copulaEquals nm q SEQUENCE = true ->
  measurement nm av T1 c1 v1 x1 L1 (N a l r) -> measurement nm av T2 c2 v2 x2 L2 (N a l r) ->
  attribute_relation nm av sq = Ok (Some (relation_of sq x1 x2)).
Proof.
  intros C TT Q M1 M2. rewrite relation_second. rewrite (pair_plain sq q T1 T2 c1 v1 x1 L1 (N a l r)) by auto. cbn [fst snd]. rewrite (second_ok zero_term sq q T1 T2 c1 v1 x1 L1 c2 v2 x2 L2 a l r) by auto. reflexivity.
Qed.
(** with something before *)
Lemma pair_rest sq q q' Rt T1 T2 c1 v1 x1 L1 c2 v2 x2 L2 A : closed sq -> tree_at sq 0 = N q (N q' Rt T1) T2 -> copulaEquals nm q SEQUENCE = true -> copulaEquals nm q' SEQUENCE = true ->
  measurement nm av T1 c1 v1 x1 L1 A -> measurement nm av T2 c2 v2 x2 L2 A ->
  exists rest st, attribute_pair nm sq = (rest, st) /\ closed rest /\ tree_at rest 0 = Rt /\ closed st /\ tree_at st 0 = N (copula_index SEQUENCE) T1 T2.
Proof.
  intros C TT Q Q' M1 M2. pose proof (inh_any _ _ _ _ _ _ M1) as Q1. pose proof (inh_any _ _ _ _ _ _ M2) as Q2. pose proof (proj1 C) as I.
  destruct (node _ _ _ _ _ I TT) as (E0 & _ & H1 & H2 & _). change (child 0 false) with 1 in H1. change (child 0 true) with 2 in H2.
  destruct (node _ _ _ _ _ I H1) as (E1 & _ & H3 & H4 & _). change (child 1 false) with 3 in H3. change (child 1 true) with 4 in H4.
  assert (NE : T1 <> E /\ T2 <> E). { destruct M1 as (? & ? & -> & _). destruct M2 as (? & ? & -> & _). split; discriminate. }
  destruct M1 as (p1 & w1 & X1 & _ & P1 & _). destruct M2 as (p2 & w2 & X2 & _ & P2 & _).
  pose proof H4 as K4. pose proof H2 as K2. rewrite X1 in K4. rewrite X2 in K2.
  destruct (node _ _ _ _ _ I K2) as (E2 & _ & H5 & H6 & _). change (child 2 false) with 5 in H5. change (child 2 true) with 6 in H6.
  destruct (node _ _ _ _ _ I K4) as (E4 & _ & H9 & H10 & _). change (child 4 false) with 9 in H9. change (child 4 true) with 10 in H10.
  destruct (node _ _ _ _ _ I H5) as (E5 & _). destruct (node _ _ _ _ _ I H9) as (E9 & _).
  unfold attribute_pair. rewrite E0, Q, E1, Q', E2, Q2, E4, Q1, E5, P2, E9, P1. rewrite (extract_eq sq 6 10 C) by congruence. rewrite term_eqb_refl. cbn [andb].
  destruct (extract_at sq 3 C) as (C3 & T3). destruct (extract_at sq 4 C) as (C4 & T4). destruct (extract_at sq 2 C) as (C2 & T2'). rewrite H3 in T3. rewrite H4 in T4. rewrite H2 in T2'.
  exists (Term_ExtractSubterm sq 3). eexists. split; [reflexivity|]. split; [auto|]. split; [auto|].
  assert (N4 : at_ (Term_ExtractSubterm sq 4) 0 <> 0%Z). { apply nonempty; [apply C4|]. rewrite T4. apply NE. }
  assert (N2 : at_ (Term_ExtractSubterm sq 2) 0 <> 0%Z). { apply nonempty; [apply C2|]. rewrite T2'. apply NE. }
  pose proof (mk2_spec (copula_index SEQUENCE) _ _ (index_nz SEQUENCE ltac:(cbn; auto)) C4 C2 N4 N2) as MS. unfold mk2 in MS. unfold override.
  destruct (Term_OverrideSubterm (upd zero_term 0 (copula_index SEQUENCE)) 1 (Term_ExtractSubterm sq 4)) as [ok1 t1] eqn:O1.
  assert (FF : fits (tree_at (Term_ExtractSubterm sq 4) 0) 1 /\ fits (tree_at (Term_ExtractSubterm sq 2) 0) 2).
  { rewrite T4, T2'. rewrite <- H4, <- H2. split; [apply (fits_mono _ 4); [lia|]|]; apply fits_self; auto. }
  destruct ok1. 2: { destruct MS as [MS _]. exfalso. apply MS in FF. discriminate FF. }
  cbn [snd]. destruct (Term_OverrideSubterm t1 2 (Term_ExtractSubterm sq 2)) as [ok2 t2] eqn:O2. destruct MS as [MS1 MS2]. apply MS1 in FF. destruct (MS2 FF) as (G1 & _ & G2 & _). cbn [snd]. split; auto. rewrite G2, T4, T2'. reflexivity.
Qed.
Lemma atoms_eq t i j : closed t -> Term_ExtractSubterm t i = Term_ExtractSubterm t j -> tree_at t i = tree_at t j.
Proof. intros C H. destruct (extract_at t i C) as (_ & A). destruct (extract_at t j C) as (_ & B). congruence. Qed.
Lemma has_value z b : hasAtomValue av z = Ok b -> (0 < z)%Z /\ (b = true -> exists x w, av z = Some (x, w)).
Proof. unfold hasAtomValue. destruct (Z.ltb_spec 0 z); cbn [rassert rbind]; [|discriminate]. intros X. injection X as <-. split; auto. intros Y. destruct (av z) as [[x w]|]; [eauto|discriminate Y]. Qed.
Lemma converse sq R : closed sq -> copulaEquals nm (at_ sq 1) SEQUENCE = false -> attribute_relation nm av sq = Ok (Some R) ->
  exists q c1 p1 L1 v1 X1 Y1 x1 w1 c2 p2 L2 v2 X2 Y2 x2 w2 A, tree_at sq 0 = N q (N c1 (N p1 L1 (N v1 X1 Y1)) A) (N c2 (N p2 L2 (N v2 X2 Y2)) A) /\
    copulaEquals nm q SEQUENCE = true /\ copulaEquals nm c1 INHERITANCE || copulaEquals nm c1 HAS_CONTINUOUS_PROPERTY = true /\
    copulaEquals nm c2 INHERITANCE || copulaEquals nm c2 HAS_CONTINUOUS_PROPERTY = true /\ copulaEquals nm p1 PRODUCT = true /\ copulaEquals nm p2 PRODUCT = true /\
    av v1 = Some (x1, w1) /\ av v2 = Some (x2, w2).
Proof.
  intros C NS. rewrite relation_second. unfold attribute_pair. rewrite NS, andb_false_r. cbn [andb fst snd]. unfold second. cbv zeta.
  destruct (_ && term_eqb _ _) eqn:B; [|discriminate]. apply andb_prop in B as [B B6]. apply andb_prop in B as [B B5]. apply andb_prop in B as [B B4]. apply andb_prop in B as [B B3]. apply andb_prop in B as [B1 B2].
  destruct (hasAtomValue av (at_ sq 8)) as [b1| |] eqn:V1; cbn [rbind]; try discriminate. destruct b1; [|cbn [rbind andb negb]; discriminate].
  destruct (hasAtomValue av (at_ sq 12)) as [b2| |] eqn:V2; cbn [rbind]; try discriminate. destruct b2; [|cbn [andb negb]; discriminate]. intros _.
  apply has_value in V1 as (Z1 & V1). apply has_value in V2 as (Z2 & V2). destruct (V1 eq_refl) as (x1 & w1 & W1). destruct (V2 eq_refl) as (x2 & w2 & W2).
  pose proof (proj1 C) as I. apply term_eqb_spec in B6. apply atoms_eq in B6; auto.
  assert (NZ1 : at_ sq 1 <> 0%Z). { intros X. rewrite X in B2. apply orb_prop in B2 as [B2|B2]; apply cop_nz in B2; apply B2; reflexivity. }
  assert (NZ2 : at_ sq 2 <> 0%Z). { intros X. rewrite X in B3. apply orb_prop in B3 as [B3|B3]; apply cop_nz in B3; apply B3; reflexivity. }
  exists (at_ sq 0), (at_ sq 1), (at_ sq 3), (tree_at sq 7), (at_ sq 8), (tree_at sq 17), (tree_at sq 18), x1, w1, (at_ sq 2), (at_ sq 5), (tree_at sq 11), (at_ sq 12), (tree_at sq 25), (tree_at sq 26), x2, w2, (tree_at sq 4).
  split; [|repeat (split; [assumption|]); assumption].
  rewrite (build sq 0 _ I eq_refl (cop_nz _ _ _ B1)). change (child 0 false) with 1. change (child 0 true) with 2.
  rewrite (build sq 1 _ I eq_refl NZ1). change (child 1 false) with 3. change (child 1 true) with 4.
  rewrite (build sq 2 _ I eq_refl NZ2). change (child 2 false) with 5. change (child 2 true) with 6.
  rewrite (build sq 3 _ I eq_refl (cop_nz _ _ _ B4)). change (child 3 false) with 7. change (child 3 true) with 8.
  rewrite (build sq 5 _ I eq_refl (cop_nz _ _ _ B5)). change (child 5 false) with 11. change (child 5 true) with 12.
  rewrite (build sq 8 _ I eq_refl ltac:(lia)). rewrite (build sq 12 _ I eq_refl ltac:(lia)). change (child 8 false) with 17. change (child 8 true) with 18. change (child 12 false) with 25. change (child 12 true) with 26.
  rewrite <- B6. reflexivity.
Qed.
Lemma asym (x y : f64) : fltb x y = true -> fltb y x = false.
Proof.
  intros H. destruct (fltb_nn x y H) as [A B]. destruct (fltb y x) eqn:G; [|reflexivity]. exfalso. apply fltb_ext in H; auto. apply fltb_ext in G; auto. eapply Rlt_irrefl, Rlt_trans; eauto.
Qed.
Lemma as_compared c1 x1 x2 L1 L2 A :
  compared (same_copula c1) x1 x2 L1 L2 A (N (same_copula c1) (N (copula_index PRODUCT) (if fltb x1 x2 then L2 else L1) (if fltb x1 x2 then L1 else L2))
     (N (if fltb x2 x1 || fltb x1 x2 then copula_index SEQUENCE else copula_index SIMILARITY) A (N (copula_index SET_TERMINATOR) E E))).
Proof.
  unfold compared, comparison. split; [|split].
  - intros H. rewrite H, (asym _ _ H). reflexivity.
  - intros H. rewrite H, orb_true_r. reflexivity.
  - intros H1 H2. rewrite H1, H2. reflexivity.
Qed.
End Rel.
Lemma two_parts A B : closed A -> closed B -> at_ A 0 <> 0%Z -> at_ B 0 <> 0%Z -> fits (tree_at A 0) 1 -> fits (tree_at B 0) 2 ->
  let t := override (override (upd zero_term 0 (copula_index SEQUENCE)) 1 A) 2 B in closed t /\ tree_at t 0 = N (copula_index SEQUENCE) (tree_at A 0) (tree_at B 0).
Proof.
  intros CA CB NA NB FA FB. cbv zeta. pose proof (mk2_spec (copula_index SEQUENCE) A B (index_nz SEQUENCE ltac:(cbn; auto)) CA CB NA NB) as MS. unfold mk2 in MS. unfold override.
  destruct (Term_OverrideSubterm (upd zero_term 0 (copula_index SEQUENCE)) 1 A) as [ok1 t1]. destruct ok1. 2: { destruct MS as [MS _]. exfalso. assert (X : false = true) by (apply MS; split; assumption). discriminate X. }
  cbn [snd]. destruct (Term_OverrideSubterm t1 2 B) as [ok2 t2]. destruct MS as [MS1 MS2]. destruct (MS2 (proj2 MS1 (conj FA FB))) as (G1 & _ & G2 & _). cbn [snd]. split; assumption.
Qed.
