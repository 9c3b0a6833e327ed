(** Proofs about building the term from tokens in prefix form. *)
From Coq Require Import ZArith List Bool Lia.
From Verif Require Import Base TermM TermS TermP NamesM AtomsM AtomsS AtomsP VariableM ParserM ParserS ParserP ParserP2.
Local Open Scope nat_scope.

(** writing a tree of atoms into the array *)
Fixpoint wr (tr : tree) (i : nat) (t : term) : term :=
  match tr with E => t | N a l r => wr r (child i true) (wr l (child i false) (upd t i a)) end.
Fixpoint labelled (nms : names) (n : ntree) (tr : tree) : Prop :=
  match n, tr with
  | NE, E => True
  | NN n l r, N a l' r' => (exists k, nth_error nms k = Some (block n) /\ a = to_atom (1 + Z.of_nat k)) /\ labelled nms l l' /\ labelled nms r r'
  | _, _ => False
  end.
Lemma labelled_more nms more n : forall tr, labelled nms n tr -> labelled (nms ++ more) n tr.
Proof.
  induction n as [|n l IHl r IHr]; intros [|a l' r']; cbn; auto. intros ((k & K1 & K2) & L & R). split; [|auto].
  exists k. split; auto. rewrite nth_error_app1; auto. apply nth_error_Some. congruence.
Qed.
Lemma labelled_firsts nms ns n tr : labelled nms n tr -> labelled (firsts nms ns) n tr.
Proof. destruct (firsts_extends nms ns) as (more & ->). apply labelled_more. Qed.

Section Cap.
Variable cap : nat.
Lemma intern1 st n : ainv cap st ->
  if (length (firsts (a_names st) [block n]) <=? cap) || (if in_dec name_dec (block n) (a_names st) then true else false)
  then exists st' k, AtomicTermIndex cap st n = Ok (st', (1 + Z.of_nat k)%Z) /\ ainv cap st' /\ a_names st' = firsts (a_names st) [block n] /\
         (length (a_names st') = length (a_names st) -> st' = st) /\ nth_error (a_names st') k = Some (block n)
  else AtomicTermIndex cap st n = Abort.
Proof.
  intros I. destruct (intern_ok cap st n I) as (A & B & C). cbn [firsts]. destruct (in_dec name_dec (block n) (a_names st)) as [Y|Y].
  - rewrite orb_true_r. destruct (A Y) as (k & E & H). exists st, k. auto.
  - rewrite orb_false_r, app_length. cbn [length]. destruct (Nat.leb_spec (length (a_names st) + 1) cap) as [L|L].
    + destruct (B Y) as (s' & E & N & I'); [lia|]. exists s', (length (a_names st)). split; auto. split; auto. split; auto.
      split; [rewrite N, app_length; cbn [length]; lia|]. rewrite N, nth_error_app2, Nat.sub_diag by lia. reflexivity.
    + apply C; auto. lia.
Qed.
(** what building a tree of names yields *)
Definition built (st : astate) (t : term) (i : nat) (n : ntree) (r : res (astate * term)) : Prop :=
  if length (firsts (a_names st) (map block (mentioned n))) <=? cap
  then exists st' tr, r = Ok (st', wr tr i t) /\ ainv cap st' /\ a_names st' = firsts (a_names st) (map block (mentioned n)) /\ labelled (a_names st') n tr /\
         (length (a_names st') = length (a_names st) -> st' = st)
  else r = Abort.
Lemma firsts_len acc l : length acc <= length (firsts acc l).
Proof. destruct (firsts_extends acc l) as (m & ->). rewrite app_length. lia. Qed.
Lemma firsts_len_app acc a b : length (firsts acc a) <= length (firsts acc (a ++ b)).
Proof. rewrite firsts_app. apply firsts_len. Qed.
(** interning a name and continuing *)
Lemma intern_then st n : ainv cap st -> length (a_names st) <= cap ->
  (length (firsts (a_names st) [block n]) <= cap /\ exists st' k, AtomicTermIndex cap st n = Ok (st', (1 + Z.of_nat k)%Z) /\ ainv cap st' /\
     a_names st' = firsts (a_names st) [block n] /\ (length (a_names st') = length (a_names st) -> st' = st) /\ nth_error (a_names st') k = Some (block n)) \/
  (cap < length (firsts (a_names st) [block n]) /\ AtomicTermIndex cap st n = Abort).
Proof.
  intros I L. pose proof (intern1 st n I) as H. cbn [firsts] in *. destruct (in_dec name_dec (block n) (a_names st)) as [Y|Y].
  - rewrite orb_true_r in H. left. auto.
  - rewrite orb_false_r in H. destruct (Nat.leb_spec (length (a_names st ++ [block n])) cap); [left|right]; auto.
Qed.
Lemma built_leaf st t i n : ainv cap st -> length (a_names st) <= cap ->
  built st t i (NN n NE NE) (do (st, a) <- AtomicTermIndex cap st n ; Ok (st, upd t i (to_atom a))).
Proof.
  intros I L. unfold built. cbn [mentioned app map]. destruct (intern_then st n I L) as [(H & st' & k & -> & I' & NN_ & SAME & K)|(H & ->)].
  - destruct (Nat.leb_spec (length (firsts (a_names st) [block n])) cap); [|lia]. cbn [rbind].
    exists st', (N (to_atom (1 + Z.of_nat k)) E E). split; auto. split; auto. split; auto. split; auto. cbn. rewrite NN_ in *. eauto.
  - destruct (Nat.leb_spec (length (firsts (a_names st) [block n])) cap); [lia|]. reflexivity.
Qed.
Lemma built_node st t i w l r (bl br : astate -> term -> res (astate * term)) : ainv cap st -> length (a_names st) <= cap ->
  (forall st t, ainv cap st -> length (a_names st) <= cap -> built st t (child i false) l (bl st t)) ->
  (forall st t, ainv cap st -> length (a_names st) <= cap -> built st t (child i true) r (br st t)) ->
  built st t i (NN w l r) (do (st, a) <- AtomicTermIndex cap st w ; do (st, t) <- bl st (upd t i (to_atom a)) ; br st t).
Proof.
  intros I L HL HR. unfold built. cbn [mentioned map]. rewrite map_app. change (block w :: ?x) with ([block w] ++ x). rewrite firsts_app.
  destruct (intern_then st w I L) as [(H & st' & k & -> & I' & N' & S1 & K)|(H & ->)].
  2:{ match goal with |- context [if ?n <=? cap then _ else _] => destruct (Nat.leb_spec n cap) as [Q|Q] end; [|reflexivity].
      pose proof (firsts_len (firsts (a_names st) [block w]) (map block (mentioned l) ++ map block (mentioned r))). lia. }
  cbn [rbind]. rewrite <- N' in *. rewrite firsts_app. specialize (HL st' (upd t i (to_atom (1 + Z.of_nat k))) I' H). unfold built in HL.
  destruct (Nat.leb_spec (length (firsts (a_names st') (map block (mentioned l)))) cap) as [Q|Q].
  - destruct HL as (st2 & tl & -> & I2 & N2 & LB & S2). cbn [rbind]. rewrite <- N2 in *. specialize (HR st2 (wr tl (child i false) (upd t i (to_atom (1 + Z.of_nat k)))) I2 Q). unfold built in HR.
    destruct (Nat.leb_spec (length (firsts (a_names st2) (map block (mentioned r)))) cap) as [Q2|Q2]; [|exact HR].
    destruct HR as (st3 & tr & -> & I3 & N3 & LB3 & S3). exists st3, (N (to_atom (1 + Z.of_nat k)) tl tr). split; auto. split; auto. split; auto. split.
    2:{ intros Q3. pose proof (firsts_len (a_names st2) (map block (mentioned r))) as X3. pose proof (firsts_len (a_names st') (map block (mentioned l))) as X2.
        pose proof (firsts_len (a_names st) [block w]) as X1. rewrite <- N3 in X3. rewrite <- N2 in X2. rewrite <- N' in X1.
        rewrite S3, S2, S1 by lia. reflexivity. }
    cbn [labelled]. split; [|split; auto].
    + exists k. split; auto. rewrite N3, N2. destruct (firsts_extends (firsts (a_names st') (map block (mentioned l))) (map block (mentioned r))) as (m1 & ->).
      destruct (firsts_extends (a_names st') (map block (mentioned l))) as (m2 & ->). rewrite <- app_assoc, nth_error_app1; auto. apply nth_error_Some. congruence.
    + rewrite N3. apply labelled_firsts. auto.
  - rewrite HL. match goal with |- context [if ?n <=? cap then _ else _] => destruct (Nat.leb_spec n cap) as [Q2|Q2] end; [|reflexivity].
    pose proof (firsts_len (firsts (a_names st') (map block (mentioned l))) (map block (mentioned r))). lia.
Qed.

Lemma nth_at {A} (pre : list A) x k : nth_error (pre ++ x :: k) (length pre) = Some x.
Proof. rewrite nth_error_app2, Nat.sub_diag by lia. reflexivity. Qed.
Lemma build_leaf fuel st t pre w post ix : isTok 40 w = false -> ix - 1 < SIZE ->
  buildBinaryTree cap (S fuel) st t (pre ++ w :: post) (length pre) ix =
  do (st, a) <- AtomicTermIndex cap st (if isTok 41 w then [SET_TERMINATOR] else w) ; Ok (st, upd t (ix - 1) (to_atom a)).
Proof.
  intros H L. cbn [buildBinaryTree]. rewrite nth_at, H. destruct (Nat.ltb_spec (ix - 1) SIZE); [|lia]. reflexivity.
Qed.
Lemma build_ok :
  (forall ts n, pform ts n -> forall pre post st t ix fuel, ainv cap st -> length (a_names st) <= cap -> 1 <= ix -> nfits SIZE n (ix - 1) -> length ts < fuel ->
     built st t (ix - 1) n (buildBinaryTree cap fuel st t (pre ++ ts ++ post) (length pre) ix)) /\
  (forall ts n, psecond ts n -> forall pre post st t ix fuel, ainv cap st -> length (a_names st) <= cap -> 1 <= ix -> nfits SIZE n (ix - 1) -> length ts < fuel ->
     built st t (ix - 1) n (buildBinaryTree cap fuel st t (pre ++ ts ++ CLOSE :: post) (length pre) ix)).
Proof.
  apply pform_both.
  - intros w H pre post st t ix fuel I L X F FU. destruct fuel as [|fuel]; [lia|]. apply word_tok in H as [H1 H2]. cbn [app].
    rewrite build_leaf by (auto; apply F). rewrite H2. apply built_leaf; auto.
  - intros w t1 l ts r H F1 IH1 F2 IH2 pre post st t ix fuel I L X (F & FL & FR) FU. destruct fuel as [|fuel]; [lia|].
    cbn [length] in FU. rewrite !app_length in FU. cbn [length] in FU.
    cbn [buildBinaryTree]. set (toks := pre ++ (OPEN :: w :: t1 ++ ts ++ [CLOSE]) ++ post).
    assert (ET : toks = pre ++ OPEN :: w :: t1 ++ ts ++ CLOSE :: post) by (unfold toks; cbn [app]; rewrite <- !app_assoc; reflexivity).
    assert (E1 : toks = (pre ++ [OPEN; w]) ++ t1 ++ ts ++ CLOSE :: post) by (rewrite ET, <- app_assoc; reflexivity).
    assert (E2 : toks = ((pre ++ [OPEN; w]) ++ t1) ++ ts ++ CLOSE :: post) by (rewrite E1; apply app_assoc).
    assert (L2 : length (pre ++ [OPEN; w]) = length pre + 2) by (rewrite app_length; reflexivity).
    assert (LT : length toks = length pre + 2 + length t1 + length ts + 1 + length post).
    { rewrite E1, !app_length. cbn [length]. lia. }
    assert (SK : skipCompound toks (length pre + 2) = length ((pre ++ [OPEN; w]) ++ t1)).
    { rewrite E1, <- L2, skipCompound_unit by (apply pform_unit in F1; auto). symmetry. apply app_length. }
    rewrite SK. replace (nth_error toks (length pre)) with (Some OPEN) by (rewrite ET; symmetry; apply nth_at).
    change (isTok 40 OPEN) with true. cbv iota.
    replace (nth_error toks (length pre + 1)) with (Some w).
    2:{ rewrite ET. rewrite nth_error_app2 by lia. replace (length pre + 1 - length pre) with 1 by lia. reflexivity. }
    destruct (Nat.ltb_spec (length pre + 2) (length toks)); [|lia]. rewrite app_length, L2.
    destruct (Nat.ltb_spec (length pre + 2 + length t1) (length toks)); [|lia].
    destruct (Nat.leb_spec SIZE (ix - 1)); [lia|].
    assert (C1 : child (ix - 1) false = ix * 2 - 1) by (unfold child; lia). assert (C2 : child (ix - 1) true = ix * 2 + 1 - 1) by (unfold child; lia).
    apply (built_node st t (ix - 1) w l r (fun st t => buildBinaryTree cap fuel st t toks (length pre + 2) (ix * 2)) (fun st t => buildBinaryTree cap fuel st t toks (length pre + 2 + length t1) (ix * 2 + 1))); auto.
    + intros st' t' I' L'. rewrite C1, E1, <- L2. apply IH1; auto; [lia|rewrite <- C1; auto|lia].
    + intros st' t' I' L'. rewrite C2, E2. replace (length pre + 2 + length t1) with (length ((pre ++ [OPEN; w]) ++ t1)) by (rewrite app_length; lia).
      apply IH2; auto; [lia|rewrite <- C2; auto|lia].
  - intros pre post st t ix fuel I L X F FU. destruct fuel as [|fuel]; [lia|]. cbn [app]. rewrite build_leaf by (auto; apply F).
    change (isTok 41 CLOSE) with true. cbv iota. apply built_leaf; auto.
  - intros t2 r more F1 IH1 B pre post st t ix fuel I L X F FU. rewrite app_length in FU. rewrite <- app_assoc. apply IH1; auto. lia.
Qed.

(** *** the array that is written *)
Fixpoint tget (tr : tree) (p : list bool) : Z :=
  match tr, p with E, _ => 0%Z | N a l r, [] => a | N a l r, false :: p => tget l p | N a l r, true :: p => tget r p end.
Fixpoint nozero (tr : tree) : Prop := match tr with E => True | N a l r => a <> 0%Z /\ nozero l /\ nozero r end.
Lemma wr_is_term tr : forall i t, is_term t -> is_term (wr tr i t).
Proof. induction tr as [|a l IHl r IHr]; intros i t H; cbn [wr]; auto. apply IHr, IHl, is_term_upd. auto. Qed.
Lemma under_child i b k : under (child i b) k -> under i k. Proof. intros (p & ->). exists (b :: p). reflexivity. Qed.
Lemma wr_outside tr : forall i t k, is_term t -> fits tr i -> ~ under i k -> at_ (wr tr i t) k = at_ t k.
Proof.
  induction tr as [|a l IHl r IHr]; intros i t k H F U; cbn [wr]; auto. destruct F as (F & FL & FR).
  rewrite IHr; auto; [|apply wr_is_term, is_term_upd; auto|intros X; apply U; eapply under_child; eauto].
  rewrite IHl; auto; [|apply is_term_upd; auto|intros X; apply U; eapply under_child; eauto].
  rewrite at_upd by auto. destruct (Nat.eqb_spec k i) as [->|]; auto. exfalso. apply U. exists []. reflexivity.
Qed.
Lemma idx_back i b (c : bool) p : idx (child i b) p <> i. Proof. pose proof (idx_ge (child i b) p). pose proof (child_gt i b). lia. Qed.
Lemma under_disjoint i k : under (child i false) k -> under (child i true) k -> False.
Proof. intros (p & ->) (q & H). rewrite !idx_child in H. apply idx_inj in H. discriminate. Qed.
Lemma wr_inside tr : forall i t p, is_term t -> fits tr i -> nozero tr -> (forall q, at_ t (idx i q) = 0%Z) -> at_ (wr tr i t) (idx i p) = tget tr p.
Proof.
  induction tr as [|a l IHl r IHr]; intros i t p H F Z ZE; cbn [wr]; [rewrite ZE; destruct p; reflexivity|]. destruct F as (F & FL & FR). destruct Z as (Z0 & ZL & ZR).
  assert (T1 : is_term (upd t i a)) by (apply is_term_upd; auto). assert (T2 : is_term (wr l (child i false) (upd t i a))) by (apply wr_is_term; auto).
  assert (U1 : forall b q, at_ (upd t i a) (idx (child i b) q) = 0%Z).
  { intros b q. rewrite at_upd by auto. destruct (Nat.eqb_spec (idx (child i b) q) i) as [Q|]; [exfalso; apply (idx_back i b b q); auto|].
    rewrite idx_child. apply ZE. }
  assert (NU : forall b, ~ under (child i b) i). { intros b (q & Q). apply (idx_back i b b q). auto. }
  destruct p as [|[] p]; cbn [idx tget].
  - rewrite !wr_outside by auto. rewrite at_upd by auto. rewrite Nat.eqb_refl. reflexivity.
  - apply IHr; auto. intros q. rewrite wr_outside; auto. intros X. apply (under_disjoint i (idx (child i true) q)); auto. exists q. reflexivity.
  - rewrite wr_outside; [apply IHl; auto|exact T2|exact FR|intros X; apply (under_disjoint i (idx (child i false) p)); auto; exists p; reflexivity].
Qed.
Lemma tget_child tr p b : nozero tr -> tget tr (p ++ [b]) <> 0%Z -> tget tr p <> 0%Z.
Proof.
  revert p; induction tr as [|a l IHl r IHr]; intros p Z H; [destruct p; cbn in H; congruence|]. destruct Z as (Z0 & ZL & ZR).
  destruct p as [|[] p]; cbn in *; auto.
Qed.
Lemma wr_tree tr : nozero tr -> fits tr 0 -> closed (wr tr 0 zero_term) /\ tree_at (wr tr 0 zero_term) 0 = tr.
Proof.
  intros Z F. set (t := wr tr 0 zero_term). assert (T : is_term t) by (apply wr_is_term; apply zero_is_term).
  assert (AT : forall p, at_ t (idx 0 p) = tget tr p) by (intros p; apply wr_inside; auto; [apply zero_is_term|intros; apply at_zero]).
  assert (C : closed t).
  { split; auto. intros i b H. destruct (idx_root i) as (p & ->). replace (child (idx 0 p) b) with (idx 0 (p ++ [b])) in H by (rewrite idx_app; reflexivity).
    rewrite AT in *. eapply tget_child; eauto. }
  split; auto.
  assert (G : forall x i, fits x i -> nozero x -> (forall p, at_ t (idx i p) = tget x p) -> tree_at t i = x).
  { clear -T. induction x as [|a l IHl r IHr]; intros i F Z AT; rewrite tree_at_unfold by auto.
    - specialize (AT []). cbn in AT. rewrite AT. reflexivity.
    - destruct F as (F & FL & FR). destruct Z as (Z0 & ZL & ZR). pose proof (AT []) as A0. cbn in A0. rewrite A0. destruct (Z.eqb_spec a 0); [contradiction|].
      f_equal; [apply IHl|apply IHr]; auto; intros p; rewrite idx_child, AT; reflexivity. }
  apply G; auto.
Qed.
Lemma labelled_fits nms n : forall tr i, labelled nms n tr -> nfits SIZE n i -> fits tr i.
Proof. induction n as [|n l IHl r IHr]; intros [|a l' r'] i; cbn; auto; [tauto|]. intros (_ & A & B) (F & FL & FR). auto. Qed.
Lemma labelled_names (nms : names) n : (Z.of_nat (length nms) < 65536)%Z -> forall tr, labelled nms n tr -> nozero tr /\ names_of nms tr = cut31 n /\ (forall a, occurs a tr -> (1 <= a <= Z.of_nat (length nms))%Z).
Proof.
  intros LN. induction n as [|n l IHl r IHr]; intros [|a l' r']; cbn [labelled nozero names_of cut31 occurs]; [intros _; split; [auto|split; [auto|intros a []]]|intros []|intros []|].
  intros ((k & K1 & ->) & A & B). destruct (IHl _ A) as (A1 & A2 & A3). destruct (IHr _ B) as (B1 & B2 & B3).
  assert (KL : k < length nms) by (apply nth_error_Some; congruence). assert (TA : to_atom (1 + Z.of_nat k) = (1 + Z.of_nat k)%Z) by (unfold to_atom; apply Z.mod_small; lia).
  rewrite TA. split; [split; [lia|auto]|]. split.
  - f_equal; auto. apply nth_name_of. exact K1.
  - intros a [->|[H|H]]; auto. lia.
Qed.
End Cap.
