(** Proofs about printing terms and reading the text again. *)
From Coq Require Import ZArith List Bool Lia.
From Verif Require Import Base TermM TermS TermP NamesM AtomsM AtomsS AtomsP VariableM ParserM ParserS ParserP ParserP2 ParserP3.
Local Open Scope Z_scope.

Definition cop_text (c : Z) : text := match find (fun p => c =? fst p) printed_copulas with Some p => snd p | None => [c] end.
Definition is_set (c : Z) : bool := (c =? EXT_SET) || (c =? INT_SET).
Definition is_statement (c : Z) : bool :=
  (c =? TEMPORAL_IMPLICATION) || (c =? INHERITANCE) || (c =? SIMILARITY) || (c =? IMPLICATION) || (c =? EQUIVALENCE) || (c =? HAS_CONTINUOUS_PROPERTY).
Definition opener (c : Z) (st : bool) : Z := if c =? EXT_SET then 123 else if c =? INT_SET then 91 else if st then 60 else 40.
Definition closer (c : Z) (st : bool) : Z := if c =? EXT_SET then 125 else if c =? INT_SET then 93 else if st then 62 else 41.
Definition is_no_arg (n : ntree) : bool := match n with NE => false | NN w _ _ => isTok 64 w end.
Fixpoint ptext (n : ntree) : text :=
  match n with
  | NE => []
  | NN w NE _ => w
  | NN w l r =>
      let c := hd 0 w in
      if is_no_arg r then opener c false :: (if is_set c then [] else [c; 32]) ++ ptext l ++ [closer c false] else
      opener c (is_statement c) ::
      (if is_set c then ptext l ++ 32 :: ptext r
       else if c =? NEGATION then c :: 32 :: ptext l ++ 32 :: ptext r
       else ptext l ++ 32 :: cop_text c ++ 32 :: ptext r) ++ [closer c (is_statement c)]
  end.
(** *** the printer computes [ptext] *)
Section Print.
Variable nm : names.
Ltac fold_children i := let l := fresh "l" in let r := fresh "r" in
  set (l := (2 * i + 1)%nat); set (r := (2 * i + 2)%nat);
  change l with (child i false); change r with (child i true); clear l r.
Lemma name_pos a : name_of nm a <> [] -> 0 < a.
Proof. unfold name_of. destruct (Z.leb_spec a 0); [congruence|auto]. Qed.
Lemma ceq_cop a c d : name_of nm a = [c] -> copulaEquals nm a d = (c =? d).
Proof.
  intros H. assert (0 < a) by (apply name_pos; rewrite H; discriminate). unfold copulaEquals, ch0, ch1. rewrite H. cbn.
  destruct (Z.ltb_spec 0 a); [|lia]. rewrite andb_true_r. reflexivity.
Qed.
Lemma ceq_plain a n d : name_of nm a = n -> plain_name n -> In d CanonicalCopulas -> copulaEquals nm a d = false.
Proof.
  intros H (P1 & P2 & P3) D. unfold copulaEquals, ch0, ch1. rewrite H. destruct n as [|x [|y n]]; [congruence| |].
  - cbn. destruct (Z.eqb_spec x d) as [->|]; [exfalso; apply (P3 d D); reflexivity|]. rewrite andb_false_r. reflexivity.
  - cbn. inversion P2 as [|? ? _ Q]; subst. inversion Q as [|? ? (_ & _ & _ & _ & Q0) _]; subst. destruct (Z.eqb_spec y 0); [congruence|]. apply andb_false_r.
Qed.
Lemma print_atom_cop a c : name_of nm a = [c] -> PrintAtom nm a = cop_text c.
Proof.
  intros H. assert (0 < a) by (apply name_pos; rewrite H; discriminate). unfold PrintAtom, cop_text. destruct (Z.eqb_spec a 0); [lia|].
  assert (E : forall l, find (fun p => copulaEquals nm a (fst p)) l = find (fun p : Z * text => c =? fst p) l).
  { induction l as [|p l IH]; cbn [find]; auto. rewrite (ceq_cop a c (fst p) H), IH. reflexivity. }
  rewrite E. destruct (find _ _) as [p|]; [reflexivity|exact H].
Qed.
Lemma print_atom_plain a n : name_of nm a = n -> plain_name n -> PrintAtom nm a = n.
Proof.
  intros H P. assert (0 < a) by (apply name_pos; rewrite H; apply P). unfold PrintAtom. destruct (Z.eqb_spec a 0); [lia|].
  cbn [find printed_copulas fst]. rewrite !(ceq_plain a n) by (auto; cbn; tauto). exact H.
Qed.
Lemma tree_cases t i : is_term t -> tree_at t i = E /\ at_ t i = 0 \/
  tree_at t i = N (at_ t i) (tree_at t (child i false)) (tree_at t (child i true)) /\ at_ t i <> 0.
Proof. intros H. rewrite (tree_at_unfold t i H). destruct (Z.eqb_spec (at_ t i) 0); auto. Qed.
Lemma print_empty fuel t i : at_ t i = 0 -> PrintTermRecursive nm fuel t i = [].
Proof. intros H. destruct fuel; cbn [PrintTermRecursive]; auto. rewrite H. reflexivity. Qed.
Lemma in63 t i : is_term t -> at_ t 63 = 0 -> at_ t i <> 0 -> (i + 1 <? SIZE)%nat = true.
Proof. intros H Z N. apply Nat.ltb_lt. pose proof (at_lt t i H N). unfold SIZE in *. destruct (Nat.eq_dec i 63) as [->|]; [congruence|lia]. Qed.
Lemma names_E tr : names_of nm tr = NE -> tr = E. Proof. destruct tr; [auto|discriminate]. Qed.
Lemma leaf_ch t i : is_term t -> tree_at t i = E -> at_ t i = 0.
Proof. intros H E0. destruct (tree_cases t i H) as [[_ Q]|[Q _]]; auto. congruence. Qed.
(** the terminator prints as nothing *)
Lemma print_terminator fuel t i : is_term t -> names_of nm (tree_at t i) = no_arg -> PrintTermRecursive nm fuel t i = [].
Proof.
  intros H E0. destruct fuel as [|fuel]; auto. destruct (tree_cases t i H) as [[Q _]|[Q NZ]]; rewrite Q in E0; [discriminate|].
  cbn [names_of] in E0. unfold no_arg in E0. injection E0 as EN EL ER. apply names_E, leaf_ch in EL; auto. apply names_E, leaf_ch in ER; auto. change (at_ t (child i false) = 0) in EL. change (at_ t (child i true) = 0) in ER.
  cbn [PrintTermRecursive]. destruct (Z.eqb_spec (at_ t i) 0); [contradiction|].
  fold_children i. rewrite EL, ER. cbn [Z.eqb negb]. rewrite !andb_false_r.
  rewrite !print_empty by auto. cbn [andb]. rewrite !(ceq_cop _ _ _ EN).
  generalize (child i false + 1 <? SIZE)%nat as b1, (child i true + 1 <? SIZE)%nat as b2. intros [] []; reflexivity.
Qed.
Lemma print_plain fuel t i n : is_term t -> plain_name n -> enough fuel i -> names_of nm (tree_at t i) = NN n NE NE -> PrintTermRecursive nm fuel t i = n.
Proof.
  intros H P EN E0. destruct (tree_cases t i H) as [[Q _]|[Q NZ]]; rewrite Q in E0; [discriminate|].
  destruct fuel as [|fuel]; [exfalso; pose proof (at_lt t i H NZ); unfold enough in EN; cbn in EN; lia|].
  cbn [names_of] in E0. injection E0 as E1 EL ER. apply names_E, leaf_ch in EL; auto. apply names_E, leaf_ch in ER; auto. change (at_ t (child i false) = 0) in EL. change (at_ t (child i true) = 0) in ER.
  cbn [PrintTermRecursive]. destruct (Z.eqb_spec (at_ t i) 0); [contradiction|].
  fold_children i. rewrite EL, ER. cbn [Z.eqb negb]. rewrite !andb_false_r.
  rewrite !print_empty by auto. cbn [andb]. rewrite !(ceq_plain _ n) by (auto; cbn; tauto). rewrite (print_atom_plain _ n) by auto.
  generalize (child i false + 1 <? SIZE)%nat as b1, (child i true + 1 <? SIZE)%nat as b2. intros [] []; cbn; rewrite ?app_nil_r; reflexivity.
Qed.
Lemma printable_nonempty n : printable n -> exists w l r, n = NN w l r.
Proof. destruct 1; eauto. Qed.
Lemma printable_at t i n : is_term t -> printable n -> names_of nm (tree_at t i) = n -> at_ t i <> 0.
Proof.
  intros H P E0. destruct (printable_nonempty n P) as (w & l & r & ->). destruct (tree_cases t i H) as [[Q _]|[Q NZ]]; auto. rewrite Q in E0. discriminate.
Qed.
Lemma printable_not_term n t i : is_term t -> printable n -> names_of nm (tree_at t i) = n -> copulaEquals nm (at_ t i) SET_TERMINATOR = false.
Proof.
  intros H P E0. destruct (tree_cases t i H) as [[Q _]|[Q NZ]]; rewrite Q in E0; cbn [names_of] in E0; [destruct (printable_nonempty n P) as (w & l & r & ->); discriminate|].
  destruct P as [n P|c l U P|c l r B P1 P2]; injection E0 as E1 _ _.
  - apply (ceq_plain _ n); auto. cbn. auto.
  - rewrite (ceq_cop _ _ _ E1). apply Z.eqb_neq. cbn in U. unfold unary_copula in U. cbn in U. intros ->. repeat (destruct U as [U|U]; [discriminate U|]). exact U.
  - rewrite (ceq_cop _ _ _ E1). apply Z.eqb_neq. apply B.
Qed.
Lemma printable_notE n : printable n -> n <> NE. Proof. destruct 1; discriminate. Qed.
Lemma ptext_unary c l : printable l -> ptext (NN [c] l no_arg) = opener c false :: (if is_set c then [] else [c; 32]) ++ ptext l ++ [closer c false].
Proof. intros P. destruct (printable_nonempty l P) as (w & l1 & r1 & ->). reflexivity. Qed.
Lemma ptext_binary c l r : printable l -> printable r -> ptext (NN [c] l r) =
      opener c (is_statement c) ::
      (if is_set c then ptext l ++ 32 :: ptext r
       else if c =? NEGATION then c :: 32 :: ptext l ++ 32 :: ptext r
       else ptext l ++ 32 :: cop_text c ++ 32 :: ptext r) ++ [closer c (is_statement c)].
Proof.
  intros P Q. assert (R : is_no_arg r = false).
  { unfold is_no_arg. destruct Q as [n P0|d l' U P'|d l' r' B P1' P2'].
    - destruct (isTok 64 n) eqn:X; auto. apply isTok_iff in X. exfalso. apply (proj2 (proj2 P0) 64); [cbn; auto|exact X].
    - cbn [isTok]. apply Z.eqb_neq. intros ->. cbn in U. repeat (destruct U as [U|U]; [discriminate U|]). exact U.
    - cbn [isTok]. apply Z.eqb_neq. apply B. }
  destruct (printable_nonempty l P) as (w & l1 & r1 & ->). cbn [ptext hd]. rewrite R. reflexivity.
Qed.
Lemma print_ok n : printable n -> forall fuel t i, is_term t -> at_ t 63 = 0 -> enough fuel i ->
  names_of nm (tree_at t i) = n -> PrintTermRecursive nm fuel t i = ptext n.
Proof.
  induction 1 as [n P|c l U P IH|c l r B P1 IH1 P2 IH2]; intros fuel t i T Z63 EN E0.
  - rewrite (print_plain fuel t i n) by auto. reflexivity.
  - destruct (tree_cases t i T) as [[Q _]|[Q NZ]]; rewrite Q in E0; [discriminate|].
    destruct fuel as [|fuel]; [exfalso; pose proof (at_lt t i T NZ); unfold enough in EN; cbn in EN; lia|].
    cbn [names_of] in E0. injection E0 as E1 EL ER. change (names_of nm (tree_at t (child i false)) = l) in EL. change (names_of nm (tree_at t (child i true)) = no_arg) in ER.
    assert (NL : at_ t (child i false) <> 0) by (eapply printable_at; eauto).
    assert (TR : copulaEquals nm (at_ t (child i true)) SET_TERMINATOR = true).
    { destruct (tree_cases t (child i true) T) as [[Q2 _]|[Q2 NZ2]]; rewrite Q2 in ER; cbn [names_of] in ER; [discriminate|]. injection ER as X _ _.
      rewrite (ceq_cop _ _ _ X). reflexivity. }
    rewrite ptext_unary by auto. cbn [PrintTermRecursive]. destruct (Z.eqb_spec (at_ t i) 0); [contradiction|].
    fold_children i.
    rewrite (in63 t (child i false)) by auto. rewrite TR. cbn [negb]. rewrite !andb_false_r. cbn [andb negb].
    rewrite !(ceq_cop _ c _ E1). destruct (Z.eqb_spec (at_ t (child i false)) 0); [contradiction|]. cbn [negb].
    rewrite (IH fuel t (child i false)) by (auto; apply enough_child; auto). rewrite (print_terminator fuel t (child i true)) by auto.
    rewrite (print_atom_cop _ c) by auto. generalize (child i true + 1 <? SIZE)%nat as b2. intros b2.
    clear - U. unfold unary_copula in U. cbn in U. repeat (destruct U as [<-|U]; [destruct b2; cbn; rewrite ?app_nil_r, <- ?app_assoc; reflexivity|]). destruct U.
  - destruct (tree_cases t i T) as [[Q _]|[Q NZ]]; rewrite Q in E0; [discriminate|].
    destruct fuel as [|fuel]; [exfalso; pose proof (at_lt t i T NZ); unfold enough in EN; cbn in EN; lia|].
    cbn [names_of] in E0. injection E0 as E1 EL ER. change (names_of nm (tree_at t (child i false)) = l) in EL. change (names_of nm (tree_at t (child i true)) = r) in ER.
    assert (NL : at_ t (child i false) <> 0) by exact (printable_at t _ l T P1 EL). assert (NR : at_ t (child i true) <> 0) by exact (printable_at t _ r T P2 ER).
    rewrite ptext_binary by auto. cbn [PrintTermRecursive]. destruct (Z.eqb_spec (at_ t i) 0); [contradiction|].
    fold_children i.
    rewrite (in63 t (child i false)), (in63 t (child i true)) by auto. rewrite (printable_not_term r t (child i true)) by auto.
    rewrite !(ceq_cop _ c _ E1). destruct (Z.eqb_spec (at_ t (child i false)) 0); [contradiction|]. destruct (Z.eqb_spec (at_ t (child i true)) 0); [contradiction|]. cbn [negb andb].
    rewrite (IH1 fuel t (child i false)) by (auto; apply enough_child; auto). rewrite (IH2 fuel t (child i true)) by (auto; apply enough_child; auto).
    rewrite (print_atom_cop _ c) by auto.
    clear - B. destruct B as (B & N). cbn in B. destruct B as [<-|B]; [congruence|].
    repeat (destruct B as [<-|B]; [cbn; rewrite ?app_nil_r, <- ?app_assoc; cbn; rewrite <- ?app_assoc; reflexivity|]). destruct B.
Qed.
End Print.
