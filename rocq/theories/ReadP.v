(** Proofs: the text of a printed term is read back as the same tree of names. *)
From Coq Require Import ZArith List Bool Lia.
From Verif Require Import Base HashM HashP StackM StackP HashTableM HashTableS HashTableP TermM TermS TermP NamesM AtomsM AtomsS AtomsP VariableM VariableP2 ParserM ParserS ParserP ParserP2 ParserP3 PrintP.
Local Open Scope Z_scope.

(** *** tokens *)
Definition T (l : text) : list name := strtok (expand l).
Definition TK (l : text) : list name := T (canon l).
Lemma expand_cons c l : expand (c :: l) = expand1 c ++ expand l. Proof. reflexivity. Qed.
Lemma T_space l : T (32 :: l) = T l. Proof. reflexivity. Qed.
Lemma T_open l : T (40 :: l) = OPEN :: T l. Proof. reflexivity. Qed.
Lemma T_close l : T (41 :: l) = CLOSE :: T l. Proof. reflexivity. Qed.
Definition stops (l : text) : Prop := match l with [] => True | c :: _ => c = 32 \/ c = 40 \/ c = 41 end.
Definition tokchar (c : Z) : Prop := c <> 32 /\ c <> 40 /\ c <> 41.
Lemma acc_stop w l : w <> [] -> stops l -> tokens_acc w (expand l) = w :: T l.
Proof.
  intros W S. destruct l as [|c l]; [cbn; destruct w; [congruence|reflexivity]|]. cbn in S. destruct w as [|x w]; [congruence|].
  destruct S as [-> | [-> | ->]]; reflexivity.
Qed.
Lemma acc_word w : forall acc l, Forall tokchar w -> acc ++ w <> [] -> stops l -> tokens_acc acc (expand (w ++ l)) = (acc ++ w) :: T l.
Proof.
  induction w as [|c w IH]; intros acc l F N S.
  - rewrite app_nil_r in *. apply acc_stop; auto.
  - inversion F as [|? ? (F1 & F2 & F3) F4]; subst. cbn [app]. rewrite expand_cons. unfold expand1, isBracket.
    destruct (Z.eqb_spec c 40); [congruence|]. destruct (Z.eqb_spec c 41); [congruence|]. cbn [orb app tokens_acc].
    destruct (Z.eqb_spec c 32); [congruence|]. rewrite IH; auto.
    + rewrite <- app_assoc. reflexivity.
    + destruct acc; discriminate.
Qed.
Lemma T_word w l : w <> [] -> Forall tokchar w -> stops l -> T (w ++ l) = w :: T l.
Proof. intros W F S. apply (acc_word w []); auto. Qed.

(** *** canonicalisation of printed text *)
Definition rstops (k : text) : Prop := match k with [] => True | c :: _ => In c [32; 41; 125; 93; 62] end.
Lemma canon_open_round k : canon (40 :: k) = 40 :: canon k. Proof. apply canon_plain. cbn. lia. Qed.
Lemma canon_sp k : canon (32 :: k) = 32 :: canon k. Proof. apply canon_plain. cbn. lia. Qed.
Lemma canon_close c k : In c [41; 125; 93; 62] -> canon (c :: k) = 41 :: canon k.
Proof.
  intros H. rewrite canon_step by discriminate. cbn in H. destruct H as [<-|[<-|[<-|[<-|[]]]]]; [|reflexivity..]. rewrite canon1_plain by (cbn; lia). reflexivity.
Qed.
Lemma canon_int k : canon (91 :: k) = 40 :: 39 :: 32 :: canon k. Proof. rewrite canon_step by discriminate. reflexivity. Qed.
Lemma canon_ext k : canon (123 :: k) = 40 :: 34 :: 32 :: canon k. Proof. rewrite canon_step by discriminate. reflexivity. Qed.
Lemma canon_lt k : nth 0 k 0 <> 45 -> nth 0 k 0 <> 61 -> canon (60 :: k) = 40 :: canon k.
Proof.
  intros A B. rewrite canon_step by discriminate. unfold canon1. cbn [nth]. apply Z.eqb_neq in A, B. rewrite A, B. reflexivity.
Qed.
Lemma rstops_stops k : rstops k -> stops (canon k).
Proof.
  destruct k as [|c k]; [reflexivity|]. cbn [rstops]. intros [<-|H]; [rewrite canon_sp; cbn; auto|]. rewrite canon_close by exact H. cbn. auto.
Qed.
Lemma canon_char c k : canon [c] = [c] -> canon (c :: 32 :: k) = c :: 32 :: canon k.
Proof.
  intros E0. change (c :: 32 :: k) with ([c] ++ 32 :: k). rewrite canon_space, E0; [reflexivity|].
  intros (p & Q). destruct p as [|x [|y p]]; discriminate Q.
Qed.
Lemma canon_cop c k : binary_copula c -> c <> EXT_SET -> c <> INT_SET -> canon (cop_text c ++ 32 :: k) = c :: 32 :: canon k.
Proof.
  intros (H & N) N1 N2. cbn in H.
  repeat (destruct H as [<-|H]; [first [congruence | apply canon_char; vm_compute; reflexivity | apply canon_copula; cbn; tauto]|]). destruct H.
Qed.
Lemma canon_single c k : unary_copula c -> is_set c = false -> canon (c :: 32 :: k) = c :: 32 :: canon k.
Proof.
  intros H N. cbn in H. repeat (destruct H as [<-|H]; [try discriminate N; apply canon_char; vm_compute; reflexivity|]). destruct H.
Qed.
(** the first character of a printed term is no dash or equals sign *)
Lemma ptext_first n k : printable n -> nth 0 (ptext n ++ k) 0 <> 45 /\ nth 0 (ptext n ++ k) 0 <> 61 /\ ptext n <> [].
Proof.
  intros P. assert (O : forall c b, opener c b <> 45 /\ opener c b <> 61).
  { intros c b. unfold opener. destruct (c =? EXT_SET); [lia|]. destruct (c =? INT_SET); [lia|]. destruct b; lia. }
  destruct P as [n (P1 & P2 & P3)|c l U P|c l r B P1 P2].
  - cbn [ptext]. destruct n as [|x n]; [congruence|]. cbn. inversion P2 as [|? ? (S1 & _) _]; subst. split; [|split; [|discriminate]]; intros ->; apply S1; cbn; tauto.
  - rewrite ptext_unary by auto. cbn [app nth]. split; [|split; [|discriminate]]; apply O.
  - rewrite ptext_binary by auto. cbn [app nth]. split; [|split; [|discriminate]]; apply O.
Qed.
Fixpoint nnodes (n : ntree) : nat := match n with NE => 0 | NN _ l r => 1 + nnodes l + nnodes r end.
Lemma tok_char c : In c CanonicalCopulas -> tokchar c.
Proof. intros H. cbn in H. unfold tokchar. repeat (destruct H as [<-|H]; [repeat split; discriminate|]). destruct H. Qed.
Lemma unary_canonical c : unary_copula c -> In c CanonicalCopulas.
Proof. intros H. cbn in H. repeat (destruct H as [<-|H]; [cbn; tauto|]). destruct H. Qed.
Lemma set_cases c : is_set c = true -> c = EXT_SET \/ c = INT_SET.
Proof. unfold is_set. intros H. apply orb_prop in H as [H|H]; apply Z.eqb_eq in H; auto. Qed.
Lemma set_false c : is_set c = false -> c <> EXT_SET /\ c <> INT_SET.
Proof. unfold is_set. intros H. apply orb_false_elim in H as [H1 H2]. apply Z.eqb_neq in H1, H2. auto. Qed.
Lemma closer_in c b : In (closer c b) [41; 125; 93; 62].
Proof. unfold closer. destruct (c =? EXT_SET), (c =? INT_SET), b; cbn; tauto. Qed.
Lemma T1 c k : In c CanonicalCopulas -> T (c :: 32 :: k) = [c] :: T k.
Proof. intros H. change (c :: 32 :: k) with ([c] ++ 32 :: k). rewrite T_word; [reflexivity|discriminate|repeat constructor; apply tok_char; auto|cbn; auto]. Qed.
Lemma read_tokens n : printable n -> exists ts, parses ts n /\ (length ts <= 3 * nnodes n)%nat /\ (forall c, In c CanonicalCopulas -> nth 0 ts [] <> [c]) /\
  forall k, rstops k -> TK (ptext n ++ k) = ts ++ TK k.
Proof.
  induction 1 as [n P|c l U P (tl & PL & LL & FL & HL)|c l r B P1 (tl & PL & LL & FL & HL) P2 (tr & PR & LR & FR & HR)].
  - exists [n]. destruct P as (N & F & C). split.
    { constructor. destruct n as [|x n]; [congruence|]. inversion F as [|? ? (_ & _ & A & B & _) _]; subst. exists x, n. auto. }
    split; [cbn; lia|]. split; [cbn; auto|]. intros k K. cbn [ptext]. unfold TK. rewrite canon_plain_app by (eapply Forall_impl; [|exact F]; intros a Q; apply Q).
    rewrite T_word; auto; [eapply Forall_impl; [|exact F]; intros a Q; unfold tokchar; split; [|split]; apply Q|apply rstops_stops; auto].
  - exists (OPEN :: [c] :: tl ++ [] ++ [CLOSE]). split; [apply p_prefix; auto; [apply unary_canonical; auto|constructor]|].
    split; [cbn [length nnodes app]; rewrite app_length; cbn [length nnodes no_arg]; unfold no_arg; cbn [nnodes]; lia|].
    split; [intros d D; cbn; intros [= <-]; cbn in D; repeat (destruct D as [D|D]; [discriminate D|]); exact D|].
    intros k K. rewrite ptext_unary by auto. assert (IN := unary_canonical c U).
    assert (CL : TK (closer c false :: k) = CLOSE :: TK k) by (unfold TK; rewrite canon_close by apply closer_in; apply T_close).
    assert (RC : rstops (closer c false :: k)) by (cbn [rstops]; right; apply closer_in).
    destruct (is_set c) eqn:SET.
    + repeat progress (cbn [app]; rewrite <- ?app_assoc). cbn [app]. 
      assert (X : TK (opener c false :: ptext l ++ closer c false :: k) = OPEN :: [c] :: TK (ptext l ++ closer c false :: k)).
      { unfold TK. destruct (set_cases c SET) as [-> | ->]; unfold opener; cbn [Z.eqb Pos.eqb EXT_SET INT_SET]; [rewrite canon_ext|rewrite canon_int]; rewrite T_open, T1 by auto; reflexivity. }
      rewrite X, HL by auto. rewrite CL. reflexivity.
    + destruct (set_false c SET) as [N1 N2]. assert (OP : opener c false = 40) by (unfold opener; apply Z.eqb_neq in N1, N2; rewrite N1, N2; reflexivity).
      rewrite OP. repeat progress (cbn [app]; rewrite <- ?app_assoc). cbn [app]. 
      assert (X : TK (40 :: c :: 32 :: ptext l ++ closer c false :: k) = OPEN :: [c] :: TK (ptext l ++ closer c false :: k)).
      { unfold TK. rewrite canon_open_round, canon_single, T_open, T1 by auto. reflexivity. }
      rewrite X, HL by auto. rewrite CL. reflexivity.
  - rewrite ptext_binary by auto. assert (IN := proj1 B). set (st := is_statement c).
    assert (CL : forall k, TK (closer c st :: k) = CLOSE :: TK k) by (intros k; unfold TK; rewrite canon_close by apply closer_in; apply T_close).
    assert (RC : forall k, rstops (closer c st :: k)) by (intros k; cbn [rstops]; right; apply closer_in).
    assert (SP : forall k, TK (32 :: k) = TK k) by (intros k; unfold TK; rewrite canon_sp; apply T_space).
    assert (RS : forall k, rstops (32 :: k)) by (intros k; cbn; auto).
    assert (NO : forall d, In d CanonicalCopulas -> OPEN <> [d]) by (intros d D; intros [= <-]; cbn in D; repeat (destruct D as [D|D]; [discriminate D|]); exact D).
    assert (PRE : parses (OPEN :: [c] :: tl ++ (tr ++ []) ++ [CLOSE]) (NN [c] l r)) by (apply p_prefix; auto; constructor; auto; constructor).
    assert (INF : parses (OPEN :: tl ++ [c] :: (tr ++ []) ++ [CLOSE]) (NN [c] l r)).
    { change [c] with (firstn 1 [c]) at 2. apply p_infix; auto; [apply cop_word; auto|]. constructor; auto. constructor. }
    assert (E1 : forall k, (tl ++ (tr ++ []) ++ [CLOSE]) ++ k = tl ++ tr ++ CLOSE :: k) by (intros k; rewrite app_nil_r, <- !app_assoc; reflexivity).
    assert (E2 : forall k, (tl ++ [c] :: (tr ++ []) ++ [CLOSE]) ++ k = tl ++ [c] :: tr ++ CLOSE :: k) by (intros k; rewrite app_nil_r, <- !app_assoc; cbn [app]; rewrite <- !app_assoc; reflexivity).
    destruct (is_set c) eqn:SET; [|destruct (Z.eqb_spec c NEGATION) as [NG|NG]].
    + exists (OPEN :: [c] :: tl ++ (tr ++ []) ++ [CLOSE]). split; [exact PRE|].
      split; [cbn [length nnodes]; rewrite !app_length; cbn [length]; lia|]. split; [exact NO|]. intros k K.
      repeat progress (cbn [app]; rewrite <- ?app_assoc). cbn [app]. 
      set (rest := ptext l ++ 32 :: ptext r ++ closer c st :: k).
      assert (X : TK (opener c st :: rest) = OPEN :: [c] :: TK rest).
      { unfold TK. destruct (set_cases c SET) as [-> | ->]; unfold opener; cbn [Z.eqb Pos.eqb EXT_SET INT_SET]; [rewrite canon_ext|rewrite canon_int]; rewrite T_open, T1 by auto; reflexivity. }
      rewrite X. unfold rest. rewrite HL, SP, HR, CL by auto. reflexivity.
    + exists (OPEN :: [c] :: tl ++ (tr ++ []) ++ [CLOSE]). split; [exact PRE|].
      split; [cbn [length nnodes]; rewrite !app_length; cbn [length]; lia|]. split; [exact NO|]. intros k K.
      assert (OP : opener c st = 40) by (unfold st; rewrite NG; reflexivity). rewrite OP.
      repeat progress (cbn [app]; rewrite <- ?app_assoc). cbn [app]. 
      set (rest := ptext l ++ 32 :: ptext r ++ closer c st :: k).
      assert (X : TK (40 :: c :: 32 :: rest) = OPEN :: [c] :: TK rest).
      { unfold TK. rewrite canon_open_round, canon_single, T_open, T1 by (auto; rewrite NG; cbn; auto). reflexivity. }
      rewrite X. unfold rest. rewrite HL, SP, HR, CL by auto. reflexivity.
    + exists (OPEN :: tl ++ [c] :: (tr ++ []) ++ [CLOSE]). split; [exact INF|].
      split; [cbn [length nnodes]; rewrite !app_length; cbn [length]; rewrite !app_length; cbn [length]; lia|]. split; [exact NO|]. intros k K.
      destruct (set_false c SET) as [N1 N2].
      repeat progress (cbn [app]; rewrite <- ?app_assoc). cbn [app]. 
      set (rest := ptext l ++ 32 :: cop_text c ++ 32 :: ptext r ++ closer c st :: k).
      assert (X : TK (opener c st :: rest) = OPEN :: TK rest).
      { unfold TK, opener. apply Z.eqb_neq in N1, N2. rewrite N1, N2. destruct st; [rewrite canon_lt by (apply ptext_first; auto)|rewrite canon_open_round]; rewrite T_open; reflexivity. }
      rewrite X. unfold rest. rewrite HL, SP by auto.
      assert (Y : forall k, TK (cop_text c ++ 32 :: k) = [c] :: TK k) by (intros k'; unfold TK; rewrite canon_cop, T1 by auto; reflexivity).
      rewrite Y, HR, CL by auto. reflexivity.
Qed.
Lemma nodes_fit fuel : forall n i, nfits SIZE n i -> enough fuel i -> (nnodes n <= 2 ^ fuel - 1)%nat.
Proof.
  induction fuel as [|fuel IH]; intros n i F EN; destruct n as [|w l r]; cbn [nnodes nfits] in *; try lia.
  - destruct F as (F & _). unfold enough in EN. cbn in EN. lia.
  - destruct F as (F & FL & FR). pose proof (IH l _ FL (enough_child _ _ _ EN)). pose proof (IH r _ FR (enough_child _ _ _ EN)). cbn [Nat.pow]. lia.
Qed.

(** *** reading a well-formed text *)
Section Cap.
Variable cap : nat.
Lemma ainv_symbols ns st is : symbols cap ns = Ok (st, is) -> ainv cap st /\ (length (a_names st) <= cap)%nat /\ a_names st = firsts [] (map block (init_list ++ ns)).
Proof.
  intros E0. destruct cap as [|c]; [discriminate E0|]. assert (P : (0 < S c)%nat) by lia. clear - E0 P. set (cap0 := S c) in *. clearbody cap0.
  unfold symbols, Narsese_INIT in E0.
  destruct (@init_ok name Z StringEqual StringHash cap0 cap0 P) as (h0 & Bs & free & EI & I & S & L). rewrite EI in E0. cbn [rbind] in E0.
  assert (I0 : ainv cap0 (mkA h0 [])) by (split; [constructor|exists Bs, free; auto]).
  pose proof (intern_all_ok cap0 init_list _ I0) as X. cbn [a_names] in X. rewrite init_firsts in X.
  rewrite map_app, firsts_app, init_firsts.
  destruct (Nat.leb_spec (length init_list) cap0) as [Q|Q]; [|rewrite X in E0 by (cbn; lia); discriminate E0].
  destruct X as (s1 & is1 & E1 & I1 & N1 & _ & _). rewrite E1 in E0. cbn [rbind] in E0. pose proof (intern_all_ok cap0 ns s1 I1) as Y. rewrite N1 in Y.
  destruct (Nat.leb_spec (length (firsts init_list (map block ns))) cap0) as [Q2|Q2]; [|rewrite Y in E0 by exact Q; discriminate E0].
  destruct Y as (s2 & is2 & E2 & I2 & N2 & _). rewrite E2 in E0. injection E0 as <- <-. rewrite N2. auto.
Qed.
Definition normalised (st : astate) (t : term) : res (astate * term) := do t' <- Normalize (a_names st) t ; Ok (st, t').
Lemma term_ok st s n : ainv cap st -> (length (a_names st) <= cap)%nat -> (length s + 3 <= NARSESE_LEN_MAX)%nat -> parses (TK s) n -> nfits SIZE n 0 ->
  (length (TK s) <= NARSESE_LEN_MAX)%nat ->
  if (length (firsts (a_names st) (map block (mentioned n))) <=? cap)%nat
  then exists st' tr, Narsese_Term cap st s = normalised st' (wr tr 0 zero_term) /\ ainv cap st' /\
         a_names st' = firsts (a_names st) (map block (mentioned n)) /\ labelled (a_names st') n tr /\ (length (a_names st') = length (a_names st) -> st' = st)
  else Narsese_Term cap st s = Abort.
Proof.
  intros I L LS P F LT. unfold Narsese_Term. pose proof (expand_ok s) as X. destruct (Nat.leb_spec (length s + 3) NARSESE_LEN_MAX); [|lia]. rewrite X. cbn [rbind].
  unfold Narsese_PrefixTransform. change (strtok (expand (canon s))) with (TK s). destruct (Nat.leb_spec (length (TK s)) (NARSESE_LEN_MAX + 1)); [|lia]. cbn [rbind].
  destruct (prefix_all_ok _ _ P) as (PF & PL). rewrite PL. destruct (Nat.leb_spec (length (TK s)) NARSESE_LEN_MAX); [|lia].
  pose proof (proj1 (build_ok cap) _ _ PF [] [] st zero_term 1%nat (S (length (TK s))) I L (le_n 1) F) as B. rewrite app_nil_r in B. cbn [app length Nat.sub] in B.
  specialize (B ltac:(lia)). unfold built in B.
  destruct (length (firsts (a_names st) (map block (mentioned n))) <=? cap)%nat; [|rewrite B; reflexivity].
  destruct B as (st' & tr & -> & I' & N' & LB & SAME). exists st', tr. split; [reflexivity|auto].
Qed.
End Cap.
(** *** the tree of names determines the tree *)
Lemma name_of_in nm a : name_of nm a <> [] -> 1 <= a <= Z.of_nat (length nm) /\ nth_error nm (Z.to_nat (a - 1)) = Some (name_of nm a).
Proof.
  unfold name_of. destruct (Z.leb_spec a 0); [congruence|]. intros N. assert (Z.to_nat (a - 1) < length nm)%nat.
  { destruct (Nat.lt_ge_cases (Z.to_nat (a - 1)) (length nm)) as [Q|Q]; auto. rewrite nth_overflow in N by auto. congruence. }
  split; [lia|]. rewrite (nth_error_nth' nm [] H0). reflexivity.
Qed.
Fixpoint named (n : ntree) : Prop := match n with NE => True | NN w l r => w <> [] /\ named l /\ named r end.
Lemma printable_named n : printable n -> named n.
Proof. induction 1 as [n P|c l U P IH|c l r B P1 IH1 P2 IH2]; cbn; repeat split; auto; try discriminate. apply P. Qed.
Lemma labelled_back nm : NoDup nm -> (forall x, In x nm -> block x = x) -> Z.of_nat (length nm) < 65536 -> forall tr tr', named (names_of nm tr) -> labelled nm (names_of nm tr) tr' -> tr' = tr.
Proof.
  intros ND BL LN. induction tr as [|a l IHl r IHr]; intros [|a' l' r'] N H; cbn [names_of labelled named] in H, N; try contradiction; auto.
  destruct N as (N0 & NL & NR). destruct H as ((k & K1 & ->) & HL & HR). rewrite (IHl l'), (IHr r') by auto. f_equal.
  destruct (name_of_in nm a N0) as (R & E0). assert (BA : block (name_of nm a) = name_of nm a) by (apply BL; eapply nth_error_In; eauto).
  rewrite BA in K1. assert (KL : (k < length nm)%nat) by (apply nth_error_Some; congruence).
  assert (k = Z.to_nat (a - 1)) by (apply (proj1 (NoDup_nth_error nm) ND); auto; congruence).
  unfold to_atom. rewrite Z.mod_small; lia.
Qed.
Lemma mentioned_in nm tr : (forall x, In x nm -> block x = x) -> named (names_of nm tr) -> forall x, In x (map block (mentioned (names_of nm tr))) -> In x nm.
Proof.
  intros BL. induction tr as [|a l IHl r IHr]; cbn [names_of mentioned map named]; [intros _ x []|]. intros (N0 & NL & NR) x [<-|H].
  - destruct (name_of_in nm a N0) as (R & E0). apply nth_error_In in E0. rewrite BL; auto.
  - rewrite map_app, in_app_iff in H. destruct H; auto.
Qed.
Lemma firsts_known nm l : (forall x, In x l -> In x nm) -> firsts nm l = nm.
Proof. induction l as [|x l IH]; intros H; cbn [firsts]; auto. destruct (in_dec name_dec x nm); [apply IH; intros; apply H; cbn; auto|]. exfalso. apply n, H. cbn. auto. Qed.
Lemma block_block x : block (block x) = block x. Proof. unfold block. rewrite firstn_firstn. reflexivity. Qed.
Lemma firsts_blocks l : forall acc, (forall x, In x acc -> block x = x) -> forall x, In x (firsts acc (map block l)) -> block x = x.
Proof.
  induction l as [|n l IH]; intros acc A x; cbn [map firsts]; auto. destruct (in_dec name_dec (block n) acc); apply IH; auto.
  intros y. rewrite in_app_iff. intros [H|[<-|[]]]; auto. apply block_block.
Qed.
Lemma names_nfits nm tr : forall i, fits tr i -> nfits SIZE (names_of nm tr) i.
Proof. induction tr as [|a l IHl r IHr]; intros i; cbn; auto. intros (A & B & C). auto. Qed.
Lemma fits_root t : closed t -> fits (tree_at t 0) 0.
Proof.
  intros C. destruct (Z.eq_dec (at_ t 0) 0) as [Q|Q]; [|apply fits_in_place; auto]. rewrite tree_at_unfold by apply C. rewrite Q. exact I.
Qed.
Lemma enough7 : enough 7 0. Proof. unfold enough, SIZE. cbn. lia. Qed.
(** slot 63 has no sibling, so no printable term uses it *)
Fixpoint full (tr : tree) : Prop := match tr with E => True | N _ l r => (l <> E -> r <> E) /\ full l /\ full r end.
Lemma printable_full nm n : printable n -> forall tr, names_of nm tr = n -> full tr.
Proof.
  induction 1 as [n P|c l U P IH|c l r B P1 IH1 P2 IH2]; intros [|a l' r'] E0; try discriminate E0; injection E0 as E1 E2 E3; cbn [full].
  - destruct l', r'; try discriminate E2; try discriminate E3. cbn. tauto.
  - split; [|split; [apply IH; auto|]]; (destruct r' as [|a2 l2 r2]; [discriminate E3|]); [discriminate|]. injection E3 as _ E4 E5. destruct l2, r2; try discriminate E4; try discriminate E5. cbn. tauto.
  - split; [|split; [apply IH1|apply IH2]; auto]. intros _ ->. destruct P2; discriminate E3.
Qed.
Lemma full_63 t : closed t -> full (tree_at t 0) -> at_ t 63 = 0.
Proof.
  intros (TT & C) F. destruct (Z.eq_dec (at_ t 63) 0) as [|N]; auto. exfalso.
  assert (N31 := C 31%nat false N). assert (N15 := C 15%nat false N31). assert (N7 := C 7%nat false N15). assert (N3 := C 3%nat false N7). assert (N1 := C 1%nat false N3). assert (N0 := C 0%nat false N1).
  assert (ST : forall i, at_ t i <> 0 -> full (tree_at t i) -> full (tree_at t (child i false)) /\ (at_ t (child i false) <> 0 -> at_ t (child i true) <> 0)).
  { intros i Hi Hf. rewrite (tree_at_unfold t i TT) in Hf. destruct (Z.eqb_spec (at_ t i) 0); [contradiction|]. destruct Hf as (H1 & H2 & _). split; auto.
    intros H3 H4. apply H1.
    - rewrite (tree_at_unfold t (child i false) TT). destruct (Z.eqb_spec (at_ t (child i false)) 0); [contradiction|discriminate].
    - rewrite (tree_at_unfold t (child i true) TT). destruct (Z.eqb_spec (at_ t (child i true)) 0); [reflexivity|contradiction]. }
  destruct (ST 0%nat N0 F) as (F1 & _). destruct (ST 1%nat N1 F1) as (F3 & _). destruct (ST 3%nat N3 F3) as (F7 & _). destruct (ST 7%nat N7 F7) as (F15 & _).
  destruct (ST 15%nat N15 F15) as (F31 & _). destruct (ST 31%nat N31 F31) as (_ & G). specialize (G N). pose proof (at_lt t _ TT G) as B. unfold SIZE in B. cbn in B. lia.
Qed.
Lemma round_trip cap ns st is t : symbols cap ns = Ok (st, is) -> Z.of_nat (length (a_names st)) < 65536 -> closed t ->
  printable (names_of (a_names st) (tree_at t 0)) -> (length (PrintTerm (a_names st) t) + 3 <= NARSESE_LEN_MAX)%nat ->
  Narsese_Term cap st (PrintTerm (a_names st) t) = do t' <- Normalize (a_names st) t ; Ok (st, t').
Proof.
  intros S0 LN C P LP. assert (Z63 : at_ t 63 = 0) by (apply full_63; auto; eapply printable_full; eauto). destruct (ainv_symbols cap ns st is S0) as (I & LC & NMS). set (nm := a_names st) in *.
  assert (PT : PrintTerm nm t = ptext (names_of nm (tree_at t 0))) by (apply print_ok; auto; [apply C|apply enough7]).
  rewrite PT in *. set (n := names_of nm (tree_at t 0)) in *.
  destruct (read_tokens n P) as (ts & PA & LT & _ & TKn). specialize (TKn [] Logic.I). change (TK []) with (@nil name) in TKn. rewrite !app_nil_r in TKn.
  assert (F : nfits SIZE n 0) by (apply names_nfits, fits_root; auto).
  pose proof (nodes_fit 7 n 0 F enough7) as NN7. change (2 ^ 7 - 1)%nat with 127%nat in NN7. pose proof NLMz.
  assert (BL : forall x, In x nm -> block x = x) by (rewrite NMS; apply firsts_blocks; intros x []).
  assert (NMD := printable_named n P).
  assert (FK : firsts nm (map block (mentioned n)) = nm) by (apply firsts_known, mentioned_in; auto).
  pose proof (term_ok cap st (ptext n) n I LC LP) as TO. rewrite TKn in TO. specialize (TO PA F). specialize (TO ltac:(lia)). fold nm in TO. rewrite FK in TO.
  destruct (Nat.leb_spec (length nm) cap); [|lia]. destruct TO as (st' & tr & -> & I' & N' & LB & SAME).
  assert (tr = tree_at t 0) by (rewrite N' in LB; apply (labelled_back nm); auto; apply I). subst tr.
  assert (W : wr (tree_at t 0) 0 zero_term = t).
  { destruct (labelled_names (a_names st') n) with (tr := tree_at t 0) as (NZ & _); [rewrite N'; exact LN|exact LB|].
    destruct (wr_tree (tree_at t 0) NZ (fits_root t C)) as (CW & TW). apply closed_same_tree; auto. }
  rewrite W. unfold normalised. rewrite N'.
  assert (ST : st' = st).
  { apply SAME. rewrite N'. reflexivity. }
  rewrite ST. reflexivity.
Qed.
