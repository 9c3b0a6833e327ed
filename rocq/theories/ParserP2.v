(** Proofs about the token stages of the parser: bringing compounds into prefix form and building
    the term. *)
From Coq Require Import ZArith List Bool Lia.
From Verif Require Import Base TermM TermS TermP NamesM AtomsM AtomsS AtomsP ParserM ParserS ParserP.
Local Open Scope nat_scope.

Scheme parses_ind3 := Minimality for parses Sort Prop
  with second_ind3 := Minimality for second Sort Prop
  with others_ind3 := Minimality for others Sort Prop.
Combined Scheme parse_ind from parses_ind3, second_ind3, others_ind3.

Lemma isTok_iff c t : isTok c t = true <-> t = [c].
Proof. destruct t as [|x [|]]; cbn; try (split; discriminate). rewrite Z.eqb_eq. split; [intros ->; auto|congruence]. Qed.
Lemma word_tok w : word w -> isTok 40 w = false /\ isTok 41 w = false.
Proof.
  intros (c & w' & -> & H1 & H2). destruct w'; cbn; auto. split; apply Z.eqb_neq; auto.
Qed.
Lemma word_cut w : word w -> word (firstn 1 w).
Proof. intros (c & w' & -> & H). exists c, []. auto. Qed.
Lemma cop_word c : In c CanonicalCopulas -> word [c].
Proof. intros H. exists c, []. split; auto. cbn in H. repeat (destruct H as [<-|H]; [split; discriminate|]). destruct H. Qed.
Lemma copTok_iff t : isCopulaTok t = true <-> exists c, In c CanonicalCopulas /\ t = [c].
Proof.
  unfold isCopulaTok. rewrite existsb_exists. split; intros (c & H1 & H2); exists c; split; auto; apply isTok_iff; auto.
Qed.

(** bracket sequences relative to a positive depth *)
Inductive bal : list name -> Prop :=
| bal_nil : bal []
| bal_word w ts : isTok 40 w = false -> isTok 41 w = false -> bal ts -> bal (w :: ts)
| bal_br a ts : bal a -> bal ts -> bal (OPEN :: a ++ CLOSE :: ts).
Lemma bal_app a b : bal a -> bal b -> bal (a ++ b).
Proof.
  induction 1 as [|w ts H1 H2 B IH|a ts Ba IHa Bt IHt]; intros Hb; cbn [app]; [exact Hb|apply bal_word; auto|].
  rewrite <- app_assoc. cbn [app]. apply bal_br; auto.
Qed.
Lemma skip_open k i d : (0 <= d)%Z -> skip_loop (OPEN :: k) i d = skip_loop k (S i) (d + 1).
Proof. intros H. cbn [skip_loop isTok OPEN Z.eqb Pos.eqb]. replace (d + 1 - 0)%Z with (d + 1)%Z by lia. destruct (Z.eqb_spec (d + 1) 0); [lia|reflexivity]. Qed.
Lemma skip_close k i d : (1 < d)%Z -> skip_loop (CLOSE :: k) i d = skip_loop k (S i) (d - 1).
Proof. intros H. cbn [skip_loop isTok CLOSE Z.eqb Pos.eqb]. replace (d + 0 - 1)%Z with (d - 1)%Z by lia. destruct (Z.eqb_spec (d - 1) 0); [lia|reflexivity]. Qed.
Lemma skip_close1 k i : skip_loop (CLOSE :: k) i 1 = S i. Proof. reflexivity. Qed.
Lemma skip_word w k i d : isTok 40 w = false -> isTok 41 w = false -> (0 < d)%Z -> skip_loop (w :: k) i d = skip_loop k (S i) d.
Proof. intros H1 H2 H. cbn [skip_loop]. rewrite H1, H2. replace (d + 0 - 0)%Z with d by lia. destruct (Z.eqb_spec d 0); [lia|reflexivity]. Qed.
Lemma skip_bal a : bal a -> forall k i d, (0 < d)%Z -> skip_loop (a ++ k) i d = skip_loop k (i + length a) d.
Proof.
  induction 1 as [|w ts H1 H2 B IH|a ts Ba IHa Bt IHt]; intros k i d Hd; cbn [app length].
  - rewrite Nat.add_0_r. reflexivity.
  - rewrite skip_word by auto. rewrite IH by lia. f_equal. lia.
  - rewrite skip_open by lia. rewrite <- app_assoc. cbn [app]. rewrite IHa by lia. rewrite skip_close by lia.
    rewrite IHt by lia. rewrite app_length. cbn [length]. f_equal; lia.
Qed.
(** one expression: a word or one bracketed balanced sequence *)
Inductive unit_ : list name -> Prop :=
| u_word w : isTok 40 w = false -> isTok 41 w = false -> unit_ [w]
| u_br a : bal a -> unit_ (OPEN :: a ++ [CLOSE]).
Lemma unit_bal u : unit_ u -> bal u. Proof. destruct 1; [apply bal_word; auto; constructor|]. apply bal_br; auto. constructor. Qed.
Lemma skip_unit u k i : unit_ u -> skip_loop (u ++ k) i 0 = i + length u.
Proof.
  destruct 1 as [w H1 H2|a B]; cbn [app length].
  - cbn [skip_loop]. rewrite H1, H2. cbn. lia.
  - rewrite skip_open by lia. rewrite <- app_assoc. cbn [app]. rewrite skip_bal by (auto; lia). change (0 + 1)%Z with 1%Z. rewrite skip_close1.
    rewrite app_length. cbn [length]. lia.
Qed.
Lemma skipCompound_unit pre u k : unit_ u -> skipCompound (pre ++ u ++ k) (length pre) = length pre + length u.
Proof.
  intros U. unfold skipCompound. rewrite skipn_app, skipn_all2, Nat.sub_diag by lia. cbn [skipn app]. apply skip_unit. exact U.
Qed.

(** prefix form *)
Inductive pform : list name -> ntree -> Prop :=
| f_word w : word w -> pform [w] (NN w NE NE)
| f_comp w t1 l ts r : word w -> pform t1 l -> psecond ts r -> pform (OPEN :: w :: t1 ++ ts ++ [CLOSE]) (NN w l r)
with psecond : list name -> ntree -> Prop :=
| fs_none : psecond [] no_arg
| fs_some t2 r more : pform t2 r -> bal more -> psecond (t2 ++ more) r.
Scheme pform_ind2 := Minimality for pform Sort Prop with psecond_ind2 := Minimality for psecond Sort Prop.
Combined Scheme pform_both from pform_ind2, psecond_ind2.

Lemma pform_unit : (forall ts tr, pform ts tr -> unit_ ts) /\ (forall ts tr, psecond ts tr -> bal ts).
Proof.
  apply pform_both.
  - intros w H. apply word_tok in H as [H1 H2]. constructor; auto.
  - intros w t1 l ts r H _ U _ B. apply word_tok in H as [H1 H2].
    replace (OPEN :: w :: t1 ++ ts ++ [CLOSE]) with (OPEN :: (w :: t1 ++ ts) ++ [CLOSE]) by (cbn [app]; rewrite <- app_assoc; reflexivity).
    apply u_br. apply bal_word; auto. apply bal_app; auto. apply unit_bal. auto.
  - constructor.
  - intros t2 r more _ U B. apply bal_app; auto. apply unit_bal. auto.
Qed.
Lemma parses_unit : (forall ts tr, parses ts tr -> unit_ ts) /\ (forall ts tr, second ts tr -> bal ts) /\ (forall ts, others ts -> bal ts).
Proof.
  apply parse_ind.
  - intros w H. apply word_tok in H as [H1 H2]. constructor; auto.
  - intros c t1 l ts r H _ U _ B. apply cop_word, word_tok in H as [H1 H2].
    replace (OPEN :: [c] :: t1 ++ ts ++ [CLOSE]) with (OPEN :: ([c] :: t1 ++ ts) ++ [CLOSE]) by (cbn [app]; rewrite <- app_assoc; reflexivity).
    apply u_br. apply bal_word; auto. apply bal_app; auto. apply unit_bal. auto.
  - intros op t1 l ts r H _ U _ _ B. apply word_tok in H as [H1 H2].
    replace (OPEN :: t1 ++ op :: ts ++ [CLOSE]) with (OPEN :: (t1 ++ op :: ts) ++ [CLOSE]) by (rewrite <- app_assoc; reflexivity).
    apply u_br. apply bal_app; [apply unit_bal; auto|]. apply bal_word; auto.
  - constructor.
  - intros t2 r more _ U _ B. apply bal_app; auto. apply unit_bal. auto.
  - constructor.
  - intros t x more _ U _ B. apply bal_app; auto. apply unit_bal. auto.
Qed.

(** *** the rounds of the prefix transformation *)
Lemma prefix1_other pre t k : isTok 40 t = false -> prefix1 (pre ++ t :: k) (length pre) = pre ++ t :: k.
Proof. intros H. unfold prefix1. rewrite app_nth2, Nat.sub_diag by lia. cbn [nth]. rewrite H. reflexivity. Qed.
Lemma prefix1_copula pre c k : isCopulaTok c = true -> prefix1 (pre ++ OPEN :: c :: k) (length pre) = pre ++ OPEN :: c :: k.
Proof.
  intros H. unfold prefix1. rewrite (app_nth2 _ _ _ (n := length pre + 1)) by lia. replace (length pre + 1 - length pre) with 1 by lia. cbn [nth].
  rewrite H, andb_false_r. reflexivity.
Qed.
Lemma prefix1_infix pre u op k : unit_ u -> isCopulaTok (nth 0 u []) = false ->
  prefix1 (pre ++ OPEN :: u ++ op :: k) (length pre) = pre ++ OPEN :: firstn 1 op :: u ++ k.
Proof.
  intros U H. unfold prefix1. rewrite (app_nth2 _ _ _ (n := length pre)) by lia. rewrite (app_nth2 _ _ _ (n := length pre + 1)) by lia.
  rewrite Nat.sub_diag. replace (length pre + 1 - length pre) with 1 by lia.
  assert (LU : 0 < length u) by (destruct U; cbn; lia).
  change (nth 0 (OPEN :: u ++ op :: k) []) with OPEN. change (nth 1 (OPEN :: u ++ op :: k) []) with (nth 0 (u ++ op :: k) []).
  rewrite (app_nth1 u) by lia. rewrite H. change (isTok 40 OPEN) with true. cbn [andb negb].
  set (L := pre ++ OPEN :: u ++ op :: k). assert (EL : L = (pre ++ [OPEN]) ++ u ++ op :: k) by (unfold L; rewrite <- app_assoc; reflexivity).
  assert (S1 : skipCompound L (length pre + 1) = length pre + 1 + length u).
  { rewrite EL. replace (length pre + 1) with (length (pre ++ [OPEN])) by (rewrite app_length; reflexivity). apply skipCompound_unit. exact U. }
  rewrite S1. assert (LL : length L = length pre + 1 + length u + 1 + length k) by (unfold L; rewrite app_length; cbn [length]; rewrite app_length; cbn [length]; lia).
  destruct (Nat.ltb_spec (length pre + 1 + length u) (length L)); [|lia].
  replace (length pre + 1 + length u - (length pre + 1)) with (length u) by lia.
  assert (P1 : length (pre ++ [OPEN]) = length pre + 1) by (rewrite app_length; reflexivity).
  assert (A : firstn (length pre + 1) L = pre ++ [OPEN]).
  { rewrite EL, firstn_app, P1, Nat.sub_diag, firstn_all2 by lia. cbn [firstn]. apply app_nil_r. }
  assert (B : skipn (length pre + 1) L = u ++ op :: k).
  { rewrite EL, skipn_app, P1, Nat.sub_diag, skipn_all2 by lia. reflexivity. }
  assert (C : nth (length pre + 1 + length u) L [] = op).
  { rewrite EL. rewrite app_nth2 by lia. rewrite app_nth2 by lia. replace (length pre + 1 + length u - length (pre ++ [OPEN]) - length u) with 0 by lia. reflexivity. }
  assert (D : skipn (length pre + 1 + length u + 1) L = k).
  { replace L with ((pre ++ [OPEN]) ++ (u ++ [op]) ++ k) by (rewrite EL, <- (app_assoc u); reflexivity).
    rewrite app_assoc, skipn_app, skipn_all2 by (rewrite !app_length; cbn [length]; lia). rewrite !app_length. cbn [length app].
    replace (length pre + 1 + length u + 1 - (length pre + 1 + (length u + 1))) with 0 by lia. reflexivity. }
  rewrite A, B, C, D. rewrite firstn_app, Nat.sub_diag, firstn_all, firstn_O, app_nil_r. rewrite <- app_assoc. reflexivity.
Qed.
Lemma prefix1_end toks i : length toks <= i + 2 -> prefix1 toks i = toks.
Proof.
  intros H. unfold prefix1. destruct (isTok 40 (nth i toks []) && negb (isCopulaTok (nth (i + 1) toks []))); auto.
  assert (X : length toks <= skipCompound toks (i + 1)).
  { unfold skipCompound. assert (Y : length (skipn (i + 1) toks) <= 1) by (rewrite skipn_length; lia).
    destruct (skipn (i + 1) toks) as [|a [|b l]] eqn:E; cbn [length] in Y; [| |lia].
    - cbn [skip_loop]. apply (f_equal (@length name)) in E. rewrite skipn_length in E. cbn in E. lia.
    - apply (f_equal (@length name)) in E. rewrite skipn_length in E. cbn in E. cbn [skip_loop].
      match goal with |- context [if ?b then _ else _] => destruct b end; lia. }
  destruct (Nat.ltb_spec (skipCompound toks (i + 1)) (length toks)); [lia|reflexivity].
Qed.
Lemma prefix1_length toks i : length (prefix1 toks i) = length toks.
Proof.
  unfold prefix1. destruct (isTok 40 (nth i toks []) && negb (isCopulaTok (nth (i + 1) toks []))); auto.
  destruct (Nat.ltb_spec (skipCompound toks (i + 1)) (length toks)) as [H|H]; auto.
  assert (G : forall l j d, j <= skip_loop l j d).
  { induction l as [|t l IH]; intros j d; cbn [skip_loop]; auto. cbv zeta. match goal with |- context [if ?b then _ else _] => destruct b end; [lia|].
    etransitivity; [|apply IH]. lia. }
  pose proof (G (skipn (i + 1) toks) (i + 1) 0%Z) as Q. fold (skipCompound toks (i + 1)) in Q. set (k := skipCompound toks (i + 1)) in *.
  rewrite !app_length, !firstn_length, !skipn_length. cbn [length]. lia.
Qed.
Lemma prefix_fold_length l : forall toks, length (fold_left prefix1 l toks) = length toks.
Proof. induction l as [|i l IH]; intros toks; cbn [fold_left]; auto. rewrite IH. apply prefix1_length. Qed.
Lemma prefix_all_full toks : prefix_all toks = fold_left prefix1 (seq 0 (length toks)) toks.
Proof.
  unfold prefix_all. remember (length toks) as n eqn:E.
  destruct n as [|[|n]]; cbn [Nat.sub]; [reflexivity| |].
  - cbn [seq fold_left]. rewrite prefix1_end; auto. lia.
  - rewrite Nat.sub_0_r. replace (S (S n)) with (n + 2) by lia. rewrite seq_app, fold_left_app. cbn [seq fold_left Nat.add].
    assert (L : length (fold_left prefix1 (seq 0 n) toks) = S (S n)) by (rewrite prefix_fold_length; auto).
    rewrite (prefix1_end _ n) by lia. rewrite prefix1_end by lia. reflexivity.
Qed.

Definition rounds (p n : nat) (toks : list name) : list name := fold_left prefix1 (seq p n) toks.
Lemma rounds_app p a b toks : rounds p (a + b) toks = rounds (p + a) b (rounds p a toks).
Proof. unfold rounds. rewrite seq_app, fold_left_app. reflexivity. Qed.
Lemma rounds_S p n toks : rounds p (S n) toks = rounds (p + 1) n (prefix1 toks p).
Proof. unfold rounds. cbn [seq fold_left]. rewrite Nat.add_1_r. reflexivity. Qed.
Lemma rounds_0 p toks : rounds p 0 toks = toks. Proof. reflexivity. Qed.
Lemma snoc_assoc {A} (a : list A) x b : (a ++ [x]) ++ b = a ++ x :: b. Proof. rewrite <- app_assoc. reflexivity. Qed.
Lemma length_snoc {A} (a : list A) x : length (a ++ [x]) = length a + 1. Proof. rewrite app_length. reflexivity. Qed.

Lemma snoc2 {A} (a : list A) x y : (a ++ [x]) ++ [y] = a ++ [x; y]. Proof. rewrite <- app_assoc. reflexivity. Qed.
Lemma rounds_comp (w : name) (t1 t1' ts ts' pre post : list name) : word w -> length t1' = length t1 -> length ts' = length ts ->
  rounds (length (pre ++ [OPEN; w])) (length t1) ((pre ++ [OPEN; w]) ++ t1 ++ ts ++ CLOSE :: post) = (pre ++ [OPEN; w]) ++ t1' ++ ts ++ CLOSE :: post ->
  rounds (length (pre ++ [OPEN; w] ++ t1')) (length ts) ((pre ++ [OPEN; w] ++ t1') ++ ts ++ CLOSE :: post) = (pre ++ [OPEN; w] ++ t1') ++ ts' ++ CLOSE :: post ->
  rounds (length pre + 1) (S (length (t1 ++ ts ++ [CLOSE]))) (pre ++ OPEN :: w :: t1 ++ ts ++ CLOSE :: post) = pre ++ (OPEN :: w :: t1' ++ ts' ++ [CLOSE]) ++ post.
Proof.
  intros Hw L1 L2 R1 R2.
  rewrite rounds_S. rewrite <- (snoc_assoc pre OPEN). rewrite <- (length_snoc pre OPEN). rewrite prefix1_other by (apply word_tok; auto).
  rewrite <- (snoc_assoc (pre ++ [OPEN]) w). rewrite <- (length_snoc (pre ++ [OPEN]) w). rewrite (app_length t1), rounds_app.
  rewrite !snoc2. rewrite R1. replace (length (pre ++ [OPEN; w]) + length t1) with (length (pre ++ [OPEN; w] ++ t1')) by (rewrite !app_length; cbn [length]; lia).
  rewrite (app_length ts), rounds_app. replace ((pre ++ [OPEN; w]) ++ t1' ++ ts ++ CLOSE :: post) with ((pre ++ [OPEN; w] ++ t1') ++ ts ++ CLOSE :: post) by (rewrite <- !app_assoc; reflexivity).
  rewrite R2. replace (length (pre ++ [OPEN; w] ++ t1') + length ts) with (length (pre ++ [OPEN; w] ++ t1' ++ ts')) by (rewrite !app_length; cbn [length]; rewrite ?app_length; lia).
  cbn [length]. rewrite rounds_S, rounds_0.
  replace ((pre ++ [OPEN; w] ++ t1') ++ ts' ++ CLOSE :: post) with ((pre ++ [OPEN; w] ++ t1' ++ ts') ++ CLOSE :: post) by (rewrite <- !app_assoc; cbn [app]; rewrite <- ?app_assoc; reflexivity).
  rewrite prefix1_other by reflexivity. rewrite <- !app_assoc. cbn [app]. rewrite <- !app_assoc. reflexivity.
Qed.
Lemma transform :
  (forall ts tr, parses ts tr -> forall pre post, exists ts', pform ts' tr /\ length ts' = length ts /\ rounds (length pre) (length ts) (pre ++ ts ++ post) = pre ++ ts' ++ post) /\
  (forall ts tr, second ts tr -> forall pre post, exists ts', psecond ts' tr /\ length ts' = length ts /\ rounds (length pre) (length ts) (pre ++ ts ++ post) = pre ++ ts' ++ post) /\
  (forall ts, others ts -> forall pre post, exists ts', bal ts' /\ length ts' = length ts /\ rounds (length pre) (length ts) (pre ++ ts ++ post) = pre ++ ts' ++ post).
Proof.
  apply parse_ind.
  - intros w H pre post. exists [w]. split; [constructor; auto|]. split; auto. cbn [length app]. rewrite rounds_S, rounds_0.
    apply prefix1_other. apply (word_tok w H).
  - intros c t1 l ts r H H1 IH1 H2 IH2 pre post.
    destruct (IH1 (pre ++ [OPEN; [c]]) (ts ++ CLOSE :: post)) as (t1' & F1 & L1 & R1).
    destruct (IH2 (pre ++ [OPEN; [c]] ++ t1') (CLOSE :: post)) as (ts' & F2 & L2 & R2).
    exists (OPEN :: [c] :: t1' ++ ts' ++ [CLOSE]). split; [constructor; auto; apply cop_word; auto|].
    split; [cbn [length]; rewrite !app_length; lia|].
    cbn [length app]. rewrite rounds_S, prefix1_copula by (apply copTok_iff; eauto).
    replace ((t1 ++ ts ++ [CLOSE]) ++ post) with (t1 ++ ts ++ CLOSE :: post) by (rewrite <- !app_assoc; reflexivity).
    apply (rounds_comp [c]); auto. apply cop_word; auto.
  - intros op t1 l ts r H H1 IH1 Hc H2 IH2 pre post. set (w := firstn 1 op). assert (Hw : word w) by (apply word_cut; auto).
    destruct (IH1 (pre ++ [OPEN; w]) (ts ++ CLOSE :: post)) as (t1' & F1 & L1 & R1).
    destruct (IH2 (pre ++ [OPEN; w] ++ t1') (CLOSE :: post)) as (ts' & F2 & L2 & R2).
    exists (OPEN :: w :: t1' ++ ts' ++ [CLOSE]). split; [constructor; auto|].
    split; [cbn [length]; rewrite !app_length; cbn [length]; rewrite ?app_length; cbn [length]; lia|].
    replace (length (OPEN :: t1 ++ op :: ts ++ [CLOSE])) with (S (S (length (t1 ++ ts ++ [CLOSE])))) by (cbn [length]; rewrite !app_length; cbn [length]; rewrite !app_length; cbn [length]; lia).
    cbn [app]. rewrite rounds_S. replace ((t1 ++ op :: ts ++ [CLOSE]) ++ post) with (t1 ++ op :: ts ++ CLOSE :: post) by (rewrite <- !app_assoc; cbn [app]; rewrite <- !app_assoc; reflexivity).
    rewrite prefix1_infix; [|apply parses_unit in H1; auto|].
    2:{ destruct (isCopulaTok (nth 0 t1 [])) eqn:Q; auto. apply copTok_iff in Q as (c & Q1 & Q2). exfalso. apply (Hc c Q1 Q2). }
    fold w. apply rounds_comp; auto.
  - intros pre post. exists []. split; [constructor|]. split; auto.
  - intros t2 r more H1 IH1 H2 IH2 pre post.
    destruct (IH1 pre (more ++ post)) as (t2' & F1 & L1 & R1). destruct (IH2 (pre ++ t2') post) as (m' & F2 & L2 & R2).
    exists (t2' ++ m'). split; [constructor; auto|]. split; [rewrite !app_length; lia|].
    rewrite app_length, rounds_app, <- app_assoc, R1. replace (length pre + length t2) with (length (pre ++ t2')) by (rewrite app_length; lia).
    rewrite app_assoc, R2, <- !app_assoc. reflexivity.
  - intros pre post. exists []. split; [constructor|]. split; auto.
  - intros t x more H1 IH1 H2 IH2 pre post.
    destruct (IH1 pre (more ++ post)) as (t2' & F1 & L1 & R1). destruct (IH2 (pre ++ t2') post) as (m' & F2 & L2 & R2).
    exists (t2' ++ m'). split; [apply bal_app; auto; apply unit_bal; apply pform_unit in F1; auto|]. split; [rewrite !app_length; lia|].
    rewrite app_length, rounds_app, <- app_assoc, R1. replace (length pre + length t) with (length (pre ++ t2')) by (rewrite app_length; lia).
    rewrite app_assoc, R2, <- !app_assoc. reflexivity.
Qed.
Lemma prefix_all_ok ts tr : parses ts tr -> pform (prefix_all ts) tr /\ length (prefix_all ts) = length ts.
Proof.
  intros H. rewrite prefix_all_full. destruct (proj1 transform ts tr H [] []) as (ts' & F & L & R). unfold rounds in R. cbn [app length] in R.
  rewrite app_nil_r in R. rewrite R, app_nil_r. auto.
Qed.
