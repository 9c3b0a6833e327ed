(** Proofs about the text stages of the parser. *)
From Coq Require Import ZArith List Bool Lia.
From Verif Require Import Base TermM TermS NamesM AtomsM ParserM ParserS.
Local Open Scope Z_scope.

Fixpoint canonp (fuel : nat) (l : text) : text :=
  match l, fuel with
  | [], _ => []
  | _, O => []
  | _, S fuel => let (o, u) := canon1 l in o ++ canonp fuel (skipn u l)
  end.
Definition canon (l : text) : text := canonp (length l) l.
Lemma canon1_bounds l : l <> [] -> (1 <= snd (canon1 l) <= 3)%nat /\ (1 <= length (fst (canon1 l)) <= 3)%nat /\ (snd (canon1 l) <= length l)%nat.
Proof.
  intros H. destruct l as [|a [|b [|c l]]]; [congruence| | |]; unfold canon1; cbn [nth length Nat.leb];
  repeat match goal with |- context [if ?b then _ else _] => destruct b end; cbn [fst snd length]; lia.
Qed.
Lemma canonp_fuel l : forall n m, (length l <= n)%nat -> (length l <= m)%nat -> canonp n l = canonp m l.
Proof.
  remember (length l) as k eqn:K. revert l K. induction k as [k IH] using lt_wf_ind. intros l K n m Hn Hm.
  destruct l as [|a l]; [destruct n, m; reflexivity|]. destruct n as [|n]; [cbn in K; lia|]. destruct m as [|m]; [cbn in K; lia|].
  cbn [canonp]. destruct (canon1_bounds (a :: l)) as (B1 & B2 & B3); [discriminate|]. destruct (canon1 (a :: l)) as [o u]. cbn [fst snd] in *.
  f_equal. apply (IH (length (skipn u (a :: l)))); auto; rewrite skipn_length; lia.
Qed.
Lemma canon_step l : l <> [] -> canon l = fst (canon1 l) ++ canon (skipn (snd (canon1 l)) l).
Proof.
  intros H. unfold canon at 1. destruct l as [|a l]; [congruence|]. cbn [length canonp].
  destruct (canon1_bounds (a :: l)) as (B1 & B2 & B3); [discriminate|]. destruct (canon1 (a :: l)) as [o u]. cbn [fst snd] in *. f_equal.
  unfold canon. apply canonp_fuel; rewrite ?skipn_length; cbn [length]; lia.
Qed.
Lemma canon_nil : canon [] = []. Proof. reflexivity. Qed.
Lemma text_ind (P : list Z -> Prop) : P [] -> (forall l, l <> [] -> P (skipn (snd (canon1 l)) l) -> P l) -> forall l, P l.
Proof.
  intros H0 H1 l. remember (length l) as k eqn:K. revert l K. induction k as [k IH] using lt_wf_ind. intros l K.
  destruct l as [|a l]; auto. apply H1; [discriminate|]. destruct (canon1_bounds (a :: l)) as (B1 & B2 & B3); [discriminate|].
  eapply IH; [|reflexivity]. rewrite skipn_length. lia.
Qed.
Lemma canon_length (l : list Z) : (length (canon l) <= 3 * length l)%nat.
Proof.
  induction l as [|l H IH] using text_ind; [cbn; lia|]. rewrite canon_step by auto. rewrite app_length.
  destruct (canon1_bounds l H) as (B1 & B2 & B3). rewrite skipn_length in IH. lia.
Qed.
Lemma canon_loop_ok (l : list Z) : forall fuel j, (length l <= fuel)%nat -> (j + 3 * length l < REPLACEMENT_LEN)%nat -> canon_loop fuel l j = Ok (canon l).
Proof.
  induction l as [|l H IH] using text_ind; intros fuel j Hf Hj.
  - destruct fuel; cbn [canon_loop]; (destruct (Nat.ltb_spec j REPLACEMENT_LEN); [reflexivity|cbn [length] in Hj; lia]).
  - rewrite canon_step by auto. destruct (canon1_bounds l H) as (B1 & B2 & B3). destruct l as [|a l]; [congruence|]. destruct fuel as [|fuel]; [cbn in Hf; lia|].
    cbn [canon_loop]. destruct (canon1 (a :: l)) as [o u]. cbn [fst snd] in *.
    destruct (Nat.leb_spec (j + length o) REPLACEMENT_LEN); [|lia]. rewrite skipn_length in IH.
    rewrite IH; [reflexivity|cbn [length] in *; lia|cbn [length] in *; lia].
Qed.
Definition expand (l : text) : text := concat (map expand1 l).
Lemma expand1_length c : (1 <= length (expand1 c) <= 3)%nat. Proof. unfold expand1. destruct (isBracket c); cbn; lia. Qed.
Lemma expand_length l : (length (expand l) <= 3 * length l)%nat.
Proof. induction l as [|c l IH]; cbn [expand map concat length]; [lia|]. rewrite app_length. pose proof (expand1_length c). unfold expand in IH. lia. Qed.
Lemma expand_loop_ok l : forall k, (k + 3 * length l < EXPANSION_LEN)%nat -> expand_loop l k = Ok (expand l).
Proof.
  induction l as [|c l IH]; intros k H; cbn [expand_loop].
  - destruct (Nat.ltb_spec k EXPANSION_LEN); [reflexivity|cbn [length] in H; lia].
  - cbn [length] in H. pose proof (expand1_length c). destruct (Nat.ltb_spec (k + (if isBracket c then 1 else 0)) EXPANSION_LEN) as [Q|Q].
    + rewrite IH by lia. reflexivity.
    + destruct (isBracket c); lia.
Qed.
Lemma NLM : NARSESE_LEN_MAX = Z.to_nat 2148. Proof. reflexivity. Qed.
#[global] Opaque NARSESE_LEN_MAX.
Lemma NLMz : Z.of_nat NARSESE_LEN_MAX = 2148. Proof. rewrite NLM. reflexivity. Qed.
Lemma replace_ok s : if (length s + 3 <=? NARSESE_LEN_MAX)%nat then replaceWithCanonicalCopulas s = Ok (canon s) else replaceWithCanonicalCopulas s = Abort.
Proof.
  unfold replaceWithCanonicalCopulas. destruct (Nat.leb_spec (length s + 3) NARSESE_LEN_MAX); cbn [rassert rbind]; auto.
  apply canon_loop_ok; auto. unfold REPLACEMENT_LEN. lia.
Qed.
Lemma expand_ok s : if (length s + 3 <=? NARSESE_LEN_MAX)%nat then Narsese_Expand s = Ok (expand (canon s)) else Narsese_Expand s = Abort.
Proof.
  unfold Narsese_Expand. pose proof (replace_ok s) as R. destruct (Nat.leb_spec (length s + 3) NARSESE_LEN_MAX); rewrite R; cbn [rbind]; auto.
  apply expand_loop_ok. pose proof (canon_length s). unfold EXPANSION_LEN, REPLACEMENT_LEN. lia.
Qed.

(** *** canonicalisation at spaces *)
Lemma canon1_space l k : l <> [] -> l <> [45;45] -> canon1 (l ++ 32 :: k) = canon1 l.
Proof.
  intros H N. destruct l as [|a [|b [|c l]]]; [congruence| | |reflexivity].
  - unfold canon1. cbn [app nth length Nat.leb]. change (32 =? 45) with false. change (32 =? 61) with false. change (32 =? 47) with false.
    change (32 =? 38) with false. change (32 =? 124) with false. change (32 =? 49) with false. change (32 =? 50) with false.
    change (0 =? 45) with false. change (0 =? 61) with false. rewrite !andb_false_r. cbn [andb]. destruct (length k); reflexivity.
  - unfold canon1. cbn [app nth length Nat.leb]. change (32 =? 62) with false. rewrite !andb_false_r. cbn [negb]. rewrite andb_true_r.
    destruct ((a =? 45) && (b =? 45)) eqn:Q; [|reflexivity]. apply andb_prop in Q as [Q1 Q2]. apply Z.eqb_eq in Q1, Q2. subst. congruence.
Qed.
Lemma canon_space (l k : list Z) : ~ ends_negation l -> canon (l ++ 32 :: k) = canon l ++ 32 :: canon k.
Proof.
  induction l as [|l H IH] using text_ind; intros NE.
  - cbn [app]. rewrite canon_step by discriminate. destruct k as [|a [|b k]]; reflexivity.
  - assert (N : l <> [45;45]) by (intros ->; apply NE; exists []; reflexivity).
    rewrite canon_step, (canon_step l) by (auto; destruct l; discriminate). rewrite canon1_space by auto.
    destruct (canon1_bounds l H) as (B1 & B2 & B3). rewrite skipn_app. replace (snd (canon1 l) - length l)%nat with 0%nat by lia. cbn [skipn].
    rewrite IH.
    + rewrite <- app_assoc. reflexivity.
    + intros (p & E). apply NE. exists (firstn (snd (canon1 l)) l ++ p). rewrite <- app_assoc, <- E. symmetry. apply firstn_skipn.
Qed.
Lemma canon1_plain c k : ~ In c special -> canon1 (c :: k) = ([c], 1%nat).
Proof.
  intros H. unfold canon1. cbn [nth]. assert (X : forall d, In d special -> (c =? d) = false).
  { intros d Hd. apply Z.eqb_neq. intros ->. auto. }
  rewrite !X by (cbn; tauto). cbn [orb andb]. destruct (2 <=? length (c :: k))%nat; auto. destruct (3 <=? length (c :: k))%nat; auto.
Qed.
Lemma canon_plain c k : ~ In c special -> canon (c :: k) = c :: canon k.
Proof. intros H. rewrite canon_step by discriminate. rewrite canon1_plain by auto. reflexivity. Qed.
Lemma canon_plain_app l k : Forall (fun c => ~ In c special) l -> canon (l ++ k) = l ++ canon k.
Proof. induction 1 as [|c l H F IH]; auto. cbn [app]. rewrite canon_plain by auto. rewrite IH. reflexivity. Qed.
Lemma canon_copula c code k : In (c, code) copula_table -> canon (c ++ 32 :: k) = code :: 32 :: canon k.
Proof.
  intros H. cbn in H. repeat (destruct H as [H|H]; [injection H as <- <-; rewrite canon_step by discriminate; cbn [app];
    match goal with |- context [canon1 ?l] => let v := eval cbv -[length] in (canon1 l) in change (canon1 l) with v end;
    cbn [length Nat.leb fst snd app skipn]; rewrite canon_plain by (cbn; lia); reflexivity|]). destruct H.
Qed.
