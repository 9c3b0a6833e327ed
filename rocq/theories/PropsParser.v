(** Property theorems C42, C43, C44, C59: reading and printing Narsese. *)
From Coq Require Import ZArith List Bool Lia String Ascii.
From Verif Require Import Base F64 TruthM HashM HashP StackM StackP HashTableM HashTableS HashTableP TermM TermS TermP NamesM AtomsM AtomsS AtomsP VariableM VariableP2 ParserM ParserS ParserP ParserP2 ParserP3 PrintP ReadP TextP.
Import ListNotations.
Local Open Scope Z_scope.
Notation length := List.length.

(** literal text, for the examples *)
Definition txt (s : string) : text := map (fun c => Z.of_N (N_of_ascii c)) (list_ascii_of_string s).
(** the tokens of a text as the parser splits it *)
Definition tokens_of (s : text) : res (list name) := do x <- Narsese_Expand s ; Ok (strtok x).
Lemma tokens_TK s : (length s + 3 <= NARSESE_LEN_MAX)%nat -> tokens_of s = Ok (TK s).
Proof. intros L. unfold tokens_of. pose proof (expand_ok s) as X. apply Nat.leb_le in L. rewrite L in X. rewrite X. reflexivity. Qed.

(** ** C43 *)
(** Canonicalisation yields at most 3 characters and expansion at most 9 characters per input
    character, neither writes outside its buffer; texts longer than 2145 characters are refused. *)
Theorem C43_text_stages_fit : forall s,
  if (Z.of_nat (length s) <=? 2145)
  then exists r x, replaceWithCanonicalCopulas s = Ok r /\ Narsese_Expand s = Ok x /\
         (length r <= 3 * length s)%nat /\ (length x <= 9 * length s)%nat
  else replaceWithCanonicalCopulas s = Abort /\ Narsese_Expand s = Abort.
Proof.
  intros s. pose proof (replace_ok s) as R. pose proof (expand_ok s) as X. pose proof NLMz.
  destruct (Z.leb_spec (Z.of_nat (length s)) 2145); destruct (Nat.leb_spec (length s + 3) NARSESE_LEN_MAX); try lia; auto.
  exists (canon s), (expand (canon s)). pose proof (canon_length s). pose proof (expand_length (canon s)). repeat split; auto; lia.
Qed.
Print Assumptions C43_text_stages_fit.
(** Splitting into tokens stays inside the token array when the characters of the text, with
    [ and { counted twice, are at most 2149. *)
Theorem C43_tokens_fit_partial : forall s, Z.of_nat (length s) <= 2145 ->
  Z.of_nat (length s) + Z.of_nat (count_occ Z.eq_dec s 91) + Z.of_nat (count_occ Z.eq_dec s 123) <= 2149 ->
  exists toks, (do x <- Narsese_Expand s ; Narsese_PrefixTransform x) = Ok toks /\ tokens_of s <> UB /\
    match tokens_of s with Ok t => length toks = length t | _ => False end.
Proof.
  intros s L1 L2. pose proof NLMz. pose proof (expand_ok s) as X. destruct (Nat.leb_spec (length s + 3) NARSESE_LEN_MAX); [|lia].
  rewrite tokens_TK by auto. rewrite X. cbn [rbind]. unfold Narsese_PrefixTransform. change (strtok (expand (canon s))) with (TK s).
  assert (O : openers s = Nat.add (count_occ Z.eq_dec s 91) (count_occ Z.eq_dec s 123)).
  { clear. unfold openers. induction s as [|c s IH]; cbn [filter count_occ]; auto.
    destruct (Z.eqb_spec c 91) as [->|N1].
    - destruct (Z.eq_dec 91 91); [|congruence]. destruct (Z.eq_dec 91 123); [discriminate|]. cbn [orb List.length]. rewrite IH. reflexivity.
    - destruct (Z.eq_dec c 91); [congruence|]. cbn [orb]. destruct (Z.eqb_spec c 123) as [->|N2].
      + destruct (Z.eq_dec 123 123); [|congruence]. cbn [List.length]. rewrite IH. lia.
      + destruct (Z.eq_dec c 123); [congruence|]. exact IH. }
  pose proof (tokens_bound s). destruct (Nat.leb_spec (length (TK s)) (NARSESE_LEN_MAX + 1)); [|lia].
  exists (prefix_all (TK s)). split; auto. split; [discriminate|]. apply prefix_fold_length.
Qed.
Print Assumptions C43_tokens_fit_partial.
(** The general claim is false: 1075 or more opening square brackets, a text of legal length,
    overflow the token array. *)
Theorem C43_tokens_fit_refuted : forall n, 1075 <= Z.of_nat n <= 2145 ->
  (do x <- Narsese_Expand (repeat 91 n) ; Narsese_PrefixTransform x) = UB.
Proof.
  intros n L. pose proof NLMz. pose proof (expand_ok (repeat 91 n)) as X. rewrite repeat_length in X. destruct (Nat.leb_spec (n + 3) NARSESE_LEN_MAX); [|lia].
  rewrite X. cbn [rbind]. unfold Narsese_PrefixTransform. change (strtok (expand (canon (repeat 91 n)))) with (TK (repeat 91 n)). rewrite TK_brackets.
  assert (LL : length (concat (repeat [OPEN; [39]] n)) = (2 * n)%nat) by (clear; induction n as [|n IH]; cbn [repeat concat]; [reflexivity|]; rewrite app_length, IH; cbn [List.length]; lia).
  rewrite LL. destruct (Nat.leb_spec (2 * n) (NARSESE_LEN_MAX + 1)); [lia|reflexivity].
Qed.
Print Assumptions C43_tokens_fit_refuted.
Example C43_example : replaceWithCanonicalCopulas (txt "<[a b] ==> {c}>") = Ok (txt "((' a b) ? ("" c))") /\
  tokens_of (txt "<[a b] ==> {c}>") = Ok (map txt ["("; "("; "'"; "a"; "b"; ")"; "?"; "("; """"; "c"; ")"; ")"]%string).
Proof. split; vm_compute; reflexivity. Qed.

(** ** C59 *)
(** A copula or connector followed by a space becomes its one-character code, whatever follows. *)
Theorem C59_copula_code : forall c code rest r r', In (c, code) copula_table ->
  replaceWithCanonicalCopulas (c ++ 32 :: rest) = Ok r -> replaceWithCanonicalCopulas rest = Ok r' -> r = code :: 32 :: r'.
Proof.
  intros c code rest r r' H E1 E2. pose proof (replace_ok (c ++ 32 :: rest)) as X. pose proof (replace_ok rest) as Y.
  destruct (length (c ++ 32%Z :: rest) + 3 <=? NARSESE_LEN_MAX)%nat; [|congruence]. destruct (length rest + 3 <=? NARSESE_LEN_MAX)%nat; [|congruence].
  rewrite (canon_copula c code rest H) in X. congruence.
Qed.
Print Assumptions C59_copula_code.
(** Text without special characters is unchanged, whatever follows it. *)
Theorem C59_plain_text_kept : forall s rest r r', Forall (fun c => ~ In c special) s ->
  replaceWithCanonicalCopulas (s ++ rest) = Ok r -> replaceWithCanonicalCopulas rest = Ok r' -> r = s ++ r'.
Proof.
  intros s rest r r' H E1 E2. pose proof (replace_ok (s ++ rest)) as X. pose proof (replace_ok rest) as Y.
  destruct (length (s ++ rest) + 3 <=? NARSESE_LEN_MAX)%nat; [|congruence]. destruct (length rest + 3 <=? NARSESE_LEN_MAX)%nat; [|congruence].
  rewrite canon_plain_app in X by auto. congruence.
Qed.
Print Assumptions C59_plain_text_kept.
(** The replacement on both sides of a space is independent, unless the left part ends in two
    dashes (which are a negation only when a third character follows). *)
Theorem C59_compositional : forall a b r ra rb, ~ ends_negation a ->
  replaceWithCanonicalCopulas (a ++ 32 :: b) = Ok r -> replaceWithCanonicalCopulas a = Ok ra -> replaceWithCanonicalCopulas b = Ok rb ->
  r = ra ++ 32 :: rb.
Proof.
  intros a b r ra rb H E1 E2 E3. pose proof (replace_ok (a ++ 32 :: b)) as X. pose proof (replace_ok a) as Y. pose proof (replace_ok b) as W.
  destruct (length (a ++ 32%Z :: b) + 3 <=? NARSESE_LEN_MAX)%nat; [|congruence]. destruct (length a + 3 <=? NARSESE_LEN_MAX)%nat; [|congruence].
  destruct (length b + 3 <=? NARSESE_LEN_MAX)%nat; [|congruence]. rewrite canon_space in X by auto. congruence.
Qed.
Print Assumptions C59_compositional.
Example C59_example : replaceWithCanonicalCopulas (txt "<a --> b> ==> (&&,c,<d <-> e>)") = Ok (txt "(a : b) ? (; c (d = e))") /\
  ~ ends_negation (txt "<a --> b>") /\ In (txt "<=>", EQUIVALENCE) copula_table /\
  replaceWithCanonicalCopulas (txt "--") = Ok (txt "--") /\ replaceWithCanonicalCopulas (txt "-- a") = Ok (txt "! a").
Proof.
  split; [vm_compute; reflexivity|]. split; [intros (p & Q); vm_compute in Q; do 12 (try (destruct p as [|? p]; [discriminate Q|])); discriminate Q|].
  split; [vm_compute; tauto|]. split; vm_compute; reflexivity.
Qed.

(** ** C42 *)
(** Well-formed Narsese (the relation [parses] of ParserS on the tokens of the text) whose tree
    fits the 64 slots: the symbols are numbered in order of appearance; if they do not fit the
    symbol table the program stops with its error, otherwise the term built is the tree the text
    denotes (names cut to 31 characters) with its variables normalised.  No access outside a
    buffer happens on the way. *)
Theorem C42_well_formed_partial : forall cap ns st is s toks n,
  symbols cap ns = Ok (st, is) -> Z.of_nat cap < 65536 -> tokens_of s = Ok toks -> parses toks n -> nfits SIZE n 0 -> Z.of_nat (length toks) <= 2148 ->
  let known := firsts (a_names st) (map (firstn 31) (mentioned n)) in
  if (length known <=? cap)%nat
  then exists st' t, a_names st' = known /\ closed t /\ names_of known (tree_at t 0) = cut31 n /\
         Narsese_Term cap st s = (do t' <- Normalize known t ; Ok (st', t'))
  else Narsese_Term cap st s = Abort.
Proof.
  intros cap ns st is s toks n S0 C65 TO P F LT known. destruct (ainv_symbols cap ns st is S0) as (I & LC & NMS). pose proof NLMz.
  destruct (Nat.le_gt_cases (length s + 3) NARSESE_LEN_MAX) as [LS|LS].
  2:{ unfold tokens_of in TO. pose proof (expand_ok s) as X. destruct (Nat.leb_spec (length s + 3) NARSESE_LEN_MAX); [lia|]. rewrite X in TO. discriminate TO. }
  rewrite tokens_TK in TO by auto. injection TO as <-. pose proof (term_ok cap st s n I LC LS P F) as B. specialize (B ltac:(lia)).
  change (map block (mentioned n)) with (map (firstn 31) (mentioned n)) in B. fold known in B.
  destruct (Nat.leb_spec (length known) cap) as [Q|Q]; [|exact B]. destruct B as (st' & tr & E0 & I' & N' & LB & _).
  assert (LK : Z.of_nat (length (a_names st')) < 65536) by (rewrite N'; lia). rewrite N' in LB, LK.
  destruct (labelled_names known n LK tr LB) as (NZ & NMO & _). destruct (wr_tree tr NZ (labelled_fits _ _ _ _ LB F)) as (CW & TW).
  exists st', (wr tr 0 zero_term). split; auto. split; auto. split; [rewrite TW; exact NMO|]. rewrite E0. unfold normalised. rewrite N'. reflexivity.
Qed.
Print Assumptions C42_well_formed_partial.
(** Over-long texts are refused. *)
Theorem C42_too_long_refused : forall cap st s, 2145 < Z.of_nat (length s) -> Narsese_Term cap st s = Abort.
Proof.
  intros cap st s L. unfold Narsese_Term. pose proof (expand_ok s) as X. pose proof NLMz. destruct (Nat.leb_spec (length s + 3) NARSESE_LEN_MAX); [lia|]. rewrite X. reflexivity.
Qed.
Print Assumptions C42_too_long_refused.
(** A sentence is its term's text, a punctuation mark, an optional tense mark and an optional
    truth value in braces (converted by the C library, [scan2]). *)
Theorem C42_sentence : forall cap atof scan1 scan2 st body p tense, In p [46; 33; 63] -> 0 <= tense <= 3 -> body <> [] ->
  ~ has_dt (body ++ p :: tense_text tense) -> Z.of_nat (length (body ++ p :: tense_text tense)) < 2148 ->
  Narsese_Sentence cap atof scan1 scan2 st (body ++ p :: tense_text tense) =
  do (st, t) <- Narsese_Term cap st body ; Ok (st, mkSentence t p tense (f1, fdec 9 10) f0).
Proof. intros. pose proof NLMz. change (f1, fdec 9 10) with (NAR_DEFAULT_FREQUENCY, NAR_DEFAULT_CONFIDENCE). apply sentence_plain; auto. unfold tail_of. lia. Qed.
Print Assumptions C42_sentence.
Theorem C42_sentence_truth : forall cap atof scan1 scan2 st body p tense m v, In p [46; 33; 63] -> 0 <= tense <= 3 ->
  let s := body ++ (p :: tense_text tense) ++ 32 :: 123 :: m ++ [125] in
  ~ has_dt s -> Z.of_nat (length s) < 2148 -> (forall c, In c m -> c <> 123 /\ c <> 37) -> scan2 false (123 :: m ++ [125]) = Some v ->
  Narsese_Sentence cap atof scan1 scan2 st s = do (st, t) <- Narsese_Term cap st body ; Ok (st, mkSentence t p tense v f0).
Proof.
  intros cap atof scan1 scan2 st body p tense m v P TE s ND L M SC. pose proof NLMz. unfold s. change (p :: tense_text tense) with (tail_of p tense).
  rewrite sentence_valued; auto; [rewrite SC; reflexivity|]. unfold s in L. change (p :: tense_text tense) with (tail_of p tense) in L. unfold Nat.lt. lia.
Qed.
Print Assumptions C42_sentence_truth.
Theorem C42_sentence_offset : forall cap atof scan1 scan2 st n r, (forall c, In c n -> c <> 32) -> (length n < 27)%nat ->
  Narsese_Sentence cap atof scan1 scan2 st (txt "dt=" ++ n ++ 32 :: r) =
  do (st, x) <- Narsese_Sentence cap atof scan1 scan2 st (32 :: r) ;
  Ok (st, mkSentence (s_term x) (s_punctuation x) (s_tense x) (s_truth x) (atof n)).
Proof. intros. apply sentence_offset; auto. lia. Qed.
Print Assumptions C42_sentence_offset.

(** "Every input string" is false; witnesses, in the state after start-up: *)
Definition st0 : astate := match Narsese_INIT 200 with Ok s => s | _ => mkA (mkHT [] [] (mkStack [] 0%nat 0%nat)) [] end.
Lemma st0_ok : symbols 200 [] = Ok (st0, []). Proof. vm_compute. reflexivity. Qed.
Theorem C42_every_text_refuted :
  (* no token at all, or an opening bracket alone: a NULL pointer is read, in every state *)
  (forall cap st, Narsese_Term cap st (txt " ") = UB /\ Narsese_Term cap st (txt "(") = UB) /\
  (* a compound nested seven deep is written outside the term *)
  Narsese_Term 200 st0 (txt "(a * ((((((a * b) * b) * b) * b) * b) * b))") = UB /\
  (* a sentence that is only a tense mark is read before its beginning, in every state *)
  (forall cap atof scan1 scan2 st, Narsese_Sentence cap atof scan1 scan2 st (txt ":|:") = UB) /\
  (* so is one that is only a truth value or has no opening brace *)
  (forall cap atof scan1 scan2 st, Narsese_Sentence cap atof scan1 scan2 st (txt "{1}") = UB /\
     Narsese_Sentence cap atof scan1 scan2 st (txt "a}") = UB) /\
  (* a time difference text of 30 characters is written outside its buffer *)
  (forall cap atof scan1 scan2 st, Narsese_Sentence cap atof scan1 scan2 st (txt "dt=123456789012345678901234567 a.") = UB).
Proof.
  split; [intros; split; vm_compute; reflexivity|]. split; [vm_compute; reflexivity|].
  split; [intros; vm_compute; reflexivity|]. split; [intros; split|intros; vm_compute; reflexivity].
  - unfold Narsese_Sentence. change (sentence_dt atof (txt "{1}")) with (Ok (txt "{1}", f0)). cbn [rbind]. 
    replace (rassert (length (txt "{1}") <? NARSESE_LEN_MAX)%nat) with (Ok tt : res unit) by (vm_compute; reflexivity).
    change (rassert (1 <? length (txt "{1}"))%nat) with (Ok tt : res unit). cbn [rbind].
    assert (X : sentence_truth scan1 scan2 (txt "{1}") = UB).
    { unfold sentence_truth. cbn. destruct (scan2 _ _); reflexivity. }
    rewrite X. reflexivity.
  - vm_compute. reflexivity.
Qed.
Print Assumptions C42_every_text_refuted.
(** Malformed or over-long argument lists are accepted silently: arguments after the second are
    dropped and a compound without connector takes its closing bracket as connector. *)
Theorem C42_malformed_refuted :
  (exists st t, Narsese_Term 200 st0 (txt "(* a b c)") = Ok (st, t) /\ PrintTerm (a_names st) t = txt "(a * b)") /\
  (exists st t, Narsese_Term 200 st0 (txt "(a)") = Ok (st, t) /\ name_of (a_names st) (at_ t 0) = txt ")").
Proof. split; (eexists; eexists; split; [vm_compute; reflexivity|vm_compute; reflexivity]). Qed.
Print Assumptions C42_malformed_refuted.
(** The hypotheses of the positive theorems on <(a * {b}) --> [c]>. and the result *)
Lemma ex_word a w : a <> 40 -> a <> 41 -> word (a :: w). Proof. intros. exists a, w. auto. Qed.
Example C42_example : exists toks n, tokens_of (txt "<(a * {b}) --> [c]>") = Ok toks /\ parses toks n /\ nfits SIZE n 0 /\
  n = NN (txt ":") (NN (txt "*") (NN (txt "a") NE NE) (NN (txt """") (NN (txt "b") NE NE) no_arg)) (NN (txt "'") (NN (txt "c") NE NE) no_arg) /\
  exists st t, Narsese_Term 200 st0 (txt "<(a * {b}) --> [c]>") = Ok (st, t) /\ names_of (a_names st) (tree_at t 0) = cut31 n.
Proof.
  eexists. eexists. split; [vm_compute; reflexivity|]. split; [|split; [|split; [reflexivity|]]].
  - apply (p_infix (txt ":") (map txt ["("; "a"; "*"; "("; """"; "b"; ")"; ")"]%string) _ (map txt ["("; "'"; "c"; ")"]%string)).
    + apply ex_word; discriminate.
    + apply (p_infix (txt "*") [txt "a"] _ (map txt ["("; """"; "b"; ")"]%string)).
      * apply ex_word; discriminate.
      * constructor. apply ex_word; discriminate.
      * intros c H. cbn in H. repeat (destruct H as [<-|H]; [discriminate|]). destruct H.
      * apply (s_some (map txt ["("; """"; "b"; ")"]%string) _ []); [|constructor].
        apply (p_prefix EXT_SET [txt "b"] _ []); [cbn; tauto|constructor; apply ex_word; discriminate|constructor].
    + intros c H. cbn in H. repeat (destruct H as [<-|H]; [discriminate|]). destruct H.
    + apply (s_some (map txt ["("; "'"; "c"; ")"]%string) _ []); [|constructor].
      apply (p_prefix INT_SET [txt "c"] _ []); [cbn; tauto|constructor; apply ex_word; discriminate|constructor].
  - cbn. unfold SIZE. repeat split; lia.
  - eexists. eexists. split; vm_compute; reflexivity.
Qed.

(** ** C44 *)
(** Printing a term over the symbol table of the running program and reading the text again
    gives that term normalised, and leaves the symbol table alone: for terms built from plain
    names, the copulas with two arguments, and unary negations, sets, products, sequences and
    similarities. *)
Theorem C44_round_trip_partial : forall cap ns st is t,
  symbols cap ns = Ok (st, is) -> Z.of_nat (length (a_names st)) < 65536 -> closed t ->
  printable (names_of (a_names st) (tree_at t 0)) -> Z.of_nat (length (PrintTerm (a_names st) t)) <= 2145 ->
  Narsese_Term cap st (PrintTerm (a_names st) t) = (do t' <- Normalize (a_names st) t ; Ok (st, t')) /\
  (Normalize (a_names st) t = Ok t -> Narsese_Term cap st (PrintTerm (a_names st) t) = Ok (st, t)).
Proof.
  intros cap ns st is t S0 LN C P LP. pose proof NLMz.
  assert (X : Narsese_Term cap st (PrintTerm (a_names st) t) = do t' <- Normalize (a_names st) t ; Ok (st, t')) by (eapply round_trip; eauto; lia).
  split; [exact X|]. intros NT. rewrite X, NT. reflexivity.
Qed.
Print Assumptions C44_round_trip_partial.
(** Without the restrictions the claim is false: a symbol whose name contains the code of |->
    (read from a|->b) prints as two words, and a connector with one argument prints glued to it. *)
Theorem C44_round_trip_refuted :
  (exists st t, Narsese_Term 200 st0 (txt "a|->b") = Ok (st, t) /\ PrintTerm (a_names st) t = txt "a,b" /\
     (forall st', Narsese_Term 200 st (PrintTerm (a_names st) t) <> Ok (st', t))) /\
  (exists st t, Narsese_Term 200 st0 (txt "(&& a)") = Ok (st, t) /\ PrintTerm (a_names st) t = txt "(a&& )" /\
     (forall st', Narsese_Term 200 st (PrintTerm (a_names st) t) <> Ok (st', t))).
Proof.
  split; eexists; eexists; (split; [vm_compute; reflexivity|]; split; [vm_compute; reflexivity|]; intros st' Q; vm_compute in Q; discriminate Q).
Qed.
Print Assumptions C44_round_trip_refuted.
(** the hypotheses on <<(a * {b}) --> [c]> ==> (! d)> *)
Example C44_example : exists st is t, symbols 200 (map txt ["a"; "b"; "c"; "d"]%string) = Ok (st, is) /\ closed t /\
  printable (names_of (a_names st) (tree_at t 0)) /\ Normalize (a_names st) t = Ok t /\
  PrintTerm (a_names st) t = txt "<<(a * {b}) --> [c]> ==> (! d)>".
Proof.
  eexists. eexists. exists (mk_term [copula_index IMPLICATION; copula_index INHERITANCE; copula_index NEGATION; copula_index PRODUCT; copula_index INT_SET; 67; copula_index SET_TERMINATOR; 64; copula_index EXT_SET; 66; copula_index SET_TERMINATOR; 0; 0; 0; 0; 0; 0; 65; copula_index SET_TERMINATOR]).
  split; [vm_compute; reflexivity|]. split; [apply closedb_ok; vm_compute; reflexivity|]. split; [|split; vm_compute; reflexivity].
  match goal with |- printable ?x => let v := eval vm_compute in x in change x with v end.
  assert (W : forall c, 97 <= c <= 100 -> printable (NN [c] NE NE)).
  { intros c H. apply pr_name. split; [discriminate|]. split; [constructor; [|constructor]; unfold plain_char, special; cbn; lia|].
    intros d D Q. injection Q as ->. cbn in D. repeat (destruct D as [D|D]; [rewrite <- D in H; vm_compute in H; destruct H as [H1 H2]; try (apply H1; reflexivity); apply H2; reflexivity|]). exact D. }
  assert (BC : forall c, In c CanonicalCopulas -> c <> 64 -> binary_copula c) by (intros; split; auto).
  apply pr_binary; [apply BC; [cbn; tauto|discriminate]| |].
  - apply pr_binary; [apply BC; [cbn; tauto|discriminate]| |].
    + apply pr_binary; [apply BC; [cbn; tauto|discriminate]|apply W; lia|]. apply pr_unary; [cbn; tauto|apply W; lia].
    + apply pr_unary; [cbn; tauto|apply W; lia].
  - apply pr_unary; [cbn; tauto|apply W; lia].
Qed.
