(** Proofs: number of tokens of a text; the parts of a sentence. *)
From Coq Require Import ZArith List Bool Lia.
From Verif Require Import Base F64 TruthM TermM TermS TermP NamesM AtomsM AtomsS AtomsP VariableM ParserM ParserS ParserP ParserP2 ParserP3 PrintP ReadP.
Local Open Scope Z_scope.

Definition solid (l : text) : nat := length (filter (fun c => negb (c =? 32)) l).
Lemma solid_app a b : solid (a ++ b) = (solid a + solid b)%nat. Proof. unfold solid. rewrite filter_app, app_length. reflexivity. Qed.
Lemma acc_solid l : forall acc, (length (tokens_acc acc l) <= (if acc then 0 else 1) + solid l)%nat.
Proof.
  induction l as [|c l IH]; intros acc; cbn [tokens_acc].
  - destruct acc; cbn; lia.
  - assert (SC : solid (c :: l) = Nat.add (if c =? 32 then 0%nat else 1%nat) (solid l)) by (unfold solid; cbn [filter]; destruct (c =? 32); reflexivity).
    rewrite SC. destruct (c =? 32) eqn:Q.
    + destruct acc as [|x acc]; [exact (IH [])|]. cbn [length]. specialize (IH []). cbn [Nat.add] in IH. lia.
    + specialize (IH (acc ++ [c])). destruct acc; cbn [app] in *; lia.
Qed.
Lemma solid_expand l : solid (expand l) = solid l.
Proof.
  induction l as [|c l IH]; auto. rewrite expand_cons, solid_app, IH. unfold expand1, isBracket, solid. cbn [filter].
  destruct (Z.eqb_spec c 40) as [->|]; [reflexivity|]. destruct (Z.eqb_spec c 41) as [->|]; [reflexivity|]. cbn [orb filter]. destruct (c =? 32); reflexivity.
Qed.
Lemma tokens_solid l : (length (T l) <= solid l)%nat.
Proof. unfold T, strtok. pose proof (acc_solid (expand l) []) as H. rewrite solid_expand in H. cbn in H. exact H. Qed.
(** set openers count twice *)
Definition openers (s : text) : nat := length (filter (fun c => (c =? 91) || (c =? 123)) s).
Lemma openers_app a b : openers (a ++ b) = (openers a + openers b)%nat. Proof. unfold openers. rewrite filter_app, app_length. reflexivity. Qed.
Lemma solid_length l : (solid l <= length l)%nat.
Proof. unfold solid. induction l as [|c l IH]; cbn; auto. destruct (c =? 32); cbn; lia. Qed.
Lemma canon1_solid c l : (solid (fst (canon1 (c :: l))) <= 1 + openers [c])%nat.
Proof.
  unfold canon1. cbn [nth]. unfold openers. cbn [filter].
  destruct (Z.eqb_spec c 44) as [->|]; [cbn; lia|]. destruct (Z.eqb_spec c 91) as [->|]; [cbn; lia|]. destruct (Z.eqb_spec c 123) as [->|]; [cbn; lia|].
  cbn [orb length].
  repeat match goal with |- context [if ?b then _ else _] => destruct b end; cbn [fst]; etransitivity; try apply solid_length; cbn [length]; lia.
Qed.
Lemma solid_canon s : (solid (canon s) <= length s + openers s)%nat.
Proof.
  induction s as [|l H IH] using text_ind; [cbn; lia|]. rewrite canon_step by auto. rewrite solid_app.
  destruct (canon1_bounds l H) as (B1 & _ & B3). destruct l as [|c l]; [congruence|]. pose proof (canon1_solid c l) as C1.
  set (u := snd (canon1 (c :: l))) in *. rewrite skipn_length in IH.
  assert (O : (openers (c :: l) = openers (firstn u (c :: l)) + openers (skipn u (c :: l)))%nat) by (rewrite <- openers_app, firstn_skipn; reflexivity).
  destruct u as [|u]; [lia|]. cbn [firstn] in O. change (c :: firstn u l) with ([c] ++ firstn u l) in O. rewrite openers_app in O. lia.
Qed.
Lemma tokens_bound s : (length (TK s) <= length s + openers s)%nat.
Proof. unfold TK. etransitivity; [apply tokens_solid|apply solid_canon]. Qed.
Lemma TK_brackets n : TK (repeat 91 n) = concat (repeat [OPEN; [39]] n).
Proof.
  induction n as [|n IH]; [reflexivity|]. cbn [repeat concat]. unfold TK. rewrite canon_int, T_open. change (39 :: 32 :: ?k) with ([39] ++ 32 :: k).
  rewrite T_word; [|discriminate|repeat constructor; discriminate|cbn; auto]. rewrite T_space. fold (TK (repeat 91 n)). rewrite IH. reflexivity.
Qed.

(** *** sentences *)
Lemma chr_app1 a b i : (i < length a)%nat -> chr (a ++ b) i = chr a i. Proof. unfold chr. apply app_nth1. Qed.
Lemma chr_app2 a b i : chr (a ++ b) (length a + i) = chr b i. Proof. unfold chr. rewrite app_nth2 by lia. f_equal. lia. Qed.
Lemma opening_mid core m : forall n, (n <= length core + 1 + length m)%nat -> (length core + 1 <= n)%nat -> forall o, o = 123 \/ o = 37 -> (forall c, In c m -> c <> 123 /\ c <> 37) ->
  opening (core ++ o :: m) n = Some (length core).
Proof.
  induction n as [|n IH]; intros L1 L2 o O M; [lia|]. cbn [opening]. destruct (Nat.eq_dec n (length core)) as [->|Q].
  - rewrite <- (Nat.add_0_r (length core)) at 1 2. rewrite chr_app2. cbn. destruct O as [-> | ->]; reflexivity.
  - replace n with (length core + (n - length core))%nat at 1 2 by lia. rewrite chr_app2. destruct (n - length core)%nat as [|k] eqn:K; [lia|].
    unfold chr. cbn [nth]. assert (I : In (nth k m 0) m) by (apply nth_In; lia). destruct (M _ I) as (M1 & M2). apply Z.eqb_neq in M1, M2. rewrite M1, M2. cbn [orb].
    apply IH; auto; lia.
Qed.
Lemma no_dt atof s : ~ has_dt s -> sentence_dt atof s = Ok (s, f0).
Proof.
  intros H. unfold sentence_dt. destruct ((chr s 0 =? 100) && (chr s 1 =? 116) && (chr s 2 =? 61)) eqn:Q; auto. exfalso. apply H.
  apply andb_prop in Q as [Q Q3]. apply andb_prop in Q as [Q1 Q2]. apply Z.eqb_eq in Q1, Q2, Q3.
  destruct s as [|a [|b [|c s]]]; cbn in Q1, Q2, Q3; try discriminate. subst. exists s. reflexivity.
Qed.
Lemma first_space_app n r : (forall c, In c n -> c <> 32) -> forall i, first_space (n ++ 32 :: r) i = Some (i + length n)%nat.
Proof.
  induction n as [|c n IH]; intros H i; cbn [app first_space].
  - change (32 =? 32) with true. cbn [length]. f_equal. lia.
  - destruct (Z.eqb_spec c 32) as [->|]; [exfalso; apply (H 32); cbn; auto|]. rewrite IH by (intros d Hd; apply H; cbn; auto). cbn [length]. f_equal. lia.
Qed.
Lemma dt_ok atof n r : (forall c, In c n -> c <> 32) -> (length n + 3 < 30)%nat ->
  sentence_dt atof ([100; 116; 61] ++ n ++ 32 :: r) = Ok (32 :: r, atof n).
Proof.
  intros H L. unfold sentence_dt. change (chr ([100; 116; 61] ++ n ++ 32 :: r) 0) with 100. change (chr ([100; 116; 61] ++ n ++ 32 :: r) 1) with 116.
  change (chr ([100; 116; 61] ++ n ++ 32 :: r) 2) with 61. cbn [Z.eqb Pos.eqb andb].
  rewrite app_assoc. rewrite first_space_app.
  2:{ intros c. rewrite in_app_iff. intros [[<-|[<-|[<-|[]]]]|Q]; auto; discriminate. }
  rewrite app_length. cbn [length Nat.add]. destruct (Nat.ltb_spec (3 + length n) 30); [|lia]. cbn [Nat.add] in *.
  destruct (Nat.ltb_spec (S (S (S (length n)))) 30); [|lia].
  assert (E1 : skipn (S (S (S (length n)))) (([100; 116; 61] ++ n) ++ 32 :: r) = 32 :: r).
  { change (S (S (S (length n)))) with (length ([100; 116; 61] ++ n)). rewrite skipn_app, skipn_all, Nat.sub_diag. reflexivity. }
  rewrite E1. do 2 f_equal. cbn [Nat.sub app skipn]. rewrite Nat.sub_0_r. rewrite firstn_app, firstn_all, Nat.sub_diag. cbn [firstn]. rewrite app_nil_r. reflexivity.
Qed.
Definition tail_of (p tense : Z) : text := p :: tense_text tense.
Section Sentence.
Variable cap : nat.
Variable atof : text -> f64.
Variable scan1 : text -> option f64.
Variable scan2 : bool -> text -> option (f64 * f64).
Lemma sentence_end (st : astate) body p tense : In p [46; 33; 63] -> 0 <= tense <= 3 ->
  let s := body ++ tail_of p tense in
  sentence_tense s = tense /\ Nat.sub (length s) (if sentence_tense s =? 0 then 1%nat else 5%nat) = length body /\
  (if sentence_tense s =? 0 then 1%nat else 5%nat) = length (tail_of p tense) /\
  chr s (length body) = p /\ firstn (length body) s = body /\ chr s (length s - 1) <> 125 /\ chr s (length s - 1) <> 37.
Proof.
  intros P TE s. assert (C : tense = 0 \/ tense = 1 \/ tense = 2 \/ tense = 3) by lia.
  assert (LS : length s = (length body + length (tail_of p tense))%nat) by (unfold s; apply app_length).
  assert (CH : forall i, chr s (length body + i) = chr (tail_of p tense) i) by (intros i; apply chr_app2).
  assert (X : sentence_tense s = tense).
  { unfold sentence_tense. destruct C as [-> | [-> | [-> | ->]]].
    - cbn in LS. destruct (Nat.leb_spec 3 (length s)); auto. cbn [andb].
      replace (length s - 1)%nat with (length body + 0)%nat by lia. rewrite CH. cbn in P. destruct P as [<-|[<-|[<-|[]]]]; reflexivity.
    - cbn in LS. destruct (Nat.leb_spec 3 (length s)); [|lia]. replace (length s - 1)%nat with (length body + 4)%nat by lia.
      replace (length s - 3)%nat with (length body + 2)%nat by lia. replace (length s - 2)%nat with (length body + 3)%nat by lia. rewrite !CH. reflexivity.
    - cbn in LS. destruct (Nat.leb_spec 3 (length s)); [|lia]. replace (length s - 1)%nat with (length body + 4)%nat by lia.
      replace (length s - 3)%nat with (length body + 2)%nat by lia. replace (length s - 2)%nat with (length body + 3)%nat by lia. rewrite !CH. reflexivity.
    - cbn in LS. destruct (Nat.leb_spec 3 (length s)); [|lia]. replace (length s - 1)%nat with (length body + 4)%nat by lia.
      replace (length s - 3)%nat with (length body + 2)%nat by lia. replace (length s - 2)%nat with (length body + 3)%nat by lia. rewrite !CH. reflexivity. }
  rewrite X. split; auto. assert (O : (if tense =? 0 then 1%nat else 5%nat) = length (tail_of p tense)) by (destruct C as [-> | [-> | [-> | ->]]]; reflexivity).
  rewrite O. split; [lia|]. split; auto. split; [rewrite <- (Nat.add_0_r (length body)), CH; reflexivity|].
  split; [unfold s; rewrite firstn_app, firstn_all, Nat.sub_diag; cbn [firstn]; apply app_nil_r|].
  assert (Y : chr s (length s - 1) = p \/ chr s (length s - 1) = 58).
  { destruct C as [-> | [-> | [-> | ->]]]; cbn in LS; [left; replace (length s - 1)%nat with (length body + 0)%nat by lia|right; replace (length s - 1)%nat with (length body + 4)%nat by lia..]; rewrite CH; reflexivity. }
  cbn in P. destruct Y as [-> | ->]; [|split; discriminate]. destruct P as [<-|[<-|[<-|[]]]]; split; discriminate.
Qed.
Lemma rest_ok st body p tense v dt : In p [46; 33; 63] -> 0 <= tense <= 3 ->
  let s := body ++ tail_of p tense in
  (let tense := sentence_tense s in
  let off := if tense =? 0 then 1%nat else 5%nat in
  if (length s <? off)%nat then UB else
  let p := chr s (length s - off) in
  do _ <- rassert ((p =? 33) || (p =? 63) || (p =? 46)) ;
  do (st, t) <- Narsese_Term cap st (firstn (length s - off) s) ;
  Ok (st, mkSentence t p tense v dt)) =
  do (st, t) <- Narsese_Term cap st body ; Ok (st, mkSentence t p tense v dt).
Proof.
  intros P TE s. destruct (sentence_end st body p tense P TE) as (X & L & O & C & F & _). fold s in X, L, O, C, F. cbn zeta.
  rewrite L, C, F. rewrite O. assert (LS : length s = (length body + length (tail_of p tense))%nat) by (unfold s; apply app_length).
  destruct (Nat.ltb_spec (length s) (length (tail_of p tense))); [lia|]. rewrite X.
  replace ((p =? 33) || (p =? 63) || (p =? 46)) with true by (cbn in P; destruct P as [<-|[<-|[<-|[]]]]; reflexivity). reflexivity.
Qed.
Lemma sentence_plain st body p tense : In p [46; 33; 63] -> 0 <= tense <= 3 -> body <> [] -> ~ has_dt (body ++ tail_of p tense) ->
  (length (body ++ tail_of p tense) < NARSESE_LEN_MAX)%nat ->
  Narsese_Sentence cap atof scan1 scan2 st (body ++ tail_of p tense) =
  do (st, t) <- Narsese_Term cap st body ; Ok (st, mkSentence t p tense (NAR_DEFAULT_FREQUENCY, NAR_DEFAULT_CONFIDENCE) f0).
Proof.
  intros P TE NB ND LN. rewrite <- (rest_ok st body p tense _ f0 P TE). unfold Narsese_Sentence. rewrite no_dt by auto. cbn [rbind].
  destruct (sentence_end st body p tense P TE) as (_ & _ & _ & _ & _ & C1 & C2). set (s := body ++ tail_of p tense) in *.
  assert (L1 : (1 < length s)%nat) by (unfold s; rewrite app_length; destruct body; [congruence|]; cbn; lia).
  apply Nat.ltb_lt in L1, LN. rewrite L1, LN. cbn [rassert rbind]. unfold sentence_truth. apply Z.eqb_neq in C1, C2. rewrite C1, C2. reflexivity.
Qed.
Lemma sentence_valued st body p tense m : In p [46; 33; 63] -> 0 <= tense <= 3 -> ~ has_dt (body ++ tail_of p tense ++ 32 :: 123 :: m ++ [125]) ->
  Nat.lt (length (body ++ tail_of p tense ++ 32 :: 123 :: m ++ [125])) NARSESE_LEN_MAX -> (forall c, In c m -> c <> 123 /\ c <> 37) ->
  Narsese_Sentence cap atof scan1 scan2 st (body ++ tail_of p tense ++ 32 :: 123 :: m ++ [125]) =
  match scan2 false (123 :: m ++ [125]) with
  | Some v => do (st, t) <- Narsese_Term cap st body ; Ok (st, mkSentence t p tense v f0)
  | None => UB
  end.
Proof.
  intros P TE ND LN M. unfold Narsese_Sentence. rewrite no_dt by auto. cbn [rbind].
  set (core := body ++ tail_of p tense). set (s := body ++ tail_of p tense ++ 32 :: 123 :: m ++ [125]) in *.
  assert (ES : s = (core ++ [32]) ++ 123 :: m ++ [125]) by (unfold s, core; rewrite <- !app_assoc; reflexivity).
  assert (LC : length (core ++ [32]) = (length core + 1)%nat) by (rewrite app_length; reflexivity).
  assert (LS : length s = (length core + 3 + length m)%nat) by (rewrite ES, app_length, LC; cbn [length]; rewrite app_length; cbn [length]; lia).
  assert (L1 : (1 < length s)%nat) by lia. apply Nat.ltb_lt in L1, LN. rewrite L1, LN. cbn [rassert rbind]. unfold sentence_truth.
  assert (LAST : chr s (length s - 1) = 125).
  { replace (length s - 1)%nat with (Nat.add (length (core ++ [32])) (length m + 1)) by lia. rewrite ES, chr_app2. unfold chr. rewrite Nat.add_1_r. cbn [nth]. rewrite app_nth2 by lia. rewrite Nat.sub_diag. reflexivity. }
  rewrite LAST. change (125 =? 125) with true. change (125 =? 37) with false. cbn [orb andb].
  assert (OP : opening s (length s - 1) = Some (length (core ++ [32]))).
  { rewrite ES at 1. change (123 :: m ++ [125]) with (123 :: (m ++ [125])). apply opening_mid; [rewrite LC, (app_length m); cbn [length]; lia|rewrite LC; lia|auto|].
    intros c. rewrite in_app_iff. intros [Q|[<-|[]]]; auto. split; discriminate. }
  rewrite OP. assert (SK : skipn (length (core ++ [32])) s = 123 :: m ++ [125]) by (rewrite ES, skipn_app, skipn_all, Nat.sub_diag; reflexivity).
  rewrite SK. destruct (scan2 false (123 :: m ++ [125])) as [v|]; [|reflexivity]. cbn [rbind]. rewrite LC, Nat.add_1_r.
  assert (CP : chr s (length core) = 32). { rewrite ES. rewrite <- app_assoc. rewrite <- (Nat.add_0_r (length core)), chr_app2. reflexivity. }
  rewrite CP. change (32 =? 32) with true. cbn [rassert rbind].
  assert (FC : firstn (length core) s = core) by (rewrite ES, <- app_assoc, firstn_app, firstn_all, Nat.sub_diag; cbn [firstn]; apply app_nil_r).
  rewrite FC. apply rest_ok; auto.
Qed.
Lemma sentence_offset st n r : (forall c, In c n -> c <> 32) -> (length n + 3 < 30)%nat ->
  Narsese_Sentence cap atof scan1 scan2 st ([100; 116; 61] ++ n ++ 32 :: r) =
  do (st, x) <- Narsese_Sentence cap atof scan1 scan2 st (32 :: r) ; Ok (st, mkSentence (s_term x) (s_punctuation x) (s_tense x) (s_truth x) (atof n)).
Proof.
  intros H L. unfold Narsese_Sentence. rewrite dt_ok by auto. rewrite (no_dt atof (32 :: r)) by (intros (x & Q); discriminate Q). cbn [rbind].
  destruct (rassert (Nat.ltb 1 (length (32 :: r)))) as [u| |]; [|reflexivity..]. cbn [rbind]. destruct (rassert (Nat.ltb (length (32 :: r)) NARSESE_LEN_MAX)) as [u'| |]; [|reflexivity..]. cbn [rbind].
  destruct (sentence_truth scan1 scan2 (32 :: r)) as [[s v]| |]; [|reflexivity..]. cbn [rbind].
  match goal with |- context [if ?b then UB else _] => destruct b; [reflexivity|] end.
  match goal with |- context [rassert ?b] => destruct (rassert b) as [u2| |]; [|reflexivity..] end. cbn [rbind].
  match goal with |- context [Narsese_Term ?a ?b ?c] => destruct (Narsese_Term a b c) as [[st' t]| |]; [|reflexivity..] end. reflexivity.
Qed.
End Sentence.
