(** Proofs about the rule table. *)
From Coq Require Import ZArith List Bool Lia Ascii String.
From Verif Require Import Base TermM TermS TermP TermP2 NamesM AtomsM AtomsS AtomsP VariableM ParserM ParserS ParserP RulesM RulesS.
Local Open Scope Z_scope.
Import ListNotations.

(** ** reading the rules *)
(** position of a name in the initial symbol table *)
Fixpoint pos_in (k : Z) (l : names) (n : name) : option Z :=
  match l with [] => None | x :: l => if list_eqb x n then Some k else pos_in (k + 1) l n end.
Definition known (n : name) : option Z := pos_in 1 init_list (block n).
Fixpoint pure_build (fuel : nat) (t : term) (toks : list name) (i1 idx : nat) : option term :=
  match fuel with
  | O => None
  | S fuel =>
    match nth_error toks i1 with
    | None => None
    | Some tok =>
      if isTok 40 tok then
        let l := (i1 + 2)%nat in
        let r := skipCompound toks l in
        match nth_error toks (i1 + 1) with
        | None => None
        | Some cop =>
          match known cop with
          | None => None
          | Some a =>
            if (SIZE <=? idx - 1)%nat then None else
            match (if (l <? length toks)%nat then pure_build fuel (upd t (idx - 1) a) toks l (idx * 2) else Some (upd t (idx - 1) a)) with
            | None => None
            | Some t => if (r <? length toks)%nat then pure_build fuel t toks r (idx * 2 + 1) else Some t
            end
          end
        end
      else if (idx - 1 <? SIZE)%nat then
        match known (if isTok 41 tok then [SET_TERMINATOR] else tok) with Some a => Some (upd t (idx - 1) a) | None => None end
      else None
    end
  end.
Definition pure_term (s : text) : option term :=
  if (length s <=? 200)%nat then
    let toks := prefix_all (strtok (expand (canon s))) in
    match pure_build (S (length toks)) zero_term toks 0 1 with
    | Some t => match Normalize init_list t with Ok t => Some t | _ => None end
    | None => None
    end
  else None.
Lemma pos_in_spec n l : forall k i, pos_in k l n = Some i -> exists j, i = k + Z.of_nat j /\ nth_error l j = Some n.
Proof.
  induction l as [|x l IH]; intros k i; cbn [pos_in]; [discriminate|]. destruct (list_eqb x n) eqn:E.
  - intros [= <-]. apply list_eqb_eq in E. subst. exists 0%nat. split; [lia|reflexivity].
  - intros H. destruct (IH _ _ H) as (j & -> & Q). exists (S j). split; [lia|exact Q].
Qed.
Section Cap.
Variable cap : nat.
Variable st : astate.
Hypothesis AI : ainv cap st.
Hypothesis NS : a_names st = init_list.
Lemma known_ok n i : known n = Some i -> AtomicTermIndex cap st n = Ok (st, i) /\ to_atom i = i.
Proof.
  unfold known. intros H. destruct (pos_in_spec _ _ _ _ H) as (j & -> & Q). destruct (intern_ok cap st n AI) as (IN & _).
  destruct IN as (k & E & K). { rewrite NS. eapply nth_error_In; eauto. }
  rewrite NS in K. assert (J : j = k).
  { assert (ND : NoDup init_list) by (rewrite <- NS; apply AI). rewrite NoDup_nth_error in ND. apply ND; [|congruence]. apply nth_error_Some. congruence. }
  subst k. split; [exact E|]. unfold to_atom. apply Z.mod_small.
  assert (j < length init_list)%nat by (apply nth_error_Some; congruence). change (length init_list) with 63%nat in *. lia.
Qed.
Lemma pure_build_ok fuel : forall t toks i1 idx t', pure_build fuel t toks i1 idx = Some t' -> buildBinaryTree cap fuel st t toks i1 idx = Ok (st, t').
Proof.
  induction fuel as [|fuel IH]; intros t toks i1 idx t'; cbn [pure_build buildBinaryTree]; [discriminate|].
  destruct (nth_error toks i1) as [tok|]; [|discriminate]. destruct (isTok 40 tok).
  - destruct (nth_error toks (i1 + 1)) as [cop|]; [|discriminate]. destruct (known cop) as [a|] eqn:K; [|discriminate].
    destruct (known_ok _ _ K) as (E & A). rewrite E. cbn [rbind]. rewrite A. destruct (SIZE <=? idx - 1)%nat; [discriminate|].
    destruct (i1 + 2 <? length toks)%nat.
    + destruct (pure_build fuel _ toks (i1 + 2) (idx * 2)) as [t1|] eqn:B; [|discriminate]. rewrite (IH _ _ _ _ _ B). cbn [rbind].
      destruct (_ <? _)%nat; [apply IH|]. intros [= <-]. reflexivity.
    + cbn [rbind]. destruct (_ <? _)%nat; [apply IH|]. intros [= <-]. reflexivity.
  - destruct (idx - 1 <? SIZE)%nat; [|discriminate]. cbn [rassert rbind]. destruct (known _) as [a|] eqn:K; [|discriminate].
    destruct (known_ok _ _ K) as (E & A). rewrite E. cbn [rbind]. rewrite A. intros [= <-]. reflexivity.
Qed.
Lemma strtok_length l : (length (strtok l) <= length l)%nat.
Proof.
  unfold strtok. assert (G : forall l acc, (length (tokens_acc acc l) <= length l + (match acc with [] => 0 | _ => 1 end))%nat).
  { clear. induction l as [|c l IH]; intros acc; cbn [tokens_acc length]; [destruct acc; cbn; lia|]. destruct (c =? 32).
    - destruct acc; cbn [length]; pose proof (IH []); cbn in *; lia.
    - specialize (IH (acc ++ [c])). destruct (acc ++ [c]) eqn:Q; [destruct acc; discriminate|]. cbn in *. destruct acc; lia. }
  specialize (G l []). cbn in G. lia.
Qed.
Lemma skip_ge l : forall i c, (i <= skip_loop l i c)%nat.
Proof. induction l as [|t l IH]; intros i c; cbn [skip_loop]; [lia|]. destruct (_ =? 0); [lia|]. etransitivity; [|apply IH]. lia. Qed.
Lemma prefix1_length toks i : (length (prefix1 toks i) <= length toks)%nat.
Proof.
  unfold prefix1. destruct (_ && _); [|lia]. destruct (Nat.ltb_spec (skipCompound toks (i + 1)) (length toks)); [|lia].
  pose proof (skip_ge (skipn (i + 1) toks) (i + 1) 0) as G. fold (skipCompound toks (i + 1)) in G.
  rewrite !app_length, !firstn_length, !skipn_length. cbn [length]. lia.
Qed.
Lemma prefix_all_length toks : (length (prefix_all toks) <= length toks)%nat.
Proof.
  unfold prefix_all. generalize (seq 0 (length toks - 2)). intros l. revert toks. induction l as [|i l IH]; intros t; cbn [fold_left]; [lia|].
  pose proof (IH (prefix1 t i)). pose proof (prefix1_length t i). lia.
Qed.
Lemma pure_term_ok s t : pure_term s = Some t -> Narsese_Term cap st s = Ok (st, t).
Proof.
  unfold pure_term, Narsese_Term. destruct (Nat.leb_spec (length s) 200) as [L|]; [|discriminate]. pose proof NLMz as N.
  pose proof (expand_ok s) as X. destruct (Nat.leb_spec (length s + 3) NARSESE_LEN_MAX); [|lia]. rewrite X. cbn [rbind]. unfold Narsese_PrefixTransform.
  pose proof (strtok_length (expand (canon s))) as L1. pose proof (expand_length (canon s)) as L2. pose proof (canon_length s) as L3. cbv zeta.
  destruct (Nat.leb_spec (length (strtok (expand (canon s)))) (NARSESE_LEN_MAX + 1)); [|lia]. cbn [rbind].
  pose proof (prefix_all_length (strtok (expand (canon s)))) as L4. destruct (Nat.leb_spec (length (prefix_all (strtok (expand (canon s))))) NARSESE_LEN_MAX); [|lia].
  destruct (pure_build _ _ _ _ _) as [t1|] eqn:B; [|discriminate]. rewrite (pure_build_ok _ _ _ _ _ _ B). cbn [rbind]. rewrite NS.
  destruct (Normalize init_list t1); cbn [rbind]; try discriminate. intros [= <-]. reflexivity.
Qed.
(** a list of rules at once *)
Definition pure_rule (g : grule) : option prule :=
  match pure_term (str (g_p1 g)), (match g_p2 g with Some p => match pure_term (str p) with Some t => Some (Some t) | None => None end | None => Some None end), pure_term (str (g_c g)) with
  | Some p1, Some p2, Some c => Some (mkR p1 p2 c (g_f g) (g_switch g) (g_intro g))
  | _, _, _ => None
  end.
Definition pure_reduction (r : string * string) : option (term * term) :=
  match pure_term (str (fst r)), pure_term (str (snd r)) with Some p, Some c => Some (p, c) | _, _ => None end.
Lemma pure_rules_ok l : forall rs, map pure_rule l = map Some rs -> parse_all (parse_rule cap) st l = Ok (st, rs).
Proof.
  induction l as [|g l IH]; intros [|r rs]; cbn [map parse_all]; try discriminate; auto. intros H. inversion H as [[H1 H2]]. specialize (IH _ H2). unfold parse_rule at 1.
  unfold pure_rule in H1. destruct (pure_term (str (g_p1 g))) eqn:P1; [|discriminate]. rewrite (pure_term_ok _ _ P1). cbn [rbind].
  destruct (g_p2 g) as [p2|].
  - destruct (pure_term (str p2)) eqn:P2; [|discriminate]. rewrite (pure_term_ok _ _ P2). cbn [rbind]. destruct (pure_term (str (g_c g))) eqn:P3; [|discriminate].
    rewrite (pure_term_ok _ _ P3). cbn [rbind]. rewrite IH. cbn [rbind]. inversion H1. reflexivity.
  - cbn [rbind]. destruct (pure_term (str (g_c g))) eqn:P3; [|discriminate]. rewrite (pure_term_ok _ _ P3). cbn [rbind]. rewrite IH. cbn [rbind]. inversion H1. reflexivity.
Qed.
Lemma pure_reductions_ok l : forall rs, map pure_reduction l = map Some rs -> parse_all (parse_reduction cap) st l = Ok (st, rs).
Proof.
  induction l as [|g l IH]; intros [|r rs]; cbn [map parse_all]; try discriminate; auto. intros H. inversion H as [[H1 H2]]. specialize (IH _ H2). unfold parse_reduction at 1.
  unfold pure_reduction in H1. destruct (pure_term (str (fst g))) eqn:P1; [|discriminate]. rewrite (pure_term_ok _ _ P1). cbn [rbind].
  destruct (pure_term (str (snd g))) eqn:P2; [|discriminate]. rewrite (pure_term_ok _ _ P2). cbn [rbind]. rewrite IH. cbn [rbind]. inversion H1. reflexivity.
Qed.
End Cap.
Lemma rules_pure : map pure_rule (flat_map generate NAL_RULES) = map Some rules.
Proof. vm_compute. reflexivity. Qed.
Lemma reductions_pure : map pure_reduction (flat_map generate_reduction NAL_REDUCTIONS) = map Some reductions.
Proof. vm_compute. reflexivity. Qed.

