From Coq Require Import ZArith List Bool.
From Verif Require Import Base F64 TruthM TermM TermS TermP TermP2 NamesM EventM VariableM VariableS.
Local Open Scope Z_scope.
#[local] Opaque Term_ExtractSubterm Term_OverrideSubterm.

Lemma no_fail m tr s : Ok (mkSubst m false tr) = Ok s -> s_success s = true -> False.
Proof. intros [= <-]. discriminate. Qed.
Section Unify.
Variable nm : names.
Variable av : Z -> option (f64 * name).
Variable simdist : f64.
Variable tr0 : truth f64A.
Variable qonly : bool.
Notation al a := (if qonly then isQueryVariable nm a else isVariable nm a).
Variables general specific : term.

Lemma query_var a : isQueryVariable nm a = true -> isVariable nm a = true.
Proof. unfold isVariable. intros ->. rewrite !orb_true_r. reflexivity. Qed.
Lemma var_pos a : isVariable nm a = true -> 0 < a.
Proof.
  unfold isVariable, isIndependentVariable, isDependentVariable, isQueryVariable.
  destruct (Z.ltb_spec 0 a); cbn; [auto|discriminate].
Qed.
Lemma al_var a : al a = true -> isVariable nm a = true.
Proof. destruct qonly; auto using query_var. Qed.
Lemma al_pos a : al a = true -> 0 < a.
Proof. intros H. apply var_pos, al_var, H. Qed.
Lemma lookup_upd m a t v : length m = 28%nat -> 0 < a <= 27 -> 0 < v -> lookup_map (upd m (Z.to_nat a) t) v = if v =? a then t else lookup_map m v.
Proof.
  intros L A V. unfold lookup_map. rewrite nth_upd. destruct (Z.eqb_spec v a) as [->|N].
  - rewrite Nat.eqb_refl. replace (Z.to_nat a <? length m)%nat with true by (symmetry; apply Nat.ltb_lt; lia). reflexivity.
  - destruct (Nat.eqb_spec (Z.to_nat v) (Z.to_nat a)); [lia|reflexivity].
Qed.

(** atoms that may stand for each other at a slot *)
Definition match_atom (ga sa : Z) : Prop := ga = sa \/ (feqb (confidence tr0) f0 = false /\ value_similarity av simdist ga sa <> None).
Notation bindable := (bindable nm).
Notation sub i := (Term_ExtractSubterm specific i).
Lemma unify_loop_sound l : forall m tr s, length m = 28%nat ->
  unify_loop nm av simdist tr0 general specific qonly l m tr = Ok s -> s_success s = true ->
  length (s_map s) = 28%nat /\
  (forall i, In i l -> at_ general i <> 0 ->
     if al (at_ general i)
     then at_ general i <= 27 /\ bindable (at_ general i) (at_ (sub i) 0) /\
          (at_ (sub i) 0 <> 0 -> lookup_map (s_map s) (at_ general i) = sub i)
     else match_atom (at_ general i) (at_ specific i)) /\
  (forall v, 0 < v -> at_ (lookup_map m v) 0 <> 0 -> lookup_map (s_map s) v = lookup_map m v) /\
  (forall v, 0 < v -> lookup_map (s_map s) v <> lookup_map m v -> exists i, In i l /\ at_ general i = v /\ al v = true).
Proof.
  induction l as [|i l IH]; intros m tr s L H S; cbn [unify_loop] in H.
  - replace s with (mkSubst m true tr) by congruence. cbn [s_map]. split; auto. split; [intros i []|]. split; auto. congruence.
  - destruct (Z.eqb_spec (at_ general i) 0) as [G0|G0].
    { destruct (IH _ _ _ L H S) as (A & B & C & D). split; [exact A|]. split; [intros j [->|J]; [congruence|exact (B j J)]|]. split; [exact C|].
      intros v V X. destruct (D v V X) as (j & J & K). exists j. split; [right|]; auto. }
    destruct (al (at_ general i)) eqn:AL.
    + cbn [rbind rassert] in H. destruct (Z.leb_spec (at_ general i) 27) as [G27|]; [|discriminate H]. cbn [rbind] in H.
      pose proof (al_pos _ AL) as GP.
      destruct (isQueryVariable nm (at_ general i) && isVariable nm (at_ (sub i) 0)) eqn:Q; [exfalso; exact (no_fail _ _ _ H S)|].
      destruct (negb (at_ (lookup_map m (at_ general i)) 0 =? 0) && negb (term_eqb (lookup_map m (at_ general i)) (sub i))) eqn:EQ; [exfalso; exact (no_fail _ _ _ H S)|].
      destruct (copulaEquals nm (at_ (sub i) 0) SET_TERMINATOR) eqn:ST; [exfalso; exact (no_fail _ _ _ H S)|].
      assert (L' : length (upd m (Z.to_nat (at_ general i)) (sub i)) = 28%nat) by (rewrite upd_length; exact L).
      destruct (IH _ _ _ L' H S) as (A & B & C & D).
      assert (OLD : at_ (lookup_map m (at_ general i)) 0 <> 0 -> lookup_map m (at_ general i) = sub i).
      { intros X. apply andb_false_iff in EQ as [EQ|EQ]; apply negb_false_iff in EQ; [apply Z.eqb_eq in EQ; congruence|apply term_eqb_spec; exact EQ]. }
      assert (NEW : at_ (sub i) 0 <> 0 -> lookup_map (s_map s) (at_ general i) = sub i).
      { intros X. rewrite C; rewrite ?lookup_upd, ?Z.eqb_refl by (auto; lia); auto. }
      split; [exact A|]. split; [|split].
      * intros j [<-|J] GJ; [|apply B; auto]. rewrite AL. split; auto. split; [|exact NEW]. split; auto. intros Y. rewrite Y in Q. exact Q.
      * intros v V X. destruct (Z.eq_dec v (at_ general i)) as [->|N].
        -- rewrite (OLD X). apply NEW. rewrite <- (OLD X). exact X.
        -- rewrite C; rewrite ?lookup_upd by (auto; lia); destruct (Z.eqb_spec v (at_ general i)); congruence.
      * intros v V X. destruct (Z.eq_dec v (at_ general i)) as [->|N]; [exists i; split; [left|]; auto|].
        destruct (D v V) as (j & J & K); [|exists j; split; [right|]; auto].
        rewrite lookup_upd by (auto; lia). destruct (Z.eqb_spec v (at_ general i)); congruence.
    + assert (FIN : forall tr, match_atom (at_ general i) (at_ specific i) -> unify_loop nm av simdist tr0 general specific qonly l m tr = Ok s ->
         length (s_map s) = 28%nat /\
  (forall j, In j (i :: l) -> at_ general j <> 0 ->
     if al (at_ general j)
     then at_ general j <= 27 /\ bindable (at_ general j) (at_ (sub j) 0) /\
          (at_ (sub j) 0 <> 0 -> lookup_map (s_map s) (at_ general j) = sub j)
     else match_atom (at_ general j) (at_ specific j)) /\
  (forall v, 0 < v -> at_ (lookup_map m v) 0 <> 0 -> lookup_map (s_map s) v = lookup_map m v) /\
  (forall v, 0 < v -> lookup_map (s_map s) v <> lookup_map m v -> exists j, In j (i :: l) /\ at_ general j = v /\ al v = true)).
      { intros tr' M H'. destruct (IH _ _ _ L H' S) as (A & B & C & D). split; [exact A|]. split; [|split; [exact C|]].
        - intros j [<-|J] GJ; [|apply B; auto]. rewrite AL. exact M.
        - intros v V X. destruct (D v V X) as (j & J & K). exists j. split; [right|]; auto. }
      destruct (Z.eqb_spec (at_ general i) (at_ specific i)) as [Eq|Ne]; [apply (FIN tr); [left|]; auto|].
      destruct (feqb (confidence tr0) f0) eqn:FE; [exfalso; exact (no_fail _ _ _ H S)|].
      destruct (hasAtomValue av (at_ general i)) as [[]| |]; cbn [rbind] in H; try discriminate H; cbn [negb] in H; [|exfalso; exact (no_fail _ _ _ H S)].
      destruct (hasAtomValue av (at_ specific i)) as [[]| |]; cbn [rbind] in H; try discriminate H; cbn [negb] in H; [|exfalso; exact (no_fail _ _ _ H S)].
      destruct (value_similarity av simdist (at_ general i) (at_ specific i)) as [c|] eqn:VS; [|exfalso; exact (no_fail _ _ _ H S)].
      destruct (feqb _ f0) eqn:FE2 in H; [exfalso; exact (no_fail _ _ _ H S)|].
      eapply FIN; [|exact H]. right. split; auto. congruence.
Qed.

Lemma matches_eq isvar sg g : forall s, matches isvar eq sg g s -> s = inst isvar sg g.
Proof.
  induction g as [|a l IHl r IHr]; intros s H; cbn [matches inst] in *; auto.
  destruct (isvar a); auto. destruct H as (b & l' & r' & -> & <- & HL & HR). f_equal; auto.
Qed.

Lemma tree_E t i : is_term t -> at_ t i = 0 -> tree_at t i = E.
Proof. intros T H. rewrite tree_at_unfold by exact T. rewrite H. reflexivity. Qed.
Lemma var_nonzero a : al a = true -> a <> 0.
Proof. intros H. pose proof (al_pos _ H). lia. Qed.

Section Sound.
Variable ar : Z -> nat.
Variable s : substitution.
Hypothesis Cg : closed general.
Hypothesis Cs : closed specific.
Hypothesis Ag : arity_ok ar general.
Hypothesis As : arity_ok ar specific.
Hypothesis Rar : forall a b, match_atom a b -> ar a = ar b.
Hypothesis POS : forall i, at_ general i <> 0 ->
     if al (at_ general i)
     then at_ general i <= 27 /\ bindable (at_ general i) (at_ (sub i) 0) /\
          (at_ (sub i) 0 <> 0 -> lookup_map (s_map s) (at_ general i) = sub i)
     else match_atom (at_ general i) (at_ specific i).
Lemma sub_root i : at_ (sub i) 0 = at_ specific i.
Proof.
  rewrite (at_tree (sub i) 0) by apply (closed_extract _ _ Cs). rewrite height_extract by exact Cs.
  symmetry. apply at_tree. apply Cs.
Qed.
(** empty below and at corresponding slots *)
Lemma sound_children i b : at_ general i <> 0 -> al (at_ general i) = false -> at_ specific i <> 0 ->
  (at_ general (child i b) = 0 <-> at_ specific (child i b) = 0).
Proof.
  intros G A S. pose proof (POS i G) as P. rewrite A in P. apply Rar in P.
  destruct (Ag i G) as [A1 A2]. destruct (As i S) as [B1 B2]. rewrite <- P in B1, B2. destruct b; [rewrite <- B2 in A2|rewrite <- B1 in A1]; clear - A1 A2.
  - destruct (Z.eq_dec (at_ general (child i true)) 0), (Z.eq_dec (at_ specific (child i true)) 0); tauto.
  - destruct (Z.eq_dec (at_ general (child i false)) 0), (Z.eq_dec (at_ specific (child i false)) 0); tauto.
Qed.
Lemma sound_tree fuel : forall i, enough fuel i -> (at_ general i = 0 <-> at_ specific i = 0) ->
  matches (fun a => al a) match_atom (binding s) (tree_f fuel general i) (tree_at specific i).
Proof.
  induction fuel as [|fuel IH]; intros i En Z0; cbn [tree_f].
  - cbn [matches]. apply tree_E; [apply Cs|]. apply at_out; [apply Cs|]. unfold enough in En. cbn in En. lia.
  - destruct (Z.eqb_spec (at_ general i) 0) as [G|G]; cbn [matches]; [apply tree_E; [apply Cs|tauto]|].
    pose proof (POS i G) as P. destruct (al (at_ general i)) eqn:A.
    + destruct P as (_ & _ & P). unfold binding. rewrite P by (rewrite sub_root; tauto). symmetry. apply height_extract. exact Cs.
    + assert (S : at_ specific i <> 0) by tauto. rewrite (tree_at_unfold specific i) by apply Cs.
      destruct (Z.eqb_spec (at_ specific i) 0) as [|_]; [congruence|]. do 3 eexists. split; [reflexivity|]. split; [exact P|].
      split; (apply IH; [apply enough_child; exact En|apply sound_children; auto]).
Qed.
End Sound.
End Unify.
