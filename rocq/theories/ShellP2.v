(** Numbers, lists and settings of the shell. *)
From Coq Require Import ZArith List Bool String Lia.
From Verif Require Import Base F64 TruthM StampM TermM NamesM AtomsM ParserM RulesM EventM MemoryM QuestionM DecisionM OpsM CycleM CycleS ShellM ShellS ShellP.
From Verif Require CycleP1.
Import ListNotations.
Local Open Scope Z_scope.
#[local] Opaque Z.mul Z.add Z.sub.

Lemma okI {A} (a b : A) : Ok a = Ok b -> a = b. Proof. congruence. Qed.
Definition space_code (c : Z) : Prop := c = 32 \/ 9 <= c <= 13.
Lemma isspace_spec c : isspace c = true <-> space_code c. Proof. unfold isspace, space_code. lia. Qed.
Lemma skip_app sp l : Forall space_code sp -> skip_space (sp ++ l) = skip_space l.
Proof. induction 1 as [|c sp C F IH]; cbn; auto. apply isspace_spec in C. rewrite C. auto. Qed.
Lemma skip_split l : exists sp, Forall space_code sp /\ l = sp ++ skip_space l /\ (forall c r, skip_space l = c :: r -> ~ space_code c).
Proof.
  induction l as [|c l (sp & F & E & H)]; cbn.
  - exists []. repeat split; auto. discriminate.
  - destruct (isspace c) eqn:C.
    + exists (c :: sp). repeat split; auto; [constructor; auto; apply isspace_spec; auto|cbn; congruence].
    + exists []. repeat split; auto. intros d r Q; injection Q as <- <-. rewrite <- isspace_spec. congruence.
Qed.
Definition dig (c : Z) : Prop := 48 <= c <= 57.
Lemma isdigit_spec c : isdigit c = true <-> dig c. Proof. unfold isdigit, dig. lia. Qed.
Lemma digits_app ds r : forall acc, Forall dig ds -> (forall c r', r = c :: r' -> ~ dig c) ->
  digits acc (ds ++ r) = (fold_left (fun n c => 10 * n + (c - 48)) ds acc, r).
Proof.
  induction ds as [|c ds IH]; intros acc F H; cbn.
  - destruct r as [|c r]; cbn; auto. specialize (H _ _ eq_refl). destruct (isdigit c) eqn:E; auto. apply isdigit_spec in E. contradiction.
  - inversion F; subst. rewrite (proj2 (isdigit_spec c)) by auto. apply IH; auto.
Qed.
Lemma digits_split l : forall acc, exists ds r, l = ds ++ r /\ Forall dig ds /\ (forall c r', r = c :: r' -> ~ dig c) /\ digits acc l = (fold_left (fun n c => 10 * n + (c - 48)) ds acc, r) /\ (starts_digit l = true -> ds <> []).
Proof.
  induction l as [|c l IH]; intros acc.
  - exists [], []. cbn. repeat split; auto; discriminate.
  - cbn. destruct (isdigit c) eqn:E.
    + destruct (IH (10 * acc + (c - 48))) as (ds & r & A & B & C & D & _). exists (c :: ds), r. cbn. rewrite D. repeat split; auto; [congruence|constructor; auto; apply isdigit_spec; auto|discriminate].
    + exists [], (c :: l). cbn. repeat split; auto; [|congruence]. intros x r Q; injection Q as <- <-. rewrite <- isdigit_spec. congruence.
Qed.
Lemma integer_reads l n : reads_int l n -> exists r, integer l = Some (n, r).
Proof.
  intros H. destruct H as [sp sg ds r n F [N D] R V]. unfold integer. rewrite skip_app by auto.
  assert (DD : exists d ds', ds = d :: ds' /\ dig d). { destruct ds as [|d ds']; [contradiction|]. inversion D; eauto. }
  destruct DD as (d & ds' & -> & Dd). assert (Sd : starts_digit ((d :: ds') ++ r) = true) by (cbn; apply isdigit_spec; auto).
  assert (K : skip_space (sg ++ (d :: ds') ++ r) = sg ++ (d :: ds') ++ r).
  { assert (X : forall c x, ~ space_code c -> skip_space (c :: x) = c :: x). { intros c x Y. cbn. destruct (isspace c) eqn:E; auto. apply isspace_spec in E. contradiction. }
    destruct V as [[[->| ->] _]|[-> _]]; cbn [app]; apply X; unfold space_code, dig in *; lia. }
  rewrite K. exists r. destruct V as [[[->| ->] ->]|[-> ->]]; cbn [app].
  - replace (d =? 45) with false by (unfold dig in Dd; lia). replace (d =? 43) with false by (unfold dig in Dd; lia).
    change (d :: ds' ++ r) with ((d :: ds') ++ r). rewrite Sd, digits_app; auto.
  - cbn [Z.eqb Pos.eqb]. change (d :: ds' ++ r) with ((d :: ds') ++ r). rewrite Sd, digits_app; auto.
  - cbn [Z.eqb Pos.eqb]. change (d :: ds' ++ r) with ((d :: ds') ++ r). rewrite Sd, digits_app; auto.
Qed.
Lemma integer_some l n r : integer l = Some (n, r) -> reads_int l n.
Proof.
  unfold integer. destruct (skip_split l) as (sp & F & E & H). set (x := skip_space l) in *. clearbody x. subst l.
  assert (G : forall sg y neg, x = sg ++ y -> (sg = [] \/ sg = [43]) /\ neg = false \/ sg = [45] /\ neg = true ->
     (if starts_digit y then let (v, r) := digits 0 y in Some (if neg then - v else v, r) else None) = Some (n, r) -> reads_int (sp ++ x) n).
  { intros sg y neg -> SG. destruct (starts_digit y) eqn:SD; try discriminate. destruct (digits_split y 0) as (ds & r0 & -> & D1 & D2 & D3 & D4). rewrite D3.
    intros Q. injection Q as Q1 Q2. subst r0. apply ri; auto; [split; auto|]. destruct SG as [[SG ->]|[SG ->]]; [left; split; auto|right; split; auto]. }
  destruct x as [|c x]; [discriminate|]. destruct (c =? 45) eqn:E1; [apply Z.eqb_eq in E1; subst c; apply (G [45] x true); auto|].
  destruct (c =? 43) eqn:E2; [apply Z.eqb_eq in E2; subst c; apply (G [43] x false); auto|]. apply (G [] (c :: x) false); auto.
Qed.
Lemma integer_none l : integer l = None -> forall n, ~ reads_int l n.
Proof. intros H n R. apply integer_reads in R. destruct R as [r R]. congruence. Qed.
Lemma scan_ok lo hi a r : scan_integer lo hi a = Ok r ->
  match r with Some (n, _) => reads_int a n /\ lo <= n <= hi | None => forall n, ~ reads_int a n end.
Proof.
  unfold scan_integer. destruct (integer a) as [[n x]|] eqn:E.
  - destruct (_ && _) eqn:B; try discriminate. intros H; injection H as <-. split; [eapply integer_some; eauto|lia].
  - intros H; injection H as <-. apply integer_none; auto.
Qed.
(** comma separated items *)
Lemma split_spec l : forall acc, (acc <> [] -> ~ In 44 acc) -> comma_list (rev acc ++ l) (split_comma acc l).
Proof.
  induction l as [|c l IH]; intros acc H; cbn.
  - rewrite app_nil_r. destruct acc as [|a acc]; [constructor|]. apply cl_last; [|rewrite <- in_rev; apply H; discriminate].
    intros Q. apply (f_equal (@length Z)) in Q. rewrite rev_length in Q. discriminate.
  - destruct (c =? 44) eqn:E.
    + apply Z.eqb_eq in E; subst c. destruct acc as [|a acc]; [cbn; apply cl_skip; apply (IH []); auto|].
      apply (cl_cons (rev (a :: acc)) l). 2: rewrite <- in_rev; apply H; discriminate. 2: apply (IH []); auto.
      intros Q. apply (f_equal (@length Z)) in Q. rewrite rev_length in Q. discriminate.
    + replace (rev acc ++ c :: l) with (rev (c :: acc) ++ l) by (cbn; rewrite <- app_assoc; reflexivity). apply IH. intros _ [Q|Q]; [lia|]. destruct acc as [|a acc]; [destruct Q|]. apply H in Q; auto. discriminate.
Qed.
Lemma strtol_spec t : item_value t (strtol t).
Proof. unfold strtol. destruct (integer t) as [[n r]|] eqn:E; constructor; [eapply integer_some; eauto|apply integer_none; auto]. Qed.
Lemma last_close_spec a : forall i j, last_close a i = Some j -> (i <= j)%nat /\ exists body r, a = body ++ [93] ++ r /\ length body = (j - i)%nat /\ ~ In 93 r.
Proof.
  induction a as [|c a IH]; intros i j; cbn; try discriminate. destruct (last_close a (S i)) as [k|] eqn:E.
  - intros H; injection H as ->. destruct (IH _ _ E) as (A & b & r & -> & B & C). split; [lia|]. exists (c :: b), r. cbn. repeat split; auto. lia.
  - destruct (c =? 93) eqn:C; try discriminate. intros H; injection H as ->. apply Z.eqb_eq in C; subst c. split; [lia|]. exists [], a. split; [reflexivity|]. split; [cbn; lia|].
    clear IH. revert E. generalize (S j). induction a as [|d a IH]; intros n; cbn; auto. destruct (last_close a (S n)) eqn:E; try discriminate. destruct (d =? 93) eqn:D; try discriminate. intros _ [Q|Q]; [lia|]. revert Q. eapply IH; eauto.
Qed.
(** trim *)
Lemma drop_same l : drop_space l = skip_space l. Proof. reflexivity. Qed.
Lemma trim_spec l : exists sp, l = trim l ++ sp /\ Forall space_code sp /\ (forall u c, trim l = u ++ [c] -> ~ space_code c).
Proof.
  unfold trim. rewrite drop_same. destruct (skip_split (rev l)) as (sp & F & E & H). exists (rev sp). repeat split.
  - rewrite <- rev_app_distr, <- E, rev_involutive. reflexivity.
  - apply Forall_rev; auto.
  - intros u c Q. apply (f_equal (@rev Z)) in Q. rewrite rev_involutive, rev_app_distr in Q. cbn in Q. eapply H; eauto.
Qed.

Lemma only_refl p z : only p z z. Proof. constructor; auto; cbn; repeat split; auto. Qed.
Ltac oc := constructor; cbn; auto; try (intros Q; exfalso; apply Q; reflexivity); repeat split; auto.
Lemma setting_ok v z k p z' r o : about k p -> run v z k = Ok (z', r, o) ->
  r = SHELL_CONTINUE /\ o = [] /\ only (Some p) z z' /\ gives v z z' k.
Proof.
  intros A H. destruct A; cbn [run quiet] in H; unfold quiet, volume, stamp_import, set_lf in H; cbn [rbind] in H.
  - apply okI in H; injection H as <- <- <-. split; auto. split; auto. split; [oc|constructor; reflexivity].
  - apply okI in H; injection H as <- <- <-. split; auto. split; auto. split; [oc|constructor; reflexivity].
  - destruct (scan_d a) as [x| |] eqn:E; cbn [rbind] in H; try discriminate. apply okI in H; injection H as <- <- <-. split; auto. split; auto. split; [oc|]. apply scan_ok in E. destruct x as [[n y]|]; [eapply g_v; [apply E|reflexivity]|apply g_v'; [exact E|reflexivity]].
  - apply okI in H; injection H as <- <- <-. split; auto. split; auto. split; [oc|constructor; reflexivity].
  - destruct (v_lf v a) as [[x y]|] eqn:E; apply okI in H; injection H as <- <- <-; (split; auto; split; auto; split; [oc|constructor; rewrite E; reflexivity]).
  - destruct (v_lf v a) as [[x y]|] eqn:E; apply okI in H; injection H as <- <- <-; (split; auto; split; auto; split; [oc|constructor; rewrite E; reflexivity]).
  - destruct (v_lf v a) as [[x y]|] eqn:E; apply okI in H; injection H as <- <- <-; (split; auto; split; auto; split; [oc|constructor; rewrite E; reflexivity]).
  - destruct (scan_d a) as [x| |] eqn:E; cbn [rbind] in H; try discriminate. apply okI in H; injection H as <- <- <-. split; auto. split; auto. apply scan_ok in E. destruct x as [[n y]|]; (split; [oc|]); [eapply g_bo; [apply E|reflexivity]|apply g_bo'; [exact E|reflexivity]].
  - destruct (scan_ld a) as [x| |] eqn:E; cbn [rbind] in H; try discriminate. apply okI in H; injection H as <- <- <-. split; auto. split; auto. apply scan_ok in E. destruct x as [[n y]|]; (split; [oc|]); [eapply g_t; [apply E|reflexivity]|apply g_t'; [exact E|reflexivity]].
  - apply okI in H; injection H as <- <- <-. split; auto. split; auto. split; [oc|constructor; reflexivity].
  - destruct (scan_ld a) as [x| |] eqn:E; cbn [rbind] in H; try discriminate. apply okI in H; injection H as <- <- <-. split; auto. split; auto. apply scan_ok in E. destruct x as [[n y]|]; (split; [oc|]); [eapply g_id; [apply E|reflexivity]|apply g_id'; [exact E|reflexivity]].
  - destruct (last_close a 0) as [n|] eqn:E; cbn [rbind] in H; try discriminate. destruct (n <? 1000)%nat; cbn [rbind] in H; try discriminate. apply okI in H; injection H as <- <- <-. split; auto. split; auto. split; [oc|].
    apply last_close_spec in E. destruct E as (_ & body & r & -> & L & NI). rewrite Nat.sub_0_r in L. apply (g_im v z _ body r (split_comma [] body) (map strtol (split_comma [] body))); [exact NI|apply (split_spec body []); intros; contradiction| |].
    2: cbn; rewrite <- L, firstn_app, Nat.sub_diag, firstn_all; cbn; rewrite app_nil_r; reflexivity.
    clear. induction (split_comma [] body); constructor; auto. apply strtol_spec.
  - apply okI in H; injection H as <- <- <-. split; auto. split; auto. split; [oc|constructor; reflexivity].
  - apply okI in H; injection H as <- <- <-. split; auto. split; auto. split; [oc|constructor; reflexivity].
  - destruct (v_lf v a) as [[x y]|] eqn:E; apply okI in H; injection H as <- <- <-; (split; auto; split; auto; split; [oc|constructor; rewrite E; reflexivity]).
  - destruct (v_lf v a) as [[x y]|] eqn:E; apply okI in H; injection H as <- <- <-; (split; auto; split; auto; split; [oc|constructor; rewrite E; reflexivity]).
Qed.
