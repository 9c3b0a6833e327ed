(** Lines of the shell: reading (C58) and settings. *)
From Coq Require Import ZArith List Bool String Lia.
From Verif Require Import Base F64 TruthM StampM TermM NamesM AtomsM ParserM RulesM EventM MemoryM QuestionM DecisionM OpsM CycleM CycleS ShellM ShellS.
Import ListNotations.
Local Open Scope Z_scope.

Lemma list_eqb_true a b : list_eqb a b = true <-> a = b.
Proof.
  revert b; induction a as [|x a IH]; intros [|y b]; cbn; split; try discriminate; auto.
  - rewrite andb_true_iff, Z.eqb_eq, IH. intros [-> ->]; auto.
  - intros H; injection H as -> ->. rewrite Z.eqb_refl. apply IH; auto.
Qed.
Lemma is_spec l w : is_ l w = true <-> l = str w. Proof. apply list_eqb_true. Qed.
Lemma prefixb_spec p l : prefixb p l = true <-> l = p ++ skipn (length p) l.
Proof.
  revert l; induction p as [|x p IH]; intros [|y l]; cbn; split; auto; try discriminate.
  - rewrite andb_true_iff, Z.eqb_eq, IH. intros [-> H]; f_equal; auto.
  - intros H; injection H as -> H. rewrite Z.eqb_refl. apply IH; auto.
Qed.
Lemma pre_spec l w : pre_ l w = true <-> l = str w ++ arg_ l w. Proof. apply prefixb_spec. Qed.
Lemma pre_starts l w : starts w l -> pre_ l w = true.
Proof. intros [a ->]. apply pre_spec. unfold arg_. rewrite skipn_app, skipn_all, Nat.sub_diag. reflexivity. Qed.
Lemma arg_app w a : arg_ (str w ++ a) w = a.
Proof. unfold arg_. rewrite skipn_app, skipn_all, Nat.sub_diag. reflexivity. Qed.
Lemma digits_forall l : forallb isdigit l = true <-> Forall (fun c => 48 <= c <= 57) l.
Proof. rewrite forallb_forall, Forall_forall. split; intros H x Hx; specialize (H x Hx); unfold isdigit in *; lia. Qed.

Ltac isb := match goal with |- reads ?l (if is_ ?l ?w then _ else _) => let E := fresh "E" in destruct (is_ l w) eqn:E; [apply is_spec in E; rewrite E; constructor|] end.
Ltac preb w := match goal with |- reads ?l (if pre_ ?l w then _ else _) => let E := fresh "E" in destruct (pre_ l w) eqn:E; [apply pre_spec in E; rewrite E at 1; constructor|] end.
Ltac preb0 := match goal with |- reads ?l (if pre_ ?l ?w then _ else _) => preb w end.
Lemma parse_reads l : reads l (parse l).
Proof.
  unfold parse. destruct l as [|c l']; [constructor|]. set (l := c :: l') in *. assert (NE : l <> []) by discriminate.
  destruct ((chr l 0 =? 47) && (chr l 1 =? 47)) eqn:C.
  { subst l. destruct l' as [|d l'']; cbn in C; [lia|]. assert (c = 47 /\ d = 47) as [-> ->] by (unfold chr in C; cbn in C; lia). apply (r_comment l''). }
  clearbody l.
  repeat (first [isb | preb ("*restrictedconceptcreation=true")%string | preb ("*restrictedconceptcreation=false")%string]).
  destruct (pre_ l "*volume=") eqn:PV; [apply pre_spec in PV; rewrite PV at 1; constructor; intros A; rewrite A in PV; [change (l = str "*volume=0") in PV|change (l = str "*volume=100") in PV]; apply is_spec in PV; congruence|].
  do 3 preb0. repeat isb. do 4 preb0. repeat isb.
  destruct (pre_ l "*motorbabbling=") eqn:PB; [apply pre_spec in PB; rewrite PB at 1; constructor; intros A; rewrite A in PB; [change (l = str "*motorbabbling=false") in PB|change (l = str "*motorbabbling=true") in PB]; apply is_spec in PB; congruence|].
  do 7 preb0.
  destruct (forallb isdigit l) eqn:D.
  { constructor. split; auto. apply digits_forall; auto. }
  destruct (pre_ l "*concurrent") eqn:PC; [apply pre_spec in PC; rewrite PC at 1; constructor|].
  constructor; auto.
  - intros w W A. apply is_spec in A. cbn in W. repeat (destruct W as [<-|W]; [congruence|]). destruct W.
  - intros w W A. pose proof A as A'. apply pre_starts in A. cbn in W. destruct W as [<-|W]; [destruct A' as [a A']; rewrite A' in C; cbn in C; discriminate|].
    repeat (destruct W as [<-|W]; [congruence|]). destruct W.
  - intros [_ N]. apply digits_forall in N. congruence.
Qed.

Lemma list_ascii_app a b : list_ascii_of_string (a ++ b) = list_ascii_of_string a ++ list_ascii_of_string b.
Proof. induction a; cbn; congruence. Qed.
Lemma is_app w a x : is_ (str w ++ a) (w ++ x) = list_eqb a (str x).
Proof. unfold is_, str. rewrite list_ascii_app, map_app. generalize (map (fun c => Z.of_N (Ascii.N_of_ascii c)) (list_ascii_of_string w)). intros p. induction p; cbn; auto. rewrite Z.eqb_refl; auto. Qed.
Lemma list_eqb_false a b : a <> b -> list_eqb a b = false.
Proof. intros H. destruct (list_eqb a b) eqn:E; auto. apply list_eqb_true in E. contradiction. Qed.
Lemma parse_volume a : a <> str "0" -> a <> str "100" -> parse (str "*volume=" ++ a) = KVolume a.
Proof.
  intros H H0. apply list_eqb_false in H, H0. unfold parse. cbn -[list_eqb]. unfold is_. cbn. cbn in H, H0. rewrite H, H0. reflexivity.
Qed.
Lemma parse_babbling a : a <> str "false" -> a <> str "true" -> parse (str "*motorbabbling=" ++ a) = KBabbling a.
Proof.
  intros H H0. apply list_eqb_false in H, H0. unfold parse. cbn -[list_eqb]. unfold is_. cbn. cbn in H, H0. rewrite H, H0. reflexivity.
Qed.
Lemma parse_number a : number a -> parse a = KSteps a.
Proof.
  intros [N D]. unfold parse. destruct a as [|c a]; [contradiction|].
  assert (C : 48 <= c <= 57) by (inversion D; auto). apply digits_forall in D.
  assert (P : forall w x r, str w = x :: r -> x < 48 \/ 57 < x -> pre_ (c :: a) w = false).
  { intros w x r W X. unfold pre_. rewrite W. cbn. replace (x =? c) with false by lia. reflexivity. }
  assert (Q : forall w x r, str w = x :: r -> x < 48 \/ 57 < x -> is_ (c :: a) w = false).
  { intros w x r W X. unfold is_. rewrite W. cbn. replace (c =? x) with false by lia. reflexivity. }
  replace ((chr (c :: a) 0 =? 47) && (chr (c :: a) 1 =? 47)) with false by (unfold chr; cbn; lia).
  rewrite D. set (l := c :: a) in *. clearbody l.
  repeat match goal with |- context [is_ l ?w] => rewrite (Q w _ _ eq_refl) by (first [left; reflexivity|right; reflexivity]) end.
  repeat match goal with |- context [pre_ l ?w] => rewrite (P w _ _ eq_refl) by (first [left; reflexivity|right; reflexivity]) end. reflexivity.
Qed.
Lemma parse_sentence a : a <> [] -> (forall w, In w words -> a <> str w) -> (forall w, In w openings -> ~ starts w a) -> ~ number a -> parse a = KSentence a.
Proof.
  intros H H0 H1 H2. unfold parse. destruct a as [|c a]; [contradiction|]. set (l := c :: a) in *. clearbody l.
    assert (P : forall w, In w openings -> pre_ l w = false). { intros w W. destruct (pre_ l w) eqn:E; auto. apply pre_spec in E. exfalso. apply (H1 w W). rewrite E. eexists; reflexivity. }
    assert (Q : forall w, In w words -> is_ l w = false). { intros w W. destruct (is_ l w) eqn:E; auto. apply is_spec in E. exfalso. apply (H0 w W); auto. }
    assert (PP : forall w x, In w openings -> is_ l (w ++ x) = false).
    { intros w x W. destruct (is_ l (w ++ x)) eqn:E; auto. apply is_spec in E. exfalso. apply (H1 w W). exists (str x). rewrite E. unfold str. rewrite list_ascii_app, map_app. reflexivity. }
    assert (F : forallb isdigit l = false). { destruct (forallb isdigit l) eqn:E; auto. exfalso. apply H2. split; auto. apply digits_forall; auto. }
    assert (CC : (chr l 0 =? 47) && (chr l 1 =? 47) = false).
    { specialize (P "//"%string). cbn in P. unfold pre_ in P. destruct l as [|x [|y l]]; cbn in P |- *; auto; [|rewrite (andb_true_r (47 =? y)), Z.eqb_sym, (Z.eqb_sym y) in P || idtac].
      - destruct (x =? 47); reflexivity.
      - rewrite (Z.eqb_sym x), (Z.eqb_sym y). specialize (P (or_introl eq_refl)). rewrite andb_true_r in P. exact P. }
    rewrite CC, F.
    assert (V1 : is_ l "*volume=0" = false) by (apply (PP "*volume="%string "0"%string); cbn; tauto).
    assert (V2 : is_ l "*volume=100" = false) by (apply (PP "*volume="%string "100"%string); cbn; tauto).
    assert (V3 : is_ l "*motorbabbling=false" = false) by (apply (PP "*motorbabbling="%string "false"%string); cbn; tauto).
    assert (V4 : is_ l "*motorbabbling=true" = false) by (apply (PP "*motorbabbling="%string "true"%string); cbn; tauto).
    rewrite V1, V2, V3, V4.
    rewrite !Q by (cbn; tauto). rewrite !P by (cbn; tauto). reflexivity.
Qed.
Lemma reads_parse l k : reads l k -> parse l = k.
Proof. intros R. destruct R; try reflexivity; [apply parse_volume|apply parse_babbling|apply parse_number|apply parse_sentence]; auto. Qed.
