(** C73: printed evidence and its import. *)
From Coq Require Import ZArith String List Bool Lia.
From Verif Require Import Base StampM RulesM EventM MemoryM ParserM CycleM ShellM ShellS ShellP2 PropsShell MetricM MetricS MetricP StampPrintM StampPrintS.
Import ListNotations.
Local Open Scope Z_scope.

Lemma percent_ld_spec v : is_long v -> numeral v (percent_ld v).
Proof.
  intros [L U]. unfold percent_ld. destruct (Z.ltb_spec v 0) as [N|N].
  - destruct (digits_before_spec 19 (- v) []) as (ds & -> & D).
    { split; [lia|]. apply Z.le_lt_trans with (2 ^ 63); [lia|]. reflexivity. }
    rewrite app_nil_r. apply numeral_neg; auto.
  - destruct (digits_before_spec 19 v []) as (ds & -> & D).
    { split; [lia|]. apply Z.lt_trans with (2 ^ 63); [lia|]. reflexivity. }
    rewrite app_nil_r. apply numeral_pos; auto.
Qed.
Lemma natural_length v ds : natural v ds -> v <= 2 ^ 63 -> (length ds <= 19)%nat.
Proof.
  intros N B. inversion N as [E|d l D F E]; subst; [cbn; lia|]. pose proof (horner_ge d l D F) as G.
  destruct (Nat.le_gt_cases (length (d :: l)) 19) as [|Q]; auto. exfalso. cbn [length] in Q.
  assert (10 ^ 19 <= 10 ^ Z.of_nat (length l)) by (apply Z.pow_le_mono_r; lia).
  assert (2 ^ 63 < 10 ^ 19) by reflexivity. lia.
Qed.
Lemma numeral_length v ds : is_long v -> numeral v ds -> (1 <= length ds <= 20)%nat.
Proof.
  intros [L U] N. inversion N as [? ? P D|? l P D]; subst.
  - pose proof (natural_length _ _ D ltac:(lia)). apply natural_ne in D. destruct ds; [congruence|]. cbn [length] in *. lia.
  - pose proof (natural_length _ _ D ltac:(lia)). cbn [length]. lia.
Qed.
Lemma numeral_no_comma v ds : numeral v ds -> ~ In 44 ds /\ ~ In 93 ds.
Proof.
  assert (G : forall w l, natural w l -> ~ In 44 l /\ ~ In 93 l).
  { intros w l N. apply natural_digits_all in N. rewrite Forall_forall in N. split; intros I; apply N in I; lia. }
  intros H; inversion H; subst; destruct (G _ _ H1) as [A B]; split; auto; cbn; intros [|]; try lia; auto.
Qed.
Lemma print_spec ids : forall r, ~ In 0 ids -> Forall is_long ids -> (r = [] \/ exists r', r = 0 :: r') -> listed ids (print_ids (ids ++ r)).
Proof.
  induction ids as [|v ids IH]; intros r NZ F R.
  - destruct R as [->|(r' & ->)]; cbn; constructor.
  - inversion F as [|? ? F1 F2]; subst. cbn [app print_ids]. unfold STAMP_FREE. destruct (Z.eqb_spec v 0) as [->|_]; [destruct NZ; left; auto|].
    assert (NZ' : ~ In 0 ids) by (intros I; apply NZ; right; auto). specialize (IH r NZ' F2 R).
    destruct ids as [|w ids].
    + cbn [app] in *. destruct R as [->|(r' & ->)]; cbn [print_ids]; unfold STAMP_FREE; cbn [Z.eqb app]; rewrite ?app_nil_r; constructor; apply percent_ld_spec; auto.
    + change ((w :: ids) ++ r) with (w :: ids ++ r) in *.
      cbv iota. replace (w =? 0) with false by (symmetry; apply Z.eqb_neq; intros ->; apply NZ'; left; auto). cbv iota.
      apply l_more; auto. apply percent_ld_spec; auto.
Qed.
(** what is printed: the ids before the first free place, in order *)
Theorem C73_printed : forall s ids, ids_of s ids -> Forall is_long ids -> exists t, listed ids t /\ Stamp_print s = str "Stamp=["%string ++ t ++ str "]"%string.
Proof.
  intros s ids (NZ & r & -> & R) F. exists (print_ids (ids ++ r)). split; [apply print_spec; auto|reflexivity].
Qed.
Print Assumptions C73_printed.

Lemma split_one t : forall acc, ~ In 44 t -> acc ++ t <> [] -> split_comma acc t = [rev acc ++ t].
Proof.
  induction t as [|c t IH]; intros acc N E; cbn [split_comma].
  - rewrite app_nil_r in *. destruct acc; congruence.
  - destruct (Z.eqb_spec c 44) as [->|_]; [destruct N; left; auto|]. rewrite IH.
    + cbn [rev]. rewrite <- app_assoc. reflexivity.
    + intros I; apply N; right; auto.
    + discriminate.
Qed.
Lemma split_more t r : forall acc, ~ In 44 t -> acc ++ t <> [] -> split_comma acc (t ++ [44] ++ r) = (rev acc ++ t) :: split_comma [] r.
Proof.
  induction t as [|c t IH]; intros acc N E; cbn [split_comma app].
  - change (44 =? 44) with true. cbv iota. rewrite app_nil_r in *. destruct acc; [congruence|reflexivity].
  - destruct (Z.eqb_spec c 44) as [->|_]; [destruct N; left; auto|]. cbn [app] in IH. rewrite IH.
    + cbn [rev]. rewrite <- app_assoc. reflexivity.
    + intros I; apply N; right; auto.
    + discriminate.
Qed.
Lemma numeral_strtol v ds : is_long v -> numeral v ds -> strtol ds = v.
Proof.
  intros L N. assert (R : reads_int ds v).
  { inversion N as [? ? P D|? l P D]; subst.
    - replace ds with ([] ++ [] ++ ds ++ []) by (cbn; apply app_nil_r). apply ri; [constructor|split; [eapply natural_ne; eauto|eapply natural_digits_all; eauto]|discriminate|].
      left. split; auto. inversion D; reflexivity.
    - replace (45 :: l) with ([] ++ [45] ++ l ++ []) by (cbn; rewrite app_nil_r; auto). apply ri; [constructor|split; [eapply natural_ne; eauto|eapply natural_digits_all; eauto]|discriminate|].
      right. split; auto. assert (- v = value_of l) by (inversion D; reflexivity). lia. }
  destruct (integer_reads _ _ R) as (r & E). unfold strtol. rewrite E. unfold is_long, LONG_MIN, LONG_MAX in *. lia.
Qed.
Lemma listed_split ids t : listed ids t -> Forall is_long ids -> map strtol (split_comma [] t) = ids.
Proof.
  induction 1 as [|v ds N|v ds w l t N L IH]; intros F; [reflexivity| |]; inversion F as [|? ? F1 F2]; subst.
  - rewrite split_one; [cbn; rewrite (numeral_strtol v); auto|apply (numeral_no_comma v); auto|]. pose proof (numeral_length _ _ F1 N). destruct ds; cbn in *; [lia|discriminate].
  - rewrite split_more; [cbn [map rev app]; rewrite (numeral_strtol v), IH; auto|apply (numeral_no_comma v); auto|]. pose proof (numeral_length _ _ F1 N). destruct ds; cbn in *; [lia|discriminate].
Qed.
Lemma listed_length ids t : listed ids t -> Forall is_long ids -> (length t <= 21 * length ids)%nat.
Proof.
  induction 1 as [|v ds N|v ds w l t N L IH]; intros F; [cbn; lia| |]; inversion F as [|? ? F1 F2]; subst; pose proof (numeral_length _ _ F1 N).
  - cbn [length]. lia.
  - specialize (IH F2). rewrite !app_length. cbn [length] in *. lia.
Qed.
Lemma listed_no_bracket ids t : listed ids t -> ~ In 93 t.
Proof.
  induction 1 as [|v ds N|v ds w l t N L IH]; [auto|apply (numeral_no_comma v); auto|]. rewrite !in_app_iff. cbn. destruct (numeral_no_comma v ds N). intuition lia.
Qed.
Lemma last_close_end t : ~ In 93 t -> forall i, last_close (t ++ [93]) i = Some (i + length t)%nat.
Proof.
  induction t as [|c t IH]; intros N i; cbn [app last_close length].
  - change (93 =? 93) with true. cbv iota. f_equal. lia.
  - rewrite IH by (intros I; apply N; right; auto). f_equal. lia.
Qed.
Lemma trim_closed l : trim (l ++ [93]) = l ++ [93].
Proof. unfold trim. rewrite rev_app_distr. cbn [rev app drop_space]. change (isspace 93) with false. cbv iota. cbn [rev]. rewrite rev_involutive. reflexivity. Qed.

(** what is printed for a stamp can be imported: "*stampimport=[1,2,3]" with the printed list sets the
    imported evidence to this stamp, and changes nothing else *)
Theorem C73_round_trip : forall s, filled s -> Forall is_long s -> exists body,
  Stamp_print s = str "Stamp="%string ++ body /\
  forall v z, exists z', Shell_ProcessInput v z (str "*stampimport="%string ++ body) = Ok (z', SHELL_CONTINUE, []) /\
    g_import (s_ids (z_core z')) = s /\ only (Some PImport) z z'.
Proof.
  intros s (LN & ids & n & NZ & E) F. assert (Fi : Forall is_long ids) by (rewrite E in F; apply Forall_app in F; apply F).
  assert (IO : ids_of s ids).
  { split; auto. exists (repeat 0 n). split; auto. destruct n; [left|right; exists (repeat 0 n)]; reflexivity. }
  destruct (C73_printed s ids IO Fi) as (t & L & P). exists (str "["%string ++ t ++ str "]"%string). split; [exact P|]. intros v z.
  set (line := str "*stampimport="%string ++ str "["%string ++ t ++ str "]"%string).
  assert (LE : line = str "*stampimport=["%string ++ (t ++ [93])) by reflexivity.
  assert (R : reads (trim line) (KStampImport (t ++ [93]))).
  { rewrite LE, app_assoc, trim_closed, <- app_assoc. constructor. }
  assert (LI : (length ids <= 10)%nat) by (rewrite E, app_length in LN; unfold STAMP_SIZE in LN; lia).
  assert (X : exists z', run v z (KStampImport (t ++ [93])) = Ok (z', SHELL_CONTINUE, []) /\ g_import (s_ids (z_core z')) = s).
  { cbn [run]. unfold quiet, stamp_import. rewrite last_close_end by (eapply listed_no_bracket; eauto). cbn [Nat.add].
    pose proof (listed_length _ _ L Fi). destruct (Nat.ltb_spec (length t) 1000) as [_|Q]; [|lia]. cbn [rbind]. eexists. split; [reflexivity|].
    match goal with |- context[firstn ?k (t ++ [93])] => replace (firstn k (t ++ [93])) with t by (rewrite firstn_app, firstn_all, Nat.sub_diag; cbn [firstn]; rewrite app_nil_r; reflexivity) end. rewrite (listed_split _ _ L Fi).
    change (firstn STAMP_SIZE (ids ++ stamp_zero) = s). rewrite E, firstn_app. unfold stamp_zero, STAMP_SIZE, STAMP_FREE in *. rewrite firstn_all2 by lia. f_equal.
    assert (n = 10 - length ids)%nat as -> by (rewrite E, app_length, repeat_length in LN; lia). clear -LI.
    generalize (10 - length ids)%nat (Nat.le_sub_l 10 (length ids)). intros k K. do 11 (destruct k as [|k]; [reflexivity|]). lia. }
  destruct X as (z' & X & G). exists z'. rewrite (C58_dispatch v z line _ R). split; [exact X|]. split; [exact G|].
  apply (setting_ok v z (KStampImport (t ++ [93])) PImport z' SHELL_CONTINUE []); [constructor|exact X].
Qed.
Print Assumptions C73_round_trip.

(** different evidence is printed differently *)
Theorem C73_unambiguous : forall s s', filled s -> filled s' -> Forall is_long s -> Forall is_long s' -> Stamp_print s = Stamp_print s' -> s = s'.
Proof.
  intros s s' (L & ids & n & NZ & E) (L' & ids' & n' & NZ' & E') F F' P.
  assert (Fi : Forall is_long ids) by (rewrite E in F; apply Forall_app in F; apply F).
  assert (Fi' : Forall is_long ids') by (rewrite E' in F'; apply Forall_app in F'; apply F').
  unfold Stamp_print in P. apply app_inv_head in P. apply app_inv_tail in P.
  assert (G : forall k, repeat 0 k = [] \/ exists r', repeat 0 k = 0 :: r') by (intros [|k]; [left|right; exists (repeat 0 k)]; reflexivity).
  pose proof (print_spec ids (repeat 0 n) NZ Fi (G n)) as A. pose proof (print_spec ids' (repeat 0 n') NZ' Fi' (G n')) as B.
  rewrite <- E in A. rewrite <- E' in B. apply listed_split in A; auto. apply listed_split in B; auto.
  assert (ids = ids') by congruence. clear A B. subst ids'. assert (n = n') by (rewrite E, app_length, repeat_length in L; rewrite E', app_length, repeat_length in L'; lia). congruence.
Qed.
Print Assumptions C73_unambiguous.

Example C73_example : filled [7; 12; 3; 0; 0; 0; 0; 0; 0; 0] /\ Forall is_long [7; 12; 3; 0; 0; 0; 0; 0; 0; 0] /\
  Stamp_print [7; 12; 3; 0; 0; 0; 0; 0; 0; 0] = str "Stamp=[7,12,3]"%string.
Proof.
  split; [|split].
  - split; [reflexivity|]. exists [7; 12; 3], 7%nat. split; [cbn; lia|reflexivity].
  - repeat constructor; unfold is_long; lia.
  - reflexivity.
Qed.
