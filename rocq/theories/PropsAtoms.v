(** Property theorems C37: symbol names and atom numbers. *)
From Verif Require Import Base HashM HashP StackM StackP HashTableM HashTableS HashTableP TermM TermP NamesM AtomsM AtomsS AtomsP.
Local Open Scope Z_scope.

(** Names are numbered by their first 31 characters; the reserved names first. *)
Notation distinct ns := (firsts [] (map (firstn 31) (init_list ++ ns))).

(** C37 (for names of at most 31 characters and fewer than [cap] symbols; [cap] = 65536 in the
    program).  After start-up and interning any sequence of names: when the distinct names
    (first 31 characters, reserved ones included) fit, the k-th request returns a number between
    1 and the number of symbols whose printed name is the requested one (31 characters), and two
    requests get the same number iff these are equal; when they do not fit, the program stops
    with its error message. *)
Theorem C37_interning_partial : forall cap ns, (0 < cap)%nat ->
  if (length (distinct ns) <=? cap)%nat
  then exists s is, symbols cap ns = Ok (s, is) /\ length is = length ns /\ a_names s = distinct ns /\
    (forall k n i, nth_error ns k = Some n -> nth_error is k = Some i ->
       1 <= i <= Z.of_nat (length (a_names s)) /\ name_of (a_names s) i = firstn 31 n) /\
    (forall k1 k2 n1 n2 i1 i2, nth_error ns k1 = Some n1 -> nth_error ns k2 = Some n2 ->
       nth_error is k1 = Some i1 -> nth_error is k2 = Some i2 -> (i1 = i2 <-> firstn 31 n1 = firstn 31 n2)) /\
    (Z.of_nat cap < 65536 -> forall i, In i is -> to_atom i = i)
  else symbols cap ns = Abort.
Proof.
  intros cap ns P. pose proof (symbols_ok cap ns P) as H. change (@firstn Z 31) with block in *.
  match type of H with if ?b then _ else _ => match goal with |- if ?c then _ else _ => change c with b end; destruct b eqn:Q end; [|exact H].
  destruct H as (s & is & E & N & ND & L & K). exists s, is. split; [exact E|]. split; [exact L|]. split; [exact N|]. split; [exact K|]. split.
  - intros k1 k2 n1 n2 i1 i2 A1 A2 B1 B2. destruct (K _ _ _ A1 B1) as (R1 & <-). destruct (K _ _ _ A2 B2) as (R2 & <-).
    split; [intros ->; reflexivity|]. clear - ND R1 R2. unfold name_of.
    destruct (Z.leb_spec i1 0); [lia|]. destruct (Z.leb_spec i2 0); [lia|]. intros X.
    apply NoDup_nth in X; auto; lia.
  - intros C i Hi. destruct (In_nth_error _ _ Hi) as (k & B). assert (k < length ns)%nat by (rewrite <- L; apply nth_error_Some; congruence).
    destruct (nth_error ns k) as [n|] eqn:A; [|apply nth_error_None in A; lia]. destruct (K _ _ _ A B) as (R & _).
    apply Nat.leb_le in Q. rewrite <- N in Q. unfold to_atom. apply Z.mod_small. lia.
Qed.
Print Assumptions C37_interning_partial.

(** Numbers and printed names are never reassigned: the symbol list after more names extends
    the one before, the numbers already given stay the same, and the reserved names keep the
    positions 1..63 they get at start-up. *)
Theorem C37_numbers_are_kept : forall cap ns more s is s' is',
  symbols cap ns = Ok (s, is) -> symbols cap (ns ++ more) = Ok (s', is') ->
  (exists later, a_names s' = a_names s ++ later) /\ (exists is2, is' = is ++ is2) /\
  (exists added, a_names s = init_list ++ added).
Proof.
  intros cap ns more s is s' is' E E'. destruct cap as [|c]; [discriminate E|].
  assert (P : (0 < S c)%nat) by lia. pose proof (symbols_ok _ ns P) as H. pose proof (symbols_ok _ (ns ++ more) P) as H'.
  rewrite E in H. rewrite E' in H'.
  assert (X : forall l, firsts [] (map block (init_list ++ l)) = firsts init_list (map block l)).
  { intros l. rewrite map_app, firsts_app, init_firsts. reflexivity. }
  rewrite X in H, H'.
  destruct (length (firsts init_list (map block ns)) <=? S c)%nat; [|discriminate H].
  destruct (length (firsts init_list (map block (ns ++ more))) <=? S c)%nat; [|discriminate H'].
  destruct H as (s1 & is1 & E1 & N & _). destruct H' as (s2 & is2 & E2 & N' & _).
  assert (s1 = s) by congruence. assert (s2 = s') by congruence. subst s1 s2. clear E1 E2.
  split; [|split].
  - rewrite N, N', map_app, firsts_app. apply firsts_extends.
  - unfold symbols in E, E'. destruct (Narsese_INIT (S c)) as [s0| |]; try discriminate E. cbn [rbind] in *. clear - E E'.
    revert s0 is is' E E'. induction ns as [|n ns IH]; intros s0 is is' E E'.
    + cbn in E. exists is'. replace is with (@nil Z) by congruence. reflexivity.
    + cbn [app intern_all] in E, E'. destruct (AtomicTermIndex (S c) s0 n) as [[s3 i]| |]; try discriminate E. cbn [rbind] in E, E'.
      destruct (intern_all (S c) s3 ns) as [[s4 is4]| |] eqn:E4; try discriminate E.
      destruct (intern_all (S c) s3 (ns ++ more)) as [[s5 is5]| |] eqn:E5; try discriminate E'.
      cbn [rbind] in E, E'. assert (s4 = s) by congruence. assert (s5 = s') by congruence. subst s4 s5.
      destruct (IH _ _ _ E4 E5) as (r & ->). exists r. replace is with (i :: is4) by congruence. replace is' with (i :: (is4 ++ r)) by congruence. reflexivity.
  - rewrite N. apply firsts_extends.
Qed.
Print Assumptions C37_numbers_are_kept.

Lemma nodup_app_ {A} (a b : list A) : NoDup a -> NoDup b -> (forall x, In x a -> In x b -> False) -> NoDup (a ++ b).
Proof.
  induction a as [|x a IH]; cbn [app]; intros Ha Hb D; auto. inversion Ha; subst. constructor.
  - intros H. apply in_app_or in H as [H|H]; [auto|apply (D x); [left|]; auto].
  - apply IH; auto. intros y Y. apply D. right. exact Y.
Qed.
(** Refuted for longer names: names that agree on 31 characters get the same atom. *)
Theorem C37_long_names_merge_refuted : exists n1 n2 : name, n1 <> n2 /\
  exists s i, symbols ATOMS_MAX [n1; n2] = Ok (s, [i; i]).
Proof.
  exists (repeat 97 32), (repeat 97 33). split; [discriminate|].
  assert (P : (0 < ATOMS_MAX)%nat) by (apply Nat.ltb_lt; vm_compute; reflexivity).
  pose proof (symbols_ok ATOMS_MAX [repeat 97 32; repeat 97 33] P) as H.
  destruct (length _ <=? ATOMS_MAX)%nat eqn:Q in H; [|exfalso; clear -Q; vm_compute in Q; discriminate].
  destruct H as (s & is & E & N & ND & L & K). destruct is as [|i1 [|i2 [|]]]; try discriminate L.
  destruct (K 0%nat _ _ eq_refl eq_refl) as (R1 & N1). destruct (K 1%nat _ _ eq_refl eq_refl) as (R2 & N2).
  assert (i1 = i2).
  { change (block (repeat 97 33)) with (block (repeat 97 32)) in N2. rewrite <- N1 in N2. clear - N2 R1 R2 ND. unfold name_of in N2.
    destruct (Z.leb_spec i1 0); [lia|]. destruct (Z.leb_spec i2 0); [lia|]. apply NoDup_nth in N2; auto; lia. }
  subst i2. exists s, i1. exact E.
Qed.
Print Assumptions C37_long_names_merge_refuted.

(** The 65536th symbol: its number does not fit an Atom (16 bits) and becomes 0, "no atom". *)
Theorem C37_last_symbol_becomes_null_refuted :
  exists ns s is, symbols ATOMS_MAX ns = Ok (s, is) /\ exists i, In i is /\ to_atom i = 0.
Proof.
  assert (AM : Z.of_nat ATOMS_MAX = 65536) by reflexivity. revert AM. generalize ATOMS_MAX as AMAX. intros AMAX AM.
  set (nk := fun k : Z => [97; 48 + k / 10000; 48 + k / 1000 mod 10; 48 + k / 100 mod 10; 48 + k / 10 mod 10; 48 + k mod 10] : name).
  assert (INJ : forall a b, 0 <= a -> 0 <= b -> nk a = nk b -> a = b).
  { intros a b A B. unfold nk. intros H. pose proof (f_equal (fun l => nth 1 l 0) H) as H1. pose proof (f_equal (fun l => nth 2 l 0) H) as H2. pose proof (f_equal (fun l => nth 3 l 0) H) as H3. pose proof (f_equal (fun l => nth 4 l 0) H) as H4. pose proof (f_equal (fun l => nth 5 l 0) H) as H5. cbn [nth] in H1, H2, H3, H4, H5. clear H.
    pose proof (Z.div_mod a 10 ltac:(lia)). pose proof (Z.div_mod b 10 ltac:(lia)).
    pose proof (Z.div_mod (a / 10) 10 ltac:(lia)). pose proof (Z.div_mod (b / 10) 10 ltac:(lia)).
    pose proof (Z.div_mod (a / 100) 10 ltac:(lia)). pose proof (Z.div_mod (b / 100) 10 ltac:(lia)).
    pose proof (Z.div_mod (a / 1000) 10 ltac:(lia)). pose proof (Z.div_mod (b / 1000) 10 ltac:(lia)).
    rewrite !Z.div_div in * by lia. lia. }
  remember (AMAX - length init_list)%nat as m eqn:Hm.
  assert (Hl : (length init_list + m = AMAX)%nat).
  { assert (L : length init_list = 63%nat) by reflexivity. rewrite L in *. lia. }
  set (ns := @map nat name (fun k => nk (Z.of_nat k)) (seq 0 m)).
  assert (BL : map block ns = ns).
  { unfold ns. rewrite map_map. apply map_ext. intros k. unfold block, nk. reflexivity. }
  assert (GEN : forall acc l, NoDup (acc ++ l) -> firsts acc l = acc ++ l).
  { intros acc l; revert acc; induction l as [|x l IH]; intros acc H; cbn [firsts]; [rewrite app_nil_r; auto|].
    destruct (in_dec name_dec x acc) as [Y|Y].
    - exfalso. apply NoDup_remove_2 in H. apply H. apply in_or_app. auto.
    - rewrite IH; rewrite <- app_assoc; auto. }
  assert (LN : length ns = m) by (unfold ns; rewrite map_length, seq_length; reflexivity).
  assert (FI : firsts [] (map block (init_list ++ ns)) = init_list ++ ns).
  { rewrite map_app, firsts_app, init_firsts, BL. apply GEN.
    assert (ND : NoDup ns).
    { unfold ns. apply FinFun.Injective_map_NoDup; [|apply seq_NoDup]. intros a b H. apply INJ in H; lia. }
    assert (NI : NoDup init_list) by (rewrite <- init_firsts; apply firsts_nodup; constructor).
    apply nodup_app_; auto. intros x Hx Hn. unfold ns in Hn. apply in_map_iff in Hn as (k & <- & _).
    assert (LE : forall y, In y init_list -> (length y <= 4)%nat).
    { apply Forall_forall. clear. repeat (constructor; [cbn; lia|]). constructor. }
    apply LE in Hx. unfold nk in Hx. cbn in Hx. lia. }
  assert (P : (0 < AMAX)%nat) by (clear - AM; lia).
  pose proof (symbols_ok AMAX ns P) as H. rewrite FI in H.
  assert (Q : (length (init_list ++ ns) <=? AMAX)%nat = true) by (apply Nat.leb_le; rewrite app_length, LN, Hl; apply le_n).
  match type of H with if ?b then _ else _ => change b with (length (init_list ++ ns) <=? AMAX)%nat in H end. rewrite Q in H.
  destruct H as (s & is & E & N & ND & L & K). exists ns, s, is. split; [exact E|].
  assert (M1 : (m - 1 < m)%nat) by (change (length init_list) with 63%nat in Hl; clear - Hl AM; lia).
  destruct (nth_error is (m - 1)) as [i|] eqn:Ei; [|apply nth_error_None in Ei; rewrite L, LN in Ei; lia].
  exists i. split; [apply nth_error_In in Ei; exact Ei|].
  assert (En : nth_error ns (m - 1) = Some (nk (Z.of_nat (m - 1)))).
  { unfold ns. erewrite map_nth_error; [reflexivity|]. rewrite nth_error_nth' with (d := 0%nat) by (rewrite seq_length; exact M1).
    rewrite seq_nth by exact M1. reflexivity. }
  destruct (K _ _ _ En Ei) as (R & Nm).
  assert (Y : nth_error (a_names s) (length init_list + (m - 1)) = Some (nk (Z.of_nat (m - 1)))).
  { rewrite N, nth_error_app2 by (clear; lia). replace (length init_list + (m - 1) - length init_list)%nat with (m - 1)%nat by (clear; lia). exact En. }
  assert (LA : length (a_names s) = AMAX) by (rewrite N, app_length, LN; exact Hl).
  assert (X : i = 65536).
  { apply nth_error_nth with (d := []) in Y. unfold name_of in Nm. destruct (Z.leb_spec i 0); [clear -R H; lia|].
    assert (BK : block (nk (Z.of_nat (m - 1))) = nk (Z.of_nat (m - 1))) by reflexivity. rewrite BK, <- Y in Nm.
    apply NoDup_nth in Nm; auto; clear - Nm R LA Hl M1 AM; lia. }
  subst i. reflexivity.
Qed.
Print Assumptions C37_last_symbol_becomes_null_refuted.

(** three requests of two names after the 63 reserved ones *)
Example C37_example : match symbols 100 [[98;105;114;100]; [99;97;116]; [98;105;114;100]] with
  Ok (s, is) => is = [64; 65; 64] /\ name_of (a_names s) 64 = [98;105;114;100] | _ => False end.
Proof. vm_compute. auto. Qed.
Example C37_full_example : match symbols 64 [[98;105;114;100]; [99;97;116]; [98;105;114;100]] with
  Abort => True | _ => False end.
Proof. vm_compute. auto. Qed.
