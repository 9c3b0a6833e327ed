(** Property theorem C30: the inverted atom index.  Vocabulary: InvIndexS.v. *)
From Verif Require Import Base StackM TermM TermS NamesM InvIndexM InvIndexS InvIndexP InvIndexP2.

(** C30: after any history in which concepts are added under their terms and removed under the
    same terms, no operation ran out of chain elements or touched memory it should not, and the
    concepts found under any atom are exactly the stored concepts which have that atom, a simple
    one, among their first 31 positions; each is listed once.
    ([atoms] = 65536, [maxc] = CONCEPTS_MAX = 16384 and [pool] = 31*16384 in the program.) *)
Theorem C30_index_is_exact : forall nm atoms maxc pool os,
  31 * maxc <= pool -> disciplined atoms maxc [] os ->
  exists x0 x, InvertedAtomIndex_INIT atoms pool = Ok x0 /\ irun (IsSimpleAtom nm) x0 os = Ok x /\
    forall a, (0 <= a < Z.of_nat atoms)%Z -> exists l, concepts_under x a = Ok l /\ NoDup l /\
      forall c, In c l <-> IsSimpleAtom nm a = true /\
                           exists t, stored_term c (stored_after [] os) = Some t /\ In a (firstn 31 t).
Proof.
  intros nm atoms maxc pool os HP HD. destruct (init_ok atoms pool) as (x0 & E0 & R0 & L0).
  destruct (irun_ok (IsSimpleAtom nm) atoms maxc os x0 (repeat [] atoms) []) as (x & ch & A & B & C & D & F); auto.
  - intros b l Hb. apply nth_error_In in Hb. apply repeat_spec in Hb. subst l. split; [constructor|]. intros c; split; [intros []|].
    intros (t & a & Q & _). discriminate.
  - constructor.
  - apply repeat_length.
  - lia.
  - exists x0, x. split; auto. split; auto. intros a Ha. destruct (Z.eq_dec a 0) as [->|N].
    + exists []. split; [unfold concepts_under, GetConceptChain; cbn [Z.eqb rbind]; destruct (length (ix_storage x)); reflexivity|]. split; [constructor|]. intros c; split; [intros []|]. intros (Q & _). discriminate.
    + destruct (nth_error ch (nat_of a)) as [l|] eqn:E.
      2:{ apply nth_error_None in E. unfold nat_of in E. lia. }
      exists l. split; [apply (concepts_under_ok (IsSimpleAtom nm) x ch); auto; lia|]. destruct (D _ _ E) as [D1 D2]. split; auto.
      intros c. rewrite D2. split.
      * intros (t & a' & S0 & S1 & S2 & S3). unfold nat_of in S3.
        assert (a' = a) as ->; [|eauto]. assert (0 < a')%Z.
        { unfold IsSimpleAtom in S1. destruct (Z.ltb_spec 0 a'); [auto|discriminate]. }
        lia.
      * intros (S1 & t & S0 & S2). exists t, a. auto.
Qed.
Print Assumptions C30_index_is_exact.
(** two concepts sharing an atom, the first one recycled: names a (atom 1), b (atom 2), --> (atom 3) *)
Example C30_example :
  let nm := [[97]; [98]; [58]]%Z in let t1 := mk_term [3;1;2]%Z in let t2 := mk_term [3;2;1]%Z in
  let os := [IAdd t1 0; IAdd t2 1; IRemove t1 0; IAdd (mk_term [2]%Z) 0] in
  disciplined 4 2 [] os /\
  (do x <- InvertedAtomIndex_INIT 4 62 ; do x <- irun (IsSimpleAtom nm) x os ;
   do la <- concepts_under x 1 ; do lb <- concepts_under x 2 ; Ok (la, lb)) = Ok ([1], [1; 0]).
Proof.
  cbv zeta. split; [|vm_compute; reflexivity].
  assert (G : forall l, forallb (fun a => (0 <=? a) && (a <? 4))%Z l = true -> atoms_in_range 4 l).
  { intros l H. apply Forall_forall. intros a Ha. rewrite forallb_forall in H. specialize (H a Ha). cbn. lia. }
  cbn -[mk_term]. repeat split; try lia; try (apply G; vm_compute; reflexivity).
Qed.
