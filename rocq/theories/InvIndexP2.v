(** The content of the index over histories. *)
From Verif Require Import Base StackM StackP HashTableM HashTableP TermM InvIndexM InvIndexS InvIndexP.
From Coq Require Import Permutation.

(** chains as lists of concepts *)
Definition R (x : iidx) (ch : list (list nat)) : Prop :=
  exists Bs free, iinv x Bs free /\ ch = map (map snd) Bs.
Lemma map_upd {A B} (f : A -> B) l i a : map f (upd l i a) = upd (map f l) i (f a).
Proof. revert i; induction l as [|h t IH]; intros [|i]; cbn; auto. f_equal. apply IH. Qed.
Lemma length_concat_map (Bs : list (list (nat * nat))) : length (concat (map (map snd) Bs)) = length (concat Bs).
Proof. rewrite <- concat_map, map_length. reflexivity. Qed.

Section Simple.
Variable simple : Z -> bool.
Lemma R_add x ch a c l : R x ch -> (0 <= a)%Z -> simple a = true -> nth_error ch (nat_of a) = Some l ->
  (In c l -> add_atom simple x a c = Ok x) /\
  (~ In c l -> length (concat ch) < length (ix_storage x) ->
     exists x', add_atom simple x a c = Ok x' /\ R x' (upd ch (nat_of a) (l ++ [c])) /\ length (ix_storage x') = length (ix_storage x)).
Proof.
  intros (Bs & free & I & ->) A0 SA E. rewrite nth_error_map in E. destruct (nth_error Bs (nat_of a)) as [lb|] eqn:EB; [|discriminate].
  cbn in E. injection E as <-. destruct (add_atom_ok simple x Bs free a c lb I A0 SA EB) as [H1 H2]. split; auto.
  intros HN HL. rewrite length_concat_map in HL. pose proof (ii_total I) as T.
  destruct (H2 HN) as (x' & p & free' & A & B & C); [intros ->; cbn in T; lia|]. exists x'. split; auto. split; auto.
  exists (upd Bs (nat_of a) (lb ++ [(p, c)])), free'. split; auto. rewrite map_upd, map_app. reflexivity.
Qed.
Lemma in_split_first (c : nat) (l : list (nat * nat)) : In c (map snd l) -> exists l1 p l2, l = l1 ++ (p, c) :: l2 /\ ~ In c (map snd l1).
Proof.
  induction l as [|[q d] l IH]; cbn [map snd In]; [tauto|]. intros H. destruct (Nat.eq_dec d c) as [->|N].
  - exists [], q, l. split; auto.
  - destruct H as [H|H]; [congruence|]. destruct (IH H) as (l1 & p & l2 & -> & H2). exists ((q, d) :: l1), p, l2. split; auto.
    cbn [map snd In]. tauto.
Qed.
Lemma R_remove x ch a c l : R x ch -> (0 <= a)%Z -> simple a = true -> nth_error ch (nat_of a) = Some l -> NoDup l ->
  exists x', remove_atom simple x a c = Ok x' /\ R x' (upd ch (nat_of a) (remove Nat.eq_dec c l)) /\ length (ix_storage x') = length (ix_storage x).
Proof.
  intros (Bs & free & I & ->) A0 SA E ND. rewrite nth_error_map in E. destruct (nth_error Bs (nat_of a)) as [lb|] eqn:EB; [|discriminate].
  cbn in E. injection E as <-. destruct (remove_atom_ok simple x Bs free a c lb I A0 SA EB) as [H1 H2].
  destruct (in_dec Nat.eq_dec c (map snd lb)) as [Y|Y].
  - destruct (in_split_first c lb Y) as (l1 & p & l2 & -> & N). destruct (H2 _ _ _ eq_refl N) as (x' & A & B & C).
    exists x'. split; auto. split; auto. exists (upd Bs (nat_of a) (l1 ++ l2)), (p :: free). split; auto.
    rewrite map_upd. f_equal. rewrite map_app in *. cbn [map snd] in *. rewrite map_app.
    apply NoDup_remove_2 in ND. rewrite in_app_iff in ND. rewrite remove_app. cbn [remove]. destruct (Nat.eq_dec c c); [|congruence].
    rewrite !notin_remove by tauto. reflexivity.
  - exists x. split; auto. split; auto. rewrite notin_remove by auto. exists Bs, free. split; auto.
    rewrite <- map_upd with (f := map snd). f_equal. apply nth_error_ext. intros i. rewrite nth_error_upd.
    destruct (Nat.eqb_spec i (nat_of a)) as [->|]; [|reflexivity]. destruct (Nat.ltb_spec (nat_of a) (length Bs)); cbn [andb]; congruence.
Qed.

(** [ch] lists exactly the pairs of P *)
Definition exact (ch : list (list nat)) (P : nat -> nat -> Prop) : Prop :=
  forall b l, nth_error ch b = Some l -> NoDup l /\ forall c, In c l <-> P b c.
Lemma exact_ext ch P Q : (forall b c, P b c <-> Q b c) -> exact ch P -> exact ch Q.
Proof. intros H E b l N. destruct (E b l N) as [A B]. split; auto. intros c. rewrite B. apply H. Qed.

(** counting: the pairs of [ch] fit in maxc * 31 cells *)
Fixpoint pairs (b : nat) (ch : list (list nat)) : list (nat * nat) :=
  match ch with [] => [] | l :: ch => map (fun c => (b, c)) l ++ pairs (S b) ch end.
Lemma pairs_length b ch : length (pairs b ch) = length (concat ch).
Proof. revert b; induction ch as [|l ch IH]; intros b; cbn [pairs concat]; auto. rewrite !app_length, map_length, IH. reflexivity. Qed.
Lemma pairs_in ch : forall b a c, In (a, c) (pairs b ch) <-> exists l, b <= a /\ nth_error ch (a - b) = Some l /\ In c l.
Proof.
  induction ch as [|l ch IH]; intros b a c; cbn [pairs].
  - split; [intros []|]. intros (l & _ & H & _). destruct (a - b); discriminate.
  - rewrite in_app_iff, IH, in_map_iff. split.
    + intros [(c' & [= -> ->] & H)|(l' & H1 & H2 & H3)].
      * exists l. rewrite Nat.sub_diag. cbn. auto.
      * exists l'. split; [lia|]. split; auto. replace (a - b) with (S (a - S b)) by lia. exact H2.
    + intros (l' & H1 & H2 & H3). destruct (Nat.eq_dec a b) as [->|N].
      * left. rewrite Nat.sub_diag in H2. cbn in H2. injection H2 as ->. eauto.
      * right. exists l'. split; [lia|]. split; auto. replace (a - b) with (S (a - S b)) in H2 by lia. exact H2.
Qed.
Lemma pairs_nodup ch P : exact ch P -> NoDup (pairs 0 ch).
Proof.
  intros E. assert (G : forall ch b, (forall l, In l ch -> NoDup l) -> NoDup (pairs b ch)).
  { clear - simple. induction ch as [|l ch IH]; intros b H; cbn [pairs]; [constructor|].
    assert (D : forall x, In x (map (fun c => (b, c)) l) -> ~ In x (pairs (S b) ch)).
    { intros [a c] H1 H2. apply in_map_iff in H1 as (c' & [= <- <-] & _). apply pairs_in in H2 as (l' & Q & _). lia. }
    assert (N1 : NoDup (map (fun c => (b, c)) l)).
    { apply FinFun.Injective_map_NoDup; [intros u v [= ->]; auto|apply H; left; auto]. }
    assert (N2 : NoDup (pairs (S b) ch)) by (apply IH; intros; apply H; right; auto).
    clear - D N1 N2. induction (map (fun c => (b, c)) l) as [|y m IH]; cbn; auto. inversion N1; subst. constructor.
    - rewrite in_app_iff. intros [Q|Q]; [tauto|]. exact (D y (or_introl eq_refl) Q).
    - apply IH; auto. intros z Hz. apply D. right; auto. }
  apply G. intros l H. apply In_nth_error in H as (n & H). apply (E n l H).
Qed.
Definition cells (maxc : nat) (tm : nat -> list Z) : list (nat * nat) :=
  flat_map (fun c => map (fun a => (nat_of a, c)) (firstn UNIFICATION_DEPTH (tm c))) (seq 0 maxc).
Lemma cells_length maxc tm : length (cells maxc tm) <= 31 * maxc.
Proof.
  unfold cells. rewrite flat_map_concat_map. assert (G : forall l, length (concat (map (fun c => map (fun a => (nat_of a, c)) (firstn UNIFICATION_DEPTH (tm c))) l)) <= 31 * length l).
  { induction l as [|c l IH]; [cbn; lia|]. cbn [map concat]. rewrite app_length, map_length.
    pose proof (firstn_le_length UNIFICATION_DEPTH (tm c)). cbn [length]. unfold UNIFICATION_DEPTH in *. lia. }
  specialize (G (seq 0 maxc)). rewrite seq_length in G. exact G.
Qed.
Lemma cells_in maxc tm a c : (0 <= a)%Z -> c < maxc -> In a (firstn UNIFICATION_DEPTH (tm c)) -> In (nat_of a, c) (cells maxc tm).
Proof. intros A H I. unfold cells. apply in_flat_map. exists c. split; [apply in_seq; lia|]. apply in_map_iff. eauto. Qed.
Lemma room ch P maxc tm a c l : exact ch P -> (forall b d, P b d -> In (b, d) (cells maxc tm)) ->
  nth_error ch (nat_of a) = Some l -> ~ In c l -> In (nat_of a, c) (cells maxc tm) -> length (concat ch) < 31 * maxc.
Proof.
  intros E I H N C. rewrite <- (pairs_length 0). apply Nat.lt_le_trans with (length ((nat_of a, c) :: pairs 0 ch)); [cbn; lia|].
  apply Nat.le_trans with (length (cells maxc tm)); [|apply cells_length]. apply NoDup_incl_length.
  - constructor; [|apply (pairs_nodup ch P E)]. intros Q. apply pairs_in in Q as (l' & _ & Q & Q2). rewrite Nat.sub_0_r in Q. congruence.
  - intros y [<-|Hy]; auto. destruct y as [b d]. apply pairs_in in Hy as (l' & _ & Q & Q2). rewrite Nat.sub_0_r in Q. apply I. apply (E b l' Q). exact Q2.
Qed.

Lemma add_each x ch P maxc tm c : forall l, R x ch -> exact ch P -> (forall b d, P b d -> In (b, d) (cells maxc tm)) ->
  31 * maxc <= length (ix_storage x) -> c < maxc -> Forall (fun a => (0 <= a < Z.of_nat (length ch))%Z) l ->
  incl l (firstn UNIFICATION_DEPTH (tm c)) ->
  exists x' ch', each (add_atom simple) x l c = Ok x' /\ R x' ch' /\ length ch' = length ch /\ length (ix_storage x') = length (ix_storage x) /\
    exact ch' (fun b d => P b d \/ (d = c /\ exists a, simple a = true /\ In a l /\ b = nat_of a)).
Proof.
  intros l. revert x ch P. induction l as [|a l IH]; intros x ch P HR HE HC HS HM HF HI; cbn [each].
  - exists x, ch. split; auto. split; auto. split; auto. split; auto. eapply exact_ext; [|exact HE]. intros b d; split; auto. intros [H|(_ & a & _ & [] & _)]; auto.
  - inversion HF as [|? ? HA HF']; subst. assert (HI' : incl l (firstn UNIFICATION_DEPTH (tm c))) by (intros y Hy; apply HI; right; auto).
    destruct (simple a) eqn:SA.
    + destruct (nth_error ch (nat_of a)) as [la|] eqn:E.
      2:{ apply nth_error_None in E. unfold nat_of in E. lia. }
      destruct (R_add x ch a c la HR ltac:(lia) SA E) as [H1 H2].
      destruct (in_dec Nat.eq_dec c la) as [Y|Y].
      * rewrite (H1 Y). cbn [rbind]. destruct (IH x ch P HR HE HC HS HM HF' HI') as (x' & ch' & A & B & C & D & F).
        exists x', ch'. split; auto. split; auto. split; auto. split; auto. eapply exact_ext; [|exact F]. intros b d; cbv beta.
        split.
        -- intros [H|(-> & a' & S1 & S2 & S3)]; auto. right. split; auto. exists a'. cbn; auto.
        -- intros [H|(-> & a' & S1 & [->|S2] & S3)]; auto.
           { left. subst b. apply (HE _ _ E). exact Y. }
           right. split; auto. exists a'. auto.
      * assert (CC : In (nat_of a, c) (cells maxc tm)) by (apply cells_in; [lia|auto|apply HI; left; auto]).
        destruct (H2 Y) as (x1 & A1 & R1 & L1); [pose proof (room ch P maxc tm a c la HE HC E Y CC); lia|].
        rewrite A1. cbn [rbind].
        assert (HE1 : exact (upd ch (nat_of a) (la ++ [c])) (fun b d => P b d \/ (b = nat_of a /\ d = c))).
        { intros b lb Hb. rewrite nth_error_upd in Hb. destruct (Nat.eqb_spec b (nat_of a)) as [->|N].
          - destruct (Nat.ltb_spec (nat_of a) (length ch)); cbn [andb] in Hb; [|apply nth_error_None in H; congruence].
            injection Hb as <-. destruct (HE _ _ E) as [N1 N2]. split.
            + apply (Permutation_NoDup (Permutation_cons_append la c)). constructor; auto.
            + intros d. rewrite in_app_iff, N2. cbn. intuition.
          - cbn [andb] in Hb. destruct (HE _ _ Hb) as [N1 N2]. split; auto. intros d. rewrite N2. intuition. }
        destruct (IH x1 _ _ R1 HE1) as (x' & ch' & A & B & C & D & F); auto.
        { intros b d [H|(-> & ->)]; auto. }
        { lia. }
        { rewrite upd_length. auto. }
        exists x', ch'. split; auto. split; auto. rewrite upd_length in C. split; auto. split; [lia|]. eapply exact_ext; [|exact F]. intros b d; cbv beta.
        split.
        -- intros [[H|(-> & ->)]|(-> & a' & S1 & S2 & S3)]; auto.
           { right. split; auto. exists a. cbn; auto. }
           right. split; auto. exists a'. cbn; auto.
        -- intros [H|(-> & a' & S1 & [->|S2] & S3)]; auto. right. split; auto. exists a'. auto.
    + unfold add_atom at 1. rewrite SA. cbn [rbind]. destruct (IH x ch P HR HE HC HS HM HF' HI') as (x' & ch' & A & B & C & D & F).
      exists x', ch'. split; auto. split; auto. split; auto. split; auto. eapply exact_ext; [|exact F]. intros b d; cbv beta.
      split.
      * intros [H|(-> & a' & S1 & S2 & S3)]; auto. right. split; auto. exists a'. cbn; auto.
      * intros [H|(-> & a' & S1 & [->|S2] & S3)]; auto; [congruence|]. right. split; auto. exists a'. auto.
Qed.
Lemma remove_each x ch P c : forall l, R x ch -> exact ch P -> Forall (fun a => (0 <= a < Z.of_nat (length ch))%Z) l ->
  exists x' ch', each (remove_atom simple) x l c = Ok x' /\ R x' ch' /\ length ch' = length ch /\ length (ix_storage x') = length (ix_storage x) /\
    exact ch' (fun b d => P b d /\ ~ (d = c /\ exists a, simple a = true /\ In a l /\ b = nat_of a)).
Proof.
  intros l. revert x ch P. induction l as [|a l IH]; intros x ch P HR HE HF; cbn [each].
  - exists x, ch. split; auto. split; auto. split; auto. split; auto. eapply exact_ext; [|exact HE]. intros b d; split; [|tauto].
    intros H. split; auto. intros (_ & a & _ & [] & _).
  - inversion HF as [|? ? HA HF']; subst. destruct (simple a) eqn:SA.
    + destruct (nth_error ch (nat_of a)) as [la|] eqn:E.
      2:{ apply nth_error_None in E. unfold nat_of in E. lia. }
      destruct (HE _ _ E) as [N1 N2].
      destruct (R_remove x ch a c la HR ltac:(lia) SA E N1) as (x1 & A1 & R1 & L1). rewrite A1. cbn [rbind].
      assert (HE1 : exact (upd ch (nat_of a) (remove Nat.eq_dec c la)) (fun b d => P b d /\ ~ (b = nat_of a /\ d = c))).
      { intros b lb Hb. rewrite nth_error_upd in Hb. destruct (Nat.eqb_spec b (nat_of a)) as [->|N].
        - destruct (Nat.ltb_spec (nat_of a) (length ch)); cbn [andb] in Hb; [|apply nth_error_None in H; congruence].
          injection Hb as <-. split.
          + clear - N1. induction la as [|y la IHl]; cbn [remove]; auto. inversion N1; subst. destruct (Nat.eq_dec c y); auto.
            constructor; auto. intros Q. apply in_remove in Q. tauto.
          + intros d. split.
            * intros Q. apply in_remove in Q as [Q1 Q2]. rewrite N2 in Q1. tauto.
            * intros [Q1 Q2]. apply in_in_remove; [tauto|]. apply N2. auto.
        - cbn [andb] in Hb. destruct (HE _ _ Hb) as [M1 M2]. split; auto. intros d. rewrite M2. tauto. }
      destruct (IH x1 _ _ R1 HE1) as (x' & ch' & A & B & C & D & F).
      { rewrite upd_length. auto. }
      exists x', ch'. split; auto. split; auto. rewrite upd_length in C. split; auto. split; [lia|]. eapply exact_ext; [|exact F]. intros b d; cbv beta.
      split.
      * intros [[H1 H2] H3]. split; auto. intros (-> & a' & S1 & [->|S2] & S3); [tauto|]. apply H3. split; auto. exists a'. auto.
      * intros [H1 H2]. split; [split; auto|].
        -- intros (-> & ->). apply H2. split; auto. exists a. cbn; auto.
        -- intros (-> & a' & S1 & S2 & S3). apply H2. split; auto. exists a'. cbn; auto.
    + unfold remove_atom at 1. rewrite SA. cbn [rbind]. destruct (IH x ch P HR HE HF') as (x' & ch' & A & B & C & D & F).
      exists x', ch'. split; auto. split; auto. split; auto. split; auto. eapply exact_ext; [|exact F]. intros b d; cbv beta.
      split.
      * intros [H1 H2]. split; auto. intros (-> & a' & S1 & [->|S2] & S3); [congruence|]. apply H2. split; auto. exists a'. auto.
      * intros [H1 H2]. split; auto. intros (-> & a' & S1 & S2 & S3). apply H2. split; auto. exists a'. cbn; auto.
Qed.

(** the relation the index should hold *)
Definition listed (s : stored) (b c : nat) : Prop :=
  exists t a, stored_term c s = Some t /\ simple a = true /\ In a (indexed_atoms t) /\ b = nat_of a.
Definition term_map (s : stored) (c : nat) : list Z := match stored_term c s with Some t => t | None => [] end.
Definition stored_ok (atoms maxc : nat) (s : stored) : Prop :=
  Forall (fun e => fst e < maxc /\ atoms_in_range atoms (snd e)) s.
Lemma stored_term_in c s t : stored_term c s = Some t -> In (c, t) s.
Proof.
  unfold stored_term. destruct (find _ s) as [[c' t']|] eqn:E; [|discriminate]. cbn. intros [= ->].
  apply find_some in E as [E1 E2]. cbn in E2. apply Nat.eqb_eq in E2. subst. exact E1.
Qed.
Lemma stored_remove c s d : stored_term d (filter (fun e => negb (fst e =? c)) s) = if d =? c then None else stored_term d s.
Proof.
  unfold stored_term. induction s as [|[e t] s IH]; cbn [filter find fst].
  - destruct (d =? c); reflexivity.
  - destruct (Nat.eqb_spec e c) as [->|N]; cbn [negb find fst].
    + rewrite IH. destruct (Nat.eqb_spec d c) as [Q|Q]; [reflexivity|]. destruct (Nat.eqb_spec c d); [congruence|]. reflexivity.
    + destruct (Nat.eqb_spec e d) as [->|M]; [|exact IH]. destruct (Nat.eqb_spec d c); [congruence|]. reflexivity.
Qed.
Lemma firstn_range atoms t : atoms_in_range atoms t -> Forall (fun a => (0 <= a < Z.of_nat atoms)%Z) (indexed_atoms t).
Proof.
  intros H. apply Forall_forall. intros a Ha. unfold atoms_in_range in H. rewrite Forall_forall in H. apply H.
  unfold indexed_atoms in Ha. rewrite <- (firstn_skipn UNIFICATION_DEPTH t). apply in_or_app; auto.
Qed.
Lemma irun_ok atoms maxc : forall os x ch s, R x ch -> exact ch (listed s) -> stored_ok atoms maxc s ->
  length ch = atoms -> 31 * maxc <= length (ix_storage x) -> disciplined atoms maxc s os ->
  exists x' ch', irun simple x os = Ok x' /\ R x' ch' /\ length ch' = atoms /\ exact ch' (listed (stored_after s os)) /\ length (ix_storage x') = length (ix_storage x).
Proof.
  induction os as [|o os IH]; intros x ch s HR HE HO HL HS HD; cbn [irun].
  - exists x, ch. cbn [stored_after]. auto.
  - destruct o as [t c|t c]; cbn [disciplined stored_after istep] in *.
    + destruct HD as (D1 & D2 & D3 & D4). unfold InvertedAtomIndex_AddConcept.
      assert (HO' : stored_ok atoms maxc ((c, t) :: s)) by (constructor; auto).
      assert (LS : forall b d, listed ((c, t) :: s) b d <-> listed s b d \/ (d = c /\ exists a, simple a = true /\ In a (indexed_atoms t) /\ b = nat_of a)).
      { intros b d. unfold listed at 1. unfold stored_term at 1. cbn [find fst]. destruct (Nat.eqb_spec c d) as [->|N].
        - cbn [option_map snd]. split.
          + intros (t' & a & [= <-] & S1 & S2 & S3). right. split; auto. exists a; auto.
          + intros [(t' & a & S0 & _)|(_ & a & S1 & S2 & S3)]; [congruence|]. exists t, a. auto.
        - fold (stored_term d s). split; [intros H; left; exact H|]. intros [H|(-> & _)]; [exact H|congruence]. }
      destruct (add_each x ch (listed s) maxc (term_map ((c, t) :: s)) c (indexed_atoms t) HR HE) as (x1 & ch1 & A & B & C & D & F).
      * intros b d (t' & a & S0 & S1 & S2 & ->). pose proof (stored_term_in _ _ _ S0) as IN.
        unfold stored_ok in HO. rewrite Forall_forall in HO. specialize (HO _ IN). cbn in HO. destruct HO as [O1 O2].
        pose proof (firstn_range atoms t' O2) as FR. rewrite Forall_forall in FR.
        apply cells_in; [apply FR; auto|auto|]. unfold term_map. unfold stored_term. cbn [find fst].
        destruct (Nat.eqb_spec c d); [subst; congruence|]. fold (stored_term d s). rewrite S0. exact S2.
      * lia.
      * auto.
      * rewrite HL. apply firstn_range; auto.
      * unfold term_map, stored_term. cbn [find fst]. rewrite Nat.eqb_refl. cbn. intros z Hz; exact Hz.
      * rewrite A. cbn [rbind]. destruct (IH x1 ch1 ((c, t) :: s)) as (x' & ch' & A2 & B2 & C2 & D2q & E2); auto; try lia.
        -- eapply exact_ext; [|exact F]. intros b d. symmetry. apply LS.
        -- exists x', ch'. split; auto. split; auto. split; auto. split; auto. lia.
    + destruct HD as (D1 & D2). unfold InvertedAtomIndex_RemoveConcept.
      pose proof (stored_term_in _ _ _ D1) as IN. pose proof HO as HO2. unfold stored_ok in HO2. rewrite Forall_forall in HO2. specialize (HO2 _ IN). cbn in HO2. destruct HO2 as [O1 O2].
      destruct (remove_each x ch (listed s) c (indexed_atoms t) HR HE) as (x1 & ch1 & A & B & C & D & F).
      * rewrite HL. apply firstn_range; auto.
      * rewrite A. cbn [rbind]. destruct (IH x1 ch1 (filter (fun e => negb (fst e =? c)) s)) as (x' & ch' & A2 & B2 & C2 & D2' & E2); auto; try lia.
        -- eapply exact_ext; [|exact F]. intros b d; cbv beta. unfold listed. rewrite stored_remove.
           destruct (Nat.eqb_spec d c) as [->|N].
           ++ split; [|intros (t' & a & X & _); discriminate]. intros [(t' & a & S0 & S1 & S2 & S3) Q]. exfalso. apply Q. split; auto.
              exists a. rewrite D1 in S0. injection S0 as ->. auto.
           ++ split; [tauto|]. intros H. split; auto. tauto.
        -- unfold stored_ok. rewrite Forall_forall. intros e He. apply filter_In in He as [He _]. unfold stored_ok in HO. rewrite Forall_forall in HO. auto.
        -- exists x', ch'. split; auto. split; auto. split; auto. split; auto. lia.
Qed.

Lemma walk_ok x l : forall s fuel, cseg (ix_storage x) s l None -> length l <= fuel -> walk fuel x s = Ok (map snd l).
Proof.
  induction l as [|[p c] l IH]; intros s fuel; cbn [cseg map snd length].
  - intros -> _. destruct fuel; reflexivity.
  - intros (-> & nx & H1 & H2) F. destruct fuel as [|fuel]; [lia|]. cbn [walk]. rewrite (el_deref_ok _ _ _ H1). cbn [rbind el_c el_next].
    rewrite (IH nx fuel H2) by lia. reflexivity.
Qed.
Lemma concepts_under_ok x ch a l : R x ch -> (0 < a)%Z -> nth_error ch (nat_of a) = Some l -> concepts_under x a = Ok l.
Proof.
  intros (Bs & free & I & ->) A0 E. rewrite nth_error_map in E. destruct (nth_error Bs (nat_of a)) as [lb|] eqn:EB; [|discriminate].
  cbn in E. injection E as <-. destruct (ii_seg _ _ _ I _ _ EB) as (s & Hs & Sg). unfold concepts_under, GetConceptChain.
  destruct (Z.eqb_spec a 0); [lia|]. unfold read_head. destruct (Z.ltb_spec a 0); [lia|]. unfold nat_of in Hs. rewrite Hs. cbn [rbind].
  apply walk_ok; auto. apply (ii_chain_len I _ _ EB).
Qed.
Lemma init_push_ok n : forall i s l, holds s l -> length l + n <= s_max s ->
  exists s', init_push s i n = Ok s' /\ holds s' (rev (seq i n) ++ l) /\ s_max s' = s_max s.
Proof.
  induction n as [|n IH]; intros i s l H L; cbn [init_push seq rev app]; [eauto|].
  destruct (push_holds s l i H) as [P _]. destruct (P ltac:(lia)) as (s1 & -> & H1 & M1). cbn [rbind].
  destruct (IH (S i) s1 (i :: l) H1) as (s2 & -> & H2 & M2); [cbn [length]; lia|]. exists s2. split; auto. split; [|congruence].
  rewrite <- app_assoc. exact H2.
Qed.
Lemma init_ok atoms pool : exists x, InvertedAtomIndex_INIT atoms pool = Ok x /\ R x (repeat [] atoms) /\ length (ix_storage x) = pool.
Proof.
  unfold InvertedAtomIndex_INIT. destruct (init_push_ok pool 0 _ [] (holds_init pool)) as (s & -> & H & M); [cbn; lia|]. cbn [rbind].
  cbn in M. rewrite app_nil_r in H. eexists. split; [reflexivity|]. split; [|cbn [ix_storage]; apply repeat_length].
  exists (repeat [] atoms), (rev (seq 0 pool)). split.
  - constructor; cbn [ix_storage ix_stack ix_heads].
    + rewrite !repeat_length. reflexivity.
    + intros b l Hb. assert (b < atoms) by (apply nth_error_Some_lt in Hb || (apply (f_equal (fun o => match o with Some _ => true | None => false end)) in Hb; destruct (Nat.lt_ge_cases b atoms); auto; rewrite (proj2 (nth_error_None _ _)) in Hb by (rewrite repeat_length; lia); discriminate)).
      rewrite nth_error_repeat in Hb by auto. injection Hb as <-. exists None. rewrite nth_error_repeat by auto. cbn. auto.
    + exact H.
    + rewrite repeat_length. auto.
    + rewrite repeat_length. assert (Z : concat (repeat (@nil (nat * nat)) atoms) = []) by (clear; induction atoms; cbn; auto).
      rewrite Z. cbn [map]. rewrite app_nil_r. apply Permutation_sym, Permutation_rev.
    + intros p Hp. rewrite <- in_rev in Hp. apply in_seq in Hp. apply nth_error_repeat. lia.
  - clear. induction atoms as [|n IH]; cbn; [reflexivity|f_equal; exact IH].
Qed.
End Simple.
