(** Proofs about InvIndexM. *)
From Verif Require Import Base StackM StackP HashTableM HashTableP TermM InvIndexM InvIndexS.
From Coq Require Import Permutation.

Notation entry := (nat * nat)%type.
Notation slots l := (map (@fst nat nat) l).
Notation cons_ l := (map (@snd nat nat) l).
Fixpoint cseg (st : list elem) (s : option nat) (l : list entry) (e : option nat) : Prop :=
  match l with
  | [] => s = e
  | (p, c) :: l' => s = Some p /\ exists nx, nth_error st p = Some (mkElem (Some c) nx) /\ cseg st nx l' e
  end.
Lemma cseg_app st l1 l2 : forall s e, cseg st s (l1 ++ l2) e <-> exists m, cseg st s l1 m /\ cseg st m l2 e.
Proof.
  induction l1 as [|[p c] l1 IH]; intros s e; cbn [app cseg].
  - split; [eauto|intros (m & -> & H); exact H].
  - split.
    + intros (-> & nx & H1 & H2). apply IH in H2 as (m & A & B). exists m; eauto 6.
    + intros (m & (-> & nx & H1 & H2) & H3). split; auto. exists nx. split; auto. apply IH. eauto.
Qed.
Lemma cseg_frame st p x l : ~ In p (slots l) -> forall s e, cseg st s l e -> cseg (upd st p x) s l e.
Proof.
  induction l as [|[q c] l IH]; cbn [map fst In cseg]; intros N s e; auto.
  intros (-> & nx & H1 & H2). split; auto. exists nx. split; [|apply IH; auto].
  rewrite nth_error_upd. destruct (Nat.eqb_spec q p); [tauto|]. exact H1.
Qed.
Record iinv (x : iidx) (Bs : list (list entry)) (free : list nat) : Prop := {
  ii_len : length Bs = length (ix_heads x);
  ii_seg : forall b l, nth_error Bs b = Some l -> exists s, nth_error (ix_heads x) b = Some s /\ cseg (ix_storage x) s l None;
  ii_free : holds (ix_stack x) free;
  ii_max : s_max (ix_stack x) = length (ix_storage x);
  ii_perm : Permutation (free ++ slots (concat Bs)) (seq 0 (length (ix_storage x)));
  ii_clean : forall p, In p free -> nth_error (ix_storage x) p = Some (mkElem None None)
}.
Lemma slots_in_concat (Bs : list (list entry)) b l : nth_error Bs b = Some l -> incl (slots l) (slots (concat Bs)).
Proof.
  intros H. destruct (nth_error_split_concat _ _ _ H) as (B1 & B2 & -> & _).
  rewrite concat_app, map_app. cbn [concat]. rewrite map_app. intros x Hx. apply in_or_app; right; apply in_or_app; auto.
Qed.
Lemma slots_concat_split (B1 B2 : list (list entry)) l :
  Permutation (slots (concat (B1 ++ l :: B2))) (slots l ++ slots (concat (B1 ++ B2))).
Proof.
  rewrite !concat_app, !map_app. cbn [concat]. rewrite map_app.
  rewrite !app_assoc. apply Permutation_app_tail, Permutation_app_comm.
Qed.
Section FromInv.
Context {x : iidx} {Bs : list (list entry)} {free : list nat} (I : iinv x Bs free).
Lemma ii_nodup : NoDup (free ++ slots (concat Bs)).
Proof. apply (Permutation_NoDup (Permutation_sym (ii_perm _ _ _ I))). apply seq_NoDup. Qed.
Lemma ii_lt p : In p (free ++ slots (concat Bs)) -> p < length (ix_storage x).
Proof. intros H. apply (Permutation_in _ (ii_perm _ _ _ I)) in H. apply in_seq in H. lia. Qed.
Lemma ii_total : length free + length (concat Bs) = length (ix_storage x).
Proof. pose proof (Permutation_length (ii_perm _ _ _ I)) as P. rewrite app_length, map_length, seq_length in P. exact P. Qed.
Lemma ii_chain_len b l : nth_error Bs b = Some l -> length l <= length (ix_storage x).
Proof.
  intros E. rewrite <- ii_total. destruct (nth_error_split_concat _ _ _ E) as (B1 & B2 & -> & _).
  rewrite concat_app. cbn [concat]. rewrite !app_length. lia.
Qed.
Lemma ii_nodup_split b l : nth_error Bs b = Some l -> NoDup (slots l) /\
  (forall p, In p (slots l) -> ~ In p free) /\
  (forall b2 l2 p, b2 <> b -> nth_error Bs b2 = Some l2 -> In p (slots l) -> ~ In p (slots l2)).
Proof.
  intros E. pose proof ii_nodup as N. destruct (nth_error_split_concat _ _ _ E) as (B1 & B2 & EB & LB & _).
  assert (P : Permutation (free ++ slots (concat Bs)) (slots l ++ (free ++ slots (concat (B1 ++ B2))))).
  { rewrite EB at 1. rewrite (slots_concat_split B1 B2 l). rewrite !app_assoc. apply Permutation_app_tail, Permutation_app_comm. }
  apply (Permutation_NoDup P) in N. clear P.
  assert (D : forall p, In p (slots l) -> ~ In p (free ++ slots (concat (B1 ++ B2)))).
  { intros p H1 H2. apply in_split in H2 as (u & v & E2). rewrite E2 in N.
    apply in_split in H1 as (u1 & v1 & E1). rewrite E1, <- app_assoc in N. cbn [app] in N. apply NoDup_remove_2 in N.
    apply N. rewrite !in_app_iff. cbn. tauto. }
  split; [apply NoDup_app_remove_r in N; exact N|]. split.
  - intros p H1 H2. apply (D p H1). apply in_or_app; auto.
  - intros b2 l2 p Nb E2 H1 H2. apply (D p H1). apply in_or_app; right.
    assert (X : In l2 (B1 ++ B2)).
    { rewrite EB in E2. destruct (Nat.lt_ge_cases b2 b).
      - rewrite nth_error_app1 in E2 by lia. apply in_or_app; left. eapply nth_error_In; eauto.
      - rewrite nth_error_app2 in E2 by lia. destruct (b2 - length B1) as [|n] eqn:Q; [lia|]. cbn [nth_error] in E2.
        apply in_or_app; right. eapply nth_error_In; eauto. }
    apply in_map_iff in H2 as (e & <- & He). apply in_map. apply in_concat. eauto.
Qed.
End FromInv.

(** re-establishing the invariant after editing one chain *)
Lemma ii_update x Bs free x' free' b l l' :
  iinv x Bs free -> nth_error Bs b = Some l ->
  length (ix_heads x') = length (ix_heads x) -> length (ix_storage x') = length (ix_storage x) ->
  (exists s, nth_error (ix_heads x') b = Some s /\ cseg (ix_storage x') s l' None) ->
  (forall b2, b2 <> b -> nth_error (ix_heads x') b2 = nth_error (ix_heads x) b2) ->
  (forall p, ~ In p (slots l) -> ~ In p (slots l') -> nth_error (ix_storage x') p = nth_error (ix_storage x) p) ->
  (forall p, In p free' -> In p (slots l) -> nth_error (ix_storage x') p = Some (mkElem None None)) ->
  holds (ix_stack x') free' -> s_max (ix_stack x') = s_max (ix_stack x) ->
  Permutation (free' ++ slots l') (free ++ slots l) ->
  iinv x' (upd Bs b l') free'.
Proof.
  intros I E LH LS (s & Hs & Sg) OH FR CL HV HM P.
  destruct (nth_error_split_concat _ _ _ E) as (B1 & B2 & EB & LB & U).
  assert (PP : Permutation (free' ++ slots (concat (upd Bs b l'))) (seq 0 (length (ix_storage x)))).
  { rewrite <- (ii_perm _ _ _ I). rewrite U. rewrite EB.
    rewrite (slots_concat_split B1 B2 l'), (slots_concat_split B1 B2 l). rewrite !app_assoc. apply Permutation_app_tail. exact P. }
  destruct (ii_nodup_split I b l E) as (N1 & N2 & N3).
  assert (ND : NoDup (free ++ slots l)).
  { pose proof (ii_nodup I) as N. rewrite EB in N. rewrite (slots_concat_split B1 B2 l) in N. rewrite app_assoc in N. apply NoDup_app_remove_r in N. exact N. }
  constructor.
  - rewrite upd_length, LH. apply (ii_len _ _ _ I).
  - intros b2 l2 H2. rewrite nth_error_upd in H2. destruct (Nat.eqb_spec b2 b) as [->|N].
    + destruct (Nat.ltb_spec b (length Bs)); cbn [andb] in H2.
      * injection H2 as <-. eauto.
      * apply nth_error_None in H. congruence.
    + cbn [andb] in H2. destruct (ii_seg _ _ _ I _ _ H2) as (s2 & A & B). exists s2. rewrite OH by auto. split; auto.
      assert (OUT : forall p, In p (slots l2) -> nth_error (ix_storage x') p = nth_error (ix_storage x) p).
      { intros p Hp. apply FR; [intros Q; exact (N3 _ _ p N H2 Q Hp)|]. intros Q.
        assert (In p (free ++ slots l)) by (apply (Permutation_in _ P); apply in_or_app; auto).
        apply in_app_or in H as [H|H]; [|exact (N3 _ _ p N H2 H Hp)].
        pose proof (ii_nodup I) as NN. apply in_split in H as (u & v & EF). rewrite EF, <- app_assoc in NN. cbn [app] in NN.
        apply NoDup_remove_2 in NN. apply NN. apply in_or_app; right. apply in_or_app; right. exact (slots_in_concat _ _ _ H2 p Hp). }
      clear - B OUT. revert s2 B OUT. induction l2 as [|[p c] l2 IH]; intros s2; cbn [cseg]; auto.
      intros (-> & nx & H1 & H2) OUT. split; auto. exists nx. split; [rewrite OUT; [exact H1|left; reflexivity]|].
      apply IH; auto. intros q Hq. apply OUT. right. exact Hq.
  - exact HV.
  - rewrite HM, LS. apply (ii_max _ _ _ I).
  - rewrite LS. exact PP.
  - intros p Hp. destruct (in_dec Nat.eq_dec p (slots l)) as [Y|Y]; [apply CL; auto|].
    assert (Np : ~ In p (slots l')).
    { intros Q. apply (Permutation_NoDup (Permutation_sym P)) in ND. apply in_split in Hp as (u & v & EF).
      rewrite EF, <- app_assoc in ND. cbn [app] in ND. apply NoDup_remove_2 in ND. apply ND. apply in_or_app; right. apply in_or_app; auto. }
    rewrite FR by auto. apply (ii_clean _ _ _ I).
    assert (In p (free ++ slots l)) by (apply (Permutation_in _ P); apply in_or_app; auto).
    apply in_app_or in H as [H|H]; tauto.
Qed.

(** ** the loops *)
Lemma el_deref_ok x p e : nth_error (ix_storage x) p = Some e -> el_deref x p = Ok e.
Proof. intros H. unfold el_deref. rewrite H. reflexivity. Qed.
Lemma el_store_ok x p e : p < length (ix_storage x) -> el_store x p e = Ok (mkIx (upd (ix_storage x) p e) (ix_stack x) (ix_heads x)).
Proof. intros H. unfold el_store. destruct (Nat.ltb_spec p (length (ix_storage x))); [reflexivity|lia]. Qed.
Lemma find_found x c l : In c (cons_ l) -> forall q fuel, cseg (ix_storage x) (Some q) l None -> length l <= fuel ->
  find_loop fuel x q c = Ok (inl tt).
Proof.
  induction l as [|[p d] l IH]; cbn [map snd In]; [tauto|]. intros HI q fuel Sg F. cbn [length] in F.
  destruct fuel as [|fuel]; [lia|]. cbn [cseg] in Sg. destruct Sg as (Hq & nx & H1 & H2). injection Hq as ->.
  cbn [find_loop]. rewrite (el_deref_ok _ _ _ H1). cbn [rbind el_c el_next]. destruct (Nat.eqb_spec d c) as [|N]; [reflexivity|].
  destruct HI as [|HI]; [congruence|]. destruct nx as [q'|]; [apply IH; auto; lia|].
  destruct l as [|[? ?] ?]; [destruct HI|]. cbn [cseg] in H2. destruct H2 as (X & _). discriminate.
Qed.
Lemma find_absent x c p d : forall l q fuel, ~ In c (cons_ (l ++ [(p, d)])) ->
  cseg (ix_storage x) (Some q) (l ++ [(p, d)]) None -> length l < fuel ->
  find_loop fuel x q c = Ok (inr p).
Proof.
  induction l as [|[p' d'] l IH]; intros q fuel HI Sg F; destruct fuel as [|fuel]; cbn [length] in F; try lia;
    cbn [app cseg] in Sg; destruct Sg as (Hq & nx & H1 & H2); injection Hq as ->; cbn [find_loop];
    rewrite (el_deref_ok _ _ _ H1); cbn [rbind el_c el_next]; cbn [app map snd In] in HI.
  - destruct (Nat.eqb_spec d c); [tauto|]. cbn [cseg] in H2. subst nx. reflexivity.
  - destruct (Nat.eqb_spec d' c); [tauto|]. destruct nx as [q'|]; [apply IH; auto; lia|].
    destruct l as [|[? ?] l]; cbn [app cseg] in H2; destruct H2 as (X & _); discriminate.
Qed.
Lemma new_elem_ok x Bs free c : iinv x Bs free -> forall p free', free = p :: free' ->
  exists s, new_elem x c = Ok (mkIx (upd (ix_storage x) p (mkElem (Some c) None)) s (ix_heads x), p) /\
            holds s free' /\ s_max s = s_max (ix_stack x) /\ p < length (ix_storage x).
Proof.
  intros I p free' ->. unfold new_elem. pose proof (pop_holds _ _ (ii_free _ _ _ I)) as (s & E & H & M). cbv beta iota in *.
  rewrite E. cbn [rbind]. pose proof (ii_clean _ _ _ I p (or_introl eq_refl)) as C.
  rewrite (el_deref_ok _ p (mkElem None None)) by exact C. cbn [rbind el_next].
  assert (L : p < length (ix_storage x)) by (apply nth_error_Some; rewrite C; discriminate).
  rewrite el_store_ok by exact L. cbn [rbind ix_storage ix_stack ix_heads]. exists s. auto.
Qed.

Section Simple.
Variable simple : Z -> bool.
Definition nat_of (a : Z) : nat := Z.to_nat a.
Lemma add_atom_ok x Bs free a c l : iinv x Bs free -> (0 <= a)%Z -> simple a = true -> nth_error Bs (nat_of a) = Some l ->
  (In c (cons_ l) -> add_atom simple x a c = Ok x) /\
  (~ In c (cons_ l) -> free <> [] -> exists x' p free', add_atom simple x a c = Ok x' /\
      iinv x' (upd Bs (nat_of a) (l ++ [(p, c)])) free' /\ length (ix_storage x') = length (ix_storage x)).
Proof.
  intros I A0 SA E. destruct (ii_seg _ _ _ I _ _ E) as (s & Hs & Sg).
  assert (RH : read_head x a = Ok s).
  { unfold read_head. destruct (Z.ltb_spec a 0); [lia|]. unfold nat_of in Hs. rewrite Hs. reflexivity. }
  pose proof (ii_chain_len I _ _ E) as CL.
  unfold add_atom. rewrite SA, RH. cbn [rbind]. split.
  - intros HI. destruct s as [q|].
    + rewrite (find_found x c l HI q _ Sg CL). reflexivity.
    + destruct l as [|[? ?] ?]; [destruct HI|]. cbn [cseg] in Sg. destruct Sg as (X & _). discriminate.
  - intros HN NF. destruct free as [|p free']; [congruence|].
    destruct (new_elem_ok x Bs _ c I p free' eq_refl) as (sk & NE & HS & HM & LP).
    destruct (ii_nodup_split I _ _ E) as (N1 & N2 & N3).
    assert (NP : ~ In p (slots l)) by (intros Q; exact (N2 p Q (or_introl eq_refl))).
    assert (LB : nat_of a < length (ix_heads x)) by (apply nth_error_Some; rewrite Hs; discriminate).
    destruct s as [q|].
    + assert (LL : exists l0 pl dl, l = l0 ++ [(pl, dl)]).
      { destruct (exists_last (l := l)) as (l0 & [pl dl] & ->); [|eauto]. intros ->. cbn in Sg. discriminate. }
      destruct LL as (l0 & pl & dl & ->).
      rewrite (find_absent x c pl dl l0 q _ HN Sg) by (rewrite app_length in CL; cbn in CL; lia).
      cbn [rbind]. rewrite NE. cbn [rbind].
      apply cseg_app in Sg as (m & Sg1 & Sg2). cbn [cseg] in Sg2. destruct Sg2 as (-> & nx & H1 & ->).
      rewrite map_app, in_app_iff in NP. cbn [map fst In] in NP.
      assert (NE2 : pl <> p) by tauto.
      rewrite (el_deref_ok _ pl (mkElem (Some dl) None)) by (cbn [ix_storage]; rewrite nth_error_upd; destruct (Nat.eqb_spec pl p); [congruence|exact H1]).
      cbn [rbind el_c].
      assert (LPL : pl < length (ix_storage x)) by (apply nth_error_Some; rewrite H1; discriminate).
      rewrite el_store_ok by (cbn [ix_storage]; rewrite upd_length; exact LPL).
      cbn [ix_storage ix_stack ix_heads]. eexists; exists p, free'. split; [reflexivity|].
      split; [|cbn [ix_storage]; rewrite !upd_length; reflexivity].
      eapply ii_update; [exact I|exact E|reflexivity|cbn [ix_storage]; rewrite !upd_length; reflexivity|..]; cbn [ix_storage ix_stack ix_heads].
      * exists (Some q). split; [exact Hs|]. rewrite <- app_assoc. cbn [app]. apply cseg_app. exists (Some pl).
        rewrite map_app in N1. split.
        -- apply cseg_frame.
           { intros Q. cbn [map fst] in N1. apply NoDup_remove_2 in N1. rewrite app_nil_r in N1. tauto. }
           apply cseg_frame; [tauto|]. exact Sg1.
        -- cbn [cseg]. split; [reflexivity|]. exists (Some p). rewrite nth_error_upd, Nat.eqb_refl, upd_length.
           destruct (Nat.ltb_spec pl (length (ix_storage x))); [|lia]. cbn [andb]. split; [reflexivity|]. split; [reflexivity|].
           exists None. rewrite nth_error_upd. destruct (Nat.eqb_spec p pl); [congruence|]. cbn [andb].
           rewrite nth_error_upd, Nat.eqb_refl. destruct (Nat.ltb_spec p (length (ix_storage x))); [auto|lia].
      * auto.
      * intros r R1 R2. rewrite !map_app, !in_app_iff in *. cbn [map fst In] in *.
        rewrite !nth_error_upd. destruct (Nat.eqb_spec r pl); [subst; tauto|]. destruct (Nat.eqb_spec r p); [subst; tauto|]. reflexivity.
      * intros r R1 R2. exfalso. exact (N2 r R2 (or_intror R1)).
      * exact HS.
      * exact HM.
      * rewrite !map_app. cbn [map fst app]. rewrite app_assoc. apply Permutation_trans with (p :: free' ++ slots l0 ++ [pl]); [|reflexivity].
        rewrite Permutation_app_comm. cbn [app]. reflexivity.
    + destruct l as [|[? ?] ?]; [|cbn [cseg] in Sg; destruct Sg as (X & _); discriminate].
      rewrite NE. cbn [rbind]. unfold write_head. destruct (Z.ltb_spec a 0); [lia|]. cbn [ix_storage ix_stack ix_heads].
      unfold nat_of in *. destruct (Nat.ltb_spec (Z.to_nat a) (length (ix_heads x))); [|lia].
      eexists; exists p, free'. split; [reflexivity|]. split; [|cbn [ix_storage]; rewrite !upd_length; reflexivity].
      eapply ii_update; [exact I|exact E|cbn [ix_heads]; apply upd_length|cbn [ix_storage]; rewrite !upd_length; reflexivity|..]; cbn [ix_storage ix_stack ix_heads].
      * exists (Some p). rewrite nth_error_upd, Nat.eqb_refl. destruct (Nat.ltb_spec (Z.to_nat a) (length (ix_heads x))); [|lia].
        split; [reflexivity|]. cbn [app cseg]. split; [reflexivity|]. exists None. rewrite nth_error_upd, Nat.eqb_refl.
        destruct (Nat.ltb_spec p (length (ix_storage x))); [auto|lia].
      * intros b2 Nb. rewrite nth_error_upd. destruct (Nat.eqb_spec b2 (Z.to_nat a)); [congruence|]. reflexivity.
      * cbn [app map fst In]. intros r _ R2. rewrite nth_error_upd. destruct (Nat.eqb_spec r p); [subst; tauto|]. reflexivity.
      * cbn [map In]. tauto.
      * exact HS.
      * exact HM.
      * cbn [app map fst]. rewrite app_nil_r. apply Permutation_sym, Permutation_cons_append.
Qed.

Lemma unlink_absent x a c l : ~ In c (cons_ l) -> forall pre s fuel, cseg (ix_storage x) s l None -> length l <= fuel ->
  unlink_loop fuel x a pre s c = Ok x.
Proof.
  induction l as [|[p d] l IH]; cbn [map snd In cseg]; intros HN pre s fuel Sg F.
  - subst s. destruct fuel; reflexivity.
  - destruct Sg as (-> & nx & H1 & H2). cbn [length] in F. destruct fuel as [|fuel]; [lia|]. cbn [unlink_loop].
    rewrite (el_deref_ok _ _ _ H1). cbn [rbind el_c el_next]. destruct (Nat.eqb_spec d c); [tauto|]. apply IH; auto; lia.
Qed.
Definition last_slot (pre : option nat) (l : list entry) : option nat := match rev l with [] => pre | (p, _) :: _ => Some p end.
Lemma unlink_found x a c p l2 : forall l1, ~ In c (cons_ l1) -> forall pre s fuel,
  cseg (ix_storage x) s (l1 ++ (p, c) :: l2) None -> length l1 < fuel ->
  exists nx, nth_error (ix_storage x) p = Some (mkElem (Some c) nx) /\ cseg (ix_storage x) nx l2 None /\
  unlink_loop fuel x a pre s c =
    (do x <- (match last_slot pre l1 with
              | None => write_head x a nx
              | Some q => do pe <- el_deref x q ; el_store x q (mkElem (el_c pe) nx) end) ;
     do x <- el_store x p (mkElem None None) ;
     do s <- Stack_Push (ix_stack x) p ; Ok (mkIx (ix_storage x) s (ix_heads x))).
Proof.
  induction l1 as [|[q d] l1 IH]; intros HN pre s fuel Sg F; cbn [app cseg length] in *; destruct Sg as (-> & nx & H1 & H2);
    (destruct fuel as [|fuel]; [lia|]); cbn [unlink_loop].
  - exists nx. split; auto. split; auto. rewrite (el_deref_ok _ _ _ H1). cbn [rbind el_c el_next]. rewrite Nat.eqb_refl. reflexivity.
  - cbn [map snd In] in HN. destruct (IH ltac:(tauto) (Some q) nx fuel H2 ltac:(lia)) as (nx' & A & B & C). exists nx'. split; auto. split; auto.
    rewrite (el_deref_ok _ _ _ H1). cbn [rbind el_c el_next]. destruct (Nat.eqb_spec d c); [tauto|]. rewrite C.
    unfold last_slot. cbn [rev]. destruct (rev l1) as [|[? ?] ?]; reflexivity.
Qed.
Lemma remove_atom_ok x Bs free a c l : iinv x Bs free -> (0 <= a)%Z -> simple a = true -> nth_error Bs (nat_of a) = Some l ->
  (~ In c (cons_ l) -> remove_atom simple x a c = Ok x) /\
  (forall l1 p l2, l = l1 ++ (p, c) :: l2 -> ~ In c (cons_ l1) ->
     exists x', remove_atom simple x a c = Ok x' /\
       iinv x' (upd Bs (nat_of a) (l1 ++ l2)) (p :: free) /\ length (ix_storage x') = length (ix_storage x)).
Proof.
  intros I A0 SA E. destruct (ii_seg _ _ _ I _ _ E) as (s & Hs & Sg).
  assert (RH : read_head x a = Ok s).
  { unfold read_head. destruct (Z.ltb_spec a 0); [lia|]. unfold nat_of in Hs. rewrite Hs. reflexivity. }
  pose proof (ii_chain_len I _ _ E) as CL.
  unfold remove_atom. rewrite SA, RH. cbn [rbind]. split.
  - intros HN. apply (unlink_absent x a c l); auto.
  - intros l1 p l2 -> HN. 
    destruct (unlink_found x a c p l2 l1 HN None s (length (ix_storage x)) Sg) as (nx & H1 & H2 & ->).
    { rewrite app_length in CL. cbn in CL. lia. }
    destruct (ii_nodup_split I _ _ E) as (N1 & N2 & N3).
    assert (LB : nat_of a < length (ix_heads x)) by (apply nth_error_Some; rewrite Hs; discriminate).
    assert (LP : p < length (ix_storage x)) by (apply nth_error_Some; rewrite H1; discriminate).
    assert (FL : length free < s_max (ix_stack x)).
    { rewrite (ii_max _ _ _ I). pose proof (ii_total I) as T. destruct (nth_error_split_concat _ _ _ E) as (B1 & B2 & EB & _).
      rewrite EB, concat_app in T. cbn [concat] in T. rewrite !app_length in T. cbn [length] in T. lia. }
    rewrite map_app in N1. cbn [map fst] in N1. pose proof (NoDup_remove_2 _ _ _ N1) as N1p. rewrite in_app_iff in N1p.
    unfold last_slot. destruct (rev l1) as [|[q d] r] eqn:ER.
    + assert (l1 = []) as -> by (rewrite <- (rev_involutive l1), ER; reflexivity).
      unfold write_head. destruct (Z.ltb_spec a 0); [lia|]. unfold nat_of in *. destruct (Nat.ltb_spec (Z.to_nat a) (length (ix_heads x))); [|lia].
      cbn [rbind]. rewrite el_store_ok by exact LP. cbn [rbind ix_storage ix_stack ix_heads].
      destruct (push_holds _ _ p (ii_free _ _ _ I)) as [PH _]. destruct (PH FL) as (sk & -> & HS & HM). cbn [rbind].
      eexists. split; [reflexivity|]. split; [|cbn [ix_storage]; rewrite upd_length; reflexivity].
      eapply ii_update; [exact I|exact E|cbn [ix_heads]; apply upd_length|cbn [ix_storage]; rewrite !upd_length; reflexivity|..]; cbn [ix_storage ix_stack ix_heads].
      * exists nx. rewrite nth_error_upd, Nat.eqb_refl. destruct (Nat.ltb_spec (Z.to_nat a) (length (ix_heads x))); [|lia].
        split; [reflexivity|]. cbn [app]. apply cseg_frame; [tauto|exact H2].
      * intros b2 Nb. rewrite nth_error_upd. destruct (Nat.eqb_spec b2 (Z.to_nat a)); [congruence|]. reflexivity.
      * cbn [app map fst In]. intros r0 R1 R2. rewrite nth_error_upd. destruct (Nat.eqb_spec r0 p); [subst; tauto|]. reflexivity.
      * intros r0 R1 R2. destruct R1 as [<-|R1]; [|exfalso; exact (N2 r0 R2 R1)]. rewrite nth_error_upd, Nat.eqb_refl.
        destruct (Nat.ltb_spec p (length (ix_storage x))); [reflexivity|lia].
      * exact HS.
      * exact HM.
      * cbn [app map fst]. apply Permutation_middle.
    + assert (EL : l1 = rev r ++ [(q, d)]) by (rewrite <- (rev_involutive l1), ER; reflexivity). clear ER.
      rewrite EL in Sg. rewrite <- app_assoc in Sg. cbn [app] in Sg. apply cseg_app in Sg as (m & Sg1 & Sg2).
      cbn [cseg] in Sg2. destruct Sg2 as (-> & nq & Hq & -> & nx' & Hp & Sg3). rewrite H1 in Hp. injection Hp as <-.
      rewrite (el_deref_ok _ _ _ Hq). cbn [rbind el_c].
      assert (LQ : q < length (ix_storage x)) by (apply nth_error_Some; rewrite Hq; discriminate).
      rewrite el_store_ok by exact LQ. cbn [rbind]. rewrite el_store_ok by (cbn [ix_storage]; rewrite upd_length; exact LP).
      cbn [rbind ix_storage ix_stack ix_heads].
      destruct (push_holds _ _ p (ii_free _ _ _ I)) as [PH _]. destruct (PH FL) as (sk & -> & HS & HM). cbn [rbind].
      eexists. split; [reflexivity|]. split; [|cbn [ix_storage]; rewrite !upd_length; reflexivity].
      assert (NQ : q <> p /\ ~ In q (slots (rev r)) /\ ~ In q (slots l2)).
      { rewrite EL, map_app in N1. cbn [map fst] in N1. rewrite <- app_assoc in N1. cbn [app] in N1. apply NoDup_remove_2 in N1.
        rewrite in_app_iff in N1. cbn [In] in N1. split; [intros ->; tauto|tauto]. }
      destruct NQ as (NQ1 & NQ2 & NQ3).
      assert (INQ : In q (slots l1)) by (rewrite EL, map_app; apply in_or_app; right; left; reflexivity).
      eapply ii_update; [exact I|exact E|reflexivity|cbn [ix_storage]; rewrite !upd_length; reflexivity|..]; cbn [ix_storage ix_stack ix_heads].
      * exists s. split; [exact Hs|]. rewrite EL, <- app_assoc. cbn [app]. apply cseg_app. exists (Some q). split.
        -- apply cseg_frame; [intros Q; apply N1p; left; rewrite EL, map_app; apply in_or_app; auto|]. apply cseg_frame; auto.
        -- cbn [cseg]. split; [reflexivity|]. exists nx. rewrite nth_error_upd. destruct (Nat.eqb_spec q p); [congruence|]. cbn [andb].
           rewrite nth_error_upd, Nat.eqb_refl. destruct (Nat.ltb_spec q (length (ix_storage x))); [|lia]. cbn [andb]. split; [reflexivity|].
           apply cseg_frame; [tauto|]. apply cseg_frame; auto.
      * auto.
      * intros r0 R1 R2. rewrite !map_app, !in_app_iff in *. cbn [map fst In] in *.
        rewrite !nth_error_upd. destruct (Nat.eqb_spec r0 p); [subst; tauto|]. destruct (Nat.eqb_spec r0 q); [subst; tauto|]. reflexivity.
      * intros r0 R1 R2. destruct R1 as [<-|R1]; [|exfalso; exact (N2 r0 R2 R1)]. rewrite nth_error_upd, Nat.eqb_refl.
        destruct (Nat.ltb_spec p (length (upd (ix_storage x) q (mkElem (Some d) nx)))); [reflexivity|]. rewrite upd_length in *. lia.
      * exact HS.
      * exact HM.
      * rewrite !map_app. cbn [map fst app]. apply Permutation_trans with (free ++ p :: slots l1 ++ slots l2).
        -- rewrite Permutation_middle. reflexivity.
        -- apply Permutation_app_head. apply Permutation_middle.
Qed.
End Simple.
