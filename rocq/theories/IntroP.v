(** Variable introduction *)
From Coq Require Import ZArith List Bool.
From Verif Require Import Base F64 TruthM TermM TermS TermP TermP2 NamesM EventM VariableM VariableS VariableP VariableP2 NormP.
Local Open Scope Z_scope.
#[local] Opaque Term_ExtractSubterm Term_OverrideSubterm.

Section Intro.
Variable nm : names.
Hypothesis NM : exists rest, nm = init_list ++ rest.

(** both loops are instances of this one; [sel] tells by which kind of variable an atom is replaced *)
Fixpoint gen_loop (original : term) (sel : Z -> option bool) (l : list nat) (s : vstate) : bool * term :=
  match l with
  | [] => (true, v_term s)
  | i :: l => match sel (at_ original i) with
              | None => gen_loop original sel l s
              | Some b => let '(ok, s) := put_var b i (at_ original i) s in
                          if ok then gen_loop original sel l s else (false, v_term s)
              end
  end.
Definition sel_imp (cl cr co : counts) (opseq : bool) (a : Z) : option bool :=
  let both := negb (cl a =? 0) && negb (cr a =? 0) in
  if (2 <=? cl a) || (2 <=? cr a) || both then
    if negb both && ((a =? SELF) && opseq && negb (co a =? 0) && (cl a =? co a)) then None else Some both
  else None.
Definition sel_conj (c : counts) (a : Z) : option bool := if 2 <=? c a then Some false else None.
Lemma intro_imp_gen t cl cr co o l : forall s, intro_imp_loop t cl cr co o l s = gen_loop t (sel_imp cl cr co o) l s.
Proof.
  induction l as [|i l IH]; intros s; cbn [intro_imp_loop gen_loop]; auto. unfold sel_imp at 1.
  set (both := negb (cl (at_ t i) =? 0) && negb (cr (at_ t i) =? 0)).
  destruct ((2 <=? cl (at_ t i)) || (2 <=? cr (at_ t i)) || both); [|apply IH].
  destruct (negb both && ((at_ t i =? SELF) && o && negb (co (at_ t i) =? 0) && (cl (at_ t i) =? co (at_ t i)))); [apply IH|].
  destruct (put_var both i (at_ t i) s) as [[] s']; auto.
Qed.
Lemma intro_conj_gen t c l : forall s, intro_conj_loop t c l s = gen_loop t (sel_conj c) l s.
Proof.
  induction l as [|i l IH]; intros s; cbn [intro_conj_loop gen_loop]; auto. unfold sel_conj at 1.
  destruct (2 <=? c (at_ t i)); [|apply IH]. destruct (put_var false i (at_ t i) s) as [[] s']; auto.
Qed.

Variable t : term.
Hypothesis T : is_term t.
Variable sel : Z -> option bool.
Variables dep0 indep0 : Z.
Hypothesis D0 : 1 <= dep0.
Hypothesis I0 : 1 <= indep0.
Definition var_of (b : bool) (i : Z) : Z := if b then indep_atom i else dep_atom i.
Definition low (b : bool) : Z := if b then indep0 else dep0.
Definition high (b : bool) (s : vstate) : Z := if b then v_indep s else v_dep s.
Definition rho (s : vstate) (a : Z) : Z :=
  match sel a with Some b => if v_ids s a <=? 9 then var_of b (v_ids s a) else a | None => a end.
Record iinv (n : nat) (s : vstate) : Prop := {
  II_term : is_term (v_term s);
  II_low : forall b, low b <= high b s;
  II_ids : forall a, v_ids s a <> 0 -> exists b, sel a = Some b /\ low b <= v_ids s a < high b s;
  II_inj : forall a a' b, sel a = Some b -> sel a' = Some b -> v_ids s a <> 0 -> v_ids s a = v_ids s a' -> a = a';
  II_all : forall i, (i < n)%nat -> (i < SIZE)%nat -> sel (at_ t i) <> None -> v_ids s (at_ t i) <> 0;
  II_at : forall i, (i < SIZE)%nat -> at_ (v_term s) i = if (i <? n)%nat then rho s (at_ t i) else at_ t i }.
Lemma low_pos b : 1 <= low b. Proof. destruct b; cbn; auto. Qed.
Lemma put_var_ok n s b : (n < SIZE)%nat -> iinv n s -> sel (at_ t n) = Some b ->
  exists s', put_var b n (at_ t n) s = (true, s') /\ iinv (S n) s'.
Proof.
  intros N [IT IL IID IINJ IALL IAT] SB. set (a := at_ t n) in *. unfold put_var.
  set (old := v_ids s a). set (id := if old =? 0 then (if b then v_indep s else v_dep s) else old).
  set (s1 := if old =? 0 then mkV (if b then v_dep s else v_dep s + 1) (if b then v_indep s + 1 else v_indep s) (fun x => if x =? a then id else v_ids s x) (v_term s) else s).
  assert (E1 : v_term s1 = v_term s) by (unfold s1; destruct (old =? 0); reflexivity).
  assert (EID : forall x, v_ids s1 x = if x =? a then id else v_ids s x).
  { intros x. unfold s1. destruct (Z.eqb_spec old 0) as [Z0|NZ]; [reflexivity|]. destruct (Z.eqb_spec x a) as [->|]; [|reflexivity].
    unfold id. destruct (Z.eqb_spec old 0); [contradiction|reflexivity]. }
  assert (HI : forall c, high c s1 = high c s + (if (old =? 0) && Bool.eqb b c then 1 else 0)).
  { intros c. unfold s1, high. destruct (old =? 0), b, c; cbn; lia. }
  assert (IDB : id <> 0 /\ low b <= id < high b s1).
  { rewrite HI. pose proof (low_pos b). unfold id. destruct (Z.eqb_spec old 0) as [Z0|NZ]; cbn [andb].
    - rewrite Bool.eqb_reflx. specialize (IL b). unfold high in *. destruct b; lia.
    - split; auto. destruct (IID a NZ) as (b' & S' & R). rewrite SB in S'. assert (b' = b) by congruence. subst b'. fold old in R. lia. }
  destruct IDB as (IDN & IDR).
  assert (INJ : forall x y c, sel x = Some c -> sel y = Some c -> v_ids s1 x <> 0 -> v_ids s1 x = v_ids s1 y -> x = y).
  { intros x y c SX SY NX EQ. rewrite !EID in *. destruct (Z.eqb_spec x a) as [->|NXA], (Z.eqb_spec y a) as [->|NYA]; auto.
    - rewrite SB in SX. assert (c = b) by congruence. subst c. unfold id in EQ, NX. destruct (Z.eqb_spec old 0) as [Z0|NZ].
      + destruct (IID y) as (b' & S' & R); [congruence|]. assert (b' = b) by congruence. subst b'. unfold high in R. destruct b; lia.
      + apply (IINJ a y b); auto.
    - rewrite SB in SY. assert (c = b) by congruence. subst c. unfold id in EQ. destruct (Z.eqb_spec old 0) as [Z0|NZ].
      + destruct (IID x) as (b' & S' & R); [congruence|]. assert (b' = b) by congruence. subst b'. unfold high in R. destruct b; lia.
      + apply (IINJ x a b); auto.
    - apply (IINJ x y c); auto. }
  assert (RHO : forall x, x <> a -> rho s1 x = rho s x).
  { intros x NX. unfold rho. rewrite EID. destruct (Z.eqb_spec x a); [contradiction|reflexivity]. }
  assert (RA : rho s1 a = if id <=? 9 then var_of b id else a).
  { unfold rho. rewrite SB, EID, Z.eqb_refl. reflexivity. }
  assert (OLDA : forall i, (i < n)%nat -> (i < SIZE)%nat -> at_ t i = a -> rho s1 a = rho s a).
  { intros i Hi HS E. assert (NZ : old <> 0). { unfold old. rewrite <- E. apply (IALL i Hi HS). rewrite E. congruence. }
    unfold rho. rewrite EID, Z.eqb_refl. unfold id. destruct (Z.eqb_spec old 0); [contradiction|]. reflexivity. }
  set (r := if id <=? 9 then upd (v_term s1) n (var_of b id) else v_term s1).
  exists (mkV (v_dep s1) (v_indep s1) (v_ids s1) r). split.
  - unfold r. destruct (id <=? 9).
    + change (if b then indep_atom id else dep_atom id) with (var_of b id). rewrite override_atomic by (rewrite ?E1; auto). reflexivity.
    + destruct s1; reflexivity.
  - constructor; cbn [v_term v_ids].
    + unfold r. destruct (id <=? 9); [apply is_term_upd|]; rewrite E1; exact IT.
    + intros c. unfold high. cbn [v_indep v_dep]. specialize (IL c). specialize (HI c). unfold high in HI, IL. rewrite HI. destruct (_ && _); lia.
    + intros x NX. assert (H1 : forall c, high c {| v_dep := v_dep s1; v_indep := v_indep s1; v_ids := v_ids s1; v_term := r |} = high c s1) by (intros []; reflexivity).
      rewrite EID in NX. destruct (Z.eqb_spec x a) as [EX|NXA].
      * exists b. rewrite EX. split; auto. rewrite EID, Z.eqb_refl, H1. exact IDR.
      * destruct (IID x NX) as (c & SC & R). exists c. split; auto. rewrite EID, H1, HI. destruct (Z.eqb_spec x a); [contradiction|]. destruct (_ && _); lia.
    + exact INJ.
    + intros i Hi HS SN. rewrite EID. destruct (Z.eqb_spec (at_ t i) a) as [|NA]; [exact IDN|]. apply IALL; auto.
      destruct (Nat.eq_dec i n) as [->|]; [exfalso; apply NA; reflexivity|lia].
    + intros i HS. unfold rho. cbn [v_ids]. change (match sel (at_ t i) with Some c => if v_ids s1 (at_ t i) <=? 9 then var_of c (v_ids s1 (at_ t i)) else at_ t i | None => at_ t i end) with (rho s1 (at_ t i)).
      assert (R : at_ r i = if (i =? n)%nat then rho s1 a else at_ (v_term s) i).
      { rewrite RA. unfold r. destruct (id <=? 9).
        - rewrite E1, at_upd by auto. reflexivity.
        - rewrite E1. destruct (Nat.eqb_spec i n) as [->|]; auto. rewrite (IAT n N). destruct (Nat.ltb_spec n n); [lia|reflexivity]. }
      rewrite R. destruct (Nat.eqb_spec i n) as [->|NE]; [destruct (Nat.ltb_spec n (S n)); [reflexivity|lia]|].
      rewrite (IAT i HS). destruct (Nat.ltb_spec i n), (Nat.ltb_spec i (S n)); try lia; auto.
      destruct (Z.eq_dec (at_ t i) a) as [E|NA]; [rewrite E; symmetry; apply (OLDA i); auto|]. symmetry. apply RHO. exact NA.
Qed.
Lemma gen_loop_ok d : forall n s, (n + d = SIZE)%nat -> iinv n s ->
  exists s', gen_loop t sel (seq n d) s = (true, v_term s') /\ iinv SIZE s'.
Proof.
  induction d as [|d IH]; intros n s H I; cbn [seq gen_loop].
  - exists s. split; auto. replace SIZE with n by lia. exact I.
  - assert (N : (n < SIZE)%nat) by lia. destruct (sel (at_ t n)) as [b|] eqn:SE.
    + destruct (put_var_ok n s b N I SE) as (s' & E & I'). rewrite E. apply IH; auto. lia.
    + apply IH; [lia|]. destruct I. constructor; auto.
      * intros i Hi HS SN. apply II_all0; auto. destruct (Nat.eq_dec i n) as [->|]; [congruence|lia].
      * intros i HS. rewrite II_at0 by exact HS. destruct (Nat.ltb_spec i n), (Nat.ltb_spec i (S n)); auto; try lia.
        replace i with n by lia. unfold rho. rewrite SE. reflexivity.
Qed.
(** variables with the numbers given out do not occur in the term *)
Hypothesis FRESH : forall b i, low b <= i <= 9 -> ~ In (var_of b i) t.
Lemma gen_ok : exists ro, gen_loop t sel (seq 0 SIZE) (mkV dep0 indep0 (fun _ => 0) t) = (true, map ro t) /\
  (forall a, In a t -> ro a = a \/ exists b i, sel a = Some b /\ low b <= i <= 9 /\ ro a = var_of b i /\ ~ In (ro a) t) /\
  (forall a, sel a = None -> ro a = a) /\
  (forall a a', In a t -> In a' t -> ro a = ro a' -> a = a').
Proof.
  assert (IN : iinv 0 (mkV dep0 indep0 (fun _ => 0) t)).
  { constructor; cbn [v_term v_ids]; auto; try congruence.
    - intros []; cbn; lia.
    - intros i H. lia. }
  destruct (gen_loop_ok SIZE 0 _ eq_refl IN) as (s & E & I). exists (rho s).
  assert (M : map (rho s) t = v_term s).
  { apply term_ext; [unfold is_term; rewrite map_length; exact T|apply (II_term _ _ I)|]. intros i Hi.
    rewrite (II_at _ _ I i Hi). destruct (Nat.ltb_spec i SIZE); [|lia]. unfold at_. rewrite (nth_indep _ 0 (rho s 0)) by (rewrite map_length, T; exact Hi). apply map_nth. }
  assert (ALT : forall a, In a t -> rho s a = a \/ exists b i, sel a = Some b /\ low b <= i <= 9 /\ rho s a = var_of b i /\ v_ids s a = i /\ ~ In (rho s a) t).
  { intros a A. unfold rho. destruct (sel a) as [b|] eqn:S; [|auto]. destruct (Z.leb_spec (v_ids s a) 9) as [L9|]; [|auto]. right. exists b, (v_ids s a).
    assert (R : low b <= v_ids s a <= 9).
    { split; auto. apply (In_nth _ _ 0) in A as (i & L & A). rewrite T in L.
      destruct (II_ids _ _ I a) as (b' & S' & R); [|assert (b' = b) by congruence; subst b'; lia].
      rewrite <- A. apply (II_all _ _ I i L L). unfold at_. rewrite A. congruence. }
    repeat split; auto; apply R. }
  split; [rewrite M; exact E|]. split; [|split].
  - intros a A. destruct (ALT a A) as [X|(b & i & X1 & X2 & X3 & _ & X4)]; [auto|]. right. exists b, i. auto.
  - intros a S. unfold rho. rewrite S. reflexivity.
  - intros a a' A A' EQ. destruct (ALT a A) as [X|(b & i & X1 & X2 & X3 & X4 & X5)], (ALT a' A') as [Y|(b' & i' & Y1 & Y2 & Y3 & Y4 & Y5)].
    + congruence.
    + exfalso. apply Y5. rewrite <- EQ, X. exact A.
    + exfalso. apply X5. rewrite EQ, Y. exact A'.
    + rewrite X3, Y3 in EQ. assert (b = b' /\ i = i') as [<- <-] by (unfold var_of, indep_atom, dep_atom in EQ; destruct b, b'; split; try reflexivity; lia).
      apply (II_inj _ _ I a a' b); auto; [|congruence]. pose proof (low_pos b). lia.
Qed.
End Intro.
