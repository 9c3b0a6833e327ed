(** Proofs about applying rules: matching of premises, construction of conclusions. *)
From Coq Require Import ZArith List Bool Lia.
From Verif Require Import Base TermM TermS TermP TermP2 NamesM AtomsM VariableP VariableP2 RulesM RulesS.
Local Open Scope Z_scope.
Import ListNotations.
#[local] Opaque Term_ExtractSubterm Term_OverrideSubterm SIZE tree_at copulaEquals rule_var connective.

Lemma sub_upd s a b x : length s = 40%nat -> 0 <= a < 40 -> 0 <= b -> sub (upd s (Z.to_nat a) x) b = if b =? a then x else sub s b.
Proof.
  intros L A B. unfold sub. destruct (Z.eqb_spec b a) as [->|N].
  - rewrite nth_upd_same by lia. reflexivity.
  - rewrite nth_upd_diff by lia. reflexivity.
Qed.
Lemma rule_var_0 : rule_var 0 = false.
Proof. vm_compute. reflexivity. Qed.
Lemma under_cmp i n : (i < n)%nat -> forall q p, idx i q = idx n p -> under i n.
Proof.
  intros L q p. revert q. induction p as [|b p IH] using rev_ind; intros q; cbn [idx]; [intros <-; exists q; reflexivity|].
  rewrite idx_app. cbn [idx]. destruct (snoc_cases q) as [->|(q' & c & ->)].
  - cbn [idx]. intros ->. pose proof (child_gt (idx n p) b). pose proof (idx_ge n p). lia.
  - rewrite idx_app. cbn [idx]. intros H. apply child_inj in H as [H _]. eapply IH. eauto.
Qed.

(** a pattern: non-variables that are no connective are leaves, variables are leaves and have room in the array *)
Record pattern (p : term) : Prop := {
  p_closed : closed p;
  p_wf : well_formed (tree_at p 0);
  p_leaf : forall i, at_ p i <> 0 -> rule_var (at_ p i) = true -> connective (at_ p i) = false;
  p_cap : forall i, rule_var (at_ p i) = true -> 0 <= at_ p i < 40 }.
Lemma tree_ne t i : is_term t -> (tree_at t i <> E <-> at_ t i <> 0).
Proof. intros H. rewrite (tree_at_unfold t i H). destruct (Z.eqb_spec (at_ t i) 0); split; intros; try congruence. Qed.
Lemma wf_node t i : closed t -> at_ t i <> 0 -> well_formed (tree_at t i) ->
  if connective (at_ t i) then (forall b, at_ t (child i b) <> 0) /\ (forall b, well_formed (tree_at t (child i b)))
  else forall b, at_ t (child i b) = 0.
Proof.
  intros C N. rewrite (tree_at_unfold t i) by apply C. destruct (Z.eqb_spec (at_ t i) 0); [congruence|]. cbn [well_formed].
  destruct (connective (at_ t i)).
  - intros (A & B & D & F). split; intros []; auto; apply tree_ne; auto; apply C.
  - intros (A & B) []; [apply Z.eq_dne|apply Z.eq_dne]; rewrite <- tree_ne by apply C; congruence.
Qed.
Lemma wf_at t : closed t -> well_formed (tree_at t 0) -> forall j, at_ t j <> 0 -> well_formed (tree_at t j).
Proof.
  intros C W. induction j as [j IH] using (well_founded_induction lt_wf). intros N. destruct (Nat.eq_dec j 0) as [->|J]; auto.
  destruct (child_of j ltac:(lia)) as (i & b & ->). assert (Ni : at_ t i <> 0) by (eapply (proj2 C); eauto).
  pose proof (wf_node t i C Ni (IH i (child_gt i b) Ni)) as X. destruct (connective (at_ t i)); [apply X|]. rewrite X in N. congruence.
Qed.
(** connective slots have both children, others none *)
Lemma wf_conn t : closed t -> well_formed (tree_at t 0) -> forall i, at_ t i <> 0 ->
  if connective (at_ t i) then forall b, at_ t (child i b) <> 0 else forall b, at_ t (child i b) = 0.
Proof. intros C W i N. pose proof (wf_node t i C N (wf_at t C W i N)) as X. destruct (connective _); [apply X|auto]. Qed.

(** slot by slot description of an instance *)
Definition fitting (sg : Z -> tree) (p t : term) : Prop :=
  forall i, at_ p i <> 0 -> if rule_var (at_ p i) then tree_at t i = sg (at_ p i) else at_ t i = at_ p i.
Lemma instance_slots sg p t : pattern p -> is_term t -> tree_at t 0 = instantiate sg (tree_at p 0) ->
  forall j, at_ p j <> 0 -> tree_at t j = instantiate sg (tree_at p j).
Proof.
  intros P Ht H. pose proof (p_closed p P) as C. induction j as [j IH] using (well_founded_induction lt_wf). intros N. destruct (Nat.eq_dec j 0) as [->|J]; auto.
  destruct (child_of j ltac:(lia)) as (i & b & ->). assert (Ni : at_ p i <> 0) by (eapply (proj2 C); eauto). specialize (IH i (child_gt i b) Ni).
  pose proof (wf_conn p C (p_wf p P) i Ni) as W. pose proof (p_leaf p P i Ni) as L.
  rewrite (tree_at_unfold p i) in IH by apply C. destruct (Z.eqb_spec (at_ p i) 0); [congruence|]. cbn [instantiate] in IH.
  destruct (rule_var (at_ p i)).
  - rewrite (L eq_refl) in W. rewrite W in N. congruence.
  - destruct (tree_children _ _ _ _ Ht _ IH) as (A & B & _). destruct b; auto.
Qed.
Lemma instance_fitting sg p t : pattern p -> is_term t -> tree_at t 0 = instantiate sg (tree_at p 0) -> fitting sg p t.
Proof.
  intros P Ht H i N. pose proof (instance_slots sg p t P Ht H i N) as X. rewrite (tree_at_unfold p i) in X by apply (p_closed p P).
  destruct (Z.eqb_spec (at_ p i) 0); [congruence|]. cbn [instantiate] in X. destruct (rule_var (at_ p i)); auto.
  destruct (tree_children _ _ _ _ Ht _ X) as (_ & _ & B & _). exact B.
Qed.
Lemma fitting_instance sg p t : pattern p -> is_term t -> fitting sg p t ->
  (forall i, at_ p i <> 0 -> rule_var (at_ p i) = false -> connective (at_ p i) = false -> forall b, at_ t (child i b) = 0) ->
  at_ p 0 <> 0 -> tree_at t 0 = instantiate sg (tree_at p 0).
Proof.
  intros P Ht F L. pose proof (p_closed p P) as C.
  enough (G : forall k i, (SIZE - i <= k)%nat -> at_ p i <> 0 -> tree_at t i = instantiate sg (tree_at p i)) by (intros N; apply (G SIZE); auto; lia).
  induction k as [|k IH]; intros i K N; [pose proof (at_lt p i (proj1 C) N); lia|]. pose proof (at_lt p i (proj1 C) N) as I1.
  specialize (F i N). specialize (L i N). pose proof (wf_conn p C (p_wf p P) i N) as W.
  rewrite (tree_at_unfold p i) by apply C. destruct (Z.eqb_spec (at_ p i) 0); [congruence|]. cbn [instantiate].
  destruct (rule_var (at_ p i)); [exact F|]. rewrite (tree_at_unfold t i Ht), F. destruct (Z.eqb_spec (at_ p i) 0); [congruence|].
  destruct (connective (at_ p i)).
  - f_equal; apply IH; auto; unfold child; lia.
  - specialize (L eq_refl eq_refl). f_equal.
    + rewrite !tree_E; auto. apply C.
    + rewrite !tree_E; auto. apply C.
Qed.

(** ** premises *)
Section Names.
Variable nm : names.
Definition good (s : subst) : Prop := length s = 40%nat /\ forall a, closed (sub s a).
(** slot i of the premise pattern is met *)
Definition met (t : term) (s : subst) (i : nat) (a : Z) : Prop :=
  if rule_var a then at_ t i <> 0 -> sub s a = Term_ExtractSubterm t i /\ copulaEquals nm (at_ t i) SET_TERMINATOR = false else at_ t i = a.
Definition extends (s s' : subst) : Prop := forall a, 0 <= a -> at_ (sub s a) 0 <> 0 -> sub s' a = sub s a.
Lemma ext_at0 t i : closed t -> (i < SIZE)%nat -> at_ (Term_ExtractSubterm t i) 0 = at_ t i.
Proof. intros C I1. apply (extract_at t i [] C I1). Qed.
Lemma good_upd s a x : good s -> 0 <= a < 40 -> closed x -> good (upd s (Z.to_nat a) x).
Proof.
  intros (L & C) A X. split; [rewrite upd_length; auto|]. intros b. unfold sub. destruct (Nat.eq_dec (Z.to_nat b) (Z.to_nat a)) as [->|N].
  - rewrite nth_upd_same by lia. auto.
  - rewrite nth_upd_diff by lia. apply (C b).
Qed.
Lemma unify1_sound p t s i s' : pattern p -> closed t -> good s -> (i < SIZE)%nat -> unify1 nm t s i (at_ p i) = Some s' ->
  good s' /\ extends s s' /\ (at_ p i <> 0 -> met t s' i (at_ p i)).
Proof.
  intros P C G I1. unfold unify1, met. destruct (Z.eqb_spec (at_ p i) 0) as [Z0|N]; [intros [= <-]; split; [auto|split; [intros a _ _; auto|congruence]]|].
  pose proof (p_cap p P i) as CAP. destruct (rule_var (at_ p i)).
  - specialize (CAP eq_refl). cbv zeta. rewrite (ext_at0 t i C I1). destruct (_ || _) eqn:O; [discriminate|]. intros [= <-]. apply orb_false_iff in O as [O1 O2].
    split; [apply good_upd; auto; apply closed_extract; auto|]. split.
    + intros b B NB. rewrite sub_upd by (try apply G; lia). destruct (Z.eqb_spec b (at_ p i)) as [->|]; auto.
      destruct (Z.eqb_spec (at_ (sub s (at_ p i)) 0) 0); [congruence|]. cbn [negb andb] in O1. apply negb_false_iff in O1. symmetry. apply term_eqb_spec. exact O1.
    + intros _ _. rewrite sub_upd by (try apply G; lia). rewrite Z.eqb_refl. auto.
  - destruct (Z.eqb_spec (at_ t i) (at_ p i)); [|discriminate]. intros [= <-]. split; [auto|split; [intros a _ _; auto|auto]].
Qed.
Lemma extends_trans a b c : extends a b -> extends b c -> extends a c.
Proof. intros A B x X N. rewrite B; [apply A; auto|auto|]. rewrite A; auto. Qed.
Lemma unify_loop_sound p t l : pattern p -> closed t -> (forall i, In i l -> (i < SIZE)%nat) -> forall s s', good s -> unify_loop nm p t l s = Some s' ->
  good s' /\ extends s s' /\ (forall i, In i l -> at_ p i <> 0 -> met t s' i (at_ p i)).
Proof.
  intros P C. induction l as [|i l IH]; intros L s s' G; cbn [unify_loop].
  - intros [= <-]. split; [auto|split; [intros a _ _; auto|intros i []]].
  - destruct (unify1 nm t s i (at_ p i)) as [s1|] eqn:U; [|discriminate]. intros H.
    destruct (unify1_sound p t s i s1 P C G (L i (or_introl eq_refl)) U) as (G1 & E1 & M1).
    destruct (IH (fun j J => L j (or_intror J)) _ _ G1 H) as (G2 & E2 & M2). split; [auto|]. split; [eapply extends_trans; eauto|].
    intros j [<-|J] N; [|auto]. specialize (M1 N). unfold met in *. pose proof (p_cap p P i) as CAP. destruct (rule_var (at_ p i)); [|auto]. specialize (CAP eq_refl).
    intros T. destruct (M1 T) as [M3 M4]. split; [|auto]. rewrite E2; [auto|lia|]. rewrite M3, ext_at0; auto. apply L. left. auto.
Qed.
(** bindings agree with an assignment *)
Definition agrees (sg : Z -> tree) (s : subst) : Prop := forall a, 0 <= a -> at_ (sub s a) 0 <> 0 -> tree_at (sub s a) 0 = sg a.
Lemma unify1_complete sg p t s i : pattern p -> closed t -> good s -> (i < SIZE)%nat -> agrees sg s -> fitting sg p t ->
  (at_ p i <> 0 -> rule_var (at_ p i) = true -> copulaEquals nm (at_ t i) SET_TERMINATOR = false) ->
  exists s', unify1 nm t s i (at_ p i) = Some s' /\ agrees sg s'.
Proof.
  intros P C G I1 A F T. unfold unify1. destruct (Z.eqb_spec (at_ p i) 0) as [Z0|N]; [eauto|]. specialize (F i N). specialize (T N).
  pose proof (p_cap p P i) as CAP. destruct (rule_var (at_ p i)).
  - specialize (CAP eq_refl). cbv zeta. rewrite (ext_at0 t i C I1), (T eq_refl), orb_false_r.
    assert (X : (negb (at_ (sub s (at_ p i)) 0 =? 0) && negb (term_eqb (sub s (at_ p i)) (Term_ExtractSubterm t i))) = false).
    { destruct (Z.eqb_spec (at_ (sub s (at_ p i)) 0) 0) as [|NZ]; [auto|]. cbn [negb andb]. apply negb_false_iff, term_eqb_spec.
      apply closed_same_tree; [apply G|apply closed_extract; auto|]. rewrite height_extract by auto. rewrite A; auto. lia. }
    rewrite X. eexists. split; [reflexivity|]. intros b B NB. rewrite sub_upd in * by (try apply G; lia). destruct (Z.eqb_spec b (at_ p i)) as [->|]; auto.
    rewrite height_extract; auto.
  - rewrite F, Z.eqb_refl. eauto.
Qed.
Lemma unify_loop_complete sg p t l : pattern p -> closed t -> (forall i, In i l -> (i < SIZE)%nat) -> fitting sg p t ->
  (forall i, at_ p i <> 0 -> rule_var (at_ p i) = true -> copulaEquals nm (at_ t i) SET_TERMINATOR = false) ->
  forall s, good s -> agrees sg s -> exists s', unify_loop nm p t l s = Some s' /\ agrees sg s'.
Proof.
  intros P C L F T. induction l as [|i l IH]; intros s G A; cbn [unify_loop]; [eauto|].
  destruct (unify1_complete sg p t s i P C G (L i (or_introl eq_refl)) A F (T i)) as (s1 & U & A1). rewrite U.
  destruct (unify1_sound p t s i s1 P C G (L i (or_introl eq_refl)) U) as (G1 & _). apply IH; auto. intros j J. apply L. right. auto.
Qed.
(** whole premises *)
Definition assigned (s : subst) : Z -> tree := fun a => tree_at (sub s a) 0.
Lemma live_slots p t : pattern p -> closed t -> at_ t 0 <> 0 -> well_formed (tree_at t 0) ->
  (forall i, at_ p i <> 0 -> rule_var (at_ p i) = false -> at_ t i = at_ p i) -> forall j, at_ p j <> 0 -> at_ t j <> 0.
Proof.
  intros P C T0 W M. pose proof (p_closed p P) as CP. induction j as [j IH] using (well_founded_induction lt_wf). intros N. destruct (Nat.eq_dec j 0) as [->|J]; auto.
  destruct (child_of j ltac:(lia)) as (i & b & ->). assert (Ni : at_ p i <> 0) by (eapply (proj2 CP); eauto). specialize (IH i (child_gt i b) Ni).
  pose proof (wf_conn p CP (p_wf p P) i Ni) as W1. pose proof (p_leaf p P i Ni) as L. pose proof (wf_conn t C W i IH) as W2.
  destruct (rule_var (at_ p i)) eqn:V; [rewrite (L eq_refl) in W1; rewrite W1 in N; congruence|]. rewrite (M i Ni V) in W2.
  destruct (connective (at_ p i)); [auto|]. rewrite W1 in N. congruence.
Qed.
Lemma unify_premise_sound p t s s' : pattern p -> at_ p 0 <> 0 -> statement t -> good s -> unify_premise nm p t s = Some s' ->
  good s' /\ extends s s' /\ tree_at t 0 = instantiate (assigned s') (tree_at p 0) /\
  (forall i, rule_var (at_ p i) = true -> at_ (sub s' (at_ p i)) 0 <> 0 /\ copulaEquals nm (at_ (sub s' (at_ p i)) 0) SET_TERMINATOR = false).
Proof.
  intros P P0 (C & T0 & W) G H. apply unify_loop_sound in H as (G' & X & M); auto; [|intros i I1; apply in_seq in I1; lia].
  split; [auto|]. split; [auto|].
  assert (M' : forall i, at_ p i <> 0 -> met t s' i (at_ p i)).
  { intros i N. apply M; auto. apply in_seq. pose proof (at_lt p i (proj1 (p_closed p P)) N). lia. }
  assert (LV : forall j, at_ p j <> 0 -> at_ t j <> 0).
  { apply live_slots; auto. intros i N V. specialize (M' i N). unfold met in M'. rewrite V in M'. auto. }
  split.
  - apply fitting_instance; auto; [apply C| |].
    + intros i N. specialize (M' i N). unfold met in M'. destruct (rule_var (at_ p i)); auto. destruct (M' (LV i N)) as [M1 _]. unfold assigned. rewrite M1, height_extract; auto.
    + intros i N V CN b. specialize (M' i N). unfold met in M'. rewrite V in M'. pose proof (wf_conn t C W i (LV i N)) as W2. rewrite M', CN in W2. auto.
  - intros i V. assert (N : at_ p i <> 0) by (intros Z0; rewrite Z0, rule_var_0 in V; discriminate). specialize (M' i N). unfold met in M'. rewrite V in M'.
    destruct (M' (LV i N)) as [M1 M2]. pose proof (at_lt p i (proj1 (p_closed p P)) N). rewrite M1, ext_at0; auto.
Qed.
Lemma unify_premise_complete sg p t s : pattern p -> statement t -> good s -> agrees sg s -> tree_at t 0 = instantiate sg (tree_at p 0) ->
  (forall i, rule_var (at_ p i) = true -> match sg (at_ p i) with E => False | N b _ _ => copulaEquals nm b SET_TERMINATOR = false end) ->
  exists s', unify_premise nm p t s = Some s' /\ agrees sg s'.
Proof.
  intros P (C & T0 & W) G A H AD. pose proof (instance_fitting sg p t P (proj1 C) H) as F. apply unify_loop_complete; auto.
  - intros i I1. apply in_seq in I1. lia.
  - intros i N V. specialize (AD i V). specialize (F i N). rewrite V in F. rewrite <- F in AD. rewrite (at_tree t i (proj1 C)). destruct (tree_at t i); [contradiction|auto].
Qed.
End Names.

(** ** conclusions *)
Section Conclude.
Variables (c : term) (s : subst).
Hypothesis P : pattern c.
Hypothesis BD : forall i, rule_var (at_ c i) = true -> closed (sub s (at_ c i)) /\ at_ (sub s (at_ c i)) 0 <> 0.
Lemma var_leaf i b : rule_var (at_ c i) = true -> at_ c (child i b) = 0.
Proof.
  intros V. assert (N : at_ c i <> 0) by (intros Z0; rewrite Z0, rule_var_0 in V; discriminate).
  pose proof (wf_conn c (p_closed c P) (p_wf c P) i N) as W. rewrite (p_leaf c P i N V) in W. auto.
Qed.
Lemma not_under_var i n : rule_var (at_ c i) = true -> at_ c n <> 0 -> under i n -> n = i.
Proof.
  intros V N ([|b p] & ->); auto. exfalso. cbn [idx] in N. destruct (closed_live c (p_closed c P) _ _ N) as [_ X]. apply X. apply var_leaf. auto.
Qed.
Definition Inv (n : nat) (r : term) : Prop :=
  is_term r /\ (forall i, (i < n)%nat -> rule_var (at_ c i) = true -> forall q, at_ r (idx i q) = at_ (sub s (at_ c i)) (idx 0 q)) /\
  (forall k, (forall i, (i < n)%nat -> rule_var (at_ c i) = true -> ~ under i k) -> at_ r k = if (k <? n)%nat then at_ c k else 0).
Lemma Inv_step n r : (n < SIZE)%nat -> Inv n r ->
  match conclude1 s r n (at_ c n) with
  | Some r' => Inv (S n) r' /\ (rule_var (at_ c n) = true -> fits (tree_at (sub s (at_ c n)) 0) n)
  | None => rule_var (at_ c n) = true /\ ~ fits (tree_at (sub s (at_ c n)) 0) n
  end.
Proof.
  intros Hn (R & V & F). unfold conclude1.
  assert (BELOW : at_ c n <> 0 -> forall p, at_ r (idx n p) = 0).
  { intros N p. rewrite F; [destruct (Nat.ltb_spec (idx n p) n); auto; pose proof (idx_ge n p); lia|]. intros i I1 VI (q & X).
    symmetry in X. pose proof (not_under_var i n VI N (under_cmp i n I1 q p X)). lia. }
  destruct (Z.eqb_spec (at_ c n) 0) as [Z0|N].
  - split; [|rewrite Z0, rule_var_0; discriminate]. split; [auto|]. split.
    + intros i I1 VI. apply V; auto. destruct (Nat.eq_dec i n) as [->|]; [rewrite Z0, rule_var_0 in VI; discriminate|lia].
    + intros k K. rewrite F by (intros i I1; apply K; lia). destruct (Nat.ltb_spec k n), (Nat.ltb_spec k (S n)); auto; try lia. replace k with n by lia. auto.
  - destruct (rule_var (at_ c n)) eqn:VN.
    + destruct (BD n VN) as [B1 B2]. pose proof (override_positions r n (sub s (at_ c n)) R B1 B2 Hn (fun p _ => BELOW N p)) as O.
      destruct (Term_OverrideSubterm r n (sub s (at_ c n))) as [ok r']. destruct O as (O1 & O2 & O3 & O4). destruct ok.
      * split; [|intros _; apply O2; auto]. specialize (O4 eq_refl). split; [auto|]. split.
        -- intros i I1 VI q. destruct (Nat.eq_dec i n) as [->|D]; [auto|]. rewrite O3; [apply V; auto; lia|]. intros (p & X).
           pose proof (not_under_var i n VI N (under_cmp i n ltac:(lia) q p X)). lia.
        -- intros k K. assert (NK : ~ under n k) by (apply K; auto). rewrite O3 by auto. rewrite F by (intros i I1; apply K; lia).
           destruct (Nat.ltb_spec k n), (Nat.ltb_spec k (S n)); auto; try lia. exfalso. apply NK. exists []. cbn. lia.
      * split; [auto|]. intros X. apply O2 in X. discriminate.
    + split; [|discriminate]. split; [apply is_term_upd; auto|]. split.
      * intros i I1 VI q. rewrite at_upd by auto. destruct (Nat.eq_dec i n) as [->|D]; [congruence|]. destruct (Nat.eqb_spec (idx i q) n) as [X|].
        -- pose proof (not_under_var i n VI N ltac:(exists q; auto)). lia.
        -- apply V; auto. lia.
      * intros k K. rewrite at_upd by auto. destruct (Nat.eqb_spec k n) as [->|D].
        -- destruct (Nat.ltb_spec n (S n)); auto; lia.
        -- rewrite F by (intros i I1; apply K; lia). destruct (Nat.ltb_spec k n), (Nat.ltb_spec k (S n)); auto; lia.
Qed.
Lemma Inv_loop k : forall n r, (n + k = SIZE)%nat -> Inv n r ->
  match conclude_loop c s (seq n k) r with
  | Some r' => Inv SIZE r'
  | None => exists i, rule_var (at_ c i) = true /\ ~ fits (tree_at (sub s (at_ c i)) 0) i
  end.
Proof.
  induction k as [|k IH]; intros n r L H; cbn [seq conclude_loop]; [replace SIZE with n by lia; auto|].
  pose proof (Inv_step n r ltac:(lia) H) as ST. destruct (conclude1 s r n (at_ c n)) as [r'|]; [|eauto]. apply IH; [lia|]. apply ST.
Qed.
Lemma Inv_end r : at_ c 0 <> 0 -> Inv SIZE r -> closed r /\ tree_at r 0 = instantiate (assigned s) (tree_at c 0).
Proof.
  intros C0 (R & V & F). pose proof (p_closed c P) as C.
  assert (LT : forall i, rule_var (at_ c i) = true -> (i < SIZE)%nat).
  { intros i VI. apply (at_lt c i (proj1 C)). intros Z0. rewrite Z0, rule_var_0 in VI. discriminate. }
  assert (NV : forall k, at_ c k <> 0 -> rule_var (at_ c k) = false -> forall i, (i < SIZE)%nat -> rule_var (at_ c i) = true -> ~ under i k).
  { intros k N NR i _ VI U. rewrite (not_under_var i k VI N U) in NR. congruence. }
  assert (AT : forall k, at_ c k <> 0 -> rule_var (at_ c k) = false -> at_ r k = at_ c k).
  { intros k N NR. rewrite F by (apply NV; auto). destruct (Nat.ltb_spec k SIZE); auto. symmetry. apply at_out; [apply C|auto]. }
  assert (DEC : forall k, (exists i, rule_var (at_ c i) = true /\ under i k) \/ (forall i, (i < SIZE)%nat -> rule_var (at_ c i) = true -> ~ under i k)).
  { intros k. assert (G : forall n, (exists i, rule_var (at_ c i) = true /\ under i k) \/ (forall i, (i < n)%nat -> rule_var (at_ c i) = true -> ~ under i k)).
    { induction n as [|n [IH|IH]]; [right; intros; lia|auto|]. destruct (rule_var (at_ c n)) eqn:VN.
      - destruct (under_dec n k); [left; eauto|]. right. intros i I1 VI. destruct (Nat.eq_dec i n) as [->|]; auto. apply IH; auto. lia.
      - right. intros i I1 VI. destruct (Nat.eq_dec i n) as [->|]; [congruence|]. apply IH; auto. lia. }
    apply G. }
  assert (UC : forall i k b, under i k -> under i (child k b)) by (intros i k b (p & ->); exists (p ++ [b]); rewrite idx_app; reflexivity).
  split.
  - split; [auto|]. intros k b N. destruct (DEC k) as [(i & VI & q & ->)|D].
    + rewrite (V i (LT i VI) VI). rewrite <- (idx_child (idx i q) b []) in N || idtac. change (child (idx i q) b) with (idx (idx i q) [b]) in N. rewrite <- idx_app in N.
      rewrite (V i (LT i VI) VI), idx_app in N. cbn [idx] in N. eapply (proj2 (proj1 (BD i VI))); eauto.
    + destruct (DEC (child k b)) as [(i & VI & q & X)|D'].
      * destruct (snoc_cases q) as [->|(q' & x & ->)].
        -- cbn [idx] in X. assert (at_ c (child k b) <> 0) by (rewrite X; intros Z0; rewrite Z0, rule_var_0 in VI; discriminate).
           assert (at_ c k <> 0) by (eapply (proj2 C); eauto). rewrite F by auto. destruct (Nat.ltb_spec k SIZE); auto. pose proof (at_lt c k (proj1 C)). lia.
        -- rewrite idx_app in X. cbn [idx] in X. apply child_inj in X as [X _]. exfalso. apply (D i (LT i VI) VI). exists q'. auto.
      * rewrite F in N by auto. destruct (Nat.ltb_spec (child k b) SIZE); [|congruence]. assert (at_ c k <> 0) by (eapply (proj2 C); eauto). rewrite F by auto.
        destruct (Nat.ltb_spec k SIZE); auto. pose proof (child_gt k b). lia.
  - apply fitting_instance; auto.
    + intros i N. destruct (rule_var (at_ c i)) eqn:VI; [|auto]. unfold assigned. apply tree_at_same.
      * apply (V i (LT i VI) VI []).
      * intros p b _. apply (V i (LT i VI) VI).
    + intros i N NR CN b. pose proof (wf_conn c C (p_wf c P) i N) as W. rewrite CN in W. rewrite F.
      * rewrite W. destruct (_ <? _)%nat; auto.
      * intros j _ VJ (q & X). destruct (snoc_cases q) as [->|(q' & x & ->)].
        -- cbn [idx] in X. rewrite <- X, W, rule_var_0 in VJ. discriminate.
        -- rewrite idx_app in X. cbn [idx] in X. apply child_inj in X as [X _]. apply (NV i N NR j (LT j VJ) VJ). exists q'. auto.
Qed.
Lemma fits_self t i : is_term t -> fits (tree_at t i) i.
Proof.
  intros Ht. enough (G : forall k i, (SIZE - i <= k)%nat -> fits (tree_at t i) i) by (apply (G SIZE); lia).
  induction k as [|k IH]; intros j K; rewrite (tree_at_unfold t j Ht); destruct (Z.eqb_spec (at_ t j) 0) as [|N]; cbn [fits]; auto; pose proof (at_lt t j Ht N); [lia|].
  split; [auto|]. split; apply IH; unfold child; lia.
Qed.
Lemma conclude_spec r : at_ c 0 <> 0 -> (conclude c s = Some r <-> closed r /\ tree_at r 0 = instantiate (assigned s) (tree_at c 0)).
Proof.
  intros C0. assert (I0 : Inv 0 zero_term).
  { split; [reflexivity|]. split; [intros; lia|]. intros k _. rewrite at_zero. destruct (_ <? _)%nat eqn:X; auto. apply Nat.ltb_lt in X. lia. }
  pose proof (Inv_loop SIZE 0 zero_term ltac:(lia) I0) as L. fold (conclude c s) in L. destruct (conclude c s) as [r'|].
  - destruct (Inv_end r' C0 L) as [A B]. split; [intros [= <-]; auto|]. intros [A' B']. f_equal. apply closed_same_tree; auto. congruence.
  - split; [discriminate|]. intros [A B]. exfalso. destruct L as (i & VI & NF). apply NF.
    pose proof (instance_fitting (assigned s) c r P (proj1 A) B i) as X. rewrite VI in X. unfold assigned in X.
    rewrite <- X by (intros Z0; rewrite Z0, rule_var_0 in VI; discriminate). apply fits_self. apply A.
Qed.
End Conclude.
