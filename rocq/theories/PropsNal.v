(** Property theorems C49: implausible statement shapes are never admitted by inference. *)
From Coq Require Import ZArith List Bool Lia.
From Flocq Require Import IEEE754.BinarySingleNaN.
From Verif Require Import Base F64 TruthM StampM TermM TermS TermP NamesM EventM TableM VariableM MemoryM MemoryS PropsMemory PropsQuestion TruthS TruthP TruthP2 PropsTruth EverywhereS EverywhereP NalM NalS NalP.
From Verif Require PQueueM.
Local Open Scope Z_scope.
Import ListNotations.

Section Statements.
Variable nm : names.
Variable powdecay : Z -> f64.
Variable penalty : nat -> f64.
Variable layers : nat.
Notation Derive := (DerivedEvent nm powdecay penalty layers).
(** goals are kept apart from beliefs (holds initially and is kept, C49_history) *)
Definition no_goals_among_beliefs (m : memory) : Prop :=
  everywhere (fun e => e_type e <> EVENT_TYPE_GOAL) (fun _ => True) (fun _ => True) m.

(** C49, one derivation: whatever conclusion t inference passes on, with whatever truth, stamp,
    priority, the terms in memory afterwards are those from before, the empty term (of unused
    storage), the conclusion or its variants with variables introduced -- and of the latter two
    only those that are not implausible.  Goal queues do not change. *)
Theorem C49_derivation : forall fuel m t d varIntro two m',
  no_goals_among_beliefs m ->
  Derive fuel m t d varIntro two = Ok m' ->
  (forall t', mentioned m' t' ->
     mentioned m t' \/ t' = zero_term \/
     (~ implausible nm t' /\
      (t' = t \/ exists ext, IntroduceImplicationVariables nm t ext = Ok (true, t') \/ IntroduceConjunctionVariables nm t ext = Ok (true, t')))) /\
  m_goals m' = m_goals m /\ no_goals_among_beliefs m'.
Proof.
  intros fuel m t d v two m' G H.
  set (T := fun t' => mentioned m t' \/ t' = zero_term \/ conclusion nm t t').
  assert (E : everywhere (PBt T) (PGt T) (PIt T) m).
  { eapply everywhere_mono; [| | |apply everywhere_mentioned, G]; unfold PBt, PGt, PIt, T; intros e; tauto. }
  pose proof (ew_derived nm powdecay penalty layers T (or_intror (or_introl eq_refl)) fuel m t d v two E (fun t' C => or_intror (or_intror C))) as K.
  rewrite H in K. cbn [ifok] in K. destruct K as (K & R). split; [|split].
  - exact (mentioned_everywhere T m' K).
  - apply R.
  - eapply everywhere_mono; [| | |exact K]; unfold PBt; auto. intros e (_ & X); exact X.
Qed.

(** C49, any history since initialisation: an implausible term in memory was put there by
    something other than declarative inference. *)
Theorem C49_history : forall cmax buckets atoms bmax gmax m0 fuel os m t,
  Memory_INIT cmax buckets atoms bmax gmax layers = Ok m0 ->
  Forall no_update os ->
  nrun nm powdecay penalty layers fuel m0 os = Ok m ->
  mentioned m t -> implausible nm t -> was_input os t.
Proof.
  intros cmax buckets atoms bmax gmax m0 fuel os m t I U R M IP.
  set (T := fun t' => was_input os t' \/ ~ implausible nm t').
  assert (T0 : T zero_term) by (right; apply zero_fine).
  pose proof (ew_nrun nm powdecay penalty layers T T0 fuel os m0 (ew_init layers T T0 _ _ _ _ _ _ I) U (fun t' X => or_introl X) (fun t' X => or_intror X)) as K.
  rewrite R in K. cbn [ifok] in K. destruct (mentioned_everywhere T m K t M) as [W|N]; [exact W|]. exfalso; exact (N IP).
Qed.

(** C49, the filter rejects nothing else: it is exact. *)
Theorem C49_filter_exact : forall t b, rejected nm t = Ok b -> (b = true <-> implausible nm t).
Proof. exact (rejected_exact nm). Qed.

(** C49, conclusions of the inductive rules (variable introduction on) that are implications or
    equivalences are only admitted with an independent variable in them. *)
Theorem C49_introduced : forall fuel m t d two m',
  no_goals_among_beliefs m -> copula nm t 0 IMPLICATION \/ copula nm t 0 EQUIVALENCE ->
  Derive fuel m t d true two = Ok m' ->
  forall t', mentioned m' t' -> mentioned m t' \/ t' = zero_term \/
     (~ implausible nm t' /\ (copula nm t' 0 IMPLICATION \/ copula nm t' 0 EQUIVALENCE -> exists i, (i < SIZE)%nat /\ isIndependentVariable nm (at_ t' i) = true)).
Proof.
  intros fuel m t d two m' G C H.
  set (T := fun t' => mentioned m t' \/ t' = zero_term \/ (~ implausible nm t' /\ (copula nm t' 0 IMPLICATION \/ copula nm t' 0 EQUIVALENCE -> exists i, (i < SIZE)%nat /\ isIndependentVariable nm (at_ t' i) = true))).
  assert (T0 : T zero_term) by (right; left; reflexivity).
  assert (E : everywhere (PBt T) (PGt T) (PIt T) m).
  { eapply everywhere_mono; [| | |apply everywhere_mentioned, G]; unfold PBt, PGt, PIt, T; intros e; tauto. }
  assert (ST : forall fu m1 r tw, everywhere (PBt T) (PGt T) (PIt T) m1 ->
    ifok (intro_derived nm powdecay penalty layers fu m1 t d r true tw) (everywhere (PBt T) (PGt T) (PIt T))).
  { clear E H. intros fu m1 r tw E. unfold intro_derived. apply ifok_bind'; intros [ok t'] R. destruct (_ && _) eqn:B; [|exact E].
    apply andb_true_iff in B as [B _]. apply andb_true_iff in B as [_ B]. cbn [andb] in B. apply negb_true_iff in B.
    eapply ifok_impl; [apply (ew_add_derived nm powdecay penalty layers T T0); [exact E|]|intros a (K & _); exact K].
    intros NI. right; right. split; auto. clear C. intros C. unfold DeclarativeImplicationWithoutIndependentVar in B. unfold copula in C. apply orb_true_iff in C. rewrite C in B.
    cbn [andb] in B. apply negb_false_iff in B. unfold hasVariable in B. apply existsb_exists in B as (i & I & V). exists i. rewrite in_seq in I. split; [lia|].
    cbn [andb orb] in V. rewrite !orb_false_r in V. exact V. }
  assert (K : ifok (Derive fuel m t d true two) (everywhere (PBt T) (PGt T) (PIt T))).
  { unfold DerivedEvent, copula in *. assert (B : (copulaEquals nm (at_ t 0) TEMPORAL_IMPLICATION || copulaEquals nm (at_ t 0) IMPLICATION || copulaEquals nm (at_ t 0) EQUIVALENCE) = true).
    { rewrite !orb_true_iff. tauto. }
    assert (B2 : (copulaEquals nm (at_ t 0) IMPLICATION || copulaEquals nm (at_ t 0) EQUIVALENCE || two) = true) by (rewrite !orb_true_iff; tauto).
    cbv zeta. rewrite B, B2. cbn [andb]. eapply ifok_bind; [apply ST, E|]. intros m1 E1. cbv beta in E1.
    eapply ifok_bind with (P := everywhere (PBt T) (PGt T) (PIt T)); [destruct (negb two); [apply ST, E1|exact E1]|]. intros m2 E2. exact E2. }
  rewrite H in K. exact (mentioned_everywhere T m' K).
Qed.

(** The right-nesting test reads slot 2i+2 for every slot i holding a conjunction or disjunction
    sign.  Inside the array as long as no such sign is in the last level ... *)
Theorem C49_filter_total_partial : forall t, (forall i, (i < SIZE)%nat -> junction nm t i -> (2 * i + 2 < SIZE)%nat) -> exists b, rejected nm t = Ok b.
Proof. exact (rejected_total nm). Qed.
End Statements.
Print Assumptions C49_derivation.
Print Assumptions C49_history.
Print Assumptions C49_filter_exact.
Print Assumptions C49_introduced.
Print Assumptions C49_filter_total_partial.

(** ... but otherwise the array is read past its end: (((((a * S) && b) && a) && c) && b) where S is
    the sign of the conjunction as an atom, in slot 32. *)
Definition DEEP : term := mk_term
  (let c := copula_index CONJUNCTION in [c; c; 65; c; 66; 0; 0; c; 64; 0; 0; 0; 0; 0; 0; copula_index PRODUCT; 65; 0; 0; 0; 0; 0; 0; 0; 0; 0; 0; 0; 0; 0; 0; 64; c]).
Theorem C49_filter_total_refuted : exists t, TermS.closed t /\ rejected qn t = UB.
Proof. exists DEEP. split; [apply closedb_ok|]; vm_compute; reflexivity. Qed.
Print Assumptions C49_filter_total_refuted.

(** a derivation that adds its conclusion <a --> b>; one of <a --> a> that adds nothing; the
    inductive conclusion <<a --> c> ==> <b --> c>> is stored as <<a --> $1> ==> <b --> $1>> *)
Definition dv : deriv := mkDv OCCURRENCE_ETERNAL (tr64 100 100 90 100) (1 :: repeat 0 9) 1 f1 f1 f0 None 0.
Definition ninit : res memory := do m <- Memory_INIT 8 8 200 4 2 2 ; Ok (with_ops m).
Definition nrun' (os : list nop) : res memory := do m <- ninit ; nrun qn qpow ex_pen 2 9 m os.
Definition queued (t : term) (m : memory) : bool := existsb (fun e => term_eqb (e_term e) t) (eq_store (m_beliefs m)).
Example C49_added : exists m, nrun' [NDerive (EVT 64) dv false false] = Ok m /\ queued (EVT 64) m = true.
Proof. apply res_ex'. vm_compute. reflexivity. Qed.
Example C49_not_added : exists m, nrun' [NDerive (EVT 66) dv false false] = Ok m /\ queued (EVT 66) m = false.
Proof. destruct (res_ex' (nrun' [NDerive (EVT 66) dv false false]) (fun m => negb (queued (EVT 66) m))) as (m & E & Q); [vm_compute; reflexivity|]. exists m. split; auto. apply negb_true_iff, Q. Qed.
Definition IND : term := mk_term [copula_index IMPLICATION; copula_index INHERITANCE; copula_index INHERITANCE; 64; 66; 65; 66].
Definition IND_VAR : term := mk_term [copula_index IMPLICATION; copula_index INHERITANCE; copula_index INHERITANCE; 64; indep_atom 1; 65; indep_atom 1].
Definition in_links (t : term) (m : memory) : bool := existsb (fun k => existsb (fun i => term_eqb (i_term i) t) (t_array (c_links k))) (m_store m).
Example C49_introduced_example : exists m, nrun' [NDerive IND dv true false] = Ok m /\ (queued IND_VAR m || in_links IND_VAR m) && negb (queued IND m) && negb (in_links IND m) = true.
Proof. apply res_ex'. vm_compute. reflexivity. Qed.
Example C49_implausible : implausible qn (EVT 66) /\ ~ implausible qn (EVT 64).
Proof. split; [apply (rejected_exact qn _ true); vm_compute; reflexivity|]. intros H. apply (rejected_exact qn _ false) in H; [discriminate|vm_compute; reflexivity]. Qed.
