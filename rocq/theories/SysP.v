(** The invariants of the memory along the lives of a reasoner (C34, C36 at system level). *)
From Coq Require Import ZArith List Bool Lia Permutation.
From Verif Require Import Base F64 TruthM StampM TermM TermP NamesM EventM InferenceM TableM UsageM RingM RingP InvIndexM InvIndexS VariableM MemoryM MemoryS MemoryP EQueueP MemoryP2 MemoryP3 QuestionM DecisionM CycleM CycleS EverywhereS EverywhereP CycleP1 CycleP2 CycleP3 CycleP4 SysS.
From Verif Require PQueueM SubstP InvIndexP2 PropsMemory CycleP5.
Import ListNotations.
Local Open Scope nat_scope.
#[local] Opaque one_cycle Term_ExtractSubterm Term_OverrideSubterm Conceptualize AddEvent question_loop.
Section Sys.
Variables cmax buckets atoms bmax gmax layers : nat.
Hypothesis SZ : sizes_ok cmax buckets atoms bmax gmax layers.
Hypothesis A64 : 64 <= atoms.
Notation known := (known atoms).
Section Nm.
Variable nm : names.
Hypothesis N63 : 63 <= length nm.
Notation T := (known nm).
Lemma known0 : T zero_term. Proof. apply SubstP.zero_Forall. lia. Qed.
Lemma known_ext t j : T t -> T (Term_ExtractSubterm t j). Proof. apply SubstP.extract_Forall. lia. Qed.
Lemma known_rng t : T t -> atoms_in_range atoms t. Proof. apply Forall_impl. intros; lia. Qed.
Lemma known_tc : tclosed T.
Proof.
  constructor.
  - apply known0.
  - apply known_ext.
  - intros t i s. apply SubstP.override_Forall. lia.
  - intros t i a A B. apply Forall_upd; auto. lia.
Qed.
Definition Jm (m : memory) : Prop := minv false nm cmax atoms bmax gmax layers T m.
Variable powdecay : Z -> f64.
Variable penalty : nat -> f64.
Variable fuel : nat.
Lemma nostrict : false = true -> penalty_ok penalty. Proof. discriminate. Qed.
Lemma step m o m' : Jm m -> gop_ok false T o -> in_bounds cmax layers o -> mstep nm powdecay penalty layers fuel m o = Ok m' -> Jm m'.
Proof.
  destruct SZ as (P1 & P2 & P3 & P4 & P5 & P6). intros I O B E.
  pose proof (step_ok false nm powdecay penalty cmax buckets atoms bmax gmax layers P1 P2 P4 P5 P6 P3 nostrict T known0 known_ext known_rng fuel m o I O B) as X. rewrite E in X. exact X.
Qed.
Lemma Jm_jclosed : jclosed nm powdecay penalty layers fuel T Jm.
Proof.
  constructor.
  - intros m I. eapply Forall_impl; [|apply (mi_k _ _ _ _ _ _ _ _ m I)]. intros k K. apply K.
  - intros m t now m' c I HT E. apply (step m (OConceptualize t now)); cbn [mstep gop_ok in_bounds]; auto. rewrite E. reflexivity.
  - intros m c f m' I E S. apply (step m (OUpdate c f)); cbn [mstep gop_ok in_bounds]; auto.
    + intros k. destruct (S k) as (S1 & S2 & S3 & S4 & S5 & S6). split; [exact S1|]. split; [exact S2|]. intros (K1 & K2 & K3 & K4 & K5 & K6).
      split; [intros X; discriminate|]. rewrite S4, S5, S1. split; [|auto]. destruct S6 as [-> |(now & b & ->)]; auto. cbn. destruct b; lia.
    + unfold cmod, cread in E. destruct (nth_error (m_store m) c) eqn:N; [|discriminate]. rewrite <- (ci_st _ _ _ m (mi_c _ _ _ _ _ _ _ _ m I)). apply nth_error_Some. congruence.
  - intros m t now m' c f I HT E R. assert (I' : Jm m') by (apply (step m (OConceptualize t now)); cbn [mstep gop_ok in_bounds]; auto; rewrite E; reflexivity).
    destruct (mi_r _ _ _ _ _ _ _ _ m' I') as (l & RI). destruct (add_inv (m_ring m') l c RI) as (f' & F & RI'). rewrite F in R. apply okinj in R; subst f'.
    constructor; try apply I'; [apply (cinv_same nm cmax atoms m'); auto; apply I'|]. exists (c :: l). exact RI'.
  - intros m e now p input revised layer m' I _ HT E. apply (step m (OAdd e now p input revised layer)); cbn [mstep gop_ok in_bounds]; auto.
    split; [exact HT|]. split; [intros X|intros X]; discriminate.
  - intros m I. apply (step m OPopBelief); cbn [mstep gop_ok in_bounds]; auto.
  - intros m l q I N. apply (step m (OPopGoal l)); cbn [mstep gop_ok in_bounds]; auto; [|rewrite N; reflexivity].
    rewrite <- (mi_gl _ _ _ _ _ _ _ _ m I). apply nth_error_Some. congruence.
  - intros m I. apply (step m OResetGoals); cbn [mstep gop_ok in_bounds]; auto.
  - intros m now I. apply (step m (OForget now)); cbn [mstep gop_ok in_bounds]; auto.
Qed.
End Nm.
Notation inv nm := (Inv (known nm) (Jm nm)).
Lemma everywhere_impl (PB PG PB' PG' : event -> Prop) (PI PI' : implication -> Prop) m : (forall e, PB e -> PB' e) -> (forall e, PG e -> PG' e) -> (forall i, PI i -> PI' i) ->
  everywhere PB PG PI m -> everywhere PB' PG' PI' m.
Proof.
  intros A B C [X1 X2 X3]. constructor.
  - eapply Forall_impl; eauto.
  - eapply Forall_impl; [|exact X2]. intros q. apply Forall_impl; auto.
  - eapply Forall_impl; [|exact X3]. intros k (K1 & K2 & K3 & K4 & K5 & K6). repeat split; auto.
    + eapply Forall_impl; [|exact K5]. intros t. apply Forall_impl; auto.
    + eapply Forall_impl; eauto.
Qed.
(** *** the start *)
Lemma list63 : 63 <= length init_list. Proof. vm_compute. repeat constructor. Qed.
Lemma init_cinv nm m : Memory_INIT cmax buckets atoms bmax gmax layers = Ok m -> cinv nm cmax atoms m.
Proof. intros E. destruct (PropsMemory.init_total nm _ _ _ _ _ _ SZ) as (m0 & E0 & I). rewrite E in E0. apply okinj in E0; subst m0. apply I. Qed.
Lemma init_inv m : Memory_INIT cmax buckets atoms bmax gmax layers = Ok m -> inv init_list m.
Proof.
  intros E. pose proof (init_cinv init_list m E) as CI. pose proof list63 as N63. pose proof (known0 init_list N63) as Z0. constructor.
  - revert E. unfold Memory_INIT. destruct (HashTableM.HashTable_INIT _ _); cbn [rbind]; try discriminate. destruct (InvIndexM.InvertedAtomIndex_INIT _ _); cbn [rbind]; try discriminate.
    intros H; apply okinj in H; subst m. assert (B : PB (known init_list) event0) by (split; [exact Z0|discriminate]).
    assert (GG : PG (known init_list) event0) by (split; [exact Z0|right; reflexivity]).
    assert (A0 : Forall (PI (known init_list)) (t_array table0)) by (apply Forall_repeat; exact Z0).
    constructor; cbn [m_beliefs m_goals m_store fresh_events eq_store].
    + apply Forall_repeat; auto.
    + apply Forall_repeat. apply Forall_repeat; auto.
    + apply Forall_repeat. split; [exact B|]. split; [exact B|]. split; [exact B|]. split; [exact GG|]. split; [apply Forall_repeat|]; exact A0.
  - destruct SZ as (P1 & P2 & P3 & P4 & P5 & P6).
    apply (MemoryP2.init_ok false init_list (fun _ => f1) cmax buckets atoms bmax gmax layers P1 P2 P4 P5 P6 P3 ltac:(discriminate) (known init_list) Z0 ltac:(eauto using known_ext) _ E CI).
  - unfold ops_ok. revert E. unfold Memory_INIT. destruct (HashTableM.HashTable_INIT _ _); cbn [rbind]; try discriminate. destruct (InvIndexM.InvertedAtomIndex_INIT _ _); cbn [rbind]; try discriminate.
    intros H; apply okinj in H; subst m. cbn [m_ops]. apply Forall_repeat. split; [exact Z0|]. apply Forall_repeat. exact Z0.
Qed.
(** *** more names *)
Lemma known_more nm more t : known nm t -> known (nm ++ more) t.
Proof. apply Forall_impl. intros a. rewrite app_length. lia. Qed.
Lemma name_more nm more a : (0 <= a <= Z.of_nat (length nm))%Z -> name_of (nm ++ more) a = name_of nm a.
Proof. intros H. unfold name_of. destruct (Z.leb_spec a 0); auto. apply app_nth1. lia. Qed.
Lemma simple_more nm more a : (0 <= a <= Z.of_nat (length nm))%Z -> IsSimpleAtom (nm ++ more) a = IsSimpleAtom nm a.
Proof. intros H. unfold IsSimpleAtom, ch0. rewrite name_more; auto. Qed.
Lemma Jm_more nm more m : Jm nm m -> Jm (nm ++ more) m.
Proof.
  intros [I1 I2 I3 I4 I5 I6 I7 I8 I9 I10]. constructor; auto.
  - destruct I1 as [C1 C2 C3 C4 C5 C6 C7]. constructor; auto. destruct C4 as (ch & R1 & R2 & R3). exists ch. split; auto. split; auto. eapply InvIndexP2.exact_ext; [|exact R2].
    assert (KN : forall c t, In (c, t) (pairs_of m) -> known nm t).
    { intros c t H. unfold pairs_of in H. apply in_map_iff in H as (d & E & H). injection E as <- <-. rewrite Forall_forall in I2. destruct (le_lt_dec (length (m_store m)) d) as [L|L].
      - exfalso. destruct SZ as (P1 & P2 & _). pose proof (qinv_lt _ _ P1 P2 _ _ _ C1 H). lia.
      - apply (nth_In _ concept0) in L. apply I2 in L. apply L. }
    intros b c. unfold listedS. assert (S : forall t a, In (c, t) (pairs_of m) -> In a (indexed_atoms t) -> IsSimpleAtom (nm ++ more) a = IsSimpleAtom nm a).
    { intros t a H X. apply simple_more. apply KN in H. unfold SysS.known in H. rewrite Forall_forall in H. apply H. unfold indexed_atoms in X. rewrite <- (firstn_skipn 31 t). apply in_or_app; auto. }
    split; intros (t & a & X1 & X2 & X3 & X4); exists t, a; repeat split; auto; [rewrite (S t a)|rewrite <- (S t a)]; auto.
  - eapply Forall_impl; [|exact I2]. intros k (K1 & K2 & K3 & K4 & K5 & K6). split; [exact K1|]. split; [exact K2|]. split; [apply known_more; exact K3|]. split; [exact K4|]. split; [exact K5|apply known_more; exact K6].
Qed.
Lemma inv_more nm more m : inv nm m -> inv (nm ++ more) m.
Proof.
  intros [I1 I2 I3]. constructor; [|apply Jm_more; auto|].
  - eapply everywhere_impl; [| | |exact I1]; [intros e [H1 H2]|intros e [H1 H2]|intros i H]; repeat split; auto using known_more. apply known_more; exact H.
  - eapply Forall_impl; [|exact I3]. intros o [H1 H2]. split; auto using known_more. eapply Forall_impl; [|exact H2]. intros; apply known_more; auto.
Qed.
(** *** operations and other settings, questions *)
Lemma inv_config nm s ops r t g : inv nm (s_mem s) -> known_ops atoms nm ops -> inv nm (s_mem (configured s ops r t g)).
Proof.
  intros [I1 I2 I3] [O1 O2]. constructor; cbn.
  - destruct I1; constructor; auto.
  - destruct I2 as [J1 J2 J3 J4 J5 J6 J7 J8 J9 J10]. constructor; auto. apply (cinv_same nm cmax atoms (s_mem s)); auto.
  - exact O2.
Qed.
Lemma inv_question nm nm' av sd pw now q th pr m t tense m' out : 63 <= length nm -> inv nm m -> Question nm' av sd pw now q th pr m t tense = Ok (m', out) -> inv nm m'.
Proof.
  intros N63 [I1 I2 I3] H. destruct (CycleP5.question_mem _ _ _ _ _ _ _ _ _ _ _ _ _ H) as [->|(c & k & C & ->)]; [constructor; auto|]. constructor; auto.
  - destruct I1 as [E1 E2 E3]. constructor; cbn; auto. apply Forall_upd; auto. unfold cread in C. destruct (nth_error _ c) eqn:N; try discriminate. apply okinj in C; subst.
    apply nth_error_In in N. rewrite Forall_forall in E3. apply E3 in N. exact N.
  - assert (L : c < cmax). { unfold cread in C. destruct (nth_error (m_store m) c) eqn:N; [|discriminate]. rewrite <- (ci_st _ _ _ m (mi_c _ _ _ _ _ _ _ _ m I2)). apply nth_error_Some. congruence. }
    destruct SZ as (P1 & P2 & P3 & P4 & P5 & P6).
    refine (step nm N63 (fun _ => f1) (fun _ => f1) 0 m (OUpdate c (prime now pr tense)) _ I2 _ L _).
    + cbn [gop_ok]. intros k0. split; [reflexivity|]. split; [reflexivity|]. intros (K1 & K2 & K3 & K4 & K5 & K6). split; [intros X; discriminate|]. split; [|auto]. cbn. destruct (tense =? 0)%Z; lia.
    + cbn [mstep]. unfold cmod. rewrite C. reflexivity.
Qed.
(** *** calls *)
Section Call.
Variable p : params.
Hypothesis PL : p_layers p = layers.
Hypothesis N63 : 63 <= length (p_nm p).
Hypothesis KA : known_answers atoms (p_nm p) (p_act p).
Notation TC := (known_tc (p_nm p) N63).
Notation JC := (Jm_jclosed (p_nm p) N63 (p_pow p) (p_penalty p) (p_fuel p)).
Lemma w s : inv (p_nm p) (s_mem s) -> sokw layers (known (p_nm p)) (Jm (p_nm p)) s.
Proof. intros I. split; auto. left. apply SZ. Qed.
Lemma inv_cycle s s' : inv (p_nm p) (s_mem s) -> cycle p s = Ok s' -> inv (p_nm p) (s_mem s').
Proof.
  intros I H. pose proof (ok_cycle _ (p_av p) (p_simdist p) _ _ _ (p_thr p) (p_cond p) (p_athr p) (p_aconf p) (p_chance p) (p_bops p) (p_act p) _ _ TC _ JC KA (p_depth p) s (w s I)) as X.
  unfold cycle in H. rewrite PL in H. rewrite H in X. apply X.
Qed.
Lemma inv_call s c s' : inv (p_nm p) (s_mem s) -> known_call atoms (p_nm p) c -> perform p s c = Ok s' -> inv (p_nm p) (s_mem s').
Proof.
  intros I KC. destruct c as [n|t ty tv et off].
  - clear KC. revert s I. induction n as [|n IH]; intros s I; unfold perform; cbn [do_call Cycles].
    + intros H; apply okinj in H; subst. auto.
    + destruct (one_cycle _ _ _ _ _ _ _ _ _ _ _ _ _ _ _ _) as [s1| |] eqn:E; cbn [rbind]; try discriminate. intros H. apply (IH s1); auto. apply (inv_cycle s); auto.
  - intros H. pose proof (ok_addinput _ (p_av p) (p_simdist p) _ _ _ (p_thr p) (p_cond p) (p_athr p) (p_aconf p) (p_chance p) (p_bops p) (p_act p) _ _ TC _ JC KA (p_depth p) s t ty tv et off (w s I) KC) as X.
    unfold perform in H. cbn [do_call] in H. rewrite PL in H. rewrite H in X. apply X.
Qed.
End Call.
Lemma lives_inv nm s : lives cmax buckets atoms bmax gmax layers nm s -> 63 <= length nm /\ inv nm (s_mem s).
Proof.
  induction 1 as [m rng E|nm s m L [N I] E|nm s more L [N I]|nm s ops r t g L [N I] O|nm s nm' av sd pw now q th pr t tense m out L [N I] Q|nm s p c s' L [N I] EN EL KA KC H].
  - split; [apply list63|]. apply init_inv; auto.
  - split; [apply list63|]. apply init_inv; auto.
  - split; [rewrite app_length; lia|]. apply inv_more; auto.
  - split; auto. apply inv_config; auto.
  - split; auto. eapply inv_question; eauto.
  - subst nm. split; auto. eapply inv_call; eauto.
Qed.
End Sys.
