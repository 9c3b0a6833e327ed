(** Proofs about how a belief event reaches the concepts (C69). *)
From Coq Require Import ZArith List Bool Lia.
From Verif Require Import Base F64 TruthM StampM TermM NamesM EventM InferenceM UsageM VariableM InvIndexM MemoryM EverywhereP QuestionM DecisionM CycleM SeqS AddS ShapeS ShapeP1 LearnP2 PerceiveS.
Import ListNotations.
Local Open Scope Z_scope.
#[local] Opaque Unify ApplySubstitute hasVariable FindConceptByTerm GetConceptChain InvIndexM.el_deref Suggest Conceptualize RingM.OccurrenceTimeIndex_Add.
Lemma okP {A} (a b : A) : Ok a = Ok b -> a = b. Proof. congruence. Qed.
Lemma nth_upd_eq {A} (l : list A) c x y : nth_error l c = Some x -> nth_error (upd l c y) c = Some y.
Proof. revert c. induction l as [|a l IH]; intros [|c]; cbn; try discriminate; auto. Qed.
Lemma nth_upd_ne {A} (l : list A) c d y : c <> d -> nth_error (upd l c y) d = nth_error l d.
Proof. revert c d. induction l as [|a l IH]; intros [|c] [|d] H; cbn; auto; try congruence. Qed.
Lemma upd_twice {A} (l : list A) c x y : upd (upd l c x) c y = upd l c y.
Proof. revert c. induction l as [|a l IH]; intros [|c]; cbn; auto. f_equal. apply IH. Qed.
Lemma upd_length {A} (l : list A) c y : List.length (upd l c y) = List.length l.
Proof. revert c. induction l as [|a l IH]; intros [|c]; cbn; auto. Qed.
Lemma read_eq m c k : nth_error (m_store m) c = Some k -> cread m c = Ok k.
Proof. intros E. unfold cread. rewrite E. reflexivity. Qed.
Lemma cmod_eq m c k f : nth_error (m_store m) c = Some k -> cmod m c f = Ok (set_store m (upd (m_store m) c (f k))).
Proof. intros E. unfold cmod. rewrite (read_eq _ _ _ E). reflexivity. Qed.
Lemma set_twice m s1 s2 : set_store (set_store m s1) s2 = set_store m s2. Proof. destruct m; reflexivity. Qed.
Lemma set_self m c k : nth_error (m_store m) c = Some k -> set_store m (upd (m_store m) c k) = m.
Proof.
  intros E. assert (U : upd (m_store m) c k = m_store m). { revert c E. generalize (m_store m). induction l as [|a l IH]; intros [|c] E; cbn in *; try discriminate; [congruence|]. f_equal. apply IH. exact E. }
  rewrite U. destruct m; reflexivity.
Qed.
(** *** an iteration whose body changes only the concept it is at *)
Section L.
Context {A : Type}.
Variable pid : Z.
Variable body : memory -> A -> nat -> res (memory * A * bool).
Variable R : concept -> concept -> Prop.
Variable Q : A -> Prop.
Hypothesis BODY : forall m a c k r, Q a -> nth_error (m_store m) c = Some k -> body m a c = Ok r ->
  exists k' a', r = (set_store m (upd (m_store m) c k'), a', false) /\ R k k' /\ pid1 k' = pid1 k /\ Q a'.
Variable m0 : memory.
Variable P : nat -> Prop.
Definition J (m : memory) : Prop := exists st, m = set_store m0 st /\ List.length st = List.length (m_store m0) /\
  forall c k0, nth_error (m_store m0) c = Some k0 -> exists k, nth_error st c = Some k /\ (k = k0 \/ P c /\ pid1 k = pid /\ R (with_pid1 k0 pid) k).
Definition V (m : memory) (c : nat) : Prop := exists k, nth_error (m_store m) c = Some k /\ pid1 k = pid.
Definition go (m m' : memory) (W : nat -> Prop) : Prop := J m' /\ (forall c, V m c -> V m' c) /\ (forall c, W c -> V m' c).
Lemma J_parts m : J m -> m_index m = m_index m0 /\ m_table m = m_table m0. Proof. intros (st & -> & _). auto. Qed.
Lemma go_refl m : J m -> go m m (fun _ => False). Proof. intros H. split; [exact H|]. split; [auto|intros c []]. Qed.
Lemma go_trans m m1 m2 W1 W2 : go m m1 W1 -> go m1 m2 W2 -> go m m2 (fun c => W1 c \/ W2 c).
Proof. intros (A1 & B1 & C1) (A2 & B2 & C2). split; auto. split; auto. intros c [X|X]; auto. Qed.
Lemma go_weak m m' (W W' : nat -> Prop) : (forall c, W' c -> W c) -> go m m' W -> go m m' W'. Proof. intros E (A1 & B & C). split; auto. Qed.
Lemma visit_go m a c r : J m -> Q a -> (forall x, c = Some x -> P x) -> visit pid body m a c = Ok r -> exists m' a', r = (m', a', false) /\ Q a' /\ go m m' (fun x => c = Some x).
Proof.
  intros JM QA PC. unfold visit. destruct c as [c|]; [|intros H; apply okP in H; subst r; exists m, a; split; [reflexivity|]; split; auto; eapply go_weak; [|apply go_refl; auto]; intros x X; discriminate X].
  destruct (cread m c) as [k| |] eqn:RD; cbn [rbind]; try discriminate. apply read in RD. destruct (Z.eqb_spec (pid1 k) pid) as [E|E].
  - intros H; apply okP in H; subst r. exists m, a. split; [reflexivity|]. split; auto. split; auto. split; auto. intros x X. injection X as <-. exists k. auto.
  - rewrite (cmod_eq _ _ _ _ RD). cbn [rbind]. intros H. set (m1 := set_store m (upd (m_store m) c (with_pid1 k pid))) in H.
    assert (N1 : nth_error (m_store m1) c = Some (with_pid1 k pid)) by (eapply nth_upd_eq; exact RD).
    apply (BODY _ _ _ _ _ QA N1) in H as (k' & a' & -> & RK & PK & QA'). unfold m1. rewrite set_twice. cbn [m_store set_store]. rewrite upd_twice.
    exists (set_store m (upd (m_store m) c k')), a'. split; [reflexivity|]. split; auto. change (pid1 (with_pid1 k pid)) with pid in PK.
    assert (VC : V (set_store m (upd (m_store m) c k')) c) by (exists k'; split; [eapply nth_upd_eq; exact RD|exact PK]).
    split; [|split].
    + destruct JM as (st & EM & LS & JM). exists (upd (m_store m) c k'). split; [rewrite EM; rewrite set_twice; reflexivity|]. split; [rewrite upd_length, EM; exact LS|].
      intros d k0 N0. destruct (JM d k0 N0) as (kd & ND & OR). replace st with (m_store m) in ND by (rewrite EM; reflexivity). destruct (Nat.eq_dec c d) as [<-|NE].
      * exists k'. split; [eapply nth_upd_eq; exact RD|]. right. split; [apply PC; reflexivity|]. split; [exact PK|]. assert (kd = k) by congruence. subst kd. destruct OR as [->|(_ & X & _)]; [exact RK|contradiction].
      * exists kd. split; [rewrite nth_upd_ne by exact NE; exact ND|exact OR].
    + intros d (kd & ND & PD). destruct (Nat.eq_dec c d) as [<-|NE]; [exact VC|]. exists kd. split; [cbn [m_store set_store]; rewrite nth_upd_ne by exact NE; exact ND|exact PD].
    + intros x X. injection X as <-. exact VC.
Qed.
Lemma chain_go n : forall m a p r, J m -> Q a -> (forall c, in_chain (m_index m0) p c -> P c) -> chain_loop pid body n m a p = Ok r ->
  exists m' a', r = (m', a', false) /\ Q a' /\ go m m' (in_chain (m_index m0) p).
Proof.
  induction n as [|n IH]; intros m a p r JM QA PC; destruct p as [p|]; cbn [chain_loop]; try discriminate;
    try (intros H; apply okP in H; subst r; exists m, a; split; [reflexivity|]; split; auto; eapply go_weak; [|apply go_refl; auto]; intros x X; inversion X).
  pose proof (J_parts m JM) as (IX & _). rewrite IX. destruct (el_deref (m_index m0) p) as [el| |] eqn:D; cbn [rbind]; try discriminate.
  destruct (visit _ _ _ _ _) as [y| |] eqn:E; cbn [rbind]; try discriminate.
  apply visit_go in E as (m1 & a1 & -> & Q1 & G1); auto; [|intros x X; apply PC; eapply ic_here; eauto]. intros H.
  apply IH in H as (m2 & a2 & -> & Q2 & G2); auto; [|apply G1|intros x X; apply PC; eapply ic_next; eauto].
  exists m2, a2. split; [reflexivity|]. split; auto. eapply go_weak; [|eapply go_trans; [exact G1|exact G2]]. intros c X. cbn.
  inversion X as [p0 el0 c0 D0 C0|p0 el0 c0 D0 C0]; subst; assert (el0 = el) by congruence; subst; auto.
Qed.
Lemma find_same m m' t : m_table m' = m_table m -> FindConceptByTerm m' t = FindConceptByTerm m t.
Proof. intros E. Transparent FindConceptByTerm. unfold FindConceptByTerm. rewrite E. reflexivity. Opaque FindConceptByTerm. Qed.
Definition looked (t : term) (L : list Z) (c : nat) : Prop := (L <> [] /\ own m0 t c) \/ exists y p, In y L /\ GetConceptChain (m_index m0) y = Ok p /\ in_chain (m_index m0) p c.
Lemma foreach_go n t L : forall m a m' a', J m -> Q a -> (forall c, looked t L c -> P c) -> foreach_loop pid body n t L m a = Ok (m', a') -> Q a' /\ go m m' (looked t L).
Proof.
  induction L as [|y L IH]; intros m a m' a' JM QA PC; cbn [foreach_loop].
  - intros H. apply okP in H. injection H as <- <-. split; auto. eapply go_weak; [|apply go_refl; auto]. intros c [[X _]|(y & p & [] & _)]. apply X. reflexivity.
  - pose proof (J_parts m JM) as (IX & TX). rewrite IX, (find_same m0 m) by exact TX. destruct (FindConceptByTerm m0 t) as [o| |] eqn:FO; cbn [rbind]; try discriminate.
    destruct (GetConceptChain (m_index m0) y) as [ch| |] eqn:GC; cbn [rbind]; try discriminate.
    destruct (visit _ _ _ _ _) as [x1| |] eqn:E; cbn [rbind]; try discriminate.
    apply visit_go in E as (m1 & a1 & -> & Q1 & G1); auto; [|intros x ->; apply PC; left; split; [discriminate|exact FO]]. cbn [rbind].
    destruct (chain_loop _ _ _ _ _ _) as [x2| |] eqn:E2; cbn [rbind]; try discriminate.
    apply chain_go in E2 as (m2 & a2 & -> & Q2 & G2); auto; [|apply G1|intros x X; apply PC; right; exists y, ch; split; [left; reflexivity|auto]]. intros H.
    apply IH in H as (Q3 & G3); auto; [|apply G2|intros c [[_ X]|(z & p & X & Y)]; apply PC; [left; split; [discriminate|exact X]|right; exists z, p; split; [right; exact X|exact Y]]].
    split; auto. eapply go_weak; [|eapply go_trans; [eapply go_trans; [exact G1|exact G2]|exact G3]]. intros c. cbn. intros [[_ X]|(z & p & [<-|X] & Y1 & Y2)].
    + left; left. unfold own in X. congruence.
    + left; right. assert (p = ch) by congruence. subst. exact Y2.
    + right. right. exists z, p. auto.
Qed.
End L.
Lemma everywhere_go {A} pid body (R : concept -> concept -> Prop) (Q : A -> Prop) n m t a m' a' :
  (forall m a c k r, Q a -> nth_error (m_store m) c = Some k -> body m a c = Ok r ->
     exists k' a', r = (set_store m (upd (m_store m) c k'), a', false) /\ R k k' /\ pid1 k' = pid1 k /\ Q a') ->
  (forall k, In k (m_store m) -> pid1 k <> pid) -> Q a -> related_foreach pid body n m t a = Ok (m', a') ->
  Q a' /\ exists st, m' = set_store m st /\ List.length st = List.length (m_store m) /\
  forall c k, nth_error (m_store m) c = Some k -> exists k', nth_error st c = Some k' /\ (related m t c -> R (with_pid1 k pid) k') /\ (~ related m t c -> k' = k).
Proof.
  intros BODY NP QA H. unfold related_foreach in H. set (L := map (at_ t) (seq 0 UNIFICATION_DEPTH)) in H.
  assert (RI : forall c, related m t c <-> looked m t L c).
  { intros c. unfold related, looked. split.
    - intros [O|(i & p & A1 & B & C)]; [left; split; [discriminate|auto]|]. right. exists (at_ t i), p. split; auto. apply in_map, in_seq. lia.
    - intros [[_ O]|(y & p & A1 & B & C)]; [left; auto|]. right. apply in_map_iff in A1 as (i & <- & A1). apply in_seq in A1. exists i, p. split; [lia|auto]. }
  assert (J0 : J pid R m (looked m t L) m).
  { exists (m_store m). split; [destruct m; reflexivity|]. split; [reflexivity|]. intros c k0 N. exists k0. auto. }
  apply (foreach_go pid body R Q BODY m (looked m t L) n t L m a m' a' J0 QA) in H as (QA' & (st & -> & LS & JM) & _ & VV); auto. split; auto.
  exists st. split; [reflexivity|]. split; [exact LS|]. intros c k N. destruct (JM c k N) as (k' & N' & OR). exists k'. split; [exact N'|].
  assert (NK : pid1 k <> pid) by (apply NP; eapply nth_error_In; exact N). split.
  - intros RL. apply RI in RL. destruct (VV c RL) as (k2 & N2 & P2). cbn [m_store set_store] in N2. assert (k2 = k') by congruence. subst k2. destruct OR as [->|(_ & _ & X)]; [contradiction|exact X].
  - intros NR. destruct OR as [X|(X & _)]; [exact X|]. exfalso. apply NR, RI. exact X.
Qed.
(** *** belief events *)
Section B.
Variable nm : names.
Variable av : Z -> option (f64 * name).
Variable simdist : f64.
Variable pd : Z -> f64.
Variables threshold chance : f64.
Variable babbling_ops : Z.
Variable fuel : nat.
Notation Act := (Activate nm av simdist pd threshold chance babbling_ops).
Lemma activate_spec m rs c k e now r : e_type e = EVENT_TYPE_BELIEF -> nth_error (m_store m) c = Some k -> Act m rs c e now = Ok r ->
  exists k', r = (set_store m (upd (m_store m) c k'), rs, decision0) /\ activated now k k' e /\ pid1 k' = pid1 k.
Proof.
  intros T N. unfold Activate. rewrite (cmod_eq _ _ _ _ N). cbn [rbind]. set (k1 := with_lastsel k now).
  assert (N1 : nth_error (m_store (set_store m (upd (m_store m) c k1))) c = Some k1) by (eapply nth_upd_eq; exact N).
  rewrite (cmod_eq _ _ _ _ N1). cbn [rbind]. rewrite set_twice. cbn [m_store set_store]. rewrite upd_twice. set (k2 := with_usage k1 _). set (m2 := set_store m (upd (m_store m) c k2)).
  assert (N2 : nth_error (m_store m2) c = Some k2) by (eapply nth_upd_eq; exact N). rewrite (read_eq _ _ _ N2). cbn [rbind]. rewrite T, Z.eqb_refl.
  change (c_spike k2) with (c_spike k). destruct (negb (negb (e_type (c_spike k) =? EVENT_TYPE_DELETED)) || (e_occ (c_spike k) <? e_occ e)) eqn:B.
  - rewrite (cmod_eq _ _ _ _ N2). cbn [rbind]. unfold m2. rewrite set_twice. cbn [m_store set_store]. rewrite upd_twice. intros H. apply okP in H. subst r. exists (with_spike k2 e). split; [reflexivity|]. split; [|reflexivity].
    exists (Usage_use (c_usage k) now false). split; [reflexivity|]. split; [reflexivity|]. right. split; [|reflexivity]. intros (A1 & A2). apply present_there in A1. rewrite A1 in B. cbn in B. apply Z.ltb_lt in B. lia.
  - cbn [rbind]. intros H. apply okP in H. subst r. exists k2. split; [reflexivity|]. split; [|reflexivity]. exists (Usage_use (c_usage k) now false). split; [reflexivity|]. split; [reflexivity|]. left.
    apply orb_false_elim in B as [B1 B2]. apply negb_false_iff in B1. apply present_there in B1. apply Z.ltb_ge in B2. split; [exact B1|]. split; [exact B2|reflexivity].
Qed.
#[local] Opaque Activate.
Lemma better0 d : BetterDecision d decision0 = d. Proof. reflexivity. Qed.
Lemma body_noticed e now m (a : Z * decision) c k r : e_type e = EVENT_TYPE_BELIEF -> nth_error (m_store m) c = Some k ->
  process_body nm av simdist pd threshold chance babbling_ops e now m a c = Ok r ->
  exists k', r = (set_store m (upd (m_store m) c k'), a, false) /\ noticed nm av simdist now e k k' /\ pid1 k' = pid1 k.
Proof.
  intros T N. unfold process_body. cbv zeta.
  match goal with |- (do (_, _) <- ?x ; _) = _ -> _ => set (X := x) end.
  assert (S1 : forall y, X = Ok y -> exists k1, y = (set_store m (upd (m_store m) c k1), a) /\ pid1 k1 = pid1 k /\
    (~ variables nm e \/ queries nm e -> covers nm av simdist k e /\ activated now k k1 (kept now e (e_term e)) \/ ~ covers nm av simdist k e /\ k1 = k) /\ (variables nm e -> ~ queries nm e -> k1 = k)).
  { intros y. unfold X, variables, queries. destruct (hasVariable nm (e_term e) true true true); destruct (hasVariable nm (e_term e) false false true); cbn [negb orb].
    2:{ intros H. apply okP in H. subst y. exists k. split; [rewrite (set_self m c k N); reflexivity|]. split; [reflexivity|]. split; [|auto]. intros [Z0|Z0]; [contradiction Z0; reflexivity|discriminate Z0]. }
    all: rewrite (read_eq _ _ _ N); cbn [rbind]; destruct (Unify nm av simdist (c_term k) (e_term e)) as [subs| |] eqn:U; cbn [rbind]; try discriminate; destruct (s_success subs) eqn:SS;
      [destruct (Activate _ _ _ _ _ _ _ m (fst a) c _ now) as [z| |] eqn:AC; cbn [rbind]; try discriminate; apply (activate_spec m (fst a) c k (kept now e (e_term e)) now z T N) in AC as (k1 & -> & A1 & P1);
         cbn [rbind]; rewrite better0; intros H; apply okP in H; subst y; exists k1; split; [destruct a; reflexivity|]; split; [exact P1|]; split; [|intros; try contradiction; try discriminate; exfalso; auto]; intros _; left; split; [exists subs; auto|exact A1]
      |intros H; apply okP in H; subst y; exists k; split; [rewrite (set_self m c k N); reflexivity|]; split; [reflexivity|]; split; [|auto]; intros _; right; split; [|reflexivity]; intros (s & E1 & E2); congruence]. }
  destruct X as [y| |]; cbn [rbind]; try discriminate. destruct (S1 y eq_refl) as (k1 & -> & P1 & F1 & F2). clear S1. cbn [rbind].
  set (m1 := set_store m (upd (m_store m) c k1)). assert (N1 : nth_error (m_store m1) c = Some k1) by (eapply nth_upd_eq; exact N).
  match goal with |- (do (_, _) <- ?x ; _) = _ -> _ => set (X2 := x) end.
  assert (S2 : forall y, X2 = Ok y -> exists k', y = (set_store m (upd (m_store m) c k'), a) /\ pid1 k' = pid1 k1 /\
    (variables nm e -> (exists t, instance nm av simdist e k1 t /\ activated now k1 k' (kept now e t)) \/ (forall t, ~ instance nm av simdist e k1 t) /\ k' = k1) /\ (~ variables nm e -> k' = k1)).
  { intros y. unfold X2, variables. destruct (hasVariable nm (e_term e) true true true).
    - rewrite (read_eq _ _ _ N1). cbn [rbind]. destruct (Unify nm av simdist (e_term e) (c_term k1)) as [subs| |] eqn:U; cbn [rbind]; try discriminate. destruct (s_success subs) eqn:SS.
      + destruct (ApplySubstitute nm (e_term e) subs) as [[t ok]| |] eqn:AP; cbn [rbind]; try discriminate. destruct ok.
        * destruct (Activate _ _ _ _ _ _ _ m1 (fst a) c _ now) as [z| |] eqn:AC; cbn [rbind]; try discriminate. apply (activate_spec m1 (fst a) c k1 (kept now e t) now z T N1) in AC as (k2 & -> & A2 & P2).
          cbn [rbind]. rewrite better0. unfold m1. rewrite set_twice. cbn [m_store set_store]. rewrite upd_twice. intros H. apply okP in H. subst y. exists k2. split; [destruct a; reflexivity|]. split; [exact P2|]. split; [|intros Z0; contradiction Z0; reflexivity].
          intros _. left. exists t. split; [exists subs; auto|exact A2].
        * intros H. apply okP in H. subst y. exists k1. split; [reflexivity|]. split; [reflexivity|]. split; [|auto]. intros _. right. split; [|reflexivity]. intros t0 (s & E1 & E2 & E3). assert (s = subs) by congruence. subst s. congruence.
      + intros H. apply okP in H. subst y. exists k1. split; [reflexivity|]. split; [reflexivity|]. split; [|auto]. intros _. right. split; [|reflexivity]. intros t0 (s & E1 & E2 & E3). congruence.
    - intros H. apply okP in H. subst y. exists k1. split; [reflexivity|]. split; [reflexivity|]. split; [intros Z0; discriminate Z0|auto]. }
  destruct X2 as [y| |]; cbn [rbind]; try discriminate. destruct (S2 y eq_refl) as (k' & -> & P2 & F3 & F4). cbn [rbind]. intros H. apply okP in H. subst r.
  exists k'. split; [reflexivity|]. split; [|congruence]. exists k1. auto.
Qed.
#[local] Opaque process_body.
Lemma process_spec s e now s' d : e_type e = EVENT_TYPE_BELIEF -> 0 <= s_pid s -> tables_shaped (s_mem s) -> marks_below (s_pid s) (s_mem s) ->
  ProcessSensorimotorEvent nm av simdist pd threshold chance babbling_ops fuel s e now = Ok (s', d) ->
  exists m c, Conceptualize nm (s_mem s) (e_term e) now = Ok (m, c) /\ d = decision0 /\
  match c with
  | None => s' = set_mem s m
  | Some c => exists m1 m', (if copulaEquals nm (at_ (e_term e) 0) SEQUENCE && negb (hasVariable nm (e_term e) true true false)
                             then exists f, RingM.OccurrenceTimeIndex_Add c (m_ring m) = Ok f /\ m1 = set_ring m f else m1 = m) /\
      noticed_everywhere nm av simdist now e (s_pid s + 1) m1 m' /\ s' = set_mem (next_pid s) m'
  end.
Proof.
  intros T P0 TS MB. unfold ProcessSensorimotorEvent. destruct (rassert _) as [u| |]; cbn [rbind]; try discriminate.
  destruct (Conceptualize nm (s_mem s) (e_term e) now) as [[m c]| |] eqn:C; cbn [rbind]; try discriminate. intros H. exists m, c. split; [reflexivity|].
  destruct c as [c|]; [|apply okP in H; injection H as <- <-; auto].
  assert (KH : Forall (KP (s_pid s)) (m_store m)).
  { pose proof (h_conc nm (s_pid s) P0 (s_mem s) (e_term e) now) as X. rewrite C in X. apply X. unfold tables_shaped, marks_below in *. rewrite Forall_forall in *. intros k K. split; auto. }
  match type of H with (do m <- ?x ; _) = _ => destruct x as [m1| |] eqn:RG; cbn [rbind] in H; try discriminate H end.
  assert (EQ : m_store m1 = m_store m). { destruct (_ && _); [|congruence]. destruct (RingM.OccurrenceTimeIndex_Add c (m_ring m)) as [f| |]; cbn [rbind] in RG; try discriminate RG. apply okP in RG. subst m1. reflexivity. }
  destruct (related_foreach _ _ _ _ _ _) as [[m' a]| |] eqn:F; cbn [rbind] in H; try discriminate H. apply okP in H. injection H as <- <-.
  apply (everywhere_go _ _ (noticed nm av simdist now e) (fun a => a = (s_rng s, decision0))) in F.
  - destruct F as (-> & F). split; [reflexivity|]. exists m1, m'. split; [|split; [exact F|destruct s; reflexivity]].
    destruct (_ && _); [|congruence]. destruct (RingM.OccurrenceTimeIndex_Add c (m_ring m)) as [f| |]; cbn [rbind] in RG; try discriminate RG. exists f. split; [reflexivity|]. congruence.
  - intros m2 a2 c2 k r -> N B. apply (body_noticed e now m2 _ c2 k r T N) in B as (k' & -> & A1 & A2). exists k', (s_rng s, decision0). auto.
  - rewrite EQ. cbn [s_pid next_pid set_pids]. rewrite Forall_forall in KH. intros k K. destruct (KH k K) as [_ X]. lia.
  - reflexivity.
Qed.
End B.
