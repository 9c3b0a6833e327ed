(** Proofs about learning from two events (C66). *)
From Coq Require Import ZArith List Bool Lia.
From Verif Require Import Base F64 TruthM StampM StampP TermM TermS TermP TermP2 NamesM AtomsM EventM InferenceM TableM VariableM MemoryM MemoryS MemoryP2 MemoryP3 NalM NalS NalP QuestionM DecisionM CycleM CycleS EverywhereP CycleP1 CycleP2 SysS SysP AddS AddP AddP2 LearnS.
Import ListNotations.
Local Open Scope nat_scope.
#[local] Opaque fofZ fdec fadd fmul fdiv fltb fleb Term_ExtractSubterm AddEvent Truth_Projection Truth_Induction Term_OverrideSubterm IntroduceImplicationVariables rejected zero_term.
(** the table of symbols starts with the built-in ones *)
Lemma lives_names cmax buckets atoms bmax gmax layers nm s : lives cmax buckets atoms bmax gmax layers nm s -> exists rest, nm = init_list ++ rest.
Proof.
  induction 1 as [m rng E|nm s m L IH E|nm s more L (rest & ->)|nm s ops r t g L IH O|nm s nm' av sd pw now q th pr t tense m out L IH Q|nm s p c s' L IH EN EL KA KC H]; auto; try (exists []; rewrite app_nil_r; reflexivity).
  exists (rest ++ more). symmetry. apply app_assoc.
Qed.
Lemma temporal_root rest : let nm := init_list ++ rest in let a := copula_index TEMPORAL_IMPLICATION in
  copulaEquals nm a TEMPORAL_IMPLICATION = true /\ copulaEquals nm a IMPLICATION = false /\ copulaEquals nm a EQUIVALENCE = false.
Proof. vm_compute. auto. Qed.
Section L.
Variable nm : names.
Variable pd : Z -> f64.
Variable pen : nat -> f64.
Variable layers fuel : nat.
Notation Add := (AddEvent nm pd pen layers fuel).
Notation P := (fmul (fmul f1 f1)).
(** telling a belief derived from two events *)
Definition tells (time : Z) (a b : event) (t : term) (m m' : memory) : Prop :=
  Add m (EVal (connection pd time a b t)) time (P (Truth_Expectation f64A (connection_truth pd a b))) false false 0 = Ok m'.
Notation dv a b time := (mkDv time (connection_truth pd a b) (stamp_make (e_stamp a) (e_stamp b)) time f1 f1 (double_of (e_occ b - e_occ a)%Z) None 0%Z).
Lemma add_derived_spec time a b t m m' : add_derived nm pd pen layers fuel m t (dv a b time) = Ok m' ->
  implausible nm t /\ m' = m \/ ~ implausible nm t /\ tells time a b t m m'.
Proof.
  unfold add_derived. cbn [dv_valid rbind negb]. destruct (rejected nm t) as [r| |] eqn:R; cbn [rbind]; try discriminate. pose proof (rejected_exact nm t r R) as X.
  destruct r; intros H.
  - left. split; [apply X; reflexivity|]. injection H as <-. reflexivity.
  - right. split; [|exact H]. intros Y. apply X in Y. discriminate Y.
Qed.
Lemma intro_spec time a b t ext m m' : intro_derived nm pd pen layers fuel m t (dv a b time) (IntroduceImplicationVariables nm t ext) true false = Ok m' ->
  generalised nm t ext (tells time a b) m m'.
Proof.
  unfold intro_derived, generalised, generalisation. destruct (IntroduceImplicationVariables nm t ext) as [[ok t']| |]; cbn [rbind]; try discriminate.
  cbn [negb orb andb]. rewrite andb_true_r.
  destruct (ok && negb (term_eqb t' t) && negb (HOLStatementComponentHasInvalidInhOrSim nm t') && negb (DeclarativeImplicationWithoutIndependentVar nm t')) eqn:B; intros H.
  - apply andb_prop in B as [B B4]. apply andb_prop in B as [B B3]. apply andb_prop in B as [B1 B2]. apply negb_true_iff in B2, B3, B4. subst ok.
    assert (N : t' <> t) by (intros Q; apply term_eqb_spec in Q; congruence). apply add_derived_spec in H as [[H1 H2]|[H1 H2]].
    + right. split; auto. intros t0 (Q & _). assert (t0 = t') as -> by congruence. exact H1.
    + left. exists t'. auto.
  - right. split; [|congruence]. intros t0 (Q & N & X & Y). assert (ok = true /\ t0 = t') as [-> ->] by (split; congruence). exfalso.
    rewrite X, Y in B. cbn [andb negb] in B. rewrite !andb_true_r in B. apply negb_false_iff in B. apply term_eqb_spec in B. auto.
Qed.
Lemma learn_spec time a b t m m' : copulaEquals nm (at_ t 0) TEMPORAL_IMPLICATION = true -> copulaEquals nm (at_ t 0) IMPLICATION = false -> copulaEquals nm (at_ t 0) EQUIVALENCE = false ->
  DerivedEvent nm pd pen layers fuel m t (dv a b time) true false = Ok m' ->
  exists m0 m1, generalised nm t true (tells time a b) m m0 /\ generalised nm t false (tells time a b) m0 m1 /\
    (implausible nm t /\ m' = m1 \/ ~ implausible nm t /\ tells time a b t m1 m').
Proof.
  intros T1 T2 T3. unfold DerivedEvent. rewrite T1, T2, T3. cbn [orb andb negb].
  destruct (intro_derived nm pd pen layers fuel m _ _ _ _ _) as [m0| |] eqn:E0; cbn [rbind]; try discriminate.
  destruct (intro_derived nm pd pen layers fuel m0 _ _ _ _ _) as [m1| |] eqn:E1; cbn [rbind]; try discriminate.
  intros H. exists m0, m1. split; [apply intro_spec; exact E0|]. split; [apply intro_spec; exact E1|]. apply add_derived_spec; exact H.
Qed.
End L.
Section W.
Variables cmax buckets atoms bmax gmax layers : nat.
Hypothesis SZ : sizes_ok cmax buckets atoms bmax gmax layers.
Hypothesis A64 : 64 <= atoms.
Variable rest : names.
Notation nm := (init_list ++ rest).
Variable pd : Z -> f64.
Variable pen : nat -> f64.
Variable fuel : nat.
Notation Tell := (tells nm pd pen layers fuel).
Notation T := (known atoms nm).
Notation J := (Jm cmax atoms bmax gmax layers nm).
Notation inv := (Inv T J).
Lemma N63 : 63 <= List.length nm. Proof. rewrite app_length. pose proof list63. lia. Qed.
Notation JC := (Jm_jclosed cmax buckets atoms bmax gmax layers SZ A64 nm N63 pd pen fuel).
Notation TC := (known_tc atoms A64 nm N63).
Lemma tells_inv time a b t m m' : inv m -> T t -> Tell time a b t m m' -> inv m' /\ m_ops m' = m_ops m.
Proof.
  intros I K E. pose proof (k_add nm pd pen layers fuel T TC J JC m (connection pd time a b t) time (fmul (fmul f1 f1) (Truth_Expectation f64A (connection_truth pd a b))) false false 0 I) as X.
  unfold tells in E. rewrite E in X. destruct X as (X1 & X2); [split; [exact K|discriminate]|]. split; [exact X1|apply X2].
Qed.
Lemma gen_inv time a b t ext m m' : inv m -> T t -> generalised nm t ext (Tell time a b) m m' -> inv m' /\ m_ops m' = m_ops m.
Proof.
  intros I K [(t' & (G & _) & _ & E)|[_ ->]]; [|auto]. eapply tells_inv; [exact I| |exact E]. change t' with (snd (true, t')). eapply t_intro; [exact TC|exact K|exact G].
Qed.
Definition tri (a b : term) : term := snd (mk2 (copula_index TEMPORAL_IMPLICATION) a b).
Lemma reinforce_spec m time a b m' : inv m -> T (e_term a) -> T (e_term b) -> TermS.closed (e_term a) -> TermS.closed (e_term b) -> at_ (e_term a) 0 <> 0%Z -> at_ (e_term b) 0 <> 0%Z ->
  ReinforceLink nm pd pen layers fuel m time a b = Ok m' ->
  (~ connectable nm m a b -> m' = m) /\
  (connectable nm m a b -> (e_occ a <= e_occ b)%Z /\
    let fit := fits (tree_at (e_term a) 0) 1 /\ fits (tree_at (e_term b) 0) 2 in
    let weak := fltb (confidence (connection_truth pd a b)) (fdec 1 100) in
    (~ fit \/ weak = true -> m' = m) /\
    (fit -> weak = false -> exists t m0 m1, temporal_implication t (e_term a) (e_term b) /\ T t /\
       generalised nm t true (Tell time a b) m m0 /\ generalised nm t false (Tell time a b) m0 m1 /\ inv m1 /\ m_ops m1 = m_ops m /\
       (implausible nm t /\ m' = m1 \/ ~ implausible nm t /\ Tell time a b t m1 m'))).
Proof.
  intros I Ka Kb Ca Cb Na Nb. pose proof (iv_j _ _ _ I) as IJ. unfold ReinforceLink.
  destruct (Z.eqb_spec (e_type a) EVENT_TYPE_BELIEF) as [Ta|Ta]; cbn [negb orb];
    [|intros H; split; [congruence|intros (X & _); contradiction]].
  destruct (Z.eqb_spec (e_type b) EVENT_TYPE_BELIEF) as [Tb|Tb]; cbn [negb orb];
    [|intros H; split; [congruence|intros (_ & X & _); contradiction]].
  destruct (find_stores false nm cmax buckets atoms bmax gmax layers SZ T m (GetPreconditionWithoutOp nm (e_term a)) IJ) as (ra & Fa & Ha). rewrite Fa. cbn [rbind].
  destruct (find_stores false nm cmax buckets atoms bmax gmax layers SZ T m (e_term b) IJ) as (rb & Fb & Hb). rewrite Fb. cbn [rbind].
  destruct ra as [A|]; [|intros H; split; [congruence|intros (_ & _ & (c & k & X) & _); assert (Q : None = Some c) by (apply Ha; eauto); discriminate Q]].
  destruct rb as [B|]; [|intros H; split; [congruence|intros (_ & _ & _ & (c & k & X) & _); assert (Q : None = Some c) by (apply Hb; eauto); discriminate Q]].
  destruct (proj1 (Ha A) eq_refl) as (ka & Sa & Qa). destruct (proj1 (Hb B) eq_refl) as (kb & Sb & Qb).
  destruct (Nat.eqb_spec A B) as [Q|Q]; cbn [orb].
  { intros H. split; [congruence|]. intros (_ & _ & _ & _ & X & _). subst B. assert (ka = kb) by (eapply stores_uniq; eauto). subst. congruence. }
  assert (NE : GetPreconditionWithoutOp nm (e_term a) <> e_term b).
  { intros X. apply Q. rewrite X in Ha. assert (Some A = Some B) by (apply Ha; eauto). congruence. }
  destruct (stamp_check_overlap (e_stamp a) (e_stamp b)) eqn:OV.
  { apply stamp_overlap_spec in OV. intros H. split; [congruence|]. intros (_ & _ & _ & _ & _ & X). contradiction. }
  assert (OV' : ~ exists id, In id (ids (e_stamp a)) /\ In id (ids (e_stamp b))) by (intros X; apply stamp_overlap_spec in X; congruence).
  intros H. split; [intros X; exfalso; apply X; repeat split; auto; [exists A, ka|exists B, kb]; auto|]. intros _.
  unfold BeliefInduction in H. destruct (Z.leb_spec (e_occ a) (e_occ b)) as [LE|LE]; cbn [rassert rbind] in H; [|discriminate H]. split; [exact LE|]. cbv zeta.
  pose proof (mk2_spec (copula_index TEMPORAL_IMPLICATION) _ _ ltac:(discriminate) Ca Cb Na Nb) as M.
  assert (TT : T (tri (e_term a) (e_term b))).
  { unfold tri, mk2. pose proof (to T TC (upd zero_term 0 (copula_index TEMPORAL_IMPLICATION)) 1 (e_term a)) as X. destruct (Term_OverrideSubterm _ 1 (e_term a)) as [ok t]. cbn [snd] in X.
    assert (X' : T t). { apply X; [|exact Ka]. apply (tu T TC); [apply (t0 T TC)|]. apply t_copula. }
    destruct ok; [|exact X']. pose proof (to T TC t 2 (e_term b) X' Kb) as Z. exact Z. }
  unfold tri in TT. unfold mk2 in M, TT.
  destruct (Term_OverrideSubterm (upd zero_term 0 (copula_index TEMPORAL_IMPLICATION)) 1 (e_term a)) as [[] t1].
  2:{ destruct M as [M1 M2]. cbn [rbind] in H. assert (m' = m) by (cbn in H; congruence). split; [auto|]. intros F. apply M1 in F. discriminate F. }
  destruct (Term_OverrideSubterm t1 2 (e_term b)) as [[] t2]; destruct M as [M1 M2].
  2:{ cbn in H. assert (m' = m) by congruence. split; [auto|]. intros F. apply M1 in F. discriminate F. }
  destruct (M2 eq_refl) as (Q1 & Q2 & Q3 & Q4 & Q5). cbn [rbind i_term i_truth i_stamp i_offset andb] in H. fold (connection_truth pd a b) in H. change (MIN_CONFIDENCE f64A) with (fdec 1 100) in H.
  cbn [snd] in TT. destruct (fltb (confidence (connection_truth pd a b)) (fdec 1 100)) eqn:W; cbn [negb] in H.
  - split; [congruence|]. intros _ X. discriminate X.
  - split; [intros [X|X]; [exfalso; apply X, M1; reflexivity|discriminate X]|]. intros _ _.
    destruct (temporal_root rest) as (R1 & R2 & R3). rewrite <- Q2 in R1, R2, R3.
    destruct (learn_spec nm pd pen layers fuel time a b t2 m m' R1 R2 R3 H) as (m0 & m1 & G0 & G1 & F).
    destruct (gen_inv time a b t2 true m m0 I TT G0) as [I0 O0]. destruct (gen_inv time a b t2 false m0 m1 I0 TT G1) as [I1 O1].
    exists t2, m0, m1. split; [split; [exact Q1|auto]|]. split; [exact TT|]. split; [exact G0|]. split; [exact G1|]. split; [exact I1|]. split; [congruence|]. exact F.
Qed.
End W.
