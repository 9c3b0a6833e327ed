(** C70: what executing a decision does. *)
From Coq Require Import ZArith List Bool Lia.
From Verif Require Import Base F64 TruthM StampM TermM TermS TermP TermP2 NamesM AtomsM EventM InferenceM TableM VariableM MemoryM NalM QuestionM DecisionM CycleM CycleS LearnS ExecS ExecP CompareP.
From Verif Require Import PropsMemory PropsQuestion PropsCycle.
Import ListNotations.
Local Open Scope Z_scope.
(** C70: whenever a decision is executed, first the conditions of the rule it is based on are
    compared with those of the other rules of the same operation and outcome; then the
    operation is done. *)
Theorem C70_execution : forall nm av simdist powdecay penalty layers aconf act fuel cyc s now d s',
  Decision_Execute nm av simdist powdecay penalty layers aconf act fuel cyc s now d = Ok s' ->
  exists m, conditions_compared nm powdecay penalty layers fuel now d (s_mem s) m /\ carried_out nm av simdist powdecay penalty layers aconf act fuel now cyc d (set_mem s m) s'.
Proof.
  intros nm av sd pd pen layers ca act fuel cyc s now d s'. unfold Decision_Execute. destruct (functional_equivalence nm pd pen layers fuel (s_mem s) now d) as [m| |] eqn:F; cbn [rbind]; try discriminate.
  intros H. exists m. split; [exact (functional_spec nm av pd pen layers fuel now (s_mem s) d m F)|eapply call_spec; exact H].
Qed.
Print Assumptions C70_execution.
(** C70, the statement told: <a ==> b>, whenever it fits in a term *)
Theorem C70_implication : forall a b, TermS.closed a -> TermS.closed b -> at_ a 0 <> 0 -> at_ b 0 <> 0 ->
  let '(ok, t) := implication_of a b in
  (ok = true <-> fits (tree_at a 0) 1 /\ fits (tree_at b 0) 2) /\
  (ok = true -> TermS.closed t /\ tree_at t 0 = N (copula_index IMPLICATION) (tree_at a 0) (tree_at b 0)).
Proof.
  intros a b CA CB NA NB. assert (NI : copula_index IMPLICATION <> 0) by (vm_compute; discriminate). pose proof (mk2_spec (copula_index IMPLICATION) a b NI CA CB NA NB) as M. unfold mk2 in M. unfold implication_of.
  destruct (Term_OverrideSubterm (upd zero_term 0 (copula_index IMPLICATION)) 1 a) as [ok1 t1]. destruct ok1.
  - destruct (Term_OverrideSubterm t1 2 b) as [ok2 t2]. cbn [andb]. destruct M as [M1 M2]. split; [exact M1|]. intros H. destruct (M2 H) as (X & _ & Y & _). split; [exact X|exact Y].
  - destruct (Term_OverrideSubterm t1 2 b) as [ok2 t2]. cbn [andb]. destruct M as [M1 _]. split; [exact M1|]. intros H. discriminate H.
Qed.
Print Assumptions C70_implication.
(** C70, the event fed back: the operation, or <arguments --> operation>, if it fits in a term *)
Theorem C70_feedback : forall op args, TermS.closed op -> TermS.closed args -> at_ op 0 <> 0 ->
  (at_ args 0 <= 0 -> feedback_term op args = Some op) /\
  (0 < at_ args 0 -> fits (tree_at args 0) 1 -> fits (tree_at op 0) 2 ->
     exists t, feedback_term op args = Some t /\ TermS.closed t /\ tree_at t 0 = N (copula_index INHERITANCE) (tree_at args 0) (tree_at op 0)) /\
  (0 < at_ args 0 -> ~ (fits (tree_at args 0) 1 /\ fits (tree_at op 0) 2) -> feedback_term op args = None).
Proof.
  intros op args CO CA NO. unfold feedback_term. destruct (Z.leb_spec (at_ args 0) 0) as [L|L]. { split; [reflexivity|]. split; intros H; exfalso; apply (Z.lt_irrefl 0), (Z.lt_le_trans _ _ _ H L). }
  split; [intros H; exfalso; apply (Z.lt_irrefl 0), (Z.lt_le_trans _ _ _ L H)|].
  assert (NI : copula_index INHERITANCE <> 0) by (vm_compute; discriminate). assert (NA : at_ args 0 <> 0) by (intros X; rewrite X in L; exact (Z.lt_irrefl 0 L)).
  pose proof (mk2_spec (copula_index INHERITANCE) args op NI CA CO NA NO) as M. unfold mk2 in M.
  destruct (Term_OverrideSubterm (upd zero_term 0 (copula_index INHERITANCE)) 1 args) as [ok1 t1]. destruct ok1.
  - destruct (Term_OverrideSubterm t1 2 op) as [ok2 t2]. destruct M as [M1 M2]. destruct ok2.
    + split; [|intros _ X; exfalso; apply X, M1; reflexivity]. intros _ _ _. exists t2. destruct (M2 eq_refl) as (X & _ & Y & _). auto.
    + split; [intros _ F1 F2; exfalso; assert (X : false = true) by (apply M1; split; assumption); discriminate X|reflexivity].
  - destruct M as [M1 _]. split; [intros _ F1 F2; exfalso; assert (X : false = true) by (apply M1; split; assumption); discriminate X|reflexivity].
Qed.
Print Assumptions C70_feedback.
(** Examples (a = 64, b = 65, c = 66, ^o0 = 67).  The rules <(a &/ ^o0) =/> c> and <(b &/ ^o0) =/> c> are
    alike, and <a ==> b> or <b ==> a> is learned from them; executing a decision for ^o0 does the
    operation and feeds it back. *)
Definition rule_of (p : Z) (id : Z) : implication :=
  mkImp (mk_term [copula_index TEMPORAL_IMPLICATION; copula_index SEQUENCE; 66; p; 67]) (@mkTruth f64A f1 (fdec 5 10)) (id :: repeat 0 9) f0 None 0 0.
Definition learned_kind (m : memory) : option (Z * Z * Z) := option_map (fun x => (at_ (e_term (fst x)) 0, at_ (e_term (fst x)) 1, at_ (e_term (fst x)) 2)) (snd (PopEvent (m_beliefs m))).
Definition some_kind (x : option (Z * Z * Z)) : bool := match x with Some (c, a, b) => (c =? copula_index IMPLICATION) && ((a =? 64) && (b =? 65) || (a =? 65) && (b =? 64)) | None => false end.
Example C70_alike : alike qn (rule_of 64 1) (rule_of 65 2) (atomic_term 64) (atomic_term 65).
Proof.
  unfold alike. cbv zeta. split; [vm_compute; reflexivity|]. split; [vm_compute; intros X; discriminate X|]. split; [|split; [vm_compute; reflexivity|split; [vm_compute; reflexivity|split; [vm_compute; reflexivity|]]]].
  - replace (GetPreconditionWithoutOp qn (Term_ExtractSubterm (i_term (rule_of 64 1)) 1)) with (atomic_term 64) by (vm_compute; reflexivity).
    replace (GetPreconditionWithoutOp qn (Term_ExtractSubterm (i_term (rule_of 65 2)) 1)) with (atomic_term 65) by (vm_compute; reflexivity). apply reduced_other. left. vm_compute. reflexivity.
  - intros X. apply StampP.stamp_overlap_spec in X. vm_compute in X. discriminate X.
Qed.
Definition chosen : decision := mkD f1 true (atomic_term 67) 1 zero_term imp0 imp0 imp0 None 0.
Definition idle (s : cstate) : res cstate := Ok s.
Definition exec_ex : res (memory * cstate) := do s <- c_start ; do m <- compare_links qn qpow ex_pen 1 60 (s_mem s) 1 (rule_of 64 1) (atomic_term 66) (rule_of 65 2) ;
  do s' <- Decision_Execute qn (fun _ => None) f1 qpow ex_pen 1 (@aconst f64A 1 100) ok_fb 60 idle s 1 chosen ; Ok (m, s').
Example C70_example : exists m s', exec_ex = Ok (m, s') /\ some_kind (learned_kind m) = true /\ List.length (s_trace s') = 1%nat /\
  option_map (fun x => (at_ (e_term (fst x)) 0)) (snd (PopEvent (m_beliefs (s_mem s')))) = Some 67.
Proof.
  destruct (res_ex' exec_ex (fun '(m, s') => some_kind (learned_kind m) && Nat.eqb (List.length (s_trace s')) 1 &&
    match snd (PopEvent (m_beliefs (s_mem s'))) with Some x => at_ (e_term (fst x)) 0 =? 67 | None => false end)) as ([m s'] & E & H); [vm_compute; reflexivity|].
  exists m, s'. split; [exact E|]. apply andb_prop in H as [H H3]. apply andb_prop in H as [H1 H2]. split; [exact H1|]. split; [apply Nat.eqb_eq; exact H2|].
  destruct (snd (PopEvent (m_beliefs (s_mem s')))) as [x|]; [|discriminate H3]. cbn [option_map]. f_equal. apply Z.eqb_eq. exact H3.
Qed.
