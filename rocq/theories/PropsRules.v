(** Property theorems C60: declarative inference follows exactly the rules documented in NAL.h. *)
From Coq Require Import ZArith List Bool Lia String.
From Verif Require Import Base F64 TruthM StampM TermM TermS TermP NamesM AtomsM VariableM EventM MemoryM MemoryS ParserM DecisionM NalM NalS NalP PropsNal EverywhereS ReadP RulesM RulesS RulesP RulesP2 RulesP3.
Local Open Scope Z_scope.
Import ListNotations.
#[local] Opaque rules reductions apply_tfun NAL_RULES NAL_REDUCTIONS.

(** C60: the rules the program applies are those written in NAL.h, read as Narsese terms, whatever
    the size of the symbol table. *)
Theorem C60_rules_read : forall cap st is, symbols cap [] = Ok (st, is) ->
  parse_all (parse_rule cap) st (flat_map generate NAL_RULES) = Ok (st, rules) /\
  parse_all (parse_reduction cap) st (flat_map generate_reduction NAL_REDUCTIONS) = Ok (st, reductions).
Proof.
  intros cap st is Y. destruct (ainv_symbols cap [] st is Y) as (AI & _ & NS). rewrite firsts_init in NS. split.
  - exact (pure_rules_ok cap st AI NS _ _ rules_pure).
  - exact (pure_reductions_ok cap st AI NS _ _ reductions_pure).
Qed.
Print Assumptions C60_rules_read.
Example C60_read_ex : exists cap st is, symbols cap [] = Ok (st, is). Proof. exact some_symbols. Qed.

Section Statements.
Variable nm : names.
(** C60: from two statements the program concludes c with truth v exactly when a two-premise rule
    of NAL.h, applied to them in one of the two orders with the rule's truth function, infers a
    statement that is c after reduction. *)
Theorem C60_two_premises : forall t1 t2 v1 v2 c v intro, statement t1 -> statement t2 ->
  (In (c, v, intro) (conclusions nm true t1 t2 v1 v2) <->
   exists c0, infers2 nm t1 v1 t2 v2 c0 v intro /\ c = RuleTable_Reduce nm c0).
Proof. intros. apply conclusions2; auto. Qed.
(** C60: the same for one premise *)
Theorem C60_one_premise : forall t v1 unused_t unused c v intro, statement t ->
  (In (c, v, intro) (conclusions nm false t unused_t v1 unused) <->
   intro = false /\ exists c0, infers1 nm t v1 unused c0 v /\ c = RuleTable_Reduce nm c0).
Proof. intros. apply conclusions1; auto. Qed.
(** ... whose truth does not depend on the truth value passed for the missing premise *)
Definition unary (f : tfun) : bool := match f with TNegation | TStructuralDeduction | TStructuralDeductionNegated | TStructuralIntersection | TConversion => true | _ => false end.
Lemma unary_ok f v a b : unary f = true -> apply_tfun f64A f v a = apply_tfun f64A f v b.
Proof. Transparent apply_tfun. destruct f; try discriminate; reflexivity. Qed.
#[local] Opaque apply_tfun.
Lemma one_premise_unary : forallb (fun e => match e with R1 _ _ f | R1Bidirectional _ _ f => unary f | _ => true end) NAL_RULES = true.
Proof. Transparent NAL_RULES. vm_compute. reflexivity. Qed.
#[local] Opaque NAL_RULES.
Theorem C60_missing_premise_irrelevant : forall t v1 a b c v, infers1 nm t v1 a c v -> infers1 nm t v1 b c v.
Proof.
  intros t v1 a b c v (p & q & f & P & C & IN & D1 & D2 & Y & ->). exists p, q, f, P, C. repeat (split; [assumption|]). apply unary_ok.
  pose proof one_premise_unary as U. rewrite forallb_forall in U. destruct IN as [H|[H|H]]; apply (U _ H).
Qed.
(** C60: a conclusion is reduced once by a documented reduction if any applies, else left alone *)
Theorem C60_reduction : forall t, statement t ->
  reduces nm t (RuleTable_Reduce nm t) \/ (RuleTable_Reduce nm t = t /\ forall r, ~ reduces nm t r).
Proof. intros. apply reduce_spec; auto. Qed.
(** C60: conclusions from well-formed statements are well-formed statements *)
Theorem C60_well_formed : forall double t1 t2 v1 v2 c v intro, statement t1 -> statement t2 ->
  In (c, v, intro) (conclusions nm double t1 t2 v1 v2) -> statement c.
Proof. intros double t1 t2 v1 v2 c v intro S1 S2. apply conclusions_statement; auto. Qed.

Variable powdecay : Z -> f64.
Variable penalty : nat -> f64.
Variable layers : nat.
Lemma apply_mentions (L : list (term * truth f64A * bool)) fuel d : forall m m', no_goals_among_beliefs m ->
  foldM (fun m '(c, v, vi) => DerivedEvent nm powdecay penalty layers fuel m c (with_dtruth d v) vi false) L m = Ok m' ->
  (forall t', mentioned m' t' -> mentioned m t' \/ t' = zero_term \/
     exists c v vi, In (c, v, vi) L /\ ~ implausible nm t' /\
      (t' = c \/ exists ext, IntroduceImplicationVariables nm c ext = Ok (true, t') \/ IntroduceConjunctionVariables nm c ext = Ok (true, t'))) /\
  m_goals m' = m_goals m /\ no_goals_among_beliefs m'.
Proof.
  induction L as [|[[c v] vi] L IH]; intros m m' G; cbn [foldM].
  - intros [= <-]. split; [|split]; auto.
  - destruct (DerivedEvent nm powdecay penalty layers fuel m c (with_dtruth d v) vi false) as [m1| |] eqn:D; cbn [rbind]; try discriminate. intros H.
    destruct (C49_derivation nm powdecay penalty layers fuel m c (with_dtruth d v) vi false m1 G D) as (A & B & C).
    destruct (IH m1 m' C H) as (A' & B' & C'). split; [|split; [congruence|auto]]. intros t' M. destruct (A' t' M) as [M1|[Z0|(c' & v' & vi' & I1 & X)]].
    + destruct (A t' M1) as [M2|[Z0|X]]; auto. right. right. exists c, v, vi. split; [left; auto|auto].
    + auto.
    + right. right. exists c', v', vi'. split; [right; auto|auto].
Qed.
(** C60, effect on memory: after the rules were applied to two beliefs, every term in memory was
    there before, is the empty term of unused storage, or is a reduced conclusion of a documented
    rule, possibly with variables introduced.  Goals do not change. *)
Theorem C60_memory : forall fuel m t1 t2 v1 v2 d m', no_goals_among_beliefs m -> statement t1 -> statement t2 ->
  RuleTable_Apply nm powdecay penalty layers fuel m true t1 t2 v1 v2 d = Ok m' ->
  (forall t', mentioned m' t' -> mentioned m t' \/ t' = zero_term \/
     exists c0 v vi c, infers2 nm t1 v1 t2 v2 c0 v vi /\ c = RuleTable_Reduce nm c0 /\ ~ implausible nm t' /\
      (t' = c \/ exists ext, IntroduceImplicationVariables nm c ext = Ok (true, t') \/ IntroduceConjunctionVariables nm c ext = Ok (true, t'))) /\
  m_goals m' = m_goals m /\ no_goals_among_beliefs m'.
Proof.
  intros fuel m t1 t2 v1 v2 d m' G S1 S2 H. destruct (apply_mentions _ fuel d m m' G H) as (A & B & C). split; [|auto]. intros t' M.
  destruct (A t' M) as [X|[X|(c & v & vi & I1 & X)]]; auto. apply C60_two_premises in I1 as (c0 & I1 & E1); auto. right. right. exists c0, v, vi, c. tauto.
Qed.
Theorem C60_memory_one_premise : forall fuel m t unused_t v unused d m', no_goals_among_beliefs m -> statement t ->
  RuleTable_Apply nm powdecay penalty layers fuel m false t unused_t v unused d = Ok m' ->
  (forall t', mentioned m' t' -> mentioned m t' \/ t' = zero_term \/
     exists c0 w c, infers1 nm t v unused c0 w /\ c = RuleTable_Reduce nm c0 /\ ~ implausible nm t' /\
      (t' = c \/ exists ext, IntroduceImplicationVariables nm c ext = Ok (true, t') \/ IntroduceConjunctionVariables nm c ext = Ok (true, t'))) /\
  m_goals m' = m_goals m /\ no_goals_among_beliefs m'.
Proof.
  intros fuel m t u v1 v2 d m' G S1 H. destruct (apply_mentions _ fuel d m m' G H) as (A & B & C). split; [|auto]. intros t' M.
  destruct (A t' M) as [X|[X|(c & v & vi & I1 & X)]]; auto. apply C60_one_premise in I1 as (_ & c0 & I1 & E1); auto. right. right. exists c0, v, c. tauto.
Qed.
End Statements.
Print Assumptions C60_two_premises.
Print Assumptions C60_one_premise.
Print Assumptions C60_missing_premise_irrelevant.
Print Assumptions C60_reduction.
Print Assumptions C60_well_formed.
Print Assumptions C60_memory.
Print Assumptions C60_memory_one_premise.

(** ** examples: <robin --> bird>, <bird --> animal> with atoms 64, 65, 66 *)
Definition inh (a b : Z) : term := mk_term [45; a; b].
Example C60_statement_ex : statement (inh 64 65) /\ statement (inh 65 66) /\ inh 64 65 <> inh 65 66.
Proof.
  split; [|split; [|discriminate]]; (split; [apply closedb_ok; vm_compute; reflexivity|split; [vm_compute; discriminate|apply wfb_ok; vm_compute; reflexivity]]).
Qed.
Lemma conclude_in double t1 t2 v1 v2 r c : In r rules -> apply_rule init_list r double t1 t2 = Some c ->
  In (RuleTable_Reduce init_list c, if r_switch r then apply_tfun f64A (r_f r) v2 v1 else apply_tfun f64A (r_f r) v1 v2, r_intro r) (conclusions init_list double t1 t2 v1 v2).
Proof. intros H A. unfold conclusions. apply in_flat_map. exists r. split; [auto|]. rewrite A. left. reflexivity. Qed.
Definition rule_ded : prule := mkR (mk_term [45; 33; 31]) (Some (mk_term [45; 31; 34])) (mk_term [45; 33; 34]) TDeduction false false.
Definition rule_sym : prule := mkR (mk_term [46; 33; 34]) None (mk_term [46; 34; 33]) TStructuralIntersection false false.
Transparent rules reductions.
Lemma rule_ded_in : nth_error rules 0 = Some rule_ded. Proof. vm_compute. reflexivity. Qed.
Lemma rule_sym_in : nth_error rules 12 = Some rule_sym. Proof. vm_compute. reflexivity. Qed.
Lemma ded_ex : apply_rule init_list rule_ded true (inh 64 65) (inh 65 66) = Some (inh 64 66). Proof. vm_compute. reflexivity. Qed.
Lemma sym_ex : apply_rule init_list rule_sym false (mk_term [46; 64; 65]) zero_term = Some (mk_term [46; 65; 64]). Proof. vm_compute. reflexivity. Qed.
Lemma ded_red : RuleTable_Reduce init_list (inh 64 66) = inh 64 66. Proof. vm_compute. reflexivity. Qed.
Lemma sym_red : RuleTable_Reduce init_list (mk_term [46; 65; 64]) = mk_term [46; 65; 64]. Proof. vm_compute. reflexivity. Qed.
Opaque rules reductions apply_rule RuleTable_Reduce.
(** deduction *)
Example C60_two_premises_ex : forall v1 v2, In (inh 64 66, apply_tfun f64A TDeduction v1 v2, false) (conclusions init_list true (inh 64 65) (inh 65 66) v1 v2).
Proof.
  intros v1 v2. pose proof (conclude_in true _ _ v1 v2 _ _ (nth_error_In _ _ rule_ded_in) ded_ex) as H. rewrite ded_red in H. exact H.
Qed.
(** symmetry of similarity *)
Example C60_one_premise_ex : forall v u, In (mk_term [46; 65; 64], apply_tfun f64A TStructuralIntersection v u, false) (conclusions init_list false (mk_term [46; 64; 65]) zero_term v u).
Proof.
  intros v1 v2. pose proof (conclude_in false _ _ v1 v2 _ _ (nth_error_In _ _ rule_sym_in) sym_ex) as H. rewrite sym_red in H. exact H.
Qed.
(** (a && a) reduces to a *)
Example C60_reduction_ex : RuleTable_Reduce init_list (mk_term [44; 64; 64]) = mk_term [64].
Proof. Transparent rules reductions apply_rule RuleTable_Reduce. vm_compute. reflexivity. Qed.
(** nothing is inferred from two unrelated statements *)
Lemma none_check : forallb (fun r => match apply_rule init_list r true (inh 64 65) (inh 66 67) with None => true | _ => false end) rules = true.
Proof. vm_compute. reflexivity. Qed.
Example C60_none_ex : forall v1 v2 x, ~ In x (conclusions init_list true (inh 64 65) (inh 66 67) v1 v2).
Proof.
  intros v1 v2 x H. unfold conclusions in H. apply in_flat_map in H as (r & I1 & H). pose proof none_check as N. rewrite forallb_forall in N. specialize (N r I1).
  destruct (apply_rule init_list r true (inh 64 65) (inh 66 67)); [discriminate|destruct H].
Qed.
