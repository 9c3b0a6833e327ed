(** What is kept by everything a reasoning cycle does to its memory: types of events, a property
    [T] of the terms, and any memory invariant [J] kept by the elementary operations. *)
From Coq Require Import ZArith List Bool Lia.
From Flocq Require Import IEEE754.BinarySingleNaN.
From Verif Require Import Base F64 TruthM StampM TermM NamesM EventM InferenceM TableM UsageM RingM InvIndexM VariableM MemoryM QuestionM DecisionM NalM RulesM CycleM EverywhereS EverywhereP.
From Verif Require PQueueM HashTableM.
Local Open Scope nat_scope.
Import ListNotations.
#[local] Opaque Term_ExtractSubterm Term_OverrideSubterm zero_term RevisionAndChoice OccurrenceTimeIndex_Add Term_Complexity fmul fltb fleb feqb
  HashTableM.HashTable_Get HashTableM.HashTable_Delete HashTableM.HashTable_Set InvertedAtomIndex_RemoveConcept InvertedAtomIndex_AddConcept
  PQueueM.push copulaEquals Truth_Expectation stamp_check_overlap stamp_equal fmax.

Lemma okinj {A} (a b : A) : Ok a = Ok b -> a = b. Proof. congruence. Qed.
(** ** terms *)
Record tclosed (T : term -> Prop) : Prop := {
  tc_0 : T zero_term;
  tc_ext : forall t j, T t -> T (Term_ExtractSubterm t j);
  tc_over : forall t i s, T t -> T s -> T (snd (Term_OverrideSubterm t i s));
  tc_upd : forall t i a, T t -> (0 <= a < 64)%Z -> T (upd t i a) }.
Section Terms.
Variable nm : names.
Variable T : term -> Prop.
Hypothesis TC : tclosed T.
Lemma t0 : T zero_term. Proof. apply TC. Qed.
Lemma te t j : T t -> T (Term_ExtractSubterm t j). Proof. apply TC. Qed.
Lemma to t i s : T t -> T s -> T (snd (Term_OverrideSubterm t i s)). Proof. apply TC. Qed.
Lemma to' t i s b r : Term_OverrideSubterm t i s = (b, r) -> T t -> T s -> T r.
Proof. intros E A B. pose proof (to t i s A B) as H. rewrite E in H. exact H. Qed.
Lemma tu t i a : T t -> (0 <= a < 64)%Z -> T (upd t i a). Proof. apply TC. Qed.
Lemma tmap m a : Forall T m -> T (lookup_map m a).
Proof. intros F. unfold lookup_map. apply Forall_nth'; auto using t0. Qed.
Lemma index_small c l : forall k, (0 <= k)%Z -> (k + Z.of_nat (length l) <= 64)%Z -> (0 <= index_from k c l < 64)%Z.
Proof. induction l as [|x l IH]; intros k A B; cbn [index_from length] in *; [lia|]. destruct (_ =? _)%Z; [lia|]. apply IH; lia. Qed.
Lemma t_copula c : (0 <= copula_index c < 64)%Z.
Proof. apply index_small; [lia|vm_compute; congruence]. Qed.
Lemma t_unify_loop av simdist tr0 g s q l : forall m tr r, T s -> Forall T m ->
  VariableM.unify_loop nm av simdist tr0 g s q l m tr = Ok r -> Forall T (s_map r).
Proof.
  induction l as [|i l IH]; intros m tr r S F; cbn [VariableM.unify_loop]; [intros H; inversion H; subst; exact F|].
  cbv zeta. assert (Z0 : forall b t, Ok (mkSubst m b t) = Ok r -> Forall T (s_map r)) by (intros b t H; inversion H; subst; exact F).
  destruct (_ =? 0)%Z; [apply IH; auto|]. destruct (if q then _ else _).
  - destruct (rassert _); cbn [rbind]; try discriminate. destruct (_ && _); [apply Z0|]. destruct (_ && _); [apply Z0|].
    destruct (copulaEquals _ _ _); [apply Z0|]. apply IH; auto. apply Forall_upd; auto. apply te, S.
  - destruct (_ =? _)%Z; [apply IH; auto|]. destruct (feqb _ _); [apply Z0|].
    destruct (hasAtomValue av (at_ g i)) as [[|]| |]; cbn [rbind negb]; try discriminate; [|apply Z0].
    destruct (hasAtomValue av (at_ s i)) as [[|]| |]; cbn [rbind negb]; try discriminate; [|apply Z0].
    destruct (value_similarity _ _ _ _); [|apply Z0]. destruct (feqb _ _); [apply Z0|]. apply IH; auto.
Qed.
Lemma t_unifyA av simdist tr g s r : T s -> UnifyWithAnalogy nm av simdist tr g s = Ok r -> Forall T (s_map r).
Proof. intros S. unfold UnifyWithAnalogy, Unify2. apply t_unify_loop; auto. apply Forall_repeat, t0. Qed.
Lemma t_unify av simdist g s r : T s -> Unify nm av simdist g s = Ok r -> Forall T (s_map r).
Proof. apply t_unifyA. Qed.
Lemma t_apply_loop m l : Forall T m -> forall g ok r, T g -> apply_loop nm m l g ok = Ok r -> T (fst r).
Proof.
  intros F. induction l as [|i l IH]; intros g ok r G; cbn [apply_loop]; [intros H; inversion H; subst; exact G|].
  cbv zeta. destruct (rassert _); cbn [rbind]; try discriminate. destruct (_ && _); [|apply IH; auto].
  destruct (Term_OverrideSubterm g i _) as [o g'] eqn:O. apply IH. eapply to'; eauto. apply tmap, F.
Qed.
Lemma t_apply t s r ok : T t -> Forall T (s_map s) -> ApplySubstitute nm t s = Ok (r, ok) -> T r.
Proof.
  intros A B. unfold ApplySubstitute. destruct (rassert _); cbn [rbind]; try discriminate. intros H. apply (t_apply_loop _ _ B _ _ _ A) in H. exact H.
Qed.
Lemma t_atomic a : (0 <= a < 64)%Z -> T (atomic_term a). Proof. intros H. unfold atomic_term. apply tu; auto using t0. Qed.
Lemma id9 id : forall l, find l [1;2;3;4;5;6;7;8;9]%Z = Some id -> (1 <= id <= 9)%Z.
Proof. intros l H. apply find_some in H as [H _]. cbn in H. intuition lia. Qed.
Definition vsok (s : vstate) : Prop := (0 <= v_dep s)%Z /\ (0 <= v_indep s)%Z /\ (forall a, 0 <= v_ids s a)%Z /\ T (v_term s).
(** numbers of variables are positive where used *)
Definition vsok' (b : bool) (s : vstate) : Prop := ((if b then 1 <= v_indep s else True) /\ 1 <= v_dep s)%Z /\ (forall a, 0 <= v_ids s a)%Z /\ T (v_term s).
Lemma put_ok b indep i atom s : (indep = true -> b = true) -> vsok' b s -> vsok' b (snd (put_var indep i atom s)) .
Proof.
  intros BI ((D1 & D2) & IDS & TT). unfold put_var. cbv zeta.
  set (id := if (v_ids s atom =? 0)%Z then _ else _).
  assert (ID1 : (1 <= id)%Z).
  { unfold id. destruct (Z.eqb_spec (v_ids s atom) 0) as [E|E]; [|specialize (IDS atom); lia]. destruct indep; [rewrite (BI eq_refl) in D1|]; lia. }
  set (s' := if (v_ids s atom =? 0)%Z then mkV _ _ _ _ else s).
  assert (S' : vsok' b s').
  { unfold s'. destruct (_ =? 0)%Z; [|repeat split; auto]. unfold vsok'. cbn [v_dep v_indep v_ids v_term]. repeat split; auto.
    - destruct b; auto. destruct indep; lia.
    - destruct indep; lia.
    - intros a. destruct (_ =? _)%Z; auto. lia. }
  clearbody s'. destruct (Z.leb_spec id 9) as [L|L]; [|exact S'].
  destruct (Term_OverrideSubterm _ _ _) as [o t] eqn:O. cbn [snd]. destruct S' as (A & B & C). split; [exact A|]. split; [exact B|].
  cbn [v_term]. eapply to'; eauto. apply t_atomic. unfold indep_atom, dep_atom. destruct indep; lia.
Qed.
Lemma t_imp_loop o cl cr co b l : forall s, vsok' true s -> T (snd (intro_imp_loop o cl cr co b l s)).
Proof.
  induction l as [|i l IH]; intros s V; cbn [intro_imp_loop]; [apply V|]. cbv zeta.
  destruct (_ || _); [|apply IH; auto]. destruct (_ && _); [apply IH; auto|].
  destruct (put_var _ _ _ _) as [ok s'] eqn:P. pose proof (put_ok true (negb (cl (at_ o i) =? 0)%Z && negb (cr (at_ o i) =? 0)%Z) i (at_ o i) s ltac:(auto) V) as V'.
  rewrite P in V'. cbn [snd] in V'. destruct ok; [apply IH; auto|]. apply V'.
Qed.
Lemma t_conj_loop o c l : forall s, vsok' false s -> T (snd (intro_conj_loop o c l s)).
Proof.
  induction l as [|i l IH]; intros s V; cbn [intro_conj_loop]; [apply V|]. cbv zeta.
  destruct (_ <=? _)%Z; [|apply IH; auto].
  destruct (put_var _ _ _ _) as [ok s'] eqn:P. pose proof (put_ok false false i (at_ o i) s ltac:(auto) V) as V'.
  rewrite P in V'. cbn [snd] in V'. destruct ok; [apply IH; auto|]. apply V'.
Qed.
Lemma newvar_ok t b : (newVarID t b =? 0)%Z = false -> (1 <= newVarID t b)%Z.
Proof. unfold newVarID. destruct (find _ _) eqn:E; [|discriminate]. intros _. apply id9 in E. lia. Qed.
Lemma t_intro2 t ext side r : T t -> IntroduceImplicationVariables2 nm t ext side = Ok r -> T (snd r).
Proof.
  intros H. unfold IntroduceImplicationVariables2. destruct (rassert _); cbn [rbind]; try discriminate. cbv zeta.
  destruct (if ext then _ else _) as [isop opseq]. destruct ((newVarID t false =? 0)%Z || (newVarID t true =? 0)%Z) eqn:N; intros E; apply okinj in E; rewrite <- E; [exact H|].
  apply orb_false_iff in N as [N1 N2]. apply t_imp_loop. unfold vsok'. cbn [v_dep v_indep v_ids v_term]. repeat split; auto using newvar_ok. lia.
Qed.
Lemma t_intro t ext r : T t -> IntroduceImplicationVariables nm t ext = Ok r -> T (snd r). Proof. apply t_intro2. Qed.
Lemma t_introc t ext r : T t -> IntroduceConjunctionVariables nm t ext = Ok r -> T (snd r).
Proof.
  intros H. unfold IntroduceConjunctionVariables. destruct (rassert _); cbn [rbind]; try discriminate. cbv zeta.
  destruct (newVarID t false =? 0)%Z eqn:N; intros E; apply okinj in E; rewrite <- E; [exact H|].
  apply t_conj_loop. unfold vsok'. cbn [v_dep v_indep v_ids v_term]. repeat split; auto using newvar_ok. lia.
Qed.
Lemma t_sequence a b : T a -> T b -> T (snd (Narsese_Sequence a b)).
Proof.
  intros A B. unfold Narsese_Sequence. cbv zeta. pose proof (t_copula SEQUENCE) as C. destruct (Term_OverrideSubterm _ 1 a) as [o1 r1] eqn:E1.
  assert (T1 : T r1) by (eapply to'; eauto; apply tu; auto using t0).
  destruct o1; [|apply t0]. destruct (Term_OverrideSubterm r1 2 b) as [o2 r2] eqn:E2. destruct o2; [|apply t0]. cbn [snd]. eapply to'; eauto.
Qed.
Lemma t_precond t : T t -> T (GetPreconditionWithoutOp nm t).
Proof.
  unfold GetPreconditionWithoutOp. generalize 7. intros n. revert t. induction n as [|n IH]; intros t H; cbn [GetPreconditionWithoutOp_fuel]; auto.
  destruct (_ && _); auto. apply IH, te, H.
Qed.
Lemma t_append a b : T a -> T b -> T (snd (OperationSequenceAppendLeftNested nm a b)).
Proof.
  unfold OperationSequenceAppendLeftNested. generalize 7. intros n. revert a b. induction n as [|n IH]; intros a b A B; cbn [OpSeqAppend_fuel]; auto.
  destruct (copulaEquals _ _ _).
  - pose proof (IH a (Term_ExtractSubterm b 1) A (te _ _ B)) as H. destruct (OpSeqAppend_fuel _ n a _) as [o s]. cbn [snd] in H.
    destruct o; auto. apply IH; auto using te.
  - destruct (isOperation _ _); auto. destruct (_ =? 0)%Z; auto. apply t_sequence; auto.
Qed.
Lemma t_op t : T t -> T (getOperationTerm nm t).
Proof.
  unfold getOperationTerm. generalize 7. intros n. revert t. induction n as [|n IH]; intros t H; cbn [getOperationTerm_fuel]; auto using t0.
  destruct (copulaEquals _ _ _); [apply IH, te, H|]. destruct (copulaEquals _ _ _).
  - destruct (negb _); auto using t0. pose proof (t_append zero_term t t0 H) as X. destruct (OperationSequenceAppendLeftNested _ _ _) as [o s]. destruct o; auto using t0.
  - destruct (isOperation _ _); auto using t0.
Qed.
(** rules *)
Lemma t_rule_loop p t l : forall s s', T t -> Forall T s -> unify_loop nm p t l s = Some s' -> Forall T s'.
Proof.
  induction l as [|i l IH]; intros s s' H F; cbn [unify_loop]; [intros E; inversion E; subst; auto|].
  destruct (unify1 nm t s i (at_ p i)) as [s1|] eqn:U; [|discriminate]. apply IH; auto.
  unfold unify1 in U. destruct (_ =? 0)%Z; [inversion U; subst; auto|]. destruct (rule_var _).
  - destruct (_ || _); [discriminate|]. inversion U; subst. apply Forall_upd; auto. apply te, H.
  - destruct (_ =? _)%Z; inversion U; subst; auto.
Qed.
Definition small_term (t : term) : bool := forallb (fun a => (0 <=? a) && (a <? 64))%Z t.
Lemma small_at c i : small_term c = true -> (0 <= at_ c i < 64)%Z.
Proof.
  intros H. unfold at_. destruct (Nat.lt_ge_cases i (length c)) as [L|L]; [|rewrite nth_overflow; [lia|auto]].
  unfold small_term in H. rewrite forallb_forall in H. specialize (H _ (nth_In c 0%Z L)). apply andb_true_iff in H as [A B]. lia.
Qed.
Lemma t_conclude_loop c s l : small_term c = true -> Forall T s -> forall r r', T r -> conclude_loop c s l r = Some r' -> T r'.
Proof.
  intros SM F. induction l as [|i l IH]; intros r r' H; cbn [conclude_loop]; [intros E; inversion E; subst; auto|].
  destruct (conclude1 s r i (at_ c i)) as [r1|] eqn:U; [|discriminate]. apply IH.
  unfold conclude1 in U. destruct (_ =? 0)%Z; [inversion U; subst; auto|]. destruct (rule_var _).
  - destruct (Term_OverrideSubterm _ _ _) as [o x] eqn:O. destruct o; inversion U; subst. eapply to'; eauto. unfold sub. apply Forall_nth'; auto using t0.
  - inversion U; subst. apply tu; auto. apply small_at, SM.
Qed.
Lemma subst0_ok : Forall T subst0. Proof. apply Forall_repeat, t0. Qed.
Lemma rules_small : forallb (fun r => small_term (r_c r)) rules = true. Proof. vm_compute. reflexivity. Qed.
Lemma reductions_small : forallb (fun r => small_term (snd r)) reductions = true. Proof. vm_compute. reflexivity. Qed.
Lemma t_rule r double t1 t2 c : small_term (r_c r) = true -> T t1 -> T t2 -> apply_rule nm r double t1 t2 = Some c -> T c.
Proof.
  intros SM A B. unfold apply_rule, unify_premise, conclude. destruct (r_p2 r) as [p2|], double; try discriminate.
  - destruct (unify_loop nm (r_p1 r) t1 _ _) as [s|] eqn:E1; [|discriminate]. apply t_rule_loop in E1; auto using subst0_ok.
    destruct (unify_loop nm p2 t2 _ s) as [s'|] eqn:E2; [|discriminate]. apply t_rule_loop in E2; auto. apply t_conclude_loop; auto using t0.
  - destruct (unify_loop nm (r_p1 r) t1 _ _) as [s|] eqn:E1; [|discriminate]. apply t_rule_loop in E1; auto using subst0_ok. apply t_conclude_loop; auto using t0.
Qed.
Lemma t_reduce l t : forallb (fun r => small_term (snd r)) l = true -> T t -> T (reduce_with nm l t).
Proof.
  intros SM H. induction l as [|[p c] l IH]; cbn [reduce_with]; auto. cbn [forallb snd] in SM. apply andb_true_iff in SM as [S1 S2]. specialize (IH S2).
  destruct (unify_premise nm p t subst0) as [s|] eqn:E; auto. apply t_rule_loop in E; auto using subst0_ok.
  destruct (conclude c s) as [t'|] eqn:C; auto. unfold conclude in C. eapply t_conclude_loop; [exact S1|exact E|apply t0|exact C].
Qed.
Lemma t_conclusions double t1 t2 v1 v2 : T t1 -> T t2 -> Forall (fun x => T (fst (fst x))) (conclusions nm double t1 t2 v1 v2).
Proof.
  intros A B. unfold conclusions. apply Forall_forall. intros x H. apply in_flat_map in H as (r & R & H).
  destruct (apply_rule nm r double t1 t2) as [c|] eqn:E; [|destruct H]. destruct H as [<-|[]]. cbn [fst]. apply t_reduce; [apply reductions_small|].
  eapply t_rule; [|exact A|exact B|exact E]. pose proof rules_small as S. rewrite forallb_forall in S. apply S, R.
Qed.
End Terms.
