(** The shape of the link tables and the marks of concepts: lives. *)
From Coq Require Import ZArith List Bool Lia.
From Verif Require Import Base F64 TruthM StampM TermM NamesM EventM TableM MemoryM QuestionM DecisionM CycleM CycleS MemoryS EverywhereS EverywhereP CycleP5 SysS ShapeS ShapeP1 ShapeP2.
Import ListNotations.
Local Open Scope nat_scope.
Lemma okK {A} (a b : A) : Ok a = Ok b -> a = b. Proof. congruence. Qed.
Section L.
Variables cmax buckets atoms bmax gmax layers : nat.
Hypothesis LY : 0 < layers.
Lemma init_shape m : Memory_INIT cmax buckets atoms bmax gmax layers = Ok m -> ew 0 m.
Proof.
  unfold Memory_INIT. destruct (HashTableM.HashTable_INIT _ _); cbn [rbind]; try discriminate. destruct (InvIndexM.InvertedAtomIndex_INIT _ _); cbn [rbind]; try discriminate.
  intros H; apply okK in H; subst m. assert (B : SB event0) by (split; [exact Logic.I|discriminate]). assert (G : SG event0) by (split; [exact Logic.I|right; reflexivity]).
  split.
  - constructor; cbn [m_beliefs m_goals m_store fresh_events eq_store].
    + apply Forall_repeat; auto.
    + apply Forall_repeat. apply Forall_repeat; auto.
    + apply Forall_repeat. split; [exact B|]. split; [exact B|]. split; [exact B|]. split; [exact G|]. split; [apply Forall_repeat|]; apply Forall_forall; intros; exact Logic.I.
  - cbn [m_store]. apply Forall_repeat. split; [|cbn; lia]. split; [reflexivity|]. split; [|apply shape0]. change (Forall table_shape (repeat table0 11)). apply Forall_repeat, shape0.
Qed.
Lemma lives_st nm s : lives cmax buckets atoms bmax gmax layers nm s -> st s.
Proof.
  induction 1 as [m rng E|nm s m L I E|nm s more L I|nm s ops r t g L I O|nm s nm' av sd pw now q th pr t tense m out L I Q|nm s p c s' L I EN EL KA KC H].
  - split; [cbn; lia|apply init_shape; exact E].
  - apply init_shape in E. split; cbn; [first [lia|apply I]|]. eapply ew_mono; [|exact E]. first [cbn; lia|apply I].
  - exact I.
  - destruct I as [I0 [[A B C] D]]. split; [exact I0|]. split; [constructor; auto|exact D].
  - destruct I as [I0 I]. destruct (CycleP5.question_mem _ _ _ _ _ _ _ _ _ _ _ _ _ Q) as [->|(c & k & C & ->)]; [split; [exact I0|exact I]|]. split; [exact I0|].
    pose proof (s_read _ _ _ _ I C) as [K1 K2]. destruct I as [[A B C'] D]. split; [constructor; cbn; auto; apply Forall_upd; auto|cbn; apply Forall_upd; auto].
  - pose proof (u_docall (p_nm p) (p_av p) (p_simdist p) (p_pow p) (p_penalty p) (p_layers p) (p_thr p) (p_cond p) (p_athr p) (p_aconf p) (p_chance p) (p_bops p) (p_act p) (p_fuel p) (p_depth p) s c) as X.
    unfold perform in H. rewrite H in X. apply X. constructor; [exact I|left; lia].
Qed.
Lemma lives_shaped nm s : lives cmax buckets atoms bmax gmax layers nm s -> tables_shaped (s_mem s) /\ marks_below (s_pid s) (s_mem s).
Proof.
  intros L. destruct (lives_st _ _ L) as [_ [_ H]]. split; (eapply Forall_impl; [|exact H]); intros k [A B]; auto.
Qed.
End L.
