(** The memory properties C34, C35, C36 and C48 for whole lives of the reasoner and whole sessions
    of its shell (vocabulary: SysS.v, MemoryS.v, ShellS.v), not only for histories of memory
    operations. *)
From Coq Require Import ZArith List Bool String Lia Permutation.
From Verif Require Import Base F64 TruthM StampM TermM NamesM AtomsM AtomsS RulesM EventM MemoryM MemoryS MemoryP2 MemoryP3 QuestionM DecisionM CycleM CycleS EverywhereP CycleP2 CycleP4 ShellM ShellS SysS SysP SysP2.
From Verif Require Import PropsMemory PropsQuestion PropsCycle PropsShell.
From Verif Require PQueueM ParserM.
Import ListNotations.
Local Open Scope nat_scope.

Section Lives.
Variables cmax buckets atoms bmax gmax layers : nat.
Notation Sizes := (sizes_ok cmax buckets atoms bmax gmax layers).
Notation Lives := (lives cmax buckets atoms bmax gmax layers).
(** C34: at any time of the life of a reasoner look-up finds exactly the stored concepts, one per
    term and id, and the index lists exactly the concepts with each atom. *)
Theorem C34_memory_of_a_life_is_consistent : forall nm s, Sizes -> 64 <= atoms -> Lives nm s -> consistent nm cmax atoms (s_mem s).
Proof.
  intros nm s S A L. destruct (lives_inv _ _ _ _ _ _ S A nm s L) as (_ & I). pose proof S as (P1 & P2 & P3 & P4 & P5 & P6).
  apply (cinv_consistent nm cmax buckets atoms bmax gmax layers (known atoms nm) P1 P2 P4 P5). apply (mi_c _ _ _ _ _ _ _ _ _ (iv_j _ _ _ I)).
Qed.
(** C35: at any time, conceptualising a term stores it at the cost of at most one concept, one of
    lowest usefulness. *)
Theorem C35_eviction_in_a_life : forall nm s t now, Sizes -> 64 <= atoms -> Lives nm s -> known atoms nm t -> conceptualised nm cmax atoms (s_mem s) t now.
Proof.
  intros nm s t now S A L K. destruct (lives_inv _ _ _ _ _ _ S A nm s L) as (N & I).
  assert (ND : false = true -> penalty_ok (fun _ => f1)) by discriminate.
  exact (conceptualised_ok false nm (fun _ => f1) (fun _ => f1) cmax buckets atoms bmax gmax layers (known atoms nm) S ND
    (known0 atoms A nm N) (known_ext atoms A nm N) (known_rng atoms A nm N) (s_mem s) t now (iv_j _ _ _ I) K).
Qed.
(** C36: at any time the attention queues are bounded, without duplicates, of beliefs and goals of
    sufficient confidence; selecting takes out one of highest priority. *)
Theorem C36_queues_of_a_life : forall nm s, Sizes -> 64 <= atoms -> Lives nm s -> queues_in_order bmax gmax layers (s_mem s) /\
  forall q, q = m_beliefs (s_mem s) \/ In q (m_goals (s_mem s)) ->
  match PopEvent q with
  | (q', None) => q' = q /\ qitems q = []
  | (q', Some (e, p)) => Permutation (qitems q) ((e, p) :: qitems q') /\ forall e' p', In (e', p') (qitems q) -> num_ltb p p' = false
  end.
Proof.
  intros nm s S A L. destruct (lives_inv _ _ _ _ _ _ S A nm s L) as (_ & I). pose proof S as (P1 & P2 & P3 & P4 & P5 & P6). split.
  - apply (inv_queues false nm cmax buckets atoms bmax gmax layers (known atoms nm) P1 P2 P4 P5). apply (iv_j _ _ _ I).
  - intros q HQ. apply (inv_selection false nm cmax atoms bmax gmax layers (known atoms nm) P4 P5 (s_mem s) q); auto. apply (iv_j _ _ _ I).
Qed.
End Lives.
Lemma visited_stores nm cmax atoms m : consistent nm cmax atoms m -> slots_exist m /\ forall c k, In (c, k) (visited m) <-> stores m c k.
Proof.
  intros (_ & _ & _ & _ & _ & H & _).
  assert (G : forall c k, In (c, k) (visited m) <-> stores m c k).
  { intros c k. unfold visited, stores, stored_slots. split.
    - intros I. apply in_map_iff in I as (it & E & I). injection E as <- <-. assert (IA : In (PQueueM.address it) (stored_slots m)) by (apply in_map; exact I). split; [exact IA|].
      destruct (H _ IA) as (k & _ & E). rewrite E. f_equal. symmetry. apply nth_error_nth. exact E.
    - intros (I & E). apply in_map_iff in I as (it & <- & I). apply in_map_iff. exists it. split; auto. f_equal. apply nth_error_nth. exact E. }
  split; auto. intros c k I. apply G in I as (_ & E). apply nth_error_Some. congruence.
Qed.
Print Assumptions C34_memory_of_a_life_is_consistent.
Print Assumptions C35_eviction_in_a_life.
Print Assumptions C36_queues_of_a_life.

(** *** sessions of the shell *)
Section Sessions.
Variable v : env.
Hypothesis S : sizes v.
Hypothesis P : plain_answers v.
Notation names_now z := (a_names (z_st z)).
Notation memory_now z := (s_mem (z_core z)).
Theorem C34_memory_of_a_session_is_consistent : forall z, roomy v z -> consistent (names_now z) (v_cmax v) (v_atoms v) (memory_now z).
Proof. intros z R. eapply C34_memory_of_a_life_is_consistent; [apply SZ'; auto|apply S|]. apply (roomy_live v S P z R). Qed.
Theorem C35_eviction_in_a_session : forall z t now, roomy v z -> known (v_atoms v) (names_now z) t -> conceptualised (names_now z) (v_cmax v) (v_atoms v) (memory_now z) t now.
Proof. intros z t now R. eapply C35_eviction_in_a_life; [apply SZ'; auto|apply S|]. apply (roomy_live v S P z R). Qed.
Theorem C36_queues_of_a_session : forall z, roomy v z -> queues_in_order (v_bmax v) (v_gmax v) (v_layers v) (memory_now z).
Proof. intros z R. eapply C36_queues_of_a_life; [apply SZ'; auto|apply S|]. apply (roomy_live v S P z R). Qed.
(** C48: what question answering looks through (the theorems of PropsQuestion.v) are in every
    session exactly the stored concepts. *)
Theorem C48_sessions : forall z, roomy v z -> slots_exist (memory_now z) /\ forall c k, In (c, k) (visited (memory_now z)) <-> stores (memory_now z) c k.
Proof. intros z R. eapply visited_stores. apply C34_memory_of_a_session_is_consistent. exact R. Qed.
(** in the program, with its 65536 symbols, this is about all sessions *)
Theorem C34_all_sessions : forall z, v_atoms v = ATOMS_MAX -> running v z -> roomy v z.
Proof. intros z E R. induction R; [eapply ro_start|eapply ro_line]; eauto; left; exact E. Qed.
End Sessions.
Print Assumptions C34_memory_of_a_session_is_consistent.
Print Assumptions C35_eviction_in_a_session.
Print Assumptions C36_queues_of_a_session.
Print Assumptions C48_sessions.
Print Assumptions C34_all_sessions.

(** Witness: a session with an operation renamed, inputs, cycles, a question and a reset; the
    memory for four concepts is then full. *)
Fixpoint roomy_session (z : nar) (ls : list ParserM.text) : res nar :=
  if List.length (a_names (z_st z)) <? v_atoms wenv then
    match ls with [] => Ok z | l :: ls => do (r, _) <- line wenv z l ; roomy_session (fst r) ls end
  else UB.
Lemma roomy_session_ok ls : forall z z', (room wenv z -> roomy wenv z) -> roomy_session z ls = Ok z' -> roomy wenv z'.
Proof.
  induction ls as [|l ls IH]; intros z z' R; cbn [roomy_session]; destruct (Nat.ltb_spec (List.length (a_names (z_st z))) (v_atoms wenv)) as [L|L]; try discriminate.
  - intros H. injection H as <-. apply R. right. exact L.
  - destruct (line wenv z l) as [[[z1 go] o1]| |] eqn:E; cbn [rbind]; try discriminate. apply IH. intros R1. eapply ro_line; eauto. apply R. right. exact L.
Qed.
Lemma wenv_sizes : sizes wenv. Proof. unfold sizes; cbn; lia. Qed.
Lemma wenv_plain : plain_answers wenv.
Proof.
  intros l x. cbn. split; [|discriminate]. apply (Forall_repeat _ zero_term 28). apply known0; [cbn; lia|apply list63].
Qed.
Lemma roomy_ex (a : res nar) ls (f : nar -> bool) : (forall z, a = Ok z -> room wenv z -> roomy wenv z) -> match (do z <- a ; roomy_session z ls) with Ok z => f z | _ => false end = true -> exists z, roomy wenv z /\ f z = true.
Proof.
  intros HA H. destruct a as [z0| |]; cbn [rbind] in H; try discriminate. destruct (roomy_session z0 ls) as [z| |] eqn:E1; try discriminate.
  exists z. split; auto. eapply roomy_session_ok; [|exact E1]. intros R. apply HA; auto.
Qed.
Example C34_session_example : sizes wenv /\ plain_answers wenv /\ exists z, roomy wenv z /\
  (concept_count (s_mem (z_core z)) =? 4) && (List.length (queued (m_beliefs (s_mem (z_core z)))) =? 0) && (List.length (a_names (z_st z)) =? 78) = true.
Proof.
  split; [apply wenv_sizes|]. split; [apply wenv_plain|].
  apply (roomy_ex (start wenv 1) (map str ["a. :|:"; "*reset"; "*setopname 2 ^turn"; "b. :|:"; "<b =/> a>?"; "c! :|:"; "d. :|:"]%string)
    (fun z => (concept_count (s_mem (z_core z)) =? 4) && (List.length (queued (m_beliefs (s_mem (z_core z)))) =? 0) && (List.length (a_names (z_st z)) =? 78)) (ro_start wenv 1)).
  vm_compute. reflexivity.
Qed.
