(** C64 for declarative implications <a ==> b>.  Vocabulary: AddS.v, AddS2.v, SysS.v. *)
From Coq Require Import ZArith List Bool Lia.
From Verif Require Import Base F64 TruthM StampM TermM TermP NamesM EventM InferenceM UsageM TableM VariableM MemoryM MemoryS QuestionM DecisionM CycleM CycleS CycleP2 SysS SysP AddS AddS2 AddP3.
From Verif Require Import PropsMemory PropsQuestion PropsAdd.
Import ListNotations.
Local Open Scope nat_scope.
(** C64: at any time, an accepted belief <a ==> b> becomes a link of the concept of b, from the
    concept of a, and is then remembered like any statement by a concept of its own; all other
    concepts are as they were.  If this revises what was believed of the statement, the revised
    belief is told again (and nothing else happens).  Partial: provided that there is room for the
    concepts of a, b and <a ==> b>, or all three are there (without room see C64_link_refuted). *)
Theorem C64_declarative_implication_partial : forall cmax buckets atoms bmax gmax layers nm s e now p input revised layer powdecay penalty fuel m',
  sizes_ok cmax buckets atoms bmax gmax layers -> 64 <= atoms -> lives cmax buckets atoms bmax gmax layers nm s ->
  let m := s_mem s in let t := e_term e in let a := Term_ExtractSubterm t 1 in let b := Term_ExtractSubterm t 2 in
  known atoms nm t -> e_type e = EVENT_TYPE_BELIEF ->
  copulaEquals nm (at_ t 0) IMPLICATION = true -> copulaEquals nm (at_ t 0) TEMPORAL_IMPLICATION = false -> a <> b -> t <> a -> t <> b ->
  (concept_count m + 3 <= cmax \/ forall u, In u [b; a; t] -> exists c k, stores m c k /\ c_term k = u) ->
  let pe := entry_priority penalty e p input revised in accepted m e pe input ->
  AddEvent nm powdecay penalty layers fuel m (EVal e) now p input revised layer = Ok m' ->
  exists m1 m2 c k0 k, linked_statement now m m1 a b e /\
    concept_for m t now c k0 /\ concept_for m1 t now c k0 /\ stores m2 c k /\ remembers nm powdecay now pe e k0 k /\
    (forall d x, d <> c -> (stores m2 d x <-> stores m1 d x)) /\
    (m' = m2 \/ (exists x, RevisionAndChoice nm powdecay (c_belief k0) (Event_Eternalized e) = Ok (x, true)) /\
                exists f, AddEvent nm powdecay penalty layers f m2 (EBelief c) now pe false true 0 = Ok m').
Proof.
  intros cmax buckets atoms bmax gmax layers nm s e now p input revised layer pd pen fuel m' S A L m t a b K TY C1 C2 NAB NA NB SP pe AC E. destruct (lives_inv _ _ _ _ _ _ S A nm s L) as (N & I).
  exact (add_decl nm pd pen cmax buckets atoms bmax gmax layers S (known atoms nm) (known0 atoms A nm N) (known_ext atoms A nm N) (known_rng atoms A nm N)
    fuel m e now p input revised layer m' a b (iv_j _ _ _ I) K TY C2 C1 eq_refl eq_refl NAB NA NB SP AC E).
Qed.
Print Assumptions C64_declarative_implication_partial.
(** <a ==> b>. told to a new reasoner: three concepts, one link *)
Example C64_declarative_example : exists s m', lives 4 4 200 2 2 2 qn s /\ let e := bel IMP 1 (-1) in
  known 200 qn IMP /\ copulaEquals qn (at_ IMP 0) IMPLICATION = true /\ copulaEquals qn (at_ IMP 0) TEMPORAL_IMPLICATION = false /\
  Term_ExtractSubterm IMP 1 = atomic_term 64 /\ Term_ExtractSubterm IMP 2 = atomic_term 65 /\ IMP <> atomic_term 64 /\ IMP <> atomic_term 65 /\
  concept_count (s_mem s) + 3 <= 4 /\ accepted (s_mem s) e (entry_priority ex_pen e f1 true false) true /\ tell (s_mem s) e = Ok m' /\
  concept_count m' = 3 /\ exists k, nth_error (m_store m') 0 = Some k /\ c_term k = atomic_term 65 /\ t_items (c_links k) = 1.
Proof.
  destruct (res_ex' (do m <- born 4 ; do m' <- tell (with_ops m) (bel IMP 1 (-1)) ; Ok (m, m')) (fun '(m, m') => (concept_count (with_ops m) =? 0) && (concept_count m' =? 3) &&
     match nth_error (m_store m') 0 with Some k => term_eqb (c_term k) (atomic_term 65) && (t_items (c_links k) =? 1) | None => false end)) as ((m & m') & E & H); [vm_compute; reflexivity|].
  apply rbind_inv in E as (m0 & E1 & E). apply rbind_inv in E as (m1 & E2 & E). injection E as -> ->. apply andb_prop in H as [H H3]. apply andb_prop in H as [H1 H2]. apply Nat.eqb_eq in H1, H2.
  exists (newborn m), m'. split; [apply newborn_lives; exact E1|]. rewrite (proj2 (newborn_lives 4 m E1)). cbv zeta.
  split; [apply qn_known; vm_compute; reflexivity|]. split; [vm_compute; reflexivity|]. split; [vm_compute; reflexivity|]. split; [vm_compute; reflexivity|]. split; [vm_compute; reflexivity|].
  split; [intros X; apply (f_equal (fun t => at_ t 0)) in X; vm_compute in X; discriminate X|]. split; [intros X; apply (f_equal (fun t => at_ t 0)) in X; vm_compute in X; discriminate X|].
  split; [rewrite H1; lia|]. split; [split; [vm_compute; reflexivity|split; [vm_compute; reflexivity|intros _ X; discriminate X]]|]. split; [exact E2|]. split; [exact H2|].
  destruct (nth_error (m_store m') 0) as [k|]; [|discriminate H3]. apply andb_prop in H3 as [X Y]. apply term_eqb_spec in X. apply Nat.eqb_eq in Y. exists k. auto.
Qed.
