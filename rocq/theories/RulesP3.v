(** The rule table and the documented rules. *)
From Coq Require Import ZArith List Bool Lia String.
From Verif Require Import Base F64 TruthM HashTableM TermM TermS TermP TermP2 NamesM AtomsM AtomsS AtomsP VariableP VariableP2 ParserM ReadP RulesM RulesS RulesP RulesP2.
Local Open Scope Z_scope.
Import ListNotations.
#[local] Opaque Term_ExtractSubterm Term_OverrideSubterm SIZE tree_at copulaEquals rule_var connective apply_tfun.

(** ** facts about the rules, checked *)
Fixpoint wfb (t : tree) : bool :=
  match t with
  | E => true
  | N a l r => if connective a then match l, r with E, _ => false | _, E => false | _, _ => wfb l && wfb r end else match l, r with E, E => true | _, _ => false end
  end.
Lemma wfb_ok t : wfb t = true -> well_formed t.
Proof.
  induction t as [|a l IH1 r IH2]; cbn [wfb well_formed]; auto. destruct (connective a).
  - destruct l; [discriminate|]. destruct r; [discriminate|]. intros H. apply andb_true_iff in H as [H1 H2]. repeat split; auto; discriminate.
  - destruct l; [|discriminate]. destruct r; [|discriminate]. auto.
Qed.
Definition slotb (a : Z) : bool := negb (rule_var a) || (negb (connective a) && (0 <=? a) && (a <? 40)).
Definition patternb (p : term) : bool := closedb p && wfb (tree_at p 0) && forallb slotb p && negb (at_ p 0 =? 0).
Lemma patternb_ok p : patternb p = true -> pattern p /\ at_ p 0 <> 0.
Proof.
  unfold patternb. intros H. apply andb_true_iff in H as [H H4]. apply andb_true_iff in H as [H H3]. apply andb_true_iff in H as [H1 H2].
  pose proof (closedb_ok p H1) as C. apply negb_true_iff, Z.eqb_neq in H4. rewrite forallb_forall in H3.
  assert (G : forall i, rule_var (at_ p i) = true -> connective (at_ p i) = false /\ 0 <= at_ p i < 40).
  { intros i V. assert (N : at_ p i <> 0) by (intros Z0; rewrite Z0, rule_var_0 in V; discriminate). pose proof (at_lt p i (proj1 C) N) as L.
    assert (IN : In (at_ p i) p) by (apply nth_In; rewrite (proj1 C); auto). specialize (H3 _ IN). unfold slotb in H3. rewrite V in H3. cbn [negb orb] in H3.
    apply andb_true_iff in H3 as [H3 X3]. apply andb_true_iff in H3 as [X1 X2]. apply negb_true_iff in X1. split; [auto|lia]. }
  split; [|auto]. constructor; auto; [apply wfb_ok; auto| |]; intros; apply G; auto.
Qed.
Definition vars_in (c : term) (ps : list term) : bool := forallb (fun a => negb (rule_var a) || existsb (fun p => existsb (Z.eqb a) p) ps) c.
Definition premises (r : prule) : list term := r_p1 r :: match r_p2 r with Some p => [p] | None => [] end.
Definition ruleb (r : prule) : bool := forallb patternb (premises r) && patternb (r_c r) && vars_in (r_c r) (premises r).
Lemma rules_check : forallb ruleb rules = true.
Proof. vm_compute. reflexivity. Qed.
Lemma reductions_check : forallb (fun pc => patternb (fst pc) && patternb (snd pc) && vars_in (snd pc) [fst pc]) reductions = true.
Proof. vm_compute. reflexivity. Qed.
Lemma vars_in_ok c ps : closed c -> vars_in c ps = true -> forall i, rule_var (at_ c i) = true -> exists p j, In p ps /\ at_ p j = at_ c i.
Proof.
  intros C H i V. unfold vars_in in H. rewrite forallb_forall in H. assert (N : at_ c i <> 0) by (intros Z0; rewrite Z0, rule_var_0 in V; discriminate).
  pose proof (at_lt c i (proj1 C) N) as L. assert (IN : In (at_ c i) c) by (apply nth_In; rewrite (proj1 C); auto). specialize (H _ IN). rewrite V in H. cbn [negb orb] in H.
  apply existsb_exists in H as (p & P & H). apply existsb_exists in H as (x & X & H). apply Z.eqb_eq in H. subst x. apply In_nth with (d := 0) in X as (j & _ & J). exists p, j. auto.
Qed.
#[local] Opaque rules reductions.

(** ** instances *)
Lemma occurs_slot p a : closed p -> a <> 0 -> (occurs a (tree_at p 0) <-> exists i, at_ p i = a).
Proof.
  intros C N. rewrite <- hasatom_spec by auto. unfold Term_HasAtom. rewrite existsb_exists. split.
  - intros (i & _ & H). exists i. lia.
  - intros (i & H). exists i. split; [apply in_seq; pose proof (at_lt p i (proj1 C)); lia|lia].
Qed.
Lemma instantiate_ext f g p : (forall a, rule_var a = true -> occurs a p -> f a = g a) -> instantiate f p = instantiate g p.
Proof.
  induction p as [|a l IH1 r IH2]; intros H; cbn [instantiate]; auto. destruct (rule_var a) eqn:V; [apply H; cbn; auto|].
  rewrite IH1, IH2; auto; intros b B O; apply H; cbn; auto.
Qed.
Lemma good0 : good subst0.
Proof.
  split; [reflexivity|]. intros a. unfold sub, subst0. rewrite nth_repeat. apply closedb_ok. vm_compute. reflexivity.
Qed.
Lemma sub0 a : sub subst0 a = zero_term.
Proof. unfold sub, subst0. apply nth_repeat. Qed.
Section Names.
Variable nm : names.
Lemma slot_admissible p sg : closed p -> (admissible nm (tree_at p 0) sg <->
  forall i, rule_var (at_ p i) = true -> match sg (at_ p i) with E => False | N b _ _ => copulaEquals nm b SET_TERMINATOR = false end).
Proof.
  intros C. unfold admissible. split.
  - intros H i V. apply H; auto. assert (NZ : at_ p i <> 0) by (intros Z0; rewrite Z0, rule_var_0 in V; discriminate). apply (occurs_slot p _ C NZ). exists i. reflexivity.
  - intros H a V O. assert (NZ : a <> 0) by (intros Z0; rewrite Z0, rule_var_0 in V; discriminate). apply (occurs_slot p a C NZ) in O as (i & <-). apply H. auto.
Qed.
Lemma assigned_match s a : closed (sub s a) -> at_ (sub s a) 0 <> 0 -> copulaEquals nm (at_ (sub s a) 0) SET_TERMINATOR = false ->
  match assigned s a with E => False | N b _ _ => copulaEquals nm b SET_TERMINATOR = false end.
Proof.
  intros C N H. unfold assigned. rewrite (at_tree _ _ (proj1 C)) in N, H. destruct (tree_at (sub s a) 0); [congruence|auto].
Qed.
Lemma apply1 p c t r : patternb p = true -> patternb c = true -> vars_in c [p] = true -> statement t ->
  (match unify_premise nm p t subst0 with Some s => conclude c s | None => None end = Some r <-> yields1 nm (tree_at p 0) (tree_at c 0) t r).
Proof.
  intros HP HC HV ST. destruct (patternb_ok p HP) as [P P0]. destruct (patternb_ok c HC) as [C C0]. pose proof (vars_in_ok c [p] (p_closed c C) HV) as V.
  split.
  - destruct (unify_premise nm p t subst0) as [s|] eqn:U; [|discriminate]. destruct (unify_premise_sound nm p t subst0 s P P0 ST good0 U) as (G & X & TR & B).
    assert (BD : forall i, rule_var (at_ c i) = true -> closed (sub s (at_ c i)) /\ at_ (sub s (at_ c i)) 0 <> 0).
    { intros i VI. split; [apply G|]. destruct (V i VI) as (q & j & [<-|[]] & J). rewrite <- J. apply B. rewrite J. auto. }
    intros H. apply (conclude_spec c s C BD r C0) in H as [R1 R2]. exists (assigned s). split; [|auto].
    apply slot_admissible; [apply P|]. intros i VI. apply assigned_match; [apply G|apply B; auto|apply B; auto].
  - intros (sg & A & TR & R1 & R2). pose proof (proj1 (slot_admissible p sg (p_closed p P)) A) as A'.
    assert (AG : agrees sg subst0) by (intros a _; rewrite sub0, at_zero; congruence).
    destruct (unify_premise_complete nm sg p t subst0 P ST good0 AG TR A') as (s & U & AGs). rewrite U.
    destruct (unify_premise_sound nm p t subst0 s P P0 ST good0 U) as (G & X & TR' & B).
    assert (BD : forall i, rule_var (at_ c i) = true -> closed (sub s (at_ c i)) /\ at_ (sub s (at_ c i)) 0 <> 0).
    { intros i VI. split; [apply G|]. destruct (V i VI) as (q & j & [<-|[]] & J). rewrite <- J. apply B. rewrite J. auto. }
    apply (conclude_spec c s C BD r C0). split; [auto|]. rewrite R2. apply instantiate_ext. intros a VA O. assert (NZ : a <> 0) by (intros Z0; rewrite Z0, rule_var_0 in VA; discriminate). apply (occurs_slot c a (p_closed c C) NZ) in O as (i & <-). symmetry. apply AGs; [|apply BD; auto]. pose proof (p_cap c C i VA). lia.
Qed.
Lemma apply2 p1 p2 c t1 t2 r : patternb p1 = true -> patternb p2 = true -> patternb c = true -> vars_in c [p1; p2] = true -> statement t1 -> statement t2 ->
  (match unify_premise nm p1 t1 subst0 with Some s => match unify_premise nm p2 t2 s with Some s => conclude c s | None => None end | None => None end = Some r <->
   yields2 nm (tree_at p1 0) (tree_at p2 0) (tree_at c 0) t1 t2 r).
Proof.
  intros HP HQ HC HV ST ST2. destruct (patternb_ok p1 HP) as [P P0]. destruct (patternb_ok p2 HQ) as [Q Q0]. destruct (patternb_ok c HC) as [C C0].
  pose proof (vars_in_ok c [p1; p2] (p_closed c C) HV) as V.
  assert (K : forall s1 s2, unify_premise nm p1 t1 subst0 = Some s1 -> unify_premise nm p2 t2 s1 = Some s2 ->
    good s1 /\ good s2 /\ (forall i, rule_var (at_ c i) = true -> closed (sub s2 (at_ c i)) /\ at_ (sub s2 (at_ c i)) 0 <> 0) /\
    tree_at t1 0 = instantiate (assigned s2) (tree_at p1 0) /\ tree_at t2 0 = instantiate (assigned s2) (tree_at p2 0) /\
    admissible nm (tree_at p1 0) (assigned s2) /\ admissible nm (tree_at p2 0) (assigned s2)).
  { intros s1 s2 U1 U2. destruct (unify_premise_sound nm p1 t1 subst0 s1 P P0 ST good0 U1) as (G1 & X1 & TR1 & B1).
    destruct (unify_premise_sound nm p2 t2 s1 s2 Q Q0 ST2 G1 U2) as (G2 & X2 & TR2 & B2).
    assert (B1' : forall i, rule_var (at_ p1 i) = true -> sub s2 (at_ p1 i) = sub s1 (at_ p1 i)).
    { intros i VI. apply X2; [pose proof (p_cap p1 P i VI); lia|]. apply B1; auto. }
    split; [auto|]. split; [auto|]. split.
    { intros i VI. split; [apply G2|]. destruct (V i VI) as (q & j & [<-|[<-|[]]] & J); rewrite <- J in *; [rewrite B1' by auto|]; [apply B1|apply B2]; auto. }
    split.
    { rewrite TR1. apply instantiate_ext. intros a VA O. assert (NZ : a <> 0) by (intros Z0; rewrite Z0, rule_var_0 in VA; discriminate). apply (occurs_slot p1 a (p_closed p1 P) NZ) in O as (i & <-).
      unfold assigned. rewrite B1'; auto. }
    split; [auto|]. split.
    - apply slot_admissible; [apply P|]. intros i VI. apply assigned_match; [apply G2| |]; rewrite B1' by auto; apply B1; auto.
    - apply slot_admissible; [apply Q|]. intros i VI. apply assigned_match; [apply G2| |]; apply B2; auto. }
  split.
  - destruct (unify_premise nm p1 t1 subst0) as [s1|]; [|discriminate]. destruct (unify_premise nm p2 t2 s1) as [s2|] eqn:U2; [|discriminate].
    destruct (K s1 s2 eq_refl U2) as (G1 & G2 & BD & T1 & T2 & A1 & A2). intros H. apply (conclude_spec c s2 C BD r C0) in H as [R1 R2].
    exists (assigned s2). auto 8.
  - intros (sg & A1 & A2 & T1 & T2 & R1 & R2). pose proof (proj1 (slot_admissible p1 sg (p_closed p1 P)) A1) as A1'. pose proof (proj1 (slot_admissible p2 sg (p_closed p2 Q)) A2) as A2'.
    assert (AG : agrees sg subst0) by (intros a _; rewrite sub0, at_zero; congruence).
    destruct (unify_premise_complete nm sg p1 t1 subst0 P ST good0 AG T1 A1') as (s1 & U1 & AG1). rewrite U1.
    destruct (unify_premise_sound nm p1 t1 subst0 s1 P P0 ST good0 U1) as (G1 & _).
    destruct (unify_premise_complete nm sg p2 t2 s1 Q ST2 G1 AG1 T2 A2') as (s2 & U2 & AG2). rewrite U2.
    destruct (K s1 s2 U1 U2) as (_ & G2 & BD & _). apply (conclude_spec c s2 C BD r C0). split; [auto|]. rewrite R2. apply instantiate_ext.
    intros a VA O. assert (NZ : a <> 0) by (intros Z0; rewrite Z0, rule_var_0 in VA; discriminate). apply (occurs_slot c a (p_closed c C) NZ) in O as (i & <-).
    symmetry. apply AG2; [|apply BD; auto]. pose proof (p_cap c C i VA). lia.
Qed.

(** ** texts and parsed rules *)
Lemma firsts_init : firsts [] (map block (init_list ++ [])) = init_list.
Proof. vm_compute. reflexivity. Qed.
Lemma pure_denotes s t : pure_term (str s) = Some t -> closed t -> denotes s (tree_at t 0).
Proof.
  intros H C. exists t. split; [auto|]. split; [auto|]. intros cap st is Y. destruct (ainv_symbols cap [] st is Y) as (AI & _ & NS). rewrite firsts_init in NS.
  eapply pure_term_ok; eauto.
Qed.
Lemma some_symbols : exists cap st is, symbols cap [] = Ok (st, is).
Proof.
  exists 200%nat. pose proof (symbols_ok 200 [] ltac:(lia)) as H. rewrite firsts_init in H. change (length init_list <=? 200)%nat with true in H. cbn [andb] in H.
  destruct H as (s' & is & H & _). eauto.
Qed.
Lemma denotes_pure s t P : pure_term (str s) = Some t -> denotes s P -> P = tree_at t 0.
Proof.
  intros H (t' & C & <- & D). destruct some_symbols as (cap & st & is & Y). specialize (D _ _ _ Y). destruct (ainv_symbols cap [] st is Y) as (AI & _ & NS). rewrite firsts_init in NS.
  rewrite (pure_term_ok cap st AI NS _ _ H) in D. congruence.
Qed.
Lemma map_some_l {X Y} (f : X -> option Y) l : forall l', map f l = map Some l' -> forall x, In x l -> exists y, f x = Some y /\ In y l'.
Proof.
  induction l as [|a l IH]; intros [|b l'] H x I1; try discriminate; [destruct I1|]. inversion H as [[H1 H2]]. destruct I1 as [<-|I1]; [exists b; cbn; auto|].
  destruct (IH _ H2 x I1) as (y & A & B). exists y. cbn. auto.
Qed.
Lemma map_some_r {X Y} (f : X -> option Y) l : forall l', map f l = map Some l' -> forall y, In y l' -> exists x, f x = Some y /\ In x l.
Proof.
  induction l as [|a l IH]; intros [|b l'] H x I1; try discriminate; [destruct I1|]. inversion H as [[H1 H2]]. destruct I1 as [<-|I1]; [exists a; cbn; auto|].
  destruct (IH _ H2 x I1) as (y & A & B). exists y. cbn. auto.
Qed.
#[local] Opaque NAL_RULES NAL_REDUCTIONS pure_term.
(** a parsed rule and the text it comes from *)
Definition from_text (g : grule) (r : prule) : Prop :=
  pure_term (str (g_p1 g)) = Some (r_p1 r) /\
  match g_p2 g with Some p => exists t, r_p2 r = Some t /\ pure_term (str p) = Some t | None => r_p2 r = None end /\
  pure_term (str (g_c g)) = Some (r_c r) /\ r_f r = g_f g /\ r_switch r = g_switch g /\ r_intro r = g_intro g /\ ruleb r = true.
Lemma pure_rule_fields g r : pure_rule g = Some r -> In r rules -> from_text g r.
Proof.
  intros H I1. pose proof rules_check as RC. rewrite forallb_forall in RC. specialize (RC r I1). revert H. unfold pure_rule, from_text.
  destruct (pure_term (str (g_p1 g))) as [p1|]; [|discriminate]. destruct (g_p2 g) as [q|].
  - destruct (pure_term (str q)) as [p2|]; [|discriminate]. destruct (pure_term (str (g_c g))) as [c|]; [|discriminate]. intros [= <-]. cbn [r_p1 r_p2 r_c r_f r_switch r_intro] in *.
    repeat split; eauto.
  - destruct (pure_term (str (g_c g))) as [c|]; [|discriminate]. intros [= <-]. cbn [r_p1 r_p2 r_c r_f r_switch r_intro] in *. repeat split; eauto.
Qed.
Lemma text_of_rule r : In r rules -> exists g, In g (flat_map generate NAL_RULES) /\ from_text g r.
Proof. intros H. destruct (map_some_r _ _ _ rules_pure r H) as (g & A & B). eauto using pure_rule_fields. Qed.
Lemma rule_of_text g : In g (flat_map generate NAL_RULES) -> exists r, In r rules /\ from_text g r.
Proof. intros H. destruct (map_some_l _ _ _ rules_pure g H) as (r & A & B). eauto using pure_rule_fields. Qed.
Lemma ruleb_2 r p : ruleb r = true -> r_p2 r = Some p -> patternb (r_p1 r) = true /\ patternb p = true /\ patternb (r_c r) = true /\ vars_in (r_c r) [r_p1 r; p] = true.
Proof.
  unfold ruleb, premises. intros H X. rewrite X in H. cbn [forallb] in H. rewrite !andb_true_iff in H. tauto.
Qed.
Lemma ruleb_1 r : ruleb r = true -> r_p2 r = None -> patternb (r_p1 r) = true /\ patternb (r_c r) = true /\ vars_in (r_c r) [r_p1 r] = true.
Proof.
  unfold ruleb, premises. intros H X. rewrite X in H. cbn [forallb] in H. rewrite !andb_true_iff in H. tauto.
Qed.
Lemma yields2_sym P1 P2 C t1 t2 r : yields2 nm P1 P2 C t1 t2 r <-> yields2 nm P2 P1 C t2 t1 r.
Proof. split; intros (s & A & B & D & F & G & H); exists s; tauto. Qed.
Lemma patternb_closed p : patternb p = true -> closed p.
Proof. intros H. apply (patternb_ok p H). Qed.

Definition two_premise (intro : bool) (p1 p2 c : string) (f : tfun) : entry := if intro then R2VarIntro p1 p2 c f else R2 p1 p2 c f.
Lemma gen2 g q : In g (flat_map generate NAL_RULES) -> g_p2 g = Some q -> exists p1 p2,
  In (two_premise (g_intro g) p1 p2 (g_c g) (g_f g)) NAL_RULES /\ (g_switch g = false /\ g_p1 g = p1 /\ q = p2 \/ g_switch g = true /\ g_p1 g = p2 /\ q = p1).
Proof.
  intros H X. apply in_flat_map in H as (e & I1 & G). destruct e as [a b c f|a b c f|a c f|a b f]; cbn [generate In] in G;
    repeat match goal with H : _ \/ _ |- _ => destruct H as [H|H] end; try contradiction; subst g; cbn in *; try discriminate; inversion X; subst;
    eexists _, _; (split; [exact I1|]); auto.
Qed.
Lemma gen2' intro p1 p2 c f : In (two_premise intro p1 p2 c f) NAL_RULES ->
  In (mkG p1 (Some p2) c f false intro) (flat_map generate NAL_RULES) /\ In (mkG p2 (Some p1) c f true intro) (flat_map generate NAL_RULES).
Proof. intros H. split; apply in_flat_map; eexists; (split; [exact H|]); destruct intro; cbn; auto. Qed.
Definition one_premise (p c : string) (f : tfun) : Prop := In (R1 p c f) NAL_RULES \/ In (R1Bidirectional p c f) NAL_RULES \/ In (R1Bidirectional c p f) NAL_RULES.
Lemma gen1 g : In g (flat_map generate NAL_RULES) -> g_p2 g = None -> one_premise (g_p1 g) (g_c g) (g_f g) /\ g_switch g = false /\ g_intro g = false.
Proof.
  intros H X. apply in_flat_map in H as (e & I1 & G). unfold one_premise. destruct e as [a b c f|a b c f|a c f|a b f]; cbn [generate In] in G;
    repeat match goal with H : _ \/ _ |- _ => destruct H as [H|H] end; try contradiction; subst g; cbn in *; try discriminate; auto.
Qed.
Lemma gen1' p c f : one_premise p c f -> In (mkG p None c f false false) (flat_map generate NAL_RULES).
Proof. intros [H|[H|H]]; apply in_flat_map; eexists; (split; [exact H|]); cbn; auto. Qed.

(** every conclusion of two premises comes from a documented rule, and every documented rule that applies concludes *)
Lemma conclusions2 t1 t2 v1 v2 c v vi : statement t1 -> statement t2 ->
  (In (c, v, vi) (conclusions nm true t1 t2 v1 v2) <-> exists c0, infers2 nm t1 v1 t2 v2 c0 v vi /\ c = RuleTable_Reduce nm c0).
Proof.
  intros S1 S2. unfold conclusions. rewrite in_flat_map. split.
  - intros (r & I1 & H). destruct (apply_rule nm r true t1 t2) as [c0|] eqn:AP; [|destruct H]. destruct H as [H|[]]. inversion H as [[H1 H2 H3]]; subst c vi. clear H. exists c0. split; [|auto].
    destruct (text_of_rule r I1) as (g & G & T). destruct T as (T1 & T2 & T3 & T4 & T5 & T6 & RB). unfold apply_rule in AP. destruct (r_p2 r) as [p2|] eqn:P2; [|discriminate].
    destruct (g_p2 g) as [q|] eqn:Q; [|discriminate]. destruct T2 as (p2' & [= <-] & T2). destruct (ruleb_2 r p2 RB P2) as (B1 & B2 & B3 & B4).
    apply (apply2 (r_p1 r) p2 (r_c r) t1 t2 c0 B1 B2 B3 B4 S1 S2) in AP. pose proof (pure_denotes _ _ T1 (patternb_closed _ B1)) as D1.
    pose proof (pure_denotes _ _ T2 (patternb_closed _ B2)) as D2. pose proof (pure_denotes _ _ T3 (patternb_closed _ B3)) as D3.
    destruct (gen2 g q G Q) as (x1 & x2 & IN & [(SW & A & B)|(SW & A & B)]).
    + exists x1, x2, (g_c g), (g_f g), (tree_at (r_p1 r) 0), (tree_at p2 0), (tree_at (r_c r) 0). rewrite T6. split; [exact IN|]. subst x1 x2. repeat (split; [assumption|]).
      left. split; [auto|]. rewrite T5, SW, T4. auto.
    + exists x1, x2, (g_c g), (g_f g), (tree_at p2 0), (tree_at (r_p1 r) 0), (tree_at (r_c r) 0). rewrite T6. split; [exact IN|]. subst x1 x2. repeat (split; [assumption|]).
      right. split; [apply yields2_sym; auto|]. rewrite T5, SW, T4. auto.
  - intros (c0 & (p1 & p2 & c' & f & P1 & P2 & C & IN & D1 & D2 & D3 & Y) & ->). destruct (gen2' vi p1 p2 c' f IN) as [G1 G2]. destruct Y as [[Y ->]|[Y ->]].
    + destruct (rule_of_text _ G1) as (r & I1 & T1 & T2 & T3 & T4 & T5 & T6 & RB). cbn [g_p1 g_p2 g_c g_f g_switch g_intro] in *. destruct T2 as (t & E2 & T2).
      exists r. split; [auto|]. destruct (ruleb_2 r t RB E2) as (B1 & B2 & B3 & B4). rewrite (denotes_pure _ _ _ T1 D1), (denotes_pure _ _ _ T2 D2), (denotes_pure _ _ _ T3 D3) in Y.
      apply (apply2 (r_p1 r) t (r_c r) t1 t2 c0 B1 B2 B3 B4 S1 S2) in Y. unfold apply_rule. rewrite E2, Y, T5, T4, T6. left. auto.
    + destruct (rule_of_text _ G2) as (r & I1 & T1 & T2 & T3 & T4 & T5 & T6 & RB). cbn [g_p1 g_p2 g_c g_f g_switch g_intro] in *. destruct T2 as (t & E2 & T2).
      exists r. split; [auto|]. destruct (ruleb_2 r t RB E2) as (B1 & B2 & B3 & B4). rewrite (denotes_pure _ _ _ T2 D1), (denotes_pure _ _ _ T1 D2), (denotes_pure _ _ _ T3 D3) in Y.
      apply yields2_sym in Y. apply (apply2 (r_p1 r) t (r_c r) t1 t2 c0 B1 B2 B3 B4 S1 S2) in Y. unfold apply_rule. rewrite E2, Y, T5, T4, T6. left. auto.
Qed.
Lemma conclusions1 t t2 v1 v2 c v vi : statement t ->
  (In (c, v, vi) (conclusions nm false t t2 v1 v2) <-> vi = false /\ exists c0, infers1 nm t v1 v2 c0 v /\ c = RuleTable_Reduce nm c0).
Proof.
  intros S1. unfold conclusions. rewrite in_flat_map. split.
  - intros (r & I1 & H). destruct (apply_rule nm r false t t2) as [c0|] eqn:AP; [|destruct H]. destruct H as [H|[]]. inversion H as [[H1 H2 H3]]; subst c vi. clear H.
    destruct (text_of_rule r I1) as (g & G & T). destruct T as (T1 & T2 & T3 & T4 & T5 & T6 & RB). unfold apply_rule in AP. destruct (r_p2 r) as [p2|] eqn:P2; [discriminate|].
    destruct (g_p2 g) as [q|] eqn:Q; [destruct T2 as (? & ? & _); discriminate|]. destruct (ruleb_1 r RB P2) as (B1 & B3 & B4). destruct (gen1 g G Q) as (IN & SW & VI).
    split; [congruence|]. exists c0. split; [|auto]. apply (apply1 (r_p1 r) (r_c r) t c0 B1 B3 B4 S1) in AP.
    exists (g_p1 g), (g_c g), (g_f g), (tree_at (r_p1 r) 0), (tree_at (r_c r) 0). split; [exact IN|]. split; [apply pure_denotes; auto; apply patternb_closed; auto|].
    split; [apply pure_denotes; auto; apply patternb_closed; auto|]. split; [auto|]. rewrite <- T4. rewrite T5, SW. reflexivity.
  - intros (-> & c0 & (p & c' & f & P & C & IN & D1 & D3 & Y & ->) & ->). pose proof (gen1' p c' f IN) as G.
    destruct (rule_of_text _ G) as (r & I1 & T1 & T2 & T3 & T4 & T5 & T6 & RB). cbn [g_p1 g_p2 g_c g_f g_switch g_intro] in *. exists r. split; [auto|].
    destruct (ruleb_1 r RB T2) as (B1 & B3 & B4). rewrite (denotes_pure _ _ _ T1 D1), (denotes_pure _ _ _ T3 D3) in Y.
    apply (apply1 (r_p1 r) (r_c r) t c0 B1 B3 B4 S1) in Y. unfold apply_rule. rewrite T2, Y, T5, T4, T6. left. auto.
Qed.
(** ** reductions *)
Lemma reduction_gen p c : In (p, c) (flat_map generate_reduction NAL_REDUCTIONS) <-> reduction_texts p c.
Proof.
  unfold reduction_texts. rewrite in_flat_map. split.
  - intros ([a b|a b] & I1 & H); cbn [generate_reduction In] in H; [|destruct H as [[= <- <-]|[]]; auto]. right. exists a, b. split; [auto|].
    destruct H as [H|[H|[]]]; inversion H; auto.
  - intros [H|(a & b & H & [[-> ->]|[-> ->]])]; eexists; (split; [exact H|]); cbn [generate_reduction In]; auto.
Qed.
Lemma reduce_one p c t r : In (p, c) reductions -> statement t ->
  (match unify_premise nm p t subst0 with Some s => conclude c s | None => None end = Some r <-> yields1 nm (tree_at p 0) (tree_at c 0) t r).
Proof.
  intros I1 S1. pose proof reductions_check as RC. rewrite forallb_forall in RC. specialize (RC _ I1). cbn [fst snd] in RC. apply andb_true_iff in RC as [RC R3]. apply andb_true_iff in RC as [R1 R2].
  apply apply1; auto.
Qed.
Lemma reductions_text t r : statement t -> ((exists p c, In (p, c) reductions /\ yields1 nm (tree_at p 0) (tree_at c 0) t r) <-> reduces nm t r).
Proof.
  intros S1. assert (PB : forall p c, In (p, c) reductions -> patternb p = true /\ patternb c = true).
  { intros p c I1. pose proof reductions_check as RC. rewrite forallb_forall in RC. specialize (RC _ I1). cbn [fst snd] in RC. apply andb_true_iff in RC as [RC R3]. apply andb_true_iff in RC as [R1 R2]. auto. }
  unfold reduces. split.
  - intros (p & c & I1 & Y). destruct (map_some_r _ _ _ reductions_pure _ I1) as ([x y] & A & B). unfold pure_reduction in A. cbn [fst snd] in A.
    destruct (pure_term (str x)) as [p'|] eqn:T1; [|discriminate]. destruct (pure_term (str y)) as [c'|] eqn:T2; [|discriminate]. inversion A; subst p' c'. destruct (PB p c I1).
    exists x, y, (tree_at p 0), (tree_at c 0). split; [apply reduction_gen; auto|]. split; [apply pure_denotes; auto; apply patternb_closed; auto|].
    split; [apply pure_denotes; auto; apply patternb_closed; auto|auto].
  - intros (x & y & P & C & G & D1 & D2 & Y). apply reduction_gen in G. destruct (map_some_l _ _ _ reductions_pure _ G) as ([p c] & A & B). unfold pure_reduction in A. cbn [fst snd] in A.
    destruct (pure_term (str x)) as [p'|] eqn:T1; [|discriminate]. destruct (pure_term (str y)) as [c'|] eqn:T2; [|discriminate]. inversion A; subst p' c'.
    rewrite (denotes_pure _ _ _ T1 D1), (denotes_pure _ _ _ T2 D2) in Y. eauto.
Qed.
Lemma reduce_spec t : statement t -> reduces nm t (RuleTable_Reduce nm t) \/ RuleTable_Reduce nm t = t /\ forall r, ~ reduces nm t r.
Proof.
  intros S1. rewrite <- reductions_text by auto.
  assert (G : forall l, incl l reductions -> (exists p c, In (p, c) l /\ yields1 nm (tree_at p 0) (tree_at c 0) t (reduce_with nm l t)) \/
    reduce_with nm l t = t /\ forall p c r, In (p, c) l -> ~ yields1 nm (tree_at p 0) (tree_at c 0) t r).
  { induction l as [|[p c] l IH]; intros I1; cbn [reduce_with]; [right; split; auto|]. pose proof (fun r => reduce_one p c t r (I1 _ (or_introl eq_refl)) S1) as R.
    destruct IH as [(p' & c' & A & B)|[A B]]; [intros x X; apply I1; right; auto| |]; (destruct (unify_premise nm p t subst0) as [s|]; [destruct (conclude c s) as [t'|]|]);
      try (left; exists p, c; split; [left; auto|]; apply R; auto; fail).
    - left. exists p', c'. cbn. auto.
    - left. exists p', c'. cbn. auto.
    - right. split; [auto|]. intros p' c' r [[= <- <-]|X]; [|eauto]. rewrite <- R. discriminate.
    - right. split; [auto|]. intros p' c' r [[= <- <-]|X]; [|eauto]. rewrite <- R. discriminate. }
  unfold RuleTable_Reduce. destruct (G reductions (fun x X => X)) as [L|[A B]]; [left; exact L|right]. split; [auto|]. intros r. rewrite <- reductions_text by auto. intros (p & c & X & Y). eapply B; eauto.
Qed.
(** ** conclusions are terms again *)
Lemma instantiate_wf sg p : well_formed p -> (forall a, rule_var a = true -> occurs a p -> sg a <> E /\ well_formed (sg a)) -> well_formed (instantiate sg p) /\ (p <> E -> instantiate sg p <> E).
Proof.
  induction p as [|a l IH1 r IH2]; cbn [well_formed instantiate]; intros W H; [auto|]. destruct (rule_var a) eqn:V.
  - destruct (H a V (or_introl eq_refl)). auto.
  - cbn [well_formed]. destruct (connective a); [|destruct W as [-> ->]; cbn; split; [auto|discriminate]]. destruct W as (W1 & W2 & W3 & W4).
    destruct IH1 as [A1 A2]; [auto|intros b B O; apply H; cbn; auto|]. destruct IH2 as [B1 B2]; [auto|intros b B O; apply H; cbn; auto|]. split; [auto|discriminate].
Qed.
Lemma yields_wf p t sg : pattern p -> statement t -> tree_at t 0 = instantiate sg (tree_at p 0) -> admissible nm (tree_at p 0) sg ->
  forall i, rule_var (at_ p i) = true -> sg (at_ p i) <> E /\ well_formed (sg (at_ p i)).
Proof.
  intros P (C & T0 & W) H A i V. assert (N : at_ p i <> 0) by (intros Z0; rewrite Z0, rule_var_0 in V; discriminate).
  pose proof (instance_fitting sg p t P (proj1 C) H i N) as F. rewrite V in F. pose proof (proj1 (slot_admissible p sg (p_closed p P)) A i V) as A'. rewrite <- F in *.
  assert (NE : tree_at t i <> E) by (destruct (tree_at t i); [contradiction|discriminate]). split; [auto|]. apply wf_at; auto. apply tree_ne in NE; auto. apply C.
Qed.
Lemma result_statement c r sg : pattern c -> at_ c 0 <> 0 -> (forall i, rule_var (at_ c i) = true -> sg (at_ c i) <> E /\ well_formed (sg (at_ c i))) ->
  closed r -> tree_at r 0 = instantiate sg (tree_at c 0) -> statement r.
Proof.
  intros C C0 H R1 R2. destruct (instantiate_wf sg (tree_at c 0) (p_wf c C)) as [W1 W2].
  { intros a V O. assert (NZ : a <> 0) by (intros Z0; rewrite Z0, rule_var_0 in V; discriminate). apply (occurs_slot c a (p_closed c C) NZ) in O as (i & <-). auto. }
  rewrite <- R2 in *. split; [auto|]. split; [|auto]. apply tree_ne; [apply R1|]. apply W2. apply tree_ne; [apply C|auto].
Qed.
Lemma yields1_statement p c t r : patternb p = true -> patternb c = true -> vars_in c [p] = true -> statement t -> yields1 nm (tree_at p 0) (tree_at c 0) t r -> statement r.
Proof.
  intros HP HC HV S1 (sg & A & T & R1 & R2). destruct (patternb_ok p HP) as [P P0]. destruct (patternb_ok c HC) as [C C0].
  apply (result_statement c r sg); auto. intros i V. destruct (vars_in_ok c _ (p_closed c C) HV i V) as (q & j & [<-|[]] & J). rewrite <- J in *. eapply yields_wf; eauto.
Qed.
Lemma yields2_statement p1 p2 c t1 t2 r : patternb p1 = true -> patternb p2 = true -> patternb c = true -> vars_in c [p1; p2] = true -> statement t1 -> statement t2 ->
  yields2 nm (tree_at p1 0) (tree_at p2 0) (tree_at c 0) t1 t2 r -> statement r.
Proof.
  intros HP HQ HC HV S1 S2 (sg & A & B & T1 & T2 & R1 & R2). destruct (patternb_ok p1 HP) as [P P0]. destruct (patternb_ok p2 HQ) as [Q Q0]. destruct (patternb_ok c HC) as [C C0].
  apply (result_statement c r sg); auto. intros i V. destruct (vars_in_ok c _ (p_closed c C) HV i V) as (q & j & [<-|[<-|[]]] & J); rewrite <- J in *; [apply (yields_wf p1 t1 sg P S1 T1 A)|apply (yields_wf p2 t2 sg Q S2 T2 B)]; auto.
Qed.
Lemma reduce_statement t : statement t -> statement (RuleTable_Reduce nm t).
Proof.
  intros S1. destruct (reduce_spec t S1) as [H|[-> _]]; [|auto]. apply reductions_text in H as (p & c & I1 & Y); auto.
  pose proof reductions_check as RC. rewrite forallb_forall in RC. specialize (RC _ I1). cbn [fst snd] in RC. apply andb_true_iff in RC as [RC R3]. apply andb_true_iff in RC as [X1 X2].
  exact (yields1_statement p c t _ X1 X2 R3 S1 Y).
Qed.
Lemma conclusions_statement double t1 t2 v1 v2 c v vi : statement t1 -> (double = true -> statement t2) -> In (c, v, vi) (conclusions nm double t1 t2 v1 v2) -> statement c.
Proof.
  intros S1 S2 H. apply in_flat_map in H as (r & I1 & H). destruct (apply_rule nm r double t1 t2) as [c0|] eqn:AP; [|destruct H]. destruct H as [[= <- _ _]|[]]. apply reduce_statement.
  pose proof rules_check as RB. rewrite forallb_forall in RB. specialize (RB r I1). unfold apply_rule in AP. destruct (r_p2 r) as [p2|] eqn:P2, double; try discriminate.
  - destruct (ruleb_2 r p2 RB P2) as (B1 & B2 & B3 & B4). apply (apply2 (r_p1 r) p2 (r_c r) t1 t2 c0 B1 B2 B3 B4 S1 (S2 eq_refl)) in AP. eapply yields2_statement; [..|exact AP]; auto.
  - destruct (ruleb_1 r RB P2) as (B1 & B3 & B4). apply (apply1 (r_p1 r) (r_c r) t1 c0 B1 B3 B4 S1) in AP. eapply yields1_statement; [..|exact AP]; auto.
Qed.
End Names.
