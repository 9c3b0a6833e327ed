(** Property theorems C38..C41: unification, substitution, normalisation and introduction of
    variables. *)
From Coq Require Import ZArith List Bool Lia.
From Verif Require Import Base F64 TruthM TermM TermS TermP NamesM EventM VariableM VariableS VariableP VariableP2 NormP IntroP CountP TermP2 SubstP.
Local Open Scope Z_scope.
Strategy 1000 [unify_loop apply_loop Term_ExtractSubterm Term_OverrideSubterm].
Strategy -10 [Unify2].

Lemma matches_mono isvar (R R' : Z -> Z -> Prop) sg g : (forall a b, R a b -> R' a b) -> forall s, matches isvar R sg g s -> matches isvar R' sg g s.
Proof.
  intros X. induction g as [|a l IHl r IHr]; intros s H; cbn [matches] in *; auto.
  destruct (isvar a); auto. destruct H as (b & l' & r' & E & A & HL & HR). exists b, l', r'. auto.
Qed.
Lemma in_slot (t : term) a : In a t -> exists i, at_ t i = a.
Proof. intros H. apply (In_nth _ _ 0) in H as (i & _ & H). exists i. exact H. Qed.
Lemma slot_in (t : term) i : at_ t i <> 0 -> In (at_ t i) t.
Proof.
  intros H. unfold at_ in *. destruct (Nat.ltb_spec i (length t)) as [L|L]; [apply nth_In; exact L|]. rewrite nth_overflow in H by lia. congruence.
Qed.
Lemma map_zero_binding s v : binding s v <> E -> lookup_map (s_map s) v <> zero_term.
Proof. intros H X. apply H. unfold binding. rewrite X. reflexivity. Qed.

(** C38 (for well-formed terms whose symbols have fixed arities).  [unifiable]: all variables
    (Variable_Unify), or only query variables (matching of questions).  If unification succeeds:
    the specific term is the general one with every unifiable variable replaced by its binding,
    only unifiable variables of the general term are bound, every one of them is bound, and to
    a permitted term; and if all variables are numbered ones and no variable inside a bound term is itself
    bound to something else, applying the substitution gives exactly the specific term. *)
Theorem C38_unify_sound_partial : forall nm av simdist (tr0 : truth f64A) query_only general specific ar s,
  closed general -> closed specific -> at_ general 0 <> 0 -> at_ specific 0 <> 0 ->
  arity_ok ar general -> arity_ok ar specific -> (forall a, unifiable nm query_only a = true -> ar a = 0%nat) ->
  feqb (confidence tr0) f0 = true ->
  Unify2 nm av simdist tr0 general specific query_only = Ok s -> s_success s = true ->
  tree_at specific 0 = inst (unifiable nm query_only) (binding s) (tree_at general 0) /\
  (forall v, 0 < v -> binding s v <> E -> unifiable nm query_only v = true /\ In v general) /\
  (forall v, In v general -> unifiable nm query_only v = true -> binding s v <> E /\ bindable nm v (root (binding s v))) /\
  (numbered nm general -> numbered nm specific ->
   (forall j p, unifiable nm query_only (at_ general j) = true -> p <> [] -> isVariable nm (at_ specific (idx j p)) = true ->
      binding s (at_ specific (idx j p)) = E \/ binding s (at_ specific (idx j p)) = N (at_ specific (idx j p)) E E) ->
   ApplySubstitute nm general s = Ok (specific, true)).
Proof.
  intros nm av simdist tr0 qonly general specific ar s Cg Cs Ng Ns Ag As Av F RUN SUC.
  assert (EQ : forall a b, match_atom av simdist tr0 a b -> a = b).
  { intros a b [X|[X _]]; [exact X|]. change f64 with (carrier f64A) in *. rewrite F in X. discriminate X. }
  assert (Rar : forall a b, match_atom av simdist tr0 a b -> ar a = ar b) by (intros a b X; rewrite (EQ _ _ X); reflexivity).
  assert (AV : forall a, unifiable nm qonly a = true -> a <> 0) by (intros a X ->; exact (al0_ nm qonly X)).
  split; [|split; [|split]].
  - apply matches_eq. apply (matches_mono _ (match_atom av simdist tr0)); [exact EQ|].
    exact (sf_tree nm av simdist tr0 qonly general specific ar s Cg Cs Ng Ns Ag As Rar RUN SUC).
  - intros v V B. destruct (sf_all2 nm av simdist tr0 qonly general specific s RUN SUC v V (map_zero_binding _ _ B)) as (A & i & <-).
    split; [exact A|]. apply slot_in. apply AV. exact A.
  - intros v I A. destruct (in_slot _ _ I) as (i & <-).
    destruct (sf_binding nm av simdist tr0 qonly general specific ar s Cg Cs Ns Ag As Av Rar RUN SUC i A) as (_ & _ & B & C & _).
    split; [exact B|exact C].
  - intros G27 S27 NC. apply (sf_apply nm av simdist tr0 qonly general specific ar s Cg Cs Ng Ns Ag As Av Rar RUN SUC F).
    + intros i V. apply G27; [|exact V]. apply slot_in. pose proof (var_pos _ _ V). lia.
    + intros i V. apply S27; [|exact V]. apply slot_in. pose proof (var_pos _ _ V). lia.
    + intros j k A (p & ->) N V. apply (NC j p A); [|exact V]. intros ->. apply N. reflexivity.
Qed.
Print Assumptions C38_unify_sound_partial.

(** C38, with similar numeric atoms: when the given truth value has non-zero confidence, two
    different atoms may also match if both carry a value for the same measurement. *)
Theorem C38_unify_analogy_partial : forall nm av simdist (tr0 : truth f64A) query_only general specific ar s,
  closed general -> closed specific -> at_ general 0 <> 0 -> at_ specific 0 <> 0 ->
  arity_ok ar general -> arity_ok ar specific -> (forall a, unifiable nm query_only a = true -> ar a = 0%nat) ->
  (forall a, av a <> None -> ar a = 0%nat) ->
  Unify2 nm av simdist tr0 general specific query_only = Ok s -> s_success s = true ->
  matches (unifiable nm query_only)
    (fun a b => a = b \/ exists v1 v2 measured, av a = Some (v1, measured) /\ av b = Some (v2, measured))
    (binding s) (tree_at general 0) (tree_at specific 0).
Proof.
  intros nm av simdist tr0 qonly general specific ar s Cg Cs Ng Ns Ag As Av Aval RUN SUC.
  assert (VS : forall a b, match_atom av simdist tr0 a b -> a = b \/ exists v1 v2 n, av a = Some (v1, n) /\ av b = Some (v2, n)).
  { intros a b [X|[_ X]]; [left; exact X|right]. unfold value_similarity in X. destruct (av a) as [[v1 n1]|]; [|congruence].
    destruct (av b) as [[v2 n2]|]; [|congruence]. destruct (list_eqb n1 n2) eqn:Q; [|congruence]. apply list_eqb_spec in Q. subst n2. exists v1, v2, n1. auto. }
  assert (Rar : forall a b, match_atom av simdist tr0 a b -> ar a = ar b).
  { intros a b X. destruct (VS a b X) as [->|(v1 & v2 & n & X1 & X2)]; [reflexivity|]. rewrite (Aval a), (Aval b) by congruence. reflexivity. }
  apply (matches_mono _ (match_atom av simdist tr0)); [exact VS|].
  exact (sf_tree nm av simdist tr0 qonly general specific ar s Cg Cs Ng Ns Ag As Rar RUN SUC).
Qed.
Print Assumptions C38_unify_analogy_partial.

(** C38, applying a substitution to any term (not only the unified one): with proper bindings
    in which no variable is itself bound to something else, applying it never fails, reports
    success exactly if the substituted tree fits into the 64 slots, and then returns it. *)
Theorem C38_substitute_exact_or_failure_reported : forall nm s general,
  s_success s = true -> closed general -> var_leaves (isVariable nm) general -> numbered nm general ->
  (forall v, closed (lookup_map (s_map s) v) /\ var_leaves (isVariable nm) (lookup_map (s_map s) v) /\
             numbered nm (lookup_map (s_map s) v)) ->
  (forall v w, In w (lookup_map (s_map s) v) -> isVariable nm w = true -> binding s w = E \/ binding s w = N w E E) ->
  exists r ok, ApplySubstitute nm general s = Ok (r, ok) /\
    (ok = true <-> fits (inst (isVariable nm) (image s) (tree_at general 0)) 0) /\
    (ok = true -> closed r /\ tree_at r 0 = inst (isVariable nm) (image s) (tree_at general 0)).
Proof.
  intros nm s general S C L NB B NC. apply apply_exact; auto; try (intros v; apply B).
  intros v. apply Forall_forall. intros a I A. destruct (B v) as (_ & _ & X). apply X; auto.
Qed.
Print Assumptions C38_substitute_exact_or_failure_reported.

(** C39: if the specific term is an instance of the general one, each variable being replaced by
    a permitted term, unification succeeds, keeps the truth value it was given, and finds exactly
    these replacements. *)
Theorem C39_unify_complete : forall nm av simdist (tr0 : truth f64A) query_only general specific replacement,
  closed general -> closed specific -> var_leaves (unifiable nm query_only) general ->
  (forall v, In v general -> unifiable nm query_only v = true ->
     v <= 27 /\ replacement v <> E /\ bindable nm v (root (replacement v))) ->
  tree_at specific 0 = inst (unifiable nm query_only) replacement (tree_at general 0) ->
  exists s, Unify2 nm av simdist tr0 general specific query_only = Ok s /\ s_success s = true /\ s_truth s = tr0 /\
    forall v, In v general -> unifiable nm query_only v = true -> binding s v = replacement v.
Proof.
  intros nm av simdist tr0 qonly general specific sg Cg Cs VL OK INST.
  assert (SI : forall i, unifiable nm qonly (at_ general i) = true -> In (at_ general i) general).
  { intros i A. apply slot_in. intros X. rewrite X in A. exact (al0_ nm qonly A). }
  destruct (unify_complete nm av simdist tr0 qonly general specific sg Cg Cs VL) as (s & R & S & T & B).
  - intros i A. destruct (OK _ (SI i A) A) as (X & _). exact X.
  - exact INST.
  - intros i A. destruct (OK _ (SI i A) A) as (_ & X). exact X.
  - exists s. split; [exact R|]. split; [exact S|]. split; [exact T|]. intros v I A. destruct (in_slot _ _ I) as (i & <-). apply B. exact A.
Qed.
Print Assumptions C39_unify_complete.

(** C40 (for terms in which no variable already carries the number given to an earlier one,
    [no_clash]).  Normalising replaces every variable by the one of its kind numbered by its order of first
    occurrence: independent, dependent and query variables stay of their kind, different
    variables stay different, nothing else changes; with more than nine variables of a kind
    the program stops with its error message. *)
Theorem C40_normalise_partial : forall nm t, symbol_table nm -> is_term t -> no_clash nm t ->
  (few_vars nm t -> exists rename, Normalize nm t = Ok (map rename t) /\
     (forall a, isVariable nm a = false -> rename a = a) /\
     (forall a b, In a t -> In b t -> isVariable nm a = true -> isVariable nm b = true -> rename a = rename b -> a = b) /\
     (forall a, In a t -> isIndependentVariable nm a = true ->
        rename a = indep_atom (position a (order (filter (isIndependentVariable nm) t)))) /\
     (forall a, In a t -> isDependentVariable nm a = true ->
        rename a = dep_atom (position a (order (filter (isDependentVariable nm) t)))) /\
     (forall a, In a t -> isQueryVariable nm a = true ->
        rename a = query_atom (position a (order (filter (isQueryVariable nm) t)))) /\
     (forall a, In a t -> (isIndependentVariable nm a = true -> isIndependentVariable nm (rename a) = true) /\
        (isDependentVariable nm a = true -> isDependentVariable nm (rename a) = true) /\
        (isQueryVariable nm a = true -> isQueryVariable nm (rename a) = true))) /\
  (~ few_vars nm t -> Normalize nm t = Abort).
Proof.
  intros nm t NM T NC. destruct (normalize_ok nm NM t T NC) as [A B]. split; [|exact B]. intros F. exists (rename nm t).
  split; [exact (A F)|]. split; [apply rename_id|]. split; [intros a b X Y; apply rename_inj; auto|].
  split; [intros a _ K; exact (rename_kind nm t Indep a K)|]. split; [intros a _ K; exact (rename_kind nm t Dep a K)|].
  split; [intros a _ K; exact (rename_kind nm t Query a K)|].
  intros a X. split; [intros K; exact (rename_keeps_kind nm NM t Indep a F X K)|].
  split; [intros K; exact (rename_keeps_kind nm NM t Dep a F X K)|intros K; exact (rename_keeps_kind nm NM t Query a F X K)].
Qed.
Print Assumptions C40_normalise_partial.

(** Terms as users write them: with names such as $x, #y instead of numbers there is never a
    clash, nor is there in a term whose numbered variables already come in order. *)
Theorem C40_no_clash : forall nm t,
  (forall a, In a t -> isVariable nm a = true -> 27 < a) \/
  (forall k a, In a (kvars nm t k) -> a = kind_atom k (position a (kvars nm t k))) -> no_clash nm t.
Proof.
  intros nm t [H|H] k a m I M ->.
  - exfalso. apply kvars_in in I as [I K]. assert (V : isVariable nm (kind_atom k m) = true) by (apply var_kind; exists k; exact K).
    specialize (H _ I V). destruct k; unfold kind_atom, indep_atom, dep_atom, query_atom in H; lia.
  - apply H in I. apply kind_atom_inj in I. lia.
Qed.
Print Assumptions C40_no_clash.

(** Symbols for the examples: a, b, c after the reserved ones (numbers 64, 65, 66), $x, $y. *)
Definition ex_nm : names := init_list ++ [[97]; [98]; [99]; [36; 120]; [36; 121]; [94; 111; 112]].
Lemma ex_nm_table : symbol_table ex_nm. Proof. eexists. reflexivity. Qed.
Notation Inh := (copula_index INHERITANCE).
Notation Imp := (copula_index IMPLICATION).
Notation Prod := (copula_index PRODUCT).
Notation Neg := (copula_index NEGATION).

(** C40 is false without [no_clash]: in <<$2 --> $1> ==> <$2 --> a>> two different variables
    become the same one. *)
Theorem C40_normalise_refuted : exists nm t t', symbol_table nm /\ closed t /\ few_vars nm t /\ Normalize nm t = Ok t' /\
  (exists i j, isVariable nm (at_ t i) = true /\ isVariable nm (at_ t j) = true /\ at_ t i <> at_ t j /\ at_ t' i = at_ t' j).
Proof.
  exists ex_nm, (mk_term [Imp; Inh; Inh; indep_atom 2; indep_atom 1; indep_atom 2; 64]),
         (mk_term [Imp; Inh; Inh; indep_atom 1; indep_atom 2; indep_atom 2; 64]).
  split; [apply ex_nm_table|]. split; [apply closedb_ok; vm_compute; reflexivity|]. split; [intros []; vm_compute; discriminate|].
  split; [vm_compute; reflexivity|]. exists 4%nat, 5%nat. vm_compute. repeat split; congruence.
Qed.
Print Assumptions C40_normalise_refuted.
(** the hypotheses of C40_normalise_partial: <<$x --> a> ==> <$y --> $x>> *)
Example C40_example : let t := mk_term [Imp; Inh; Inh; 67; 64; 68; 67] in
  symbol_table ex_nm /\ is_term t /\ no_clash ex_nm t /\ few_vars ex_nm t /\
  Normalize ex_nm t = Ok (mk_term [Imp; Inh; Inh; indep_atom 1; 64; indep_atom 2; indep_atom 1]).
Proof.
  cbv zeta. split; [apply ex_nm_table|]. split; [reflexivity|]. split.
  - apply C40_no_clash. left. intros a I V. destruct (Z.ltb_spec 27 a); auto. exfalso.
    vm_compute in I. repeat (destruct I as [<-|I]; [lia || (vm_compute in V; discriminate V)|]). exact I.
  - split; [intros []; vm_compute; discriminate|vm_compute; reflexivity].
Qed.

(** a fixed-arity test for the examples *)
Definition arityb (ar : Z -> nat) (t : term) : bool :=
  forallb (fun i => (at_ t i =? 0) ||
    (Bool.eqb (negb (at_ t (child i false) =? 0)) (1 <=? ar (at_ t i))%nat &&
     Bool.eqb (negb (at_ t (child i true) =? 0)) (2 <=? ar (at_ t i))%nat)) (seq 0 SIZE).
Lemma arityb_ok ar t : is_term t -> arityb ar t = true -> arity_ok ar t.
Proof.
  intros T H i Z0. unfold arityb in H. rewrite forallb_forall in H. specialize (H i ltac:(apply in_seq; pose proof (at_lt _ _ T Z0); lia)).
  apply orb_true_iff in H as [H|H]; [apply Z.eqb_eq in H; congruence|]. apply andb_true_iff in H as [H1 H2].
  apply eqb_prop in H1. apply eqb_prop in H2. rewrite <- !Nat.leb_le, <- H1, <- H2, !negb_true_iff, !Z.eqb_neq. tauto.
Qed.
Definition ex_ar (a : Z) : nat := if (a =? Neg) then 1 else if (40 <=? a) && (a <=? 62) then 2 else 0.
Lemma ex_ar_var q a : unifiable ex_nm q a = true -> ex_ar a = 0%nat.
Proof.
  intros V. assert (W : isVariable ex_nm a = true) by (destruct q; [apply var_kind; exists Query|]; exact V). clear V.
  unfold ex_ar. change Neg with 58. destruct (Z.eqb_spec a 58) as [->|]; [vm_compute in W; discriminate W|].
  destruct (Z.leb_spec 40 a); [|reflexivity]. destruct (Z.leb_spec a 62); [|reflexivity]. exfalso.
  assert (I : In a (map Z.of_nat (seq 40 23))) by (apply in_map_iff; exists (Z.to_nat a); split; [lia|apply in_seq; lia]).
  vm_compute in I. repeat (destruct I as [<-|I]; [vm_compute in W; discriminate W|]). exact I.
Qed.
Definition no_values : Z -> option (f64 * name) := fun _ => None.
(** <$1 --> a> with $1 := (b * c), and with $1 := a term that is too deep *)
Definition ex_deep : term := mk_term ([Prod; Prod; 64; Prod; 64; 0; 0; Prod; 64; 0; 0; 0; 0; 0; 0; Prod; 64] ++ repeat 0 14 ++ [64; 65]).
Definition ex_sub (b : term) : substitution := mkSubst (upd (repeat zero_term 28) (Z.to_nat (indep_atom 1)) b) true truth0.
Lemma ex_sub_ok b : closed b -> var_leaves (isVariable ex_nm) b -> numbered ex_nm b ->
  forall v, closed (lookup_map (s_map (ex_sub b)) v) /\ var_leaves (isVariable ex_nm) (lookup_map (s_map (ex_sub b)) v) /\
             numbered ex_nm (lookup_map (s_map (ex_sub b)) v).
Proof.
  intros C L NB v. assert (D : lookup_map (s_map (ex_sub b)) v = b \/ lookup_map (s_map (ex_sub b)) v = zero_term).
  { unfold lookup_map. destruct (Nat.eq_dec (Z.to_nat v) (Z.to_nat (indep_atom 1))) as [->|Hn]; [left; reflexivity|right]. cbn [s_map ex_sub].
    rewrite nth_upd_diff by congruence. apply nth_repeat. }
  destruct D as [-> | ->]; [auto|]. split; [split; [apply zero_is_term|intros i c X; rewrite at_zero in X; congruence]|]. split.
  - intros i c X. apply at_zero.
  - intros a I V. apply repeat_spec in I. lia.
Qed.
Definition novarb (t : term) : bool := forallb (fun a => negb (isVariable ex_nm a)) t.
Lemma novarb_ok t : novarb t = true -> var_leaves (isVariable ex_nm) t /\ numbered ex_nm t /\ forall w, In w t -> isVariable ex_nm w = true -> False.
Proof.
  intros H. unfold novarb in H. rewrite forallb_forall in H. assert (G : forall w, In w t -> isVariable ex_nm w = true -> False).
  { intros w I V. specialize (H w I). rewrite V in H. discriminate. }
  split; [|split; auto]; [|intros a I V; exfalso; eauto]. intros i b V. exfalso. apply (G (at_ t i)); auto. apply slot_in. intros X. rewrite X in V. discriminate.
Qed.
Example C38_substitute_example : let g := mk_term [Inh; indep_atom 1; 64] in
  closed g /\ var_leaves (isVariable ex_nm) g /\ numbered ex_nm g /\
  (forall b, In b [mk_term [Prod; 65; 66]; ex_deep] -> closed b /\
     (forall v w, In w (lookup_map (s_map (ex_sub b)) v) -> isVariable ex_nm w = true -> False)) /\
  ApplySubstitute ex_nm g (ex_sub (mk_term [Prod; 65; 66])) = Ok (mk_term [Inh; Prod; 64; 65; 66], true) /\
  (exists r, ApplySubstitute ex_nm g (ex_sub ex_deep) = Ok (r, false)).
Proof.
  cbv zeta. split; [apply closedb_ok; vm_compute; reflexivity|]. split; [|split; [|split; [|split]]].
  - intros i b V. destruct i as [|[|[|i]]]; try (vm_compute in V; discriminate V); [destruct b; vm_compute; reflexivity|].
    exfalso. assert (X : at_ (mk_term [Inh; indep_atom 1; 64]) (S (S (S i))) = 0).
    { unfold at_, mk_term. cbn [app nth]. apply nth_repeat. }
    rewrite X in V. discriminate V.
  - intros a I V. vm_compute in I. repeat (destruct I as [<-|I]; [vm_compute; congruence || (vm_compute in V; discriminate V)|]). destruct I.
  - assert (G : forall b, closed b -> novarb b = true -> closed b /\ (forall v w, In w (lookup_map (s_map (ex_sub b)) v) -> isVariable ex_nm w = true -> False)).
    { intros b C H. split; [exact C|]. destruct (novarb_ok b H) as (L & NB & NV). intros v w I V.
      assert (D : In w b \/ In w zero_term).
      { unfold lookup_map in I. destruct (Nat.eq_dec (Z.to_nat v) (Z.to_nat (indep_atom 1))) as [X|Hn]; [rewrite X in I; left; exact I|right].
        cbn [s_map ex_sub] in I. rewrite nth_upd_diff in I by congruence. rewrite nth_repeat in I. exact I. }
      destruct D as [D|D]; [eauto|]. apply repeat_spec in D. subst w. discriminate V. }
    intros b [<-|[<-|[]]]; apply G; try (apply closedb_ok); vm_compute; reflexivity.
  - vm_compute. reflexivity.
  - eexists. vm_compute. reflexivity.
Qed.
(** C38/C39 are not vacuous: general <$1 --> a>, specific <(b * c) --> a> *)
Example C38_example : let g := mk_term [Inh; indep_atom 1; 64] in let sp := mk_term [Inh; Prod; 64; 65; 66] in
  closed g /\ closed sp /\ arity_ok ex_ar g /\ arity_ok ex_ar sp /\ numbered ex_nm g /\ numbered ex_nm sp /\
  match Unify ex_nm no_values f1 g sp with
  | Ok s => s_success s = true /\ binding s (indep_atom 1) = N Prod (N 65 E E) (N 66 E E) /\ ApplySubstitute ex_nm g s = Ok (sp, true)
  | _ => False
  end.
Proof.
  cbv zeta. split; [apply closedb_ok; vm_compute; reflexivity|]. split; [apply closedb_ok; vm_compute; reflexivity|].
  split; [apply arityb_ok; vm_compute; reflexivity|]. split; [apply arityb_ok; vm_compute; reflexivity|].
  split; [|split].
  - intros a I V. vm_compute in I. repeat (destruct I as [<-|I]; [lia || (vm_compute in V; discriminate V)|]). destruct I.
  - intros a I V. vm_compute in I. repeat (destruct I as [<-|I]; [lia || (vm_compute in V; discriminate V)|]). destruct I.
  - vm_compute. repeat split; reflexivity.
Qed.

(** C38 is false in general: when a symbol occurs with different numbers of arguments, and when
    the specific term mentions a variable that is bound too. *)
Theorem C38_unify_sound_refuted : exists nm av simdist,
  (exists g sp, closed g /\ closed sp /\ at_ g 0 <> 0 /\ at_ sp 0 <> 0 /\
     match Unify nm av simdist g sp with
     | Ok s => s_success s = true /\ (forall v, binding s v = E) /\ tree_at g 0 <> tree_at sp 0
     | _ => False
     end) /\
  (exists g sp ar, closed g /\ closed sp /\ arity_ok ar g /\ arity_ok ar sp /\ (forall a, isVariable nm a = true -> ar a = 0%nat) /\
     numbered nm g /\ numbered nm sp /\
     match Unify nm av simdist g sp with
     | Ok s => s_success s = true /\ exists t ok, ApplySubstitute nm g s = Ok (t, ok) /\ t <> sp
     | _ => False
     end).
Proof.
  exists ex_nm, no_values, f1. split.
  - exists (mk_term [Neg; 64]), (mk_term [Neg; 64; 65]).
    split; [apply closedb_ok; vm_compute; reflexivity|]. split; [apply closedb_ok; vm_compute; reflexivity|].
    split; [vm_compute; discriminate|]. split; [vm_compute; discriminate|].
    match goal with |- match ?x with _ => _ end => assert (X : exists tr, x = Ok (mkSubst (repeat zero_term 28) true tr)) end.
    { eexists. vm_compute. reflexivity. }
    destruct X as (tr & ->). cbn [s_success]. split; [reflexivity|]. split; [|vm_compute; discriminate].
    intros v. unfold binding. cbn [s_map]. rewrite lookup_none. reflexivity.
  - exists (mk_term [Inh; indep_atom 1; indep_atom 2]), (mk_term [Inh; Prod; 64; indep_atom 2; 65]), ex_ar.
    split; [apply closedb_ok; vm_compute; reflexivity|]. split; [apply closedb_ok; vm_compute; reflexivity|].
    split; [apply arityb_ok; vm_compute; reflexivity|]. split; [apply arityb_ok; vm_compute; reflexivity|].
    split; [exact (ex_ar_var false)|]. split; [|split].
    + intros a I V. vm_compute in I. repeat (destruct I as [<-|I]; [lia || (vm_compute in V; discriminate V)|]). destruct I.
    + intros a I V. vm_compute in I. repeat (destruct I as [<-|I]; [lia || (vm_compute in V; discriminate V)|]). destruct I.
    + vm_compute. split; [reflexivity|]. eexists _, _. split; [reflexivity|]. discriminate.
Qed.
Print Assumptions C38_unify_sound_refuted.

Lemma newVarID_fresh t ind : is_term t -> gapless t -> newVarID t ind <> 0 ->
  1 <= newVarID t ind /\ forall i, newVarID t ind <= i <= 9 -> ~ In (if ind then indep_atom i else dep_atom i) t.
Proof.
  intros T G. unfold newVarID. set (va i := if ind then indep_atom i else dep_atom i).
  destruct (find _ _) as [n|] eqn:Q; [|congruence]. intros _. apply find_some in Q as [I Q].
  assert (R : 1 <= n <= 9) by (cbn in I; lia). split; [lia|]. fold (va n) in Q.
  assert (A0 : ~ In (va n) t).
  { intros X. apply negb_true_iff in Q. unfold Term_HasAtom in Q. destruct (in_slot _ _ X) as (i & E).
    assert (NZ : va n <> 0) by (unfold va, indep_atom, dep_atom; destruct ind; lia).
    assert (Li : (i < SIZE)%nat) by (apply (at_lt t); [exact T|congruence]).
    match type of Q with existsb ?f ?l = false => assert (Y : existsb f l = true) end.
    { apply existsb_exists. exists i. split; [apply in_seq; lia|apply Z.eqb_eq; exact E]. }
    congruence. }
  assert (ST : forall k : nat, (Z.of_nat k + n <= 9) -> ~ In (va (n + Z.of_nat k)) t).
  { induction k as [|k IH]; intros L; [rewrite Z.add_0_r; exact A0|]. intros X. apply IH; [lia|].
    destruct (G (n + Z.of_nat k) ltac:(lia)) as [G1 G2]. unfold va in *. replace (n + Z.of_nat (S k)) with (n + Z.of_nat k + 1) in X by lia. destruct ind; auto. }
  intros i L. fold (va i). replace i with (n + Z.of_nat (Z.to_nat (i - n))) by lia. apply ST. lia.
Qed.

Lemma tocc_occurs a tr : (1 <= tocc a tr)%nat -> occurs a tr.
Proof.
  induction tr as [|b l IHl r IHr]; cbn [tocc occurs]; [lia|]. destruct (Z.eqb_spec a b); [auto|]. intros H.
  destruct (Nat.le_gt_cases 1 (tocc a l)); [auto|]. right. right. apply IHr. lia.
Qed.
Lemma back_exists nm (t : term) ro : (forall a b, In a t -> In b t -> ro a = ro b -> a = b) ->
  (forall a, In a t -> ro a = a \/ (~ In (ro a) t /\ isVariable nm (ro a) = true)) ->
  exists back, map back (map ro t) = t /\ forall b, back b <> b -> isVariable nm b = true /\ ~ In b t.
Proof.
  intros INJ CH. exists (fun b => match find (fun a => ro a =? b) t with Some a => a | None => b end). split.
  - rewrite map_map. rewrite <- (map_id t) at 2. apply map_ext_in. intros a I.
    destruct (find (fun a' => ro a' =? ro a) t) as [a'|] eqn:F.
    + apply find_some in F as [I' F]. apply Z.eqb_eq in F. apply INJ; auto.
    + exfalso. apply (find_none _ _ F) in I. rewrite Z.eqb_refl in I. discriminate I.
  - intros b NE. destruct (find (fun a => ro a =? b) t) as [a|] eqn:F; [|congruence]. apply find_some in F as [I F]. apply Z.eqb_eq in F. subst b.
    destruct (CH a I) as [X|[X Y]]; [congruence|auto].
Qed.
Lemma children_trees nm t a : closed t -> IsSimpleAtom nm a = true ->
  (tocc a (tree_at t 1) + tocc a (tree_at t 2) <= count_occ Z.eq_dec t a)%nat.
Proof.
  intros C S. assert (a <> 0) by (intros ->; discriminate S). rewrite <- tocc_count by auto. rewrite (tree_at_unfold t 0) by apply C.
  destruct (Z.eqb_spec (at_ t 0) 0) as [Z0|NZ].
  - assert (forall b, at_ t (child 0 b) = 0) as K. { intros b. destruct (Z.eq_dec (at_ t (child 0 b)) 0) as [|X]; auto. apply (proj2 C) in X. congruence. }
    rewrite (tree_at_unfold t 1), (tree_at_unfold t 2) by apply C. pose proof (K false) as K1. pose proof (K true) as K2.
    change (child 0 false) with 1%nat in K1. change (child 0 true) with 2%nat in K2. rewrite K1, K2. cbn. lia.
  - cbn [tocc]. change (child 0 false) with 1%nat. change (child 0 true) with 2%nat. lia.
Qed.
Lemma var_of_var nm b i : symbol_table nm -> 1 <= i <= 9 -> isVariable nm (var_of b i) = true.
Proof. intros NM R. apply var_kind. destruct b; [exists Indep; apply (kind_atom_kind nm NM Indep)|exists Dep; apply (kind_atom_kind nm NM Dep)]; exact R. Qed.

Lemma intro_imp_unfold nm t ext side :
  (copulaEquals nm (at_ t 0) TEMPORAL_IMPLICATION || copulaEquals nm (at_ t 0) IMPLICATION || copulaEquals nm (at_ t 0) EQUIVALENCE) = true ->
  exists co o, IntroduceImplicationVariables2 nm t ext side =
    if (newVarID t false =? 0) || (newVarID t true =? 0) then Ok (false, t)
    else Ok (gen_loop t (sel_imp (count_atoms nm (Term_ExtractSubterm t 1) ext side) (count_atoms nm (Term_ExtractSubterm t 2) ext side) co o)
               (seq 0 SIZE) (mkV (newVarID t false) (newVarID t true) (fun _ => 0) t)).
Proof.
  intros COP. unfold IntroduceImplicationVariables2. rewrite COP. cbn [rassert rbind].
  destruct (if ext then _ else _) as [isop opseq]. eexists _, _. rewrite intro_imp_gen. reflexivity.
Qed.
Lemma sel_imp_ok nm (t : term) cl cr co o a b : closed t -> only_simple nm cl -> only_simple nm cr ->
  cl a <= tcount nm a (tree_at t 1) -> cr a <= tcount nm a (tree_at t 2) -> sel_imp cl cr co o a = Some b ->
  IsSimpleAtom nm a = true /\ (2 <= count_occ Z.eq_dec t a)%nat /\ (b = true -> occurs a (tree_at t 1) /\ occurs a (tree_at t 2)).
Proof.
  intros C OL OR KL KR S. unfold sel_imp in S. set (both := negb (cl a =? 0) && negb (cr a =? 0)) in S.
  destruct ((2 <=? cl a) || (2 <=? cr a) || both) eqn:GT; [|discriminate S]. destruct (negb both && _); [discriminate S|]. assert (b = both) by congruence. subst b. clear S.
  destruct (OL a) as [PL SL]. destruct (OR a) as [PR SR].
  assert (SI : IsSimpleAtom nm a = true).
  { apply orb_true_iff in GT as [GT|GT]; [apply orb_true_iff in GT as [GT|GT]|]; [apply SL|apply SR|apply SL].
    - apply Z.leb_le in GT. lia.
    - apply Z.leb_le in GT. lia.
    - unfold both in GT. apply andb_true_iff in GT as [GT _]. apply negb_true_iff, Z.eqb_neq in GT. exact GT. }
  unfold tcount in KL, KR. rewrite SI in KL, KR.
  pose proof (children_trees nm t a C SI) as SUM. split; [exact SI|]. split.
  - apply orb_true_iff in GT as [GT|GT]; [apply orb_true_iff in GT as [GT|GT]|].
    + apply Z.leb_le in GT. lia.
    + apply Z.leb_le in GT. lia.
    + unfold both in GT. rewrite andb_true_iff, !negb_true_iff, !Z.eqb_neq in GT. lia.
  - intros B. unfold both in B. rewrite andb_true_iff, !negb_true_iff, !Z.eqb_neq in B. split; apply tocc_occurs; lia.
Qed.
Lemma imp_sides nm t : closed t -> first_order nm (tree_at t 0) ->
  (copulaEquals nm (at_ t 0) TEMPORAL_IMPLICATION || copulaEquals nm (at_ t 0) IMPLICATION || copulaEquals nm (at_ t 0) EQUIVALENCE) = true ->
  first_order nm (tree_at t 1) /\ first_order nm (tree_at t 2).
Proof.
  intros C FO COP. rewrite (tree_at_unfold t 0) in FO by apply C. destruct (Z.eqb_spec (at_ t 0) 0) as [Z0|_]; [rewrite Z0 in COP; discriminate COP|].
  cbn [first_order] in FO. assert (CN : copulaEquals nm (at_ t 0) NEGATION = false /\ is_connector nm (at_ t 0) = true).
  { unfold is_connector. split; [|rewrite <- !orb_assoc in *; rewrite COP; rewrite !orb_true_r; reflexivity].
    unfold copulaEquals in *. destruct (0 <? at_ t 0); [|discriminate COP]. destruct (ch1 nm (at_ t 0) =? 0); [|rewrite !andb_false_r in COP; discriminate COP].
    cbn [andb] in *. rewrite !andb_true_r in *. apply orb_true_iff in COP as [COP|COP]; [apply orb_true_iff in COP as [COP|COP]|]; apply Z.eqb_eq in COP; rewrite COP; reflexivity. }
  destruct CN as [N1 N2]. rewrite N1, N2 in FO. exact FO.
Qed.
Lemma imp_selected nm t ext side co o a b : closed t -> first_order nm (tree_at t 0) ->
  (copulaEquals nm (at_ t 0) TEMPORAL_IMPLICATION || copulaEquals nm (at_ t 0) IMPLICATION || copulaEquals nm (at_ t 0) EQUIVALENCE) = true ->
  sel_imp (count_atoms nm (Term_ExtractSubterm t 1) ext side) (count_atoms nm (Term_ExtractSubterm t 2) ext side) co o a = Some b ->
  IsSimpleAtom nm a = true /\ (2 <= count_occ Z.eq_dec t a)%nat /\ (b = true -> occurs a (tree_at t 1) /\ occurs a (tree_at t 2)).
Proof.
  intros C FO COP. destruct (imp_sides nm t C FO COP) as [F1 F2].
  pose proof (closed_extract t 1 C) as CL. pose proof (closed_extract t 2 C) as CR.
  pose proof (height_extract t 1 C) as TL. pose proof (height_extract t 2 C) as TR.
  pose proof (count_atoms_ok nm (Term_ExtractSubterm t 1) ext side a CL) as KL. rewrite TL in KL. specialize (KL F1). destruct KL as [_ KL].
  pose proof (count_atoms_ok nm (Term_ExtractSubterm t 2) ext side a CR) as KR. rewrite TR in KR. specialize (KR F2). destruct KR as [_ KR].
  exact (sel_imp_ok nm t _ _ co o a b C (count_atoms_simple nm _ ext side) (count_atoms_simple nm _ ext side) KL KR).
Qed.
(** C41, implications and equivalences (for terms whose variables are numbered without gaps, as
    after normalising, and in which statements are not nested in statements).  The result is the
    term with some of its atoms consistently replaced: each replaced atom is a simple one that
    occurs at least twice, it is replaced by a dependent variable not occurring in the term, or,
    if it occurs on both sides, by such an independent variable; different atoms get different variables, so
    replacing the new variables back gives the original.  The flag is false only if
    all nine variables of one kind are in use, and then nothing is changed. *)
Theorem C41_introduce_implication_partial : forall nm t ext side,
  symbol_table nm -> closed t -> gapless t -> first_order nm (tree_at t 0) ->
  (copulaEquals nm (at_ t 0) TEMPORAL_IMPLICATION || copulaEquals nm (at_ t 0) IMPLICATION || copulaEquals nm (at_ t 0) EQUIVALENCE) = true ->
  exists ok ro, IntroduceImplicationVariables2 nm t ext side = Ok (ok, map ro t) /\
    (ok = false <-> ((forall i, 1 <= i <= 9 -> In (dep_atom i) t) \/ (forall i, 1 <= i <= 9 -> In (indep_atom i) t))) /\
    (ok = false -> map ro t = t) /\
    (forall a, In a t -> ro a = a \/
       (IsSimpleAtom nm a = true /\ (2 <= count_occ Z.eq_dec t a)%nat /\ ~ In (ro a) t /\
        exists i, 1 <= i <= 9 /\ (ro a = dep_atom i \/ (ro a = indep_atom i /\ occurs a (tree_at t 1) /\ occurs a (tree_at t 2))))) /\
    (forall a b, In a t -> In b t -> ro a = ro b -> a = b) /\
    (exists back, map back (map ro t) = t /\ forall b, back b <> b -> isVariable nm b = true /\ ~ In b t).
Proof.
  intros nm t ext side NM C G FO COP. destruct (intro_imp_unfold nm t ext side COP) as (co & o & UF). rewrite UF. clear UF.
  assert (HAS : forall a, a <> 0 -> Term_HasAtom t a = true <-> In a t).
  { intros a NZ. unfold Term_HasAtom. rewrite existsb_exists. split.
    - intros (i & _ & E). apply Z.eqb_eq in E. rewrite <- E in *. apply slot_in. exact NZ.
    - intros X. destruct (in_slot _ _ X) as (i & E). exists i. split; [apply in_seq; split; [lia|]; apply (at_lt t); [apply C|congruence]|apply Z.eqb_eq; exact E]. }
  assert (NV0 : forall ind, newVarID t ind = 0 <-> forall i, 1 <= i <= 9 -> In (if ind then indep_atom i else dep_atom i) t).
  { intros ind. unfold newVarID. destruct (find _ _) as [n|] eqn:Q.
    - apply find_some in Q as [I Q]. assert (R : 1 <= n <= 9) by (cbn in I; lia). split; [lia|]. intros X. specialize (X n R).
      apply HAS in X; [|unfold indep_atom, dep_atom; destruct ind; lia]. rewrite X in Q. discriminate Q.
    - split; [|reflexivity]. intros _ i R. apply HAS; [unfold indep_atom, dep_atom; destruct ind; lia|].
      assert (I : In i [1; 2; 3; 4; 5; 6; 7; 8; 9]) by (cbn; lia). apply (find_none _ _ Q) in I. apply negb_false_iff in I. exact I. }
  destruct ((newVarID t false =? 0) || (newVarID t true =? 0)) eqn:Z0.
  - exists false, (fun a => a). rewrite map_id. split; [reflexivity|]. split.
    { split; [intros _|reflexivity]. apply orb_true_iff in Z0 as [Z0|Z0]; apply Z.eqb_eq in Z0; [left; exact (proj1 (NV0 false) Z0)|right; exact (proj1 (NV0 true) Z0)]. }
    split; [reflexivity|]. split; [auto|]. split; [auto|]. exists (fun a => a). rewrite map_id. split; [reflexivity|congruence].
  - apply orb_false_iff in Z0 as [ZD ZI]. apply Z.eqb_neq in ZD, ZI.
    destruct (newVarID_fresh t false (proj1 C) G ZD) as [D1 D2]. destruct (newVarID_fresh t true (proj1 C) G ZI) as [I1 I2].
    set (cl := count_atoms nm (Term_ExtractSubterm t 1) ext side). set (cr := count_atoms nm (Term_ExtractSubterm t 2) ext side).
    set (sel := sel_imp _ _ _ _).
    destruct (gen_ok t (proj1 C) sel (newVarID t false) (newVarID t true) D1 I1) as (ro & E & ALT & _ & INJ).
    { intros [] i R; [apply I2|apply D2]; exact R. }
    exists true, ro. split; [rewrite E; reflexivity|].
    pose proof (fun a b => imp_selected nm t ext side co o a b C FO COP) as SELOK. fold cl cr in SELOK. fold sel in SELOK.
    assert (LOW : forall b, 1 <= low (newVarID t false) (newVarID t true) b) by (intros []; cbn; lia).
    split; [split; [discriminate|]|split; [discriminate|split; [|split; [exact INJ|]]]].
    + intros [X|X]; [apply (NV0 false) in X|apply (NV0 true) in X]; congruence.
    + intros a I. destruct (ALT a I) as [X|(b & i & S & R & X & F)]; [left; exact X|right].
      destruct (SELOK a b S) as (X1 & X2 & X3). specialize (LOW b). split; [exact X1|]. split; [exact X2|]. split; [exact F|].
      exists i. split; [lia|]. destruct b; [right|left]; unfold var_of in X; auto.
    + apply back_exists; [exact INJ|]. intros a I. destruct (ALT a I) as [X|(b & i & S & R & X & F)]; [left; exact X|right].
      split; [exact F|]. rewrite X. apply var_of_var; [exact NM|]. specialize (LOW b). lia.
Qed.
Print Assumptions C41_introduce_implication_partial.

(* no independent variable is ever introduced: use number 10 for them *)
Lemma conj_no_indep t c : forall l s, gen_loop t (sel_conj c) l (mkV (v_dep s) 0 (v_ids s) (v_term s)) = gen_loop t (sel_conj c) l (mkV (v_dep s) 10 (v_ids s) (v_term s)).
Proof.
 induction l as [|i l IH]; intros s; cbn [gen_loop]; auto. destruct (sel_conj c (at_ t i)) as [b|] eqn:SB; [|apply IH].
      assert (b = false) by (unfold sel_conj in SB; destruct (2 <=? c (at_ t i)); congruence). subst b.
      unfold put_var. cbn [v_ids v_dep v_indep v_term]. 
      destruct (v_ids s (at_ t i) =? 0); cbn [v_ids v_dep v_indep v_term];
      (match goal with |- context [if ?q then _ else _] => destruct q end;
      [match goal with |- context [Term_OverrideSubterm ?x ?y ?z] => destruct (Term_OverrideSubterm x y z) as [[] u] end|]); cbn [v_ids v_dep v_indep v_term]; try reflexivity;
      match goal with |- gen_loop _ _ _ (mkV ?x ?y ?z ?w) = _ => exact (IH (mkV x y z w)) end. 
Qed.
Lemma intro_conj_unfold nm t ext : copulaEquals nm (at_ t 0) CONJUNCTION = true ->
  IntroduceConjunctionVariables nm t ext = if newVarID t false =? 0 then Ok (false, t)
    else Ok (gen_loop t (sel_conj (count_atoms nm t ext 0)) (seq 0 SIZE) (mkV (newVarID t false) 10 (fun _ => 0) t)).
Proof.
  intros COP. unfold IntroduceConjunctionVariables. rewrite COP. cbn [rassert rbind]. rewrite intro_conj_gen.
  pose proof (conj_no_indep t (count_atoms nm t ext 0) (seq 0 SIZE) (mkV (newVarID t false) 0 (fun _ => 0) t)) as X.
  cbn [v_dep v_ids v_term] in X. rewrite X. reflexivity.
Qed.
Lemma conj_core nm t c : symbol_table nm -> closed t -> only_simple nm c -> (forall a, c a <= tcount nm a (tree_at t 0)) ->
  1 <= newVarID t false -> (forall i, newVarID t false <= i <= 9 -> ~ In (dep_atom i) t) ->
  exists ro, gen_loop t (sel_conj c) (seq 0 SIZE) (mkV (newVarID t false) 10 (fun _ => 0) t) = (true, map ro t) /\
    (forall a, In a t -> ro a = a \/
       (IsSimpleAtom nm a = true /\ (2 <= count_occ Z.eq_dec t a)%nat /\ ~ In (ro a) t /\ exists i, 1 <= i <= 9 /\ ro a = dep_atom i)) /\
    (forall a b, In a t -> In b t -> ro a = ro b -> a = b) /\
    (exists back, map back (map ro t) = t /\ forall b, back b <> b -> isVariable nm b = true /\ ~ In b t).
Proof.
  intros NM C K1 K0 D1 D2.
    destruct (gen_ok t (proj1 C) (sel_conj c) (newVarID t false) 10 D1 ltac:(lia)) as (ro & E & ALT & _ & INJ).
    { intros [] i R; [cbn in R; lia|apply D2; exact R]. }
    exists ro. split; [exact E|].
    assert (SELOK : forall a b, sel_conj c a = Some b -> b = false /\ IsSimpleAtom nm a = true /\ (2 <= count_occ Z.eq_dec t a)%nat).
    { intros a b S. unfold sel_conj in S. destruct (Z.leb_spec 2 (c a)) as [L2|]; [|discriminate S]. split; [congruence|].
      destruct (K1 a) as [_ SI]. specialize (SI ltac:(lia)). split; [exact SI|]. specialize (K0 a). unfold tcount in K0. rewrite SI in K0.
      rewrite <- tocc_count; [lia|exact C|]. intros ->. discriminate SI. }
    split; [|split; [exact INJ|]].
    + intros a I. destruct (ALT a I) as [Y|(b & i & S & R & Y & F)]; [left; exact Y|right].
      destruct (SELOK a b S) as (-> & Y1 & Y2). cbn in R. split; [exact Y1|]. split; [exact Y2|]. split; [exact F|]. exists i. split; [lia|exact Y].
    + apply back_exists; [exact INJ|]. intros a I. destruct (ALT a I) as [Y|(b & i & S & R & Y & F)]; [left; exact Y|right].
      split; [exact F|]. rewrite Y. apply var_of_var; [exact NM|]. destruct b; cbn in R; lia.
Qed.
(** C41, conjunctions: as above, with dependent variables only. *)
Theorem C41_introduce_conjunction_partial : forall nm t ext,
  symbol_table nm -> closed t -> gapless t -> first_order nm (tree_at t 0) -> copulaEquals nm (at_ t 0) CONJUNCTION = true ->
  exists ok ro, IntroduceConjunctionVariables nm t ext = Ok (ok, map ro t) /\
    (ok = false -> map ro t = t) /\
    (forall a, In a t -> ro a = a \/
       (IsSimpleAtom nm a = true /\ (2 <= count_occ Z.eq_dec t a)%nat /\ ~ In (ro a) t /\ exists i, 1 <= i <= 9 /\ ro a = dep_atom i)) /\
    (forall a b, In a t -> In b t -> ro a = ro b -> a = b) /\
    (exists back, map back (map ro t) = t /\ forall b, back b <> b -> isVariable nm b = true /\ ~ In b t).
Proof.
  intros nm t ext NM C G FO COP. rewrite (intro_conj_unfold nm t ext COP).
  destruct (Z.eqb_spec (newVarID t false) 0) as [ZD|ZD].
  - exists false, (fun a => a). rewrite map_id. split; [reflexivity|]. split; [reflexivity|]. split; [auto|]. split; [auto|].
    exists (fun a => a). rewrite map_id. split; [reflexivity|congruence].
  - destruct (newVarID_fresh t false (proj1 C) G ZD) as [D1 D2].
    destruct (conj_core nm t _ NM C (count_atoms_simple nm t ext 0) (fun a => proj2 (count_atoms_ok nm t ext 0 a C FO)) D1 D2) as (ro & E & R).
    exists true, ro. split; [f_equal; exact E|]. split; [discriminate|exact R].
Qed.
Print Assumptions C41_introduce_conjunction_partial.

Definition gaplessb (t : term) : bool :=
  forallb (fun i => (negb (existsb (Z.eqb (indep_atom (i + 1))) t) || existsb (Z.eqb (indep_atom i)) t) &&
                    (negb (existsb (Z.eqb (dep_atom (i + 1))) t) || existsb (Z.eqb (dep_atom i)) t)) [1; 2; 3; 4; 5; 6; 7; 8].
Lemma gaplessb_ok t : gaplessb t = true -> gapless t.
Proof.
  unfold gaplessb. rewrite forallb_forall. intros H i R. specialize (H i ltac:(cbn; lia)). apply andb_true_iff in H as [H1 H2].
  assert (M : forall a, existsb (Z.eqb a) t = true <-> In a t).
  { intros a. rewrite existsb_exists. split; [intros (x & I & E); apply Z.eqb_eq in E; subst; exact I|intros I; exists a; split; [exact I|apply Z.eqb_refl]]. }
  rewrite orb_true_iff, negb_true_iff in H1, H2. rewrite <- !M. split; intros I.
  - destruct H1; [congruence|assumption].
  - destruct H2; [congruence|assumption].
Qed.
(** the hypotheses are met: <<a --> b> ==> <a --> c>> becomes <<$1 --> b> ==> <$1 --> c>> *)
Example C41_example : let t := mk_term [Imp; Inh; Inh; 64; 65; 64; 66] in
  symbol_table ex_nm /\ closed t /\ gapless t /\ first_order ex_nm (tree_at t 0) /\ copulaEquals ex_nm (at_ t 0) IMPLICATION = true /\
  IntroduceImplicationVariables ex_nm t true = Ok (true, mk_term [Imp; Inh; Inh; indep_atom 1; 65; indep_atom 1; 66]).
Proof.
  cbv zeta. split; [apply ex_nm_table|]. split; [apply closedb_ok; vm_compute; reflexivity|].
  split; [apply gaplessb_ok; vm_compute; reflexivity|split; [vm_compute; auto|split; vm_compute; reflexivity]].
Qed.

(** C41 is false in general: a statement inside a statement is counted twice, so that an atom
    with one occurrence is replaced; and if $2 occurs without $1 the second introduced variable
    is that $2, so that different atoms are identified. *)
Theorem C41_introduce_refuted : exists nm, symbol_table nm /\
  (exists t t' i, closed t /\ gapless t /\ IntroduceImplicationVariables nm t true = Ok (true, t') /\
     at_ t i <> at_ t' i /\ count_occ Z.eq_dec t (at_ t i) = 1%nat) /\
  (exists t t' i j, closed t /\ IntroduceImplicationVariables nm t true = Ok (true, t') /\ at_ t i <> at_ t j /\ at_ t' i = at_ t' j).
Proof.
  exists ex_nm. split; [apply ex_nm_table|]. split.
  - exists (mk_term [Imp; Inh; Inh; Inh; 65; 66; 65; 64; 65]), (mk_term [Imp; Inh; Inh; Inh; 65; 66; 65; dep_atom 1; 65]), 7%nat.
    split; [apply closedb_ok; vm_compute; reflexivity|]. split; [|vm_compute; repeat split; congruence].
    apply gaplessb_ok; vm_compute; reflexivity.
  - exists (mk_term [Imp; Inh; Inh; Prod; indep_atom 2; Prod; 66; 64; 65; 0; 0; 64; 65]).
    eexists. exists 4%nat, 8%nat. split; [apply closedb_ok; vm_compute; reflexivity|]. split; [vm_compute; reflexivity|]. vm_compute. split; congruence.
Qed.
Print Assumptions C41_introduce_refuted.
