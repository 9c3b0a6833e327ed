(** Sessions of the shell are lives of the reasoner in the sense of SysS.v. *)
From Coq Require Import ZArith List Bool Lia.
From Verif Require Import Base F64 TruthM StampM TermM TermP NamesM AtomsM AtomsS AtomsP ParserM EverywhereP EventM VariableM RulesM MemoryM MemoryS QuestionM DecisionM OpsM CycleM CycleS EverywhereS CycleP1 CycleP2 CycleP4 ShellM ShellS ShellP2 ShellP3 SysS MemoryP2 SysP.
From Verif Require PQueueM HashTableP HashTableM SubstP.
Import ListNotations.
Local Open Scope nat_scope.
#[local] Opaque AtomicTermIndex one_cycle perform Question Narsese_Sentence Narsese_Term Memory_INIT Narsese_INIT RuleTable_Reduce reductions.
Section Names.
Variable cap : nat.
Hypothesis C64 : 64 <= cap.
Notation known := (known cap).
Definition roomn (F : names) : Prop := cap = ATOMS_MAX \/ length F < cap.
Definition ext (a b : names) : Prop := exists more, b = a ++ more.
Lemma ext_refl a : ext a a. Proof. exists []. rewrite app_nil_r. reflexivity. Qed.
Lemma ext_trans a b c : ext a b -> ext b c -> ext a c. Proof. intros (x & ->) (y & ->). exists (x ++ y). rewrite app_assoc. reflexivity. Qed.
Lemma ext_len a b : ext a b -> length a <= length b. Proof. intros (x & ->). rewrite app_length. lia. Qed.
Lemma ext_known a b t : ext a b -> known a t -> known b t.
Proof. intros E. apply Forall_impl. intros x. pose proof (ext_len _ _ E). lia. Qed.
Lemma ext_room a b : ext a b -> roomn b -> roomn a.
Proof. intros E [R|R]; [left; auto|right]. pose proof (ext_len _ _ E). lia. Qed.
Lemma AM : Z.of_nat ATOMS_MAX = 65536%Z. Proof. apply Z2Nat.id. discriminate. Qed.
Definition katom (F : names) (a : Z) : Prop := (0 <= a <= Z.of_nat (length F))%Z /\ (a < Z.of_nat cap)%Z.
Lemma intern st n st' i : ainv cap st -> AtomicTermIndex cap st n = Ok (st', i) ->
  ainv cap st' /\ ext (a_names st) (a_names st') /\ forall F, ext (a_names st') F -> roomn F -> katom F (to_atom i).
Proof.
  intros I E. destruct (intern_ok cap st n I) as (A & B & C).
  assert (G : forall st' k, (k < length (a_names st')) -> forall F, ext (a_names st') F -> roomn F -> katom F (to_atom (1 + Z.of_nat k))).
  { intros s k L F X R. pose proof (ext_len _ _ X). unfold katom, to_atom. pose proof (Z.mod_pos_bound (1 + Z.of_nat k) 65536 ltac:(lia)). pose proof (Z.mod_le (1 + Z.of_nat k) 65536 ltac:(lia) ltac:(lia)).
    split; [lia|]. destruct R as [-> |R]; [rewrite AM|]; lia. }
  destruct (in_dec name_dec (block n) (a_names st)) as [Y|Y].
  - destruct (A Y) as (k & E' & N). rewrite E in E'. apply okI in E'. injection E' as -> ->. split; auto. split; [apply ext_refl|]. apply G. apply nth_error_Some. congruence.
  - destruct (Nat.lt_ge_cases (length (a_names st)) cap) as [L|L].
    + destruct (B Y L) as (s1 & E' & N & I'). rewrite E in E'. apply okI in E'. injection E' as -> ->. split; auto. split; [rewrite N; eexists; reflexivity|]. apply G. rewrite N, app_length. cbn. lia.
    + rewrite (C Y L) in E. discriminate.
Qed.
Lemma init st : Narsese_INIT cap = Ok st -> ainv cap st /\ a_names st = init_list.
Proof.
  Transparent Narsese_INIT. unfold Narsese_INIT. Opaque Narsese_INIT. intros E. destruct (@HashTableP.init_ok name Z StringEqual StringHash cap cap ltac:(lia)) as (h0 & Bs & free & E0 & I & S & L). rewrite E0 in E. cbn [rbind] in E.
  assert (I0 : ainv cap (mkA h0 [])) by (split; [constructor|exists Bs, free; auto]).
  pose proof (intern_all_ok cap init_list _ I0) as X. cbn [a_names] in X. rewrite init_firsts in X.
  destruct (Nat.leb_spec (length init_list) cap) as [Q|Q].
  - destruct X as (s1 & is1 & E1 & I1 & N1 & _ & _). rewrite E1 in E. cbn [rbind] in E. apply okI in E. subst. auto.
  - rewrite X in E by (cbn; lia). discriminate.
Qed.
(** *** the parser *)
Lemma upd_known F t i a : known F t -> katom F a -> known F (upd t i a).
Proof. intros H K. apply Forall_upd; auto. Qed.
Lemma build fuel : forall st t toks i1 idx st' t', ainv cap st -> buildBinaryTree cap fuel st t toks i1 idx = Ok (st', t') ->
  ainv cap st' /\ ext (a_names st) (a_names st') /\ forall F, ext (a_names st') F -> roomn F -> known F t -> known F t'.
Proof.
  induction fuel as [|fuel IH]; intros st t toks i1 idx st' t' I; cbn [buildBinaryTree]; [discriminate|]. destruct (nth_error toks i1) as [tok|]; [|discriminate].
  destruct (isTok 40 tok).
  - destruct (nth_error toks (i1 + 1)) as [cop|]; [|discriminate]. destruct (AtomicTermIndex cap st cop) as [[s1 a]| |] eqn:E1; cbn [rbind]; try discriminate. destruct (SIZE <=? idx - 1); [discriminate|].
    destruct (intern _ _ _ _ I E1) as (I1 & X1 & K1).
    match goal with |- rbind ?e _ = _ -> _ => destruct e as [[s2 t2]| |] eqn:E2; cbn [rbind]; try discriminate end.
    assert (G : ainv cap s2 /\ ext (a_names s1) (a_names s2) /\ forall F, ext (a_names s2) F -> roomn F -> known F t -> known F t2).
    { destruct (i1 + 2 <? length toks).
      - destruct (IH _ _ _ _ _ _ _ I1 E2) as (I2 & X2 & K2). split; auto. split; auto. intros F XF R H. apply K2; auto. apply upd_known; auto. apply K1; auto. eapply ext_trans; eauto.
      - apply okI in E2. injection E2 as <- <-. split; auto. split; [apply ext_refl|]. intros F XF R H. apply upd_known; auto. }
    destruct G as (I2 & X2 & K2). destruct (skipCompound toks (i1 + 2) <? length toks).
    + intros E3. destruct (IH _ _ _ _ _ _ _ I2 E3) as (I3 & X3 & K3). split; auto. split; [eapply ext_trans; [exact X1|]; eapply ext_trans; eauto|]. intros F XF R H. apply K3; auto. apply K2; auto. eapply ext_trans; eauto.
    + intros E3; apply okI in E3; injection E3 as <- <-. split; auto. split; [eapply ext_trans; eauto|]. auto.
  - destruct (rassert _); cbn [rbind]; try discriminate. destruct (AtomicTermIndex cap st _) as [[s1 ai]| |] eqn:E1; cbn [rbind]; try discriminate.
    destruct (intern _ _ _ _ I E1) as (I1 & X1 & K1). intros E3; apply okI in E3; injection E3 as <- <-. split; auto. split; auto. intros F XF R H. apply upd_known; auto.
Qed.
Section Norm.
Variable nm : names.
Variable T : term -> Prop.
Hypothesis TC : tclosed T.
Lemma norm_loop_T l : forall s s', T (n_term s) -> (1 <= n_indep s /\ 1 <= n_dep s /\ 1 <= n_query s)%Z -> norm_loop nm l s = Ok s' -> T (n_term s').
Proof.
  induction l as [|j l IH]; intros s s' H B; cbn [norm_loop]; [intros E; apply okI in E; subst; auto|].
  destruct (norm_step nm s j) as [s1| |] eqn:E; cbn [rbind]; try discriminate. apply IH.
  - unfold norm_step in E. destruct (_ && _); [|apply okI in E; subst; auto]. destruct (rassert _) eqn:RA; cbn [rbind] in E; try discriminate. unfold rassert in RA. destruct (_ <=? _)%Z eqn:LE in RA; [|discriminate].
    apply Z.leb_le in LE. apply okI in E. subst s1.
    assert (G : forall ks t new, (0 <= new < 64)%Z -> T t -> T (fold_left (fun t k => upd t k new) ks t)).
    { induction ks as [|k ks IK]; intros t new N HT; cbn; auto. apply IK; auto. apply (tc_upd T TC); auto. }
    unfold indep_atom, dep_atom, query_atom in *. destruct (isIndependentVariable _ _); [|destruct (isDependentVariable _ _)]; cbn [n_term]; apply G; auto; lia.
  - unfold norm_step in E. destruct (_ && _); [|apply okI in E; subst; auto]. destruct (rassert _); cbn [rbind] in E; try discriminate. apply okI in E. subst s1.
    destruct (isIndependentVariable _ _); [|destruct (isDependentVariable _ _)]; cbn; lia.
Qed.
Lemma normalize_T t t' : T t -> Normalize nm t = Ok t' -> T t'.
Proof.
  intros H. unfold Normalize. destruct (norm_loop _ _ _) as [s| |] eqn:E; cbn [rbind]; try discriminate. intros X; apply okI in X; subst. eapply norm_loop_T; eauto; cbn; auto. lia.
Qed.
End Norm.
Lemma ktc F : 63 <= length F -> tclosed (known F). Proof. intros; apply known_tc; auto. Qed.
Lemma parse_term st s st' t : 63 <= length (a_names st) -> ainv cap st -> Narsese_Term cap st s = Ok (st', t) -> ainv cap st' /\ ext (a_names st) (a_names st') /\ (roomn (a_names st') -> known (a_names st') t).
Proof.
  Transparent Narsese_Term. unfold Narsese_Term. Opaque Narsese_Term. intros N I. destruct (Narsese_Expand s) as [x| |]; cbn [rbind]; try discriminate. destruct (Narsese_PrefixTransform x) as [toks| |]; cbn [rbind]; try discriminate.
  destruct (_ <=? _); [|discriminate]. destruct (buildBinaryTree _ _ _ _ _ _) as [[s1 t1]| |] eqn:E; cbn [rbind]; try discriminate. destruct (Normalize _ _) as [t2| |] eqn:E2; cbn [rbind]; try discriminate.
  intros H; apply okI in H; injection H as <- <-. destruct (build _ _ _ _ _ _ _ _ I E) as (I1 & X1 & K1). split; auto. split; auto. intros R. pose proof (ext_len _ _ X1).
  eapply normalize_T; [|apply K1|exact E2]; auto using ext_refl; [apply ktc; lia|]. apply (known0 cap C64 (a_names s1)). lia.
Qed.
Lemma parse_sentence' atof sc1 sc2 st l st' s : 63 <= length (a_names st) -> ainv cap st -> Narsese_Sentence cap atof sc1 sc2 st l = Ok (st', s) ->
  ainv cap st' /\ ext (a_names st) (a_names st') /\ (roomn (a_names st') -> known (a_names st') (ParserM.s_term s)).
Proof.
  Transparent Narsese_Sentence. unfold Narsese_Sentence. Opaque Narsese_Sentence. intros N I. destruct (sentence_dt _ _) as [[s1 dt]| |]; cbn [rbind]; try discriminate.
  destruct (rassert _); cbn [rbind]; try discriminate. destruct (rassert _); cbn [rbind]; try discriminate. destruct (sentence_truth _ _ _) as [[s2 w]| |]; cbn [rbind]; try discriminate.
  destruct (_ <? _)%nat; [discriminate|]. destruct (rassert _); cbn [rbind]; try discriminate. destruct (Narsese_Term _ _ _) as [[s3 t]| |] eqn:E; cbn [rbind]; try discriminate.
  intros H; apply okI in H; injection H as <- <-. eapply parse_term; eauto.
Qed.
Lemma reduce_known F nm t : 63 <= length F -> known F t -> known F (RuleTable_Reduce nm t).
Proof. intros L H. Transparent RuleTable_Reduce. unfold RuleTable_Reduce. Opaque RuleTable_Reduce. apply (t_reduce nm _ (ktc F L)); auto. Qed.
(** *** operations *)
Lemma atomic_known F a : katom F a -> known F (atomic_term a).
Proof. intros K. unfold atomic_term. apply upd_known; auto. apply SubstP.zero_Forall. unfold katom in K. lia. Qed.
Definition kop (F : names) (o : operation) : Prop := known F (op_term o) /\ Forall (known F) (op_args o).
Lemma kop_ext a b o : ext a b -> kop a o -> kop b o.
Proof. intros E [A B]. split; [eapply ext_known; eauto|]. eapply Forall_impl; [|exact B]. intros; eapply ext_known; eauto. Qed.
Lemma add_ok s n a s' : 63 <= length (a_names (n_st s)) -> ainv cap (n_st s) -> length (n_ops s) = OPERATIONS_MAX -> AddOperation cap s n a = Ok s' ->
  ainv cap (n_st s') /\ ext (a_names (n_st s)) (a_names (n_st s')) /\ length (n_ops s') = OPERATIONS_MAX /\
  (forall F, ext (a_names (n_st s')) F -> roomn F -> Forall (kop F) (n_ops s) -> Forall (kop F) (n_ops s')).
Proof.
  intros N I LO. unfold AddOperation, AtomicTerm. destruct (rassert _); cbn [rbind]; try discriminate. destruct (AtomicTermIndex _ _ _) as [[st i]| |] eqn:E; cbn [rbind]; try discriminate.
  destruct (rassert _); cbn [rbind]; try discriminate. destruct (rassert _); cbn [rbind]; try discriminate. intros H; apply okI in H; subst s'. cbn [n_st n_ops]. destruct (intern _ _ _ _ I E) as (I1 & X1 & K1).
  split; auto. split; auto. split; [rewrite upd_length; auto|]. intros F XF R H. apply Forall_upd; auto. split; cbn; [apply atomic_known; auto|].
  pose proof (ext_len _ _ X1). pose proof (ext_len _ _ XF). apply (Forall_repeat (known F) zero_term 10). apply (known0 cap C64 F). lia.
Qed.
Lemma adds_ok hs : forall s s', 63 <= length (a_names (n_st s)) -> ainv cap (n_st s) -> length (n_ops s) = OPERATIONS_MAX -> AddOperations cap s hs = Ok s' ->
  ainv cap (n_st s') /\ ext (a_names (n_st s)) (a_names (n_st s')) /\ length (n_ops s') = OPERATIONS_MAX /\
  (forall F, ext (a_names (n_st s')) F -> roomn F -> Forall (kop F) (n_ops s) -> Forall (kop F) (n_ops s')).
Proof.
  induction hs as [|[n a] hs IH]; intros s s' N I LO; cbn [AddOperations]; [intros H; apply okI in H; subst; auto using ext_refl|].
  destruct (AddOperation cap s n a) as [s1| |] eqn:E; cbn [rbind]; try discriminate. destruct (add_ok _ _ _ _ N I LO E) as (I1 & X1 & L1 & K1). intros H. pose proof (ext_len _ _ X1).
  destruct (IH s1 s' ltac:(lia) I1 L1 H) as (I2 & X2 & L2 & K2). split; auto. split; [eapply ext_trans; eauto|]. split; auto. intros F XF R HF. apply K2; auto. apply K1; auto. eapply ext_trans; eauto.
Qed.
Lemma clear_kop F t ops : 63 <= length F -> forall f, Forall (kop F) ops -> Forall (kop F) (clear_from t f ops) /\ length (clear_from t f ops) = length ops.
Proof.
  intros N. induction ops as [|o ops IH]; intros f H; cbn [clear_from length]; auto. inversion H as [|? ? [H1 H2] H3]; subst. destruct (IH (f || term_eqb (op_term o) t) H3) as [A B]. split; [|lia].
  constructor; auto. destruct (_ || _); split; auto. cbn. apply (known0 cap C64 F). lia.
Qed.
Lemma setname_ok k s id n s' : 63 <= length (a_names (n_st s)) -> ainv cap (n_st s) -> length (n_ops s) = OPERATIONS_MAX -> SetOpName cap k s id n = Ok s' ->
  ainv cap (n_st s') /\ ext (a_names (n_st s)) (a_names (n_st s')) /\ 
  (forall F, ext (a_names (n_st s')) F -> roomn F -> Forall (kop F) (n_ops s) -> length (n_ops s') = OPERATIONS_MAX /\ Forall (kop F) (n_ops s')).
Proof.
  intros N I LO. unfold SetOpName, AtomicTerm. destruct (rassert _); cbn [rbind]; try discriminate. destruct (rassert _); cbn [rbind]; try discriminate. destruct (AtomicTermIndex _ _ _) as [[st i]| |] eqn:E; cbn [rbind]; try discriminate.
  intros H; apply okI in H; subst s'. cbn [n_st n_ops]. destruct (intern _ _ _ _ I E) as (I1 & X1 & K1). split; auto. split; auto. intros F XF R H.
  pose proof (ext_len _ _ X1). pose proof (ext_len _ _ XF). destruct (clear_kop F (atomic_term (to_atom i)) (n_ops s) ltac:(lia) false H) as [A B]. split; [rewrite upd_length; congruence|]. apply Forall_upd; auto.
  assert (kop F op0). { split; [apply (known0 cap C64 F); lia|]. apply (Forall_repeat (known F) zero_term 10). apply (known0 cap C64 F). lia. }
  split; cbn; [apply atomic_known; auto|]. apply (Forall_nth' (kop F) _ (Z.to_nat (id - 1)) op0); auto.
Qed.
End Names.
Section Shell.
Variable v : env.
Hypothesis SZ : sizes v.
Hypothesis PA : plain_answers v.
Notation cap := (v_atoms v).
Notation lives := (lives (v_cmax v) (v_buckets v) (v_atoms v) (v_bmax v) (v_gmax v) (v_layers v)).
Lemma C64 : 64 <= cap. Proof. destruct SZ as (_ & _ & H & _). exact H. Qed.
Lemma SZ' : sizes_ok (v_cmax v) (v_buckets v) (v_atoms v) (v_bmax v) (v_gmax v) (v_layers v).
Proof. destruct SZ as (A & B & C & D & E & F). unfold sizes_ok. repeat split; auto. eapply Nat.lt_le_trans; [|exact C]. apply Nat.lt_0_succ. Qed.
Lemma answers nm : 63 <= length nm -> known_answers cap nm (v_act v).
Proof.
  intros N l x. destruct (PA l x) as [A B]. assert (G : forall t, known cap init_list t -> known cap nm t).
  { intros t. apply Forall_impl. intros a. change (length init_list) with 63. lia. }
  split; [|auto]. eapply Forall_impl; [|exact A]. auto.
Qed.
Definition live (z : nar) : Prop := ainv cap (z_st z) /\ lives (a_names (z_st z)) (z_core z).
Definition rm (z : nar) : Prop := roomn cap (a_names (z_st z)).
Lemma lives_ext nm nm' s : ext nm nm' -> lives nm s -> lives nm' s. Proof. intros (more & ->). apply lv_names. Qed.
Lemma live63 z : live z -> 63 <= length (a_names (z_st z)).
Proof. intros [_ L]. apply (lives_inv _ _ _ _ _ _ SZ' C64) in L. apply L. Qed.
Lemma live_ops nm s : lives nm s -> length (m_ops (s_mem s)) = OPERATIONS_MAX /\ Forall (kop cap nm) (m_ops (s_mem s)).
Proof. intros L. destruct (lives_inv _ _ _ _ _ _ SZ' C64 _ _ L) as [_ [_ J O]]. split; [apply (mi_o _ _ _ _ _ _ _ _ _ J)|exact O]. Qed.
Lemma live_config z ops r t g st : live z -> ainv cap st -> ext (a_names (z_st z)) (a_names st) -> length ops = OPERATIONS_MAX -> Forall (kop cap (a_names st)) ops ->
  lives (a_names st) (configured (z_core z) ops r t g).
Proof. intros [I L] I' X LO K. apply lv_config; [eapply lives_ext; eauto|split; auto]. Qed.
Lemma live_config0 z r t g : live z -> lives (a_names (z_st z)) (configured (z_core z) (m_ops (s_mem (z_core z))) r t g).
Proof. intros L. pose proof (live_ops _ _ (proj2 L)) as [A B]. apply live_config; auto; [apply L|apply ext_refl]. Qed.
Lemma live_call z s c : live z -> known_call cap (a_names (z_st z)) c -> perform (params_of v z) (z_core z) c = Ok s -> lives (a_names (z_st z)) s.
Proof. intros L K E. refine (lv_call _ _ _ _ _ _ _ _ _ _ _ (proj2 L) _ _ _ K E); auto. apply answers. apply live63; auto. Qed.
Lemma setvalue_live z a z' : live z -> set_value v z a = Ok z' -> live z' /\ ext (a_names (z_st z)) (a_names (z_st z')).
Proof.
  intros [I L]. unfold set_value. match goal with |- rbind ?e _ = _ -> _ => destruct e as [[[x g] n]| |] end; cbn [rbind]; try discriminate.
  destruct (rassert _) as [u| |]; cbn [rbind]; try discriminate. destruct (_ <=? 32)%nat; try discriminate.
  destruct (AtomicTermIndex _ _ _) as [[st i]| |] eqn:E; cbn [rbind]; try discriminate. destruct (rassert (0 <? to_atom i)%Z) as [w| |]; cbn [rbind]; try discriminate.
  intros H; apply okI in H; subst z'. cbn. destruct (intern cap C64 _ _ _ _ I E) as (I1 & X1 & _). split; auto. split; cbn; auto. eapply lives_ext; eauto.
Qed.
Lemma space_live n : forall i z g tn z', live z -> space_loop v n i z g tn = Ok z' -> live z'.
Proof.
  induction n as [|n IH]; intros i z g tn z' L; cbn [space_loop]; [intros H; apply okI in H; subst; auto|].
  destruct (set_value v z _) as [z1| |] eqn:E; cbn [rbind]; try discriminate. apply IH. eapply setvalue_live; eauto.
Qed.
Lemma sentence_live z l q th z' o : live z -> rm z' -> AddInputNarsese2 v z l q th = Ok (z', o) -> live z'.
Proof.
  intros L R H. pose proof (live63 z L) as N. apply sentence_ok in H as (_ & _ & _ & st & s & P & E & H). destruct (parse_sentence' cap C64 _ _ _ _ _ _ _ N (proj1 L) P) as (I1 & X1 & K1).
  unfold rm in R. rewrite E in R. specialize (K1 R). split; rewrite E; auto. destruct H as [(_ & m & ans & Q & -> & _)|(_ & _ & _ & _ & Q)].
  - eapply lv_question; [|exact Q]. eapply lives_ext; eauto. apply L.
  - assert (L1 : live (put_st z st)) by (split; cbn; auto; eapply lives_ext; eauto; apply L).
    refine (live_call (put_st z st) _ _ L1 _ Q). cbn. apply reduce_known; auto using C64. pose proof (ext_len cap C64 _ _ X1). lia.
Qed.
Lemma run_live z k z' r o : live z -> rm z' -> run v z k = Ok (z', r, o) -> live z'.
Proof.
  intros L R H. pose proof (live63 z L) as N. pose proof (live_ops _ _ (proj2 L)) as [LO KO].
  assert (CFG : forall r t g, live (put_core z (configured (z_core z) (m_ops (s_mem (z_core z))) r t g))) by (intros; split; cbn; [apply L|apply live_config0; auto]).
  assert (C0 : forall w, z_st w = z_st z -> (exists r t g, z_core w = configured (z_core z) (m_ops (s_mem (z_core z))) r t g) -> live w).
  { intros w E (r0 & t0 & g0 & E'). split; rewrite E; [apply L|]. rewrite E'. apply live_config0; auto. }
  assert (SET : forall p, about k p -> live z').
  { intros p A. destruct A; cbn [run quiet] in H; unfold quiet, volume, stamp_import, set_lf in H; cbn [rbind] in H;
    repeat match goal with
    | H : context [match v_lf v ?a with _ => _ end] |- _ => destruct (v_lf v a) as [[? ?]|]
    | H : context [scan_d ?a] |- _ => destruct (scan_d a) as [[[? ?]|]| |]; cbn [rbind] in H; try discriminate H
    | H : context [scan_ld ?a] |- _ => destruct (scan_ld a) as [[[? ?]|]| |]; cbn [rbind] in H; try discriminate H
    | H : context [last_close ?a ?b] |- _ => destruct (last_close a b); cbn [rbind] in H; try discriminate H
    | H : context [(?n <? 1000)%nat] |- _ => destruct (n <? 1000)%nat; cbn [rbind] in H; try discriminate H
    end; apply okI in H; injection H as <- <- <-; try exact L;
    apply C0; try reflexivity; eexists; eexists; eexists; first [apply time_cfg|apply ids_cfg|apply restricted_cfg]. }
  destruct k; try (now eapply SET; constructor); cbn [run quiet loud] in H; unfold quiet, loud in H; try (apply okI in H; injection H as <- <- <-; exact L).
  - unfold reason in H. destruct (perform _ _ _) as [s| |] eqn:E; cbn [rbind] in H; try discriminate. apply okI in H; injection H as <- <- <-. split; cbn; [apply L|]. eapply live_call; eauto. exact Logic.I.
  - destruct (_ =? 0)%Z; try discriminate. apply okI in H; injection H as <- <- <-; exact L.
  - destruct (set_value v z a) as [z1| |] eqn:E; cbn [rbind] in H; try discriminate. apply okI in H; injection H as <- <- <-. eapply setvalue_live; eauto.
  - unfold space in H. destruct (scan_d a) as [[[g b]|]| |]; cbn [rbind] in H; try discriminate. destruct (rassert _); cbn [rbind] in H; try discriminate.
    destruct (space_loop _ _ _ _ _ _) as [z1| |] eqn:E; cbn [rbind] in H; try discriminate. apply okI in H; injection H as <- <- <-. eapply space_live; eauto.
  - unfold set_op_name in H. destruct (rassert _) as [u| |]; cbn [rbind] in H; try discriminate. destruct (scan_d a) as [[[n b]|]| |]; cbn [rbind] in H; try discriminate.
    destruct (SetOpName _ _ _ _ _) as [q| |] eqn:E; cbn [rbind] in H; try discriminate. apply okI in H; injection H as <- <- <-.
    destruct (setname_ok cap C64 _ (mkOps (z_st z) (m_ops (s_mem (z_core z))) (z_k z)) _ _ _ N (proj1 L) LO E) as (I1 & X1 & K1). cbn [n_st n_ops] in *. unfold rm in R. cbn in R.
    assert (KO' : Forall (kop cap (a_names (n_st q))) (m_ops (s_mem (z_core z)))) by (eapply Forall_impl; [|exact KO]; intros; eapply kop_ext; eauto using C64).
    destruct (K1 _ (ext_refl _) R KO') as [L2 K2]. rewrite put_ops_st. split; cbn [z_st put_st z_core]; auto. rewrite ops_cfg. apply live_config; auto.
  - unfold set_op_arg in H. destruct (scan_d a) as [[[n b]|]| |]; cbn [rbind] in H; try discriminate. destruct (scan_d b) as [[[k c]|]| |]; cbn [rbind] in H; try discriminate.
    + destruct (rassert _) as [u| |]; cbn [rbind] in H; try discriminate. destruct (rassert _) as [w| |]; cbn [rbind] in H; try discriminate.
      destruct (Narsese_Term _ _ _) as [[st t]| |] eqn:E; cbn [rbind] in H; try discriminate. apply okI in H; injection H as <- <- <-.
      destruct (parse_term cap C64 _ _ _ _ N (proj1 L) E) as (I1 & X1 & K1). unfold rm in R. cbn in R. specialize (K1 R).
      assert (KO' : Forall (kop cap (a_names st)) (m_ops (s_mem (z_core z)))) by (eapply Forall_impl; [|exact KO]; intros; eapply kop_ext; eauto using C64).
      rewrite put_ops_st. split; cbn [z_st put_st z_core]; auto. rewrite ops_cfg. pose proof (ext_len cap C64 _ _ X1). apply live_config; auto; [rewrite upd_length; auto|].
      apply Forall_upd; auto. assert (K0 : kop cap (a_names st) op0). { split; [apply (known0 cap C64); lia|]. apply (Forall_repeat _ zero_term 10). apply (known0 cap C64). lia. }
      pose proof (Forall_nth' (kop cap (a_names st)) _ (Z.to_nat (n - 1)) op0 KO' K0) as [Q1 Q2]. split; cbn; auto. apply Forall_upd; auto.
    + destruct (rassert _) as [u| |]; cbn [rbind] in H; discriminate.
  - unfold query in H. destruct (v_lf v a) as [[x b]|]; cbn [rbind] in H; try discriminate. destruct (rassert _); cbn [rbind] in H; try discriminate.
    destruct (AddInputNarsese2 _ _ _ _ _) as [[z1 o1]| |] eqn:E; cbn [rbind] in H; try discriminate. apply okI in H; injection H as <- <- <-. eapply sentence_live; eauto.
  - unfold set_stdin in H. destruct (scan_d a) as [[[n b]|]| |]; cbn [rbind] in H; try discriminate. destruct (_ && _); cbn [rbind] in H; try discriminate.
    apply okI in H; injection H as <- <- <-. split; [apply L|]. rewrite ops_cfg. apply live_config; auto; [apply L|apply ext_refl|rewrite upd_length; auto|].
    apply Forall_upd; auto. assert (K0 : kop cap (a_names (z_st z)) op0). { split; [apply (known0 cap C64); lia|]. apply (Forall_repeat _ zero_term 10). apply (known0 cap C64). lia. }
    pose proof (Forall_nth' (kop cap (a_names (z_st z))) _ (Z.to_nat (n - 1)) op0 KO K0) as [Q1 Q2]. split; cbn; auto.
  - unfold steps in H. destruct (scan_integer _ _ _) as [[[n b]|]| |]; cbn [rbind] in H; try discriminate. unfold reason in H. destruct (perform _ _ _) as [s| |] eqn:E; cbn [rbind] in H; try discriminate.
    apply okI in H; injection H as <- <- <-. split; cbn; [apply L|]. eapply live_call; eauto. exact Logic.I.
  - destruct (AddInputNarsese2 _ _ _ _ _) as [[z1 o1]| |] eqn:E; cbn [rbind] in H; try discriminate. apply okI in H; injection H as <- <- <-. eapply sentence_live; eauto.
Qed.
Lemma reset_only z k z' o : run v z k = Ok (z', SHELL_RESET, o) -> z' = z.
Proof.
  destruct k; cbn [run]; unfold quiet, loud; try (destruct (_ =? 0)%Z; try discriminate); intros H;
    try (match type of H with rbind ?e _ = _ => destruct e as [x| |]; cbn [rbind] in H; try discriminate; try (destruct x; discriminate) end); apply okI in H; injection H as <- ?; try discriminate; auto.
Qed.
Lemma init_live m st o s : Memory_INIT (v_cmax v) (v_buckets v) (v_atoms v) (v_bmax v) (v_gmax v) (v_layers v) = Ok m -> lives init_list s -> s_mem s = m ->
  Narsese_INIT cap = Ok st -> AddOperations cap (mkOps st (m_ops m) 0) shell_ops = Ok o -> roomn cap (a_names (n_st o)) ->
  ainv cap (n_st o) /\ forall r t g, lives (a_names (n_st o)) (configured s (n_ops o) r t g).
Proof.
  intros E L M E1 E2 R. destruct (init cap C64 _ E1) as [I N]. pose proof (live_ops _ _ L) as [LO KO]. rewrite M in LO, KO.
  destruct (adds_ok cap C64 shell_ops (mkOps st (m_ops m) 0) o) as (I1 & X1 & L1 & K1); cbn [n_st n_ops]; auto; [rewrite N; apply list63|]. cbn [n_st n_ops] in *. split; auto. rewrite N in X1.
  intros r t g. apply lv_config; [eapply lives_ext; eauto|]. split; auto. apply K1; auto using ext_refl. eapply Forall_impl; [|exact KO]. intros; eapply kop_ext; eauto using C64.
Qed.
Lemma roomy_live z : roomy v z -> live z.
Proof.
  induction 1 as [rng z H R|z l z' go o L0 L H R].
  - unfold start in H. destruct (Memory_INIT _ _ _ _ _ _) as [m| |] eqn:E; cbn [rbind] in H; try discriminate. destruct (Narsese_INIT _) as [st| |] eqn:E1; cbn [rbind] in H; try discriminate.
    apply init_spec in H as (m' & st' & o & A & B & C & ->). assert (m' = m) by congruence. assert (st' = st) by congruence. subst m' st'.
    assert (L1 : lives init_list (resetted (z_core (nar0 m st rng)) m)) by (eapply lv_reset; [apply lv_start; eauto|auto]).
    destruct (init_live m st o _ E L1 eq_refl B C R) as [I1 X1]. split; cbn; auto.
    pose proof (X1 (m_restricted m) 1%Z (Event_INIT (s_ids (z_core (nar0 m st rng))))) as X. exact X.
  - unfold line, Shell_ProcessInput in H. destruct (run v z (parse (trim l))) as [[[z1 r] o1]| |] eqn:E; cbn [rbind] in H; try discriminate. destruct r.
    + apply okI in H; injection H as <- <- <-. eapply run_live; eauto.
    + apply reset_only in E. subst z1. destruct (Shell_NARInit v z) as [z2| |] eqn:E2; cbn [rbind] in H; try discriminate. apply okI in H; injection H as <- <- <-.
      apply init_spec in E2 as (m & st & o' & A & B & C & ->). assert (L1 : lives init_list (resetted (z_core z) m)) by (eapply lv_reset; [apply L|auto]).
      destruct (init_live m st o' _ A L1 eq_refl B C R) as [I1 X1]. split; cbn; auto. pose proof (X1 (m_restricted m) 1%Z (Event_INIT (s_ids (z_core z)))) as X. exact X.
    + apply okI in H; injection H as <- <- <-. eapply run_live; eauto.
Qed.
End Shell.
