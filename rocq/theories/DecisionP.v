(** Proofs for C46: the choice among the options for a goal. *)
From Coq Require Import ZArith List Bool Lia Reals Lra.
From Flocq Require Import Core IEEE754.BinarySingleNaN.
From Verif Require Import Base F64 TruthM StampM HashM TermM TermP NamesM EventM InferenceM TableM VariableM MemoryM QuestionM DecisionM DecisionS BabbleP.
Local Open Scope Z_scope.
Import ListNotations.

(** order of doubles *)
Lemma fltb_nn x y : fltb x y = true -> is_nan x = false /\ is_nan y = false.
Proof. intros H. destruct x as [|[|]| |], y as [|[|]| |]; try (split; reflexivity); vm_compute in H; discriminate H. Qed.
Lemma feqb_nn x y : feqb x y = true -> is_nan x = false /\ is_nan y = false.
Proof. intros H. destruct x as [|[|]| |], y as [|[|]| |]; try (split; reflexivity); vm_compute in H; discriminate H. Qed.
Lemma feqb_ext (x y : f64) : is_nan x = false -> is_nan y = false -> feqb x y = true <-> ext x = ext y.
Proof.
  intros Hx Hy. unfold feqb, Beqb. change (SpecFloat.SFeqb (B2SF x) (B2SF y)) with
    (match Bcompare x y with Some Eq => true | _ => false end).
  rewrite ext_compare by auto.
  destruct (Rcompare_spec (ext x) (ext y)); split; intros; try lra; try discriminate; auto.
Qed.
Lemma flt_eq_or x y : is_nan x = false -> is_nan y = false -> fltb x y = false -> fltb y x = true \/ feqb y x = true.
Proof.
  intros X Y H. destruct (Rlt_dec (ext y) (ext x)) as [L|L]; [left; apply fltb_ext; auto|]. right. apply feqb_ext; auto.
  destruct (Rlt_dec (ext x) (ext y)) as [G|G]; [apply fltb_ext in G; auto; congruence|]. lra.
Qed.

#[local] Opaque fltb feqb Truth_Expectation ApplySubstitute UnifyWithAnalogy Unify hasVariable ConsiderImplication FindConceptByTerm Term_ExtractSubterm GetPreconditionWithoutOp Term_Complexity.

(** folds *)
Lemma foldM_inv {A B} (f : B -> A -> res B) (P : list A -> B -> Prop) l : forall seen b b', P seen b ->
  (forall s a x y, In a l -> P s x -> f x a = Ok y -> P (s ++ [a]) y) -> foldM f l b = Ok b' -> P (seen ++ l) b'.
Proof.
  induction l as [|a l IH]; intros seen b b' P0 ST H; cbn [foldM] in H; [injection H as <-; rewrite app_nil_r; exact P0|].
  destruct (f b a) as [x| |] eqn:E; cbn [rbind] in H; [|discriminate H|discriminate H].
  replace (seen ++ a :: l) with ((seen ++ [a]) ++ l) by (rewrite <- app_assoc; reflexivity).
  apply (IH (seen ++ [a]) x b'); [apply (ST seen a b); [left; reflexivity|exact P0|exact E]| |exact H].
  intros s a' x' y' I. apply ST. right. exact I.
Qed.
Lemma existsM_false {A} (f : A -> res bool) l : existsM f l = Ok false -> forall a, In a l -> f a = Ok false.
Proof.
  induction l as [|x l IH]; cbn [existsM]; intros H a I; [destruct I|].
  destruct (f x) as [b| |] eqn:E; cbn [rbind] in H; [|discriminate H|discriminate H]. destruct b; [discriminate H|].
  destruct I as [<-|I]; auto.
Qed.
Lemma existsM_true {A} (f : A -> res bool) l : existsM f l = Ok true -> exists a, In a l /\ f a = Ok true.
Proof.
  induction l as [|x l IH]; cbn [existsM]; intros H; [discriminate H|].
  destruct (f x) as [b| |] eqn:E; cbn [rbind] in H; [|discriminate H|discriminate H]. destruct b; [exists x; split; [left; reflexivity|exact E]|].
  destruct (IH H) as (a & I & F). exists a. split; [right; exact I|exact F].
Qed.
Lemma pre_at_ok k i t : pre_at k i = Ok t <-> nth_error (c_pre k) i = Some t.
Proof. unfold pre_at. destruct (nth_error (c_pre k) i); split; intros H; try discriminate H; injection H as ->; reflexivity. Qed.
Lemma usable_seq ops i : In i (seq 1 (op_run ops)) <-> exists o, usable ops i o.
Proof.
  rewrite in_seq. destruct (op_run_spec ops) as (R1 & _). split.
  - intros H. destruct (nth_error ops (i - 1)) as [o|] eqn:E; [|apply nth_error_None in E; lia]. exists o. apply usable_run. split; [lia|exact E].
  - intros (o & U). apply usable_run in U as (U & _). lia.
Qed.

Lemma nth_error_firstn {A} (l : list A) : forall n k, (k < n)%nat -> nth_error (firstn n l) k = nth_error l k.
Proof. induction l as [|a l IH]; intros [|n] [|k] H; cbn; auto; try lia. apply IH. lia. Qed.
Lemma nth_firstn_lt {A} (l : list A) d : forall n k, (k < n)%nat -> nth k (firstn n l) d = nth k l d.
Proof. induction l as [|a l IH]; intros [|n] [|k] H; cbn; auto; try lia. apply IH. lia. Qed.
Section P.
Variable nm : names.
Variable av : Z -> option (f64 * name).
Variable simdist : f64.
Variable powdecay : Z -> f64.
Variable m : memory.
Variable now : Z.
Variable goal : event.
Variable gc : concept.
Variable subs : substitution.
Notation option_for := (option_for nm av simdist powdecay m now goal gc subs).
Definition gen : bool := hasVariable nm (c_term gc) true true true && hasVariable nm (e_term goal) true true true.

(** the option [d] of complexity [cx] is not better than [best] *)
Definition beaten (best : decision * nat) (d : decision) (cx : nat) : Prop :=
  fltb (d_desire d) (d_desire (fst best)) = true \/ (feqb (d_desire d) (d_desire (fst best)) = true /\ (snd best <= cx)%nat).
Lemma beaten_mono best d cx best' d' cx' : is_nan (d_desire (fst best)) = false -> improves d cx best = true -> fst best' = d' -> d_desire d' = d_desire d -> snd best' = cx ->
  beaten best d cx' \/ True -> forall e ce, beaten best e ce -> beaten best' e ce.
Proof.
  intros NB I F D S _ e ce. unfold beaten, improves in *. rewrite F, S, D. intros B. apply orb_prop in I.
  assert (ND : is_nan (d_desire d) = false).
  { destruct I as [I|I]; [apply fltb_nn in I; apply I|]. apply andb_prop in I as [I _]. apply feqb_nn in I. apply I. }
  assert (NE : is_nan (d_desire e) = false) by (destruct B as [B|[B _]]; [apply fltb_nn in B|apply feqb_nn in B]; apply B).
  destruct I as [I|I].
  - left. apply fltb_ext in I; auto. apply fltb_ext; auto. destruct B as [B|[B _]]; [apply fltb_ext in B|apply feqb_ext in B]; auto; lra.
  - apply andb_prop in I as [I L]. apply Nat.ltb_lt in L. apply feqb_ext in I; auto. destruct B as [B|[B C]].
    + left. apply fltb_ext in B; auto. apply fltb_ext; auto. lra.
    + right. apply feqb_ext in B; auto. split; [apply feqb_ext; auto; lra|lia].
Qed.
(** the chosen one is an option; bestComplexity starts above all complexities *)
Definition chosen (best : decision * nat) : Prop :=
  best = (decision0, S SIZE) \/
  exists opi used c cm specific d, option_for opi used c cm specific d /\ snd best = Term_Complexity (i_term specific) /\
    (fst best = with_choice d used specific opi \/ fst best = with_choice (with_missing d specific) used specific opi).
Definition good (best : decision * nat) : Prop := is_nan (d_desire (fst best)) = false /\ chosen best.

Lemma closer_false cm s2 : closer_link nm av simdist m gc cm s2 = Ok false ->
  forall opk o x s3, usable (m_ops m) opk o -> holds gc opk x -> fits_event nm av simdist (condition_of nm (i_term x)) cm s3 ->
  fltb (confidence (s_truth s2)) (confidence (s_truth s3)) = false.
Proof.
  intros H opk o x s3 U (t & E & I) (F & FS). unfold closer_link in H.
  assert (IN : In opk (seq 1 (op_run (m_ops m)))) by (apply usable_seq; exists o; exact U).
  pose proof (existsM_false _ _ H opk IN) as H1. cbn beta in H1. apply (proj2 (pre_at_ok gc opk t)) in E. rewrite E in H1. cbn [rbind] in H1.
  pose proof (existsM_false _ _ H1 x I) as H2. cbn beta zeta in H2. unfold condition_of in F. rewrite F in H2. cbn [rbind] in H2. rewrite FS in H2. cbn [andb] in H2. congruence.
Qed.
Lemma closer_true cm s2 : closer_link nm av simdist m gc cm s2 = Ok true ->
  exists opk o x s3, usable (m_ops m) opk o /\ holds gc opk x /\ fits_event nm av simdist (condition_of nm (i_term x)) cm s3 /\
  fltb (confidence (s_truth s2)) (confidence (s_truth s3)) = true.
Proof.
  intros H. unfold closer_link in H. apply existsM_true in H as (opk & IN & H). apply usable_seq in IN as (o & U).
  destruct (pre_at gc opk) as [t| |] eqn:E; cbn [rbind] in H; [|discriminate H|discriminate H]. apply pre_at_ok in E.
  apply existsM_true in H as (x & I & H). destruct (UnifyWithAnalogy _ _ _ _ _ _) as [s3| |] eqn:F; cbn [rbind] in H; [|discriminate H|discriminate H].
  injection H as H. apply andb_prop in H as [H1 H2]. exists opk, o, x, s3. split; [exact U|]. split; [exists t; split; [exact E|exact I]|]. split; [|exact H2].
  split; [exact F|exact H1].
Qed.
Lemma known_fail opi t k i : known_inhibited m opi t = Ok (k, i) -> (i = true <-> known_to_fail m opi t).
Proof.
  unfold known_inhibited, known_to_fail. intros H. destruct (FindConceptByTerm m (Term_ExtractSubterm t 2)) as [[r|]| |]; cbn [rbind] in H; try discriminate H.
  - unfold cread in H. destruct (nth_error (m_store m) r) as [kc|] eqn:R; cbn [rbind] in H; [|discriminate H].
    destruct (pre_at kc opi) as [tb| |] eqn:E; cbn [rbind] in H; [|discriminate H|discriminate H]. apply pre_at_ok in E. injection H as _ <-. split.
    + intros X. apply existsb_exists in X as (x & I & Y). apply filter_In in I as (I & TE). apply term_eqb_spec in TE. apply andb_prop in Y as [Y1 Y2].
      exists r, kc, x. split; [reflexivity|]. split; [exact R|]. split; [exists tb; split; [exact E|exact I]|]. auto.
    + intros (r' & k' & x & A & B & (tb' & C & D) & F & G & K). injection A as <-. rewrite R in B. injection B as <-. rewrite E in C. injection C as <-.
      apply existsb_exists. exists x. split; [apply filter_In; split; [exact D|apply term_eqb_spec; auto]|]. rewrite G, K. reflexivity.
  - injection H as _ <-. split; [discriminate|]. intros (r' & k' & x & A & _). discriminate A.
Qed.

Lemma desire_missing d s : d_desire (with_missing d s) = d_desire d. Proof. reflexivity. Qed.
Lemma desire_choice d u s o : d_desire (with_choice d u s o) = d_desire d. Proof. reflexivity. Qed.

Lemma try_context_ok opi used impt best c cm best' :
  (exists o, usable (m_ops m) opi o) -> holds gc opi used -> ApplySubstitute nm (i_term used) subs = Ok (impt, true) -> In (c, cm) (visited m) ->
  good best -> try_context nm av simdist powdecay m now goal gc gen opi used impt best (c, cm) = Ok best' ->
  good best' /\ (forall e ce, beaten best e ce -> beaten best' e ce) /\
  (forall specific d, option_for opi used c cm specific d -> is_nan (d_desire d) = false -> beaten best' d (Term_Complexity (i_term specific))).
Proof.
  intros U HU AP IV (NB & CH) H. unfold try_context in H.
  assert (NOOPT : (forall specific d, ~ option_for opi used c cm specific d) -> Ok best = Ok best' ->
    good best' /\ (forall e ce, beaten best e ce -> beaten best' e ce) /\
    (forall specific d, option_for opi used c cm specific d -> is_nan (d_desire d) = false -> beaten best' d (Term_Complexity (i_term specific)))).
  { intros NO E. injection E as <-. split; [split; auto|]. split; auto. intros specific d O. exfalso. eapply NO; eauto. }
  destruct (hasVariable nm (c_term cm) true true true) eqn:HV; cbn [orb] in H.
  { apply NOOPT; auto. intros sp d O. destruct (opt_event _ _ _ _ _ _ _ _ _ _ _ _ _ _ _ O) as (_ & X & _). congruence. }
  destruct (e_type (c_spike cm) =? EVENT_TYPE_DELETED) eqn:PR; cbn [negb orb] in H.
  { apply NOOPT; auto. intros sp d O. destruct (opt_event _ _ _ _ _ _ _ _ _ _ _ _ _ _ _ O) as (_ & _ & X). unfold present in X. rewrite PR in X. discriminate X. }
  destruct (UnifyWithAnalogy nm av simdist (e_truth (c_spike cm)) (GetPreconditionWithoutOp nm (Term_ExtractSubterm impt 1)) (c_term cm)) as [s2| |] eqn:UN; cbn [rbind] in H; [|discriminate H|discriminate H].
  assert (SAME : forall specific d, option_for opi used c cm specific d -> s_success s2 = true /\
     ApplySubstitute nm impt s2 = Ok (i_term specific, true) /\
    (feqb (confidence (s_truth s2)) (confidence (e_truth (c_spike cm))) = true \/
     forall opk o x s3, usable (m_ops m) opk o -> holds gc opk x -> fits_event nm av simdist (condition_of nm (i_term x)) cm s3 ->
       fltb (confidence (s_truth s2)) (confidence (s_truth s3)) = false) /\
    ConsiderImplication nm powdecay m now goal specific (s_truth s2) = Ok d).
  { intros sp d O. destruct (opt_specific _ _ _ _ _ _ _ _ _ _ _ _ _ _ _ O) as (impt' & s2' & A & (B & B2) & C & D & E).
    rewrite AP in A. injection A as <-. unfold condition_of in B. rewrite UN in B. injection B as <-. auto. }
  destruct (s_success s2) eqn:SS; cbn [negb] in H.
  2: { apply NOOPT; auto. intros sp d O. destruct (SAME sp d O) as (X & _). discriminate X. }
  set (perfect := feqb (confidence (s_truth s2)) (confidence (e_truth (c_spike cm)))) in *.
  destruct (if perfect then Ok false else closer_link nm av simdist m gc cm s2) as [closer| |] eqn:CL; cbn [rbind] in H; [|discriminate H|discriminate H].
  destruct closer.
  { apply NOOPT; auto. intros sp d O. destruct (SAME sp d O) as (_ & _ & X & _). destruct perfect; [discriminate CL|].
    destruct X as [X|X]; [discriminate X|]. apply closer_true in CL as (opk & o & x & s3 & A & B & C & D). rewrite (X opk o x s3) in D; auto. discriminate D. }
  assert (FIT : perfect = true \/ forall opk o x s3, usable (m_ops m) opk o -> holds gc opk x -> fits_event nm av simdist (condition_of nm (i_term x)) cm s3 ->
       fltb (confidence (s_truth s2)) (confidence (s_truth s3)) = false).
  { destruct perfect; [left; reflexivity|right]. apply closer_false. exact CL. }
  destruct (ApplySubstitute nm impt s2) as [[t ok]| |] eqn:AP2; cbn [rbind] in H; [|discriminate H|discriminate H].
  destruct (ok && (negb gen || negb (hasVariable nm t true false false))) eqn:OK; cbn [negb] in H.
  2: { apply NOOPT; auto. intros sp d O. destruct (SAME sp d O) as (_ & X & _). injection X as X1 X2. subst t ok. cbn [andb] in OK.
       apply orb_false_elim in OK as [G1 G2]. apply negb_false_iff in G1, G2. unfold gen in G1. apply andb_prop in G1 as [G1 G3].
       pose proof (opt_ground _ _ _ _ _ _ _ _ _ _ _ _ _ _ _ O G1 G3). congruence. }
  apply andb_prop in OK as [-> OK].
  set (specific := mkImp t (i_truth used) (i_stamp used) (i_offset used) (Some c) (c_id cm) (i_creation used)) in *.
  assert (SP : forall sp d, option_for opi used c cm sp d -> sp = specific).
  { intros sp d O. destruct (SAME sp d O) as (_ & X & _). injection X as X1. rewrite (opt_copy _ _ _ _ _ _ _ _ _ _ _ _ _ _ _ O). rewrite <- X1. reflexivity. }
  destruct (ConsiderImplication nm powdecay m now goal specific (s_truth s2)) as [d| |] eqn:CI; cbn [rbind] in H; [|discriminate H|discriminate H].
  assert (DD : forall sp d', option_for opi used c cm sp d' -> sp = specific /\ d' = d).
  { intros sp d' O. pose proof (SP sp d' O) as ->. split; auto. destruct (SAME _ _ O) as (_ & _ & _ & X). congruence. }
  assert (GR : hasVariable nm (c_term gc) true true true = true -> hasVariable nm (e_term goal) true true true = true -> hasVariable nm t true false false = false).
  { intros A B. unfold gen in OK. rewrite A, B in OK. cbn [andb negb orb] in OK. apply negb_true_iff in OK. exact OK. }
  assert (MK : (hasVariable nm (i_term used) true true true = true -> ~ known_to_fail m opi t) -> option_for opi used c cm specific d).
  { intros NK. constructor; auto.
    - split; auto. split; auto. unfold present. rewrite PR. reflexivity.
    - exists impt, s2. split; [exact AP|]. split; [split; [exact UN|exact SS]|]. split; [exact AP2|]. split; [exact FIT|exact CI]. }
  assert (PICK : forall d', d' = d \/ d' = with_missing d specific -> option_for opi used c cm specific d ->
     (if improves d' (Term_Complexity t) best then (with_choice d' used specific opi, Term_Complexity t) else best) = best' ->
     good best' /\ (forall e ce, beaten best e ce -> beaten best' e ce) /\
     (forall specific d, option_for opi used c cm specific d -> is_nan (d_desire d) = false -> beaten best' d (Term_Complexity (i_term specific)))).
  { intros d' D' O E. assert (DE : d_desire d' = d_desire d) by (destruct D' as [-> | ->]; reflexivity).
    assert (I2 : improves d' (Term_Complexity t) best = improves d (Term_Complexity t) best) by (unfold improves; rewrite DE; reflexivity). rewrite I2 in E.
    destruct (improves d (Term_Complexity t) best) eqn:IM.
    - subst best'. split; [split|split].
      + cbn [fst]. rewrite desire_choice, DE. unfold improves in IM. apply orb_prop in IM as [IM|IM]; [apply fltb_nn in IM; apply IM|]. apply andb_prop in IM as [IM _]. apply feqb_nn in IM. apply IM.
      + right. exists opi, used, c, cm, specific, d. split; [exact O|]. split; [reflexivity|]. cbn [fst]. destruct D' as [-> | ->]; auto.
      + intros e ce B. eapply beaten_mono; [exact NB|exact IM|reflexivity|cbn [fst]; rewrite desire_choice; exact DE|reflexivity|auto|exact B]. Unshelve. exact 0%nat.
      + intros sp d0 O0 NN. destruct (DD sp d0 O0) as (-> & ->). right. cbn [fst snd]. rewrite desire_choice, DE. split; [apply feqb_ext; auto|apply Nat.le_refl].
    - subst best'. split; [split; auto|]. split; auto. intros sp d0 O0 NN. destruct (DD sp d0 O0) as (-> & ->). unfold improves in IM. apply orb_false_elim in IM as [A B].
      destruct (flt_eq_or _ _ NB NN A) as [L|Q]; [left; exact L|]. right. split; [exact Q|]. rewrite Q in B. cbn [andb] in B. apply Nat.ltb_ge in B. exact B. }
  destruct (hasVariable nm (i_term used) true true true) eqn:HI.
  - destruct (known_inhibited m opi t) as [[known inh]| |] eqn:KI; cbn [rbind] in H; [|discriminate H|discriminate H]. pose proof (known_fail _ _ _ _ KI) as KF.
    destruct inh; cbn [negb andb] in H.
    + apply NOOPT; auto. intros sp d' O. pose proof (SP _ _ O) as ->. apply (opt_not_failing _ _ _ _ _ _ _ _ _ _ _ _ _ _ _ O HI). apply KF. reflexivity.
    + apply (PICK (if negb known || negb perfect then with_missing d specific else d)); [destruct (negb known || negb perfect); auto| |injection H as H; exact H].
      apply MK. intros _ X. apply KF in X. discriminate X.
  - apply (PICK (if negb perfect then with_missing d specific else d)); [destruct (negb perfect); auto| |injection H as H; exact H].
    apply MK. discriminate.
Qed.

(** all options from a rule [used] of operation [opi] are beaten *)
Definition covered (best : decision * nat) (opi : nat) (used : implication) : Prop :=
  forall c cm specific d, option_for opi used c cm specific d -> is_nan (d_desire d) = false -> beaten best d (Term_Complexity (i_term specific)).
Lemma contexts_ok opi used impt best best' :
  (exists o, usable (m_ops m) opi o) -> holds gc opi used -> ApplySubstitute nm (i_term used) subs = Ok (impt, true) -> good best ->
  foldM (try_context nm av simdist powdecay m now goal gc gen opi used impt) (visited m) best = Ok best' ->
  good best' /\ (forall e ce, beaten best e ce -> beaten best' e ce) /\ covered best' opi used.
Proof.
  intros U HU AP GB H.
  set (P := fun (seen : list (nat * concept)) b => good b /\ (forall e ce, beaten best e ce -> beaten b e ce) /\
     forall c cm specific d, In (c, cm) seen -> option_for opi used c cm specific d -> is_nan (d_desire d) = false -> beaten b d (Term_Complexity (i_term specific))).
  assert (X : P ([] ++ visited m) best').
  { refine (foldM_inv _ P _ [] _ _ _ _ H); unfold P.
    - split; [exact GB|]. split; [auto|]. intros ? ? ? ? [].
    - intros s [c cm] x y I (G & MO & CO) E. destruct (try_context_ok opi used impt x c cm y U HU AP I G E) as (G' & M' & C'). split; [exact G'|]. split; [auto|].
      intros c0 cm0 sp d I0 O NN. apply in_app_or in I0 as [I0|[I0|[]]]; [apply M'; eapply CO; eauto|]. injection I0 as <- <-. apply C'; auto. }
  destruct X as (G & MO & CO). split; [exact G|]. split; [exact MO|]. intros c cm sp d O NN. apply (CO c cm); auto.
  apply (opt_event _ _ _ _ _ _ _ _ _ _ _ _ _ _ _ O).
Qed.
Lemma uncovered best opi used : (forall impt, ApplySubstitute nm (i_term used) subs <> Ok (impt, true)) -> covered best opi used.
Proof. intros NA c cm sp d O. destruct (opt_specific _ _ _ _ _ _ _ _ _ _ _ _ _ _ _ O) as (impt & s2 & A & _). exfalso. eapply NA; eauto. Qed.
Variable g : nat.
Hypothesis GC : nth_error (m_store m) g = Some gc.
Hypothesis LV : links_valid m gc.
Lemma entries_ok opi t : (exists o, usable (m_ops m) opi o) -> nth_error (c_pre gc) opi = Some t -> forall n j best m' best', good best ->
  try_entries nm av simdist powdecay n m now goal g gen subs opi j best = Ok (m', best') -> (t_items t <= j + n)%nat ->
  m' = m /\ good best' /\ (forall e ce, beaten best e ce -> beaten best' e ce) /\
  forall k, (j <= k < t_items t)%nat -> covered best' opi (slot t k).
Proof.
  intros U ET. induction n as [|n IH]; intros j best m' best' GB H L; cbn [try_entries] in H.
  - injection H as <- <-. split; auto. split; auto. split; auto. intros k K. lia.
  - unfold cread in H. rewrite GC in H. cbn [rbind] in H. pose proof (proj2 (pre_at_ok gc opi t) ET) as PA. rewrite PA in H. cbn [rbind] in H.
    destruct (Nat.ltb_spec j (t_items t)) as [J|J].
    2: { injection H as <- <-. split; auto. split; auto. split; auto. intros k K. lia. }
    destruct (Nat.lt_ge_cases j (length (t_array t))) as [JL|JL].
    2: { unfold slot in H. rewrite nth_overflow in H by exact JL. cbn in H. discriminate H. }
    assert (HO : holds gc opi (slot t j)).
    { exists t. split; [exact ET|]. apply nth_error_In with (n := j). rewrite nth_error_firstn by exact J. unfold slot. apply nth_error_nth'. exact JL. }
    destruct (LV opi _ HO) as (c & k & S1 & S2 & S3). unfold ImplicationValid, cread in H. rewrite S1, S2 in H. cbn [rbind] in H. rewrite S3, Z.eqb_refl in H. cbn [negb] in H.
    destruct (ApplySubstitute nm (i_term (slot t j)) subs) as [[impt ok]| |] eqn:AP; cbn [rbind] in H; [|discriminate H|discriminate H].
    assert (NEXT : forall b, good b -> (forall e ce, beaten best e ce -> beaten b e ce) -> covered b opi (slot t j) ->
      try_entries nm av simdist powdecay n m now goal g gen subs opi (j + 1) b = Ok (m', best') ->
      m' = m /\ good best' /\ (forall e ce, beaten best e ce -> beaten best' e ce) /\ forall k, (j <= k < t_items t)%nat -> covered best' opi (slot t k)).
    { intros b G1 M1 C1 E. destruct (IH (j + 1)%nat b m' best' G1 E ltac:(lia)) as (E1 & E2 & E3 & E4). split; [exact E1|]. split; [exact E2|]. split; [auto|].
      intros k0 K. destruct (Nat.eq_dec k0 j) as [->|NE]; [|apply E4; lia]. intros c0 cm sp d O NN. apply E3. eapply C1; eauto. }
    destruct ok; cbn [negb] in H.
    2: { apply (NEXT best); auto. apply uncovered. intros i0 X. congruence. }
    destruct (copulaEquals nm (at_ impt 0) TEMPORAL_IMPLICATION); cbn [rassert rbind] in H; [|discriminate H].
    destruct (foldM (try_context nm av simdist powdecay m now goal gc gen opi (slot t j) impt) (visited m) best) as [b| |] eqn:FO; cbn [rbind] in H; [|discriminate H|discriminate H].
    destruct (contexts_ok opi (slot t j) impt best b U HO AP GB FO) as (G1 & M1 & C1). apply (NEXT b); auto.
Qed.
Lemma tables_ok : forall opis best m' best', (forall i, In i opis -> exists o, usable (m_ops m) i o) -> good best ->
  try_tables nm av simdist powdecay opis m now goal g gen subs best = Ok (m', best') ->
  m' = m /\ good best' /\ (forall e ce, beaten best e ce -> beaten best' e ce) /\
  forall opi used, In opi opis -> holds gc opi used -> covered best' opi used.
Proof.
  induction opis as [|opi opis IH]; intros best m' best' U GB H; cbn [try_tables] in H.
  - injection H as <- <-. split; auto. split; auto. split; auto. intros opi used [].
  - unfold cread in H. rewrite GC in H. cbn [rbind] in H. destruct (pre_at gc opi) as [t| |] eqn:ET; cbn [rbind] in H; [|discriminate H|discriminate H].
    apply pre_at_ok in ET. destruct (try_entries nm av simdist powdecay (t_items t) m now goal g gen subs opi 0 best) as [[m1 b]| |] eqn:TE; cbn [rbind] in H; [|discriminate H|discriminate H].
    destruct (entries_ok opi t (U opi (or_introl eq_refl)) ET _ _ _ _ _ GB TE ltac:(lia)) as (-> & G1 & M1 & C1).
    destruct (IH b m' best' (fun i I => U i (or_intror I)) G1 H) as (E1 & E2 & E3 & E4). split; [exact E1|]. split; [exact E2|]. split; [auto|].
    intros i used [<-|I] HO; [|apply E4; auto]. destruct HO as (t' & ET' & IN). rewrite ET in ET'. injection ET' as <-.
    apply In_nth with (d := imp0) in IN as (k & KL & KE). rewrite firstn_length in KL.
    assert (KS : slot t k = used). { unfold slot. rewrite <- KE. rewrite nth_firstn_lt by lia. reflexivity. }
    rewrite <- KS. intros c0 cm sp d O NN. apply E3. eapply (C1 k); eauto. lia.
Qed.
End P.
