(** Property theorems C48: questions get the best stored answer. *)
From Coq Require Import ZArith List Bool Lia Reals Lra.
From Flocq Require Import IEEE754.BinarySingleNaN.
From Verif Require Import Base F64 TruthM TruthS TruthP TruthP2 StampM TermM TermS TermP NamesM EventM TableM UsageM AtomsM VariableM VariableS VariableP MemoryM MemoryS PropsMemory SubstP QuestionM QuestionS QuestionP.
From Verif Require PQueueM.
Local Open Scope Z_scope.
Import ListNotations.

(** the stored concepts, in the order in which the loop visits them *)
Definition concepts_of (m : memory) : list concept := map snd (visited m).
(** what holds of the memory (C34): queued slots exist *)
Definition slots_exist (m : memory) : Prop := forall c k, In (c, k) (visited m) -> (c < length (m_store m))%nat.
(** the question uses only the normalised query variables (every parsed question does, C40) *)
Notation well_numbered := numbered.
(** neither <.. =/> ..> nor <.. ==> ..> *)
Definition plain (nm : names) (q : term) : Prop :=
  copulaEquals nm (at_ q 0) TEMPORAL_IMPLICATION = false /\ copulaEquals nm (at_ q 0) IMPLICATION = false.
(** the beliefs kept by the concepts are eternal and have truth values in range *)
Definition beliefs_ok (m : memory) : Prop := Forall (fun k => present (c_belief k) = true ->
  e_occ (c_belief k) = OCCURRENCE_ETERNAL /\ validt (e_truth (c_belief k))) (concepts_of m).
(** what question answering may do to the memory: nothing, or raise the priority of one concept
    to at least the priming value and count one use of it *)
Definition primed (now : Z) (priming : f64) (tense : Z) (m m' : memory) (holds : concept -> Prop) : Prop :=
  m' = m \/ exists c k, In (c, k) (visited m) /\ holds k /\ fltb f0 priming = true /\
    m' = set_store m (upd (m_store m) c (with_usage (with_priority k (fmax (c_priority k) priming)) (Usage_use (c_usage k) now (tense =? 0)))).

Lemma visited_nth m c k : In (c, k) (visited m) -> k = nth c (m_store m) concept0.
Proof. unfold visited. intros H. apply in_map_iff in H as (it & E & _). injection E as <- <-. reflexivity. Qed.
Lemma prime_ok m now priming tense s c k : slots_exist m -> q_concept s = Some c -> In (c, k) (visited m) ->
  exists m', (if fltb f0 priming then cmod m c (prime now priming tense) else Ok m) = Ok m' /\ primed now priming tense m m' (fun k' => k' = k).
Proof.
  intros SE QC I. destruct (fltb f0 priming) eqn:Q; [|exists m; split; auto; left; reflexivity]. unfold cmod, cread. pose proof (SE c k I) as L.
  rewrite (nth_error_nth' _ concept0 L). cbn [rbind]. eexists. split; [reflexivity|]. right. exists c, k. split; auto. split; auto. split; auto. rewrite <- (visited_nth m c k I). reflexivity.
Qed.
Lemma flat_map_snd {A} (f : concept -> list A) l : flat_map (fun ck : nat * concept => f (snd ck)) l = flat_map f (map snd l).
Proof. induction l as [|[c k] l IH]; cbn; auto. rewrite IH. reflexivity. Qed.

Lemma out_rev query (stored : list answer) (f : answer -> bool) s line : q_out s = rev (map Some (filter (fun a => query && f a) stored)) -> printed (q_best s) = line ->
  rev (if query then q_out s else printed (q_best s) :: q_out s) = if query then map Some (filter f stored) else [line].
Proof.
  intros -> <-. destruct query; [apply rev_involutive|]. cbn [andb]. assert (E : filter (fun _ : answer => false) stored = []) by (induction stored; auto). rewrite E. reflexivity.
Qed.
Section Statements.
Variable nm : names.
Variable av : Z -> option (f64 * name).
Variable simdist : f64.
Variable powdecay : Z -> f64.
Variable now : Z.
Variable query : bool.
Variable threshold : f64.
Variable priming : f64.
Notation Ask := (Question nm av simdist powdecay now query threshold priming).
(** what is printed: with the query command the answers whose rank is above the threshold, in
    order, otherwise one line *)
Definition prints (rank : answer -> f64) (best : list answer -> option answer -> Prop) (stored : list answer) (out : list (option answer)) : Prop :=
  if query then out = map Some (filter (fun a => fltb threshold (rank a)) stored) else exists line, out = [line] /\ best stored line.
Lemma in_concepts m c k : In (c, k) (visited m) -> In k (concepts_of m). Proof. intros H. apply (in_map snd) in H. exact H. Qed.

(** C48, statements without tense.  One line is printed: the newest of the stored beliefs of
    highest expectation among all concepts whose term answers the question, or "None" if there is
    no such belief.  With the query command exactly the answers above the threshold are printed.
    The memory is unchanged, except for the priming of the concept that holds the answer. *)
Theorem C48_belief_question : forall m q,
  well_numbered nm q -> plain nm q -> beliefs_ok m -> slots_exist m ->
  let stored := flat_map (stored_belief nm av simdist q) (concepts_of m) in
  exists m' out, Ask m q 0 = Ok (m', out) /\ prints exp_of best_answer stored out /\
    primed now priming 0 m m' (fun k => exists a, best_answer stored (Some a) /\ In a (stored_belief nm av simdist q k)).
Proof.
  intros m q N (T & I) B SE stored. unfold Question. unfold beliefs_ok in B. rewrite Forall_forall in B.
  assert (B1 : Forall (fun ck : nat * concept => present (c_belief (snd ck)) = true -> e_occ (c_belief (snd ck)) = OCCURRENCE_ETERNAL) (visited m)).
  { apply Forall_forall. intros [c k] IN P. apply (B k); auto. eapply in_concepts; eauto. }
  assert (VK : forall k a, In k (concepts_of m) -> In a (stored_belief nm av simdist q k) -> validt (a_truth a)).
  { intros k a IK IA. unfold stored_belief in IA. destruct (answers nm av simdist q (c_term k) && present (c_belief k)) eqn:Q; [|destruct IA].
    destruct IA as [<-|[]]. apply andb_prop in Q as [_ Q]. apply (B k); auto. }
  assert (VS : Forall (fun a => validt (a_truth a)) stored).
  { apply Forall_forall. intros a IA. unfold stored in IA. apply in_flat_map in IA as (k & IK & IA). eapply VK; eauto. }
  destruct (belief_loop nm av simdist powdecay now query threshold q (visited m) N T I B1 qstate0 [] eq_refl) as (s & R & V & SL); [intros c C; discriminate C|].
  rewrite R. cbn [rbind]. rewrite flat_map_snd in V. fold (concepts_of m) in V. fold stored in V.
  destruct (best_of query threshold stored VS) as (BA & OUT). cbn zeta in BA, OUT. rewrite <- V in BA, OUT. cbn [view fst snd] in BA, OUT.
  assert (PR : exists m', (match q_concept s with Some c => if fltb f0 priming then cmod m c (prime now priming 0) else Ok m | None => Ok m end) = Ok m' /\
     primed now priming 0 m m' (fun k => exists a, best_answer stored (Some a) /\ In a (stored_belief nm av simdist q k))).
  { destruct (q_concept s) as [c|] eqn:QC; [|exists m; split; auto; left; reflexivity].
    destruct (SL c QC) as (k & IK & BK). cbn [app] in IK. pose proof (in_concepts m c k IK) as ICK.
    destruct (prime_ok m now priming 0 s c k SE QC IK) as (m' & R' & P'). exists m'. split; auto. destruct P' as [P'|(c' & k' & A1 & -> & A2 & A3)]; [left; auto|]. right. exists c', k. split; auto. split; [|auto].
    exists (q_best s). rewrite (printed_valid _ (VK k _ ICK BK)) in BA. auto. }
  destruct PR as (m' & RM & PM). rewrite RM. cbn [rbind]. eexists m', _. split; [reflexivity|]. split; [|exact PM].
  rewrite (out_rev query stored (fun a => fltb threshold (exp_of a)) s _ OUT eq_refl). unfold prints. destruct query; [reflexivity|]. eexists. split; [reflexivity|exact BA].
Qed.

(** C48 for <a =/> b>?, whatever the tense: the newest of the best stored entries about b, of the
    tables for "no operation" and the operations 1 to 9; the memory is unchanged.  Missing:
    entries for operation 10 (see below). *)
Theorem C48_rule_question_partial : forall m q tense,
  well_numbered nm q -> copulaEquals nm (at_ q 0) TEMPORAL_IMPLICATION = true ->
  let stored := flat_map (stored_rule nm av simdist 10 q) (concepts_of m) in
  Forall (fun a => validt (a_truth a)) stored ->
  exists out, Ask m q tense = Ok (m, out) /\ prints exp_of best_answer stored out.
Proof.
  intros m q tense N T stored VS. unfold Question.
  destruct (rule_loop nm av simdist powdecay now query threshold q tense (visited m) N T qstate0 eq_refl) as (s & R & V & SL).
  rewrite R. cbn [rbind]. rewrite flat_map_snd in V. fold (concepts_of m) in V. change OPERATIONS_MAX with 10%nat in V. fold stored in V.
  destruct (best_of query threshold stored VS) as (BA & OUT). cbn zeta in BA, OUT. rewrite <- V in BA, OUT. cbn [view fst snd] in BA, OUT.
  rewrite SL. cbn [q_concept qstate0 rbind]. eexists. split; [reflexivity|].
  rewrite (out_rev query stored (fun a => fltb threshold (exp_of a)) s _ OUT eq_refl). unfold prints. destruct query; [reflexivity|]. eexists. split; [reflexivity|exact BA].
Qed.

(** C48 for <a ==> b>? without tense: the newest of the best links stored in the concept of b
    (and the belief of that concept if b itself answers the question).  The belief kept in the
    concept of <a ==> b> itself is not consulted (see below). *)
Theorem C48_implication_question_partial : forall m q,
  well_numbered nm q -> copulaEquals nm (at_ q 0) IMPLICATION = true -> beliefs_ok m ->
  let stored := flat_map (stored_implication nm av simdist q) (concepts_of m) in
  Forall (fun a => validt (a_truth a)) stored -> fltb f0 priming = false ->
  exists out, Ask m q 0 = Ok (m, out) /\ prints exp_of best_answer stored out.
Proof.
  intros m q N T B stored VS NP. unfold Question. unfold beliefs_ok in B. rewrite Forall_forall in B.
  assert (B1 : Forall (fun ck : nat * concept => present (c_belief (snd ck)) = true -> e_occ (c_belief (snd ck)) = OCCURRENCE_ETERNAL) (visited m)).
  { apply Forall_forall. intros [c k] IN P. apply (B k); auto. eapply in_concepts; eauto. }
  destruct (implication_loop nm av simdist powdecay now query threshold q (visited m) N T B1 qstate0 eq_refl) as (s & R & V).
  rewrite R. cbn [rbind]. rewrite flat_map_snd in V. fold (concepts_of m) in V. fold stored in V.
  destruct (best_of query threshold stored VS) as (BA & OUT). cbn zeta in BA, OUT. rewrite <- V in BA, OUT. cbn [view fst snd] in BA, OUT.
  rewrite NP. exists (if query then map Some (filter (fun a => fltb threshold (exp_of a)) stored) else [printed (q_best s)]).
  split; [destruct (q_concept s); cbn [rbind]; rewrite (out_rev query stored (fun a => fltb threshold (exp_of a)) s _ OUT eq_refl); reflexivity|].
  unfold prints. destruct query; [reflexivity|]. eexists. split; [reflexivity|exact BA].
Qed.

(** C48 for questions about the present, past and future.  The line printed is a stored event
    that answers the question; no other one has a higher expectation when projected to now, or
    the same and is later.  For the present and past this assumes that projecting two events of
    the same time does not swap them (rounding can, see below). *)
Notation px := (pexp_of powdecay now).
Theorem C48_event_question_partial : forall m q tense,
  (forall d, 0 <= d -> u01 (powdecay d)) ->
  well_numbered nm q -> plain nm q -> tense <> 0 -> slots_exist m ->
  let stored := flat_map (stored_events nm av simdist tense q) (concepts_of m) in
  Forall (fun a => valid (a_truth a)) stored ->
  (tense <> 3 -> forall a b, In a stored -> In b stored -> a_occ a = a_occ b -> fltb (exp_of b) (exp_of a) = true -> fleb (px b) (px a) = true) ->
  exists m' out, Ask m q tense = Ok (m', out) /\ prints px (best_event powdecay now) stored out /\
    primed now priming tense m m' (fun k => exists a, best_event powdecay now stored (Some a) /\ In a (stored_events nm av simdist tense q k)).
Proof.
  intros m q tense POW N (T & I) TZ SE stored VS MO. unfold Question.
  pose proof VS as VS'. rewrite Forall_forall in VS'.
  assert (MO' : tense <> 3 -> forall a b, In a stored -> In b stored -> a_occ a = a_occ b -> (ex b < ex a)%R -> (QuestionP.px powdecay now b <= QuestionP.px powdecay now a)%R).
  { intros T3 a b IA IB EO L. destruct (exp_pos _ (VS' a IA)) as (FA & _). destruct (exp_pos _ (VS' b IB)) as (FB & _).
    destruct (pexp_pos powdecay now POW a (VS' a IA)) as (GA & _). destruct (pexp_pos powdecay now POW b (VS' b IB)) as (GB & _).
    apply (fleb_spec _ _ GB GA). apply (MO T3); auto. apply (fltb_spec _ _ FB FA). exact L. }
  assert (INCL : incl (flat_map (fun ck : nat * concept => stored_events nm av simdist tense q (snd ck)) (visited m)) stored) by (rewrite flat_map_snd; apply incl_refl).
  destruct (event_loop nm av simdist powdecay now query threshold POW q tense stored (visited m) N T I TZ VS INCL MO' qstate0 [] []) as (s & R & V & OUT & SL).
  { intros x []. } { left. auto. } { intros c C; discriminate C. }
  rewrite R. cbn [rbind]. cbn [app] in V, SL. rewrite flat_map_snd in V, OUT. fold (concepts_of m) in V, OUT. fold stored in V, OUT. cbn [q_out qstate0] in OUT. rewrite app_nil_r in OUT.
  assert (BE : best_event powdecay now stored (printed (q_best s)) /\ (stored <> [] -> printed (q_best s) = Some (q_best s))).
  { destruct V as [(V1 & V2 & _)|(V1 & _ & V3)].
    - rewrite V2, printed_a0, V1. split; [reflexivity|congruence].
    - rewrite (printed_valid (q_best s)) by (apply valid_validt; auto). split; auto. split; auto. intros b IB. destruct (pexp_pos powdecay now POW _ (VS' _ V1)) as (GA & _). destruct (pexp_pos powdecay now POW b (VS' b IB)) as (GB & _).
      destruct (V3 b IB) as [X|(X & Y)]; [left; apply (fltb_spec _ _ GB GA); exact X|right; split; auto; apply (feqb_spec _ _ GB GA); exact X]. }
  destruct BE as (BE & PB).
  assert (PR : exists m', (match q_concept s with Some c => if fltb f0 priming then cmod m c (prime now priming tense) else Ok m | None => Ok m end) = Ok m' /\
     primed now priming tense m m' (fun k => exists a, best_event powdecay now stored (Some a) /\ In a (stored_events nm av simdist tense q k))).
  { destruct (q_concept s) as [c|] eqn:QC; [|exists m; split; auto; left; reflexivity].
    destruct (SL c eq_refl) as (k & IK & BK). pose proof (in_concepts m c k IK) as ICK.
    destruct (prime_ok m now priming tense s c k SE QC IK) as (m' & R' & P'). exists m'. split; auto. destruct P' as [P'|(c' & k' & A1 & -> & A2 & A3)]; [left; auto|]. right. exists c', k. split; auto. split; [|auto].
    exists (q_best s). assert (NE : stored <> []). { intros X. assert (IS : In (q_best s) stored) by (apply in_flat_map; exists k; auto). rewrite X in IS. destruct IS. } rewrite (PB NE) in BE. auto. }
  destruct PR as (m' & RM & PM). rewrite RM. cbn [rbind]. eexists m', _. split; [reflexivity|]. split; [|exact PM].
  rewrite (out_rev query stored (fun a => fltb threshold (px a)) s _ OUT eq_refl). unfold prints. destruct query; [reflexivity|]. eexists. split; [reflexivity|exact BE].
Qed.
End Statements.
Print Assumptions C48_belief_question.
Print Assumptions C48_rule_question_partial.
Print Assumptions C48_implication_question_partial.
Print Assumptions C48_event_question_partial.

(** ** refutations and examples: a memory of 4 concepts, 200 atoms *)
Definition qn : names := init_list ++ [[97]; [98]; [99]] ++ map (fun c => [94; 111; c]) [48; 49; 50; 51; 52; 53; 54; 55; 56; 57].
(** atoms: a is 64, b 65, c 66, the operators ^o0 .. ^o9 67 .. 76 *)
Definition qops : list operation := map (fun i => mkOp (atomic_term (67 + Z.of_nat i)) 5 (repeat zero_term 10) false) (seq 0 10).
Definition with_ops (m : memory) : memory :=
  mkMem (m_concepts m) (m_store m) (m_table m) (m_index m) (m_nextid m) (m_ring m) (m_beliefs m) (m_goals m) qops (m_restricted m).
Definition qpow (d : Z) : f64 := if d =? 0 then f1 else fdec 8 10.
Definition qrun (os : list mop) : res memory := do m <- Memory_INIT 4 4 200 2 2 2 ; mrun qn qpow ex_pen 2 9 (with_ops m) os.
Definition qask (os : list mop) (now : Z) (q : term) (tense : Z) : res (memory * list (option answer)) :=
  do m <- qrun os ; Question qn (fun _ => None) f1 qpow now false f0 f0 m q tense.
(** <(a &/ ^o9) =/> b>, <(a &/ ^o8) =/> b>, <a ==> b> *)
Definition RULE10 : term := mk_term [copula_index TEMPORAL_IMPLICATION; copula_index SEQUENCE; 65; 64; 76].
Definition RULE9 : term := mk_term [copula_index TEMPORAL_IMPLICATION; copula_index SEQUENCE; 65; 64; 75].
Definition IMP : term := mk_term [copula_index IMPLICATION; 64; 65].
Definition EVT (a : Z) : term := mk_term [copula_index INHERITANCE; a; 66].
Definition input (t : term) (fn cn id occ : Z) : mop := OAdd (mkEvent t EVENT_TYPE_BELIEF (tr64 fn 100 cn 100) (id :: repeat 0%Z 9) occ f0 false 1 true) 1 f1 true false 0.
Lemma res_ex' {A} (r : res A) (f : A -> bool) : match r with Ok x => f x | _ => false end = true -> exists x, r = Ok x /\ f x = true.
Proof. destruct r as [x| |]; intros H; try discriminate H. exists x. auto. Qed.
Definition isnone (o : list (option answer)) : bool := match o with [None] => true | _ => false end.
Definition is_answer (t : term) (fn cn : Z) (o : list (option answer)) : bool :=
  match o with [Some a] => term_eqb (a_term a) t && feqb (frequency (a_truth a)) (aconst f64A fn 100) && feqb (confidence (a_truth a)) (aconst f64A cn 100) | _ => false end.

(** Operation 10 is left out: after the input <(a &/ ^o9) =/> b>. with ^o9 registered as the tenth
    operation, the question <(a &/ ^o9) =/> b>? prints None, although the concept b holds it. *)
Theorem C48_operation_ten_refuted : exists m r, qrun [input RULE10 100 90 1 (-1)] = Ok m /\
  Question qn (fun _ => None) f1 qpow 2 false f0 f0 m RULE10 0 = Ok r /\ snd r = [None] /\
  flat_map (stored_rule qn (fun _ => None) f1 11 RULE10) (concepts_of m) <> [].
Proof.
  destruct (res_ex' (do m <- qrun [input RULE10 100 90 1 (-1)] ; do r <- Question qn (fun _ => None) f1 qpow 2 false f0 f0 m RULE10 0 ; Ok (m, r))
    (fun '(m, r) => isnone (snd r) && match flat_map (stored_rule qn (fun _ => None) f1 11 RULE10) (concepts_of m) with [] => false | _ => true end)) as ((m & r) & E & H); [vm_compute; reflexivity|].
  destruct (qrun _) as [x| |]; cbn [rbind] in E; [|discriminate E|discriminate E]. destruct (Question _ _ _ _ _ _ _ _ x RULE10 0) as [y| |] eqn:E2; cbn [rbind] in E; [|discriminate E|discriminate E].
  injection E as <- <-. exists x, y. split; [reflexivity|]. split; [exact E2|]. apply andb_prop in H as [H1 H2].
  split; [destruct (snd y) as [|[?|] [|]]; try discriminate H1; reflexivity|]. intros X. rewrite X in H2. discriminate H2.
Qed.
Print Assumptions C48_operation_ten_refuted.
Example C48_operation_nine : exists r, qask [input RULE9 100 90 1 (-1)] 2 RULE9 0 = Ok r /\ is_answer RULE9 100 90 (snd r) = true.
Proof. apply res_ex'. vm_compute. reflexivity. Qed.

(** Rounding: of two events at time 1 (<b --> c> {0.11 0.75}, <a --> c> {0.05 0.65}) the question
    <?1 --> c>? :|: at time 2 returns the first, whose projected expectation is lower. *)
Theorem C48_event_question_refuted : exists m r a b, qrun [input (EVT 65) 11 75 1 1; input (EVT 64) 5 65 2 1] = Ok m /\
  Question qn (fun _ => None) f1 qpow 2 false f0 f0 m (EVT 3) 1 = Ok r /\ is_answer (EVT 65) 11 75 (snd r) = true /\
  flat_map (stored_events qn (fun _ => None) f1 1 (EVT 3)) (concepts_of m) = [a; b] /\
  is_answer (EVT 64) 5 65 [Some a] = true /\ is_answer (EVT 65) 11 75 [Some b] = true /\ fltb (pexp_of qpow 2 b) (pexp_of qpow 2 a) = true.
Proof.
  destruct (res_ex' (do m <- qrun [input (EVT 65) 11 75 1 1; input (EVT 64) 5 65 2 1] ; do r <- Question qn (fun _ => None) f1 qpow 2 false f0 f0 m (EVT 3) 1 ; Ok (m, r))
    (fun '(m, r) => is_answer (EVT 65) 11 75 (snd r) && match flat_map (stored_events qn (fun _ => None) f1 1 (EVT 3)) (concepts_of m) with
       [a; b] => is_answer (EVT 64) 5 65 [Some a] && is_answer (EVT 65) 11 75 [Some b] && fltb (pexp_of qpow 2 b) (pexp_of qpow 2 a) | _ => false end)) as ((m & r) & E & H); [vm_compute; reflexivity|].
  destruct (qrun _) as [x| |]; cbn [rbind] in E; [|discriminate E|discriminate E]. destruct (Question _ _ _ _ _ _ _ _ x (EVT 3) 1) as [y| |] eqn:E2; cbn [rbind] in E; [|discriminate E|discriminate E].
  injection E as <- <-. apply andb_prop in H as [H1 H2]. destruct (flat_map (stored_events qn (fun _ => None) f1 1 (EVT 3)) (concepts_of x)) as [|a [|b [|? ?]]] eqn:E3; try discriminate H2.
  apply andb_prop in H2 as [H2 H4]. apply andb_prop in H2 as [H2 H3]. exists x, y, a, b. split; [reflexivity|]. split; [exact E2|]. split; [exact H1|]. split; [exact E3|]. split; [exact H2|]. split; [exact H3|exact H4].
Qed.
Print Assumptions C48_event_question_refuted.
(** The belief kept in the concept of an implication is not consulted.  In a memory of 3 concepts,
    after the input <a ==> b>., two uses of the concepts a and <a ==> b>, and the input <a --> c>.
    the concept b is forgotten: <a ==> b>? prints None although the concept <a ==> b> is stored
    with a belief that answers it. *)
Definition boost (k : concept) : concept := with_usage k (Usage_use (c_usage k) 2 true).
Definition forget_b : list mop := [input IMP 100 90 1 (-1); OUpdate 1 boost; OUpdate 2 boost; OForget 2; input (EVT 64) 100 90 2 (-1)].
Definition qrun3 (os : list mop) : res memory := do m <- Memory_INIT 3 4 200 2 2 2 ; mrun qn qpow ex_pen 2 9 (with_ops m) os.
Theorem C48_implication_question_refuted : exists m r, qrun3 forget_b = Ok m /\
  Question qn (fun _ => None) f1 qpow 2 false f0 f0 m IMP 0 = Ok r /\ snd r = [None] /\
  flat_map (stored_belief qn (fun _ => None) f1 IMP) (concepts_of m) <> [].
Proof.
  destruct (res_ex' (do m <- qrun3 forget_b ; do r <- Question qn (fun _ => None) f1 qpow 2 false f0 f0 m IMP 0 ; Ok (m, r))
    (fun '(m, r) => isnone (snd r) && match flat_map (stored_belief qn (fun _ => None) f1 IMP) (concepts_of m) with [] => false | _ => true end)) as ((m & r) & E & H); [vm_compute; reflexivity|].
  destruct (qrun3 _) as [x| |]; cbn [rbind] in E; [|discriminate E|discriminate E]. destruct (Question _ _ _ _ _ _ _ _ x IMP 0) as [y| |] eqn:E2; cbn [rbind] in E; [|discriminate E|discriminate E].
  injection E as <- <-. exists x, y. split; [reflexivity|]. split; [exact E2|]. apply andb_prop in H as [H1 H2].
  split; [destruct (snd y) as [|[?|] [|]]; try discriminate H1; reflexivity|]. intros X. rewrite X in H2. discriminate H2.
Qed.
Print Assumptions C48_implication_question_refuted.

(** <?1 --> c>? with the beliefs <a --> c> {0.3 0.9} and <b --> c> {0.8 0.9}: the second *)
Example C48_example : exists m r, qrun [input (EVT 64) 30 90 1 (-1); input (EVT 65) 80 90 2 (-1)] = Ok m /\
  Question qn (fun _ => None) f1 qpow 2 false f0 f0 m (EVT 3) 0 = Ok r /\ is_answer (EVT 65) 80 90 (snd r) = true /\
  well_numbered qn (EVT 3) /\ plain qn (EVT 3) /\ slots_exist m.
Proof.
  destruct (res_ex' (do m <- qrun [input (EVT 64) 30 90 1 (-1); input (EVT 65) 80 90 2 (-1)] ; do r <- Question qn (fun _ => None) f1 qpow 2 false f0 f0 m (EVT 3) 0 ; Ok (m, r))
    (fun '(m, r) => is_answer (EVT 65) 80 90 (snd r) && forallb (fun ck => Nat.ltb (fst ck) (length (m_store m))) (visited m))) as ((m & r) & E & H); [vm_compute; reflexivity|].
  destruct (qrun _) as [x| |]; cbn [rbind] in E; [|discriminate E|discriminate E]. destruct (Question _ _ _ _ _ _ _ _ x (EVT 3) 0) as [y| |] eqn:E2; cbn [rbind] in E; [|discriminate E|discriminate E].
  injection E as <- <-. apply andb_prop in H as [H1 H2]. exists x, y. split; [reflexivity|]. split; [exact E2|]. split; [exact H1|]. split; [|split].
  - assert (F : forallb (fun a => negb (isVariable qn a) || (a <=? 27)) (EVT 3) = true) by (vm_compute; reflexivity). rewrite forallb_forall in F. intros a IA V. specialize (F a IA). rewrite V in F. apply Z.leb_le. exact F.
  - split; vm_compute; reflexivity.
  - rewrite forallb_forall in H2. intros c k IK. apply Nat.ltb_lt. apply (H2 (c, k) IK).
Qed.
(** the hypothesis [slots_exist] holds in every reachable memory, and the visited concepts are the
    stored ones *)
Theorem C48_reachable_memories : forall nm powdecay penalty cmax buckets atoms bmax gmax layers m,
  sizes_ok cmax buckets atoms bmax gmax layers -> penalty_ok penalty -> reachable nm powdecay penalty cmax buckets atoms bmax gmax layers m ->
  slots_exist m /\ forall c k, In (c, k) (visited m) <-> stores m c k.
Proof.
  intros nm powdecay penalty cmax buckets atoms bmax gmax layers m S PEN R.
  destruct (C34_memory_is_consistent nm powdecay penalty cmax buckets atoms bmax gmax layers m S PEN R) as (_ & _ & _ & _ & _ & H & _).
  assert (G : forall c k, In (c, k) (visited m) <-> stores m c k).
  { intros c k. unfold visited, stores, stored_slots. split.
    - intros I. apply in_map_iff in I as (it & E & I). injection E as <- <-. assert (IA : In (PQueueM.address it) (stored_slots m)) by (apply in_map; exact I). split; [exact IA|].
      destruct (H _ IA) as (k & _ & E). rewrite E. f_equal. symmetry. apply nth_error_nth. exact E.
    - intros (I & E). apply in_map_iff in I as (it & <- & I). apply in_map_iff. exists it. split; auto. f_equal. apply nth_error_nth. exact E. }
  split; auto. intros c k I. apply G in I as (_ & E). apply nth_error_Some. congruence.
Qed.
Print Assumptions C48_reachable_memories.
