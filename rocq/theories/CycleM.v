(** Model of /repo/src/Cycle.c, of Decision_Execute (/repo/src/Decision.c 50-269) and of
    NAR_Cycles, NAR_AddInput (/repo/src/NAR.c 44-77): the reasoning cycle, with operations that
    act on an environment and feed their result back as input.

    Pointers to concepts are slot numbers.  [fuel] bounds the call stack of Memory_AddEvent and
    the number of rounds of a search; running out of it is [Abort].  BELIEF_EVENT_SELECTIONS and
    GOAL_EVENT_SELECTIONS are 1, so the selected events are an [option].  Printing, Metric_send
    and the debug output are left out.  SEMANTIC_INFERENCE_NAL_LEVEL = 6, STAGE = 2. *)
From Coq Require Import ZArith List Bool.
From Flocq Require Import IEEE754.BinarySingleNaN.
From Verif Require Import Base F64 TruthM StampM HashM TermM NamesM EventM InferenceM TableM UsageM RingM InvIndexM VariableM MemoryM QuestionM DecisionM NalM RulesM.
From Verif Require PQueueM.
Local Open Scope Z_scope.

(** Config.h 42, 94-112, 204 *)
Definition CORRELATE_OUTCOME_RECENCY : Z := 20.
Definition PRECONDITION_CONSEQUENCE_DISTANCE : Z := 20.
Definition MAX_SEQUENCE_TIMEDIFF : Z := 20.
Definition MAX_SEQUENCE_LEN : nat := 3.
Definition MAX_COMPOUND_OP_LEN : nat := 1.
Definition BELIEF_CONCEPT_MATCH_TARGET : Z := 80.
Definition CONCEPT_THRESHOLD_ADAPTATION : f64 := @aconst f64A 1 1000000.
Definition NONTEMPORAL_EXP : f64 := @aconst f64A 5 10.
(** NAR.h 43 *)
Definition NAR_DEFAULT_TRUTH : truth f64A := @mkTruth f64A f1 (@aconst f64A 9 10).

(** *** Executions and what the environment answers *)
(** Decision.c 207-208: the operation called and its arguments *)
Record exec := mkX { x_op : operation; x_args : term }.
(** Decision.c 214-231, what the two lines read from stdin are (only for operations set up by
    *setopstdin): end of file, a first line that is not the synchronisation 0 (assertion), or a
    second line that reads as the given term *)
Inductive stdin := SClosed | SNoSync | SLine (t : term).
(** Memory.h 57-61 [Feedback], with the input read by Decision_Execute *)
Record feedback := mkFb { fb_failed : bool; fb_map : list term; fb_stdin : stdin }.

(** The globals of the program that a cycle reads and writes: memory, clock (NAR.c 27), random
    number generator, ids of inputs, concept process ids (Cycle.c 27-29), the selected belief and
    goal with priority (Memory.c), conceptPriorityThreshold, Stats_countConceptsMatchedTotal and
    -Max; [s_trace] are the executions so far, latest first. *)
Record cstate := mkCs {
  s_mem : memory; s_time : Z; s_rng : Z; s_ids : idstate; s_pid : Z; s_pid2 : Z; s_pid3 : Z;
  s_selB : option (event * num64); s_selG : option (event * num64);
  s_thr : f64; s_total : Z; s_max : Z; s_trace : list exec }.
Definition set_mem (s : cstate) (m : memory) : cstate :=
  mkCs m (s_time s) (s_rng s) (s_ids s) (s_pid s) (s_pid2 s) (s_pid3 s) (s_selB s) (s_selG s) (s_thr s) (s_total s) (s_max s) (s_trace s).
Definition set_time (s : cstate) (t : Z) : cstate :=
  mkCs (s_mem s) t (s_rng s) (s_ids s) (s_pid s) (s_pid2 s) (s_pid3 s) (s_selB s) (s_selG s) (s_thr s) (s_total s) (s_max s) (s_trace s).
Definition set_rng (s : cstate) (r : Z) : cstate :=
  mkCs (s_mem s) (s_time s) r (s_ids s) (s_pid s) (s_pid2 s) (s_pid3 s) (s_selB s) (s_selG s) (s_thr s) (s_total s) (s_max s) (s_trace s).
Definition set_ids (s : cstate) (g : idstate) : cstate :=
  mkCs (s_mem s) (s_time s) (s_rng s) g (s_pid s) (s_pid2 s) (s_pid3 s) (s_selB s) (s_selG s) (s_thr s) (s_total s) (s_max s) (s_trace s).
Definition set_pids (s : cstate) (a b c : Z) : cstate :=
  mkCs (s_mem s) (s_time s) (s_rng s) (s_ids s) a b c (s_selB s) (s_selG s) (s_thr s) (s_total s) (s_max s) (s_trace s).
Definition set_selB (s : cstate) (x : option (event * num64)) : cstate :=
  mkCs (s_mem s) (s_time s) (s_rng s) (s_ids s) (s_pid s) (s_pid2 s) (s_pid3 s) x (s_selG s) (s_thr s) (s_total s) (s_max s) (s_trace s).
Definition set_selG (s : cstate) (x : option (event * num64)) : cstate :=
  mkCs (s_mem s) (s_time s) (s_rng s) (s_ids s) (s_pid s) (s_pid2 s) (s_pid3 s) (s_selB s) x (s_thr s) (s_total s) (s_max s) (s_trace s).
Definition set_stats (s : cstate) (thr : f64) (total mx : Z) : cstate :=
  mkCs (s_mem s) (s_time s) (s_rng s) (s_ids s) (s_pid s) (s_pid2 s) (s_pid3 s) (s_selB s) (s_selG s) thr total mx (s_trace s).
Definition set_trace (s : cstate) (l : list exec) : cstate :=
  mkCs (s_mem s) (s_time s) (s_rng s) (s_ids s) (s_pid s) (s_pid2 s) (s_pid3 s) (s_selB s) (s_selG s) (s_thr s) (s_total s) (s_max s) l.
(** [conceptProcessID++] *)
Definition next_pid (s : cstate) : cstate := set_pids s (s_pid s + 1) (s_pid2 s) (s_pid3 s).
Definition next_pid2 (s : cstate) : cstate := set_pids s (s_pid s) (s_pid2 s + 1) (s_pid3 s).
Definition next_pid3 (s : cstate) : cstate := set_pids s (s_pid s) (s_pid2 s) (s_pid3 s + 1).
(** field assignments *)
Definition with_pids (c : concept) (p : Z * Z * Z) : concept :=
  mkConcept (c_id c) (c_usage c) (c_term c) (c_belief c) (c_spike c) (c_predicted c) (c_goal c) (c_pre c) (c_links c) (c_priority c) p (c_lastsel c).
Definition pid1 (k : concept) : Z := fst (fst (c_pids k)).
Definition pid2 (k : concept) : Z := snd (fst (c_pids k)).
Definition pid3 (k : concept) : Z := snd (c_pids k).
Definition with_pid1 (k : concept) (p : Z) : concept := with_pids k (p, pid2 k, pid3 k).
Definition with_pid2 (k : concept) (p : Z) : concept := with_pids k (pid1 k, p, pid3 k).
Definition with_pid3 (k : concept) (p : Z) : concept := with_pids k (pid1 k, pid2 k, p).
Definition with_term (e : event) (t : term) : event :=
  mkEvent t (e_type e) (e_truth e) (e_stamp e) (e_occ e) (e_offset e) (e_processed e) (e_creation e) (e_input e).
Definition with_truth (e : event) (v : truth f64A) : event :=
  mkEvent (e_term e) (e_type e) v (e_stamp e) (e_occ e) (e_offset e) (e_processed e) (e_creation e) (e_input e).
Definition with_occ (e : event) (t : Z) : event :=
  mkEvent (e_term e) (e_type e) (e_truth e) (e_stamp e) t (e_offset e) (e_processed e) (e_creation e) (e_input e).
Definition with_iterm (i : implication) (t : term) : implication :=
  mkImp t (i_truth i) (i_stamp i) (i_offset i) (i_source i) (i_sourceId i) (i_creation i).

(** *** Cycle.c 31-46: RELATED_CONCEPTS_FOREACH.  [body] gets the memory, an accumulator and the
    slot of the concept; it returns whether to leave the whole iteration ([goto]). *)
Section Foreach.
Context {A : Type}.
Variable pid : Z.
Variable body : memory -> A -> nat -> res (memory * A * bool).
(** Cycle.c 38-44: one chain element, whose [c] may be NULL *)
Definition visit (m : memory) (a : A) (c : option nat) : res (memory * A * bool) :=
  match c with
  | None => Ok (m, a, false)
  | Some c =>
    do k <- cread m c ;
    if pid1 k =? pid then Ok (m, a, false) else
    do m <- cmod m c (fun k => with_pid1 k pid) ;
    body m a c
  end.
(** Cycle.c 36-45: the rest of the chain; an element's [next] is read before the body runs *)
Fixpoint chain_loop (fuel : nat) (m : memory) (a : A) (p : option nat) : res (memory * A * bool) :=
  match p with
  | None => Ok (m, a, false)
  | Some p =>
    match fuel with
    | O => Abort
    | S fuel =>
      do el <- el_deref (m_index m) p ;
      do (m, a, stop) <- visit m a (el_c el) ;
      if stop : bool then Ok (m, a, true) else chain_loop fuel m a (el_next el)
    end
  end.
(** Cycle.c 32-46: the atoms [l] of the term *)
Fixpoint foreach_loop (fuel : nat) (t : term) (l : list Z) (m : memory) (a : A) : res (memory * A) :=
  match l with
  | [] => Ok (m, a)
  | x :: l =>
    do own <- FindConceptByTerm m t ;
    do chain <- GetConceptChain (m_index m) x ;
    do (m, a, stop) <- visit m a own ;
    if stop : bool then Ok (m, a) else
    do (m, a, stop) <- chain_loop fuel m a chain ;
    if stop : bool then Ok (m, a) else foreach_loop fuel t l m a
  end.
Definition related_foreach (fuel : nat) (m : memory) (t : term) (a : A) : res (memory * A) :=
  foreach_loop fuel t (map (at_ t) (seq 0 UNIFICATION_DEPTH)) m a.
End Foreach.

Section Cycle.
Variable nm : names.
Variable av : Z -> option (f64 * name).
Variable simdist : f64.
Variable powdecay : Z -> f64.
Variable penalty : nat -> f64.
Variable layers : nat.
(** DECISION_THRESHOLD, CONDITION_THRESHOLD, ANTICIPATION_THRESHOLD, ANTICIPATION_CONFIDENCE,
    MOTOR_BABBLING_CHANCE, BABBLING_OPS *)
Variables threshold condition anticipation_threshold anticipation_confidence chance : f64.
Variable babbling_ops : Z.
(** the environment: how the operation called now answers, given the earlier executions.  (A
    callback that itself calls the reasoner is not modelled.) *)
Variable act : list exec -> exec -> feedback.
Variable fuel : nat.
Notation expectation v := (Truth_Expectation f64A v).
Notation Projection := (Truth_Projection f64A powdecay).
Notation present e := (negb (e_type e =? EVENT_TYPE_DELETED)).
Notation Add m e now p layer := (AddEvent nm powdecay penalty layers fuel m (EVal e) now p false false layer).
Notation Unify := (Unify nm av simdist).
Notation isSeq a := (copulaEquals nm a SEQUENCE).
Notation Antic m := (Anticipate nm av simdist powdecay anticipation_threshold anticipation_confidence m).

(** Cycle.c 55-79; the state of the random number generator is passed along *)
Definition Activate (m : memory) (rs : Z) (c : nat) (e : event) (now : Z) : res (memory * Z * decision) :=
  do m <- cmod m c (fun k => with_lastsel k now) ;
  do m <- cmod m c (fun k => with_usage k (Usage_use (c_usage k) now false)) ;
  do k <- cread m c ;
  let newer old := negb (present old) || (e_occ old <? e_occ e) in
  if e_type e =? EVENT_TYPE_BELIEF then
    do m <- (if newer (c_spike k) then cmod m c (fun k => with_spike k e) else Ok m) ;
    Ok (m, rs, decision0)
  else
    do m <- (if newer (c_goal k) then cmod m c (fun k => with_goal k e) else Ok m) ;
    do (rs, m, d) <- Suggest nm av simdist powdecay threshold chance babbling_ops m c e now rs ;
    Ok (m, rs, d).

(** Cycle.c 102-128: the event [e] for one related concept *)
Definition process_body (e : event) (now : Z) (m : memory) (a : Z * decision) (c : nat) : res (memory * (Z * decision) * bool) :=
  let hasVar := hasVariable nm (e_term e) true true true in
  let hasQuery := hasVariable nm (e_term e) false false true in
  let ecp t := mkEvent t (e_type e) (e_truth e) (e_stamp e) (e_occ e) (e_offset e) true now (e_input e) in
  do (m, a) <- (if negb hasVar || hasQuery then
                  do k <- cread m c ;
                  do subs <- Unify (c_term k) (e_term e) ;
                  if s_success subs then
                    do (m, rs, d) <- Activate m (fst a) c (ecp (e_term e)) now ;
                    Ok (m, (rs, BetterDecision (snd a) d))
                  else Ok (m, a)
                else Ok (m, a)) ;
  do (m, a) <- (if hasVar then
                  do k <- cread m c ;
                  do subs <- Unify (e_term e) (c_term k) ;
                  if s_success subs then
                    do (t, ok) <- ApplySubstitute nm (e_term e) subs ;
                    if ok : bool then
                      do (m, rs, d) <- Activate m (fst a) c (ecp t) now ;
                      Ok (m, (rs, BetterDecision (snd a) d))
                    else Ok (m, a)
                  else Ok (m, a)
                else Ok (m, a)) ;
  Ok (m, a, false).
(** Cycle.c 81-131 *)
Definition ProcessSensorimotorEvent (s : cstate) (e : event) (now : Z) : res (cstate * decision) :=
  do _ <- rassert (negb (e_occ e =? OCCURRENCE_ETERNAL)) ;
  do (m, c) <- Conceptualize nm (s_mem s) (e_term e) now ;
  match c with
  | None => Ok (set_mem s m, decision0)
  | Some c =>
    do m <- (if isSeq (at_ (e_term e) 0) && negb (hasVariable nm (e_term e) true true false)
             then do f <- OccurrenceTimeIndex_Add c (m_ring m) ; Ok (set_ring m f) else Ok m) ;
    let s := next_pid s in
    do (m, a) <- related_foreach (s_pid s) (process_body e now) fuel m (e_term e) (s_rng s, decision0) ;
    Ok (set_rng (set_mem s m) (fst a), snd a)
  end.

(** Cycle.c 133-151: take the event of highest priority *)
Definition PopBelief (s : cstate) : cstate :=
  let (q, x) := PopEvent (m_beliefs (s_mem s)) in set_selB (set_mem s (set_beliefs (s_mem s) q)) x.
Definition PopGoal (s : cstate) (layer : nat) : res cstate :=
  match nth_error (m_goals (s_mem s)) layer with
  | None => UB
  | Some q => let (q, x) := PopEvent q in
              Ok (set_selG (set_mem s (set_goals (s_mem s) (upd (m_goals (s_mem s)) layer q))) x)
  end.

(** *** Cycle.c 153-267: goals that are sequences *)
(** Cycle.c 164-173: the components from the last to the first; componentGoalsTerm has
    MAX_SEQUENCE_LEN+1 = 4 cells.  [n]: nesting depth left (at most 6 in an array of 64 atoms) *)
Fixpoint seq_components (n : nat) (cur : term) (acc : list term) : res (list term) :=
  if isSeq (at_ cur 0) then
    do _ <- rassert (length acc <=? MAX_SEQUENCE_LEN)%nat ;
    match n with
    | O => Abort
    | S n => seq_components n (Term_ExtractSubterm cur 1) (acc ++ [Term_ExtractSubterm cur 2])
    end
  else if (length acc <=? MAX_SEQUENCE_LEN)%nat then Ok (acc ++ [cur]) else UB.
(** Cycle.c 207-216: whether the substitution works for the later components *)
Fixpoint applies (l : list term) (subs : substitution) : res bool :=
  match l with
  | [] => Ok true
  | t :: l => do (_, ok) <- ApplySubstitute nm t subs ; if ok : bool then applies l subs else Ok false
  end.
(** Cycle.c 249-254 *)
Fixpoint apply_all (l : list term) (subs : substitution) : res (list term) :=
  match l with
  | [] => Ok []
  | t :: l => do (t, ok) <- ApplySubstitute nm t subs ; do _ <- rassert ok ; do l <- apply_all l subs ; Ok (t :: l)
  end.
(** Cycle.c 187-236: one concept as a candidate for the belief satisfying [comp]; the accumulator
    is the best expectation so far with its concept and substitution *)
Definition component_body (now : Z) (comp : term) (rest : list term) (last : Z)
    (m : memory) (a : f64 * option (nat * substitution)) (c : nat) : res (memory * (f64 * option (nat * substitution)) * bool) :=
  let stop := negb (hasVariable nm comp true true true) in
  do k <- cread m c ;
  if hasVariable nm (c_term k) true true true then Ok (m, a, stop) else
  do subs <- Unify comp (c_term k) ;
  if negb (s_success subs) || negb (present (c_spike k)) then Ok (m, a, stop) else
  if e_occ (c_spike k) <? last then Ok (m, a, false) else
  let ex := expectation (Projection (e_truth (c_spike k)) (e_occ (c_spike k)) now) in
  if fltb ex condition then Ok (m, a, false) else
  do ok <- applies rest subs ;
  Ok (m, if ok && fltb (fst a) ex then (ex, Some (c, subs)) else a, stop).
(** Cycle.c 178-266: [todo] are the components not yet looked at, in temporal order (so the array
    componentGoalsTerm from index j down to 0), [first]: j == i.  The C variable
    lastComponentOccurrenceTime is an int; it is taken not to overflow.  [n]: components left. *)
Fixpoint decompose (n : nat) (s : cstate) (prio : f64) (layer : nat) (todo : list term) (first : bool) (last : Z) (newGoal : event) : res cstate :=
  match n, todo with
  | O, _ | _, [] => Ok s
  | S n, comp :: rest =>
    let now := s_time s in
    let s := next_pid s in
    do (m, a) <- related_foreach (s_pid s) (component_body now comp rest last) fuel (s_mem s) comp (f0, None) ;
    let s := set_mem s m in
    match snd a with
    | None =>
      let newGoal := if first then with_truth (with_term newGoal comp) (Truth_StructuralDeduction f64A (e_truth newGoal) (e_truth newGoal))
                     else newGoal in
      do m <- Add (s_mem s) newGoal now (fmul prio (expectation (e_truth newGoal))) layer ;
      Ok (set_mem s m)
    | Some (c, subs) =>
      match rest with
      | [] => Ok s
      | _ =>
        do rest <- apply_all rest subs ;
        do k <- cread (s_mem s) c ;
        let newGoal := with_term (GoalSequenceDeduction powdecay newGoal (c_spike k) now) (hd zero_term rest) in
        decompose n s prio layer rest false (e_occ (c_spike k)) newGoal
      end
    end
  end.
(** Cycle.c 157-267: whether the goal was a sequence *)
Definition GoalSequenceDecomposition (s : cstate) (goal : event) (prio : f64) (layer : nat) : res (cstate * bool) :=
  if negb (isSeq (at_ (e_term goal) 0)) then Ok (s, false) else
  do comps <- seq_components 7 (e_term goal) [] ;
  do s <- decompose (length comps) s prio layer (rev comps) true (-1) (EventUpdate powdecay goal (s_time s)) ;
  Ok (s, true).

(** *** Decision.c 50-269: execution *)
(** Decision.c 79-104: drop common first or last parts; [n]: nesting depth left *)
Fixpoint drop_common (n : nat) (prec1 prec2 : term) : term * term :=
  match n with
  | O => (prec1, prec2)
  | S n =>
    let l1 := Term_ExtractSubterm prec1 1 in let r1 := Term_ExtractSubterm prec1 2 in
    let l2 := Term_ExtractSubterm prec2 1 in let r2 := Term_ExtractSubterm prec2 2 in
    let again p1 p2 := if isSeq (at_ p1 0) && isSeq (at_ p2 0) then drop_common n p1 p2 else (p1, p2) in
    if term_eqb l1 l2 then again r1 r2
    else if term_eqb r1 r2 then again l1 l2
    else (prec1, prec2)
  end.
(** Decision.c 113-116 and 147-150 *)
Definition implication_of (a b : term) : bool * term :=
  let t := upd zero_term 0 (copula_index IMPLICATION) in
  let (ok1, t) := Term_OverrideSubterm t 1 a in
  let (ok2, t) := Term_OverrideSubterm t 2 b in (ok1 && ok2, t).
(** Decision.c 119, 151: no temporal link in either direction is believed *)
Definition not_temporal (m : memory) (a b : term) : res bool :=
  do v <- getTemporalLinkTruth m a b ;
  if negb (fleb (expectation v) NONTEMPORAL_EXP) then Ok false else
  do v <- getTemporalLinkTruth m b a ;
  Ok (fleb (expectation v) NONTEMPORAL_EXP).
(** Decision.c 121-145, 153-175: the event and its two generalisations; [seen] are the terms not
    to repeat (Te_imp2, Te_imp3); returns the generalised terms *)
Definition add_generalised (m : memory) (now : Z) (e : event) (side : Z) (seen : term) : res (memory * term) :=
  do (ok, t) <- IntroduceImplicationVariables2 nm (e_term e) true side ;
  if ok && hasVariable nm t true true false && negb (term_eqb seen t)
  then do m <- Add m (with_term e t) now f1 0 ; Ok (m, t) else Ok (m, zero_term).
Definition add_equivalence (m : memory) (now : Z) (t : term) (v : truth f64A) (st : stamp) (seen : term * term) : res (memory * (term * term)) :=
  let e := mkEvent t EVENT_TYPE_BELIEF v st now f0 false 0 false in
  do m <- Add m e now f1 0 ;
  do (m, t2) <- add_generalised m now e 2 (fst seen) ;
  do (m, t3) <- add_generalised m now e 1 (snd seen) ;
  Ok (m, (t2, t3)).
(** Decision.c 62-178: the link [cmp] of the same operation to the same goal compared to the
    decision's *)
Definition compare_links (m : memory) (now : Z) (spec : implication) (cons1 : term) (cmp : implication) : res memory :=
  if hasVariable nm (i_term cmp) true true false then Ok m else
  let cons2 := Term_ExtractSubterm (i_term cmp) 2 in
  let prec_op1 := Term_ExtractSubterm (i_term spec) 1 in
  let prec_op2 := Term_ExtractSubterm (i_term cmp) 1 in
  let op1 := Term_ExtractSubterm prec_op1 2 in
  let op2 := Term_ExtractSubterm prec_op2 2 in
  let prec1 := GetPreconditionWithoutOp nm prec_op1 in
  let prec2 := GetPreconditionWithoutOp nm prec_op2 in
  if term_eqb prec1 prec2 then Ok m else
  let (prec1, prec2) := if isSeq (at_ prec1 0) && isSeq (at_ prec2 0) then drop_common 7 prec1 prec2 else (prec1, prec2) in
  if negb (term_eqb cons1 cons2 && term_eqb op1 op2 && (SequenceLength nm prec1 =? SequenceLength nm prec2)%nat) then Ok m else
  if stamp_check_overlap (i_stamp spec) (i_stamp cmp) then Ok m else
  let st := stamp_make (i_stamp spec) (i_stamp cmp) in
  let (ok1, t1) := implication_of prec1 prec2 in
  do free <- (if ok1 then not_temporal m prec1 prec2 else Ok false) ;
  do (m, seen) <- (if free then add_equivalence m now t1 (Truth_Induction f64A (i_truth spec) (i_truth cmp)) st (zero_term, zero_term)
                   else Ok (m, (zero_term, zero_term))) ;
  let (ok2, t2) := implication_of prec2 prec1 in
  do free <- (if ok2 then not_temporal m prec2 prec1 else Ok false) ;
  if free then do (m, _) <- add_equivalence m now t2 (Truth_Abduction f64A (i_truth spec) (i_truth cmp)) st seen ; Ok m
  else Ok m.
(** Decision.c 60-179: the table of the goal concept [g], read anew in each round; at most
    TABLE_SIZE rounds *)
Fixpoint equivalence_loop (n : nat) (j : nat) (m : memory) (now : Z) (spec : implication) (cons1 : term) (g opi : nat) : res memory :=
  match n with
  | O => Ok m
  | S n =>
    do k <- cread m g ;
    do t <- pre_at k opi ;
    if (j <? t_items t)%nat then
      do m <- compare_links m now spec cons1 (slot t j) ;
      equivalence_loop n (j + 1) m now spec cons1 g opi
    else Ok m
  end.
(** Decision.c 53-181 *)
Definition functional_equivalence (m : memory) (now : Z) (d : decision) : res memory :=
  let spec := d_specific d in
  if negb (at_ (i_term spec) 0 =? 0) && negb (hasVariable nm (i_term spec) true true false) then
    let cons1 := Term_ExtractSubterm (i_term spec) 2 in
    do g <- FindConceptByTerm m cons1 ;
    match g with
    | None => Ok m
    | Some g => equivalence_loop TABLE_SIZE 0 m now spec cons1 g (d_table d)
    end
  else Ok m.
(** Decision.c 195-206: the feedback event's term, None when it does not fit *)
Definition feedback_term (op args : term) : option term :=
  if at_ args 0 <=? 0 then Some op else
  let t := upd zero_term 0 (copula_index INHERITANCE) in
  let (ok1, t) := Term_OverrideSubterm t 1 args in
  if ok1 then let (ok2, t) := Term_OverrideSubterm t 2 op in if ok2 then Some t else None else None.
(** NAR.c 55-66; [cyc] is NAR_Cycles(1) *)
Definition AddInput (cyc : cstate -> res cstate) (s : cstate) (t : term) (ty : Z) (tv : truth f64A) (eternal : bool) (off : f64) : res cstate :=
  let (e, g) := Event_InputEvent (s_ids s) t ty tv off (s_time s) in
  let s := set_ids s g in
  let e := if eternal then with_occ e OCCURRENCE_ETERNAL else e in
  do m <- AddInputEvent nm powdecay penalty layers fuel (s_mem s) e (s_time s) ;
  cyc (set_mem s m).
(** Decision.c 254-262: failure is assumed for the specific case not experienced before *)
Definition missing_case (m : memory) (now : Z) (d : decision) : res memory :=
  if at_ (i_term (d_missing d)) 0 =? 0 then Ok m else
  do (m, postc) <- Conceptualize nm m (Term_ExtractSubterm (i_term (d_missing d)) 2) now ;
  match postc, d_reason d with
  | None, _ => Ok m
  | Some _, None => UB
  | Some p, Some r =>
    do reason <- cread m r ;
    do k <- cread m p ;
    do t <- pre_at k (d_opid d) ;
    do t <- AddNegativeConfirmation powdecay anticipation_confidence t (c_spike reason) (d_missing d) ;
    cmod m p (fun k => with_pre k (upd (c_pre k) (d_opid d) t))
  end.
(** Decision.c 182-268 with MAX_COMPOUND_OP_LEN = 1 (the loop of lines 239-247 is empty) *)
Definition call_operation (cyc : cstate -> res cstate) (s : cstate) (now : Z) (d : decision) : res cstate :=
  if (d_opid d =? 0)%nat then Ok s else
  match nth_error (m_ops (s_mem s)) (d_opid d - 1) with
  | None => UB
  | Some op =>
    match feedback_term (op_term op) (d_args d) with
    | None => Ok s
    | Some t =>
      if op_action op =? 0 then UB else
      let x := mkX op (d_args d) in
      let fb := act (s_trace s) x in
      let s := set_trace s (x :: s_trace s) in
      if fb_failed fb then Ok s else
      do subs <- (if op_stdout op then
                    match fb_stdin fb with
                    | SClosed => Ok None
                    | SNoSync => Abort
                    | SLine line => do subs <- Unify (Term_ExtractSubterm (d_args d) 2) line ;
                                    Ok (if s_success subs then Some subs else None)
                    end
                  else Ok (Some (mkSubst (fb_map fb) true truth0))) ;
      match subs with
      | None => Ok s
      | Some subs =>
        do (t, ok) <- ApplySubstitute nm t subs ;
        if negb ok then Ok s else
        do s <- AddInput cyc s t EVENT_TYPE_BELIEF NAR_DEFAULT_TRUTH false f0 ;
        do m <- missing_case (s_mem s) now d ;
        Ok (set_mem s m)
      end
    end
  end.
Definition Decision_Execute (cyc : cstate -> res cstate) (s : cstate) (now : Z) (d : decision) : res cstate :=
  do m <- functional_equivalence (s_mem s) now d ;
  call_operation cyc (set_mem s m) now d.

(** *** Cycle.c 269-368: goals *)
(** Cycle.c 320-334: a subgoal from the goal of concept [c] with the implication [imp] *)
Definition subgoal (m : memory) (now : Z) (prio : f64) (layer : nat) (c : nat) (imp : implication) : res memory :=
  do k <- cread m c ;
  do subs <- Unify (Term_ExtractSubterm (i_term imp) 2) (e_term (c_goal k)) ;
  if negb (s_success subs) then Ok m else
  do (t, ok) <- ApplySubstitute nm (i_term imp) subs ;
  if negb ok then Ok m else
  do g <- GoalDeduction nm (c_goal k) (with_iterm imp t) now ;
  let g := EventUpdate powdecay g now in
  Add m g now (fmul prio (expectation (e_truth g))) layer.
(** Cycle.c 311-335 (table [opi] = Some i) and 339-363 (implication_links, None): the entries from
    index [j]; invalid ones are removed.  [n] bounds the rounds: each removes an entry or moves on *)
Definition links_of (k : concept) (opi : option nat) : res table :=
  match opi with Some i => pre_at k i | None => Ok (c_links k) end.
Definition set_links (k : concept) (opi : option nat) (t : table) : concept :=
  match opi with Some i => with_pre k (upd (c_pre k) i t) | None => with_links k t end.
Fixpoint subgoal_loop (n : nat) (j : nat) (m : memory) (now : Z) (prio : f64) (layer : nat) (c : nat) (opi : option nat) : res memory :=
  match n with
  | O => Ok m
  | S n =>
    do k <- cread m c ;
    do t <- links_of k opi ;
    if (j <? t_items t)%nat then
      do valid <- ImplicationValid m (slot t j) ;
      if negb valid then
        do m <- cmod m c (fun k => set_links k opi (Table_Remove t j)) ;
        subgoal_loop n j m now prio layer c opi
      else
        do m <- subgoal m now prio layer c (slot t j) ;
        subgoal_loop n (j + 1) m now prio layer c opi
    else Ok m
  end.
(** Cycle.c 303-366 *)
Definition subgoal_body (goal : event) (now : Z) (prio : f64) (layer : nat) (m : memory) (a : unit) (c : nat) : res (memory * unit * bool) :=
  do k <- cread m c ;
  do subs <- Unify (c_term k) (e_term goal) ;
  if negb (s_success subs) then Ok (m, tt, false) else
  do r <- RevisionAndChoice nm powdecay (c_goal k) goal ;
  do m <- cmod m c (fun k => with_goal k (fst r)) ;
  do m <- foldM (fun m opi => subgoal_loop (2 * TABLE_SIZE) 0 m now prio layer c opi) (map Some (seq 0 (S OPERATIONS_MAX)) ++ [None]) m ;
  Ok (m, tt, false).
(** Cycle.c 269-368; [cyc] is NAR_Cycles(1) *)
Definition ProcessAndInferGoalEvents (cyc : cstate -> res cstate) (s : cstate) (now : Z) (layer : nat) : res cstate :=
  do (s, best) <- (match s_selG s with
                   | None => Ok (s, decision0)
                   | Some (goal, p) =>
                     do (s, isseq) <- GoalSequenceDecomposition s goal (proj1_sig p) layer ;
                     if isseq : bool then Ok (s, decision0) else
                     do (s, d) <- ProcessSensorimotorEvent s goal now ;
                     Ok (s, BetterDecision decision0 d)
                   end) ;
  do s <- (if d_execute best && (0 <? d_opid best)%nat
           then Decision_Execute cyc (set_selG (set_mem s (ResetGoals (s_mem s))) None) now best else Ok s) ;
  match s_selG s with
  | Some (goal, p) =>
    if d_execute best then Ok s else
    let s := next_pid s in
    do (m, _) <- related_foreach (s_pid s) (subgoal_body goal now (proj1_sig p) layer) fuel (s_mem s) (e_term goal) tt ;
    Ok (set_mem s m)
  | None => Ok s
  end.

(** *** Cycle.c 370-605: beliefs *)
(** Cycle.c 370-398; [time] is the global clock *)
Definition ReinforceLink (m : memory) (time : Z) (a b : event) : res memory :=
  if negb (e_type a =? EVENT_TYPE_BELIEF) || negb (e_type b =? EVENT_TYPE_BELIEF) then Ok m else
  do A <- FindConceptByTerm m (GetPreconditionWithoutOp nm (e_term a)) ;
  do B <- FindConceptByTerm m (e_term b) ;
  match A, B with
  | Some A, Some B =>
    if (A =? B)%nat || stamp_check_overlap (e_stamp a) (e_stamp b) then Ok m else
    do (ok, i) <- BeliefInduction powdecay a b ;
    if ok && negb (fltb (confidence (i_truth i)) (MIN_CONFIDENCE f64A)) then
      DerivedEvent nm powdecay penalty layers fuel m (i_term i)
        (mkDv time (i_truth i) (i_stamp i) time f1 f1 (i_offset i) None 0) true false
    else Ok m
  | _, _ => Ok m
  end.
(** OccurrenceTimeIndex_GetKthNewestElement, dereferenced *)
Definition kth_newest (m : memory) (k : Z) : res nat :=
  do c <- GetKthNewestElement (m_ring m) k ; match c with Some c => Ok c | None => UB end.
Notation isHol a := (copulaEquals nm a EQUIVALENCE || copulaEquals nm a IMPLICATION).
(** Cycle.c 431-450: the precondition in slot [p] with the operation in slot [o] *)
Definition mine_prec (m : memory) (time now : Z) (post : event) (o p : nat) : res memory :=
  do prec <- cread m p ;
  do opc <- cread m o ;
  if present (c_spike prec) && (e_creation (c_spike prec) <? now) && (e_occ (c_spike prec) <? e_occ (c_spike opc))
     && (Z.abs (e_occ (c_spike prec) - e_occ post) <? PRECONDITION_CONSEQUENCE_DISTANCE)
     && (Z.abs (c_lastsel prec - e_occ post) <? PRECONDITION_CONSEQUENCE_DISTANCE)
     && negb (isHol (at_ (e_term (c_spike prec)) 0))
     && negb (stamp_check_overlap (e_stamp (c_spike prec)) (e_stamp post))
     && (getOperationID nm m (c_term prec) =? 0)%nat
  then
    do (ok, sq) <- BeliefIntersection powdecay (c_spike prec) (c_spike opc) ;
    if ok && negb (fltb (confidence (e_truth sq)) (MIN_CONFIDENCE f64A)) then
      let (ok5, t) := OperationSequenceAppendLeftNested nm (e_term (c_spike prec)) (e_term (c_spike opc)) in
      if ok5 then ReinforceLink m time (with_term sq t) post else Ok m
    else Ok m
  else Ok m.
(** Cycle.c 426-451; [n] bounds the rounds (itemsAmount is at most the size of the ring) *)
Fixpoint prec_loop (n : nat) (i : Z) (m : memory) (pid : Z) (time now : Z) (post : event) (o : nat) (oid : Z) : res memory :=
  match n with
  | O => Ok m
  | S n =>
    do opc <- cread m o ;
    if (oid =? c_id opc) && (i <? r_amount (m_ring m)) then
      do p <- kth_newest m i ;
      do k <- cread m p ;
      do m <- cmod m p (fun k => with_pid3 k pid) ;
      do m <- (if pid3 k =? pid then Ok m else mine_prec m time now post o p) ;
      prec_loop n (i + 1) m pid time now post o oid
    else Ok m
  end.
(** Cycle.c 416-453: the search for operations; returns the new conceptProcessID3 *)
Fixpoint op_loop (n : nat) (j : Z) (m : memory) (pid2_ pid3_ : Z) (time now : Z) (post : event) : res (memory * Z) :=
  match n with
  | O => Ok (m, pid3_)
  | S n =>
    if j <? r_amount (m_ring m) then
      do o <- kth_newest m j ;
      do k <- cread m o ;
      do m <- cmod m o (fun k => with_pid2 k pid2_) ;
      if negb (pid2 k =? pid2_) && present (c_spike k) && (e_creation (c_spike k) <? now) && (e_occ (c_spike k) <? e_occ post)
         && (Z.abs (e_occ (c_spike k) - e_occ post) <? PRECONDITION_CONSEQUENCE_DISTANCE)
         && (Z.abs (c_lastsel k - e_occ post) <? PRECONDITION_CONSEQUENCE_DISTANCE)
         && negb (getOperationID nm m (c_term k) =? 0)%nat
      then
        do m <- prec_loop (Z.to_nat RING) 0 m (pid3_ + 1) time now post o (c_id k) ;
        op_loop n (j + 1) m pid2_ (pid3_ + 1) time now post
      else op_loop n (j + 1) m pid2_ pid3_ time now post
    else Ok (m, pid3_)
  end.
(** Cycle.c 482-489: SEQUENCE copulas on the left edge of the term, at most MAX_SEQUENCE_LEN
    (positions 0, 1, 3) *)
Definition sequence_len (t : term) : nat :=
  if isSeq (at_ t 0) then if isSeq (at_ t 1) then if isSeq (at_ t 3) then 3 else 2 else 1 else 0.
(** Cycle.c 494-589: relations between measured values; the term of the comparison, if any *)
Notation isInh a := (copulaEquals nm a INHERITANCE || copulaEquals nm a HAS_CONTINUOUS_PROPERTY).
Notation isProd a := (copulaEquals nm a PRODUCT).
Definition override (t : term) (i : nat) (x : term) : term := snd (Term_OverrideSubterm t i x).
Definition attribute_pair (t : term) : term * term :=
  if isSeq (at_ t 0) && isSeq (at_ t 1) && isInh (at_ t 2) && isInh (at_ t 4) && isProd (at_ t 5) && isProd (at_ t 9)
     && term_eqb (Term_ExtractSubterm t 6) (Term_ExtractSubterm t 10)
  then (Term_ExtractSubterm t 3,
        override (override (upd zero_term 0 (copula_index SEQUENCE)) 1 (Term_ExtractSubterm t 4)) 2 (Term_ExtractSubterm t 2))
  else (zero_term, t).
Definition attribute_relation (t : term) : res (option term) :=
  let (rest, st) := attribute_pair t in
  let loc1 := Term_ExtractSubterm st 7 in
  let loc2 := Term_ExtractSubterm st 11 in
  let attr := Term_ExtractSubterm st 4 in
  if isSeq (at_ st 0) && isInh (at_ st 1) && isInh (at_ st 2) && isProd (at_ st 3) && isProd (at_ st 5)
     && term_eqb attr (Term_ExtractSubterm st 6)
  then
    do v1 <- hasAtomValue av (at_ st 8) ;
    do v2 <- (if v1 : bool then hasAtomValue av (at_ st 12) else Ok false) ;
    if negb (v1 && v2) then Ok None else
    let val a := match av a with Some (x, _) => x | None => f0 end in
    let x1 := val (at_ st 8) in let x2 := val (at_ st 12) in
    let rel := if fltb x2 x1 || fltb x1 x2 then copula_index SEQUENCE else copula_index SIMILARITY in
    let smaller := fltb x1 x2 in
    let r := upd (upd (upd zero_term 0 (if copulaEquals nm (at_ st 1) INHERITANCE then copula_index INHERITANCE else copula_index HAS_CONTINUOUS_PROPERTY))
                   1 (copula_index PRODUCT)) 2 rel in
    let r := override (override r 3 (if smaller then loc2 else loc1)) 4 (if smaller then loc1 else loc2) in
    let r := upd (override (override r 5 attr) 6 attr) 6 (copula_index SET_TERMINATOR) in
    Ok (Some (if at_ rest 0 =? 0 then r
              else override (override (upd zero_term 0 (copula_index SEQUENCE)) 1 rest) 2 r))
  else Ok None.
(** Cycle.c 490-594: the sequence [sq] of the concept's event and the processed one *)
Definition build_sequence (s : cstate) (now : Z) (sq : event) (op_id : nat) (prio : f64) (cond op : bool) : res cstate :=
  if (cond && (sequence_len (e_term sq) <? MAX_SEQUENCE_LEN)%nat) || (op && (sequence_len (e_term sq) <? MAX_COMPOUND_OP_LEN)%nat) then
    do (s, _) <- ProcessSensorimotorEvent s sq now ;
    do r <- attribute_relation (e_term sq) ;
    do m <- (match r with Some t => Add (s_mem s) (with_term sq t) now f1 0 | None => Ok (s_mem s) end) ;
    do m <- (if op && fleb f1 prio then Antic m op_id (e_term sq) false now else Ok m) ;
    Ok (set_mem s m)
  else Ok s.
(** Cycle.c 460-597: the concept in slot [c] before the processed event [post] *)
Definition correlate (s : cstate) (now : Z) (post : event) (op_id : nat) (prio : f64) (c : nat) : res cstate :=
  let m := s_mem s in
  do k <- cread m c ;
  let sp := c_spike k in
  if present sp && (e_creation sp <=? now) && (Z.abs (e_occ sp - e_occ post) <=? MAX_SEQUENCE_TIMEDIFF)
     && (Z.abs (c_lastsel k - e_occ post) <=? MAX_SEQUENCE_TIMEDIFF) && (e_occ sp <=? e_occ post)
     && negb (isHol (at_ (e_term sp) 0))
  then
    let op_id2 := getOperationID nm m (e_term sp) in
    let op := negb (op_id =? 0)%nat && negb (op_id2 =? 0)%nat in
    let cond := (op_id =? 0)%nat && (op_id2 =? 0)%nat in
    if (cond || op) && negb (stamp_check_overlap (e_stamp sp) (e_stamp post)) then
      do (ok, sq) <- BeliefIntersection powdecay sp post ;
      if ok && negb (fltb (confidence (e_truth sq)) (MIN_CONFIDENCE f64A)) then
        do m <- (if cond then
                   do m <- ReinforceLink m (s_time s) sp post ;
                   do k <- cread m c ;
                   if e_occ (c_spike k) =? e_occ post then ReinforceLink m (s_time s) post (c_spike k) else Ok m
                 else Ok m) ;
        do k <- cread m c ;
        if e_occ (c_spike k) <=? e_occ post then build_sequence (set_mem s m) now sq op_id prio cond op else Ok (set_mem s m)
      else Ok s
    else Ok s
  else Ok s.
(** Cycle.c 455-598 *)
Fixpoint correlate_loop (n : nat) (i : Z) (s : cstate) (now : Z) (post : event) (op_id : nat) (prio : f64) : res cstate :=
  match n with
  | O => Ok s
  | S n =>
    if i <? r_amount (m_ring (s_mem s)) then
      do c <- kth_newest (s_mem s) i ;
      do k <- cread (s_mem s) c ;
      do m <- cmod (s_mem s) c (fun k => with_pid2 k (s_pid2 s)) ;
      let s := set_mem s m in
      do s <- (if pid2 k =? s_pid2 s then Ok s else correlate s now post op_id prio c) ;
      correlate_loop n (i + 1) s now post op_id prio
    else Ok s
  end.
(** Cycle.c 400-605 *)
Definition ProcessBeliefEvents (s : cstate) (now : Z) : res cstate :=
  match s_selB s with
  | None => Ok s
  | Some (e, p) =>
    let prio := proj1_sig p in
    let continuous := copulaEquals nm (at_ (e_term e) 0) HAS_CONTINUOUS_PROPERTY && negb (isProd (at_ (e_term e) 1)) in
    if negb continuous && negb (e_processed e) && present e && negb (e_occ e =? OCCURRENCE_ETERNAL)
       && (now - e_occ e <? CORRELATE_OUTCOME_RECENCY)
    then
      do _ <- rassert (e_type e =? EVENT_TYPE_BELIEF) ;
      do (s, _) <- ProcessSensorimotorEvent s e now ;
      let op_id := getOperationID nm (s_mem s) (e_term e) in
      let s := next_pid2 s in
      do s <- (if (op_id =? 0)%nat then
                 do (m, p3) <- op_loop (Z.to_nat RING) 0 (s_mem s) (s_pid2 s) (s_pid3 s) (s_time s) now e ;
                 Ok (set_pids (set_mem s m) (s_pid s) (s_pid2 s) p3)
               else Ok s) ;
      let s := next_pid2 s in
      do s <- correlate_loop (Z.to_nat RING) 0 s now e op_id prio ;
      if fleb f1 prio then
        do m <- Antic (s_mem s) op_id (getOperationTerm nm (e_term e)) false now ;
        Ok (set_mem s m)
      else Ok s
    else Ok s
  end.

(** *** Cycle.c 607-774: declarative inference *)
(** Cycle.c 620-631, 662-673, 679-690: if [general] matches [term1], derive [target] *)
Definition derive_match (m : memory) (general term1 target : term) (v : truth f64A) (d : deriv) : res memory :=
  do subs <- Unify general term1 ;
  if negb (s_success subs) then Ok m else
  do (t, ok) <- ApplySubstitute nm target subs ;
  if negb ok then Ok m else DerivedEvent nm powdecay penalty layers fuel m t (with_dtruth d v) false false.
(** Cycle.c 635-660 *)
Definition remaining_condition (m : memory) (subject predicate term1 : term) (v : truth f64A) (d : deriv) : res memory :=
  let a := Term_ExtractSubterm subject 1 in
  let b := Term_ExtractSubterm subject 2 in
  do s1 <- Unify a term1 ;
  do (subs, rem) <- (if s_success s1 then Ok (s1, b) else do s2 <- Unify b term1 ; Ok (s2, a)) ;
  if negb (s_success subs) then Ok m else
  let (ok1, t) := Term_OverrideSubterm (upd zero_term 0 (copula_index IMPLICATION)) 1 rem in
  if negb ok1 then Ok m else
  let (ok2, t) := Term_OverrideSubterm t 2 predicate in
  if negb ok2 then Ok m else
  do (t, ok) <- ApplySubstitute nm t subs ;
  if negb ok then Ok m else DerivedEvent nm powdecay penalty layers fuel m t (with_dtruth d v) false false.
(** Cycle.c 611-693 *)
Definition SpecialInferences (m : memory) (term1 term2 : term) (v1 v2 : truth f64A) (d : deriv) : res memory :=
  let isImpl := copulaEquals nm (at_ term2 0) IMPLICATION in
  let subject := Term_ExtractSubterm term2 1 in
  let predicate := Term_ExtractSubterm term2 2 in
  do m <- (if isImpl || copulaEquals nm (at_ term2 0) EQUIVALENCE then
             do m <- derive_match m subject term1 predicate (if isImpl then Truth_Deduction f64A v2 v1 else Truth_Analogy f64A v2 v1) d ;
             do m <- (if isImpl && copulaEquals nm (at_ subject 0) CONJUNCTION
                      then remaining_condition m subject predicate term1 (Truth_Deduction f64A v2 v1) d else Ok m) ;
             derive_match m predicate term1 subject (if isImpl then Truth_Abduction f64A v2 v1 else Truth_Analogy f64A v2 v1) d
           else Ok m) ;
  if copulaEquals nm (at_ term2 0) CONJUNCTION
  then derive_match m subject term1 predicate (Truth_AnonymousAnalogy f64A v2 v1) d else Ok m.
(** Cycle.c 732-742: the belief used with the event: that of the concept, read whenever used, or a
    copy of its event projected to the time of [e] *)
Definition projected (e : event) (sp : event) : option event :=
  if negb (e_occ e =? OCCURRENCE_ETERNAL) && present sp && (Z.abs (e_occ e - e_occ sp) <? EVENT_BELIEF_DISTANCE)
  then Some (with_occ (with_truth sp (Projection (e_truth sp) (e_occ sp) (e_occ e))) (e_occ e)) else None.
Definition belief_of (m : memory) (c : nat) (p : option event) : res event :=
  match p with Some b => Ok b | None => do k <- cread m c ; Ok (c_belief k) end.
(** Cycle.c 733-760: inference between the event and the concept in slot [c] *)
Definition infer_with (m : memory) (e : event) (prio : f64) (now : Z) (c : nat) (cid : Z) : res memory :=
  do k <- cread m c ;
  let p := projected e (c_spike k) in
  do b <- belief_of m c p ;
  if stamp_check_overlap (e_stamp e) (e_stamp b) then Ok m else
  do m <- cmod m c (fun k => with_usage k (Usage_use (c_usage k) now false)) ;
  let st := stamp_make (e_stamp e) (e_stamp b) in
  let d k := mkDv (e_occ e) truth0 st now prio (c_priority k) (e_offset e) (Some c) cid in
  do k <- cread m c ;
  do b <- belief_of m c p ;
  do m <- RuleTable_Apply nm powdecay penalty layers fuel m true (e_term e) (c_term k) (e_truth e) (e_truth b) (d k) ;
  do k <- cread m c ;
  do b <- belief_of m c p ;
  do m <- SpecialInferences m (e_term e) (c_term k) (e_truth e) (e_truth b) (d k) ;
  do k <- cread m c ;
  do b <- belief_of m c p ;
  SpecialInferences m (c_term k) (e_term e) (e_truth b) (e_truth e) (d k).
(** Cycle.c 722-762; the accumulator: concepts matched in this round, and in all rounds *)
Definition infer_body (e : event) (prio : f64) (now : Z) (thr : f64) (m : memory) (a : Z * Z) (c : nat) : res (memory * (Z * Z) * bool) :=
  do k <- cread m c ;
  if fltb (c_priority k) thr then Ok (m, a, false) else
  let a := (fst a + 1, snd a + 1) in
  do m <- (if present (c_belief k) && (snd a <=? BELIEF_CONCEPT_MATCH_TARGET) then infer_with m e prio now c (c_id k) else Ok m) ;
  Ok (m, a, false).
(** Cycle.c 706-713 *)
Definition adapt (thr : f64) (total now : Z) : f64 :=
  let increment := fmul (fsub (fofZ (Z.quot total now)) (fofZ BELIEF_CONCEPT_MATCH_TARGET)) CONCEPT_THRESHOLD_ADAPTATION in
  amin f64A f1 (amax f64A f0 (fadd thr increment)).
(** Cycle.c 703-771; [n] bounds the rounds *)
Fixpoint infer_rounds (n : nat) (s : cstate) (e : event) (prio : f64) (now : Z) (matched : Z) : res cstate :=
  match n with
  | O => Abort
  | S n =>
    if now =? 0 then UB else
    let thr := s_thr s in
    let s := set_stats s (adapt thr (s_total s) now) (s_total s) (s_max s) in
    do m <- RuleTable_Apply nm powdecay penalty layers fuel (s_mem s) false (e_term e) zero_term (e_truth e) truth0
              (mkDv (e_occ e) truth0 (e_stamp e) now prio f1 f0 None 0) ;
    do (m, a) <- related_foreach (s_pid s) (infer_body e prio now thr) fuel m (e_term e) (0, matched) ;
    let matched' := snd a in
    let s := set_stats (set_mem s m) (s_thr s) (s_total s + fst a) (if s_max s <? matched' then matched' else s_max s) in
    if (BELIEF_CONCEPT_MATCH_TARGET <=? matched') || (fst a =? 0) then Ok s
    else infer_rounds n s e prio now matched'
  end.
(** Cycle.c 695-774 *)
Definition Cycle_Inference (s : cstate) (now : Z) : res cstate :=
  match s_selB s with
  | None => Ok s
  | Some (e, p) => infer_rounds fuel (next_pid s) e (proj1_sig p) now 0
  end.

(** *** Cycle.c 806-830 and NAR.c 44-53 *)
(** Cycle.c 819-825 *)
Definition goal_layer (cyc : cstate -> res cstate) (now : Z) (s : cstate) (layer : nat) : res cstate :=
  do s <- PopGoal s layer ; ProcessAndInferGoalEvents cyc s now layer.
Definition Cycle_Perform (cyc : cstate -> res cstate) (s : cstate) : res cstate :=
  let now := s_time s in
  do s <- ProcessBeliefEvents (PopBelief s) now ;
  do m <- Antic (s_mem s) 0 zero_term true now ;
  do s <- foldM (goal_layer cyc now) (seq 0 layers) (set_mem s m) ;
  do s <- Cycle_Inference s now ;
  Ok (set_mem s (RelativeForgetting (s_mem s) now)).
(** NAR.c 50-51: one cycle; [depth] is the nesting of cycles run for operation feedback that the
    call stack allows *)
Fixpoint one_cycle (depth : nat) (s : cstate) : res cstate :=
  match depth with
  | O => Abort
  | S depth => do s <- Cycle_Perform (one_cycle depth) s ; Ok (set_time s (s_time s + 1))
  end.
(** NAR.c 44-53 *)
Fixpoint Cycles (depth n : nat) (s : cstate) : res cstate :=
  match n with O => Ok s | S n => do s <- one_cycle depth s ; Cycles depth n s end.
(** NAR.c 55-66 *)
Definition NAR_AddInput (depth : nat) (s : cstate) (t : term) (ty : Z) (tv : truth f64A) (eternal : bool) (off : f64) : res cstate :=
  AddInput (one_cycle depth) s t ty tv eternal off.
(** a history of API calls: NAR_Cycles(n) and NAR_AddInput *)
Inductive call := CCycles (n : nat) | CInput (t : term) (ty : Z) (tv : truth f64A) (eternal : bool) (off : f64).
Definition do_call (depth : nat) (s : cstate) (c : call) : res cstate :=
  match c with
  | CCycles n => Cycles depth n s
  | CInput t ty tv eternal off => NAR_AddInput depth s t ty tv eternal off
  end.
Definition calls (depth : nat) (s : cstate) (l : list call) : res cstate := foldM (do_call depth) l s.
End Cycle.
(** NAR.c 32-42, Cycle.c 48-53: the state after NAR_INIT with freshly started globals *)
Definition cstate0 (m : memory) (rng : Z) : cstate :=
  mkCs m 1 rng (mkIds 1 stamp_zero) 0 0 0 None None f0 0 0 [].
