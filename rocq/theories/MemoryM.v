(** Model of /repo/src/Memory.c and /repo/src/Concept.h: concepts, the concept memory (queue, hash
    table, inverted atom index) and the attention queues of belief and goal events.
    Array sizes, fixed in Config.h, are parameters; printing (Memory.c 237-274) is left out, it
    does not change the state.  Concept pointers are slot numbers of [concept_storage]. *)
From Coq Require Import ZArith List Bool.
From Flocq Require Import IEEE754.BinarySingleNaN.
From Verif Require Import Base F64 TruthM StampM TermM NamesM EventM InferenceM TableM UsageM RingM StackM InvIndexM.
From Verif Require PQueueM HashTableM.
Local Open Scope Z_scope.

(** Concept.h 48-65 [Concept]: [c_pre] is the array precondition_beliefs of OPERATIONS_MAX+1
    tables; [c_pids] are processID, processID2, processID3. *)
Record concept := mkConcept {
  c_id : Z; c_usage : usage; c_term : term;
  c_belief : event; c_spike : event; c_predicted : event; c_goal : event;
  c_pre : list table; c_links : table; c_priority : f64; c_pids : Z * Z * Z; c_lastsel : Z }.
(** Config.h: OPERATIONS_MAX *)
Definition OPERATIONS_MAX : nat := 10.
(** [(Concept) {0}] *)
Definition concept0 : concept :=
  mkConcept 0 (mkUsage 0 0) zero_term event0 event0 event0 event0 (repeat table0 (S OPERATIONS_MAX)) table0 f0 (0, 0, 0) 0.
(** field assignments [c->f = x] *)
Definition with_usage (c : concept) (u : usage) : concept :=
  mkConcept (c_id c) u (c_term c) (c_belief c) (c_spike c) (c_predicted c) (c_goal c) (c_pre c) (c_links c) (c_priority c) (c_pids c) (c_lastsel c).
Definition with_belief (c : concept) (e : event) : concept :=
  mkConcept (c_id c) (c_usage c) (c_term c) e (c_spike c) (c_predicted c) (c_goal c) (c_pre c) (c_links c) (c_priority c) (c_pids c) (c_lastsel c).
Definition with_spike (c : concept) (e : event) : concept :=
  mkConcept (c_id c) (c_usage c) (c_term c) (c_belief c) e (c_predicted c) (c_goal c) (c_pre c) (c_links c) (c_priority c) (c_pids c) (c_lastsel c).
Definition with_predicted (c : concept) (e : event) : concept :=
  mkConcept (c_id c) (c_usage c) (c_term c) (c_belief c) (c_spike c) e (c_goal c) (c_pre c) (c_links c) (c_priority c) (c_pids c) (c_lastsel c).
Definition with_goal (c : concept) (e : event) : concept :=
  mkConcept (c_id c) (c_usage c) (c_term c) (c_belief c) (c_spike c) (c_predicted c) e (c_pre c) (c_links c) (c_priority c) (c_pids c) (c_lastsel c).
Definition with_pre (c : concept) (l : list table) : concept :=
  mkConcept (c_id c) (c_usage c) (c_term c) (c_belief c) (c_spike c) (c_predicted c) (c_goal c) l (c_links c) (c_priority c) (c_pids c) (c_lastsel c).
Definition with_links (c : concept) (t : table) : concept :=
  mkConcept (c_id c) (c_usage c) (c_term c) (c_belief c) (c_spike c) (c_predicted c) (c_goal c) (c_pre c) t (c_priority c) (c_pids c) (c_lastsel c).
Definition with_priority (c : concept) (p : f64) : concept :=
  mkConcept (c_id c) (c_usage c) (c_term c) (c_belief c) (c_spike c) (c_predicted c) (c_goal c) (c_pre c) (c_links c) p (c_pids c) (c_lastsel c).
Definition with_lastsel (c : concept) (t : Z) : concept :=
  mkConcept (c_id c) (c_usage c) (c_term c) (c_belief c) (c_spike c) (c_predicted c) (c_goal c) (c_pre c) (c_links c) (c_priority c) (c_pids c) t.
(** [e.creationTime = t] *)
Definition with_creation (e : event) (t : Z) : event :=
  mkEvent (e_term e) (e_type e) (e_truth e) (e_stamp e) (e_occ e) (e_offset e) (e_processed e) t (e_input e).

(** Memory.h 60-66 [Operation]: [op_action] identifies the C function pointer, 0 is NULL *)
Record operation := mkOp { op_term : term; op_action : Z; op_args : list term; op_stdout : bool }.
(** [(Operation) {0}]; OPERATIONS_BABBLE_ARGS_MAX = 10 *)
Definition op0 : operation := mkOp zero_term 0 (repeat zero_term 10) false.

(** a priority queue whose item addresses are slots of an event array
    (cycling_belief_events with its storage, one cycling_goal_events layer with its storage) *)
Record equeue := mkEq { eq_q : PQueueM.pq num64; eq_store : list event }.
(** the queued events *)
Definition queued (q : equeue) : list event := map (fun it => nth (PQueueM.address it) (eq_store q) event0) (PQueueM.contents (eq_q q)).

(** the globals of Memory.c 28-48, 84-86 *)
Record memory := mkMem {
  m_concepts : PQueueM.pq num64; m_store : list concept; m_table : HashTableM.htable term nat; m_index : iidx;
  m_nextid : Z; m_ring : ring nat; m_beliefs : equeue; m_goals : list equeue; m_ops : list operation;
  m_restricted : bool }.

Definition num1 : num64 := exist _ f1 eq_refl.
(** a double as a queue priority; NaN (which no caller passes, see C54) is mapped to 0 *)
Definition num_of (x : f64) : num64 :=
  match bool_dec (is_nan x) false with left H => exist _ x H | right _ => num0 end.

Section Memory.
Variable nm : names.
(** pow(TRUTH_PROJECTION_DECAY, d), and 1.0 / log2(1.0 + complexity) of Memory.c 399 *)
Variable powdecay : Z -> f64.
Variable penalty : nat -> f64.
(** CONCEPTS_MAX, CONCEPTS_HASHTABLE_BUCKETS, ATOMS_MAX, CYCLING_BELIEF_EVENTS_MAX,
    CYCLING_GOAL_EVENTS_MAX, CYCLING_GOAL_EVENTS_LAYERS (Config.h) *)
Variables cmax buckets atoms bmax gmax layers : nat.

(** Memory.c 53-82: a queue over a fresh item array whose addresses are the slots in order *)
Definition fresh_items (n : nat) : list (PQueueM.item num64) := map (PQueueM.mkItem num0) (seq 0 n).
Definition fresh_events (n : nat) : equeue := mkEq (PQueueM.pq_init (fresh_items n) n) (repeat event0 n).
(** Memory.c 88-102; the chain pool of the index has UNIFICATION_DEPTH*CONCEPTS_MAX elements *)
Definition Memory_INIT : res memory :=
  do h <- HashTableM.HashTable_INIT buckets cmax ;
  do x <- InvertedAtomIndex_INIT atoms (31 * cmax) ;
  Ok (mkMem (PQueueM.pq_init (fresh_items cmax) cmax) (repeat concept0 cmax) h x 0 ring0
        (fresh_events bmax) (repeat (fresh_events gmax) layers) (repeat op0 OPERATIONS_MAX) false).

(** reading and writing [*c] *)
Definition cread (m : memory) (c : nat) : res concept :=
  match nth_error (m_store m) c with Some k => Ok k | None => UB end.
Definition set_store (m : memory) (st : list concept) : memory :=
  mkMem (m_concepts m) st (m_table m) (m_index m) (m_nextid m) (m_ring m) (m_beliefs m) (m_goals m) (m_ops m) (m_restricted m).
Definition cmod (m : memory) (c : nat) (f : concept -> concept) : res memory :=
  do k <- cread m c ; Ok (set_store m (upd (m_store m) c (f k))).

(** Memory.c 104-107 *)
Definition FindConceptByTerm (m : memory) (t : term) : res (option nat) :=
  HashTableM.HashTable_Get term_eqb atoms_hash (m_table m) t.

(** Memory.c 109-149.  The hash table keeps a pointer to the concept's own term as key; the entry
    is deleted before that term is overwritten, so the key by value is the same (see C34: keys are
    the stored concepts' terms). *)
Definition Conceptualize (m : memory) (t : term) (now : Z) : res (memory * option nat) :=
  do found <- FindConceptByTerm m t ;
  match found with
  | Some c => Ok (m, Some c)
  | None =>
    let '(q, fb) := PQueueM.push num_ltb num0 (m_concepts m) num1 in
    match PQueueM.added fb with
    | None => Ok (m, None)
    | Some it =>
      let c := PQueueM.address it in
      do old <- cread m c ;
      do hx <- (match PQueueM.evicted fb with
                | Some _ =>
                  do h <- HashTableM.HashTable_Delete term_eqb atoms_hash (m_table m) (c_term old) ;
                  do x <- InvertedAtomIndex_RemoveConcept (IsSimpleAtom nm) (m_index m) (c_term old) c ;
                  Ok (h, x)
                | None => Ok (m_table m, m_index m)
                end) ;
      do x <- InvertedAtomIndex_AddConcept (IsSimpleAtom nm) (snd hx) t c ;
      let new := mkConcept (m_nextid m) (mkUsage 1 now) t event0 event0 event0 event0
                   (repeat table0 (S OPERATIONS_MAX)) table0 f0 (0, 0, 0) 0 in
      do h <- HashTableM.HashTable_Set term_eqb atoms_hash (fst hx) t c ;
      Ok (mkMem q (upd (m_store m) c new) h x (m_nextid m + 1) (m_ring m) (m_beliefs m) (m_goals m) (m_ops m) (m_restricted m), Some c)
    end
  end.

(** Event pointers passed to the functions below point to a local copy, or to the belief of a
    concept (Memory.c 381), which later writes to that concept may change. *)
Inductive evref := EVal (e : event) | EBelief (c : nat).
Definition ev (m : memory) (r : evref) : res event :=
  match r with EVal e => Ok e | EBelief c => do k <- cread m c ; Ok (c_belief k) end.

(** Memory.c 158-168 *)
Definition containsEvent (q : equeue) (e : event) : bool := existsb (Event_Equal e) (queued q).
(** Memory.c 170-199 *)
Definition containsBeliefOrGoal (m : memory) (e : event) : res bool :=
  do found <- FindConceptByTerm m (e_term e) ;
  match found with
  | None => Ok false
  | Some c =>
    do k <- cread m c ;
    Ok (if e_type e =? EVENT_TYPE_BELIEF then
          if e_occ e =? OCCURRENCE_ETERNAL then
            negb (e_type (c_belief k) =? EVENT_TYPE_DELETED) && Event_Equal e (c_belief k)
          else negb (e_type (c_spike k) =? EVENT_TYPE_DELETED) && Event_EqualTermEqualStampLessConfidentThan e (c_spike k)
        else (e_type e =? EVENT_TYPE_GOAL) && negb (e_type (c_goal k) =? EVENT_TYPE_DELETED) && Event_Equal (c_goal k) e)
  end.

(** PriorityQueue_Push on an event queue followed by [*toRecycle = *e] (Memory.c 227-233): new
    queue and whether the event was added.  A NaN priority would break the queue order and is
    outside the model. *)
Definition epush (q : equeue) (e : event) (priority : f64) : res (equeue * bool) :=
  if is_nan priority then UB else
  let '(pq, fb) := PQueueM.push num_ltb num0 (eq_q q) (num_of priority) in
  Ok (match PQueueM.added fb with
      | Some it => (mkEq pq (upd (eq_store q) (PQueueM.address it) e), true)
      | None => (mkEq pq (eq_store q), false)
      end).
Definition set_beliefs (m : memory) (q : equeue) : memory :=
  mkMem (m_concepts m) (m_store m) (m_table m) (m_index m) (m_nextid m) (m_ring m) q (m_goals m) (m_ops m) (m_restricted m).
Definition set_goals (m : memory) (g : list equeue) : memory :=
  mkMem (m_concepts m) (m_store m) (m_table m) (m_index m) (m_nextid m) (m_ring m) (m_beliefs m) g (m_ops m) (m_restricted m).
(** Memory.c 203-235 *)
Definition addCyclingEvent (m : memory) (r : evref) (priority : f64) (layer : nat) : res (memory * bool) :=
  do e <- ev m r ;
  do _ <- rassert ((e_type e =? EVENT_TYPE_BELIEF) || (e_type e =? EVENT_TYPE_GOAL)) ;
  do known <- (if (e_type e =? EVENT_TYPE_BELIEF) && containsEvent (m_beliefs m) e then Ok true else containsBeliefOrGoal m e) ;
  if known then Ok (m, false) else
  if (e_type e =? EVENT_TYPE_GOAL) && existsb (fun q => containsEvent q e) (m_goals m) then Ok (m, false) else
  do found <- FindConceptByTerm m (e_term e) ;
  do better <- (match found with
                | None => Ok false
                | Some c => do k <- cread m c ;
                    Ok ((e_type e =? EVENT_TYPE_BELIEF) && negb (e_type (c_belief k) =? EVENT_TYPE_DELETED)
                        && (e_occ e =? OCCURRENCE_ETERNAL)
                        && fltb (confidence (e_truth e)) (confidence (e_truth (c_belief k))))
                end) ;
  if better then Ok (m, false) else
  if e_type e =? EVENT_TYPE_BELIEF then
    do qb <- epush (m_beliefs m) e priority ;
    Ok (set_beliefs m (fst qb), snd qb)
  else
    let l := Nat.min (layers - 1) (layer + 1) in
    match nth_error (m_goals m) l with
    | None => UB
    | Some q => do qb <- epush q e priority ; Ok (set_goals m (upd (m_goals m) l (fst qb)), snd qb)
    end.

(** Memory.c 443-457: 1-based index of the operation, 0 if there is none *)
Fixpoint find_op (k : nat) (a : Z) (ops : list operation) : nat :=
  match ops with [] => O | o :: ops => if at_ (op_term o) 0 =? a then k else find_op (S k) a ops end.
Definition getOperationID (m : memory) (t : term) : nat :=
  let a := getOperationAtom nm t in if a =? 0 then O else find_op 1 a (m_ops m).

(** Memory.c 289-316: the operation index and the term of the source concept, None for the
    [return] (operation of another agent) *)
Definition source_of (m : memory) (copula : Z) (subject : term) : option (nat * term) :=
  if copulaEquals nm copula TEMPORAL_IMPLICATION && copulaEquals nm (at_ subject 0) SEQUENCE then
    let op := Term_ExtractSubterm subject 2 in
    if isOperation nm op then
      if negb (isExecutableOperation nm op) then None
      else Some (getOperationID m op, GetPreconditionWithoutOp nm subject)
    else Some (O, subject)
  else Some (O, subject).

(** Memory.c 317-336: put the link into the table of the target concept *)
Definition add_link (m : memory) (target : nat) (isImplication : bool) (opi : nat) (imp : implication) : res memory :=
  do k <- cread m target ;
  if isImplication then
    do r <- Table_AddAndRevise (c_links k) imp ; cmod m target (fun k => with_links k (fst r))
  else
    match nth_error (c_pre k) opi with
    | None => UB
    | Some t => do r <- Table_AddAndRevise t imp ; cmod m target (fun k => with_pre k (upd (c_pre k) opi (fst r)))
    end.
(** Memory.c 280-337; the flag tells whether the whole function returns here *)
Definition ProcessImplication (m : memory) (r : evref) (now : Z) (eternal : event) (eternalInput : bool) : res (memory * bool) :=
  do e <- ev m r ;
  let subject := Term_ExtractSubterm (e_term e) 1 in
  let predicate := Term_ExtractSubterm (e_term e) 2 in
  do (m, target) <- Conceptualize m predicate now ;
  match target with
  | None => Ok (m, false)
  | Some target =>
    do m <- cmod m target (fun k => with_usage k (Usage_use (c_usage k) now eternalInput)) ;
    do e1 <- ev m r ;
    match source_of m (at_ (e_term e1) 0) subject with
    | None => Ok (m, true)
    | Some (opi, sourceTerm) =>
      do (m, source) <- Conceptualize m sourceTerm now ;
      match source with
      | None => Ok (m, false)
      | Some source =>
        do m <- cmod m source (fun k => with_usage k (Usage_use (c_usage k) now eternalInput)) ;
        do k <- cread m source ;
        do e2 <- ev m r ;
        let imp := mkImp (e_term e2) (e_truth eternal) (e_stamp eternal) (e_offset e1) (Some source) (c_id k) now in
        do m <- add_link m target (copulaEquals nm (at_ (e_term e2) 0) IMPLICATION) opi imp ;
        Ok (m, false)
      end
    end
  end.
Definition set_ring (m : memory) (f : ring nat) : memory :=
  mkMem (m_concepts m) (m_store m) (m_table m) (m_index m) (m_nextid m) f (m_beliefs m) (m_goals m) (m_ops m) (m_restricted m).
(** Memory.c 338-387, SEMANTIC_INFERENCE_NAL_LEVEL > 0, ALLOW_NOT_SELECTED_PRECONDITIONS_CONDITIONING
    and PRINT_SURPRISE false.  [rec] is Memory_AddEvent on the belief of the given concept. *)
Definition ProcessConcept (rec : memory -> nat -> f64 -> res memory) (m : memory) (r : evref) (now : Z)
    (eternal : event) (eternalInput : bool) (priority : f64) : res memory :=
  do e <- ev m r ;
  do (m, c) <- Conceptualize m (e_term e) now ;
  match c with
  | None => Ok m
  | Some c =>
    do e <- ev m r ;
    let continuous := copulaEquals nm (at_ (e_term e) 0) HAS_CONTINUOUS_PROPERTY && negb (copulaEquals nm (at_ (e_term e) 1) PRODUCT) in
    do m <- (if negb (e_occ e =? OCCURRENCE_ETERNAL) && negb continuous
             then do f <- OccurrenceTimeIndex_Add c (m_ring m) ; Ok (set_ring m f) else Ok m) ;
    do m <- cmod m c (fun k => with_usage k (Usage_use (c_usage k) now eternalInput)) ;
    do m <- cmod m c (fun k => with_priority k (fmax (c_priority k) priority)) ;
    do m <- (if negb (e_occ e =? OCCURRENCE_ETERNAL) && (e_occ e <=? now) then
               do k <- cread m c ;
               do rv <- RevisionAndChoice nm powdecay (c_spike k) e ;
               cmod m c (fun k => with_spike k (with_creation (fst rv) now))
             else Ok m) ;
    do m <- (if negb (e_occ e =? OCCURRENCE_ETERNAL) && (now <? e_occ e) then
               do k <- cread m c ;
               do rv <- RevisionAndChoice nm powdecay (c_predicted k) e ;
               cmod m c (fun k => with_predicted k (with_creation (fst rv) now))
             else Ok m) ;
    do k <- cread m c ;
    do rv <- RevisionAndChoice nm powdecay (c_belief k) eternal ;
    do m <- cmod m c (fun k => with_belief k (with_creation (fst rv) now)) ;
    if snd rv then rec m c priority else Ok m
  end.
(** Memory.c 276-388 *)
Definition ProcessNewBeliefEvent (rec : memory -> nat -> f64 -> res memory) (m : memory) (r : evref) (now : Z)
    (priority : f64) (input : bool) : res memory :=
  do e <- ev m r ;
  let eternalInput := input && (e_occ e =? OCCURRENCE_ETERNAL) in
  let eternal := Event_Eternalized e in
  do (m, returned) <- (if copulaEquals nm (at_ (e_term e) 0) TEMPORAL_IMPLICATION || copulaEquals nm (at_ (e_term e) 0) IMPLICATION
                       then ProcessImplication m r now eternal eternalInput else Ok (m, false)) ;
  if returned then Ok m else
  do e <- ev m r ;
  if negb (copulaEquals nm (at_ (e_term e) 0) TEMPORAL_IMPLICATION)
  then ProcessConcept rec m r now eternal eternalInput priority else Ok m.

(** Memory.c 408: beliefs of the form |-> about an = or + of sensor values are not queued *)
Definition sensor_comparison (t : term) : bool :=
  copulaEquals nm (at_ t 0) HAS_CONTINUOUS_PROPERTY
  && (copulaEquals nm (at_ t 2) SIMILARITY || copulaEquals nm (at_ t 2) SEQUENCE).
(** Memory.c 390-431.  [fuel] is the call stack available for the recursion through
    Memory_ProcessNewBeliefEvent; when it is exhausted the process is killed (Abort). *)
Fixpoint AddEvent (fuel : nat) (m : memory) (r : evref) (now : Z) (priority : f64) (input revised : bool) (layer : nat) : res memory :=
  match fuel with
  | O => Abort
  | S fuel =>
    do e <- ev m r ;
    do unknown <- (if m_restricted m && negb input && negb (copulaEquals nm (at_ (e_term e) 0) TEMPORAL_IMPLICATION)
                   then do f <- FindConceptByTerm m (e_term e) ; Ok (match f with None => true | Some _ => false end)
                   else Ok false) ;
    if unknown then Ok m else
    let priority := if negb revised && negb input then fmul priority (penalty (Term_Complexity (e_term e))) else priority in
    if fltb (confidence (e_truth e)) (MIN_CONFIDENCE f64A) || fleb priority f0 then Ok m else
    do m <- (if e_type e =? EVENT_TYPE_BELIEF then
               do m <- (if negb (copulaEquals nm (at_ (e_term e) 0) TEMPORAL_IMPLICATION) && negb (sensor_comparison (e_term e))
                        then do mb <- addCyclingEvent m r priority layer ; Ok (fst mb) else Ok m) ;
               ProcessNewBeliefEvent (fun m c p => AddEvent fuel m (EBelief c) now p false true 0) m r now priority input
             else Ok m) ;
    do e <- ev m r ;
    do m <- (if e_type e =? EVENT_TYPE_GOAL then
               do mb <- addCyclingEvent m r priority layer ;
               do _ <- rassert (negb (e_occ e =? OCCURRENCE_ETERNAL)) ; Ok (fst mb)
             else Ok m) ;
    do _ <- rassert ((e_type e =? EVENT_TYPE_BELIEF) || (e_type e =? EVENT_TYPE_GOAL)) ;
    Ok m
  end.
(** Memory.c 433-436 *)
Definition AddInputEvent (fuel : nat) (m : memory) (e : event) (now : Z) : res memory := AddEvent fuel m (EVal e) now f1 true false 0.
(** Memory.c 438-441 *)
Definition ImplicationValid (m : memory) (i : implication) : res bool :=
  match i_source i with None => UB | Some c => do k <- cread m c ; Ok (i_sourceId i =? c_id k) end.
(** Memory.c 459-479 *)
Fixpoint link_loop (pre post : term) (l : list implication) : res (truth f64A) :=
  match l with
  | [] => Ok truth0
  | i :: l =>
    do _ <- rassert (term_eqb (Term_ExtractSubterm (i_term i) 2) post) ;
    if term_eqb (Term_ExtractSubterm (i_term i) 1) pre then Ok (i_truth i) else link_loop pre post l
  end.
Definition getTemporalLinkTruth (m : memory) (pre post : term) : res (truth f64A) :=
  do f <- FindConceptByTerm m post ;
  match f with
  | None => Ok truth0
  | Some c => do k <- cread m c ;
      match nth_error (c_pre k) 0 with
      | None => UB
      | Some t => link_loop pre post (firstn (t_items t) (t_array t))
      end
  end.

(** Cycle.c 133-151 [Cycle_PopEvents] with cnt = 1 (BELIEF/GOAL_EVENT_SELECTIONS): the event of
    highest priority is removed from the queue and copied out with its priority. *)
Definition PopEvent (q : equeue) : equeue * option (event * num64) :=
  match PQueueM.pop_max num_ltb num0 (eq_q q) with
  | None => (q, None)
  | Some (q', it) => (mkEq q' (eq_store q), Some (nth (PQueueM.address it) (eq_store q) event0, PQueueM.priority it))
  end.
(** EVENT_DURABILITY 0.9999, CONCEPT_DURABILITY 0.9 (Config.h) *)
Definition EVENT_DURABILITY : f64 := fdec 9999 10000.
Definition CONCEPT_DURABILITY : f64 := fdec 9 10.
Definition decay_events (q : equeue) : equeue :=
  mkEq (PQueueM.rebuild num_ltb num0
         (PQueueM.reprioritize (fun it => num_of (fmul (proj1_sig (PQueueM.priority it)) EVENT_DURABILITY)) (eq_q q))) (eq_store q).
(** Cycle.c 776-804 *)
Definition RelativeForgetting (m : memory) (now : Z) : memory :=
  let used := map PQueueM.address (PQueueM.contents (m_concepts m)) in
  let st := fold_left (fun st c => match nth_error st c with
                                   | Some k => upd st c (with_priority k (fmul (c_priority k) CONCEPT_DURABILITY))
                                   | None => st end) used (m_store m) in
  let q := PQueueM.rebuild num_ltb num0
             (PQueueM.reprioritize (fun it => num_of (Usage_usefulness (c_usage (nth (PQueueM.address it) st concept0)) now)) (m_concepts m)) in
  mkMem q st (m_table m) (m_index m) (m_nextid m) (m_ring m) (decay_events (m_beliefs m)) (map decay_events (m_goals m))
    (m_ops m) (m_restricted m).
(** Cycle.c 288-292: all goal queues are emptied after an execution *)
Definition ResetGoals (m : memory) : memory :=
  set_goals m (map (fun q => mkEq (PQueueM.pq_init (PQueueM.items (eq_q q)) (PQueueM.maxElements (eq_q q))) (eq_store q)) (m_goals m)).
End Memory.
