(** Model of /repo/src/Decision.c (without Decision_Execute): choice of operations by goals,
    motor babbling, and anticipation.  Printing is left out except where it dereferences a
    pointer.  The random number generator state is passed and returned. *)
From Coq Require Import ZArith List Bool.
From Flocq Require Import IEEE754.BinarySingleNaN.
From Verif Require Import Base F64 TruthM StampM HashM TermM NamesM EventM InferenceM TableM UsageM VariableM MemoryM QuestionM.
From Verif Require PQueueM.
Local Open Scope Z_scope.
Import ListNotations.

(** Decision.h 69-82 with MAX_COMPOUND_OP_LEN = 1; [op] is written and read by Decision_Execute
    only.  [d_reason] is the concept whose belief_spike the pointer [reason] points to. *)
Record decision := mkD {
  d_desire : f64; d_execute : bool; d_opterm : term; d_opid : nat; d_args : term;
  d_missing : implication; d_specific : implication; d_used : implication; d_reason : option nat; d_table : nat }.
(** [(Decision) {0}] *)
Definition decision0 : decision := mkD f0 false zero_term 0 zero_term imp0 imp0 imp0 None 0.
(** Config.h *)
Definition SUPPRESSION : f64 := @aconst f64A 55 100.
Definition SUBSUMPTION_CONFIDENCE : f64 := @aconst f64A 5 100.
Definition SUBSUMPTION_FREQUENCY : f64 := @aconst f64A 5 10.
Definition NEG_GOAL_AGE_MAX : Z := 20.
Definition EVENT_BELIEF_DISTANCE : Z := 20.

(** number of operations before the first empty one: the loops of Decision.c 276, 423 *)
Fixpoint op_run (ops : list operation) : nat :=
  match ops with [] => O | o :: ops => if at_ (op_term o) 0 =? 0 then O else S (op_run ops) end.
(** number of terms before the first empty one (Decision.c 290-294) *)
Fixpoint term_run (l : list term) : nat :=
  match l with [] => O | t :: l => if at_ t 0 =? 0 then O else S (term_run l) end.
(** precondition_beliefs[i] *)
Definition pre_at (k : concept) (i : nat) : res table :=
  match nth_error (c_pre k) i with Some t => Ok t | None => UB end.
(** left folds and searches that may fail *)
Fixpoint foldM {A B} (f : B -> A -> res B) (l : list A) (b : B) : res B :=
  match l with [] => Ok b | a :: l => do b <- f b a ; foldM f l b end.
Fixpoint existsM {A} (f : A -> res bool) (l : list A) : res bool :=
  match l with [] => Ok false | a :: l => do x <- f a ; if x then Ok true else existsM f l end.

Section Decision.
Variable nm : names.
Variable av : Z -> option (f64 * name).
Variable simdist : f64.
Variable powdecay : Z -> f64.
(** DECISION_THRESHOLD, ANTICIPATION_THRESHOLD, ANTICIPATION_CONFIDENCE, MOTOR_BABBLING_CHANCE,
    BABBLING_OPS *)
Variables threshold anticipation_threshold anticipation_confidence chance : f64.
Variable babbling_ops : Z.
Notation expectation v := (Truth_Expectation f64A v).
Notation present e := (negb (e_type e =? EVENT_TYPE_DELETED)).

(** Decision.c 295-304: ({SELF} * arg) *)
Definition babble_args (arg : term) : term :=
  let t := upd (upd zero_term 0 (copula_index PRODUCT)) 1 (copula_index EXT_SET) in
  let t := snd (Term_OverrideSubterm t 2 arg) in
  upd (upd t 3 SELF) 4 (copula_index SET_TERMINATOR).
(** Decision.c 272-307; MIN(a,b) is (a < b ? a : b), % is the C remainder (undefined for 0) *)
Definition MotorBabbling (ops : list operation) (rs : Z) : res (Z * decision) :=
  let n_ops := Z.of_nat (op_run ops) in
  if 0 <? n_ops then
    let (rs, r) := myrand rs in
    let d := if babbling_ops <? n_ops then babbling_ops else n_ops in
    if d =? 0 then UB else
    let id := 1 + Z.rem r d in
    if id - 1 <? 0 then UB else
    match nth_error ops (Z.to_nat (id - 1)) with
    | None => UB
    | Some o =>
      if negb (at_ (nth 0 (op_args o) zero_term) 0 =? 0) then
        let (rs, r) := myrand rs in
        let arg := nth (Z.to_nat (Z.rem r (Z.of_nat (term_run (op_args o))))) (op_args o) zero_term in
        Ok (rs, mkD f1 true zero_term (Z.to_nat id) (babble_args arg) imp0 imp0 imp0 None 0)
      else Ok (rs, mkD f1 true zero_term (Z.to_nat id) zero_term imp0 imp0 imp0 None 0)
    end
  else Ok (rs, decision0).

(** Decision.c 319-334: one implication [imp] towards the goal of concept [k] *)
Definition negative_outcome (m : memory) (now : Z) (opTerm : term) (k : concept) (acc : event) (imp : implication) : res event :=
  do prec <- (match i_source imp with Some s => cread m s | None => UB end) ;
  if present (c_spike prec) && (now - e_occ (c_spike prec) <? EVENT_BELIEF_DISTANCE) then
    let (ok, opTerm2) := OperationSequenceAppendLeftNested nm zero_term (Term_ExtractSubterm (i_term imp) 1) in
    do _ <- rassert ok ;
    if term_eqb opTerm opTerm2 then
      do ctx <- GoalDeduction nm (c_goal k) imp now ;
      do r <- RevisionAndChoice nm powdecay acc (GoalSequenceDeduction powdecay ctx (c_spike prec) now) ;
      Ok (fst r)
    else Ok acc
  else Ok acc.
(** Decision.c 309-344 *)
Definition ConsiderNegativeOutcomes (m : memory) (now : Z) (d : decision) : res decision :=
  do out <- foldM (fun acc ck =>
      let k := snd ck in
      if present (c_goal k) && (now - e_occ (c_goal k) <? NEG_GOAL_AGE_MAX) then
        do t <- pre_at k (d_opid d) ;
        foldM (negative_outcome m now (d_opterm d) k) (items t) acc
      else Ok acc) (visited m) event0 ;
  Ok (if fltb (expectation (e_truth out)) (@aconst f64A 5 10) then decision0 else d).

(** Decision.c 382-409: operation id and arguments of the sequence [seq]; None for the [return]
    of the zero decision.  With MAX_COMPOUND_OP_LEN = 1 a second operation is an assertion
    failure. *)
Definition extract_operation (m : memory) (seq : term) : res (option (nat * term)) :=
  let op_at seq := copulaEquals nm (at_ seq 0) SEQUENCE && isOperation nm (Term_ExtractSubterm seq 2) in
  if op_at seq then
    let op := Term_ExtractSubterm seq 2 in
    do args <- (if isOperator nm (at_ op 0) then Ok (Some zero_term) else
                do _ <- rassert (isOperator nm (at_ op 2)) ;
                let args := Term_ExtractSubterm op 1 in
                Ok (if at_ args 3 =? SELF then Some args else None)) ;
    match args with
    | None => Ok None
    | Some args => do _ <- rassert (negb (op_at (Term_ExtractSubterm seq 1))) ; Ok (Some (getOperationID nm m op, args))
    end
  else Ok (Some (O, zero_term)).
(** Decision.c 346-412 *)
Definition ConsiderImplication (m : memory) (now : Z) (goal : event) (imp : implication) (preconTruth : truth f64A) : res decision :=
  match i_source imp with
  | None => UB
  | Some s =>
    do prec <- cread m s ;
    do ctx <- GoalDeduction nm goal imp now ;
    let subject := Term_ExtractSubterm (i_term imp) 1 in
    let (ok, opterm) := OperationSequenceAppendLeftNested nm zero_term subject in
    do _ <- rassert ok ;
    let e := c_spike prec in
    let copy := mkEvent (e_term e) (e_type e) preconTruth (e_stamp e) (e_occ e) (e_offset e) (e_processed e) (e_creation e) (e_input e) in
    let desire := expectation (e_truth (GoalSequenceDeduction powdecay ctx copy now)) in
    do op <- extract_operation m subject ;
    match op with
    | None => Ok decision0
    | Some (id, args) => ConsiderNegativeOutcomes m now (mkD desire false opterm id args imp0 imp0 imp0 (Some s) 0)
    end
  end.

(** Decision.c 449-471: another link of the goal concept fits the event better *)
Definition closer_link (m : memory) (gc : concept) (cm : concept) (subs2 : substitution) : res bool :=
  existsM (fun opk => do t <- pre_at gc opk ;
      existsM (fun impk =>
        let left := GetPreconditionWithoutOp nm (Term_ExtractSubterm (i_term impk) 1) in
        do s3 <- UnifyWithAnalogy nm av simdist (e_truth (c_spike cm)) left (c_term cm) ;
        Ok (s_success s3 && fltb (confidence (s_truth subs2)) (confidence (s_truth s3)))) (items t))
    (seq 1 (op_run (m_ops m))).
(** Decision.c 486-505: whether the specific implication is known, and is known to fail *)
Definition known_inhibited (m : memory) (opi : nat) (t : term) : res (bool * bool) :=
  do related <- FindConceptByTerm m (Term_ExtractSubterm t 2) ;
  match related with
  | None => Ok (false, false)
  | Some r =>
    do k <- cread m r ;
    do tb <- pre_at k opi ;
    let same := filter (fun i => term_eqb t (i_term i)) (items tb) in
    Ok (match same with [] => false | _ => true end,
        existsb (fun i => fltb SUBSUMPTION_CONFIDENCE (confidence (i_truth i)) && fltb (frequency (i_truth i)) SUBSUMPTION_FREQUENCY) same)
  end.
Definition with_missing (d : decision) (i : implication) : decision :=
  mkD (d_desire d) (d_execute d) (d_opterm d) (d_opid d) (d_args d) i (d_specific d) (d_used d) (d_reason d) (d_table d).
Definition with_choice (d : decision) (used specific : implication) (opi : nat) : decision :=
  mkD (d_desire d) (d_execute d) (d_opterm d) (d_opid d) (d_args d) (d_missing d) specific used (d_reason d) opi.
Definition with_execute (d : decision) : decision :=
  mkD (d_desire d) true (d_opterm d) (d_opid d) (d_args d) (d_missing d) (d_specific d) (d_used d) (d_reason d) (d_table d).
(** Decision.c 511, 528 *)
Definition improves (considered : decision) (complexity : nat) (best : decision * nat) : bool :=
  fltb (d_desire (fst best)) (d_desire considered)
  || (feqb (d_desire considered) (d_desire (fst best)) && (complexity <? snd best)%nat).
(** Decision.c 440-539: the concept [cm] in slot [c] as context for the implication [imp] (the
    goal's substitution applied) stored as [used]; [best] is the best decision so far with its
    complexity *)
Definition try_context (m : memory) (now : Z) (goal : event) (gc : concept) (generic : bool) (opi : nat)
    (used : implication) (impt : term) (best : decision * nat) (ck : nat * concept) : res (decision * nat) :=
  let (c, cm) := ck in
  if hasVariable nm (c_term cm) true true true || negb (present (c_spike cm)) then Ok best else
  let left := GetPreconditionWithoutOp nm (Term_ExtractSubterm impt 1) in
  do s2 <- UnifyWithAnalogy nm av simdist (e_truth (c_spike cm)) left (c_term cm) ;
  if negb (s_success s2) then Ok best else
  let perfect := feqb (confidence (s_truth s2)) (confidence (e_truth (c_spike cm))) in
  do closer <- (if perfect then Ok false else closer_link m gc cm s2) ;
  if closer then Ok best else
  do (t, ok) <- ApplySubstitute nm impt s2 ;
  if negb (ok && (negb generic || negb (hasVariable nm t true false false))) then Ok best else
  let specific := mkImp t (i_truth used) (i_stamp used) (i_offset used) (Some c) (c_id cm) (i_creation used) in
  do considered <- ConsiderImplication m now goal specific (s_truth s2) ;
  let complexity := Term_Complexity t in
  if hasVariable nm (i_term used) true true true then
    do (known, inhibited) <- known_inhibited m opi t ;
    let considered := if negb known || negb perfect then with_missing considered specific else considered in
    Ok (if negb inhibited && improves considered complexity best
        then (with_choice considered used specific opi, complexity) else best)
  else
    let considered := if negb perfect then with_missing considered specific else considered in
    Ok (if improves considered complexity best then (with_choice considered used specific opi, complexity) else best).
(** Decision.c 425-541: the entries of table [opi] of the goal concept from index [j] on; invalid
    ones are removed.  [n]: entries left. *)
Fixpoint try_entries (n : nat) (m : memory) (now : Z) (goal : event) (g : nat) (generic : bool) (subs : substitution)
    (opi j : nat) (best : decision * nat) : res (memory * (decision * nat)) :=
  match n with
  | O => Ok (m, best)
  | S n =>
    do gc <- cread m g ;
    do t <- pre_at gc opi ;
    if (j <? t_items t)%nat then
      let used := slot t j in
      do valid <- ImplicationValid m used ;
      if negb valid then
        do m <- cmod m g (fun k => with_pre k (upd (c_pre k) opi (Table_Remove t j))) ;
        try_entries n m now goal g generic subs opi j best
      else
        do (impt, ok) <- ApplySubstitute nm (i_term used) subs ;
        if negb ok then try_entries n m now goal g generic subs opi (j + 1) best else
        do _ <- rassert (copulaEquals nm (at_ impt 0) TEMPORAL_IMPLICATION) ;
        do best <- foldM (try_context m now goal gc generic opi used impt) (visited m) best ;
        try_entries n m now goal g generic subs opi (j + 1) best
    else Ok (m, best)
  end.
(** Decision.c 423: the tables [opis] *)
Fixpoint try_tables (opis : list nat) (m : memory) (now : Z) (goal : event) (g : nat) (generic : bool) (subs : substitution)
    (best : decision * nat) : res (memory * (decision * nat)) :=
  match opis with
  | [] => Ok (m, best)
  | opi :: opis =>
    do gc <- cread m g ;
    do t <- pre_at gc opi ;
    do (m, best) <- try_entries (t_items t) m now goal g generic subs opi 0 best ;
    try_tables opis m now goal g generic subs best
  end.
(** Decision.c 414-554 for the goal concept in slot [g]; bestComplexity starts at
    COMPOUND_TERM_SIZE_MAX+1.  The report (lines 548-551) dereferences [decision.reason]. *)
Definition BestCandidate (m : memory) (g : nat) (goal : event) (now : Z) : res (memory * decision) :=
  do gc <- cread m g ;
  let generic := hasVariable nm (c_term gc) true true true && hasVariable nm (e_term goal) true true true in
  do subs <- Unify nm av simdist (c_term gc) (e_term goal) ;
  do (m, best) <- (if s_success subs
                   then try_tables (seq 1 (op_run (m_ops m))) m now goal g generic subs (decision0, S SIZE)
                   else Ok (m, (decision0, S SIZE))) ;
  let d := fst best in
  if fltb (d_desire d) threshold then Ok (m, decision0) else
  match d_reason d with None => UB | Some _ => Ok (m, with_execute d) end.
(** Decision.c 683-698; MY_RAND_MAX = 32767; the conversion to int is undefined out of range *)
Definition Suggest (m : memory) (g : nat) (goal : event) (now : Z) (rs : Z) : res (Z * memory * decision) :=
  let (rs, r) := myrand rs in
  let x := fmul chance (fofZ 32767) in
  if negb (is_finite x) || negb ((- 2 ^ 31 <=? Btrunc x) && (Btrunc x <? 2 ^ 31)) then UB else
  do (rs, babble) <- (if r <? Btrunc x then MotorBabbling (m_ops m) rs else Ok (rs, decision0)) ;
  do (m, suggested) <- BestCandidate m g goal now ;
  Ok (rs, m, if negb (d_execute babble) || fltb SUPPRESSION (d_desire suggested) then suggested else babble).
(** Decision.c 700-707 *)
Definition BetterDecision (best d : decision) : decision :=
  if d_execute d && fleb (d_desire best) (d_desire d) then d else best.

(** Decision.c 34-49: the table and the added entry; round() is to nearest, ties away from zero *)
Definition negative_confirmation (precondition : event) (imp : implication) : implication :=
  let past := Truth_Projection f64A powdecay (e_truth precondition) 0
                (Btrunc (@Bnearbyint 53 1024 prec_lt_emax_53 mode_NA (i_offset imp))) in
  mkImp (i_term imp) (Truth_Eternalize f64A (Truth_Induction f64A (@mkTruth f64A f0 anticipation_confidence) past))
    stamp_zero (i_offset imp) (i_source imp) (i_sourceId imp) (i_creation imp).
Definition set_slot (t : table) (i : nat) (x : implication) : table := mkTable (upd (t_array t) i x) (t_items t).
Definition AddNegativeConfirmation (t : table) (precondition : event) (imp : implication) : res table :=
  let neg := negative_confirmation precondition imp in
  do _ <- rassert (in_unit (confidence (i_truth neg))) ;
  do (t, added) <- Table_AddAndRevise t neg ;
  Ok (match added with
      | None => t
      | Some i => let a := slot t i in
                  set_slot t i (mkImp (i_term a) (i_truth a) (i_stamp a) (i_offset a) (i_source neg) (i_sourceId neg) (i_creation a))
      end).

(** Decision.c 567-576, 582-591: remove the invalid entries; [n]: entries left *)
Fixpoint prune (n : nat) (m : memory) (t : table) (k : nat) : res table :=
  match n with
  | O => Ok t
  | S n => if (k <? t_items t)%nat then
             do v <- ImplicationValid m (slot t k) ;
             if v then prune n m t (k + 1) else prune n m (Table_Remove t k) k
           else Ok t
  end.
(** Decision.c 600-619: for a real operation, the link must be for this operation call *)
Definition same_call (operationID : nat) (opTerm : term) (imp : implication) (precondition : event) : res bool :=
  if (operationID =? 0)%nat then Ok true else
  let subject := Term_ExtractSubterm (i_term imp) 1 in
  do s <- Unify nm av simdist (GetPreconditionWithoutOp nm subject) (e_term precondition) ;
  if negb (s_success s) then Ok false else
  do (op, ok) <- ApplySubstitute nm (getOperationTerm nm subject) s ;
  if negb ok then Ok false else
  do s2 <- Unify nm av simdist op opTerm ;
  Ok (s_success s2).
(** Decision.c 643-673: what is anticipated *)
Definition predict (m : memory) (now : Z) (imp : implication) (s : nat) (result : event) : res memory :=
  do prec <- cread m s ;
  do subs <- Unify nm av simdist (c_term prec) (e_term (c_spike prec)) ;
  if negb (s_success subs) then Ok m else
  do (t, ok) <- ApplySubstitute nm (e_term result) subs ;
  if negb ok then Ok m else
  let result := mkEvent t (e_type result) (e_truth result) (e_stamp result) (e_occ result) (e_offset result)
                  (e_processed result) (e_creation result) (e_input result) in
  do (m, c) <- Conceptualize nm m t now ;
  match c with
  | None => Ok m
  | Some c =>
    do prec <- cread m s ;
    if stamp_check_overlap (e_stamp (c_spike prec)) (i_stamp imp) then Ok m else
    do m <- cmod m c (fun k => with_usage k (Usage_use (c_usage k) now false)) ;
    do k <- cread m c ;
    if copulaEquals nm (at_ (i_term imp) 0) TEMPORAL_IMPLICATION then
      do r <- RevisionAndChoice nm powdecay (c_predicted k) result ;
      cmod m c (fun k => with_predicted k (fst r))
    else if stamp_equal (e_stamp (c_spike k)) (e_stamp result) then Ok m
    else
      do r <- RevisionAndChoice nm powdecay (c_spike k) result ;
      cmod m c (fun k => with_spike k (fst r))
  end.
(** Decision.c 632: worth anticipating *)
Definition anticipates (imp : implication) (result : truth f64A) : bool :=
  copulaEquals nm (at_ (i_term imp) 0) IMPLICATION || fltb anticipation_threshold (expectation result)
  || (fltb (confidence result) SUBSUMPTION_CONFIDENCE && feqb (frequency result) f0).
(** Decision.c 594-677: one valid implication of the concept in slot [p] *)
Definition anticipate_imp (operationID : nat) (opTerm : term) (now : Z) (p : nat) (m : memory) (imp : implication) : res memory :=
  match i_source imp with
  | None => UB
  | Some s =>
    do prec <- cread m s ;
    let pe := c_spike prec in
    if negb (present pe) then Ok m else
    do same <- same_call operationID opTerm imp pe ;
    if negb same then Ok m else
    do _ <- rassert (negb (e_occ pe =? OCCURRENCE_ETERNAL)) ;
    let op := mkEvent zero_term EVENT_TYPE_BELIEF (@mkTruth f64A f1 (@aconst f64A 9 10)) stamp_zero now f0 false 0 false in
    do (ok, seqop) <- BeliefIntersection powdecay pe op ;
    if negb ok then Ok m else
    do result <- BeliefDeduction nm (if (operationID =? 0)%nat then pe else seqop) imp ;
    if negb (anticipates imp (e_truth result)) then Ok m else
    do m <- (if copulaEquals nm (at_ (i_term imp) 0) TEMPORAL_IMPLICATION then
               do k <- cread m p ;
               do t <- pre_at k operationID ;
               do t <- AddNegativeConfirmation t pe imp ;
               cmod m p (fun k => with_pre k (upd (c_pre k) operationID t))
             else Ok m) ;
    predict m now imp s result
  end.
(** Decision.c 560-592: the implications to consider, invalid ones removed from the table *)
Definition anticipate_links (operationID : nat) (declarative : bool) (m : memory) (p : nat) : res (memory * list implication) :=
  do k <- cread m p ;
  if negb declarative then
    do t <- pre_at k operationID ;
    do t <- prune (t_items t) m t 0 ;
    do m <- cmod m p (fun k => with_pre k (upd (c_pre k) operationID t)) ;
    Ok (m, items t)
  else if (operationID =? 0)%nat then
    do t <- prune (t_items (c_links k)) m (c_links k) 0 ;
    do m <- cmod m p (fun k => with_links k t) ;
    Ok (m, items t)
  else Ok (m, []).
(** Decision.c 559: the loop over concepts.items[j] while [j < concepts.itemsAmount], both read
    anew in each round; [n] bounds the rounds left (the queue holds at most maxElements) *)
Fixpoint anticipate_loop (n : nat) (operationID : nat) (opTerm : term) (declarative : bool) (now : Z) (j : nat) (m : memory) : res memory :=
  match n with
  | O => Ok m
  | S n =>
    match nth_error (PQueueM.contents (m_concepts m)) j with
    | None => Ok m
    | Some it =>
      let p := PQueueM.address it in
      do (m, imps) <- anticipate_links operationID declarative m p ;
      do m <- foldM (anticipate_imp operationID opTerm now p) imps m ;
      anticipate_loop n operationID opTerm declarative now (j + 1) m
    end
  end.
(** Decision.c 556-681 *)
Definition Anticipate (m : memory) (operationID : nat) (opTerm : term) (declarative : bool) (now : Z) : res memory :=
  do _ <- rassert (operationID <=? OPERATIONS_MAX)%nat ;
  anticipate_loop (PQueueM.maxElements (m_concepts m)) operationID opTerm declarative now 0 m.
End Decision.
