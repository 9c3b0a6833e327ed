(** Specification vocabulary for the memory properties C34, C35, C36, C54: what is stored, and the
    histories the rest of the program can produce. *)
From Coq Require Import ZArith List Bool.
From Coq Require Import Permutation.
From Verif Require Import Base F64 TruthM TruthS TermM NamesM EventM UsageM InvIndexM InvIndexS MemoryM.
From Verif Require PQueueM.
Local Open Scope Z_scope.

(** the slots of the stored concepts *)
Definition stored_slots (m : memory) : list nat := map PQueueM.address (PQueueM.contents (m_concepts m)).
(** slot c holds the concept k *)
Definition stores (m : memory) (c : nat) (k : concept) : Prop := In c (stored_slots m) /\ nth_error (m_store m) c = Some k.
(** number of stored concepts *)
Definition concept_count (m : memory) : nat := length (stored_slots m).
(** queue priority (usefulness) of the stored concept in slot c *)
Definition has_priority (m : memory) (c : nat) (p : num64) : Prop := In (PQueueM.mkItem p c) (PQueueM.contents (m_concepts m)).

(** What the program does to its memory.  [OUpdate] stands for all writes of Cycle.c and Decision.c
    to other fields of a concept than term, id. *)
Inductive mop :=
| OConceptualize (t : term) (now : Z)
| OAdd (e : event) (now : Z) (priority : f64) (input revised : bool) (layer : nat)
| OForget (now : Z)
| OPopBelief
| OPopGoal (layer : nat)
| OResetGoals
| OUpdate (c : nat) (f : concept -> concept).
Section Run.
Variable nm : names.
Variable powdecay : Z -> f64.
Variable penalty : nat -> f64.
Variable layers : nat.
Definition mstep (fuel : nat) (m : memory) (o : mop) : res memory :=
  match o with
  | OConceptualize t now => do r <- Conceptualize nm m t now ; Ok (fst r)
  | OAdd e now p input revised layer => AddEvent nm powdecay penalty layers fuel m (EVal e) now p input revised layer
  | OForget now => Ok (RelativeForgetting m now)
  | OPopBelief => Ok (set_beliefs m (fst (PopEvent (m_beliefs m))))
  | OPopGoal l => match nth_error (m_goals m) l with
                  | Some q => Ok (set_goals m (upd (m_goals m) l (fst (PopEvent q)))) | None => UB end
  | OResetGoals => Ok (ResetGoals m)
  | OUpdate c f => cmod m c f
  end.
Fixpoint mrun (fuel : nat) (m : memory) (os : list mop) : res memory :=
  match os with [] => Ok m | o :: os => do m <- mstep fuel m o ; mrun fuel m os end.
End Run.
(** what the rest of the program keeps true of each concept: its priority is in [0,1], it was used
    a non-negative number of times, its belief is none or a belief about a term of the program,
    and it has OPERATIONS_MAX + 1 tables *)
Definition concept_ok (atoms : nat) (k : concept) : Prop :=
  u01 (c_priority k) /\ 0 <= useCount (c_usage k) /\ atoms_in_range atoms (e_term (c_belief k)) /\
  e_type (c_belief k) <> EVENT_TYPE_GOAL /\ length (c_pre k) = 11%nat.
(** atoms of the input terms are atoms of the program, priorities of new events in [0,1], events
    derived by inference have a non-empty term; field updates keep term and id *)
Definition mop_ok (atoms : nat) (o : mop) : Prop :=
  match o with
  | OConceptualize t _ => atoms_in_range atoms t
  | OAdd e _ p input revised _ => atoms_in_range atoms (e_term e) /\ u01 p /\
      (input = true \/ revised = true \/ (1 <= Term_Complexity (e_term e))%nat)
  | OUpdate _ f => forall k, c_term (f k) = c_term k /\ c_id (f k) = c_id k /\ (concept_ok atoms k -> concept_ok atoms (f k))
  | _ => True
  end.
(** the factor 1/log2(1 + complexity) computed by the C library lies in [0,1] for 1 and more atoms *)
Definition penalty_ok (penalty : nat -> f64) : Prop := forall n, (1 <= n)%nat -> u01 (penalty n).

(** *** attention queues *)
(** queued events with their priorities *)
Definition qitems (q : equeue) : list (event * num64) :=
  map (fun it => (nth (PQueueM.address it) (eq_store q) event0, PQueueM.priority it)) (PQueueM.contents (eq_q q)).
(** two queued events are told apart by the program's own comparison (Event_Equal is not symmetric
    when a stamp lists an id twice, hence the two directions) *)
Definition differ (a b : event) : Prop := Event_Equal a b = false \/ Event_Equal b a = false.
(** no two elements at different positions are equal events *)
Definition no_duplicates (l : list event) : Prop :=
  forall i j a b, (i < j)%nat -> nth_error l i = Some a -> nth_error l j = Some b -> differ a b.
(** the memory can be in state [m] after some history since its initialisation; in the program
    [cmax] = 16384, [atoms] = 65536, [bmax] = 40, [gmax] = 400, [layers] = 30 (Config.h) *)
Definition sizes_ok (cmax buckets atoms bmax gmax layers : nat) : Prop :=
  (0 < cmax /\ 0 < buckets /\ 0 < atoms /\ 0 < bmax /\ 0 < gmax /\ 0 < layers)%nat.
Definition in_bounds (cmax layers : nat) (o : mop) : Prop :=
  match o with OPopGoal l => (l < layers)%nat | OUpdate c _ => (c < cmax)%nat | _ => True end.
Definition history_ok (cmax atoms layers : nat) (os : list mop) : Prop :=
  Forall (fun o => mop_ok atoms o /\ in_bounds cmax layers o) os.
Definition reachable (nm : names) (powdecay : Z -> f64) (penalty : nat -> f64)
    (cmax buckets atoms bmax gmax layers : nat) (m : memory) : Prop :=
  exists m0 fuel os, Memory_INIT cmax buckets atoms bmax gmax layers = Ok m0 /\ history_ok cmax atoms layers os /\
    mrun nm powdecay penalty layers fuel m0 os = Ok m.
(** a concept just created for term t: used once, now, no belief, no goal, no links *)
Definition fresh_concept (k : concept) (t : term) (now : Z) : Prop :=
  c_term k = t /\ c_usage k = mkUsage 1 now /\ c_belief k = event0 /\ c_spike k = event0 /\ c_predicted k = event0 /\
  c_goal k = event0 /\ c_pre k = repeat TableM.table0 11 /\ c_links k = TableM.table0 /\ c_priority k = f0.
(** *** the memory is in order *)
(** look-up by term finds exactly the stored concepts; one concept per term and per id; the slots
    are distinct and hold concepts; the index lists under each atom exactly the concepts with this
    (simple) atom among the first 31 of their term *)
Definition consistent (nm : names) (cmax atoms : nat) (m : memory) : Prop := (
  (forall t, exists r, FindConceptByTerm m t = Ok r /\ forall c, r = Some c <-> exists k, stores m c k /\ c_term k = t) /\
  (forall c k d k', stores m c k -> stores m d k' -> c_term k = c_term k' -> c = d) /\
  (forall c k d k', stores m c k -> stores m d k' -> c_id k = c_id k' -> c = d) /\
  NoDup (stored_slots m) /\ (concept_count m <= cmax)%nat /\ (forall c, In c (stored_slots m) -> exists k, stores m c k) /\
  (forall a, (0 <= a < Z.of_nat atoms)%Z -> exists l, concepts_under (m_index m) a = Ok l /\ NoDup l /\
     forall c, In c l <-> IsSimpleAtom nm a = true /\ exists k, stores m c k /\ In a (firstn 31 (c_term k)))).
(** bounded queues without duplicates, of beliefs and goals of sufficient confidence *)
Definition queues_in_order (bmax gmax layers : nat) (m : memory) : Prop := (
  (* bounded *)
  (length (queued (m_beliefs m)) <= bmax)%nat /\ length (m_goals m) = layers /\ (forall q, In q (m_goals m) -> (length (queued q) <= gmax)%nat) /\
  (* no event twice; goals in no two layers *)
  no_duplicates (queued (m_beliefs m)) /\ no_duplicates (concat (map queued (m_goals m))) /\
  (* beliefs and goals, of sufficient confidence *)
  (forall e, In e (queued (m_beliefs m)) -> e_type e = EVENT_TYPE_BELIEF /\ fltb (confidence (e_truth e)) (fdec 1 100) = false) /\
  (forall q e, In q (m_goals m) -> In e (queued q) -> e_type e = EVENT_TYPE_GOAL /\ fltb (confidence (e_truth e)) (fdec 1 100) = false)).
(** what conceptualising a term does: afterwards it is stored, at the cost of at most one concept *)
Definition conceptualised (nm : names) (cmax atoms : nat) (m : memory) (t : term) (now : Z) : Prop := (
  exists m' c, Conceptualize nm m t now = Ok (m', Some c) /\ FindConceptByTerm m' t = Ok (Some c) /\
  (* it was already stored *)
  ((exists k, stores m c k /\ c_term k = t) /\ m' = m \/
  (* or a fresh concept is stored in addition *)
   ((forall d k, stores m d k -> c_term k <> t) /\ (concept_count m < cmax)%nat /\ concept_count m' = S (concept_count m) /\
    exists new, fresh_concept new t now /\ (forall d k, stores m' d k <-> (d = c /\ k = new) \/ stores m d k)) \/
  (* or it replaces exactly one concept, of lowest priority; only that one is not found any more *)
   ((forall d k, stores m d k -> c_term k <> t) /\ concept_count m = cmax /\ concept_count m' = cmax /\
    exists new old p, fresh_concept new t now /\ stores m c old /\ has_priority m c p /\
      (forall d q, has_priority m d q -> num_ltb q p = false) /\
      (forall d k, stores m' d k <-> (d = c /\ k = new) \/ (d <> c /\ stores m d k)) /\
      (c_term old <> t -> FindConceptByTerm m' (c_term old) = Ok None) /\
      (forall a, (0 <= a < Z.of_nat atoms)%Z -> exists l, concepts_under (m_index m') a = Ok l /\
         (In c l <-> IsSimpleAtom nm a = true /\ In a (firstn 31 t)))))).
