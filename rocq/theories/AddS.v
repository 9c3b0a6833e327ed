(** Specification vocabulary: what happens to an event given to the memory (C36, C64). *)
From Coq Require Import ZArith List Bool Permutation.
From Verif Require Import Base F64 TruthM StampM TermM NamesM EventM InferenceM UsageM TableM MemoryM MemoryS.
Local Open Scope Z_scope.
Definition there (e : event) : Prop := e_type e <> EVENT_TYPE_DELETED.
(** an equal event is waiting already, or the concept of its statement has it, or (beliefs) better *)
Definition told_before (m : memory) (e : event) : Prop :=
  e_type e = EVENT_TYPE_BELIEF /\
    ((exists x, In x (queued (m_beliefs m)) /\ Event_Equal e x = true) \/
     (exists c k, stores m c k /\ c_term k = e_term e /\
       (e_occ e = OCCURRENCE_ETERNAL /\ there (c_belief k) /\
          (Event_Equal e (c_belief k) = true \/ fltb (confidence (e_truth e)) (confidence (e_truth (c_belief k))) = true) \/
        e_occ e <> OCCURRENCE_ETERNAL /\ there (c_spike k) /\ Event_EqualTermEqualStampLessConfidentThan e (c_spike k) = true))) \/
  e_type e = EVENT_TYPE_GOAL /\
    ((exists q x, In q (m_goals m) /\ In x (queued q) /\ Event_Equal e x = true) \/
     (exists c k, stores m c k /\ c_term k = e_term e /\ there (c_goal k) /\ Event_Equal (c_goal k) e = true)).
(** the event joins a queue for [n] events; if it is full, in the place of one of lowest priority,
    or not at all if all waiting ones have a higher priority *)
Definition joins (n : nat) (q : equeue) (e : event) (p : num64) (q' : equeue) (joined : bool) : Prop :=
  (length (queued q) < n)%nat /\ joined = true /\ Permutation (qitems q') ((e, p) :: qitems q) \/
  length (queued q) = n /\ joined = false /\ q' = q /\ (forall x px, In (x, px) (qitems q) -> num_ltb p px = true) \/
  length (queued q) = n /\ joined = true /\ exists x px rest, Permutation (qitems q) ((x, px) :: rest) /\ Permutation (qitems q') ((e, p) :: rest) /\
    num_ltb p px = false /\ (forall y py, In (y, py) (qitems q) -> num_ltb py px = false).

(** *** what a concept remembers *)
(** the concept of the term, or else a new one *)
Definition concept_for (m : memory) (t : term) (now : Z) (c : nat) (k : concept) : Prop :=
  stores m c k /\ c_term k = t \/ (forall d k', stores m d k' -> c_term k' <> t) /\ fresh_concept k t now.
(** what is kept of an old and a new opinion (C33 says what this is) *)
Definition kept (nm : names) (pd : Z -> f64) (now : Z) (old new r : event) : Prop :=
  exists x merged, RevisionAndChoice nm pd old new = Ok (x, merged) /\ r = with_creation x now.
(** the concept [k] is what the concept [k0] becomes when told [e] *)
Definition remembers (nm : names) (pd : Z -> f64) (now : Z) (p : f64) (e : event) (k0 k : concept) : Prop :=
  c_term k = e_term e /\ c_id k = c_id k0 /\
  (e_occ e <> OCCURRENCE_ETERNAL /\ e_occ e <= now -> kept nm pd now (c_spike k0) e (c_spike k)) /\
  (e_occ e = OCCURRENCE_ETERNAL \/ now < e_occ e -> c_spike k = c_spike k0) /\
  (e_occ e <> OCCURRENCE_ETERNAL /\ now < e_occ e -> kept nm pd now (c_predicted k0) e (c_predicted k)) /\
  (e_occ e = OCCURRENCE_ETERNAL \/ e_occ e <= now -> c_predicted k = c_predicted k0) /\
  kept nm pd now (c_belief k0) (Event_Eternalized e) (c_belief k) /\
  c_priority k = fmax (c_priority k0) p /\ lastUsed (c_usage k) = now /\
  c_goal k = c_goal k0 /\ c_pre k = c_pre k0 /\ c_links k = c_links k0.
(** neither <.. =/> ..> nor <.. ==> ..> *)
Definition no_implication (nm : names) (t : term) : Prop :=
  copulaEquals nm (at_ t 0) TEMPORAL_IMPLICATION = false /\ copulaEquals nm (at_ t 0) IMPLICATION = false.
(** the event is accepted: confident enough, of some priority, and (in restricted mode, if derived)
    about a concept there is *)
Definition accepted (m : memory) (e : event) (p : f64) (input : bool) : Prop :=
  fltb (confidence (e_truth e)) (fdec 1 100) = false /\ fleb p f0 = false /\
  (m_restricted m = true -> input = false -> exists c k, stores m c k /\ c_term k = e_term e).
(** the priority with which it enters *)
Definition entry_priority (penalty : nat -> f64) (e : event) (p : f64) (input revised : bool) : f64 :=
  if negb revised && negb input then fmul p (penalty (Term_Complexity (e_term e))) else p.

(** *** where implications are kept *)
(** <st =/> b> is kept under no operation; <(st &/ op) =/> b> under the operation *)
Inductive kept_under (nm : names) (m : memory) (subject : term) : nat -> term -> Prop :=
| ku_none : copulaEquals nm (at_ subject 0) SEQUENCE = false \/ isOperation nm (Term_ExtractSubterm subject 2) = false -> kept_under nm m subject 0 subject
| ku_op : copulaEquals nm (at_ subject 0) SEQUENCE = true -> isOperation nm (Term_ExtractSubterm subject 2) = true ->
    isExecutableOperation nm (Term_ExtractSubterm subject 2) = true ->
    kept_under nm m subject (getOperationID nm m (Term_ExtractSubterm subject 2)) (GetPreconditionWithoutOp nm subject).
(** the link kept for the belief [e], whose precondition is in slot [s] with id [id] *)
Definition link_of (e : event) (s : nat) (id now : Z) : implication :=
  mkImp (e_term e) (e_truth (Event_Eternalized e)) (e_stamp (Event_Eternalized e)) (e_offset e) (Some s) id now.
(** [k] is [k0], used now *)
Definition used (now : Z) (k0 k : concept) : Prop := lastUsed (c_usage k) = now /\ exists u, k = with_usage k0 u.
(** the link is in the concept of [post], in the table of operation [opi]; its source is the concept of [st] *)
Definition linked (now : Z) (m m' : memory) (post st : term) (opi : nat) (e : event) : Prop :=
  exists t s kt0 ks0 kt ks tb tb' ev', concept_for m post now t kt0 /\
    (stores m s ks0 /\ c_term ks0 = st \/ fresh_concept ks0 st now) /\
    (* a concept of [st] there was is the one used, unless it had to make room for that of [post] *)
    (forall d k, stores m d k -> c_term k = st -> d = s /\ k = ks0 \/ d = t /\ s <> t /\ forall c x, stores m c x -> c_term x <> post) /\
    stores m' t kt /\ stores m' s ks /\ c_term kt = post /\ c_term ks = st /\ c_id ks = c_id ks0 /\
    nth_error (c_pre kt0) opi = Some tb /\ Table_AddAndRevise tb (link_of e s (c_id ks) now) = Ok (tb', ev') /\
    (exists k1, used now kt0 k1 /\ kt = with_pre k1 (upd (c_pre kt0) opi tb')) /\
    (s <> t -> used now ks0 ks) /\ (s = t -> ks = kt /\ post = st) /\
    (forall d x, d <> s -> d <> t -> stores m' d x -> stores m d x).
