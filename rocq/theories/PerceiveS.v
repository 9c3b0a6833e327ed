(** Specification vocabulary: how a belief event reaches the concepts (C69). *)
From Coq Require Import ZArith List Bool.
From Verif Require Import Base F64 TruthM StampM TermM NamesM EventM InferenceM UsageM VariableM MemoryM QuestionM DecisionM CycleM SeqS AddS.
Import ListNotations.
Local Open Scope Z_scope.
Section P.
Variable nm : names.
Variable av : Z -> option (f64 * name).
Variable simdist : f64.
Variable now : Z.
(** the event as it is kept: with term [t] (itself, or an instance of it), known from now on *)
Definition kept (e : event) (t : term) : event := mkEvent t (e_type e) (e_truth e) (e_stamp e) (e_occ e) (e_offset e) true now (e_input e).
(** the concept is selected now and used once more, and [e] becomes its latest event unless it has one at
    least as late *)
Definition activated (k k' : concept) (e : event) : Prop :=
  exists u, lastUsed u = now /\ useCount u = useCount (c_usage k) + 1 /\ let k1 := with_usage (with_lastsel k now) u in
  (there (c_spike k) /\ e_occ e <= e_occ (c_spike k) /\ k' = k1 \/
   ~ (there (c_spike k) /\ e_occ e <= e_occ (c_spike k)) /\ k' = with_spike k1 e).
(** the event is a case of what the concept is about *)
Definition covers (k : concept) (e : event) : Prop := exists subs, Unify nm av simdist (c_term k) (e_term e) = Ok subs /\ s_success subs = true.
(** the concept is a case of what the event, with its variables, is about: then [t] is this case of the event *)
Definition instance (e : event) (k : concept) (t : term) : Prop :=
  exists subs, Unify nm av simdist (e_term e) (c_term k) = Ok subs /\ s_success subs = true /\ ApplySubstitute nm (e_term e) subs = Ok (t, true).
Definition variables (e : event) : Prop := hasVariable nm (e_term e) true true true = true.
Definition queries (e : event) : Prop := hasVariable nm (e_term e) false false true = true.
(** what the event does to a related concept *)
Definition noticed (e : event) (k k' : concept) : Prop :=
  exists k1,
    (~ variables e \/ queries e -> covers k e /\ activated k k1 (kept e (e_term e)) \/ ~ covers k e /\ k1 = k) /\
    (variables e -> ~ queries e -> k1 = k) /\
    (variables e -> (exists t, instance e k1 t /\ activated k1 k' (kept e t)) \/ (forall t, ~ instance e k1 t) /\ k' = k1) /\
    (~ variables e -> k' = k1).
(** the event does this, exactly once, to each related concept (which gets a new visit mark), and
    nothing else changes *)
Definition noticed_everywhere (e : event) (pid : Z) (m m' : memory) : Prop :=
  exists st, m' = set_store m st /\ List.length st = List.length (m_store m) /\
  forall c k, nth_error (m_store m) c = Some k -> exists k', nth_error st c = Some k' /\
    (related m (e_term e) c -> noticed e (with_pid1 k pid) k') /\ (~ related m (e_term e) c -> k' = k).
End P.
(** *** comparisons *)
From Verif Require TermS.
From Verif Require Import RingM.
Section Compare.
Import TermS.
Variable nm : names.
Variable av : Z -> option (f64 * name).
(** the tree is a statement <(L * v) --> A> ([cop] is inheritance or the copula of continuous
    properties) where [v] is an atom with the numeric value [x] *)
Definition measurement (tr : tree) (cop v : Z) (x : f64) (L A : tree) : Prop :=
  exists p what, tr = N cop (N p L (N v E E)) A /\ (copulaEquals nm cop INHERITANCE = true \/ copulaEquals nm cop HAS_CONTINUOUS_PROPERTY = true) /\
    copulaEquals nm p PRODUCT = true /\ L <> E /\ A <> E /\ 0 < v /\ av v = Some (x, what).
(** the statement <(L1 * L2) --> (rel A)> of the same copula *)
Definition comparison (cop rel : Z) (L1 L2 A : tree) : tree :=
  N cop (N (copula_index PRODUCT) L1 L2) (N rel A (N (copula_index SET_TERMINATOR) E E)).
(** what is concluded of two values: which location is named first, and the relation *)
Definition compared (cop : Z) (x1 x2 : f64) (L1 L2 A : tree) (r : tree) : Prop :=
  (fltb x2 x1 = true -> r = comparison cop (copula_index SEQUENCE) L1 L2 A) /\
  (fltb x1 x2 = true -> r = comparison cop (copula_index SEQUENCE) L2 L1 A) /\
  (fltb x2 x1 = false -> fltb x1 x2 = false -> r = comparison cop (copula_index SIMILARITY) L1 L2 A).
End Compare.
(** *** a whole belief phase *)
Section Phase.
Variable nm : names.
Variable correlate : cstate -> nat -> res cstate.
(** the concepts in the order of their latest events (C29), the newest first, from the [i]-th on, at
    most 512 of them: each that has no visit mark yet gets one and is related to the processed event *)
Inductive looked_back : Z -> cstate -> cstate -> Prop :=
| looked_all i s : r_amount (m_ring (s_mem s)) <= i \/ 512 <= i -> looked_back i s s
| looked_again i s c k s' : i < r_amount (m_ring (s_mem s)) -> i < 512 -> GetKthNewestElement (m_ring (s_mem s)) i = Ok (Some c) ->
    nth_error (m_store (s_mem s)) c = Some k -> pid2 k = s_pid2 s -> looked_back (i + 1) s s' -> looked_back i s s'
| looked_new i s c k s1 s' : i < r_amount (m_ring (s_mem s)) -> i < 512 -> GetKthNewestElement (m_ring (s_mem s)) i = Ok (Some c) ->
    nth_error (m_store (s_mem s)) c = Some k -> pid2 k <> s_pid2 s ->
    correlate (set_mem s (set_store (s_mem s) (upd (m_store (s_mem s)) c (with_pid2 k (s_pid2 s))))) c = Ok s1 -> looked_back (i + 1) s1 s' -> looked_back i s s'.
(** the event is processed: it is no continuous property of a single thing, was not processed
    before, and happened less than 20 time steps ago *)
Definition fresh (now : Z) (e : event) : Prop :=
  ~ (copulaEquals nm (at_ (e_term e) 0) HAS_CONTINUOUS_PROPERTY = true /\ copulaEquals nm (at_ (e_term e) 1) PRODUCT = false) /\
  e_processed e = false /\ there e /\ e_occ e <> OCCURRENCE_ETERNAL /\ now - e_occ e < 20.
End Phase.
