(** Specification vocabulary: inference in a cycle (C68). *)
From Coq Require Import ZArith List Bool Relation_Operators.
From Verif Require Import Base F64 TruthM StampM TermM NamesM EventM InferenceM UsageM TableM VariableM MemoryM NalM NalS RulesM QuestionM DecisionM CycleM SeqS AddS LearnS.
Import ListNotations.
Local Open Scope Z_scope.
Section S.
Variable nm : names.
Variable av : Z -> option (f64 * name).
Variable simdist : f64.
Variable pd : Z -> f64.
Variable pen : nat -> f64.
Variables layers fuel : nat.
(** *** how a conclusion is told; [d] says where it comes from: truth, evidence, time, offset, the
    priorities of event and concept, and the concept involved with its id *)
(** the concept involved has not been replaced meanwhile *)
Definition in_place (d : deriv) (m : memory) : Prop :=
  match dv_valid d with None => True | Some c => exists k, nth_error (m_store m) c = Some k /\ c_id k = dv_cid d end.
(** the belief event that [t] is the case *)
Definition conclusion (d : deriv) (t : term) : event :=
  mkEvent t EVENT_TYPE_BELIEF (dv_truth d) (dv_stamp d) (dv_occ d) (dv_offset d) false (dv_now d) false.
Definition tell (d : deriv) (t : term) (m m' : memory) : Prop :=
  (in_place d m -> ~ implausible nm t ->
     AddEvent nm pd pen layers fuel m (EVal (conclusion d t)) (dv_now d) (fmul (fmul (dv_concept d) (dv_parent d)) (Truth_Expectation f64A (dv_truth d))) false false 0 = Ok m') /\
  (~ in_place d m \/ implausible nm t -> m' = m).
(** [t'] is [t] with variables introduced (C41), as [r] says *)
Definition introduced (r : res (bool * term)) (implication : bool) (t t' : term) : Prop :=
  r = Ok (true, t') /\ t' <> t /\ HOLStatementComponentHasInvalidInhOrSim nm t' = false /\ (implication = true -> DeclarativeImplicationWithoutIndependentVar nm t' = false).
Definition variant (d : deriv) (r : res (bool * term)) (implication : bool) (t : term) (m m' : memory) : Prop :=
  (exists t', introduced r implication t t' /\ tell d t' m m') \/ (forall t', ~ introduced r implication t t') /\ m' = m.
Definition implication_like (t : term) : Prop := copula nm t 0 TEMPORAL_IMPLICATION \/ higher_order nm t.
(** a conclusion as it is, or (rules that introduce variables) its generalisations; <.. =/> ..> also
    as it is *)
Inductive concludes (d : deriv) (t : term) (intro : bool) (m m' : memory) : Prop :=
| cl_plain : intro = false \/ ~ implication_like t /\ ~ copula nm t 0 CONJUNCTION -> tell d t m m' -> concludes d t intro m m'
| cl_implication m0 m1 : intro = true -> implication_like t ->
    variant d (IntroduceImplicationVariables nm t true) true t m m0 -> variant d (IntroduceImplicationVariables nm t false) true t m0 m1 ->
    (higher_order nm t /\ m' = m1 \/ ~ higher_order nm t /\ tell d t m1 m') -> concludes d t intro m m'
| cl_conjunction m0 : intro = true -> ~ implication_like t -> copula nm t 0 CONJUNCTION ->
    variant d (IntroduceConjunctionVariables nm t true) false t m m0 -> variant d (IntroduceConjunctionVariables nm t false) false t m0 m' -> concludes d t intro m m'.
(** one conclusion after the other *)
Inductive all_concluded (d : deriv) : list (term * truth f64A * bool) -> memory -> memory -> Prop :=
| ac_nil m : all_concluded d [] m m
| ac_cons t v intro L m m1 m' : concludes (with_dtruth d v) t intro m m1 -> all_concluded d L m1 m' -> all_concluded d ((t, v, intro) :: L) m m'.
(** *** conclusions by matching a statement with a part of an implication, equivalence or conjunction *)
(** [c] is [target] for that case of [pattern] that [t] is (C38) *)
Definition case_of (pattern t target c : term) : Prop :=
  exists subs, Unify nm av simdist pattern t = Ok subs /\ s_success subs = true /\ ApplySubstitute nm target subs = Ok (c, true).
Definition is_case (pattern t : term) : Prop := exists subs, Unify nm av simdist pattern t = Ok subs /\ s_success subs = true.
(** the first premise is the statement [t1], of truth [v1], the second [t2] *)
Inductive by_matching (t1 t2 : term) (v1 v2 : truth f64A) : term -> truth f64A -> Prop :=
(* A, <A ==> B> |- B *)
| bm_deduction c : copula nm t2 0 IMPLICATION -> case_of (Term_ExtractSubterm t2 1) t1 (Term_ExtractSubterm t2 2) c -> by_matching t1 t2 v1 v2 c (Truth_Deduction f64A v2 v1)
(* B, <A ==> B> |- A *)
| bm_abduction c : copula nm t2 0 IMPLICATION -> case_of (Term_ExtractSubterm t2 2) t1 (Term_ExtractSubterm t2 1) c -> by_matching t1 t2 v1 v2 c (Truth_Abduction f64A v2 v1)
(* A, <(A && B) ==> C> |- <B ==> C>; and, if the first condition is not the case of A, B, <(A && B) ==> C> |- <A ==> C> *)
| bm_rest_second t c : copula nm t2 0 IMPLICATION -> copula nm (Term_ExtractSubterm t2 1) 0 CONJUNCTION ->
    let cond := Term_ExtractSubterm t2 1 in
    implication_of (Term_ExtractSubterm cond 2) (Term_ExtractSubterm t2 2) = (true, t) -> case_of (Term_ExtractSubterm cond 1) t1 t c -> by_matching t1 t2 v1 v2 c (Truth_Deduction f64A v2 v1)
| bm_rest_first t c : copula nm t2 0 IMPLICATION -> copula nm (Term_ExtractSubterm t2 1) 0 CONJUNCTION ->
    let cond := Term_ExtractSubterm t2 1 in ~ is_case (Term_ExtractSubterm cond 1) t1 ->
    implication_of (Term_ExtractSubterm cond 1) (Term_ExtractSubterm t2 2) = (true, t) -> case_of (Term_ExtractSubterm cond 2) t1 t c -> by_matching t1 t2 v1 v2 c (Truth_Deduction f64A v2 v1)
(* A, <A <=> B> |- B; B, <A <=> B> |- A *)
| bm_equivalence c i j : copula nm t2 0 EQUIVALENCE -> (i = 1 /\ j = 2 \/ i = 2 /\ j = 1)%nat -> case_of (Term_ExtractSubterm t2 i) t1 (Term_ExtractSubterm t2 j) c -> by_matching t1 t2 v1 v2 c (Truth_Analogy f64A v2 v1)
(* A, (A && B) |- B *)
| bm_conjunction c : copula nm t2 0 CONJUNCTION -> case_of (Term_ExtractSubterm t2 1) t1 (Term_ExtractSubterm t2 2) c -> by_matching t1 t2 v1 v2 c (Truth_AnonymousAnalogy f64A v2 v1).
(** exactly these are concluded *)
Definition matching_concluded (d : deriv) (t1 t2 : term) (v1 v2 : truth f64A) (m m' : memory) : Prop :=
  exists L, all_concluded d L m m' /\ forall c v intro, In (c, v, intro) L <-> intro = false /\ by_matching t1 t2 v1 v2 c v.
(** *** an event and a concept *)
(** instead of its timeless belief, the latest event of the concept is used, projected to the time
    of [e], if both are close in time *)
Definition event_instead (e sp : event) (p : option event) : Prop :=
  (e_occ e <> OCCURRENCE_ETERNAL /\ there sp /\ Z.abs (e_occ e - e_occ sp) < 20 /\
   p = Some (with_occ (with_truth sp (Truth_Projection f64A pd (e_truth sp) (e_occ sp) (e_occ e))) (e_occ e))) \/
  (~ (e_occ e <> OCCURRENCE_ETERNAL /\ there sp /\ Z.abs (e_occ e - e_occ sp) < 20) /\ p = None).
Definition premise (m : memory) (c : nat) (p : option event) (k : concept) (b : event) : Prop :=
  nth_error (m_store m) c = Some k /\ b = match p with Some b => b | None => c_belief k end.
(** The event [e] is combined with the concept in slot [c]: not if they share evidence; otherwise
    the rules (C60: [conclusions]) are applied, then those by matching, both ways, each time with
    what the concept says by then. *)
Definition combined (e : event) (prio : f64) (now : Z) (c : nat) (m m' : memory) : Prop :=
  exists k p b, premise m c p k b /\ event_instead e (c_spike k) p /\
    (~ no_shared_evidence e b /\ m' = m \/
     no_shared_evidence e b /\
     let d k' := mkDv (e_occ e) truth0 (stamp_make (e_stamp e) (e_stamp b)) now prio (c_priority k') (e_offset e) (Some c) (c_id k) in
     exists k1 m1, used now k k1 /\ m1 = set_store m (upd (m_store m) c k1) /\
     exists b1 m2, premise m1 c p k1 b1 /\ all_concluded (d k1) (conclusions nm true (e_term e) (c_term k1) (e_truth e) (e_truth b1)) m1 m2 /\
     exists k2 b2 m3, premise m2 c p k2 b2 /\ matching_concluded (d k2) (e_term e) (c_term k2) (e_truth e) (e_truth b2) m2 m3 /\
     exists k3 b3, premise m3 c p k3 b3 /\ matching_concluded (d k3) (c_term k3) (e_term e) (e_truth b3) (e_truth e) m3 m').
(** *** the inference phase *)
(** the concept in slot [c] was not marked with [pid] and now is *)
Definition marked_now (pid : Z) (c : nat) (m m' : memory) (k : concept) : Prop :=
  exists k0, nth_error (m_store m) c = Some k0 /\ pid1 k0 <> pid /\ k = with_pid1 k0 pid /\ m' = set_store m (upd (m_store m) c k).
(** One concept is looked at, for the first time in this cycle; [n] counted before.  It counts if its
    priority reaches [thr]; if it has a belief and is among the first 80, it is combined with the
    event. *)
Inductive looked_at (pid : Z) (e : event) (prio : f64) (now : Z) (thr : f64) (c : nat) : memory * Z -> memory * Z -> Prop :=
| la_low m m1 k n : marked_now pid c m m1 k -> fltb (c_priority k) thr = true -> looked_at pid e prio now thr c (m, n) (m1, n)
| la_pass m m1 k n : marked_now pid c m m1 k -> fltb (c_priority k) thr = false -> ~ there (c_belief k) \/ 80 <= n -> looked_at pid e prio now thr c (m, n) (m1, n + 1)
| la_use m m1 k n m' : marked_now pid c m m1 k -> fltb (c_priority k) thr = false -> there (c_belief k) -> n < 80 ->
    combined e prio now c m1 m' -> looked_at pid e prio now thr c (m, n) (m', n + 1).
(** one concept after the other *)
Inductive looked_at_all (pid : Z) (e : event) (prio : f64) (now : Z) (thr : f64) : list nat -> memory * Z -> memory * Z -> Prop :=
| lal_nil x : looked_at_all pid e prio now thr [] x x
| lal_cons c l x y z : looked_at pid e prio now thr c x y -> looked_at_all pid e prio now thr l y z -> looked_at_all pid e prio now thr (c :: l) x z.
(** a round: conclusions from the event alone, then with concepts; the first of them is that of the
    event itself, unless it was looked at before in this cycle *)
Definition round (pid : Z) (e : event) (prio : f64) (now : Z) (thr : f64) (x y : memory * Z) : Prop :=
  exists m1 l, all_concluded (mkDv (e_occ e) truth0 (e_stamp e) now prio f1 f0 None 0) (conclusions nm false (e_term e) zero_term (e_truth e) truth0) (fst x) m1 /\
    looked_at_all pid e prio now thr l (m1, snd x) y /\
    (forall c k, FindConceptByTerm m1 (e_term e) = Ok (Some c) -> nth_error (m_store m1) c = Some k -> pid1 k <> pid -> hd_error l = Some c).
(** the threshold is lowered if, on average over the cycles, fewer than 80 concepts counted, and
    raised if more; it stays in [0, 1] *)
Definition next_threshold (thr : f64) (total now : Z) : f64 :=
  amin f64A f1 (amax f64A f0 (fadd thr (fmul (fsub (fofZ (Z.quot total now)) (fofZ 80)) (@aconst f64A 1 1000000)))).
(** rounds, until 80 have counted or none did in a round; threshold and statistics are kept *)
Inductive rounds (e : event) (prio : f64) (now : Z) : Z -> cstate -> cstate -> Prop :=
| rs_last n s m n' : round (s_pid s) e prio now (s_thr s) (s_mem s, n) (m, n') -> 80 <= n' \/ n' = n ->
    rounds e prio now n s (set_stats (set_mem s m) (next_threshold (s_thr s) (s_total s) now) (s_total s + (n' - n)) (Z.max n' (s_max s)))
| rs_more n s m n' s' : round (s_pid s) e prio now (s_thr s) (s_mem s, n) (m, n') -> n < n' < 80 ->
    rounds e prio now n' (set_stats (set_mem s m) (next_threshold (s_thr s) (s_total s) now) (s_total s + (n' - n)) (Z.max n' (s_max s))) s' ->
    rounds e prio now n s s'.
End S.
