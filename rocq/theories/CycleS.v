(** Specification vocabulary for whole histories of the reasoner: API calls with any configuration,
    which may change between calls (new atoms get names, commands set parameters, operations are
    registered, the clock is set). *)
From Coq Require Import ZArith List Bool.
From Verif Require Import Base F64 TruthM StampM TermM NamesM EventM MemoryM QuestionM DecisionM CycleM.
Import ListNotations.
Local Open Scope Z_scope.

(** everything a call depends on besides the state: names and values of atoms, similarity
    distance, decay of confidence over time, complexity penalty, number of goal layers, decision-,
    condition- and anticipation threshold, anticipation confidence, babbling chance, babbling
    operations, the environment's answers, bounds on the call stack and on nested cycles *)
Record params := mkP {
  p_nm : names; p_av : Z -> option (f64 * name); p_simdist : f64; p_pow : Z -> f64; p_penalty : nat -> f64; p_layers : nat;
  p_thr : f64; p_cond : f64; p_athr : f64; p_aconf : f64; p_chance : f64; p_bops : Z;
  p_act : list exec -> exec -> feedback; p_fuel : nat; p_depth : nat }.
Definition perform (p : params) (s : cstate) (c : call) : res cstate :=
  do_call (p_nm p) (p_av p) (p_simdist p) (p_pow p) (p_penalty p) (p_layers p) (p_thr p) (p_cond p) (p_athr p) (p_aconf p) (p_chance p) (p_bops p) (p_act p) (p_fuel p) (p_depth p) s c.
Definition cycle (p : params) (s : cstate) : res cstate :=
  one_cycle (p_nm p) (p_av p) (p_simdist p) (p_pow p) (p_penalty p) (p_layers p) (p_thr p) (p_cond p) (p_athr p) (p_aconf p) (p_chance p) (p_bops p) (p_act p) (p_fuel p) (p_depth p) s.
(** a history: calls, each under its own configuration *)
Fixpoint history (s : cstate) (l : list (params * call)) : res cstate :=
  match l with [] => Ok s | (p, c) :: l => do s <- perform p s c ; history s l end.
(** changes of the state by anything but cycles and inputs: operations and the restriction to known
    concepts, clock and ids *)
Definition configured (s : cstate) (ops : list operation) (restricted : bool) (t : Z) (g : idstate) : cstate :=
  let m := s_mem s in
  set_ids (set_time (set_mem s (mkMem (m_concepts m) (m_store m) (m_table m) (m_index m) (m_nextid m) (m_ring m) (m_beliefs m) (m_goals m) ops restricted)) t) g.
(** a reset, NAR.c 32-42: the random number generator, the statistics and the stamp to import stay *)
Definition resetted (s : cstate) (m : memory) : cstate :=
  set_pids (set_ids (set_stats (set_time (set_mem s m) 1) f0 (s_total s) (s_max s)) (Event_INIT (s_ids s))) 0 0 0.
(** states of a running program *)
Inductive reached : cstate -> Prop :=
| reached_start cmax buckets atoms bmax gmax layers m rng : Memory_INIT cmax buckets atoms bmax gmax layers = Ok m -> reached (cstate0 m rng)
| reached_reset s cmax buckets atoms bmax gmax layers m : reached s -> Memory_INIT cmax buckets atoms bmax gmax layers = Ok m -> reached (resetted s m)
| reached_config s ops restricted t g : reached s -> reached (configured s ops restricted t g)
| reached_question s nm av simdist pow now query threshold priming t tense m out : reached s ->
    Question nm av simdist pow now query threshold priming (s_mem s) t tense = Ok (m, out) -> reached (set_mem s m)
| reached_call s p c s' : reached s -> perform p s c = Ok s' -> reached s'.
(** what a call is documented to do to the clock: NAR_Cycles(n) n ticks, an input one *)
Definition ticks1 (c : call) : Z := match c with CCycles n => Z.of_nat n | CInput _ _ _ _ _ => 1 end.
Definition ticks (l : list (params * call)) : Z := fold_right (fun pc a => ticks1 (snd pc) + a) 0 l.
Definition is_goal (c : call) : bool := match c with CCycles _ => false | CInput _ ty _ _ _ => ty =? EVENT_TYPE_GOAL end.
(** the occurrence times given to the non-eternal inputs of a history *)
Definition input_time (s : cstate) (c : call) : list Z :=
  match c with CInput t ty tv false off => [e_occ (fst (Event_InputEvent (s_ids s) t ty tv off (s_time s)))] | _ => [] end.
Fixpoint input_times (s : cstate) (l : list (params * call)) : res (list Z) :=
  match l with
  | [] => Ok []
  | (p, c) :: l => do s' <- perform p s c ; do r <- input_times s' l ; Ok (input_time s c ++ r)
  end.
(** no goal waits to be processed: all goal queues are empty *)
Definition no_pending_goals (s : cstate) : Prop := Forall (fun q => PQueueM.amount (eq_q q) = 0%nat) (m_goals (s_mem s)).
