(** Model of the shell: /repo/src/Shell.c (all of it), and of /repo/src/NAR.c 32-42 [NAR_INIT] and
    122-303 [NAR_AddInputNarsese2] which it calls.  Texts are lists of character codes without the
    terminating 0.  Shell_ProcessInput is split in two: [parse] makes the tests of Shell.c 74-417
    in their order, [run] is the branch taken.

    Not modelled: what the commands *stats, *inverted_atom_index, *opconfig, *concepts,
    *cycling_belief_events and *cycling_goal_events print ([OShow]), PRINT_DERIVATIONS, and the
    messages of the reasoner itself.  The C library's conversions between text and double are
    parameters. *)
From Coq Require Import ZArith List Bool String.
From Verif Require Import Base F64 TruthM StampM TermM NamesM AtomsM ParserM RulesM EventM VariableM MemoryM QuestionM DecisionM OpsM CycleM CycleS.
From Verif Require PQueueM.
Import ListNotations.
Local Open Scope Z_scope.

(** *** the program's surroundings: sizes of Config.h (ATOMS_MAX, CONCEPTS_MAX and its buckets,
    CYCLING_BELIEF_EVENTS_MAX, CYCLING_GOAL_EVENTS_MAX, CYCLING_GOAL_EVENTS_LAYERS), the libm
    functions as in MemoryM, CONDITION_THRESHOLD, ANTICIPATION_THRESHOLD, the operations'
    environment, the bounds of CycleM, and the C library's number conversions: those of ParserM,
    [v_lf] is sscanf's %lf (value and remaining text), [v_fmt d x] is printf's %.df of x *)
Record env := mkEnv {
  v_atoms : nat; v_cmax : nat; v_buckets : nat; v_bmax : nat; v_gmax : nat; v_layers : nat;
  v_pow : Z -> f64; v_penalty : nat -> f64; v_cond : f64; v_athr : f64;
  v_act : list exec -> exec -> feedback; v_fuel : nat; v_depth : nat;
  v_atof : text -> f64; v_scan1 : text -> option f64; v_scan2 : bool -> text -> option (f64 * f64);
  v_lf : text -> option (f64 * text); v_fmt : nat -> f64 -> text }.

(** *** the program's state: the reasoner, the symbol table, op_k (NAR.c 29), the measured values
    (Narsese.c 850), and the parameters set by commands: PRINT_EVENTS_PRIORITY_THRESHOLD,
    ANTICIPATION_CONFIDENCE, DECISION_THRESHOLD, Variable_similarity_distance,
    MOTOR_BABBLING_CHANCE, QUESTION_PRIMING, BABBLING_OPS *)
Record nar := mkNar {
  z_core : cstate; z_st : astate; z_k : nat; z_av : Z -> option (f64 * name);
  z_volume : f64; z_aconf : f64; z_thr : f64; z_simdist : f64; z_chance : f64; z_priming : f64; z_bops : Z }.
Definition put_core (z : nar) (s : cstate) : nar :=
  mkNar s (z_st z) (z_k z) (z_av z) (z_volume z) (z_aconf z) (z_thr z) (z_simdist z) (z_chance z) (z_priming z) (z_bops z).
Definition put_st (z : nar) (st : astate) : nar :=
  mkNar (z_core z) st (z_k z) (z_av z) (z_volume z) (z_aconf z) (z_thr z) (z_simdist z) (z_chance z) (z_priming z) (z_bops z).
Definition put_av (z : nar) (av : Z -> option (f64 * name)) : nar :=
  mkNar (z_core z) (z_st z) (z_k z) av (z_volume z) (z_aconf z) (z_thr z) (z_simdist z) (z_chance z) (z_priming z) (z_bops z).
Definition put_volume (z : nar) (v : f64) : nar :=
  mkNar (z_core z) (z_st z) (z_k z) (z_av z) v (z_aconf z) (z_thr z) (z_simdist z) (z_chance z) (z_priming z) (z_bops z).
Definition put_aconf (z : nar) (v : f64) : nar :=
  mkNar (z_core z) (z_st z) (z_k z) (z_av z) (z_volume z) v (z_thr z) (z_simdist z) (z_chance z) (z_priming z) (z_bops z).
Definition put_thr (z : nar) (v : f64) : nar :=
  mkNar (z_core z) (z_st z) (z_k z) (z_av z) (z_volume z) (z_aconf z) v (z_simdist z) (z_chance z) (z_priming z) (z_bops z).
Definition put_simdist (z : nar) (v : f64) : nar :=
  mkNar (z_core z) (z_st z) (z_k z) (z_av z) (z_volume z) (z_aconf z) (z_thr z) v (z_chance z) (z_priming z) (z_bops z).
Definition put_chance (z : nar) (v : f64) : nar :=
  mkNar (z_core z) (z_st z) (z_k z) (z_av z) (z_volume z) (z_aconf z) (z_thr z) (z_simdist z) v (z_priming z) (z_bops z).
Definition put_priming (z : nar) (v : f64) : nar :=
  mkNar (z_core z) (z_st z) (z_k z) (z_av z) (z_volume z) (z_aconf z) (z_thr z) (z_simdist z) (z_chance z) v (z_bops z).
Definition put_bops (z : nar) (v : Z) : nar :=
  mkNar (z_core z) (z_st z) (z_k z) (z_av z) (z_volume z) (z_aconf z) (z_thr z) (z_simdist z) (z_chance z) (z_priming z) v.
(** writes to the reasoner: clock, ids, RESTRICTED_CONCEPT_CREATION, operations *)
Definition put_time (z : nar) (t : Z) : nar := put_core z (set_time (z_core z) t).
Definition put_ids (z : nar) (g : idstate) : nar := put_core z (set_ids (z_core z) g).
Definition with_ops_restricted (m : memory) (ops : list operation) (r : bool) : memory :=
  mkMem (m_concepts m) (m_store m) (m_table m) (m_index m) (m_nextid m) (m_ring m) (m_beliefs m) (m_goals m) ops r.
Definition put_restricted (z : nar) (r : bool) : nar :=
  let m := s_mem (z_core z) in put_core z (set_mem (z_core z) (with_ops_restricted m (m_ops m) r)).
Definition put_ops (z : nar) (ops : list operation) : nar :=
  let m := s_mem (z_core z) in put_core z (set_mem (z_core z) (with_ops_restricted m ops (m_restricted m))).

(** *** the initial parameters: Config.h 32-34, 42-46, 80, 92; Decision.c 32 *)
Definition ANTICIPATION_CONFIDENCE_INITIAL : f64 := @aconst f64A 1 100.
Definition DECISION_THRESHOLD_INITIAL : f64 := @aconst f64A 501 1000.
Definition MOTOR_BABBLING_CHANCE_INITIAL : f64 := @aconst f64A 2 10.
Definition QUESTION_PRIMING_INITIAL : f64 := @aconst f64A 1 10.

(** *** C library: isspace in the C locale; sscanf %d, %u, %ld into a type of range [lo, hi]
    (a value out of range is undefined: C11 7.21.6.2 paragraph 10); %Ns; %N[^\n]; strtol, strtok *)
Definition isspace (c : Z) : bool := (c =? 32) || ((9 <=? c) && (c <=? 13)).
Definition isdigit (c : Z) : bool := (48 <=? c) && (c <=? 57).
Fixpoint skip_space (l : text) : text := match l with c :: r => if isspace c then skip_space r else l | [] => [] end.
(** the leading digits as a number on top of [acc], and the rest *)
Fixpoint digits (acc : Z) (l : text) : Z * text :=
  match l with c :: r => if isdigit c then digits (10 * acc + (c - 48)) r else (acc, l) | [] => (acc, []) end.
Definition starts_digit (l : text) : bool := match l with c :: _ => isdigit c | [] => false end.
Definition integer (l : text) : option (Z * text) :=
  let l := skip_space l in
  let '(neg, l) := match l with c :: r => if c =? 45 then (true, r) else if c =? 43 then (false, r) else (false, l) | [] => (false, []) end in
  if starts_digit l then let (v, r) := digits 0 l in Some (if neg then - v else v, r) else None.
Definition scan_integer (lo hi : Z) (l : text) : res (option (Z * text)) :=
  match integer l with
  | None => Ok None
  | Some (v, r) => if (lo <=? v) && (v <=? hi) then Ok (Some (v, r)) else UB
  end.
Definition INT_MIN : Z := - 2 ^ 31.
Definition INT_MAX : Z := 2 ^ 31 - 1.
Definition LONG_MIN : Z := - 2 ^ 63.
Definition LONG_MAX : Z := 2 ^ 63 - 1.
Definition scan_d := scan_integer INT_MIN INT_MAX.
Definition scan_ld := scan_integer LONG_MIN LONG_MAX.
(** strtol(token, NULL, 10): 0 without digits, clamped to the range of long *)
Definition strtol (l : text) : Z :=
  match integer l with None => 0 | Some (v, _) => Z.max LONG_MIN (Z.min LONG_MAX v) end.
(** " %Ns": up to N characters that are not white space; "" when there is none *)
Fixpoint word (n : nat) (l : text) : text :=
  match n, l with S n, c :: r => if isspace c then [] else c :: word n r | _, _ => [] end.
Definition scan_s (n : nat) (l : text) : text := word n (skip_space l).
(** " %N[^\n]" *)
Fixpoint upto_newline (n : nat) (l : text) : text :=
  match n, l with S n, c :: r => if c =? 10 then [] else c :: upto_newline n r | _, _ => [] end.
Definition scan_line (n : nat) (l : text) : text := upto_newline n (skip_space l).
(** strtok with "," *)
Fixpoint split_comma (acc : text) (l : text) : list text :=
  match l with
  | [] => match acc with [] => [] | _ => [rev acc] end
  | c :: r => if c =? 44 then match acc with [] => split_comma [] r | _ => rev acc :: split_comma [] r end else split_comma (c :: acc) r
  end.
(** position of the last ']' *)
Fixpoint last_close (l : text) (i : nat) : option nat :=
  match l with
  | [] => None
  | c :: r => match last_close r (S i) with Some j => Some j | None => if c =? 93 then Some i else None end
  end.

(** *** the tests of Shell.c 74-417, in order *)
Inductive command :=
| KCycle | KComment (t : text) | KReset | KVolume0 | KVolume100 | KRestricted (b : bool) | KVolume (a : text)
| KAnticipation (a : text) | KThreshold (a : text) | KSimilarity (a : text)
| KStats | KIndex | KOpConfig | KConcepts | KBeliefEvents | KGoalEvents | KQuit
| KBabblingOps (a : text) | KTime (a : text) | KStampId (a : text) | KStampImport (a : text)
| KBabblingOff | KBabblingOn | KBabbling (a : text) | KPriming (a : text)
| KSetValue (a : text) | KSpace (a : text) | KSetOpName (a : text) | KSetOpArg (a : text) | KQuery (a : text) | KSetStdin (a : text)
| KSteps (a : text) | KConcurrent | KSentence (a : text).
(** !strcmp(line, kw) *)
Definition is_ (l : text) (kw : string) : bool := list_eqb l (str kw).
(** !strncmp(kw, line, strlen(kw)) *)
Fixpoint prefixb (p l : text) : bool :=
  match p, l with [], _ => true | a :: p, b :: l => (a =? b) && prefixb p l | _, _ => false end.
Definition pre_ (l : text) (kw : string) : bool := prefixb (str kw) l.
Definition arg_ (l : text) (kw : string) : text := skipn (length (str kw)) l.
(** Shell.c 53-60 *)
Fixpoint drop_space (l : text) : text := match l with c :: r => if isspace c then drop_space r else l | [] => [] end.
Definition trim (l : text) : text := rev (drop_space (rev l)).
(** Shell.c 61-417 *)
Definition parse (l : text) : command :=
  match l with [] => KCycle | _ =>
  if (chr l 0 =? 47) && (chr l 1 =? 47) then KComment (skipn 2 l) else
  if is_ l "*reset" then KReset else
  if is_ l "*volume=0" then KVolume0 else
  if is_ l "*volume=100" then KVolume100 else
  if pre_ l "*restrictedconceptcreation=true" then KRestricted true else
  if pre_ l "*restrictedconceptcreation=false" then KRestricted false else
  if pre_ l "*volume=" then KVolume (arg_ l "*volume=") else
  if pre_ l "*anticipationconfidence=" then KAnticipation (arg_ l "*anticipationconfidence=") else
  if pre_ l "*decisionthreshold=" then KThreshold (arg_ l "*decisionthreshold=") else
  if pre_ l "*similaritydistance=" then KSimilarity (arg_ l "*similaritydistance=") else
  if is_ l "*stats" then KStats else
  if is_ l "*inverted_atom_index" then KIndex else
  if is_ l "*opconfig" then KOpConfig else
  if is_ l "*concepts" then KConcepts else
  if is_ l "*cycling_belief_events" then KBeliefEvents else
  if is_ l "*cycling_goal_events" then KGoalEvents else
  if is_ l "quit" then KQuit else
  if pre_ l "*babblingops=" then KBabblingOps (arg_ l "*babblingops=") else
  if pre_ l "*currenttime=" then KTime (arg_ l "*currenttime=") else
  if pre_ l "*stampid=" then KStampId (arg_ l "*stampid=") else
  if pre_ l "*stampimport=[" then KStampImport (arg_ l "*stampimport=[") else
  if is_ l "*motorbabbling=false" then KBabblingOff else
  if is_ l "*motorbabbling=true" then KBabblingOn else
  if pre_ l "*motorbabbling=" then KBabbling (arg_ l "*motorbabbling=") else
  if pre_ l "*questionpriming=" then KPriming (arg_ l "*questionpriming=") else
  if pre_ l "*setvalue " then KSetValue (arg_ l "*setvalue ") else
  if pre_ l "*space " then KSpace (arg_ l "*space ") else
  if pre_ l "*setopname " then KSetOpName (arg_ l "*setopname ") else
  if pre_ l "*setoparg " then KSetOpArg (arg_ l "*setoparg ") else
  if pre_ l "*query " then KQuery (arg_ l "*query ") else
  if pre_ l "*setopstdin " then KSetStdin (arg_ l "*setopstdin ") else
  if forallb isdigit l then KSteps l else
  if pre_ l "*concurrent" then KConcurrent else
  KSentence l
  end.

(** *** what the branches do *)
(** Shell.h 38-40 *)
Inductive result := SHELL_CONTINUE | SHELL_RESET | SHELL_EXIT.
(** lines printed by the shell itself: a comment, an answer (NAR_PrintAnswer), the number of steps
    announced, the listing of a command *)
Inductive output := OComment (t : text) | OAnswer (a : option answer) | OSteps (n : Z) | OShow (k : command).

Section Shell.
Variable v : env.
(** everything a call of the reasoner depends on *)
Definition params_of (z : nar) : params :=
  mkP (a_names (z_st z)) (z_av z) (z_simdist z) (v_pow v) (v_penalty v) (v_layers v) (z_thr z) (v_cond v) (v_athr v) (z_aconf z) (z_chance z) (z_bops z) (v_act v) (v_fuel v) (v_depth v).
Definition reason (z : nar) (c : call) : res nar := do s <- perform (params_of z) (z_core z) c ; Ok (put_core z s).

(** NAR.c 32-42.  Memory_INIT also resets conceptPriorityThreshold; the random number generator,
    the statistics, the stamp to import and the parameters stay. *)
Definition NAR_INIT (z : nar) : res nar :=
  do m <- Memory_INIT (v_cmax v) (v_buckets v) (v_atoms v) (v_bmax v) (v_gmax v) (v_layers v) ;
  do st <- Narsese_INIT (v_atoms v) ;
  Ok (mkNar (resetted (z_core z) m) st 0 (fun _ => None) (z_volume z) (z_aconf z) (z_thr z) (z_simdist z) (z_chance z) (z_priming z) (z_bops z)).
(** Shell.c 31-48: OPERATIONS_MAX is 10, so all ten are added and the final assert is not reached *)
Definition shell_ops : list (name * Z) :=
  map (fun n => (str n, NOP)) ["^left"; "^right"; "^up"; "^down"; "^say"; "^pick"; "^drop"; "^go"; "^activate"; "^deactivate"]%string.
Definition Shell_NARInit (z : nar) : res nar :=
  do z <- NAR_INIT z ;
  do o <- AddOperations (v_atoms v) (mkOps (z_st z) (m_ops (s_mem (z_core z))) (z_k z)) shell_ops ;
  let z := put_ops (put_st z (n_st o)) (n_ops o) in
  Ok (mkNar (z_core z) (z_st z) (n_k o) (z_av z) (z_volume z) (z_aconf z) (z_thr z) (z_simdist z) (z_chance z) (z_priming z) (z_bops z)).

(** NAR.c 122-303 *)
Definition AddInputNarsese2 (z : nar) (l : text) (query : bool) (threshold : f64) : res (nar * list output) :=
  do (st, s) <- Narsese_Sentence (v_atoms v) (v_atof v) (v_scan1 v) (v_scan2 v) (z_st z) l ;
  let z := put_st z st in
  let nm := a_names st in
  let t := RuleTable_Reduce nm (ParserM.s_term s) in
  if s_punctuation s =? 63 then
    do (m, ans) <- Question nm (z_av z) (z_simdist z) (v_pow v) (s_time (z_core z)) query threshold (z_priming z) (s_mem (z_core z)) t (s_tense s) ;
    Ok (put_core z (set_mem (z_core z) m), map OAnswer ans)
  else
    let goal := s_punctuation s =? 33 in
    do _ <- rassert (negb (goal && (s_tense s =? 0))) ;
    do _ <- rassert (negb (s_punctuation s =? 46) || (s_tense s <? 2)) ;
    do z <- reason z (CInput t (if goal then EVENT_TYPE_GOAL else EVENT_TYPE_BELIEF)
                        (@mkTruth f64A (fst (ParserM.s_truth s)) (snd (ParserM.s_truth s))) (s_tense s =? 0) (s_offset s)) ;
    Ok (z, []).

(** Shell.c 108-110, 248-262: the parameter keeps its value when nothing can be read *)
Definition set_lf (a : text) (put : f64 -> nar) (z : nar) : nar := match v_lf v a with Some (x, _) => put x | None => z end.
(** Shell.c 101-106 *)
Definition volume (z : nar) (a : text) : res nar :=
  do r <- scan_d a ;
  let n := match r with Some (n, _) => n | None => 0 end in
  Ok (put_volume z (fsub f1 (fdiv (fofZ n) (fofZ 100)))).
(** Shell.c 263-284; the tokens are copied to a buffer of 1000 characters *)
Definition stamp_import (z : nar) (a : text) : res nar :=
  match last_close a 0 with
  | None => UB
  | Some n =>
    if (n <? 1000)%nat then
      let ids := map strtol (split_comma [] (firstn n a)) in
      Ok (put_ids z (mkIds (g_base (s_ids (z_core z))) (firstn STAMP_SIZE (ids ++ stamp_zero))))
    else UB
  end.
(** Shell.c 301-331; "%lf %d %32s", the buffer termname_ext has 33 characters *)
Definition set_value (z : nar) (a : text) : res nar :=
  do r <- (match v_lf v a with
           | None => Ok (f0, -1, [])
           | Some (x, a) => do r <- scan_d a ; Ok (match r with None => (x, -1, []) | Some (g, a) => (x, g, scan_s 32 a) end)
           end) ;
  let '(x, g, n) := r in
  do _ <- rassert ((1 <=? g) && (g <=? 1000)) ;
  let ext := n ++ (match n with [] => [] | _ => [95] end) ++ v_fmt v (if g <=? 10 then 1%nat else if g <=? 100 then 2%nat else 3%nat) x in
  if (length ext <=? 32)%nat then
    do (st, i) <- AtomicTermIndex (v_atoms v) (z_st z) ext ;
    let atom := to_atom i in
    do _ <- rassert (0 <? atom) ;
    Ok (put_av (put_st z st) (fun b => if b =? atom then Some (x, firstn 31 n) else z_av z b))
  else UB.
(** decimal digits of a number 1..1000 (printf %d) *)
Definition decimal (g : Z) : text :=
  (if g <? 1000 then [] else [48 + g / 1000]) ++ (if g <? 100 then [] else [48 + g / 100 mod 10]) ++ (if g <? 10 then [] else [48 + g / 10 mod 10]) ++ [48 + g mod 10].
(** Shell.c 332-347: the line "*setvalue x g name" is processed as if entered (trimmed, and then in
    the branch *setvalue) *)
Fixpoint space_loop (n : nat) (i : Z) (z : nar) (g : Z) (tn : text) : res nar :=
  match n with
  | O => Ok z
  | S n =>
    let l := trim (str "*setvalue " ++ v_fmt v 6 (fdiv (fofZ i) (fofZ g)) ++ [32] ++ decimal g ++ [32] ++ tn) in
    do z <- set_value z (arg_ l "*setvalue ") ;
    space_loop n (i + 1) z g tn
  end.
Definition space (z : nar) (a : text) : res nar :=
  do r <- scan_d a ;
  match r with
  | None => UB
  | Some (g, a) => do _ <- rassert ((1 <=? g) && (g <=? 1000)) ; space_loop (Z.to_nat g) 0 z g (scan_s 32 a)
  end.
(** Shell.c 349-373; an unread opID is an uninitialised variable *)
Definition set_op_name (z : nar) (a : text) : res nar :=
  let n := PQueueM.amount (m_concepts (s_mem (z_core z))) in
  do _ <- rassert (n =? 0)%nat ;
  do r <- scan_d a ;
  match r with
  | None => UB
  | Some (id, a) =>
    do o <- SetOpName (v_atoms v) n (mkOps (z_st z) (m_ops (s_mem (z_core z))) (z_k z)) id (scan_s 32 a) ;
    Ok (put_ops (put_st z (n_st o)) (n_ops o))
  end.
Definition with_oparg (o : operation) (k : nat) (t : term) : operation := mkOp (op_term o) (op_action o) (upd (op_args o) k t) (op_stdout o).
Definition with_stdin (o : operation) : operation := mkOp (op_term o) (op_action o) (op_args o) true.
(** Shell.c 374-385 *)
Definition set_op_arg (z : nar) (a : text) : res nar :=
  do r <- scan_d a ;
  match r with
  | None => UB
  | Some (id, a) =>
    do r <- scan_d a ;
    match r with
    | None => do _ <- rassert ((1 <=? id) && (id <=? Z.of_nat OPERATIONS_MAX)) ; UB
    | Some (k, a) =>
      do _ <- rassert ((1 <=? id) && (id <=? Z.of_nat OPERATIONS_MAX)) ;
      do _ <- rassert ((1 <=? k) && (k <=? 10)) ;
      do (st, t) <- Narsese_Term (v_atoms v) (z_st z) (scan_line NARSESE_LEN_MAX a) ;
      let ops := m_ops (s_mem (z_core z)) in
      let i := Z.to_nat (id - 1) in
      Ok (put_ops (put_st z st) (upd ops i (with_oparg (nth i ops op0) (Z.to_nat (k - 1)) t)))
    end
  end.
(** Shell.c 386-395 *)
Definition query (z : nar) (a : text) : res (nar * list output) :=
  match v_lf v a with
  | None => UB
  | Some (x, a) => do _ <- rassert (fleb f0 x && fleb x f1) ; AddInputNarsese2 z (scan_line NARSESE_LEN_MAX a) true x
  end.
(** Shell.c 396-402: no test of the index *)
Definition set_stdin (z : nar) (a : text) : res nar :=
  do r <- scan_d a ;
  match r with
  | None => UB
  | Some (id, _) =>
    let ops := m_ops (s_mem (z_core z)) in
    if (1 <=? id) && (id <=? Z.of_nat (length ops)) then
      let i := Z.to_nat (id - 1) in Ok (put_ops z (upd ops i (with_stdin (nth i ops op0))))
    else UB
  end.
(** Shell.c 403-410: "%u", the number becomes the int argument of NAR_Cycles modulo 2^32
    (implementation-defined, as gcc does) *)
Definition to_int (n : Z) : Z := if n <? 2 ^ 31 then n else n - 2 ^ 32.
Definition steps (z : nar) (a : text) : res (nar * list output) :=
  do r <- scan_integer 0 (2 ^ 32 - 1) a ;
  match r with
  | None => UB
  | Some (n, _) => do z <- reason z (CCycles (Z.to_nat (to_int n))) ; Ok (z, [OSteps n])
  end.
Definition quiet (r : res nar) : res (nar * result * list output) := do z <- r ; Ok (z, SHELL_CONTINUE, []).
Definition loud (r : res (nar * list output)) : res (nar * result * list output) := do (z, o) <- r ; Ok (z, SHELL_CONTINUE, o).
Definition run (z : nar) (k : command) : res (nar * result * list output) :=
  match k with
  | KCycle => quiet (reason z (CCycles 1))
  | KComment t => Ok (z, SHELL_CONTINUE, [OComment t])
  | KReset => Ok (z, SHELL_RESET, [])
  | KVolume0 => quiet (Ok (put_volume z f1))
  | KVolume100 => quiet (Ok (put_volume z f0))
  | KRestricted b => quiet (Ok (put_restricted z b))
  | KVolume a => quiet (volume z a)
  | KAnticipation a => quiet (Ok (set_lf a (put_aconf z) z))
  | KThreshold a => quiet (Ok (set_lf a (put_thr z) z))
  | KSimilarity a => quiet (Ok (set_lf a (put_simdist z) z))
  | KStats => if s_time (z_core z) =? 0 then UB (* Stats.c 63 divides by it *) else Ok (z, SHELL_CONTINUE, [OShow k])
  | KIndex | KOpConfig | KConcepts | KBeliefEvents | KGoalEvents => Ok (z, SHELL_CONTINUE, [OShow k])
  | KQuit => Ok (z, SHELL_EXIT, [])
  | KBabblingOps a => quiet (do r <- scan_d a ; Ok (match r with Some (n, _) => put_bops z n | None => z end))
  | KTime a => quiet (do r <- scan_ld a ; Ok (match r with Some (n, _) => put_time z n | None => z end))
  | KStampId a => quiet (do r <- scan_ld a ; Ok (match r with Some (n, _) => put_ids z (mkIds n (g_import (s_ids (z_core z)))) | None => z end))
  | KStampImport a => quiet (stamp_import z a)
  | KBabblingOff => quiet (Ok (put_chance z f0))
  | KBabblingOn => quiet (Ok (put_chance z MOTOR_BABBLING_CHANCE_INITIAL))
  | KBabbling a => quiet (Ok (set_lf a (put_chance z) z))
  | KPriming a => quiet (Ok (set_lf a (put_priming z) z))
  | KSetValue a => quiet (set_value z a)
  | KSpace a => quiet (space z a)
  | KSetOpName a => quiet (set_op_name z a)
  | KSetOpArg a => quiet (set_op_arg z a)
  | KQuery a => loud (query z a)
  | KSetStdin a => quiet (set_stdin z a)
  | KSteps a => loud (steps z a)
  | KConcurrent => quiet (Ok (put_time z (s_time (z_core z) - 1)))
  | KSentence a => loud (AddInputNarsese2 z a false f0)
  end.
(** Shell.c 50-424 *)
Definition Shell_ProcessInput (z : nar) (l : text) : res (nar * result * list output) := run z (parse (trim l)).

(** *** Shell.c 426-451 [Shell_Start]: the lines of standard input until quit or end of file;
    [line] also is the critical section of UDPNAR.c 66-73 *)
Definition line (z : nar) (l : text) : res (nar * bool * list output) :=
  do (r, o) <- Shell_ProcessInput z l ;
  let '(z, r) := r in
  match r with
  | SHELL_CONTINUE => Ok (z, true, o)
  | SHELL_RESET => do z <- Shell_NARInit z ; Ok (z, true, o)
  | SHELL_EXIT => Ok (z, false, o)
  end.
Fixpoint session (z : nar) (ls : list text) : res (nar * list output) :=
  match ls with
  | [] => Ok (z, [])
  | l :: ls =>
    do (r, o) <- line z l ;
    let '(z, go) := r in
    if go then do (z, o') <- session z ls ; Ok (z, o ++ o') else Ok (z, o)
  end.
(** the globals at program start ([m]: zeroed memory, replaced by the first NAR_INIT) *)
Definition nar0 (m : memory) (st : astate) (rng : Z) : nar :=
  mkNar (cstate0 m rng) st 0 (fun _ => None) f0 ANTICIPATION_CONFIDENCE_INITIAL DECISION_THRESHOLD_INITIAL f1
    MOTOR_BABBLING_CHANCE_INITIAL QUESTION_PRIMING_INITIAL (Z.of_nat OPERATIONS_MAX).
(** Shell.c 428; [rng]: main.c 154-156 *)
Definition start (rng : Z) : res nar :=
  do m <- Memory_INIT (v_cmax v) (v_buckets v) (v_atoms v) (v_bmax v) (v_gmax v) (v_layers v) ;
  do st <- Narsese_INIT (v_atoms v) ;
  Shell_NARInit (nar0 m st rng).
(** fgets(line, 1024, stdin): a longer line arrives in pieces of 1023 characters; [l] is a line
    without its newline *)
Fixpoint pieces (fuel : nat) (l : text) : list text :=
  match fuel with
  | O => []
  | S fuel => if (length l <? 1023)%nat then [l] else firstn 1023 l :: pieces fuel (skipn 1023 l)
  end.
End Shell.
