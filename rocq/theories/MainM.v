(** The command line: main.c.  An execution is the list of what is started, in order; whether these
    (the shell, an example, the server) come back is not modelled: the list is what happens as long
    as they do. *)
From Coq Require Import ZArith String List Bool.
From Verif Require Import Base RulesM ParserM CycleM ShellM.
Import ListNotations.
Local Open Scope Z_scope.

Inductive example := Pong | Pong2 | TestChamber | Alien | Cartpole | Robot | Bandrobot.
Inductive started :=
| SInit (* NAR_INIT *) | SRuleTable (* NAL_GenerateRuleTable *) | SShell (* Shell_Start *)
| SExample (x : example) (iterations : option Z) (* None: no such parameter *)
| SServer (ip : text) (port timestep : Z) (derivations : bool) (* UDPNAR_Start ... UDPNAR_Stop *)
| SLine (l : text) (* Shell_ProcessInput *)
| STests (* Run_Unit_Tests, Run_System_Tests *) | SHelp (* Display_Help *).

(** strcmp(a, b) == 0 *)
Fixpoint same (a b : text) : bool :=
  match a, b with [], [] => true | x :: a, y :: b => (x =? y) && same a b | _, _ => false end.
(** main.c 68-102: what an argument starts *)
Definition start (a : text) (n : Z) : list started :=
  if same a (str "pong"%string) then [SExample Pong (Some n)] else
  if same a (str "pong2"%string) then [SExample Pong2 (Some n)] else
  if same a (str "testchamber"%string) then [SExample TestChamber None] else
  if same a (str "alien"%string) then [SExample Alien (Some n)] else
  if same a (str "cartpole"%string) then [SExample Cartpole (Some n)] else
  if same a (str "robot"%string) then [SExample Robot (Some n)] else
  if same a (str "bandrobot"%string) then [SExample Bandrobot (Some n)] else [].
(** main.c 66-103: the loop over the arguments; atol is glibc's (strtol) *)
Fixpoint arg_loop (args : list text) : list started :=
  match args with
  | [] => []
  | a :: rest => start a (match rest with b :: _ => strtol b | [] => -1 end) ++ arg_loop rest
  end.
(** atoi is glibc's: strtol, converted to int *)
Definition atoi (t : text) : Z := (strtol t + 2 ^ 31) mod 2 ^ 32 - 2 ^ 31.
(** main.c 38-53 *)
Definition inspect (args : list text) : bool :=
  match args with
  | _ :: a2 :: a3 :: _ => same a3 (str "InspectionOnExit"%string) || same a2 (str "InspectionOnExit"%string)
  | [_; a2] => same a2 (str "InspectionOnExit"%string)
  | _ => false
  end.
(** main.c 118-125 *)
Definition inspection : list started :=
  map SLine [str "*opconfig"%string; str "*concepts"%string; str "*cycling_belief_events"%string; str "*cycling_goal_events"%string; str "*stats"%string].
(** main.c 36-126 [Process_Args] and 151-167 [main]; [args] are argv[1] ... argv[argc-1].  The
    second component: undefined behaviour after these (the server's arguments are read without
    looking at argc, 106-109: argv[argc] is NULL, what follows is outside the array) *)
Definition main (args : list text) : list started * bool :=
  match args with
  | [] => ([SInit; STests; SHelp], false)
  | a1 :: _ =>
    if same a1 (str "NAL_GenerateRuleTable"%string) then ([SInit; SRuleTable], false) else
    let before := [SInit] ++ (if same a1 (str "shell"%string) then [SShell] else []) ++ arg_loop args in
    let after := if inspect args then inspection else [] in
    if same a1 (str "UDPNAR"%string) then
      match args with
      | _ :: ip :: port :: timestep :: derivations :: _ =>
        (before ++ [SServer ip (atoi port) (strtol timestep) (same derivations (str "true"%string))] ++ after, false)
      | _ => (before, true)
      end
    else (before ++ after, false)
  end.
