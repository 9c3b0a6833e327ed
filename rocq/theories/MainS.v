(** Vocabulary for the command line: what the arguments mean. *)
From Coq Require Import ZArith String List.
From Verif Require Import Base RulesM ParserM ShellM ShellS MainM.
Import ListNotations.
Local Open Scope Z_scope.

(** the names of the examples, and whether they take a number of iterations *)
Inductive named : text -> example -> bool -> Prop :=
| n_pong : named (str "pong"%string) Pong true
| n_pong2 : named (str "pong2"%string) Pong2 true
| n_testchamber : named (str "testchamber"%string) TestChamber false
| n_alien : named (str "alien"%string) Alien true
| n_cartpole : named (str "cartpole"%string) Cartpole true
| n_robot : named (str "robot"%string) Robot true
| n_bandrobot : named (str "bandrobot"%string) Bandrobot true.
(** the iterations of an example: the number in the next argument, 0 if it is none; -1 (no limit)
    without next argument *)
Inductive iterations : list text -> Z -> Prop :=
| i_none : iterations [] (-1)
| i_next t ts n : item_value t n -> iterations (t :: ts) n.
(** the examples that are run, in order: one for each argument that is the name of one *)
Inductive examples : list text -> list started -> Prop :=
| e_nil : examples [] []
| e_limited a ts x n l : named a x true -> iterations ts n -> examples ts l -> examples (a :: ts) (SExample x (Some n) :: l)
| e_plain a ts x l : named a x false -> examples ts l -> examples (a :: ts) (SExample x None :: l)
| e_other a ts l : (forall x b, ~ named a x b) -> examples ts l -> examples (a :: ts) l.
(** inspection is asked for in the second or third argument *)
Definition inspected (ts : list text) : Prop :=
  nth_error ts 1 = Some (str "InspectionOnExit"%string) \/ nth_error ts 2 = Some (str "InspectionOnExit"%string).
Definition inspection_of (ts : list text) (l : list started) : Prop :=
  inspected ts /\ l = [SLine (str "*opconfig"%string); SLine (str "*concepts"%string); SLine (str "*cycling_belief_events"%string); SLine (str "*cycling_goal_events"%string); SLine (str "*stats"%string)]
  \/ ~ inspected ts /\ l = [].
(** an int with the value modulo 2^32 *)
Definition as_int (n p : Z) : Prop := - 2 ^ 31 <= p < 2 ^ 31 /\ exists k, n = p + k * 2 ^ 32.
(** [command ts l crash]: the arguments [ts] start [l], then the program crashes or is finished *)
Inductive command : list text -> list started -> bool -> Prop :=
| c_none : command [] [SInit; STests; SHelp] false
| c_rules ts : command (str "NAL_GenerateRuleTable"%string :: ts) [SInit; SRuleTable] false
| c_shell ts xs is : examples (str "shell"%string :: ts) xs -> inspection_of (str "shell"%string :: ts) is ->
    command (str "shell"%string :: ts) (SInit :: SShell :: xs ++ is) false
| c_server ip port timestep der ts xs is n p t d :
    examples (str "UDPNAR"%string :: ip :: port :: timestep :: der :: ts) xs ->
    inspection_of (str "UDPNAR"%string :: ip :: port :: timestep :: der :: ts) is ->
    item_value port n -> as_int n p -> item_value timestep t -> (d = true <-> der = str "true"%string) ->
    command (str "UDPNAR"%string :: ip :: port :: timestep :: der :: ts) (SInit :: xs ++ SServer ip p t d :: is) false
| c_server_crash ts xs : (length ts < 4)%nat -> examples (str "UDPNAR"%string :: ts) xs ->
    command (str "UDPNAR"%string :: ts) (SInit :: xs) true
| c_examples a ts xs is : a <> str "NAL_GenerateRuleTable"%string -> a <> str "shell"%string -> a <> str "UDPNAR"%string ->
    examples (a :: ts) xs -> inspection_of (a :: ts) is ->
    command (a :: ts) (SInit :: xs ++ is) false.
