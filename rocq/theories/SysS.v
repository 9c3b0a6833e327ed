(** Specification vocabulary: lives of one reasoner with memory of fixed sizes, whose symbol table
    grows.  (The histories of CycleS.v leave all of this open.) *)
From Coq Require Import ZArith List Bool.
From Verif Require Import Base F64 TruthM StampM TermM NamesM EventM MemoryM QuestionM DecisionM CycleM CycleS.
Import ListNotations.
Local Open Scope Z_scope.
Section Sys.
(** in the program [cmax] = 16384, [atoms] = 65536, [bmax] = 40, [gmax] = 400, [layers] = 30 (Config.h) *)
Variables cmax buckets atoms bmax gmax layers : nat.
(** the term consists of symbols of the table *)
Definition known (nm : names) (t : term) : Prop := Forall (fun a => 0 <= a <= Z.of_nat (length nm) /\ a < Z.of_nat atoms) t.
(** ten operations, their names and arguments being symbols of the table *)
Definition known_ops (nm : names) (ops : list operation) : Prop :=
  length ops = OPERATIONS_MAX /\ Forall (fun o => known nm (op_term o) /\ Forall (known nm) (op_args o)) ops.
(** operations answer with symbols of the table *)
Definition known_answers (nm : names) (act : list exec -> exec -> feedback) : Prop :=
  forall l x, Forall (known nm) (fb_map (act l x)) /\ forall t, fb_stdin (act l x) = SLine t -> known nm t.
Definition known_call (nm : names) (c : call) : Prop := match c with CCycles _ => True | CInput t _ _ _ _ => known nm t end.
(** [lives nm s]: a reasoner that was started or reset can be in state [s] with symbol table [nm] *)
Inductive lives : names -> cstate -> Prop :=
| lv_start m rng : Memory_INIT cmax buckets atoms bmax gmax layers = Ok m -> lives init_list (cstate0 m rng)
| lv_reset nm s m : lives nm s -> Memory_INIT cmax buckets atoms bmax gmax layers = Ok m -> lives init_list (resetted s m)
| lv_names nm s more : lives nm s -> lives (nm ++ more) s
| lv_config nm s ops restricted t g : lives nm s -> known_ops nm ops -> lives nm (configured s ops restricted t g)
| lv_question nm s nm' av simdist pow now query threshold priming t tense m out : lives nm s ->
    Question nm' av simdist pow now query threshold priming (s_mem s) t tense = Ok (m, out) -> lives nm (set_mem s m)
| lv_call nm s p c s' : lives nm s -> p_nm p = nm -> p_layers p = layers -> known_answers nm (p_act p) -> known_call nm c ->
    perform p s c = Ok s' -> lives nm s'.
End Sys.
(** Sessions of the shell whose symbol table never got full (in the program it cannot: there are as
    many symbols as values of the type of atoms, and the counter is stored modulo that number). *)
From Verif Require Import AtomsM ShellM ShellS.
Definition room (v : env) (z : nar) : Prop := v_atoms v = ATOMS_MAX \/ (length (a_names (z_st z)) < v_atoms v)%nat.
Inductive roomy (v : env) : nar -> Prop :=
| ro_start rng z : start v rng = Ok z -> room v z -> roomy v z
| ro_line z l z' go o : roomy v z -> line v z l = Ok (z', go, o) -> room v z' -> roomy v z'.
(** operations answer with built-in symbols only *)
Definition plain_answers (v : env) : Prop := known_answers (v_atoms v) init_list (v_act v).
(** the memory sizes of a program *)
Definition sizes (v : env) : Prop :=
  (0 < v_cmax v /\ 0 < v_buckets v /\ 64 <= v_atoms v /\ 0 < v_bmax v /\ 0 < v_gmax v /\ 0 < v_layers v)%nat.
