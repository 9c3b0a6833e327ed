(** Model of operation registration: /repo/src/NAR.c 79-96 [NAR_AddOperation], /repo/src/Memory.c
    443-457 (as [getOperationID] of MemoryM) and the shell command *setopname, /repo/src/Shell.c
    349-373.  [n_st] is the symbol table, [n_ops] the global array operations, [n_k] the static
    counter op_k of NAR.c 29. *)
From Coq Require Import ZArith List Bool.
From Verif Require Import Base F64 HashM StackM HashTableM TermM NamesM AtomsM VariableM MemoryM.
Local Open Scope Z_scope.

Record opstate := mkOps { n_st : astate; n_ops : list operation; n_k : nat }.
(** Memory.c 443-457 on the operations array *)
Definition operationID (nm : names) (ops : list operation) (t : term) : nat :=
  let a := getOperationAtom nm t in if a =? 0 then O else find_op 1 a ops.
Section Cap.
Variable cap : nat.
(** Narsese.c 458-464 [Narsese_AtomicTerm] *)
Definition AtomicTerm (st : astate) (n : name) : res (astate * term) :=
  do (st, i) <- AtomicTermIndex cap st n ; Ok (st, atomic_term (to_atom i)).
(** NAR.c 79-96; [action] 0 is the null procedure *)
Definition AddOperation (s : opstate) (n : name) (action : Z) : res opstate :=
  do _ <- rassert (negb (action =? 0)) ;
  do (st, t) <- AtomicTerm (n_st s) n ;
  do _ <- rassert (nth 0 n 0 =? 94) ;
  let ex := operationID (a_names st) (n_ops s) t in
  let use_k := match ex with O => S (n_k s) | _ => ex end in
  do _ <- rassert (use_k <=? OPERATIONS_MAX)%nat ;
  Ok (mkOps st (upd (n_ops s) (use_k - 1) (mkOp t action (repeat zero_term 10) false))
        (match ex with O => S (n_k s) | _ => n_k s end)).
Fixpoint AddOperations (s : opstate) (hs : list (name * Z)) : res opstate :=
  match hs with [] => Ok s | (n, a) :: hs => do s <- AddOperation s n a ; AddOperations s hs end.

(** [operations[k].term = t] *)
Definition with_opterm (o : operation) (t : term) : operation := mkOp t (op_action o) (op_args o) (op_stdout o).
(** Shell.c 358-367: clear the first operation with this term and all after it *)
Fixpoint clear_from (t : term) (found : bool) (ops : list operation) : list operation :=
  match ops with
  | [] => []
  | o :: ops => let found := found || term_eqb (op_term o) t in
                (if found then with_opterm o zero_term else o) :: clear_from t found ops
  end.
(** identifies Shell_op_nop (Shell.c 27) *)
Definition NOP : Z := 1.
(** Shell.c 349-373 after scanning: [concepts] is the number of concepts, [opID] and [n] the
    scanned values (the scan keeps at most 32 characters of the name) *)
Definition SetOpName (concepts : nat) (s : opstate) (opID : Z) (n : name) : res opstate :=
  do _ <- rassert (concepts =? 0)%nat ;
  do _ <- rassert ((1 <=? opID) && (opID <=? Z.of_nat OPERATIONS_MAX)) ;
  do (st, t) <- AtomicTerm (n_st s) n ;
  let ops := clear_from t false (n_ops s) in
  let k := Z.to_nat (opID - 1) in
  let o := nth k ops op0 in
  Ok (mkOps st (upd ops k (mkOp t (if op_action o =? 0 then NOP else op_action o) (op_args o) (op_stdout o))) (n_k s)).
End Cap.
