(** The network server: NetworkNAR/UDPNAR.c with its three threads, two mutexes and the socket.

    Code inside a critical section is a terminating sequence of atomic accesses to the memory of the
    process, whatever they are ([code]); every interleaving of the threads at that granularity is an
    execution.  The mutexes are those of POSIX (an acquired one is held until released), and a wait
    for the condition may end at any time (POSIX allows spurious wake-ups).

    Simplified: [Stopped] and [Started] are read and written atomically; recvfrom on the open socket
    waits for a datagram (it does not fail); the time step is not negative (UDPNAR.c 38); a process
    that ends inside a section (assert) is an execution that goes no further. *)
From Coq Require Import ZArith List Bool.
From Verif Require Import Base ParserM CycleM CycleS ShellM.
Import ListNotations.
Local Open Scope Z_scope.

(** a datagram, or what is in the buffer after recvfrom failed (undefined) *)
Definition datagram := option (list Z).
(** the two critical sections: UDPNAR.c 41-43 and 66-72 *)
Inductive sect := SCycle | SInput (d : datagram).
Inductive tid := TMain | TReasoner | TReceiver.

Section Threads.
Variable M : Type.
Inductive code := Ret | Act (f : M -> M) (k : M -> code).
Fixpoint exec (c : code) (m : M) : M := match c with Ret => m | Act f k => exec (k m) (f m) end.
Variable body : sect -> code.

(** UDPNAR.c 80-109 [UDPNAR_Start], [UDPNAR_Stop]: Shell_NARInit and the creation of the socket (83-84)
    are before the first state *)
Inductive mpc :=
| MLock1 (* 86 *) | MCreate1 (* 87 *) | MWait1 (* 88 *) | MWaiting1 | MUnlock1 (* 89 *)
| MLock2 (* 91 *) | MCreate2 (* 92 *) | MWait2 (* 93 *) | MWaiting2 | MUnlock2 (* 94 *) | MReturn (* 95-97 *)
| MStarted (* between Start and Stop *) | MShut (* 104-105 *) | MJoin1 (* 106 *) | MJoin2 (* 107 *) | MEnd.
(** UDPNAR.c 32-50 [Reasoner_Thread_Run] *)
Inductive rpc :=
| RNone | RLock0 (* 34 *) | RSignal (* 35 *) | RUnlock0 (* 36 *) | RArg (* 37-38 *)
| RTest (* 39 *) | RLock (* 41 *) | RIn (c : code) (* 42-43 *) | RSleep (* 44-47 *) | RDone.
(** UDPNAR.c 52-75 [Receive_Thread_Run] *)
Inductive vpc :=
| VNone | VLock0 (* 54 *) | VSignal (* 55 *) | VUnlock0 (* 56 *) | VArg (* 57 *)
| VRecv (* 61 *) | VTest (d : datagram) (* 62 *) | VLock (d : datagram) (* 66 *) | VIn (c : code) (* 67-72 *) | VDone.
(** memory, owner of nar_mutex and start_mutex, Stopped, whether the socket is open, the threads *)
Record proc := mkProc { u_mem : M; u_nar : option tid; u_start : option tid; u_stopped : bool; u_open : bool; u_main : mpc; u_rea : rpc; u_rcv : vpc }.
(** what can be observed of a step *)
Inductive label := LTau | LEnter (s : sect) | LReceived (d : datagram) | LTimestep | LReturned | LStop | LEnd.

Inductive step : proc -> label -> proc -> Prop :=
(* main: UDPNAR_Start *)
| m_lock1 m n st op r v : step (mkProc m n None st op MLock1 r v) LTau (mkProc m n (Some TMain) st op MCreate1 r v)
| m_create1 m n s st op r v : step (mkProc m n s st op MCreate1 r v) LTau (mkProc m n s st op MWait1 RLock0 v)
| m_wait1 m n s st op r v : step (mkProc m n s st op MWait1 r v) LTau (mkProc m n None st op MWaiting1 r v)
| m_woken1 m n st op r v : step (mkProc m n None st op MWaiting1 r v) LTau (mkProc m n (Some TMain) st op MUnlock1 r v)
| m_unlock1 m n s st op r v : step (mkProc m n s st op MUnlock1 r v) LTau (mkProc m n None st op MLock2 r v)
| m_lock2 m n st op r v : step (mkProc m n None st op MLock2 r v) LTau (mkProc m n (Some TMain) st op MCreate2 r v)
| m_create2 m n s st op r v : step (mkProc m n s st op MCreate2 r v) LTau (mkProc m n s st op MWait2 r VLock0)
| m_wait2 m n s st op r v : step (mkProc m n s st op MWait2 r v) LTau (mkProc m n None st op MWaiting2 r v)
| m_woken2 m n st op r v : step (mkProc m n None st op MWaiting2 r v) LTau (mkProc m n (Some TMain) st op MUnlock2 r v)
| m_unlock2 m n s st op r v : step (mkProc m n s st op MUnlock2 r v) LTau (mkProc m n None st op MReturn r v)
| m_return m n s st op r v : step (mkProc m n s st op MReturn r v) LReturned (mkProc m n s st op MStarted r v)
(* main: UDPNAR_Stop *)
| m_stop m n s st op r v : step (mkProc m n s st op MStarted r v) LStop (mkProc m n s true op MShut r v)
| m_shut m n s st op r v : step (mkProc m n s st op MShut r v) LTau (mkProc m n s st false MJoin1 r v)
| m_join1 m n s st op v : step (mkProc m n s st op MJoin1 RDone v) LTau (mkProc m n s st op MJoin2 RDone v)
| m_join2 m n s st op r : step (mkProc m n s st op MJoin2 r VDone) LEnd (mkProc m n s st op MEnd r VDone)
(* reasoner *)
| r_lock0 m n st op p v : step (mkProc m n None st op p RLock0 v) LTau (mkProc m n (Some TReasoner) st op p RSignal v)
| r_signal m n s st op p v : step (mkProc m n s st op p RSignal v) LTau (mkProc m n s st op p RUnlock0 v)
| r_unlock0 m n s st op p v : step (mkProc m n s st op p RUnlock0 v) LTau (mkProc m n None st op p RArg v)
| r_arg m n s st op p v : step (mkProc m n s st op p RArg v) LTimestep (mkProc m n s st op p RTest v)
| r_stopped m n s op p v : step (mkProc m n s true op p RTest v) LTau (mkProc m n s true op p RDone v)
| r_again m n s op p v : step (mkProc m n s false op p RTest v) LTau (mkProc m n s false op p RLock v)
| r_lock m s st op p v : step (mkProc m None s st op p RLock v) (LEnter SCycle) (mkProc m (Some TReasoner) s st op p (RIn (body SCycle)) v)
| r_act f k m n s st op p v : step (mkProc m n s st op p (RIn (Act f k)) v) LTau (mkProc (f m) n s st op p (RIn (k m)) v)
| r_unlock m n s st op p v : step (mkProc m n s st op p (RIn Ret) v) LTau (mkProc m None s st op p RSleep v)
| r_sleep m n s st op p v : step (mkProc m n s st op p RSleep v) LTau (mkProc m n s st op p RTest v)
(* receiver *)
| v_lock0 m n st op p r : step (mkProc m n None st op p r VLock0) LTau (mkProc m n (Some TReceiver) st op p r VSignal)
| v_signal m n s st op p r : step (mkProc m n s st op p r VSignal) LTau (mkProc m n s st op p r VUnlock0)
| v_unlock0 m n s st op p r : step (mkProc m n s st op p r VUnlock0) LTau (mkProc m n None st op p r VArg)
| v_arg m n s st op p r : step (mkProc m n s st op p r VArg) LTau (mkProc m n s st op p r VRecv)
| v_recv d m n s st op p r : step (mkProc m n s st op p r VRecv) (LReceived (Some d)) (mkProc m n s st op p r (VTest (Some d)))
| v_fail m n s st p r : step (mkProc m n s st false p r VRecv) (LReceived None) (mkProc m n s st false p r (VTest None))
| v_stopped d m n s op p r : step (mkProc m n s true op p r (VTest d)) LTau (mkProc m n s true op p r VDone)
| v_again d m n s op p r : step (mkProc m n s false op p r (VTest d)) LTau (mkProc m n s false op p r (VLock d))
| v_lock d m s st op p r : step (mkProc m None s st op p r (VLock d)) (LEnter (SInput d)) (mkProc m (Some TReceiver) s st op p r (VIn (body (SInput d))))
| v_act f k m n s st op p r : step (mkProc m n s st op p r (VIn (Act f k))) LTau (mkProc (f m) n s st op p r (VIn (k m)))
| v_unlock m n s st op p r : step (mkProc m n s st op p r (VIn Ret)) LTau (mkProc m None s st op p r VRecv).

(** executions: the steps in order *)
Inductive steps : proc -> list label -> proc -> Prop :=
| st_nil p : steps p [] p
| st_snoc p tr p1 l p2 : steps p tr p1 -> step p1 l p2 -> steps p (tr ++ [l]) p2.
Definition launched (m : M) : proc := mkProc m None None false true MLock1 RNone VNone.
End Threads.
Arguments Ret {M}. Arguments Act {M}. Arguments exec {M}.

(** *** what the sections do: UDPNAR.c 42 and 67-71 (the text ends at the first NUL; without one within
    the NARSESE_LEN_MAX bytes read, undefined bytes are read; quit is ignored) *)
Fixpoint until_nul (l : list Z) : option text :=
  match l with
  | [] => None
  | c :: r => if c =? 0 then Some [] else option_map (cons c) (until_nul r)
  end.
Definition section (v : env) (s : sect) (w : res (nar * list output)) : res (nar * list output) :=
  do (z, o) <- w ;
  match s with
  | SCycle => do z <- reason v z (CCycles 1) ; Ok (z, o)
  | SInput d =>
    match d with
    | None => UB
    | Some d =>
      match until_nul (firstn NARSESE_LEN_MAX d) with
      | None => UB
      | Some l => do (r, o') <- line v z l ; Ok (fst r, o ++ o')
      end
    end
  end.
