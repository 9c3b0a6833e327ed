(** Metrics sent to a Graphite server: NetworkNAR/Metric.c.

    Text is a list of byte values.  [sock n] is what the n-th call of socket() returns (arbitrary: -1
    on failure).  Simplified: what the network does with a datagram is not modelled; [sendto]'s result
    is ignored by the code. *)
From Coq Require Import ZArith List Bool.
From Verif Require Import Base.
Import ListNotations.
Local Open Scope Z_scope.

(** Metric.h 42 *)
Definition GRAPHITE_MAX_MSG_LEN : nat := 130.

(** printf's %d (C library), for the 32-bit int: decimal digits in front of [acc], at most [fuel]+1 *)
Fixpoint digits_before (fuel : nat) (z : Z) (acc : list Z) : list Z :=
  let acc := 48 + z mod 10 :: acc in
  match fuel with
  | O => acc
  | S fuel => if z / 10 =? 0 then acc else digits_before fuel (z / 10) acc
  end.
Definition percent_d (v : Z) : list Z :=
  if v <? 0 then 45 :: digits_before 10 (- v) [] else digits_before 10 v [].

(** sprintf's writing into an array (C library): the bytes from [i] on, then NUL *)
Fixpoint put (buf : list Z) (i : nat) (l : list Z) : res (list Z) :=
  if (i <? length buf)%nat then
    match l with
    | [] => Ok (upd buf i 0)
    | c :: r => put (upd buf i c) (S i) r
    end
  else UB.
(** strlen (C library) *)
Fixpoint strlen (l : list Z) : res nat :=
  match l with
  | [] => UB
  | c :: r => if c =? 0 then Ok 0%nat else do n <- strlen r ; Ok (S n)
  end.

(** the static descriptor (Metric.c 37), how many sockets were asked for, what was handed to sendto *)
Record metrics := mkMetrics { g_fd : Z; g_sockets : nat; g_sent : list (Z * list Z) }.
(** Metric.c 37: the state when the process starts *)
Definition metrics_init : metrics := mkMetrics 0 0 [].

(** UDP.c 53-60 [UDP_SendData]: [size] bytes from the buffer *)
Definition UDP_SendData (g : metrics) (fd : Z) (buf : list Z) (size : nat) : res metrics :=
  if (size <=? length buf)%nat then Ok (mkMetrics (g_fd g) (g_sockets g) (g_sent g ++ [(fd, firstn size buf)])) else UB.

(** Metric.c 39-53 [Metric_send] *)
Definition Metric_send (sock : nat -> Z) (g : metrics) (path : list Z) (value : Z) : res metrics :=
  let message := repeat 0 GRAPHITE_MAX_MSG_LEN in
  (* 42-45; UDP.c 39-42 [UDP_INIT_Sender] *)
  let g := if g_fd g =? 0 then mkMetrics (sock (g_sockets g)) (S (g_sockets g)) (g_sent g) else g in
  (* 46 *)
  do message <- put message 0 (path ++ [58] ++ percent_d value ++ [124; 99]) ;
  (* 47 *)
  do n <- strlen message ;
  do _ <- rassert (n <? GRAPHITE_MAX_MSG_LEN)%nat ;
  (* 48-52 *)
  UDP_SendData g (g_fd g) message GRAPHITE_MAX_MSG_LEN.

(** successive calls *)
Fixpoint Metric_sends (sock : nat -> Z) (g : metrics) (l : list (list Z * Z)) : res metrics :=
  match l with
  | [] => Ok g
  | (path, value) :: l => do g <- Metric_send sock g path value ; Metric_sends sock g l
  end.
