(** Vocabulary for the network server. *)
From Coq Require Import ZArith List.
From Verif Require Import Base ShellM UdpM.
Import ListNotations.

(** the sections entered, in order *)
Fixpoint entered (tr : list label) : list sect :=
  match tr with
  | [] => []
  | LEnter s :: tr => s :: entered tr
  | _ :: tr => entered tr
  end.
(** the inputs among sections, in order *)
Fixpoint inputs (ss : list sect) : list datagram :=
  match ss with
  | [] => []
  | SInput d :: ss => d :: inputs ss
  | SCycle :: ss => inputs ss
  end.
(** the datagrams received, in order *)
Fixpoint received (tr : list label) : list datagram :=
  match tr with
  | [] => []
  | LReceived d :: tr => d :: received tr
  | _ :: tr => received tr
  end.
(** complete sections one after the other *)
Fixpoint serial (v : env) (w : res (nar * list output)) (ss : list sect) : res (nar * list output) :=
  match ss with
  | [] => w
  | s :: ss => serial v (section v s w) ss
  end.
(** code that does, on the memory of the process, what the sections do on the program's state *)
Definition implements {M} (v : env) (abs : M -> res (nar * list output)) (body : sect -> code M) : Prop :=
  forall s m, abs (exec (body s) m) = section v s (abs m).
