(** Model of /repo/src/Stack.c (27-51).  A stack holds pointers; here items of type [A].
    [s_items] is the array given to Stack_INIT, [None] an unset cell. *)
From Verif Require Import Base.

Section Stack.
Context {A : Type}.
Record stack := mkStack { s_items : list (option A); s_sp : nat; s_max : nat }.
(** Stack.c 27-32 *)
Definition Stack_INIT (items : list (option A)) (maxElements : nat) : stack := mkStack items 0 maxElements.
(** Stack.c 34-39: the store happens before the overflow check; past the array it is UB. *)
Definition Stack_Push (s : stack) (x : A) : res stack :=
  if s_sp s <? length (s_items s)
  then let s' := mkStack (upd (s_items s) (s_sp s) (Some x)) (S (s_sp s)) (s_max s) in
       do _ <- rassert (s_sp s' <=? s_max s) ; Ok s'
  else UB.
(** Stack.c 41-46: reading an unset cell would be UB. *)
Definition Stack_Pop (s : stack) : res (stack * A) :=
  match s_sp s with
  | O => Abort
  | S sp => match nth_error (s_items s) sp with
            | Some (Some x) => Ok (mkStack (s_items s) sp (s_max s), x)
            | _ => UB
            end
  end.
(** Stack.c 48-51 *)
Definition Stack_IsEmpty (s : stack) : bool := s_sp s =? 0.
End Stack.
Arguments stack A : clear implicits.
