(** Model of /repo/src/OccurrenceTimeIndex.c: a ring of 512 concept pointers
    (OCCURRENCE_TIME_INDEX_SIZE, Config.h 145).  Pointers are of type [A]; NULL is None. *)
From Verif Require Import Base.
Local Open Scope Z_scope.

Definition RING : Z := 512.
Section Ring.
Context {A : Type}.
(** OccurrenceTimeIndex.h 42-47 *)
Record ring := mkRing { r_amount : Z; r_current : Z; r_array : list (option A) }.
(** Memory.c 96: occurrenceTimeIndex = {0} *)
Definition ring0 : ring := mkRing 0 0 (repeat None (Z.to_nat RING)).
(** OccurrenceTimeIndex.c 27-36 *)
Definition ring_index (f : ring) (k : Z) : res Z :=
  do _ <- rassert ((0 <=? k) && (k <? RING)) ;
  let index := r_current f - 1 - k in
  Ok (if index <? 0 then RING + index else index).
(** OccurrenceTimeIndex.c 38-44; a store outside the array is UB *)
Definition OccurrenceTimeIndex_Add (c : A) (f : ring) : res ring :=
  if (0 <=? r_current f) && (r_current f <? Z.of_nat (length (r_array f))) then
    Ok (mkRing (Z.min (r_amount f + 1) RING) ((r_current f + 1) mod RING)
               (upd (r_array f) (Z.to_nat (r_current f)) (Some c)))
  else UB.
(** OccurrenceTimeIndex.c 46-55; a read outside the array is UB *)
Definition GetKthNewestElement (f : ring) (k : Z) : res (option A) :=
  if r_amount f =? 0 then Ok None
  else do i <- ring_index f k ;
       if i <? 0 then UB else match nth_error (r_array f) (Z.to_nat i) with Some x => Ok x | None => UB end.
(** a history: insertions and resets (Memory_INIT) *)
Inductive ring_op := RAdd (c : A) | RReset.
Definition ring_step (f : ring) (o : ring_op) : res ring :=
  match o with RAdd c => OccurrenceTimeIndex_Add c f | RReset => Ok ring0 end.
Fixpoint ring_run (f : ring) (os : list ring_op) : res ring :=
  match os with [] => Ok f | o :: os => do f' <- ring_step f o ; ring_run f' os end.
(** specification: the insertions since the last reset, newest first *)
Fixpoint newest_first (os : list ring_op) (acc : list A) : list A :=
  match os with [] => acc | RAdd c :: os => newest_first os (c :: acc) | RReset :: os => newest_first os [] end.
End Ring.
Arguments ring A : clear implicits.
Arguments ring_op A : clear implicits.
