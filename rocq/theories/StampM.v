(** Model of /repo/src/Stamp.c and Stamp.h: evidential bases. *)
From Verif Require Import Base.
Local Open Scope Z_scope.

(** Config.h 132 [#define STAMP_SIZE 10]. *)
Definition STAMP_SIZE : nat := 10.
(** Stamp.h 45 [#define STAMP_FREE 0]. *)
Definition STAMP_FREE : Z := 0.

(** Stamp.h 46-49: [long evidentialBase[STAMP_SIZE]].  The array is a list of
    [STAMP_SIZE] integers; ids are C longs, counters never reach 2^63 (Z here). *)
Definition stamp := list Z.
Definition stamp_wf (s : stamp) : Prop := length s = STAMP_SIZE.
(** [Stamp ret = {0}] (Stamp.c 29). *)
Definition stamp_zero : stamp := repeat STAMP_FREE STAMP_SIZE.

(** Stamp.c 32-70: the zipping loop of [Stamp_make].  [l1], [l2] are the not yet visited
    parts of the two arrays (index i onwards), [p1], [p2] are processStamp1/2 and [acc] the
    ids written to [ret.evidentialBase[0..j-1]].  Recursion is on the rest of the first array
    (i < STAMP_SIZE). *)
Fixpoint zip_loop (l1 l2 : list Z) (p1 p2 : bool) (acc : list Z) : list Z :=
  match l1, l2 with
  | x :: t1, y :: t2 =>
      let p1' := p1 && negb (x =? STAMP_FREE) in
      let acc1 := if p1' then acc ++ [x] else acc in
      if p1' && (STAMP_SIZE <=? length acc1)%nat then acc1          (* j >= STAMP_SIZE: break *)
      else
        let p2' := p2 && negb (y =? STAMP_FREE) in
        let acc2 := if p2' then acc1 ++ [y] else acc1 in
        if p2' && (STAMP_SIZE <=? length acc2)%nat then acc2        (* j >= STAMP_SIZE: break *)
        else if negb p1' && negb p2' then acc2
        else zip_loop t1 t2 p1' p2' acc2
  | _, _ => acc
  end.

(** Stamp.c 27-72 [Stamp_make]: the written ids, rest of [ret] stays zero. *)
Definition stamp_make (s1 s2 : stamp) : stamp :=
  let w := zip_loop s1 s2 true true [] in
  w ++ repeat STAMP_FREE (STAMP_SIZE - length w).

(** Stamp.c 82-92: inner loop of [Stamp_checkOverlap]: compare one id of [a] with all of [b]. *)
Fixpoint overlap_inner (x : Z) (b : list Z) : bool :=
  match b with
  | [] => false
  | y :: t => if y =? STAMP_FREE then false else if x =? y then true else overlap_inner x t
  end.
(** Stamp.c 74-95 [Stamp_checkOverlap]. *)
Fixpoint stamp_overlap_loop (a b : list Z) : bool :=
  match a with
  | [] => false
  | x :: t => if x =? STAMP_FREE then false
              else if overlap_inner x b then true else stamp_overlap_loop t b
  end.
Definition stamp_check_overlap (a b : stamp) : bool := stamp_overlap_loop a b.

(** Stamp.c 106-117: inner loop of [Stamp_Equal]; [None] is the early
    [return a->evidentialBase[i] == STAMP_FREE] (false at this point, a[i] is not free),
    [Some c] the value of [contained]. *)
Fixpoint equal_inner (x : Z) (b : list Z) : option bool :=
  match b with
  | [] => Some false
  | y :: t => if y =? STAMP_FREE then None else if x =? y then Some true else equal_inner x t
  end.
(** Stamp.c 97-124 [Stamp_Equal]; [brest] is [b] from index i on. *)
Fixpoint equal_loop (a brest b : list Z) : bool :=
  match a, brest with
  | x :: ta, y :: tb =>
      if x =? STAMP_FREE then y =? STAMP_FREE
      else match equal_inner x b with
           | None => x =? STAMP_FREE
           | Some false => false
           | Some true => equal_loop ta tb b
           end
  | _, _ => true
  end.
Definition stamp_equal (a b : stamp) : bool := equal_loop a b b.

(** *** Specification level: the ids listed by a stamp are those before the first free slot. *)
Fixpoint ids (s : list Z) : list Z :=
  match s with
  | [] => []
  | x :: t => if x =? STAMP_FREE then [] else x :: ids t
  end.

(** Specification of zipping: alternately one of the first, one of the second list, then the rest. *)
Fixpoint interleave (a b : list Z) : list Z :=
  match a, b with
  | x :: ta, y :: tb => x :: y :: interleave ta tb
  | [], _ => b
  | _, [] => a
  end.
