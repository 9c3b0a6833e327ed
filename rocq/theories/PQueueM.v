(** Model of /repo/src/PriorityQueue.c: the bounded min-max heap used for concepts and events.
    Priorities are of any type [K] with a comparison [ltb] (C: double and [<]); addresses are
    slot numbers (C: [void*] to a slot of a fixed storage array). *)
From Verif Require Import Base.

Section PQ.
Context {K : Type} (ltb : K -> K -> bool) (dK : K).

(** PriorityQueue.h 45-49 [Item]. *)
Record item := mkItem { priority : K; address : nat }.
Definition ditem : item := mkItem dK 0.

(** PriorityQueue.h 50-55 [PriorityQueue]; [items] is the whole C array of
    [maxElements] items, of which the first [amount] are in use. *)
Record pq := mkPq { items : list item; amount : nat; maxElements : nat }.

(** PriorityQueue.c 27-32 [PriorityQueue_INIT] on an existing item array (the caller has
    set the addresses, e.g. Memory.c 56-61). *)
Definition pq_init (arr : list item) (max : nat) : pq := mkPq arr 0 max.

(** PriorityQueue.c 34 [at(i)]. *)
Definition at_ (l : list item) (i : nat) : item := nth i l ditem.
Definition prio (l : list item) (i : nat) : K := priority (at_ l i).

(** PriorityQueue.c 36-41 [swap]. *)
Definition swap (l : list item) (i j : nat) : list item :=
  let temp := at_ l i in
  upd (upd l i (at_ l j)) j temp.

(** PriorityQueue.c 43-53 [isOnMaxLevel]: the loop [while(n){ n = n>>1; level++; }] started
    with level = -1 is run here with [level+1] (a nat); [fuel] bounds the number of halvings. *)
Fixpoint level_loop (fuel n levelp1 : nat) : nat :=
  match fuel with
  | O => levelp1
  | S f => if n =? 0 then levelp1 else level_loop f (n / 2) (S levelp1)
  end.
Definition is_on_max_level (i : nat) : bool := Nat.odd (level_loop (S (i + 1)) (i + 1) 0 - 1).

(** PriorityQueue.c 55-63 [parent], [grandparent]: C ints that may be -1, here [None]. *)
Definition parent (i : nat) : option nat :=
  if (i + 1) / 2 =? 0 then None else Some ((i + 1) / 2 - 1).
Definition grandparent (i : nat) : option nat :=
  if (i + 1) / 4 =? 0 then None else Some ((i + 1) / 4 - 1).
(** PriorityQueue.c 65-73 *)
Definition left_child (i : nat) : nat := 2 * i + 1.
Definition left_grandchild (i : nat) : nat := 4 * i + 3.

(** the C idiom [(a < b)^invert] *)
Definition ltI (invert : bool) (a b : K) : bool := xorb (ltb a b) invert.

(** PriorityQueue.c 75-93 [smallestChild] ([n] is queue->itemsAmount). *)
Definition smallest_child (l : list item) (n i : nat) (invert : bool) : nat :=
  let lc := left_child i in
  if n <=? lc then i
  else
    let r := lc + 1 in
    if (r <? n) && ltI invert (prio l r) (prio l lc) then r else lc.

(** PriorityQueue.c 104-112: one step of the loop over grandsiblings: [r] is compared with the
    best so far, whose value is kept in [lv]. *)
Definition gc_step (l : list item) (n : nat) (invert : bool) (best r : nat) : nat :=
  if (r <? n) && ltI invert (prio l r) (prio l best) then r else best.
(** PriorityQueue.c 95-114 [smallestGrandChild]. *)
Definition smallest_grandchild (l : list item) (n i : nat) (invert : bool) : nat :=
  let lg := left_grandchild i in
  if n <=? lg then i
  else fold_left (gc_step l n invert) [lg + 1; lg + 2; lg + 3] lg.

(** PriorityQueue.c 116-145 [trickleDown]; [fuel] bounds the iterations of [while(1)]. *)
Fixpoint trickle_down (fuel : nat) (l : list item) (n i : nat) (invert : bool) : list item :=
  match fuel with
  | O => l
  | S f =>
      let m := smallest_child l n i invert in
      if m =? i then l
      else
        let l1 := if ltI invert (prio l m) (prio l i) then swap l i m else l in
        let j := smallest_grandchild l1 n i invert in
        if j =? i then l1
        else if ltI invert (prio l1 j) (prio l1 i)
             then trickle_down f (swap l1 i j) n j invert
             else l1
  end.

(** PriorityQueue.c 158-164: the grandparent loop of [bubbleUp]. *)
Fixpoint bubble_loop (fuel : nat) (l : list item) (i : nat) (invert : bool) : list item :=
  match fuel with
  | O => l
  | S f =>
      match grandparent i with
      | None => l
      | Some m => if ltI invert (prio l i) (prio l m)
                  then bubble_loop f (swap l i m) m invert
                  else l
      end
  end.
(** PriorityQueue.c 147-165 [bubbleUp]. *)
Definition bubble_up (l : list item) (i : nat) : list item :=
  let invert := is_on_max_level i in
  match parent i with
  | Some m => if ltI invert (prio l m) (prio l i)     (* (at(i) > at(m))^invert *)
              then bubble_loop (S m) (swap l i m) m (negb invert)
              else bubble_loop (S i) l i invert
  | None => bubble_loop (S i) l i invert
  end.

(** PriorityQueue.c 167-186 [PriorityQueue_PopMin]; [None] is [return false]. *)
Definition pop_min (q : pq) : option (pq * item) :=
  if amount q =? 0 then None
  else
    let it := at_ (items q) 0 in
    let n := amount q - 1 in
    let l := swap (items q) 0 n in
    Some (mkPq (trickle_down (S n) l n 0 false) n (maxElements q), it).

(** PriorityQueue.c 188-208 [PriorityQueue_PopMax]. *)
Definition pop_max (q : pq) : option (pq * item) :=
  if amount q =? 0 then None
  else
    let p := smallest_child (items q) (amount q) 0 true in
    let it := at_ (items q) p in
    let n := amount q - 1 in
    let l := swap (items q) p n in
    Some (mkPq (trickle_down (S n) l n p true) n (maxElements q), it).

(** PriorityQueue.h 56-62 [PriorityQueue_Push_Feedback]: [None] stands for the flag being
    false (the item is then all zero in C and never read by callers). *)
Record feedback := mkFb { added : option item; evicted : option item }.

(** PriorityQueue.c 225-233: append at index [amount], the slot keeps its address unless an
    item was evicted. *)
Definition append (q : pq) (p : K) (ev : option item) : pq * feedback :=
  let n := amount q in
  let addr := match ev with Some e => address e | None => address (at_ (items q) n) end in
  let it := mkItem p addr in
  let l := upd (items q) n it in
  (mkPq (bubble_up l n) (S n) (maxElements q), mkFb (Some it) ev).

(** PriorityQueue.c 210-235 [PriorityQueue_Push]. *)
Definition push (q : pq) (p : K) : pq * feedback :=
  if maxElements q <=? amount q then
    let mn := prio (items q) 0 in
    if ltb p mn then (q, mkFb None None)
    else match pop_min q with
         | Some (q', it) => append q' p (Some (mkItem mn (address it)))
         | None => append q p (Some (mkItem mn 0))   (* only for maxElements = 0 *)
         end
  else append q p None.

(** PriorityQueue.c 237-252 [PriorityQueue_PopAt]. *)
Definition pop_at (q : pq) (i : nat) : option (pq * item) :=
  if amount q =? 0 then None
  else
    let it := at_ (items q) i in
    let n := amount q - 1 in
    let l := swap (items q) i n in
    Some (mkPq (trickle_down (S n) l n i true) n (maxElements q), it).

(** PriorityQueue.c 254-260 [PriorityQueue_Rebuild]. *)
Definition rebuild (q : pq) : pq :=
  mkPq (fold_left bubble_up (seq 0 (amount q)) (items q)) (amount q) (maxElements q).

(** In-place change of stored priorities as done by Cycle_RelativeForgetting (Cycle.c 776-804)
    before [PriorityQueue_Rebuild]; [f] gives the new priority of each used item. *)
Definition reprioritize (f : item -> K) (q : pq) : pq :=
  mkPq (map (fun it => mkItem (f it) (address it)) (firstn (amount q) (items q))
          ++ skipn (amount q) (items q)) (amount q) (maxElements q).

(** *** Specification level *)
(** the stored elements *)
Definition contents (q : pq) : list item := firstn (amount q) (items q).

(** Histories: the operations the rest of the system performs on a queue. *)
Inductive pq_op :=
| OpPush (p : K)
| OpPopMin
| OpPopMax
| OpReprioritizeRebuild (f : item -> K).
Definition pq_step (q : pq) (o : pq_op) : pq :=
  match o with
  | OpPush p => fst (push q p)
  | OpPopMin => match pop_min q with Some (q', _) => q' | None => q end
  | OpPopMax => match pop_max q with Some (q', _) => q' | None => q end
  | OpReprioritizeRebuild f => rebuild (reprioritize f q)
  end.
Definition pq_run (q : pq) (os : list pq_op) : pq := fold_left pq_step os q.
End PQ.
Arguments item K : clear implicits.
Arguments pq K : clear implicits.
Arguments feedback K : clear implicits.
Arguments pq_op K : clear implicits.
