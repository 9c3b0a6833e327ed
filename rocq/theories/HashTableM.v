(** Model of /repo/src/HashTable.c, at pointer level: [storage] is the array of VMItems, an
    item pointer is an index into it, NULL is None.
    Keys are values: the C code stores a pointer to the key, and its callers never change the
    pointed-to key while it is stored (see MemoryM.v for the concept table). *)
From Verif Require Import Base StackM HashM.

Section HashTable.
Context {K V : Type}.
(** HashTable.h 53-54: the two function pointers *)
Variable equal : K -> K -> bool.
Variable hash : K -> Z.

(** HashTable.h 44-49 [VMItem]; the zeroed item of HashTable_INIT is [None] in [storage]. *)
Record item := mkItem { i_key : K; i_value : V; i_next : option nat }.
(** HashTable.h 50-60 *)
Record htable := mkHT { storage : list (option item); HT : list (option nat); VMStack : stack nat }.

(** reading and writing [*p] *)
Definition deref (h : htable) (p : nat) : res item :=
  match nth_error (storage h) p with Some (Some it) => Ok it | _ => UB end.
Definition store (h : htable) (p : nat) (it : item) : res htable :=
  if p <? length (storage h) then Ok (mkHT (upd (storage h) p (Some it)) (HT h) (VMStack h)) else UB.
(** [HT[b]] and [HT[b] = x] *)
Definition buckets (h : htable) : Z := Z.of_nat (length (HT h)).
Definition read_bucket (h : htable) (b : Z) : res (option nat) :=
  if (b <? 0)%Z then UB else match nth_error (HT h) (Z.to_nat b) with Some x => Ok x | None => UB end.
Definition write_bucket (h : htable) (b : Z) (x : option nat) : res htable :=
  if (b <? 0)%Z then UB
  else if Z.to_nat b <? length (HT h)
       then Ok (mkHT (storage h) (upd (HT h) (Z.to_nat b) x) (VMStack h)) else UB.

(** HashTable.c 31-38: the search loop.  [fuel] bounds the number of iterations; running out
    of it would be an endless loop, reported as UB. *)
Fixpoint get_loop (fuel : nat) (h : htable) (p : option nat) (key : K) : res (option V) :=
  match p with
  | None => Ok None
  | Some p => match fuel with
    | O => UB
    | S fuel => do it <- deref h p ;
       if equal (i_key it) key then Ok (Some (i_value it)) else get_loop fuel h (i_next it) key
    end
  end.
(** HashTable.c 27-39 *)
Definition HashTable_Get (h : htable) (key : K) : res (option V) :=
  if (buckets h =? 0)%Z then UB else
  do p <- read_bucket h (bucket_of (hash key) (buckets h)) ;
  get_loop (length (storage h)) h p key.

(** HashTable.c 48-61: look for the key in a non-empty chain; [inl p]: found at p,
    [inr p]: not found, p is the last item. *)
Fixpoint set_loop (fuel : nat) (h : htable) (p : nat) (key : K) : res (nat + nat) :=
  match fuel with
  | O => UB
  | S fuel => do it <- deref h p ;
      if equal (i_key it) key then Ok (inl p)
      else match i_next it with None => Ok (inr p) | Some q => set_loop fuel h q key end
  end.
(** HashTable.c 41-79 *)
Definition HashTable_Set (h : htable) (key : K) (value : V) : res htable :=
  if (buckets h =? 0)%Z then UB else
  let b := bucket_of (hash key) (buckets h) in
  do p <- read_bucket h b ;
  do found <- (match p with
               | None => Ok None
               | Some p => do r <- set_loop (length (storage h)) h p key ; Ok (Some r)
               end) ;
  match found with
  | Some (inl p) => do it <- deref h p ; store h p (mkItem (i_key it) value (i_next it))
  | _ =>
      do (vm, popped) <- Stack_Pop (VMStack h) ;
      do h1 <- store (mkHT (storage h) (HT h) vm) popped (mkItem key value None) ;
      match found with
      | Some (inr last) =>
          do it <- deref h1 last ; store h1 last (mkItem (i_key it) (i_value it) (Some popped))
      | _ => write_bucket h1 b (Some popped)
      end
  end.

(** HashTable.c 97-115: search with [previous] *)
Fixpoint delete_loop (fuel : nat) (h : htable) (b : Z) (previous p : option nat) (key : K) : res htable :=
  match p with
  | None => Abort
  | Some p => match fuel with
    | O => UB
    | S fuel => do it <- deref h p ;
      if equal (i_key it) key then
        do h1 <- (match previous with
                  | None => write_bucket h b (i_next it)
                  | Some q => do pit <- deref h q ; store h q (mkItem (i_key pit) (i_value pit) (i_next it))
                  end) ;
        do vm <- Stack_Push (VMStack h1) p ; Ok (mkHT (storage h1) (HT h1) vm)
      else delete_loop fuel h b (Some p) (i_next it) key
    end
  end.
(** HashTable.c 81-117.  [item->next] with [item == NULL] is UB; a one-item chain is removed
    without comparing keys. *)
Definition HashTable_Delete (h : htable) (key : K) : res htable :=
  if (buckets h =? 0)%Z then UB else
  let b := bucket_of (hash key) (buckets h) in
  do p <- read_bucket h b ;
  match p with
  | None => UB
  | Some p0 => do it <- deref h p0 ;
      match i_next it with
      | None => do h1 <- write_bucket h b None ;
                do vm <- Stack_Push (VMStack h1) p0 ; Ok (mkHT (storage h1) (HT h1) vm)
      | Some _ => delete_loop (length (storage h)) h b None (Some p0) key
      end
  end.

(** HashTable.c 132-137: push all storage slots *)
Fixpoint init_push (s : stack nat) (i n : nat) : res (stack nat) :=
  match n with O => Ok s | S n => do s' <- Stack_Push s i ; init_push s' (S i) n end.
(** HashTable.c 119-138; storage and storageptrs have maxElements cells, HT has nbuckets. *)
Definition HashTable_INIT (nbuckets maxElements : nat) : res htable :=
  do vm <- init_push (Stack_INIT (repeat None maxElements) maxElements) 0 maxElements ;
  Ok (mkHT (repeat None maxElements) (repeat None nbuckets) vm).

(** HashTable.c 140-151 *)
Fixpoint chain_len (fuel : nat) (h : htable) (p : option nat) : res nat :=
  match p with
  | None => Ok 0
  | Some p => match fuel with
    | O => UB
    | S fuel => do it <- deref h p ; do n <- chain_len fuel h (i_next it) ; Ok (S n)
    end
  end.
Definition HashTable_MaximumChainLength (h : htable) : res nat :=
  fold_left (fun acc p => do m <- acc ; do n <- chain_len (length (storage h)) h p ; Ok (Nat.max m n))
    (HT h) (Ok 0).

(** A history of calls; look-ups do not change the table. *)
Inductive htop := OSet (k : K) (v : V) | ODel (k : K).
Definition ht_step (h : htable) (o : htop) : res htable :=
  match o with OSet k v => HashTable_Set h k v | ODel k => HashTable_Delete h k end.
Fixpoint ht_run (h : htable) (os : list htop) : res htable :=
  match os with [] => Ok h | o :: os => do h' <- ht_step h o ; ht_run h' os end.
End HashTable.
Arguments item K V : clear implicits.
Arguments htable K V : clear implicits.
Arguments htop K V : clear implicits.
