(** Model of /repo/src/InvertedAtomIndex.c at pointer level: chain elements are cells of
    [e_storage], a chain element pointer is an index into it, NULL is None.  A concept pointer
    is the number of its storage slot.  [simple] is Narsese_IsSimpleAtom (NamesM.IsSimpleAtom
    of the symbol table; symbols never change once interned). *)
From Verif Require Import Base StackM HashTableM TermM.

Definition UNIFICATION_DEPTH : nat := 31.
(** Config.h: ATOMS_MAX *)
Definition ATOMS_MAX : Z := 65536.

(** InvertedAtomIndex.h 40-44 *)
Record elem := mkElem { el_c : option nat; el_next : option nat }.
(** InvertedAtomIndex.c 27-30 *)
Record iidx := mkIx { ix_storage : list elem; ix_stack : stack nat; ix_heads : list (option nat) }.

Section Index.
Variable simple : Z -> bool.

Definition el_deref (x : iidx) (p : nat) : res elem :=
  match nth_error (ix_storage x) p with Some e => Ok e | None => UB end.
Definition el_store (x : iidx) (p : nat) (e : elem) : res iidx :=
  if p <? length (ix_storage x) then Ok (mkIx (upd (ix_storage x) p e) (ix_stack x) (ix_heads x)) else UB.
Definition read_head (x : iidx) (a : Z) : res (option nat) :=
  if (a <? 0)%Z then UB else match nth_error (ix_heads x) (Z.to_nat a) with Some p => Ok p | None => UB end.
Definition write_head (x : iidx) (a : Z) (p : option nat) : res iidx :=
  if (a <? 0)%Z then UB else
  if Z.to_nat a <? length (ix_heads x) then Ok (mkIx (ix_storage x) (ix_stack x) (upd (ix_heads x) (Z.to_nat a) p)) else UB.

(** InvertedAtomIndex.c 32-46; [atoms] = ATOMS_MAX and [pool] = UNIFICATION_DEPTH*CONCEPTS_MAX in
    the program (the pushing loop is that of HashTable_INIT) *)
Definition InvertedAtomIndex_INIT (atoms pool : nat) : res iidx :=
  do s <- init_push (Stack_INIT (repeat None pool) pool) 0 pool ;
  Ok (mkIx (repeat (mkElem None None) pool) s (repeat None atoms)).

(** InvertedAtomIndex.c 62-76: search for c from element p; [inl tt]: found, [inr q]: q is the
    last element.  [fuel] bounds the iterations. *)
Fixpoint find_loop (fuel : nat) (x : iidx) (p : nat) (c : nat) : res (unit + nat) :=
  match fuel with
  | O => UB
  | S fuel => do e <- el_deref x p ;
      match el_c e with
      | Some c' => if c' =? c then Ok (inl tt) else
                   match el_next e with None => Ok (inr p) | Some q => find_loop fuel x q c end
      | None => match el_next e with None => Ok (inr p) | Some q => find_loop fuel x q c end
      end
  end.
(** pop a cell and set its concept; its [next] is left as it is *)
Definition new_elem (x : iidx) (c : nat) : res (iidx * nat) :=
  do (s, p) <- Stack_Pop (ix_stack x) ;
  let x := mkIx (ix_storage x) s (ix_heads x) in
  do e <- el_deref x p ;
  do x <- el_store x p (mkElem (Some c) (el_next e)) ; Ok (x, p).
(** InvertedAtomIndex.c 50-84: one atom position *)
Definition add_atom (x : iidx) (a : Z) (c : nat) : res iidx :=
  if simple a then
    do h <- read_head x a ;
    match h with
    | None => do (x, p) <- new_elem x c ; write_head x a (Some p)
    | Some p0 =>
        do f <- find_loop (length (ix_storage x)) x p0 c ;
        match f with
        | inl _ => Ok x
        | inr last => do (x, p) <- new_elem x c ;
                      do e <- el_deref x last ; el_store x last (mkElem (el_c e) (Some p))
        end
    end
  else Ok x.
(** InvertedAtomIndex.c 94-118: search with [previous] and unlink *)
Fixpoint unlink_loop (fuel : nat) (x : iidx) (a : Z) (previous p : option nat) (c : nat) : res iidx :=
  match p with
  | None => Ok x
  | Some p => match fuel with
    | O => UB
    | S fuel => do e <- el_deref x p ;
      if match el_c e with Some c' => c' =? c | None => false end then
        do x <- (match previous with
                 | None => write_head x a (el_next e)
                 | Some q => do pe <- el_deref x q ; el_store x q (mkElem (el_c pe) (el_next e))
                 end) ;
        do x <- el_store x p (mkElem None None) ;
        do s <- Stack_Push (ix_stack x) p ; Ok (mkIx (ix_storage x) s (ix_heads x))
      else unlink_loop fuel x a (Some p) (el_next e) c
    end
  end.
(** InvertedAtomIndex.c 91-122: one atom position *)
Definition remove_atom (x : iidx) (a : Z) (c : nat) : res iidx :=
  if simple a then do h <- read_head x a ; unlink_loop (length (ix_storage x)) x a None h c else Ok x.
Fixpoint each (f : iidx -> Z -> nat -> res iidx) (x : iidx) (l : list Z) (c : nat) : res iidx :=
  match l with [] => Ok x | a :: l => do x <- f x a c ; each f x l c end.
(** the indexed positions term.atoms[0..UNIFICATION_DEPTH-1] *)
Definition indexed_atoms (t : term) : list Z := firstn UNIFICATION_DEPTH t.
(** InvertedAtomIndex.c 48-86 and 88-124 *)
Definition InvertedAtomIndex_AddConcept (x : iidx) (t : term) (c : nat) : res iidx := each add_atom x (indexed_atoms t) c.
Definition InvertedAtomIndex_RemoveConcept (x : iidx) (t : term) (c : nat) : res iidx := each remove_atom x (indexed_atoms t) c.
(** InvertedAtomIndex.c 149-157, and walking the chain it returns (as every caller does, e.g.
    Cycle.c 30-45) *)
Definition GetConceptChain (x : iidx) (a : Z) : res (option nat) := if (a =? 0)%Z then Ok None else read_head x a.
Fixpoint walk (fuel : nat) (x : iidx) (p : option nat) : res (list nat) :=
  match p with
  | None => Ok []
  | Some p => match fuel with
    | O => UB
    | S fuel => do e <- el_deref x p ;
        match el_c e with None => UB | Some c => do l <- walk fuel x (el_next e) ; Ok (c :: l) end
    end
  end.
Definition concepts_under (x : iidx) (a : Z) : res (list nat) :=
  do p <- GetConceptChain x a ; walk (length (ix_storage x)) x p.

(** histories *)
Inductive iop := IAdd (t : term) (c : nat) | IRemove (t : term) (c : nat).
Definition istep (x : iidx) (o : iop) : res iidx :=
  match o with IAdd t c => InvertedAtomIndex_AddConcept x t c | IRemove t c => InvertedAtomIndex_RemoveConcept x t c end.
Fixpoint irun (x : iidx) (os : list iop) : res iidx :=
  match os with [] => Ok x | o :: os => do x <- istep x o ; irun x os end.
End Index.
