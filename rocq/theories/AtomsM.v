(** Model of the symbol table of /repo/src/Narsese.c 292-327, 458-464, 643-699: names are
    interned through the hash table of HashTableM.  [cap] is ATOMS_MAX = ATOMS_HASHTABLE_BUCKETS
    = 65536 (Config.h 139-140) in the program. *)
From Verif Require Import Base HashM StackM HashTableM TermM NamesM.
Local Open Scope Z_scope.

(** Config.h 141 ATOMIC_TERM_LEN_MAX = 32: strncpy into a zeroed block keeps 31 characters *)
Definition block (n : name) : name := firstn 31 n.
(** little-endian signed 64-bit word of 8 bytes *)
Definition word8 (l : list Z) : Z :=
  wrap64 (fold_right (fun b acc => (b mod 256) + 256 * acc) 0 l).
(** the zero-padded 32-byte buffer as 4 words *)
Definition block_words (n : name) : list Z :=
  let buf := firstn 32 (block n ++ repeat 0 32) in
  [word8 (firstn 8 buf); word8 (firstn 8 (skipn 8 buf)); word8 (firstn 8 (skipn 16 buf)); word8 (firstn 8 (skipn 24 buf))].
(** Narsese.c 644-652 *)
Definition StringHash (n : name) : Z := Globals_Hash (block_words n).
(** Narsese.c 654-658: strcmp of strings without NUL characters *)
Definition StringEqual : name -> name -> bool := list_eqb.

(** [a_names]: the rows 0..term_index-1 of Narsese_atomNames; term_index is its length *)
Record astate := mkA { a_table : htable name Z; a_names : names }.
Section Cap.
Variable cap : nat.
(** Narsese.c 300-319 *)
Definition AtomicTermIndex (s : astate) (n : name) : res (astate * Z) :=
  do r <- HashTable_Get StringEqual StringHash (a_table s) (block n) ;
  match r with
  | Some i => Ok (s, i)
  | None =>
      do _ <- rassert (length (a_names s) <? cap)%nat ;
      let i := Z.of_nat (length (a_names s)) + 1 in
      do t <- HashTable_Set StringEqual StringHash (a_table s) (block n) i ;
      Ok (mkA t (a_names s ++ [block n]), i)
  end.
(** interning a list of names, returning the indices *)
Fixpoint intern_all (s : astate) (ns : names) : res (astate * list Z) :=
  match ns with
  | [] => Ok (s, [])
  | n :: ns => do (s, i) <- AtomicTermIndex s n ; do (s, is) <- intern_all s ns ; Ok (s, i :: is)
  end.
(** Narsese.c 660-699 *)
Definition Narsese_INIT : res astate :=
  do t <- HashTable_INIT cap cap ;
  do (s, _) <- intern_all (mkA t []) init_list ; Ok s.
(** the symbol table after a run of the program that interns [ns] *)
Definition symbols (ns : names) : res (astate * list Z) := do s <- Narsese_INIT ; intern_all s ns.
End Cap.
(** Config.h 139 *)
Definition ATOMS_MAX : nat := Z.to_nat 65536.
(** conversion to Atom = unsigned short (Config.h 138): what is stored in terms *)
Definition to_atom (i : Z) : Z := i mod 65536.
