(** Model of /repo/src/Term.c.  A term is an array of COMPOUND_TERM_SIZE_MAX = 64 atoms
    (Config.h 136), a binary tree in heap layout: the children of slot i are slots 2i+1 and
    2i+2, 0 is "no atom".  [term] is the atom array; the hash cache of the C struct is only
    modelled in [cterm], for Term_Hash and Term_Equal, and left out elsewhere. *)
From Verif Require Import Base HashM.

Definition SIZE : nat := 64.
Definition term := list Z.
(** [term->atoms[i]]; for i outside the array the model reads 0, C code guards every such read
    (where it does not, the model says so). *)
Definition at_ (t : term) (i : nat) : Z := nth i t 0%Z.
Definition is_term (t : term) : Prop := length t = SIZE.
(** [Term t = {0}] *)
Definition zero_term : term := repeat 0%Z SIZE.

(** Term.c 39-67 [Term_RelativeOverride]: returns the flag and the overwritten term (also
    partially overwritten on failure).  [fuel] bounds the recursion depth; 7 is enough because
    the subterm index at least doubles and stays below 64 (proved in TermP.v). *)
Fixpoint RelativeOverride (fuel : nat) (t : term) (i : nat) (s : term) (j : nat) : bool * term :=
  if SIZE <=? i then (false, t)
  else if j <? SIZE then
    let t := upd t i (at_ s j) in
    match fuel with
    | O => (false, t)
    | S fuel =>
      let l := (j + 1) * 2 - 1 in
      let '(ok, t) := if (l <? SIZE) && negb (at_ s l =? 0)%Z
                      then RelativeOverride fuel t ((i + 1) * 2 - 1) s l else (true, t) in
      if negb ok then (false, t) else
      let r := (j + 1) * 2 + 1 - 1 in
      if (r <? SIZE) && negb (at_ s r =? 0)%Z
      then RelativeOverride fuel t ((i + 1) * 2 + 1 - 1) s r else (true, t)
    end
  else (true, t).
(** Term.c 69-72 *)
Definition Term_OverrideSubterm (t : term) (i : nat) (s : term) : bool * term := RelativeOverride 7 t i s 0.
(** Term.c 74-79 *)
Definition Term_ExtractSubterm (t : term) (j : nat) : term := snd (RelativeOverride 7 zero_term 0 t j).
(** Term.c 81-92 *)
Definition Term_Complexity (t : term) : nat :=
  fold_left (fun s i => if (at_ t i =? 0)%Z then s else s + 1) (seq 0 SIZE) 0.
(** Term.c 108-118 *)
Definition Term_HasAtom (t : term) (a : Z) : bool := existsb (fun i => (at_ t i =? a)%Z) (seq 0 SIZE).

(** Term.c 94-106: the 128 bytes of the atoms read as 16 little-endian signed 64-bit words. *)
Definition word_of (a b c d : Z) : Z := wrap64 (a + b * 0x10000 + c * 0x100000000 + d * 0x1000000000000)%Z.
Fixpoint words_of (l : list Z) : list Z :=
  match l with
  | a :: b :: c :: d :: l' => word_of a b c d :: words_of l'
  | _ => []
  end.
Definition atoms_hash (t : term) : Z := Globals_Hash (words_of t).

(** Term.h 47-52: the C struct.  [c_pad] are the seven padding bytes after [hashed], which
    memcmp compares as well. *)
Record cterm := mkC { c_hashed : bool; c_pad : list Z; c_hash : Z; c_atoms : term }.
(** Term.c 94-106 [Term_Hash]: fills the cache. *)
Definition Term_Hash (t : cterm) : Z * cterm :=
  if c_hashed t then (c_hash t, t)
  else let h := atoms_hash (c_atoms t) in (h, mkC true (c_pad t) h (c_atoms t)).
Fixpoint list_eqb (l l' : list Z) : bool :=
  match l, l' with
  | [], [] => true
  | x :: l, y :: l' => (x =? y)%Z && list_eqb l l'
  | _, _ => false
  end.
(** Term.c 27-37 [Term_Equal]: hashes first, then memcmp of the whole structs. *)
Definition Term_Equal (a b : cterm) : bool * (cterm * cterm) :=
  let (ha, a) := Term_Hash a in
  let (hb, b) := Term_Hash b in
  (if (ha =? hb)%Z
   then Bool.eqb (c_hashed a) (c_hashed b) && list_eqb (c_pad a) (c_pad b) &&
        (c_hash a =? c_hash b)%Z && list_eqb (c_atoms a) (c_atoms b)
   else false, (a, b)).
(** comparison of terms with fresh or valid caches, as used in the rest of the model *)
Definition term_eqb : term -> term -> bool := list_eqb.
