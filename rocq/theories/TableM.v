(** Model of /repo/src/Table.c: the bounded table of implications. *)
From Coq Require Import ZArith List Bool.
From Verif Require Import Base F64 TruthM StampM TermM EventM InferenceM.

(** Config.h 134 [TABLE_SIZE] *)
Definition TABLE_SIZE : nat := 20.
(** Table.h 49-52: the array always has TABLE_SIZE slots *)
Record table := mkTable { t_array : list implication; t_items : nat }.
Definition table0 : table := mkTable (repeat imp0 TABLE_SIZE) 0.
Definition slot (t : table) (i : nat) : implication := nth i (t_array t) imp0.

Notation Expectation i := (Truth_Expectation f64A (i_truth i)).

(** Table.c 36: where the new implication goes *)
Definition goes_here (t : table) (x : implication) (i : nat) : bool :=
  let same_term := term_eqb (i_term (slot t i)) (i_term x) in
  (i =? t_items t)
  || (negb same_term && fltb (Expectation (slot t i)) (Expectation x))
  || (same_term && fltb (confidence (i_truth (slot t i))) (confidence (i_truth x))).
(** Table.c 39-42: [for(j=start; j>i; j--) array[j] = array[j-1]], [n] = number of steps left *)
Fixpoint shift_down (a : list implication) (j n : nat) : list implication :=
  match n with O => a | S n => shift_down (upd a j (nth (j - 1) a imp0)) (j - 1) n end.
(** Table.c 31-50: the loop over i, [n] = TABLE_SIZE - i; returns the index of the added entry
    (in C a pointer to it, NULL if none) *)
Fixpoint add_loop (t : table) (x : implication) (i n : nat) : table * option nat :=
  match n with
  | O => (t, None)
  | S n' =>
    if goes_here t x i then
      let start := Nat.min (t_items t) (TABLE_SIZE - 1) in
      (mkTable (upd (shift_down (t_array t) start (start - i)) i x) (Nat.min (t_items t + 1) TABLE_SIZE), Some i)
    else add_loop t x (i + 1) n'
  end.
(** Table.c 27-52 [Table_Add] *)
Definition Table_Add (t : table) (x : implication) : res (table * option nat) :=
  do _ <- rassert (match i_source x with Some _ => true | None => false end) ;
  Ok (add_loop t x 0 TABLE_SIZE).
(** Table.c 57-60: [for(j=index; j<itemsAmount; j++)], [n] = itemsAmount - j *)
Fixpoint shift_up (a : list implication) (items j n : nat) : list implication :=
  match n with
  | O => a
  | S n => shift_up (upd a j (if j =? items - 1 then imp0 else nth (j + 1) a imp0)) items (j + 1) n
  end.
(** Table.c 54-62 [Table_Remove] *)
Definition Table_Remove (t : table) (index : nat) : table :=
  mkTable (shift_up (t_array t) (t_items t) index (t_items t - index)) (t_items t - 1).
(** Table.c 68-75: first entry with the same term; [n] = itemsAmount - i *)
Fixpoint find_same (t : table) (x : implication) (i n : nat) : option nat :=
  match n with
  | O => None
  | S n => if term_eqb (i_term x) (i_term (slot t i)) then Some i else find_same t x (i + 1) n
  end.
(** Table.c 81-88: the range assertions *)
Definition in_unit (x : f64) : bool := fleb f0 x && fleb x f1.
Definition truth_in_bounds (v : truth f64A) : bool := in_unit (frequency v) && in_unit (confidence v).
(** Table.c 64-96 [Table_AddAndRevise] *)
Definition Table_AddAndRevise (t : table) (x : implication) : res (table * option nat) :=
  match find_same t x 0 (t_items t) with
  | Some i =>
    let old := slot t i in
    do _ <- rassert (truth_in_bounds (i_truth old)) ;
    do _ <- rassert (truth_in_bounds (i_truth x)) ;
    let revised := ImplicationRevision old x in
    do _ <- rassert (truth_in_bounds (i_truth revised)) ;
    let revised := mkImp (i_term x) (i_truth revised) (i_stamp revised) (i_offset revised)
                     (i_source revised) (i_sourceId revised) (i_creation revised) in
    let t := Table_Remove t i in
    do r <- Table_Add t revised ;
    do _ <- rassert (match snd r with Some _ => true | None => false end) ;
    Ok r
  | None => Table_Add t x
  end.
