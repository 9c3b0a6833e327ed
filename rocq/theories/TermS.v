(** Specification vocabulary for terms: the tree an atom array denotes. *)
From Verif Require Import Base TermM.

Inductive tree := E | N (a : Z) (l r : tree).
(** index of the left (false) or right (true) child *)
Definition child (i : nat) (b : bool) : nat := if b then 2 * i + 2 else 2 * i + 1.
(** the tree rooted at slot i (fuel 7 covers the 64 slots) *)
Fixpoint tree_f (fuel : nat) (t : term) (i : nat) : tree :=
  match fuel with
  | O => E
  | S fuel => if (at_ t i =? 0)%Z then E else N (at_ t i) (tree_f fuel t (child i false)) (tree_f fuel t (child i true))
  end.
Definition tree_at (t : term) (i : nat) : tree := tree_f 7 t i.
(** slot reached from slot i along a path *)
Fixpoint idx (i : nat) (p : list bool) : nat := match p with [] => i | b :: p => idx (child i b) p end.
(** slot k lies in the subtree position i *)
Definition under (i k : nat) : Prop := exists p, k = idx i p.
(** a term proper: 64 slots, and no atom below an empty slot *)
Definition closed (t : term) : Prop :=
  is_term t /\ forall i b, at_ t (child i b) <> 0%Z -> at_ t i <> 0%Z.
(** number of atoms and connectors of a tree; occurrence of an atom *)
Fixpoint size (tr : tree) : nat := match tr with E => 0 | N _ l r => 1 + size l + size r end.
Fixpoint occurs (a : Z) (tr : tree) : Prop :=
  match tr with E => False | N b l r => a = b \/ occurs a l \/ occurs a r end.
(** the tree fits in the array when its root is placed in slot i *)
Fixpoint fits (tr : tree) (i : nat) : Prop :=
  match tr with E => True | N _ l r => i < SIZE /\ fits l (child i false) /\ fits r (child i true) end.
(** a hash cache that was computed from the current atoms *)
Definition cache_ok (t : cterm) : Prop := c_hashed t = true -> c_hash t = atoms_hash (c_atoms t).
(** for examples: a 64-slot term from its first atoms, and a test for [closed] *)
Definition mk_term (l : list Z) : term := l ++ repeat 0%Z (SIZE - length l).
Definition closedb (t : term) : bool :=
  (length t =? SIZE) &&
  forallb (fun i => negb (at_ t i =? 0)%Z || ((at_ t (child i false) =? 0)%Z && (at_ t (child i true) =? 0)%Z)) (seq 0 SIZE).
