(** Specification vocabulary for C30: which term each stored concept has. *)
From Verif Require Import Base TermM InvIndexM.
(** the stored concepts: slot and term *)
Definition stored := list (nat * term).
Definition stored_term (c : nat) (s : stored) : option term := option_map snd (find (fun e => fst e =? c) s).
(** atoms index the table of [atoms] chains (in C they are of type unsigned short, atoms = 65536) *)
Definition atoms_in_range (atoms : nat) (t : term) : Prop := Forall (fun a => 0 <= a < Z.of_nat atoms)%Z t.
(** The memory's discipline: a slot is added when it holds no concept, with a term of the
    program; a concept is removed under its own term; slots are below [maxc]. *)
Fixpoint disciplined (atoms maxc : nat) (s : stored) (os : list iop) : Prop :=
  match os with
  | [] => True
  | IAdd t c :: os => stored_term c s = None /\ c < maxc /\ atoms_in_range atoms t /\ disciplined atoms maxc ((c, t) :: s) os
  | IRemove t c :: os => stored_term c s = Some t /\ disciplined atoms maxc (filter (fun e => negb (fst e =? c)) s) os
  end.
(** the concepts stored after the history *)
Fixpoint stored_after (s : stored) (os : list iop) : stored :=
  match os with
  | [] => s
  | IAdd t c :: os => stored_after ((c, t) :: s) os
  | IRemove t c :: os => stored_after (filter (fun e => negb (fst e =? c)) s) os
  end.
