(** Specification of a bounded finite map over keys compared with [equal]. *)
From Verif Require Import Base HashTableM.

Section Spec.
Context {K V : Type}.
Variable equal : K -> K -> bool.
(** association lists *)
Definition lookup (k : K) (m : list (K * V)) : option V :=
  option_map snd (find (fun e => equal (fst e) k) m).
Definition has (k : K) (m : list (K * V)) : bool := existsb (fun e => equal (fst e) k) m.
Definition put (k : K) (v : V) (m : list (K * V)) : list (K * V) :=
  if has k m then map (fun e => if equal (fst e) k then (fst e, v) else e) m else m ++ [(k, v)].
Definition del (k : K) (m : list (K * V)) : list (K * V) := filter (fun e => negb (equal (fst e) k)) m.

(** what a history does to a map of capacity [cap] *)
Inductive outcome := Map (m : list (K * V)) | Full | DeletedAbsent.
Fixpoint map_run (cap : nat) (m : list (K * V)) (os : list (htop K V)) : outcome :=
  match os with
  | [] => Map m
  | OSet k v :: os => if has k m || (length m <? cap) then map_run cap (put k v m) os else Full
  | ODel k :: os => if has k m then map_run cap (del k m) os else DeletedAbsent
  end.

(** the slots reachable from a chain start *)
Inductive reach (st : list (option (item K V))) : option nat -> nat -> Prop :=
| reach_here : forall p, reach st (Some p) p
| reach_next : forall p it q, nth_error st p = Some (Some it) -> reach st (i_next it) q -> reach st (Some p) q.
(** slot i is on the free stack / used by bucket b *)
Definition slot_free (h : htable K V) (i : nat) : Prop :=
  In (Some i) (firstn (StackM.s_sp (VMStack h)) (StackM.s_items (VMStack h))).
Definition slot_used (h : htable K V) (b i : nat) : Prop :=
  exists s, nth_error (HT h) b = Some s /\ reach (storage h) s i.
End Spec.
Arguments outcome K V : clear implicits.
