(** Vocabulary for the table properties (C26-C28). *)
From Coq Require Import ZArith Reals List Sorted.
From Flocq Require Import IEEE754.BinarySingleNaN.
From Verif Require Import Base F64 TruthM TruthS StampM TermM EventM InferenceM TableM.
Local Open Scope R_scope.

(** what the table holds, best first *)
Definition entries (t : table) : list implication := firstn (t_items t) (t_array t).
(** the table's operations; [Remove] is always called with the index of an entry *)
Inductive top := Add (x : implication) | AddRevise (x : implication) | Remove (index : nat).
Definition tstep (t : table) (o : top) : res table :=
  match o with
  | Add x => do r <- Table_Add t x ; Ok (fst r)
  | AddRevise x => do r <- Table_AddAndRevise t x ; Ok (fst r)
  | Remove i => if i <? t_items t then Ok (Table_Remove t i) else UB
  end.
Fixpoint trun (t : table) (os : list top) : res table :=
  match os with [] => Ok t | o :: os => do t <- tstep t o ; trun t os end.
(** an implication as the system stores them: linked to a concept, truth in range, some evidence *)
Definition good_imp (x : implication) : Prop :=
  i_source x <> None /\ valid (i_truth x) /\ 0 < val (confidence (i_truth x)).
Definition exp_of (x : implication) : R := val (Truth_Expectation f64A (i_truth x)).
(** ranked by truth expectation, one entry per statement *)
Definition ranked (l : list implication) : Prop := StronglySorted (fun a b => exp_of b <= exp_of a) l.
Definition one_per_term (l : list implication) : Prop := NoDup (map i_term l).
(** entry [e] has to make place for [x] (Table.c 34-36 in words: another statement of lower
    expectation, or the same statement with lower confidence) *)
Definition outranks (x e : implication) : Prop :=
  (i_term e <> i_term x /\ exp_of e < exp_of x) \/
  (i_term e = i_term x /\ val (confidence (i_truth e)) < val (confidence (i_truth x))).
(** merging the evidence of two implications about the same statement *)
Definition merged (old x : implication) : implication :=
  mkImp (i_term x) (Truth_Revision f64A (i_truth old) (i_truth x)) (stamp_make (i_stamp old) (i_stamp x))
    (weighted_average f64A (i_offset old) (i_offset x)
       (Truth_c2w f64A (confidence (i_truth old))) (Truth_c2w f64A (confidence (i_truth x))))
    (i_source old) (i_sourceId old) (Z.max (i_creation old) (i_creation x)).
