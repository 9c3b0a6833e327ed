(** Property theorems C21-C25 (priority queue). *)
From Coq Require Import Permutation.
From Verif Require Import Base PQueueM PQueueP F64.

(** The theorems hold for every priority type with a total preorder given by its "less than":
    asymmetry and transitivity of "not less".  [dK] is only the filler for unused slots. *)
Section Any_priority.
Context {K : Type} (ltb : K -> K -> bool) (dK : K).
Hypothesis ltb_asym : forall x y, ltb x y = true -> ltb y x = false.
Hypothesis nlt_trans : forall x y z, ltb y x = false -> ltb z y = false -> ltb z x = false.

(** C21 *)
Theorem C21_pop_max_is_maximum : forall arr max os, 0 < max -> length arr = max ->
  let q := pq_run ltb dK (pq_init arr max) os in
  match pop_max ltb dK q with
  | None => contents q = []
  | Some (q', it) => Permutation (contents q) (it :: contents q') /\
                     forall x, In x (contents q) -> ltb (priority it) (priority x) = false
  end.
Proof. exact (run_pop_max ltb dK ltb_asym nlt_trans). Qed.

Theorem C21_pop_min_is_minimum : forall arr max os, 0 < max -> length arr = max ->
  let q := pq_run ltb dK (pq_init arr max) os in
  match pop_min ltb dK q with
  | None => contents q = []
  | Some (q', it) => Permutation (contents q) (it :: contents q') /\
                     forall x, In x (contents q) -> ltb (priority x) (priority it) = false
  end.
Proof. exact (run_pop_min ltb dK ltb_asym nlt_trans). Qed.

(** C22 *)
Theorem C22_push_adds_refuses_or_replaces_minimum : forall arr max os p, 0 < max -> length arr = max ->
  let q := pq_run ltb dK (pq_init arr max) os in
  length (contents q) <= max /\
  match push ltb dK q p with
  | (q', fb) =>
     (length (contents q) < max /\ evicted fb = None /\
      exists it, added fb = Some it /\ priority it = p /\ Permutation (contents q') (it :: contents q))
     \/
     (length (contents q) = max /\ added fb = None /\ evicted fb = None /\ q' = q /\
      forall x, In x (contents q) -> ltb p (priority x) = true)
     \/
     (length (contents q) = max /\
      exists it e rest, added fb = Some it /\ priority it = p /\ evicted fb = Some e /\ address it = address e /\
        Permutation (contents q) (e :: rest) /\ Permutation (contents q') (it :: rest) /\
        ltb p (priority e) = false /\
        forall x, In x (contents q) -> ltb (priority x) (priority e) = false)
  end.
Proof. exact (run_push ltb dK ltb_asym nlt_trans). Qed.

(** C23 *)
Theorem C23_slots_never_shared : forall arr max os, 0 < max -> length arr = max -> NoDup (map address arr) ->
  let q := pq_run ltb dK (pq_init arr max) os in
  NoDup (map address (contents q)) /\
  (forall x, In x (contents q) -> In (address x) (map address arr)) /\
  forall p it, added (snd (push ltb dK q p)) = Some it ->
    In (address it) (map address arr) /\
    match evicted (snd (push ltb dK q p)) with
    | None => ~ In (address it) (map address (contents q))
    | Some e => address it = address e
    end.
Proof. exact (run_slots ltb dK ltb_asym nlt_trans). Qed.

(** C24 *)
Theorem C24_rebuild_restores_order : forall arr max os f, 0 < max -> length arr = max ->
  let q := pq_run ltb dK (pq_init arr max) os in
  let q' := rebuild ltb dK (reprioritize f q) in
  Permutation (contents q') (map (fun it => mkItem (f it) (address it)) (contents q)) /\
  match pop_max ltb dK q' with
  | None => contents q = []
  | Some (q2, it) => Permutation (contents q') (it :: contents q2) /\
                     forall x, In x (contents q') -> ltb (priority it) (priority x) = false
  end /\
  match pop_min ltb dK q' with
  | None => contents q = []
  | Some (q2, it) => Permutation (contents q') (it :: contents q2) /\
                     forall x, In x (contents q') -> ltb (priority x) (priority it) = false
  end.
Proof. exact (run_rebuild ltb dK ltb_asym nlt_trans). Qed.

(** C25, the part that holds: exactly the addressed element is removed.
    Missing (and false, see the refutation below): the order is kept. *)
Theorem C25_pop_at_removes_exactly_partial : forall arr max os i, 0 < max -> length arr = max ->
  let q := pq_run ltb dK (pq_init arr max) os in
  i < length (contents q) ->
  exists q' it, pop_at ltb dK q i = Some (q', it) /\ it = nth i (contents q) (ditem dK) /\
    Permutation (contents q) (it :: contents q').
Proof. exact (run_pop_at ltb dK ltb_asym nlt_trans). Qed.
End Any_priority.
Print Assumptions C21_pop_max_is_maximum.
Print Assumptions C21_pop_min_is_minimum.
Print Assumptions C22_push_adds_refuses_or_replaces_minimum.
Print Assumptions C23_slots_never_shared.
Print Assumptions C24_rebuild_restores_order.
Print Assumptions C25_pop_at_removes_exactly_partial.

(** C25 in full is false: with three elements, removing the element at index 0 leaves a queue
    whose "minimum" is its maximum. *)
Theorem C25_pop_at_keeps_order_refuted : exists arr max os i q' it q'' it2 x,
  0 < max /\ length arr = max /\
  i < length (contents (pq_run Nat.ltb 0 (pq_init arr max) os)) /\
  pop_at Nat.ltb 0 (pq_run Nat.ltb 0 (pq_init arr max) os) i = Some (q', it) /\
  pop_min Nat.ltb 0 q' = Some (q'', it2) /\
  In x (contents q') /\ priority x < priority it2.
Proof.
  exists [mkItem 0 0; mkItem 0 1; mkItem 0 2; mkItem 0 3], 4, [OpPush 1; OpPush 2; OpPush 3; OpPush 4], 0.
  eexists _, _, _, _, (mkItem 2 1). vm_compute. repeat split; auto.
Qed.
Print Assumptions C25_pop_at_keeps_order_refuted.

(** The C code's priorities: all doubles except NaN (infinities included). *)
Theorem C21_pop_max_is_maximum_double : forall arr max os, 0 < max -> length arr = max ->
  let q := pq_run num_ltb num0 (pq_init arr max) os in
  match pop_max num_ltb num0 q with
  | None => contents q = []
  | Some (q', it) => Permutation (contents q) (it :: contents q') /\
                     forall x, In x (contents q) -> num_ltb (priority it) (priority x) = false
  end.
Proof. exact (C21_pop_max_is_maximum num_ltb num0 num_ltb_asym num_nlt_trans). Qed.
Print Assumptions C21_pop_max_is_maximum_double.

Theorem C21_pop_min_is_minimum_double : forall arr max os, 0 < max -> length arr = max ->
  let q := pq_run num_ltb num0 (pq_init arr max) os in
  match pop_min num_ltb num0 q with
  | None => contents q = []
  | Some (q', it) => Permutation (contents q) (it :: contents q') /\
                     forall x, In x (contents q) -> num_ltb (priority x) (priority it) = false
  end.
Proof. exact (C21_pop_min_is_minimum num_ltb num0 num_ltb_asym num_nlt_trans). Qed.
Print Assumptions C21_pop_min_is_minimum_double.

(** Non-vacuity: nat priorities meet the order hypotheses, and a full queue evicts 2. *)
Example C21_order_nat : (forall x y, Nat.ltb x y = true -> Nat.ltb y x = false) /\
  (forall x y z, Nat.ltb y x = false -> Nat.ltb z y = false -> Nat.ltb z x = false).
Proof. split; intros; lia. Qed.
Example C22_example :
  let q := pq_run Nat.ltb 0 (pq_init (map (mkItem 0) [0;1;2;3;4]) 5)
             [OpPush 7; OpPush 2; OpPush 9; OpPush 4; OpPopMax; OpPush 8; OpPush 3] in
  map (@priority nat) (contents q) = [2; 8; 4; 7; 3] /\
  evicted (snd (push Nat.ltb 0 q 5)) = Some (mkItem 2 1) /\
  snd (push Nat.ltb 0 q 1) = mkFb None None /\
  option_map (fun r => priority (snd r)) (pop_max Nat.ltb 0 q) = Some 8.
Proof. vm_compute. repeat split. Qed.
