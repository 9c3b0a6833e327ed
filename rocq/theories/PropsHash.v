(** Property theorems C15-C20: hashing, random numbers, hash table, stack. *)
From Verif Require Import Base HashM HashP StackM StackP HashTableM HashTableS HashTableP.

(** C15 *)
Theorem C15_hash_selects_existing_bucket : forall (data : list Z) (nbuckets : Z),
  (0 < nbuckets)%Z ->
  (0 <= Globals_Hash data < 2 ^ 63)%Z /\ (0 <= bucket_of (Globals_Hash data) nbuckets < nbuckets)%Z.
Proof. exact (fun data n H => conj (hash_range data) (bucket_range data n H)). Qed.
Print Assumptions C15_hash_selects_existing_bucket.
Example C15_example : Globals_Hash [5; -7]%Z = 1767416040581963261%Z.
Proof. vm_compute. reflexivity. Qed.

(** C16 *)
Theorem C16_random_values_in_range : forall (n : nat) (state : Z),
  length (rand_seq n state) = n /\ Forall (fun v => 0 <= v <= 32767)%Z (rand_seq n state).
Proof. exact (fun n s => conj (rand_seq_length n s) (rand_seq_range n s)). Qed.
Print Assumptions C16_random_values_in_range.
(** later values depend on the seed only through the state: the sequence after n calls is the
    sequence started in the state reached *)
Theorem C16_random_sequence_is_a_function_of_the_state : forall (n m : nat) (state : Z),
  rand_seq (n + m) state = rand_seq n state ++ rand_seq m (rand_state n state).
Proof. exact rand_seq_app. Qed.
Print Assumptions C16_random_sequence_is_a_function_of_the_state.
Example C16_example : rand_seq 5 (mysrand 1) = [16838; 5758; 10113; 17515; 31051]%Z.
Proof. vm_compute. reflexivity. Qed.

(** C17: for every history, whatever hash function agrees with the key equality: if the
    history stays within the capacity and only deletes stored keys, the table answers like
    the finite map; if it exceeds the capacity, the table aborts (never overwrites). *)
Theorem C17_hash_table_is_a_finite_map : forall (K V : Type) (equal : K -> K -> bool) (hash : K -> Z),
  (forall k, equal k k = true) -> (forall a b, equal a b = equal b a) ->
  (forall a b c, equal a b = true -> equal b c = true -> equal a c = true) ->
  (forall a b, equal a b = true -> hash a = hash b) -> (forall k, (0 <= hash k)%Z) ->
  forall (nbuckets capacity : nat) (os : list (htop K V)), 0 < nbuckets ->
  exists h0, HashTable_INIT nbuckets capacity = Ok h0 /\
  match map_run equal capacity [] os with
  | Map m => exists h, ht_run equal hash h0 os = Ok h /\
               forall k, HashTable_Get equal hash h k = Ok (lookup equal k m)
  | Full => ht_run equal hash h0 os = Abort
  | DeletedAbsent => True
  end.
Proof. exact @history_ok. Qed.
Print Assumptions C17_hash_table_is_a_finite_map.
(** three keys in one bucket; an update, a deletion, a recycled slot *)
Definition C17_ops : list (htop Z Z) :=
  [OSet 1 10; OSet 4 40; OSet 7 70; OSet 4 41; ODel 4; OSet 10 100; ODel 1]%Z.
Example C17_example :
  map_run Z.eqb 3 [] C17_ops = Map [(7, 70); (10, 100)]%Z /\
  (do h0 <- HashTable_INIT 3 3 ; do h <- ht_run Z.eqb Z.abs h0 C17_ops ; HashTable_Get Z.eqb Z.abs h 10%Z) = Ok (Some 100%Z) /\
  map_run Z.eqb 2 [] C17_ops = Full.
Proof. vm_compute. auto. Qed.

(** C18: after every such history each item slot is either on the free stack, or used by
    exactly one bucket chain. *)
Theorem C18_no_storage_lost : forall (K V : Type) (equal : K -> K -> bool) (hash : K -> Z),
  (forall k, equal k k = true) -> (forall a b, equal a b = equal b a) ->
  (forall a b c, equal a b = true -> equal b c = true -> equal a c = true) ->
  (forall a b, equal a b = true -> hash a = hash b) -> (forall k, (0 <= hash k)%Z) ->
  forall (nbuckets capacity : nat) (os : list (htop K V)) h0 h m, 0 < nbuckets ->
  HashTable_INIT nbuckets capacity = Ok h0 -> map_run equal capacity [] os = Map m ->
  ht_run equal hash h0 os = Ok h ->
  length (storage h) = capacity /\
  forall i, i < capacity ->
    (slot_free h i /\ (forall b, ~ slot_used h b i)) \/
    (~ slot_free h i /\ exists b, slot_used h b i /\ forall b', slot_used h b' i -> b' = b).
Proof. exact @history_slots. Qed.
Print Assumptions C18_no_storage_lost.

(** C19 is false: deleting an absent key dereferences NULL if its bucket is empty, aborts if
    the bucket has several entries, and silently removes the other key if it has one. *)
Theorem C19_delete_absent_outcomes_partial : forall (K V : Type) (equal : K -> K -> bool) (hash : K -> Z),
  (forall k, equal k k = true) -> (forall a b, equal a b = equal b a) ->
  (forall a b c, equal a b = true -> equal b c = true -> equal a c = true) ->
  (forall a b, equal a b = true -> hash a = hash b) -> (forall k, (0 <= hash k)%Z) ->
  forall (nbuckets capacity : nat) (os : list (htop K V)) h0 h m key, 0 < nbuckets ->
  HashTable_INIT nbuckets capacity = Ok h0 -> map_run equal capacity [] os = Map m ->
  ht_run equal hash h0 os = Ok h -> has equal key m = false ->
  HashTable_Delete equal hash h key = UB \/ HashTable_Delete equal hash h key = Abort \/
  exists h' k v, HashTable_Delete equal hash h key = Ok h' /\ equal k key = false /\
       HashTable_Get equal hash h k = Ok (Some v) /\ HashTable_Get equal hash h' k = Ok None.
Proof. exact @history_delete_absent. Qed.
Print Assumptions C19_delete_absent_outcomes_partial.
Theorem C19_delete_absent_is_harmless_refuted :
  exists (h h' : htable Z Z), (do h0 <- HashTable_INIT 2 2 ; ht_run Z.eqb Z.abs h0 [OSet 1 10]%Z) = Ok h /\
    HashTable_Delete Z.eqb Z.abs h 3%Z = Ok h' /\
    HashTable_Get Z.eqb Z.abs h 1%Z = Ok (Some 10%Z) /\ HashTable_Get Z.eqb Z.abs h' 1%Z = Ok None /\
    HashTable_Delete Z.eqb Z.abs h 2%Z = UB.
Proof. eexists _, _. repeat split; vm_compute; reflexivity. Qed.
Print Assumptions C19_delete_absent_is_harmless_refuted.

(** C20: every history of pushes and pops behaves as a list (last in, first out); popping an
    empty stack aborts.  Pushing onto a full one writes past the array before the check. *)
Theorem C20_stack_is_bounded_lifo : forall (A : Type) (capacity : nat) (os : list (sop A)),
  match lifo_run capacity [] os with
  | Ok (l, out) => exists s, stack_run (Stack_INIT (repeat None capacity) capacity) os = Ok (s, out) /\
                     Stack_IsEmpty s = match l with [] => true | _ => false end
  | Abort => stack_run (Stack_INIT (repeat None capacity) capacity) os = Abort
  | UB => stack_run (Stack_INIT (repeat None capacity) capacity) os = UB
  end.
Proof. exact @stack_history. Qed.
Print Assumptions C20_stack_is_bounded_lifo.
Example C20_example : lifo_run 2 [] [SPush 1; SPush 2; SPop; SPush 3; SPop; SPop] = Ok ([], [2; 3; 1]) /\
  lifo_run 2 [] [SPush 1; SPop; SPop] = Abort.
Proof. vm_compute. auto. Qed.
Theorem C20_push_on_full_is_reported_refuted :
  stack_run (Stack_INIT (repeat None 1) 1) [SPush 1; SPush 2] = UB.
Proof. vm_compute. reflexivity. Qed.
Print Assumptions C20_push_on_full_is_reported_refuted.
