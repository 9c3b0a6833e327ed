(** Model of the hash function and the random number generator, /repo/src/Globals.c 39-70,
    and of the bucket choice of HashTable.c.
    HASH_TYPE is [long] (Globals.h 67), 64 bit on the modelled platform.  Signed overflow and
    shifts of negative values are modelled as two's complement wrap-around and arithmetic
    shift (what gcc does for these operations); ISO C leaves them undefined or
    implementation-defined. *)
From Verif Require Import Base.
Local Open Scope Z_scope.

(** value of the 64-bit two's complement word with the low 64 bits of x: (x + 2^63) mod 2^64 - 2^63,
    computed with a bit mask (HashP.v: wrap64_mod) *)
Definition wrap64 (x : Z) : Z := Z.land (x + 0x8000000000000000) 0xffffffffffffffff - 0x8000000000000000.
Definition is64 (x : Z) : Prop := - 2 ^ 63 <= x < 2 ^ 63.

(** Globals.c 44-50: one round of the loop. *)
Definition hash_round (hash data : Z) : Z :=
  let h := Z.lxor hash data in
  let h := wrap64 (h + Z.lnot (wrap64 (Z.shiftl h 15))) in
  let h := Z.lxor h (Z.shiftr h 10) in
  let h := wrap64 (h + wrap64 (Z.shiftl h 3)) in
  let h := Z.lxor h (Z.shiftr h 6) in
  let h := wrap64 (h + Z.lnot (wrap64 (Z.shiftl h 11))) in
  Z.lxor h (Z.shiftr h 16).
(** Globals.c 39-53 [Globals_Hash]; [data] lists the [pieces] words. *)
Definition Globals_Hash (data : list Z) : Z := fold_left hash_round data 0.

(** HashTable.c 29, 43, 83: [hash(key) % buckets], C remainder (truncation towards 0). *)
Definition bucket_of (hash buckets : Z) : Z := Z.rem hash buckets.

(** Globals.c 57-65 [myrand]: new state and returned value; [next] is an unsigned long. *)
Definition rand_step (next : Z) : Z := (next * 1103515245 + 12345) mod 2 ^ 64.
Definition rand_out (next : Z) : Z := (((next / 65536) mod 2 ^ 32) mod 32768).
Definition myrand (next : Z) : Z * Z := let n := rand_step next in (n, rand_out n).
(** Globals.c 67-70 [mysrand] *)
Definition mysrand (seed : Z) : Z := seed.
(** n successive calls of myrand after mysrand(seed): the values returned *)
Fixpoint rand_seq (n : nat) (next : Z) : list Z :=
  match n with
  | O => []
  | S n' => let (next', v) := myrand next in v :: rand_seq n' next'
  end.
(** the generator state after n calls *)
Fixpoint rand_state (n : nat) (next : Z) : Z :=
  match n with O => next | S n' => rand_state n' (rand_step next) end.
