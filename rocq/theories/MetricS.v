(** Vocabulary for metrics (independent of MetricM). *)
From Coq Require Import ZArith List.
Import ListNotations.
Local Open Scope Z_scope.

(** the value of a text of digits *)
Definition horner (ds : list Z) : Z := fold_left (fun n c => 10 * n + (c - 48)) ds 0.
(** the usual notation of a natural number: digits, no leading zero *)
Inductive natural : Z -> list Z -> Prop :=
| natural_zero : natural 0 [48]
| natural_digits : forall d ds, 49 <= d <= 57 -> Forall (fun c => 48 <= c <= 57) ds -> natural (horner (d :: ds)) (d :: ds).
(** the usual notation of an integer *)
Inductive numeral : Z -> list Z -> Prop :=
| numeral_pos : forall v ds, 0 <= v -> natural v ds -> numeral v ds
| numeral_neg : forall v ds, v < 0 -> natural (- v) ds -> numeral v (45 :: ds).
(** the bytes of a counter metric of the statsd protocol: name, ':', value, "|c" *)
Definition statsd (name : list Z) (v : Z) (t : list Z) : Prop :=
  exists ds, numeral v ds /\ t = name ++ [58] ++ ds ++ [124; 99].
(** a name (a C string): no NUL *)
Definition c_string (name : list Z) : Prop := ~ In 0 name.
(** an int *)
Definition is_int (v : Z) : Prop := - 2 ^ 31 <= v < 2 ^ 31.
(** [d] is the text [t] filled up with at least one zero *)
Definition padded (t d : list Z) : Prop := exists n, d = t ++ repeat 0 (S n).
(** a datagram of 130 bytes with the metric *)
Definition carries (d : list Z) (m : list Z * Z) : Prop :=
  length d = 130%nat /\ exists t, statsd (fst m) (snd m) t /\ padded t d.
(** what one can send: a C string and an int of together at most 126 bytes *)
Definition fits (m : list Z * Z) : Prop :=
  c_string (fst m) /\ is_int (snd m) /\ exists t, statsd (fst m) (snd m) t /\ (length t <= 129)%nat.
