(** Common definitions: outcomes of C code, array helpers, configuration constants. *)
From Coq Require Export List ZArith Lia Bool Arith.
From Coq Require Export ZifyBool ZifyNat.
Export ListNotations.
#[global] Set Warnings "-notation-overridden".

(** Outcome of a piece of C code.
    [Abort]: a failed call of ONA's own [assert] (Globals.c 29-37, always compiled in: prints, then exits).
    [UB]: undefined behaviour of C (access outside an array, NULL dereference, ...). *)
Inductive res (A : Type) : Type :=
| Ok (a : A)
| Abort
| UB.
Arguments Ok {A} a.
Arguments Abort {A}.
Arguments UB {A}.

Definition rbind {A B} (x : res A) (f : A -> res B) : res B :=
  match x with Ok a => f a | Abort => Abort | UB => UB end.
Notation "'do' x <- e ; f" := (rbind e (fun x => f))
  (at level 200, x pattern, e at level 100, f at level 200).
(** [assert(b, ...)] *)
Definition rassert (b : bool) : res unit := if b then Ok tt else Abort.
Definition is_ok {A} (r : res A) : bool := match r with Ok _ => true | _ => false end.

(** Array write: a C array is a list of fixed length, [upd l i x] is [l[i] = x]. *)
Fixpoint upd {A} (l : list A) (i : nat) (x : A) : list A :=
  match l, i with
  | [], _ => []
  | _ :: t, O => x :: t
  | h :: t, S i' => h :: upd t i' x
  end.

Lemma upd_length {A} (l : list A) i x : length (upd l i x) = length l.
Proof. revert i; induction l as [|h t IH]; intros [|i]; cbn; auto. Qed.

Lemma nth_upd {A} (l : list A) i j x d :
  nth j (upd l i x) d = if Nat.eqb j i && Nat.ltb i (length l) then x else nth j l d.
Proof.
  revert i j; induction l as [|h t IH]; intros i j.
  - cbn [upd length]. rewrite andb_comm. destruct i, j; cbn; auto.
  - destruct i as [|i], j as [|j]; cbn [upd nth length]; auto.
    rewrite IH. change (S j =? S i) with (j =? i). change (S i <? S (length t)) with (i <? length t). reflexivity.
Qed.

Lemma nth_upd_same {A} (l : list A) i x d : i < length l -> nth i (upd l i x) d = x.
Proof. intros H. rewrite nth_upd, Nat.eqb_refl. destruct (Nat.ltb_spec i (length l)); [reflexivity|lia]. Qed.

Lemma nth_upd_diff {A} (l : list A) i j x d : i <> j -> nth j (upd l i x) d = nth j l d.
Proof. intros H. rewrite nth_upd. destruct (Nat.eqb_spec j i); [congruence|reflexivity]. Qed.

Lemma nth_error_upd {A} (l : list A) i j x :
  nth_error (upd l i x) j = if Nat.eqb j i && Nat.ltb i (length l) then Some x else nth_error l j.
Proof.
  revert i j; induction l as [|h t IH]; intros i j.
  - cbn [upd length]. rewrite andb_comm. destruct i, j; cbn; auto.
  - destruct i as [|i], j as [|j]; cbn [upd nth_error length]; auto.
    rewrite IH. change (S j =? S i) with (j =? i). change (S i <? S (length t)) with (i <? length t). reflexivity.
Qed.

(** Extensionality of lists through [nth_error]. *)
Lemma nth_error_ext {A} (l l' : list A) : (forall i, nth_error l i = nth_error l' i) -> l = l'.
Proof.
  revert l'; induction l as [|h t IH]; intros [|h' t'] H; auto.
  - specialize (H 0); discriminate.
  - specialize (H 0); discriminate.
  - f_equal. + specialize (H 0); cbn in H; congruence.
    + apply IH; intros i; exact (H (S i)).
Qed.

Lemma NoDup_app_remove_l {A} (l l' : list A) : NoDup (l ++ l') -> NoDup l'.
Proof. induction l as [|x l IH]; cbn; auto. intros H; inversion H; auto. Qed.
Lemma NoDup_app_remove_r {A} (l l' : list A) : NoDup (l ++ l') -> NoDup l.
Proof.
  induction l as [|x l IH]; cbn; intros H; [constructor|]. inversion H as [|? ? N1 N2]; subst. constructor; auto.
  intros X; apply N1, in_or_app; auto.
Qed.
