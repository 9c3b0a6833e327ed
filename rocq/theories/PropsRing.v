(** Property theorem C29: the occurrence time index. *)
From Verif Require Import Base RingM RingP.
Local Open Scope Z_scope.

(** C29: after any history of insertions and resets, the k-th newest query for 0 <= k < 512
    returns the k-th most recent insertion since the last reset, and nothing when there are
    not that many; other k are rejected unless the index is empty; the number of remembered
    elements is the number of insertions, at most 512. *)
Theorem C29_kth_newest : forall (A : Type) (os : list (ring_op A)),
  exists f, ring_run ring0 os = Ok f /\
    let l := newest_first os [] in
    r_amount f = Z.min (Z.of_nat (length l)) 512 /\
    forall k, GetKthNewestElement f k =
      if (length l =? 0)%nat then Ok None
      else if (0 <=? k) && (k <? 512) then Ok (nth_error l (Z.to_nat k)) else Abort.
Proof.
  intros A os. destruct (run_inv os ring0 [] ring0_inv) as (f & E & I). exists f. split; auto. cbv zeta.
  split; [apply I|]. intros k. apply get_inv. exact I.
Qed.
Print Assumptions C29_kth_newest.
(** 600 insertions: the newest is 600, the oldest remembered is 89 *)
Example C29_example :
  exists f, ring_run ring0 (map (fun i => RAdd i) (seq 1 600)) = Ok f /\ r_amount f = 512 /\
    GetKthNewestElement f 0 = Ok (Some 600%nat) /\ GetKthNewestElement f 511 = Ok (Some 89%nat).
Proof. eexists. split; [vm_compute; reflexivity|]. vm_compute. auto. Qed.
