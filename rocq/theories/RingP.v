From Verif Require Import Base RingM.
Local Open Scope Z_scope.
Lemma RING_pos : 0 < RING. Proof. reflexivity. Qed.
#[local] Opaque RING.
Section Ring.
Context {A : Type}.
(** the ring f holds the insertions [l] (newest first) *)
Definition ring_inv (f : ring A) (l : list A) : Prop :=
  length (r_array f) = Z.to_nat RING /\
  r_current f = Z.of_nat (length l) mod RING /\
  r_amount f = Z.min (Z.of_nat (length l)) RING /\
  forall k, 0 <= k < RING -> nth_error (r_array f) (Z.to_nat ((r_current f - 1 - k) mod RING)) = Some (nth_error l (Z.to_nat k)).
Lemma ring0_inv : ring_inv ring0 [].
Proof.
  split; [apply repeat_length|]. split; [reflexivity|]. split; [reflexivity|].
  intros k H. pose proof (Z.mod_pos_bound (r_current (@ring0 A) - 1 - k) RING RING_pos) as B.
  replace (nth_error (@nil A) (Z.to_nat k)) with (@None A) by (destruct (Z.to_nat k); reflexivity).
  unfold ring0 at 1. cbn [r_array]. apply nth_error_repeat. lia.
Qed.
Lemma add_inv f l c : ring_inv f l -> exists f', OccurrenceTimeIndex_Add c f = Ok f' /\ ring_inv f' (c :: l).
Proof.
  intros (L & C & M & K). unfold OccurrenceTimeIndex_Add.
  pose proof (Z.mod_pos_bound (Z.of_nat (length l)) RING RING_pos) as B. rewrite <- C in B.
  rewrite L, Z2Nat.id by (pose proof RING_pos; lia).
  replace ((0 <=? r_current f) && (r_current f <? RING)) with true by lia.
  eexists; split; [reflexivity|]. unfold ring_inv. cbn [r_array r_current r_amount length].
  split; [rewrite upd_length; auto|]. split; [|split].
  - rewrite C. rewrite Zplus_mod_idemp_l. f_equal. lia.
  - rewrite M. pose proof RING_pos; lia.
  - intros k H. rewrite nth_error_upd, L.
    assert (E : ((r_current f + 1) mod RING - 1 - k) mod RING = (r_current f - k) mod RING).
    { rewrite <- Zminus_mod_idemp_l. rewrite (Zminus_mod_idemp_l (r_current f + 1) 1). rewrite Zminus_mod_idemp_l. f_equal. lia. }
    rewrite E. destruct (Z.eq_dec k 0) as [->|N].
    + rewrite Z.sub_0_r, Z.mod_small by lia. rewrite Nat.eqb_refl.
      replace (Z.to_nat (r_current f) <? Z.to_nat RING)%nat with true by lia. reflexivity.
    + pose proof (Z.mod_pos_bound (r_current f - k) RING RING_pos) as B2.
      assert (NE : (r_current f - k) mod RING <> r_current f).
      { destruct (Z_lt_le_dec (r_current f - k) 0).
        - rewrite <- (Z_mod_plus_full _ 1), Z.mod_small; lia.
        - rewrite Z.mod_small; lia. }
      destruct (Nat.eqb_spec (Z.to_nat ((r_current f - k) mod RING)) (Z.to_nat (r_current f))) as [X|X]; [exfalso; apply NE, Z2Nat.inj; [apply B2|apply B|exact X]|].
      cbn [andb]. specialize (K (k - 1) ltac:(lia)).
      replace (r_current f - 1 - (k - 1)) with (r_current f - k) in K by lia. rewrite K.
      replace (Z.to_nat k) with (S (Z.to_nat (k - 1))) by (clear - H N; lia). reflexivity.
Qed.
Lemma run_inv os : forall f l, ring_inv f l -> exists f', ring_run f os = Ok f' /\ ring_inv f' (newest_first os l).
Proof.
  induction os as [|[c|] os IH]; intros f l H; cbn [ring_run ring_step newest_first].
  - eauto.
  - destruct (add_inv f l c H) as (f' & E & I). rewrite E. cbn [rbind]. auto.
  - cbn [rbind]. apply IH. apply ring0_inv.
Qed.
Lemma get_inv f l k : ring_inv f l ->
  GetKthNewestElement f k = if (length l =? 0)%nat then Ok None
                            else if (0 <=? k) && (k <? RING) then Ok (nth_error l (Z.to_nat k)) else Abort.
Proof.
  intros (L & C & M & K). unfold GetKthNewestElement, ring_index.
  destruct (Nat.eqb_spec (length l) 0) as [E|E].
  - replace (r_amount f =? 0) with true by (pose proof RING_pos; lia). reflexivity.
  - replace (r_amount f =? 0) with false by (pose proof RING_pos; lia).
    destruct ((0 <=? k) && (k <? RING)) eqn:R; cbn [rassert rbind]; [|reflexivity].
    pose proof (Z.mod_pos_bound (Z.of_nat (length l)) RING RING_pos) as B. rewrite <- C in B.
    specialize (K k ltac:(lia)).
    assert (Q : (if r_current f - 1 - k <? 0 then RING + (r_current f - 1 - k) else r_current f - 1 - k) = (r_current f - 1 - k) mod RING).
    { destruct (Z.ltb_spec (r_current f - 1 - k) 0).
      - rewrite <- (Z_mod_plus_full (r_current f - 1 - k) 1), Z.mod_small; lia.
      - rewrite Z.mod_small; lia. }
    rewrite Q. pose proof (Z.mod_pos_bound (r_current f - 1 - k) RING RING_pos) as B2.
    destruct (Z.ltb_spec ((r_current f - 1 - k) mod RING) 0); [lia|]. rewrite K. reflexivity.
Qed.
End Ring.
