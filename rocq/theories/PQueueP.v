(** Proofs about PQueueM: min-max heap order, contents, slots. *)
From Coq Require Import Permutation.
From Verif Require Import Base PQueueM.
Ltac Zify.zify_post_hook ::= Z.div_mod_to_equations.

(** ** Levels *)
Definition maxl (i : nat) : bool := Nat.odd (Nat.log2 (i + 1)).

Lemma level_loop_spec fuel : forall n k, n < fuel -> 
  level_loop fuel n k = k + (if n =? 0 then 0 else S (Nat.log2 n)).
Proof.
  induction fuel as [|f IH]; intros n k H; [lia|]. cbn [level_loop].
  destruct (Nat.eqb_spec n 0) as [E|E]; [lia|].
  rewrite IH by lia.
  destruct (Nat.eqb_spec (n / 2) 0) as [E2|E2].
  - assert (n = 1) by lia. subst n. cbn. lia.
  - assert (HL : Nat.log2 n = S (Nat.log2 (n / 2))).
    { assert (C : n = 2 * (n / 2) \/ n = 2 * (n / 2) + 1) by lia.
      destruct C as [C|C]; rewrite C at 1.
      - rewrite Nat.log2_double by lia. reflexivity.
      - rewrite Nat.log2_succ_double by lia. reflexivity. }
    rewrite HL. lia.
Qed.

Lemma is_on_max_level_spec i : is_on_max_level i = maxl i.
Proof.
  unfold is_on_max_level, maxl. rewrite level_loop_spec by lia.
  destruct (Nat.eqb_spec (i + 1) 0); [lia|]. f_equal. lia.
Qed.

Definition par (d : nat) : nat := (d - 1) / 2.

Lemma maxl_child d : 0 < d -> maxl d = negb (maxl (par d)).
Proof.
  intros H. unfold maxl, par.
  assert (HL : Nat.log2 (d + 1) = S (Nat.log2 ((d - 1) / 2 + 1))).
  { assert (C : d + 1 = 2 * ((d - 1) / 2 + 1) \/ d + 1 = 2 * ((d - 1) / 2 + 1) + 1) by lia.
    destruct C as [C|C]; rewrite C at 1.
    - rewrite Nat.log2_double by lia. reflexivity.
    - rewrite Nat.log2_succ_double by lia. reflexivity. }
  rewrite HL, Nat.odd_succ, <- Nat.negb_odd. reflexivity.
Qed.

Lemma maxl_0 : maxl 0 = false. Proof. reflexivity. Qed.

(** proper ancestors in the implicit tree *)
Inductive anc : nat -> nat -> Prop :=
| anc_par d : 0 < d -> anc (par d) d
| anc_step a d : 0 < d -> anc a (par d) -> anc a d.

Lemma par_lt d : 0 < d -> par d < d. Proof. unfold par; lia. Qed.
Lemma anc_lt a d : anc a d -> a < d.
Proof. induction 1; pose proof (par_lt d); lia. Qed.
Lemma anc_pos a d : anc a d -> 0 < d. Proof. intros H; apply anc_lt in H; lia. Qed.
Lemma anc_inv a d : anc a d -> a = par d \/ anc a (par d).
Proof. inversion 1; auto. Qed.
Lemma anc_trans a b c : anc a b -> anc b c -> anc a c.
Proof. intros H1 H2; induction H2; apply anc_step; auto. Qed.
Lemma anc_irrefl a : ~ anc a a. Proof. intros H; apply anc_lt in H; lia. Qed.

Lemma child_par i c : c = 2 * i + 1 \/ c = 2 * i + 2 <-> 0 < c /\ par c = i.
Proof. unfold par; lia. Qed.

(** descendants of i: children, grandchildren, or below a grandchild *)
Lemma anc_cases i d : anc i d ->
  (0 < d /\ par d = i) \/
  (0 < d /\ 0 < par d /\ par (par d) = i) \/
  (exists g, anc g d /\ 0 < g /\ 0 < par g /\ par (par g) = i).
Proof.
  induction 1 as [d H|a d H1 H2 IH]; [left; auto|].
  right. destruct IH as [[H3 H4]|[(H3 & H4 & H5)|(g & H3 & H4 & H5 & H6)]].
  - left; auto.
  - right; exists (par d). split; [apply anc_par; auto|auto].
  - right; exists g. split; [apply anc_step; auto|auto].
Qed.

Lemma parent_spec i : parent i = if i =? 0 then None else Some (par i).
Proof.
  unfold parent, par. destruct (Nat.eqb_spec ((i + 1) / 2) 0), (Nat.eqb_spec i 0); try lia; try reflexivity.
  f_equal; lia.
Qed.
Lemma grandparent_spec i :
  grandparent i = if i <=? 2 then None else Some (par (par i)).
Proof.
  unfold grandparent, par. destruct (Nat.eqb_spec ((i + 1) / 4) 0), (Nat.leb_spec i 2); try lia; try reflexivity.
  f_equal; lia.
Qed.

Section Order.
Context {K : Type} (ltb : K -> K -> bool) (dK : K).
Hypothesis ltb_asym : forall x y, ltb x y = true -> ltb y x = false.
Hypothesis nlt_trans : forall x y z, ltb y x = false -> ltb z y = false -> ltb z x = false.

Notation ltI := (ltI ltb).
(** x is at least as good (as small, or as large if inverted) as y *)
Definition leI (inv : bool) (x y : K) : Prop := if inv then ltb x y = false else ltb y x = false.

Lemma leI_refl inv x : leI inv x x.
Proof. assert (ltb x x = false) by (destruct (ltb x x) eqn:E; [pose proof (ltb_asym _ _ E); congruence|reflexivity]). destruct inv; exact H. Qed.
Lemma leI_trans inv x y z : leI inv x y -> leI inv y z -> leI inv x z.
Proof. destruct inv; cbn; intros; [eapply nlt_trans|eapply nlt_trans]; eauto. Qed.
Lemma leI_flip inv x y : leI (negb inv) x y <-> leI inv y x.
Proof. destruct inv; cbn; tauto. Qed.
Lemma ltI_true inv x y : ltI inv x y = true -> leI inv x y.
Proof.
  unfold PQueueM.ltI, leI; destruct inv, (ltb x y) eqn:E; cbn; intros; try discriminate; auto.
Qed.
Lemma ltI_false inv x y : ltI inv x y = false -> leI inv y x.
Proof.
  unfold PQueueM.ltI, leI; destruct inv, (ltb x y) eqn:E; cbn; intros; try discriminate; auto.
Qed.

Notation at_ := (at_ dK).
Notation prio := (prio dK).
Notation swap := (swap dK).

(** ** swap *)
Lemma swap_length l i j : length (swap l i j) = length l.
Proof. unfold PQueueM.swap. rewrite !upd_length. reflexivity. Qed.

Lemma at_swap l i j x : i < length l -> j < length l ->
  at_ (swap l i j) x = if x =? j then at_ l i else if x =? i then at_ l j else at_ l x.
Proof.
  intros Hi Hj. unfold PQueueM.swap, PQueueM.at_. rewrite nth_upd, upd_length.
  destruct (Nat.ltb_spec j (length l)); [|lia].
  destruct (Nat.eqb_spec x j); cbn; [reflexivity|]. rewrite nth_upd.
  destruct (Nat.ltb_spec i (length l)); [|lia]. destruct (Nat.eqb_spec x i); reflexivity.
Qed.
Lemma prio_swap l i j x : i < length l -> j < length l ->
  prio (swap l i j) x = if x =? j then prio l i else if x =? i then prio l j else prio l x.
Proof.
  intros Hi Hj. unfold PQueueM.prio. rewrite at_swap by auto.
  destruct (x =? j), (x =? i); reflexivity.
Qed.

(** ** heap order *)
Definition okp (k : nat -> K) (a d : nat) : Prop := leI (maxl a) (k a) (k d).
Definition heap (k : nat -> K) (n : nat) : Prop := forall a d, anc a d -> d < n -> okp k a d.

Lemma heap_ext k k' n : (forall i, i < n -> k i = k' i) -> heap k n -> heap k' n.
Proof.
  intros E H a d Ha Hd. unfold okp. pose proof (anc_lt _ _ Ha).
  rewrite <- !E by lia. apply H; auto.
Qed.
Lemma heap_mono k n m : m <= n -> heap k n -> heap k m.
Proof. intros HL H a d Ha Hd; apply H; [auto|lia]. Qed.

(** order holds except possibly between i and its descendants *)
Definition heap_but (k : nat -> K) (n i : nat) : Prop :=
  forall a d, anc a d -> d < n -> a <> i -> okp k a d.

Lemma smallest_child_spec l n i inv m :
  m = smallest_child ltb dK l n i inv ->
  (m = i /\ n <= 2 * i + 1) \/
  (m <> i /\ m < n /\ 0 < m /\ par m = i /\
   forall c, c < n -> 0 < c -> par c = i -> leI inv (prio l m) (prio l c)).
Proof.
  unfold smallest_child, left_child. intros ->.
  destruct (Nat.leb_spec n (2 * i + 1)) as [H|H]; [left; auto|right].
  destruct (Nat.ltb_spec (2 * i + 1 + 1) n) as [H2|H2]; cbn [andb].
  - destruct (ltI inv (prio l (2 * i + 1 + 1)) (prio l (2 * i + 1))) eqn:E.
    + repeat split; try (unfold par; lia).
      intros c Hc Hc0 Hcp. assert (C : c = 2 * i + 1 \/ c = 2 * i + 1 + 1) by (unfold par in Hcp; lia).
      destruct C as [->| ->]; [apply ltI_true; exact E|apply leI_refl].
    + repeat split; try (unfold par; lia).
      intros c Hc Hc0 Hcp. assert (C : c = 2 * i + 1 \/ c = 2 * i + 1 + 1) by (unfold par in Hcp; lia).
      destruct C as [->| ->]; [apply leI_refl|apply ltI_false; exact E].
  - repeat split; try (unfold par; lia).
    intros c Hc Hc0 Hcp. assert (c = 2 * i + 1) by (unfold par in Hcp; lia). subst c. apply leI_refl.
Qed.

Lemma gc_step_spec l n inv best r :
  (gc_step ltb dK l n inv best r = best \/ (gc_step ltb dK l n inv best r = r /\ r < n)) /\
  leI inv (prio l (gc_step ltb dK l n inv best r)) (prio l best) /\
  (r < n -> leI inv (prio l (gc_step ltb dK l n inv best r)) (prio l r)).
Proof.
  unfold gc_step. destruct (Nat.ltb_spec r n) as [H|H]; cbn [andb].
  - destruct (ltI inv (prio l r) (prio l best)) eqn:E.
    + split; [auto|]. split; [apply ltI_true; auto|intros; apply leI_refl].
    + split; [auto|]. split; [apply leI_refl|intros; apply ltI_false; auto].
  - split; [auto|]. split; [apply leI_refl|lia].
Qed.

Lemma smallest_grandchild_spec l n i inv j :
  j = smallest_grandchild ltb dK l n i inv ->
  (j = i /\ n <= 4 * i + 3) \/
  (j <> i /\ j < n /\ 0 < j /\ 0 < par j /\ par (par j) = i /\
   forall g, g < n -> 0 < g -> 0 < par g -> par (par g) = i -> leI inv (prio l j) (prio l g)).
Proof.
  unfold smallest_grandchild, left_grandchild. intros ->.
  destruct (Nat.leb_spec n (4 * i + 3)) as [H|H]; [left; auto|right].
  cbn [fold_left].
  set (lg := 4 * i + 3) in *.
  destruct (gc_step_spec l n inv lg (lg + 1)) as (A1 & A2 & A3).
  set (b1 := gc_step ltb dK l n inv lg (lg + 1)) in *.
  destruct (gc_step_spec l n inv b1 (lg + 2)) as (B1 & B2 & B3).
  set (b2 := gc_step ltb dK l n inv b1 (lg + 2)) in *.
  destruct (gc_step_spec l n inv b2 (lg + 3)) as (C1 & C2 & C3).
  set (b3 := gc_step ltb dK l n inv b2 (lg + 3)) in *.
  assert (R : lg <= b3 <= lg + 3 /\ b3 < n) by lia.
  repeat split; try (unfold par, lg in *; lia).
  intros g Hg Hg0 Hp Hgp.
  assert (C : g = lg \/ g = lg + 1 \/ g = lg + 2 \/ g = lg + 3) by (unfold par, lg in *; lia).
  destruct C as [->|[->|[->| ->]]].
  - eapply leI_trans; [exact C2|]. eapply leI_trans; [exact B2|exact A2].
  - eapply leI_trans; [exact C2|]. eapply leI_trans; [exact B2|auto].
  - eapply leI_trans; [exact C2|auto].
  - auto.
Qed.

Ltac eqbs := repeat match goal with
  | |- context [?a =? ?b] => destruct (Nat.eqb_spec a b)
  end.

Lemma trickle_down_length f : forall l n i inv, length (trickle_down ltb dK f l n i inv) = length l.
Proof.
  induction f as [|f IH]; intros l n i inv; cbn [trickle_down]; [reflexivity|].
  destruct (_ =? i); [reflexivity|].
  set (l1 := if ltI inv _ _ then _ else l).
  assert (E1 : length l1 = length l) by (unfold l1; destruct (ltI inv _ _); rewrite ?swap_length; reflexivity).
  clearbody l1.
  destruct (_ =? i); [exact E1|]. destruct (ltI inv _ _); [|exact E1].
  rewrite IH, swap_length. exact E1.
Qed.

(** trickleDown repairs the order below i *)
Lemma trickle_down_heap f : forall l n i inv,
  n <= length l -> n <= i + f -> inv = maxl i ->
  heap_but (prio l) n i -> heap (prio (trickle_down ltb dK f l n i inv)) n.
Proof.
  induction f as [|f IH]; intros l n i inv HL HF Hinv HB; cbn [trickle_down].
  { intros a d Ha Hd. apply HB; auto. apply anc_lt in Ha. lia. }
  pose (m := smallest_child ltb dK l n i inv). fold m.
  destruct (smallest_child_spec l n i inv m eq_refl) as [[Hm Hn]|(Hmi & Hmn & Hm0 & Hmp & Hmin)].
  { destruct (Nat.eqb_spec m i); [|congruence].
    intros a d Ha Hd. apply HB; auto. intros ->.
    destruct (anc_cases _ _ Ha) as [(H0 & H1)|[(H0 & H1 & H2)|(g & H0 & H1 & H2 & H3)]].
    - unfold par in *; lia.
    - unfold par in *; lia.
    - apply anc_lt in H0. unfold par in *; lia. }
  destruct (Nat.eqb_spec m i); [congruence|].
  set (l1 := if ltI inv (prio l m) (prio l i) then swap l i m else l).
  assert (Him : i < m) by (unfold par in Hmp; lia).
  assert (HL1 : length l1 = length l) by (unfold l1; destruct (ltI inv _ _); rewrite ?swap_length; auto).
  assert (Hmaxm : maxl m = negb inv) by (rewrite maxl_child, Hmp, Hinv by auto; reflexivity).
  assert (HB1 : heap_but (prio l1) n i /\
                (forall c, c < n -> 0 < c -> par c = i -> leI inv (prio l1 i) (prio l1 c))).
  { unfold l1. destruct (ltI inv (prio l m) (prio l i)) eqn:E.
    - apply ltI_true in E. split.
      + intros a d Ha Hd Hai. unfold okp. rewrite !prio_swap by lia.
        pose proof (anc_lt _ _ Ha).
        destruct (Nat.eqb_spec a m) as [->|Nam].
        * (* a = m *)
          destruct (Nat.eqb_spec d m); [lia|]. destruct (Nat.eqb_spec d i); [lia|].
          rewrite Hmaxm. apply leI_flip. eapply leI_trans; [|exact E].
          apply leI_flip. rewrite <- Hmaxm. apply HB; auto.
        * destruct (Nat.eqb_spec a i) as [->|_]; [congruence|].
          destruct (Nat.eqb_spec d m) as [->|Ndm].
          -- destruct (anc_inv _ _ Ha) as [->|Ha']; [congruence|]. rewrite Hmp in Ha'.
             apply HB; auto. lia.
          -- destruct (Nat.eqb_spec d i) as [->|Ndi]; [|apply HB; auto].
             apply HB; auto. apply anc_step; auto. rewrite Hmp. exact Ha.
      + intros c Hc Hc0 Hcp. rewrite !prio_swap by lia.
        rewrite Nat.eqb_refl. destruct (Nat.eqb_spec i m); [lia|].
        destruct (Nat.eqb_spec c m); [exact E|]. destruct (Nat.eqb_spec c i); [unfold par in *; lia|].
        apply Hmin; auto.
    - apply ltI_false in E. split; [exact HB|].
      intros c Hc Hc0 Hcp. eapply leI_trans; [exact E|]. apply Hmin; auto. }
  destruct HB1 as [HB1 Hch].
  pose (j := smallest_grandchild ltb dK l1 n i inv). fold j.
  destruct (smallest_grandchild_spec l1 n i inv j eq_refl) as [[Hj Hn]|(Hji & Hjn & Hj0 & Hpj0 & Hpj & Hjmin)].
  { destruct (Nat.eqb_spec j i); [|congruence].
    intros a d Ha Hd. destruct (Nat.eq_dec a i) as [->|Nai]; [|apply HB1; auto].
    unfold okp. rewrite <- Hinv.
    destruct (anc_cases _ _ Ha) as [(H0 & H1)|[(H0 & H1 & H2)|(g & H0 & H1 & H2 & H3)]].
    - apply Hch; auto.
    - unfold par in *; lia.
    - apply anc_lt in H0. unfold par in *; lia. }
  destruct (Nat.eqb_spec j i); [congruence|].
  assert (Hij : i < j) by (unfold par in Hpj; lia).
  assert (Hmaxj : maxl j = inv).
  { rewrite maxl_child, (maxl_child (par j)), Hpj, Hinv by auto. destruct (maxl i); reflexivity. }
  destruct (ltI inv (prio l1 j) (prio l1 i)) eqn:E.
  - apply ltI_true in E.
    apply IH; rewrite ?swap_length; try lia; auto.
    intros a d Ha Hd Haj. unfold okp. rewrite !prio_swap by lia.
    pose proof (anc_lt _ _ Ha).
    destruct (Nat.eqb_spec a j) as [->|_]; [congruence|].
    destruct (Nat.eqb_spec a i) as [->|Nai].
    + destruct (Nat.eqb_spec d i); [lia|]. rewrite <- Hinv.
      destruct (Nat.eqb_spec d j) as [->|Ndj]; [exact E|].
      destruct (anc_cases _ _ Ha) as [(H0 & H1)|[(H0 & H1 & H2)|(g & H0 & H1 & H2 & H3)]].
      * eapply leI_trans; [exact E|]. apply Hch; auto.
      * apply Hjmin; auto.
      * assert (Hgn : g < n) by (apply anc_lt in H0; lia).
        eapply leI_trans; [apply (Hjmin g); auto|].
        assert (Hg : maxl g = inv).
        { rewrite maxl_child, (maxl_child (par g)), H3, Hinv by auto. destruct (maxl i); reflexivity. }
        rewrite <- Hg. apply HB1; auto. unfold par in *; lia.
    + destruct (Nat.eqb_spec d j) as [->|Ndj].
      * destruct (anc_inv _ _ Ha) as [->|Ha'].
        -- rewrite (maxl_child (par j)), Hpj, <- Hinv by auto.
           apply leI_flip. apply Hch; auto. unfold par in *; lia.
        -- destruct (anc_inv _ _ Ha') as [->|Ha'']; [congruence|]. rewrite Hpj in Ha''.
           apply HB1; auto. lia.
      * destruct (Nat.eqb_spec d i) as [->|Ndi]; [|apply HB1; auto].
        apply HB1; auto. apply anc_step; auto. apply anc_step; auto. rewrite Hpj. exact Ha.
  - apply ltI_false in E.
    intros a d Ha Hd. destruct (Nat.eq_dec a i) as [->|Nai]; [|apply HB1; auto].
    unfold okp. rewrite <- Hinv.
    destruct (anc_cases _ _ Ha) as [(H0 & H1)|[(H0 & H1 & H2)|(g & H0 & H1 & H2 & H3)]].
    + apply Hch; auto.
    + eapply leI_trans; [exact E|]. apply Hjmin; auto.
    + assert (Hgn : g < n) by (apply anc_lt in H0; lia).
      eapply leI_trans; [exact E|]. eapply leI_trans; [apply (Hjmin g); auto|].
      assert (Hg : maxl g = inv).
      { rewrite maxl_child, (maxl_child (par g)), H3, Hinv by auto. destruct (maxl i); reflexivity. }
      rewrite <- Hg. apply HB1; auto. unfold par in *; lia.
Qed.

(** the loop bound is never the reason to stop *)
Lemma trickle_down_fuel f1 : forall f2 l n i inv, n <= i + f1 -> n <= i + f2 ->
  trickle_down ltb dK f1 l n i inv = trickle_down ltb dK f2 l n i inv.
Proof.
  induction f1 as [|f1 IH]; intros f2 l n i inv H1 H2.
  - destruct f2 as [|f2]; [reflexivity|]. cbn [trickle_down].
    unfold smallest_child, left_child. destruct (Nat.leb_spec n (2 * i + 1)); [|lia].
    rewrite Nat.eqb_refl. reflexivity.
  - destruct f2 as [|f2].
    + cbn [trickle_down].
      unfold smallest_child, left_child. destruct (Nat.leb_spec n (2 * i + 1)); [|lia].
      rewrite Nat.eqb_refl. reflexivity.
    + cbn [trickle_down]. destruct (_ =? i); [reflexivity|].
      set (l1 := if ltI inv _ _ then _ else l). clearbody l1.
      pose (j := smallest_grandchild ltb dK l1 n i inv). fold j.
      destruct (smallest_grandchild_spec l1 n i inv j eq_refl) as [[Hj Hn]|(Hji & Hjn & Hj0 & Hpj0 & Hpj & Hjmin)].
      * rewrite Hj, Nat.eqb_refl. reflexivity.
      * destruct (j =? i); [reflexivity|]. destruct (ltI inv _ _); [|reflexivity].
        apply IH; unfold par in *; lia.
Qed.


(** ** bubbleUp *)
(** all pairs hold except those whose lower end is i *)
Definition heap_but_up (k : nat -> K) (n i : nat) : Prop :=
  forall a d, anc a d -> d < n -> d <> i -> okp k a d.

Lemma bubble_loop_length f : forall l i inv, length (bubble_loop ltb dK f l i inv) = length l.
Proof.
  induction f as [|f IH]; intros l i inv; cbn [bubble_loop]; [reflexivity|].
  destruct (grandparent i); [|reflexivity]. destruct (ltI inv _ _); [|reflexivity].
  rewrite IH, swap_length. reflexivity.
Qed.
Lemma bubble_up_length l i : length (bubble_up ltb dK l i) = length l.
Proof.
  unfold bubble_up. destruct (parent i); [destruct (ltI _ _ _)|]; rewrite bubble_loop_length, ?swap_length; reflexivity.
Qed.

Lemma maxl_grand d : 0 < d -> 0 < par d -> maxl d = maxl (par (par d)).
Proof. intros H1 H2. rewrite maxl_child, (maxl_child (par d)) by auto. destruct (maxl _); reflexivity. Qed.

Lemma bubble_loop_heap f : forall l n i inv,
  n <= length l -> i < n -> i < f -> inv = maxl i ->
  heap_but_up (prio l) n i ->
  (forall a, anc a i -> maxl a <> maxl i -> okp (prio l) a i) ->
  heap (prio (bubble_loop ltb dK f l i inv)) n.
Proof.
  induction f as [|f IH]; intros l n i inv HL Hi Hf Hinv HB Hopp; [lia|].
  cbn [bubble_loop]. rewrite grandparent_spec.
  destruct (Nat.leb_spec i 2) as [H2|H2].
  - (* no grandparent: no ancestor on the same kind of level *)
    intros a d Ha Hd. destruct (Nat.eq_dec d i) as [->|N]; [|apply HB; auto].
    apply Hopp; auto. destruct (anc_inv _ _ Ha) as [->|Ha'].
    + rewrite (maxl_child i) by (eapply anc_pos; eauto). destruct (maxl (par i)); discriminate.
    + apply anc_lt in Ha'. unfold par in *; lia.
  - set (g := par (par i)).
    assert (Hpi : 0 < par i) by (unfold par; lia).
    assert (Hgi : g < i) by (unfold g, par; lia).
    assert (Hag : anc g i) by (apply anc_step; [lia|]; apply anc_par; auto).
    assert (Hgp : anc g (par i)) by (apply anc_par; auto).
    assert (Hmg : maxl g = inv) by (rewrite Hinv, (maxl_grand i) by lia; reflexivity).
    destruct (ltI inv (prio l i) (prio l g)) eqn:E.
    + apply ltI_true in E. apply IH; rewrite ?swap_length; try lia; auto.
      * intros a d Ha Hd Hdg. unfold okp. rewrite !prio_swap by lia.
        pose proof (anc_lt _ _ Ha).
        destruct (Nat.eqb_spec d g) as [->|_]; [congruence|].
        destruct (Nat.eqb_spec a g) as [->|Nag].
        -- destruct (Nat.eqb_spec d i) as [->|Ndi]; rewrite Hmg; [exact E|].
           eapply leI_trans; [exact E|]. rewrite <- Hmg. apply HB; auto.
        -- destruct (Nat.eqb_spec a i) as [->|Nai].
           ++ destruct (Nat.eqb_spec d i); [lia|]. rewrite <- Hinv, <- Hmg.
              apply HB; auto. apply (anc_trans g i d); auto.
           ++ destruct (Nat.eqb_spec d i) as [->|Ndi]; [|apply HB; auto].
              destruct (anc_inv _ _ Ha) as [->|Ha'].
              ** rewrite (maxl_child (par i)) by auto. fold g. rewrite Hmg.
                 apply leI_flip. rewrite <- Hmg. apply HB; auto; unfold par in *; lia.
              ** destruct (anc_inv _ _ Ha') as [->|Ha'']; [exfalso; apply Nag; reflexivity|]. fold g in Ha''.
                 apply HB; auto; lia.
      * intros a Ha Hne. unfold okp. rewrite !prio_swap by lia. pose proof (anc_lt _ _ Ha).
        destruct (Nat.eqb_spec g g); [|congruence].
        destruct (Nat.eqb_spec a g); [lia|]. destruct (Nat.eqb_spec a i); [lia|].
        apply Hopp; [apply (anc_trans a g i); auto|]. congruence.
    + apply ltI_false in E.
      intros a d Ha Hd. destruct (Nat.eq_dec d i) as [->|N]; [|apply HB; auto].
      destruct (Bool.bool_dec (maxl a) (maxl i)) as [Hs|Hs]; [|apply Hopp; auto].
      destruct (anc_inv _ _ Ha) as [->|Ha'].
      { rewrite (maxl_child i) in Hs by lia. destruct (maxl (par i)); discriminate. }
      destruct (anc_inv _ _ Ha') as [->|Ha'']; [change (par (par i)) with g|fold g in Ha''].
      * unfold okp. rewrite Hmg. exact E.
      * unfold okp. rewrite Hs, <- Hinv. eapply leI_trans; [|exact E].
        rewrite Hinv, <- Hs. apply HB; auto; lia.
Qed.

(** inserting position n into a heap of n elements *)
Lemma bubble_up_heap l n : S n <= length l -> heap (prio l) n -> heap (prio (bubble_up ltb dK l n)) (S n).
Proof.
  intros HL HH. unfold bubble_up. rewrite is_on_max_level_spec, parent_spec.
  assert (HB : heap_but_up (prio l) (S n) n) by (intros a d Ha Hd N; apply HH; auto; lia).
  destruct (Nat.eqb_spec n 0) as [->|Hn].
  { apply bubble_loop_heap; auto. intros a Ha. apply anc_lt in Ha; lia. }
  set (p := par n). assert (Hpn : p < n) by (unfold p, par; lia).
  assert (Hap : anc p n) by (apply anc_par; lia).
  assert (Hmp : maxl n = negb (maxl p)) by (apply maxl_child; lia).
  destruct (ltI (maxl n) (prio l p) (prio l n)) eqn:E.
  - apply ltI_true in E. apply bubble_loop_heap; rewrite ?swap_length; try lia.
    + rewrite Hmp. destruct (maxl p); reflexivity.
    + intros a d Ha Hd Hdp. unfold okp. rewrite !prio_swap by lia. pose proof (anc_lt _ _ Ha).
      destruct (Nat.eqb_spec d p) as [->|_]; [congruence|].
      destruct (Nat.eqb_spec a p) as [->|Nap].
      * assert (E' : leI (maxl p) (prio l n) (prio l p)) by (apply (leI_flip (maxl p)); rewrite <- Hmp; exact E).
        destruct (Nat.eqb_spec d n) as [->|Ndn].
        -- exact E'.
        -- eapply leI_trans; [exact E'|]. apply HB; auto.
      * destruct (Nat.eqb_spec a n); [lia|]. destruct (Nat.eqb_spec d n) as [->|Ndn]; [|apply HB; auto].
        destruct (anc_inv _ _ Ha) as [->|Ha']; [unfold p in *; congruence|]. apply HB; auto; unfold p in *; lia.
    + intros a Ha Hne. unfold okp. rewrite !prio_swap by lia. pose proof (anc_lt _ _ Ha).
      rewrite Nat.eqb_refl. destruct (Nat.eqb_spec a p); [lia|]. destruct (Nat.eqb_spec a n); [lia|].
      assert (Hma : maxl a = maxl n) by (rewrite Hmp; destruct (maxl a), (maxl p); cbn; congruence).
      rewrite Hma. eapply leI_trans; [|exact E]. rewrite <- Hma. apply HB; auto; lia.
  - apply ltI_false in E. apply bubble_loop_heap; auto; try lia.
    intros a Ha Hne. unfold okp.
    assert (Hma : maxl a = maxl p) by (rewrite Hmp in Hne; destruct (maxl a), (maxl p); cbn in *; congruence).
    assert (E' : leI (maxl p) (prio l p) (prio l n)) by (apply (leI_flip (maxl p)); rewrite <- Hmp; exact E).
    destruct (anc_inv _ _ Ha) as [->|Ha'].
    + exact E'.
    + rewrite Hma. eapply leI_trans; [|exact E']. rewrite <- Hma. apply HB; auto; unfold p in *; lia.
Qed.

Lemma bubble_loop_fuel f1 : forall f2 l i inv, i < f1 -> i < f2 ->
  bubble_loop ltb dK f1 l i inv = bubble_loop ltb dK f2 l i inv.
Proof.
  induction f1 as [|f1 IH]; intros [|f2] l i inv H1 H2; try lia.
  cbn [bubble_loop]. rewrite grandparent_spec. destruct (Nat.leb_spec i 2); [reflexivity|].
  destruct (ltI inv _ _); [|reflexivity]. apply IH; unfold par; lia.
Qed.

(** ** contents and slots *)
Lemma upd_swap_perm (l : list (item K)) i j : i < length l -> j < length l -> Permutation (swap l i j) l.
Proof.
  intros Hi Hj. apply Permutation_sym.
  apply (Permutation_nth l (swap l i j) (ditem dK)). rewrite swap_length. split; [reflexivity|].
  exists (fun x => if x =? j then i else if x =? i then j else x).
  split; [|split].
  - intros x Hx. destruct (x =? j), (x =? i); lia.
  - intros x y Hx Hy. destruct (Nat.eqb_spec x j), (Nat.eqb_spec x i), (Nat.eqb_spec y j), (Nat.eqb_spec y i); lia.
  - intros x Hx. change (nth x (swap l i j) (ditem dK)) with (at_ (swap l i j) x).
    rewrite at_swap by auto. destruct (x =? j), (x =? i); reflexivity.
Qed.

(** the first n entries after a swap of two positions below n *)
Lemma firstn_swap l n i j : n <= length l -> i < n -> j < n ->
  firstn n (swap l i j) = swap (firstn n l) i j /\ skipn n (swap l i j) = skipn n l.
Proof.
  intros HL Hi Hj. split.
  - apply nth_ext with (d := ditem dK) (d' := ditem dK).
    + rewrite firstn_length, !swap_length, !firstn_length. reflexivity.
    + intros x Hx. rewrite firstn_length, swap_length in Hx.
      assert (F : forall (l : list (item K)) x, x < n -> nth x (firstn n l) (ditem dK) = nth x l (ditem dK)).
      { clear. induction n as [|n IH]; intros l x H; [lia|]. destruct l, x; cbn; auto. apply IH; lia. }
      rewrite F by lia. change (nth x (swap ?l i j) _) with (at_ (swap l i j) x).
      rewrite !at_swap by (rewrite ?firstn_length; lia). unfold PQueueM.at_. rewrite !F by lia.
      destruct (x =? j), (x =? i); reflexivity.
  - unfold PQueueM.swap.
    assert (G : forall (l : list (item K)) n i x, i < n -> skipn n (upd l i x) = skipn n l).
    { clear. induction l as [|h t IH]; intros n i x H; destruct n, i; cbn; auto; try lia. apply IH; lia. }
    rewrite !G by lia. reflexivity.
Qed.

Definition same_used (n : nat) (l l' : list (item K)) : Prop :=
  Permutation (firstn n l') (firstn n l) /\ skipn n l' = skipn n l /\ length l' = length l.
Lemma same_used_refl n l : same_used n l l. Proof. repeat split; auto. Qed.
Lemma same_used_trans n l1 l2 l3 : same_used n l1 l2 -> same_used n l2 l3 -> same_used n l1 l3.
Proof. intros (A & B & C) (D & E & F). repeat split; [eapply perm_trans; eauto|congruence|congruence]. Qed.
Lemma same_used_swap n l i j : n <= length l -> i < n -> j < n -> same_used n l (swap l i j).
Proof.
  intros HL Hi Hj. destruct (firstn_swap l n i j HL Hi Hj) as [E1 E2]. split; [|split; [exact E2|apply swap_length]].
  rewrite E1. apply upd_swap_perm; rewrite firstn_length; lia.
Qed.

Lemma trickle_down_same_used f : forall l n i inv, n <= length l -> 
  same_used n l (trickle_down ltb dK f l n i inv).
Proof.
  induction f as [|f IH]; intros l n i inv HL; cbn [trickle_down]; [apply same_used_refl|].
  pose (m := smallest_child ltb dK l n i inv). fold m.
  destruct (smallest_child_spec l n i inv m eq_refl) as [[Hm Hn]|(Hmi & Hmn & Hm0 & Hmp & Hmin)].
  { rewrite Hm, Nat.eqb_refl. apply same_used_refl. }
  destruct (Nat.eqb_spec m i); [congruence|].
  set (l1 := if ltI inv _ _ then _ else l).
  assert (S1 : same_used n l l1).
  { unfold l1. destruct (ltI inv _ _); [|apply same_used_refl]. apply same_used_swap; auto. unfold par in *; lia. }
  assert (HL1 : length l1 = length l) by apply S1. clearbody l1.
  pose (j := smallest_grandchild ltb dK l1 n i inv). fold j.
  destruct (smallest_grandchild_spec l1 n i inv j eq_refl) as [[Hj Hn]|(Hji & Hjn & Hj0 & Hpj0 & Hpj & Hjmin)].
  { rewrite Hj, Nat.eqb_refl. exact S1. }
  destruct (Nat.eqb_spec j i); [congruence|].
  destruct (ltI inv _ _); [|exact S1].
  assert (S2 : same_used n l1 (swap l1 i j)) by (apply same_used_swap; unfold par in *; lia).
  eapply same_used_trans; [exact S1|]. eapply same_used_trans; [exact S2|].
  apply IH. rewrite swap_length. lia.
Qed.

Lemma bubble_loop_same_used f : forall l n i inv, n <= length l -> i < n ->
  same_used n l (bubble_loop ltb dK f l i inv).
Proof.
  induction f as [|f IH]; intros l n i inv HL Hi; cbn [bubble_loop]; [apply same_used_refl|].
  rewrite grandparent_spec. destruct (Nat.leb_spec i 2); [apply same_used_refl|].
  destruct (ltI inv _ _); [|apply same_used_refl].
  assert (par (par i) < n) by (unfold par; lia).
  eapply same_used_trans; [apply (same_used_swap n l i (par (par i))); auto|]. apply IH; rewrite ?swap_length; auto.
Qed.
Lemma bubble_up_same_used l n i : n <= length l -> i < n -> same_used n l (bubble_up ltb dK l i).
Proof.
  intros HL Hi. unfold bubble_up. rewrite parent_spec.
  destruct (Nat.eqb_spec i 0); [apply bubble_loop_same_used; auto|].
  destruct (ltI _ _ _); [|apply bubble_loop_same_used; auto].
  assert (par i < n) by (unfold par; lia).
  eapply same_used_trans; [apply (same_used_swap n l i (par i)); auto|]. apply bubble_loop_same_used; rewrite ?swap_length; auto.
Qed.


(** ** extremes *)
Lemma anc_root d : 0 < d -> anc 0 d.
Proof.
  induction d as [d IH] using (well_founded_induction lt_wf). intros H.
  destruct (Nat.eq_dec (par d) 0) as [E|E].
  - rewrite <- E. apply anc_par; auto.
  - apply anc_step; auto. apply IH; [apply par_lt; auto|lia].
Qed.

Lemma heap_min k n : heap k n -> forall d, d < n -> ltb (k d) (k 0) = false.
Proof.
  intros H d Hd. destruct (Nat.eq_dec d 0) as [->|E].
  - apply (leI_refl false).
  - apply (H 0 d (anc_root d ltac:(lia)) Hd).
Qed.

(** a child of the root dominates every other element *)
Lemma heap_max k n : heap k n -> forall d, 0 < d -> d < n ->
  exists c, (c = 1 \/ c = 2) /\ c < n /\ ltb (k c) (k d) = false.
Proof.
  intros H d H0 Hd. 
  assert (C : d = 1 \/ d = 2 \/ anc 1 d \/ anc 2 d).
  { clear - H0. induction d as [d IH] using (well_founded_induction lt_wf).
    destruct (Nat.le_gt_cases d 2) as [L|L]; [lia|].
    assert (Hp : 0 < par d) by (unfold par; lia).
    destruct (IH (par d) (par_lt d H0) Hp) as [E|[E|[E|E]]].
    - right; right; left. rewrite <- E. apply anc_par; auto.
    - right; right; right. rewrite <- E. apply anc_par; auto.
    - right; right; left. apply anc_step; auto.
    - right; right; right. apply anc_step; auto. }
  destruct C as [->|[->|[C|C]]].
  - exists 1. repeat split; auto. apply (leI_refl true).
  - exists 2. repeat split; auto. apply (leI_refl true).
  - exists 1. repeat split; auto. { apply anc_lt in C; lia. } apply (H 1 d C Hd).
  - exists 2. repeat split; auto. { apply anc_lt in C; lia. } apply (H 2 d C Hd).
Qed.

(** ** queue level *)
Definition wf (q : pq K) : Prop := length (items q) = maxElements q /\ amount q <= maxElements q.
Definition ordered (q : pq K) : Prop := heap (prio (items q)) (amount q).

Lemma firstn_S_nth (l : list (item K)) n : n < length l -> firstn (S n) l = firstn n l ++ [at_ l n].
Proof.
  revert n; induction l as [|h t IH]; intros n H; cbn in H; [lia|].
  destruct n as [|n]; [reflexivity|]. cbn. f_equal. apply IH. lia.
Qed.

Lemma at_In (l : list (item K)) n i : i < n -> n <= length l -> In (at_ l i) (firstn n l).
Proof.
  revert n i; induction l as [|h t IH]; intros n i Hi HL; cbn in HL; [lia|].
  destruct n as [|n]; [lia|]. destruct i as [|i]; cbn; [auto|]. right. apply IH; lia.
Qed.
Lemma In_at (l : list (item K)) n x : n <= length l -> In x (firstn n l) -> exists i, i < n /\ at_ l i = x.
Proof.
  revert n; induction l as [|h t IH]; intros n HL Hx; destruct n as [|n]; cbn in *; try tauto; try lia.
  destruct Hx as [<-|Hx]; [exists 0; split; [lia|reflexivity]|].
  destruct (IH n ltac:(lia) Hx) as (i & Hi & E). exists (S i). split; [lia|exact E].
Qed.

(** removing position p: swap with the last used, then repair *)
Lemma remove_contents l n p f i inv : S n <= length l -> p <= n ->
  let l' := trickle_down ltb dK f (swap l p n) n i inv in
  Permutation (firstn (S n) l) (at_ l p :: firstn n l') /\
  skipn n l' = at_ l p :: skipn (S n) l /\ length l' = length l.
Proof.
  intros HL Hp l'.
  destruct (trickle_down_same_used f (swap l p n) n i inv) as (A & B & C); [rewrite swap_length; lia|].
  fold l' in A, B, C. rewrite swap_length in C.
  destruct (firstn_swap l (S n) p n HL ltac:(lia) ltac:(lia)) as [E1 E2].
  assert (Hlast : at_ (swap l p n) n = at_ l p) by (rewrite at_swap, Nat.eqb_refl by lia; reflexivity).
  repeat split; auto.
  - assert (P : Permutation (firstn (S n) (swap l p n)) (firstn (S n) l)).
    { rewrite E1. apply upd_swap_perm; rewrite firstn_length; lia. }
    rewrite <- P, firstn_S_nth by (rewrite swap_length; lia). rewrite Hlast.
    rewrite <- Permutation_cons_append. constructor. symmetry. exact A.
  - rewrite B, <- E2, <- Hlast.
    assert (G : forall (l : list (item K)) n, n < length l -> skipn n l = at_ l n :: skipn (S n) l).
    { clear. induction l as [|h t IH]; intros n H; cbn in H; [lia|]. destruct n; [reflexivity|]. cbn. apply IH; lia. }
    apply G. rewrite swap_length. lia.
Qed.

Lemma remove_heap_but l n p : S n <= length l -> p <= n -> heap (prio l) (S n) ->
  (forall a, anc a p -> p < n -> anc a n) -> heap_but (prio (swap l p n)) n p.
Proof.
  intros HL Hp HH Hanc a d Ha Hd Hap. unfold okp. rewrite !prio_swap by lia.
  pose proof (anc_lt _ _ Ha).
  destruct (Nat.eqb_spec a n); [lia|]. destruct (Nat.eqb_spec d n); [lia|].
  destruct (Nat.eqb_spec a p); [congruence|].
  destruct (Nat.eqb_spec d p) as [->|Ndp]; apply HH; auto; try lia.
Qed.

Lemma pop_min_spec q : wf q -> ordered q ->
  match pop_min ltb dK q with
  | None => amount q = 0
  | Some (q', it) =>
      amount q = S (amount q') /\ maxElements q' = maxElements q /\ wf q' /\ ordered q' /\
      Permutation (contents q) (it :: contents q') /\
      (forall x, In x (contents q) -> ltb (priority x) (priority it) = false) /\
      it = at_ (items q) 0 /\
      skipn (amount q') (items q') = it :: skipn (amount q) (items q)
  end.
Proof.
  intros [W1 W2] HO. unfold pop_min. destruct (Nat.eqb_spec (amount q) 0) as [E|E]; [exact E|].
  cbn [amount maxElements items contents].
  pose (n := amount q - 1). assert (En : amount q = S n) by (unfold n; lia). fold n.
  unfold wf, ordered, contents in *; cbn [amount maxElements items] in *. rewrite En in *.
  destruct (remove_contents (items q) n 0 (S n) 0 false ltac:(lia) ltac:(lia)) as (P & Q & R).
  repeat split; try lia; auto.
  - apply trickle_down_heap; rewrite ?swap_length; try lia; auto.
    apply remove_heap_but; try lia; auto. intros a Ha. apply anc_lt in Ha; lia.
  - intros x Hx. apply In_at in Hx; [|lia]. destruct Hx as (i & Hi & <-).
    apply (heap_min (prio (items q)) (S n)); auto.
Qed.

Lemma pop_max_spec q : wf q -> ordered q ->
  match pop_max ltb dK q with
  | None => amount q = 0
  | Some (q', it) =>
      amount q = S (amount q') /\ maxElements q' = maxElements q /\ wf q' /\ ordered q' /\
      Permutation (contents q) (it :: contents q') /\
      (forall x, In x (contents q) -> ltb (priority it) (priority x) = false) /\
      skipn (amount q') (items q') = it :: skipn (amount q) (items q)
  end.
Proof.
  intros [W1 W2] HO. unfold pop_max. destruct (Nat.eqb_spec (amount q) 0) as [E|E]; [exact E|].
  cbn [amount maxElements items contents].
  pose (n := amount q - 1). assert (En : amount q = S n) by (unfold n; lia). fold n.
  unfold wf, ordered, contents in *; cbn [amount maxElements items] in *. rewrite En in *.
  pose (p := smallest_child ltb dK (items q) (S n) 0 true). fold p.
  assert (Hp : p <= n /\ (p = 0 /\ n = 0 \/ (p = 1 \/ p = 2)) /\
     forall i, i <= n -> ltb (prio (items q) p) (prio (items q) i) = false).
  { destruct (smallest_child_spec (items q) (S n) 0 true p eq_refl) as [[Hm Hn]|(Hmi & Hmn & Hm0 & Hmp & Hmin)].
    - assert (n = 0) by lia. split; [lia|]. split; [lia|]. intros i Hi. assert (i = 0) by lia. subst i.
      rewrite Hm. apply (leI_refl true).
    - split; [lia|]. assert (C : p = 1 \/ p = 2) by (unfold par in Hmp; lia). split; [lia|].
      intros i Hi. destruct (Nat.eq_dec i 0) as [->|Ni].
      + apply (HO 0 p (anc_root p Hm0)). lia.
      + destruct (heap_max (prio (items q)) (S n) HO i) as (c & Hc & Hcn & Hci); try lia.
        apply (leI_trans true _ (prio (items q) c)); [|exact Hci].
        apply Hmin; try lia. unfold par. destruct Hc as [->| ->]; reflexivity. }
  destruct Hp as (Hpn & Hpc & Hpmax).
  destruct (remove_contents (items q) n p (S n) p true ltac:(lia) ltac:(lia)) as (P & Q & R).
  repeat split; try lia; auto.
  - destruct Hpc as [[Hp0 Hn0]|Hpc].
    + intros a d Ha Hd. lia.
    + apply trickle_down_heap; rewrite ?swap_length; try lia; auto.
      * destruct Hpc as [->| ->]; reflexivity.
      * apply remove_heap_but; try lia; auto. intros a Ha Hlt.
        assert (a = 0). { destruct (anc_inv _ _ Ha) as [->|Ha']; [|apply anc_lt in Ha'; unfold par in *; lia]. unfold par; lia. }
        subst a. apply anc_root. lia.
  - intros x Hx. apply In_at in Hx; [|lia]. destruct Hx as (i & Hi & <-). apply Hpmax. lia.
Qed.

Lemma firstn_upd (l : list (item K)) n x : firstn n (upd l n x) = firstn n l.
Proof. revert n; induction l as [|h t IH]; intros [|n]; cbn; auto. f_equal; auto. Qed.
Lemma at_upd (l : list (item K)) i j x : i < length l -> at_ (upd l i x) j = if j =? i then x else at_ l j.
Proof.
  intros H. unfold PQueueM.at_. rewrite nth_upd. destruct (Nat.ltb_spec i (length l)); [|lia].
  rewrite andb_true_r. reflexivity.
Qed.
Lemma skipn_upd (l : list (item K)) n x : skipn (S n) (upd l n x) = skipn (S n) l.
Proof. revert n; induction l as [|h t IH]; intros [|n]; cbn; auto. apply IH. Qed.

Lemma append_spec q p ev : wf q -> ordered q -> amount q < maxElements q ->
  forall q' fb, append ltb dK q p ev = (q', fb) ->
  let addr := match ev with Some e => address e | None => address (at_ (items q) (amount q)) end in
  amount q' = S (amount q) /\ maxElements q' = maxElements q /\ wf q' /\ ordered q' /\
  Permutation (contents q') (mkItem p addr :: contents q) /\
  fb = mkFb (Some (mkItem p addr)) ev /\
  skipn (amount q') (items q') = skipn (amount q') (items q).
Proof.
  intros [W1 W2] HO Hn q' fb. unfold append. intros HE; injection HE as <- <-.
  set (addr := match ev with Some e => _ | None => _ end).
  unfold wf, ordered, contents in *; cbn [amount maxElements items].
  set (n := amount q) in *. set (it := mkItem p addr).
  assert (HLu : length (upd (items q) n it) = maxElements q) by (rewrite upd_length; auto).
  destruct (bubble_up_same_used (upd (items q) n it) (S n) n) as (A & B & C); try lia.
  split; [lia|]. split; [reflexivity|]. split; [split; [rewrite bubble_up_length|]; lia|].
  split; [|split; [|split; [reflexivity|]]].
  - apply bubble_up_heap; try lia.
    eapply heap_ext; [|exact HO]. intros i Hi. unfold PQueueM.prio. rewrite at_upd by lia.
    destruct (Nat.eqb_spec i n); [lia|reflexivity].
  - rewrite A, firstn_S_nth by lia. rewrite firstn_upd, at_upd, Nat.eqb_refl by lia.
    rewrite <- Permutation_cons_append. reflexivity.
  - rewrite B. apply skipn_upd.
Qed.

(** full statement of Push *)
Lemma push_spec q p : wf q -> ordered q -> 0 < maxElements q ->
  forall q' fb, push ltb dK q p = (q', fb) ->
  maxElements q' = maxElements q /\ wf q' /\ ordered q' /\
  ((amount q < maxElements q /\ amount q' = S (amount q) /\
    fb = mkFb (Some (mkItem p (address (at_ (items q) (amount q))))) None /\
    Permutation (contents q') (mkItem p (address (at_ (items q) (amount q))) :: contents q) /\
    skipn (amount q') (items q') = skipn (S (amount q)) (items q))
   \/
   (amount q = maxElements q /\ q' = q /\ fb = mkFb None None /\
    (forall x, In x (contents q) -> ltb p (priority x) = true))
   \/
   (amount q = maxElements q /\ amount q' = amount q /\
    exists e, fb = mkFb (Some (mkItem p (address e))) (Some e) /\
      (forall x, In x (contents q) -> ltb (priority x) (priority e) = false) /\
      ltb p (priority e) = false /\
      exists rest, Permutation (contents q) (e :: rest) /\
                   Permutation (contents q') (mkItem p (address e) :: rest) /\
                   items q' = contents q')).
Proof.
  intros W HO Hmax q' fb. unfold push.
  destruct (Nat.leb_spec (maxElements q) (amount q)) as [H|H].
  - assert (Hfull : amount q = maxElements q) by (destruct W; lia).
    destruct (ltb p (prio (items q) 0)) eqn:E.
    + injection 1 as <- <-. repeat split; try apply W; auto. right; left. repeat split; auto.
      intros x Hx. destruct W as [W1 W2]. apply In_at in Hx; [|lia]. destruct Hx as (i & Hi & <-).
      pose proof (heap_min _ _ HO i Hi) as Hm.
      destruct (ltb p (priority (at_ (items q) i))) eqn:E2; auto.
      pose proof (nlt_trans _ _ _ Hm E2). congruence.
    + pose proof (pop_min_spec q W HO) as HP. destruct (pop_min ltb dK q) as [[q1 it]|]; [|lia].
      destruct HP as (P1 & P2 & P3 & P4 & P5 & P6 & P7 & P8).
      intros HA.
      assert (Eit : mkItem (prio (items q) 0) (address it) = it) by (rewrite P7; destruct (at_ (items q) 0) eqn:Eat; unfold PQueueM.prio; rewrite Eat; reflexivity).
      rewrite Eit in HA.
      destruct (append_spec q1 p (Some it) P3 P4 ltac:(lia) q' fb HA) as (A1 & A2 & A3 & A4 & A5 & A6 & A7).
      repeat split; try congruence; try apply A3; auto. right; right.
      repeat split; try lia. exists it. repeat split; auto.
      * rewrite P7. exact E.
      * exists (contents q1). repeat split; auto.
        unfold contents. rewrite firstn_all2; [reflexivity|]. destruct A3. lia.
  - intros HA. destruct (append_spec q p None W HO H q' fb HA) as (A1 & A2 & A3 & A4 & A5 & A6 & A7).
    repeat split; try congruence; try apply A3; auto. left. repeat split; auto. rewrite A7, A1. reflexivity.
Qed.

(** ** Rebuild *)
Lemma rebuild_prefix l : forall m, m <= length l ->
  heap (prio (fold_left (bubble_up ltb dK) (seq 0 m) l)) m /\
  length (fold_left (bubble_up ltb dK) (seq 0 m) l) = length l /\
  forall n, m <= n -> n <= length l -> same_used n l (fold_left (bubble_up ltb dK) (seq 0 m) l).
Proof.
  induction m as [|m IH]; intros Hm.
  - cbn. repeat split; auto. intros a d Ha Hd; lia.
  - destruct (IH ltac:(lia)) as (A & B & C).
    rewrite seq_S, fold_left_app. cbn [fold_left plus].
    repeat split.
    + apply bubble_up_heap; [lia|exact A].
    + rewrite bubble_up_length. exact B.
    + destruct (C n ltac:(lia) H0) as (D & E & F).
      destruct (bubble_up_same_used (fold_left (bubble_up ltb dK) (seq 0 m) l) n m) as (D' & _ & _); try lia.
      rewrite D'. exact D.
    + destruct (C n ltac:(lia) H0) as (D & E & F).
      destruct (bubble_up_same_used (fold_left (bubble_up ltb dK) (seq 0 m) l) n m) as (_ & E' & _); try lia.
      rewrite E'. exact E.
    + rewrite bubble_up_length. exact B.
Qed.

Lemma rebuild_spec q : wf q ->
  let q' := rebuild ltb dK q in
  amount q' = amount q /\ maxElements q' = maxElements q /\ wf q' /\ ordered q' /\
  Permutation (contents q') (contents q) /\
  skipn (amount q') (items q') = skipn (amount q) (items q).
Proof.
  intros [W1 W2] q'. destruct (rebuild_prefix (items q) (amount q) ltac:(lia)) as (A & B & C).
  destruct (C (amount q) ltac:(lia) ltac:(lia)) as (D & E & F).
  unfold q', rebuild, wf, ordered, contents; cbn [amount maxElements items].
  repeat split; auto; lia.
Qed.


(** ** histories *)
Lemma items_split q : wf q -> items q = contents q ++ skipn (amount q) (items q).
Proof. intros _. unfold contents. symmetry. apply firstn_skipn. Qed.

Lemma skipn_at (l : list (item K)) n : n < length l -> skipn n l = at_ l n :: skipn (S n) l.
Proof.
  revert n; induction l as [|h t IH]; intros n H; cbn in H; [lia|]. destruct n; [reflexivity|]. cbn. apply IH; lia.
Qed.

Lemma pop_min_slots q q' it : wf q -> ordered q -> pop_min ltb dK q = Some (q', it) ->
  Permutation (items q') (items q).
Proof.
  intros W HO E. pose proof (pop_min_spec q W HO) as H. rewrite E in H.
  destruct H as (P1 & P2 & P3 & P4 & P5 & P6 & P7 & P8).
  rewrite (items_split q W), (items_split q' P3), P8, P5. symmetry. apply Permutation_middle.
Qed.
Lemma pop_max_slots q q' it : wf q -> ordered q -> pop_max ltb dK q = Some (q', it) ->
  Permutation (items q') (items q).
Proof.
  intros W HO E. pose proof (pop_max_spec q W HO) as H. rewrite E in H.
  destruct H as (P1 & P2 & P3 & P4 & P5 & P6 & P8).
  rewrite (items_split q W), (items_split q' P3), P8, P5. symmetry. apply Permutation_middle.
Qed.
Lemma rebuild_slots q : wf q -> Permutation (items (rebuild ltb dK q)) (items q).
Proof.
  intros W. destruct (rebuild_spec q W) as (P1 & P2 & P3 & P4 & P5 & P6).
  rewrite (items_split q W), (items_split _ P3), P6, P5. reflexivity.
Qed.
Lemma push_slots q p q' fb : wf q -> ordered q -> 0 < maxElements q -> push ltb dK q p = (q', fb) ->
  Permutation (map address (items q')) (map address (items q)).
Proof.
  intros W HO Hm E. destruct (push_spec q p W HO Hm q' fb E) as (M & W' & HO' & [C|[C|C]]).
  - destruct C as (C1 & C2 & C3 & C4 & C5).
    rewrite (items_split q W), (items_split q' W'), C5.
    rewrite !map_app, C4. cbn [map address]. rewrite (skipn_at (items q) (amount q)) by (destruct W; lia).
    cbn [map]. apply Permutation_middle.
  - destruct C as (C1 & -> & C3 & C4). reflexivity.
  - destruct C as (C1 & C2 & e & C3 & C4 & C5 & rest & C6 & C7 & C8).
    rewrite C8, C7. rewrite (items_split q W), C6.
    rewrite skipn_all2 by (destruct W; lia). rewrite app_nil_r. reflexivity.
Qed.

Lemma reprioritize_facts f q : wf q ->
  wf (reprioritize f q) /\ amount (reprioritize f q) = amount q /\
  maxElements (reprioritize f q) = maxElements q /\
  contents (reprioritize f q) = map (fun it => mkItem (f it) (address it)) (contents q) /\
  map address (items (reprioritize f q)) = map address (items q).
Proof.
  intros [W1 W2]. unfold reprioritize, wf, contents; cbn [amount maxElements items].
  repeat split; auto.
  - rewrite app_length, map_length, firstn_length, skipn_length. lia.
  - rewrite firstn_app, map_length, firstn_length.
    replace (amount q - Nat.min (amount q) (length (items q))) with 0 by lia. cbn [firstn].
    rewrite app_nil_r, firstn_all2 by (rewrite map_length, firstn_length; lia). reflexivity.
  - rewrite map_app, map_map. cbn [address]. rewrite <- map_app, firstn_skipn. reflexivity.
Qed.

(** the invariant of all histories *)
Definition pq_inv (arr : list (item K)) (max : nat) (q : pq K) : Prop :=
  wf q /\ ordered q /\ maxElements q = max /\
  Permutation (map address (items q)) (map address arr).

Lemma pq_init_inv arr max : length arr = max -> pq_inv arr max (pq_init arr max).
Proof.
  intros H. unfold pq_inv, wf, ordered, pq_init; cbn. repeat split; auto; try lia.
  intros a d Ha Hd; lia.
Qed.

Lemma pq_step_inv arr max q o : 0 < max -> pq_inv arr max q -> pq_inv arr max (pq_step ltb dK q o).
Proof.
  intros Hmax (W & HO & M & P). destruct o as [p| | |f]; cbn [pq_step].
  - destruct (push ltb dK q p) as [q' fb] eqn:E. cbn [fst].
    destruct (push_spec q p W HO ltac:(lia) q' fb E) as (M' & W' & HO' & _).
    repeat split; try apply W'; auto; try congruence.
    rewrite (push_slots q p q' fb W HO ltac:(lia) E). exact P.
  - destruct (pop_min ltb dK q) as [[q' it]|] eqn:E; [|repeat split; auto; apply W].
    pose proof (pop_min_spec q W HO) as H. rewrite E in H.
    destruct H as (P1 & P2 & P3 & P4 & _).
    repeat split; try apply P3; auto; try congruence.
    rewrite (pop_min_slots q q' it W HO E). exact P.
  - destruct (pop_max ltb dK q) as [[q' it]|] eqn:E; [|repeat split; auto; apply W].
    pose proof (pop_max_spec q W HO) as H. rewrite E in H.
    destruct H as (P1 & P2 & P3 & P4 & _).
    repeat split; try apply P3; auto; try congruence.
    rewrite (pop_max_slots q q' it W HO E). exact P.
  - destruct (reprioritize_facts f q W) as (F1 & F2 & F3 & F4 & F5).
    destruct (rebuild_spec _ F1) as (P1 & P2 & P3 & P4 & P5 & P6).
    repeat split; try apply P3; auto; try congruence.
    rewrite (rebuild_slots _ F1), F5. exact P.
Qed.

Lemma pq_run_inv arr max os : 0 < max -> length arr = max ->
  pq_inv arr max (pq_run ltb dK (pq_init arr max) os).
Proof.
  intros Hmax HL. unfold pq_run.
  assert (G : forall os q, pq_inv arr max q -> pq_inv arr max (fold_left (pq_step ltb dK) os q)).
  { clear os. induction os as [|o os IH]; intros q Hq; cbn [fold_left]; [exact Hq|].
    apply IH, pq_step_inv; auto. }
  apply G, pq_init_inv, HL.
Qed.

Lemma NoDup_map_firstn (l : list (item K)) n : NoDup (map address l) -> NoDup (map address (firstn n l)).
Proof.
  revert n; induction l as [|h t IH]; intros [|n] H; cbn in *; try constructor.
  - inversion_clear H as [|? ? Hh Ht]. intros HI. apply Hh.
    apply in_map_iff in HI. destruct HI as (x & E & Hx). apply in_map_iff. exists x. split; auto.
    clear - Hx. revert n Hx. induction t as [|a t IH]; intros [|n]; cbn; try tauto. intros [H|H]; eauto.
  - apply IH. inversion_clear H; auto.
Qed.

(** statements for every history *)
Lemma run_pop_max arr max os : 0 < max -> length arr = max ->
  let q := pq_run ltb dK (pq_init arr max) os in
  match pop_max ltb dK q with
  | None => contents q = []
  | Some (q', it) => Permutation (contents q) (it :: contents q') /\
                     forall x, In x (contents q) -> ltb (priority it) (priority x) = false
  end.
Proof.
  intros Hmax HL q. destruct (pq_run_inv arr max os Hmax HL) as (W & HO & _). fold q in W, HO.
  pose proof (pop_max_spec q W HO) as H. destruct (pop_max ltb dK q) as [[q' it]|].
  - destruct H as (P1 & P2 & P3 & P4 & P5 & P6 & P7). split; auto.
  - unfold contents. rewrite H. reflexivity.
Qed.
Lemma run_pop_min arr max os : 0 < max -> length arr = max ->
  let q := pq_run ltb dK (pq_init arr max) os in
  match pop_min ltb dK q with
  | None => contents q = []
  | Some (q', it) => Permutation (contents q) (it :: contents q') /\
                     forall x, In x (contents q) -> ltb (priority x) (priority it) = false
  end.
Proof.
  intros Hmax HL q. destruct (pq_run_inv arr max os Hmax HL) as (W & HO & _). fold q in W, HO.
  pose proof (pop_min_spec q W HO) as H. destruct (pop_min ltb dK q) as [[q' it]|].
  - destruct H as (P1 & P2 & P3 & P4 & P5 & P6 & P7). split; auto.
  - unfold contents. rewrite H. reflexivity.
Qed.
Lemma run_push arr max os p : 0 < max -> length arr = max ->
  let q := pq_run ltb dK (pq_init arr max) os in
  length (contents q) <= max /\
  match push ltb dK q p with
  | (q', fb) =>
     (length (contents q) < max /\ evicted fb = None /\
      exists it, added fb = Some it /\ priority it = p /\ Permutation (contents q') (it :: contents q))
     \/
     (length (contents q) = max /\ added fb = None /\ evicted fb = None /\ q' = q /\
      forall x, In x (contents q) -> ltb p (priority x) = true)
     \/
     (length (contents q) = max /\
      exists it e rest, added fb = Some it /\ priority it = p /\ evicted fb = Some e /\ address it = address e /\
        Permutation (contents q) (e :: rest) /\ Permutation (contents q') (it :: rest) /\
        ltb p (priority e) = false /\
        forall x, In x (contents q) -> ltb (priority x) (priority e) = false)
  end.
Proof.
  intros Hmax HL q. destruct (pq_run_inv arr max os Hmax HL) as (W & HO & M & _). fold q in W, HO, M.
  assert (EL : length (contents q) = amount q) by (unfold contents; rewrite firstn_length; destruct W; lia).
  split; [destruct W; lia|].
  destruct (push ltb dK q p) as [q' fb] eqn:E.
  destruct (push_spec q p W HO ltac:(lia) q' fb E) as (M' & W' & HO' & [C|[C|C]]).
  - left. destruct C as (C1 & C2 & C3 & C4 & C5). subst fb. cbn. split; [lia|]. split; [reflexivity|]. eauto.
  - right; left. destruct C as (C1 & C2 & C3 & C4). subst fb. cbn. repeat split; auto; lia.
  - right; right. destruct C as (C1 & C2 & e & C3 & C4 & C5 & rest & C6 & C7 & C8). subst fb. cbn.
    split; [lia|]. exists (mkItem p (address e)), e, rest. repeat split; auto.
Qed.
(** slots: never shared, and the slot handed out is free *)
Lemma run_slots arr max os : 0 < max -> length arr = max -> NoDup (map address arr) ->
  let q := pq_run ltb dK (pq_init arr max) os in
  NoDup (map address (contents q)) /\
  (forall x, In x (contents q) -> In (address x) (map address arr)) /\
  forall p it, added (snd (push ltb dK q p)) = Some it ->
    In (address it) (map address arr) /\
    match evicted (snd (push ltb dK q p)) with
    | None => ~ In (address it) (map address (contents q))
    | Some e => address it = address e
    end.
Proof.
  intros Hmax HL ND q. destruct (pq_run_inv arr max os Hmax HL) as (W & HO & M & P). fold q in W, HO, M, P.
  assert (NDq : NoDup (map address (items q))) by (eapply Permutation_NoDup; [symmetry; exact P|exact ND]).
  assert (HIn : forall x, In x (contents q) -> In (address x) (map address arr)).
  { intros x Hx. rewrite <- P. apply in_map. unfold contents in Hx.
    clear - Hx. revert Hx. generalize (amount q). induction (items q) as [|a t IH]; intros [|n]; cbn; try tauto.
    intros [H|H]; eauto. }
  split; [apply NoDup_map_firstn; auto|]. split; [exact HIn|].
  intros p it. destruct (push ltb dK q p) as [q' fb] eqn:E. cbn [snd].
  destruct (push_spec q p W HO ltac:(lia) q' fb E) as (M' & W' & HO' & [C|[C|C]]).
  - destruct C as (C1 & C2 & C3 & C4 & C5). subst fb. cbn. injection 1 as <-. cbn [address].
    assert (HS : In (at_ (items q) (amount q)) (items q)) by (apply nth_In; destruct W; lia).
    split; [rewrite <- P; apply in_map; exact HS|].
    rewrite (items_split q W), map_app in NDq.
    rewrite (skipn_at (items q) (amount q)) in NDq by (destruct W; lia). cbn [map] in NDq.
    apply NoDup_remove_2 in NDq. intros HI. apply NDq, in_or_app. left; exact HI.
  - destruct C as (C1 & C2 & C3 & C4). subst fb. cbn. discriminate.
  - destruct C as (C1 & C2 & e & C3 & C4 & C5 & rest & C6 & C7 & C8). subst fb. cbn. injection 1 as <-.
    cbn [address]. split; [|reflexivity]. apply HIn. rewrite C6. cbn; auto.
Qed.
Lemma run_rebuild arr max os f : 0 < max -> length arr = max ->
  let q := pq_run ltb dK (pq_init arr max) os in
  let q' := rebuild ltb dK (reprioritize f q) in
  Permutation (contents q') (map (fun it => mkItem (f it) (address it)) (contents q)) /\
  match pop_max ltb dK q' with
  | None => contents q = []
  | Some (q2, it) => Permutation (contents q') (it :: contents q2) /\
                     forall x, In x (contents q') -> ltb (priority it) (priority x) = false
  end /\
  match pop_min ltb dK q' with
  | None => contents q = []
  | Some (q2, it) => Permutation (contents q') (it :: contents q2) /\
                     forall x, In x (contents q') -> ltb (priority x) (priority it) = false
  end.
Proof.
  intros Hmax HL q q'. destruct (pq_run_inv arr max os Hmax HL) as (W & HO & M & P). fold q in W, HO, M, P.
  destruct (reprioritize_facts f q W) as (F1 & F2 & F3 & F4 & F5).
  destruct (rebuild_spec _ F1) as (P1 & P2 & P3 & P4 & P5 & P6). fold q' in P1, P2, P3, P4, P5, P6.
  split; [rewrite P5, F4; reflexivity|].
  assert (HE : amount q' = 0 -> contents q = []) by (intros E; unfold contents; rewrite <- F2, <- P1, E; reflexivity).
  split.
  - pose proof (pop_max_spec q' P3 P4) as H. destruct (pop_max ltb dK q') as [[q2 it]|]; [|auto].
    destruct H as (Q1 & Q2 & Q3 & Q4 & Q5 & Q6 & Q7). split; auto.
  - pose proof (pop_min_spec q' P3 P4) as H. destruct (pop_min ltb dK q') as [[q2 it]|]; [|auto].
    destruct H as (Q1 & Q2 & Q3 & Q4 & Q5 & Q6 & Q7). split; auto.
Qed.
(** PopAt removes exactly the addressed element (order is another matter) *)
Lemma run_pop_at arr max os i : 0 < max -> length arr = max ->
  let q := pq_run ltb dK (pq_init arr max) os in
  i < length (contents q) ->
  exists q' it, pop_at ltb dK q i = Some (q', it) /\ it = nth i (contents q) (ditem dK) /\
    Permutation (contents q) (it :: contents q').
Proof.
  intros Hmax HL q Hi. destruct (pq_run_inv arr max os Hmax HL) as ((W1 & W2) & HO & M & P). fold q in W1, W2, HO, M, P.
  unfold contents in *. rewrite firstn_length in Hi. unfold pop_at.
  destruct (Nat.eqb_spec (amount q) 0) as [E|E]; [lia|].
  pose (n := amount q - 1). assert (En : amount q = S n) by (unfold n; lia). fold n. rewrite En in *.
  destruct (remove_contents (items q) n i (S n) i true ltac:(lia) ltac:(lia)) as (A & _ & _).
  eexists _, _. split; [reflexivity|]. cbn [items amount]. split; [|exact A].
  assert (F : forall n (l : list (item K)) x, x < n -> nth x (firstn n l) (ditem dK) = nth x l (ditem dK)).
  { clear. induction n as [|n IH]; intros l x H; [lia|]. destruct l, x; cbn; auto. apply IH; lia. }
  rewrite F by lia. reflexivity.
Qed.

End Order.
