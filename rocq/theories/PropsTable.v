(** Property theorems C26-C28: the belief tables.  Vocabulary: TableS.v. *)
From Coq Require Import ZArith Reals List Sorted Lra Lia Bool.
From Flocq Require Import IEEE754.BinarySingleNaN.
From Verif Require Import Base F64 TruthM TruthS StampM TermM EventM InferenceM TableM TableS TableP PropsTruth.
Local Open Scope nat_scope.

(** an operation history as the system produces it: implications with valid truth are added with
    revision, entries are removed *)
Definition good_history (os : list top) : Prop :=
  Forall (fun o => match o with Add _ => False | AddRevise x => good_imp x | Remove _ => True end) os.

(** C26: whatever is done to a table, it holds at most 20 entries ... *)
Theorem C26_table_is_bounded : forall os t, trun table0 os = Ok t -> length (entries t) <= 20.
Proof.
  intros os t H. assert (W : wf t). { eapply wf_run; [|exact H]. apply table0_inv. }
  rewrite (entries_length _ W). apply W.
Qed.
Print Assumptions C26_table_is_bounded.
(** ... and adding puts the new entry before the first one it outranks, dropping the last entry
    only if there were 20; it is refused only if there were 20 and it outranks none. *)
Theorem C26_add_is_exact : forall os t x, good_history os -> trun table0 os = Ok t -> good_imp x ->
  exists t' r, Table_Add t x = Ok (t', r) /\
  match r with
  | Some j => exists l1 l2, entries t = l1 ++ l2 /\ length l1 = j /\ entries t' = firstn 20 (l1 ++ x :: l2) /\ j < 20 /\
                (forall e, In e l1 -> ~ outranks x e) /\ (forall e l3, l2 = e :: l3 -> outranks x e)
  | None => t' = t /\ length (entries t) = 20 /\ (forall e, In e (entries t) -> ~ outranks x e)
  end.
Proof.
  intros os t x G R GX. pose proof (rinv_run os table0 table0_rinv G) as V. rewrite R in V.
  destruct (add_full t x (proj1 V) GX) as (t' & r & A & _ & B). exists t', r. auto.
Qed.
Print Assumptions C26_add_is_exact.
Theorem C26_remove_is_exact : forall os t i, good_history os -> trun table0 os = Ok t -> i < length (entries t) ->
  entries (Table_Remove t i) = firstn i (entries t) ++ skipn (S i) (entries t).
Proof.
  intros os t i G R H. pose proof (rinv_run os table0 table0_rinv G) as V. rewrite R in V. destruct V as [[W _] _].
  apply remove_spec; auto. rewrite entries_length in H; auto.
Qed.
Print Assumptions C26_remove_is_exact.

(** C27: after any history the entries have pairwise different statements and are sorted by
    truth expectation, highest first; no assertion fails on the way. *)
Theorem C27_table_is_ranked : forall os, good_history os ->
  match trun table0 os with
  | Ok t => StronglySorted (fun a b => (exp_of b <= exp_of a)%R) (entries t) /\ NoDup (map i_term (entries t))
            /\ forall best rest, entries t = best :: rest -> forall e, In e rest -> (exp_of e <= exp_of best)%R
  | Abort => False
  | UB => True (* only by removing at an index that holds no entry *)
  end.
Proof.
  intros os G. pose proof (rinv_run os table0 table0_rinv G) as V. destruct (trun table0 os) as [t| |]; auto.
  destruct V as (_ & R & O). split; auto. split; auto. intros b r E e Ie. rewrite E in R. inversion R as [|? ? _ F]; subst.
  rewrite Forall_forall in F. auto.
Qed.
Print Assumptions C27_table_is_ranked.

(** C28: adding an implication whose statement is present merges it with that entry, re-ranks the
    merged entry and keeps all others, in order. *)
Theorem C28_revision_merges_only_equal_statements : forall os t x, good_history os -> trun table0 os = Ok t -> good_imp x ->
  exists t' r, Table_AddAndRevise t x = Ok (t', r) /\
  ((exists l1 old l2, entries t = l1 ++ old :: l2 /\ i_term old = i_term x /\
      exists m1 m2, m1 ++ m2 = l1 ++ l2 /\ entries t' = m1 ++ merged old x :: m2 /\ r = Some (length m1))
   \/ ((forall e, In e (entries t) -> i_term e <> i_term x) /\ Table_Add t x = Ok (t', r))).
Proof.
  intros os t x G R GX. pose proof (rinv_run os table0 table0_rinv G) as V. rewrite R in V.
  destruct (add_revise_full t x (proj1 V) GX) as (t' & r & A & _ & B). exists t', r. split; auto.
  destruct B as [(l1 & old & l2 & B1 & B2 & _ & m1 & m2 & M1 & M2 & M3 & _)|B]; auto.
  left. exists l1, old, l2. split; auto. split; auto. exists m1, m2. auto.
Qed.
Print Assumptions C28_revision_merges_only_equal_statements.

(** Examples: two statements, and the same statement observed twice. *)
Definition imp_of (a : Z) (v : truth64) (id : Z) : implication :=
  mkImp (upd zero_term 0 a) v (upd stamp_zero 0 id) (fofZ 1) (Some 0) 7 1.
Example good_imp_of a id : good_imp (imp_of a (tr64 9 10 9 10) id).
Proof.
  split; [discriminate|]. cbn [imp_of i_truth]. split; [apply validb_valid; vm_compute; reflexivity|].
  assert (H : fltb f0 (confidence (tr64 9 10 9 10)) = true) by (vm_compute; reflexivity).
  apply fltb_spec in H; [rewrite v_f0 in H; exact H|reflexivity|vm_compute; reflexivity].
Qed.
Example C27_example :
  match trun table0 [AddRevise (imp_of 100 (tr64 5 10 9 10) 1); AddRevise (imp_of 101 (tr64 9 10 9 10) 2); AddRevise (imp_of 100 (tr64 1 10 9 10) 3)] with
  | Ok t => map (fun e => at_ (i_term e) 0) (entries t) = [101%Z; 100%Z]
  | _ => False
  end.
Proof. vm_compute. reflexivity. Qed.

(** "only if the evidential bases do not overlap" is false: the very same observation added
    twice is counted twice (the entry gets more confident, its evidence is 1,1). *)
Theorem C28_overlapping_evidence_is_not_merged_refuted :
  let x := imp_of 100 (tr64 9 10 9 10) 1 in
  stamp_check_overlap (i_stamp x) (i_stamp x) = true /\
  exists t, trun table0 [AddRevise x; AddRevise x] = Ok t /\
    match entries t with
    | [e] => i_stamp e = [1; 1; 0; 0; 0; 0; 0; 0; 0; 0]%Z /\ fltb (confidence (i_truth x)) (confidence (i_truth e)) = true
    | _ => False
    end.
Proof.
  split; [vm_compute; reflexivity|].
  set (r := trun table0 _). assert (H : match r with Ok t => match entries t with
    | [e] => i_stamp e = [1; 1; 0; 0; 0; 0; 0; 0; 0; 0]%Z /\ fltb (confidence (tr64 9 10 9 10)) (confidence (i_truth e)) = true
    | _ => False end | _ => False end) by (vm_compute; auto).
  destruct r as [t| |]; try contradiction. exists t. split; auto.
Qed.
Print Assumptions C28_overlapping_evidence_is_not_merged_refuted.
