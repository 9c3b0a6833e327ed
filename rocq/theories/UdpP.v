(** Proofs about the network server. *)
From Coq Require Import ZArith List Bool Lia Wellfounded Relations.
From Verif Require Import Base EventM MemoryM DecisionM CycleM CycleS CycleP5 ShellM ShellS ShellP3 UdpM UdpS.
Import ListNotations.

Section Threads.
Variable M : Type.
Variable body : sect -> code M.
Notation proc := (proc M).
Notation step := (step M body).
Notation steps := (steps M body).

Definition m_holds (p : mpc) : bool := match p with MCreate1 | MWait1 | MUnlock1 | MCreate2 | MWait2 | MUnlock2 => true | _ => false end.
Definition r_holds (p : rpc M) : bool := match p with RSignal _ | RUnlock0 _ => true | _ => false end.
Definition v_holds (p : vpc M) : bool := match p with VSignal _ | VUnlock0 _ => true | _ => false end.
Definition r_in (p : rpc M) : bool := match p with RIn _ _ => true | _ => false end.
Definition v_in (p : vpc M) : bool := match p with VIn _ _ => true | _ => false end.
Definition halting (p : mpc) : bool := match p with MShut | MJoin1 | MJoin2 | MEnd => true | _ => false end.
Definition no_r (p : mpc) : bool := match p with MLock1 | MCreate1 => true | _ => false end.
Definition no_v (p : mpc) : bool := match p with MLock1 | MCreate1 | MWait1 | MWaiting1 | MUnlock1 | MLock2 | MCreate2 => true | _ => false end.
Definition r_none (p : rpc M) : bool := match p with RNone _ => true | _ => false end.
Definition v_none (p : vpc M) : bool := match p with VNone _ => true | _ => false end.
Definition r_done (p : rpc M) : bool := match p with RDone _ => true | _ => false end.
Definition v_done (p : vpc M) : bool := match p with VDone _ => true | _ => false end.
Definition owner_of (a b c : bool) : option tid := if a then Some TMain else if b then Some TReasoner else if c then Some TReceiver else None.
Definition at_most_one (a b c : bool) : bool := negb (a && b) && negb (a && c) && negb (b && c).
Record inv (p : proc) : Prop := {
  i_nar : u_nar _ p = owner_of false (r_in (u_rea _ p)) (v_in (u_rcv _ p));
  i_nar1 : at_most_one false (r_in (u_rea _ p)) (v_in (u_rcv _ p)) = true;
  i_start : u_start _ p = owner_of (m_holds (u_main _ p)) (r_holds (u_rea _ p)) (v_holds (u_rcv _ p));
  i_start1 : at_most_one (m_holds (u_main _ p)) (r_holds (u_rea _ p)) (v_holds (u_rcv _ p)) = true;
  i_stopped : u_stopped _ p = halting (u_main _ p);
  i_open : u_open _ p = false -> u_stopped _ p = true;
  i_rnone : r_none (u_rea _ p) = no_r (u_main _ p);
  i_vnone : v_none (u_rcv _ p) = no_v (u_main _ p);
  i_rdone : r_done (u_rea _ p) = true -> u_stopped _ p = true;
  i_vdone : v_done (u_rcv _ p) = true -> u_stopped _ p = true;
  i_join1 : u_main _ p = MJoin2 \/ u_main _ p = MEnd -> u_rea _ p = RDone _;
  i_join2 : u_main _ p = MEnd -> u_rcv _ p = VDone _;
  i_fail : u_rcv _ p = VTest _ None -> u_stopped _ p = true;
  i_lock : u_rcv _ p <> VLock _ None }.
Lemma inv_launched m : inv (launched M m).
Proof. constructor; cbn; auto; try discriminate; intros [|]; discriminate. Qed.
Lemma inv_step p l p' : inv p -> step p l p' -> inv p'.
Proof.
  intros [A1 A2 A3 A4 A5 A6 A7 A8 A9 A10 A11 A12 A13 A14] S.
  destruct S; cbn [u_nar u_start u_stopped u_open u_main u_rea u_rcv u_mem r_in v_in m_holds r_holds v_holds halting no_r no_v r_none v_none r_done v_done owner_of at_most_one andb negb] in *;
  constructor; cbn [u_nar u_start u_stopped u_open u_main u_rea u_rcv u_mem r_in v_in m_holds r_holds v_holds halting no_r no_v r_none v_none r_done v_done owner_of at_most_one andb negb] in *;
  auto; try congruence; try (intros [|]; congruence); try (intros; discriminate);
  repeat match goal with H : context [if ?b then _ else _] |- _ => destruct b eqn:?; cbn in *; try discriminate end; auto; try congruence;
  repeat match goal with |- context [if ?b then _ else _] => destruct b eqn:?; cbn in *; try discriminate end; auto; try congruence;
  try (intros Q; specialize (A11 Q); discriminate); try (intros Q; specialize (A12 Q); discriminate);
  try (destruct (m_holds p); try destruct (r_holds r); try destruct (v_holds v); cbn in *; congruence);
  try (intros ->; discriminate A13; auto; fail).
  all: try (intros Q; injection Q as ->; specialize (A13 eq_refl); discriminate).
  all: try (destruct r; cbn in *; try discriminate; auto; destruct v; cbn in *; try discriminate; auto; congruence).
Qed.
Lemma inv_steps p tr p' : inv p -> steps p tr p' -> inv p'.
Proof. intros I0 S. induction S as [p|p tr p1 l p2 S IH H]; [exact I0|]. apply (inv_step p1 l p2); auto. Qed.

(** *** serialisation *)
Definition rest (p : proc) : code M :=
  match u_rea _ p with RIn _ c => c | _ => match u_rcv _ p with VIn _ c => c | _ => Ret end end.
Lemma entered_app a b : entered (a ++ b) = entered a ++ entered b.
Proof. induction a as [|x a IH]; cbn; auto. destruct x; cbn; rewrite IH; auto. Qed.
Lemma received_app a b : received (a ++ b) = received a ++ received b.
Proof. induction a as [|x a IH]; cbn; auto. destruct x; cbn; rewrite IH; auto. Qed.
Lemma inputs_app a b : inputs (a ++ b) = inputs a ++ inputs b.
Proof. induction a as [|x a IH]; cbn; auto. destruct x; cbn; rewrite IH; auto. Qed.
Lemma serial_app v a : forall w b, serial v w (a ++ b) = serial v (serial v w a) b.
Proof. induction a; intros; cbn; auto. Qed.
Definition finish (p : proc) : M := exec (rest p) (u_mem _ p).
Lemma finish_step p l p' : inv p -> step p l p' ->
  match l with LEnter s => finish p' = exec (body s) (finish p) | _ => finish p' = finish p end.
Proof.
  intros I0 S. pose proof (i_nar _ I0) as A1. pose proof (i_nar1 _ I0) as A2. pose proof (i_rnone _ I0) as A3. pose proof (i_vnone _ I0) as A4.
  destruct S; unfold finish, rest; cbn [u_nar u_main u_rea u_rcv u_mem r_in v_in owner_of at_most_one andb negb no_r no_v r_none v_none] in *;
  auto; try (destruct r; cbn [r_in r_none] in *; auto; discriminate); try (destruct v; cbn [v_in v_none] in *; auto; discriminate).
Qed.
Lemma finish_steps m0 tr p (R : Type) (abs : M -> R) (sec : sect -> R -> R) : (forall s m, abs (exec (body s) m) = sec s (abs m)) ->
  steps (launched M m0) tr p -> abs (finish p) = fold_left (fun w s => sec s w) (entered tr) (abs m0).
Proof.
  intros IMP S. remember (launched M m0) as p0 eqn:E. induction S as [p|p tr p1 l p2 S IH H]; subst; [reflexivity|].
  specialize (IH eq_refl). rewrite entered_app, fold_left_app, <- IH. pose proof (finish_step _ _ _ (inv_steps _ _ _ (inv_launched m0) S) H) as F.
  destruct l; cbn; try (rewrite F; reflexivity). rewrite F. apply IMP.
Qed.
Lemma free_finish p : inv p -> u_nar _ p = None -> finish p = u_mem _ p.
Proof.
  intros I0 H. pose proof (i_nar _ I0) as A1. rewrite H in A1. unfold finish, rest. destruct (u_rea _ p); cbn in A1 |- *; try discriminate; destruct (u_rcv _ p); cbn in A1 |- *; auto; discriminate.
Qed.

(** *** what happens to datagrams *)
Definition waiting (p : proc) : list datagram := match u_rcv _ p with VTest _ d => [d] | VLock _ d => [d] | _ => [] end.
Lemma steps_datagrams m0 tr p : steps (launched M m0) tr p ->
  ~ In (SInput None) (entered tr) /\
  exists l, received tr = inputs (entered tr) ++ l /\ (u_rcv _ p <> VDone _ -> l = waiting p) /\ (length l <= 1)%nat.
Proof.
  intros S. remember (launched M m0) as p0 eqn:E. induction S as [p|p tr p1 l p2 S IH H]; subst.
  - split; auto. exists []; auto.
  - destruct (IH eq_refl) as (A1 & q & A2 & A3 & A4). rewrite entered_app, received_app, inputs_app.
    pose proof (inv_steps _ _ _ (inv_launched m0) S) as I0. rewrite A2. clear IH A2.
    assert (K : forall d, l = LEnter d -> d = SInput None -> False).
    { intros d -> ->. inversion H; subst. apply (i_lock _ I0). reflexivity. }
    split.
    + intros Q. apply in_app_or in Q as [Q|Q]; auto. destruct l; cbn in Q; try tauto. destruct Q as [->|[]]. eapply K; eauto.
    + pose proof (i_vnone _ I0) as VN. destruct H; cbn [entered received inputs u_rcv u_main v_none no_v app] in *; rewrite ?app_nil_r; unfold waiting in *; cbn [u_rcv] in *;
      try (exists q; split; [reflexivity|split; [exact A3|exact A4]]; fail);
      try (exists q; split; [reflexivity|split; [intros Q; destruct (Q eq_refl)|exact A4]]; fail);
      try (assert (q = []) as -> by (apply A3; discriminate); exists []; repeat split; auto; fail).
      * assert (q = []) as -> by (destruct v; try discriminate VN; apply A3; discriminate). exists []; repeat split; auto.
      * assert (q = []) as -> by (apply A3; discriminate). exists [Some d]; rewrite app_nil_r; repeat split; auto.
      * assert (q = []) as -> by (apply A3; discriminate). exists [None]; rewrite app_nil_r; repeat split; auto.
      * assert (q = [d]) as -> by (apply A3; discriminate). exists [d]; repeat split; auto.
      * assert (q = [d]) as -> by (apply A3; discriminate). exists []; rewrite app_nil_r; repeat split; auto.
Qed.

(** *** after Stop: every execution ends *)
Inductive r_less : rpc M -> rpc M -> Prop :=
| rl1 : r_less (RSignal _) (RLock0 _) | rl2 : r_less (RUnlock0 _) (RSignal _) | rl3 : r_less (RArg _) (RUnlock0 _) | rl4 : r_less (RTest _) (RArg _)
| rl5 : r_less (RDone _) (RTest _) | rl6 c : r_less (RIn _ c) (RLock _) | rl7 f k m : r_less (RIn _ (k m)) (RIn _ (Act f k)) | rl8 : r_less (RSleep _) (RIn _ Ret) | rl9 : r_less (RTest _) (RSleep _).
Inductive v_less : vpc M -> vpc M -> Prop :=
| vl1 : v_less (VSignal _) (VLock0 _) | vl2 : v_less (VUnlock0 _) (VSignal _) | vl3 : v_less (VArg _) (VUnlock0 _) | vl4 : v_less (VRecv _) (VArg _)
| vl5 d : v_less (VTest _ d) (VRecv _) | vl6 d : v_less (VDone _) (VTest _ d) | vl7 d c : v_less (VIn _ c) (VLock _ d) | vl8 f k m : v_less (VIn _ (k m)) (VIn _ (Act f k)) | vl9 : v_less (VRecv _) (VIn _ Ret).
Inductive m_less : mpc -> mpc -> Prop := ml1 : m_less MJoin1 MShut | ml2 : m_less MJoin2 MJoin1 | ml3 : m_less MEnd MJoin2.
Lemma r_wf : well_founded r_less.
Proof.
  assert (A1 : Acc r_less (RDone _)) by (constructor; intros y Q; inversion Q).
  assert (A2 : Acc r_less (RTest _)) by (constructor; intros y Q; inversion Q; subst; auto).
  assert (A3 : Acc r_less (RArg _)) by (constructor; intros y Q; inversion Q; subst; auto).
  assert (A4 : Acc r_less (RUnlock0 _)) by (constructor; intros y Q; inversion Q; subst; auto).
  assert (A5 : Acc r_less (RSignal _)) by (constructor; intros y Q; inversion Q; subst; auto).
  assert (A6 : Acc r_less (RSleep _)) by (constructor; intros y Q; inversion Q; subst; auto).
  assert (A7 : forall c, Acc r_less (RIn _ c)) by (induction c; constructor; intros y Q; inversion Q; subst; auto).
  intros [ | | | | | | | | | ]; auto; constructor; intros y Q; inversion Q; subst; auto.
Qed.
Lemma v_wf : well_founded v_less.
Proof.
  assert (A1 : Acc v_less (VDone _)) by (constructor; intros y Q; inversion Q).
  assert (A2 : forall d, Acc v_less (VTest _ d)) by (intros d; constructor; intros y Q; inversion Q; subst; auto).
  assert (A3 : Acc v_less (VRecv _)) by (constructor; intros y Q; inversion Q; subst; auto).
  assert (A4 : Acc v_less (VArg _)) by (constructor; intros y Q; inversion Q; subst; auto).
  assert (A5 : Acc v_less (VUnlock0 _)) by (constructor; intros y Q; inversion Q; subst; auto).
  assert (A6 : Acc v_less (VSignal _)) by (constructor; intros y Q; inversion Q; subst; auto).
  assert (A7 : forall c, Acc v_less (VIn _ c)) by (induction c; constructor; intros y Q; inversion Q; subst; auto).
  intros [ | | | | | | | | | ]; auto; constructor; intros y Q; inversion Q; subst; auto.
Qed.
Lemma m_wf : well_founded m_less.
Proof.
  assert (A1 : Acc m_less MEnd) by (constructor; intros y Q; inversion Q).
  assert (A2 : Acc m_less MJoin2) by (constructor; intros y Q; inversion Q; subst; auto).
  assert (A3 : Acc m_less MJoin1) by (constructor; intros y Q; inversion Q; subst; auto).
  intros []; auto; constructor; intros y Q; inversion Q; subst; auto.
Qed.
Definition key (p : proc) := (u_main _ p, (u_rea _ p, u_rcv _ p)).
Lemma key_less p l p' : inv p -> u_stopped _ p = true -> step p l p' ->
  symprod _ _ m_less (symprod _ _ r_less v_less) (key p') (key p) /\ u_stopped _ p' = true.
Proof.
  intros I0 S H. pose proof (i_stopped _ I0) as T. destruct H; unfold key; cbn [u_main u_rea u_rcv u_stopped halting] in *; try congruence;
  (split; [|auto]); try (apply left_sym; constructor; fail); try (apply right_sym; apply left_sym; constructor; fail); try (apply right_sym; apply right_sym; constructor; fail).
Qed.
Lemma stopped_ends p : inv p -> u_stopped _ p = true -> Acc (fun p2 p1 => exists l, step p1 l p2) p.
Proof.
  assert (W : well_founded (symprod _ _ m_less (symprod _ _ r_less v_less))) by (apply wf_symprod; [apply m_wf|apply wf_symprod; [apply r_wf|apply v_wf]]).
  remember (key p) as q eqn:E. revert p E. induction q as [q IH] using (well_founded_ind W). intros p -> I0 S. constructor. intros p' [l H].
  destruct (key_less _ _ _ I0 S H) as [A1 A2]. eapply IH; [exact A1|reflexivity| |exact A2]. eapply inv_step; eauto.
Qed.
Lemma stopped_steps p : inv p -> u_stopped _ p = true -> u_main _ p <> MEnd -> exists l p', step p l p'.
Proof.
  intros [A1 A2 A3 A4 A5 A6 A7 A8 A9 A10 A11 A12 A13 A14] S N. destruct p as [m n s st op pm r v]. cbn [u_nar u_start u_stopped u_open u_main u_rea u_rcv u_mem] in *. subst st.
  destruct pm; cbn [halting no_r no_v m_holds] in *; try discriminate; try (eexists _, _; constructor; fail); try congruence;
  (destruct r as [ | | | | | | |c| | ]; cbn [r_in r_holds r_none r_done owner_of] in *; try (eexists _, _; constructor; fail); try discriminate;
   try (destruct c; eexists _, _; constructor; fail);
   destruct v as [ | | | | | | | |c|]; cbn [v_in v_holds v_none v_done owner_of] in *; subst; try discriminate; try (eexists _, _; apply (v_recv M body []); fail); try (eexists _, _; constructor; fail);
   destruct c; eexists _, _; constructor).
Qed.
Lemma ended_steps p l p' : inv p -> u_main _ p = MEnd -> ~ step p l p'.
Proof.
  intros I0 E S. pose proof (i_join1 _ I0 (or_intror E)) as R. pose proof (i_join2 _ I0 E) as V. destruct S; cbn in *; discriminate.
Qed.
End Threads.
