(** C64 for sessions of the shell: an input is remembered, whatever happened before.  Vocabulary:
    AddS.v, EvidS.v, SysS.v; C65 gives that all stored evidence is well formed. *)
From Coq Require Import ZArith List Bool String Lia.
From Verif Require Import Base F64 TruthM StampM TermM NamesM AtomsM RulesM EventM TableM MemoryM MemoryS QuestionM DecisionM CycleM CycleS EverywhereS ShellM ShellS SysS SysP2 AddS EvidS.
From Verif Require Import VariableM ShellP PropsAdd PropsEvid PropsShell PropsSys.
Import ListNotations.
Local Open Scope Z_scope.
(** the event of a belief told now: its evidence is the imported stamp, if there is one, else a new id *)
Definition told_event (s : cstate) (t : term) (tv : truth f64A) (eternal : bool) (off : f64) (e : event) : Prop :=
  e_term e = t /\ e_type e = EVENT_TYPE_BELIEF /\ e_truth e = tv /\ e_offset e = off /\ e_input e = true /\ e_creation e = s_time s /\
  e_occ e = (if eternal then OCCURRENCE_ETERNAL else s_time s) /\
  (e_stamp e = g_import (s_ids s) /\ hd 0 (e_stamp e) <> 0 \/ hd 0 (g_import (s_ids s)) = 0 /\ e_stamp e = next_id s :: repeat 0 9).
(** C64: at any point of any session whose symbol table did not overflow and which did not set the
    counter of ids, telling the reasoner a statement that is no implication, of confidence at least
    0.01, makes the concept of the statement (a new one if there was none) remember it, before the
    cycle that follows the input; all other concepts are as they were, or forgotten. *)
Theorem C64_input_is_remembered : forall v I z t (tv : truth f64A) (eternal : bool) (off : f64) s', sizes v -> plain_answers v -> roomy v z -> evidenced v I z ->
  known (v_atoms v) (a_names (z_st z)) t -> no_implication (a_names (z_st z)) t -> fltb (confidence tv) (fdec 1 100) = false ->
  perform (params_of v z) (z_core z) (CInput t EVENT_TYPE_BELIEF tv eternal off) = Ok s' ->
  let s := z_core z in let now := s_time s in
  exists e s1 c k0 k, told_event s t tv eternal off e /\ concept_for (s_mem s) t now c k0 /\ stores (s_mem s1) c k /\
    remembers (a_names (z_st z)) (v_pow v) now f1 e k0 k /\
    (forall d x, d <> c -> stores (s_mem s1) d x -> stores (s_mem s) d x) /\
    s_time s1 = now /\ cycle (params_of v z) s1 = Ok s'.
Proof.
  intros v I z t tv eternal off s' S P R E K NI C H s now.
  destruct (C65_sessions v I z (proj2 (proj2 (proj2 (proj2 (proj2 S))))) E) as [N1 EV].
  pose proof (roomy_live v S P z R) as (_ & LV). fold s in LV, N1, EV, H.
  assert (X : exists e g, (let (e0, g) := Event_InputEvent (s_ids s) t EVENT_TYPE_BELIEF tv off now in (if eternal then with_occ e0 OCCURRENCE_ETERNAL else e0, g)) = (e, g) /\ told_event s t tv eternal off e /\ hd 0 (e_stamp e) <> 0).
  { unfold Event_InputEvent. destruct (nth 0 (g_import (s_ids s)) 0 =? 0) eqn:Z; cbn [negb].
    - apply Z.eqb_eq in Z. eexists _, _. split; [reflexivity|]. assert (Z' : hd 0 (g_import (s_ids s)) = 0) by (destruct (g_import (s_ids s)); exact Z). unfold told_event, next_id in *.
      destruct eternal; cbn; (split; [repeat split; right; split; [exact Z'|reflexivity]|lia]).
    - apply Z.eqb_neq in Z. eexists _, _. split; [reflexivity|]. assert (Z' : hd 0 (g_import (s_ids s)) <> 0) by (destruct (g_import (s_ids s)); exact Z). unfold told_event.
      destruct eternal; cbn; (split; [repeat split; left; split; [reflexivity|exact Z']|exact Z']). }
  destruct X as (e & g & XE & TE & HE). unfold perform in H. cbn [do_call p_nm params_of] in H. unfold NAR_AddInput, AddInput in H. fold now in H.
  destruct (Event_InputEvent (s_ids s) t EVENT_TYPE_BELIEF tv off now) as [e0 g0]. injection XE as XE <-. rewrite XE in H. cbn [p_pow p_penalty p_layers p_fuel s_mem set_ids s_time] in H. fold now in H.
  match type of H with rbind ?a _ = _ => destruct a as [m'| |] eqn:A; cbn [rbind] in H; try discriminate H end. unfold AddInputEvent in A.
  pose proof TE as (T1 & T2 & T3 & _).
  destruct (C64_statement_is_remembered _ _ _ _ _ _ (a_names (z_st z)) s e now f1 true false 0%nat (v_pow v) (v_penalty v) (v_fuel v) m' (SZ' v S) (C64 v S) LV) as (c & k0 & k & B1 & B2 & B3 & B4).
  - rewrite T1. exact K.
  - exact T2.
  - rewrite T1. exact NI.
  - exact HE.
  - intros c k [_ SK] _. destruct EV as [_ _ EV]. rewrite Forall_forall in EV. apply nth_error_In in SK. destruct (EV k SK) as ((W & _) & _). exact W.
  - split; [rewrite T3; exact C|]. split; [vm_compute; reflexivity|]. intros _ X. discriminate X.
  - exact A.
  - exists e, (set_mem (set_ids s g0) m'), c, k0, k. rewrite T1 in B1. split; [exact TE|]. split; [exact B1|]. split; [exact B2|]. split; [exact B3|]. split; [exact B4|]. split; [reflexivity|exact H].
Qed.
Print Assumptions C64_input_is_remembered.
(** *** an example: "a. :|:", "b. :|:", an imported stamp, and then a again *)
Lemma both_session ls : Forall (fun l => forall a, parse (trim l) <> KStampId a) ls -> forall I z z', evidenced wenv I z -> roomy_session z ls = Ok z' -> exists I', evidenced wenv I' z'.
Proof.
  induction 1 as [|l ls F1 F2 IH]; intros I z z' R; cbn [roomy_session]; destruct (Nat.ltb_spec (List.length (a_names (z_st z))) (v_atoms wenv)) as [L|L]; try discriminate.
  - intros H. injection H as <-. eauto.
  - destruct (line wenv z l) as [[[z1 go] o1]| |] eqn:E; cbn [rbind]; try discriminate. intros H. eapply IH; [|exact H]. exact (es_line wenv I z l z1 go o1 R E (fun a X => F1 a (reads_parse _ _ X))).
Qed.
Lemma both_ex (a : res nar) ls (g : nar -> res cstate) (f : nar -> cstate -> bool) : (forall z, a = Ok z -> room wenv z -> roomy wenv z) -> (forall z, a = Ok z -> evidenced wenv (fun _ => False) z) ->
  Forall (fun l => forall a, parse (trim l) <> KStampId a) ls ->
  match (do z <- a ; roomy_session z ls) with Ok z => match g z with Ok s => f z s | _ => false end | _ => false end = true ->
  exists I z s, roomy wenv z /\ evidenced wenv I z /\ g z = Ok s /\ f z s = true.
Proof.
  intros HA HB F H. destruct a as [z0| |]; cbn [rbind] in H; try discriminate. destruct (roomy_session z0 ls) as [z| |] eqn:E1; try discriminate. destruct (g z) as [s| |] eqn:E2; try discriminate.
  destruct (both_session ls F _ z0 z (HB z0 eq_refl) E1) as [I X]. exists I, z, s. split; [eapply roomy_session_ok; [|exact E1]; intros R; apply HA; auto|auto].
Qed.
Definition again (z : nar) : res cstate := perform (params_of wenv z) (z_core z) (CInput (atomic_term 74) EVENT_TYPE_BELIEF (@mkTruth f64A f1 (fdec 9 10)) false f0).
Example C64_input_example : sizes wenv /\ plain_answers wenv /\ exists I z s', roomy wenv z /\ evidenced wenv I z /\ again z = Ok s' /\
  known (v_atoms wenv) (a_names (z_st z)) (atomic_term 74) /\ no_implication (a_names (z_st z)) (atomic_term 74) /\
  hd 0 (g_import (s_ids (z_core z))) = 7 /\ next_id (z_core z) = 3 /\ s_time s' = 4.
Proof.
  split; [apply wenv_sizes|]. split; [apply wenv_plain|].
  destruct (both_ex (start wenv 1) (map str ["a. :|:"; "b. :|:"; "*stampimport=[7,8]"]%string) again
    (fun z s' => forallb (fun a => (0 <=? a) && (a <=? Z.of_nat (List.length (a_names (z_st z)))) && (a <? Z.of_nat (v_atoms wenv))) (atomic_term 74) &&
       negb (copulaEquals (a_names (z_st z)) (at_ (atomic_term 74) 0) TEMPORAL_IMPLICATION) && negb (copulaEquals (a_names (z_st z)) (at_ (atomic_term 74) 0) IMPLICATION) &&
       (hd 0 (g_import (s_ids (z_core z))) =? 7) && (next_id (z_core z) =? 3) && (s_time s' =? 4)) (ro_start wenv 1) (es_start wenv 1)) as (I & z & s' & R & E & A & H).
  - repeat constructor; intros a; vm_compute; discriminate.
  - vm_compute. reflexivity.
  - exists I, z, s'. apply andb_prop in H as [H H6]. apply andb_prop in H as [H H5]. apply andb_prop in H as [H H4]. apply andb_prop in H as [H H3]. apply andb_prop in H as [H1 H2].
    split; [exact R|]. split; [exact E|]. split; [exact A|]. split; [|split; [split; apply negb_true_iff; assumption|split; [apply Z.eqb_eq; exact H4|split; [apply Z.eqb_eq; exact H5|apply Z.eqb_eq; exact H6]]]].
    rewrite forallb_forall in H1. apply Forall_forall. intros i Hi. specialize (H1 i Hi). apply andb_prop in H1 as [H1 P3]. apply andb_prop in H1 as [P1 P2]. apply Z.leb_le in P1, P2. apply Z.ltb_lt in P3. lia.
Qed.
