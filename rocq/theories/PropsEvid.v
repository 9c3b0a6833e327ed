(** C65: whatever the reasoner holds rests on inputs.  Vocabulary: EvidS.v. *)
From Coq Require Import ZArith List Bool String Lia.
From Verif Require Import Base F64 TruthM StampM StampP TermM NamesM EventM InferenceM TableM VariableM MemoryM MemoryS QuestionM DecisionM CycleM CycleS EverywhereS EverywhereP CycleP1 CycleP2 CycleP3 CycleP4 CycleP5 EvidS EvidP1 EvidP2 EvidP3 ShellM ShellS ShellP ShellP3 EvidP4.
From Verif Require Import PropsMemory PropsQuestion PropsCycle PropsShell.
From Verif Require SysP HashTableM InvIndexM.
Import ListNotations.
Local Open Scope Z_scope.
#[local] Opaque one_cycle.
Notation ev A b0 n := (everywhere (SB (Wn A b0 n)) (SG (Wn A b0 n)) (SI (Wn A b0 n))).
Lemma ew_conj (P1 P2 Q1 Q2 : event -> Prop) (R1 R2 : implication -> Prop) m : everywhere P1 Q1 R1 m -> everywhere P2 Q2 R2 m ->
  everywhere (fun e => P1 e /\ P2 e) (fun e => Q1 e /\ Q2 e) (fun i => R1 i /\ R2 i) m.
Proof.
  intros [A1 A2 A3] [B1 B2 B3]. constructor.
  - apply Forall_and; auto.
  - rewrite Forall_forall in *. intros q H. apply Forall_and; auto.
  - rewrite Forall_forall in *. intros k H. destruct (A3 k H) as (X1 & X2 & X3 & X4 & X5 & X6). destruct (B3 k H) as (Y1 & Y2 & Y3 & Y4 & Y5 & Y6).
    repeat split; auto; [|apply Forall_and; auto]. rewrite Forall_forall in *. intros t T. apply Forall_and; auto.
Qed.
Lemma rests_mono (A B : Z -> Prop) st : (forall i, A i -> B i) -> rests_on A st -> rests_on B st.
Proof. intros H [X Y]. split; auto. eapply Forall_impl; eauto. Qed.
Lemma perform_sv p A b0 s c s' : sw (p_layers p) A b0 s -> perform p s c = Ok s' -> sw (p_layers p) A b0 s' /\ next_id s <= next_id s' /\ (sv A b0 s -> sv A b0 s').
Proof.
  intros S H. pose proof (u_docall (p_nm p) (p_av p) (p_simdist p) (p_pow p) (p_penalty p) (p_layers p) (p_thr p) (p_cond p) (p_athr p) (p_aconf p) (p_chance p) (p_bops p) (p_act p) (p_fuel p) A b0 (p_depth p) s c S) as X.
  unfold perform in H. rewrite H in X. exact X.
Qed.
Lemma history_sv A b0 l : forall s s', sv A b0 s -> history s l = Ok s' -> sv A b0 s' /\ next_id s <= next_id s'.
Proof.
  induction l as [|[p c] l IH]; intros s s' S; cbn [history]; [intros H; apply okinj in H; subst; split; [exact S|lia]|]. destruct (perform p s c) as [s1| |] eqn:E; cbn [rbind]; try discriminate.
  intros H. destruct (perform_sv p A b0 s c s1 (sv_w _ _ _ _ S) E) as (A1 & A2 & A3). destruct (IH s1 s' (A3 S) H) as [B1 B2]. split; auto. lia.
Qed.
Lemma init_zero A b0 n cmax b a bm gm lay m : Memory_INIT cmax b a bm gm lay = Ok m -> ev A b0 n m.
Proof.
  unfold Memory_INIT. destruct (HashTableM.HashTable_INIT _ _); cbn [rbind]; try discriminate. destruct (InvIndexM.InvertedAtomIndex_INIT _ _); cbn [rbind]; try discriminate.
  intros H; apply okinj in H; subst m. assert (B : SB (Wn A b0 n) event0) by (split; [apply Wn0|discriminate]). assert (GG : SG (Wn A b0 n) event0) by (split; [apply Wn0|right; reflexivity]).
  assert (II : SI (Wn A b0 n) imp0) by apply Wn0.
  constructor; cbn [m_beliefs m_goals m_store fresh_events eq_store].
  - apply Forall_repeat; auto.
  - apply Forall_repeat. apply Forall_repeat; auto.
  - apply Forall_repeat. split; [exact B|]. split; [exact B|]. split; [exact B|]. split; [exact GG|]. split; [apply Forall_repeat|]; apply Forall_repeat; exact II.
Qed.
(** C65, over any history of calls under any configurations, from any reachable state: input ids only
    grow, and whatever the reasoner then holds -- beliefs, events, predictions, goals, links, queued
    events -- rests on evidence it rested on before or on ids given to inputs of the history. *)
Theorem C65_history : forall A s l s', reached s -> evidence_in A s -> history s l = Ok s' ->
  next_id s <= next_id s' /\ evidence_in (fun i => A i \/ next_id s <= i < next_id s') s'.
Proof.
  intros A s l s' R (E1 & E2 & E3 & E4) H. destruct (reached_ok s R) as [[I1 _ _] I2 I3].
  assert (M : forall st, rests_on A st -> Wn A (next_id s) (next_id s) st) by (intros st; apply rests_mono; auto).
  assert (S : sv A (next_id s) s).
  { constructor; [unfold next_id; lia| | | |exact E4].
    - eapply SysP.everywhere_impl; [| | |exact (ew_conj _ _ _ _ _ _ _ I1 E1)]; [intros e [[_ X] Y]|intros e [[_ X] Y]|intros i [_ Y]]; try split; auto; apply M; auto.
    - intros e p X. destruct (I2 _ _ X). split; auto. apply M. eauto.
    - intros e p X. destruct (I3 _ _ X). split; auto. apply M. eauto. }
  destruct (history_sv _ _ l s s' S H) as [[S1 S2 S3 S4 S5] L]. split; [exact L|]. split; [|split; [|split]].
  - eapply SysP.everywhere_impl; [| | |exact S2]; [intros e [X _]|intros e [X _]|intros i X]; exact X.
  - intros e p X. apply (S3 _ _ X).
  - intros e p X. apply (S4 _ _ X).
  - eapply rests_mono; [|exact S5]. cbn. auto.
Qed.
Print Assumptions C65_history.
(** C65, at any time of any life: the memory rests on imported ids and on the ids 1, 2, ... given to
    inputs so far; since a reset these start again from 1, and the memory holds nothing older. *)
Theorem C65_everything_rests_on_inputs : forall I s, told I s -> 1 <= next_id s /\ memory_evidence (fun i => I i \/ 1 <= i < next_id s) (s_mem s).
Proof.
  intros I s H. assert (X : 1 <= next_id s /\ ev I 1 (next_id s) (s_mem s) /\ rests_on I (g_import (s_ids s))).
  { induction H as [cmax b a bm gm lay m rng H|I s cmax b a bm gm lay m R IH H|I s ops r t R IH|I s n R IH L|I s st R IH W|I s nm av sd pw now q th pr t tense m out R IH H|I s p c s' R IH L H].
    - unfold next_id. cbn. split; [lia|]. split; [eapply init_zero; eauto|split; [reflexivity|constructor]].
    - destruct IH as (A1 & A2 & A3). split; [unfold next_id; cbn; lia|]. split; [eapply init_zero; eauto|exact A3].
    - destruct IH as (A1 & A2 & A3). split; [exact A1|]. split; [|exact A3]. destruct A2 as [E1 E2 E3]. constructor; [exact E1|exact E2|exact E3].
    - destruct IH as (A1 & A2 & A3). unfold next_id in *. cbn. split; [lia|]. split; [eapply (ev_mono (fun _ => None) (fun _ => f0) (fun _ => f0) 0%nat); eauto|exact A3].
    - destruct IH as (A1 & A2 & A3). unfold next_id in *. cbn. split; [lia|]. split; [|split; [exact W|]].
      + eapply SysP.everywhere_impl; [| | |exact A2]; [intros e [X Y]; split; [|exact Y]|intros e [X Y]; split; [|exact Y]|intros i X]; (eapply rests_mono; [|exact X]; intros j [Z|Z]; [left; left; exact Z|right; exact Z]).
      + apply Forall_forall. auto.
    - destruct IH as (A1 & A2 & A3). split; auto. split; auto. cbn.
      destruct (question_mem _ _ _ _ _ _ _ _ _ _ _ _ _ H) as [->|(c & k & C & ->)]; auto.
      destruct A2 as [E1 E2 E3]. constructor; cbn; auto. apply Forall_upd; auto. unfold cread in C. destruct (nth_error _ c) eqn:N; try discriminate C. apply okinj in C; subst.
      apply nth_error_In in N. rewrite Forall_forall in E3. apply E3 in N. exact N.
    - destruct IH as (A1 & A2 & A3). destruct (perform_sv p I 1 s c s') as ([B1 B2 B3 B4] & C & _); auto. constructor; auto. }
  destruct X as (X1 & X2 & _). split; auto. eapply SysP.everywhere_impl; [| | |exact X2]; [intros e [X _]|intros e [X _]|intros i X]; exact X.
Qed.
Print Assumptions C65_everything_rests_on_inputs.
(** C65 for the shell: at any point of any session that does not set the counter of ids. *)
Theorem C65_sessions : forall v I z, (0 < v_layers v)%nat -> evidenced v I z ->
  1 <= next_id (z_core z) /\ memory_evidence (fun i => I i \/ 1 <= i < next_id (z_core z)) (s_mem (z_core z)).
Proof.
  intros v I z LY H. assert (X : sub I (z_core z)).
  { induction H as [rng z E|I z l z' go o H IH E N]; [eapply start_told; eauto|]. unfold line, Shell_ProcessInput in E.
    destruct (run v z (parse (trim l))) as [[[z1 r] o1]| |] eqn:R; cbn [rbind] in E; try discriminate E.
    apply (run_told v LY I) in R; auto; [|intros a X; apply (N a); rewrite <- X; apply parse_reads]. destruct r.
    - apply okinj in E; injection E as <- <- <-. exact R.
    - destruct (Shell_NARInit v z1) as [z2| |] eqn:E2; cbn [rbind] in E; try discriminate E. apply okinj in E; injection E as <- <- <-. destruct (init_told v _ _ _ R E2) as [R2 ->]. exact R2.
    - apply okinj in E; injection E as <- <- <-. exact R. }
  destruct X as (J & T & S). destruct (C65_everything_rests_on_inputs J _ T) as [A B]. split; auto.
  eapply SysP.everywhere_impl; [| | |exact B]; [intros e X|intros e X|intros i X]; (eapply rests_mono; [|exact X]; cbn; intros j [Y|Y]; auto).
Qed.
Print Assumptions C65_sessions.
(** *** examples: two beliefs told to a reasoner; a session with an imported stamp *)
Lemma start_told' s : c_start = Ok s -> told (fun _ => False) s /\ reached s.
Proof.
  intros H. split; [|apply start_ok, H]. unfold c_start in H. destruct (Memory_INIT 4 2 200 1 1 1) as [m| |] eqn:E; cbn [rbind] in H; try discriminate H. apply okinj in H; subst s.
  apply (td_config _ (cstate0 m 1)). eapply td_start; eauto.
Qed.
Lemma none_evidence s : told (fun _ => False) s -> next_id s = 1 -> s_selB s = None -> s_selG s = None -> g_import (s_ids s) = stamp_zero -> evidence_in (fun _ => False) s.
Proof.
  intros T N B G I. destruct (C65_everything_rests_on_inputs _ _ T) as [_ X]. rewrite N in X. split; [|split; [|split]].
  - eapply SysP.everywhere_impl; [| | |exact X]; [intros e Y|intros e Y|intros i Y]; (eapply rests_mono; [|exact Y]; cbn; intros j [Z|Z]; [exact Z|lia]).
  - intros e p Y. rewrite B in Y. discriminate Y.
  - intros e p Y. rewrite G in Y. discriminate Y.
  - rewrite I. split; [reflexivity|constructor].
Qed.
Definition two := [(cp ok_fb, belief_a); (cp ok_fb, CInput (atomic_term 65) EVENT_TYPE_BELIEF NAR_DEFAULT_TRUTH false f0)].
Definition plain_state (s : cstate) : bool := (next_id s =? 1) && match s_selB s, s_selG s with None, None => true | _, _ => false end && if list_eq_dec Z.eq_dec (g_import (s_ids s)) stamp_zero then true else false.
Lemma plain_ok s : told (fun _ => False) s -> plain_state s = true -> evidence_in (fun _ => False) s.
Proof.
  unfold plain_state. intros T H. apply andb_prop in H as [H H2]. apply andb_prop in H as [H1 H]. apply Z.eqb_eq in H1. apply none_evidence; auto.
  - destruct (s_selB s); [discriminate H|reflexivity].
  - destruct (s_selB s); [discriminate H|]. destruct (s_selG s); [discriminate H|reflexivity].
  - destruct (list_eq_dec _ _ _); [auto|discriminate H2].
Qed.
Lemma two_ex (a : res cstate) (h : cstate -> res cstate) (f : cstate -> cstate -> bool) : match a with Ok s => match h s with Ok s' => f s s' | _ => false end | _ => false end = true ->
  exists s s', a = Ok s /\ h s = Ok s' /\ f s s' = true.
Proof. destruct a as [s| |]; try discriminate. destruct (h s) as [s'| |] eqn:E; try discriminate. intros H. exists s, s'. auto. Qed.
Example C65_example : exists s s', reached s /\ evidence_in (fun _ => False) s /\ history s two = Ok s' /\ next_id s = 1 /\ next_id s' = 3 /\
  Exists (fun k => ids (e_stamp (c_spike k)) = [2]) (m_store (s_mem s')).
Proof.
  destruct (two_ex c_start (fun s => history s two) (fun s s' => plain_state s && (next_id s' =? 3) &&
    existsb (fun k => if list_eq_dec Z.eq_dec (ids (e_stamp (c_spike k))) [2] then true else false) (m_store (s_mem s')))) as (s & s' & A & B & H); [vm_compute; reflexivity|].
  apply andb_prop in H as [H H3]. apply andb_prop in H as [H1 H2]. destruct (start_told' s A) as [T R]. exists s, s'. split; [exact R|]. split; [apply plain_ok; auto|]. split; [exact B|].
  split; [apply andb_prop in H1 as [H1 _]; apply andb_prop in H1 as [H1 _]; apply Z.eqb_eq, H1|]. split; [apply Z.eqb_eq, H2|].
  apply existsb_exists in H3 as (k & K1 & K2). apply Exists_exists. exists k. split; [exact K1|]. destruct (list_eq_dec _ _ _) as [X|X]; [exact X|discriminate K2].
Qed.
Lemma session_evidenced v ls : forall I z z' o, evidenced v I z -> Forall (fun l => forall a, parse (trim l) <> KStampId a) ls -> session v z ls = Ok (z', o) -> exists I', evidenced v I' z'.
Proof.
  induction ls as [|l ls IH]; intros I z z' o R F; cbn [session]; [intros H; apply okinj in H; injection H as <- <-; eauto|]. inversion F as [|? ? F1 F2]; subst.
  destruct (line v z l) as [[[z1 go] o1]| |] eqn:E; cbn [rbind]; try discriminate. pose proof (es_line v I z l z1 go o1 R E (fun a X => F1 a (reads_parse _ _ X))) as R1.
  destruct go; [|intros H; apply okinj in H; injection H as <- <-; eauto]. destruct (session v z1 ls) as [[z2 o2]| |] eqn:S; cbn [rbind]; try discriminate.
  intros H; apply okinj in H; injection H as <- <-. eapply IH; eauto.
Qed.
Lemma started_evidenced v rng ls (f : nar -> bool) : Forall (fun l => forall a, parse (trim l) <> KStampId a) ls ->
  match (do z <- start v rng ; session v z ls) with Ok (z, _) => f z | _ => false end = true -> exists I z, evidenced v I z /\ f z = true.
Proof.
  intros F. destruct (start v rng) as [z0| |] eqn:E; cbn [rbind]; try discriminate. destruct (session v z0 ls) as [[z o]| |] eqn:S; try discriminate. intros H.
  destruct (session_evidenced v ls _ z0 z o (es_start v rng z0 E) F S) as [I X]. exists I, z. auto.
Qed.
(** a stamp [7,8] imported for one input, the next gets the id 1 *)
Example C65_session_example : (0 < v_layers wenv)%nat /\ exists I z, evidenced wenv I z /\
  (next_id (z_core z) =? 2) && existsb (fun k => if list_eq_dec Z.eq_dec (ids (e_stamp (c_belief k))) [7; 8] then true else false) (m_store (s_mem (z_core z)))
   && existsb (fun k => if list_eq_dec Z.eq_dec (ids (e_stamp (c_belief k))) [1] then true else false) (m_store (s_mem (z_core z))) = true.
Proof.
  split; [cbn; lia|]. apply (started_evidenced wenv 1 (map RulesM.str ["*stampimport=[7,8]"; "a. :|:"; "b. :|:"]%string)).
  - repeat constructor; intros a; vm_compute; discriminate.
  - vm_compute. reflexivity.
Qed.
