(** Specification vocabulary for the shell (C58, C61, C62): how a line is to be read, what a
    configuration command may change, and sessions. *)
From Coq Require Import ZArith List Bool String.
From Verif Require Import Base F64 TruthM StampM TermM NamesM AtomsM ParserM RulesM EventM MemoryM QuestionM DecisionM OpsM CycleM CycleS ShellM.
Import ListNotations.
Local Open Scope Z_scope.

Definition starts (w : string) (l : text) : Prop := exists a, l = str w ++ a.
(** a line consisting of decimal digits *)
Definition number (l : text) : Prop := l <> [] /\ Forall (fun c => 48 <= c <= 57) l.
Definition value_of (l : text) : Z := fold_left (fun n c => 10 * n + (c - 48)) l 0.
(** the words that are commands on their own, and those that begin a command *)
Definition words : list string :=
  ["*reset"; "*stats"; "*inverted_atom_index"; "*opconfig"; "*concepts"; "*cycling_belief_events"; "*cycling_goal_events"; "quit"]%string.
Definition openings : list string :=
  ["//"; "*restrictedconceptcreation=true"; "*restrictedconceptcreation=false"; "*volume="; "*anticipationconfidence="; "*decisionthreshold=";
   "*similaritydistance="; "*babblingops="; "*currenttime="; "*stampid="; "*stampimport=["; "*motorbabbling="; "*questionpriming=";
   "*setvalue "; "*space "; "*setopname "; "*setoparg "; "*query "; "*setopstdin "; "*concurrent"]%string.
(** how a line (without trailing white space) reads *)
Inductive reads : text -> command -> Prop :=
| r_blank : reads [] KCycle
| r_comment t : reads (str "//" ++ t) (KComment t)
| r_reset : reads (str "*reset") KReset
| r_volume0 : reads (str "*volume=0") KVolume0
| r_volume100 : reads (str "*volume=100") KVolume100
| r_volume a : a <> str "0" -> a <> str "100" -> reads (str "*volume=" ++ a) (KVolume a)
| r_restricted a : reads (str "*restrictedconceptcreation=true" ++ a) (KRestricted true)
| r_unrestricted a : reads (str "*restrictedconceptcreation=false" ++ a) (KRestricted false)
| r_anticipation a : reads (str "*anticipationconfidence=" ++ a) (KAnticipation a)
| r_threshold a : reads (str "*decisionthreshold=" ++ a) (KThreshold a)
| r_similarity a : reads (str "*similaritydistance=" ++ a) (KSimilarity a)
| r_stats : reads (str "*stats") KStats
| r_index : reads (str "*inverted_atom_index") KIndex
| r_opconfig : reads (str "*opconfig") KOpConfig
| r_concepts : reads (str "*concepts") KConcepts
| r_beliefs : reads (str "*cycling_belief_events") KBeliefEvents
| r_goals : reads (str "*cycling_goal_events") KGoalEvents
| r_quit : reads (str "quit") KQuit
| r_bops a : reads (str "*babblingops=" ++ a) (KBabblingOps a)
| r_time a : reads (str "*currenttime=" ++ a) (KTime a)
| r_stampid a : reads (str "*stampid=" ++ a) (KStampId a)
| r_import a : reads (str "*stampimport=[" ++ a) (KStampImport a)
| r_off : reads (str "*motorbabbling=false") KBabblingOff
| r_on : reads (str "*motorbabbling=true") KBabblingOn
| r_babbling a : a <> str "false" -> a <> str "true" -> reads (str "*motorbabbling=" ++ a) (KBabbling a)
| r_priming a : reads (str "*questionpriming=" ++ a) (KPriming a)
| r_setvalue a : reads (str "*setvalue " ++ a) (KSetValue a)
| r_space a : reads (str "*space " ++ a) (KSpace a)
| r_opname a : reads (str "*setopname " ++ a) (KSetOpName a)
| r_oparg a : reads (str "*setoparg " ++ a) (KSetOpArg a)
| r_query a : reads (str "*query " ++ a) (KQuery a)
| r_stdin a : reads (str "*setopstdin " ++ a) (KSetStdin a)
| r_steps a : number a -> reads a (KSteps a)
| r_concurrent a : reads (str "*concurrent" ++ a) KConcurrent
| r_sentence a : a <> [] -> (forall w, In w words -> a <> str w) -> (forall w, In w openings -> ~ starts w a) -> ~ number a ->
    reads a (KSentence a).

(** *** settings *)
Inductive setting := PVolume | PRestricted | PAnticipation | PThreshold | PSimilarity | PBabblingOps | PTime | PStampId | PImport | PBabbling | PPriming.
(** the setting a command is about *)
Inductive about : command -> setting -> Prop :=
| b_v0 : about KVolume0 PVolume | b_v100 : about KVolume100 PVolume | b_v a : about (KVolume a) PVolume
| b_r b : about (KRestricted b) PRestricted
| b_an a : about (KAnticipation a) PAnticipation
| b_th a : about (KThreshold a) PThreshold
| b_si a : about (KSimilarity a) PSimilarity
| b_bo a : about (KBabblingOps a) PBabblingOps
| b_t a : about (KTime a) PTime | b_co : about KConcurrent PTime
| b_id a : about (KStampId a) PStampId
| b_im a : about (KStampImport a) PImport
| b_off : about KBabblingOff PBabbling | b_on : about KBabblingOn PBabbling | b_ba a : about (KBabbling a) PBabbling
| b_pr a : about (KPriming a) PPriming.
(** nothing but the setting [p] differs *)
Record only (p : option setting) (z z' : nar) : Prop := {
  on_volume : p <> Some PVolume -> z_volume z' = z_volume z;
  on_restricted : p <> Some PRestricted -> m_restricted (s_mem (z_core z')) = m_restricted (s_mem (z_core z));
  on_aconf : p <> Some PAnticipation -> z_aconf z' = z_aconf z;
  on_thr : p <> Some PThreshold -> z_thr z' = z_thr z;
  on_simdist : p <> Some PSimilarity -> z_simdist z' = z_simdist z;
  on_bops : p <> Some PBabblingOps -> z_bops z' = z_bops z;
  on_time : p <> Some PTime -> s_time (z_core z') = s_time (z_core z);
  on_base : p <> Some PStampId -> g_base (s_ids (z_core z')) = g_base (s_ids (z_core z));
  on_import : p <> Some PImport -> g_import (s_ids (z_core z')) = g_import (s_ids (z_core z));
  on_chance : p <> Some PBabbling -> z_chance z' = z_chance z;
  on_priming : p <> Some PPriming -> z_priming z' = z_priming z;
  on_st : z_st z' = z_st z; on_k : z_k z' = z_k z; on_av : forall a, z_av z' a = z_av z a;
  on_mem : let m := s_mem (z_core z) in let m' := s_mem (z_core z') in
    m_concepts m' = m_concepts m /\ m_store m' = m_store m /\ m_table m' = m_table m /\ m_index m' = m_index m /\ m_nextid m' = m_nextid m /\
    m_ring m' = m_ring m /\ m_beliefs m' = m_beliefs m /\ m_goals m' = m_goals m /\ m_ops m' = m_ops m;
  on_core : let s := z_core z in let s' := z_core z' in
    s_rng s' = s_rng s /\ s_pid s' = s_pid s /\ s_pid2 s' = s_pid2 s /\ s_pid3 s' = s_pid3 s /\ s_selB s' = s_selB s /\ s_selG s' = s_selG s /\
    s_thr s' = s_thr s /\ s_total s' = s_total s /\ s_max s' = s_max s /\ s_trace s' = s_trace s }.
(** the integer at the beginning of a text: optional white space and sign, then digits up to
    something that is no digit *)
Inductive reads_int : text -> Z -> Prop :=
| ri sp sg ds r n : Forall (fun c => c = 32 \/ 9 <= c <= 13) sp -> number ds -> (forall c r', r = c :: r' -> ~ 48 <= c <= 57) ->
    (sg = [] \/ sg = [43]) /\ n = value_of ds \/ sg = [45] /\ n = - value_of ds ->
    reads_int (sp ++ sg ++ ds ++ r) n.
(** the items of a comma separated list that are not empty *)
Inductive comma_list : text -> list text -> Prop :=
| cl_nil : comma_list [] []
| cl_last t : t <> [] -> ~ In 44 t -> comma_list t [t]
| cl_cons t l ts : t <> [] -> ~ In 44 t -> comma_list l ts -> comma_list (t ++ [44] ++ l) (t :: ts)
| cl_skip l ts : comma_list l ts -> comma_list ([44] ++ l) ts.
(** an item as a number: limited to the range of long, 0 if it is none *)
Inductive item_value : text -> Z -> Prop :=
| iv_num t n : reads_int t n -> item_value t (Z.max LONG_MIN (Z.min LONG_MAX n))
| iv_none t : (forall n, ~ reads_int t n) -> item_value t 0.
(** the value a command gives its setting; an unreadable number leaves it (volume: 0) *)
Inductive gives (v : env) (z z' : nar) : command -> Prop :=
| g_v0 : z_volume z' = f1 -> gives v z z' KVolume0
| g_v100 : z_volume z' = f0 -> gives v z z' KVolume100
| g_v a n : reads_int a n -> z_volume z' = fsub f1 (fdiv (fofZ n) (fofZ 100)) -> gives v z z' (KVolume a)
| g_v' a : (forall n, ~ reads_int a n) -> z_volume z' = f1 -> gives v z z' (KVolume a)
| g_r b : m_restricted (s_mem (z_core z')) = b -> gives v z z' (KRestricted b)
| g_an a : z_aconf z' = match v_lf v a with Some (x, _) => x | None => z_aconf z end -> gives v z z' (KAnticipation a)
| g_th a : z_thr z' = match v_lf v a with Some (x, _) => x | None => z_thr z end -> gives v z z' (KThreshold a)
| g_si a : z_simdist z' = match v_lf v a with Some (x, _) => x | None => z_simdist z end -> gives v z z' (KSimilarity a)
| g_bo a n : reads_int a n -> z_bops z' = n -> gives v z z' (KBabblingOps a)
| g_bo' a : (forall n, ~ reads_int a n) -> z_bops z' = z_bops z -> gives v z z' (KBabblingOps a)
| g_t a n : reads_int a n -> s_time (z_core z') = n -> gives v z z' (KTime a)
| g_t' a : (forall n, ~ reads_int a n) -> s_time (z_core z') = s_time (z_core z) -> gives v z z' (KTime a)
| g_co : s_time (z_core z') = s_time (z_core z) - 1 -> gives v z z' KConcurrent
| g_id a n : reads_int a n -> g_base (s_ids (z_core z')) = n -> gives v z z' (KStampId a)
| g_id' a : (forall n, ~ reads_int a n) -> g_base (s_ids (z_core z')) = g_base (s_ids (z_core z)) -> gives v z z' (KStampId a)
| g_im body r ts ids : ~ In 93 r -> comma_list body ts -> Forall2 item_value ts ids ->
    g_import (s_ids (z_core z')) = firstn STAMP_SIZE (ids ++ repeat 0 STAMP_SIZE) -> gives v z z' (KStampImport (body ++ [93] ++ r))
| g_off : z_chance z' = f0 -> gives v z z' KBabblingOff
| g_on : z_chance z' = MOTOR_BABBLING_CHANCE_INITIAL -> gives v z z' KBabblingOn
| g_ba a : z_chance z' = match v_lf v a with Some (x, _) => x | None => z_chance z end -> gives v z z' (KBabbling a)
| g_pr a : z_priming z' = match v_lf v a with Some (x, _) => x | None => z_priming z end -> gives v z z' (KPriming a).
(** the parameters of the program, kept by inputs, cycles and resets *)
Definition same_parameters (z z' : nar) : Prop :=
  z_volume z' = z_volume z /\ z_aconf z' = z_aconf z /\ z_thr z' = z_thr z /\ z_simdist z' = z_simdist z /\ z_chance z' = z_chance z /\
  z_priming z' = z_priming z /\ z_bops z' = z_bops z.
(** nothing the reasoner knows differs: memory but for the operations, clock, ids, random numbers,
    executions *)
Definition same_knowledge (z z' : nar) : Prop :=
  let m := s_mem (z_core z) in let m' := s_mem (z_core z') in let s := z_core z in let s' := z_core z' in
  m_concepts m' = m_concepts m /\ m_store m' = m_store m /\ m_table m' = m_table m /\ m_index m' = m_index m /\ m_nextid m' = m_nextid m /\
  m_ring m' = m_ring m /\ m_beliefs m' = m_beliefs m /\ m_goals m' = m_goals m /\ m_restricted m' = m_restricted m /\
  s_time s' = s_time s /\ s_ids s' = s_ids s /\ s_rng s' = s_rng s /\ s_pid s' = s_pid s /\ s_pid2 s' = s_pid2 s /\ s_pid3 s' = s_pid3 s /\
  s_selB s' = s_selB s /\ s_selG s' = s_selG s /\ s_thr s' = s_thr s /\ s_total s' = s_total s /\ s_max s' = s_max s /\ s_trace s' = s_trace s.
(** commands about operations and measured values *)
Inductive about_names : command -> Prop :=
| n_value a : about_names (KSetValue a) | n_space a : about_names (KSpace a).
Inductive about_operations : command -> Prop :=
| o_name a : about_operations (KSetOpName a) | o_arg a : about_operations (KSetOpArg a) | o_stdin a : about_operations (KSetStdin a).
(** commands that only show something *)
Inductive shows : command -> Prop :=
| h_comment t : shows (KComment t) | h_stats : shows KStats | h_index : shows KIndex | h_opconfig : shows KOpConfig | h_concepts : shows KConcepts
| h_beliefs : shows KBeliefEvents | h_goals : shows KGoalEvents | h_quit : shows KQuit | h_reset : shows KReset.
(** nothing differs but priority and usage of one concept *)
Definition one_primed (m m' : memory) : Prop :=
  m' = m \/ exists c k u p, nth_error (m_store m) c = Some k /\ m' = set_store m (upd (m_store m) c (with_usage (with_priority k p) u)).
(** the states of the program while it reads lines *)
Inductive running (v : env) : nar -> Prop :=
| ru_start rng z : start v rng = Ok z -> running v z
| ru_line z l z' go o : running v z -> line v z l = Ok (z', go, o) -> running v z'.
