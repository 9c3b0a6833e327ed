(** Specification vocabulary: the evidence a reasoner holds.  [ids] of a stamp are the input ids
    listed before its first free slot (StampM.v). *)
From Coq Require Import ZArith List.
From Verif Require Import Base F64 TruthM StampM TermM NamesM EventM TableM MemoryM QuestionM CycleM CycleS EverywhereS ShellM ShellS.
Import ListNotations.
Local Open Scope Z_scope.
(** the stamp has the fixed size and lists ids in [A] only *)
Definition rests_on (A : Z -> Prop) (st : stamp) : Prop := stamp_wf st /\ Forall A (ids st).
(** all of the memory: beliefs, recent events, predictions and goals of concepts, links of concepts,
    queued beliefs and goals *)
Definition memory_evidence (A : Z -> Prop) (m : memory) : Prop :=
  everywhere (fun e => rests_on A (e_stamp e)) (fun e => rests_on A (e_stamp e)) (fun i => rests_on A (i_stamp i)) m.
(** ... and the events picked for processing, and a stamp waiting to be imported *)
Definition evidence_in (A : Z -> Prop) (s : cstate) : Prop :=
  memory_evidence A (s_mem s) /\
  (forall e p, s_selB s = Some (e, p) -> rests_on A (e_stamp e)) /\ (forall e p, s_selG s = Some (e, p) -> rests_on A (e_stamp e)) /\
  rests_on A (g_import (s_ids s)).
(** the id the next input gets *)
Definition next_id (s : cstate) : Z := g_base (s_ids s).
(** [told I s]: a reasoner can be in state [s] after the ids [I] were imported: started, reset,
    configured, asked, given inputs and cycles; ids set forward (as *stampid= does) and stamps
    imported (as *stampimport= does) *)
Inductive told : (Z -> Prop) -> cstate -> Prop :=
| td_start cmax buckets atoms bmax gmax layers m rng : Memory_INIT cmax buckets atoms bmax gmax layers = Ok m -> told (fun _ => False) (cstate0 m rng)
| td_reset I s cmax buckets atoms bmax gmax layers m : told I s -> Memory_INIT cmax buckets atoms bmax gmax layers = Ok m -> told I (resetted s m)
| td_config I s ops restricted t : told I s -> told I (configured s ops restricted t (s_ids s))
| td_id I s n : told I s -> next_id s <= n -> told I (set_ids s (mkIds n (g_import (s_ids s))))
| td_import I s st : told I s -> stamp_wf st -> told (fun i => I i \/ In i (ids st)) (set_ids s (mkIds (next_id s) st))
| td_question I s nm av simdist pow now query threshold priming t tense m out : told I s ->
    Question nm av simdist pow now query threshold priming (s_mem s) t tense = Ok (m, out) -> told I (set_mem s m)
| td_call I s p c s' : told I s -> (0 < p_layers p)%nat -> perform p s c = Ok s' -> told I s'.
(** [evidenced v I z]: a session of the shell can be at [z], the ids [I] having been imported;
    sessions in which no line sets the counter of ids *)
Inductive evidenced (v : env) : (Z -> Prop) -> nar -> Prop :=
| es_start rng z : start v rng = Ok z -> evidenced v (fun _ => False) z
| es_line I z l z' go o : evidenced v I z -> line v z l = Ok (z', go, o) -> (forall a, ~ reads (trim l) (KStampId a)) ->
    evidenced v (fun i => I i \/ In i (ids (g_import (s_ids (z_core z'))))) z'.
