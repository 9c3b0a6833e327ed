(** Specification vocabulary: declarative implications given to the memory (C64). *)
From Coq Require Import ZArith List Bool.
From Verif Require Import Base F64 TruthM StampM TermM NamesM EventM InferenceM UsageM TableM MemoryM MemoryS AddS.
Local Open Scope Z_scope.
(** *** declarative implications: a link of the concept of [b] and a statement with its own concept *)
(** the link <a ==> b> is in the concept of [b]; its source is the concept of [a]; these two
    concepts are used and no other changes *)
Definition linked_statement (now : Z) (m m' : memory) (a b : term) (e : event) : Prop :=
  exists t s kt0 ks0 kt ks tb ev, concept_for m b now t kt0 /\ concept_for m a now s ks0 /\ s <> t /\ stores m' t kt /\ stores m' s ks /\
    Table_AddAndRevise (c_links kt0) (link_of e s (c_id ks) now) = Ok (tb, ev) /\ used now ks0 ks /\ c_id ks = c_id ks0 /\
    (exists k1, used now kt0 k1 /\ kt = with_links k1 tb) /\
    (forall d x, d <> s -> d <> t -> (stores m' d x <-> stores m d x)).
