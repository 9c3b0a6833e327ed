(** Vocabulary for the properties of events and inference (C32, C33, C50, C51). *)
From Coq Require Import ZArith Reals List Bool.
From Flocq Require Import IEEE754.BinarySingleNaN.
From Verif Require Import Base F64 TruthM TruthS StampM StampP TermM NamesM EventM InferenceM.
Local Open Scope Z_scope.

(** what is assumed of pow(0.8, d): a double in [0,1], and 1.0 for d = 0 *)
Definition pow_ok (p : Z -> f64) : Prop := (forall d, 0 <= d -> u01 (p d)) /\ p 0 = f1.
(** the confidence an event has at time t *)
Definition conf_at (p : Z -> f64) (e : event) (t : Z) : R :=
  val (confidence (Truth_Projection f64A p (e_truth e) (e_occ e) t)).
(** independent evidence for the same statement at the same time (or a timeless belief), and not a
    conjunction or sequence with a dependent variable *)
Definition mergeable (nm : names) (existing incoming : event) : Prop :=
  (forall id, In id (ids (e_stamp existing)) -> In id (ids (e_stamp incoming)) -> False) /\
  e_term existing = e_term incoming /\
  (e_occ existing = OCCURRENCE_ETERNAL \/ e_occ existing = e_occ incoming) /\
  ~ ((name_of nm (at_ (e_term incoming) 0) = [CONJUNCTION] \/ name_of nm (at_ (e_term incoming) 0) = [SEQUENCE]) /\
     exists i c s, (i < SIZE)%nat /\ name_of nm (at_ (e_term incoming) i) = 35 :: c :: s).
(** symbol tables: names are C strings, so no character is 0; atom 0 has no name *)
Definition names_ok (nm : names) : Prop := forall n c, In n nm -> In c n -> c <> 0.
(** evidence and creation time a conclusion from two premises has to carry *)
Definition derived_from (s1 : stamp) (c1 : Z) (s2 : stamp) (c2 : Z) (s : stamp) (c : Z) : Prop :=
  ids s = firstn 10 (interleave (ids s1) (ids s2)) /\ c = Z.max c1 c2.

(** histories of inputs, stamp imports (Shell *stampimport) and resets *)
Inductive idop := Input | Import (s : stamp) | Reset.
Definition idstep (g : idstate) (o : idop) : idstate * option stamp :=
  match o with
  | Input => let '(e, g') := Event_InputEvent g zero_term EVENT_TYPE_BELIEF truth0 f0 0 in (g', Some (e_stamp e))
  | Import s => (mkIds (g_base g) s, None)
  | Reset => (Event_INIT g, None)
  end.
Fixpoint idrun (g : idstate) (os : list idop) : idstate :=
  match os with [] => g | o :: os => idrun (fst (idstep g o)) os end.
(** the state of a fresh process: Event.c 27-28 *)
Definition ids_start : idstate := mkIds 1 stamp_zero.
(** the stamp the next input gets after history [os], newest operation last:
    the last import not yet consumed by an input, if any (a zero import counts as none) *)
Fixpoint pending (os : list idop) (p : option stamp) : option stamp :=
  match os with
  | [] => p
  | Input :: os => pending os None
  | Import s :: os => pending os (if nth 0 s 0 =? 0 then None else Some s)
  | Reset :: os => pending os p
  end.
(** number of inputs since the last reset that did not consume an import *)
Fixpoint own_inputs (os : list idop) (p : option stamp) (n : Z) : Z :=
  match os with
  | [] => n
  | Input :: os => own_inputs os None (match p with Some _ => n | None => n + 1 end)
  | Import s :: os => own_inputs os (if nth 0 s 0 =? 0 then None else Some s) n
  | Reset :: os => own_inputs os p 0
  end.
