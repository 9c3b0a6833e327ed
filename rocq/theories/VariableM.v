(** Model of /repo/src/Variable.c.  [nm] is the symbol table (Narsese_atomNames); [av] are the
    numeric values attached to atoms (Narsese_atomHasValue, Narsese_atomValues,
    Narsese_atomMeasurementNames; None: no value).  [simdist] is Variable_similarity_distance. *)
From Coq Require Import ZArith List Bool.
From Flocq Require Import IEEE754.BinarySingleNaN.
From Verif Require Import Base F64 TruthM TermM NamesM EventM.
Local Open Scope Z_scope.

(** Variable.h 45-49: [s_map] has 28 terms *)
Record substitution := mkSubst { s_map : list term; s_success : bool; s_truth : truth f64A }.
(** the atoms of #i, $i, ?i for i = 1..9: Narsese_INIT (Narsese.c 672-680) interns them first *)
Definition dep_atom (i : Z) : Z := 3 * (i - 1) + 1.
Definition indep_atom (i : Z) : Z := 3 * (i - 1) + 2.
Definition query_atom (i : Z) : Z := 3 * (i - 1) + 3.
(** Narsese.c 458-464 [Narsese_AtomicTerm] of a symbol with atom [a] *)
Definition atomic_term (a : Z) : term := upd zero_term 0 a.
Definition lookup_map (m : list term) (a : Z) : term := nth (Z.to_nat a) m zero_term.

Section Variable_c.
Variable nm : names.
Variable av : Z -> option (f64 * name).
Variable simdist : f64.

(** Narsese.c 861-865: asserts atom > 0 *)
Definition hasAtomValue (a : Z) : res bool :=
  do _ <- rassert (0 <? a) ; Ok (match av a with Some _ => true | None => false end).
(** Variable.c 94-95, 98-100: whether the two values measure the same thing, and the confidence
    of the similarity *)
Definition value_similarity (a b : Z) : option f64 :=
  match av a, av b with
  | Some (v1, n1), Some (v2, n2) =>
      if list_eqb n1 n2 then Some (fmax f0 (fsub f1 (fdiv (Babs (fsub v1 v2)) simdist))) else None
  | _, _ => None
  end.
(** Variable.c 62-116 [Variable_Unify2], the loop over the remaining slots [l] *)
Fixpoint unify_loop (truth0 : truth f64A) (general specific : term) (qonly : bool) (l : list nat)
    (m : list term) (tr : truth f64A) : res substitution :=
  match l with
  | [] => Ok (mkSubst m true tr)
  | i :: l =>
    let ga := at_ general i in
    if ga =? 0 then unify_loop truth0 general specific qonly l m tr
    else if (if qonly then isQueryVariable nm ga else isVariable nm ga) then
      do _ <- rassert (ga <=? 27) ;
      let sub := Term_ExtractSubterm specific i in
      if isQueryVariable nm ga && isVariable nm (at_ sub 0) then Ok (mkSubst m false tr)
      else if negb (at_ (lookup_map m ga) 0 =? 0) && negb (term_eqb (lookup_map m ga) sub) then Ok (mkSubst m false tr)
      else if copulaEquals nm (at_ sub 0) SET_TERMINATOR then Ok (mkSubst m false tr)
      else unify_loop truth0 general specific qonly l (upd m (Z.to_nat ga) sub) tr
    else
      let sa := at_ specific i in
      if ga =? sa then unify_loop truth0 general specific qonly l m tr
      else if feqb (confidence truth0) f0 then Ok (mkSubst m false tr)
      else
        do h1 <- hasAtomValue ga ;
        if negb h1 then Ok (mkSubst m false tr) else
        do h2 <- hasAtomValue sa ;
        if negb h2 then Ok (mkSubst m false tr) else
        match value_similarity ga sa with
        | None => Ok (mkSubst m false tr)
        | Some c =>
            let tr := Truth_Analogy f64A tr (@mkTruth f64A f1 c) in
            if feqb (confidence tr) f0 then Ok (mkSubst m false tr)
            else unify_loop truth0 general specific qonly l m tr
        end
  end.
Definition Unify2 (tr : truth f64A) (general specific : term) (qonly : bool) : res substitution :=
  unify_loop tr general specific qonly (seq 0 SIZE) (repeat zero_term 28) tr.
(** Variable.c 118-121 *)
Definition UnifyWithAnalogy (tr : truth f64A) (general specific : term) : res substitution := Unify2 tr general specific false.
(** Variable.c 123-127 *)
Definition Unify (general specific : term) : res substitution := UnifyWithAnalogy truth0 general specific.

(** Variable.c 129-147: the term and the success flag *)
Fixpoint apply_loop (m : list term) (l : list nat) (g : term) (ok : bool) : res (term * bool) :=
  match l with
  | [] => Ok (g, ok)
  | i :: l =>
    let ga := at_ g i in
    do _ <- rassert (negb (isVariable nm ga) || (ga <=? 27)) ;
    if isVariable nm ga && negb (at_ (lookup_map m ga) 0 =? 0) then
      let '(o, g) := Term_OverrideSubterm g i (lookup_map m ga) in
      apply_loop m l g (ok && o)
    else apply_loop m l g ok
  end.
Definition ApplySubstitute (general : term) (s : substitution) : res (term * bool) :=
  do _ <- rassert (s_success s) ;
  apply_loop (s_map s) (seq 0 SIZE) general true.

(** Variable.c 151-255: occurrence counts.  The hash tables (64 entries for at most 64 distinct
    atoms; exact maps by C17) are modelled by functions; 0 is "absent" (NULL). *)
Definition counts := Z -> Z.
Definition incr (c : counts) (a : Z) : counts := fun b => if b =? a then c b + 1 else c b.
(** Variable.c 210-230: every simple atom of the term *)
Definition count_all (t : term) (c : counts) : counts :=
  fold_left (fun c i => if IsSimpleAtom nm (at_ t i) then incr c (at_ t i) else c) (seq 0 SIZE) c.
(** Variable.c 151-232 [countStatementAtoms]; [fuel]: depth of the term, at most 6 *)
Fixpoint count_statement (fuel : nat) (t : term) (ext ignore spatial : bool) (side : Z) (c : counts) : counts :=
  match fuel with
  | O => c
  | S fuel =>
    let cop a k := copulaEquals nm a k in
    let rec t c := count_statement fuel t ext true spatial side c in
    let sim := cop (at_ t 0) SIMILARITY in
    let c :=
      if (cop (at_ t 0) HAS_CONTINUOUS_PROPERTY && negb (cop (at_ t 1) PRODUCT) && ext) || cop (at_ t 0) INHERITANCE || sim then
        let subject := Term_ExtractSubterm t 1 in
        let predicate := Term_ExtractSubterm t 2 in
        let subj_image := cop (at_ subject 0) INT_IMAGE1 || cop (at_ subject 0) INT_IMAGE2 in
        let pred_image := cop (at_ predicate 0) EXT_IMAGE1 || cop (at_ predicate 0) EXT_IMAGE2 in
        let c :=
          if ext || sim then
            let c :=
              if subj_image then rec (Term_ExtractSubterm subject 1) c
              else if negb (side =? 0) && cop (at_ subject 0) PRODUCT then
                if side =? 1 then rec (Term_ExtractSubterm subject 1) c
                else if side =? 2 then rec (Term_ExtractSubterm subject 2) c else c
              else rec subject c in
            if pred_image then rec (Term_ExtractSubterm predicate 2) c else c
          else c in
        if negb ext || sim then
          let c := if pred_image then rec (Term_ExtractSubterm predicate 1) c else rec predicate c in
          if subj_image then rec (Term_ExtractSubterm subject 2) c else c
        else c
      else c in
    if ignore || spatial then
      if (cop (at_ t 0) EXT_SET || cop (at_ t 0) INT_SET) && negb (cop (at_ t 2) SET_TERMINATOR) && negb spatial then c
      else count_all t c
    else c
  end.
(** Variable.c 234-255 [countHigherOrderStatementAtoms] *)
Fixpoint count_higher (fuel : nat) (t : term) (ext : bool) (side : Z) (c : counts) : counts :=
  match fuel with
  | O => c
  | S fuel =>
    let cop k := copulaEquals nm (at_ t 0) k in
    if cop NEGATION then count_higher fuel (Term_ExtractSubterm t 1) ext side c
    else if cop SEQUENCE || cop CONJUNCTION || cop TEMPORAL_IMPLICATION || cop IMPLICATION || cop EQUIVALENCE then
      let c := count_higher fuel (Term_ExtractSubterm t 1) ext side c in
      count_higher fuel (Term_ExtractSubterm t 2) ext side c
    else count_statement 7 t ext false (cop INT_SET) side c
  end.
Definition count_atoms (t : term) (ext : bool) (side : Z) : counts := count_higher 7 t ext side (fun _ => 0).
(** Variable.c 266-278 [newVarID] *)
Definition newVarID (t : term) (indep : bool) : Z :=
  match find (fun i => negb (Term_HasAtom t (if indep then indep_atom i else dep_atom i))) [1;2;3;4;5;6;7;8;9] with
  | Some i => i
  | None => 0
  end.
(** Loop state of the two introduction procedures: next numbers, atom -> number (0: none), term *)
Record vstate := mkV { v_dep : Z; v_indep : Z; v_ids : counts; v_term : term }.
(** Variable.c 325-345 / 353-371: replace slot [i] by the variable of [atom], numbering it if new;
    returns the success flag *)
Definition put_var (indep : bool) (i : nat) (atom : Z) (s : vstate) : bool * vstate :=
  let old := v_ids s atom in
  let id := if old =? 0 then (if indep then v_indep s else v_dep s) else old in
  let s := if old =? 0
           then mkV (if indep then v_dep s else v_dep s + 1) (if indep then v_indep s + 1 else v_indep s)
                    (fun b => if b =? atom then id else v_ids s b) (v_term s)
           else s in
  if id <=? 9 then
    let '(ok, t) := Term_OverrideSubterm (v_term s) i (atomic_term (if indep then indep_atom id else dep_atom id)) in
    (ok, mkV (v_dep s) (v_indep s) (v_ids s) t)
  else (true, s).
(** Variable.c 280-374 [Variable_IntroduceImplicationVariables2]: the loop *)
Fixpoint intro_imp_loop (original : term) (cl cr co : counts) (opseq : bool) (l : list nat) (s : vstate) : bool * term :=
  match l with
  | [] => (true, v_term s)
  | i :: l =>
    let atom := at_ original i in
    let vl := cl atom in let vr := cr atom in let vo := co atom in
    let both := negb (vl =? 0) && negb (vr =? 0) in
    if (2 <=? vl) || (2 <=? vr) || both then
      if negb both && ((atom =? SELF) && opseq && negb (vo =? 0) && (vl =? vo))
      then intro_imp_loop original cl cr co opseq l s
      else
        let '(ok, s) := put_var both i atom s in
        if ok then intro_imp_loop original cl cr co opseq l s else (false, v_term s)
    else intro_imp_loop original cl cr co opseq l s
  end.
Definition IntroduceImplicationVariables2 (t : term) (ext : bool) (side : Z) : res (bool * term) :=
  do _ <- rassert (copulaEquals nm (at_ t 0) TEMPORAL_IMPLICATION || copulaEquals nm (at_ t 0) IMPLICATION
                   || copulaEquals nm (at_ t 0) EQUIVALENCE) ;
  let left := Term_ExtractSubterm t 1 in
  let right := Term_ExtractSubterm t 2 in
  let '(isop, opseq) := if ext then OperationSequenceAppendLeftNested nm zero_term left else (false, zero_term) in
  let co := if isop then count_atoms left ext side else (fun _ => 0) in
  let cl := count_atoms left ext side in
  let cr := count_atoms right ext side in
  let dep := newVarID t false in
  let indep := newVarID t true in
  if (dep =? 0) || (indep =? 0) then Ok (false, t)
  else Ok (intro_imp_loop t cl cr co (negb (at_ opseq 0 =? 0)) (seq 0 SIZE) (mkV dep indep (fun _ => 0) t)).
(** Variable.c 376-379 *)
Definition IntroduceImplicationVariables (t : term) (ext : bool) : res (bool * term) := IntroduceImplicationVariables2 t ext 0.
(** Variable.c 381-429 *)
Fixpoint intro_conj_loop (original : term) (c : counts) (l : list nat) (s : vstate) : bool * term :=
  match l with
  | [] => (true, v_term s)
  | i :: l =>
    let atom := at_ original i in
    if 2 <=? c atom then
      let '(ok, s) := put_var false i atom s in
      if ok then intro_conj_loop original c l s else (false, v_term s)
    else intro_conj_loop original c l s
  end.
Definition IntroduceConjunctionVariables (t : term) (ext : bool) : res (bool * term) :=
  do _ <- rassert (copulaEquals nm (at_ t 0) CONJUNCTION) ;
  let c := count_atoms t ext 0 in
  let dep := newVarID t false in
  if dep =? 0 then Ok (false, t)
  else Ok (intro_conj_loop t c (seq 0 SIZE) (mkV dep 0 (fun _ => 0) t)).

(** Variable.c 431-457 [Variable_Normalize]: [nz] are the flags normalized[] *)
Record nstate := mkN { n_indep : Z; n_dep : Z; n_query : Z; n_done : list bool; n_term : term }.
Definition norm_step (s : nstate) (j : nat) : res nstate :=
  let a := at_ (n_term s) j in
  if negb (nth j (n_done s) false) && isVariable nm a then
    let idx := if isIndependentVariable nm a then n_indep s else if isDependentVariable nm a then n_dep s else n_query s in
    do _ <- rassert (idx <=? 9) ;
    let new := if isIndependentVariable nm a then indep_atom idx else if isDependentVariable nm a then dep_atom idx else query_atom idx in
    let ks := filter (fun k => at_ (n_term s) k =? a) (seq j (SIZE - j)) in
    let t := fold_left (fun t k => upd t k new) ks (n_term s) in
    let d := fold_left (fun d k => upd d k true) ks (n_done s) in
    Ok (if isIndependentVariable nm a then mkN (n_indep s + 1) (n_dep s) (n_query s) d t
        else if isDependentVariable nm a then mkN (n_indep s) (n_dep s + 1) (n_query s) d t
        else mkN (n_indep s) (n_dep s) (n_query s + 1) d t)
  else Ok s.
Fixpoint norm_loop (l : list nat) (s : nstate) : res nstate :=
  match l with [] => Ok s | j :: l => do s <- norm_step s j ; norm_loop l s end.
Definition Normalize (t : term) : res term :=
  do s <- norm_loop (seq 0 SIZE) (mkN 1 1 1 (repeat false SIZE) t) ; Ok (n_term s).
End Variable_c.
