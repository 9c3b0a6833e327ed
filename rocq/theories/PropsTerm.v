(** Property theorems C11-C14: terms.  Vocabulary: TermS.v. *)
From Verif Require Import Base HashM TermM TermS TermP.

(** <(a * b) --> c> in heap order: --> * c a b (arbitrary atom numbers) *)
Definition ex_t : term := mk_term [20; 30; 3; 1; 2]%Z.
(** (x & y) *)
Definition ex_s : term := mk_term [40; 8; 9]%Z.

(** C11: for every term and every position, the extracted term is the only term whose tree is
    the subtree at that position (the empty term if the position is empty). *)
Theorem C11_extract_is_the_subterm : forall t j, closed t ->
  closed (Term_ExtractSubterm t j) /\ tree_at (Term_ExtractSubterm t j) 0 = tree_at t j /\
  (forall s, closed s -> tree_at s 0 = tree_at t j -> s = Term_ExtractSubterm t j).
Proof. exact extract_correct. Qed.
Print Assumptions C11_extract_is_the_subterm.
(** without the assumption that no atom sits below an empty slot *)
Theorem C11_extract_any_array : forall t j, is_term t -> j < SIZE -> at_ t j <> 0%Z ->
  closed (Term_ExtractSubterm t j) /\ tree_at (Term_ExtractSubterm t j) 0 = tree_at t j.
Proof. exact extract_tree. Qed.
Print Assumptions C11_extract_any_array.
Example C11_example : closed ex_t /\ Term_ExtractSubterm ex_t 1 = mk_term [30; 1; 2]%Z /\
  tree_at ex_t 1 = N 30 (N 1 E E) (N 2 E E).
Proof. split; [apply closedb_ok|split]; vm_compute; reflexivity. Qed.

(** C12: replacing a leaf. *)
Theorem C12_replace_leaf_exact_or_failure_reported : forall t i s,
  closed t -> closed s -> at_ s 0 <> 0%Z -> at_ t i <> 0%Z ->
  let '(ok, r) := Term_OverrideSubterm t i s in
  (ok = true <-> fits (tree_at s 0) i) /\
  (forall k, ~ under i k -> at_ r k = at_ t k) /\
  (ok = true -> tree_at t i = N (at_ t i) E E -> closed r /\ tree_at r i = tree_at s 0).
Proof. exact override_correct. Qed.
Print Assumptions C12_replace_leaf_exact_or_failure_reported.
Example C12_example : closed ex_t /\ closed ex_s /\ tree_at ex_t 4 = N (at_ ex_t 4) E E /\
  Term_OverrideSubterm ex_t 4 ex_s = (true, mk_term [20; 30; 3; 1; 40; 0; 0; 0; 0; 8; 9]%Z) /\
  fst (Term_OverrideSubterm (mk_term (repeat 1%Z 64)) 63 ex_s) = false.
Proof. split; [apply closedb_ok|split; [apply closedb_ok|]]; vm_compute; auto. Qed.
(** Replacing a compound is not exact (old components stay below a smaller replacement), and a
    failed replacement is not clean (the term is already partly overwritten). *)
Theorem C12_replace_compound_is_exact_refuted :
  (exists t i s r, closed t /\ closed s /\ Term_OverrideSubterm t i s = (true, r) /\
     tree_at r i <> tree_at s 0) /\
  (exists t i s r, closed t /\ closed s /\ Term_OverrideSubterm t i s = (false, r) /\ r <> t).
Proof.
  split.
  - exists ex_t, 1, (mk_term [5]%Z). eexists. split; [apply closedb_ok; vm_compute; reflexivity|].
    split; [apply closedb_ok; vm_compute; reflexivity|]. split; [vm_compute; reflexivity|vm_compute; discriminate].
  - exists (mk_term (repeat 1%Z 64)), 63, ex_s. eexists. split; [apply closedb_ok; vm_compute; reflexivity|].
    split; [apply closedb_ok; vm_compute; reflexivity|]. split; [vm_compute; reflexivity|vm_compute; discriminate].
Qed.
Print Assumptions C12_replace_compound_is_exact_refuted.

(** C13 *)
Theorem C13_complexity_is_tree_size : forall t, closed t ->
  Term_Complexity t = size (tree_at t 0) /\ Term_Complexity t <= 64 /\
  (at_ t 0 <> 0%Z -> 1 <= Term_Complexity t).
Proof. exact (fun t C => conj (complexity_spec t C) (conj (complexity_bound t) (complexity_pos t C))). Qed.
Print Assumptions C13_complexity_is_tree_size.
Theorem C13_has_atom_iff_occurs : forall t a, closed t -> a <> 0%Z ->
  (Term_HasAtom t a = true <-> occurs a (tree_at t 0)).
Proof. exact hasatom_spec. Qed.
Print Assumptions C13_has_atom_iff_occurs.
Example C13_example : Term_Complexity ex_t = 5 /\ Term_HasAtom ex_t 2 = true /\ Term_HasAtom ex_t 8 = false.
Proof. vm_compute. auto. Qed.

(** C14: whatever the caches (valid or absent); the comparison may fill caches but keeps them
    valid and changes no atom.  The padding bytes are assumed equal (memcmp compares them). *)
Theorem C14_equal_iff_same_atoms : forall a b, cache_ok a -> cache_ok b -> c_pad a = c_pad b ->
  let '(r, (a', b')) := Term_Equal a b in
  (r = true <-> c_atoms a = c_atoms b) /\ c_atoms a' = c_atoms a /\ c_atoms b' = c_atoms b /\
  cache_ok a' /\ cache_ok b'.
Proof. exact term_equal_ok. Qed.
Print Assumptions C14_equal_iff_same_atoms.
(** same tree = same atoms *)
Theorem C14_same_tree_same_term : forall t s, closed t -> closed s -> tree_at t 0 = tree_at s 0 -> t = s.
Proof. exact closed_same_tree. Qed.
Print Assumptions C14_same_tree_same_term.
Example C14_example :
  let a := mkC false [0;0;0;0;0;0;0]%Z 0 ex_t in let b := snd (Term_Hash a) in
  cache_ok a /\ cache_ok b /\ fst (Term_Equal a b) = true /\
  fst (Term_Equal a (mkC false [0;0;0;0;0;0;0]%Z 0 ex_s)) = false.
Proof. cbv zeta. split; [intros H; discriminate H|]. split; [intros _; reflexivity|]. vm_compute. auto. Qed.
(** A stale cache makes equal terms differ. *)
Example C14_stale_cache :
  fst (Term_Equal (mkC true [] 7 ex_t) (mkC false [] 0 ex_t)) = false.
Proof. vm_compute. reflexivity. Qed.
