(** Model of the Narsese parser and printer, /repo/src/Narsese.c 33-448 and 466-641.
    Text is a list of character codes without the terminating 0; characters are never 0.
    Writes past a buffer and NULL dereferences are [UB]; failing asserts are [Abort]. *)
From Coq Require Import ZArith List Bool.
From Verif Require Import Base F64 TruthM HashM StackM HashTableM TermM NamesM AtomsM VariableM.
Local Open Scope Z_scope.

Definition text := list Z.
(** Config.h 147 NARSESE_LEN_MAX; Narsese.c 34-36 *)
Definition NARSESE_LEN_MAX : nat := Z.to_nat 2148.
Definition REPLACEMENT_LEN : nat := (3 * NARSESE_LEN_MAX)%nat.
Definition EXPANSION_LEN : nat := (REPLACEMENT_LEN * 3)%nat.

(** Narsese.c 51-187, one round of the loop: the characters written and the number of characters
    consumed.  [l] is the text from position i on; the character after the end is 0. *)
Definition canon1 (l : text) : text * nat :=
  let c0 := nth 0 l 0 in let c1 := nth 1 l 0 in let c2 := nth 2 l 0 in
  if c0 =? 44 (* , *) then ([32], 1%nat)
  else if c0 =? 91 (* [ *) then ([40; 39; 32], 1%nat)
  else if c0 =? 123 (* { *) then ([40; 34; 32], 1%nat)
  else if (c0 =? 125) || (c0 =? 93) || (c0 =? 62) (* } ] > *) then ([41], 1%nat)
  else if (c0 =? 60) && negb (c1 =? 45) && negb (c1 =? 61) (* < *) then ([40], 1%nat)
  else if (2 <=? length l)%nat then
    if (c0 =? 38) && (c1 =? 47) (* &/ *) then ([43], 2%nat)
    else if (c0 =? 38) && (c1 =? 38) (* && *) then ([59], 2%nat)
    else if (c0 =? 124) && (c1 =? 124) (* || *) then ([95], 2%nat)
    else if (c0 =? 47) && (c1 =? 49) (* /1 *) then ([47], 2%nat)
    else if (c0 =? 47) && (c1 =? 50) (* /2 *) then ([37], 2%nat)
    else if (c0 =? 92) && (c1 =? 49) (* \1 *) then ([92], 2%nat)
    else if (c0 =? 92) && (c1 =? 50) (* \2 *) then ([35], 2%nat)
    else if (3 <=? length l)%nat then
      if (c0 =? 45) && (c1 =? 45) && (c2 =? 62) (* --> *) then ([58], 3%nat)
      else if (c0 =? 124) && (c1 =? 45) && (c2 =? 62) (* |-> *) then ([44], 3%nat)
      else if (c0 =? 60) && (c1 =? 45) && (c2 =? 62) (* <-> *) then ([61], 3%nat)
      else if (c0 =? 61) && (c1 =? 47) && (c2 =? 62) (* =/> *) then ([36], 3%nat)
      else if (c0 =? 61) && (c1 =? 61) && (c2 =? 62) (* ==> *) then ([63], 3%nat)
      else if (c0 =? 60) && (c1 =? 61) && (c2 =? 62) (* <=> *) then ([94], 3%nat)
      else if (c0 =? 45) && (c1 =? 45) && negb (c2 =? 62) (* -- *) then ([33], 2%nat)
      else ([c0], 1%nat)
    else ([c0], 1%nat)
  else ([c0], 1%nat).
(** The loop with write position [j]; [fuel] >= length l suffices, each round consumes. *)
Fixpoint canon_loop (fuel : nat) (l : text) (j : nat) : res text :=
  match l, fuel with
  | [], _ => if (j <? REPLACEMENT_LEN)%nat then Ok [] else UB
  | _, O => UB
  | _, S fuel =>
    let (out, used) := canon1 l in
    if (j + length out <=? REPLACEMENT_LEN)%nat
    then do r <- canon_loop fuel (skipn used l) (j + length out) ; Ok (out ++ r)
    else UB
  end.
(** Narsese.c 43-194 *)
Definition replaceWithCanonicalCopulas (s : text) : res text :=
  do _ <- rassert (length s + 3 <=? NARSESE_LEN_MAX)%nat ; canon_loop (length s) s 0.

(** Narsese.c 196-224: the buffer is filled with spaces; brackets are written with a space before
    and after them *)
Definition isBracket (c : Z) : bool := (c =? 40) || (c =? 41).
Definition expand1 (c : Z) : text := if isBracket c then [32; c; 32] else [c].
Fixpoint expand_loop (l : text) (k : nat) : res text :=
  match l with
  | [] => if (k <? EXPANSION_LEN)%nat then Ok [] else UB
  | c :: l => if (k + (if isBracket c then 1 else 0) <? EXPANSION_LEN)%nat
              then do r <- expand_loop l (k + length (expand1 c)) ; Ok (expand1 c ++ r) else UB
  end.
Definition Narsese_Expand (s : text) : res text :=
  do r <- replaceWithCanonicalCopulas s ; expand_loop r 0.

(** Narsese.c 252-259: strtok with delimiter " ": the maximal runs of other characters *)
Fixpoint tokens_acc (acc : name) (l : text) : list name :=
  match l with
  | [] => match acc with [] => [] | _ => [acc] end
  | c :: l => if c =? 32 then match acc with [] => tokens_acc [] l | _ => acc :: tokens_acc [] l end
              else tokens_acc (acc ++ [c]) l
  end.
Definition strtok (l : text) : list name := tokens_acc [] l.

(** a token that is the one character c *)
Definition isTok (c : Z) (t : name) : bool := match t with [x] => x =? c | _ => false end.
(** Narsese.c 227-246 *)
Fixpoint skip_loop (l : list name) (i : nat) (cnt : Z) : nat :=
  match l with
  | [] => i
  | t :: l =>
    let cnt := cnt + (if isTok 40 t then 1 else 0) - (if isTok 41 t then 1 else 0) in
    if cnt =? 0 then S i else skip_loop l (S i) cnt
  end.
Definition skipCompound (toks : list name) (i : nat) : nat := skip_loop (skipn i toks) i 0.
(** Narsese.c 264-270: one of the copulas *)
Definition isCopulaTok (t : name) : bool := existsb (fun c => isTok c t) CanonicalCopulas.
(** Narsese.c 262-287, the round for position i: the copula token is moved to i+1 and cut to one
    character *)
Definition prefix1 (toks : list name) (i : nat) : list name :=
  if isTok 40 (nth i toks []) && negb (isCopulaTok (nth (i + 1) toks [])) then
    let i2 := skipCompound toks (i + 1) in
    if (i2 <? length toks)%nat then
      firstn (i + 1) toks ++ [firstn 1 (nth i2 toks [])] ++ firstn (i2 - (i + 1)) (skipn (i + 1) toks) ++ skipn (i2 + 1) toks
    else toks
  else toks.
Definition prefix_all (toks : list name) : list name := fold_left prefix1 (seq 0 (length toks - 2)) toks.
(** Narsese.c 248-290: the static array has NARSESE_LEN_MAX+1 entries *)
Definition Narsese_PrefixTransform (s : text) : res (list name) :=
  let toks := strtok s in
  if (length toks <=? NARSESE_LEN_MAX + 1)%nat then Ok (prefix_all toks) else UB.

Section Cap.
Variable cap : nat.
(** Narsese.c 329-360.  The atom of a compound is stored without a check of the index.  [fuel]
    bounds the recursion, the token position grows with each call. *)
Fixpoint buildBinaryTree (fuel : nat) (st : astate) (t : term) (toks : list name) (i1 idx : nat) : res (astate * term) :=
  match fuel with
  | O => UB
  | S fuel =>
    match nth_error toks i1 with
    | None => UB
    | Some tok =>
      if isTok 40 tok then
        let l := (i1 + 2)%nat in
        let r := skipCompound toks l in
        match nth_error toks (i1 + 1) with
        | None => UB
        | Some cop =>
          do (st, a) <- AtomicTermIndex cap st cop ;
          if (SIZE <=? idx - 1)%nat then UB else
          let t := upd t (idx - 1) (to_atom a) in
          do (st, t) <- (if (l <? length toks)%nat then buildBinaryTree fuel st t toks l (idx * 2) else Ok (st, t)) ;
          if (r <? length toks)%nat then buildBinaryTree fuel st t toks r (idx * 2 + 1) else Ok (st, t)
        end
      else
        do _ <- rassert (idx - 1 <? SIZE)%nat ;
        do (st, a) <- AtomicTermIndex cap st (if isTok 41 tok then [SET_TERMINATOR] else tok) ;
        Ok (st, upd t (idx - 1) (to_atom a))
    end
  end.
(** Narsese.c 362-374; the count of tokens stops at the first NULL entry of the array *)
Definition Narsese_Term (st : astate) (s : text) : res (astate * term) :=
  do x <- Narsese_Expand s ;
  do toks <- Narsese_PrefixTransform x ;
  if (length toks <=? NARSESE_LEN_MAX)%nat then
    do (st, t) <- buildBinaryTree (S (length toks)) st zero_term toks 0 1 ;
    do t <- Normalize (a_names st) t ; Ok (st, t)
  else UB.

(** Narsese.c 376-448.  The C library's number conversions are parameters: [atof] of the text
    after "dt=" up to the first space, [scan1] "%lf%", [scan2] "{lf lf}" or "%lf;lf%"; [None]
    means that a variable stays unassigned. *)
Variable atof : text -> f64.
Variable scan1 : text -> option f64.
Variable scan2 : bool -> text -> option (f64 * f64).
(** NAR_DEFAULT_FREQUENCY, NAR_DEFAULT_CONFIDENCE (Config.h) *)
Definition NAR_DEFAULT_FREQUENCY : f64 := f1.
Definition NAR_DEFAULT_CONFIDENCE : f64 := fdec 9 10.
Definition chr (s : text) (i : nat) : Z := nth i s 0.
(** position of the first space *)
Fixpoint first_space (s : text) (i : nat) : option nat :=
  match s with [] => None | c :: s => if c =? 32 then Some i else first_space s (S i) end.
(** 380-399: the buffer dt has 30 characters; index i-3 is written for each character, index i at
    the space.  Without a space dt is not terminated and atof may read on behind the text; the
    model takes the number of the text alone. *)
Definition sentence_dt (s : text) : res (text * f64) :=
  if (chr s 0 =? 100) && (chr s 1 =? 116) && (chr s 2 =? 61) then
    match first_space s 0 with
    | None => if (length s <=? 33)%nat then Ok (s, atof (skipn 3 s)) else UB
    | Some i => if (i <? 30)%nat then Ok (skipn i s, atof (firstn (i - 3) (skipn 3 s))) else UB
    end
  else Ok (s, f0).
(** 413-417: the last position before len-1 of { or %, None if there is none *)
Fixpoint opening (s : text) (n : nat) : option nat :=
  match n with
  | O => None
  | S n => if (chr s n =? 123) || (chr s n =? 37) then Some n else opening s n
  end.
(** 404-430 *)
Definition sentence_truth (s : text) : res (text * (f64 * f64)) :=
  let len := length s in
  let old := chr s (len - 1) =? 37 in
  if (chr s (len - 1) =? 125) || old then
    match opening s (len - 1) with
    | None => UB
    | Some o =>
      let part := skipn o s in
      let hasComma := existsb (fun c => c =? 59) (firstn (len - 1 - S o) (skipn (S o) s)) in
      do v <- (if old && negb hasComma
               then match scan1 part with Some f => Ok (f, NAR_DEFAULT_CONFIDENCE) | None => UB end
               else match scan2 old part with Some v => Ok v | None => UB end) ;
      match o with
      | O => UB
      | S p => do _ <- rassert (chr s p =? 32) ; Ok (firstn p s, v)
      end
    end
  else Ok (s, (NAR_DEFAULT_FREQUENCY, NAR_DEFAULT_CONFIDENCE)).
(** 432-439 *)
Definition sentence_tense (s : text) : Z :=
  let n := length s in
  if (3 <=? n)%nat && (chr s (n - 1) =? 58) && (chr s (n - 3) =? 58) then
    if chr s (n - 2) =? 124 then 1 else if chr s (n - 2) =? 92 then 2 else if chr s (n - 2) =? 47 then 3 else 0
  else 0.
Record sentence := mkSentence { s_term : term; s_punctuation : Z; s_tense : Z; s_truth : f64 * f64; s_offset : f64 }.
Definition Narsese_Sentence (st : astate) (s : text) : res (astate * sentence) :=
  do (s, dt) <- sentence_dt s ;
  do _ <- rassert (1 <? length s)%nat ;
  do _ <- rassert (length s <? NARSESE_LEN_MAX)%nat ;
  do (s, v) <- sentence_truth s ;
  let tense := sentence_tense s in
  let off := if tense =? 0 then 1%nat else 5%nat in
  if (length s <? off)%nat then UB else
  let p := chr s (length s - off) in
  do _ <- rassert ((p =? 33) || (p =? 63) || (p =? 46)) ;
  do (st, t) <- Narsese_Term st (firstn (length s - off) s) ;
  Ok (st, mkSentence t p tense v dt).
End Cap.

(** *** printing *)
Section Print.
Variable nm : names.
(** Narsese.c 466-543 *)
Definition printed_copulas : list (Z * text) :=
  [(INHERITANCE, [45;45;62]); (TEMPORAL_IMPLICATION, [61;47;62]); (EQUIVALENCE, [60;61;62]); (DISJUNCTION, [124;124]);
   (SEQUENCE, [38;47]); (HAS_CONTINUOUS_PROPERTY, [124;45;62]); (IMPLICATION, [61;61;62]); (CONJUNCTION, [38;38]);
   (SIMILARITY, [60;45;62]); (EXT_IMAGE1, [47;49]); (EXT_IMAGE2, [47;50]); (INT_IMAGE1, [92;49]); (INT_IMAGE2, [92;50])].
Definition PrintAtom (a : Z) : text :=
  if a =? 0 then [64] else
  match find (fun p => copulaEquals nm a (fst p)) printed_copulas with Some p => snd p | None => name_of nm a end.
(** Narsese.c 545-636; [i] is the slot index-1; child1, child2 are compared as 1-based indices
    with COMPOUND_TERM_SIZE_MAX, so slot 63 is never printed.  [fuel]: nesting, at most 6. *)
Fixpoint PrintTermRecursive (fuel : nat) (t : term) (i : nat) : text :=
  match fuel with
  | O => []
  | S fuel =>
    let a := at_ t i in
    if a =? 0 then [] else
    let l := (2 * i + 1)%nat in let r := (2 * i + 2)%nat in
    let inl := (l + 1 <? SIZE)%nat in let inr := (r + 1 <? SIZE)%nat in
    let hasLeft := inl && negb (at_ t l =? 0) in
    let hasRight := inr && negb (at_ t r =? 0) && negb (copulaEquals nm (at_ t r) SET_TERMINATOR) in
    let is c := copulaEquals nm a c in
    let singular := is PRODUCT && negb hasRight in
    let neg := is NEGATION in
    let greater := is SEQUENCE && negb hasRight in
    let equal := is SIMILARITY && negb hasRight in
    let statement := negb equal && (is TEMPORAL_IMPLICATION || is INHERITANCE || is SIMILARITY || is IMPLICATION
                                    || is EQUIVALENCE || is HAS_CONTINUOUS_PROPERTY) in
    let unary := neg || singular || equal || greater in
    let set := is EXT_SET || is INT_SET in
    let when (b : bool) (s : text) := if b then s else [] in
    when hasLeft (if is EXT_SET then [123] else if is INT_SET then [91] else if statement then [60] else [40])
    ++ when (negb set && negb statement && unary)
         ((if greater then [43] else if equal then [61] else PrintAtom a) ++ [32])
    ++ when inl (PrintTermRecursive fuel t l)
    ++ when (hasRight && hasLeft) [32]
    ++ when (negb set && negb (is SET_TERMINATOR) && negb unary) (PrintAtom a ++ when hasLeft [32])
    ++ when inr (PrintTermRecursive fuel t r)
    ++ when hasLeft (if is EXT_SET then [125] else if is INT_SET then [93] else if statement then [62] else [41])
  end.
(** Narsese.c 638-641 *)
Definition PrintTerm (t : term) : text := PrintTermRecursive 7 t 0.
End Print.
