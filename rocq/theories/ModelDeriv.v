(** * ModelDeriv: derivatives in operators, tensormethod/parse_hs.py (44-224) and tensormethod/deriv_operators.py *)

From Coq Require Import Ascii String List Bool Arith ZArith QArith Qcanon.
From Verif Require Import Base Show ModelIndex ModelField.
Import ListNotations.
Local Open Scope nat_scope.

(** ** tensormethod/parse_hs.py *)

(** tensormethod/parse_hs.py:149-152, the changes of the Lorentz labels considered *)
Definition deltas (fermion : bool) : list (Z * Z) :=
  if fermion then [(1, 1); (-1, 1); (1, -1)]%Z else [(1, 1); (-1, -1)]%Z.

(** tensormethod/parse_hs.py:143-163 [deriv_possibilities]; a negative [order] is like 0.  [sympy.flatten] joins the lists of
    the recursive calls. *)
Fixpoint deriv_possibilities (f : field) (order : nat) : res (list field) :=
  match order with
  | O => Ok [f]
  | S order =>
    do fermion <- is_fermion f;
    do lorentz <- lorentz_irrep f;
    match lorentz with
    | [u; d] =>
      let options := flat_map (fun delta : Z * Z =>
        let sum_u := (fst delta + Z.of_nat u)%Z in
        let sum_d := (snd delta + Z.of_nat d)%Z in
        if (0 <=? sum_u)%Z && (0 <=? sum_d)%Z then [show_Z sum_u ++ show_Z sum_d] else []) (deltas fermion) in
      do result <- mapM (fun dynkin => do g <- D f dynkin; deriv_possibilities g order) options;
      Ok (List.concat result)
    | _ => Err ValueError
    end
  end.

(** what [parse_hs] makes of a factor of a term: the number 1 ([proc_number]), a field ([proc_field], powers being repeated), or
    the tuple ("D", order, field) ([proc_deriv]) *)
Inductive item := INumber | IField (f : field) | IDeriv (order : nat) (f : field).

Definition is_number (i : item) : bool := match i with INumber => true | _ => false end.
Definition is_symbolic_deriv (i : item) : bool := match i with IDeriv _ _ => true | _ => false end.

(** [no_numbers] of a list of items without derivatives *)
Definition no_numbers (l : list item) : list field := flat_map (fun i => match i with IField f => [f] | _ => [] end) l.

(** tensormethod/parse_hs.py:166-193 [proc_term] on the concatenation of its argument (the factors of a product are never none) *)
Definition proc_term (flat_term : list item) : res (list (list field)) :=
  if negb (existsb is_symbolic_deriv flat_term) then Ok [no_numbers flat_term]
  else do new_terms <- foldM (fun (new_terms : list (list item)) i =>
            match i with
            | IDeriv order f => do possible <- deriv_possibilities f order;
                                Ok (flat_map (fun old => map (fun g => old ++ [IField g]) possible) new_terms)
            | i => Ok (map (fun t => t ++ [i]) new_terms)
            end) flat_term [[]];
       Ok (map no_numbers new_terms).

(** A product of functions of X and of their derivatives: names with the order of the derivative.  sympy's products commute, so
    only the multiplicities matter: *)
Definition monomial := list (str * nat).
Definition pair_leb (a b : str * nat) : bool := if str_eqb (fst a) (fst b) then snd a <=? snd b else str_leb (fst a) (fst b).
Definition pair_eqb (a b : str * nat) : bool := str_eqb (fst a) (fst b) && (snd a =? snd b).
Definition normal (m : monomial) : monomial := sort pair_leb m.

(** the product rule: one summand for each factor *)
Fixpoint summands (m : monomial) : list monomial :=
  match m with
  | [] => []
  | (f, n) :: m => ((f, S n) :: m) :: map (cons (f, n)) (summands m)
  end.

(** tensormethod/parse_hs.py:44-80 [distribute_derivatives] on one product with [power] derivatives: the terms of the sum.  Equal
    terms are collected by sympy, with a positive coefficient, which [proc_number] forgets; the order of the terms and of the
    factors is sympy's, here they are sorted. *)
Fixpoint diffs (power : nat) (m : monomial) : list monomial :=
  match power with O => [m] | S p => flat_map summands (diffs p m) end.
Definition distribute_derivatives (power : nat) (m : monomial) : list monomial :=
  nodup_by (list_eqb pair_eqb) (map normal (diffs power m)).

(** tensormethod/parse_hs.py:22-41 [FIELD_LOOKUP] is a parameter; 110-126 [proc_field], [proc_deriv] *)
Definition factor_item (lookup : str -> res field) (fn : str * nat) : res item :=
  do f <- lookup (fst fn); Ok (match snd fn with O => IField f | n => IDeriv n f end).

(** tensormethod/parse_hs.py:222-224 [parse] of one product *)
Definition parse (lookup : str -> res field) (power : nat) (m : monomial) : res (list (list field)) :=
  do l <- mapM (fun t => do items <- mapM (factor_item lookup) t; proc_term items) (distribute_derivatives power m);
  Ok (List.concat l).

(** ** tensormethod/deriv_operators.py *)

(** tensormethod/deriv_operators.py:77-91 [remove_unwanted_deriv_structures] *)
Fixpoint wanted (fieldstring : list field) : res bool :=
  match fieldstring with
  | [] => Ok true
  | f :: rest =>
    do bad <- (if f_derivs f =? 0 then Ok false
               else do l <- lorentz_irrep f; Ok (negb (existsb (list_eqb Nat.eqb l) [[1; 1]; [0; 1]; [1; 0]])));
    if bad then Ok false else if f_derivs f =? 2 then Ok false else wanted rest
  end.
Definition remove_unwanted_deriv_structures (fieldstrings : list (list field)) : res (list (list field)) :=
  foldM (fun out fieldstring => do b <- wanted fieldstring; Ok (if b then out ++ [fieldstring] else out)) fieldstrings [].

Section Invariants.
  (** tensormethod/contract.py:410-437 [invariants] *)
  Context {O : Type} (invariants : list field -> res (list O)).

  (** tensormethod/deriv_operators.py:94-105 [keep_longest_invariants]: [longest_len] stays 0 *)
  Definition keep_longest_invariants (fieldstrings : list (list field)) : res (list O) :=
    let longest_len := 0 in
    do longest <- foldM (fun longest fieldstring => do invs <- invariants fieldstring;
                                                    Ok (if longest_len <? List.length invs then Some invs else longest)) fieldstrings None;
    Ok (match longest with None => [] | Some l => l end).

  (** tensormethod/deriv_operators.py:110-123 [longest_deriv_invariants]; operators are given by name, number of derivatives, fields *)
  Definition longest_deriv_invariants (lookup : str -> res field) (operator_dict : list (str * (nat * monomial))) : res (list (str * list O)) :=
    foldM (fun out kv => do p <- parse lookup (fst (snd kv)) (snd (snd kv));
                         do fieldstrings <- remove_unwanted_deriv_structures p;
                         do l <- keep_longest_invariants fieldstrings;
                         Ok (dset str_eqb out (fst kv) l)) operator_dict [].

  Definition ascii_lowercase : str := lit "abcdefghijklmnopqrstuvwxyz".

  (** tensormethod/deriv_operators.py:125-139 [label_operators] *)
  Definition label_operators (operator_dict : list (str * list O)) : res (list (str * O)) :=
    foldM (fun out kv =>
      foldM (fun out iop =>
        do label <- (if 1 <? List.length (snd kv) then match nth_error ascii_lowercase (fst iop) with Some c => Ok (fst kv ++ [c]) | None => Err IndexError end else Ok (fst kv));
        Ok (dset str_eqb out label (snd iop))) (combine (seq 0 (List.length (snd kv))) (snd kv)) out) operator_dict [].
End Invariants.

(** tensormethod/deriv_operators.py:29-74 [deriv_operator_names]: number of derivatives and fields with their powers; a final "d"
    marks the conjugate *)
Definition deriv_operator_names : list (string * (nat * list (string * nat))) :=
  [("1", (1, [("L", 2); ("db", 1); ("ubd", 1)]));
   ("2", (2, [("L", 2); ("H", 2)]));
   ("3", (1, [("L", 1); ("ebd", 1); ("H", 3)]));
   ("4", (2, [("L", 3); ("eb", 1); ("H", 1)]));
   ("5", (1, [("L", 3); ("H", 2); ("Ld", 1)]));
   ("6", (1, [("L", 2); ("H", 2); ("eb", 1); ("ebd", 1)]));
   ("7", (2, [("L", 2); ("Q", 1); ("db", 1); ("H", 1)]));
   ("8", (1, [("L", 2); ("Q", 1); ("H", 2); ("Qd", 1)]));
   ("9", (1, [("L", 2); ("db", 1); ("H", 2); ("dbd", 1)]));
   ("10", (1, [("L", 2); ("db", 1); ("H", 1); ("ubd", 1); ("Hd", 1)]));
   ("11", (3, [("L", 2); ("db", 1); ("ubd", 1)]));
   ("12", (1, [("L", 2); ("ub", 1); ("H", 2); ("ubd", 1)]));
   ("13", (2, [("L", 2); ("H", 1); ("Qd", 1); ("ubd", 1)]));
   ("14", (1, [("L", 1); ("Q", 1); ("db", 1); ("H", 2); ("ebd", 1)]));
   ("15", (2, [("L", 1); ("db", 1); ("H", 1); ("ebd", 1); ("ubd", 1)]));
   ("16", (1, [("L", 1); ("H", 2); ("ebd", 1); ("Qd", 1); ("ubd", 1)]));
   ("17", (1, [("db", 1); ("H", 2); ("ebd", 2); ("ubd", 1)]));
   ("18", (2, [("L", 2); ("H", 3); ("Hd", 1)]));
   ("19", (4, [("L", 2); ("H", 2)]));
   ("20", (1, [("L", 1); ("ebd", 1); ("Hd", 1); ("H", 4)]));
   ("21", (3, [("L", 1); ("H", 3); ("ebd", 1)]));
   ("22", (2, [("ebd", 2); ("H", 4)]))]%string.
