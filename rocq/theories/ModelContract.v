(** * ModelContract: contracting indices, tensormethod/contract.py *)

From Coq Require Import Ascii String List Bool Arith ZArith QArith Qcanon.
From Verif Require Import Base Show ModelFunctions ModelIndex ModelField.
Import ListNotations.
Local Open Scope nat_scope.

(** An [Operator] is the list of its tensors. *)
Definition operator := list tensor.

Definition tensor_indices (t : tensor) : list index :=
  match t with TField x => i_indices x | TSymbol s => symbol_indices s end.

Definition op_indices (op : operator) : list index := flat_map tensor_indices op.

(** the same sympy index at the other height *)
Definition opposite (i j : index) : bool :=
  str_eqb (ix_name i) (ix_name j) && itype_eqb (ix_type i) (ix_type j) && negb (Bool.eqb (ix_up i) (ix_up j)).

(** core.py:945-947 [free_indices].  sympy's [get_free_indices]: the indices that are not contracted, by position.
    (sympy refuses an index that occurs twice at the same height; this is not modelled, the theorems show that it
    does not arise.) *)
Definition free_indices (op : operator) : list index :=
  let all := op_indices op in filter (fun i => negb (existsb (opposite i) all)) all.

(** core.py:1104-1106 [Operator.__mul__] with a product of symbols; the factor 1 is the empty product and is
    dropped by [Operator.__init__] (core.py:910-911) *)
Definition op_mul (op : operator) (s : list symbol) : operator :=
  normalise_operator_input (map (fun t => [t]) op ++ [map TSymbol s]).

(** free indices of one type, contract.py:33-37 and 102-105 *)
Definition free_of_type (t : itype) (op : operator) : list index :=
  filter (fun i => itype_eqb (ix_type i) t) (free_indices op).

(** contract.py:29-88 [colour_singlets], the body of the loop *)
Definition neg_str (l : list index) : res str :=
  do l <- mapM neg_index l; Ok (join (lit " ") (map show_index l)).

(** contract.py:67 and 111: a symbol on the indices opposite to [j] and [i] *)
Definition pair_text (i j : index) : res str :=
  do a <- neg_index i; do b <- neg_index j; Ok (join (lit " ") [ix_label a; ix_label b]).

Definition deltas_of (combo : list (index * index)) : res (list symbol) :=
  mapM (fun ij => do s <- pair_text (snd ij) (fst ij); delta s) combo.

Definition colour_singlets_one (overcomplete : bool) (op : operator) (st : counters)
  : res (list operator * counters) :=
  let colour_indices := free_of_type Colour op in
  let ups := filter ix_up colour_indices in
  let downs := filter (fun i => negb (ix_up i)) colour_indices in
  do special <-
    (if (List.length ups =? 3) && (List.length downs =? 0) then
       do s <- neg_str ups; do e <- eps s; Ok [op_mul op [e]]
     else if (List.length downs =? 3) && (List.length ups =? 0) then
       do s <- neg_str downs; do e <- eps s; Ok [op_mul op [e]]
     else if (List.length downs =? 3) && (List.length ups =? 3) then
       do s <- neg_str ups; do e <- eps s;
       do s' <- neg_str downs; do e' <- eps s'; Ok [op_mul (op_mul op [e]) [e']]
     else if negb (List.length ups =? List.length downs) then Err ValueError
     else Ok []);
  let combos := map (fun perm => combine perm downs) (permutations ups) in
  do deltas <- mapM deltas_of combos;
  let prods := map (fun ds => fold_left (fun prod d => op_mul prod [d]) ds op) deltas in
  match last deltas [], overcomplete with
  | [DeltaC [upa; downa]; DeltaC [upb; downb]], true =>
    do x <- fresh "c" st;
    do nd <- neg_index (fst x);
    do e <- eps (join (lit " ") (map show_index [upa; upb; fst x]));
    do e' <- eps (join (lit " ") (map show_index [downa; downb; nd]));
    Ok (special ++ prods ++ [op_mul (op_mul op [e]) [e']], snd x)
  | _, _ => Ok (special ++ prods, st)
  end.

Fixpoint colour_singlets (overcomplete : bool) (ops : list operator) (st : counters)
  : res (list operator * counters) :=
  match ops with
  | [] => Ok ([], st)
  | op :: ops => do x <- colour_singlets_one overcomplete op st;
                 do y <- colour_singlets overcomplete ops (snd x);
                 Ok (fst x ++ fst y, snd y)
  end.

(** contract.py:91-94 [epsilon_combos]: a set of sets of sets, represented by a list without repetition *)
Definition subset_by {A} (eqb : A -> A -> bool) (a b : list A) : bool := forallb (fun x => existsb (eqb x) b) a.
Definition set_eqb {A} (eqb : A -> A -> bool) (a b : list A) : bool := subset_by eqb a b && subset_by eqb b a.

Definition combo_eqb : list (list index) -> list (list index) -> bool := set_eqb (set_eqb index_eqb).

Definition epsilon_combos (indices : list index) : res (list (list (list index))) :=
  do l <- mapM (fun p => chunks p 2) (permutations indices);
  Ok (fold_left (fun out c => if existsb (combo_eqb c) out then out else out ++ [c]) l []).

Section Singlets.
  (** the order in which the set [epsilon_combos(indices)] and the sets in it are iterated *)
  Variable enum : list index -> list (list (index * index)).

  (** contract.py:97-119 [su2_singlets_type] *)
  Definition su2_singlets_type (op : operator) (t : itype) : res (list operator) :=
    let indices := free_of_type t op in
    if negb (List.length indices mod 2 =? 0) then Err ValueError
    else mapM (fun combo =>
           do epsilons <- mapM (fun ij => do s <- pair_text (fst ij) (snd ij); eps s) combo;
           Ok (fold_left (fun prod e => op_mul prod [e]) epsilons op)) (enum indices).

  (** contract.py:122-124 [lorentz_singlets] *)
  Definition lorentz_singlets (op : operator) : res (list operator) :=
    do u_singlets <- su2_singlets_type op Undotted;
    do l <- mapM (fun us => su2_singlets_type us Dotted) u_singlets;
    Ok (concat l).
End Singlets.

(** ** SU(2) contractions of two objects *)

(** an indexed field or an operator *)
Inductive indexed_obj := OField (x : ifield) | OOp (op : operator).

Definition obj_tensors (o : indexed_obj) : operator := match o with OField x => [TField x] | OOp op => op end.

(** core.py:740-749 and 1105-1108 [indices_by_type] *)
Definition obj_indices (o : indexed_obj) : list index :=
  match o with OField x => i_indices x | OOp op => free_indices op end.

(** core.py:1092-1101 [dynkin], [dynkin_ints] *)
Definition obj_dynkin (o : indexed_obj) : res str :=
  match o with
  | OField x => Ok (f_dynkin (i_field x))
  | OOp op => do l <- mapM (fun i => new_index (show_index i)) (free_indices op); get_dynkin l
  end.

(** contract.py:136-139: the position of a letter in a Dynkin string; colour would be the last one *)
Definition dynkin_position (t : itype) : nat :=
  match t with Undotted => 0 | Dotted => 1 | Colour => 3 | Isospin => 4 | Generation => 5 end.

Definition dynkin_digit (t : itype) (s : str) : res nat :=
  do l <- mapM digit_of s;
  match nth_error l (dynkin_position t) with Some n => Ok n | None => Err IndexError end.

(** contract.py:168-183: the products of epsilons on the way through one combination that have the right length *)
Fixpoint products (combo : list (index * index)) (prod : list symbol) (counter target : Z)
  : res (list (list symbol)) :=
  match combo with
  | [] => Ok []
  | (i, j) :: combo =>
    do s <- pair_text i j;
    do e <- eps s;
    let counter := (counter - 2)%Z in
    do r <- products combo (prod ++ [e]) counter target;
    Ok (if (counter =? target)%Z then (prod ++ [e]) :: r else r)
  end.

(** contract.py:127-183 [contract_su2_helper] for a given number of target indices; the result 1 is the empty
    product *)
Definition contract_helper (left right : indexed_obj) (n_target : nat) (t : itype) : res (list (list symbol)) :=
  do dl <- obj_dynkin left;
  do a <- dynkin_digit t dl;
  do dr <- obj_dynkin right;
  do b <- dynkin_digit t dr;
  let n_input := a + b in
  do _ <- assert_ (n_target <=? n_input);
  do _ <- assert_ ((Z.of_nat n_target - Z.of_nat n_input) mod 2 =? 0)%Z;
  if n_target =? n_input then Ok [[]]
  else
    let l := by_type t (obj_indices left) in
    let r := by_type t (obj_indices right) in
    let (shortest, longest) := if List.length r <? List.length l then (r, l) else (l, r) in
    do ps <- mapM (fun perm => products (combine perm shortest) [] (Z.of_nat n_input) (Z.of_nat n_target))
                  (permutations longest);
    Ok (concat ps).

(** [out] is a Dynkin string *)
Definition contract_su2_helper (left right : indexed_obj) (out : str) (t : itype) : res (list (list symbol)) :=
  match nth_error out (dynkin_position t) with
  | None => Err IndexError
  | Some c => do n <- digit_of c; contract_helper left right n t
  end.

(** a Field, or something indexed *)
Inductive contractable := CField (f : field) | CObj (o : indexed_obj).

Definition make_indexed (c : contractable) (st : counters) : res (indexed_obj * counters) :=
  match c with
  | CField f => do x <- fresh_ifield f st; Ok (OField (fst x), snd x)
  | CObj o => Ok (o, st)
  end.

Definition obj_mul (l r : indexed_obj) : operator :=
  normalise_operator_input [obj_tensors l; obj_tensors r].

(** contract.py:186-208 [contract_su2]; [ignore] says which types are ignored *)
Definition contract_su2 (left right : contractable) (out : str) (ignore : itype -> bool) (st : counters)
  : res (list operator * counters) :=
  do l <- make_indexed left st;
  do r <- make_indexed right (snd l);
  do es <- mapM (fun t => if ignore t then Ok [[]] else contract_su2_helper (fst l) (fst r) out t)
                [Undotted; Dotted; Isospin];
  match es with
  | [us; ds; is] =>
    Ok (flat_map (fun u => flat_map (fun d => map (fun i =>
          op_mul (op_mul (op_mul (obj_mul (fst l) (fst r)) u) d) i) is) ds) us, snd r)
  | _ => Err TypeError
  end.

(** contract.py:220-247 [construct_operators].  The default argument [_stack] is one list for all calls; its state is
    passed along, and is returned also when an exception leaves the function.  Entries are pushed and popped in
    pairs (irrep, then right branch); the last pair comes first.  After an exception the counters of fresh indices
    are those before the contraction that raised. *)
Record cstate := mkC { c_stack : list (prod_tree * field); c_counters : counters }.

(** unloading the tree: each round appends the irrep and the right branch *)
Fixpoint unload (t : prod_tree) (stack : list (prod_tree * field)) : field * list (prod_tree * field) :=
  match t with
  | PLeaf f => (f, stack)
  | PNode irrep l r => unload l ((r, irrep) :: stack)
  end.

(** contract.py:239-243: every result so far is contracted with the field; a right branch that is itself a product has
    no [fresh_indices] *)
Fixpoint contract_all (results : list contractable) (right_ : prod_tree) (out : str) (ignore : itype -> bool)
  (st : counters) : res (list contractable) * counters :=
  match results with
  | [] => (Ok [], st)
  | r :: rs =>
    match right_ with
    | PNode _ _ _ => (Err AttributeError, st)
    | PLeaf f =>
      match contract_su2 r (CField f) out ignore st with
      | Err e => (Err e, st)
      | Ok (l, st) => match contract_all rs right_ out ignore st with
                      | (Err e, st) => (Err e, st)
                      | (Ok l', st) => (Ok (map (fun o => CObj (OOp o)) l ++ l'), st)
                      end
      end
    end
  end.

(** contract.py:233-247: the loop *)
Fixpoint consume (stack : list (prod_tree * field)) (results : list contractable) (ignore : itype -> bool)
  (st : counters) : res (list contractable) * cstate :=
  match stack with
  | [] => (Ok results, mkC [] st)
  | (right_, irrep) :: stack =>
    match contract_all results right_ (f_dynkin irrep) ignore st with
    | (Err e, st) => (Err e, mkC stack st)
    | (Ok results, st) => consume stack results ignore st
    end
  end.

Definition construct_operators (tree : prod_tree) (ignore : itype -> bool) (s : cstate)
  : res (list contractable) * cstate :=
  let (f, stack) := unload tree (c_stack s) in
  consume stack [CField f] ignore (c_counters s).
