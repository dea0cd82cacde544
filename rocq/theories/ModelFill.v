(** * ModelFill: numbering the free indices of an operator, tensormethod/core.py:1064-1090 *)

From Coq Require Import Ascii String List Bool Arith ZArith QArith Qcanon.
From Verif Require Import Base Show ModelFunctions ModelIndex ModelField ModelContract ModelInvariants.
Import ListNotations.
Local Open Scope nat_scope.

(** What sympy compares of an index: name, type, height. *)
Definition plain_index := (str * itype * bool)%type.

Definition plain_of (i : index) : plain_index := (ix_name i, ix_type i, ix_up i).

(** The head of a sympy tensor.  core.py:596-615: the head of an IndexedField has the label, the types of the indices, the
    symmetry and the commutation; the heads of the symbols are those of core.py:1259-1296. *)
Inductive head := HField (label : str) (types : list itype) (sym : list (list nat)) (comm : str) | HMetric (t : itype) | HEps | HDelta.

Definition head_of (t : tensor) : head :=
  match t with
  | TField x => HField (f_label (i_field x)) (map ix_type (i_indices x)) (f_symmetry (i_field x)) (f_comm (i_field x))
  | TSymbol (Metric t _) => HMetric t
  | TSymbol (EpsC _) => HEps
  | TSymbol (DeltaC _) => HDelta
  end.

(** core.py:1073-1081: [store] counts by the letter of the type, [replacements] is appended to *)
Definition fill_step (t : itype) (acc : list (ascii * Z) * list (index * index)) (i : index) : res (list (ascii * Z) * list (index * index)) :=
  let (store, replacements) := acc in
  let n := match dget Ascii.eqb store (index_letter t) with Some n => n | None => 0%Z end in
  do new <- cons_index t n (ix_up i);
  Ok (dset Ascii.eqb store (index_letter t) (n + 1)%Z, replacements ++ [(i, new)]).

Definition replacements_of (free : list index) : res (list (index * index)) :=
  do r <- foldM (fun acc (ti : itype * list index) => foldM (fill_step (fst ti)) (snd ti) acc) (indices_by_type free) ([], []);
  Ok (snd r).

(** sympy's [fun_eval] for one index: the first pair whose old index is the index *)
Fixpoint replaced (pairs : list (index * index)) (i : index) : plain_index :=
  match pairs with
  | [] => plain_of i
  | (a, b) :: r => if index_eqb a i then plain_of b else replaced r i
  end.

(** core.py:1072-1085 [fill_free_indices].  What comes out of [fun_eval] are sympy tensors, not IndexedFields: a head with
    indices.  [normalise_operator_input] keeps the order, all being of one class. *)
Definition fill_free_indices (op : operator) : res (list (head * list plain_index)) :=
  do pairs <- replacements_of (free_indices op);
  Ok (map (fun t => (head_of t, map (replaced pairs) (tensor_indices t))) op).

(** core.py:1030-1043 [simplify] with [fill=True], the rest of it being sympy's *)
Definition simplify_filled {K} (canon : list (head * list plain_index) -> option K) (op : operator) : res (option K) :=
  do f <- fill_free_indices op; Ok (canon f).
