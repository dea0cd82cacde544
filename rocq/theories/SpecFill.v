(** * SpecFill: relabelling the free indices of an operator *)

From Coq Require Import Ascii String List Bool Arith ZArith QArith Qcanon.
From Verif Require Import Base ModelIndex ModelField ModelContract.
Import ListNotations.
Local Open Scope nat_scope.

(** the indices of the tensors, one after the other *)
Definition slots (op : operator) : list index :=
  List.concat (map (fun t => match t with TField x => i_indices x | TSymbol (Metric _ l) | TSymbol (EpsC l) | TSymbol (DeltaC l) => l end) op).

(** [i] is summed over with another index of [all] *)
Definition summed (all : list index) (i : index) : Prop :=
  exists j, In j all /\ ix_name j = ix_name i /\ ix_type j = ix_type i /\ ix_up j = negb (ix_up i).

(** no index stands in two places *)
Definition proper (op : operator) : Prop :=
  forall p q i j, nth_error (slots op) p = Some i -> nth_error (slots op) q = Some j ->
    ix_name i = ix_name j -> ix_type i = ix_type j -> ix_up i = ix_up j -> p = q.

(** [n] of the [l] are free and of type [t] *)
Inductive free_among (all : list index) (t : itype) : list index -> nat -> Prop :=
| fa_nil : free_among all t [] 0
| fa_yes i l n : ix_type i = t -> ~ summed all i -> free_among all t l n -> free_among all t (i :: l) (S n)
| fa_type i l n : ix_type i <> t -> free_among all t l n -> free_among all t (i :: l) n
| fa_summed i l n : summed all i -> free_among all t l n -> free_among all t (i :: l) n.

(** the letters of the types of indices *)
Definition letter_for (t : itype) : ascii :=
  match t with Undotted => "u" | Dotted => "d" | Colour => "c" | Isospin => "i" | Generation => "g" end.

(** the decimal digits of a number *)
Definition digits_of (n : nat) : str := list_ascii_of_string (DecimalString.NilEmpty.string_of_uint (Nat.to_uint n)).

(** the [n]th index of its type *)
Definition numbered (t : itype) (n : nat) : str := letter_for t :: digits_of n.

(** the same kind of tensor *)
Definition same_tensor (t u : tensor) : Prop :=
  match t, u with
  | TField x, TField y =>
    f_label (i_field x) = f_label (i_field y) /\ f_symmetry (i_field x) = f_symmetry (i_field y) /\ f_comm (i_field x) = f_comm (i_field y) /\
    List.length (i_indices x) = List.length (i_indices y)
  | TSymbol (Metric a l), TSymbol (Metric b m) => a = b /\ List.length l = List.length m
  | TSymbol (EpsC l), TSymbol (EpsC m) | TSymbol (DeltaC l), TSymbol (DeltaC m) => List.length l = List.length m
  | _, _ => False
  end.

(** [a] and [b] differ by the names of their free indices only *)
Definition relabelled (a b : operator) : Prop :=
  Forall2 same_tensor a b /\
  forall p i j, nth_error (slots a) p = Some i -> nth_error (slots b) p = Some j ->
    ix_type i = ix_type j /\ ix_up i = ix_up j /\ (summed (slots a) i <-> summed (slots b) j) /\
    (summed (slots a) i -> ix_name i = ix_name j).

(** no index that is summed over has a name that numbering gives to a free one *)
Definition apart (op : operator) : Prop :=
  forall i n k, In i (slots op) -> summed (slots op) i -> free_among (slots op) (ix_type i) (slots op) n -> k < n ->
    ix_name i <> numbered (ix_type i) k.
