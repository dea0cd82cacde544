(** * SpecPlace: what acting with derivatives in all possible ways should do *)

From Coq Require Import Ascii String List Bool Arith ZArith QArith Qcanon.
From Verif Require Import Base Show Spec ModelIndex ModelField ModelContract SpecIndex SpecField.
Import ListNotations.
Local Open Scope nat_scope.

(** a choice of [n] places out of [k] *)
Definition choice (n k : nat) (m : list bool) : Prop := List.length m = k /\ count_occ Bool.bool_dec m true = n.

(** scalars and Weyl fermions without derivatives *)
Definition plain (f : field) : Prop :=
  exists a b c d e, field_ok f a b c d e /\ ((a = 0 /\ b = 0) \/ (a = 1 /\ b = 0) \/ (a = 0 /\ b = 1)) /\
    f_latex f <> [] /\ f_derivs f = 0 /\ (forall s, f_stripped f = Some s -> NoDup (keys (s_charges s))).

(** the derivative of [f] with the fewest Lorentz indices: a scalar becomes a vector, a fermion changes its chirality *)
Definition first_derivative (f g : field) : Prop :=
  exists a b p q c d e, field_ok f a b c d e /\ field_ok g p q c d e /\
    ((a = 0 /\ b = 0 /\ p = 1 /\ q = 1) \/ (a = 1 /\ b = 0 /\ p = 0 /\ q = 1) \/ (a = 0 /\ b = 1 /\ p = 1 /\ q = 0)) /\
    rank (f_symmetry g) = p + q + c + d + e /\
    f_label g = lit "D" ++ f_label f /\ f_charges g = f_charges f /\ f_is_conj g = f_is_conj f /\ f_comm g = f_comm f /\ f_nf g = f_nf f /\
    f_derivs g = S (f_derivs f).

(** the fields with derivatives on the chosen ones, index strings as they are *)
Inductive acted : list (field * str) -> list bool -> list (field * str) -> Prop :=
| acted_nil : acted [] [] []
| acted_keep f t fs m s : acted fs m s -> acted ((f, t) :: fs) (false :: m) ((f, t) :: s)
| acted_derive f g t fs m s : first_derivative f g -> acted fs m s -> acted ((f, t) :: fs) (true :: m) ((g, t) :: s).

(** the indices that are not Lorentz indices *)
Definition gauge (i : index) : bool := match ix_type i with Undotted | Dotted => false | _ => true end.

(** what is kept of a field of the operator: the field itself, or what was stored when the derivative acted, with the other data
    at their default values *)
Definition kept (x : ifield) (ft : field * str) : Prop :=
  snd ft = join (lit " ") (map show_index (filter gauge (i_indices x))) /\
  ((f_derivs (i_field x) = 0 /\ field_of x = Ok (fst ft)) \/
   (f_derivs (i_field x) = 1 /\ exists s, f_stripped (i_field x) = Some s /\
      f_label (fst ft) = s_label s /\ f_dynkin (fst ft) = s_dynkin s /\ f_symmetry (fst ft) = s_symmetry s /\ f_latex (fst ft) = s_latex s /\
      (proper (s_charges s) -> f_charges (fst ft) = s_charges s) /\ f_is_conj (fst ft) = f_is_conj (i_field x) /\
      f_comm (fst ft) = lit "0" /\ f_nf (fst ft) = 1 /\ f_derivs (fst ft) = 0 /\ f_stripped (fst ft) = None)).

Definition op_fields (op : operator) : list ifield := flat_map (fun t => match t with TField x => [x] | TSymbol _ => [] end) op.
Definition op_symbols (op : operator) : list symbol := flat_map (fun t => match t with TSymbol s => [s] | TField _ => [] end) op.

(** an index string that completes the Lorentz indices of a field *)
Definition completes (f : field) (t : str) : Prop :=
  exists a b c d e, field_ok f a b c d e /\ rank (f_symmetry f) = a + b + c + d + e /\
    (exists gs, mapM new_index (filter (fun i => negb (is_g i)) (split_ws t)) = Ok gs /\ fits 0 0 c d e (map kind gs)) /\
    List.length (filter is_g (split_ws t)) <= 1.

(** Each field with new Lorentz indices followed by the ones of its string.  New indices have numbers not yet used. *)
Inductive rebuilt : counters -> list (field * str) -> list ifield -> counters -> Prop :=
| rebuilt_nil st : rebuilt st [] [] st
| rebuilt_cons st st1 st2 f t fs x xs a b c d e ls gs :
    field_ok f a b c d e ->
    f_label (i_field x) = f_label f ++ (if f_is_conj f then [dagger] else []) -> f_dynkin (i_field x) = f_dynkin f ->
    f_charges (i_field x) = f_charges f -> f_is_conj (i_field x) = f_is_conj f -> f_comm (i_field x) = f_comm f ->
    f_symmetry (i_field x) = f_symmetry f -> f_latex (i_field x) = f_latex f -> f_nf (i_field x) = f_nf f ->
    f_derivs (i_field x) = f_derivs f -> f_stripped (i_field x) = f_stripped f ->
    i_indices x = ls ++ gs -> mapM new_index (split_ws t) = Ok gs ->
    map kind ls = repeat (Undotted, true) a ++ repeat (Dotted, true) b ->
    NoDup (map ix_name ls) ->
    Forall (fun i => exists ty n, ix_name i = letter ty :: show_nat n ++ lit "_" /\ st ty <= n < st1 ty) ls ->
    (forall ty, st ty <= st1 ty) ->
    rebuilt st1 fs xs st2 -> rebuilt st ((f, t) :: fs) (x :: xs) st2.
