(** * SpecJson: specification notions for JSON objects *)

From Coq Require Import Ascii String List Bool Arith ZArith QArith Qcanon.
From Verif Require Import Base ModelIndex SpecIndex ModelField SpecField ModelContract ModelExotic.
Import ListNotations.
Local Open Scope nat_scope.

(** the indices of each type are the same, printed and in order *)
Definition same_texts (l l' : list index) : Prop :=
  forall t, map show_index (filter (fun i => itype_eqb (ix_type i) t) l) = map show_index (filter (fun i => itype_eqb (ix_type i) t) l').

(** whether and how a field is marked as barred *)
Definition barred_mark (k : cls) : option bool := match k with DiracFermion b => Some b | _ => None end.

(** the exotic fields [x] and [y] agree in everything but their class, the order of indices of different types, and how
    the indices were given *)
Definition same_data (x y : cfield) : Prop :=
  let f := i_field (cf_if x) in let g := i_field (cf_if y) in
  f_label f = f_label g /\ f_dynkin f = f_dynkin g /\ f_symmetry f = f_symmetry g /\ f_charges f = f_charges g /\ f_nf f = f_nf g /\
  f_comm f = f_comm g /\ f_latex f = f_latex g /\ f_is_conj f = f_is_conj g /\ barred_mark (cf_class x) = barred_mark (cf_class y) /\
  same_texts (i_indices (cf_if x)) (i_indices (cf_if y)).

(** the label that is shown: that of the field without derivative, without a dagger *)
Definition shown_label (x : ifield) : str :=
  let f := i_field x in
  match f_derivs f, f_stripped f with
  | S _, Some s => s_label s
  | _, _ => if f_is_conj f then removelast (f_label f) else f_label f
  end.
