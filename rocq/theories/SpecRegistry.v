(** * SpecRegistry: what terms mean and when they are the same interaction *)

From Coq Require Import Ascii String List Bool Arith ZArith QArith Qcanon Permutation.
From Verif Require Import Base Spec SpecFunctions ModelRegistry.
Import ListNotations.

Definition sm_of_label (l : str) : option sm_field :=
  if str_eqb l (lit "L") then Some fL else if str_eqb l (lit "H") then Some fH
  else if str_eqb l (lit "Q") then Some fQ else if str_eqb l (lit "ub") then Some fub
  else if str_eqb l (lit "db") then Some fdb else if str_eqb l (lit "eb") then Some feb else None.

(** The quantum numbers of a field: a Standard Model field is named; an exotic is given by its Lorentz letter,
    colour and isospin Dynkin digits and charges. *)
Definition content (f : tfield) : qfield :=
  match sm_of_label (t_label f) with
  | Some s => SM s (t_is_conj f)
  | None => Ex (mkExotic (lit (if t_is_scalar f then "S" else "F"))
                         (firstn 2 (skipn 2 (t_dynkin f))) (skipn 4 (t_dynkin f)) (t_y f) (t_3b f))
  end.

(** five Dynkin digits *)
Definition tfield_ok (f : tfield) : Prop :=
  List.length (t_dynkin f) = 5%nat /\ ~ In ","%char (t_dynkin f).

(** Two interactions are the same if they have the same fields, in any order, or if one is the hermitian
    conjugate of the other. *)
Definition same_interaction (s t : list qfield) : Prop :=
  Permutation s t \/ Permutation (map conj_qfield s) t.

Section S.
  Context {Top : Type}.
  Definition comp_ok (c : completion Top) : Prop := Forall (Forall tfield_ok) (c_terms c).

  (** same interactions, counted with multiplicity, up to conjugation of each *)
  Definition same_interactions (a b : completion Top) : Prop :=
    same_upto same_interaction (map (map content) (c_terms a)) (map (map content) (c_terms b)).

  Definition equivalent (a b : completion Top) : Prop :=
    c_topology a = c_topology b /\ same_interactions a b.
End S.
