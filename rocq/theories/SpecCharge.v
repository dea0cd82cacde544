(** * SpecCharge: charges of the fields of a model *)

From Coq Require Import Ascii String List Bool Arith NArith QArith Qcanon Permutation.
From Verif Require Import Base ModelIndex ModelField ModelPartition ModelExotic.
Import ListNotations.
Local Open Scope nat_scope.

Definition label_of (x : cfield) : str := f_label (i_field (cf_if x)).

(** the field [x] is exchanged: it stands in one term, its conjugate or partner [p] in another *)
Definition exchanged (x p : cfield) : Prop :=
  match cf_class x with
  | ComplexScalar => label_of p = label_of x ++ [dagger]
  | DiracFermion _ => label_of p = label_of x ++ lit "~"
  | RealScalar | MajoranaFermion => label_of p = label_of x
  | Plain => False
  end.

(** A charge of the fields by their labels, for which kinetic terms and mass terms are neutral: conjugate fields and the two
    parts of a Dirac fermion have opposite charges. *)
Definition respects_masses (q : str -> Qc) : Prop :=
  (forall l, q (l ++ [dagger]) = - q l)%Qc /\ (forall l, q (l ++ lit "~") = - q l)%Qc.

Definition real_class (x : cfield) : Prop := cf_class x = RealScalar \/ cf_class x = MajoranaFermion.

(** the charge of a product of fields *)
Fixpoint charge (q : str -> Qc) (l : list cfield) : Qc :=
  match l with [] => Q2Qc 0 | x :: l => (q (label_of x) + charge q l)%Qc end.

(** lepton number on the fields of the Standard Model *)
Definition lepton_charge (q : str -> Qc) : Prop :=
  q (lit "L") = Q2Qc 1 /\ q (lit "eb") = Q2Qc (-1) /\ q (lit "Q") = Q2Qc 0 /\ q (lit "ub") = Q2Qc 0 /\ q (lit "db") = Q2Qc 0 /\ q (lit "H") = Q2Qc 0.
