(** * SpecDatabase: notions for statements about the model database *)

From Coq Require Import Ascii String List Bool Arith ZArith QArith Qcanon Permutation.
From Verif Require Import Base Spec SpecFunctions ModelDatabase.
Import ListNotations.

(** a possible iteration order of Python sets *)
Definition set_order (enum : list str -> list str) : Prop :=
  forall l, NoDup (enum l) /\ forall x, In x (enum l) <-> In x l.

(** [t] is the string of the conjugate of the field written [s] *)
Definition conj_string (s t : str) : Prop :=
  exists f, qfield_ok f /\ s = print_field f /\ t = print_field (conj_qfield f).

Definition same_field (s t : str) : Prop := s = t \/ conj_string s t.

(** the same interaction, or the conjugate one, in any order *)
Definition same_term (s t : list str) : Prop :=
  Permutation s t \/ exists s', Forall2 conj_string s s' /\ Permutation s' t.

(** [m] is a model of [data] listed under operator [k] *)
Definition model_of (data : list (str * list lazy)) (k : str) (m : lazy) : Prop :=
  exists v, In (k, v) data /\ In m v.

Definition model_ok (m : lazy) : Prop :=
  Forall field_string (lz_quantum_numbers m) /\ Forall (Forall field_string) (lz_terms m).

Definition data_ok (data : list (str * list lazy)) : Prop := forall k m, model_of data k m -> model_ok m.

(** the content that a philosophy compares: the set of exotic fields, or the list of interactions *)
Definition equivalent_models (enum : list str -> list str) (ph : philosophy) (a b : lazy) : Prop :=
  match ph with
  | democratic => same_upto same_field (enum (lz_quantum_numbers a)) (enum (lz_quantum_numbers b))
  | stringent => same_upto same_term (lz_terms a) (lz_terms b)
  end.

(** the content of [a] is part of the content of [b] *)
Definition part_of (enum : list str -> list str) (ph : philosophy) (a b : lazy) : Prop :=
  match ph with
  | democratic => contains_upto same_field (enum (lz_quantum_numbers b)) (enum (lz_quantum_numbers a))
  | stringent => contains_upto same_term (lz_terms b) (lz_terms a)
  end.

(** the numbers of the models of [d] say what they should *)
Definition faithful (enum : list str -> list str) (d : db) : Prop :=
  forall ka a kb b, model_of (d_data d) ka a -> model_of (d_data d) kb b ->
    exists na nb, db_model_number enum d a = Ok na /\ db_model_number enum d b = Ok nb /\ (1 <= na)%Z /\
      (na = nb <-> equivalent_models enum (d_philosophy d) a b) /\
      ((na | nb)%Z <-> part_of enum (d_philosophy d) a b).

(** [s] is the largest of [l] *)
Definition largest (s : Qc) (l : list Qc) : Prop := In s l /\ forall y, In y l -> (y <= s)%Qc.

(** the scale / mass dimension recorded for an operator *)
Definition scale_is (sc : list (str * Qc)) (k : str) (s : Qc) : Prop := In (k, s) sc.
Definition dim_is (dims : list (str * Z)) (k : str) (n : Z) : Prop := In (k, n) dims.
