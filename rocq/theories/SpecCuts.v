(** * SpecCuts: what an inner line of a tree diagram carries, read off the operator *)

From Coq Require Import Ascii String List Bool Arith NArith QArith Qcanon Permutation.
From Verif Require Import Base ModelIndex SpecIndex ModelField SpecField ModelContract SpecContract ModelPartition SpecPartition ModelExotic SpecExotic SpecCompletion.
Import ListNotations.
Local Open Scope nat_scope.

(** an index of the part of the operator on one side of a line: the fields [L] and those epsilons of the operator all of whose
    indices, or two of whose three indices, are contracted with these fields *)
Definition inside (es : list symbol) (L : list cfield) (i : index) : Prop :=
  In i (flat_map indices_of L) \/ exists e, In e es /\ contracted_with (flat_map indices_of L) e /\ In i (symbol_indices e).

(** an index contracted with the other side *)
Definition crossing (es : list symbol) (L : list cfield) (i : index) : Prop :=
  inside es L i /\ ~ exists j, inside es L j /\ counterpart i j.

(** no epsilon of this type is contracted with another epsilon *)
Definition unchained_at (t : itype) (es : list symbol) : Prop :=
  forall e i, In e es -> In i (symbol_indices e) -> ix_type i = t -> ~ met (flat_map symbol_indices es) i.

(** at most one index of each type of the gauge group *)
Definition single_indices (f : cfield) : Prop :=
  forall i j, In i (indices_of f) -> In j (indices_of f) -> gauge_type (ix_type i) -> ix_type i = ix_type j -> i = j.

(** no fields among [L] are together neutral but for the baryon number *)
Definition quiet (L : list cfield) : Prop :=
  forall M R, Permutation L (M ++ R) -> sum_of hypercharge M = Q2Qc 0 -> sum_of baryon M = Q2Qc 0.

(** [x] carries what flows from the fields [L] to the others *)
Definition carries_from (es : list symbol) (L : list cfield) (x : cfield) : Prop :=
  (hypercharge x = sum_of hypercharge L /\ (quiet L -> baryon x = sum_of baryon L)) /\
  (spin x <= 1 /\ Nat.odd (spin x) = Nat.odd (list_sum (map spin L))) /\
  NoDup (map slot (indices_of x)) /\
  (forall t, gauge_type t -> unchained_at t es -> forall p, snd (fst p) = t ->
     (In p (map slot (indices_of x)) <-> exists i, crossing es L i /\ slot i = p)).

(** the fields on the far side of each inner line: of every tuple with two or more entries *)
Fixpoint beyond {B} (t : ptree B) : list (list B) :=
  match t with
  | Lf _ => []
  | Tp l => flat_map beyond l ++ match l with [] | [_] => [] | _ => [flat_map leaves_of l] end
  end.

(** an isospin epsilon with one index on the fields [L] and the other elsewhere *)
Definition cut_epsilon (L : list cfield) (e : symbol) : Prop :=
  exists i j, Permutation (symbol_indices e) [i; j] /\ ix_type i = Isospin /\ met (flat_map indices_of L) i /\ ~ met (flat_map indices_of L) j.
