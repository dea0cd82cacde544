(** * SpecDeriv: covariant derivatives of fields and how they are distributed *)

From Coq Require Import Ascii String List Bool Arith ZArith Permutation.
From Verif Require Import Base ModelIndex SpecIndex ModelField SpecField.
Import ListNotations.
Local Open Scope nat_scope.

(** The changes of the Lorentz labels (u, d) that [deriv_possibilities] allows: for fermions all but lowering both, for bosons
    only raising or lowering both. *)
Inductive deriv_move : nat * nat -> nat * nat -> Prop :=
| dm_raise u d : deriv_move (u, d) (S u, S d)
| dm_left u d : Nat.Odd (S u + d) -> deriv_move (S u, d) (u, S d)
| dm_right u d : Nat.Odd (u + S d) -> deriv_move (u, S d) (S u, d)
| dm_lower u d : Nat.Even (S u + S d) -> deriv_move (S u, S d) (u, d).

(** [g] is [f] with [n] derivatives, one after another *)
Inductive derived : nat -> field -> field -> Prop :=
| dv_none f : derived 0 f f
| dv_one n f g h u d c1 c2 s p q : field_ok f u d c1 c2 s -> deriv_move (u, d) (p, q) -> D f [digit p; digit q] = Ok g ->
    derived n g h -> derived (S n) f h.

(** the Lorentz labels of a field *)
Definition lorentz_labels (f : field) (u d : nat) : Prop := exists c1 c2 s, field_ok f u d c1 c2 s.

(** [t] arises from [m] by placing [n] derivatives on its factors *)
Definition placed (n : nat) (m t : list (str * nat)) : Prop :=
  exists k : list nat, List.length k = List.length m /\ list_sum k = n /\
    Permutation t (map (fun fk => (fst (fst fk), snd (fst fk) + snd fk)) (combine m k)).

(** the fields [t] arise from the factors [l] by choosing the Lorentz labels of the derivatives; numbers are dropped *)
Inductive expands : list (option (nat * field)) -> list field -> Prop :=
| ex_nil : expands [] []
| ex_number l t : expands l t -> expands (None :: l) t
| ex_field n f g l t : derived n f g -> expands l t -> expands (Some (n, f) :: l) (g :: t).

(** one member of each list, in lexicographic order *)
Fixpoint products {A} (ls : list (list A)) : list (list A) :=
  match ls with
  | [] => [[]]
  | l :: ls => flat_map (fun x => map (cons x) (products ls)) l
  end.
