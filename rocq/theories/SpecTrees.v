(** * SpecTrees: tree diagrams (C106)

    What a tree-level diagram is and when two drawings show the same one, without reference to the model or to the files
    of topologies. *)

From Coq Require Import List Bool Arith Permutation.
From Verif Require Import ModelPartition SpecPartition.
Import ListNotations.
Local Open Scope nat_scope.

(** Lines are scalars (true) or fermions (false).  The vertices of renormalisable Lagrangians without vectors: three
    scalars, four scalars, a scalar and two fermions. *)
Definition vertex (ks : list bool) : Prop :=
  Permutation ks [true; true; true] \/ Permutation ks [true; true; true; true] \/ Permutation ks [true; false; false].

Section Trees.
  Context {A : Type}.
  Variable kind : A -> bool.

  (** A diagram is drawn from one of its vertices: a tuple of the branches that meet there.  A branch is an outer leg or the
      tuple of branches that meet at the far end of an inner line.  [line t k]: the line that leads into the branch [t] is
      of kind [k]. *)
  Inductive line : ptree A -> bool -> Prop :=
  | line_leg a : line (Lf a) (kind a)
  | line_inner l ks k : lines l ks -> vertex (k :: ks) -> line (Tp l) k
  with lines : list (ptree A) -> list bool -> Prop :=
  | lines_nil : lines [] []
  | lines_cons t k l ks : line t k -> lines l ks -> lines (t :: l) (k :: ks).

  Definition tree_diagram (t : ptree A) : Prop := exists l ks, t = Tp l /\ lines l ks /\ vertex ks.

  (** outer legs of a kind *)
  Definition legs (k : bool) (t : ptree A) : nat := List.length (filter (fun a => Bool.eqb (kind a) k) (leaves_of t)).
End Trees.

(** at least one inner line: not just one vertex *)
Definition exchange {A} (t : ptree A) : Prop := exists l c, t = Tp l /\ In (Tp c) l.

(** the same branch with the branches at its vertices in another order *)
Inductive turned {A} : ptree A -> ptree A -> Prop :=
| turned_refl t : turned t t
| turned_order l l' : Permutation l l' -> turned (Tp l) (Tp l')
| turned_inside p q t t' : turned t t' -> turned (Tp (p ++ t :: q)) (Tp (p ++ t' :: q))
| turned_trans t u v : turned t u -> turned u v -> turned t v.

(** the same diagram: drawn in another order, or from the vertex at the other end of an inner line *)
Inductive redrawn {A} : ptree A -> ptree A -> Prop :=
| redrawn_turned t t' : turned t t' -> redrawn t t'
| redrawn_across l r : redrawn (Tp (Tp l :: r)) (Tp (Tp r :: l))
| redrawn_trans t u v : redrawn t u -> redrawn u v -> redrawn t v.

(** the kinds of the legs of a topology, without the numbers of the nodes *)
Definition leg_kinds {A} (t : template A) (k : ptree bool) : Prop :=
  tree_map fst t = tree_map Open k.
