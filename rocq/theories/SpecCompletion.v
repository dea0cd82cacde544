(** * SpecCompletion: specification notions for completions of operators *)

From Coq Require Import Ascii String List Bool Arith QArith Qcanon Permutation.
From Verif Require Import Base ModelIndex SpecIndex ModelField SpecField ModelContract SpecContract ModelPartition SpecPartition ModelExotic SpecExotic.
Import ListNotations.
Local Open Scope nat_scope.

Definition gauge_type (t : itype) : Prop := t = Colour \/ t = Isospin.

(** epsilons may share dummy indices: at most one index of an epsilon is contracted with another epsilon, two stay for the
    fields *)
Definition loosely_chained (es : list symbol) : Prop :=
  forall e i, In e es -> In i (symbol_indices e) -> met (flat_map symbol_indices es) i ->
    List.length (symbol_indices e) = 3 /\ forall j, In j (symbol_indices e) -> met (flat_map symbol_indices es) j -> slot j = slot i.

(** an operator with fields [fs] and epsilons [es]: every gauge index is contracted, hypercharge adds up to zero *)
Record invariant_operator (fs : list cfield) (es : list symbol) : Prop := mkInvariant
  { io_contractible : contractible fs es;
    io_chains : loosely_chained es;
    io_matched : forall i, In i (vertex_indices fs es) -> gauge_type (ix_type i) -> met (vertex_indices fs es) i;
    io_neutral : sum_of hypercharge fs = Q2Qc 0 }.

(** spin of a field, in units of one half *)
Definition spin (x : cfield) : nat := count_kind Undotted true (indices_of x) + count_kind Dotted true (indices_of x).

Section Branching.
  Variable B : Type.
  Variable fermionic : B -> bool.

  (** an odd number of fermions on the leaves *)
  Definition odd_tree (t : ptree B) : bool := Nat.odd (List.length (filter fermionic (leaves_of t))).

  (** vertices join two lines or three scalars to another line *)
  Inductive branched : ptree B -> Prop :=
  | br_leaf x : branched (Lf x)
  | br_one t : branched t -> branched (Tp [t])
  | br_many l : branched_all l -> (List.length l = 2 \/ (List.length l = 3 /\ filter odd_tree l = [])) -> branched (Tp l)
  with branched_all : list (ptree B) -> Prop :=
  | br_nil : branched_all []
  | br_cons t l : branched t -> branched_all l -> branched_all (t :: l).

  (** the last vertex joins three or four lines with an even number of fermions, four only if they are scalars *)
  Definition branched_root (rows : list (ptree B)) : Prop :=
    branched_all rows /\ 3 <= List.length rows <= 4 /\ Nat.even (List.length (filter odd_tree rows)) = true /\
    (List.length rows = 4 -> filter odd_tree rows = []).
End Branching.

(** a leaf with a fermion *)
Definition fermion_leaf (x : cfield * N) : bool := negb (spin (fst x) =? 0).

(** at least [k] symbols of either kind are left, all with a latex form *)
Definition enough (k : nat) (st : sstate) : Prop :=
  k <= List.length (st_fermion st) /\ k <= List.length (st_boson st) /\
  Forall (fun s => exists t, to_tex s = Ok t) (st_fermion st ++ st_boson st ++ map snd (st_dict st)).

(** fields of spin zero or one half without derivatives: three or four scalars, or two fermions and a scalar *)
Definition renormalisable (t : cop) : Prop :=
  Forall (fun x => f_derivs (i_field (cf_if x)) = 0 /\ spin x <= 1) (cfields t) /\
  let fermions := List.length (filter (fun x => negb (spin x =? 0)) (cfields t)) in
  (fermions = 0 /\ 3 <= List.length (cfields t) <= 4) \/ (fermions = 2 /\ List.length (cfields t) = 3).

(** a term of the Lagrangian *)
Definition good_term (t : cop) : Prop := singlet t /\ proper_op (cop_erase t) /\ renormalisable t.

(** the epsilons [lor] contract the spinor indices of the fields: each of them with one index of one epsilon, and the epsilons
    have no other indices *)
Definition lorentz_contracted (fs : list cfield) (lor : list symbol) : Prop :=
  NoDup (map slot (flat_map symbol_indices lor)) /\
  (forall i, In i (flat_map symbol_indices lor) ->
     (ix_type i = Undotted \/ ix_type i = Dotted) /\ ix_up i = false /\ clean i /\ met (flat_map indices_of fs) i) /\
  (forall i, In i (flat_map indices_of fs) -> ix_type i = Undotted \/ ix_type i = Dotted -> met (flat_map symbol_indices lor) i).

(** the fields of the terms are those of the operator, each once, and for every inner line the exotic field and the field it
    couples as; [exotics] are the exotic fields of these lines *)
Definition accounts_for (fs : list cfield) (terms : list cop) (exotics : list cfield) : Prop :=
  exists lines : list (cfield * cfield),
    Permutation (flat_map cfields terms) (fs ++ flat_map (fun xp => [fst xp; snd xp]) lines) /\
    List.length terms = List.length lines + 1 /\
    Forall (fun xp => exists op term, In term terms /\ interaction op (snd xp) term /\ stands_for op (fst xp) (snd xp)) lines /\
    (forall x, In x exotics -> In x (map fst lines)) /\
    (forall x, In x (map fst lines) -> exists y, In y exotics /\ (x = y \/ cfield_eqb x y = true)).
