(** * SpecDerivVertex: specification of vertices with derivatives *)

From Coq Require Import Ascii String List Bool Arith ZArith QArith Qcanon Permutation.
From Verif Require Import Base ModelIndex SpecIndex ModelField SpecField ModelContract SpecContract ModelExotic SpecExotic SpecTerms.
Import ListNotations.
Local Open Scope nat_scope.

(** fields and epsilons that meet at a vertex; derivatives act on fields of the operator only *)
Record derivative_vertex (fs : list cfield) (gauge : list symbol) : Prop := mkDV
  { dv_legit : Forall legit fs;
    dv_spin : forall x, In x fs -> derivs x = 0 -> low_spin x;
    dv_plain : forall x, In x fs -> 0 < derivs x -> cf_class x = Plain;
    dv_charges : Forall standard_charges fs;
    dv_nf : Forall one_or_three fs;
    dv_gauge : Forall gauge_symbol gauge;
    dv_once : NoDup (map slot (vertex_indices fs gauge));
    dv_few : forall t up, t <> Generation -> count_kind t up (vertex_indices fs gauge) < 10;
    dv_fresh : forall i j, In i (vertex_indices fs gauge) -> In j (vertex_indices fs gauge) -> ix_name j <> ix_name i ++ lit "^";
    dv_dotted : forall i, In i (vertex_indices fs gauge) -> ix_type i = Dotted -> ~ In "u"%char (ix_name i) }.

Definition gauge_type (t : itype) : Prop := t = Colour \/ t = Isospin.

(** the same colour and isospin indices *)
Definition same_gauge (x y : cfield) : Prop :=
  forall q : str * itype * bool, gauge_type (snd (fst q)) -> (In q (map slot (indices_of x)) <-> In q (map slot (indices_of y))).

Definition one_spinor (x : cfield) : Prop :=
  exists i, spinors Undotted x ++ spinors Dotted x = [i] /\ ix_up i = true.

(** [y] takes the place of [x] in a term without derivatives: same gauge indices and hypercharge, no derivatives, spin zero for a boson
    and one half for a fermion *)
Definition replaces (x y : cfield) : Prop :=
  standard_charges y /\ hypercharge y = hypercharge x /\ derivs y = 0 /\ same_gauge x y /\ clean_field y /\
  (boson x -> spinless (indices_of y)) /\ (fermion x -> one_spinor y).

Definition colourless (x : cfield) : Prop := forall i, In i (indices_of x) -> ix_type i <> Colour.

(** a field of the operator without its derivatives *)
Definition bared (x y : cfield) : Prop :=
  cf_class x = Plain /\ ((derivs x = 0 /\ y = x) \/ (0 < derivs x /\ exists f, strip_derivs_with_indices (cf_if x) = Ok f /\ y = mkCF Plain f)).

(** the term without derivatives in place of [op] *)
Definition settled (op t : cop) : Prop :=
  singlet t /\ exists l, Forall2 replaces (cfields op) l /\ Permutation (cfields t) l.

(** what [contract] makes of the processed term [r]; [x] is the exotic field *)
Definition processed (vanishes : cop -> bool) (x : cfield) (sp lor : list symbol) (st : sstate) (r : res (str + cop))
    (result : res ((str + cfield * cop * list symbol * list symbol) * sstate)) : Prop :=
  match r with
  | Err e => result = Err e
  | Ok (inl reason) => result = Ok (inl reason, st)
  | Ok (inr t) =>
    (vanishes t = true /\ result = Ok (inl (lit "Vanishing coupling at "), st)) \/
    (vanishes t = false /\ checked t /\ result = Ok (inr (x, t, sp, lor), st)) \/
    (vanishes t = false /\ ~ checked t /\ exists e, result = Err e)
  end.

(** two fermions of the operator keep different spinor indices when their derivatives are taken off *)
Definition spinors_apart (fs : list cfield) : Prop :=
  forall a x b y c w v, fs = a ++ x :: b ++ y :: c -> fermion x -> fermion y -> bared x w -> bared y v ->
    ~ (same_slots (spinors Undotted w) (spinors Undotted v) /\ same_slots (spinors Dotted w) (spinors Dotted v)).
