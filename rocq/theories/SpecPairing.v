(** * SpecPairing: which indices of which factors the metrics of an operator join *)

From Coq Require Import Ascii String List Bool Arith Permutation.
From Verif Require Import Base ModelIndex ModelField SpecField ModelContract SpecContract SpecInvariants SpecPaper.
Import ListNotations.
Local Open Scope nat_scope.

(** the factor number [n] has the index [i] of type [t] *)
Definition has_index (op : list tensor) (n : nat) (t : itype) (i : index) : Prop :=
  exists x, nth_error (fields_in op) n = Some x /\ In i (i_indices x) /\ ix_type i = t.

(** the symbol is a metric that joins an index of one factor with an index of the other *)
Definition between (op : list tensor) (t : itype) (e : nat * nat) (s : symbol) : Prop :=
  exists a b x y, has_index op (fst e) t a /\ has_index op (snd e) t b /\ s = Metric t [x; y] /\
    (counterpart a x /\ counterpart b y \/ counterpart b x /\ counterpart a y).

Definition of_type (t : itype) (s : symbol) : bool := match symbol_indices s with i :: _ => itype_eqb (ix_type i) t | [] => false end.

(** the symbols of type [t] join exactly the pairs [J] of factors *)
Definition contracted_as (op : list tensor) (t : itype) (J : list (nat * nat)) : Prop :=
  exists l, Permutation l (filter (of_type t) (symbols_in op)) /\ Forall2 (between op t) J l.

(** the pairs [J] hold each factor with an index of type [t] once, and no other *)
Definition pairs_up (t : itype) (fs : list field) (J : list (nat * nat)) : Prop :=
  let ends := flat_map (fun e => [fst e; snd e]) J in
  NoDup ends /\ forall n, In n ends <-> exists f, nth_error fs n = Some f /\ su2_label t f = 1.

(** ** Products of irreps *)

(** What is asked of basisgen's product: it has all irreps of SU(2) with the right angular momentum together with all of the product of
    the colours, [colours]. *)
Definition full_product (irrep_product : str -> str -> list (list nat * nat)) (colours : nat * nat -> nat * nat -> nat * nat -> Prop) : Prop :=
  forall a b c d e a' b' c' d' e' p q r s t,
    a < 10 /\ b < 10 /\ c < 10 /\ d < 10 /\ e < 10 -> a' < 10 /\ b' < 10 /\ c' < 10 /\ d' < 10 /\ e' < 10 ->
    triangle a a' p -> triangle b b' q -> colours (c, d) (c', d') (r, s) -> triangle e e' t ->
    exists m, In ([p; q; r; s; t], m) (irrep_product (five a b c d e) (five a' b' c' d' e')).

(** starting from [a], multiplication by the labels [l] in order can end in [z] *)
Inductive reaches {A} (mul : A -> A -> A -> Prop) : A -> list A -> A -> Prop :=
| re_nil a : reaches mul a [] a
| re_cons a b c l z : mul a b c -> reaches mul c l z -> reaches mul a (b :: l) z.
