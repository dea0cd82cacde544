(** * SpecField: specification notions for fields *)

From Coq Require Import Ascii String List Bool Arith ZArith QArith Qcanon Permutation.
From Verif Require Import Base Show ModelIndex SpecIndex ModelField.
Import ListNotations.
Local Open Scope nat_scope.

(** a Dynkin string of five digits *)
Definition five (a b c d e : nat) : str := [digit a; digit b; digit c; digit d; digit e].

(** charge dictionaries: y first, then 3b, then any others, no key twice *)
Definition proper (c : charges) : Prop :=
  exists y b r, c = (lit "y", y) :: (lit "3b", b) :: r /\ NoDup (map fst c).

(** A field with Dynkin labels a b c d e. *)
Definition field_ok (f : field) (a b c d e : nat) : Prop :=
  f_dynkin f = five a b c d e /\ (a < 10 /\ b < 10 /\ c < 10 /\ d < 10 /\ e < 10) /\ proper (f_charges f) /\
  (f_nf f = 1 \/ f_nf f = 3).

(** type and height of an index *)
Definition kind (i : index) : itype * bool := (ix_type i, ix_up i).

(** an index string that begins with the letter of generation indices *)
Definition is_g (tok : str) : bool := match tok with c :: _ => Ascii.eqb c "g" | [] => false end.

(** The kinds of the indices that a field with Dynkin labels a b c d e takes, in order; raised and lowered colour
    indices may be mixed. *)
Definition fits (a b c d e : nat) (kinds : list (itype * bool)) : Prop :=
  exists heights : list bool,
    count_occ Bool.bool_dec heights true = c /\ count_occ Bool.bool_dec heights false = d /\
    kinds = repeat (Undotted, true) a ++ repeat (Dotted, true) b ++ map (pair Colour) heights ++
            repeat (Isospin, true) e.

(** total number of entries of a symmetry, which is the rank of the tensor in sympy *)
Definition rank (s : list (list nat)) : nat := list_sum (map list_sum s).

(** the underlying fields of a product, from left to right *)
Fixpoint leaves (t : prod_tree) : list field :=
  match t with PLeaf f => [f] | PNode _ l r => leaves l ++ leaves r end.

(** dictionary equality *)
Definition same_charges (a b : charges) : Prop := forall k, dget str_eqb a k = dget str_eqb b k.

(** the sum of the charge [k] over fields, a missing charge counting zero *)
Definition charge_of (f : field) (k : str) : Qc := match dget str_eqb (f_charges f) k with Some v => v | None => Q2Qc 0 end.
Definition total (fs : list field) (k : str) : Qc := fold_right (fun f s => (charge_of f k + s)%Qc) (Q2Qc 0) fs.

(** dimension of the irrep with Dynkin labels a b | c d | e of SU2 x SU2 x SU3 x SU2 *)
Definition dimension (l : list nat) : nat :=
  match l with
  | [a; b; c; d; e] => (a + 1) * (b + 1) * ((c + 1) * (d + 1) * (c + d + 2) / 2) * (e + 1)
  | _ => 0
  end.

(** an index string as the package makes them: documented form, nothing but the type letter is a u or a d *)
Definition token_ok (tok : str) : Prop :=
  exists low auto t rest, tok = spelled low auto t rest /\ ~ In "u"%char rest /\ ~ In "d"%char rest /\ ~ In " "%char rest.

(** the same charges are defined *)
Definition same_keys (f g : field) : Prop := forall k, In k (keys (f_charges f)) <-> In k (keys (f_charges g)).

(** What is asked of basisgen's product: on Dynkin digits it yields Dynkin labels that do not exceed the sums of
    the factors, and dimensions counted with multiplicity are conserved. *)
Definition product_spec (irrep_product : str -> str -> list (list nat * nat)) : Prop :=
  forall a b c d e a' b' c' d' e',
    a < 10 /\ b < 10 /\ c < 10 /\ d < 10 /\ e < 10 -> a' < 10 /\ b' < 10 /\ c' < 10 /\ d' < 10 /\ e' < 10 ->
    let l := irrep_product (five a b c d e) (five a' b' c' d' e') in
    (forall w m, In (w, m) l -> exists p q r s t, w = [p; q; r; s; t] /\
       p <= a + a' /\ q <= b + b' /\ r + s <= c + d + (c' + d') /\ t <= e + e') /\
    list_sum (map (fun wm => snd wm * dimension (fst wm)) l) =
      dimension [a; b; c; d; e] * dimension [a'; b'; c'; d'; e'].

(** the multiplicities of the last n products that made a field, multiplied *)
Fixpoint chain_multiplicity (n : nat) (f : field) : nat :=
  match n with
  | O => 1
  | S n => f_multiplicity f * match f_history f with Some (l, _) => chain_multiplicity n l | None => 1 end
  end.

(** Dynkin labels of a field with digits *)
Definition labels_of (f : field) : list nat := map (fun c => nat_of_ascii c - 48) (f_dynkin f).

(** the labels of a list of fields added up: undotted, dotted, colour (both together), isospin *)
Definition label_sums (fs : list field) : nat * nat * nat * nat :=
  fold_right (fun f s => let '(w, x, y, z) := s in
                         match labels_of f with
                         | [a; b; c; d; e] => (a + w, b + x, c + d + y, e + z)
                         | _ => s
                         end) (0, 0, 0, 0) fs.

(** the sums stay below ten, so that Dynkin labels remain digits *)
Definition small (fs : list field) : Prop :=
  let '(w, x, y, z) := label_sums fs in w < 10 /\ x < 10 /\ y < 10 /\ z < 10.

Definition has_digits (f : field) : Prop :=
  exists a b c d e, f_dynkin f = five a b c d e /\ a < 10 /\ b < 10 /\ c < 10 /\ d < 10 /\ e < 10.

Definition dim (f : field) : nat := dimension (labels_of f).
