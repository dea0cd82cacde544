(** * SpecContract: specification notions for contractions *)

From Coq Require Import Ascii String List Bool Arith ZArith Permutation.
From Verif Require Import Base Show ModelIndex SpecIndex ModelField ModelContract.
Import ListNotations.
Local Open Scope nat_scope.

(** an index made from a label of the documented form without spaces *)
Definition clean (i : index) : Prop :=
  new_index (ix_label i) = Ok i /\ ~ In " "%char (ix_label i) /\
  exists low auto t rest, lower (ix_label i) = spelled low auto t rest.

(** the same index at the other height *)
Definition counterpart (i j : index) : Prop :=
  ix_name j = ix_name i /\ ix_type j = ix_type i /\ ix_up j = negb (ix_up i).

(** an index is identified by name, type and height *)
Definition slot (i : index) : str * itype * bool := (ix_name i, ix_type i, ix_up i).

(** an operator with fields before symbols, as multiplication produces them *)
Definition normal (op : operator) : Prop := exists fs ss, op = map TField fs ++ map TSymbol ss.

(** every index once *)
Definition proper_op (op : operator) : Prop := NoDup (map slot (op_indices op)).

(** an index of the operator whose counterpart does not occur in the operator *)
Definition is_free (op : operator) (i : index) : Prop :=
  In i (op_indices op) /\ forall j, In j (op_indices op) -> ~ counterpart i j.

(** [ss] contracts the indices [l] of [op]: its indices are the counterparts of l, in some order *)
Definition contracts (ss : list symbol) (l : list index) : Prop :=
  exists l', Permutation l' l /\ Forall2 counterpart l' (flat_map symbol_indices ss).

(** perfect matchings: pairs that together are the list *)
Definition matching {A} (l : list A) (m : list (A * A)) : Prop :=
  Permutation l (flat_map (fun p => [fst p; snd p]) m).

(** the same matching: order of the pairs and within the pairs does not matter *)
Definition same_matching {A} (m m' : list (A * A)) : Prop :=
  exists m'', Permutation m' m'' /\ Forall2 (fun p q => p = q \/ p = (snd q, fst q)) m m''.

(** [enum] iterates the sets that are listed in [combos] *)
Definition iterates (ms : list (list (index * index))) (combos : list (list (list index))) : Prop :=
  exists cs, Permutation combos cs /\
    Forall2 (fun m c => exists c', Permutation c c' /\ Forall2 (fun p d => Permutation [fst p; snd p] d) m c') ms cs.

(** 1 * 3 * 5 * ... with n factors *)
Fixpoint odd_factorial (n : nat) : nat := match n with O => 1 | S n => (2 * n + 1) * odd_factorial n end.

(** [l] lists the free indices of a type and height *)
Definition lists (op : operator) (t : itype) (up : bool) (l : list index) : Prop :=
  NoDup (map slot l) /\ forall i, In i l <-> is_free op i /\ ix_type i = t /\ ix_up i = up.

Definition number (op : operator) (t : itype) (up : bool) (n : nat) : Prop :=
  exists l, lists op t up l /\ List.length l = n.

(** [r] is [op] times symbols, with the same free indices except those of type t, of which none is left *)
Definition contracted_type (t : itype) (op r : operator) : Prop :=
  (forall i, is_free r i <-> is_free op i /\ ix_type i <> t) /\ proper_op r /\ exists ss, r = op ++ map TSymbol ss.

(** [r] is [op] times deltas that join each raised index in [p] with the lowered index at the same place *)
Definition delta_pairing (op : operator) (downs p : list index) (r : operator) : Prop :=
  exists ds, r = op ++ map TSymbol ds /\
    Forall2 (fun ij d => exists a b, d = DeltaC [a; b] /\ counterpart (snd ij) a /\ counterpart (fst ij) b) (combine p downs) ds.

(** [ms] holds every matching of [l], once *)
Definition all_matchings {A} (l : list A) (ms : list (list (A * A))) : Prop :=
  Forall (matching l) ms /\
  (forall m, matching l m -> exists m', In m' ms /\ same_matching m m') /\
  ForallOrdPairs (fun m m' => ~ same_matching m m') ms.

(** [r] is [op] times metrics of type [t], one for each pair of indices *)
Definition metric_pairing (t : itype) (op : operator) (m : list (index * index)) (r : operator) : Prop :=
  exists es, r = op ++ map TSymbol es /\
    Forall2 (fun ij e => exists a b, e = Metric t [a; b] /\ counterpart (fst ij) a /\ counterpart (snd ij) b) m es.

Definition su2_type (t : itype) : Prop := t = Undotted \/ t = Dotted \/ t = Isospin.

(** An operator or indexed field as the package makes them: every index once, labels of the documented form, free SU(2)
    indices raised, fewer than ten free indices of each kind; an indexed field has no contracted indices and the
    Dynkin labels of its indices. *)
Definition object_ok (o : indexed_obj) : Prop :=
  normal (obj_tensors o) /\ proper_op (obj_tensors o) /\ Forall clean (op_indices (obj_tensors o)) /\
  (forall i, is_free (obj_tensors o) i -> su2_type (ix_type i) -> ix_up i = true) /\
  (forall t up, t <> Generation -> exists n, n < 10 /\ number (obj_tensors o) t up n) /\
  match o with
  | OField x => get_dynkin (i_indices x) = Ok (f_dynkin (i_field x)) /\ forall i, In i (i_indices x) -> is_free [TField x] i
  | OOp _ => True
  end.

(** no index name in common *)
Definition apart (o o' : operator) : Prop :=
  forall i j, In i (op_indices o) -> In j (op_indices o') -> ix_name i <> ix_name j.

(** [es] are metrics joining the indices pairwise *)
Definition joins (t : itype) (ij : list (index * index)) (es : list symbol) : Prop :=
  Forall2 (fun p e => exists a b, e = Metric t [a; b] /\ counterpart (fst p) a /\ counterpart (snd p) b) ij es.

(** the Dynkin label that counts indices of an SU(2) type *)
Definition label_at (t : itype) (a b e : nat) : nat := match t with Undotted => a | Dotted => b | _ => e end.

(** [n] of [nl] + [nr] indices can stay when pairs are contracted *)
Definition admissible (nl nr n : nat) : Prop := n <= nl + nr /\ Nat.Even (nl + nr - n).

(** the number of contractions the code constructs *)
Definition ways (nl nr n : nat) : nat :=
  if n =? nl + nr then 1 else if (nl + nr - n) / 2 <=? Nat.min nl nr then fact (Nat.max nl nr) else 0.

(** [r] is made of the fields of [l] and [l'] in that order, the SU(2) indices that are not ignored contracted until
    as many stay free as the Dynkin labels a, b, e say, and all others left alone *)
Definition contracted_pair (l l' : operator) (a b e : nat) (ignore : itype -> bool) (r : operator) : Prop :=
  normal r /\ proper_op r /\ Forall clean (op_indices r) /\
  indexed_fields r = indexed_fields l ++ indexed_fields l' /\
  (forall t, su2_type t -> ignore t = false -> number r t true (label_at t a b e)) /\
  (forall i, ~ su2_type (ix_type i) \/ ignore (ix_type i) = true -> (is_free r i <-> is_free l i \/ is_free l' i)) /\
  (forall i, is_free r i -> is_free l i \/ is_free l' i) /\
  incl (map ix_name (op_indices r)) (map ix_name (op_indices l ++ op_indices l')).

(** ** Products built from the left, one field at a time *)

Definition chain (f : field) (steps : list (field * field)) : prod_tree :=
  fold_left (fun t s => PNode (fst s) t (PLeaf (snd s))) steps (PLeaf f).

Definition su2_label (t : itype) (f : field) : nat :=
  label_at t (nth 0 (map (fun c => nat_of_ascii c - 48) (f_dynkin f)) 0) (nth 1 (map (fun c => nat_of_ascii c - 48) (f_dynkin f)) 0)
             (nth 4 (map (fun c => nat_of_ascii c - 48) (f_dynkin f)) 0).

Definition colour_label (up : bool) (f : field) : nat :=
  nth (if up then 2 else 3) (map (fun c => nat_of_ascii c - 48) (f_dynkin f)) 0.

Definition total_label (g : field -> nat) (fs : list field) : nat := list_sum (map g fs).

(** free indices of an SU(2) type after multiplying by a field and contracting into an irrep *)
Definition next (ignore : itype -> bool) (cur : itype -> nat) (s : field * field) (t : itype) : nat :=
  if ignore t then cur t + su2_label t (snd s) else su2_label t (fst s).

Definition final (ignore : itype -> bool) (cur : itype -> nat) (steps : list (field * field)) : itype -> nat :=
  fold_left (next ignore) steps cur.

Fixpoint chain_admissible (ignore : itype -> bool) (cur : itype -> nat) (steps : list (field * field)) : Prop :=
  match steps with
  | [] => True
  | s :: r => (forall t, su2_type t -> ignore t = false -> admissible (cur t) (su2_label t (snd s)) (su2_label t (fst s))) /\
              chain_admissible ignore (next ignore cur s) r
  end.

Definition step_ways (ignore : itype -> bool) (cur : itype -> nat) (s : field * field) (t : itype) : nat :=
  if ignore t then 1 else ways (cur t) (su2_label t (snd s)) (su2_label t (fst s)).

Fixpoint chain_ways (ignore : itype -> bool) (cur : itype -> nat) (steps : list (field * field)) : nat :=
  match steps with
  | [] => 1
  | s :: r => step_ways ignore cur s Undotted * step_ways ignore cur s Dotted * step_ways ignore cur s Isospin *
              chain_ways ignore (next ignore cur s) r
  end.

(** the field of an indexed field made from [f] *)
Definition dressed (f : field) : field :=
  mkField (f_label f ++ (if f_is_conj f then [dagger] else [])) (f_dynkin f) (f_charges f) (f_is_conj f) (f_comm f) (f_symmetry f)
          None 1 (f_latex f) (f_nf f) (f_derivs f) (f_stripped f).

(** [op] is made of the fields [fs]; of the free SU(2) indices there are [cur], all raised; no colour index is contracted *)
Definition realises (fs : list field) (cur : itype -> nat) (op : operator) : Prop :=
  normal op /\ proper_op op /\ Forall clean (op_indices op) /\ map i_field (indexed_fields op) = map dressed fs /\
  (forall t, su2_type t -> number op t true (cur t) /\ number op t false 0) /\
  (forall up, number op Colour up (total_label (colour_label up) fs)).
