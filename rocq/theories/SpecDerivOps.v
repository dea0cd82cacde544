(** * SpecDerivOps: what the completions of an operator with derivatives should be *)

From Coq Require Import Ascii String List Bool Arith.
From Verif Require Import Base Show ModelIndex ModelField ModelContract ModelPartition ModelExotic ModelOperators SpecIndex SpecField SpecPlace SpecTerms.
Import ListNotations.
Local Open Scope nat_scope.

(** [o] is the operator with the fields [kept], the derivatives on the ones chosen in [m] and the symbols [ss]; the Lorentz indices have
    numbers from [st] on *)
Definition placed (st : counters) (kept : list (field * str)) (ss : list symbol) (m : list bool) (o : operator) : Prop :=
  exists s st1 st2 xs, acted kept m s /\ (forall ty, st ty <= st1 ty) /\ rebuilt st1 s xs st2 /\ o = map TField xs ++ map TSymbol ss.

(** A completion of [o]: its operator is [o] with further symbols, its graph is that of a topology, its terms pass the check. *)
Record completes_operator (topologies : nat -> nat -> res (list (topology ifield))) (o : operator) (c : completed) : Prop := mkCompletes
  { co_operator : exists ss, cm_operator c = o ++ map TSymbol ss;
    co_topology : exists nb nf tops t, topologies nb nf = Ok tops /\ In t tops /\ cm_graph c = t_graph t;
    co_terms : Forall checked (cm_terms c) }.

(** Fields with this label have two different isospin indices which are contracted with each other by a two-index symbol, as in
    H^i H^j eps_ij, which is zero for a scalar. *)
Definition antisymmetric (label : str) (t : cop) : Prop :=
  exists x y i j s i' j', In (KField x) t /\ In (KField y) t /\ f_label (i_field (cf_if x)) = label /\ f_label (i_field (cf_if y)) = label /\
    In i (i_indices (cf_if x)) /\ In j (i_indices (cf_if y)) /\ ix_type i = Isospin /\ ix_type j = Isospin /\ ix_name i <> ix_name j /\
    In (KSym s) t /\ symbol_indices s = [i'; j'] /\ ix_name i' = ix_name i /\ ix_name j' = ix_name j.

(** sympy has been asked about the term and it does not vanish, or no two fields have the same label *)
Definition not_zero (vanishes : cop -> bool) (t : cop) : Prop :=
  vanishes t = false \/ exists fs, mapM (fun x => field_of (cf_if x)) (cfields t) = Ok fs /\ NoDup (map f_label fs).
