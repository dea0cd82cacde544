(** * SpecPickler: what the tables of models should contain *)

From Coq Require Import Ascii String List Bool Arith ZArith QArith Qcanon.
From Verif Require Import Base ModelClosures ModelDatabase ModelPickler.
Import ListNotations.
Local Open Scope nat_scope.

(** a row of a table *)
Record row := mkRow
  { r_democratic : Z; r_stringent : Z; r_op : str; r_dim : Z; r_scale : Qc; r_symbolic : estimate; r_topology : str;
    r_fields : nat; r_scalars : nat; r_fermions : nat; r_min_loops : nat; r_max_loops : nat; r_derivs : nat;
    r_completion : str }.

(** the columns of a table with given rows *)
Definition table_of (rs : list row) : columns :=
  mkColumns (map r_democratic rs) (map r_stringent rs) (map r_op rs) (map r_dim rs) (map r_scale rs) (map r_symbolic rs)
            (map r_topology rs) (map r_fields rs) (map r_scalars rs) (map r_fermions rs) (map r_min_loops rs)
            (map r_max_loops rs) (map r_derivs rs) (map r_completion rs).

(** the models of a database, each with the operator it is listed under *)
Definition listing (data : list (str * list lazy)) : list (str * lazy) :=
  flat_map (fun kv => map (fun m => (fst kv, m)) (snd kv)) data.

Definition starts_with (c : ascii) (s : str) : Prop := exists r, s = c :: r.

(** [n] of the strings start with [c] *)
Inductive counted (c : ascii) : list str -> nat -> Prop :=
| counted_nil : counted c [] 0
| counted_yes s l n : starts_with c s -> counted c l n -> counted c (s :: l) (S n)
| counted_no s l n : s <> [] -> ~ starts_with c s -> counted c l n -> counted c (s :: l) n.

Inductive occurs (k : ksym) : estimate -> nat -> Prop :=
| occurs_nil : occurs k [] 0
| occurs_yes e n : occurs k e n -> occurs k (k :: e) (S n)
| occurs_no x e n : x <> k -> occurs k e n -> occurs k (x :: e) n.

(** the numbers of loops of a product: one for each factor loop, up to one more for each factor loopv2; more than seven
    factors of a kind are not seen *)
Definition loops_between (e : estimate) (lo hi : nat) : Prop :=
  exists n m, occurs Kloop e n /\ occurs Kloopv2 e m /\
    lo = (if n <=? 7 then n else 0) /\ hi = lo + (if m <=? 7 then m else 0).

(** the row of a model *)
Definition describes (enum : list str -> list str) (topology : lazy -> res str) (dims : list (str * Z))
  (derivs : list (str * nat)) (symbolic : list (str * estimate)) (d : db) (km : str * lazy) (r : row) : Prop :=
  let (k, m) := km in
  r_op r = k /\ r_completion r = lz_tail m /\ topology m = Ok (r_topology r) /\
  democratic_model_number enum d m = Ok (r_democratic r) /\ stringent_model_number d m = Ok (r_stringent r) /\
  In (k, r_dim r) dims /\ In (k, r_derivs r) derivs /\ In (k, r_symbolic r) symbolic /\
  (exists sc, d_scales d = Some sc /\ In (k, r_scale r) sc) /\
  loops_between (r_symbolic r) (r_min_loops r) (r_max_loops r) /\
  counted "S" (enum (lz_quantum_numbers m)) (r_scalars r) /\ counted "F" (enum (lz_quantum_numbers m)) (r_fermions r) /\
  r_fields r = r_scalars r + r_fermions r.

(** a model as the database keeps it: each interaction sorted *)
Definition in_order (m : lazy) : lazy :=
  mkLazy (lz_quantum_numbers m) (lz_operator m) (map sorted_str (lz_terms m)) (lz_tail m).

(** the rows that stay: the first of the operator with its number, no row of a higher scale has a number that divides
    it, and, below the one-loop scale, none of the given numbers divides it *)
Definition stays (one_loop : Qc) (nums : list Z) (us : list row) (r : row) : Prop :=
  (exists a b, us = a ++ r :: b /\ forall r0, In r0 a -> r_op r0 = r_op r -> r_democratic r0 <> r_democratic r) /\
  (forall r0, In r0 us -> (r_scale r < r_scale r0)%Qc -> ~ (r_democratic r0 | r_democratic r)%Z) /\
  ((one_loop <= r_scale r)%Qc \/ forall x, In x nums -> ~ (x | r_democratic r)%Z).

(** [e] is the first of [l] with the largest value *)
Definition first_leading (value : estimate -> Qc) (l : list estimate) (e : estimate) : Prop :=
  exists a b, l = a ++ e :: b /\ (forall x, In x a -> (value x < value e)%Qc) /\ forall x, In x b -> (value x <= value e)%Qc.

(** the database object [d] with the scales [sc] filled in *)
Definition scaled (d : db) (sc : list (str * Qc)) : db :=
  mkDb (d_philosophy d) (d_criterion d) (d_data d) (d_is_ordered d) (d_exotics d) (d_term_primes d) (Some sc) (d_filter_data d).
