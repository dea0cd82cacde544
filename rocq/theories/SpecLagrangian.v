(** * SpecLagrangian: specification notions for U(1) symmetries and strings of fields *)

From Coq Require Import Ascii String List Bool Arith ZArith QArith Qcanon.
From Verif Require Import Base ModelField.
Import ListNotations.
Local Open Scope nat_scope.

(** ** Fields *)

(** the same field up to history, multiplicity and LaTeX form *)
Definition alike (f g : field) : Prop := hash_data f = hash_data g /\ f_stripped f = f_stripped g.

(** the charges form a dictionary, those of the stripped field too *)
Definition dictionary (f : field) : Prop :=
  NoDup (map fst (f_charges f)) /\ forall s, f_stripped f = Some s -> NoDup (map fst (s_charges s)).

(** no two of the fields are equal for [==] *)
Definition separate (l : list field) : Prop :=
  forall i j f g, nth_error l i = Some f -> nth_error l j = Some g -> i <> j -> field_eqb f g = false.

(** how often a field is in a list *)
Definition times (g : field) (l : list field) : Z := Z.of_nat (List.length (filter (fun f => field_eqb f g) l)).

Definition sign (f : field) : Z := if f_is_conj f then (-1)%Z else 1%Z.

(** occurrences of a field less those of its conjugate *)
Definition net (l : list field) (p : field * field) : Z := (sign (fst p) * (times (fst p) l - times (snd p) l))%Z.

(** ** Charges *)

(** an additive charge: equal fields have the same, the conjugate has the opposite one *)
Definition additive (q : field -> Qc) : Prop :=
  (forall f g, dictionary f -> dictionary g -> field_eqb f g = true -> q f = q g) /\
  forall f g, dictionary f -> conj_field f = Ok g -> q g = (- q f)%Qc.

(** the entry of a charge stored with a field *)
Definition charge (k : str) (f : field) : Qc := match dget str_eqb (f_charges f) k with Some v => v | None => 0%Qc end.

Definition total (q : field -> Qc) (l : list field) : Qc := fold_right (fun f s => (q f + s)%Qc) 0%Qc l.

Definition int (z : Z) : Qc := Q2Qc (inject_Z z).

(** a vector of charges, the sign of a conjugated field taken off *)
Definition vector (q : field -> Qc) (l : list field) : list Qc := map (fun f => (int (sign f) * q f)%Qc) l.

Fixpoint dot (row : list Z) (v : list Qc) : Qc :=
  match row, v with
  | a :: row, x :: v => (int a * x + dot row v)%Qc
  | _, _ => 0%Qc
  end.

(** ** Linear algebra *)

Definition zero (n : nat) : list Qc := repeat 0%Qc n.
Definition plus (v w : list Qc) : list Qc := map (fun p => (fst p + snd p)%Qc) (combine v w).
Definition scale (a : Qc) (v : list Qc) : list Qc := map (fun x => (a * x)%Qc) v.

(** [v] is a linear combination of [b] *)
Inductive spanned (n : nat) : list (list Qc) -> list Qc -> Prop :=
| sp_nil : spanned n [] (zero n)
| sp_cons w b a v : spanned n b v -> spanned n (w :: b) (plus (scale a w) v).

Definition kernel (n : nat) (m : list (list Z)) (v : list Qc) : Prop :=
  List.length v = n /\ Forall (fun row => dot row v = 0%Qc) m.

(** what [Matrix.nullspace] is documented to return on a matrix with [n] columns *)
Definition nullspace_of (n : nat) (m : list (list Z)) (b : list (list Qc)) : Prop := forall v, spanned n b v <-> kernel n m v.

(** ** The columns of the matrix *)

(** [sm] are the six fields of the standard model and [ex] the exotic ones, [smc] and [exc] their conjugates *)
Record setting (sm smc ex exc : list field) : Prop := mkSetting
  { se_sm : mapM conj_field sm = Ok smc; se_ex : mapM conj_field ex = Ok exc; se_six : List.length sm = 6;
    se_separate : separate ((smc ++ sm) ++ (exc ++ ex)); se_dictionaries : Forall dictionary ((smc ++ sm) ++ (exc ++ ex)) }.

Definition known (l : list field) (f : field) : Prop := exists k, In k l /\ alike f k.
Definition stranger (l : list field) (f : field) : Prop := forall k, In k l -> field_eqb f k = false.

(** some exotic field or its conjugate is in the list *)
Definition exotic_in (ex exc : list field) (l : list field) : Prop := exists f k, In f l /\ In k (ex ++ exc) /\ field_eqb k f = true.

(** the Yukawa couplings of the up quarks, the down quarks and the charged leptons, by charges of H, Q, ub, db, L, eb *)
Definition yukawa (v : list Qc) : Prop :=
  exists h q u d l e r, v = [h; q; u; d; l; e] ++ r /\ (h + q + u = 0)%Qc /\ (- h + q + d = 0)%Qc /\ (- h + l + e = 0)%Qc.

(** the charge of the fields [l] when the columns have charges [v] *)
Definition column_charge (l : list field) (columns : list (field * field)) (v : list Qc) : Qc :=
  fold_right (fun p s => (int (net l (fst p)) * snd p + s)%Qc) 0%Qc (combine columns v).
