(** * SpecFunctions: specification notions for utils/functions.py (no model helper is used) *)

From Coq Require Import Ascii String List Bool Arith ZArith QArith Qcanon.
From Verif Require Import Base Show.
Import ListNotations.

(** Scan from left to right and keep an element unless some element kept before is [eq] to it. *)
Fixpoint keep_first {T} (eq : T -> T -> bool) (kept l : list T) : list T :=
  match l with
  | [] => []
  | x :: r => if existsb (fun y => eq y x) kept then keep_first eq kept r
              else x :: keep_first eq (kept ++ [x]) r
  end.

(** Exotic field content as data: Lorentz letter, colour Dynkin digits, isospin, hypercharge and 3B as
    rational numbers. *)
Record exotic := mkExotic { e_lor : str; e_col : str; e_iso : str; e_hyp : Qc; e_bar : Qc }.

(** the string "lor,col,iso,hyp,bar" of an exotic *)
Definition print_exotic (e : exotic) : str :=
  join (lit ",") [e_lor e; e_col e; e_iso e; show_Q (e_hyp e); show_Q (e_bar e)].

(** hermitian conjugation of the data: colour labels exchanged, both charges negated *)
Definition conj_exotic (e : exotic) : exotic :=
  mkExotic (e_lor e) (rev (e_col e)) (e_iso e) (- e_hyp e)%Qc (- e_bar e)%Qc.

Definition exotic_ok (e : exotic) : Prop :=
  ~ In ","%char (e_lor e) /\ ~ In ","%char (e_col e) /\ ~ In ","%char (e_iso e).

Inductive sm_field := fL | fH | fQ | fub | fdb | feb.

Definition sm_name (f : sm_field) : str :=
  match f with fL => lit "L" | fH => lit "H" | fQ => lit "Q" | fub => lit "ub" | fdb => lit "db"
             | feb => lit "eb" end.

(** A field of an interaction term: a Standard Model field (conjugated or not) or an exotic. *)
Inductive qfield :=
| SM (f : sm_field) (conjugated : bool)
| Ex (e : exotic).

Definition qfield_ok (f : qfield) : Prop :=
  match f with SM _ _ => True | Ex e => exotic_ok e end.

Definition print_field (f : qfield) : str :=
  match f with
  | SM f c => sm_name f ++ (if c then lit ".conj" else [])
  | Ex e => print_exotic e
  end.

Definition conj_qfield (f : qfield) : qfield :=
  match f with
  | SM f c => SM f (negb c)
  | Ex e => Ex (conj_exotic e)
  end.

(** the well-formed field strings *)
Definition field_string (x : str) : Prop := exists f, qfield_ok f /\ x = print_field f.
