(** * SpecIndex: specification notions for tensor indices *)

From Coq Require Import Ascii String List Bool Arith ZArith.
From Verif Require Import Base Show ModelIndex.
Import ListNotations.
Local Open Scope nat_scope.

(** The documented form of a label: an optional minus sign (lowered), an optional underscore (automatic name),
    the letter of the type, and anything. *)
Definition letter (t : itype) : ascii :=
  match t with Undotted => "u" | Dotted => "d" | Colour => "c" | Isospin => "i" | Generation => "g" end.

Definition spelled (low auto : bool) (t : itype) (rest : str) : str :=
  (if low then ["-"%char] else []) ++ (if auto then ["_"%char] else []) ++ letter t :: rest.

(** the type exchanged by conjugation *)
Definition conj_type (t : itype) : itype :=
  match t with Undotted => Dotted | Dotted => Undotted | t => t end.

(** types and heights of the indices of a field with Dynkin labels a b c d e, in canonical order *)
Definition canonical (a b c d e : nat) : list (itype * bool) :=
  repeat (Undotted, true) a ++ repeat (Dotted, true) b ++ repeat (Colour, true) c ++ repeat (Colour, false) d ++
  repeat (Isospin, true) e.

(** the decimal digit of a number below ten *)
Definition digit (n : nat) : ascii := ascii_of_nat (48 + n).

(** how many entries of a list of indices have a given type and height *)
Definition count_kind (t : itype) (up : bool) (l : list index) : nat :=
  List.length (filter (fun i => match ix_type i, t with
                                | Undotted, Undotted | Dotted, Dotted | Colour, Colour | Isospin, Isospin
                                | Generation, Generation => Bool.eqb (ix_up i) up
                                | _, _ => false end) l).
