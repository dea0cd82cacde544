(** * DataSeries: the Hilbert series of tensormethod/hs.py (105-405)

    Generated from the file: each summand as written, with its sign: the coefficient, the power of Nf, the power of D, and the
    functions of X with their powers, in the order written. *)

From Coq Require Import Ascii String List QArith.
Import ListNotations.
Local Open Scope nat_scope.
Local Open Scope string_scope.
Local Open Scope list_scope.

Definition summand := (Q * nat * nat * list (string * nat))%type.

(** tensormethod/hs.py:105-162, a tuple *)
Definition H6 : list summand :=
 [((1 # 1), 0, 0, [("db", 2); ("dbd", 2)]);
  ((1 # 1), 0, 0, [("db", 1); ("dbd", 1); ("eb", 1); ("ebd", 1)]);
  ((1 # 1), 0, 0, [("eb", 2); ("ebd", 2)]);
  ((1 # 1), 0, 0, [("H", 3); ("Hd", 3)]);
  ((-1 # 1), 0, 0, [("eb", 1); ("H", 1); ("Hd", 2); ("L", 1)]);
  ((1 # 1), 0, 0, [("ebd", 1); ("H", 2); ("Hd", 1); ("Ld", 1)]);
  ((1 # 1), 0, 0, [("db", 1); ("dbd", 1); ("L", 1); ("Ld", 1)]);
  ((1 # 1), 0, 0, [("eb", 1); ("ebd", 1); ("L", 1); ("Ld", 1)]);
  ((-1 # 1), 0, 0, [("L", 2); ("Ld", 2)]);
  ((1 # 1), 0, 0, [("db", 1); ("H", 1); ("Hd", 2); ("Q", 1)]);
  ((1 # 1), 0, 0, [("db", 1); ("ebd", 1); ("Ld", 1); ("Q", 1)]);
  ((1 # 1), 0, 0, [("L", 1); ("Q", 3)]);
  ((1 # 1), 0, 0, [("dbd", 1); ("H", 2); ("Hd", 1); ("Qd", 1)]);
  ((-1 # 1), 0, 0, [("dbd", 1); ("eb", 1); ("L", 1); ("Qd", 1)]);
  ((2 # 1), 0, 0, [("db", 1); ("dbd", 1); ("Q", 1); ("Qd", 1)]);
  ((1 # 1), 0, 0, [("eb", 1); ("ebd", 1); ("Q", 1); ("Qd", 1)]);
  ((2 # 1), 0, 0, [("L", 1); ("Ld", 1); ("Q", 1); ("Qd", 1)]);
  ((-2 # 1), 0, 0, [("Q", 2); ("Qd", 2)]);
  ((1 # 1), 0, 0, [("Ld", 1); ("Qd", 3)]);
  ((3 # 1), 0, 1, [("db", 1); ("dbd", 1); ("H", 1); ("Hd", 1)]);
  ((3 # 1), 0, 1, [("eb", 1); ("ebd", 1); ("H", 1); ("Hd", 1)]);
  ((-6 # 1), 0, 1, [("H", 1); ("Hd", 1); ("L", 1); ("Ld", 1)]);
  ((6 # 1), 0, 1, [("H", 1); ("Hd", 1); ("Q", 1); ("Qd", 1)]);
  ((4 # 1), 0, 2, [("H", 2); ("Hd", 2)]);
  ((4 # 1), 0, 2, [("eb", 1); ("Hd", 1); ("L", 1)]);
  ((-4 # 1), 0, 2, [("ebd", 1); ("H", 1); ("Ld", 1)]);
  ((4 # 1), 0, 2, [("db", 1); ("Hd", 1); ("Q", 1)]);
  ((4 # 1), 0, 2, [("dbd", 1); ("H", 1); ("Qd", 1)]);
  ((1 # 1), 0, 3, [("db", 1); ("dbd", 1)]);
  ((-1 # 1), 0, 3, [("eb", 1); ("ebd", 1)]);
  ((1 # 1), 0, 3, [("L", 1); ("Ld", 1)]);
  ((1 # 1), 0, 3, [("Q", 1); ("Qd", 1)]);
  ((1 # 1), 0, 4, [("H", 1); ("Hd", 1)]);
  ((1 # 1), 0, 0, [("H", 2); ("Hd", 1); ("Q", 1); ("ub", 1)]);
  ((-2 # 1), 0, 0, [("eb", 1); ("L", 1); ("Q", 1); ("ub", 1)]);
  ((2 # 1), 0, 0, [("db", 1); ("Q", 2); ("ub", 1)]);
  ((1 # 1), 0, 0, [("db", 1); ("Ld", 1); ("Qd", 1); ("ub", 1)]);
  ((1 # 1), 0, 0, [("eb", 1); ("Qd", 2); ("ub", 1)]);
  ((-1 # 1), 0, 1, [("dbd", 1); ("H", 2); ("ub", 1)]);
  ((4 # 1), 0, 2, [("H", 1); ("Q", 1); ("ub", 1)]);
  ((1 # 1), 0, 0, [("db", 1); ("eb", 1); ("ub", 2)]);
  ((1 # 1), 0, 0, [("dbd", 1); ("L", 1); ("Q", 1); ("ubd", 1)]);
  ((-1 # 1), 0, 0, [("ebd", 1); ("Q", 2); ("ubd", 1)]);
  ((1 # 1), 0, 0, [("H", 1); ("Hd", 2); ("Qd", 1); ("ubd", 1)]);
  ((2 # 1), 0, 0, [("ebd", 1); ("Ld", 1); ("Qd", 1); ("ubd", 1)]);
  ((2 # 1), 0, 0, [("dbd", 1); ("Qd", 2); ("ubd", 1)]);
  ((-1 # 1), 0, 1, [("db", 1); ("Hd", 2); ("ubd", 1)]);
  ((4 # 1), 0, 2, [("Hd", 1); ("Qd", 1); ("ubd", 1)]);
  ((2 # 1), 0, 0, [("db", 1); ("dbd", 1); ("ub", 1); ("ubd", 1)]);
  ((1 # 1), 0, 0, [("eb", 1); ("ebd", 1); ("ub", 1); ("ubd", 1)]);
  ((-1 # 1), 0, 0, [("L", 1); ("Ld", 1); ("ub", 1); ("ubd", 1)]);
  ((2 # 1), 0, 0, [("Q", 1); ("Qd", 1); ("ub", 1); ("ubd", 1)]);
  ((3 # 1), 0, 1, [("H", 1); ("Hd", 1); ("ub", 1); ("ubd", 1)]);
  ((1 # 1), 0, 3, [("ub", 1); ("ubd", 1)]);
  ((-1 # 1), 0, 0, [("dbd", 1); ("ebd", 1); ("ubd", 2)]);
  ((1 # 1), 0, 0, [("ub", 2); ("ubd", 2)])].

(** tensormethod/hs.py:164-180 *)
Definition H7_LNV : list summand :=
 [((1 # 1), 2, 1, [("ebd", 1); ("H", 3); ("L", 1)]);
  ((1 # 1), 1, 2, [("H", 2); ("L", 2)]);
  ((1 # 1), 2, 2, [("H", 2); ("L", 2)]);
  ((-1 # 2), 1, 0, [("B", 1); ("H", 2); ("L", 2)]);
  ((-1 # 2), 2, 0, [("B", 1); ("H", 2); ("L", 2)]);
  ((1 # 2), 1, 0, [("H", 3); ("Hd", 1); ("L", 2)]);
  ((1 # 2), 2, 0, [("H", 3); ("Hd", 1); ("L", 2)]);
  ((-1 # 3), 2, 0, [("eb", 1); ("H", 1); ("L", 3)]);
  ((2 # 3), 4, 0, [("eb", 1); ("H", 1); ("L", 3)]);
  ((2 # 1), 4, 0, [("db", 1); ("H", 1); ("L", 2); ("Q", 1)]);
  ((-1 # 1), 4, 0, [("db", 1); ("ebd", 1); ("H", 1); ("L", 1); ("ubd", 1)]);
  ((1 # 2), 3, 1, [("db", 1); ("L", 2); ("ubd", 1)]);
  ((1 # 2), 4, 1, [("db", 1); ("L", 2); ("ubd", 1)]);
  ((-1 # 1), 4, 0, [("H", 1); ("L", 2); ("Qd", 1); ("ubd", 1)]);
  ((1 # 1), 2, 0, [("H", 2); ("L", 2); ("W", 1)])].

(** tensormethod/hs.py:182-305 *)
Definition H9_LNV : list summand :=
 [((1 # 2), 1, 2, [("ebd", 2); ("H", 4)]);
  ((1 # 2), 2, 2, [("ebd", 2); ("H", 4)]);
  ((3 # 1), 2, 3, [("ebd", 1); ("H", 3); ("L", 1)]);
  ((-1 # 1), 2, 1, [("B", 1); ("ebd", 1); ("H", 3); ("L", 1)]);
  ((1 # 1), 2, 1, [("Bb", 1); ("ebd", 1); ("H", 3); ("L", 1)]);
  ((1 # 1), 2, 1, [("ebd", 1); ("H", 4); ("Hd", 1); ("L", 1)]);
  ((-3 # 2), 1, 4, [("H", 2); ("L", 2)]);
  ((3 # 2), 2, 4, [("H", 2); ("L", 2)]);
  ((-1 # 2), 1, 2, [("B", 1); ("H", 2); ("L", 2)]);
  ((-7 # 2), 2, 2, [("B", 1); ("H", 2); ("L", 2)]);
  ((1 # 2), 1, 0, [("B", 2); ("H", 2); ("L", 2)]);
  ((1 # 2), 2, 0, [("B", 2); ("H", 2); ("L", 2)]);
  ((1 # 1), 1, 2, [("Bb", 1); ("H", 2); ("L", 2)]);
  ((2 # 1), 2, 2, [("Bb", 1); ("H", 2); ("L", 2)]);
  ((1 # 2), 1, 0, [("Bb", 2); ("H", 2); ("L", 2)]);
  ((-1 # 2), 2, 0, [("Bb", 2); ("H", 2); ("L", 2)]);
  ((-1 # 2), 3, 1, [("db", 1); ("dbd", 1); ("H", 2); ("L", 2)]);
  ((-5 # 2), 4, 1, [("db", 1); ("dbd", 1); ("H", 2); ("L", 2)]);
  ((-1 # 2), 3, 1, [("eb", 1); ("ebd", 1); ("H", 2); ("L", 2)]);
  ((-5 # 2), 4, 1, [("eb", 1); ("ebd", 1); ("H", 2); ("L", 2)]);
  ((1 # 2), 1, 0, [("G", 2); ("H", 2); ("L", 2)]);
  ((1 # 2), 2, 0, [("G", 2); ("H", 2); ("L", 2)]);
  ((-1 # 2), 1, 0, [("Gb", 2); ("H", 2); ("L", 2)]);
  ((1 # 2), 2, 0, [("Gb", 2); ("H", 2); ("L", 2)]);
  ((1 # 2), 1, 2, [("H", 3); ("Hd", 1); ("L", 2)]);
  ((-11 # 2), 2, 2, [("H", 3); ("Hd", 1); ("L", 2)]);
  ((-1 # 2), 1, 0, [("B", 1); ("H", 3); ("Hd", 1); ("L", 2)]);
  ((-1 # 2), 2, 0, [("B", 1); ("H", 3); ("Hd", 1); ("L", 2)]);
  ((1 # 2), 1, 0, [("H", 4); ("Hd", 2); ("L", 2)]);
  ((1 # 2), 2, 0, [("H", 4); ("Hd", 2); ("L", 2)]);
  ((1 # 3), 2, 2, [("eb", 1); ("H", 1); ("L", 3)]);
  ((10 # 3), 4, 2, [("eb", 1); ("H", 1); ("L", 3)]);
  ((1 # 1), 4, 0, [("B", 1); ("eb", 1); ("H", 1); ("L", 3)]);
  ((-1 # 1), 4, 0, [("eb", 1); ("H", 2); ("Hd", 1); ("L", 3)]);
  ((13 # 24), 3, 0, [("eb", 2); ("L", 4)]);
  ((7 # 24), 4, 0, [("eb", 2); ("L", 4)]);
  ((1 # 24), 5, 0, [("eb", 2); ("L", 4)]);
  ((5 # 24), 6, 0, [("eb", 2); ("L", 4)]);
  ((1 # 2), 3, 0, [("ebd", 1); ("H", 3); ("L", 2); ("Ld", 1)]);
  ((-1 # 2), 4, 0, [("ebd", 1); ("H", 3); ("L", 2); ("Ld", 1)]);
  ((1 # 3), 2, 1, [("H", 2); ("L", 3); ("Ld", 1)]);
  ((-1 # 2), 3, 1, [("H", 2); ("L", 3); ("Ld", 1)]);
  ((-13 # 6), 4, 1, [("H", 2); ("L", 3); ("Ld", 1)]);
  ((5 # 1), 4, 1, [("db", 1); ("ebd", 1); ("H", 2); ("L", 1); ("Q", 1)]);
  ((-10 # 1), 4, 2, [("db", 1); ("H", 1); ("L", 2); ("Q", 1)]);
  ((3 # 1), 4, 0, [("B", 1); ("db", 1); ("H", 1); ("L", 2); ("Q", 1)]);
  ((3 # 1), 4, 0, [("db", 1); ("G", 1); ("H", 1); ("L", 2); ("Q", 1)]);
  ((-3 # 1), 4, 0, [("db", 1); ("H", 2); ("Hd", 1); ("L", 2); ("Q", 1)]);
  ((1 # 3), 4, 0, [("db", 1); ("eb", 1); ("L", 3); ("Q", 1)]);
  ((-5 # 3), 6, 0, [("db", 1); ("eb", 1); ("L", 3); ("Q", 1)]);
  ((3 # 2), 3, 0, [("db", 2); ("L", 2); ("Q", 2)]);
  ((-5 # 2), 6, 0, [("db", 2); ("L", 2); ("Q", 2)]);
  ((1 # 2), 3, 0, [("dbd", 1); ("H", 3); ("L", 2); ("Qd", 1)]);
  ((-1 # 2), 4, 0, [("dbd", 1); ("H", 3); ("L", 2); ("Qd", 1)]);
  ((1 # 1), 4, 0, [("ebd", 1); ("H", 3); ("L", 1); ("Q", 1); ("Qd", 1)]);
  ((1 # 2), 3, 1, [("H", 2); ("L", 2); ("Q", 1); ("Qd", 1)]);
  ((13 # 2), 4, 1, [("H", 2); ("L", 2); ("Q", 1); ("Qd", 1)]);
  ((-1 # 1), 4, 0, [("H", 3); ("L", 2); ("Q", 1); ("ub", 1)]);
  ((1 # 1), 4, 1, [("db", 1); ("ebd", 2); ("H", 2); ("ubd", 1)]);
  ((-7 # 1), 4, 2, [("db", 1); ("ebd", 1); ("H", 1); ("L", 1); ("ubd", 1)]);
  ((1 # 1), 4, 0, [("B", 1); ("db", 1); ("ebd", 1); ("H", 1); ("L", 1); ("ubd", 1)]);
  ((-1 # 1), 4, 0, [("Bb", 1); ("db", 1); ("ebd", 1); ("H", 1); ("L", 1); ("ubd", 1)]);
  ((1 # 1), 4, 0, [("db", 1); ("ebd", 1); ("G", 1); ("H", 1); ("L", 1); ("ubd", 1)]);
  ((-1 # 1), 4, 0, [("db", 1); ("ebd", 1); ("Gb", 1); ("H", 1); ("L", 1); ("ubd", 1)]);
  ((1 # 1), 4, 0, [("db", 1); ("ebd", 1); ("H", 2); ("Hd", 1); ("L", 1); ("ubd", 1)]);
  ((-1 # 1), 4, 3, [("db", 1); ("L", 2); ("ubd", 1)]);
  ((2 # 1), 4, 1, [("B", 1); ("db", 1); ("L", 2); ("ubd", 1)]);
  ((1 # 2), 3, 1, [("Bb", 1); ("db", 1); ("L", 2); ("ubd", 1)]);
  ((-3 # 2), 4, 1, [("Bb", 1); ("db", 1); ("L", 2); ("ubd", 1)]);
  ((1 # 1), 6, 0, [("db", 2); ("dbd", 1); ("L", 2); ("ubd", 1)]);
  ((-1 # 1), 6, 0, [("db", 1); ("eb", 1); ("ebd", 1); ("L", 2); ("ubd", 1)]);
  ((2 # 1), 4, 1, [("db", 1); ("G", 1); ("L", 2); ("ubd", 1)]);
  ((-1 # 2), 3, 1, [("db", 1); ("Gb", 1); ("L", 2); ("ubd", 1)]);
  ((3 # 2), 4, 1, [("db", 1); ("Gb", 1); ("L", 2); ("ubd", 1)]);
  ((-5 # 1), 4, 1, [("db", 1); ("H", 1); ("Hd", 1); ("L", 2); ("ubd", 1)]);
  ((1 # 3), 4, 0, [("db", 1); ("L", 3); ("Ld", 1); ("ubd", 1)]);
  ((-2 # 3), 6, 0, [("db", 1); ("L", 3); ("Ld", 1); ("ubd", 1)]);
  ((2 # 1), 6, 0, [("db", 2); ("ebd", 1); ("L", 1); ("Q", 1); ("ubd", 1)]);
  ((-5 # 1), 4, 1, [("ebd", 1); ("H", 2); ("L", 1); ("Qd", 1); ("ubd", 1)]);
  ((7 # 1), 4, 2, [("H", 1); ("L", 2); ("Qd", 1); ("ubd", 1)]);
  ((-1 # 1), 4, 0, [("B", 1); ("H", 1); ("L", 2); ("Qd", 1); ("ubd", 1)]);
  ((1 # 1), 4, 0, [("Bb", 1); ("H", 1); ("L", 2); ("Qd", 1); ("ubd", 1)]);
  ((1 # 1), 4, 0, [("G", 1); ("H", 1); ("L", 2); ("Qd", 1); ("ubd", 1)]);
  ((-1 # 1), 4, 0, [("Gb", 1); ("H", 1); ("L", 2); ("Qd", 1); ("ubd", 1)]);
  ((1 # 2), 3, 0, [("H", 2); ("Hd", 1); ("L", 2); ("Qd", 1); ("ubd", 1)]);
  ((-3 # 2), 4, 0, [("H", 2); ("Hd", 1); ("L", 2); ("Qd", 1); ("ubd", 1)]);
  ((1 # 3), 4, 0, [("eb", 1); ("L", 3); ("Qd", 1); ("ubd", 1)]);
  ((-2 # 3), 6, 0, [("eb", 1); ("L", 3); ("Qd", 1); ("ubd", 1)]);
  ((4 # 1), 6, 0, [("db", 1); ("L", 2); ("Q", 1); ("Qd", 1); ("ubd", 1)]);
  ((1 # 2), 3, 1, [("H", 2); ("L", 2); ("ub", 1); ("ubd", 1)]);
  ((5 # 2), 4, 1, [("H", 2); ("L", 2); ("ub", 1); ("ubd", 1)]);
  ((-1 # 2), 3, 0, [("db", 2); ("ebd", 2); ("ubd", 2)]);
  ((1 # 2), 6, 0, [("db", 2); ("ebd", 2); ("ubd", 2)]);
  ((-2 # 1), 6, 0, [("db", 1); ("ebd", 1); ("L", 1); ("Qd", 1); ("ubd", 2)]);
  ((1 # 1), 3, 0, [("L", 2); ("Qd", 2); ("ubd", 2)]);
  ((1 # 1), 6, 0, [("L", 2); ("Qd", 2); ("ubd", 2)]);
  ((-1 # 1), 6, 0, [("db", 1); ("L", 2); ("ub", 1); ("ubd", 2)]);
  ((2 # 1), 2, 1, [("ebd", 1); ("H", 3); ("L", 1); ("W", 1)]);
  ((5 # 1), 2, 2, [("H", 2); ("L", 2); ("W", 1)]);
  ((-2 # 1), 2, 0, [("B", 1); ("H", 2); ("L", 2); ("W", 1)]);
  ((-1 # 2), 1, 0, [("H", 3); ("Hd", 1); ("L", 2); ("W", 1)]);
  ((3 # 2), 2, 0, [("H", 3); ("Hd", 1); ("L", 2); ("W", 1)]);
  ((1 # 2), 3, 0, [("eb", 1); ("H", 1); ("L", 3); ("W", 1)]);
  ((3 # 2), 4, 0, [("eb", 1); ("H", 1); ("L", 3); ("W", 1)]);
  ((-1 # 2), 3, 0, [("db", 1); ("H", 1); ("L", 2); ("Q", 1); ("W", 1)]);
  ((-9 # 2), 4, 0, [("db", 1); ("H", 1); ("L", 2); ("Q", 1); ("W", 1)]);
  ((1 # 1), 4, 0, [("db", 1); ("ebd", 1); ("H", 1); ("L", 1); ("ubd", 1); ("W", 1)]);
  ((-2 # 1), 4, 1, [("db", 1); ("L", 2); ("ubd", 1); ("W", 1)]);
  ((-1 # 2), 3, 0, [("H", 1); ("L", 2); ("Qd", 1); ("ubd", 1); ("W", 1)]);
  ((-3 # 2), 4, 0, [("H", 1); ("L", 2); ("Qd", 1); ("ubd", 1); ("W", 1)]);
  ((1 # 1), 1, 0, [("H", 2); ("L", 2); ("W", 2)]);
  ((2 # 1), 2, 0, [("H", 2); ("L", 2); ("W", 2)]);
  ((-2 # 1), 2, 1, [("ebd", 1); ("H", 3); ("L", 1); ("Wb", 1)]);
  ((3 # 1), 2, 2, [("H", 2); ("L", 2); ("Wb", 1)]);
  ((1 # 1), 2, 0, [("Bb", 1); ("H", 2); ("L", 2); ("Wb", 1)]);
  ((-1 # 1), 4, 0, [("db", 1); ("ebd", 1); ("H", 1); ("L", 1); ("ubd", 1); ("Wb", 1)]);
  ((-1 # 2), 3, 1, [("db", 1); ("L", 2); ("ubd", 1); ("Wb", 1)]);
  ((-3 # 2), 4, 1, [("db", 1); ("L", 2); ("ubd", 1); ("Wb", 1)]);
  ((1 # 2), 3, 0, [("H", 1); ("L", 2); ("Qd", 1); ("ubd", 1); ("Wb", 1)]);
  ((-3 # 2), 4, 0, [("H", 1); ("L", 2); ("Qd", 1); ("ubd", 1); ("Wb", 1)]);
  ((1 # 1), 1, 0, [("H", 2); ("L", 2); ("Wb", 2)]);
  ((1 # 1), 2, 0, [("H", 2); ("L", 2); ("Wb", 2)])].

(** tensormethod/hs.py:308-405 *)
Definition H11_LNV : list summand :=
 [((1 # 2), 3, 0, [("db", 2); ("dbd", 2); ("H", 2); ("L", 2)]);
  ((1 # 2), 6, 0, [("db", 2); ("dbd", 2); ("H", 2); ("L", 2)]);
  ((-1 # 1), 6, 0, [("db", 1); ("dbd", 1); ("eb", 1); ("ebd", 1); ("H", 2); ("L", 2)]);
  ((1 # 4), 3, 0, [("eb", 2); ("ebd", 2); ("H", 2); ("L", 2)]);
  ((-1 # 4), 4, 0, [("eb", 2); ("ebd", 2); ("H", 2); ("L", 2)]);
  ((1 # 4), 5, 0, [("eb", 2); ("ebd", 2); ("H", 2); ("L", 2)]);
  ((-1 # 4), 6, 0, [("eb", 2); ("ebd", 2); ("H", 2); ("L", 2)]);
  ((1 # 2), 1, 0, [("H", 5); ("Hd", 3); ("L", 2)]);
  ((-1 # 2), 2, 0, [("H", 5); ("Hd", 3); ("L", 2)]);
  ((1 # 1), 4, 0, [("eb", 1); ("H", 3); ("Hd", 2); ("L", 3)]);
  ((1 # 8), 2, 0, [("eb", 2); ("H", 1); ("Hd", 1); ("L", 4)]);
  ((-11 # 48), 3, 0, [("eb", 2); ("H", 1); ("Hd", 1); ("L", 4)]);
  ((17 # 48), 4, 0, [("eb", 2); ("H", 1); ("Hd", 1); ("L", 4)]);
  ((11 # 48), 5, 0, [("eb", 2); ("H", 1); ("Hd", 1); ("L", 4)]);
  ((25 # 48), 6, 0, [("eb", 2); ("H", 1); ("Hd", 1); ("L", 4)]);
  ((-1 # 2), 3, 0, [("ebd", 1); ("H", 4); ("Hd", 1); ("L", 2); ("Ld", 1)]);
  ((1 # 2), 4, 0, [("ebd", 1); ("H", 4); ("Hd", 1); ("L", 2); ("Ld", 1)]);
  ((-1 # 1), 6, 0, [("db", 1); ("dbd", 1); ("H", 2); ("L", 3); ("Ld", 1)]);
  ((1 # 1), 6, 0, [("eb", 1); ("ebd", 1); ("H", 2); ("L", 3); ("Ld", 1)]);
  ((-3 # 8), 3, 0, [("H", 2); ("L", 4); ("Ld", 2)]);
  ((1 # 8), 4, 0, [("H", 2); ("L", 4); ("Ld", 2)]);
  ((1 # 8), 5, 0, [("H", 2); ("L", 4); ("Ld", 2)]);
  ((-3 # 8), 6, 0, [("H", 2); ("L", 4); ("Ld", 2)]);
  ((2 # 1), 6, 0, [("db", 2); ("dbd", 1); ("ebd", 1); ("H", 2); ("L", 1); ("Q", 1)]);
  ((-1 # 1), 5, 0, [("db", 1); ("eb", 1); ("ebd", 2); ("H", 2); ("L", 1); ("Q", 1)]);
  ((1 # 1), 6, 0, [("db", 1); ("eb", 1); ("ebd", 2); ("H", 2); ("L", 1); ("Q", 1)]);
  ((-3 # 1), 4, 0, [("db", 1); ("H", 3); ("Hd", 2); ("L", 2); ("Q", 1)]);
  ((1 # 3), 4, 0, [("db", 1); ("eb", 1); ("H", 1); ("Hd", 1); ("L", 3); ("Q", 1)]);
  ((1 # 2), 5, 0, [("db", 1); ("eb", 1); ("H", 1); ("Hd", 1); ("L", 3); ("Q", 1)]);
  ((25 # 6), 6, 0, [("db", 1); ("eb", 1); ("H", 1); ("Hd", 1); ("L", 3); ("Q", 1)]);
  ((-3 # 1), 6, 0, [("db", 1); ("ebd", 1); ("H", 2); ("L", 2); ("Ld", 1); ("Q", 1)]);
  ((1 # 2), 3, 0, [("db", 2); ("ebd", 2); ("H", 2); ("Q", 2)]);
  ((-1 # 2), 4, 0, [("db", 2); ("ebd", 2); ("H", 2); ("Q", 2)]);
  ((1 # 2), 5, 0, [("db", 2); ("ebd", 2); ("H", 2); ("Q", 2)]);
  ((-1 # 2), 6, 0, [("db", 2); ("ebd", 2); ("H", 2); ("Q", 2)]);
  ((3 # 4), 3, 0, [("db", 2); ("H", 1); ("Hd", 1); ("L", 2); ("Q", 2)]);
  ((-1 # 4), 4, 0, [("db", 2); ("H", 1); ("Hd", 1); ("L", 2); ("Q", 2)]);
  ((-1 # 4), 5, 0, [("db", 2); ("H", 1); ("Hd", 1); ("L", 2); ("Q", 2)]);
  ((-25 # 4), 6, 0, [("db", 2); ("H", 1); ("Hd", 1); ("L", 2); ("Q", 2)]);
  ((1 # 2), 3, 0, [("dbd", 1); ("H", 4); ("Hd", 1); ("L", 2); ("Qd", 1)]);
  ((-1 # 2), 4, 0, [("dbd", 1); ("H", 4); ("Hd", 1); ("L", 2); ("Qd", 1)]);
  ((1 # 1), 6, 0, [("dbd", 1); ("eb", 1); ("H", 2); ("L", 3); ("Qd", 1)]);
  ((-1 # 1), 4, 0, [("ebd", 1); ("H", 4); ("Hd", 1); ("L", 1); ("Q", 1); ("Qd", 1)]);
  ((6 # 1), 6, 0, [("db", 1); ("dbd", 1); ("H", 2); ("L", 2); ("Q", 1); ("Qd", 1)]);
  ((-3 # 1), 6, 0, [("eb", 1); ("ebd", 1); ("H", 2); ("L", 2); ("Q", 1); ("Qd", 1)]);
  ((3 # 1), 6, 0, [("H", 2); ("L", 3); ("Ld", 1); ("Q", 1); ("Qd", 1)]);
  ((-6 # 1), 6, 0, [("db", 1); ("ebd", 1); ("H", 2); ("L", 1); ("Q", 2); ("Qd", 1)]);
  ((3 # 2), 3, 0, [("H", 2); ("L", 2); ("Q", 2); ("Qd", 2)]);
  ((-9 # 2), 6, 0, [("H", 2); ("L", 2); ("Q", 2); ("Qd", 2)]);
  ((1 # 1), 4, 0, [("H", 4); ("Hd", 1); ("L", 2); ("Q", 1); ("ub", 1)]);
  ((1 # 2), 5, 0, [("eb", 1); ("H", 2); ("L", 3); ("Q", 1); ("ub", 1)]);
  ((5 # 2), 6, 0, [("eb", 1); ("H", 2); ("L", 3); ("Q", 1); ("ub", 1)]);
  ((1 # 2), 5, 0, [("db", 1); ("H", 2); ("L", 2); ("Q", 2); ("ub", 1)]);
  ((15 # 2), 6, 0, [("db", 1); ("H", 2); ("L", 2); ("Q", 2); ("ub", 1)]);
  ((-1 # 1), 4, 0, [("db", 1); ("ebd", 1); ("H", 3); ("Hd", 2); ("L", 1); ("ubd", 1)]);
  ((2 # 1), 6, 0, [("db", 2); ("dbd", 1); ("H", 1); ("Hd", 1); ("L", 2); ("ubd", 1)]);
  ((-2 # 1), 6, 0, [("db", 1); ("eb", 1); ("ebd", 1); ("H", 1); ("Hd", 1); ("L", 2); ("ubd", 1)]);
  ((1 # 1), 6, 0, [("db", 1); ("ebd", 2); ("H", 2); ("L", 1); ("Ld", 1); ("ubd", 1)]);
  ((-1 # 3), 4, 0, [("db", 1); ("H", 1); ("Hd", 1); ("L", 3); ("Ld", 1); ("ubd", 1)]);
  ((5 # 3), 6, 0, [("db", 1); ("H", 1); ("Hd", 1); ("L", 3); ("Ld", 1); ("ubd", 1)]);
  ((-4 # 1), 6, 0, [("db", 2); ("ebd", 1); ("H", 1); ("Hd", 1); ("L", 1); ("Q", 1); ("ubd", 1)]);
  ((4 # 1), 6, 0, [("db", 1); ("dbd", 1); ("ebd", 1); ("H", 2); ("L", 1); ("Qd", 1); ("ubd", 1)]);
  ((-1 # 1), 6, 0, [("eb", 1); ("ebd", 2); ("H", 2); ("L", 1); ("Qd", 1); ("ubd", 1)]);
  ((1 # 2), 3, 0, [("H", 3); ("Hd", 2); ("L", 2); ("Qd", 1); ("ubd", 1)]);
  ((-3 # 2), 4, 0, [("H", 3); ("Hd", 2); ("L", 2); ("Qd", 1); ("ubd", 1)]);
  ((1 # 3), 4, 0, [("eb", 1); ("H", 1); ("Hd", 1); ("L", 3); ("Qd", 1); ("ubd", 1)]);
  ((-5 # 3), 6, 0, [("eb", 1); ("H", 1); ("Hd", 1); ("L", 3); ("Qd", 1); ("ubd", 1)]);
  ((1 # 1), 5, 0, [("ebd", 1); ("H", 2); ("L", 2); ("Ld", 1); ("Qd", 1); ("ubd", 1)]);
  ((-3 # 1), 6, 0, [("ebd", 1); ("H", 2); ("L", 2); ("Ld", 1); ("Qd", 1); ("ubd", 1)]);
  ((2 # 1), 6, 0, [("db", 1); ("ebd", 2); ("H", 2); ("Q", 1); ("Qd", 1); ("ubd", 1)]);
  ((-10 # 1), 6, 0, [("db", 1); ("H", 1); ("Hd", 1); ("L", 2); ("Q", 1); ("Qd", 1); ("ubd", 1)]);
  ((1 # 1), 5, 0, [("dbd", 1); ("H", 2); ("L", 2); ("Qd", 2); ("ubd", 1)]);
  ((-3 # 1), 6, 0, [("dbd", 1); ("H", 2); ("L", 2); ("Qd", 2); ("ubd", 1)]);
  ((6 # 1), 6, 0, [("ebd", 1); ("H", 2); ("L", 1); ("Q", 1); ("Qd", 2); ("ubd", 1)]);
  ((-2 # 1), 6, 0, [("db", 1); ("dbd", 1); ("H", 2); ("L", 2); ("ub", 1); ("ubd", 1)]);
  ((1 # 1), 6, 0, [("eb", 1); ("ebd", 1); ("H", 2); ("L", 2); ("ub", 1); ("ubd", 1)]);
  ((-1 # 1), 6, 0, [("H", 2); ("L", 3); ("Ld", 1); ("ub", 1); ("ubd", 1)]);
  ((4 # 1), 6, 0, [("db", 1); ("ebd", 1); ("H", 2); ("L", 1); ("Q", 1); ("ub", 1); ("ubd", 1)]);
  ((-6 # 1), 6, 0, [("H", 2); ("L", 2); ("Q", 1); ("Qd", 1); ("ub", 1); ("ubd", 1)]);
  ((1 # 2), 3, 0, [("db", 2); ("ebd", 2); ("H", 1); ("Hd", 1); ("ubd", 2)]);
  ((-1 # 2), 6, 0, [("db", 2); ("ebd", 2); ("H", 1); ("Hd", 1); ("ubd", 2)]);
  ((1 # 2), 3, 0, [("db", 2); ("Hd", 2); ("L", 2); ("ubd", 2)]);
  ((-1 # 2), 6, 0, [("db", 2); ("Hd", 2); ("L", 2); ("ubd", 2)]);
  ((4 # 1), 6, 0, [("db", 1); ("ebd", 1); ("H", 1); ("Hd", 1); ("L", 1); ("Qd", 1); ("ubd", 2)]);
  ((-3 # 4), 3, 0, [("ebd", 2); ("H", 2); ("Qd", 2); ("ubd", 2)]);
  ((1 # 4), 4, 0, [("ebd", 2); ("H", 2); ("Qd", 2); ("ubd", 2)]);
  ((1 # 4), 5, 0, [("ebd", 2); ("H", 2); ("Qd", 2); ("ubd", 2)]);
  ((5 # 4), 6, 0, [("ebd", 2); ("H", 2); ("Qd", 2); ("ubd", 2)]);
  ((-1 # 2), 3, 0, [("H", 1); ("Hd", 1); ("L", 2); ("Qd", 2); ("ubd", 2)]);
  ((1 # 2), 4, 0, [("H", 1); ("Hd", 1); ("L", 2); ("Qd", 2); ("ubd", 2)]);
  ((-1 # 2), 5, 0, [("H", 1); ("Hd", 1); ("L", 2); ("Qd", 2); ("ubd", 2)]);
  ((5 # 2), 6, 0, [("H", 1); ("Hd", 1); ("L", 2); ("Qd", 2); ("ubd", 2)]);
  ((-2 # 1), 6, 0, [("db", 1); ("H", 1); ("Hd", 1); ("L", 2); ("ub", 1); ("ubd", 2)]);
  ((2 # 1), 6, 0, [("ebd", 1); ("H", 2); ("L", 1); ("Qd", 1); ("ub", 1); ("ubd", 2)]);
  ((-1 # 2), 3, 0, [("H", 2); ("L", 2); ("ub", 2); ("ubd", 2)]);
  ((1 # 2), 6, 0, [("H", 2); ("L", 2); ("ub", 2); ("ubd", 2)])].
