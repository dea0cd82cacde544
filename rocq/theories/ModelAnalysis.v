(** * ModelAnalysis: mixing matrices and couplings, analysis/utils.py and analysis/flavour_anomalies.py

    Floating-point and symbolic numbers are modelled by exact numbers, whose operations are the fields of a record. *)

From Coq Require Import Ascii String List Bool Arith QArith Qcanon.
From Verif Require Import Base.
Import ListNotations.
Local Open Scope nat_scope.

Record numbers := mkNumbers {
  num :> Type;
  n0 : num; n1 : num; nj : num;                         (* 0.0, 1.0, 1j *)
  nadd : num -> num -> num; nmul : num -> num -> num; nsub : num -> num -> num; nopp : num -> num; ndiv : num -> num -> num; ninv : num -> num;
  nconj : num -> num; nexp : num -> num; nsqrt : num -> num; ncos : num -> num; nsin : num -> num;
  nrad : num -> num;                                    (* np.deg2rad *)
  nlit : Qc -> num                                      (* decimal literals *)
}.

Definition dec (a : Z) (b : positive) : Qc := Q2Qc (Qmake a b).

Section Numbers.
  Context (N : numbers).
  Local Notation "x + y" := (nadd N x y).
  Local Notation "x * y" := (nmul N x y).
  Local Notation "x - y" := (nsub N x y).
  Local Notation "x / y" := (ndiv N x y).
  Local Notation "- x" := (nopp N x).

  Definition row := list N.
  Definition matrix := list row.

  (** [np.dot] and the product of sympy matrices; matrices are lists of rows *)
  Definition dot (a b : row) : N := fold_left (nadd N) (map (fun p => fst p * snd p) (combine a b)) (n0 N).
  Definition column (m : matrix) (k : nat) : row := map (fun r => nth k r (n0 N)) m.
  Definition width (m : matrix) : nat := match m with r :: _ => List.length r | [] => 0 end.
  Definition transpose (m : matrix) : matrix := map (column m) (seq 0 (width m)).
  Definition product (a b : matrix) : matrix := map (fun r => map (dot r) (transpose b)) a.

  Record angles := mkAngles { c12 : N; c13 : N; c23 : N; s12 : N; s13 : N; s23 : N; delta : N; alpha1 : N; alpha2 : N }.

  (** analysis/utils.py:50-91: the four matrices, which are the same for numpy and for sympy *)
  Definition matrix_1 (p : angles) : matrix := [[n1 N; n0 N; n0 N]; [n0 N; c23 p; s23 p]; [n0 N; - s23 p; c23 p]].
  Definition matrix_2 (p : angles) : matrix :=
    [[c13 p; n0 N; s13 p * nexp N (- nj N * delta p)]; [n0 N; n1 N; n0 N]; [- s13 p * nexp N (nj N * delta p); n0 N; c13 p]].
  Definition matrix_3 (p : angles) : matrix := [[c12 p; s12 p; n0 N]; [- s12 p; c12 p; n0 N]; [n0 N; n0 N; n1 N]].
  Definition matrix_p (p : angles) : matrix :=
    [[nexp N (nj N * alpha1 p); n0 N; n0 N]; [n0 N; nexp N (nj N * alpha2 p); n0 N]; [n0 N; n0 N; n1 N]].

  (** analysis/utils.py:22-104 [UnitaryMatrix]: the attributes *)
  Record unitary_matrix := mkUnitary { um_symb : bool; um_val : matrix }.

  (** analysis/utils.py:27-98: [ft.reduce] from the left *)
  Definition make_unitary (p : angles) (symb : bool) : unitary_matrix :=
    mkUnitary symb (fold_left product [matrix_2 p; matrix_3 p; matrix_p p] (matrix_1 p)).

  (** analysis/utils.py:100-101 *)
  Definition cols (u : unitary_matrix) : matrix := transpose (um_val u).

  (** analysis/utils.py:103-104: only numpy's matrices have the method *)
  Definition get_dagger (u : unitary_matrix) : res matrix :=
    if um_symb u then Err AttributeError else Ok (map (map (nconj N)) (transpose (um_val u))).

  (** analysis/utils.py:16-19, 29-37, 119, 122-125 and 127-138: the defaults of the constructor, [PMNS] and [CKM] *)
  Definition by_angles (t12 t13 t23 d : N) : angles := mkAngles (ncos N t12) (ncos N t13) (ncos N t23) (nsin N t12) (nsin N t13) (nsin N t23) d (n0 N) (n0 N).
  Definition degrees (a : Z) (b : positive) : N := nrad N (nlit N (dec a b)).
  Definition PMNS : unitary_matrix := make_unitary (by_angles (degrees 3382 100) (degrees 861 100) (degrees 496 10) (degrees 2150 10)) false.
  Definition CKM : matrix := um_val (make_unitary (by_angles (degrees 1304 100) (degrees 201 1000) (degrees 238 100) (degrees 120 100)) false).

  (** analysis/utils.py:109, 117 [NEUTRINO_MASSES] *)
  Definition neutrino_masses : list N :=
    [n0 N; nsqrt N (nlit N (dec 740 10000000)) * nlit N (dec 1 1000000000); nsqrt N (nlit N (dec 2494 1000000)) * nlit N (dec 1 1000000000)].

  (** analysis/flavour_anomalies.py:7-8: unpacking three masses and three rows *)
  Definition unpack {A} (l : list A) : res (A * A * A) := match l with [a; b; c] => Ok (a, b, c) | _ => Err ValueError end.

  Definition two : N := n1 N + n1 N.

  (** analysis/flavour_anomalies.py:11-26 [x] and [Z], with the masses and the matrix of the module *)
  Definition x_coupling (u : unitary_matrix) (masses : list N) (xi m0 : N) : res (list N) :=
    do m <- unpack masses; do r <- unpack (map (map (nconj N)) (cols u));
    let '(_, mv2, mv3) := m in let '(_, u2, u3) := r in
    let prefactor := xi / nsqrt N (two * m0) in
    Ok (map (fun k => prefactor * (nth k u2 (n0 N) * nsqrt N mv2 + nj N * nsqrt N mv3 * nth k u3 (n0 N))) [0; 1; 2]).

  Definition z_coupling (u : unitary_matrix) (masses : list N) (xi m0 : N) : res (list N) :=
    do m <- unpack masses; do r <- unpack (map (map (nconj N)) (cols u));
    let '(_, mv2, mv3) := m in let '(_, u2, u3) := r in
    let prefactor := n1 N / (nsqrt N (two * m0) * xi) in
    Ok (map (fun k => prefactor * (nth k u2 (n0 N) * nsqrt N mv2 - nj N * nsqrt N mv3 * nth k u3 (n0 N))) [0; 1; 2]).

  (** analysis/flavour_anomalies.py:47-48 in [run_point] *)
  Definition z22_of (Z1 z23 w22 w32 : N) : N := (Z1 - z23 * w32) / w22.
End Numbers.
