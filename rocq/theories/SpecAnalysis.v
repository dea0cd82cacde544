(** * SpecAnalysis: specification notions for mixing matrices and couplings *)

From Coq Require Import List Arith Field_theory QArith Qcanon.
From Verif Require Import Base ModelAnalysis.
Import ListNotations.
Local Open Scope nat_scope.

(** the laws of the numbers *)
Record lawful (N : numbers) : Prop := {
  l_field : field_theory (n0 N) (n1 N) (nadd N) (nmul N) (nsub N) (nopp N) (ndiv N) (ninv N) eq;
  l_two : nadd N (n1 N) (n1 N) <> n0 N;
  l_i : nmul N (nj N) (nj N) = nopp N (n1 N);
  l_conj_add : forall x y, nconj N (nadd N x y) = nadd N (nconj N x) (nconj N y);
  l_conj_mul : forall x y, nconj N (nmul N x y) = nmul N (nconj N x) (nconj N y);
  l_conj_conj : forall x, nconj N (nconj N x) = x;
  l_conj_i : nconj N (nj N) = nopp N (nj N);
  l_exp : forall x, nmul N (nexp N x) (nexp N (nopp N x)) = n1 N;
  l_conj_exp : forall x, nconj N (nexp N x) = nexp N (nconj N x)
}.

(** the laws of the functions of angles *)
Record lawful_angles (N : numbers) : Prop := {
  l_circle : forall x, nadd N (nmul N (ncos N x) (ncos N x)) (nmul N (nsin N x) (nsin N x)) = n1 N;
  l_real_cos : forall x, nconj N x = x -> nconj N (ncos N x) = ncos N x;
  l_real_sin : forall x, nconj N x = x -> nconj N (nsin N x) = nsin N x;
  l_real_rad : forall x, nconj N x = x -> nconj N (nrad N x) = nrad N x;
  l_real_lit : forall q, nconj N (nlit N q) = nlit N q
}.

Section Notions.
  Context (N : numbers).

  Definition real (x : N) : Prop := nconj N x = x.

  (** a cosine and a sine *)
  Definition circle (c s : N) : Prop := nadd N (nmul N c c) (nmul N s s) = n1 N.

  Definition rotation (p : angles N) : Prop :=
    real (c12 N p) /\ real (c13 N p) /\ real (c23 N p) /\ real (s12 N p) /\ real (s13 N p) /\ real (s23 N p) /\
    real (delta N p) /\ real (alpha1 N p) /\ real (alpha2 N p) /\
    circle (c12 N p) (s12 N p) /\ circle (c13 N p) (s13 N p) /\ circle (c23 N p) (s23 N p).

  (** entries of matrices, and sums over three values *)
  Definition entry (m : list (list N)) (i j : nat) : N := nth j (nth i m []) (n0 N).
  Definition sum3 (f : nat -> N) : N := nadd N (nadd N (f 0) (f 1)) (f 2).
  Definition three_by_three (m : list (list N)) : Prop := List.length m = 3 /\ Forall (fun r => List.length r = 3) m.
  Definition kron (i j : nat) : N := if i =? j then n1 N else n0 N.

  (** rows and columns are orthonormal *)
  Definition unitary (m : list (list N)) : Prop :=
    three_by_three m /\
    forall i j, i < 3 -> j < 3 ->
      sum3 (fun k => nmul N (entry m i k) (nconj N (entry m j k))) = kron i j /\
      sum3 (fun k => nmul N (nconj N (entry m k i)) (entry m k j)) = kron i j.

  (** the mass matrix of neutrinos with couplings x and z *)
  Definition mass (m0 : N) (x z : list N) (i j : nat) : N :=
    nmul N m0 (nadd N (nmul N (nth i x (n0 N)) (nth j z (n0 N))) (nmul N (nth i z (n0 N)) (nth j x (n0 N)))).
End Notions.
