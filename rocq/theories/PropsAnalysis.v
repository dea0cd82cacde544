(** * PropsAnalysis: C100, mixing matrices are unitary *)

From Coq Require Import Ascii String List Bool Arith ZArith Lia QArith Qcanon Field_theory Ring Field.
From Verif Require Import Base BaseFacts ModelAnalysis SpecAnalysis.
Import ListNotations.
Local Open Scope nat_scope.

Section Laws.
  Context (N : numbers) (W : lawful N).
  Local Notation "x + y" := (nadd N x y).
  Local Notation "x * y" := (nmul N x y).
  Local Notation "x - y" := (nsub N x y).
  Local Notation "x / y" := (ndiv N x y).
  Local Notation "- x" := (nopp N x).
  Local Notation O := (n0 N).
  Local Notation I := (n1 N).
  Local Notation conj := (nconj N).

  Lemma N_field : field_theory O I (nadd N) (nmul N) (nsub N) (nopp N) (ndiv N) (ninv N) eq.
  Proof using W. exact (l_field N W). Qed.

  Add Field NF : N_field.

  Lemma conj_zero : conj O = O.
  Proof using W.
    assert (H : conj O + conj O = conj O) by (rewrite <- (l_conj_add N W); f_equal; ring).
    transitivity ((conj O + conj O) - conj O); [ring|]. rewrite H. ring.
  Qed.

  Lemma conj_one : conj I = I.
  Proof using W.
    assert (H : forall x, conj I * x = x).
    { intros x. rewrite <- (l_conj_conj N W x) at 1. rewrite <- (l_conj_mul N W). replace (I * conj x) with (conj x) by ring. apply (l_conj_conj N W). }
    transitivity (conj I * I); [ring|apply H].
  Qed.

  Lemma conj_opp x : conj (- x) = - conj x.
  Proof using W.
    assert (H : conj (- x) + conj x = O) by (rewrite <- (l_conj_add N W), <- conj_zero; f_equal; ring).
    transitivity ((conj (- x) + conj x) - conj x); [ring|]. rewrite H. ring.
  Qed.

  Lemma conj_phase a : real N a -> conj (nexp N (nj N * a)) = nexp N (- nj N * a).
  Proof using W. intros R. now rewrite (l_conj_exp N W), (l_conj_mul N W), (l_conj_i N W), R. Qed.

  Lemma conj_phase' a : real N a -> conj (nexp N (- nj N * a)) = nexp N (nj N * a).
  Proof using W.
    intros R. rewrite (l_conj_exp N W), (l_conj_mul N W), conj_opp, (l_conj_i N W), R. f_equal. ring.
  Qed.

  Lemma phase a : nexp N (nj N * a) * nexp N (- nj N * a) = I.
  Proof using W. rewrite <- (l_exp N W (nj N * a)). do 2 f_equal. ring. Qed.

  Theorem C100_unitary p symb : rotation N p -> unitary N (um_val N (make_unitary N p symb)).
  Proof using W.
    intros (R1 & R2 & R3 & R4 & R5 & R6 & R7 & R8 & R9 & C1 & C2 & C3). unfold circle in *.
    pose proof (phase (delta N p)) as Pd. pose proof (phase (alpha1 N p)) as Pa. pose proof (phase (alpha2 N p)) as Pb.
    pose proof (conj_phase _ R7) as Qd. pose proof (conj_phase' _ R7) as Qd'. pose proof (conj_phase _ R8) as Qa. pose proof (conj_phase _ R9) as Qb.
    unfold make_unitary, um_val.
    cbn [fold_left product transpose column width map seq List.length matrix_1 matrix_2 matrix_3 matrix_p nth dot combine fst snd].
    unfold real in *.
    revert Pd Pa Pb Qd Qd' Qa Qb.
    generalize (nexp N (nj N * delta N p)) as ed. generalize (nexp N (- nj N * delta N p)) as ed'.
    generalize (nexp N (nj N * alpha1 N p)) as ea. generalize (nexp N (- nj N * alpha1 N p)) as ea'.
    generalize (nexp N (nj N * alpha2 N p)) as eb. generalize (nexp N (- nj N * alpha2 N p)) as eb'.
    destruct p as [c12 c13 c23 s12 s13 s23 d a b]. cbn [ModelAnalysis.c12 ModelAnalysis.c13 ModelAnalysis.c23 ModelAnalysis.s12 ModelAnalysis.s13 ModelAnalysis.s23] in *.
    intros eb' eb ea' ea ed' ed Pd Pa Pb Qd Qd' Qa Qb.
    split; [split; [reflexivity|repeat constructor]|].
    intros i j Li Lj. unfold sum3, entry, kron.
    destruct i as [|[|[|i]]]; [| | |lia]; (destruct j as [|[|[|j]]]; [| | |lia]); cbn [nth Nat.eqb];
      (split; repeat rewrite ?(l_conj_add N W), ?(l_conj_mul N W), ?conj_opp, ?conj_zero, ?conj_one, ?R1, ?R2, ?R3, ?R4, ?R5, ?R6, ?Qd, ?Qd', ?Qa, ?Qb).
    all: assert (D1 : c12 * c12 = I - s12 * s12) by (rewrite <- C1; ring).
    all: assert (D2 : c13 * c13 = I - s13 * s13) by (rewrite <- C2; ring).
    all: assert (D3 : c23 * c23 = I - s23 * s23) by (rewrite <- C3; ring).
    all: try (ring [Pd Pa Pb D1 D2 D3]).
  Qed.
End Laws.

Print Assumptions C100_unitary.
