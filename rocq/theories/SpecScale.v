(** * SpecScale: neutrino masses and the scale of new physics *)

From Coq Require Import List Bool Arith QArith Permutation.
From Verif Require Import Base ModelClosures.
Import ListNotations.
Local Open Scope Q_scope.

Fixpoint power (x : Q) (n : nat) : Q := match n with O => 1 | S n => x * power x n end.

Definition times (k : ksym) (e : estimate) : nat := List.length (filter (fun l => match k, l with
  | Kye, Kye | Kyu, Kyu | Kyd, Kyd | Kv, Kv | Knunu, Knunu | Kg2, Kg2 | Kloop, Kloop | Kloopv2, Kloopv2 => true | _, _ => false end) e).

(** v^2 / Λ times the couplings and loop factors, in GeV; the vacuum expectation value is 174, Yukawa couplings are masses of
    the third family over it *)
Definition mass (loop lam : Q) (e : estimate) : Q :=
  174 * 174 / lam * power ((178 # 100) / 174) (times Kye e) * power ((17276 # 100) / 174) (times Kyu e) * power ((418 # 100) / 174) (times Kyd e) *
  power ((6295 # 10000) * (6295 # 10000)) (times Kg2 e) * power loop (times Kloop e) * power (loop + 174 * 174 / (lam * lam)) (times Kloopv2 e).

(** the measured mass, 0.05 eV *)
Definition measured : Q := 5 # 100000000000.

(** the estimate exceeds the measured mass at [lam]: the scale at which they agree is above [lam] *)
Definition exceeds (loop : Q) (e : estimate) (lam : Q) : Prop := 0 < lam /\ measured < mass loop lam e.

(** the scale of [b] is at most that of [a] *)
Definition scale_below (loop : Q) (b a : estimate) : Prop := forall lam, exceeds loop b lam -> exceeds loop a lam.

(** factors that occur *)
Definition couplings (e : estimate) : Prop := ~ In Kv e /\ ~ In Knunu e.

(** 1 / (16 pi^2) *)
Definition loop_factor (loop : Q) : Prop := (6332 # 1000000) <= loop <= (6333 # 1000000).
