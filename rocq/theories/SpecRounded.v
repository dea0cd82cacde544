(** * SpecRounded: rounding a scale to hundredths of a TeV *)

From Coq Require Import List Bool Arith ZArith QArith.
From Verif Require Import Base ModelClosures SpecScale.
Import ListNotations.
Local Open Scope Q_scope.

(** 1/(16π²) to sixteen digits *)
Definition close loop := (6332573977646110 # 1000000000000000000) <= loop <= (6332573977646112 # 1000000000000000000).

(** n hundredths of a TeV, or 10 n GeV, is nearest to the scale up to which the estimate exceeds the measured mass (halves are
    rounded either way) *)
Definition nearest (loop : Q) (e : estimate) (n : Z) : Prop :=
  (forall lam, exceeds loop e lam -> lam <= inject_Z (10 * n + 5)) /\ (forall lam, 0 < lam -> ~ exceeds loop e lam -> inject_Z (10 * n - 5) <= lam).

(** rounding a number that grows with the scale *)
Definition rounds (loop : Q) (rounded : estimate -> Z) : Prop :=
  (forall e, couplings e -> nearest loop e (rounded e)) /\ (forall a b, couplings a -> couplings b -> scale_below loop b a -> (rounded b <= rounded a)%Z).

Definition same_factors (a b : estimate) : Prop := forall k, times k a = times k b.
