(** * ModelScale: numbers for the estimates of neutrino masses, database/closures.py:296-334 *)

From Coq Require Import List Bool Arith QArith.
From Verif Require Import Base ModelContract ModelClosures.
Import ListNotations.
Local Open Scope Q_scope.

(** closures.py:298-300, 321-323: [vev], [mv].  Floats stand for the decimal numbers in the text, arithmetic is exact. *)
Definition vev : Q := 174.
Definition mv : Q := 5 # 100000000000.

Section Scale.
  (** closures.py:300, 323: [loop = 1.0 / (16 * math.pi ** 2)] *)
  Variable loop : Q.

  (** closures.py:301-309, 324-333 [subs_list], with [lam] for Λ; [subs] goes through the list in order, so that Λ in the
      replacement of loopv2 is replaced as well.  "v" and "nunu" do not occur among the factors (closures.py:275-283). *)
  Definition factor (lam : Q) (k : ksym) : Q :=
    match k with
    | Kv => vev
    | Kloop => loop
    | Kloopv2 => loop + vev * vev / (lam * lam)
    | Kg2 => (6295 # 10000) * (6295 # 10000)
    | Kyu => (17276 # 100) / vev
    | Kyd => (418 # 100) / vev
    | Kye => (178 # 100) / vev
    | Knunu => 1
    end.

  (** the expression [expr] of closures.py:286-291 after the substitutions: the product of the factors, v, v and 1/Λ *)
  Definition mass_at (lam : Q) (e : estimate) : Q := fold_right Qmult (vev * vev / lam) (map (factor lam) e).

  (** closures.py:316-334 [numerical_mv]: Λ is 1000 *)
  Definition numerical_mv (e : estimate) : Q := mass_at 1000 e.

  (** closures.py:310-311: the equation [m - mv = 0] for Λ.  [numerical_np_scale_estimate] takes the first solution sympy
      finds; which one that is is not modelled. *)
  Definition solves (lam : Q) (e : estimate) : Prop := mass_at lam e - mv == 0.
End Scale.

Definition Q_gtb (x y : Q) : bool := negb (Qle_bool x y).

(** database/utils.py:13-20 [get_leading_mv] with [numerical_mv] *)
Definition leading_mv (loop : Q) (op : operator) : res estimate := get_leading_mv Q (numerical_mv loop) Q_gtb op.
