(** * SpecNine: specification notions for the script completions/d9.py *)

From Coq Require Import Ascii String List Bool Arith ZArith.
From Verif Require Import Base ModelField ModelContract.
Import ListNotations.
Local Open Scope nat_scope.

Section Work.
  Context {C CS : Type}.
  Variable work : operator -> CS -> res (list C * CS).

  (** working through operators one after the other: what was found for each *)
  Inductive worked : list (str * operator) -> CS -> list (str * operator * list C) -> CS -> Prop :=
  | wk_nil cs : worked [] cs [] cs
  | wk_cons k op ops cs l cs1 found cs2 : work op cs = Ok (l, cs1) -> worked ops cs1 found cs2 ->
      worked ((k, op) :: ops) cs ((k, op, l) :: found) cs2.
End Work.
