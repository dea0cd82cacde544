(** * SpecSafe: what operators stand for *)

From Coq Require Import List.
From Verif Require Import Base ModelIndex ModelField ModelContract.
Import ListNotations.

Definition free_of_indices (t : tensor) : Prop := tensor_indices t = [].

(** a meaning of operators, up to a number in front, with a zero: a factor without indices is contracted with nothing, so it can
    be taken out, and it is not zero *)
Record meaning := mkMeaning {
  value_type : Type;
  mult : value_type -> value_type -> value_type;
  zero : value_type;
  value : operator -> value_type;
  take_out_factor : forall a t b, free_of_indices t -> value (a ++ t :: b) = mult (value (a ++ b)) (value [t]);
  product_zero : forall x y, mult x y = zero -> x = zero \/ y = zero;
  zero_product : forall y, mult zero y = zero;
  factor_not_zero : forall t, free_of_indices t -> value [t] <> zero;
  empty_not_zero : value [] <> zero
}.

(** an answer that is right: 0 for an operator that is zero, otherwise an operator that stands for the same *)
Definition right_answer (M : meaning) (op : operator) (s : option operator) : Prop :=
  match s with
  | None => value M op = zero M
  | Some r => value M r = value M op /\ value M op <> zero M
  end.
