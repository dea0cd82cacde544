(** * ModelSafe: tensormethod/core.py, simplifying an operator that has fields without indices *)

From Coq Require Import List Bool.
From Verif Require Import Base ModelIndex ModelField ModelContract.
Import ListNotations.

Section Safe.
  (** core.py:1030-1043 [simplify], which is sympy's [canon_bp] and may raise: None is 0, otherwise the factors, without the
      number in front *)
  Variable simplify : operator -> res (option operator).
  (** a product of one tensor is the tensor, and [simplify] is sympy's general one *)
  Variable simplify_one : tensor -> res (option operator).

  (** core.py:1052: [f.get_indices()] is empty *)
  Definition unindexed (t : tensor) : bool := match tensor_indices t with [] => true | _ => false end.

  (** core.py:1062: the unindexed tensors are multiplied to the right, one after the other; 0 stays 0 *)
  Definition times_all (s : option operator) (l : list tensor) : option operator :=
    fold_left (fun acc t => match acc with Some o => Some (o ++ [t]) | None => None end) l s.

  (** core.py:1045-1062 [safe_simplify] *)
  Definition safe_simplify (op : operator) : res (option operator) :=
    match simplify op with
    | Err IndexError =>
        match filter (fun t => negb (unindexed t)) op with
        | [] => Ok (Some op)
        | [t] => do s <- simplify_one t; Ok (times_all s (filter unindexed op))
        | l => do s <- simplify l; Ok (times_all s (filter unindexed op))
        end
    | r => r
    end.
End Safe.
