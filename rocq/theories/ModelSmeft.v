(** * ModelSmeft: tensormethod/smeft.py *)

From Coq Require Import Ascii String List Bool Arith ZArith QArith Qcanon.
From Verif Require Import Base ModelField ModelLagrangian.
Import ListNotations.
Local Open Scope nat_scope.

(** smeft.py:14-20: importing the module assigns a charge "L" to the global objects, given in the order of [sm_matter] *)
Definition with_smeft_number (sm : list field) : list field :=
  map (fun p => set_charge (lit "L") (Q2Qc (inject_Z (snd p))) (fst p)) (combine sm [0; 0; 0; 0; 1; -1]%Z).

(** smeft.py:22 [SM], in terms of the global objects *)
Definition smeft_SM (sm : list field) : list field :=
  match sm with [h; q; u; d; l; e] => [l; q; h; e; u; d] | _ => sm end.

(** smeft.py:14-23: what the import does.  The result is the global objects afterwards and the conjugates in [FIELDS], which are
    objects of their own *)
Definition import_smeft (sm : list field) : res (list field * list field) :=
  let sm := with_smeft_number sm in
  do conjs <- mapM conj_field (smeft_SM sm);
  Ok (sm, conjs).

(** smeft.py:23 [FIELDS]: the first six are the global objects *)
Definition smeft_FIELDS (state : list field * list field) : list field := smeft_SM (fst state) ++ snd state.

Section Smeft.
  Variable irrep_product : str -> str -> list (list nat * nat).

  (** smeft.py:26-37 [prod_mass_dim] is the same text as lagrangian.py:73-84 *)
  Definition prod_mass_dim : prod_tree -> res Qc := leaves_dim.

  (** smeft.py:52-57: one combination.  The second condition is evaluated for singlets only; [verbose] only prints. *)
  Definition combo_operators (max_dim : nat) (combo : list field) : res (list field) :=
    do p <- decompose_product irrep_product combo;
    match p with
    | inl _ => Err TypeError
    | inr products =>
      do keep <- mapM (fun r => do b <- is_singlet r;
                                if b : bool then
                                  do d <- prod_mass_dim (walked r);
                                  Ok (if Qclt_le_dec (Q2Qc (inject_Z (Z.of_nat max_dim))) d then [] else [r])
                                else Ok []) products;
      Ok (concat keep)
    end.

  (** smeft.py:40-59 [generate_operators] *)
  Definition generate_operators (max_dim : nat) (fields : list field) : res (list field) :=
    do ls <- mapM (fun n => do l <- mapM (combo_operators max_dim) (combos_with n field fields); Ok (concat l))
                  (seq 2 (max_dim - 1));
    Ok (concat ls).
End Smeft.
