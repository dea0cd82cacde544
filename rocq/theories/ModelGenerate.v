(** * ModelGenerate: the terms of a Lagrangian, tensormethod/lagrangian.py (101-109, 163-166, 186-201) *)

From Coq Require Import Ascii String List Bool Arith ZArith QArith Qcanon.
From Verif Require Import Base ModelFunctions ModelIndex ModelField ModelContract ModelPartition ModelExotic ModelLagrangian ModelInvariants.
Import ListNotations.
Local Open Scope nat_scope.

Section Generate.
  Variable irrep_product : str -> str -> list (list nat * nat).

  (** lagrangian.py:105-107, the loop; the shared stack and the counters are threaded through *)
  Fixpoint terms_of (combos : list (list field)) (ignore : itype -> bool) (s : cstate) : res (list operator) * cstate :=
    match combos with
    | [] => (Ok [], s)
    | c :: r =>
      match unsimplified_invariants irrep_product c ignore s with
      | (Err e, s) => (Err e, s)
      | (Ok invs, s) => match terms_of r ignore s with
                        | (Err e, s) => (Err e, s)
                        | (Ok l, s) => (Ok (invs ++ l), s)
                        end
      end
    end.

  (** lagrangian.py:101-109 [npoint_terms]; [nf] is not used *)
  Definition npoint_terms (n : nat) (fields : list field) (ignore : itype -> bool) (s : cstate) : res (list operator) * cstate :=
    match mapM conj_field fields with
    | Err e => (Err e, s)
    | Ok conjs => terms_of (combos_with n _ (fields ++ conjs)) ignore s
    end.

  (** whether [x.nocoeff.safe_simplify() == y.nocoeff.safe_simplify()], and whether sympy takes a term to be zero *)
  Variables (same : operator -> operator -> bool) (zero : operator -> bool).

  (** lagrangian.py:193-196 *)
  Definition renormalisable (terms : list operator) : res (list operator) :=
    do l <- mapM (fun t => do d <- op_mass_dim t; Ok (if Qclt_le_dec (Q2Qc (4 # 1)) d then [] else [t])) terms;
    Ok (concat l).

  (** lagrangian.py:201 *)
  Definition with_exotics (exotics : list field) (terms : list operator) : res (list operator) :=
    do l <- mapM (fun t => if zero t then Ok [] else do fs <- fields_of t; do b <- contains fs exotics; Ok (if b then [t] else [])) terms;
    Ok (concat l).

  (** lagrangian.py:186-201 [generate_uv_terms], of the fields of [fields]; [sm] are the global objects *)
  Definition generate_uv_terms (sm exotics : list field) (s : cstate) : res (list operator) * cstate :=
    let all_fields := sm ++ exotics in
    match npoint_terms 3 all_fields (fun _ => false) s with
    | (Err e, s) => (Err e, s)
    | (Ok cubic, s) =>
      match npoint_terms 4 all_fields (fun _ => false) s with
      | (Err e, s) => (Err e, s)
      | (Ok quartic, s) =>
        (do out <- renormalisable (cubic ++ quartic);
         do out <- remove_equivalent same out;
         with_exotics exotics out, s)
      end
    end.

  (** lagrangian.py:163-166 [generate_full].  The terms made here have plain indexed fields; a Lagrangian is made from the
      same exotics.  Of an error in [clean_fields] nothing is left, since the Lagrangian at hand was made with it. *)
  Definition plain (op : operator) : cop := map (fun t => match t with TField x => KField (mkCF Plain x) | TSymbol s => KSym s end) op.

  Definition generate_full (sm : list field) (l : lagrangian) (s : cstate) : res lagrangian * cstate :=
    match mapM (fun x => field_of (cf_if x)) (l_fields l) with
    | Err e => (Err e, s)
    | Ok exotics =>
      match generate_uv_terms sm exotics s with
      | (Err e, s) => (Err e, s)
      | (Ok terms, s) => (do m <- mapM mass_term (l_fields l); Ok (mkLagrangian (l_fields l) (map plain terms ++ m)), s)
      end
    end.
End Generate.
