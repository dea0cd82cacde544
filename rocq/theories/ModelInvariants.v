(** * ModelInvariants: invariant operators and their relabellings, tensormethod/contract.py (250-437) and
      tensormethod/core.py (985-1024, 1299-1305)

    sympy rewrites an operator when it is made: contracted indices get new names.  What it makes of an operator, its [args],
    is a parameter, and so is the simplification by [canon_bp]. *)

From Coq Require Import Ascii String List Bool Arith ZArith QArith Qcanon.
From Verif Require Import Base ModelFunctions ModelIndex ModelField ModelContract ModelPartition ModelLagrangian.
Import ListNotations.
Local Open Scope nat_scope.

(** ** contract.py:250-271 [unsimplified_invariants] *)

(** a product always has a history, so that [construct_operators] gives operators *)
Definition as_operators (l : list contractable) : res (list operator) :=
  mapM (fun c => match c with CObj (OOp op) => Ok op | _ => Err AttributeError end) l.

(** contract.py:262-270, the loop over the singlets; the state is the shared stack and the counters of fresh indices *)
Fixpoint operators_of (singlets : list field) (ignore : itype -> bool) (s : cstate) : res (list operator) * cstate :=
  match singlets with
  | [] => (Ok [], s)
  | f :: r =>
    match construct_operators (walked f) ignore s with
    | (Err e, s) => (Err e, s)
    | (Ok cs, s) =>
      match (do ops <- as_operators cs;
             if ignore Colour then Ok (ops, c_counters s) else colour_singlets false ops (c_counters s)) with
      | Err e => (Err e, s)
      | Ok (ops, st) => match operators_of r ignore (mkC (c_stack s) st) with
                        | (Err e, s) => (Err e, s)
                        | (Ok l, s) => (Ok (ops ++ l), s)
                        end
      end
    end
  end.

Section Invariants.
  Variable irrep_product : str -> str -> list (list nat * nat).

  (** A single field is not a list, and cannot be iterated over. *)
  Definition unsimplified_invariants (fields : list field) (ignore : itype -> bool) (s : cstate) : res (list operator) * cstate :=
    match decompose_product irrep_product fields with
    | Err e => (Err e, s)
    | Ok (inl _) => (Err TypeError, s)
    | Ok (inr prod) =>
      match mapM (fun f => do b <- is_singlet f; Ok (f, b)) prod with
      | Err e => (Err e, s)
      | Ok l => operators_of (map fst (filter snd l)) ignore s
      end
    end.
End Invariants.

(** ** Relabellings *)

(** an index of an operator as sympy keeps it; [t_own] for those of the class [Index], that is the free ones *)
Record tindex := mkT { t_own : bool; t_name : str; t_type : itype; t_up : bool }.

Definition tindex_eqb (i j : tindex) : bool :=
  Bool.eqb (t_own i) (t_own j) && str_eqb (t_name i) (t_name j) && itype_eqb (t_type i) (t_type j) && Bool.eqb (t_up i) (t_up j).

Definition tneg (i : tindex) : tindex := mkT (t_own i) (t_name i) (t_type i) (negb (t_up i)).

(** a factor: its printed form, the name of its head ([str(f.args[0].args[0])]), its indices *)
Record factor := mkFactor { fa_text : str; fa_head : str; fa_indices : list tindex }.

Definition starts (p : string) (s : str) : bool := match strip_prefix (lit p) s with Some _ => true | None => false end.

(** core.py:1299-1305 [is_invariant_symbol] *)
Definition invariant_symbol (f : factor) : bool := starts "Eps" (fa_text f) || starts "KD" (fa_text f) || starts "metric" (fa_text f).

(** core.py:985-999 [structures], [by_structures]: by the type of the first index, without the empty lists; an invariant
    symbol has an index *)
Definition structures (args : list factor) : list factor := filter invariant_symbol args.

Definition first_type (t : itype) (f : factor) : bool := match fa_indices f with i :: _ => itype_eqb (t_type i) t | [] => false end.

Definition by_structures (args : list factor) : list (list factor) :=
  filter (fun l => match l with [] => false | _ => true end)
    (map (fun t => filter (first_type t) (structures args)) [Undotted; Dotted; Colour; Isospin; Generation]).

(** core.py:1012-1024 [duplicate_fields]: a stable sort by head, then runs of equal heads; the values of the dictionary *)
Definition sort_factors (l : list factor) : list factor := sort (fun x y => str_leb (fa_head x) (fa_head y)) l.

Fixpoint runs (l : list factor) : list (list factor) :=
  match l with
  | [] => []
  | x :: r => match runs r with
              | (y :: g) :: gs => if str_eqb (fa_head x) (fa_head y) then (x :: y :: g) :: gs else [x] :: (y :: g) :: gs
              | gs => [x] :: gs
              end
  end.

Definition duplicate_fields (args : list factor) : list (list tindex) :=
  map (fun g => concat (map fa_indices g))
    (filter (fun g => 1 <? List.length g) (runs (sort_factors (filter (fun f => negb (starts "Eps" (fa_text f))) args)))).

(** contract.py:287-288: sympy orders indices by type and name; those of a symbol have one type.  The sort is stable. *)
Definition sort_indices (l : list tindex) : list tindex := sort (fun i j => str_leb (t_name i) (t_name j)) l.

Definition mapping := list (tindex * tindex).

(** contract.py:292-298 *)
Definition moves (p q : list tindex) : res mapping :=
  match p, q with
  | [i; j], [k; l] => Ok ((if tindex_eqb i k then [] else [(i, k)]) ++ (if tindex_eqb j l then [] else [(j, l)]))
  | _, _ => Err ValueError
  end.

(** contract.py:274-301 [extract_relabellings] *)
Definition extract_relabellings (x y : list factor) : res (list mapping) :=
  let y_indices := map (fun f => sort_indices (fa_indices f)) y in
  mapM (fun perm => do ms <- mapM (fun pq => moves (fst pq) (snd pq)) (combine perm y_indices); Ok (concat ms))
       (permutations (map (fun f => sort_indices (fa_indices f)) x)).

(** [itertools.product] of the lists in [l] *)
Fixpoint choices {A} (l : list (list A)) : list (list A) :=
  match l with
  | [] => [[]]
  | c :: r => flat_map (fun x => map (cons x) (choices r)) c
  end.

Section Compare.
  Variables (args : operator -> list factor) (nocoeff_eqb : operator -> operator -> bool).

  (** contract.py:304-339 [compare_singlets]; [None] is the answer (True, []).  Without structures [reduce] raises. *)
  Definition compare_singlets (left right : operator) : res (option (list mapping)) :=
    if nocoeff_eqb left right then Ok None
    else
      let ls := by_structures (args left) in
      let rs := by_structures (args right) in
      do _ <- assert_ (List.length ls =? List.length rs);
      do rel <- mapM (fun lr => extract_relabellings (fst lr) (snd lr)) (combine ls rs);
      match rel with
      | [] => Err TypeError
      | _ => Ok (Some (map (fun ms => concat ms) (choices rel)))
      end.

  (** contract.py:342-360 [is_identity_mapping] *)
  Definition mem_t (i : tindex) (l : list tindex) : bool := existsb (tindex_eqb i) l.

  Definition is_identity_mapping (m : mapping) (op : operator) : bool :=
    forallb (fun ij => (t_own (fst ij) && t_own (snd ij)) ||
                       existsb (fun v => mem_t (tneg (fst ij)) v && mem_t (tneg (snd ij)) v) (duplicate_fields (args op))) m.

  (** contract.py:363-367 [exists_identity_mapping]; the first element of (True, []) cannot be iterated over *)
  Definition exists_identity_mapping (ms : option (list mapping)) (op : operator) : res bool :=
    match ms with
    | None => Err TypeError
    | Some ms => Ok (existsb (fun m => is_identity_mapping m op) ms)
    end.

  Definition same_up_to (left right : operator) : res bool :=
    do ms <- compare_singlets left right; exists_identity_mapping ms left.

  (** contract.py:384-407 [remove_relabellings]: [to_remove] as a list of positions *)
  Fixpoint compare_later (op : operator) (j : nat) (later : list operator) (removed : list nat) : res (list nat) :=
    match later with
    | [] => Ok removed
    | o :: r => do b <- same_up_to op o; compare_later op (S j) r (if b then j :: removed else removed)
    end.

  Fixpoint compare_from (i : nat) (ops : list operator) (removed : list nat) : res (list nat) :=
    match ops with
    | [] => Ok removed
    | op :: r => do removed <- compare_later op (S i) r removed; compare_from (S i) r removed
    end.

  Definition remove_relabellings (ops : list operator) : res (list operator) :=
    do removed <- compare_from 0 ops [];
    Ok (map snd (filter (fun io => negb (existsb (Nat.eqb (fst io)) removed)) (combine (seq 0 (List.length ops)) ops))).

  Section Clean.
    (** [op.simplify(fill=True)]: [None] is zero *)
    Variables (K : Type) (keqb : K -> K -> bool) (simplify : operator -> res (option K)).

    (** contract.py:370-381 [clean_operators] *)
    Fixpoint clean_from (seen : list K) (ops : list operator) : res (list operator) :=
      match ops with
      | [] => Ok []
      | op :: r =>
        do k <- simplify op;
        match k with
        | None => clean_from seen r
        | Some k => if existsb (keqb k) seen then clean_from seen r
                    else do l <- clean_from (k :: seen) r; Ok (op :: l)
        end
      end.

    Definition clean_operators (ops : list operator) : res (list operator) := clean_from [] ops.

    (** contract.py:410-437 [invariants] *)
    Definition invariants (irrep_product : str -> str -> list (list nat * nat)) (fields : list field) (ignore : itype -> bool)
      (remove : bool) (s : cstate) : res (list operator) * cstate :=
      let (r, s) := unsimplified_invariants irrep_product fields ignore s in
      let out := do singlets <- r; do clean <- clean_operators singlets; (if remove then remove_relabellings clean else Ok clean) in
      (out, s).
  End Clean.
End Compare.
