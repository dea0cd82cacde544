(** * ModelOperators: the operators of the package and their completions from start to end, completions/operators.py and
      completions/completions.py (207-264, 923-985) *)

From Coq Require Import Ascii String List Bool Arith ZArith NArith QArith Qcanon.
From Verif Require Import Base Show ModelFunctions ModelIndex ModelField ModelContract ModelPartition ModelExotic ModelInfo ModelLagrangian DataOperators.
Import ListNotations.
Local Open Scope nat_scope.

(** ** completions/operators.py *)

(** operators.py:14-15 [prod]; [*] of tensors and operators sorts the factors by class (tensormethod/core.py:1308-1324) *)
Definition prod_tensors (l : list tensor) : res operator :=
  match l with
  | [] => Err TypeError
  | t :: l => Ok (fold_left (fun p t => normalise_operator_input [p; [t]]) l [t])
  end.

(** operators.py:25-28 and 30-37: one entry of a pickled dictionary *)
Definition load_operator (entry : string * list iargs * list (list string)) : res (str * operator) :=
  let '(k, fields, epsilons) := entry in
  do op <- from_pickle_form (fields, map (map lit) epsilons); Ok (lit k, op).

Definition load_operators (p : pickled) : res (list (str * operator)) :=
  do l <- mapM load_operator p; Ok (fold_left (fun d kv => dset str_eqb d (fst kv) (snd kv)) l []).

(** operators.py:30-37 [DERIV_EFF_OPERATORS] *)
Definition skipped_deriv (entry : string * list iargs * list (list string)) : bool :=
  let k := lit (fst (fst entry)) in str_eqb k (lit "D1") || str_eqb k (lit "D11") || startswith (lit "D19") k.

Definition deriv_eff_operators : res (list (str * operator)) :=
  load_operators (filter (fun e => negb (skipped_deriv e)) deriv_operators_p).

(** [F("...")] and [F.conj("...")] *)
Definition called (f : field) (i : string) : res tensor := do x <- call_field f (lit i); Ok (TField x).
Definition called_conj (f : field) (i : string) : res tensor := do g <- conj_field f; called g i.
Definition called_eps (i : string) : res tensor := do e <- eps (lit i); Ok (TSymbol e).

Definition sequence {A} (l : list (res A)) : res (list A) := mapM (fun x => x) l.

(** operators.py:56-98 *)
Definition extra_76 : res (list tensor) :=
  sequence [called_conj sm_eb "d0"; called_conj sm_eb "d1"; called_conj sm_ub "d2 c0"; called_conj sm_ub "d3 c1"; called sm_db "u0 -c2"; called sm_db "u1 -c3"].
Definition extra_82 : res (list tensor) :=
  sequence [called sm_L "u0 i0"; called_conj sm_L "d0 i1"; called_conj sm_eb "d1"; called_conj sm_eb "d2"; called_conj sm_ub "d3 c0"; called sm_db "u1 -c1";
            called sm_H "i2"; called sm_H "i3"; called_eps "-i0 -i2"; called_eps "-i1 -i3"].
Definition extra_yec : res (list tensor) := sequence [called_conj sm_L "d3 i6"; called_conj sm_eb "d4"; called sm_H "i7"; called_eps "-i6 -i7"].
Definition extra_ydc : res (list tensor) := sequence [called_conj sm_Q "d3 -c0 i6"; called_conj sm_db "d4 c1"; called sm_H "i7"; called_eps "-i6 -i7"].
Definition extra_prime : res (list tensor) := sequence [called sm_H "i4"; called_conj sm_H "i5"; called_eps "-i4 -i5"].
Definition extra_prime_prime : res (list tensor) :=
  sequence [called sm_H "i4"; called_conj sm_H "i5"; called sm_H "i6"; called_conj sm_H "i7"; called_eps "-i6 -i7"; called_eps "-i4 -i5"].

(** operators.py:100-122: name, the operator that is extended, what it is multiplied by *)
Definition additions : list (string * string * list (res (list tensor))) :=
  [("77", "1", [extra_yec]); ("78", "1", [extra_ydc]); ("1p", "1", [extra_prime]); ("8p", "8", [extra_prime]); ("1pp", "1", [extra_prime_prime]);
   ("7p", "7", [extra_prime]); ("8pp", "8", [extra_prime_prime]); ("71p", "71", [extra_prime]); ("76p", "", [extra_76; extra_prime]);
   ("77p", "1", [extra_yec; extra_prime]); ("78p", "1", [extra_ydc; extra_prime]); ("79a", "61a", [extra_prime]); ("79b", "2", [extra_prime_prime]);
   ("80a", "5a", [extra_prime]); ("80b", "5b", [extra_prime]); ("80c", "3a", [extra_prime_prime]); ("80d", "3b", [extra_prime_prime]);
   ("81a", "6a", [extra_prime]); ("81b", "6b", [extra_prime]); ("81c", "4a", [extra_prime_prime]); ("81d", "4b", [extra_prime_prime]); ("82", "", [extra_82])]%string.

Definition add_operator (base d : list (str * operator)) (a : string * string * list (res (list tensor))) : res (list (str * operator)) :=
  let '(k, b, l) := a in
  do start <- (if String.eqb b "" then Ok [] else match dget str_eqb base (lit b) with Some op => Ok op | None => Err KeyError end);
  do l <- sequence l;
  do op <- prod_tensors (start ++ concat l);
  Ok (dset str_eqb d (lit k) op).

(** operators.py:25-122 [EFF_OPERATORS] *)
Definition eff_operators : res (list (str * operator)) :=
  do base <- load_operators operators_p; foldM (add_operator base) additions base.

(** ** completions/completions.py *)

(** [os.path.splitext(os.path.basename(f))[0]]: what stands before the last dot, if that is not at the beginning *)
Definition stem_of (f : str) : str :=
  match split_on "."%char f with
  | [] | [_] => f
  | l => let s := join (lit ".") (removelast l) in if forallb (Ascii.eqb "."%char) s then f else s
  end.

(** the entries of one dictionary of completions.py:248-254; attributes are those of edges, the key "particle" *)
Record partition := mkPart
  { pt_operator : operator; pt_partition : template ifield; pt_epsilons : list symbol; pt_graph : graph;
    pt_particles : list (N * N * str); pt_topology : str }.

(** [Completion], completions/core.py:397-410; [cm_exotics] is a set *)
Record completed := mkCompleted
  { cm_operator : operator; cm_partition : template ifield; cm_graph : graph; cm_particles : list (N * N * str);
    cm_exotics : list cfield; cm_terms : list cop; cm_topology : str }.

Section Completions.
  (** sympy's simplification of a term with derivatives gives zero (ModelExotic) *)
  Variable vanishes : cop -> bool.
  (** [get_topology_data], completions/topologies.py:56-82 *)
  Variable topologies : nat -> nat -> res (list (topology ifield)).

  Definition boson_field (f : ifield) : bool := match is_boson (i_field f) with Ok b => b | Err _ => false end.

  (** completions.py:232-235 and 241-252 for one topology.  [is_boson] is asked of every field (completions.py:101). *)
  Definition topology_partitions (op : operator) (colour_ops : list operator) (t : topology ifield) : res (list partition) :=
    do fc <- indexed_fields_with_counters op;
    let fields := map fst fc in
    do _ <- mapM (fun f => is_boson (i_field f)) fields;
    let perms := distribute_fields ifield boson_field ifield_eqb fields (t_partition t) in
    let counter f := match dget ifield_eqb fc f with Some n => Ok n | None => Err KeyError end in
    do l <- mapM (fun cop => mapM (fun perm =>
        do attrs <- set_external_fields ifield (fun f => f_label (i_field f)) counter perm (t_graph t);
        Ok (mkPart cop perm (epsilons cop) (t_graph t) attrs (stem_of (t_file t)))) perms) colour_ops;
    Ok (concat l).

  (** completions.py:207-264 [partitions]; the names of the operators are left out, and so is printing *)
  Definition partitions (op : operator) (st : counters) : res (list partition * counters) :=
    do n <- topology_type op;
    do tops <- topologies (fst n) (snd n);
    do cops <- colour_singlets true [op] st;
    do out <- mapM (topology_partitions op (fst cops)) tops;
    Ok (concat out, snd cops).

  (** the partition as [construct_completion] walks through it; a leaf that still holds a string does not occur *)
  Fixpoint placed_tree (t : template ifield) : ptree (rleaf cfield) :=
    match t with
    | Lf (Placed f, n) => Lf (inl (mkCF Plain f), Some n)
    | Lf (Open c, n) => Lf (inr (lit (if c then "S" else "F")), Some n)
    | Tp l => Tp (map placed_tree l)
    end.

  (** [nx.set_edge_attributes]: edges have no direction, those that are not in the graph are passed over *)
  Definition same_edge (e e' : N * N) : bool :=
    (N.eqb (fst e) (fst e') && N.eqb (snd e) (snd e')) || (N.eqb (fst e) (snd e') && N.eqb (snd e) (fst e')).

  Definition set_particle (g : graph) (attrs : list (N * N * str)) (x : N * N * str) : list (N * N * str) :=
    if existsb (same_edge (fst x)) g then dset same_edge attrs (fst x) (snd x) else attrs.

  (** completions.py:923-952 [partition_completion]: a reason, or the completion.  [new_edge_attrs] has one entry for every
      edge, the last one. *)
  Definition pair_eqb (e e' : N * N) : bool := N.eqb (fst e) (fst e') && N.eqb (snd e) (snd e').

  Definition partition_completion (p : partition) : res (str + completed) :=
    match pt_partition p with
    | Lf _ => Err TypeError
    | Tp rows =>
      do r <- completion vanishes (map placed_tree rows) (pt_epsilons p) (pt_graph p);
      match fst r with
      | inl reason => Ok (inl reason)
      | inr (terms, edge_dict, lorentz) =>
        let explicit_op := fold_left (fun op e => op_mul op [e]) lorentz (pt_operator p) in
        let new_edge_attrs := fold_left (fun d kv => dset pair_eqb d (snd kv) (f_label (i_field (cf_if (fst kv))))) edge_dict [] in
        Ok (inr (mkCompleted explicit_op (pt_partition p) (pt_graph p)
                   (fold_left (set_particle (pt_graph p)) new_edge_attrs (pt_particles p))
                   (map fst edge_dict) terms (pt_topology p)))
      end
    end.

  (** completions.py:955-985 [operator_completions], the generator run to its end *)
  Definition completions_of (op : operator) (st : counters) : res (list completed * counters) :=
    do parts <- partitions op st;
    do l <- mapM partition_completion (fst parts);
    Ok (flat_map (fun x => match x with inl _ => [] | inr c => [c] end) l, snd parts).
End Completions.
