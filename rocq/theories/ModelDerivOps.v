(** * ModelDerivOps: completions of operators with derivatives, completions/completions.py (1253-1288) *)

From Coq Require Import Ascii String List Bool Arith ZArith NArith QArith Qcanon.
From Verif Require Import Base Show ModelFunctions ModelIndex ModelField ModelContract ModelPartition ModelExotic ModelRegistry ModelPlace ModelOperators.
Import ListNotations.
Local Open Scope nat_scope.

Section DerivativeOperators.
  (** sympy's answers: [bool(op.safe_simplify())] in [derivative_combinations], [op.simplify() == 0] here, which may raise, and
      whether a term of a vertex vanishes *)
  Variable survives : operator -> res bool.
  Variable simplifies_to_zero : operator -> res bool.
  Variable vanishes : cop -> bool.
  Variable topologies : nat -> nat -> res (list (topology ifield)).

  (** completions.py:1253-1272 [deriv_operator_completions].  The name of the operator is left out, and so is printing. *)
  Definition deriv_operator_completions (op : operator) (st : counters) : res (list completed * counters) :=
    do combos <- derivative_combinations survives op st;
    foldM (fun (acc : list completed * counters) combo =>
      do z <- simplifies_to_zero combo;
      if z : bool then Ok acc
      else do r <- completions_of vanishes topologies combo (snd acc); Ok (fst acc ++ fst r, snd r)) (fst combos) ([], snd combos).

  (** what may be given to it: [EffectiveOperator] or [Operator].  The combinations of a plain operator are plain operators, which
      have no attribute [operator] (completions.py:1268). *)
  Inductive given := Effective (op : operator) | Bare (op : operator).

  Definition deriv_operator_completions_of (x : given) (st : counters) : res (list completed * counters) :=
    match x with
    | Effective op => deriv_operator_completions op st
    | Bare op =>
      do combos <- derivative_combinations survives op st;
      match fst combos with [] => Ok ([], snd combos) | _ => Err AttributeError end
    end.

  (** completions.py:5-62 and the definitions of the module: the names that the body of a function of the module finds besides its
      own and those of Python *)
  Definition module_names : list string :=
    ["Index"; "Field"; "IndexedField"; "eps"; "delta"; "is_invariant_symbol"; "Operator"; "get_dynkin"; "D"; "lorentz_singlets";
     "colour_singlets"; "invariants"; "contract_su2"; "timeit"; "safe_nocoeff"; "flatten"; "chunks"; "factors"; "multiple_replace";
     "allowed_lor_dyn"; "remove_equivalent"; "remove_equivalent_nopop"; "Completion"; "Model"; "FailedCompletion"; "EffectiveOperator";
     "cons_completion_field"; "FieldType"; "VectorLikeDiracFermion"; "MajoranaFermion"; "ComplexScalar"; "RealScalar";
     "get_topology_data"; "Leaf"; "pmatch"; "stringify_qns"; "conjugate_term"; "Tuple"; "List"; "Dict"; "Union"; "nx"; "iso"; "copy";
     "deepcopy"; "alive_bar"; "Counter"; "defaultdict"; "permutations"; "groupby"; "combinations"; "Tensor"; "prime"; "lru_cache";
     "reduce"; "re"; "os"; "replace"; "replace_fields"; "quick_remove_equivalent_partitions"; "distribute_fields"; "node_dictionary";
     "set_external_fields"; "indexed_fields_with_counters"; "partitions"; "are_equivalent_partitions"; "graph_fingerprint";
     "remove_isomorphic"; "all_scalars"; "all_fermions"; "drop_scalar"; "get_lorentz_epsilons"; "is_contracted_epsilon";
     "separate_gauge_epsilons"; "check_charges"; "check_singlet"; "exotic_field_and_term"; "process_derivative_term"; "contract";
     "get_connecting_edge"; "replace_and_mutate"; "contains_only_leaves"; "reduced_row"; "construct_completion";
     "partition_completion"; "operator_completions"; "sort_strings"; "check_remapping_on_terms"; "compare_terms";
     "are_equivalent_completions"; "slow_remove_equivalent_completions"; "collect_completions"; "prime_registry"; "model_registry";
     "filter_completions"; "operator_strip_derivs"; "construct_operator"; "derivative_combinations"; "deriv_operator_completions";
     "completions"; "collect_models"; "cons_term_prime_dict"; "completion_characteristic_number"; "clean_completions"]%string.

  (** completions.py:1275-1279 [completions], called with one operator, whose name is [name].  Its own names are those of its
      arguments, which are taken as [*args] and [**kwargs]. *)
  Definition completions_dispatch (name : str) (x : given) (st : counters) : res (list completed * counters) :=
    if existsb (String.eqb "operator"%string) (["args"; "kwargs"]%string ++ module_names)
    then if existsb (Ascii.eqb "D"%char) name then deriv_operator_completions_of x st
         else match x with Effective op => completions_of vanishes topologies op st | Bare _ => Err AttributeError end
    else Err NameError.
End DerivativeOperators.

(** completions/core.py:495-497 [Model], the object made of a list of completions *)
Record model (C : Type) := mkModel { md_completions : list C }.

(** completions.py:1282-1288 [collect_models] *)
Definition collect_models {C V} (key : C -> list V) (veqb vleb : V -> V -> bool) (comps : list C) : list (model C) :=
  map (fun kv => mkModel C (snd kv)) (collect_completions key veqb vleb comps).
