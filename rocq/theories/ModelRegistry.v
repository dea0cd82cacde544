(** * ModelRegistry: prime labels in completions/completions.py (1088-1165, 1291-1332) *)

From Coq Require Import Ascii String List Bool Arith ZArith QArith Qcanon.
From Verif Require Import Base Show Primes ModelFunctions ModelMatch.
Import ListNotations.
Local Open Scope nat_scope.

(** ** Field content of models *)

Section Registry.
  (** The type of field information (a tuple such as ("S", 0, 0, 1, ("3b", 0), ("y", 1/2))) with its
      equality, and the type of the completions stored under a key. *)
  Context {F C : Type} (feqb : F -> F -> bool).

  Definition teqb : list F -> list F -> bool := list_eqb feqb.

  (** completions/completions.py:1115-1129 [prime_registry].  The loop state is (reg, counter); only the keys
      of [sieve] are used. *)
  Definition registry_step (st : list (F * Z) * nat) (field : F) : list (F * Z) * nat :=
    let (reg, counter) := st in
    if dmem feqb reg field then (reg, counter)
    else (dset feqb reg field (prime_ counter), S counter).

  Definition prime_registry (sieve : list (list F * list C)) : list (F * Z) :=
    fst (fold_left (fun st kv => fold_left registry_step (fst kv) st) sieve ([], 1)).

  (** completions/completions.py:1132-1142 [model_registry] *)
  Definition model_number (registry : list (F * Z)) (k : list F) : res Z :=
    foldM (fun prod field => do p <- dgetM feqb registry field; Ok (prod * p)%Z) k 1%Z.

  Definition model_registry (completions : list (list F * list C)) (registry : list (F * Z))
    : res (list (list F * Z)) :=
    foldM (fun reg kv => do prod <- model_number registry (fst kv); Ok (dset teqb reg (fst kv) prod))
          completions [].

  (** completions/completions.py:1145-1165 [filter_completions].  [root n] is int(n ** 0.5). *)
  Definition filter_completions (root : Z -> Z)
    (completions sieve : list (list F * list C)) : res (list (list F * list C)) :=
    let registry := prime_registry (dupdate teqb sieve completions) in
    do creg <- model_registry completions registry;
    do sreg <- model_registry sieve registry;
    foldM (fun unique kv =>
             do factors_ <- factors (snd kv) (root (snd kv));
             if existsb (fun ref_val => mem_by Z.eqb ref_val factors_) (values sreg) then Ok unique
             else do c <- dgetM teqb completions (fst kv); Ok (dset teqb unique (fst kv) c))
          creg [].
End Registry.

(** ** Interaction terms *)

(** The attributes of a field that [stringify_qns] reads. *)
Record tfield := mkTField
  { t_label : str; t_is_scalar : bool; t_dynkin : str; t_y : Qc; t_3b : Qc; t_is_conj : bool }.

Definition stringify (f : tfield) : res str :=
  stringify_qns (t_label f) (t_is_scalar f) (t_dynkin f) (t_y f) (t_3b f) (t_is_conj f).

(** [tuple(sorted(stringify_qns(f) for f in term.fields))], completions/completions.py:1299 and 1315 *)
Definition term_key (fields : list tfield) : res (list str) :=
  do l <- mapM stringify fields; Ok (sorted_str l).

Definition term_eqb : list str -> list str -> bool := list_eqb str_eqb.

(** One loop body shared by completions/completions.py:1300-1305 and database/database.py:184-189, 204-209:
    unless the key is known, the conjugate key and then the key itself get the next prime. *)
Definition class_step {K} (eqb : K -> K -> bool) (conj : K -> res K)
  (st : list (K * Z) * nat) (k : K) : res (list (K * Z) * nat) :=
  let (d, counter) := st in
  if dmem eqb d k then Ok (d, counter)
  else
    do k' <- conj k;
    Ok (dset eqb (dset eqb d k' (prime_ counter)) k (prime_ counter), S counter).

Section Completions.
  (** Topology names with the order [sorted] uses. *)
  Context {Top : Type} (top_eqb top_leb : Top -> Top -> bool).

  (** The parts of a [Completion] used here: the interaction terms and the topology.  [c_id] stands for all
      other attributes (operator, partition, graph, exotics). *)
  Record completion := mkCompletion { c_id : nat; c_terms : list (list tfield); c_topology : Top }.

  (** completions/completions.py:1291-1307 [cons_term_prime_dict] *)
  Definition cons_term_prime_dict (completions : list completion) : res (list (list str * Z)) :=
    do st <- foldM (fun st comp =>
                      foldM (fun st term =>
                               do new_term <- term_key term;
                               class_step term_eqb conjugate_term st new_term)
                            (c_terms comp) st)
                   completions ([], 1);
    Ok (fst st).

  (** completions/completions.py:1310-1317 [completion_characteristic_number] *)
  Definition completion_characteristic_number (comp : completion) (prime_dict : list (list str * Z)) : res Z :=
    foldM (fun prod term =>
             do new_term <- term_key term;
             do p <- dgetM term_eqb prime_dict new_term;
             Ok (prod * p)%Z)
          (c_terms comp) 1%Z.

  (** completions/completions.py:1320-1332 [clean_completions] *)
  Definition clean_completions (completions : list completion) : res (list completion) :=
    do prime_dict <- cons_term_prime_dict completions;
    do comp_dict <- foldM (fun d comp =>
                             do num <- completion_characteristic_number comp prime_dict;
                             Ok (dset (prod_eqb Z.eqb top_eqb) d (num, c_topology comp) comp))
                          completions [];
    Ok (sort (fun a b => top_leb (c_topology a) (c_topology b)) (values comp_dict)).
End Completions.
Arguments completion : clear implicits.

(** ** collect_completions *)

Section Collect.
  (** completions, the values of [key(c)] (field information tuples) and their order *)
  Context {C V : Type} (key : C -> list V) (veqb vleb : V -> V -> bool).

  (** completions/completions.py:1104 [func] *)
  Definition func_key (c : C) : list V := sort vleb (key c).

  (** [itertools.groupby]: maximal runs of consecutive elements with the same key *)
  Fixpoint groupby (l : list C) : list (list V * list C) :=
    match l with
    | [] => []
    | c :: r => match groupby r with
                | (k, g) :: gs => if list_eqb veqb (func_key c) k then (k, c :: g) :: gs
                                  else (func_key c, [c]) :: (k, g) :: gs
                | [] => [(func_key c, [c])]
                end
    end.

  (** [tuple(sorted(set(k)))], completions/completions.py:1108.  The set of equal tuples collapses; the order
      of set iteration does not matter to [sorted] when the order is total. *)
  Definition set_key (k : list V) : list V := sort vleb (nodup_by veqb k).

  (** completions/completions.py:1088-1112 [collect_completions] *)
  Definition collect_completions (completions : list C) : list (list V * list C) :=
    fold_left (fun out kg => dset (list_eqb veqb) out (set_key (fst kg)) (snd kg)) (groupby completions) [].
End Collect.
