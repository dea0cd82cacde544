(** * ModelNine: the script completions/d9.py *)

From Coq Require Import Ascii String List Bool Arith ZArith QArith Qcanon.
From Verif Require Import Base ModelFunctions ModelIndex ModelField ModelContract ModelInfo ModelRegistry.
Import ListNotations.
Local Open Scope nat_scope.

Section Nine.
  (** completions with their field information ([exotic_info]), int(n ** 0.5), and [operator_completions] with the state of
      the index counters; it is a generator, which [+=] runs to its end *)
  Context {C V CS : Type} (key : C -> list V) (veqb vleb : V -> V -> bool) (root : Z -> Z).
  Variable completions_of : operator -> CS -> res (list C * CS).

  Definition models := list (list V * list C).

  (** completions/d9.py:12-21 [completions], filled by the loop, which ends at the first operator of dimension eleven.  The
      progress messages are left out. *)
  Definition no_completions : list (Z * list C) := [(5, []); (7, []); (9, [])]%Z.

  Fixpoint collect_loop (ops : list (str * operator)) (completions : list (Z * list C)) (cs : CS) : res (list (Z * list C) * CS) :=
    match ops with
    | [] => Ok (completions, cs)
    | (label, op) :: rest =>
      do dim <- mass_dimension op;
      if (dim <? 11)%Z then
        do old <- dgetM Z.eqb completions dim;
        do model <- completions_of op cs;
        collect_loop rest (dset Z.eqb completions dim (old ++ fst model)) (snd model)
      else Ok (completions, cs)
    end.

  (** completions/d9.py:23-28.  The name [filtered_models] is not bound by the script: [None], unless the namespace it is run
      in happens to have it. *)
  Fixpoint sieve_loop (completions : list (Z * list C)) (prev : models) (filtered_models : option (list (Z * models)))
    : res (option (list (Z * models))) :=
    match completions with
    | [] => Ok filtered_models
    | (dim, l) :: rest =>
      let collected := collect_completions key veqb vleb l in
      do filtered <- filter_completions veqb root collected prev;
      match filtered_models with
      | None => Err NameError
      | Some d => sieve_loop rest filtered (Some (dset Z.eqb d dim filtered))
      end
    end.

  Definition d9 (eff_operators : list (str * operator)) (namespace : option (list (Z * models))) (cs : CS)
    : res (option (list (Z * models)) * CS) :=
    do r <- collect_loop eff_operators no_completions cs;
    do f <- sieve_loop (fst r) [] namespace;
    Ok (f, snd r).
End Nine.
