(** * ModelPickler: the script database/pickler, which writes the tables of models, and the symbolic half of
      database/database.py:425-450 *)

From Coq Require Import Ascii String List Bool Arith ZArith QArith Qcanon.
From Verif Require Import Base Show ModelFunctions ModelClosures ModelDatabase ModelHeavy.
Import ListNotations.
Local Open Scope nat_scope.

(** The columns of the dictionary that [data_dict] returns, in the order in which they are made.  The dictionary is a
    [defaultdict(list)]; a column that was never appended to has no key, here it is empty. *)
Record columns := mkColumns
  { k_democratic : list Z; k_stringent : list Z; k_op : list str; k_dim : list Z; k_scale : list Qc;
    k_symbolic : list estimate; k_topology : list str; k_fields : list nat; k_scalars : list nat;
    k_fermions : list nat; k_min_loops : list nat; k_max_loops : list nat; k_derivs : list nat;
    k_completion : list str }.

Definition no_columns : columns := mkColumns [] [] [] [] [] [] [] [] [] [] [] [] [] [].

(** [min(l)] and [max(l)] of a list of integers; ValueError on an empty one *)
Definition least (l : list nat) : res nat :=
  match l with [] => Err ValueError | x :: r => Ok (fold_left (fun m y => if y <? m then y else m) r x) end.
Definition greatest (l : list nat) : res nat :=
  match l with [] => Err ValueError | x :: r => Ok (fold_left (fun m y => if m <? y then y else m) r x) end.

Section Pickler.
  (** the order in which Python iterates over a set of strings, and over a set of integers *)
  Context (enum : list str -> list str) (zenum : list Z -> list Z).
  (** what [numerical_np_scale_estimate] computes *)
  Context (value : estimate -> Qc).
  (** [model.head["topology"]]; the key need not exist *)
  Context (topology : lazy -> res str).
  (** OPS: for each label the estimates of the operator, its mass dimension, and the number of its derivatives *)
  Context (estimates : list (str * list estimate)) (dims : list (str * Z)) (derivs : list (str * nat)).

  (** database/database.py:434-442: largest scale so far, with the expression it belongs to *)
  Definition leading_scale (l : list estimate) : Qc * option estimate :=
    fold_left (fun best e => if Qc_geb (fst best) (value e) then best else (value e, Some e)) l (Q2Qc 0, None).

  (** database/database.py:425-450 [fill_scale_dict]: the symbolic part *)
  Definition symbolic_scale_dict : res (list (str * estimate)) :=
    foldM (fun sd kv => let best := leading_scale (snd kv) in
                        if Qc_geb (Q2Qc 0) (fst best) then Err AssertionError
                        else match snd best with
                             | None => Err AssertionError
                             | Some e => Ok (dset str_eqb sd (fst kv) e)
                             end)
          estimates [].

  (** the numerical estimates, as order_by_mass and fill_scale_dict see them *)
  Definition numerical : list (str * list Qc) := map (fun kv => (fst kv, map value (snd kv))) estimates.

  (** database/pickler:27-36 [get_scalars_fermions] *)
  Definition get_scalars_fermions (model : lazy) : res (nat * nat) :=
    foldM (fun n f => match f with
                      | [] => Err IndexError
                      | c :: _ => Ok (if Ascii.eqb c "S" then (S (fst n), snd n)
                                      else if Ascii.eqb c "F" then (fst n, S (snd n)) else n)
                      end) (quantum_numbers enum model) (0, 0).

  (** database/pickler:50-72: the entries made for one model *)
  Definition add_model (d : db) (k : str) (scale : Qc) (symb : estimate) (lo hi n_derivs : nat)
    (data : columns) (model : lazy) : res columns :=
    do demo <- democratic_model_number enum d model;
    do strict <- stringent_model_number d model;
    do dim <- dgetM str_eqb dims k;
    do top <- topology model;
    do n <- get_scalars_fermions model;
    Ok (mkColumns (k_democratic data ++ [demo]) (k_stringent data ++ [strict]) (k_op data ++ [k])
                  (k_dim data ++ [dim]) (k_scale data ++ [scale]) (k_symbolic data ++ [symb])
                  (k_topology data ++ [top]) (k_fields data ++ [fst n + snd n]) (k_scalars data ++ [fst n])
                  (k_fermions data ++ [snd n]) (k_min_loops data ++ [lo]) (k_max_loops data ++ [hi])
                  (k_derivs data ++ [n_derivs]) (k_completion data ++ [lz_tail model])).

  (** database/pickler:39-76 [data_dict]; [symbolic] is db.symbolic_scale_dict, which is None before fill_scale_dict *)
  Definition data_dict (symbolic : option (list (str * estimate))) (d : db) : res columns :=
    foldM (fun data kv =>
             do scale <- scale_of (d_scales d) (fst kv);
             do symb <- match symbolic with None => Err TypeError | Some s => dgetM str_eqb s (fst kv) end;
             let (loops, loopsv2) := loop_data symb in
             let n_loops := match loopsv2 with [] => [loops] | _ => map (fun i => i + loops) loopsv2 end in
             do lo <- least n_loops;
             do hi <- greatest n_loops;
             do n_derivs <- dgetM str_eqb derivs (fst kv);
             foldM (add_model d (fst kv) scale symb lo hi n_derivs) (snd kv) data)
          (d_data d) no_columns.

  (** database/database.py:293-303 [democratic_remove_equivalent_models] *)
  Definition democratic_remove_equivalent_models (d : db) : res db :=
    do x <- remove_equivalent_with (democratic_model_number enum d) (d_data d); Ok (set_data d x).

  (** The files of database/pickler:103-131: unfiltered.p, exotics.p, terms.p; and democratic.p, or the exception that
      keeps it from being written.  [ModelDatabase(path)] is democratic and by mass (database.py:151-157);
      [one_loop_scale] is 605520000000 / (16 pi^2). *)
  Record files := mkFiles
    { o_unfiltered : columns; o_exotics : list (str * Z); o_terms : list (list str * Z); o_democratic : res columns }.

  Definition pickler (raw : list (list lazy)) (one_loop_scale : Qc) : res files :=
    do d <- new_db enum raw democratic mass None;
    do d <- fill_scale_dict numerical d;
    do symbolic <- symbolic_scale_dict;
    do unfiltered <- data_dict (Some symbolic) d;
    let rest :=
      do d <- democratic_remove_equivalent_models d;
      do d <- order_by_mass numerical d;
      do d <- filter_by_mass enum d;
      do nums <- one_loop_democratic_nums (d_exotics d) generate_models;
      do d <- filter_one_loop_weinberg enum one_loop_scale (zenum nums) d;
      data_dict (Some symbolic) d in
    Ok (mkFiles unfiltered (d_exotics d) (d_term_primes d) rest).
End Pickler.
