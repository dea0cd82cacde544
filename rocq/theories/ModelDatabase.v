(** * ModelDatabase: database/database.py and database/utils.py:subsets *)

From Coq Require Import Ascii String List Bool Arith ZArith QArith Qcanon.
From Verif Require Import Base Show Primes ModelFunctions ModelMatch ModelRegistry.
Import ListNotations.
Local Open Scope nat_scope.

(** ** Queries on lazily loaded completions *)

(** database/database.py:34-42 [match] and [matches_in].  Patterns are regular expressions in the code;
    modelled are patterns without special characters, for which [re.match] asks for a prefix. *)
Definition re_match (pattern data : str) : bool := startswith pattern data.
Definition matches_in (pattern : str) (coll : list str) : bool := existsb (re_match pattern) coll.

(** database/database.py:49-65 [LazyCompletion]: [head] has the keys "quantum_numbers", "operator_name" and
    "terms"; [tail] is the source text of the completion. *)
Record lazy := mkLazy
  { lz_quantum_numbers : list str; lz_operator : str; lz_terms : list (list str); lz_tail : str }.

Section Database.
  (** [enum l] is the order in which Python iterates over [set(l)]. *)
  Context (enum : list str -> list str).

  (** database/database.py:66-68 *)
  Definition quantum_numbers (m : lazy) : list str := enum (lz_quantum_numbers m).

  (** database/database.py:74-75 [contains_field] *)
  Definition contains_field (m : lazy) (pattern : str) : bool := matches_in pattern (quantum_numbers m).

  (** database/database.py:77-88 [contains_interaction] *)
  Definition contains_interaction (m : lazy) (patterns : list str) : bool :=
    existsb (fun interaction =>
               fold_left (fun is_match pattern => is_match && matches_in pattern interaction) patterns true)
            (lz_terms m).

  (** ** Reading files *)

  (** database/database.py:94-104 [read_completions]: the file is given by the completions its lines evaluate
      to, in order. *)
  Definition read_completions (file : list lazy) : list (str * list lazy) :=
    fold_left (fun d comp =>
                 let old := match dget str_eqb d (lz_operator comp) with Some l => l | None => [] end in
                 dset str_eqb d (lz_operator comp) (old ++ [comp]))
              file [].

  (** database/database.py:168-171: [{k: v for d in mvdb_data for k, v in d.items()}] *)
  Definition load (files : list (list lazy)) : list (str * list lazy) :=
    fold_left (fun out d => fold_left (fun out kv => dset str_eqb out (fst kv) (snd kv)) d out)
              (map read_completions files) [].

  (** ** The database object *)

  Inductive philosophy := democratic | stringent.
  Inductive criterion := mass | dimension.

  Record db := mkDb
    { d_philosophy : philosophy;
      d_criterion : criterion;
      d_data : list (str * list lazy);
      (** [None]: the attribute is_ordered does not exist *)
      d_is_ordered : option bool;
      d_exotics : list (str * Z);
      d_term_primes : list (list str * Z);
      (** [None]: scale_dict is None *)
      d_scales : option (list (str * Qc));
      (** the additions made to filter_data: row, column, and the length n of the list when 1/n was added *)
      d_filter_data : list (nat * nat * nat) }.

  Definition set_data (d : db) (x : list (str * list lazy)) : db :=
    mkDb (d_philosophy d) (d_criterion d) x (d_is_ordered d) (d_exotics d) (d_term_primes d) (d_scales d)
         (d_filter_data d).

  (** database/database.py:178-190 *)
  Definition exotic_prime_dict (data : list (str * list lazy)) : res (list (str * Z)) :=
    do st <- foldM (fun st kv =>
                      foldM (fun st model => foldM (class_step str_eqb conjugate_field) (quantum_numbers model) st)
                            (snd kv) st)
                   data ([], 1);
    Ok (fst st).

  (** database/database.py:199-200: the terms are sorted in place *)
  Definition sort_terms (m : lazy) : lazy :=
    mkLazy (lz_quantum_numbers m) (lz_operator m) (map sorted_str (lz_terms m)) (lz_tail m).

  Definition sort_data (data : list (str * list lazy)) : list (str * list lazy) :=
    map (fun kv => (fst kv, map sort_terms (snd kv))) data.

  (** database/database.py:193-209.  The in-place sort of each term happens just before it is looked up; no
      term is looked up before its own sort, so it is done first here. *)
  Definition term_prime_dict (data : list (str * list lazy)) : res (list (list str * Z)) :=
    do st <- foldM (fun st kv =>
                      foldM (fun st model => foldM (class_step term_eqb conjugate_term) (lz_terms model) st)
                            (snd kv) st)
                   (sort_data data) ([], 1);
    Ok (fst st).

  (** [{v: k for k, v in d.items()}], database/database.py:189 and 213 *)
  Definition inverse_dict {K} (d : list (K * Z)) : list (Z * K) :=
    fold_left (fun inv kv => dset Z.eqb inv (snd kv) (fst kv)) d [].

  (** database/database.py:151-223 [ModelDatabase.__init__].  [data = None] reads the files. *)
  Definition new_db (files : list (list lazy)) (ph : philosophy) (cr : criterion)
    (data : option (list (str * list lazy))) : res db :=
    let (d, ordered) := match data with
                        | None => (load files, None)
                        | Some d => (d, Some true)
                        end in
    do ex <- exotic_prime_dict d;
    do te <- term_prime_dict d;
    Ok (mkDb ph cr (sort_data d) ordered ex te None []).

  (** database/database.py:241-243, 245-247 [query], [filter_by_query] *)
  Definition query (func : lazy -> bool) (d : db) : list (str * list lazy) :=
    map (fun kv => (fst kv, filter func (snd kv))) (d_data d).
  Definition filter_by_query (func : lazy -> bool) (d : db) : db := set_data d (query func d).

  (** database/database.py:249-257 [no_seesaws] *)
  Definition no_seesaws (m : lazy) : bool :=
    negb (contains_field m (lit "F,00,2,0,0")) && negb (contains_field m (lit "F,00,0,0,0"))
    && negb (contains_field m (lit "S,00,2,1,0")).

  (** database/database.py:260-265 [democratic_model_number] *)
  Definition democratic_model_number (d : db) (model : lazy) : res Z :=
    foldM (fun prod qn => do p <- dgetM str_eqb (d_exotics d) qn; Ok (prod * p)%Z) (quantum_numbers model) 1%Z.

  (** database/database.py:267-272 [stringent_model_number] *)
  Definition stringent_model_number (d : db) (model : lazy) : res Z :=
    foldM (fun prod t => do p <- dgetM term_eqb (d_term_primes d) t; Ok (prod * p)%Z) (lz_terms model) 1%Z.

  (** database/database.py:274-278 [model_number] *)
  Definition db_model_number (d : db) (model : lazy) : res Z :=
    match d_philosophy d with
    | democratic => democratic_model_number d model
    | stringent => stringent_model_number d model
    end.

  (** database/database.py:280-291 [force], on a database that is not yet forced.  [eval] evaluates the source
      text.  The loop rebinds self.data to a new one-entry dictionary for each operator.  The result is [None]
      when the loop body never runs and self.data is left as it was. *)
  Definition force {X} (eval : str -> res X) (data : list (str * list lazy)) : res (option (list (str * list X))) :=
    foldM (fun (_ : option (list (str * list X))) kv =>
             do xs <- mapM (fun m => eval (lz_tail m)) (snd kv); Ok (Some [(fst kv, xs)]))
          data None.

  (** database/database.py:293-317: [eq] compares model numbers; the exceptions of [model_number] are taken
      first.  [remove_equivalent_nopop] fills a list of the right length, whose entries are all set. *)
  Definition numbered (num : lazy -> res Z) (v : list lazy) : res (list (lazy * Z)) :=
    mapM (fun m => do n <- num m; Ok (m, n)) v.

  Definition remove_equivalent_with (num : lazy -> res Z) (data : list (str * list lazy))
    : res (list (str * list lazy)) :=
    foldM (fun out kv =>
             do v <- numbered num (snd kv);
             do r <- remove_equivalent_nopop (fun x y => Z.eqb (snd x) (snd y)) v;
             Ok (dset str_eqb out (fst kv) (flat_map (fun o => match o with Some (m, _) => [m] | None => [] end) r)))
          data data.

  Definition remove_equivalent_models (d : db) : res db :=
    do x <- remove_equivalent_with (db_model_number d) (d_data d); Ok (set_data d x).

  (** [n % sieve != 0] *)
  Definition not_multiple (n sieve : Z) : res bool :=
    if (sieve =? 0)%Z then Err ZeroDivisionError else Ok (negb (n mod sieve =? 0)%Z).

  (** database/database.py:332-336, 391-395: the loop over test_model *)
  Definition keep_models (num : lazy -> res Z) (sieve : Z) (v : list lazy) : res (list lazy) :=
    foldM (fun new_v test_model =>
             do n <- num test_model;
             do keep <- not_multiple n sieve;
             Ok (if keep : bool then new_v ++ [test_model] else new_v))
          v [].

  (** database/database.py:328-345, 388-401: the loop over the data; [skip k] is the test that continues.
      The dictionary is updated at the current key only, so the loop runs over the original items.  [note]
      records the additions to filter_data: once for each dropped model. *)
  Definition sieve_data (num : lazy -> res Z) (skip : str -> res bool) (sieve : Z) (data : list (str * list lazy))
    : res (list (str * list lazy)) :=
    foldM (fun out kv =>
             do s <- skip (fst kv);
             if s : bool then Ok out
             else do new_v <- keep_models num sieve (snd kv); Ok (dset str_eqb out (fst kv) new_v))
          data data.

  Definition Qc_geb (a b : Qc) : bool := Qle_bool (this b) (this a).

  (** [self.scale_dict[k]]; subscripting None raises TypeError *)
  Definition scale_of (scales : option (list (str * Qc))) (k : str) : res Qc :=
    match scales with None => Err TypeError | Some d => dgetM str_eqb d k end.

  (** database/database.py:319-345 [filter_model_by_mass] with keep_filter_data = False, the only value used *)
  Definition filter_model_by_mass (d : db) (op : str) (model : lazy) : res db :=
    do op_scale <- scale_of (d_scales d) op;
    do sieve <- db_model_number d model;
    do x <- sieve_data (db_model_number d) (fun k => do s <- scale_of (d_scales d) k; Ok (Qc_geb s op_scale)) sieve
                       (d_data d);
    Ok (set_data d x).

  (** database/database.py:367-369 [filter_models_by_mass]: the loop runs over the list found at the start *)
  Definition filter_models_by_mass (d : db) (op : str) : res db :=
    do v <- dgetM str_eqb (d_data d) op;
    foldM (fun d model => filter_model_by_mass d op model) v d.

  (** database/database.py:371-373 [filter_by_mass] *)
  Definition filter_by_mass (d : db) : res db := foldM filter_models_by_mass (keys (d_data d)) d.

  (** database/database.py:347-365 [filter_one_loop_weinberg]; [one_loop_scale] is 605520000000 / (16 pi^2).
      The inner loop stops at the first divisor. *)
  Fixpoint none_divides (n : Z) (nums : list Z) : res bool :=
    match nums with
    | [] => Ok true
    | x :: r => do b <- not_multiple n x; if b : bool then none_divides n r else Ok false
    end.

  Definition filter_one_loop_weinberg (one_loop_scale : Qc) (nums : list Z) (d : db) : res db :=
    do x <- foldM (fun out kv =>
                     do s <- scale_of (d_scales d) (fst kv);
                     if Qc_geb s one_loop_scale then Ok out
                     else
                       do new_v <- foldM (fun new_v model =>
                                            (* an empty list of numbers leaves the model number unread *)
                                            do keep <- (match nums with
                                                        | [] => Ok true
                                                        | _ => do n <- democratic_model_number d model;
                                                               none_divides n nums
                                                        end);
                                            Ok (if keep : bool then new_v ++ [model] else new_v))
                                         (snd kv) [];
                       Ok (dset str_eqb out (fst kv) new_v))
                  (d_data d) (d_data d);
    Ok (set_data d x).

  (** ** Filtering by dimension *)

  (** [ops[k].mass_dimension] with ops = {**EFF_OPERATORS, **DERIV_EFF_OPERATORS} *)
  Context (dims : list (str * Z)).

  (** position in list(self.data) *)
  Fixpoint index_of (k : str) (l : list str) : res nat :=
    match l with
    | [] => Err ValueError
    | x :: r => if str_eqb k x then Ok 0 else do i <- index_of k r; Ok (S i)
    end.

  (** database/database.py:375-401 [filter_model_by_dimension], the additions to filter_data included *)
  Definition sieve_notes (num : lazy -> res Z) (skip : str -> res bool) (sieve : Z) (op : str)
    (data : list (str * list lazy)) : res (list (nat * nat * nat)) :=
    foldM (fun notes kv =>
             do s <- skip (fst kv);
             if s : bool then Ok notes
             else
               foldM (fun notes test_model =>
                        do n <- num test_model;
                        do keep <- not_multiple n sieve;
                        if keep : bool then Ok notes
                        else
                          do i <- index_of op (keys data);
                          do j <- index_of (fst kv) (keys data);
                          Ok (notes ++ [(i, j, List.length (snd kv))]))
                     (snd kv) notes)
          data [].

  Definition filter_model_by_dimension (d : db) (op : str) (model : lazy) : res db :=
    do op_dim <- dgetM str_eqb dims op;
    do sieve <- db_model_number d model;
    let skip k := do m <- dgetM str_eqb dims k; Ok (m <=? op_dim)%Z in
    do x <- sieve_data (db_model_number d) skip sieve (d_data d);
    do notes <- sieve_notes (db_model_number d) skip sieve op (d_data d);
    Ok (mkDb (d_philosophy d) (d_criterion d) x (d_is_ordered d) (d_exotics d) (d_term_primes d) (d_scales d)
             (d_filter_data d ++ notes)).

  (** database/database.py:403-413 *)
  Definition filter_models_by_dimension (d : db) (op : str) : res db :=
    do v <- dgetM str_eqb (d_data d) op;
    foldM (fun d model => filter_model_by_dimension d op model) v d.
  Definition filter_by_dimension (d : db) : res db := foldM filter_models_by_dimension (keys (d_data d)) d.

  (** ** Ordering *)

  (** The operators with the estimates of their neutrino-mass scale (the numerical values, in order). *)
  Context (estimates : list (str * list Qc)).

  (** [max] of a generator: the first largest; ValueError on nothing *)
  Definition max_scale (l : list Qc) : res Qc :=
    match l with
    | [] => Err ValueError
    | x :: r => Ok (fold_left (fun m y => if Qc_geb m y then m else y) r x)
    end.

  (** database/database.py:425-450 [fill_scale_dict] (the numerical part): the maximum starts from 0 *)
  Definition fill_scale_dict (d : db) : res db :=
    do sd <- foldM (fun sd kv =>
                      let m := fold_left (fun m y => if Qc_geb m y then m else y) (snd kv) (Q2Qc 0) in
                      if Qc_geb (Q2Qc 0) m then Err AssertionError else Ok (dset str_eqb sd (fst kv) m))
                   estimates [];
    Ok (mkDb (d_philosophy d) (d_criterion d) (d_data d) (d_is_ordered d) (d_exotics d) (d_term_primes d) (Some sd)
             (d_filter_data d)).

  (** database/database.py:452-475 [order_by_mass].  [sorted] is stable and ascending; it is then reversed. *)
  Definition order_by_mass (d : db) : res db :=
    do scales <- mapM (fun kv => do s <- max_scale (snd kv); Ok (fst kv, s))
                      (filter (fun kv => dmem str_eqb (d_data d) (fst kv)) estimates);
    let mv_ordered := rev (sort (fun a b => Qc_geb (snd b) (snd a)) scales) in
    do x <- mapM (fun kv => do v <- dgetM str_eqb (d_data d) (fst kv); Ok (fst kv, v)) mv_ordered;
    Ok (mkDb (d_philosophy d) (d_criterion d) x (Some true) (d_exotics d) (d_term_primes d) (Some mv_ordered)
             (d_filter_data d)).

  (** database/database.py:477-488 [order_by_dimension] *)
  Definition order_by_dimension (d : db) : res db :=
    do keyed <- mapM (fun kv => do m <- dgetM str_eqb dims (fst kv); Ok (m, kv)) (d_data d);
    let x := map snd (sort (fun a b => (fst a <=? fst b)%Z) keyed) in
    Ok (mkDb (d_philosophy d) (d_criterion d) x (Some true) (d_exotics d) (d_term_primes d) (d_scales d)
             (d_filter_data d)).

  (** database/database.py:490-495 [order] *)
  Definition order (d : db) : res db :=
    match d_criterion d with mass => order_by_mass d | dimension => order_by_dimension d end.

  (** database/database.py:415-423 [filter] *)
  Definition filter_db (d : db) : res db :=
    do d <- match d_is_ordered d with
            | None => Err AttributeError
            | Some true => Ok d
            | Some false => order d
            end;
    match d_criterion d with mass => filter_by_mass d | dimension => filter_by_dimension d end.

  (** database/database.py:497-507 [process] *)
  Definition process (filter_seesaws : bool) (d : db) : res db :=
    let d := if filter_seesaws then filter_by_query no_seesaws d else d in
    do d <- remove_equivalent_models d;
    do d <- order d;
    filter_db d.
End Database.

(** ** Data frames *)

(** database/utils.py:54-55 [subsets]; [itertools.combinations] in its order *)
Definition subsets {A} (l : list A) : list (list A) :=
  concat (map (fun i => combinations i l) (seq 0 (List.length l + 1))).

(** [l.remove(x)]: the first occurrence; ValueError if there is none *)
Definition list_remove (x : Z) (l : list Z) : res (list Z) := remove_first Z.eqb x l.

(** database/database.py:138-148 [ModelDataFrame.related_models]: the labels of the rows returned.  The frame
    is the list of (row label, democratic_num); [factorint n] lists the keys of the dictionary sympy returns.
    [reduce] is over a non-empty tuple. *)
Definition related_models (factorint : Z -> list Z) (df : list (Z * Z)) (index : Z) : res (list Z) :=
  do demo_num <- dgetM Z.eqb df index;
  let factor_groups := filter (fun l => (1 <? List.length l)) (subsets (factorint demo_num)) in
  let indices := concat (map (fun group =>
                                let prod := fold_left Z.mul group 1%Z in
                                map fst (filter (fun row => (snd row =? prod)%Z) df))
                             factor_groups) in
  list_remove index indices.
