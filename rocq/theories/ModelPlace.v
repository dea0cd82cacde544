(** * ModelPlace: acting with derivatives in all possible ways, completions/completions.py (1168-1250), completions/utils.py (54-61) *)

From Coq Require Import Ascii String List Bool Arith ZArith QArith Qcanon.
From Verif Require Import Base Show ModelFunctions ModelIndex ModelField ModelContract.
Import ListNotations.
Local Open Scope nat_scope.

(** core.py:878-880 [gauge_indices], printed with spaces between *)
Definition gauge_string (x : ifield) : str :=
  join (lit " ") (map show_index (filter (fun i => negb (itype_eqb (ix_type i) Dotted) && negb (itype_eqb (ix_type i) Undotted)) (i_indices x))).

(** completions/completions.py:1181-1190: a [Field] from the dictionary [stripped] and [is_conj] has the default comm, nf and derivs *)
Definition stripped_field (x : ifield) : res field :=
  match f_stripped (i_field x) with
  | None => Err TypeError
  | Some s => mk_field (s_label s) (s_dynkin s) (Some (s_charges s)) (f_is_conj (i_field x)) (lit "0") (Some (s_symmetry s)) None 1 (Some (s_latex s)) 1 0 None
  end.

Record stripped_op := mkSO { so_fields : list (field * str); so_epsilons : list symbol; so_n_derivs : nat }.

(** completions/completions.py:1168-1196 [operator_strip_derivs] *)
Definition operator_strip_derivs (op : operator) : res stripped_op :=
  foldM (fun so t =>
    match t with
    | TField x =>
      if negb (f_derivs (i_field x) =? 0) then
        if negb (f_derivs (i_field x) =? 1) then Err AssertionError
        else do f <- stripped_field x; Ok (mkSO (so_fields so ++ [(f, gauge_string x)]) (so_epsilons so) (so_n_derivs so + 1))
      else do f <- field_of x; Ok (mkSO (so_fields so ++ [(f, gauge_string x)]) (so_epsilons so) (so_n_derivs so))
    | TSymbol s => Ok (mkSO (so_fields so) (so_epsilons so ++ [s]) (so_n_derivs so))
    end) op (mkSO [] [] 0).

(** completions/utils.py:54-61 [allowed_lor_dyn] *)
Definition allowed_lor_dyn (f : field) : res str :=
  do boson <- is_boson f;
  if boson then Ok (lit "11")
  else do l <- is_left_fermion f; Ok (if l then lit "01" else lit "10").

(** [act_deriv] or [deriv_id_func] *)
Definition act (d : bool) (f : field) : res field := if d then do l <- allowed_lor_dyn f; D f l else Ok f.

(** completions/completions.py:1199-1209 [construct_operator] *)
Definition construct_operator (fields : list (field * str)) (eps : list symbol) (st : counters) : res (operator * counters) :=
  do r <- foldM (fun acc fi =>
      do x <- fresh_ifield (fst fi) (snd acc);
      let l := by_type Undotted (i_indices (fst x)) ++ by_type Dotted (i_indices (fst x)) in
      do y <- call_field (fst fi) (join (lit " ") (map show_index l) ++ lit " " ++ snd fi);
      Ok (fst acc ++ [TField y], snd x)) fields ([], st);
  match fst r ++ map TSymbol eps with
  | [] => Err TypeError
  | op => Ok (op, snd r)
  end.

(** equality of lists of pairs of a field and a string *)
Definition struct_eqb : list (field * str) -> list (field * str) -> bool :=
  list_eqb (fun a b => field_eqb (fst a) (fst b) && str_eqb (snd a) (snd b)).

Section Combinations.
  (** [bool(op.safe_simplify())], sympy's *)
  Context (survives : operator -> res bool).

  (** the structures before [remove_equivalent] *)
  Definition all_structs (fields : list (field * str)) (n_derivs : nat) : res (list (list (field * str))) :=
    mapM (fun perm => mapM (fun fp => do g <- act (snd fp) (fst (fst fp)); Ok (g, snd (fst fp))) (combine fields perm))
         (permutations (repeat true n_derivs ++ repeat false (List.length fields - n_derivs))).

  (** completions/completions.py:1212-1250 [derivative_combinations] of an operator *)
  Definition derivative_combinations (op : operator) (st : counters) : res (list operator * counters) :=
    do so <- operator_strip_derivs op;
    do structs <- all_structs (so_fields so) (so_n_derivs so);
    do structs <- remove_equivalent struct_eqb structs;
    foldM (fun acc struct =>
      do r <- construct_operator struct (so_epsilons so) (snd acc);
      do b <- survives (fst r);
      Ok (if b then fst acc ++ [fst r] else fst acc, snd r)) structs ([], st).
End Combinations.
