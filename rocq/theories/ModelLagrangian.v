(** * ModelLagrangian: U(1) symmetries and strings of fields, tensormethod/lagrangian.py, with tensormethod/sm.py and the
    mass terms of completions/core.py *)

From Coq Require Import Ascii String List Bool Arith ZArith QArith Qcanon.
From Verif Require Import Base Show ModelFunctions ModelIndex ModelField ModelContract ModelPartition ModelExotic.
Import ListNotations.
Local Open Scope nat_scope.

(** ** The fields of the standard model, tensormethod/sm.py:9-55 *)

Definition sm_charges (y b : Q) : charges := [(lit "y", Q2Qc y); (lit "3b", Q2Qc b)].

(** [mk_field] on literals does not raise; the result is written out (the theorem [sm_fields_made] compares the two). *)
Definition sm_field (label dynkin tex : str) (y b : Q) (comm : str) (sym : list (list nat)) (nf : nat) : field :=
  mkField label dynkin (sm_charges y b) false comm sym None 1 tex nf 0 None.

Definition sm_H := sm_field (lit "H") (lit "00001") (lit "H") (1 # 2) 0 (lit "bose") [[1]] 1.
Definition sm_Q := sm_field (lit "Q") (lit "10101") (lit "Q") (1 # 6) 1 (lit "fermi") [[1]; [1]; [1]] 3.
Definition sm_ub := sm_field (lit "ub") (lit "10010") (lit "\bar{u}") (-2 # 3) (-1) (lit "fermi") [[1]; [1]] 3.
Definition sm_db := sm_field (lit "db") (lit "10010") (lit "\bar{d}") (1 # 3) (-1) (lit "fermi") [[1]; [1]] 3.
Definition sm_L := sm_field (lit "L") (lit "10001") (lit "L") (-1 # 2) 0 (lit "fermi") [[1]; [1]] 3.
Definition sm_eb := sm_field (lit "eb") (lit "10000") (lit "\bar{e}") 1 0 (lit "fermi") [[1]] 3.

(** lagrangian.py:170: [sm_matter].  The objects are global and their charges are assigned to below, so that they are an
    argument everywhere. *)
Definition sm_matter : list field := [sm_H; sm_Q; sm_ub; sm_db; sm_L; sm_eb].

(** ** Fields as keys of dictionaries *)

Definition charges_same : charges -> charges -> bool := list_eqb (prod_eqb str_eqb Qc_eq_bool).

(** equality of the tuples hashed by [Field.__hash__]; different tuples are taken to have different hashes *)
Definition hash_eqb (f g : field) : bool :=
  str_eqb (f_label f) (f_label g) && str_eqb (f_dynkin f) (f_dynkin g) && Bool.eqb (f_is_conj f) (f_is_conj g) &&
  str_eqb (f_comm f) (f_comm g) && (f_nf f =? f_nf g) && (f_derivs f =? f_derivs g) &&
  symmetry_eqb (f_symmetry f) (f_symmetry g) && charges_same (f_charges f) (f_charges g).

(** a key is found when the hash is the same and [==] holds *)
Definition key_eqb (f g : field) : bool := hash_eqb f g && field_eqb f g.

(** [collections.Counter(l).items()] *)
Definition counter (l : list field) : list (field * nat) :=
  fold_left (fun d f => dset key_eqb d f (S (match dget key_eqb d f with Some n => n | None => 0 end))) l [].

(** ** Rows, lagrangian.py:169-183 and 204-210 *)

(** [fields] of an operator, tensormethod/core.py:960-962 *)
Definition fields_of (op : list tensor) : res (list field) := mapM field_of (indexed_fields op).

(** [f in l]: [==] only *)
Definition is_in (f : field) (l : list field) : bool := existsb (field_eqb f) l.

(** [row[i] += x], with numpy's IndexError *)
Fixpoint add_at (row : list Z) (i : nat) (x : Z) : res (list Z) :=
  match row, i with
  | [], _ => Err IndexError
  | r :: row, O => Ok ((r + x)%Z :: row)
  | r :: row, S i => do row <- add_at row i x; Ok (r :: row)
  end.

(** [{**dict(zip(conjs, range(n))), **dict(zip(fields, range(n)))}] *)
Definition index_dict (fields conjs : list field) : list (field * nat) :=
  let numbered := fun l => dict_of key_eqb (combine l (seq 0 (List.length l))) in
  dupdate key_eqb (numbered conjs) (numbered fields).

(** lagrangian.py:169-183 [term_to_row], of the list [term.fields].  [len(exotics) + 6]; floats that count fields are
    integers. *)
Definition term_to_row (sm : list field) (term_fields exotics : list field) (exotic_indices : list (field * nat)) : res (list Z) :=
  do conjs <- mapM conj_field sm;
  let dict := index_dict sm conjs in
  foldM (fun row fm =>
           let f := fst fm in
           let m := Z.of_nat (snd fm) in
           let m := if negb (f_is_conj f) then m else (- m)%Z in
           if is_in f (sm ++ conjs) then do i <- dgetM key_eqb dict f; add_at row i m
           else do i <- dgetM key_eqb exotic_indices f; add_at row (6 + i) m)
        (counter term_fields) (repeat 0%Z (List.length exotics + 6)).

(** lagrangian.py:204-210 [contains] *)
Fixpoint contains (term_fields fields : list field) : res bool :=
  match fields with
  | [] => Ok false
  | f :: r => if is_in f term_fields then Ok true
              else do c <- conj_field f; if is_in c term_fields then Ok true else contains term_fields r
  end.

(** lagrangian.py:142-143 *)
Definition yukawas : list (list Z) := ([[1; 1; 1; 0; 0; 0]; [-1; 1; 0; 1; 0; 0]; [-1; 0; 0; 0; 1; 1]])%Z.

(** lagrangian.py:138-157: the matrix of [u1_symmetries], from [exotics] and the fields of the terms *)
Definition u1_matrix (sm exotics : list field) (terms : list (list field)) : res (list (list Z)) :=
  do conjs <- mapM conj_field exotics;
  let exotic_indices := index_dict exotics conjs in
  do rows <- foldM (fun m t => do b <- contains t exotics;
                               if b then do r <- term_to_row sm t exotics exotic_indices; Ok (m ++ [r]) else Ok m) terms [];
  Ok (rows ++ map (fun y => y ++ repeat 0%Z (List.length exotics)) yukawas).

(** ** The Lagrangian, lagrangian.py:112-161 *)

(** completions/core.py:113-115, 184-186, 234-236, 350-352 [mass_term]; an IndexedField has none *)
Definition mass_term (x : cfield) : res cop :=
  do p <- match cf_class x with Plain => Err AttributeError | _ => partner_of x end;
  do le <- lower_su2 p (fun _ => false);
  Ok (fold_left c_mul (map KSym (snd le)) (cnormalise [KField (fst le); KField x])).

(** lagrangian.py:115-118; [dirac_partner] is a method of VectorLikeDiracFermion only *)
Definition with_partner (x : cfield) : res (list cfield) :=
  let f := i_field (cf_if x) in
  do b <- is_fermion f;
  if b then
    do y <- field_y f;
    if Qc_eq_dec y 0 then Ok [x]
    else match cf_class x with
         | DiracFermion u => do p <- dirac_partner u x; Ok [x; p]
         | _ => Err AttributeError
         end
  else Ok [x].

Section Lagrangian.
  (** the text by which indexed fields are ordered, tensormethod/core.py:828-831 *)
  Variable text : cfield -> str.
  (** sympy's [Matrix.nullspace] *)
  Variable nullspace : list (list Z) -> list (list Qc).

  (** lagrangian.py:112-122 [clean_fields]; [exotics] in the order in which the set is iterated.  The property [field] of
      each element is computed once. *)
  Definition clean_fields (exotics : list cfield) : res (list cfield) :=
    do l <- mapM with_partner exotics;
    do l <- mapM (fun x => do f <- field_of (cf_if x); Ok (x, f)) (concat l);
    do l <- remove_equivalent (fun p q => field_eqb (snd p) (snd q)) l;
    Ok (sort (fun a b => str_leb (text a) (text b)) (map fst l)).

  Record lagrangian := mkLagrangian { l_fields : list cfield; l_interactions : list cop }.

  (** lagrangian.py:126-130 *)
  Definition mk_lagrangian (exotics : list cfield) (interactions : list cop) : res lagrangian :=
    do fs <- clean_fields exotics; Ok (mkLagrangian fs interactions).

  (** lagrangian.py:132-135 [terms] *)
  Definition lag_terms (l : lagrangian) : res (list cop) :=
    do m <- mapM mass_term (l_fields l); Ok (l_interactions l ++ m).

  (** lagrangian.py:137-158 [u1_symmetries]; the terms are made after the dictionaries *)
  Definition u1_symmetries (sm : list field) (l : lagrangian) : res (list (list Qc)) :=
    do exotics <- mapM (fun x => field_of (cf_if x)) (l_fields l);
    do _ <- mapM conj_field exotics;
    do terms <- lag_terms l;
    do fields <- mapM (fun t => fields_of (cop_erase t)) terms;
    do m <- u1_matrix sm exotics fields;
    Ok (nullspace m).

  (** lagrangian.py:160-161 *)
  Definition num_u1_symmetries (sm : list field) (l : lagrangian) : res nat :=
    do v <- u1_symmetries sm l; Ok (List.length v).
End Lagrangian.

(** ** Strings of fields, lagrangian.py:37-98 *)

(** [itertools.combinations_with_replacement] *)
Fixpoint combos_with (n : nat) : forall (A : Type), list A -> list (list A) :=
  fun A => match n with
  | O => fun _ => [[]]
  | S n => fix go (l : list A) : list (list A) :=
      match l with
      | [] => []
      | x :: r => map (cons x) (combos_with n A l) ++ go r
      end
  end.

Definition set_charge (k : str) (v : Qc) (f : field) : field :=
  mkField (f_label f) (f_dynkin f) (dset str_eqb (f_charges f) k v) (f_is_conj f) (f_comm f) (f_symmetry f) (f_history f)
    (f_multiplicity f) (f_latex f) (f_nf f) (f_derivs f) (f_stripped f).

(** lagrangian.py:38-43: the global objects after the assignments, in the order of [sm_matter] *)
Definition with_lepton_number (sm : list field) : list field :=
  map (fun p => set_charge (lit "l") (Q2Qc (inject_Z (snd p))) (fst p)) (combine sm [0; 0; 0; 0; 1; -1]%Z).

(** core.py:421-423 [is_singlet] *)
Definition is_singlet (f : field) : res bool :=
  if str_eqb (f_dynkin f) (lit "00000") then do y <- field_y f; Ok (if Qc_eq_dec y 0 then true else false) else Ok false.

Section Strings.
  Variable irrep_product : str -> str -> list (list nat * nat).

  (** lagrangian.py:47 [T] *)
  Definition derivative_field : res field :=
    mk_field (lit "D") (lit "11000") (Some [(lit "y", Q2Qc 0); (lit "3b", Q2Qc 0); (lit "l", Q2Qc 0)]) false (lit "0") None None 1 None 1 0 None.

  (** lagrangian.py:61-64: one combination.  A single field is not a list, and cannot be iterated over. *)
  Definition first_singlet (combo : list field) : res (list field) :=
    do p <- decompose_product irrep_product combo;
    match p with
    | inl _ => Err TypeError
    | inr prods =>
      do s <- mapM (fun f => do b <- is_singlet f; Ok (f, b)) prods;
      Ok (firstn 1 (map fst (filter snd s)))
    end.

  (** lagrangian.py:45-70: the body, on fields whose charges were assigned already.  [func] is [None] or a predicate. *)
  Definition fieldstrings (n : nat) (fields : list field) (derivs : bool) (func : option (list field -> bool)) : res (list field) :=
    do conjs <- mapM conj_field fields;
    do fields <- (if derivs then do t <- derivative_field; Ok (fields ++ [t]) else Ok fields);
    do l <- mapM (fun combo => if match func with Some p => p combo | None => true end then first_singlet combo else Ok [])
                 (combos_with n _ (fields ++ conjs));
    Ok (concat l).

  (** lagrangian.py:37-70 [npoint_fieldstrings].  The state is [sm_matter]; [pick] says which fields are passed, given the
      global objects: the default argument is (L, eb, Q, db, ub, H). *)
  Definition default_fields (sm : list field) : list field :=
    match sm with [h; q; u; d; l; e] => [l; e; q; d; u; h] | _ => sm end.

  Definition npoint_fieldstrings (n : nat) (pick : list field -> list field) (derivs : bool) (func : option (list field -> bool))
    (sm : list field) : res (list field) * list field :=
    let sm := with_lepton_number sm in (fieldstrings n (pick sm) derivs func, sm).

  (** lagrangian.py:73-84 [prod_mass_dim]; a field which is not a product cannot be unpacked *)
  Fixpoint leaves_dim (t : prod_tree) : res Qc :=
    match t with
    | PLeaf f => Err TypeError
    | PNode _ (PLeaf l) r =>
      do a <- match r with PLeaf f => mass_dim f | PNode _ _ _ => Err AttributeError end;
      do b <- mass_dim l; Ok (a + b)%Qc
    | PNode _ l r =>
      do b <- match r with PLeaf f => mass_dim f | PNode _ _ _ => Err AttributeError end;
      do a <- leaves_dim l; Ok (b + a)%Qc
    end.

  (** lagrangian.py:87-98 [generate_fieldstrings]; the state is threaded through *)
  Definition generate_fieldstrings (max_dim : nat) (pick : list field -> list field) (derivs : bool) (sm : list field)
    : res (list field) * list field :=
    fold_left (fun acc n =>
                 match fst acc with
                 | Err e => acc
                 | Ok out =>
                   let r := npoint_fieldstrings n pick derivs None (snd acc) in
                   (do fs <- fst r;
                    do keep <- mapM (fun f => do d <- leaves_dim (walked f);
                                              Ok (if Qclt_le_dec (Q2Qc (inject_Z (Z.of_nat max_dim))) d then [] else [f])) fs;
                    Ok (out ++ concat keep), snd r)
                 end)
              (seq 2 (max_dim - 1)) (Ok [], sm).
End Strings.
