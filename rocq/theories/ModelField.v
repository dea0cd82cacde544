(** * ModelField: fields, indexed fields and operators, tensormethod/core.py (232-985, 1185-1256, 1308-1371) *)

From Coq Require Import Ascii String List Bool Arith ZArith QArith Qcanon.
From Verif Require Import Base Show ModelIndex.
Import ListNotations.
Local Open Scope nat_scope.

(** the non-ASCII characters used in labels: the dagger, the partial derivative, the Greek letters of [to_tex] *)
Definition dagger : ascii := ascii_of_nat 200.
Definition partial_sign : ascii := ascii_of_nat 201.

(** tensormethod/utils.py:9-33 *)
Definition tex_greek : list str :=
  map lit ["\alpha"; "\beta"; "\gamma"; "\delta"; "\epsilon"; "\zeta"; "\eta"; "\theta"; "\iota"; "\kappa";
           "\lambda"; "\mu"; "\nu"; "\xi"; "\pi"; "\rho"; "\sigma"; "\tau"; "\upsilon"; "\phi"; "\chi"; "\psi";
           "\omega"]%string.

(** tensormethod/utils.py:89-97 [to_tex]; the i-th letter of [greek] has code 160 + i. *)
Definition to_tex (label : str) : res str :=
  match label with
  | [] => Err IndexError
  | c :: _ =>
    let n := nat_of_ascii c in
    if ((65 <=? n) && (n <=? 90)) || ((97 <=? n) && (n <=? 122)) then Ok label
    else if 160 <=? n then match nth_error tex_greek (n - 160) with Some x => Ok x | None => Err KeyError end
    else Err KeyError
  end.

(** tensormethod/utils.py:64-69 [strip_parens] *)
Definition strip_parens (s : str) : res str :=
  match s with
  | [] => Err IndexError
  | c :: r => if Ascii.eqb c "(" && Ascii.eqb (last s c) ")" then Ok (removelast r) else Ok s
  end.

Definition charges := list (str * Qc).

(** the dictionary stored by [D] in the attribute [stripped], core.py:1364-1370 *)
Record stripped_info := mkStripped
  { s_label : str; s_dynkin : str; s_symmetry : list (list nat); s_charges : charges; s_latex : str }.

(** A [Field] (core.py:232-310).  [comm] is printed, so that 0, "fermi" and "bose" are strings; the keyword
    arguments that [__init__] ignores are left out. *)
Inductive field := mkField
  { f_label : str; f_dynkin : str; f_charges : charges; f_is_conj : bool; f_comm : str;
    f_symmetry : list (list nat); f_history : option (field * field); f_multiplicity : nat;
    f_latex : str; f_nf : nat; f_derivs : nat; f_stripped : option stripped_info }.

Definition default_charges : charges := [(lit "y", Q2Qc 0); (lit "3b", Q2Qc 0)].

(** core.py:285-289: one block of ones for each non-zero Dynkin label *)
Definition symmetry_of (l : list nat) : list (list nat) :=
  flat_map (fun i => if i =? 0 then [] else [repeat 1 i]) l.

(** core.py:233-310 [Field.__init__] when [dynkin] is a string without surrounding white space; charges are
    rational numbers already. *)
Definition mk_field (label dynkin : str) (ch : option charges) (is_conj : bool) (comm : str)
  (symmetry : option (list (list nat))) (history : option (field * field)) (multiplicity : nat)
  (latex : option str) (nf derivs : nat) (stripped : option stripped_info) : res field :=
  let ch := match ch with None => default_charges | Some c => dupdate str_eqb default_charges c end in
  do symmetry <- match symmetry with
                 | Some s => Ok s
                 | None => do l <- mapM digit_of dynkin; Ok (symmetry_of l)
                 end;
  do latex <- match latex with Some x => Ok x | None => to_tex label end;
  if negb (nf =? 1) && negb (nf =? 3) then Err ValueError
  else Ok (mkField label dynkin ch is_conj comm symmetry history multiplicity latex nf derivs stripped).

(** The same when [dynkin] is a sequence of integers (as [__mul__] passes it). *)
Definition mk_field_ints (label : str) (dynkin : list nat) (ch : charges) (history : option (field * field))
  (multiplicity : nat) : res field :=
  do latex <- to_tex label;
  Ok (mkField label (concat (map show_nat dynkin)) (dupdate str_eqb default_charges ch) false (lit "0")
              (symmetry_of dynkin) history multiplicity latex 1 0 None).

(** core.py:347-350 *)
Definition label_with_dagger (f : field) : str := f_label f ++ (if f_is_conj f then [dagger] else []).

(** core.py:373-392 *)
Definition dynkin_ints (f : field) : res (list nat) := mapM digit_of (f_dynkin f).
Definition lorentz_irrep (f : field) : res (list nat) := do l <- dynkin_ints f; Ok (firstn 2 l).
Definition sm_irrep (f : field) : res (list nat) := do l <- dynkin_ints f; Ok (skipn 2 l).
Definition colour_irrep (f : field) : res (list nat) := do l <- sm_irrep f; Ok (firstn 2 l).
Definition isospin_irrep (f : field) : res (list nat) := do l <- sm_irrep f; Ok (skipn 2 l).

Definition nats_eqb : list nat -> list nat -> bool := list_eqb Nat.eqb.

(** core.py:397-419 *)
Definition is_scalar (f : field) : res bool := do l <- lorentz_irrep f; Ok (nats_eqb l [0; 0]).
Definition is_boson (f : field) : res bool := do l <- lorentz_irrep f; Ok (list_sum l mod 2 =? 0).
Definition is_fermion (f : field) : res bool := do b <- is_boson f; Ok (negb b).
Definition is_left_fermion (f : field) : res bool := do l <- lorentz_irrep f; Ok (nats_eqb l [1; 0]).
Definition is_right_fermion (f : field) : res bool := do l <- lorentz_irrep f; Ok (nats_eqb l [0; 1]).
Definition is_vector (f : field) : res bool := do l <- lorentz_irrep f; Ok (nats_eqb l [1; 1]).

(** core.py:368-371 *)
Definition field_y (f : field) : res Qc := dgetM str_eqb (f_charges f) (lit "y").

(** core.py:429-434 [is_real_sm_irrep]; [and] short-circuits but nothing raises after the Dynkin labels. *)
Definition is_real_sm_irrep (f : field) : res bool :=
  do c <- colour_irrep f;
  do i <- isospin_irrep f;
  match i with
  | [] => Err IndexError
  | i0 :: _ => do y <- field_y f;
               Ok (nats_eqb c (rev c) && (i0 mod 2 =? 0) && (if Qc_eq_dec y 0 then true else false))
  end.

(** Equality of dictionaries does not look at the order of the keys. *)
Definition charges_eqb (a b : charges) : bool :=
  (List.length a =? List.length b) &&
  forallb (fun kv => match dget str_eqb b (fst kv) with Some v => Qc_eq_bool (snd kv) v | None => false end) a.

Definition symmetry_eqb : list (list nat) -> list (list nat) -> bool := list_eqb nats_eqb.

Definition stripped_eqb (a b : option stripped_info) : bool :=
  match a, b with
  | None, None => true
  | Some a, Some b => str_eqb (s_label a) (s_label b) && str_eqb (s_dynkin a) (s_dynkin b) &&
                      symmetry_eqb (s_symmetry a) (s_symmetry b) && charges_eqb (s_charges a) (s_charges b) &&
                      str_eqb (s_latex a) (s_latex b)
  | _, _ => false
  end.

(** core.py:439-453, 466-469 [_dict] and [__eq__]: history, multiplicity and latex are not compared *)
Definition field_eqb (f g : field) : bool :=
  str_eqb (f_label f) (f_label g) && str_eqb (f_dynkin f) (f_dynkin g) &&
  charges_eqb (f_charges f) (f_charges g) && Bool.eqb (f_is_conj f) (f_is_conj g) &&
  str_eqb (f_comm f) (f_comm g) && symmetry_eqb (f_symmetry f) (f_symmetry g) && (f_nf f =? f_nf g) &&
  (f_derivs f =? f_derivs g) && stripped_eqb (f_stripped f) (f_stripped g).

(** core.py:455-464 [__hash__]: the tuple that is hashed *)
Definition hash_data (f : field) : str * str * bool * str * nat * nat * list (list nat) * charges :=
  (f_label f, f_dynkin f, f_is_conj f, f_comm f, f_nf f, f_derivs f, f_symmetry f, f_charges f).

Definition neg_charges (c : charges) : charges := map (fun kv => (fst kv, (- snd kv)%Qc)) c.

(** core.py:501-517 [conj], for the class Field *)
Definition conj_field (f : field) : res field :=
  do lo <- lorentz_irrep f;
  do co <- colour_irrep f;
  do is <- isospin_irrep f;
  mk_field (f_label f) (concat (map show_nat (rev lo ++ rev co ++ is))) (Some (neg_charges (f_charges f)))
    (negb (f_is_conj f)) (f_comm f) (Some (f_symmetry f)) (f_history f) (f_multiplicity f) (Some (f_latex f))
    (f_nf f) (f_derivs f) (f_stripped f).

(** core.py:573-582 [mass_dim] *)
Definition mass_dim (f : field) : res Qc :=
  do b <- is_fermion f;
  if b then Ok (Q2Qc (3 # 2))
  else do s <- is_scalar f; do v <- is_vector f;
       if s || v then Ok (Q2Qc 1) else Err PlainException.

(** core.py:556-571 [get_latex] *)
Definition get_latex (f : field) : res str :=
  if f_is_conj f then
    do i <- isospin_irrep f;
    if negb (nats_eqb i [0]) then
      Ok (if f_derivs f =? 0 then lit "\tilde{" ++ f_latex f ++ lit "}" else f_latex f)
    else Ok (if negb (f_derivs f =? 0) then f_latex f else lit "{" ++ f_latex f ++ lit "^{\dagger}}")
  else Ok (f_latex f).

(** ** Products *)

(** core.py:47-60 [Prod] and 519-527 [walked] *)
Inductive prod_tree :=
| PLeaf (f : field)
| PNode (irrep : field) (left right : prod_tree).

Fixpoint walked (f : field) : prod_tree :=
  match f_history f with
  | None => PLeaf f
  | Some (l, r) => PNode f (walked l) (walked r)
  end.

Section Product.
  (** basisgen's product of two irreps of SU2 x SU2 x SU3 x SU2 given by Dynkin digits: highest weights with
      multiplicities *)
  Variable irrep_product : str -> str -> list (list nat * nat).

  (** core.py:471-499 [__mul__] *)
  Definition mul_field (f g : field) : res (list field) :=
    let prod_dict := irrep_product (f_dynkin f) (f_dynkin g) in
    do _ <- assert_ (forallb (fun k => mem_by str_eqb k (keys (f_charges g))) (keys (f_charges f)) &&
                     forallb (fun k => mem_by str_eqb k (keys (f_charges f))) (keys (f_charges g)));
    do ch <- foldM (fun c kv => do w <- dgetM str_eqb (f_charges g) (fst kv);
                                Ok (dset str_eqb c (fst kv) (snd kv + w)%Qc)) (f_charges f) [];
    mapM (fun kv => mk_field_ints (label_with_dagger f ++ label_with_dagger g) (fst kv) ch (Some (f, g)) (snd kv))
         prod_dict.

  (** core.py:1238-1256 [decompose_product] on at least two fields *)
  Fixpoint decompose (fst_ snd_ : field) (rst : list field) : res (list field) :=
    do l <- mul_field fst_ snd_;
    match rst with
    | [] => Ok l
    | z :: rst => do ls <- mapM (fun x => decompose x z rst) l; Ok (concat ls)
    end.

  (** One field is returned as it is, not in a list. *)
  Definition decompose_product (fields : list field) : res (field + list field) :=
    match fields with
    | [] => Err ValueError
    | [f] => Ok (inl f)
    | f :: g :: r => do l <- decompose f g r; Ok (inr l)
    end.
End Product.

(** ** Indexed fields *)

(** The argument [indices] of IndexedField: one string, or a list of strings, or a list of indices. *)
Inductive idx_arg := AStr (s : str) | AStrs (l : list str) | AIdxs (l : list index).

(** the indices built from it; an [Index] given keeps its identity and has its label overwritten *)
Definition arg_indices (a : idx_arg) : res (list index) :=
  match a with
  | AStr s => mapM new_index (split_ws s)
  | AStrs l => mapM new_index l
  | AIdxs l => Ok (map reindex l)
  end.

Definition arg_after (a : idx_arg) : idx_arg := match a with AIdxs l => AIdxs (map reindex l) | _ => a end.

(** the keyword arguments of IndexedField, which are also its [_dict] (core.py:759-772) *)
Record iargs := mkIargs
  { a_label : str; a_indices : idx_arg; a_charges : option charges; a_is_conj : bool;
    a_symmetry : option (list (list nat)); a_comm : str; a_latex : option str; a_nf : nat; a_derivs : nat;
    a_stripped : option stripped_info }.

(** An [IndexedField]: the attributes of a Field together with the indices and [index_labels]. *)
Record ifield := mkIField { i_field : field; i_indices : list index; i_index_labels : idx_arg }.

Definition is_generation (i : index) : bool := itype_eqb (ix_type i) Generation.

(** core.py:595-670 [IndexedField.__new__] and [__init__].  sympy asserts that the rank of the symmetry (the sum
    of the entries of its blocks) is the number of indices. *)
Definition mk_ifield (a : iargs) : res ifield :=
  do l <- arg_indices (a_indices a);
  let gen := existsb is_generation l in
  let symmetry := match a_symmetry a with
                  | Some s => s
                  | None => match l with [] => [] | _ => [repeat 1 (List.length l - (if gen then 1 else 0))] end
                  end in
  let sym := symmetry ++ (if gen then [[1]] else []) in
  do _ <- assert_ (list_sum (map list_sum sym) =? List.length l);
  do dynkin <- get_dynkin l;
  do f <- mk_field (a_label a) dynkin (a_charges a) (a_is_conj a) (a_comm a) (a_symmetry a) None 1 (a_latex a)
            (a_nf a) (a_derivs a) (a_stripped a);
  Ok (mkIField f l (arg_after (a_indices a))).

(** core.py:759-772 [_dict] *)
Definition i_dict (f : ifield) : iargs :=
  let g := i_field f in
  mkIargs (f_label g) (i_index_labels f) (Some (f_charges g)) (f_is_conj g) (Some (f_symmetry g)) (f_comm g)
          (Some (f_latex g)) (f_nf g) (f_derivs g) (f_stripped g).

(** core.py:312-345 [Field.__call__].  A token is never empty, so [i[0]] does not raise. *)
Definition call_types (a b c d e : nat) : list itype :=
  repeat Undotted a ++ repeat Dotted b ++ repeat Colour (c + d) ++ repeat Isospin e.

Definition call_field (f : field) (indices : str) : res ifield :=
  do l <- dynkin_ints f;
  match l with
  | [a; b; c; d; e] =>
    do _ <- assert_consistent_indices
              (filter (fun i => match i with c :: _ => negb (Ascii.eqb c "g") | [] => true end) (split_ws indices))
              (call_types a b c d e) (c, d);
    mk_ifield (mkIargs (label_with_dagger f) (AStr indices) (Some (f_charges f)) (f_is_conj f)
                 (Some (f_symmetry f)) (f_comm f) (Some (f_latex f)) (f_nf f) (f_derivs f) (f_stripped f))
  | _ => Err ValueError
  end.

(** core.py:672-685 [field] *)
Definition field_of (x : ifield) : res field :=
  let g := i_field x in
  mk_field (if f_is_conj g then removelast (f_label g) else f_label g) (f_dynkin g) (Some (f_charges g))
    (f_is_conj g) (f_comm g) (Some (f_symmetry g)) None 1 (Some (f_latex g)) (f_nf g) (f_derivs g) (f_stripped g).

(** core.py:532-554 [Field.fresh_indices] *)
Definition fresh_ifield (f : field) (st : counters) : res (ifield * counters) :=
  do x <- fresh_indices (f_dynkin f) st;
  do y <- (if 1 <? f_nf f then do g <- fresh "g" (snd x); Ok (lit " " ++ show_index (fst g), snd g)
           else Ok ([], snd x));
  do r <- mk_ifield (mkIargs (label_with_dagger f) (AStr (fst x ++ fst y)) (Some (f_charges f)) (f_is_conj f)
                       (Some (f_symmetry f)) (f_comm f) (Some (f_latex f)) (f_nf f) (f_derivs f) (f_stripped f));
  Ok (r, snd y).

(** core.py:695-715 [substituted_indices]: every pair is compared with the original indices *)
Definition substituted_indices (x : ifield) (pairs : list (index * index)) : res ifield :=
  let new := map (fun idx => fold_left (fun cur ij => if index_eqb (fst ij) idx then snd ij else cur) pairs idx)
                 (i_indices x) in
  let g := i_field x in
  mk_ifield (mkIargs (f_label g) (AIdxs new) (Some (f_charges g)) (f_is_conj g) (Some (f_symmetry g)) (f_comm g)
               (Some (f_latex g)) (f_nf g) (f_derivs g) (f_stripped g)).

(** core.py:717-738 [IndexedField.conj] *)
Definition conj_ifield (x : ifield) : res ifield :=
  let g := i_field x in
  let label := if f_is_conj g then filter (fun c => negb (Ascii.eqb c dagger)) (f_label g)
               else f_label g ++ [dagger] in
  do l <- mapM conj_index (i_indices x);
  mk_ifield (mkIargs label (AStr (join (lit " ") (map ix_label l))) (Some (neg_charges (f_charges g)))
               (negb (f_is_conj g)) (Some (f_symmetry g)) (f_comm g) (Some (f_latex g)) (f_nf g) (f_derivs g)
               (f_stripped g)).

(** core.py:822-826 [IndexedField.__eq__]: [_dict] is compared, in particular the argument [indices] as given *)
Definition idx_arg_eqb (a b : idx_arg) : bool :=
  match a, b with
  | AStr a, AStr b => str_eqb a b
  | AStrs a, AStrs b => list_eqb str_eqb a b
  | AIdxs a, AIdxs b => list_eqb index_eqb a b
  | _, _ => false
  end.

Definition ifield_eqb (x y : ifield) : bool :=
  let f := i_field x in let g := i_field y in
  str_eqb (f_label f) (f_label g) && idx_arg_eqb (i_index_labels x) (i_index_labels y) &&
  charges_eqb (f_charges f) (f_charges g) && Bool.eqb (f_is_conj f) (f_is_conj g) &&
  symmetry_eqb (f_symmetry f) (f_symmetry g) && str_eqb (f_comm f) (f_comm g) &&
  str_eqb (f_latex f) (f_latex g) && (f_nf f =? f_nf g) && (f_derivs f =? f_derivs g) &&
  stripped_eqb (f_stripped f) (f_stripped g).

(** core.py:791-802 [IndexedField.__hash__]: the tuple that is hashed; an index is hashed by name, type, height *)
Definition ihash_data (x : ifield) : str * list (str * itype * bool) * str * charges * bool * str :=
  let f := i_field x in
  (f_label f, map (fun i => (ix_name i, ix_type i, ix_up i)) (i_indices x), f_dynkin f, f_charges f, f_is_conj f,
   f_comm f).

(** ** Derivatives *)

(** core.py:1327-1371 [D].  [dynkin] is a string of digits. *)
Definition D (f : field) (dynkin : str) : res field :=
  do l <- dynkin_ints f;
  match dynkin, l with
  | d0 :: d1 :: _, l0 :: l1 :: _ =>
    do n0 <- digit_of d0;
    do n1 <- digit_of d1;
    do _ <- assert_ (Z.abs (Z.of_nat n0 - Z.of_nat l0) =? 1)%Z;
    do _ <- assert_ (Z.abs (Z.of_nat n1 - Z.of_nat l1) =? 1)%Z;
    do new <- mk_field (lit "D" ++ f_label f) (dynkin ++ skipn 2 (f_dynkin f)) (Some (f_charges f)) (f_is_conj f)
                (f_comm f) None None 1 None (f_nf f) 0 (f_stripped f);
    do tex <- get_latex f;
    do tex <- strip_parens tex;
    Ok (mkField (f_label new) (f_dynkin new) (f_charges new) (f_is_conj new) (f_comm new) (f_symmetry new) None 1
          (lit "(D" ++ tex ++ lit ")") (f_nf new) (f_derivs f + 1)
          (match f_stripped new with
           | Some s => Some s
           | None => Some (mkStripped (f_label f) (f_dynkin f) (f_symmetry f) (f_charges f) (f_latex f))
           end))
  | _, _ => Err IndexError
  end.

(** core.py:862-876 [strip_derivs]: a Field, except that an indexed field without derivatives is returned as it
    is (the left summand). *)
Definition strip_derivs (x : ifield) : res (ifield + field) :=
  let g := i_field x in
  if f_derivs g =? 0 then Ok (inl x)
  else match f_stripped g with
       | None => Err TypeError
       | Some s => do f <- mk_field (s_label s) (s_dynkin s) (Some (f_charges g)) (f_is_conj g) (f_comm g)
                             (Some (s_symmetry s)) None 1 (Some (s_latex s)) (f_nf g) 0 (Some s);
                   Ok (inr f)
       end.

(** core.py:882-903 [strip_derivs_with_indices] *)
Definition by_type (t : itype) (l : list index) : list index :=
  match dget itype_eqb (indices_by_type l) t with Some x => x | None => [] end.

Definition strip_derivs_with_indices (x : ifield) : res ifield :=
  do s <- strip_derivs x;
  match s with
  | inl x => Ok x
  | inr f =>
    let l := i_indices x in
    let indices := join (lit " ") (map show_index (by_type Colour l ++ by_type Isospin l)) in
    let lorentz := by_type Undotted l ++ by_type Dotted l in
    do b <- is_fermion f;
    do indices <-
      (if b then
         match lorentz with
         | [] => Err IndexError
         | i :: _ => if f_derivs (i_field x) mod 2 =? 0 then Ok (show_index i ++ lit " " ++ indices)
                     else do j <- conj_index i; Ok (show_index j ++ [partial_sign] ++ lit " " ++ indices)
         end
       else Ok indices);
    call_field f indices
  end.

(** ** Operators: the list [tensors], core.py:906-985 *)

Inductive tensor := TField (f : ifield) | TSymbol (s : symbol).

Definition indexed_fields (op : list tensor) : list ifield :=
  flat_map (fun t => match t with TField f => [f] | TSymbol _ => [] end) op.

(** [epsilons] also contains the deltas *)
Definition epsilons (op : list tensor) : list symbol :=
  flat_map (fun t => match t with TField _ => [] | TSymbol s => [s] end) op.

(** core.py:964-972 [pickle_form] *)
Definition pickle_form (op : list tensor) : list iargs * list (list str) :=
  (map i_dict (indexed_fields op), map (fun e => map ix_label (symbol_indices e)) (epsilons op)).

(** core.py:974-983 [from_pickle_form] *)
Definition from_pickle_form (p : list iargs * list (list str)) : res (list tensor) :=
  do e <- mapM (fun l => eps (join (lit " ") l)) (snd p);
  do f <- mapM mk_ifield (fst p);
  Ok (map TField f ++ map TSymbol e).

(** core.py:1308-1324 [normalise_operator_input]: sorted by class, and "IndexedField" comes before "Tensor" *)
Definition normalise_operator_input (args : list (list tensor)) : list tensor :=
  let new_product := concat args in
  sort (fun a b => match a, b with TSymbol _, TField _ => false | _, _ => true end) new_product.

(** core.py:1184-1186 [Operator.mass_dim] *)
Definition op_mass_dim (op : list tensor) : res Qc :=
  do fs <- mapM field_of (indexed_fields op);
  foldM (fun s f => do m <- mass_dim f; Ok (s + m)%Qc) fs (Q2Qc 0).
