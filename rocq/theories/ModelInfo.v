(** * ModelInfo: how operators and completions are summarised, completions/core.py (356-391, 453-528) and
    tensormethod/core.py (917-943) *)

From Coq Require Import Ascii String List Bool Arith ZArith QArith Qcanon.
From Verif Require Import Base Show ModelIndex ModelField ModelContract ModelPartition ModelExotic.
Import ListNotations.
Local Open Scope nat_scope.

(** ** Effective operators *)

(** tensormethod/core.py:960-962 [Operator.fields] *)
Definition op_fields (op : operator) : res (list field) := mapM field_of (indexed_fields op).

(** completions/core.py:369-375 [EffectiveOperator.mass_dimension]; [int] cuts off the fractional part.  Mass dimensions are
    multiples of one half, which floating-point numbers represent exactly. *)
Definition mass_dimension (op : operator) : res Z :=
  do fs <- op_fields op;
  do m <- foldM (fun s f => do m <- mass_dim f; Ok (s + m)%Qc) fs (Q2Qc 0);
  let d := (m + Q2Qc (inject_Z (Z.of_nat (list_sum (map f_derivs fs)))))%Qc in
  let d_int := Z.quot (Qnum d) (Zpos (Qden d)) in
  do _ <- assert_ (Qc_eq_bool d (Q2Qc (inject_Z d_int)));
  Ok d_int.

(** completions/core.py:377-388 [EffectiveOperator.topology_type]: n_scalars, n_fermions *)
Definition topology_type (op : operator) : res (nat * nat) :=
  do fs <- op_fields op;
  foldM (fun n f => do b <- is_boson f;
                    if b then Ok (fst n + 1, snd n)
                    else do c <- is_fermion f; Ok (if c then (fst n, snd n + 1) else n)) fs (0, 0).

(** ** Classification by field content *)

(** the first letters of a printed tensor (tensormethod/core.py:1300-1306 has the names of the symbols) *)
Definition tensor_head (t : tensor) : str :=
  match t with
  | TField x => f_label (i_field x)
  | TSymbol (Metric _ _) => lit "metric"
  | TSymbol (EpsC _) => lit "Eps"
  | TSymbol (DeltaC _) => lit "KD"
  end.

(** tensormethod/core.py:917-929 [contains_derivative] *)
Definition contains_derivative (op : operator) : bool :=
  existsb (fun t => existsb (fun p => startswith p (tensor_head t)) [lit "D"; lit "G"; lit "W"; lit "B"]) op.

(** tensormethod/lnv.py:5-82 *)
Definition bl_list : list (list string * Z) :=
  [
   (["L"; "L"; "H"; "H"], 1);
   (["L"; "L"; "L"; "eb"; "H"], 2);
   (["L"; "L"; "Q"; "db"; "H"], 3);
   (["L"; "L"; "Q.conj"; "ub.conj"; "H"], 4);
   (["L"; "L"; "Q"; "db"; "H"; "H"; "H.conj"], 5);
   (["L"; "L"; "Q.conj"; "ub.conj"; "H"; "H.conj"; "H"], 6);
   (["L"; "Q"; "eb.conj"; "Q.conj"; "H"; "H"; "H"], 7);
   (["L"; "db"; "eb.conj"; "ub.conj"; "H"], 8);
   (["L"; "L"; "L"; "eb"; "L"; "eb"], 9);
   (["L"; "L"; "L"; "eb"; "Q"; "db"], 10);
   (["L"; "L"; "Q"; "db"; "Q"; "db"], 11);
   (["L"; "L"; "Q.conj"; "ub.conj"; "Q.conj"; "ub.conj"], 12);
   (["L"; "L"; "Q.conj"; "ub.conj"; "L"; "eb"], 13);
   (["L"; "L"; "Q.conj"; "ub.conj"; "Q"; "db"], 14);
   (["L"; "L"; "L"; "db"; "L.conj"; "ub.conj"], 15);
   (["L"; "L"; "eb"; "db"; "eb.conj"; "ub.conj"], 16);
   (["L"; "L"; "db"; "db"; "db.conj"; "ub.conj"], 17);
   (["L"; "L"; "db"; "ub"; "ub.conj"; "ub.conj"], 18);
   (["L"; "Q"; "db"; "db"; "eb.conj"; "ub.conj"], 19);
   (["L"; "db"; "Q.conj"; "ub.conj"; "eb.conj"; "ub.conj"], 20);
   (["L"; "L"; "L"; "eb"; "Q"; "ub"; "H"; "H"], 21);
   (["L"; "L"; "L"; "eb"; "L.conj"; "eb.conj"; "H"; "H"], 22);
   (["L"; "L"; "L"; "eb"; "Q.conj"; "db.conj"; "H"; "H"], 23);
   (["L"; "L"; "Q"; "db"; "Q"; "db"; "H"; "H.conj"], 24);
   (["L"; "L"; "Q"; "db"; "Q"; "ub"; "H"; "H"], 25);
   (["L"; "L"; "Q"; "db"; "L.conj"; "eb.conj"; "H"; "H"], 26);
   (["L"; "L"; "Q"; "db"; "Q.conj"; "db.conj"; "H"; "H"], 27);
   (["L"; "L"; "Q"; "db"; "Q.conj"; "ub.conj"; "H"; "H.conj"], 28);
   (["L"; "L"; "Q"; "ub"; "Q.conj"; "ub.conj"; "H"; "H"], 29);
   (["L"; "L"; "L.conj"; "eb.conj"; "Q.conj"; "ub.conj"; "H"; "H"], 30);
   (["L"; "L"; "Q.conj"; "db.conj"; "Q.conj"; "ub.conj"; "H"; "H"], 31);
   (["L"; "L"; "Q.conj"; "ub.conj"; "Q.conj"; "ub.conj"; "H"; "H.conj"], 32);
   (["eb.conj"; "eb.conj"; "L"; "L"; "eb"; "eb"; "H"; "H"], 33);
   (["eb.conj"; "eb.conj"; "L"; "Q"; "eb"; "db"; "H"; "H"], 34);
   (["eb.conj"; "eb.conj"; "L"; "eb"; "Q.conj"; "ub.conj"; "H"; "H"], 35);
   (["eb.conj"; "eb.conj"; "Q"; "db"; "Q"; "db"; "H"; "H"], 36);
   (["eb.conj"; "eb.conj"; "Q"; "db"; "Q.conj"; "ub.conj"; "H"; "H"], 37);
   (["eb.conj"; "eb.conj"; "Q.conj"; "ub.conj"; "Q.conj"; "ub.conj"; "H"; "H"], 38);
   (["L"; "L"; "L"; "L"; "L.conj"; "L.conj"; "H"; "H"], 39);
   (["L"; "L"; "L"; "Q"; "L.conj"; "Q.conj"; "H"; "H"], 40);
   (["L"; "L"; "L"; "db"; "L.conj"; "db.conj"; "H"; "H"], 41);
   (["L"; "L"; "L"; "ub"; "L.conj"; "ub.conj"; "H"; "H"], 42);
   (["L"; "L"; "L"; "db"; "L.conj"; "ub.conj"; "H"; "H.conj"], 43);
   (["L"; "L"; "Q"; "eb"; "Q.conj"; "eb.conj"; "H"; "H"], 44);
   (["L"; "L"; "eb"; "db"; "eb.conj"; "db.conj"; "H"; "H"], 45);
   (["L"; "L"; "eb"; "ub"; "eb.conj"; "ub.conj"; "H"; "H"], 46);
   (["L"; "L"; "Q"; "Q"; "Q.conj"; "Q.conj"; "H"; "H"], 47);
   (["L"; "L"; "db"; "db"; "db.conj"; "db.conj"; "H"; "H"], 48);
   (["L"; "L"; "db"; "ub"; "db.conj"; "ub.conj"; "H"; "H"], 49);
   (["L"; "L"; "db"; "db"; "db.conj"; "ub.conj"; "H"; "H.conj"], 50);
   (["L"; "L"; "ub"; "ub"; "ub.conj"; "ub.conj"; "H"; "H"], 51);
   (["L"; "L"; "db"; "ub"; "ub.conj"; "ub.conj"; "H"; "H.conj"], 52);
   (["L"; "L"; "db"; "db"; "ub.conj"; "ub.conj"; "H.conj"; "H.conj"], 53);
   (["L"; "Q"; "Q"; "db"; "Q.conj"; "eb.conj"; "H"; "H"], 54);
   (["L"; "Q"; "Q.conj"; "Q.conj"; "eb.conj"; "ub.conj"; "H"; "H"], 55);
   (["L"; "Q"; "db"; "db"; "eb.conj"; "db.conj"; "H"; "H"], 56);
   (["L"; "db"; "Q.conj"; "ub.conj"; "eb.conj"; "db.conj"; "H"; "H"], 57);
   (["L"; "ub"; "Q.conj"; "ub.conj"; "eb.conj"; "ub.conj"; "H"; "H"], 58);
   (["L"; "Q"; "db"; "db"; "eb.conj"; "ub.conj"; "H"; "H.conj"], 59);
   (["L"; "db"; "Q.conj"; "ub.conj"; "eb.conj"; "ub.conj"; "H"; "H.conj"], 60);
   (["L"; "L"; "H"; "H"; "L"; "eb"; "H.conj"], 61);
   (["L"; "L"; "L"; "eb"; "H"; "L"; "eb"; "H.conj"], 62);
   (["L"; "L"; "Q"; "db"; "H"; "L"; "eb"; "H.conj"], 63);
   (["L"; "L"; "Q.conj"; "ub.conj"; "H"; "L"; "eb"; "H.conj"], 64);
   (["L"; "eb.conj"; "ub.conj"; "db"; "H"; "L"; "eb"; "H.conj"], 65);
   (["L"; "L"; "H"; "H"; "Q"; "ub"; "H"], 71);
   (["L"; "eb.conj"; "ub.conj"; "db"; "H"; "Q"; "ub"; "H"], 75);
   (["ub.conj"; "ub.conj"; "db"; "db"; "eb.conj"; "eb.conj"], 76)
  ]%string%Z.

(** tensormethod/lnv.py:83-85 *)
Definition BL_LIST : list (list str * Z) :=
  fold_left (fun d kv => dset (list_eqb str_eqb) d (sorted_str (map lit (fst kv))) (snd kv)) bl_list [].

(** the dagger replaced by ".conj" *)
Definition spell_conj (s : str) : str := flat_map (fun c => if Ascii.eqb c dagger then lit ".conj" else [c]) s.

(** tensormethod/core.py:931-943 [BL_classification] *)
Definition BL_classification (op : operator) : res Z :=
  if contains_derivative op then Ok (-1)%Z
  else do fs <- op_fields op;
       let sorted_fields := sorted_str (map (fun f => spell_conj (label_with_dagger f)) fs) in
       Ok (match dget (list_eqb str_eqb) BL_LIST sorted_fields with None => -1 | Some n => n end)%Z.

(** ** Exotic fields of a completion *)

(** a tuple ("S" or "F", SU(3) labels, SU(2) label, charges sorted by name) *)
Record qnumbers := mkQn { qn_lorentz : str; qn_sm : list nat; qn_charges : charges }.

(** [sorted(charges.items())]: no two names are equal, values are not compared *)
Definition sorted_items (c : charges) : charges := sort (fun a b => str_leb (fst a) (fst b)) c.

Definition Qc_ltb (a b : Qc) : bool := match (a ?= b)%Qc with Lt => true | _ => false end.

(** completions/core.py:453-473, the body of the loop *)
Definition info_of (e : cfield) : res qnumbers :=
  do y <- field_y (i_field (cf_if e));
  do f <- (if Qc_ltb y 0 then do c <- conj_typed e; Ok (i_field (cf_if c)) else Ok (i_field (cf_if e)));
  let charges := sorted_items (f_charges f) in
  do sm <- sm_irrep f;
  do fermion <- is_fermion (i_field (cf_if e));
  if fermion then Ok (mkQn (lit "F") sm charges)
  else do scalar <- is_scalar (i_field (cf_if e));
       if scalar then Ok (mkQn (lit "S") sm charges) else Err ValueError.

(** completions/core.py:453-473 [Completion.exotic_info], [exotics] in the order of iteration *)
Definition exotic_info (exotics : list cfield) : res (list (cfield * qnumbers)) :=
  foldM (fun info e => do q <- info_of e; Ok (dset cfield_eqb info e q)) exotics [].

(** completions/core.py:512-528 [format_quantum_numbers]; half of the product is computed with floating-point numbers, exactly
    as long as it is below 2^53 *)
Definition su3_dim (m n : nat) : nat := (m + 1) * (n + 1) * (m + n + 2) / 2.

Definition format_quantum_numbers (info : qnumbers) : res str :=
  match qn_sm info with
  | [su3_up; su3_down; su2] =>
    let d := dict_of str_eqb (qn_charges info) in
    do y <- dgetM str_eqb d (lit "y");
    do b <- dgetM str_eqb d (lit "3b");
    Ok (qn_lorentz info ++ lit "(" ++
        (show_nat (su3_dim su3_up su3_down) ++ (if su3_up <? su3_down then lit "b" else [])) ++ lit ", " ++
        show_nat (su2 + 1) ++ lit ", " ++ show_Q y ++ lit ")(" ++ show_Q b ++ lit ")")
  | _ => Err ValueError
  end.

(** completions/core.py:499-506 [Model.exotic_numbers] from the exotic fields of the first completion, if there is one;
    the set is sorted, so that the order of iteration does not matter *)
Definition exotic_numbers (completions : list (list cfield)) : res (list str) :=
  match completions with
  | [] => Err IndexError
  | exotics :: _ =>
    do info <- exotic_info exotics;
    do l <- mapM format_quantum_numbers (values info);
    Ok (sorted_str (nodup_by str_eqb l))
  end.

(** completions/core.py:508-509 [Model.__repr__] *)
Definition model_repr (completions : list (list cfield)) : res str :=
  do l <- exotic_numbers completions;
  Ok (lit "Model(" ++ join (lit " + ") l ++ lit ")").
