(** * ModelLatex: LaTeX of an operator, tensormethod/core.py (833-860, 1108-1176) and tensormethod/utils.py (7-33) *)

From Coq Require Import Ascii String List Bool Arith ZArith QArith Qcanon.
From Verif Require Import Base Show ModelIndex ModelField ModelContract.
Import ListNotations.
Local Open Scope nat_scope.

(** tensormethod/utils.py:7-33 *)
Definition tex_greek : list str :=
  map lit ["\alpha"; "\beta"; "\gamma"; "\delta"; "\epsilon"; "\zeta"; "\eta"; "\theta"; "\iota"; "\kappa"; "\lambda"; "\mu"; "\nu"; "\xi"; "\pi";
           "\rho"; "\sigma"; "\tau"; "\upsilon"; "\phi"; "\chi"; "\psi"; "\omega"]%string.
Definition dotted_greek : list str := map (fun a => lit "\dot{" ++ a ++ lit "}") tex_greek.

(** core.py:1117-1128 [style]: a dictionary from the letter of a type to what is left of the list of names *)
Definition style := list (ascii * list str).

Definition letters_from (n k : nat) : list str := map (fun i => [ascii_of_nat (97 + i)]) (seq n k).

Definition full_style : style :=
  [("i"%char, filter (fun s => negb (str_eqb s (lit "o"))) (letters_from 8 18)); ("c"%char, letters_from 0 8); ("u"%char, tex_greek); ("d"%char, dotted_greek)].

(** core.py:1130-1133: [dict.pop] of a missing key raises *)
Definition ignoring (ignore : list ascii) (s : style) : res style :=
  foldM (fun s c => if existsb (fun kv => Ascii.eqb c (fst kv)) s then Ok (filter (fun kv => negb (Ascii.eqb c (fst kv))) s) else Err KeyError) ignore s.

(** [style[type_].pop(0)] *)
Definition pop_style (s : style) (c : ascii) : res (str * style) :=
  match dget Ascii.eqb s c with
  | None => Err KeyError
  | Some [] => Err IndexError
  | Some (x :: l) => Ok (x, dset Ascii.eqb s c l)
  end.

Definition index_names := list (index * str).

(** core.py:833-860 [latex_and_pop], one index.  The attribute [latex] is always set in the model. *)
Definition name_index (acc : index_names * style * list str) (i : index) : res (index_names * style * list str) :=
  let '(d, s, out) := acc in
  let c := index_letter (ix_type i) in
  if existsb (fun kv => Ascii.eqb c (fst kv)) s then
    do x <- pop_style s c; Ok (dset index_eqb d i (fst x), snd x, out ++ [fst x])
  else Ok acc.

Definition latex_and_pop (x : ifield) (d : index_names) (s : style) : res (str * index_names * style) :=
  do r <- foldM name_index (i_indices x) (d, s, []);
  let '(d, s, out) := r in
  do t <- get_latex (i_field x);
  Ok (match out with [] => t | _ => t ++ lit "^{" ++ join (lit " ") out ++ lit "}" end, d, s).

(** core.py:1110-1115: the order of the first letters of the fields *)
Definition strip_tilde (s : str) : str := filter (fun c => negb (Ascii.eqb c "~")) s.

Definition field_ordering (fields : list ifield) : res (list str) :=
  foldM (fun l x =>
    do y <- conj_ifield x;
    Ok (if mem_by str_eqb (f_label (i_field x)) l then l else l ++ [strip_tilde (f_label (i_field x)); strip_tilde (f_label (i_field y))]))
    fields (map lit ["L"; "e"; "Q"; "u"; "d"; "H"; "B"; "W"; "G"]%string).

(** sympy's form of a tensor: the label, and the indices if there are any *)
Definition show_ifield (x : ifield) : str :=
  f_label (i_field x) ++ match i_indices x with [] => [] | l => lit "(" ++ join (lit ", ") (map show_index l) ++ lit ")" end.

(** core.py:1136-1137 *)
Definition first_non_deriv (x : ifield) : res str :=
  match last (split_on "D"%char (show_ifield x)) [] with [] => Err IndexError | c :: _ => Ok [c] end.

(** [list.index] *)
Fixpoint position (x : str) (l : list str) : res nat :=
  match l with
  | [] => Err ValueError
  | y :: l => if str_eqb x y then Ok 0 else do n <- position x l; Ok (S n)
  end.

Definition order_of (ordering : list str) (x : ifield) : res nat := do c <- first_non_deriv x; position c ordering.

(** core.py:1149-1171, one index of a symbol *)
Definition symbol_index (acc : index_names * style * list str) (i : index) : res (index_names * style * list str) :=
  let '(d, s, out) := acc in
  do n <- neg_index i;
  do ds <- (match dget index_eqb d n with
            | Some _ => Ok (d, s)
            | None => do x <- pop_style s (index_letter (ix_type i)); Ok (dset index_eqb (dset index_eqb d n (fst x)) i (fst x), snd x)
            end);
  do x <- dgetM index_eqb (fst ds) n;
  Ok (fst ds, snd ds, out ++ [x]).

(** the names of symbols begin with E or, for the delta, with K *)
Definition symbol_latex (e : symbol) (d : index_names) (s : style) : res (str * index_names * style) :=
  do r <- foldM symbol_index (symbol_indices e) (d, s, []);
  let '(d, s, out) := r in
  Ok ((match e with DeltaC _ => lit "\delta" | _ => lit "\epsilon" end) ++ lit "_{" ++ join (lit " ") (sort str_leb out) ++ lit "}", d, s).

Definition each {A} (f : A -> index_names -> style -> res (str * index_names * style)) (l : list A) (d : index_names) (s : style) : res (list str * index_names * style) :=
  foldM (fun acc x => let '(out, d, s) := acc in do r <- f x d s; let '(t, d, s) := r in Ok (out ++ [t], d, s)) l ([], d, s).

(** core.py:1108-1176 [Operator.latex] *)
Definition latex (op : operator) (ignore : list ascii) : res str :=
  do ordering <- field_ordering (indexed_fields op);
  do s <- ignoring ignore full_style;
  do keyed <- mapM (fun x => do n <- order_of ordering x; Ok (n, x)) (indexed_fields op);
  let sorted := map snd (sort (fun a b => fst a <=? fst b) keyed) in
  do fs <- each latex_and_pop sorted [] s;
  let '(fields, d, s) := fs in
  do es <- each symbol_latex (epsilons op) d s;
  let eps := fst (fst es) in
  Ok (join (lit " ") (fields ++ match eps with [] => [] | _ => lit " \cdot " :: sort str_leb eps end)).
