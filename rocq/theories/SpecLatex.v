(** * SpecLatex: specification notions for the LaTeX of an operator *)

From Coq Require Import Ascii String List Bool Arith Sorted Permutation.
From Verif Require Import Base ModelIndex SpecIndex ModelField ModelContract SpecContract.
Import ListNotations.
Local Open Scope nat_scope.

(** the letters for the indices of a type, in the order of use; generation indices are not printed *)
Definition greek : list str :=
  map lit ["\alpha"; "\beta"; "\gamma"; "\delta"; "\epsilon"; "\zeta"; "\eta"; "\theta"; "\iota"; "\kappa"; "\lambda"; "\mu"; "\nu"; "\xi"; "\pi";
           "\rho"; "\sigma"; "\tau"; "\upsilon"; "\phi"; "\chi"; "\psi"; "\omega"]%string.

Definition alphabet (t : itype) : list str :=
  match t with
  | Isospin => map lit ["i"; "j"; "k"; "l"; "m"; "n"; "p"; "q"; "r"; "s"; "t"; "u"; "v"; "w"; "x"; "y"; "z"]%string
  | Colour => map lit ["a"; "b"; "c"; "d"; "e"; "f"; "g"; "h"]%string
  | Undotted => greek
  | Dotted => map (fun a => lit "\dot{" ++ a ++ lit "}") greek
  | Generation => []
  end.

(** the types that are printed *)
Definition shown (ignore : list ascii) (t : itype) : bool :=
  match t with Generation => false | _ => negb (existsb (Ascii.eqb (letter t)) ignore) end.

(** the different names of a type among the indices, each at its first occurrence *)
Fixpoint firsts (l : list str) : list str :=
  match l with [] => [] | x :: r => x :: filter (fun y => negb (str_eqb x y)) (firsts r) end.

Definition names (t : itype) (l : list index) : list str := firsts (map ix_name (filter (fun i => itype_eqb t (ix_type i)) l)).

(** the k-th name of a type gets the k-th letter of the type *)
Definition lettered (ignore : list ascii) (l : list index) (letters : itype -> str -> str) : Prop :=
  forall t, shown ignore t = true -> forall k n, nth_error (names t l) k = Some n -> nth_error (alphabet t) k = Some (letters t n).

Definition letter_of (letters : itype -> str -> str) (i : index) : str := letters (ix_type i) (ix_name i).

(** the name of a field: tilde on conjugates with isospin, dagger on conjugate singlets, neither if there are derivatives *)
Definition latex_name (f : field) : str :=
  if f_is_conj f then
    if f_derivs f =? 0 then
      if str_eqb (skipn 4 (f_dynkin f)) (lit "0") then lit "{" ++ f_latex f ++ lit "^{\dagger}}" else lit "\tilde{" ++ f_latex f ++ lit "}"
    else f_latex f
  else f_latex f.

Definition field_text (ignore : list ascii) (letters : itype -> str -> str) (x : ifield) : str :=
  latex_name (i_field x) ++
  match filter (fun i => shown ignore (ix_type i)) (i_indices x) with
  | [] => []
  | l => lit "^{" ++ join (lit " ") (map (letter_of letters) l) ++ lit "}"
  end.

(** the letters of a symbol are sorted *)
Definition symbol_text (letters : itype -> str -> str) (e : symbol) (text : str) : Prop :=
  exists ns, Permutation (map (letter_of letters) (symbol_indices e)) ns /\ StronglySorted (fun x y => str_leb x y = true) ns /\
    text = (match e with DeltaC _ => lit "\delta" | _ => lit "\epsilon" end) ++ lit "_{" ++ join (lit " ") ns ++ lit "}".

Definition field_order : list str := map lit ["L"; "e"; "Q"; "u"; "d"; "H"; "B"; "W"; "G"]%string.

(** the first character of the label after the derivatives *)
Definition leads (x : ifield) (c : ascii) : Prop :=
  exists ds rest, f_label (i_field x) = ds ++ c :: rest /\ (ds = [] \/ exists ds', ds = ds' ++ ["D"%char]) /\ ~ In "D"%char (c :: rest).

(** the fields in the order of printing: by rank, keeping the order of fields of the same rank *)
Definition arranged (fields sorted : list ifield) (rank : ifield -> nat) : Prop :=
  Permutation fields sorted /\ StronglySorted (fun x y => rank x <= rank y) sorted /\
  (forall n, filter (fun x => rank x =? n) sorted = filter (fun x => rank x =? n) fields) /\
  (forall x c k, In x fields -> leads x c -> nth_error field_order k = Some [c] -> rank x = k).

(** the indices in the order of printing *)
Definition printed_indices (sorted : list ifield) (op : operator) : list index :=
  flat_map i_indices sorted ++ flat_map symbol_indices (epsilons op).

Definition enough (ignore : list ascii) (op : operator) : Prop :=
  forall t, shown ignore t = true -> List.length (names t (op_indices op)) <= List.length (alphabet t).

(** the text of an operator *)
Definition printed (ignore : list ascii) (op : operator) (sorted : list ifield) (letters : itype -> str -> str) (text : str) : Prop :=
  lettered ignore (printed_indices sorted op) letters /\
  exists es es', Forall2 (symbol_text letters) (epsilons op) es /\ Permutation es es' /\ StronglySorted (fun x y => str_leb x y = true) es' /\
    text = join (lit " ") (map (field_text ignore letters) sorted ++ match es' with [] => [] | _ => lit " \cdot " :: es' end).

(** printable operators: no printed index on two fields, and an index that a symbol shares with a field is at the other height *)
Definition legible (ignore : list ascii) (op : operator) : Prop :=
  Forall clean (op_indices op) /\
  NoDup (map (fun i => (ix_name i, ix_type i)) (filter (fun i => shown ignore (ix_type i)) (flat_map i_indices (indexed_fields op)))) /\
  (forall i j, In i (flat_map i_indices (indexed_fields op)) -> In j (flat_map symbol_indices (epsilons op)) ->
     ix_name i = ix_name j -> ix_type i = ix_type j -> ix_up i <> ix_up j).

(** what [latex] reads besides *)
Definition readable (ignore : list ascii) (op : operator) : Prop :=
  NoDup ignore /\ (forall c, In c ignore -> exists t, t <> Generation /\ c = letter t) /\
  (forall x, In x (indexed_fields op) -> exists c, leads x c /\ In [c] field_order) /\
  (forall i, In i (flat_map symbol_indices (epsilons op)) -> shown ignore (ix_type i) = true).
