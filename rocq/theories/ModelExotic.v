(** * ModelExotic: vertices and exotic fields, completions/core.py (23-353, 531-564) and completions/completions.py
    (311-728, 843-920) *)

From Coq Require Import Ascii String List Bool Arith ZArith QArith Qcanon.
From Verif Require Import Base Show ModelFunctions ModelIndex ModelField ModelContract ModelPartition.
Import ListNotations.
Local Open Scope nat_scope.

(** ** Classes of fields, completions/core.py *)

(** the class of an indexed field; [Plain] is IndexedField itself *)
Inductive cls := ComplexScalar | RealScalar | MajoranaFermion | DiracFermion (is_unbarred : bool) | Plain.

Record cfield := mkCF { cf_class : cls; cf_if : ifield }.

Definition cf_label (x : cfield) : str := f_label (i_field (cf_if x)).
Definition cf_charges (x : cfield) : charges := f_charges (i_field (cf_if x)).
Definition cf_derivs (x : cfield) : nat := f_derivs (i_field (cf_if x)).

(** factors of an operator *)
Inductive ctensor := KField (x : cfield) | KSym (s : symbol).

Definition erase (t : ctensor) : tensor := match t with KField x => TField (cf_if x) | KSym s => TSymbol s end.
Definition cop := list ctensor.
Definition cop_erase (op : cop) : operator := map erase op.

Definition cfields (op : cop) : list cfield := flat_map (fun t => match t with KField x => [x] | KSym _ => [] end) op.
Definition csymbols (op : cop) : list symbol := flat_map (fun t => match t with KField _ => [] | KSym s => [s] end) op.

(** tensormethod/core.py:1308-1324 [normalise_operator_input] sorts by class, sympy compares classes by name:
    ComplexScalar, IndexedField, MajoranaFermion, RealScalar, Tensor, VectorLikeDiracFermion *)
Definition class_rank (t : ctensor) : nat :=
  match t with
  | KField x => match cf_class x with ComplexScalar => 0 | Plain => 1 | MajoranaFermion => 2 | RealScalar => 3 | DiracFermion _ => 5 end
  | KSym _ => 4
  end.

Definition cnormalise (l : cop) : cop := sort (fun a b => class_rank a <=? class_rank b) l.

(** core.py:1104-1106 [Operator.__mul__] with one factor *)
Definition c_mul (op : cop) (t : ctensor) : cop := cnormalise (op ++ [t]).

(** [reduce(lambda x, y: x * y, l)]; the product of one factor is the factor itself, here a list of one *)
Definition c_reduce (l : cop) : res cop :=
  match l with [] => Err TypeError | t :: r => Ok (fold_left c_mul r [t]) end.

(** [indices_by_type]: of a single field all indices, of an operator the free ones *)
Definition c_indices (op : cop) : list index :=
  match op with [KField x] => i_indices (cf_if x) | _ => free_indices (cop_erase op) end.

(** the argument [indices] of the classes: a string, a list of indices (printed at once), a tuple of indices *)
Inductive tindices := TStr (s : str) | TList (l : list index) | TTuple (l : list index).

(** completions/core.py:131-138 [assert_real_rep]; the Dynkin labels of the indices are those of the field *)
Definition assert_real_rep (dynkin : str) (ch : option charges) : res unit :=
  do _ <- match ch with
          | Some (x :: c) => match dget str_eqb (x :: c) (lit "y") with
                             | Some y => assert_ (if Qc_eq_dec y 0 then true else false)
                             | None => Ok tt
                             end
          | _ => Ok tt
          end;
  let c := firstn 2 (skipn 2 dynkin) in assert_ (str_eqb c (rev c)).

(** completions/core.py:85-110, 141-162, 190-211, 258-290: the constructors.  [__new__] gets the symmetry [sym], which
    sympy compares with the number of indices; [__init__] drops it, and nf, derivs and stripped with it.  The Dynkin
    labels are counted on the indices themselves, not on their printed form. *)
Definition mk_typed (k : cls) (label : str) (ind : tindices) (ch : option charges) (latex : option str)
  (is_conj : bool) (sym : option (list (list nat))) : res cfield :=
  let arg := match ind with TStr s => AStr s | TList l | TTuple l => AIdxs l end in
  do l <- arg_indices arg;
  do _ <- match sym with
          | None => Ok tt
          | Some s => assert_ (list_sum (map list_sum (s ++ (if existsb is_generation l then [[1]] else []))) =? List.length l)
          end;
  let comm := match k with ComplexScalar | RealScalar => lit "bose" | MajoranaFermion | DiracFermion _ => lit "fermi" | Plain => lit "0" end in
  do x <- mk_ifield (mkIargs label arg ch is_conj None comm latex 1 0 None);
  let x := match ind with
           | TList l => mkIField (i_field x) (i_indices x) (AStr (join (lit " ") (map show_index l)))
           | _ => x
           end in
  do _ <- match k with
          | ComplexScalar => do b <- is_scalar (i_field x); assert_ b
          | RealScalar => do b <- is_scalar (i_field x); do _ <- assert_ b; assert_real_rep (f_dynkin (i_field x)) ch
          | MajoranaFermion => do b <- is_fermion (i_field x); do _ <- assert_ b; assert_real_rep (f_dynkin (i_field x)) ch
          | DiracFermion _ => do b <- is_fermion (i_field x); assert_ b
          | Plain => Ok tt
          end;
  Ok (mkCF k x).

(** completions/core.py:531-564 [cons_completion_field] *)
Definition cons_completion_field (x : ifield) (is_unbarred : option bool) : res cfield :=
  let f := i_field x in
  do fermion <- is_fermion f;
  if fermion then
    do real <- is_real_sm_irrep f;
    if real then mk_typed MajoranaFermion (f_label f) (TList (i_indices x)) (Some (f_charges f)) (Some (f_latex f)) (f_is_conj f) None
    else mk_typed (DiracFermion (match is_unbarred with Some b => b | None => true end)) (f_label f) (TList (i_indices x))
           (Some (f_charges f)) (Some (f_latex f)) (f_is_conj f) None
  else
    do scalar <- is_scalar f;
    if scalar then
      do real <- is_real_sm_irrep f;
      if real then mk_typed RealScalar (f_label f) (TList (i_indices x)) (Some (f_charges f)) (Some (f_latex f)) false None
      else mk_typed ComplexScalar (f_label f) (TList (i_indices x)) (Some (f_charges f)) (Some (f_latex f)) (f_is_conj f) None
    else Err PlainException.

(** [label.replace("†", "")] or the dagger appended *)
Definition conj_label (f : field) : str :=
  if f_is_conj f then filter (fun c => negb (Ascii.eqb c dagger)) (f_label f) else f_label f ++ [dagger].

Definition conj_indices_text (x : ifield) : res str :=
  do l <- mapM conj_index (i_indices x); Ok (join (lit " ") (map ix_label l)).

(** [conj]: tensormethod/core.py:717-738 for the scalars and MajoranaFermion, completions/core.py:292-310 for
    VectorLikeDiracFermion, which drops the latex *)
Definition conj_typed (x : cfield) : res cfield :=
  let f := i_field (cf_if x) in
  match cf_class x with
  | Plain => do y <- conj_ifield (cf_if x); Ok (mkCF Plain y)
  | k =>
    do s <- conj_indices_text (cf_if x);
    mk_typed k (conj_label f) (TStr s) (Some (neg_charges (f_charges f)))
      (match k with DiracFermion _ => None | _ => Some (f_latex f) end) (negb (f_is_conj f)) (Some (f_symmetry f))
  end.

(** completions/core.py:229-231 and 312-330 [conj_indices]; the scalars have none *)
Definition conj_indices (x : cfield) : res cfield :=
  let f := i_field (cf_if x) in
  match cf_class x with
  | MajoranaFermion => conj_typed x
  | DiracFermion b =>
    do s <- conj_indices_text (cf_if x);
    mk_typed (DiracFermion b) (conj_label f) (TStr s) (Some (f_charges f)) None (negb (f_is_conj f)) (Some (f_symmetry f))
  | _ => Err AttributeError
  end.

(** completions/core.py:168-173, 213-218, 332-337: the indices with colour conjugated, generation dropped *)
Definition swapped_indices (x : ifield) : res (list index) :=
  let l := i_indices x in
  do c <- mapM conj_index (by_type Colour l);
  Ok (by_type Undotted l ++ by_type Dotted l ++ c ++ by_type Isospin l).

(** completions/core.py:163-182 [swap_colour_indices], 213-227 [majorana_partner]: the charges are set to zero *)
Definition swap_colour_indices (k : cls) (x : cfield) : res cfield :=
  let f := i_field (cf_if x) in
  do l <- swapped_indices (cf_if x);
  mk_typed k (f_label f) (TTuple l) None (Some (f_latex f)) (f_is_conj f) (Some (f_symmetry f)).

(** completions/core.py:324-348 [dirac_partner] *)
Definition dirac_partner (b : bool) (x : cfield) : res cfield :=
  let f := i_field (cf_if x) in
  do l <- swapped_indices (cf_if x);
  let label := if b then f_label f ++ lit "~" else filter (fun c => negb (Ascii.eqb c "~")) (f_label f) in
  mk_typed (DiracFermion (negb b)) label (TTuple l) (Some (neg_charges (f_charges f))) (Some (f_latex f)) (f_is_conj f)
    (Some (f_symmetry f)).

(** completions/core.py:30-47 [lower_su2]; an IndexedField that is none of the classes has no such method.  A new index is
    put in by its name; the argument [indices] of the copies made on the way is not kept. *)
Definition lower_one (acc : ifield * list symbol) (idx : index) : res (ifield * list symbol) :=
  let lower := show_index idx ++ lit "^" in
  do j <- new_index lower;
  do p <- substituted_indices (fst acc) [(idx, j)];
  do e <- eps (lit "-" ++ lower ++ lit " -" ++ show_index idx);
  Ok (p, snd acc ++ [e]).

Definition lower_su2 (x : cfield) (skip : itype -> bool) : res (cfield * list symbol) :=
  match cf_class x with
  | Plain => Err AttributeError
  | k =>
    let l := i_indices (cf_if x) in
    let todo := filter (fun i => negb (skip (ix_type i))) (by_type Undotted l ++ by_type Dotted l ++ by_type Isospin l) in
    do r <- foldM lower_one todo (cf_if x, []);
    do p <- cons_completion_field (fst r) (match k with DiracFermion b => Some b | _ => None end);
    Ok (p, snd r)
  end.

(** ** Lorentz structure of a vertex, completions/completions.py *)

(** completions.py:311-327 [all_scalars], [all_fermions] *)
Definition all_with (p : field -> res bool) (fields : list cfield) : res bool :=
  foldM (fun (b : bool) x => if b then p (i_field (cf_if x)) else Ok false) fields true.

(** completions.py:329-341 [drop_scalar] *)
Definition drop_scalar (fields : list cfield) : res (list cfield) :=
  do l <- mapM (fun x => do b <- is_boson (i_field (cf_if x)); Ok (x, b)) fields;
  do _ <- assert_ (List.length (filter snd l) =? 1);
  Ok (map fst (filter (fun x => negb (snd x)) l)).

(** completions.py:380-392: pairs of indices; a tuple has no [pop] *)
Definition pair_up (indices : list index) : res (list symbol) :=
  match indices with
  | [_] => Ok []
  | _ =>
    if negb (List.length indices mod 2 =? 0) then Err AttributeError
    else do l <- chunks indices 2;
         mapM (fun ij => match ij with
                         | [i; j] => eps (lit "-" ++ show_index i ++ lit " -" ++ show_index j)
                         | _ => Err ValueError
                         end) l
  end.

(** completions.py:368-394 *)
Definition pair_lorentz (fields : list cfield) : res (bool * list symbol) :=
  do prod <- c_reduce (map KField fields);
  let undotted := by_type Undotted (c_indices prod) in
  let dotted := by_type Dotted (c_indices prod) in
  if (List.length undotted =? 1) && (List.length dotted =? 1) then Ok (false, [])
  else do a <- pair_up undotted; do b <- pair_up dotted; Ok (true, a ++ b).

(** completions.py:344-394 [get_lorentz_epsilons]; the recursive call has fewer fields and no derivatives either *)
Definition get_lorentz_epsilons (fields : list cfield) : res (bool * list symbol) :=
  let n_derivs := list_sum (map cf_derivs fields) in
  if 2 <? n_derivs then Err PlainException
  else if (n_derivs =? 0) && (List.length fields =? 4) then Ok (true, [])
  else if (n_derivs =? 0) && (List.length fields =? 3) then
    do s <- all_with is_boson fields;
    if s then Ok (true, [])
    else do f <- all_with is_fermion fields;
         if f then Ok (false, []) else do l <- drop_scalar fields; pair_lorentz l
  else if (n_derivs =? 2) && (List.length fields =? 3)
  then pair_lorentz (sort (fun a b => cf_derivs b <=? cf_derivs a) fields)
  else pair_lorentz fields.

(** ** Gauge epsilons *)

Definition mem_index (i : index) (l : list index) : bool := existsb (index_eqb i) l.

(** completions.py:397-424 [is_contracted_epsilon]: also the list of indices, which is mutated *)
Definition is_contracted_epsilon (e : symbol) (indices : list index) : res (bool * list index) :=
  match symbol_indices e with
  | [] | [_] => Err ValueError
  | [i; j] =>
    do ni <- neg_index i;
    if mem_index ni indices then do nj <- neg_index j; Ok (mem_index nj indices, indices) else Ok (false, indices)
  | l =>
    do ns <- mapM (fun i => do n <- neg_index i; Ok (i, mem_index n indices)) l;
    let free := map fst (filter (fun x => negb (snd x)) ns) in
    let n := List.length (filter snd ns) in
    if n =? 2 then match free with [f] => Ok (true, indices ++ [f]) | _ => Err AssertionError end
    else Ok (n =? 3, indices)
  end.

(** completions.py:427-447 [separate_gauge_epsilons]: spectators, contracted *)
Definition separate_step (acc : list symbol * list symbol * list index) (e : symbol)
  : res (list symbol * list symbol * list index) :=
  let '(spectators, contracted, indices) := acc in
  do r <- is_contracted_epsilon e indices;
  Ok (if fst r then (spectators, contracted ++ [e], snd r) else (spectators ++ [e], contracted, snd r)).

Definition separate_gauge_epsilons (fields : list cfield) (epsilons : list symbol) : res (list symbol * list symbol) :=
  do prod <- c_reduce (map KField fields);
  do r <- foldM separate_step epsilons ([], [], free_indices (cop_erase prod));
  Ok (fst r).

(** ** Singlets *)

(** completions.py:450-456 [check_charges] *)
Definition check_charges (op : cop) (ignore : list str) : res unit :=
  match cfields op with
  | [] => Err IndexError
  | f :: _ =>
    foldM (fun _ q => if mem_by str_eqb q ignore then Ok tt
                      else do l <- mapM (fun x => dgetM str_eqb (cf_charges x) q) (cfields op);
                           assert_ (if Qc_eq_dec (fold_left Qcplus l (Q2Qc 0)) 0 then true else false))
          (keys (cf_charges f)) tt
  end.

(** completions.py:459-463 [check_singlet] *)
Definition check_singlet (op : cop) : res unit :=
  do _ <- check_charges op [lit "3b"];
  foldM (fun _ i => assert_ (is_generation i)) (free_indices (cop_erase op)) tt.

(** ** Exotic fields *)

(** what the calls mutate: the symbols left for fermions and bosons, and the symbols given to lists of parents *)
Record sstate := mkSt { st_fermion : list str; st_boson : list str; st_dict : list (list field * str) }.

(** completions.py:481-494: the charges are added up by position, the keys are those of the first field *)
Definition sum_charges (fields : list cfield) : res charges :=
  match map cf_charges fields with
  | [] => Err ValueError
  | c :: rest =>
    do _ <- mapM (fun d => assert_ (List.length d =? List.length c)) rest;
    Ok (fold_left (fun acc d => combine (keys acc) (map (fun p : (str * Qc) * (str * Qc) => (snd (fst p) + snd (snd p))%Qc) (combine acc d))) rest c)
  end.

(** sympy's order of indices of one type: by name *)
Definition index_leb (i j : index) : bool := str_leb (ix_name i) (ix_name j).

(** completions.py:496-505: undotted, dotted, colour, isospin, each sorted *)
Definition exotic_index_list (op : cop) : list index :=
  let l := c_indices op in
  flat_map (fun t => sort index_leb (by_type t l)) [Undotted; Dotted; Colour; Isospin].

Section Exotic.
  (** [term.safe_simplify() == 0], which is sympy's *)
  Variable vanishes : cop -> bool.

  (** completions.py:513-520: a symbol for the parents *)
  Definition pick_symbol (fermion : bool) (parents : list field) (st : sstate) : res (str * sstate) :=
    match dget (list_eqb field_eqb) (st_dict st) parents with
    | Some s => Ok (s, st)
    | None =>
      match (if fermion then st_fermion st else st_boson st) with
      | [] => Err IndexError
      | s :: rest =>
        Ok (s, mkSt (if fermion then rest else st_fermion st) (if fermion then st_boson st else rest)
                    (dset (list_eqb field_eqb) (st_dict st) parents s))
      end
    end.

  (** completions.py:536-544: the field that couples *)
  Definition partner_of (x : cfield) : res cfield :=
    match cf_class x with
    | ComplexScalar => conj_typed x
    | RealScalar => swap_colour_indices RealScalar x
    | DiracFermion b => dirac_partner b x
    | MajoranaFermion => swap_colour_indices MajoranaFermion x
    | Plain => Ok x
    end.

  Definition no_repeats (l : list str) : bool := List.length (nodup_by str_eqb l) =? List.length l.

  (** completions.py:466-561 [exotic_field_and_term]: exotic field, partner, and the reason or the term.  The reason does
      not contain the printed term. *)
  Definition exotic_field_and_term (op : cop) (st : sstate) : res ((cfield * cfield * (str + cop)) * sstate) :=
    let fields := cfields op in
    do charges <- sum_charges fields;
    let text := join (lit " ") (map show_index (exotic_index_list op)) in
    do tokens <- mapM new_index (split_ws text);
    do dynkin <- get_dynkin tokens;
    let lorentz := firstn 2 dynkin in
    let fermion := str_eqb lorentz (lit "10") || str_eqb lorentz (lit "01") in
    do fs <- mapM (fun x => field_of (cf_if x)) fields;
    do s <- pick_symbol fermion (sort (fun a b => str_leb (label_with_dagger a) (label_with_dagger b)) fs) st;
    let to_conj := match text with c :: _ => Ascii.eqb c "d" | [] => false end in
    do indices <- (if to_conj then conj_index_string text else Ok text);
    do x <- mk_ifield (mkIargs (fst s) (AStr indices) (Some charges) false None (lit "0") None 1 0 None);
    do exotic <- cons_completion_field x None;
    do exotic <- (if to_conj then conj_indices exotic else Ok exotic);
    do partner <- partner_of exotic;
    do p <- lower_su2 partner (fun _ => false);
    let term := fold_left c_mul (KField (fst p) :: map KSym (snd p)) op in
    do tfs <- mapM (fun y => field_of (cf_if y)) (cfields term);
    if negb (no_repeats (map f_label tfs)) && vanishes term then Ok ((exotic, fst p, inl (lit "Vanishing coupling at ")), snd s)
    else do _ <- check_singlet term; Ok ((exotic, fst p, inr term), snd s).

  (** ** Terms with derivatives, completions.py:564-649 [process_derivative_term] *)

  Record sorted_term := mkSorted { so_scalars : list cfield; so_fermions : list cfield; so_exotic : list cfield; so_eps : list symbol }.

  Definition has_derivs (x : cfield) : bool := negb (cf_derivs x =? 0).

  (** completions.py:588-614, one turn of the loop *)
  Definition sort_tensor (acc : sorted_term) (t : ctensor) : res sorted_term :=
    match t with
    | KSym s =>
      match symbol_indices s with
      | [] => Err IndexError
      | i :: _ => Ok (match ix_type i with
                      | Undotted | Dotted => acc
                      | _ => mkSorted (so_scalars acc) (so_fermions acc) (so_exotic acc) (so_eps acc ++ [s])
                      end)
      end
    | KField x =>
      do b <- is_boson (i_field (cf_if x));
      do acc <- (if has_derivs x && b
                 then do y <- strip_derivs_with_indices (cf_if x);
                      Ok (mkSorted (so_scalars acc ++ [mkCF Plain y]) (so_fermions acc) (so_exotic acc) (so_eps acc))
                 else Ok acc);
      if has_derivs x && negb b
      then do y <- strip_derivs_with_indices (cf_if x);
           Ok (mkSorted (so_scalars acc) (so_fermions acc ++ [mkCF Plain y]) (so_exotic acc) (so_eps acc))
      else match cf_class x with
           | DiracFermion u =>
             do y <- dirac_partner u x; do y <- conj_typed y;
             Ok (mkSorted (so_scalars acc) (so_fermions acc) (so_exotic acc ++ [y]) (so_eps acc))
           | MajoranaFermion =>
             do y <- conj_typed x;
             Ok (mkSorted (so_scalars acc) (so_fermions acc) (so_exotic acc ++ [y]) (so_eps acc))
           | _ =>
             if negb b then Ok (mkSorted (so_scalars acc) (so_fermions acc ++ [x]) (so_exotic acc) (so_eps acc))
             else do s <- is_scalar (i_field (cf_if x));
                  Ok (if s then mkSorted (so_scalars acc ++ [x]) (so_fermions acc) (so_exotic acc) (so_eps acc) else acc)
           end
    end.

  (** completions.py:622-632: [left] and [right] may stay undefined *)
  Definition left_right (so : sorted_term) (n_derivs : nat) : res (cfield * cfield) :=
    let lr := match so_fermions so with [l; r] => if n_derivs =? 2 then Some (l, r) else None | _ => None end in
    do lr <- match so_exotic so with
             | [x] => match so_fermions so with [f] => Ok (Some (x, f)) | _ => Err AssertionError end
             | _ => Ok lr
             end;
    match so_exotic so with
    | [x; y] => Ok (x, y)
    | _ => match lr with Some p => Ok p | None => Err NameError end
    end.

  Definition indices_eqb : list index -> list index -> bool := list_eqb index_eqb.

  Definition bad_contraction : str := lit "Not allowed contraction".

  Definition process_derivative_term (op : cop) : res (str + cop) :=
    let n_derivs := list_sum (map cf_derivs (cfields op)) in
    if n_derivs =? 0 then Ok (inr op)
    else
      do so <- foldM sort_tensor op (mkSorted [] [] [] []);
      let rest := map KField (so_scalars so) ++ map KSym (so_eps so) in
      if 2 <? List.length (so_scalars so) then
        do term <- c_reduce rest;
        Ok (if vanishes term then inl (lit "Vanishing structure") else inr term)
      else if (List.length (so_fermions so) =? 2) && (n_derivs =? 1) then Ok (inl bad_contraction)
      else
        do lr <- left_right so n_derivs;
        let (left_, right_) := lr : cfield * cfield in
        let right_ := fold_left c_mul rest [KField right_] in
        let lu := by_type Undotted (i_indices (cf_if left_)) in
        let ld := by_type Dotted (i_indices (cf_if left_)) in
        let ru := by_type Undotted (c_indices right_) in
        let rd := by_type Dotted (c_indices right_) in
        if indices_eqb lu ru && indices_eqb ld rd then
          do p <- lower_su2 left_ (fun t => itype_eqb t Isospin);
          match snd p with
          | [e] => Ok (inr (c_mul (c_mul right_ (KField (fst p))) (KSym e)))
          | _ => Err AssertionError
          end
        else
          let '(l, r) := match lu with [] => (ld, rd) | _ => (lu, ru) end in
          if negb ((List.length l =? 1) && (List.length r =? 1)) then Ok (inl bad_contraction)
          else
            do ns <- mapM neg_index (l ++ r);
            do e <- eps (join (lit " ") (map show_index ns));
            Ok (inr (c_mul (c_mul right_ (KField left_)) (KSym e))).

  Definition bad_lorentz : str := lit "Bad Lorentz contraction.".

  (** completions.py:652-728 [contract]: a reason, or exotic field, term, spectators, Lorentz epsilons *)
  Definition contract (fields : list cfield) (gauge : list symbol) (st : sstate)
    : res ((str + cfield * cop * list symbol * list symbol) * sstate) :=
    if negb ((List.length fields =? 2) || (List.length fields =? 3)) then Err PlainException
    else
      do lor <- get_lorentz_epsilons fields;
      if negb (fst lor) then Ok (inl bad_lorentz, st)
      else
        do sep <- separate_gauge_epsilons fields gauge;
        do op <- c_reduce (map KField fields ++ map KSym (snd lor) ++ map KSym (snd sep));
        do r <- exotic_field_and_term op st;
        let '((exotic, _, maybe_term), st) := r in
        match maybe_term with
        | inl reason => Ok (inl reason, st)
        | inr term =>
          do _ <- check_singlet term;
          do final <-
            (if list_sum (map cf_derivs (cfields term)) =? 0 then Ok (inr term)
             else do t <- process_derivative_term term;
                  match t with
                  | inl reason => Ok (inl reason)
                  | inr t => Ok (if vanishes t then inl (lit "Vanishing coupling at ") else inr t)
                  end);
          match final with
          | inl reason => Ok (inl reason, st)
          | inr t => do _ <- check_singlet t; Ok (inr (exotic, t, fst sep, snd lor), st)
          end
        end.

  (** as [replace_and_mutate] uses it *)
  Definition contract_vertex (fields : list cfield) (gauge : list symbol) (st : sstate)
    : res ((str + cfield * cop * list symbol) * sstate) :=
    do r <- contract fields gauge st;
    match fst r with
    | inl reason => Ok (inl reason, snd r)
    | inr (exotic, term, _, lorentz) => do _ <- check_singlet term; Ok (inr (exotic, term, lorentz), snd r)
    end.

  (** completions.py:868-918, the last vertex.  A single field has no [tensors]; the name [maybe_term] is not
      defined. *)
  Definition last_vertex (row : list cfield) (gauge : list symbol) : res (str + cop * list symbol) :=
    match row with
    | [] | [_] => Err AttributeError
    | _ =>
      do prod <- c_reduce (map KField row);
      let fields := cfields prod in
      do lor <- get_lorentz_epsilons fields;
      if negb (fst lor) then Ok (inl bad_lorentz)
      else
        do sep <- separate_gauge_epsilons fields gauge;
        let prod := fold_left c_mul (map KSym (snd lor) ++ map KSym (snd sep)) prod in
        do final <-
          (if list_sum (map cf_derivs (cfields prod)) =? 0 then Ok (inr prod)
           else do t <- process_derivative_term prod;
                match t with
                | inl reason => Ok (inl reason)
                | inr t => if vanishes t then Err NameError else Ok (inr t)
                end);
        match final with
        | inl reason => Ok (inl reason)
        | inr t => do _ <- check_singlet t; Ok (inr (t, snd lor))
        end
    end.

  (** completions.py:843-920 [construct_completion] with its own contractions.  Equality of exotic fields
      (tensormethod/core.py:822-826): a field equals one of a subclass; no class derives from another here. *)
  Definition cls_eqb (a b : cls) : bool :=
    match a, b with
    | ComplexScalar, ComplexScalar | RealScalar, RealScalar | MajoranaFermion, MajoranaFermion | Plain, Plain => true
    | DiracFermion _, DiracFermion _ => true
    | _, _ => false
    end.

  Definition cfield_eqb (x y : cfield) : bool :=
    match cf_class x with Plain => true | k => cls_eqb k (cf_class y) end && ifield_eqb (cf_if x) (cf_if y).

  (** completions.py:849-854: the Greek letter number n of tensormethod/utils.py has code 160 + n *)
  Definition start_symbols : sstate :=
    mkSt ([[ascii_of_nat 181]; [ascii_of_nat 180]; lit "f"; [ascii_of_nat 165]; [ascii_of_nat 167]] ++ map (fun i => lit "f" ++ show_nat i) (seq 0 10))
         ([[ascii_of_nat 179]; [ascii_of_nat 166]; lit "s"; [ascii_of_nat 182]; [ascii_of_nat 176]] ++ map (fun i => lit "S" ++ show_nat i) (seq 0 10))
         [].

  Definition completion (rows : list (ptree (rleaf cfield))) (gauge : list symbol) (g : graph) :=
    construct_completion cfield cop symbol sstate cfield_eqb contract_vertex last_vertex rows gauge g start_symbols.
End Exotic.
