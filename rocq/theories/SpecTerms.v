(** * SpecTerms: specification of terms with derivatives *)

From Coq Require Import Ascii String List Bool Arith ZArith QArith Qcanon Permutation Sorted.
From Verif Require Import Base ModelIndex SpecIndex ModelField SpecField ModelContract SpecContract ModelExotic SpecExotic.
Import ListNotations.
Local Open Scope nat_scope.

(** the number of derivatives on a field *)
Definition derivs (x : cfield) : nat := f_derivs (i_field (cf_if x)).

Definition spinor_type (t : itype) : Prop := t = Undotted \/ t = Dotted.

Definition spinless (l : list index) : Prop := Forall (fun i => ~ spinor_type (ix_type i)) l.
Definition clean_field (x : cfield) : Prop := Forall clean (indices_of x).
Definition raised_spinors (x : cfield) : Prop := forall i, In i (indices_of x) -> spinor_type (ix_type i) -> ix_up i = true.
Definition workable (x : cfield) : Prop := clean_field x /\ raised_spinors x.

(** a factor of a term that can be processed: derivatives only act on fields of the operator, which have none of the classes of
    exotic fields *)
Definition processable (t : ctensor) : Prop :=
  match t with
  | KField x => legit x /\ (0 < derivs x -> cf_class x = Plain)
  | KSym s => symbol_indices s <> []
  end.

(** the factors sorted: scalars, fermions of the operator, exotic fermions, gauge epsilons, each in the order of the term.  A field
    loses its derivatives, an exotic fermion is replaced by the conjugate of its partner, the Lorentz epsilons are left out.  So are
    vectors without derivatives; a field with derivatives and spin zero is kept beside the one without. *)
Inductive sorted_as : cop -> list cfield -> list cfield -> list cfield -> list symbol -> Prop :=
| sa_nil : sorted_as [] [] [] [] []
| sa_lorentz s i r op S F X E : symbol_indices s = i :: r -> spinor_type (ix_type i) -> sorted_as op S F X E -> sorted_as (KSym s :: op) S F X E
| sa_gauge s i r op S F X E : symbol_indices s = i :: r -> ~ spinor_type (ix_type i) -> sorted_as op S F X E -> sorted_as (KSym s :: op) S F X (s :: E)
| sa_boson x y op S F X E : 0 < derivs x -> boson x -> ~ scalar x -> strip_derivs_with_indices (cf_if x) = Ok y ->
    sorted_as op S F X E -> sorted_as (KField x :: op) (mkCF Plain y :: S) F X E
| sa_box x y op S F X E : 0 < derivs x -> scalar x -> strip_derivs_with_indices (cf_if x) = Ok y ->
    sorted_as op S F X E -> sorted_as (KField x :: op) (mkCF Plain y :: x :: S) F X E
| sa_derived x y op S F X E : 0 < derivs x -> fermion x -> strip_derivs_with_indices (cf_if x) = Ok y ->
    sorted_as op S F X E -> sorted_as (KField x :: op) S (mkCF Plain y :: F) X E
| sa_dirac x b y z op S F X E : derivs x = 0 -> cf_class x = DiracFermion b -> dirac_partner b x = Ok y -> conj_typed y = Ok z ->
    sorted_as op S F X E -> sorted_as (KField x :: op) S F (z :: X) E
| sa_majorana x z op S F X E : derivs x = 0 -> cf_class x = MajoranaFermion -> conj_typed x = Ok z ->
    sorted_as op S F X E -> sorted_as (KField x :: op) S F (z :: X) E
| sa_fermion x op S F X E : derivs x = 0 -> cf_class x = Plain \/ cf_class x = ComplexScalar \/ cf_class x = RealScalar -> fermion x ->
    sorted_as op S F X E -> sorted_as (KField x :: op) S (x :: F) X E
| sa_scalar x op S F X E : derivs x = 0 -> cf_class x = Plain \/ cf_class x = ComplexScalar \/ cf_class x = RealScalar -> scalar x ->
    sorted_as op S F X E -> sorted_as (KField x :: op) (x :: S) F X E
| sa_vector x op S F X E : derivs x = 0 -> cf_class x = Plain \/ cf_class x = ComplexScalar \/ cf_class x = RealScalar -> boson x -> ~ scalar x ->
    sorted_as op S F X E -> sorted_as (KField x :: op) S F X E.

(** sorting stops at a field whose derivatives or whose partner cannot be dealt with *)
Definition stuck_at (op : cop) (e : exn) : Prop :=
  exists pre x post S F X E, op = pre ++ KField x :: post /\ sorted_as pre S F X E /\
    ((0 < derivs x /\ strip_derivs_with_indices (cf_if x) = Err e) \/
     (derivs x = 0 /\ exists b, cf_class x = DiracFermion b /\ (dirac_partner b x = Err e \/ exists y, dirac_partner b x = Ok y /\ conj_typed y = Err e)) \/
     (derivs x = 0 /\ cf_class x = MajoranaFermion /\ conj_typed x = Err e)).

(** a product: the factors in the order of their classes *)
Definition factor_position (t : ctensor) : nat := match t with KField x => class_position x | KSym _ => 4 end.
Definition product (l t : cop) : Prop := ordered_by factor_position l t.

(** the two fermions of a term with [n] derivatives, fermions [F] and exotic fermions [X] *)
Inductive couple (n : nat) (F X : list cfield) : res (cfield * cfield) -> Prop :=
| co_exotic x y : X = [x; y] -> couple n F X (Ok (x, y))
| co_mixed x f : X = [x] -> F = [f] -> couple n F X (Ok (x, f))
| co_mixed_not x : X = [x] -> List.length F <> 1 -> couple n F X (Err AssertionError)
| co_both l r : List.length X <> 1 -> List.length X <> 2 -> F = [l; r] -> n = 2 -> couple n F X (Ok (l, r))
| co_none : List.length X <> 1 -> List.length X <> 2 -> List.length F <> 2 \/ n <> 2 -> couple n F X (Err NameError).

Definition spinors (t : itype) (x : cfield) : list index := filter (has_type t) (indices_of x).

Definition same_slots (l r : list index) : Prop := map slot l = map slot r.

(** the term of the fermions [l] and [r] times [rest] *)
Inductive coupled (l r : cfield) (rest : cop) : res (str + cop) -> Prop :=
| cp_same l' e t : same_slots (spinors Undotted l) (spinors Undotted r) -> same_slots (spinors Dotted l) (spinors Dotted r) ->
    lower_su2 l (fun t => match t with Isospin => true | _ => false end) = Ok (l', [e]) ->
    product (KField r :: rest ++ [KField l'; KSym e]) t -> coupled l r rest (Ok (inr t))
| cp_same_not l' es : same_slots (spinors Undotted l) (spinors Undotted r) -> same_slots (spinors Dotted l) (spinors Dotted r) ->
    lower_su2 l (fun t => match t with Isospin => true | _ => false end) = Ok (l', es) -> List.length es <> 1 -> coupled l r rest (Err AssertionError)
| cp_same_err e : same_slots (spinors Undotted l) (spinors Undotted r) -> same_slots (spinors Dotted l) (spinors Dotted r) ->
    lower_su2 l (fun t => match t with Isospin => true | _ => false end) = Err e -> coupled l r rest (Err e)
| cp_undotted i j a b t : spinors Undotted l = [i] -> spinors Undotted r = [j] ->
    ~ (same_slots (spinors Undotted l) (spinors Undotted r) /\ same_slots (spinors Dotted l) (spinors Dotted r)) -> counterpart i a -> counterpart j b ->
    product (KField r :: rest ++ [KField l; KSym (Metric Undotted [a; b])]) t -> coupled l r rest (Ok (inr t))
| cp_dotted i j a b t : spinors Undotted l = [] -> spinors Dotted l = [i] -> spinors Dotted r = [j] ->
    ~ (same_slots (spinors Undotted l) (spinors Undotted r) /\ same_slots (spinors Dotted l) (spinors Dotted r)) -> counterpart i a -> counterpart j b ->
    product (KField r :: rest ++ [KField l; KSym (Metric Dotted [a; b])]) t -> coupled l r rest (Ok (inr t))
| cp_refused : ~ (same_slots (spinors Undotted l) (spinors Undotted r) /\ same_slots (spinors Dotted l) (spinors Dotted r)) ->
    (spinors Undotted l <> [] /\ ~ (single (spinors Undotted l) /\ single (spinors Undotted r))) \/
    (spinors Undotted l = [] /\ ~ (single (spinors Dotted l) /\ single (spinors Dotted r))) ->
    coupled l r rest (Ok (inl (lit "Not allowed contraction"))).

(** the result for a term with [n] derivatives, sorted *)
Inductive term_result (vanishes : cop -> bool) (n : nat) (S F X : list cfield) (E : list symbol) : res (str + cop) -> Prop :=
| tr_vanishing t : 2 < List.length S -> product (map KField S ++ map KSym E) t -> vanishes t = true ->
    term_result vanishes n S F X E (Ok (inl (lit "Vanishing structure")))
| tr_scalars t : 2 < List.length S -> product (map KField S ++ map KSym E) t -> vanishes t = false -> term_result vanishes n S F X E (Ok (inr t))
| tr_single : List.length S <= 2 -> List.length F = 2 -> n = 1 -> term_result vanishes n S F X E (Ok (inl (lit "Not allowed contraction")))
| tr_fermions l r t : List.length S <= 2 -> List.length F <> 2 \/ n <> 1 -> couple n F X (Ok (l, r)) ->
    coupled l r (map KField S ++ map KSym E) t -> term_result vanishes n S F X E t
| tr_error e : List.length S <= 2 -> List.length F <> 2 \/ n <> 1 -> couple n F X (Err e) -> term_result vanishes n S F X E (Err e).

(** the charge [q] of the fields adds up to zero *)
Definition neutral_in (q : str) (t : cop) : Prop :=
  exists l, Forall2 (fun x c => dget str_eqb (f_charges (i_field (cf_if x))) q = Some c) (cfields t) l /\ fold_right Qcplus (Q2Qc 0) l = Q2Qc 0.

(** what [check_singlet] is for: the charges of the first field except 3b add up to zero over all fields, only generation indices
    are free *)
Definition checked (t : cop) : Prop :=
  exists x r, cfields t = x :: r /\
    (forall q, In q (map fst (f_charges (i_field (cf_if x)))) -> q <> lit "3b" -> neutral_in q t) /\
    forall i, is_free (cop_erase t) i -> ix_type i = Generation.
