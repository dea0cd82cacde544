(** * SpecExotic: specification notions for vertices and exotic fields *)

From Coq Require Import Ascii String List Bool Arith ZArith QArith Qcanon Permutation Sorted.
From Verif Require Import Base ModelIndex SpecIndex ModelField SpecField ModelContract SpecContract ModelExotic.
Import ListNotations.
Local Open Scope nat_scope.

(** ** Fields as the package makes them *)

Definition indices_of (x : cfield) : list index := i_indices (cf_if x).

(** labels of the documented form, SU(2) indices raised, fewer than ten indices of each kind, the Dynkin labels are those
    of the indices *)
Definition legit (x : cfield) : Prop :=
  Forall clean (indices_of x) /\
  (forall i, In i (indices_of x) -> su2_type (ix_type i) -> ix_up i = true) /\
  (forall t up, t <> Generation -> count_kind t up (indices_of x) < 10) /\
  get_dynkin (indices_of x) = Ok (f_dynkin (i_field (cf_if x))).

(** fields that can be multiplied: no index twice *)
Definition vertex (fs : list cfield) : Prop :=
  Forall legit fs /\ NoDup (map slot (flat_map indices_of fs)).

Definition has_type (t : itype) (i : index) : bool :=
  match ix_type i, t with
  | Undotted, Undotted | Dotted, Dotted | Colour, Colour | Isospin, Isospin | Generation, Generation => true
  | _, _ => false
  end.

(** the indices of a type on the fields, in order *)
Definition indices_on (t : itype) (fs : list cfield) : list index := filter (has_type t) (flat_map indices_of fs).

(** integer spin *)
Definition boson (x : cfield) : Prop :=
  Nat.Even (count_kind Undotted true (indices_of x) + count_kind Dotted true (indices_of x)).
Definition fermion (x : cfield) : Prop := ~ boson x.
Definition scalar (x : cfield) : Prop :=
  count_kind Undotted true (indices_of x) = 0 /\ count_kind Dotted true (indices_of x) = 0.

(** derivatives *)
Definition derivs_on (fs : list cfield) : nat := list_sum (map (fun x => f_derivs (i_field (cf_if x))) fs).

(** ** Orders *)

(** [l'] is [l] ordered by the number [key], elements with the same number in the same order as before *)
Definition ordered_by {A} (key : A -> nat) (l l' : list A) : Prop :=
  StronglySorted (fun x y => key x <= key y) l' /\ forall k, filter (fun x => key x =? k) l' = filter (fun x => key x =? k) l.

(** the names of the classes in alphabetical order; symbols are of class Tensor *)
Definition class_position (x : cfield) : nat :=
  match cf_class x with ComplexScalar => 0 | Plain => 1 | MajoranaFermion => 2 | RealScalar => 3 | DiracFermion _ => 5 end.

(** ** Lorentz contractions *)

Inductive consecutive {A} : list A -> list (A * A) -> Prop :=
| cons_nil : consecutive [] []
| cons_two a b l m : consecutive l m -> consecutive (a :: b :: l) ((a, b) :: m).

Definition single {A} (l : list A) : Prop := List.length l = 1.

(** an odd number of indices from three on *)
Definition stuck {A} (l : list A) : Prop := exists n, List.length l = 2 * n + 3.

(** indices of a type that are paired up: a single one is left alone *)
Definition paired (t : itype) (l : list index) (es : list symbol) : Prop :=
  (single l /\ es = []) \/ exists m, consecutive l m /\ joins t m es.

(** what becomes of the fields [fs] multiplied in this order *)
Definition lorentz_pairing (fs : list cfield) (r : res (bool * list symbol)) : Prop :=
  let U := indices_on Undotted fs in
  let V := indices_on Dotted fs in
  (single U /\ single V /\ r = Ok (false, [])) \/
  (~ (single U /\ single V) /\ (stuck U \/ stuck V) /\ r = Err AttributeError) \/
  (~ (single U /\ single V) /\ exists eu ev, paired Undotted U eu /\ paired Dotted V ev /\ r = Ok (true, eu ++ ev)).

(** the documented table; products are taken in the order of the classes *)
Inductive lorentz_table (fs : list cfield) : res (bool * list symbol) -> Prop :=
| lt_many : 2 < derivs_on fs -> lorentz_table fs (Err PlainException)
| lt_four : derivs_on fs = 0 -> List.length fs = 4 -> lorentz_table fs (Ok (true, []))
| lt_scalars : derivs_on fs = 0 -> List.length fs = 3 -> Forall boson fs -> lorentz_table fs (Ok (true, []))
| lt_fermions : derivs_on fs = 0 -> List.length fs = 3 -> Forall fermion fs -> lorentz_table fs (Ok (false, []))
| lt_one s a b a' b' r : derivs_on fs = 0 -> Permutation fs [s; a; b] -> boson s -> fermion a -> fermion b ->
    ordered_by class_position [a; b] [a'; b'] -> (exists p q, fs = p ++ s :: q /\ p ++ q = [a; b]) ->
    lorentz_pairing [a'; b'] r -> lorentz_table fs r
| lt_two s s' a : derivs_on fs = 0 -> Permutation fs [s; s'; a] -> boson s -> boson s' -> fermion a ->
    lorentz_table fs (Err AssertionError)
| lt_sorted fs' fs'' r : derivs_on fs = 2 -> List.length fs = 3 ->
    ordered_by (fun x => 2 - f_derivs (i_field (cf_if x))) fs fs' -> ordered_by class_position fs' fs'' ->
    lorentz_pairing fs'' r -> lorentz_table fs r
| lt_other fs' r : derivs_on fs <= 2 -> (derivs_on fs = 0 -> List.length fs <> 3 /\ List.length fs <> 4) ->
    (derivs_on fs = 2 -> List.length fs <> 3) -> ordered_by class_position fs fs' -> lorentz_pairing fs' r -> lorentz_table fs r.

(** ** Symbols on the fields of a vertex *)

(** the counterpart of [i] is among [l] *)
Definition met (l : list index) (i : index) : Prop := exists j, In j l /\ counterpart i j.

(** a symbol with clean indices, two or three *)
Definition symbol_ok (e : symbol) : Prop := Forall clean (symbol_indices e) /\ (List.length (symbol_indices e) = 2 \/ List.length (symbol_indices e) = 3).

(** [split l es s c]: of the symbols [es], [s] are spectators and [c] contracted with the indices [l]; the free index of
    a contracted epsilon is contracted with the symbols after it *)
Inductive split_symbols : list index -> list symbol -> list symbol -> list symbol -> Prop :=
| ss_nil l : split_symbols l [] [] []
| ss_two l e i j es s c : symbol_indices e = [i; j] -> met l i -> met l j -> split_symbols l es s c -> split_symbols l (e :: es) s (e :: c)
| ss_two_not l e i j es s c : symbol_indices e = [i; j] -> ~ (met l i /\ met l j) -> split_symbols l es s c -> split_symbols l (e :: es) (e :: s) c
| ss_three l e i j k es s c : symbol_indices e = [i; j; k] -> met l i -> met l j -> met l k -> split_symbols l es s c -> split_symbols l (e :: es) s (e :: c)
| ss_three_two l e i j k es s c : Permutation (symbol_indices e) [i; j; k] -> met l i -> met l j -> ~ met l k ->
    split_symbols (l ++ [k]) es s c -> split_symbols l (e :: es) s (e :: c)
| ss_three_not l e i j k es s c : Permutation (symbol_indices e) [i; j; k] -> ~ met l i -> ~ met l j -> split_symbols l es s c -> split_symbols l (e :: es) (e :: s) c.

(** [e] is contracted with the indices [l] alone: all its indices are met, or all but one of three *)
Definition contracted_with (l : list index) (e : symbol) : Prop :=
  (forall i, In i (symbol_indices e) -> met l i) \/
  exists i j k, Permutation (symbol_indices e) [i; j; k] /\ met l i /\ met l j.

(** no index of a symbol is contracted with an index of another one in the list *)
Definition unchained (es : list symbol) : Prop :=
  forall e e' i j, In e es -> In e' es -> In i (symbol_indices e) -> In j (symbol_indices e') -> ~ counterpart i j.

(** [l'] is [l] with some elements left out, those kept are the ones with [P] *)
Inductive kept {A} (P : A -> Prop) : list A -> list A -> Prop :=
| kept_nil : kept P [] []
| kept_yes x l l' : P x -> kept P l l' -> kept P (x :: l) (x :: l')
| kept_no x l l' : ~ P x -> kept P l l' -> kept P (x :: l) l'.

(** two lists that interleave to a third *)
Inductive interleaved {A} : list A -> list A -> list A -> Prop :=
| il_nil : interleaved [] [] []
| il_fst x l a b : interleaved l a b -> interleaved (x :: l) (x :: a) b
| il_snd x l a b : interleaved l a b -> interleaved (x :: l) a (x :: b).

(** ** Exotic fields *)

Definition hypercharge (x : cfield) : Qc := charge_of (i_field (cf_if x)) (lit "y").
Definition baryon (x : cfield) : Qc := charge_of (i_field (cf_if x)) (lit "3b").
Definition sum_of (q : cfield -> Qc) (fs : list cfield) : Qc := fold_right (fun x s => (q x + s)%Qc) (Q2Qc 0) fs.

(** charges hypercharge and baryon number, in this order, and no others *)
Definition standard_charges (x : cfield) : Prop :=
  f_charges (i_field (cf_if x)) = [(lit "y", hypercharge x); (lit "3b", baryon x)].

Definition one_or_three (x : cfield) : Prop := f_nf (i_field (cf_if x)) = 1 \/ f_nf (i_field (cf_if x)) = 3.

(** a product of fields and symbols that one exotic field can stand for *)
Record ready (op : cop) : Prop := mkReady
  { rd_many : 2 <= List.length op;
    rd_fields : cfields op <> [];
    rd_charges : Forall standard_charges (cfields op);
    rd_nf : Forall one_or_three (cfields op);
    rd_proper : proper_op (cop_erase op);
    rd_clean : Forall clean (op_indices (cop_erase op));
    rd_raised : forall i, is_free (cop_erase op) i -> su2_type (ix_type i) -> ix_up i = true;
    rd_lorentz : forall i j, is_free (cop_erase op) i -> is_free (cop_erase op) j ->
      (ix_type i = Undotted \/ ix_type i = Dotted) -> (ix_type j = Undotted \/ ix_type j = Dotted) -> slot i = slot j;
    rd_few : forall t up, t <> Generation -> exists n, n < 10 /\ number (cop_erase op) t up n;
    rd_fresh : forall i j, is_free (cop_erase op) i -> In j (op_indices (cop_erase op)) -> ix_name j <> ix_name i ++ lit "^";
    rd_dotted : forall i, is_free (cop_erase op) i -> ix_type i = Dotted -> ~ In "u"%char (ix_name i) }.

(** symbols are left, and all of them have a latex form *)
Definition supplied (st : sstate) : Prop :=
  st_fermion st <> [] /\ st_boson st <> [] /\
  Forall (fun s => exists t, to_tex s = Ok t) (st_fermion st ++ st_boson st ++ map snd (st_dict st)).

(** the indices of [x] are the free indices of [op] that are not generation indices *)
Definition carries (x : cfield) (op : cop) : Prop :=
  NoDup (map slot (indices_of x)) /\
  forall p, In p (map slot (indices_of x)) <-> exists i, is_free (cop_erase op) i /\ ix_type i <> Generation /\ slot i = p.

(** real representations: as many raised as lowered colour indices, integer isospin, no hypercharge *)
Definition real_irrep (x : cfield) : Prop :=
  count_kind Colour true (indices_of x) = count_kind Colour false (indices_of x) /\
  Nat.Even (count_kind Isospin true (indices_of x)) /\ hypercharge x = Q2Qc 0.

Definition right_class (x : cfield) : Prop :=
  match cf_class x with
  | ComplexScalar => scalar x /\ ~ real_irrep x
  | RealScalar => scalar x /\ real_irrep x
  | MajoranaFermion => fermion x /\ real_irrep x
  | DiracFermion _ => fermion x /\ ~ real_irrep x
  | Plain => False
  end.

(** a singlet: neutral, no free index but generation indices *)
Definition singlet (op : cop) : Prop :=
  sum_of hypercharge (cfields op) = Q2Qc 0 /\ forall i, is_free (cop_erase op) i -> ix_type i = Generation.

(** the interaction of the fields of [op] with the field [p]: nothing but symbols is added, and it is a singlet *)
Definition interaction (op : cop) (p : cfield) (term : cop) : Prop :=
  Permutation (cfields term) (p :: cfields op) /\
  (exists es, Permutation (csymbols term) (csymbols op ++ es)) /\
  singlet term /\ proper_op (cop_erase term) /\
  forall i, is_free (cop_erase term) i <-> is_free (cop_erase op) i /\ ix_type i = Generation.

(** a Dirac or Majorana fermion with a dotted index *)
Definition right_handed (x : cfield) : Prop := exists i, In i (indices_of x) /\ ix_type i = Dotted.

(** an exotic field: one generation, no derivatives *)
Definition bare (x : cfield) : Prop := f_nf (i_field (cf_if x)) = 1 /\ f_derivs (i_field (cf_if x)) = 0 /\ f_stripped (i_field (cf_if x)) = None.

(** spin 0 or 1/2 *)
Definition low_spin (x : cfield) : Prop :=
  count_kind Undotted true (indices_of x) + count_kind Dotted true (indices_of x) <= 1.

(** the representation of [p] is that of the conjugate of [x], with the spinor index it is contracted with: as many isospin
    and spinor indices of each kind, and colour indices at the other height *)
Definition mirrors (x p : cfield) : Prop :=
  (forall t up, su2_type t -> count_kind t up (indices_of p) = count_kind t up (indices_of x)) /\
  (forall up, count_kind Colour up (indices_of p) = count_kind Colour (negb up) (indices_of x)).

(** the field [x] transforms like [op] and couples as [p]; 3b of right-handed Majorana fermions has the wrong sign *)
Definition stands_for (op : cop) (x p : cfield) : Prop :=
  legit x /\ low_spin x /\ carries x op /\ right_class x /\ standard_charges x /\
  hypercharge x = sum_of hypercharge (cfields op) /\
  ((right_handed x /\ cf_class x = MajoranaFermion -> baryon x = - sum_of baryon (cfields op)) /\
   (~ right_handed x \/ cf_class x <> MajoranaFermion -> baryon x = sum_of baryon (cfields op)))%Qc /\
  bare x /\ legit p /\ standard_charges p /\ bare p /\
  (hypercharge p = - hypercharge x /\ (real_irrep x -> baryon p = Q2Qc 0) /\ (~ real_irrep x -> baryon p = - baryon x))%Qc /\ mirrors x p.

(** the label of an exotic field is a symbol, with a dagger for dotted fermions *)
Definition named (x : cfield) (s : str) : Prop :=
  (right_handed x -> f_label (i_field (cf_if x)) = s ++ [dagger]) /\ (~ right_handed x -> f_label (i_field (cf_if x)) = s).

(** the symbol [s] is one given out before, or the next one for the statistics of [x] *)
Definition spends (x : cfield) (s : str) (st st' : sstate) : Prop :=
  (st' = st /\ In s (map snd (st_dict st))) \/
  ((exists ps, st_dict st' = st_dict st ++ [(ps, s)]) /\
   ((fermion x /\ st_fermion st = s :: st_fermion st' /\ st_boson st' = st_boson st) \/
    (scalar x /\ st_boson st = s :: st_boson st' /\ st_fermion st' = st_fermion st))).

(** the label without the dagger *)
Definition bare_label (x : cfield) : str :=
  let f := i_field (cf_if x) in if f_is_conj f then removelast (f_label f) else f_label f.

(** ** Vertices *)

(** epsilons of the gauge group: two lowered isospin indices, or colour indices *)
Definition gauge_symbol (e : symbol) : Prop :=
  symbol_ok e /\
  ((forall i, In i (symbol_indices e) -> ix_type i = Colour) \/
   (List.length (symbol_indices e) = 2 /\ forall i, In i (symbol_indices e) -> ix_type i = Isospin /\ ix_up i = false)).

(** all indices of a vertex, epsilons included *)
Definition vertex_indices (fs : list cfield) (gauge : list symbol) : list index :=
  flat_map indices_of fs ++ flat_map symbol_indices gauge.

(** fields without derivatives and epsilons *)
Record contractible (fs : list cfield) (gauge : list symbol) : Prop := mkContractible
  { cn_legit : Forall legit fs;
    cn_spin : Forall low_spin fs;
    cn_charges : Forall standard_charges fs;
    cn_nf : Forall one_or_three fs;
    cn_derivs : Forall (fun x => f_derivs (i_field (cf_if x)) = 0) fs;
    cn_gauge : Forall gauge_symbol gauge;
    cn_once : NoDup (map slot (vertex_indices fs gauge));
    cn_few : forall t up, t <> Generation -> count_kind t up (vertex_indices fs gauge) < 10;
    cn_fresh : forall i j, In i (vertex_indices fs gauge) -> In j (vertex_indices fs gauge) -> ix_name j <> ix_name i ++ lit "^";
    cn_dotted : forall i, In i (vertex_indices fs gauge) -> ix_type i = Dotted -> ~ In "u"%char (ix_name i) }.

(** what the fields are multiplied with: the Lorentz epsilons of the table and the epsilons [c] that meet them; [sp] are
    left for later *)
Definition vertex_product (fs : list cfield) (gauge lor sp c : list symbol) (op : cop) : Prop :=
  lorentz_table fs (Ok (true, lor)) /\ interleaved gauge sp c /\
  (exists l, (forall i, In i l <-> is_free (map (fun x => TField (cf_if x)) fs) i) /\ split_symbols l gauge sp c) /\
  Permutation (cfields op) fs /\ Permutation (csymbols op) (lor ++ c).
