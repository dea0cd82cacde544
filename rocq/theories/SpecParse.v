(** * SpecParse: what the components of an operator are, independently of how closures.py makes them *)

From Coq Require Import Ascii String List Bool Arith ZArith Permutation.
From Verif Require Import Base ModelIndex ModelField ModelContract ModelClosures SpecClosures.
Import ListNotations.
Local Open Scope nat_scope.

(** ** Standard-Model fields *)

(** the doublets with their components of third isospin component +1/2 and -1/2, and the singlets *)
Inductive doublet := LeptonD | QuarkD | HiggsD.
Inductive singlet := ElectronS | UpS | DownS.

Definition doublet_label (d : doublet) : str := match d with LeptonD => lit "L" | QuarkD => lit "Q" | HiggsD => lit "H" end.
Definition upper (d : doublet) : fsym := match d with LeptonD => Snu | QuarkD => Su | HiggsD => Shp end.
Definition under (d : doublet) : fsym := match d with LeptonD => Se | QuarkD => Sd | HiggsD => Sh0 end.

Definition singlet_label (s : singlet) : str := match s with ElectronS => lit "eb" | UpS => lit "ub" | DownS => lit "db" end.
Definition singlet_symbol (s : singlet) : fsym := match s with ElectronS => Seb | UpS => Sub | DownS => Sdb end.

(** a factor of an operator: a doublet with the name of its isospin index, or a singlet, conjugated or not *)
Inductive part := PD (d : doublet) (conj : bool) (name : str) | PS (s : singlet) (conj : bool).

(** the field without its derivatives *)
Definition bare (x y : ifield) : Prop :=
  (f_derivs (i_field x) = 0 /\ y = x) \/ (f_derivs (i_field x) <> 0 /\ strip_derivs_with_indices x = Ok y).

Definition has_label (y : ifield) (base : str) (conj : bool) : Prop :=
  f_label (i_field y) = base ++ (if conj then [dagger] else []) /\ f_is_conj (i_field y) = conj.

Definition isospin_indices (y : ifield) : list index := filter (fun i => itype_eqb (ix_type i) Isospin) (i_indices y).

Definition is_part (x : ifield) (p : part) : Prop :=
  exists y, bare x y /\
    match p with
    | PD d c name => has_label y (doublet_label d) c /\ exists i, isospin_indices y = [i] /\ show_index i = name
    | PS s c => has_label y (singlet_label s) c /\ isospin_indices y = []
    end.

(** an epsilon of two indices, whose negatives are printed as given *)
Definition lowers (e : symbol) (ab : str * str) : Prop :=
  exists i j i' j', symbol_indices e = [i; j] /\ neg_index i = Ok i' /\ neg_index j = Ok j' /\
    show_index i' = fst ab /\ show_index j' = snd ab.

(** ** Names *)

Definition substring (p s : str) : Prop := exists u v, s = u ++ p ++ v.

(** names of isospin indices that textual replacement cannot confuse *)
Definition readable (names : list str) : Prop :=
  NoDup names /\
  (forall n, In n names -> exists c r, n = "i"%char :: c :: r) /\
  (forall n c, In n names -> In c (lit "*[](),") -> ~ In c n) /\
  (forall n m, In n names -> In m names -> n <> m -> ~ substring n m).

Definition names_of (pairs : list (str * str)) : list str := flat_map (fun ab => [fst ab; snd ab]) pairs.

(** ** Expansion *)

(** true: the first index of the epsilon has the value 0 (third component +1/2) and the second the value 1 *)
Fixpoint choices (k : nat) : list (list bool) :=
  match k with
  | O => [[]]
  | S k => map (cons true) (choices k) ++ map (cons false) (choices k)
  end.

(** whether the index of that name has the value 0 *)
Fixpoint is_upper (pairs : list (str * str)) (choice : list bool) (name : str) : bool :=
  match pairs, choice with
  | (a, b) :: pairs, c :: choice => if str_eqb name a then c else if str_eqb name b then negb c else is_upper pairs choice name
  | _, _ => true
  end.

(** the component of a raised index; the component +1/2 of a conjugated doublet is the conjugate of the component -1/2 *)
Definition component (value : str -> bool) (p : part) : atom :=
  match p with
  | PD d false n => Fd (if value n then upper d else under d)
  | PD d true n => Cj (if value n then under d else upper d)
  | PS s false => Fd (singlet_symbol s)
  | PS s true => Cj (singlet_symbol s)
  end.

Definition part_names (parts : list part) : list str := flat_map (fun p => match p with PD _ _ n => [n] | PS _ _ => [] end) parts.

(** ** Quantum numbers of the operator *)

Local Open Scope Z_scope.

Definition signed (conj : bool) (z : Z) : Z := if conj then - z else z.

Definition six_hypercharge (p : part) : Z :=
  match p with
  | PD LeptonD c _ => signed c (-3) | PD QuarkD c _ => signed c 1 | PD HiggsD c _ => signed c 3
  | PS ElectronS c => signed c 6 | PS UpS c => signed c (-4) | PS DownS c => signed c 2
  end.

Definition lepton_number (p : part) : Z :=
  match p with PD LeptonD c _ => signed c 1 | PS ElectronS c => signed c (-1) | _ => 0 end.

Definition sum_over {A} (f : A -> Z) (l : list A) : Z := fold_right (fun x acc => f x + acc) 0 l.
