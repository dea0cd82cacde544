(** * SpecInfo: specification notions for summaries of operators and completions *)

From Coq Require Import Ascii String List Bool Arith ZArith QArith Qcanon Permutation.
From Verif Require Import Base Show ModelIndex SpecIndex ModelField SpecField ModelContract SpecContract ModelExotic SpecExotic.
Import ListNotations.
Local Open Scope nat_scope.

(** ** Mass dimension *)

(** Lorentz labels of a field *)
Definition undotted_label (f : field) : nat := nth 0 (labels_of f) 0.
Definition dotted_label (f : field) : nat := nth 1 (labels_of f) 0.

(** half-integer spin *)
Definition half_integer (f : field) : Prop := Nat.Odd (undotted_label f + dotted_label f).

(** spin zero, or a vector *)
Definition scalar_or_vector (f : field) : Prop :=
  (undotted_label f = 0 /\ dotted_label f = 0) \/ (undotted_label f = 1 /\ dotted_label f = 1).

(** [n] counts the members of [l] with property P *)
Inductive counts {A} (P : A -> Prop) : list A -> nat -> Prop :=
| counts_nil : counts P [] 0
| counts_yes x l n : P x -> counts P l n -> counts P (x :: l) (S n)
| counts_no x l n : ~ P x -> counts P l n -> counts P (x :: l) n.

Definition lorentz (i : index) : Prop := ix_type i = Undotted \/ ix_type i = Dotted.

(** the indices of a field agree with its Lorentz labels and are raised *)
Definition indexed_by_labels (x : ifield) : Prop :=
  count_kind Undotted true (i_indices x) = undotted_label (i_field x) /\
  count_kind Dotted true (i_indices x) = dotted_label (i_field x) /\
  forall i, In i (i_indices x) -> lorentz i -> ix_up i = true.

(** a symbol with Lorentz indices has two of them *)
Definition pairs_lorentz (s : symbol) : Prop :=
  (forall i, In i (symbol_indices s) -> ~ lorentz i) \/
  exists i j, symbol_indices s = [i; j] /\ lorentz i /\ lorentz j.

(** every index once, no Lorentz index left over *)
Record lorentz_invariant (op : operator) : Prop := mkLI
  { li_proper : proper_op op;
    li_fields : Forall indexed_by_labels (indexed_fields op);
    li_symbols : Forall pairs_lorentz (epsilons op);
    li_closed : forall i, is_free op i -> ~ lorentz i }.

(** ** Classification by field content *)

Definition spelled_name (f : field) : str := f_label f ++ (if f_is_conj f then lit ".conj" else []).

(** a first letter of the names of derivatives and field strengths *)
Definition reserved (label : str) : Prop := exists c r, label = c :: r /\ In c (lit "DGWB").

(** six times hypercharge, baryon number times three, lepton number, twice the mass dimension *)
Definition sm_table : list (string * (Z * Z * Z * Z)) :=
  [("L", (-3, 0, 1, 3)); ("Q", (1, 1, 0, 3)); ("eb", (6, 0, -1, 3)); ("ub", (-4, -1, 0, 3)); ("db", (2, -1, 0, 3));
   ("H", (3, 0, 0, 2));
   ("L.conj", (3, 0, -1, 3)); ("Q.conj", (-1, -1, 0, 3)); ("eb.conj", (-6, 0, 1, 3)); ("ub.conj", (4, 1, 0, 3));
   ("db.conj", (-2, 1, 0, 3)); ("H.conj", (-3, 0, 0, 2))]%string%Z.

(** the numbers of a product of fields *)
Inductive product_numbers : list string -> Z * Z * Z * Z -> Prop :=
| pn_nil : product_numbers [] (0, 0, 0, 0)%Z
| pn_cons s k y b l d y' b' l' d' : In (s, (y, b, l, d)) sm_table -> product_numbers k (y', b', l', d') ->
    product_numbers (s :: k) (y + y', b + b', l + l', d + d')%Z.

(** ** Quantum numbers *)

(** The states of the irrep (p, q) of SU(3): Gelfand-Tsetlin patterns with first row p + q, q, 0. *)
Definition gt_pattern (p q : nat) (t : nat * nat * nat) : Prop :=
  let '(a, b, c) := t in q <= a <= p + q /\ b <= q /\ b <= c <= a.

Definition su3_states (p q n : nat) : Prop :=
  exists l, NoDup l /\ (forall t, In t l <-> gt_pattern p q t) /\ List.length l = n.
