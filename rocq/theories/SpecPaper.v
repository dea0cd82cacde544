(** * SpecPaper: what a row of LaTeX says about an operator *)

From Coq Require Import Ascii String List Bool Arith.
From Verif Require Import Base ModelIndex ModelField.
Import ListNotations.
Local Open Scope nat_scope.

(** ** Pictures: names of the factors, and which of them an epsilon joins *)

Record picture := mkPicture { pc_names : list str; pc_joins : list (nat * nat) }.

Definition joined (p : picture) (i j : nat) : Prop := In (i, j) (pc_joins p) \/ In (j, i) (pc_joins p).

(** the same but for the order of the factors *)
Definition same_picture (p q : picture) : Prop :=
  List.length (pc_names p) = List.length (pc_names q) /\ List.length (pc_joins p) = List.length (pc_joins q) /\
  exists f : nat -> nat,
    (forall i, i < List.length (pc_names p) -> f i < List.length (pc_names q) /\ nth (f i) (pc_names q) [] = nth i (pc_names p) []) /\
    (forall i j, i < List.length (pc_names p) -> j < List.length (pc_names p) -> f i = f j -> i = j) /\
    (forall i j, i < List.length (pc_names p) -> j < List.length (pc_names p) -> (joined p i j <-> joined q (f i) (f j))).

(** ** LaTeX: control words and characters; spaces, braces and dollars only group *)

Inductive token := Ctl (s : str) | Chr (c : ascii).

Definition letter (c : ascii) : bool :=
  let n := nat_of_ascii c in ((65 <=? n) && (n <=? 90)) || ((97 <=? n) && (n <=? 122)).

Definition silent (c : ascii) : bool := existsb (Ascii.eqb c) (lit " {}$").

(** [word]: the control word that is being read *)
Fixpoint tokens_from (word : option str) (s : str) : list token :=
  match s with
  | [] => match word with Some w => [Ctl w] | None => [] end
  | c :: r =>
    if Ascii.eqb c "\" then match word with Some w => Ctl w :: tokens_from (Some []) r | None => tokens_from (Some []) r end
    else match word with
         | Some w => if letter c then tokens_from (Some (w ++ [c])) r
                     else Ctl w :: (if silent c then tokens_from None r else Chr c :: tokens_from None r)
         | None => if silent c then tokens_from None r else Chr c :: tokens_from None r
         end
  end.

Definition tokens (s : str) : list token := tokens_from None s.

(** a factor with its isospin index, another row, an epsilon *)
Inductive item := Factor (name : str) (index : option ascii) | Row (label : str) | Joins (a b : ascii).

Definition is_ctl (w : string) (t : token) : bool := match t with Ctl s => str_eqb s (lit w) | Chr _ => false end.

(** a dagger, an index *)
Definition read_dagger (l : list token) : bool * list token :=
  match l with
  | Chr c :: t :: r => if Ascii.eqb c "^" && is_ctl "dagger" t then (true, r) else (false, l)
  | _ => (false, l)
  end.
Definition read_index (l : list token) : option ascii * list token :=
  match l with
  | Chr c :: Chr i :: r => if Ascii.eqb c "^" then (Some i, r) else (None, l)
  | _ => (None, l)
  end.

(** the name of a field: a letter; with a bar, the field with [b] in its name; a tilde is the conjugate of a doublet, a dagger that of a
    singlet *)
Definition read_name (l : list token) : option (str * list token) :=
  match l with
  | Ctl w :: Chr c :: r =>
    if str_eqb w (lit "tilde") then Some ([c; dagger], r)
    else if str_eqb w (lit "bar") then let (d, r) := read_dagger r in Some (c :: lit "b" ++ (if d then [dagger] else []), r)
    else None
  | Chr c :: r => if existsb (Ascii.eqb c) (lit "LQH") then Some ([c], r) else None
  | _ => None
  end.

(** the number of derivatives, after the letter D *)
Definition read_power (l : list token) : nat * list token :=
  match l with
  | Chr c :: Chr n :: r => if Ascii.eqb c "^" then (nat_of_ascii n - 48, r) else (1, l)
  | _ => (1, l)
  end.

(** the label of another row ends at the next control word *)
Fixpoint read_label (l : list token) : str * list token :=
  match l with
  | Chr c :: r => let (s, r) := read_label r in (c :: s, r)
  | _ => ([], l)
  end.

Definition read_item (l : list token) : option (option item * list token) :=
  match l with
  | Ctl w :: r =>
    if str_eqb w (lit "cdot") then Some (None, r)
    else if str_eqb w (lit "epsilon") then
      match r with Chr u :: Chr a :: Chr b :: r => if Ascii.eqb u "_" then Some (Some (Joins a b), r) else None | _ => None end
    else if str_eqb w (lit "mathcal") then
      match r with
      | Chr o :: Chr u :: r => if Ascii.eqb o "O" && Ascii.eqb u "_" then let (s, r) := read_label r in Some (Some (Row s), r) else None
      | _ => None
      end
    else match read_name l with Some (s, r) => let (i, r) := read_index r in Some (Some (Factor s i), r) | None => None end
  | Chr c :: r =>
    if Ascii.eqb c "(" then
      match r with
      | Chr d :: r =>
        if Ascii.eqb d "D" then
          let (n, r) := read_power r in
          match read_name r with
          | Some (s, Chr e :: r) => if Ascii.eqb e ")" then let (i, r) := read_index r in Some (Some (Factor (repeat "D"%char n ++ s) i), r) else None
          | _ => None
          end
        else None
      | _ => None
      end
    else match read_name l with Some (s, r) => let (i, r) := read_index r in Some (Some (Factor s i), r) | None => None end
  | [] => None
  end.

Fixpoint read_items (k : nat) (l : list token) : option (list item) :=
  match l, k with
  | [], _ => Some []
  | _, O => None
  | _, S k =>
    match read_item l with
    | Some (i, r) => match read_items k r with Some is => Some (match i with Some i => i :: is | None => is end) | None => None end
    | None => None
    end
  end.

Definition items (s : str) : option (list item) := let l := tokens s in read_items (List.length l) l.

(** the position of the only factor with the index [a], among [l] at the positions from [n] on *)
Definition carriers (a : ascii) (l : list (nat * option ascii)) : list nat :=
  flat_map (fun x => match snd x with Some b => if Ascii.eqb a b then [fst x] else [] | None => [] end) l.

(** the factors and rows first, then the epsilons, which join factors of the row itself; every index is joined once *)
Fixpoint gather (rows : str -> option picture) (l : list item) (p : picture) (own : list (nat * option ascii)) : option picture :=
  match l with
  | [] => if forallb (fun x => match snd x with None => true | Some _ => existsb (fun e => (fst e =? fst x) || (snd e =? fst x)) (pc_joins p) end) own then Some p else None
  | Factor s i :: r => gather rows r (mkPicture (pc_names p ++ [s]) (pc_joins p)) (own ++ [(List.length (pc_names p), i)])
  | Row s :: r =>
    match rows s with
    | Some q => let n := List.length (pc_names p) in
                gather rows r (mkPicture (pc_names p ++ pc_names q) (pc_joins p ++ map (fun e => (n + fst e, n + snd e)) (pc_joins q))) own
    | None => None
    end
  | Joins a b :: r =>
    match carriers a own, carriers b own with
    | [i], [j] => gather rows r (mkPicture (pc_names p) (pc_joins p ++ [(i, j)])) own
    | _, _ => None
    end
  end.

(** what a row means, where the table gives the meaning of other rows; at most [k] rows deep *)
Fixpoint meaning (table : list (str * str)) (k : nat) (s : str) : option picture :=
  match k with
  | O => None
  | S k =>
    match items s with
    | Some l => gather (fun label => match find (fun kv => str_eqb (fst kv) label) table with Some kv => meaning table k (snd kv) | None => None end) l (mkPicture [] []) []
    | None => None
    end
  end.

(** ** The picture of an operator: its fields, and the isospin indices its epsilons join *)

Definition fields_in (op : list tensor) : list ifield := flat_map (fun t => match t with TField f => [f] | TSymbol _ => [] end) op.
Definition symbols_in (op : list tensor) : list symbol := flat_map (fun t => match t with TField _ => [] | TSymbol s => [s] end) op.

(** the field number [n] of [op] has the index that [i] is contracted with *)
Definition carries_partner (op : list tensor) (i : index) (n : nat) : Prop :=
  exists f j, nth_error (fields_in op) n = Some f /\ In j (i_indices f) /\ ix_name j = ix_name i /\ ix_type j = ix_type i /\ ix_up j <> ix_up i.

(** [p] is the picture of [op] *)
Definition pictures (op : list tensor) (p : picture) : Prop :=
  pc_names p = map (fun f => f_label (i_field f)) (fields_in op) /\
  Forall2 (fun s e => exists i j, symbol_indices s = [i; j] /\ ix_type i = Isospin /\ ix_type j = Isospin /\
                                  carries_partner op i (fst e) /\ carries_partner op j (snd e)) (symbols_in op) (pc_joins p) /\
  (forall n f i, nth_error (fields_in op) n = Some f -> In i (i_indices f) -> ix_type i = Isospin -> exists m, joined p n m).

(** the row [latex] of the table shows the operator *)
Definition shows (table : list (str * str)) (latex : str) (op : list tensor) : Prop :=
  exists p q, meaning table (S (List.length table)) latex = Some p /\ pictures op q /\ same_picture p q.

(** ** The primes *)

(** a label without its last letters p, up to three of them, and a prime for each *)
Definition primed (label text : str) : Prop :=
  exists base n, label = base ++ repeat "p"%char n /\ n <= 3 /\ (n < 3 -> forall b, base <> b ++ ["p"%char]) /\
    text = base ++ (match n with 0 => [] | _ => lit "^{" ++ concat (repeat (lit "\prime") n) ++ lit "}" end).

(** ** The rows of the table *)

Section Rows.
  Variables (eff deriv : list (str * list tensor)).

  Definition known (label : str) (op : list tensor) : Prop := In (label, op) eff \/ (~ In label (map fst eff) /\ In (label, op) deriv).
  Definition unknown (label : str) : Prop := ~ In label (map fst eff) /\ ~ In label (map fst deriv).

  (** the operator of the last label that is known *)
  Definition current (labels : list str) (op : list tensor) : Prop := exists a l b, labels = a ++ l :: b /\ known l op /\ Forall unknown b.
End Rows.

(** the numbers of models of a label, all and those in the database *)
Definition counts (show : nat -> str) (models : list (str * nat)) (ops : list str) (label m f : str) : Prop :=
  (exists n, In (label, n) models /\ m = show n /\ f = show (List.length (filter (str_eqb label) ops))) \/
  (~ In label (map fst models) /\ m = [] /\ f = []).
