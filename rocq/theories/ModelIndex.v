(** * ModelIndex: tensor indices, tensormethod/core.py (70-229, 1189-1296) *)

From Coq Require Import Ascii String List Bool Arith ZArith.
From Verif Require Import Base Show.
Import ListNotations.
Local Open Scope nat_scope.

(** tensormethod/core.py:63-67: the five index types; [itype] stands for the sympy TensorIndexType and for its
    name at once. *)
Inductive itype := Undotted | Dotted | Colour | Isospin | Generation.

Definition itype_eqb (a b : itype) : bool :=
  match a, b with
  | Undotted, Undotted | Dotted, Dotted | Colour, Colour | Isospin, Isospin | Generation, Generation => true
  | _, _ => false
  end.

(** [str.lower] on ASCII letters; the non-ASCII characters of the package have no upper case. *)
Definition lower_char (c : ascii) : ascii :=
  let n := nat_of_ascii c in if (65 <=? n) && (n <=? 90) then ascii_of_nat (n + 32) else c.

Definition lower (x : str) : str := map lower_char x.

(** [x.replace(a, b)] for single characters *)
Definition replace_char (a b : ascii) (x : str) : str := map (fun c => if Ascii.eqb c a then b else c) x.

(** [x.split()]; the only white space considered is the space. *)
Definition split_ws (x : str) : list str :=
  filter (fun p => match p with [] => false | _ => true end) (split_on " "%char x).

(** core.py:147-161 [get_tensor_index_types]/[get_index_types]: looking up a type letter *)
Definition type_of_char (c : ascii) : res itype :=
  if Ascii.eqb c "u" then Ok Undotted else if Ascii.eqb c "d" then Ok Dotted
  else if Ascii.eqb c "c" then Ok Colour else if Ascii.eqb c "i" then Ok Isospin
  else if Ascii.eqb c "g" then Ok Generation else Err KeyError.

(** core.py:163-166 [get_index_labels] *)
Definition index_letter (t : itype) : ascii :=
  match t with Undotted => "u" | Dotted => "d" | Colour => "c" | Isospin => "i" | Generation => "g" end.

(** core.py:201-204 [classify_index] *)
Definition classify_index (idx : str) : res itype :=
  match idx with
  | [] => Err IndexError
  | c :: r => if Ascii.eqb c "-" then match r with [] => Err IndexError | c' :: _ => type_of_char c' end
              else type_of_char c
  end.

(** An [Index]: the attribute [label] set by [__init__] (core.py:97-100), and sympy's name, type and height. *)
Record index := mkIndex { ix_label : str; ix_name : str; ix_type : itype; ix_up : bool }.

(** core.py:73-100 [Index.__new__]/[__init__] on a string (or on a sympy index, through its printed form) *)
Definition new_index (label : str) : res index :=
  match lower label with
  | [] => Err IndexError
  | c :: r =>
    let is_up := negb (Ascii.eqb c "-") in
    let l := if is_up then c :: r else r in
    match l with
    | [] => Err IndexError
    | c :: r => let name := if Ascii.eqb c "_" then r ++ lit "_" else c :: r in
                do t <- classify_index name; Ok (mkIndex label name t is_up)
    end
  end.

(** sympy's printing of an index: its name, with a minus sign if lowered *)
Definition show_index (i : index) : str := (if ix_up i then [] else lit "-") ++ ix_name i.

(** core.py:73-100 on an [Index]: the same object, whose [label] is overwritten by its printed form *)
Definition reindex (i : index) : index := mkIndex (show_index i) (ix_name i) (ix_type i) (ix_up i).

(** Equality of sympy indices: name, type and height; the attribute [label] plays no role. *)
Definition index_eqb (i j : index) : bool :=
  str_eqb (ix_name i) (ix_name j) && itype_eqb (ix_type i) (ix_type j) && Bool.eqb (ix_up i) (ix_up j).

(** core.py:102-105 [__neg__] *)
Definition neg_index (i : index) : res index :=
  new_index (if ix_up i then lit "-" ++ ix_label i else tl (ix_label i)).

(** core.py:107-121 [conj] *)
Definition conj_index (i : index) : res index :=
  match ix_type i with
  | Undotted => new_index (replace_char "u" "d" (ix_label i))
  | Dotted => new_index (replace_char "d" "u" (ix_label i))
  | Isospin | Generation => Ok i
  | Colour => neg_index i
  end.

(** core.py:196-199 [is_su2] *)
Definition is_su2 (i : index) : bool :=
  match ix_type i with Isospin | Undotted | Dotted => true | _ => false end.

(** core.py:127-140 [Index.dynkin] *)
Definition index_dynkin (indices : list index) : nat * nat :=
  fold_left (fun ud i => if ix_up i then (S (fst ud), snd ud) else (fst ud, S (snd ud))) indices (0, 0).

(** core.py:206-212 [indices_by_type]: the values for Undotted, Dotted, Colour, Isospin, Generation *)
Definition all_itypes : list itype := [Undotted; Dotted; Colour; Isospin; Generation].

Definition indices_by_type (indices : list index) : list (itype * list index) :=
  fold_left (fun d i => match dget itype_eqb d (ix_type i) with
                        | Some l => dset itype_eqb d (ix_type i) (l ++ [i])
                        | None => d end)
            indices (map (fun t => (t, [])) all_itypes).

(** core.py:214-219 [cons_index] *)
Definition cons_index (t : itype) (label : Z) (is_up : bool) : res index :=
  new_index ((if is_up then [] else lit "-") ++ [index_letter t] ++ show_Z label).

(** core.py:221-225 [conj_index_string] *)
Definition conj_index_string (index_string : str) : res str :=
  do l <- mapM (fun s => do i <- new_index s; conj_index i) (split_on " "%char index_string);
  Ok (join (lit " ") (map show_index l)).

(** ** Fresh indices.  The state is the length of sympy's list [_autogenerated] of each index type. *)

Definition counters := itype -> nat.

Definition bump (t : itype) (st : counters) : counters :=
  fun t' => if itype_eqb t' t then S (st t') else st t'.

(** core.py:168-176 [fresh].  [tensor.TensorIndex(True, t)] is named _i<n>, n the length of the list of
    automatic names of the type t. *)
Definition fresh (type_ : ascii) (st : counters) : res (index * counters) :=
  do t <- type_of_char type_;
  do idx <- new_index (lit "_i" ++ show_nat (st t));
  do j <- new_index (replace_char "i" type_ (ix_label idx));
  Ok (j, bump t st).

(** [int(c)] for one character *)
Definition digit_of (c : ascii) : res nat :=
  let n := nat_of_ascii c in if (48 <=? n) && (n <=? 57) then Ok (n - 48) else Err ValueError.

(** core.py:142-145 [get_dynkin_labels] *)
Definition dynkin_labels : list (bool * ascii) :=
  [(true, "u"%char); (true, "d"%char); (true, "c"%char); (false, "c"%char); (true, "i"%char)].

Fixpoint fresh_many (raised : bool) (type_ : ascii) (n : nat) (st : counters) : res (list index * counters) :=
  match n with
  | O => Ok ([], st)
  | S n => do x <- fresh type_ st;
           do i <- (if raised then Ok (fst x) else neg_index (fst x));
           do y <- fresh_many raised type_ n (snd x);
           Ok (i :: fst y, snd y)
  end.

(** core.py:178-186 [fresh_indices], before the indices are printed *)
Definition fresh_index_list (dynkin_str : str) (st : counters) : res (list index * counters) :=
  foldM (fun os x => let '((raised, type_), number) := x in
           do n <- digit_of number;
           do y <- fresh_many raised type_ n (snd os);
           Ok (fst os ++ fst y, snd y))
        (combine dynkin_labels dynkin_str) ([], st).

Definition fresh_indices (dynkin_str : str) (st : counters) : res (str * counters) :=
  do x <- fresh_index_list dynkin_str st; Ok (join (lit " ") (map show_index (fst x)), snd x).

(** ** Consistency of indices *)

(** core.py:1189-1210 [assert_consistent_indices] *)
Definition assert_consistent_indices (indices : list str) (types : list itype) (colour : nat * nat) : res unit :=
  do _ <- assert_ (List.length indices =? List.length types);
  do c <- foldM (fun ud it =>
             let '(i, t) := it in
             do idx <- new_index i;
             do _ <- assert_ (itype_eqb (ix_type idx) t);
             let lowered := match i with c :: _ => Ascii.eqb c "-" | [] => false end in
             if itype_eqb t Colour then
               Ok (if lowered then (fst ud, S (snd ud)) else (S (fst ud), snd ud))
             else do _ <- assert_ (negb lowered); Ok ud)
          (combine indices types) (0, 0);
  assert_ ((fst c =? fst colour) && (snd c =? snd colour)).

(** core.py:1213-1234 [get_dynkin]: the state is (undotted, dotted, colour up, colour down, isospin).  There is
    no entry for a lowered SU(2) index. *)
Definition dynkin5 := (nat * nat * nat * nat * nat)%type.

Definition dynkin_step (d : dynkin5) (i : index) : res dynkin5 :=
  let '(a, b, c, e, f) := d in
  match ix_type i, ix_up i with
  | Generation, _ => Ok d
  | Undotted, true => Ok (S a, b, c, e, f)
  | Dotted, true => Ok (a, S b, c, e, f)
  | Colour, true => Ok (a, b, S c, e, f)
  | Colour, false => Ok (a, b, c, S e, f)
  | Isospin, true => Ok (a, b, c, e, S f)
  | _, false => Err KeyError
  end.

Definition get_dynkin (indices : list index) : res str :=
  do d <- foldM dynkin_step indices (0, 0, 0, 0, 0);
  let '(a, b, c, e, f) := d in Ok (concat (map show_nat [a; b; c; e; f])).

(** ** Invariant symbols: a metric of an SU(2), the epsilon or the delta of SU(3) *)

Inductive symbol :=
| Metric (t : itype) (i : list index)
| EpsC (i : list index)
| DeltaC (i : list index).

Definition symbol_indices (s : symbol) : list index :=
  match s with Metric _ i => i | EpsC i => i | DeltaC i => i end.

(** core.py:1259-1282 [eps].  Generation has no metric; sympy then calls None.  Only the type of the first index is
    looked at. *)
Definition eps (indices : str) : res symbol :=
  do l <- mapM new_index (split_ws indices);
  match l with
  | [] => Err IndexError
  | i0 :: _ =>
    if negb (itype_eqb (ix_type i0) Colour) then
      do _ <- assert_ (List.length l =? 2);
      do _ <- assert_ (forallb (fun i => negb (ix_up i)) l);
      match ix_type i0 with Generation => Err TypeError | t => Ok (Metric t l) end
    else
      do _ <- assert_ (List.length l =? 3);
      do _ <- assert_ (forallb (fun i => Bool.eqb (ix_up i0) (ix_up i)) l);
      Ok (EpsC l)
  end.

(** core.py:1285-1296 [delta] *)
Definition delta (indices : str) : res symbol :=
  do l <- mapM new_index (split_ws indices);
  match l with
  | [i; j] => do _ <- assert_ (itype_eqb (ix_type i) Colour);
              do _ <- assert_ (itype_eqb (ix_type j) Colour);
              do _ <- assert_ (ix_up i);
              do _ <- assert_ (negb (ix_up j));
              Ok (DeltaC l)
  | _ => Err AssertionError
  end.

