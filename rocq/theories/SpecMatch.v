(** * SpecMatch: what matching, flattening and relabelling mean *)

From Coq Require Import Ascii String List Bool Arith ZArith.
From Verif Require Import Base ModelMatch.
Import ListNotations.

(** a pattern variable is a string that starts with a question mark *)
Definition is_var (x : str) : Prop := exists r, x = ("?"%char) :: r.

(** [v] contains a string [x] (at any depth) *)
Inductive mentions (x : str) : pyval -> Prop :=
| m_str : mentions x (PStr x)
| m_list : forall v l, In v l -> mentions x v -> mentions x (PList l)
| m_tuple : forall v l, In v l -> mentions x v -> mentions x (PTuple l).

(** no variable and no empty string anywhere *)
Definition ground (v : pyval) : Prop := forall x, mentions x v -> ~ is_var x.
Definition no_empty (v : pyval) : Prop := ~ mentions [] v.

(** [inst sigma p d]: replacing every variable [x] of the pattern [p] by [sigma x] gives [d] *)
Inductive inst (sigma : str -> pyval -> Prop) : pyval -> pyval -> Prop :=
| i_var : forall x d, is_var x -> sigma x d -> inst sigma (PStr x) d
| i_str : forall x, ~ is_var x -> inst sigma (PStr x) (PStr x)
| i_int : forall z, inst sigma (PInt z) (PInt z)
| i_list : forall l1 l2, Forall2 (inst sigma) l1 l2 -> inst sigma (PList l1) (PList l2)
| i_tuple : forall l1 l2, Forall2 (inst sigma) l1 l2 -> inst sigma (PTuple l1) (PTuple l2).

(** the binding relation of a frame *)
Definition binds (fr : frame) (x : str) (v : pyval) : Prop := dget str_eqb fr x = Some v.

(** number of characters needed to write the value down: a bound on the recursion depth *)
Fixpoint size (v : pyval) : nat :=
  match v with
  | PStr _ | PInt _ => 1
  | PList l | PTuple l => S (list_sum (map (fun x => S (size x)) l))
  end.

(** A nested value written with brackets *)
Inductive token := Open_ (is_list : bool) | Close_ (is_list : bool) | Leaf_ (v : pyval).

Fixpoint tokens (v : pyval) : list token :=
  match v with
  | PList l => Open_ true :: flat_map tokens l ++ [Close_ true]
  | PTuple l => Open_ false :: flat_map tokens l ++ [Close_ false]
  | _ => [Leaf_ v]
  end.

(** the leaves, in writing order *)
Fixpoint leaves_of (ts : list token) : list pyval :=
  match ts with
  | [] => []
  | Leaf_ v :: r => v :: leaves_of r
  | _ :: r => leaves_of r
  end.

(** Text seen as a sequence of labels to be renamed and other characters. *)
Inductive piece := Label (x : str) | Char (c : ascii).

Definition piece_text (p : piece) : str := match p with Label x => x | Char c => [c] end.
Definition text_of (ps : list piece) : str := concat (map piece_text ps).

(** no label of the mapping is a prefix of a different one *)
Definition prefix_free (labels : list str) : Prop :=
  forall a r, In a labels -> In (a ++ r) labels -> r = [].

(** The character does not start any label *)
Definition inert (labels : list str) (c : ascii) : Prop := forall r, ~ In (c :: r) labels.

Definition ground_frame (fr : frame) : Prop := forall x v, binds fr x v -> ground v.

Definition extends (fr fr' : frame) : Prop := forall x v, binds fr x v -> binds fr' x v.

Definition bound (fr : frame) (x : str) : Prop := exists v, binds fr x v.

(** the variables of a pattern *)
Definition var_of (p : pyval) (x : str) : Prop := mentions x p /\ is_var x.

(** every binding of the frame is one of sigma *)
Definition agrees (fr : frame) (sigma : str -> pyval -> Prop) : Prop := forall x v, binds fr x v -> sigma x v.

(** Left-to-right scanning: at every position the first key of the mapping that fits is replaced and scanning
    resumes behind it; a character at which no key fits is kept. *)
Inductive scanned (m : list (str * str)) : str -> str -> Prop :=
| sc_nil : scanned m [] []
| sc_key : forall m1 k v m2 rest out,
    m = m1 ++ (k, v) :: m2 ->
    (forall k', In k' (map fst m1) -> ~ exists r', k ++ rest = k' ++ r') ->
    scanned m rest out -> scanned m (k ++ rest) (v ++ out)
| sc_char : forall c rest out,
    (forall k', In k' (map fst m) -> ~ exists r', c :: rest = k' ++ r') ->
    scanned m rest out -> scanned m (c :: rest) (c :: out).

(** label by label renaming *)
Definition rename (m : list (str * str)) (p : piece) : str :=
  match p with
  | Label x => match dget str_eqb m x with Some v => v | None => x end
  | Char c => [c]
  end.

(** every label is a key, no other character starts a key *)
Definition pieces_ok (m : list (str * str)) (ps : list piece) : Prop :=
  Forall (fun p => match p with Label x => In x (keys m) | Char c => inert (keys m) c end) ps.

