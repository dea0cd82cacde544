(** * Base: Python-like values shared by every model file.

    Nothing in this file models a function of the package.  It fixes how Python exceptions, strings,
    dictionaries, [sorted] and [itertools.permutations]/[combinations] are represented. *)

From Coq Require Import List Bool Arith ZArith Lia Permutation Ascii String Sorted Relations.
Import ListNotations.
Set Implicit Arguments.

(** ** Exceptions as values *)

Inductive exn : Type :=
| AssertionError | KeyError | IndexError | ValueError | TypeError
| AttributeError | NameError | RecursionError | ZeroDivisionError | NotImplementedError | StopIteration
| PlainException | SyntaxError | OutOfFuel.

Inductive res (A : Type) : Type :=
| Ok (a : A)
| Err (e : exn).
Arguments Ok {A} a.
Arguments Err {A} e.

Definition bind {A B} (x : res A) (f : A -> res B) : res B :=
  match x with Ok a => f a | Err e => Err e end.

Notation "'do' x <- e ; f" := (bind e (fun x => f))
  (at level 200, x pattern, e at level 100, f at level 200, right associativity).

(** Python [assert b]. *)
Definition assert_ (b : bool) : res unit := if b then Ok tt else Err AssertionError.

(** [[f(x) for x in l]] where [f] may raise; the first exception wins. *)
Fixpoint mapM {A B} (f : A -> res B) (l : list A) : res (list B) :=
  match l with
  | [] => Ok []
  | x :: r => do y <- f x; do ys <- mapM f r; Ok (y :: ys)
  end.

(** A [for] loop with state [S] whose body may raise. *)
Fixpoint foldM {A S} (f : S -> A -> res S) (l : list A) (s : S) : res S :=
  match l with
  | [] => Ok s
  | x :: r => do s' <- f s x; foldM f r s'
  end.

Definition is_ok {A} (x : res A) : bool := match x with Ok _ => true | Err _ => false end.

(** ** Strings

    A Python string is a list of characters.  Characters are Coq's 256 [ascii] codes: ASCII characters stand
    for themselves and the few non-ASCII characters the package uses (the dagger, the partial-derivative
    sign, Greek letters) are represented by distinct codes above 127, which keeps their place after every
    ASCII character in Python's code-point order. *)

Definition str := list ascii.
Definition lit (x : string) : str := list_ascii_of_string x.

Definition char_leb (a b : ascii) : bool := (nat_of_ascii a <=? nat_of_ascii b)%nat.

(** Python's [<=] on sequences: lexicographic, a proper prefix comes first. *)
Section Lex.
  Context {A : Type} (eqb leb : A -> A -> bool).
  Fixpoint lex_leb (a b : list A) : bool :=
    match a, b with
    | [], _ => true
    | _ :: _, [] => false
    | x :: a', y :: b' => if eqb x y then lex_leb a' b' else leb x y
    end.
End Lex.

(** Python's [<=] on strings: lexicographic by code point. *)
Definition str_leb : str -> str -> bool := lex_leb Ascii.eqb char_leb.

Fixpoint list_eqb {A} (eqb : A -> A -> bool) (a b : list A) : bool :=
  match a, b with
  | [], [] => true
  | x :: a', y :: b' => eqb x y && list_eqb eqb a' b'
  | _, _ => false
  end.

Definition str_eqb : str -> str -> bool := list_eqb Ascii.eqb.

Definition prod_eqb {A B} (ea : A -> A -> bool) (eb : B -> B -> bool) (x y : A * B) : bool :=
  ea (fst x) (fst y) && eb (snd x) (snd y).

(** [s.startswith(p)] *)
Fixpoint startswith (p d : str) : bool :=
  match p, d with
  | [], _ => true
  | _ :: _, [] => false
  | x :: p', y :: d' => Ascii.eqb x y && startswith p' d'
  end.

(** [sep.join(l)] *)
Fixpoint join (sep : str) (l : list str) : str :=
  match l with
  | [] => []
  | [x] => x
  | x :: r => x ++ sep ++ join sep r
  end.

(** [x.split(c)] for a one-character separator: always at least one piece. *)
Fixpoint split_on (c : ascii) (x : str) : list str :=
  match x with
  | [] => [[]]
  | a :: r => if Ascii.eqb a c then [] :: split_on c r
              else match split_on c r with
                   | p :: ps => (a :: p) :: ps
                   | [] => [[a]]
                   end
  end.

(** ** Dictionaries: association lists in insertion order.  Assigning to an existing key keeps its place. *)

Section Dict.
  Context {K V : Type} (eqb : K -> K -> bool).

  Fixpoint dget (d : list (K * V)) (k : K) : option V :=
    match d with
    | [] => None
    | (k', v) :: r => if eqb k k' then Some v else dget r k
    end.

  Fixpoint dset (d : list (K * V)) (k : K) (v : V) : list (K * V) :=
    match d with
    | [] => [(k, v)]
    | (k', v') :: r => if eqb k k' then (k', v) :: r else (k', v') :: dset r k v
    end.

  Definition dmem (d : list (K * V)) (k : K) : bool :=
    match dget d k with Some _ => true | None => false end.

  (** [d[k]] *)
  Definition dgetM (d : list (K * V)) (k : K) : res V :=
    match dget d k with Some v => Ok v | None => Err KeyError end.

  (** [{**d, **e}] and [dict(pairs)] *)
  Definition dupdate (d e : list (K * V)) : list (K * V) :=
    fold_left (fun acc kv => dset acc (fst kv) (snd kv)) e d.

  Definition dict_of (e : list (K * V)) : list (K * V) := dupdate [] e.

  Definition keys (d : list (K * V)) : list K := map fst d.
  Definition values (d : list (K * V)) : list V := map snd d.
End Dict.

(** ** [sorted] : a stable sort by a Boolean "less or equal" *)

Section Sort.
  Context {A : Type} (leb : A -> A -> bool).

  Fixpoint insert (x : A) (l : list A) : list A :=
    match l with
    | [] => [x]
    | y :: r => if leb x y then x :: y :: r else y :: insert x r
    end.

  Fixpoint sort (l : list A) : list A :=
    match l with
    | [] => []
    | x :: r => insert x (sort r)
    end.
End Sort.

Definition sorted_str : list str -> list str := sort str_leb.

(** ** [itertools] *)

(** every element together with the list without it, in order *)
Fixpoint selects {A} (l : list A) : list (A * list A) :=
  match l with
  | [] => []
  | x :: r => (x, r) :: map (fun p => (fst p, x :: snd p)) (selects r)
  end.

Fixpoint perms_fuel {A} (n : nat) (l : list A) : list (list A) :=
  match n with
  | O => [[]]
  | S n' => flat_map (fun p => map (cons (fst p)) (perms_fuel n' (snd p))) (selects l)
  end.

(** [itertools.permutations(l)], in the order Python produces them *)
Definition permutations {A} (l : list A) : list (list A) := perms_fuel (List.length l) l.

(** [itertools.combinations(l, 2)] *)
Fixpoint pairs {A} (l : list A) : list (A * A) :=
  match l with
  | [] => []
  | x :: r => map (fun y => (x, y)) r ++ pairs r
  end.

(** [itertools.combinations(l, k)] *)
Fixpoint combinations {A} (k : nat) (l : list A) : list (list A) :=
  match k, l with
  | O, _ => [[]]
  | S _, [] => []
  | S k', x :: r => map (cons x) (combinations k' r) ++ combinations k r
  end.

(** [list(set(l))] up to order: remove repetitions, keeping the first *)
Fixpoint nodup_by {A} (eqb : A -> A -> bool) (l : list A) : list A :=
  match l with
  | [] => []
  | x :: r => x :: filter (fun y => negb (eqb x y)) (nodup_by eqb r)
  end.

Definition mem_by {A} (eqb : A -> A -> bool) (x : A) (l : list A) : bool := existsb (eqb x) l.

(** [l.remove(x)]: drop the first equal element, [ValueError] if there is none *)
Fixpoint remove_first {A} (eqb : A -> A -> bool) (x : A) (l : list A) : res (list A) :=
  match l with
  | [] => Err ValueError
  | y :: r => if eqb x y then Ok r else do r' <- remove_first eqb x r; Ok (y :: r')
  end.
