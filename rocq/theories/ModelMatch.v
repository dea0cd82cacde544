(** * ModelMatch: utils/match.py, and flatten / foldr / factors / multiple_replace of completions/utils.py *)

From Coq Require Import Ascii String List Bool Arith ZArith.
From Verif Require Import Base.
Import ListNotations.
Local Open Scope nat_scope.

(** Python data built from strings, integers, lists and tuples: what the matcher and [flatten] are used on.
    (Python's cross-type equalities 1 == True == 1.0 do not arise with these atoms.) *)
Inductive pyval : Type :=
| PStr (x : str)
| PInt (z : Z)
| PList (l : list pyval)
| PTuple (l : list pyval).

(** Python's [==] on such data; a list never equals a tuple *)
Fixpoint pyval_eqb (a b : pyval) : bool :=
  let fix go (l1 l2 : list pyval) : bool :=
    match l1, l2 with
    | [], [] => true
    | x :: r1, y :: r2 => pyval_eqb x y && go r1 r2
    | _, _ => false
    end in
  match a, b with
  | PStr x, PStr y => str_eqb x y
  | PInt x, PInt y => Z.eqb x y
  | PList x, PList y => go x y
  | PTuple x, PTuple y => go x y
  | _, _ => false
  end.

Definition frame := list (str * pyval).

(** utils/match.py:20-21 [is_pattern_var]: [symbol[0]] raises IndexError on the empty string *)
Definition is_pattern_var (p : pyval) : res bool :=
  match p with
  | PStr [] => Err IndexError
  | PStr (c :: _) => Ok (Ascii.eqb c "?")
  | _ => Ok false
  end.

(** utils/match.py:26-51 [pattern_match] with [_extend_if_consistent] (4-8) and [_match_on_collection]
    (11-17) inlined.  [None] stands for the Python value False, [Some fr] for a frame.  [fuel] is Python's
    recursion limit, counted in nested calls of [pattern_match]; exceeding it raises RecursionError, which
    the bare [except] of [_match_on_collection] swallows like any other exception. *)
Fixpoint pattern_match (fuel : nat) (pattern data : pyval) (fr : option frame) : res (option frame) :=
  match fuel with
  | O => Err RecursionError
  | S f =>
      match fr with
      | None => Ok None
      | Some frm =>
          do v <- is_pattern_var pattern;
          if v then
            match pattern with
            | PStr x => match dget str_eqb frm x with
                        | Some bound => pattern_match f bound data fr
                        | None => Ok (Some (dset str_eqb frm x data))
                        end
            | _ => Ok None
            end
          else if pyval_eqb pattern data then Ok fr
          else
            let on_collection (p d : list pyval) (mkp mkd : list pyval -> pyval) :=
              let body :=
                match p, d with
                | p0 :: pr, d0 :: dr =>
                    do fr' <- pattern_match f p0 d0 fr;
                    pattern_match f (mkp pr) (mkd dr) fr'
                | _, _ => Err IndexError
                end in
              match body with Ok r => Ok r | Err _ => Ok None end in
            match pattern, data with
            | PList p, PList d => on_collection p d PList PList
            | PList p, PTuple d => on_collection p d PList PTuple
            | PTuple p, PList d => on_collection p d PTuple PList
            | PTuple p, PTuple d => on_collection p d PTuple PTuple
            | _, _ => Ok None
            end
      end
  end.

(** utils/match.py:62-63 [pmatch] *)
Definition pmatch (fuel : nat) (pattern data : pyval) : res (option frame) :=
  pattern_match fuel pattern data (Some []).

(** utils/match.py:55-59 [is_match]; an empty frame is not equal to False *)
Definition is_match (fuel : nat) (pattern data : pyval) : res bool :=
  do r <- pattern_match fuel pattern data (Some []);
  Ok (match r with None => false | Some _ => true end).

(** completions/utils.py:10-16 [flatten] on a list or tuple (the generator read to its end) *)
Fixpoint flatten1 (v : pyval) : list pyval :=
  match v with
  | PList l | PTuple l => flat_map flatten1 l
  | _ => [v]
  end.

Definition flatten (container : list pyval) : list pyval := flat_map flatten1 container.

(** functools.reduce *)
Definition reduce {A} (f : A -> A -> A) (xs : list A) : res A :=
  match xs with
  | [] => Err TypeError
  | x :: r => Ok (fold_left f r x)
  end.

(** completions/utils.py:25-29 [foldr]; [acc = None] is the missing start value *)
Definition foldr {A} (func : A -> A -> A) (xs : list A) (acc : option A) : res A :=
  match acc with
  | None => reduce (fun x y => func y x) (rev xs)
  | Some a => Ok (fold_left (fun x y => func y x) (rev xs) a)
  end.

(** completions/utils.py:32-37 [fixedpoint]: f is called once, then the undefined name [application] is
    read.  [f x] may itself raise. *)
Definition fixedpoint {A} (f : A -> res A) (x : A) : res A :=
  do app <- f x; Err NameError.

(** completions/utils.py:40-46 [factors].  [root] is the value of [int(n ** 0.5)] (floating point, so a
    parameter here).  The set is returned as the list of its members, possibly repeated. *)
Definition factors (n root : Z) : res (list Z) :=
  let pieces := map (fun i => [i; n / i]%Z)
                    (filter (fun i => (n mod i =? 0)%Z) (map Z.of_nat (seq 1 (Z.to_nat root)))) in
  reduce (@app Z) pieces.

(** first key, in the order of the mapping, that the text starts with *)
Fixpoint first_key (mapping : list (str * str)) (text : str) : option (str * str) :=
  match mapping with
  | [] => None
  | (k, v) :: r => if startswith k text then Some (k, v) else first_key r text
  end.

(** completions/utils.py:49-51 [multiple_replace]: [re.sub] with the alternation of the (escaped) keys.
    At every position the first alternative that matches is taken and scanning resumes behind it.  With an
    empty mapping the regular expression is empty and [mapping[""]] raises KeyError.  Mappings with an empty
    key are not modelled (the model would leave the text from there on alone). *)
Fixpoint mreplace (fuel : nat) (mapping : list (str * str)) (text : str) : str :=
  match fuel with
  | O => []
  | S f =>
      match text with
      | [] => []
      | c :: r =>
          match first_key mapping text with
          | Some (k, v) => v ++ mreplace f mapping (skipn (List.length k) text)
          | None => c :: mreplace f mapping r
          end
      end
  end.

Definition multiple_replace (mapping : list (str * str)) (text : str) : res str :=
  match mapping with
  | [] => Err KeyError
  | _ => Ok (mreplace (List.length text) mapping text)
  end.

(** completions/utils.py:64-74 [multiset_equality]: [Counter] is not imported *)
Definition multiset_equality {A} (x y : list A) : res bool := Err NameError.
