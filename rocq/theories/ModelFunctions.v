(** * ModelFunctions: utils/functions.py *)

From Coq Require Import List Bool Arith ZArith Ascii String QArith Qcanon.
From Verif Require Import Base Show.
Import ListNotations.

(** [l.pop(j)] for 0 <= j; [IndexError] when out of range *)
Definition pop_at {A} (l : list A) (j : nat) : res (list A) :=
  if (j <? List.length l)%nat then Ok (firstn j l ++ skipn (S j) l) else Err IndexError.

(** [l[i]] for 0 <= i *)
Definition getM {A} (l : list A) (i : nat) : res A :=
  match nth_error l i with Some x => Ok x | None => Err IndexError end.

(** utils/functions.py:9-12 [chunks].  [range(0, len(lst), n)] raises ValueError for n = 0; n is a natural
    number here (the package only calls it with n = 2).  The loop variable is the remaining suffix instead
    of the index i: lst[i : i + n] is the first n elements of it. *)
Fixpoint chunks_fuel {A} (fuel n : nat) (l : list A) : list (list A) :=
  match fuel, l with
  | O, _ => []
  | _, [] => []
  | S f, _ => firstn n l :: chunks_fuel f n (skipn n l)
  end.

Definition chunks {A} (l : list A) (n : nat) : res (list (list A)) :=
  match n with
  | O => Err ValueError
  | _ => Ok (chunks_fuel (List.length l) n l)
  end.

Section RemoveEquivalent.
  Context {T : Type} (eq_func : T -> T -> bool).

  (** utils/functions.py:45-50, the inner while loop of [remove_equivalent]:
      [while j <= len(l) - 1: if eq_func(l[i], l[j]): l.pop(j) else: j += 1].
      [j <= len(l) - 1] is written [j < len(l)] on naturals. *)
  Fixpoint re_inner (fuel : nat) (l : list T) (i j : nat) : res (list T) :=
    match fuel with
    | O => Err OutOfFuel
    | S f =>
        if (j <? List.length l)%nat then
          do x <- getM l i;
          do y <- getM l j;
          if eq_func x y then do l' <- pop_at l j; re_inner f l' i j
          else re_inner f l i (S j)
        else Ok l
    end.

  (** utils/functions.py:42-51, the outer while loop: [while i < len(l) - 1: ...; i += 1]
      ([i < len(l) - 1] is [i + 1 < len(l)]). *)
  Fixpoint re_outer (fuel : nat) (l : list T) (i : nat) : res (list T) :=
    match fuel with
    | O => Err OutOfFuel
    | S f =>
        if (i + 1 <? List.length l)%nat then
          do l' <- re_inner (S (List.length l)) l i (i + 1);
          re_outer f l' (i + 1)
        else Ok l
    end.

  (** utils/functions.py:34-51 [remove_equivalent]: the list after the in-place update. *)
  Definition remove_equivalent (l : list T) : res (list T) := re_outer (S (List.length l)) l 0.

  (** utils/functions.py:71-79, inner loop of [remove_equivalent_nopop]; [rm] is the set [to_remove].
      When eq_func holds, j is added but not incremented: the next iteration skips it. *)
  Fixpoint nopop_inner (fuel : nat) (l : list T) (i j : nat) (rm : list nat) : res (list nat) :=
    match fuel with
    | O => Err OutOfFuel
    | S f =>
        if (j <? List.length l)%nat then
          if mem_by Nat.eqb j rm then nopop_inner f l i (S j) rm
          else
            do x <- getM l i;
            do y <- getM l j;
            if eq_func x y then nopop_inner f l i j (j :: rm)
            else nopop_inner f l i (S j) rm
        else Ok rm
    end.

  (** utils/functions.py:63-81, outer loop *)
  Fixpoint nopop_outer (fuel : nat) (l : list T) (i : nat) (rm : list nat) : res (list nat) :=
    match fuel with
    | O => Err OutOfFuel
    | S f =>
        if (i + 1 <? List.length l)%nat then
          if mem_by Nat.eqb i rm then nopop_outer f l (i + 1) rm
          else
            do rm' <- nopop_inner (S (2 * List.length l)) l i (i + 1) rm;
            nopop_outer f l (i + 1) rm'
        else Ok rm
    end.

  (** [out[i] = item] *)
  Definition set_at {A} (l : list A) (i : nat) (x : A) : res (list A) :=
    if (i <? List.length l)%nat then Ok (firstn i l ++ x :: skipn (S i) l) else Err IndexError.

  (** utils/functions.py:86-96 [dropped_vals].  [out] starts as [None] repeated; [vals] is a set of
      indices, here a list without repetitions. *)
  Fixpoint dropped_loop (l : list T) (idx : nat) (vals : list nat) (out : list (option T)) (i : nat)
    : res (list (option T)) :=
    match l with
    | [] => Ok out
    | item :: r =>
        if mem_by Nat.eqb idx vals then dropped_loop r (S idx) vals out i
        else do out' <- set_at out i (Some item); dropped_loop r (S idx) vals out' (S i)
    end.

  Definition dropped_vals (l : list T) (vals : list nat) : res (list (option T)) :=
    dropped_loop l 0 vals (repeat None (List.length l - List.length vals)) 0.

  (** utils/functions.py:54-83 [remove_equivalent_nopop].  The input list is not modified (it is not part of
      the result). *)
  Definition remove_equivalent_nopop (l : list T) : res (list (option T)) :=
    do rm <- nopop_outer (S (List.length l)) l 0 [];
    dropped_vals l rm.
End RemoveEquivalent.

(** utils/functions.py:109-116 [negate_u1] *)
Definition negate_u1 (x : str) : res str :=
  if str_eqb x (lit "0") then Ok x
  else match x with
       | [] => Err IndexError
       | c :: r => if Ascii.eqb c "-" then Ok r else Ok (lit "-" ++ x)
       end.

Definition sm_labels : list str := map lit ["L"; "H"; "Q"; "ub"; "db"; "eb"]%string.
Definition sm_conj_labels : list str :=
  map lit ["L.conj"; "H.conj"; "Q.conj"; "ub.conj"; "db.conj"; "eb.conj"]%string.

(** [x[:-5]] *)
Definition drop_last5 (x : str) : str := firstn (List.length x - 5) x.

(** utils/functions.py:119-133 [conjugate_field].  Unpacking [field.split(",")] raises ValueError unless
    there are exactly five pieces. *)
Definition conjugate_field (field : str) : res str :=
  if mem_by str_eqb field sm_labels then Ok (field ++ lit ".conj")
  else if mem_by str_eqb field sm_conj_labels then Ok (drop_last5 field)
  else match split_on "," field with
       | [lor; col; iso; hyp; bar] =>
           do hyp' <- negate_u1 hyp;
           do bar' <- negate_u1 bar;
           Ok (join (lit ",") [lor; rev col; iso; hyp'; bar'])
       | _ => Err ValueError
       end.

(** utils/functions.py:136-139 [conjugate_term] *)
Definition conjugate_term (term : list str) : res (list str) :=
  do c <- mapM conjugate_field term; Ok (sorted_str c).

(** utils/functions.py:99-106 [stringify_qns].  The field is given by its label, [is_scalar], the string
    [dynkin], the charges y and 3b, and [is_conj].  Unpacking [field.dynkin] into five names raises
    ValueError unless it has five characters. *)
Definition stringify_qns (label : str) (is_scalar : bool) (dynkin : str) (y b3 : Qc) (is_conj : bool)
  : res str :=
  if negb (mem_by str_eqb label (map lit ["L"; "Q"; "ub"; "db"; "eb"; "H"]%string)) then
    match dynkin with
    | [_; _; cup; cdown; i] =>
        Ok (lit (if is_scalar then "S" else "F") ++ lit "," ++ [cup; cdown] ++ lit "," ++ [i] ++ lit ","
            ++ show_Q y ++ lit "," ++ show_Q b3)
    | _ => Err ValueError
    end
  else Ok (label ++ (if is_conj then lit ".conj" else [])).
