(** * ModelPaper: the table of operators for the paper, database/operators.py *)

From Coq Require Import Ascii String List Bool Arith.
From Verif Require Import Base Show ModelFunctions ModelIndex ModelField ModelContract DataPaper.
Import ListNotations.
Local Open Scope nat_scope.

Definition endswith (p s : str) : bool := startswith (rev p) (rev s).

(** [string[:-n]] *)
Definition drop_last (n : nat) (s : str) : str := firstn (List.length s - n) s.

(** operators.py:783-790 [format_primes] *)
Definition format_primes (s : str) : str :=
  if endswith (lit "ppp") s then drop_last 3 s ++ lit "^{\prime\prime\prime}"
  else if endswith (lit "pp") s then drop_last 2 s ++ lit "^{\prime\prime}"
  else if endswith (lit "p") s then drop_last 1 s ++ lit "^{\prime}"
  else s.

(** operators.py:755-759: [Counter] of the column "op", and zero for the labels it does not have *)
Definition filtered_counts (models : list (str * nat)) (ops : list str) : list (str * nat) :=
  fold_left (fun d kv => if dmem str_eqb d (fst kv) then d else dset str_eqb d (fst kv) 0) models
    (fold_left (fun d k => dset str_eqb d k (S (match dget str_eqb d k with Some n => n | None => 0 end))) ops []).

(** operators.py:761-762 *)
Definition as_strings (d : list (str * nat)) : list (str * str) := map (fun kv => (fst kv, show_nat (snd kv))) d.

Section Table.
  (** database/utils.py:41-53 [table_data] (ModelClosures): loops and scale *)
  Variable table_data : operator -> res (str * str).
  (** [EFF_OPERATORS] and [DERIV_EFF_OPERATORS] *)
  Variables eff deriv : list (str * operator).

  Definition row (label latex models filtered loops scale : str) : str :=
    lit "$" ++ format_primes label ++ lit "$ & " ++ latex ++ lit " & " ++ models ++ lit " & " ++ filtered ++ lit " & " ++ loops ++ lit " & " ++
    scale ++ lit " \\".

  (** operators.py:766-769: a label in neither dictionary leaves the variable as it was *)
  Definition next_op (label : str) (op : option operator) : option operator :=
    match dget str_eqb eff label with
    | Some o => Some o
    | None => match dget str_eqb deriv label with Some o => Some o | None => op end
    end.

  (** operators.py:764-780: the rows printed, and what is raised after them; a variable without value raises a kind of NameError *)
  Fixpoint rows (models filtered : list (str * str)) (table : list (str * str)) (op : option operator) : list str * option exn :=
    match table with
    | [] => ([], None)
    | (label, latex) :: r =>
      let op := next_op label op in
      let one :=
        do o <- match op with Some o => Ok o | None => Err NameError end;
        do ls <- table_data o;
        do mf <- (if dmem str_eqb models label
                  then do m <- dgetM str_eqb models label; do f <- dgetM str_eqb filtered label; Ok (m, f)
                  else Ok ([], []));
        Ok (row label latex (fst mf) (snd mf) (fst ls) (snd ls)) in
      match one with
      | Err e => ([], Some e)
      | Ok s => let (l, e) := rows models filtered r op in (s :: l, e)
      end
    end.

  (** operators.py:12-780 [print_paper_table]; [models] is the content of models.p, which is not in the repository, [ops] the column
      "op" of [MVDF] *)
  Definition print_paper_table (models : list (str * nat)) (ops : list str) : list str * option exn :=
    rows (as_strings models) (as_strings (filtered_counts models ops)) (map (fun kv => (lit (fst kv), lit (snd kv))) operator_latex) None.
End Table.
