(** * ModelClosures: operator closures and neutrino-mass estimates, database/closures.py, database/utils.py *)

From Coq Require Import Ascii String List Bool Arith ZArith QArith Qcanon.
From Verif Require Import Base Show ModelIndex ModelField ModelContract.
Import ListNotations.
Local Open Scope nat_scope.

(** ** Operators of matchpy, closures.py:19-45 *)

Inductive fsym := Se | Snu | Su | Sd | Sh0 | Shp | Sdb | Sub | Seb | SW.
Inductive ksym := Kye | Kyu | Kyd | Kv | Knunu | Kg2 | Kloop | Kloopv2.

(** an operand of Op: a symbol, c(symbol) or Const(symbol).  c(c(...)), Const(c(...)) and coupling symbols outside of Const
    are not modelled; parse_operator makes none. *)
Inductive atom := Fd (s : fsym) | Cj (s : fsym) | Cst (k : ksym).

(** Op is commutative and associative: matchpy flattens and sorts the operands.  Here a list stands for the product, and
    nothing below depends on its order. *)
Definition mop := list atom.

Definition fsym_eqb (a b : fsym) : bool :=
  match a, b with
  | Se, Se | Snu, Snu | Su, Su | Sd, Sd | Sh0, Sh0 | Shp, Shp | Sdb, Sdb | Sub, Sub | Seb, Seb | SW, SW => true
  | _, _ => false
  end.

Definition ksym_eqb (a b : ksym) : bool :=
  match a, b with
  | Kye, Kye | Kyu, Kyu | Kyd, Kyd | Kv, Kv | Knunu, Knunu | Kg2, Kg2 | Kloop, Kloop | Kloopv2, Kloopv2 => true
  | _, _ => false
  end.

Definition atom_eqb (a b : atom) : bool :=
  match a, b with
  | Fd s, Fd t | Cj s, Cj t => fsym_eqb s t
  | Cst k, Cst l => ksym_eqb k l
  | _, _ => false
  end.

(** closures.py:49-125 [RULES]; the wildcard RST is left out on both sides *)
Definition rule := (list atom * list atom)%type.

Definition RULES : list rule :=
  [ ([Fd Snu; Fd Snu], [Cst Knunu]);
    ([Cj Sh0; Fd Sh0], [Cst Kloopv2]);
    ([Cj Shp; Fd Shp], [Cst Kloop]);
    ([Cj Seb; Fd Seb], [Cst Kloop]);
    ([Cj Sdb; Fd Sdb], [Cst Kloop]);
    ([Cj Sub; Fd Sub], [Cst Kloop]);
    ([Cj Sd; Fd Sd], [Cst Kloop]);
    ([Cj Su; Fd Su], [Cst Kloop]);
    ([Cj Se; Fd Se], [Cst Kloop]);
    ([Cj Snu; Fd Snu], [Cst Kloop]);
    ([Fd Se; Fd Seb], [Cst Kv; Cst Kye; Cst Kloop]);
    ([Fd Su; Fd Sub], [Cst Kv; Cst Kyu; Cst Kloop]);
    ([Fd Sd; Fd Sdb], [Cst Kv; Cst Kyd; Cst Kloop]);
    ([Cj Se; Cj Seb], [Cst Kv; Cst Kye; Cst Kloop]);
    ([Cj Su; Cj Sub], [Cst Kv; Cst Kyu; Cst Kloop]);
    ([Cj Sd; Cj Sdb], [Cst Kv; Cst Kyd; Cst Kloop]);
    ([Fd Se; Fd Snu], [Cst Kg2; Fd SW; Fd Snu; Fd Snu]);
    ([Cj Seb; Fd Sdb; Cj Sub], [Cst Kv; Cst Kg2; Cst Kloop; Cst Kloop; Cst Kloopv2; Cst Kyu; Cst Kyd; Cst Kye; Fd Snu]);
    ([Cj Seb; Cj Sd; Fd Su], [Cst Kv; Cst Kg2; Cst Kloop; Cst Kloop; Cst Kloopv2; Cst Kyu; Cst Kyd; Cst Kye; Fd Snu]);
    ([Fd Sdb; Cj Sub; Cj Shp], [Cst Kv; Cst Kg2; Cst Kloop; Cst Kloop; Cst Kloopv2; Cst Kyu; Cst Kyd]);
    ([Fd SW; Fd Shp], [Cst Kv; Cst Kloop]);
    ([Fd SW; Fd Su], [Fd Sd; Cst Kloop]);
    ([Fd SW; Cj Sd], [Cj Su; Cst Kloop]);
    ([Fd SW; Cj Sub; Fd Sdb], [Cst Kv; Cst Kv; Cst Kyu; Cst Kyd; Cst Kloop; Cst Kloop]);
    ([Fd Shp; Cj Seb], [Cst Kloop; Cst Kye; Fd Snu]);
    ([Fd Shp; Cj Su], [Cst Kyd; Fd Sdb; Cst Kloop]);
    ([Cj Shp; Fd Sdb], [Cst Kyd; Cj Su; Cst Kloop]);
    ([Fd Shp; Fd Sd], [Cst Kyu; Cj Sub; Cst Kloop]);
    ([Fd Shp; Fd Sub], [Cst Kyu; Cj Sd; Cst Kloop]);
    ([Cj Shp; Cj Sub], [Cst Kyu; Fd Sd; Cst Kloop]);
    ([Fd Shp; Fd Su; Cj Sd], [Cst Kg2; Cst Kloop; Cst Kloop]);
    ([Cj Seb; Fd Snu], [Cst Kye; Fd Shp; Fd Snu; Fd Snu]);
    ([Fd Sh0], [Cst Kv]);
    ([Cj Sh0], [Cst Kv]) ].

(** [match(subject, Pattern(Op(k..., RST)))] and [substitute]: the operands of the pattern are among those of the subject,
    and RST, which stands for at least one operand, is the rest.  All matches give the same rest. *)
Fixpoint remove_atom (x : atom) (s : mop) : option mop :=
  match s with
  | [] => None
  | y :: r => if atom_eqb x y then Some r else match remove_atom x r with Some r' => Some (y :: r') | None => None end
  end.

Fixpoint remove_atoms (l : list atom) (s : mop) : option mop :=
  match l with
  | [] => Some s
  | x :: l => match remove_atom x s with Some s => remove_atoms l s | None => None end
  end.

Definition match_rule (r : rule) (s : mop) : option mop :=
  match remove_atoms (fst r) s with
  | Some (x :: rst) => Some (snd r ++ x :: rst)
  | _ => None
  end.

(** closures.py:128-134 [apply_rules]: the first rule that matches *)
Fixpoint apply_rules (rules : list rule) (s : mop) : mop :=
  match rules with
  | [] => s
  | r :: rules => match match_rule r s with Some s' => s' | None => apply_rules rules s end
  end.

(** equality of commutative operations *)
Definition mop_eqb (a b : mop) : bool := match remove_atoms a b with Some [] => true | _ => false end.

(** closures.py:137-154 [fixed_point]; [n] more turns are allowed *)
Fixpoint fixed_point_loop (rules : list rule) (n : nat) (old : option mop) (new : mop) : mop :=
  if match old with Some o => mop_eqb new o | None => false end then new
  else match n with
       | O => new
       | S n => fixed_point_loop rules n (Some new) (apply_rules rules new)
       end.

Definition fixed_point (start : mop) (max_iterations : nat) : mop := fixed_point_loop RULES max_iterations None start.

(** closures.py:157-169 [clean]: the names of the constants, or the operator itself if something else is left *)
Fixpoint clean (op : mop) : option (list ksym) :=
  match op with
  | [] => Some []
  | Cst k :: r => match clean r with Some l => Some (k :: l) | None => None end
  | _ :: _ => None
  end.

(** ** Estimates *)

(** factors beside v**2 / Λ *)
Definition estimate := list ksym.

Definition count_k (k : ksym) (l : list ksym) : nat := List.length (filter (ksym_eqb k) l).

(** closures.py:262-293 [neutrino_mass_estimate], one structure: None if it is skipped.  The symbols are multiplied by sympy:
    the list of factors stands for their product. *)
Definition estimate_one (op : mop) : res (option estimate) :=
  match clean (fixed_point op 10) with
  | None => Ok None
  | Some l =>
    do _ <- assert_ (count_k Knunu l =? 1);
    do l <- remove_first ksym_eqb Knunu l;
    let n_vevs := count_k Kv l in
    do _ <- assert_ (n_vevs mod 2 =? 0);
    let n_loopv2 := ((Z.of_nat n_vevs - 2) / 2)%Z in
    Ok (Some (filter (fun k => negb (ksym_eqb Kv k)) l ++ repeat Kloopv2 (Z.to_nat n_loopv2)))
  end.

Definition neutrino_mass_estimate (ops : list mop) : res (list estimate) :=
  do l <- mapM estimate_one ops;
  Ok (flat_map (fun x => match x with Some e => [e] | None => [] end) l).

(** ** From operators to components, closures.py:172-259 *)

(** [s.replace(p, r)] for a non-empty [p] *)
Fixpoint replace_from (p r s : str) (skip : nat) : str :=
  match s with
  | [] => []
  | c :: t =>
    match skip with
    | S k => replace_from p r t k
    | O => if startswith p s then r ++ replace_from p r t (List.length p - 1) else c :: replace_from p r t 0
    end
  end.

Definition replace_text (p r s : str) : str := replace_from p r s 0.

Definition contains_text (p s : str) : bool := existsb (fun n => startswith p (skipn n s)) (seq 0 (S (List.length s))).

(** closures.py:199-221: the text of a field *)
Definition field_text (x : ifield) : res str :=
  do x <- (if f_derivs (i_field x) =? 0 then Ok x else strip_derivs_with_indices x);
  let i := by_type Isospin (i_indices x) in
  let label := lower (f_label (i_field x)) in
  let label := if f_is_conj (i_field x)
               then removelast label ++ match i with [] => [] | _ => lit "c" end
               else label in
  let label := match i with [] => label | j :: _ => label ++ lit "[" ++ show_index j ++ lit "]" end in
  Ok (if f_is_conj (i_field x) then lit "c(" ++ label ++ lit ")" else label).

Definition placeholders : list (str * str) :=
  [(lit "_i", lit "_j"); (lit "_k", lit "_l"); (lit "_m", lit "_n"); (lit "_p", lit "_q")].

(** closures.py:226-233: one epsilon; unpacking fails unless there are two indices *)
Definition put_placeholders (text : str) (p : list index * (str * str)) : res str :=
  match p with
  | ([i; j], (a, b)) =>
    do ni <- neg_index i; do nj <- neg_index j;
    let text := replace_text (show_index ni) a text in
    let text := replace_text (show_index nj) b text in
    Ok (text ++ lit "*eps[" ++ a ++ lit "][" ++ b ++ lit "]")
  | _ => Err ValueError
  end.

(** closures.py:235-237: one more turn for each index, eight counters *)
Definition loop_ranges (n_indices : nat) : res (list nat) :=
  if 8 <? n_indices then Err IndexError else Ok (repeat 2 n_indices ++ repeat 1 (8 - n_indices)).

(** closures.py:239-259: the nested loops *)
Fixpoint nested (names : list str) (ranges : list nat) (text : str) : list str :=
  match names, ranges with
  | s :: names, n :: ranges => flat_map (fun k => nested names ranges (replace_text s (show_nat k) text)) (seq 0 n)
  | _, _ => [text]
  end.

Definition loop_names : list str := flat_map (fun p => [fst p; snd p]) placeholders.

(** closures.py:172-178 and 19-29: the names [eval] finds.  Other names of the module are not modelled. *)
Definition symbol_named (s : str) : option fsym :=
  dget str_eqb [(lit "e", Se); (lit "nu", Snu); (lit "u", Su); (lit "d", Sd); (lit "h0", Sh0); (lit "hp", Shp); (lit "db", Sdb);
                (lit "ub", Sub); (lit "eb", Seb); (lit "W", SW)] s.

Definition list_named (s : str) : option (list fsym) :=
  dget str_eqb [(lit "h", [Shp; Sh0]); (lit "l", [Snu; Se]); (lit "q", [Su; Sd]); (lit "hc", [Sh0; Shp]); (lit "lc", [Se; Snu]);
                (lit "qc", [Sd; Su])] s.

Definition digit_value (c : ascii) : option nat :=
  dget Ascii.eqb [("0"%char, 0); ("1"%char, 1); ("2"%char, 2); ("3"%char, 3); ("4"%char, 4); ("5"%char, 5); ("6"%char, 6);
                  ("7"%char, 7); ("8"%char, 8); ("9"%char, 9)] c.

(** an integer literal: 0 may be repeated, other numbers have no leading zero *)
Definition int_literal (s : str) : res nat :=
  match s with
  | [] => Err PlainException
  | c :: _ =>
    if negb (forallb (fun c => match digit_value c with Some _ => true | None => false end) s) then Err NameError
    else if forallb (Ascii.eqb "0") s then Ok 0
    else if Ascii.eqb c "0" then Err PlainException
    else Ok (fold_left (fun n c => 10 * n + match digit_value c with Some d => d | None => 0 end) s 0)
  end.

(** [name] or [name[sub]], where [sub] is a number; anything else is not modelled.  A SyntaxError is PlainException. *)
Definition eval_symbol (s : str) : res fsym :=
  match symbol_named s with
  | Some x => Ok x
  | None =>
    match split_on "[" s with
    | [name; sub] =>
      match list_named name with
      | None => Err NameError
      | Some l => do n <- int_literal (removelast sub); match nth_error l n with Some x => Ok x | None => Err IndexError end
      end
    | _ => Err NameError
    end
  end.

Definition eval_factor (s : str) : res atom :=
  if startswith (lit "c(") s then do x <- eval_symbol (removelast (skipn 2 s)); Ok (Cj x)
  else do x <- eval_symbol s; Ok (Fd x).

(** [eval("Op(...)")] *)
Definition eval_op (s : str) : res mop :=
  match s with [] => Ok [] | _ => mapM eval_factor (split_on "," s) end.

(** closures.py:181-259 [parse_operator] *)
Definition parse_operator (op : operator) : res (list mop) :=
  do fields <- mapM field_text (indexed_fields op);
  let epsilons := map symbol_indices (epsilons op) in
  do text <- foldM put_placeholders (combine epsilons placeholders) (join (lit "*") fields);
  do ranges <- loop_ranges (2 * List.length epsilons);
  let texts := nested loop_names ranges text in
  let out := filter (fun t => negb (contains_text (lit "eps") t))
                    (map (fun t => replace_text (lit "*eps[1][0]") [] (replace_text (lit "*eps[0][1]") [] t)) texts) in
  mapM (fun t => eval_op (replace_text (lit "*") (lit ",") t)) out.

(** closures.py:262-266 on an effective operator *)
Definition operator_estimate (op : operator) : res (list estimate) :=
  do ops <- parse_operator op; neutrino_mass_estimate ops.

(** ** database/utils.py *)

Section Leading.
  (** what [numerical_mv] and [numerical_np_scale_estimate] compute, and how numbers compare *)
  Variable V : Type.
  Variable value : estimate -> V.
  Variable gtb : V -> V -> bool.

  (** [max(l, key=...)]: the first of the largest *)
  Definition max_by (l : list estimate) : res estimate :=
    match l with
    | [] => Err ValueError
    | e :: r => Ok (fold_left (fun best x => if gtb (value x) (value best) then x else best) r e)
    end.

  (** utils.py:13-20 [get_leading_mv] *)
  Definition get_leading_mv (op : operator) : res estimate :=
    do l <- operator_estimate op; max_by l.

  (** [sorted(l, key=...)] is stable: an entry goes behind those that are not larger *)
  Fixpoint insert_by (x : estimate) (l : list estimate) : list estimate :=
    match l with
    | [] => [x]
    | y :: r => if gtb (value y) (value x) then x :: l else y :: insert_by x r
    end.

  Definition sort_by (l : list estimate) : list estimate := fold_left (fun acc x => insert_by x acc) l [].

  (** utils.py:41-44: [sorted(...)[-1]]; the key is the rounded scale *)
  Definition last_sorted (l : list estimate) : res estimate :=
    match rev (sort_by l) with [] => Err IndexError | e :: _ => Ok e end.
End Leading.

(** utils.py:29-38 [loop_data] of a product: [coeff] of a power is non-zero exactly for the exponent in the product *)
Definition loop_data (e : estimate) : nat * list nat :=
  fold_left (fun acc n =>
               let n_loops := if count_k Kloop e =? n then fst acc + n else fst acc in
               let n_v2 := if count_k Kloopv2 e =? n then snd acc ++ seq 0 (n + 1) else snd acc in
               (n_loops, n_v2)) (seq 1 7) (0, []).

(** utils.py:41-52 [table_data]: the first string, and the estimate whose scale is printed as the second *)
Definition loops_text (d : nat * list nat) : str :=
  match snd d with
  | [] => show_nat (fst d)
  | l => join (lit ",") (map (fun i => show_nat (i + fst d)) l)
  end.

Definition table_data (V : Type) (rounded : estimate -> V) (gtb : V -> V -> bool) (op : operator) : res (str * estimate) :=
  do l <- operator_estimate op;
  do e <- last_sorted V rounded gtb l;
  Ok (loops_text (loop_data e), e).
