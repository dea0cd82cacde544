(** * ModelExport: writing completions as Python expressions and reading them back, database/export.py and
      database/database.py (29-65).

    The texts are evaluated by Python's [eval].  Here that is a parser for the expressions that [export.py] writes
    (names, numbers, string literals, attributes, calls, brackets, products) and an evaluator that knows the names
    imported by database.py.  Everything else is rejected. *)

From Coq Require Import Ascii String List Bool Arith ZArith NArith QArith Qcanon.
From Verif Require Import Base Show ShowRead ModelFunctions ModelIndex ModelField ModelContract ModelPartition ModelExotic
  ModelInfo ModelLagrangian ModelDatabase.
Import ListNotations.
Local Open Scope nat_scope.

Definition squote : ascii := ascii_of_nat 39.
Definition dquote : ascii := ascii_of_nat 34.
Definition backslash : ascii := ascii_of_nat 92.

Definition quoted (s : str) : str := squote :: s ++ [squote].

(** ** Printing, Python's [str] and [repr] *)

Definition mem_char (c : ascii) (s : str) : bool := existsb (Ascii.eqb c) s.

Definition hex_digit (n : nat) : ascii := nth n (lit "0123456789abcdef") "0"%char.

(** one character of [repr] of a string between the quotes [q]; characters above 127 are printable *)
Definition repr_char (q c : ascii) : str :=
  if Ascii.eqb c backslash || Ascii.eqb c q then [backslash; c]
  else
    let n := nat_of_ascii c in
    if n =? 10 then lit "\n" else if n =? 13 then lit "\r" else if n =? 9 then lit "\t"
    else if (n <? 32) || (n =? 127) then [backslash; "x"%char; hex_digit (n / 16); hex_digit (n mod 16)]
    else [c].

(** single quotes, unless the string contains one of those and no double quote *)
Definition py_repr (s : str) : str :=
  let q := if mem_char squote s && negb (mem_char dquote s) then dquote else squote in
  q :: flat_map (repr_char q) s ++ [q].

Definition show_items (l : list str) : str := join (lit ", ") l.
Definition show_list (l : list str) : str := lit "[" ++ show_items l ++ lit "]".
Definition show_tuple (l : list str) : str := lit "(" ++ show_items l ++ (match l with [_] => lit "," | _ => [] end) ++ lit ")".
Definition show_set (l : list str) : str := match l with [] => lit "set()" | _ => lit "{" ++ show_items l ++ lit "}" end.
Definition show_dict (l : list (str * str)) : str := lit "{" ++ show_items (map (fun kv => fst kv ++ lit ": " ++ snd kv) l) ++ lit "}".
Definition show_bool (b : bool) : str := if b then lit "True" else lit "False".

(** [s] without double quotes *)
Definition without_dquotes (s : str) : str := filter (fun c => negb (Ascii.eqb c dquote)) s.

(** [" ".join(str(i) for i in indices)] *)
Definition index_text (l : list index) : str := join (lit " ") (map show_index l).

(** ** export.py:12-62 *)

Definition show_symmetry (l : list (list nat)) : str := show_list (map (fun b => show_list (map show_nat b)) l).

(** [{k: str(v) for k, v in tensor.charges.items()}], printed *)
Definition show_charges (c : charges) : str := show_dict (map (fun kv => (py_repr (fst kv), py_repr (show_Q (snd kv)))) c).

Definition kwarg (k : string) (v : str) : str := lit k ++ lit "=" ++ v.

(** export.py:14-38, the exotic fields *)
Definition export_exotic (x : cfield) : str :=
  let f := i_field (cf_if x) in
  let unbarred := match cf_class x with DiracFermion b => show_bool b | _ => lit "None" end in
  lit "ExoticField(IndexedField(" ++
  show_items [kwarg "label" (quoted (f_label f)); kwarg "indices" (quoted (index_text (i_indices (cf_if x))));
              kwarg "symmetry" (show_symmetry (f_symmetry f)); kwarg "charges" (show_charges (f_charges f));
              kwarg "nf" (show_nat (f_nf f)); kwarg "dynkin" (quoted (f_dynkin f)); kwarg "comm" (quoted (f_comm f));
              kwarg "latex" (quoted (f_latex f)); kwarg "is_conj" (show_bool (f_is_conj f));
              kwarg "is_unbarred" unbarred] ++ lit "))".

(** export.py:40-53, the fields of the Standard Model *)
Definition conj_suffix (b : bool) : str := if b then lit ".conj" else [].

Definition export_field (x : ifield) : res str :=
  let f := i_field x in
  let indices := quoted (index_text (i_indices x)) in
  if negb (f_derivs f =? 0) then
    do _ <- assert_ (f_derivs f =? 1);
    do ab <- lorentz_irrep f;
    match ab with
    | [a; b] =>
      do s <- strip_derivs x;
      let label := match s with inl y => f_label (i_field y) | inr g => f_label g end in
      Ok (lit "D(" ++ (label ++ conj_suffix (f_is_conj f)) ++ lit ", " ++ quoted (show_nat a ++ show_nat b) ++ lit ")("
            ++ indices ++ lit ")")
    | _ => Err ValueError
    end
  else do g <- field_of x; Ok ((f_label g ++ conj_suffix (f_is_conj f)) ++ lit "(" ++ indices ++ lit ")").

Definition export_symbol (s : symbol) : str :=
  match s with
  | Metric _ l | EpsC l => lit "eps(" ++ quoted (index_text l) ++ lit ")"
  | DeltaC l => lit "delta(" ++ quoted (index_text l) ++ lit ")"
  end.

Definition export_tensor (t : ctensor) : res str :=
  match t with
  | KField x => match cf_class x with Plain => export_field (cf_if x) | _ => Ok (export_exotic x) end
  | KSym s => Ok (export_symbol s)
  end.

(** export.py:65-68 [export_operator] *)
Definition export_operator (op : cop) : res str := do l <- mapM export_tensor op; Ok (join (lit "*") l).

(** ** Graphs, partitions, completions *)

(** a networkx graph as [nx.to_dict_of_dicts] returns it: the attributes of the edge to every neighbour of every node *)
Definition adjacency := list (N * list (N * list (str * str))).

(** export.py:71-85 [proc_dicts], [export_graph]; the values of the attributes are strings *)
Definition export_graph (g : adjacency) : str :=
  let attrs a := show_dict (map (fun kv : str * str => (py_repr (fst kv), py_repr (snd kv))) a) in
  lit "Graph(" ++
  without_dquotes (show_dict (map (fun nb => (show_N (fst nb), show_dict (map (fun e => (show_N (fst e), attrs (snd e))) (snd nb)))) g))
  ++ lit ")".

(** export.py:88-96 [proc_partition], [export_partition]: the representation of a named tuple names its fields *)
Fixpoint show_partition (p : ptree (cfield * N)) : res str :=
  match p with
  | Lf (x, n) => do s <- export_tensor (KField x); Ok (lit "Leaf(field=" ++ py_repr s ++ lit ", node=" ++ show_N n ++ lit ")")
  | Tp l =>
    let fix go (l : list (ptree (cfield * N))) : res (list str) :=
      match l with [] => Ok [] | p :: l => do s <- show_partition p; do r <- go l; Ok (s :: r) end in
    do r <- go l; Ok (show_tuple r)
  end.

Definition export_partition (p : ptree (cfield * N)) : res str :=
  do s <- show_partition p; Ok (lit "Partition" ++ without_dquotes s).

(** export.py:99-101 [export_terms] *)
Definition export_terms (terms : list cop) : res str := do l <- mapM export_operator terms; Ok (show_list l).

(** export.py:104-105 [export_exotics]; the strings form a set, [l] is the order in which that is iterated *)
Definition export_exotics (l : list cfield) : res str :=
  do l <- mapM (fun x => export_tensor (KField x)) l;
  Ok (without_dquotes (show_set (map py_repr (nodup_by str_eqb l)))).

(** completions/core.py:391-399 [Completion]; the exotic fields in the order of iteration *)
Record comp := mkComp
  { co_name : str; co_operator : cop; co_partition : ptree (cfield * N); co_graph : adjacency; co_exotics : list cfield;
    co_terms : list cop; co_topology : str }.

(** export.py:120-126: the quantum numbers, sorted; the unpacking needs two charges, 3b and y in this order *)
Definition show_qnumbers (q : qnumbers) : res str :=
  match qn_sm q, qn_charges q with
  | [cu; cd; i], [(_, b); (_, y)] =>
    Ok (qn_lorentz q ++ lit "," ++ show_nat cu ++ show_nat cd ++ lit "," ++ show_nat i ++ lit "," ++ show_Q y ++ lit "," ++ show_Q b)
  | _, _ => Err ValueError
  end.

Definition quantum_number_strings (exotics : list cfield) : res (list str) :=
  do info <- exotic_info exotics; do l <- mapM show_qnumbers (values info); Ok (sorted_str l).

(** utils/functions.py:99-106 [stringify_qns] of a field *)
Definition field_qns (f : field) : res str :=
  do s <- is_scalar f;
  do y <- dgetM str_eqb (f_charges f) (lit "y");
  do b <- dgetM str_eqb (f_charges f) (lit "3b");
  stringify_qns (f_label f) s (f_dynkin f) y b (f_is_conj f).

(** export.py:128-133 *)
Definition plain_terms (terms : list cop) : res (list (list str)) :=
  mapM (fun t => mapM (fun x => do f <- field_of (cf_if x); field_qns f) (cfields t)) terms.

(** export.py:135-138 *)
Definition head_text (name : str) (qns : list str) (terms : list (list str)) (topo : str) : str :=
  lit "{'operator_name': '" ++ name ++ lit "', 'quantum_numbers': " ++ show_list (map py_repr qns) ++ lit ", 'terms': " ++
  show_list (map (fun t => show_tuple (map py_repr t)) terms) ++ lit ", 'topology': '" ++ topo ++ lit "'}".

(** export.py:108-143 [export_completion] *)
Definition export_completion (c : comp) (is_lazy : bool) : res str :=
  do op <- export_operator (co_operator c);
  let eff_op := lit "EffectiveOperator(name='" ++ co_name c ++ lit "', operator=" ++ op ++ lit ")" in
  let graph := export_graph (co_graph c) in
  do part <- export_partition (co_partition c);
  do terms <- export_terms (co_terms c);
  do exotics <- export_exotics (co_exotics c);
  do qns <- quantum_number_strings (co_exotics c);
  do plain <- plain_terms (co_terms c);
  let head := head_text (co_name c) qns plain (co_topology c) in
  let completion_string :=
    lit "Completion(operator=" ++ eff_op ++ lit ", partition=" ++ part ++ lit ", graph=" ++ graph ++ lit ", exotics=" ++ exotics ++
    lit ", terms=" ++ terms ++ lit ", topology='" ++ co_topology c ++ lit "')" in
  let export_string := lit "LazyCompletion(head=" ++ head ++ lit ", tail=" ++ dquote :: completion_string ++ dquote :: lit ")" in
  Ok (if is_lazy then export_string else completion_string).

(** ** Expressions *)

Inductive bracket := Square | Round | Curly.

(** A string literal is kept as written between its quotes.  [EKw] and [EPair] only stand in brackets; [tc] tells whether
    there is a comma after the last item. *)
Inductive pexp :=
| EName (s : str)
| EInt (n : N)
| EStr (q : ascii) (raw : str)
| EAttr (e : pexp) (a : str)
| ECall (f : pexp) (l : list pexp) (tc : bool)
| ESeq (b : bracket) (l : list pexp) (tc : bool)
| EProd (l : list pexp)
| EKw (k : str) (e : pexp)
| EPair (k v : pexp).

Definition ident_char (c : ascii) : bool :=
  let n := nat_of_ascii c in
  ((48 <=? n) && (n <=? 57)) || ((65 <=? n) && (n <=? 90)) || ((97 <=? n) && (n <=? 122)) || (n =? 95).
Definition digit_char (c : ascii) : bool := let n := nat_of_ascii c in (48 <=? n) && (n <=? 57).

Fixpoint span (p : ascii -> bool) (s : str) : str * str :=
  match s with
  | c :: r => if p c then let (a, b) := span p r in (c :: a, b) else ([], s)
  | [] => ([], [])
  end.

(** up to the closing quote; a backslash takes the next character along; a line does not end inside *)
Fixpoint read_literal (q : ascii) (s : str) : option (str * str) :=
  match s with
  | [] => None
  | c :: r =>
    if Ascii.eqb c q then Some ([], r)
    else if Ascii.eqb c newline then None
    else if Ascii.eqb c backslash
         then match r with
              | d :: r => match read_literal q r with Some (a, b) => Some (c :: d :: a, b) | None => None end
              | [] => None
              end
         else match read_literal q r with Some (a, b) => Some (c :: a, b) | None => None end
  end.

Definition skip_spaces (s : str) : str := snd (span (Ascii.eqb " ") s).

Definition opening (c : ascii) : option (bracket * ascii) :=
  if Ascii.eqb c "[" then Some (Square, "]"%char) else if Ascii.eqb c "(" then Some (Round, ")"%char)
  else if Ascii.eqb c "{" then Some (Curly, "}"%char) else None.

(** a word and what follows it *)
Definition is_keyword (a t : str) : bool :=
  match a, t with _ :: _, c :: _ => Ascii.eqb c "=" | _, _ => false end.

Fixpoint p_exp (k : nat) (s : str) : option (pexp * str) :=
  match k with
  | O => None
  | S k =>
    match p_factor k s with
    | Some (e, r) =>
      match p_factors k r with
      | Some ([], r) => Some (e, r)
      | Some (l, r) => Some (EProd (e :: l), r)
      | None => None
      end
    | None => None
    end
  end
with p_factors (k : nat) (s : str) : option (list pexp * str) :=
  match k with
  | O => None
  | S k =>
    match s with
    | c :: r =>
      if Ascii.eqb c "*" then
        match p_factor k r with
        | Some (e, r) => match p_factors k r with Some (l, r) => Some (e :: l, r) | None => None end
        | None => None
        end
      else Some ([], s)
    | [] => Some ([], s)
    end
  end
with p_factor (k : nat) (s : str) : option (pexp * str) :=
  match k with
  | O => None
  | S k => match p_atom k s with Some (e, r) => p_trailers k e r | None => None end
  end
with p_trailers (k : nat) (e : pexp) (s : str) : option (pexp * str) :=
  match k with
  | O => None
  | S k =>
    match s with
    | c :: r =>
      if Ascii.eqb c "." then
        match span ident_char r with
        | ([], _) => None
        | (a, r) => p_trailers k (EAttr e a) r
        end
      else if Ascii.eqb c "(" then
        match p_items k ")" r with Some (l, tc, r) => p_trailers k (ECall e l tc) r | None => None end
      else Some (e, s)
    | [] => Some (e, s)
    end
  end
with p_atom (k : nat) (s : str) : option (pexp * str) :=
  match k with
  | O => None
  | S k =>
    match s with
    | [] => None
    | c :: r =>
      if Ascii.eqb c squote || Ascii.eqb c dquote
      then match read_literal c r with Some (a, r) => Some (EStr c a, r) | None => None end
      else match opening c with
           | Some (b, close) => match p_items k close r with Some (l, tc, r) => Some (ESeq b l tc, r) | None => None end
           | None =>
             if digit_char c
             then match span digit_char s with (a, r) => match read_N a with Some n => Some (EInt n, r) | None => None end end
             else match span ident_char s with
                  | ([], _) => None
                  | (a, r) => Some (EName a, r)
                  end
           end
    end
  end
with p_items (k : nat) (close : ascii) (s : str) : option (list pexp * bool * str) :=
  match k with
  | O => None
  | S k =>
    match skip_spaces s with
    | [] => None
    | c :: r =>
      if Ascii.eqb c close then Some ([], false, r)
      else
        match p_item k (c :: r) with
        | Some (e, r) =>
          match r with
          | [] => None
          | d :: r =>
            if Ascii.eqb d close then Some ([e], false, r)
            else if Ascii.eqb d ","
                 then match p_items k close r with
                      | Some ([], _, r) => Some ([e], true, r)
                      | Some (l, tc, r) => Some (e :: l, tc, r)
                      | None => None
                      end
                 else None
          end
        | None => None
        end
    end
  end
with p_item (k : nat) (s : str) : option (pexp * str) :=
  match k with
  | O => None
  | S k =>
    let (a, t) := span ident_char s in
    if is_keyword a t then
      match p_exp k (skip_spaces (tl t)) with Some (e, r) => Some (EKw a e, r) | None => None end
    else
      match p_exp k s with
      | Some (e, c :: r) =>
        if Ascii.eqb c ":"
        then match p_exp k (skip_spaces r) with Some (v, r) => Some (EPair e v, r) | None => None end
        else Some (e, c :: r)
      | x => x
      end
  end.

Definition py_parse (s : str) : res pexp :=
  match p_exp (12 * List.length s + 12) (skip_spaces s) with Some (e, []) => Ok e | _ => Err SyntaxError end.

(** ** String literals *)

Definition octal_char (c : ascii) : option nat :=
  let n := nat_of_ascii c in if (48 <=? n) && (n <=? 55) then Some (n - 48) else None.
Definition hex_char (c : ascii) : option nat :=
  let n := nat_of_ascii c in
  if (48 <=? n) && (n <=? 57) then Some (n - 48)
  else if (65 <=? n) && (n <=? 70) then Some (n - 55) else if (97 <=? n) && (n <=? 102) then Some (n - 87) else None.

(** the character after a backslash that stands for another one *)
Definition simple_escape (c : ascii) : option ascii :=
  dget Ascii.eqb [(backslash, backslash); (squote, squote); (dquote, dquote); ("a"%char, ascii_of_nat 7); ("b"%char, ascii_of_nat 8);
                  ("f"%char, ascii_of_nat 12); ("n"%char, newline); ("r"%char, ascii_of_nat 13); ("t"%char, ascii_of_nat 9);
                  ("v"%char, ascii_of_nat 11)] c.

(** The value of a literal.  Octal escapes have up to three digits, \x has two; \N, \u and \U are taken to be malformed, as
    they are unless digits or a name in braces follow.  Any other backslash stays. *)
Fixpoint unescape (s : str) : res str :=
  match s with
  | [] => Ok []
  | c :: r =>
    if Ascii.eqb c backslash then
      match r with
      | [] => Err SyntaxError
      | d :: r =>
        match simple_escape d with
        | Some x => do t <- unescape r; Ok (x :: t)
        | None =>
          if Ascii.eqb d newline then unescape r
          else if Ascii.eqb d "x" then
            match r with
            | h :: i :: r' => match hex_char h, hex_char i with
                              | Some a, Some b => do t <- unescape r'; Ok (ascii_of_nat (16 * a + b) :: t)
                              | _, _ => Err SyntaxError
                              end
            | _ => Err SyntaxError
            end
          else if mem_char d (lit "NuU") then Err SyntaxError
          else
            match octal_char d with
            | Some a =>
              match r with
              | h :: r' =>
                match octal_char h with
                | Some b =>
                  match r' with
                  | i :: r'' =>
                    match octal_char i with
                    | Some e => do t <- unescape r''; Ok (ascii_of_nat (64 * a + 8 * b + e) :: t)
                    | None => do t <- unescape r'; Ok (ascii_of_nat (8 * a + b) :: t)
                    end
                  | [] => Ok [ascii_of_nat (8 * a + b)]
                  end
                | None => do t <- unescape r; Ok (ascii_of_nat a :: t)
                end
              | [] => Ok [ascii_of_nat a]
              end
            | None => do t <- unescape r; Ok (c :: d :: t)
            end
        end
      end
    else do t <- unescape r; Ok (c :: t)
  end.

(** ** Values *)

Inductive val :=
| VNone
| VBool (b : bool)
| VInt (n : N)
| VStr (s : str)
| VFun (s : str)
| VField (f : field)
| VTensor (t : ctensor)
| VOp (op : cop)
| VList (l : list val)
| VTuple (l : list val)
| VSet (l : list cfield)
| VDict (l : list (val * val))
| VLeaf (x : cfield) (n : N)
| VEff (name : str) (op : cop)
| VGraph (g : adjacency)
| VComp (c : comp)
| VLazy (m : lazy) (topology : option str).

(** the names that database.py imports or defines and that [export.py] writes (database.py:3-46) *)
Definition functions : list str :=
  map lit ["D"; "eps"; "delta"; "IndexedField"; "ExoticField"; "Leaf"; "EffectiveOperator"; "Completion"; "Graph"; "Partition";
           "LazyCompletion"; "set"]%string.

Definition known_fields : list (str * field) :=
  [(lit "L", sm_L); (lit "Q", sm_Q); (lit "H", sm_H); (lit "eb", sm_eb); (lit "ub", sm_ub); (lit "db", sm_db)].

Definition name_value (s : str) : res val :=
  if str_eqb s (lit "None") then Ok VNone
  else if str_eqb s (lit "True") then Ok (VBool true)
  else if str_eqb s (lit "False") then Ok (VBool false)
  else match dget str_eqb known_fields s with
       | Some f => Ok (VField f)
       | None => if mem_by str_eqb s functions then Ok (VFun s) else Err NameError
       end.

(** arguments of a call: positional ones, then keywords *)
Definition vargs := list (option str * val).
Definition arg (k : string) (l : vargs) : option val :=
  dget (fun a b : option str => match a, b with Some x, Some y => str_eqb x y | _, _ => false end) l (Some (lit k)).

Definition as_str (v : option val) : res str := match v with Some (VStr s) => Ok s | _ => Err TypeError end.
Definition as_bool (v : option val) : res bool := match v with Some (VBool s) => Ok s | _ => Err TypeError end.
Definition as_nat (v : val) : res nat := match v with VInt n => Ok (N.to_nat n) | _ => Err TypeError end.
Definition as_list (v : option val) : res (list val) := match v with Some (VList l) => Ok l | _ => Err TypeError end.
Definition as_dict (v : option val) : res (list (val * val)) := match v with Some (VDict l) => Ok l | _ => Err TypeError end.

Definition as_symmetry (v : option val) : res (list (list nat)) :=
  do l <- as_list v; mapM (fun b => do b <- as_list (Some b); mapM as_nat b) l.

(** tensormethod/core.py:279-281: the charges may be strings *)
Definition as_charges (v : option val) : res charges :=
  do d <- as_dict v;
  mapM (fun kv => do k <- as_str (Some (fst kv)); do s <- as_str (Some (snd kv));
                  match read_Q s with Some q => Ok (k, q) | None => Err TypeError end) d.

(** tensormethod/core.py:595-670; [dynkin] and [is_unbarred] are keyword arguments that nobody reads *)
Definition call_indexed_field (l : vargs) : res val :=
  do label <- as_str (arg "label" l);
  do indices <- as_str (arg "indices" l);
  do symmetry <- as_symmetry (arg "symmetry" l);
  do charges <- as_charges (arg "charges" l);
  do nf <- match arg "nf" l with Some v => as_nat v | None => Err TypeError end;
  do comm <- as_str (arg "comm" l);
  do latex <- as_str (arg "latex" l);
  do is_conj <- as_bool (arg "is_conj" l);
  do x <- mk_ifield (mkIargs label (AStr indices) (Some charges) is_conj (Some symmetry) comm (Some latex) nf 0 None);
  Ok (VTensor (KField (mkCF Plain x))).

Fixpoint as_partition (v : val) : res (ptree (cfield * N)) :=
  match v with
  | VLeaf x n => Ok (Lf (x, n))
  | VTuple l =>
    let fix go (l : list val) : res (list (ptree (cfield * N))) :=
      match l with [] => Ok [] | v :: l => do p <- as_partition v; do r <- go l; Ok (p :: r) end in
    do r <- go l; Ok (Tp r)
  | _ => Err NotImplementedError
  end.

(** networkx: [Graph(d)] adds the nodes and then the edges, in both directions, with the attributes updated *)
Definition add_node (g : adjacency) (n : N) : adjacency := if dmem N.eqb g n then g else g ++ [(n, [])].

Definition edge_data (g : adjacency) (u v : N) : list (str * str) :=
  match dget N.eqb g u with Some nb => match dget N.eqb nb v with Some a => a | None => [] end | None => [] end.

Definition set_half (g : adjacency) (u v : N) (a : list (str * str)) : adjacency :=
  dset N.eqb g u (dset N.eqb (match dget N.eqb g u with Some nb => nb | None => [] end) v a).

Definition add_edge (g : adjacency) (u v : N) (attrs : list (str * str)) : adjacency :=
  let g := add_node (add_node g u) v in
  let a := dupdate str_eqb (edge_data g u v) attrs in
  set_half (set_half g u v a) v u a.

Definition graph_of_dicts (d : adjacency) : adjacency :=
  let g := fold_left add_node (map fst d) [] in
  fold_left (fun g nb => fold_left (fun g e => add_edge g (fst nb) (fst e) (snd e)) (snd nb) g) d g.

Definition as_attrs (v : val) : res (list (str * str)) :=
  do d <- as_dict (Some v);
  mapM (fun kv => do k <- as_str (Some (fst kv)); do s <- as_str (Some (snd kv)); Ok (k, s)) d.

Definition as_node (v : val) : res N := match v with VInt n => Ok n | _ => Err NotImplementedError end.

Definition as_adjacency (v : val) : res adjacency :=
  do d <- as_dict (Some v);
  mapM (fun kv => do n <- as_node (fst kv); do nb <- as_dict (Some (snd kv));
                  do nb <- mapM (fun e => do m <- as_node (fst e); do a <- as_attrs (snd e); Ok (m, a)) nb; Ok (n, nb)) d.

Definition as_op (v : option val) : res cop := match v with Some (VOp op) => Ok op | _ => Err NotImplementedError end.

(** completions/core.py:391-399; the arguments are of the expected kind *)
Definition call_completion (l : vargs) : res val :=
  match arg "operator" l, arg "graph" l, arg "exotics" l with
  | Some (VEff name op), Some (VGraph g), Some (VSet exotics) =>
    do p <- match arg "partition" l with Some v => as_partition v | None => Err TypeError end;
    do terms <- as_list (arg "terms" l);
    do terms <- mapM (fun v => as_op (Some v)) terms;
    do topo <- as_str (arg "topology" l);
    Ok (VComp (mkComp name op p g exotics terms topo))
  | _, _, _ => Err NotImplementedError
  end.

Definition val_str (v : val) : res str := as_str (Some v).
Definition as_sequence (v : val) : res (list val) := match v with VList l | VTuple l => Ok l | _ => Err TypeError end.

Definition key (k : string) (d : list (val * val)) : option val :=
  dget (fun a b => match a, b with VStr x, VStr y => str_eqb x y | _, _ => false end) d (VStr (lit k)).

(** database.py:50-59 *)
Definition call_lazy (l : vargs) : res val :=
  do d <- as_dict (arg "head" l);
  do tail <- as_str (arg "tail" l);
  match key "quantum_numbers" d, key "operator_name" d with
  | Some q, Some n =>
    do q <- as_sequence q; do q <- mapM val_str q;
    do n <- val_str n;
    do t <- match key "terms" d with Some t => as_sequence t | None => Err NotImplementedError end;
    do t <- mapM (fun t => do t <- as_sequence t; mapM val_str t) t;
    Ok (VLazy (mkLazy q n t tail) (match key "topology" d with Some (VStr s) => Some s | _ => None end))
  | _, _ => Err AssertionError
  end.

Definition call_leaf (l : vargs) : res val :=
  match arg "field" l, arg "node" l with
  | Some (VTensor (KField x)), Some (VInt n) => Ok (VLeaf x n)
  | _, _ => Err NotImplementedError
  end.

Definition call_effective (l : vargs) : res val :=
  do name <- as_str (arg "name" l); do op <- as_op (arg "operator" l); Ok (VEff name op).

Definition positional (l : vargs) : res (list val) :=
  mapM (fun a => match a with (None, v) => Ok v | _ => Err TypeError end) l.

Definition call_function (f : str) (l : vargs) : res val :=
  let is := fun k => str_eqb f (lit k) in
  if is "IndexedField"%string then call_indexed_field l
  else if is "Leaf"%string then call_leaf l
  else if is "EffectiveOperator"%string then call_effective l
  else if is "Completion"%string then call_completion l
  else if is "LazyCompletion"%string then call_lazy l
  else
    do a <- positional l;
    if is "Partition"%string then Ok (VTuple a)
    else
      match a with
      | [] => if is "set"%string then Ok (VSet []) else Err TypeError
      | [VStr s] => if is "eps"%string then do x <- eps s; Ok (VTensor (KSym x))
                    else if is "delta"%string then do x <- delta s; Ok (VTensor (KSym x)) else Err TypeError
      | [VTensor (KField x)] => if is "ExoticField"%string then do y <- cons_completion_field (cf_if x) None; Ok (VTensor (KField y))
                                else Err TypeError
      | [VDict d] => if is "Graph"%string then do g <- as_adjacency (VDict d); Ok (VGraph (graph_of_dicts g)) else Err TypeError
      | [VField f; VStr s] => if is "D"%string then do g <- D f s; Ok (VField g) else Err TypeError
      | _ => Err TypeError
      end.

Definition apply (f : val) (l : vargs) : res val :=
  match f with
  | VField f => do a <- positional l;
                match a with
                | [VStr s] => do x <- call_field f s; Ok (VTensor (KField (mkCF Plain x)))
                | _ => Err TypeError
                end
  | VFun f => call_function f l
  | _ => Err TypeError
  end.

Definition attribute (v : val) (a : str) : res val :=
  match v with
  | VField f => if str_eqb a (lit "conj") then do g <- conj_field f; Ok (VField g) else Err AttributeError
  | _ => Err AttributeError
  end.

(** [a * b] *)
Definition times (a b : val) : res val :=
  match a, b with
  | VTensor (KField x), VTensor t => Ok (VOp (c_mul [KField x] t))
  | VOp op, VTensor t => Ok (VOp (c_mul op t))
  | _, _ => Err NotImplementedError
  end.

(** keys of dictionaries are numbers and strings *)
Definition key_eqb (a b : val) : bool :=
  match a, b with VInt n, VInt m => N.eqb n m | VStr s, VStr t => str_eqb s t | _, _ => false end.

Definition as_cfield (v : val) : res cfield := match v with VTensor (KField x) => Ok x | _ => Err NotImplementedError end.

(** items of a pair of brackets: an optional keyword or key, and a value *)
Inductive item := IPos (v : val) | IKw (k : str) (v : val) | IPair (k v : val).

Definition item_value (i : item) : res val := match i with IPos v => Ok v | _ => Err SyntaxError end.
Definition item_arg (i : item) : res (option str * val) :=
  match i with IPos v => Ok (None, v) | IKw k v => Ok (Some k, v) | IPair _ _ => Err SyntaxError end.
Definition item_pair (i : item) : res (val * val) := match i with IPair k v => Ok (k, v) | _ => Err SyntaxError end.

(** a list, a tuple or an expression in parentheses, a dictionary or a set *)
Definition bracketed (b : bracket) (l : list item) (tc : bool) : res val :=
  match b with
  | Square => do l <- mapM item_value l; Ok (VList l)
  | Round => do l <- mapM item_value l;
             match l, tc with [v], false => Ok v | _, _ => Ok (VTuple l) end
  | Curly => match l with
             | [] => Ok (VDict [])
             | IPair _ _ :: _ => do l <- mapM item_pair l; Ok (VDict (dict_of key_eqb l))
             | _ => do l <- mapM item_value l; do l <- mapM as_cfield l;
                    Ok (VSet (nodup_by cfield_eqb l))
             end
  end.

Fixpoint eval_item (e : pexp) : res item :=
  match e with
  | EName s => do v <- name_value s; Ok (IPos v)
  | EInt n => Ok (IPos (VInt n))
  | EStr _ raw => do s <- unescape raw; Ok (IPos (VStr s))
  | EAttr e a => do i <- eval_item e; do v <- item_value i; do w <- attribute v a; Ok (IPos w)
  | ECall f l _ =>
    let fix go (l : list pexp) : res (list item) :=
      match l with [] => Ok [] | e :: l => do v <- eval_item e; do r <- go l; Ok (v :: r) end in
    do i <- eval_item f; do f <- item_value i; do l <- go l; do l <- mapM item_arg l; do v <- apply f l; Ok (IPos v)
  | ESeq b l tc =>
    let fix go (l : list pexp) : res (list item) :=
      match l with [] => Ok [] | e :: l => do v <- eval_item e; do r <- go l; Ok (v :: r) end in
    do l <- go l; do v <- bracketed b l tc; Ok (IPos v)
  | EProd l =>
    let fix go (l : list pexp) : res (list item) :=
      match l with [] => Ok [] | e :: l => do v <- eval_item e; do r <- go l; Ok (v :: r) end in
    do l <- go l; do l <- mapM item_value l;
    match l with
    | [] => Err SyntaxError
    | v :: l => do v <- foldM times l v; Ok (IPos v)
    end
  | EKw k e => do i <- eval_item e; do v <- item_value i; Ok (IKw k v)
  | EPair k v => do i <- eval_item k; do k <- item_value i; do j <- eval_item v; do v <- item_value j; Ok (IPair k v)
  end.

(** [eval(s)] *)
Definition py_eval (s : str) : res val :=
  do e <- py_parse s; do i <- eval_item e; item_value i.

(** database.py:62-63 [LazyCompletion.force] *)
Definition force (m : lazy) : res val := py_eval (lz_tail m).
