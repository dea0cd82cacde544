(** * ModelJson: completions as JSON objects and as diagrams, database/json_serialiser.py, completions/tikzfeynman.py (46-104) *)

From Coq Require Import Ascii String List Bool Arith ZArith NArith QArith Qcanon.
From Verif Require Import Base Show ModelFunctions ModelIndex ModelField ModelContract ModelPartition ModelExotic ModelExport.
Import ListNotations.
Local Open Scope nat_scope.

(** Python's None, booleans, integers, strings, lists (and tuples), dictionaries with strings as keys *)
Inductive json :=
| JNone
| JBool (b : bool)
| JInt (n : N)
| JStr (s : str)
| JList (l : list json)
| JDict (l : list (str * json)).

Definition jnat (n : nat) : json := JInt (N.of_nat n).
Definition jnats (l : list nat) : json := JList (map jnat l).
Definition jtexts (l : list str) : json := JList (map JStr l).

(** core.py:152-161, the names of the types *)
Definition type_name (t : itype) : str :=
  match t with
  | Undotted => lit "Undotted" | Dotted => lit "Dotted" | Colour => lit "Colour" | Isospin => lit "Isospin" | Generation => lit "Generation"
  end.

(** json_serialiser.py:14, 42 *)
Definition json_indices (l : list index) : json :=
  JDict (map (fun ti => (type_name (fst ti), jtexts (map show_index (snd ti)))) (indices_by_type l)).

(** json_serialiser.py:13-37, the exotic fields *)
Definition json_exotic (x : cfield) : res json :=
  let f := i_field (cf_if x) in
  do lor <- lorentz_irrep f;
  do iso <- isospin_irrep f;
  do i0 <- match iso with i :: _ => Ok i | [] => Err IndexError end;
  do col <- colour_irrep f;
  Ok (JDict
    [(lit "Label", JStr (f_label f));
     (lit "Indices", json_indices (i_indices (cf_if x)));
     (lit "Symmetry", JList (map jnats (f_symmetry f)));
     (lit "Charges", JDict (map (fun kv => (fst kv, JStr (show_Q (snd kv)))) (f_charges f)));
     (lit "Nf", jnat (f_nf f));
     (lit "LorentzDynkin", jnats lor);
     (lit "IsospinDynkin", jnat i0);
     (lit "ColourDynkin", jnats col);
     (lit "Comm", JStr (f_comm f));
     (lit "Latex", JStr (f_latex f));
     (lit "IsConj", JBool (f_is_conj f));
     (lit "Exotic", JBool true);
     (lit "Field", JBool true);
     (lit "Deriv", JBool false);
     (lit "IsUnbarred", match cf_class x with DiracFermion b => JBool b | _ => JNone end)]).

(** json_serialiser.py:39-69, the fields of the Standard Model *)
Definition json_field (x : ifield) : res json :=
  let f := i_field x in
  let indices := json_indices (i_indices x) in
  if negb (f_derivs f =? 0) then
    do _ <- assert_ (f_derivs f =? 1);
    do ab <- lorentz_irrep f;
    match ab with
    | [a; b] =>
      do s <- strip_derivs x;
      let label := match s with inl y => f_label (i_field y) | inr g => f_label g end in
      Ok (JDict [(lit "Label", JStr label); (lit "Indices", indices); (lit "IsConj", JBool (f_is_conj f));
                 (lit "DerivDynkin", JStr (show_nat a ++ show_nat b)); (lit "Exotic", JBool false); (lit "Field", JBool true);
                 (lit "Deriv", JBool true)])
    | _ => Err ValueError
    end
  else
    do g <- field_of x;
    Ok (JDict [(lit "Label", JStr (f_label g)); (lit "Indices", indices); (lit "IsConj", JBool (f_is_conj f));
               (lit "Field", JBool true); (lit "Exotic", JBool false); (lit "Deriv", JBool false)]).

(** json_serialiser.py:71-76 *)
Definition json_symbol (s : symbol) : json :=
  match s with
  | Metric _ l | EpsC l => JDict [(lit "Field", JBool false); (lit "label", JStr (lit "Eps")); (lit "Indices", jtexts (map show_index l))]
  | DeltaC l => JDict [(lit "Field", JBool false); (lit "label", JStr (lit "Delta")); (lit "Indices", jtexts (map show_index l))]
  end.

(** json_serialiser.py:12-78 [export_tensor] *)
Definition json_tensor (t : ctensor) : res json :=
  match t with
  | KField x => match cf_class x with Plain => json_field (cf_if x) | _ => json_exotic x end
  | KSym s => Ok (json_symbol s)
  end.

(** json_serialiser.py:98-100, 103-104, 107-108 *)
Definition json_operator (op : cop) : res json := do l <- mapM json_tensor op; Ok (JList l).
Definition json_terms (terms : list cop) : res json := do l <- mapM json_operator terms; Ok (JList l).
Definition json_exotics (xs : list cfield) : res json := do l <- mapM (fun x => json_tensor (KField x)) xs; Ok (JList l).

(** json_serialiser.py:81-82 *)
Definition json_eff_operator (name : str) (op : cop) : res json :=
  do o <- json_operator op; Ok (JDict [(lit "Name", JStr name); (lit "Operator", o)]).

Section Text.
  (** sympy's text of an indexed field *)
  Variable field_text : cfield -> str.

  (** json_serialiser.py:85-89 [export_partition] *)
  Fixpoint json_partition (p : ptree (cfield * N)) : json :=
    match p with
    | Lf (x, n) => JDict [(lit "Field", JStr (field_text x)); (lit "Node", JInt n)]
    | Tp l => JList (map json_partition l)
    end.

  (** the edges of a networkx graph: for every node in order its neighbours, except those nodes already passed *)
  Fixpoint edges_of (seen : list N) (g : adjacency) : list (N * N * list (str * str)) :=
    match g with
    | [] => []
    | (n, nb) :: g => map (fun e => (n, fst e, snd e)) (filter (fun e => negb (mem_by N.eqb (fst e) seen)) nb) ++ edges_of (n :: seen) g
    end.

  (** json_serialiser.py:92-97 [export_graph].  The attribute "particle" is the label of a field, and a string has no indices *)
  Definition json_link (e : N * N * list (str * str)) : res json :=
    do p <- dgetM str_eqb (snd e) (lit "particle"); Err AttributeError.

  Definition json_graph (g : adjacency) : res json :=
    do links <- mapM json_link (edges_of [] g);
    Ok (JDict [(lit "directed", JBool false); (lit "multigraph", JBool false); (lit "graph", JDict []);
               (lit "nodes", JList (map (fun nb => JDict [(lit "id", JInt (fst nb))]) g)); (lit "links", JList links)]).

  (** json_serialiser.py:111-119 [export_completion] *)
  Definition json_completion (c : comp) : res json :=
    do op <- json_eff_operator (co_name c) (co_operator c);
    let part := json_partition (co_partition c) in
    do graph <- json_graph (co_graph c);
    do exotics <- json_exotics (co_exotics c);
    do terms <- json_terms (co_terms c);
    Ok (JDict [(lit "EffectiveOperator", op); (lit "Partition", part); (lit "Graph", graph); (lit "Exotics", exotics); (lit "Terms", terms)]).
End Text.

(** ** Diagrams *)

(** tikzfeynman.py:46-83 [tikz_type]; [None] for the exception, which is returned and not raised *)
Definition tikz_type (x : cfield) : res (option str) :=
  let f := i_field (cf_if x) in
  match cf_class x with
  | ComplexScalar => Ok (Some (lit "charged scalar"))
  | RealScalar => Ok (Some (lit "scalar"))
  | MajoranaFermion | DiracFermion _ => Ok (Some (if f_is_conj f then lit "majorana" else lit "anti majorana"))
  | Plain =>
    do s <- is_scalar f;
    if s then Ok (Some (if f_is_conj f then lit "anti charged scalar" else lit "charged scalar"))
    else do e <- is_fermion f;
         Ok (if e then Some (if f_is_conj f then lit "anti fermion" else lit "fermion") else None)
  end.

(** tikzfeynman.py:86-104 [proc_body], whose edges carry labels: a string is not a scalar and has no attribute [is_scalar] *)
Definition proc_body (g : adjacency) : res (list str) :=
  mapM (fun e : N * N * list (str * str) => do p <- dgetM str_eqb (snd e) (lit "particle"); Err AttributeError) (edges_of [] g).
