(** * SpecExport: specification notions for completions written as text *)

From Coq Require Import Ascii String List Bool Arith ZArith NArith QArith Qcanon Permutation Sorted.
From Verif Require Import Base ModelFunctions ModelIndex SpecIndex ModelField SpecField ModelContract SpecContract ModelPartition ModelExotic SpecExotic
  Show ModelInfo ModelLagrangian ModelDatabase ModelExport.
Import ListNotations.
Local Open Scope nat_scope.

(** ** Characters *)

(** printable, neither a quote nor a backslash *)
Definition plain_char (c : ascii) : Prop :=
  let n := nat_of_ascii c in 32 <= n /\ n <> 127 /\ n <> 39 /\ n <> 34 /\ n <> 92.
Definition plain (s : str) : Prop := Forall plain_char s.

(** after a backslash these characters mean nothing to Python *)
Definition ordinary (c : ascii) : Prop := plain_char c /\ ~ In c (lit "abfnrtvxNuU01234567").

(** every backslash is followed by such a character: the text is its own value inside quotes *)
Inductive inert : str -> Prop :=
| inert_nil : inert []
| inert_plain c s : plain_char c -> inert s -> inert (c :: s)
| inert_backslash c s : ordinary c -> inert s -> inert (ascii_of_nat 92 :: c :: s).

(** printable apart from backslashes *)
Definition backslashed (s : str) : Prop := Forall (fun c => plain_char c \/ c = ascii_of_nat 92) s.

(** ** Fields *)

(** the indices of a field can be written between quotes *)
Definition writable (l : list index) : Prop := Forall clean l /\ Forall (fun i => plain (ix_name i)) l.

(** the same field, its indices given by their printed form *)
Definition rewritten (x : ifield) : ifield :=
  mkIField (i_field x) (map reindex (i_indices x)) (AStr (join (lit " ") (map show_index (i_indices x)))).

(** the fields of the Standard Model that database.py knows, and their conjugates *)
Definition matter (f : field) : Prop := In f [sm_L; sm_Q; sm_H; sm_eb; sm_ub; sm_db].
Definition standard (f : field) : Prop := matter f \/ exists g, matter g /\ conj_field g = Ok f.

(** [x] carries label, flag and indices of [y]; the other attributes may differ *)
Definition looks_like (x y : ifield) : Prop :=
  f_label (i_field x) = f_label (i_field y) /\ f_is_conj (i_field x) = f_is_conj (i_field y) /\
  f_derivs (i_field x) = f_derivs (i_field y) /\ i_indices x = i_indices y /\
  (f_nf (i_field x) = 1 \/ f_nf (i_field x) = 3).

(** made by one of the four classes *)
Definition typed (x : cfield) : Prop :=
  cf_class x <> Plain /\ exists label ind ch lx cj sym, mk_typed (cf_class x) label ind ch lx cj sym = Ok x.

(** its class is that of its quantum numbers, its text can be written between quotes *)
Record exportable (x : cfield) : Prop := mkExportable
  { xp_typed : typed x;
    xp_class : right_class x;
    xp_charges : standard_charges x;
    xp_few : forall t up, t <> Generation -> count_kind t up (indices_of x) < 10;
    xp_gauge : forall i, In i (indices_of x) -> ix_type i <> Generation;
    xp_indices : writable (indices_of x);
    xp_label : plain (f_label (i_field (cf_if x))) }.

(** what is read: no barred fermions, no conjugated real scalars, the latex form [lx] *)
Definition reread (lx : str) (x : cfield) : cfield :=
  let f := i_field (cf_if x) in
  mkCF (match cf_class x with DiracFermion _ => DiracFermion true | k => k end)
    (mkIField (mkField (f_label f) (f_dynkin f) (f_charges f) (match cf_class x with RealScalar => false | _ => f_is_conj f end)
                       (f_comm f) (f_symmetry f) None 1 lx 1 0 None)
       (map reindex (indices_of x)) (AStr (join (lit " ") (map show_index (indices_of x))))).

(** an epsilon or a delta as [eps] and [delta] make it, and the same with printed indices *)
Definition symbol_made (s : symbol) : Prop := exists text, eps text = Ok s \/ delta text = Ok s.
Definition rewritten_symbol (s : symbol) : symbol :=
  match s with
  | Metric t l => Metric t (map reindex l)
  | EpsC l => EpsC (map reindex l)
  | DeltaC l => DeltaC (map reindex l)
  end.

(** ** Tensors and operators *)

(** what can be written, and what is read *)
Inductive read_back : ctensor -> ctensor -> Prop :=
| rb_field f s x y : standard f -> call_field f s = Ok y -> looks_like x y -> writable (i_indices y) ->
    read_back (KField (mkCF Plain x)) (KField (mkCF Plain (rewritten y)))
| rb_derivative f dyn g s y : standard f -> D f dyn = Ok g -> List.length dyn = 2 -> call_field g s = Ok y -> writable (i_indices y) ->
    read_back (KField (mkCF Plain y)) (KField (mkCF Plain (rewritten y)))
| rb_exotic x : exportable x -> inert (f_latex (i_field (cf_if x))) ->
    read_back (KField x) (KField (reread (f_latex (i_field (cf_if x))) x))
| rb_symbol s : symbol_made s -> writable (symbol_indices s) -> read_back (KSym s) (KSym (rewritten_symbol s)).

(** the order in which a product puts its factors: by the name of the class *)
Definition factor_place (t : ctensor) : nat :=
  match t with
  | KSym _ => 4
  | KField x => match cf_class x with ComplexScalar => 0 | Plain => 1 | MajoranaFermion => 2 | RealScalar => 3 | DiracFermion _ => 5 end
  end.

Inductive ordered_factors : cop -> Prop :=
| of_nil : ordered_factors []
| of_cons t l : (forall u, In u l -> factor_place t <= factor_place u) -> ordered_factors l -> ordered_factors (t :: l).

(** a product of at least two tensors, the first one a field *)
Definition factors (op : cop) : Prop := match op with KField _ :: _ :: _ => True | _ => False end.

Definition operator_back (op op' : cop) : Prop := factors op /\ ordered_factors op /\ Forall2 read_back op op'.

(** ** Completions *)

Inductive tree_back : ptree (cfield * N) -> ptree (cfield * N) -> Prop :=
| tb_leaf x y n : read_back (KField (mkCF Plain x)) (KField y) -> tree_back (Lf (mkCF Plain x, n)) (Lf (y, n))
| tb_node l l' : Forall2 tree_back l l' -> tree_back (Tp l) (Tp l').

(** the attributes of the edge from [u] to [v] *)
Definition link (g : adjacency) (u v : N) (a : list (str * str)) : Prop := exists nb, In (u, nb) g /\ In (v, a) nb.

(** an undirected graph *)
Record undirected (g : adjacency) : Prop := mkUndirected
  { ud_nodes : NoDup (map fst g);
    ud_edges : forall u nb, In (u, nb) g -> NoDup (map fst nb);
    ud_ends : forall u v a, link g u v a -> link g v u a;
    ud_attributes : forall u v a, link g u v a -> NoDup (map fst a) /\ Forall (fun kv => plain (fst kv) /\ plain (snd kv)) a }.

(** the same nodes and edges *)
Definition same_graph (g h : adjacency) : Prop :=
  map fst g = map fst h /\ (forall u nb, In (u, nb) h -> NoDup (map fst nb)) /\ forall u v a, link g u v a <-> link h u v a.

(** [l'] lists the members of [l] once *)
Definition as_set {A} (l l' : list A) : Prop := NoDup l' /\ forall x, In x l' <-> In x l.

(** a completion that can be written *)
Record writable_completion (c : comp) : Prop := mkWritable
  { wc_name : plain (co_name c);
    wc_topology : plain (co_topology c);
    wc_partition : exists l, co_partition c = Tp l;
    wc_graph : undirected (co_graph c);
    wc_exotics : Forall (fun x => exportable x /\ backslashed (f_latex (i_field (cf_if x)))) (co_exotics c) }.

(** [c'] is what is read of [c] *)
Record completion_back (c c' : comp) : Prop := mkBack
  { cb_name : co_name c' = co_name c;
    cb_operator : operator_back (co_operator c) (co_operator c');
    cb_partition : tree_back (co_partition c) (co_partition c');
    cb_graph : same_graph (co_graph c) (co_graph c');
    cb_exotics : as_set (map (fun x => reread (f_latex (i_field (cf_if x))) x) (co_exotics c)) (co_exotics c');
    cb_terms : Forall2 operator_back (co_terms c) (co_terms c');
    cb_topology : co_topology c' = co_topology c }.

(** ** The head of a lazy completion *)

(** quantum numbers as text: letter, colour, isospin, hypercharge, three times the baryon number *)
Definition spells_numbers (q : qnumbers) (s : str) : Prop :=
  exists cu cd i kb b ky y, qn_sm q = [cu; cd; i] /\ qn_charges q = [(kb, b); (ky, y)] /\
    s = qn_lorentz q ++ lit "," ++ show_nat cu ++ show_nat cd ++ lit "," ++ show_nat i ++ lit "," ++ show_Q y ++ lit "," ++ show_Q b.

(** fields of the Standard Model by name, others by their quantum numbers *)
Definition sm_names : list str := map lit ["L"; "Q"; "ub"; "db"; "eb"; "H"]%string.
Definition has_charge (f : field) (k : str) (q : Qc) : Prop := In (k, q) (f_charges f) \/ (~ In k (map fst (f_charges f)) /\ q = Q2Qc 0).
Definition spells_field (x : cfield) (s : str) : Prop :=
  let f := i_field (cf_if x) in
  let label := if f_is_conj f then removelast (f_label f) else f_label f in
  (In label sm_names /\ s = label ++ (if f_is_conj f then lit ".conj" else [])) \/
  (~ In label sm_names /\ exists a b cu cd i y b3, f_dynkin f = [a; b; cu; cd; i] /\ has_charge f (lit "y") y /\ has_charge f (lit "3b") b3 /\
     s = (if str_eqb [a; b] (lit "00") then lit "S" else lit "F") ++ lit "," ++ [cu; cd] ++ lit "," ++ [i] ++ lit "," ++ show_Q y ++ lit "," ++ show_Q b3).

Record head_of (c : comp) (m : lazy) : Prop := mkHead
  { hd_operator : lz_operator m = co_name c;
    hd_numbers : exists info ss, exotic_info (co_exotics c) = Ok info /\ Forall2 spells_numbers (map snd info) ss /\
                   Permutation ss (lz_quantum_numbers m) /\ StronglySorted (fun a b => str_leb a b = true) (lz_quantum_numbers m);
    hd_terms : Forall2 (fun t => Forall2 spells_field (cfields t)) (co_terms c) (lz_terms m) }.
