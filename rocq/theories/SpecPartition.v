(** * SpecPartition: specification notions for partitions *)

From Coq Require Import Ascii String List Bool Arith ZArith NArith Permutation.
From Verif Require Import Base ModelIndex ModelField ModelContract SpecContract ModelPartition.
Import ListNotations.
Local Open Scope nat_scope.

(** the same tree with other leaves *)
Fixpoint tree_map {B C} (f : B -> C) (t : ptree B) : ptree C :=
  match t with Lf x => Lf (f x) | Tp l => Tp (map (tree_map f) l) end.

(** leaves from left to right *)
Fixpoint leaves_of {B} (t : ptree B) : list B :=
  match t with Lf x => [x] | Tp l => flat_map leaves_of l end.

Section Arrangements.
  Variable A : Type.
  Variable is_boson : A -> bool.

  (** the leaf [x] of a template is filled: same node, a boson on S and a fermion on F *)
  Definition filled (x y : slot_of A * N) : Prop :=
    exists f, fst x = Open (is_boson f) /\ y = (Placed f, snd x).

  Definition fields_on (t : template A) : list A :=
    flat_map (fun x => match fst x with Placed f => [f] | Open _ => [] end) (leaves_of t).

  (** [t'] is [t] with every slot filled, every field used once *)
  Definition arrangement (fields : list A) (t t' : template A) : Prop :=
    tree_map snd t' = tree_map snd t /\ Forall2 filled (leaves_of t) (leaves_of t') /\ Permutation fields (fields_on t').

  (** bosons and fermions put on the slots in order *)
  Fixpoint fill (bs fs : list A) (l : list (slot_of A * N)) : list (slot_of A * N) :=
    match l with
    | [] => []
    | (Open true, n) :: l => match bs with [] => (Open true, n) :: fill bs fs l | b :: bs => (Placed b, n) :: fill bs fs l end
    | (Open false, n) :: l => match fs with [] => (Open false, n) :: fill bs fs l | b :: fs => (Placed b, n) :: fill bs fs l end
    | (Placed f, n) :: l => (Placed f, n) :: fill bs fs l
    end.

  (** two templates that differ by equal fields at most *)
  Variable feqb : A -> A -> bool.

  Definition alike (t t' : template A) : Prop :=
    tree_map snd t = tree_map snd t' /\
    Forall2 (fun x y => match fst x, fst y with Placed f, Placed g => feqb f g = true | Open c, Open d => c = d | _, _ => False end)
            (leaves_of t) (leaves_of t').

  (** a template with [s] slots S and [f] slots F *)
  Definition slots (t : template A) (s f : nat) : Prop :=
    List.length (filter (fun x => match fst x with Open true => true | _ => false end) (leaves_of t)) = s /\
    List.length (filter (fun x => match fst x with Open false => true | _ => false end) (leaves_of t)) = f /\
    Forall (fun x => exists c, fst x = Open c) (leaves_of t).
End Arrangements.

(** number of tuples in a tree, and of those with more than one element *)
Fixpoint vertices {B} (t : ptree B) : nat :=
  match t with
  | Lf _ => 0
  | Tp l => list_sum (map vertices l) + (match l with [_] => 0 | _ => 1 end)
  end.

(** ** Counters *)

(** fields that Python tells apart *)
Definition distinct_fields (l : list ifield) : Prop :=
  Forall (fun x => ifield_eqb x x = true) l /\
  ForallOrdPairs (fun x y => ifield_eqb x y = false /\ ifield_eqb y x = false) l.

Definition copies (op : operator) (l : str) : list ifield :=
  filter (fun x => if list_eq_dec ascii_dec (f_label (i_field x)) l then true else false) (indexed_fields op).

Definition isospin_indices (x : ifield) : list index :=
  filter (fun i => match ix_type i with Isospin => true | _ => false end) (i_indices x).

(** the first isospin indices of the two are joined by a symbol, or there are none *)
Definition interchangeable (op : operator) (v w : ifield) : Prop :=
  isospin_indices v = [] \/
  exists a b ra rb s x y, isospin_indices v = a :: ra /\ isospin_indices w = b :: rb /\ In s (epsilons op) /\
    (symbol_indices s = [x; y] \/ symbol_indices s = [y; x]) /\ slot x = (ix_name a, ix_type a, negb (ix_up a)) /\
    slot y = (ix_name b, ix_type b, negb (ix_up b)).

(** ** Graphs *)

Definition adjacent (g : graph) (a b : N) : Prop := In (a, b) g \/ In (b, a) g.

(** [c] is the one common neighbour of the nodes and has one more neighbour, [o] *)
Definition joined_at (g : graph) (nodes : list N) (c o : N) : Prop :=
  nodes <> [] /\ NoDup nodes /\
  (forall v, (forall n, In n nodes -> adjacent g n v) <-> v = c) /\
  ~ In o nodes /\ forall v, adjacent g c v <-> In v nodes \/ v = o.

(** the nodes of a tree of leaves are joined step by step, two or three at a time: the tree is joined at node [n], the
    edges found on the way are [es] *)
Inductive joins (g : graph) : ptree N -> N -> list (N * N) -> Prop :=
| joins_leaf n : joins g (Lf n) n []
| joins_one t n es : joins g t n es -> joins g (Tp [t]) n es
| joins_many l ns ess c o : joins_all g l ns ess -> 2 <= List.length l <= 3 -> joined_at g ns c o ->
    joins g (Tp l) c (ess ++ [(c, o)])
with joins_all (g : graph) : list (ptree N) -> list N -> list (N * N) -> Prop :=
| joins_nil : joins_all g [] [] []
| joins_cons t l n ns es ess : joins g t n es -> joins_all g l ns ess -> joins_all g (t :: l) (n :: ns) (es ++ ess).

(** ** Completions *)

Section Completed.
  Variables F T E CS : Type.
  Variable contract : list F -> list E -> CS -> res ((str + F * T * list E) * CS).
  Variable gauge : list E.
  Variable g : graph.

  (** what a contraction leaves behind: the exotic field, the term, the edge, the Lorentz epsilons *)
  Definition entry := (F * T * (N * N) * list E)%type.

  (** every tuple with more than one element is contracted once, from left to right and from the inside out, and no
      contraction fails: the tree becomes field [f] at node [n] *)
  Inductive completed : ptree (F * N) -> CS -> F -> N -> list entry -> CS -> Prop :=
  | completed_leaf f n cs : completed (Lf (f, n)) cs f n [] cs
  | completed_one t cs f n log cs' : completed t cs f n log cs' -> completed (Tp [t]) cs f n log cs'
  | completed_many l cs fs ns log cs1 exotic term lorentz cs2 c o :
      2 <= List.length l -> completed_all l cs fs ns log cs1 ->
      contract fs gauge cs1 = Ok (inr (exotic, term, lorentz), cs2) -> joined_at g ns c o ->
      completed (Tp l) cs exotic c (log ++ [(exotic, term, (c, o), lorentz)]) cs2
  with completed_all : list (ptree (F * N)) -> CS -> list F -> list N -> list entry -> CS -> Prop :=
  | completed_nil cs : completed_all [] cs [] [] [] cs
  | completed_cons t l cs f n log cs1 fs ns logs cs2 :
      completed t cs f n log cs1 -> completed_all l cs1 fs ns logs cs2 ->
      completed_all (t :: l) cs (f :: fs) (n :: ns) (log ++ logs) cs2.
End Completed.

(** ** Topologies *)

(** a partition with [n] scalars and [m] fermions that fits its graph: the external nodes are pairwise different and
    have one neighbour each; the rows are joined step by step and meet in one last vertex; the edges found on the way
    are the internal edges of the graph, each once *)
Definition well_shaped {A} (n m : nat) (t : template A) (g : graph) : Prop :=
  exists rows ns es, t = Tp rows /\ 3 <= List.length rows <= 4 /\ slots A t n m /\
    joins_all g (map (tree_map snd) rows) ns es /\
    (exists c, forall v, adjacent g c v <-> In v ns) /\
    NoDup (map snd (leaves_of t)) /\
    (forall x, In x (leaves_of t) -> exists v, forall w, adjacent g (snd x) w <-> w = v) /\
    NoDup es /\
    (forall a b, In (a, b) es -> adjacent g a b /\ ~ In (b, a) es /\ ~ In a (map snd (leaves_of t)) /\ ~ In b (map snd (leaves_of t))) /\
    (forall a b, adjacent g a b -> In a (map snd (leaves_of t)) \/ In b (map snd (leaves_of t)) \/ In (a, b) es \/ In (b, a) es).
