(** * ModelPartition: putting fields on topologies and reducing partitions, completions/completions.py and
      completions/topologies.py *)

From Coq Require Import Ascii String List Bool Arith ZArith NArith QArith Qcanon.
From Verif Require Import Base Show ModelFunctions ModelIndex ModelField ModelContract.
Import ListNotations.
Local Open Scope nat_scope.

(** ** Partitions *)

(** nested tuples with leaves; a leaf is itself a tuple of two components (topologies.py:21-23) *)
Inductive ptree (B : Type) := Lf (x : B) | Tp (l : list (ptree B)).
Arguments Lf {B} x.
Arguments Tp {B} l.

(** what stands in the first component of a leaf: the strings "S" (true) and "F" (false), or a field *)
Inductive slot_of (A : Type) := Open (c : bool) | Placed (f : A).
Arguments Open {A} c.
Arguments Placed {A} f.

Section Fields.
  Variable A : Type.
  Variable is_boson : A -> bool.
  Variable feqb : A -> A -> bool.

  Definition template := ptree (slot_of A * N).

  (** completions.py:65-89 [replace] for [to_replace] "S" or "F".  A leaf is a tuple too: its first component is
      compared, its second one is a number, which never equals a string; a field never equals a string either. *)
  Definition is_open (c : bool) (s : slot_of A) : bool := match s with Open c' => Bool.eqb c c' | Placed _ => false end.

  Fixpoint replace (data : template) (c : bool) (f : A) (found : bool) : template * bool :=
    if found then (data, found)
    else
      match data with
      | Lf (s, n) => if is_open c s then (Lf (Placed f, n), true) else (Lf (s, n), false)
      | Tp l =>
        let fix go (l : list template) (found : bool) :=
          match l with
          | [] => ([], found)
          | t :: l => let (t, found) := replace t c f found in let (l, found) := go l found in (t :: l, found)
          end in
        let (l, found) := go l found in (Tp l, found)
      end.

  (** completions.py:92-104 [replace_fields] *)
  Definition replace_fields (fields : list A) (partition : template) : template :=
    fold_left (fun p f => fst (replace p (is_boson f) f false)) fields partition.

  (** tuple equality *)
  Definition slot_eqb (s t : slot_of A) : bool :=
    match s, t with Open c, Open d => Bool.eqb c d | Placed f, Placed g => feqb f g | _, _ => false end.

  Fixpoint ptree_eqb (a b : template) : bool :=
    match a, b with
    | Lf (s, n), Lf (t, m) => slot_eqb s t && N.eqb n m
    | Tp l, Tp k =>
      let fix go (l k : list template) :=
        match l, k with
        | [], [] => true
        | x :: l, y :: k => ptree_eqb x y && go l k
        | _, _ => false
        end in go l k
    | _, _ => false
    end.

  (** completions.py:107-129 [quick_remove_equivalent_partitions], [distribute_fields].  [list(set(parts))]: the order is
      arbitrary; here that of first occurrence.  Equal partitions are taken to have equal hashes (C26). *)
  Definition distribute_fields (fields : list A) (partition : template) : list template :=
    nodup_by ptree_eqb (map (fun fields => replace_fields fields partition) (permutations fields)).

  (** completions.py:132-147 [node_dictionary]: node and content of every leaf, in order; a leaf that still holds a
      string has no label *)
  Fixpoint leaf_list {B} (t : ptree B) : list B :=
    match t with Lf x => [x] | Tp l => flat_map leaf_list l end.

  Variable label : A -> str.
  Variable counter_of : A -> res nat.

  Definition particle (f : A) : res str := do n <- counter_of f; Ok (label f ++ show_nat n).

  Definition node_dictionary (partition : template) : res (list (N * str)) :=
    foldM (fun d x => match x with
                      | (Open _, _) => Err AttributeError
                      | (Placed f, n) => do s <- particle f; Ok (dset N.eqb d n s)
                      end) (leaf_list partition) [].

  (** completions.py:150-164 [set_external_fields]: the attribute of every edge that has one; edges are those that
      [graph.edges] lists *)
  Definition touches (n : N) (e : N * N) : bool := N.eqb n (fst e) || N.eqb n (snd e).

  Definition set_external_fields (partition : template) (edges : list (N * N)) : res (list (N * N * str)) :=
    do attrs <- node_dictionary partition;
    Ok (flat_map (fun e => match filter (fun a => touches (fst a) e) attrs with
                           | [] => []
                           | l => [(e, snd (last l (0%N, [])))]
                           end) edges).
End Fields.

(** ** Counters of fields, completions.py:167-204 *)

Definition isospin_of (x : ifield) : list index := by_type Isospin (i_indices x).

(** [[a, b] in idxs] *)
Definition listed (a b : index) (idxs : list (list index)) : bool := existsb (list_eqb index_eqb [a; b]) idxs.

(** completions.py:186-199: whether the pair of fields gets the same counter *)
Definition interchanged (idxs : list (list index)) (f1 f2 : ifield) : res bool :=
  match isospin_of f1 with
  | [] => Ok true
  | iso1 :: _ =>
    match isospin_of f2 with
    | [] => Err IndexError
    | iso2 :: _ => do a <- neg_index iso1; do b <- neg_index iso2; Ok (listed a b idxs || listed b a idxs)
    end
  end.

Definition entry_eqb (x y : ifield * nat) : bool := ifield_eqb (fst x) (fst y) && (snd x =? snd y).

(** [l[l.index(x)] = y] *)
Fixpoint replace_at {B} (eqb : B -> B -> bool) (x y : B) (l : list B) : res (list B) :=
  match l with
  | [] => Err ValueError
  | z :: l => if eqb z x then Ok (y :: l) else do l <- replace_at eqb x y l; Ok (z :: l)
  end.

(** completions.py:186-202: one label; [v] is the list before the loop, of which [combinations] keeps a copy *)
Definition count_label (idxs : list (list index)) (v : list (ifield * nat)) : res (list (ifield * nat)) :=
  foldM (fun cur p =>
           let '((f1, i1), (f2, i2)) := p in
           do same <- interchanged idxs f1 f2;
           if same then replace_at entry_eqb (f2, i2) (f2, i1) cur else Ok cur) (pairs v) v.

Definition by_label (fields : list ifield) : list (str * list ifield) :=
  fold_left (fun d f => match dget str_eqb d (f_label (i_field f)) with
                        | Some l => dset str_eqb d (f_label (i_field f)) (l ++ [f])
                        | None => dset str_eqb d (f_label (i_field f)) [f]
                        end) fields [].

Definition enumerate {B} (l : list B) : list (B * nat) := combine l (seq 0 (List.length l)).

Definition indexed_fields_with_counters (op : operator) : res (list (ifield * nat)) :=
  let idxs := map symbol_indices (epsilons op) in
  do counts <- mapM (fun kv => count_label idxs (enumerate (snd kv))) (by_label (indexed_fields op));
  match counts with
  | [] => Err TypeError
  | _ => Ok (fold_left (fun d x => dset ifield_eqb d (fst x) (snd x)) (concat counts) [])
  end.

(** ** Graphs *)

(** the edges of a graph; networkx keeps an edge once, however often and in whatever direction it is added *)
Definition graph := list (N * N).

(** [graph.neighbors(n)] *)
Definition neighbours (g : graph) (n : N) : list N :=
  nodup_by N.eqb (flat_map (fun e => if N.eqb (fst e) n then [snd e] else if N.eqb (snd e) n then [fst e] else []) g).

Definition in_graph (g : graph) (n : N) : bool := existsb (touches n) g.

(** completions.py:731-763 [get_connecting_edge].  A node that is not in the graph raises NetworkXError. *)
Definition get_connecting_edge (g : graph) (nodes : list N) : res (N * N) :=
  do _ <- (if forallb (in_graph g) nodes then Ok tt else Err PlainException);
  match nodes with
  | [] => Err ValueError
  | n :: rst =>
    let intersection := filter (fun v => forallb (fun m => mem_by N.eqb v (neighbours g m)) rst) (neighbours g n) in
    match intersection with
    | [c] =>
      do others <- foldM (fun l n => remove_first N.eqb n l) nodes (neighbours g c);
      match others with [o] => Ok (c, o) | _ => Err AssertionError end
    | _ => Err AssertionError
    end
  end.

(** ** Reducing a partition *)

Section Reduce.
  Variables B St : Type.
  Variable func : list B -> St -> res (B * St).

  Definition is_leaf (t : ptree B) : bool := match t with Lf _ => true | Tp _ => false end.

  (** completions.py:820-840 [contains_only_leaves], [reduced_row]; the arguments of func are leaves, which
      [func] unpacks *)
  Fixpoint reduced_row (row : ptree B) (st : St) : res (B * St) :=
    match row with
    | Lf x => Ok (x, st)
    | Tp l =>
      if forallb is_leaf l then func (flat_map (fun t => match t with Lf x => [x] | Tp _ => [] end) l) st
      else
        let fix go (l : list (ptree B)) (st : St) : res (list B * St) :=
          match l with
          | [] => Ok ([], st)
          | t :: l => do x <- reduced_row t st; do xs <- go l (snd x); Ok (fst x :: fst xs, snd xs)
          end in
        do r <- go l st; func (fst r) (snd r)
    end.

  Fixpoint reduced_rows (rows : list (ptree B)) (st : St) : res (list B * St) :=
    match rows with
    | [] => Ok ([], st)
    | t :: l => do x <- reduced_row t st; do xs <- reduced_rows l (snd x); Ok (fst x :: fst xs, snd xs)
    end.
End Reduce.

Section Completion.
  (** fields, terms, epsilons, and what [contract] mutates (symbols and field_dict) *)
  Variables F T E CS : Type.
  Variable feqb : F -> F -> bool.
  (** completions.py:652-728 [contract], which raises, returns a reason, or a field, a term and epsilons; the spectator
      epsilons it returns are bound to a local name and lost (completions.py:800) *)
  Variable contract : list F -> list E -> CS -> res ((str + F * T * list E) * CS).
  (** completions.py:876-918, the last vertex: a reason, or the term and its Lorentz epsilons *)
  Variable last_vertex : list F -> list E -> res (str + T * list E).

  (** the field of a leaf, or the reason of a failure with None as node *)
  Definition rleaf := ((F + str) * option N)%type.

  Record rstate := mkR { r_terms : list T; r_edges : list (F * (N * N)); r_lorentz : list E; r_cs : CS }.

  (** completions.py:766-817 [replace_and_mutate]; a field next to None and a string next to a number do not occur *)
  Fixpoint unpack (leaves : list rleaf) : rleaf + (list F * list N) :=
    match leaves with
    | [] => inr ([], [])
    | (inl f, Some n) :: l => match unpack l with inl x => inl x | inr (fs, ns) => inr (f :: fs, n :: ns) end
    | x :: _ => inl x
    end.

  Definition replace_and_mutate (gauge : list E) (g : graph) (leaves : list rleaf) (st : rstate) : res (rleaf * rstate) :=
    match unpack leaves with
    | inl leaf => Ok (leaf, st)
    | inr ([], _) => Err PlainException
    | inr ([f], n :: _) => Ok ((inl f, Some n), st)
    | inr (fs, ns) =>
      do r <- contract fs gauge (r_cs st);
      match fst r with
      | inl reason => Ok ((inr reason, None), mkR (r_terms st) (r_edges st) (r_lorentz st) (snd r))
      | inr (exotic, term, lorentz) =>
        do e <- get_connecting_edge g ns;
        Ok ((inl exotic, Some (fst e)),
            mkR (r_terms st ++ [term]) (dset feqb (r_edges st) exotic e) (r_lorentz st ++ lorentz) (snd r))
      end
    end.

  (** completions.py:843-920 [construct_completion] *)
  Definition first_reason (leaves : list rleaf) : str + list F :=
    fold_right (fun x acc => match fst x with
                             | inr reason => inl reason
                             | inl f => match acc with inl r => inl r | inr fs => inr (f :: fs) end
                             end) (inr []) leaves.

  Definition construct_completion (rows : list (ptree rleaf)) (gauge : list E) (g : graph) (cs : CS)
    : res ((str + (list T * list (F * (N * N)) * list E)) * CS) :=
    do r <- reduced_rows rleaf rstate (replace_and_mutate gauge g) rows (mkR [] [] [] cs);
    let st := snd r in
    match first_reason (fst r) with
    | inl reason => Ok (inl reason, r_cs st)
    | inr fs =>
      do v <- last_vertex fs gauge;
      match v with
      | inl reason => Ok (inl reason, r_cs st)
      | inr (term, lorentz) => Ok (inr (r_terms st ++ [term], r_edges st, r_lorentz st ++ lorentz), r_cs st)
      end
    end.

  (** completions.py:955-980 [operator_completions] after [partitions]: the results that are not failures, in order.
      Each partition starts with its own symbols and dictionaries. *)
  Definition operator_completions (parts : list (list (ptree rleaf) * list E * graph)) (cs : CS)
    : res (list (list T * list (F * (N * N)) * list E)) :=
    do l <- mapM (fun p => construct_completion (fst (fst p)) (snd (fst p)) (snd p) cs) parts;
    Ok (flat_map (fun x => match fst x with inl _ => [] | inr c => [c] end) l).
End Completion.

(** ** Topology files, completions/topologies.py *)

Definition newline : ascii := "010"%char.

(** decimal numbers *)
Definition read_digit (c : ascii) : option N :=
  let n := nat_of_ascii c in if (48 <=? n) && (n <=? 57) then Some (N.of_nat (n - 48)) else None.

Fixpoint read_number (s : str) (acc : N) (some : bool) : option (N * str) :=
  match s with
  | c :: r => match read_digit c with
              | Some d => read_number r (acc * 10 + d)%N true
              | None => if some then Some (acc, s) else None
              end
  | [] => if some then Some (acc, []) else None
  end.

Fixpoint strip_prefix (p s : str) : option str :=
  match p, s with
  | [], _ => Some s
  | c :: p, d :: s => if Ascii.eqb c d then strip_prefix p s else None
  | _ :: _, [] => None
  end.

(** topologies.py:34-44 [eval_partition] on texts made of List(...), S(n) and F(n); [eval] accepts more *)
Fixpoint parse_expr {A} (fuel : nat) (s : str) : option (template A * str) :=
  match fuel with
  | O => None
  | S k =>
    let leaf c := fun s =>
      match read_number s 0%N false with
      | Some (n, ")"%char :: r) => Some (Lf (Open c, n), r)
      | _ => None
      end in
    match strip_prefix (lit "S(") s with
    | Some r => leaf true r
    | None =>
      match strip_prefix (lit "F(") s with
      | Some r => leaf false r
      | None =>
        match strip_prefix (lit "List(") s with
        | Some r => match parse_args k r with Some (l, r) => Some (Tp l, r) | None => None end
        | None => None
        end
      end
    end
  end
with parse_args {A} (fuel : nat) (s : str) : option (list (template A) * str) :=
  match fuel with
  | O => None
  | S k =>
    match parse_expr k s with
    | Some (t, ")"%char :: r) => Some ([t], r)
    | Some (t, ","%char :: r) => match parse_args k r with Some (l, r) => Some (t :: l, r) | None => None end
    | _ => None
    end
  end.

Definition eval_partition {A} (s : str) : res (template A) :=
  match parse_expr (List.length s) s with
  | Some (t, []) => Ok t
  | _ => Err PlainException
  end.

(** topologies.py:47-53 [eval_graph] on lines i,j *)
Definition parse_edge (s : str) : res (N * N) :=
  match read_number s 0%N false with
  | Some (i, ","%char :: r) => match read_number r 0%N false with Some (j, []) => Ok (i, j) | _ => Err PlainException end
  | _ => Err PlainException
  end.

Definition splitlines (s : str) : list str :=
  let l := split_on newline s in match last l [] with [] => removelast l | _ => l end.

Definition eval_graph (s : str) : res graph := mapM parse_edge (splitlines s).

(** topologies.py:56-82 [get_topology_data]; the directories are lists of names and contents; diagrams are only
    counted *)
Definition glob (n_scalars n_fermions : nat) (dir : list (str * str)) : list (str * str) :=
  sort (fun a b => str_leb (fst a) (fst b))
       (filter (fun x => startswith (show_nat n_scalars ++ lit "s" ++ show_nat n_fermions ++ lit "f_") (fst x)) dir).

Record topology (A : Type) := mkTop { t_partition : template A; t_graph : graph; t_file : str }.
Arguments mkTop {A}.
Arguments t_partition {A}.
Arguments t_graph {A}.
Arguments t_file {A}.

Definition get_topology_data {A} (partitions diagrams graphs : list (str * str)) (n_scalars n_fermions : nat)
  : res (list (topology A)) :=
  let ps := glob n_scalars n_fermions partitions in
  match ps with
  | [] => Err PlainException
  | _ => mapM (fun pdg => do p <- eval_partition (snd (fst (fst pdg))); do g <- eval_graph (snd (snd pdg));
                          Ok (mkTop p g (fst (fst (fst pdg)))))
              (combine (combine ps (glob n_scalars n_fermions diagrams)) (glob n_scalars n_fermions graphs))
  end.
