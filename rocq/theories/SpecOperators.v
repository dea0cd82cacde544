(** * SpecOperators: specification notions for the operators of the package and their completions *)

From Coq Require Import Ascii String List Bool Arith ZArith NArith QArith Qcanon Permutation.
From Verif Require Import Base Show ModelIndex SpecIndex ModelField SpecField ModelContract SpecClosures SpecParse SpecContract ModelPartition SpecPartition ModelExotic SpecExotic SpecCompletion ModelOperators.
Import ListNotations.
Local Open Scope nat_scope.

Definition plain_fields (op : operator) : list cfield := map (mkCF Plain) (indexed_fields op).

(** an operator whose isospin is contracted and whose [n] raised and [n] lowered colour indices are not: fields without
    derivatives, of spin zero or one half, no two of them equal; hypercharge adds up to zero *)
Record colour_open (n : nat) (op : operator) : Prop := mkColourOpen
  { oo_normal : normal op;
    oo_proper : proper_op op;
    oo_clean : Forall clean (op_indices op);
    oo_distinct : distinct_fields (indexed_fields op);
    oo_some : indexed_fields op <> [];
    oo_labels : forall v w, In v (indexed_fields op) -> In w (indexed_fields op) -> f_label (i_field v) = f_label (i_field w) ->
      isospin_indices v = [] -> isospin_indices w = [];
    oo_legit : Forall legit (plain_fields op);
    oo_spin : Forall low_spin (plain_fields op);
    oo_charges : Forall standard_charges (plain_fields op);
    oo_nf : Forall one_or_three (plain_fields op);
    oo_derivs : Forall (fun x => f_derivs (i_field x) = 0) (indexed_fields op);
    oo_symbols : forall e, In e (epsilons op) -> symbol_ok e /\ List.length (symbol_indices e) = 2 /\
      forall i, In i (symbol_indices e) -> ix_type i = Isospin /\ ix_up i = false;
    oo_isospin : forall i, In i (op_indices op) -> ix_type i = Isospin -> met (op_indices op) i;
    oo_neutral : sum_of hypercharge (plain_fields op) = Q2Qc 0;
    oo_ups : number op Colour true n;
    oo_downs : number op Colour false n;
    oo_few : forall t up, t <> Generation -> t <> Colour -> count_kind t up (op_indices op) < 10;
    oo_few_colours : forall up, count_kind Colour up (op_indices op) < 5;
    oo_names : forall i, In i (op_indices op) -> ~ In "^"%char (ix_name i);
    oo_dotted : forall i, In i (op_indices op) -> ix_type i = Dotted -> ~ In "u"%char (ix_name i) }.

(** [c] is what [construct_completion] makes of the fields arranged as in [perm] on the topology [t], with the colour
    indices contracted as in [cop] *)
Definition made_from (vanishes : cop -> bool) (cop : operator) (t : topology ifield) (perm : template ifield) (c : completed) : Prop :=
  cm_partition c = perm /\ cm_graph c = t_graph t /\ cm_topology c = stem_of (t_file t) /\
  exists rows labelled lor st, perm = Tp (map (tree_map (fun x : ifield * N => (Placed (fst x), snd x))) rows) /\
    completion vanishes (map (tree_map (fun x : ifield * N => (inl (mkCF Plain (fst x)), Some (snd x)))) rows) (epsilons cop) (t_graph t) =
      Ok (inr (cm_terms c, labelled, lor), st) /\
    cm_exotics c = map fst labelled /\ cm_operator c = cop ++ map TSymbol lor /\
    List.length (cm_terms c) = list_sum (map vertices rows) + 1 /\ lorentz_contracted (map (mkCF Plain) (indexed_fields cop)) lor.

(** no completion: a term vanishes *)
Definition fails_from (vanishes : cop -> bool) (cop : operator) (t : topology ifield) (perm : template ifield) : Prop :=
  exists rows reason st, perm = Tp (map (tree_map (fun x : ifield * N => (Placed (fst x), snd x))) rows) /\
    completion vanishes (map (tree_map (fun x : ifield * N => (inl (mkCF Plain (fst x)), Some (snd x)))) rows) (epsilons cop) (t_graph t) = Ok (inl reason, st).

(** the label of an edge, whichever way round *)
Definition labelled_edge (particles : list (N * N * str)) (e : N * N) (s : str) : Prop :=
  (exists e', (e' = e \/ e' = (snd e, fst e)) /\ In (e', s) particles) /\
  forall e' s', (e' = e \/ e' = (snd e, fst e)) -> In (e', s') particles -> s' = s.

(** the edge ends in the node *)
Definition ends_in (n : N) (e : N * N) : Prop := n = fst e \/ n = snd e.

(** the labels of a diagram: an edge that ends in the node of a field has the label of the field and its number, any other
    edge with a label has that of an exotic field, and every exotic field has an edge *)
Record diagram (numbers : list (ifield * nat)) (c : completed) : Prop := mkDiagram
  { dg_external : forall f k n e, In (Placed f, n) (leaves_of (cm_partition c)) -> In (f, k) numbers -> In e (cm_graph c) -> ends_in n e ->
      labelled_edge (cm_particles c) e (f_label (i_field f) ++ show_nat k);
    dg_internal : forall e s, In e (cm_graph c) -> (forall x, In x (leaves_of (cm_partition c)) -> ~ ends_in (snd x) e) -> In (e, s) (cm_particles c) ->
      exists x, In x (cm_exotics c) /\ s = f_label (i_field (cf_if x));
    dg_exotics : forall x, In x (cm_exotics c) -> exists e, In e (cm_graph c) /\ labelled_edge (cm_particles c) e (f_label (i_field (cf_if x))) }.

(** every index is contracted, except those of generation *)
Definition closed (op : operator) : Prop := proper_op op /\ forall i, is_free op i -> ix_type i = Generation.

(** ** The completions of an operator *)

(** [cs] is the list of completions of [op]: every topology, arrangement of the fields and colour contraction is tried, and
    gives a completion unless a term vanishes; nothing else is returned.  In every completion the terms are singlets, the
    fields are used once each, every index is contracted and the lines of the diagram have the right labels. *)
Definition completions_are (vanishes : cop -> bool) (op : operator) (numbers : list (ifield * nat)) (tops : list (topology ifield)) (cops : list operator) (cs : list completed) : Prop :=
  (forall t perm r, In t tops -> arrangement ifield boson_field (indexed_fields op) (t_partition t) perm -> In r cops ->
     fails_from vanishes r t perm \/ exists c, In c cs /\ made_from vanishes r t perm c) /\
  (forall c, In c cs ->
     (exists t perm r, In t tops /\ arrangement ifield boson_field (indexed_fields op) (t_partition t) perm /\ In r cops /\ made_from vanishes r t perm c) /\
     Forall good_term (cm_terms c) /\ accounts_for (plain_fields op) (cm_terms c) (cm_exotics c) /\ closed (cm_operator c) /\ diagram numbers c).

(** ** Lepton number *)

(** fields of the Standard Model whose isospin indices the epsilons contract in pairs; hypercharge zero, lepton number two *)
Record lepton_violating (op : operator) (parts : list part) (pairs : list (str * str)) : Prop := mkLeptonViolating
  { lv_parts : Forall2 is_part (indexed_fields op) parts;
    lv_pairs : Forall2 lowers (epsilons op) pairs;
    lv_names : NoDup (names_of pairs);
    lv_contracted : Permutation (part_names parts) (names_of pairs);
    lv_neutral : sum_over six_hypercharge parts = 0%Z;
    lv_lepton : sum_over lepton_number parts = 2%Z }.
