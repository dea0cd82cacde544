(** * PropsTrees: C106, every tree diagram is considered *)

From Coq Require Import Ascii String List Bool Arith ZArith NArith Lia Permutation.
From Verif Require Import Base BaseFacts ModelIndex SpecIndex ProofsIndex ModelField ModelContract SpecContract ModelPartition SpecPartition PropsPartition DataTopology PropsTopology.
From Verif Require Import ModelExotic SpecExotic SpecCompletion PropsCompletion ModelInfo ModelOperators SpecOperators ProofsOperators PropsOperators PropsOperators2 SpecTrees ProofsTrees.
Import ListNotations.
Local Open Scope nat_scope.

(** ** The topologies of the package *)

Definition kinds_on (t : template ifield) : kt := tree_map (fun x => match fst x with Open b => b | Placed _ => true end) t.

Definition drawable (n m : nat) (q : kt) : bool :=
  match q with
  | Lf _ => false
  | Tp l => match map kind_of l with
            | [Some true; Some true; Some true] | [Some true; Some true; Some true; Some true]
            | [Some true; Some false; Some false] | [Some false; Some true; Some false] | [Some false; Some false; Some true] => true
            | _ => false end
            && negb (no_exchange q) && (legs idk true q =? n) && (legs idk false q =? m)
  end.

Lemma drawable_ok n m q : drawable n m q = true -> tree_diagram idk q /\ exchange q /\ legs idk true q = n /\ legs idk false q = m.
Proof.
  unfold drawable. destruct q as [|l]; [discriminate|]. rewrite !andb_true_iff. intros (((H & X) & Ln) & Lm). apply Nat.eqb_eq in Ln, Lm. split; [|split; [|auto]].
  - assert (G : forall ks, map kind_of l = map Some ks -> lines idk l ks).
    { clear. induction l as [|t l IH]; intros [|q ks] E; try discriminate; [constructor|]. injection E as E1 E2. constructor; [now apply line_kind_of|auto]. }
    assert (P1 : Permutation [false; true; false] [true; false; false]) by constructor.
    assert (P2 : Permutation [false; false; true] [true; false; false]) by (etransitivity; [apply perm_skip, perm_swap|constructor]).
    assert (V : exists ks, map kind_of l = map Some ks /\ vertex ks).
    { destruct (map kind_of l) as [|[[|]|] [|[[|]|] [|[[|]|] [|[[|]|] [|? ?]]]]]; try discriminate H; unfold vertex.
      - exists [true; true; true]. auto.
      - exists [true; true; true; true]. auto.
      - exists [true; false; false]. auto.
      - exists [false; true; false]. auto.
      - exists [false; false; true]. auto. }
    destruct V as (ks & E & V). exists l, ks. auto.
  - apply negb_true_iff in X. cbn in X. assert (Y : exists u, In u l /\ match u with Lf _ => true | Tp _ => false end = false).
    { clear - X. induction l as [|u l IH]; [discriminate|]. cbn in X. destruct u as [b|c]; [|exists (Tp c); split; [now left|reflexivity]]. destruct (IH X) as (v & I & E). exists v. split; [now right|exact E]. }
    destruct Y as ([b|c] & I & E); [discriminate|]. exists l, c. auto.
Qed.

(** a number that tells the topologies apart *)
Definition number (t : kt) : N :=
  let mix := fun x : N => ((x * x + 12345) mod 1048573)%N in
  diagram_number (fun b => if b then 3 else 5)%N mix (fun x => mix (x + 97)%N) t.

Fixpoint distinct_numbers (l : list N) : bool :=
  match l with [] => true | x :: l => negb (existsb (N.eqb x) l) && distinct_numbers l end.

Lemma distinct_ok (l : list kt) : distinct_numbers (map number l) = true -> ForallOrdPairs (fun q q' => ~ redrawn q q') l.
Proof.
  induction l as [|q l IH]; cbn; [constructor|]. rewrite andb_true_iff. intros [H1 H2]. constructor; [|auto]. apply Forall_forall. intros q' I R.
  apply negb_true_iff in H1. enough (existsb (N.eqb (number q)) (map number l) = true) by congruence. apply existsb_exists. exists (number q'). split; [now apply in_map|].
  apply N.eqb_eq. unfold number. now apply redrawn_number.
Qed.

Definition checked (n m : nat) (tops : list (topology ifield)) : bool :=
  forallb (drawable n m) (map (fun t => kinds_on (t_partition t)) tops) &&
  all_seen n m (map (fun t => kinds_on (t_partition t)) tops) &&
  distinct_numbers (map number (map (fun t => kinds_on (t_partition t)) tops)).

Lemma all_checked : forallb (fun x => match shipped (fst (fst x)) (snd (fst x)) with Ok tops => checked (fst (fst x)) (snd (fst x)) tops | Err _ => false end) kinds = true.
Proof. vm_compute. reflexivity. Qed.

Lemma kind_checked n m k tops : In (n, m, k) kinds -> shipped n m = Ok tops -> checked n m tops = true.
Proof. intros I E. pose proof (proj1 (forallb_forall _ _) all_checked (n, m, k) I) as C. cbn [fst snd] in C. rewrite E in C. exact C. Qed.

Lemma kinds_on_ok n m t : slots ifield t n m -> leg_kinds t (kinds_on t).
Proof.
  intros (_ & _ & F). unfold leg_kinds, kinds_on. rewrite tree_map_map. induction t as [x|l IH] using ptree_ind'; cbn [tree_map leaves_of] in *.
  - apply Forall_cons_iff in F as [(c & E) _]. rewrite E. reflexivity.
  - f_equal. apply Forall_flat_map in F. induction IH as [|t l Ht IH IHl]; [reflexivity|]. apply Forall_cons_iff in F as [F1 F2]. cbn. now rewrite Ht, IHl.
Qed.

(** C106 (1): the topologies of the package with [n] scalars and [m] fermions are tree diagrams with these legs, no two are
    the same, and every such diagram with an inner line is one of them. *)
Theorem C106_topologies n m k : In (n, m, k) kinds ->
  exists tops ks, shipped n m = Ok tops /\ List.length tops = k /\ Forall2 (fun t q => leg_kinds (t_partition t) q) tops ks /\
    Forall (fun q => tree_diagram (fun b => b) q /\ exchange q /\ legs (fun b => b) true q = n /\ legs (fun b => b) false q = m) ks /\
    ForallOrdPairs (fun q q' => ~ redrawn q q') ks /\
    forall d, tree_diagram (fun b => b) d -> exchange d -> legs (fun b => b) true d = n -> legs (fun b => b) false d = m -> exists q, In q ks /\ redrawn d q.
Proof.
  intros I. destruct (C37_shipped n m k I) as (tops & Es & Lt & W). pose proof (kind_checked n m k tops I Es) as C.
  unfold checked in C. rewrite !andb_true_iff in C. destruct C as [[C1 C2] C3]. exists tops, (map (fun t => kinds_on (t_partition t)) tops). split; [exact Es|]. split; [exact Lt|]. split; [|split; [|split]].
  - clear - W. induction tops as [|t tops IH]; cbn; constructor.
    + destruct (W t ltac:(now left)) as (rows & ns & es & _ & _ & Sl & _). now apply (kinds_on_ok n m).
    + apply IH. intros u Iu. apply W. now right.
  - apply Forall_forall. intros q Iq. rewrite forallb_forall in C1. now apply drawable_ok, C1.
  - now apply distinct_ok.
  - assert (Pos : 1 <= n + m). { clear - I. cbn in I. repeat (destruct I as [I|I]; [injection I as <- <- <-; lia|]). destruct I. }
    now apply all_seen_ok.
Qed.

(** C106 (2): the fields of a tree diagram can be put on one of the topologies such that the same diagram results. *)
Theorem C106_arranged n m k fields (d : ptree ifield) : In (n, m, k) kinds ->
  tree_diagram boson_field d -> exchange d -> Permutation (leaves_of d) fields ->
  List.length (filter boson_field fields) = n -> List.length (filter (fun f => negb (boson_field f)) fields) = m ->
  exists tops t u, shipped n m = Ok tops /\ In t tops /\ redrawn d (tree_map fst u) /\
    arrangement ifield boson_field fields (t_partition t) (tree_map (fun x : ifield * N => (Placed (fst x), snd x)) u).
Proof.
  intros I D X P Ln Lm. destruct (C106_topologies n m k I) as (tops & ks & Es & _ & F & _ & _ & H). exists tops.
  assert (B : forall b l, List.length (filter (fun f : ifield => Bool.eqb (boson_field f) b) l) = List.length (filter (fun f => if b then boson_field f else negb (boson_field f)) l)).
  { intros b l. f_equal. apply filter_ext. intros f. now destruct b, (boson_field f). }
  assert (PB : forall b, legs boson_field b d = List.length (filter (fun f => if b then boson_field f else negb (boson_field f)) fields)).
  { intros b. unfold legs. rewrite B. apply Permutation_length. now apply permutation_filter. }
  destruct (H (tree_map boson_field d)) as (q & Iq & R).
  - now apply diagram_map.
  - now apply exchange_map.
  - rewrite legs_map, PB. exact Ln.
  - rewrite legs_map, PB. exact Lm.
  - destruct (redrawn_lift boson_field _ _ R d eq_refl) as (d' & R' & E').
    assert (T : exists t, In t tops /\ leg_kinds (t_partition t) q).
    { clear - F Iq. induction F as [|t q' tops ks H F IH]; [destruct Iq|]. destruct Iq as [->|Iq]; [exists t; split; [now left|exact H]|]. destruct (IH Iq) as (t' & It & Ht). exists t'. split; [now right|exact Ht]. }
    destruct T as (t & It & K). unfold leg_kinds in K. rewrite <- E', tree_map_map in K.
    destruct (zip_trees (fun f => Open (boson_field f)) fst d' (t_partition t) (eq_sym K)) as (v & V1 & V2 & V3).
    exists t, (tree_map (fun x => (fst x, snd (snd x))) v). split; [exact Es|]. split; [exact It|]. rewrite !tree_map_map. cbn [fst snd]. split; [|split; [|split]].
    + rewrite (tree_map_ext _ fst) by reflexivity. rewrite V1. exact R'.
    + rewrite tree_map_map. cbn [snd]. rewrite <- V2, tree_map_map. reflexivity.
    + rewrite <- V2, !leaves_map. clear - V3. induction V3 as [|[f [s N]] l H F IH]; cbn; constructor; [|exact IH]. exists f. cbn in *. auto.
    + unfold fields_on. rewrite leaves_map. rewrite <- P. transitivity (leaves_of d'); [now apply redrawn_leaves|]. rewrite <- V1, leaves_map. clear.
      induction (leaves_of v) as [|x l IH]; cbn; [reflexivity|]. now constructor.
Qed.

(** C106 (3): operator_completions builds every tree diagram of the operator, for every contraction of colour: it returns a
    completion drawn like this or a term vanishes. *)
Theorem C106_completions : forall vanishes n op st nb nf k fc,
  colour_open n op -> n <= 5 -> n <> 3 -> (n = 2 -> forall i, In i (op_indices op) -> ix_name i <> fresh_name Colour (st Colour)) ->
  In (nb, nf, k) kinds -> topology_type op = Ok (nb, nf) ->
  List.length (filter boson_field (indexed_fields op)) = nb -> List.length (filter (fun f => negb (boson_field f)) (indexed_fields op)) = nf ->
  indexed_fields_with_counters op = Ok fc ->
  exists tops cops cs st',
    shipped nb nf = Ok tops /\ colour_singlets true [op] st = Ok (cops, st') /\ completions_of vanishes shipped op st = Ok (cs, st') /\
    forall d r, tree_diagram boson_field d -> exchange d -> Permutation (leaves_of d) (indexed_fields op) -> In r cops ->
      exists t u, In t tops /\ redrawn d (tree_map fst u) /\
        let perm := tree_map (fun x : ifield * N => (Placed (fst x), snd x)) u in
        fails_from vanishes r t perm \/ exists c, In c cs /\ made_from vanishes r t perm c.
Proof.
  intros vanishes n op st nb nf k fc O L5 N3 Fr Ik Ty Hb Hf Efc.
  destruct (C88_completions vanishes n op st nb nf k fc O L5 N3 Fr Ik Ty Hb Hf Efc) as (tops & cops & cs & st' & Es & _ & Ec & _ & _ & Eo & A & _).
  exists tops, cops, cs, st'. split; [exact Es|]. split; [exact Ec|]. split; [exact Eo|]. intros d r D X P Ir.
  destruct (C106_arranged nb nf k (indexed_fields op) d Ik D X P Hb Hf) as (tops' & t & u & Es' & It & R & Ar). rewrite Es in Es'. injection Es' as <-.
  exists t, u. split; [exact It|]. split; [exact R|]. cbv zeta. now apply A.
Qed.

(** ... in particular for all shipped operators *)
Theorem C106_shipped : forall vanishes, exists ops, eff_operators = Ok ops /\
  forall k op, In (k, op) ops -> exists n, n <= 2 /\
    forall st, (n <> 2 \/ st Colour < 209 \/ forall i, In i (op_indices op) -> ix_name i <> fresh_name Colour (st Colour)) ->
      exists nb nf tops cops cs st', shipped nb nf = Ok tops /\ colour_singlets true [op] st = Ok (cops, st') /\ completions_of vanishes shipped op st = Ok (cs, st') /\
        forall d r, tree_diagram boson_field d -> exchange d -> Permutation (leaves_of d) (indexed_fields op) -> In r cops ->
          exists t u, In t tops /\ redrawn d (tree_map fst u) /\
            let perm := tree_map (fun x : ifield * N => (Placed (fst x), snd x)) u in
            fails_from vanishes r t perm \/ exists c, In c cs /\ made_from vanishes r t perm c.
Proof.
  intros vanishes. destruct C87_operators as (ops & E & _ & _ & H). exists ops. split; [exact E|]. intros k op I. destruct (H k op I) as (_ & _ & n & nb & nf & m & fc & L & O & K & T & B & F & C & Fr).
  exists n. split; [exact L|]. intros st S. exists nb, nf.
  apply (C106_completions vanishes n op st nb nf m fc O); auto; try lia. intros E2 i Ii. destruct S as [S|[S|S]]; [contradiction|now apply (Fr E2)|now apply S].
Qed.

(** ** Examples and limits *)

(** the three ways to draw the exchange of a fermion between two leptons and two Higgs fields *)
Example C106_example1 : tree_diagram (fun b => b) (Tp [Lf false; Lf true; Tp [Lf false; Lf true]]) /\ exchange (Tp [Lf false; Lf true; Tp [Lf false; Lf true]]) /\
  redrawn (Tp [Lf false; Lf true; Tp [Lf false; Lf true]]) (Tp [Lf true; Tp [Lf true; Lf false]; Lf false]).
Proof.
  destruct (drawable_ok 2 2 (Tp [Lf false; Lf true; Tp [Lf false; Lf true]]) eq_refl) as (D & X & _). split; [exact D|]. split; [exact X|]. apply redrawn_turned.
  apply turned_trans with (Tp [Lf true; Tp [Lf false; Lf true]; Lf false]).
  - apply turned_order. apply (Permutation_cons_append [Lf true; Tp [Lf false; Lf true]] (Lf false)).
  - apply (turned_inside [Lf true] [Lf false]). apply turned_order. constructor.
Qed.

(** numbers of diagrams of the largest kinds *)
Example C106_example2 : In (5, 4, 264) kinds /\ In (2, 6, 35) kinds /\ In (6, 2, 66) kinds.
Proof. cbn. intuition. Qed.

(** without an inner line the diagram is missing: four scalars at a point *)
Theorem C106_contact_refuted : exists d tops ks, tree_diagram (fun b => b) d /\ legs (fun b => b) true d = 4 /\ legs (fun b => b) false d = 0 /\
  shipped 4 0 = Ok tops /\ Forall2 (fun t q => leg_kinds (t_partition t) q) tops ks /\ forall q, In q ks -> ~ redrawn d q.
Proof.
  destruct (C106_topologies 4 0 1) as (tops & ks & Es & _ & F & G & _); [cbn; auto 20|]. exists (Tp [Lf true; Lf true; Lf true; Lf true]), tops, ks. split.
  { exists [Lf true; Lf true; Lf true; Lf true], [true; true; true; true]. split; [reflexivity|]. split; [|right; left; reflexivity]. repeat constructor; apply (line_leg (fun b : bool => b)). }
  split; [reflexivity|]. split; [reflexivity|]. split; [exact Es|]. split; [exact F|]. intros q I R. rewrite Forall_forall in G. destruct (G q I) as (_ & X & _).
  apply redrawn_sym in R. apply (redrawn_exchange _ _ R) in X. destruct X as (l & c & [= <-] & J). cbn in J. intuition discriminate.
Qed.

(** and kinds of operators without topologies raise: three scalars and four fermions exist, four of each do not *)
Theorem C106_kinds_refuted : shipped 4 4 = Err PlainException /\
  tree_diagram (fun b => b) (Tp [Tp [Tp [Lf false; Lf false]; Tp [Lf false; Lf false]]; Tp [Lf true; Lf true]; Tp [Lf true; Lf true]]).
Proof.
  split; [vm_compute; reflexivity|]. apply (drawable_ok 4 4). reflexivity.
Qed.

Print Assumptions C106_topologies.
Print Assumptions C106_arranged.
Print Assumptions C106_completions.
Print Assumptions C106_shipped.
Print Assumptions C106_contact_refuted.
Print Assumptions C106_kinds_refuted.
