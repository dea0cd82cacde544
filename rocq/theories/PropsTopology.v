(** * PropsTopology: properties C50 and C37 for the topologies shipped with the package *)

From Coq Require Import Ascii String List Bool Arith ZArith NArith Lia Permutation.
From Verif Require Import Base BaseFacts Show ModelIndex ModelField ModelContract ModelPartition SpecPartition PropsPartition
  PropsPartition3 DataTopology.
From Verif Require Spec.
Import ListNotations.
Local Open Scope nat_scope.

(** ** C50: pairing *)

Section Pairing.
  (** comparing names of files whose stems have no dot *)
  Definition stem_leb (a b : str) : bool := str_leb (a ++ ["."%char]) (b ++ ["."%char]).

  Lemma name_leb e : forall a b, ~ In "."%char a -> ~ In "."%char b -> str_leb (a ++ "."%char :: e) (b ++ "."%char :: e) = stem_leb a b.
  Proof.
    unfold stem_leb, str_leb. induction a as [|x a IH]; intros [|y b] Na Nb; cbn [app lex_leb].
    - rewrite (proj2 (ascii_decides _ _) eq_refl). cbn [lex_leb]. induction e as [|z e IHe]; [reflexivity|]. cbn [lex_leb]. now rewrite (proj2 (ascii_decides _ _) eq_refl).
    - destruct (Ascii.eqb "."%char y) eqn:E; [|reflexivity]. apply ascii_decides in E. subst. exfalso. apply Nb. now left.
    - destruct (Ascii.eqb x "."%char) eqn:E; [|reflexivity]. apply ascii_decides in E. subst. exfalso. apply Na. now left.
    - destruct (Ascii.eqb x y); [|reflexivity]. apply IH; intros I; [apply Na|apply Nb]; now right.
  Qed.

  Lemma stem_leb_total a b : stem_leb a b = true \/ stem_leb b a = true.
  Proof. apply str_leb_total. Qed.
  Lemma stem_leb_trans a b c : stem_leb a b = true -> stem_leb b c = true -> stem_leb a c = true.
  Proof. apply str_leb_trans. Qed.
  Lemma stem_leb_antisym a b : stem_leb a b = true -> stem_leb b a = true -> a = b.
  Proof. intros H1 H2. pose proof (str_leb_antisym _ _ H1 H2) as E. now apply app_inv_tail in E. Qed.

  Lemma insert_map {A B} (le : B -> B -> bool) (f : A -> B) x l : map f (insert (fun a b => le (f a) (f b)) x l) = insert le (f x) (map f l).
  Proof. induction l as [|y l IH]; [reflexivity|]. cbn [insert map]. destruct (le (f x) (f y)); [reflexivity|]. cbn. now rewrite IH. Qed.

  Lemma sort_map {A B} (le : B -> B -> bool) (f : A -> B) l : map f (sort (fun a b => le (f a) (f b)) l) = sort le (map f l).
  Proof. induction l as [|x l IH]; [reflexivity|]. cbn [sort map]. now rewrite insert_map, IH. Qed.

  Lemma insert_ext {A} (le le' : A -> A -> bool) x l : (forall y, In y l -> le x y = le' x y) -> insert le x l = insert le' x l.
  Proof. induction l as [|y l IH]; intros H; [reflexivity|]. cbn [insert]. rewrite (H y (or_introl eq_refl)). destruct (le' x y); [reflexivity|]. f_equal. apply IH. intros; apply H; now right. Qed.

  Lemma insert_In' {A} (le : A -> A -> bool) x l y : In y (insert le x l) <-> y = x \/ In y l.
  Proof. induction l as [|z l IH]; cbn [insert]; [cbn; intuition|]. destruct (le x z); cbn; [intuition|]. rewrite IH. intuition. Qed.

  Lemma sort_In' {A} (le : A -> A -> bool) l y : In y (sort le l) <-> In y l.
  Proof. induction l as [|z l IH]; cbn [sort]; [reflexivity|]. rewrite insert_In', IH. cbn. intuition. Qed.

  Lemma sort_ext {A} (le le' : A -> A -> bool) l : (forall x y, In x l -> In y l -> le x y = le' x y) -> sort le l = sort le' l.
  Proof.
    induction l as [|x l IH]; intros H; [reflexivity|]. cbn [sort]. rewrite IH by (intros; apply H; now right). apply insert_ext. intros y I. apply H; [now left|right]. now apply sort_In' in I.
  Qed.

  Lemma starts_stem p : ~ In "."%char p -> forall s e, startswith p (s ++ "."%char :: e) = startswith p s.
  Proof.
    induction p as [|c p IH]; intros N s e; [now destruct s|]. destruct s as [|d s]; cbn [app startswith].
    - destruct (Ascii.eqb c "."%char) eqn:E; [|reflexivity]. apply ascii_decides in E. subst. exfalso. apply N. now left.
    - rewrite IH; [reflexivity|]. intros I. apply N. now right.
  Qed.

  Lemma glob_prefix n m : ~ In "."%char (show_nat n ++ lit "s" ++ show_nat m ++ lit "f_").
  Proof.
    assert (D : forall k, ~ In "."%char (show_nat k)) by (intros k I; pose proof (ProofsIndex.show_digits k) as F; rewrite Forall_forall in F; apply F in I; cbn in I; intuition discriminate).
    rewrite !in_app_iff. cbn. intros [I|[[I|[]]|[I|[I|[I|[]]]]]]; try discriminate; exact (D _ I).
  Qed.

  (** a directory: stems and contents, one extension *)
  Definition named (ext : str) (l : list (str * str)) : list (str * str) := map (fun x : str * str => (fst x ++ "."%char :: ext, snd x)) l.

  Lemma glob_named n m ext l : (forall x, In x l -> ~ In "."%char (fst x)) ->
    glob n m (named ext l) =
    named ext (sort (fun a b => stem_leb (fst a) (fst b)) (filter (fun x => startswith (show_nat n ++ lit "s" ++ show_nat m ++ lit "f_") (fst x)) l)).
  Proof.
    intros H. unfold glob, named. set (p := show_nat n ++ lit "s" ++ show_nat m ++ lit "f_"). pose proof (glob_prefix n m) as Np. fold p in Np. clearbody p.
    assert (Ef : filter (fun x => startswith p (fst x)) (map (fun x : str * str => (fst x ++ "."%char :: ext, snd x)) l) = map (fun x : str * str => (fst x ++ "."%char :: ext, snd x)) (filter (fun x => startswith p (fst x)) l)).
    { clear H. induction l as [|[s0 t0] l IH]; [reflexivity|]. cbn [map filter]. cbn [fst]. rewrite (starts_stem p Np). destruct (startswith p s0); cbn [map]; now rewrite IH. }
    rewrite Ef. rewrite <- (sort_map (fun a b => str_leb (fst a) (fst b))). f_equal. apply sort_ext. intros x y Ix Iy. cbn [fst]. apply filter_In in Ix as [Ix _]. apply filter_In in Iy as [Iy _]. apply name_leb; auto.
  Qed.

  (** C50: each partition comes with the graph of the same stem; the topologies are those whose names start as asked *)
  Theorem C50_pairing A n m pe de ge (ps ds gs : list (str * str)) (tops : list (topology A)) :
    (forall x, In x ps -> ~ In "."%char (fst x)) -> NoDup (map fst ps) ->
    Permutation (map fst ps) (map fst ds) -> Permutation (map fst ps) (map fst gs) ->
    get_topology_data (named pe ps) (named de ds) (named ge gs) n m = Ok tops ->
    Permutation (map t_file tops)
      (map (fun x => fst x ++ "."%char :: pe) (filter (fun x => startswith (show_nat n ++ lit "s" ++ show_nat m ++ lit "f_") (fst x)) ps)) /\
    forall t, In t tops -> exists stem ptext gtext, t_file t = stem ++ "."%char :: pe /\ In (stem, ptext) ps /\ In (stem, gtext) gs /\
      eval_partition ptext = Ok (t_partition t) /\ eval_graph gtext = Ok (t_graph t).
  Proof.
    intros Nd No Pd Pg H. assert (Ndd : forall x, In x ds -> ~ In "."%char (fst x)).
    { intros x I. assert (Ix : In (fst x) (map fst ps)) by (apply (Permutation_in _ (Permutation_sym Pd)); now apply in_map). apply in_map_iff in Ix as (y & <- & Iy). auto. }
    assert (Ndg : forall x, In x gs -> ~ In "."%char (fst x)).
    { intros x I. assert (Ix : In (fst x) (map fst ps)) by (apply (Permutation_in _ (Permutation_sym Pg)); now apply in_map). apply in_map_iff in Ix as (y & <- & Iy). auto. }
    unfold get_topology_data in H. rewrite !glob_named in H by assumption.
    set (sel := fun l : list (str * str) => filter (fun x => startswith (show_nat n ++ lit "s" ++ show_nat m ++ lit "f_") (fst x)) l) in *.
    set (ord := fun l : list (str * str) => sort (fun a b => stem_leb (fst a) (fst b)) (sel l)).
    assert (Or : forall l, Permutation (map fst ps) (map fst l) -> map fst (ord l) = map fst (ord ps)).
    { intros l P. unfold ord. rewrite !(sort_map stem_leb fst). apply sort_perm_eq; [apply stem_leb_total|apply stem_leb_trans|apply stem_leb_antisym|]. unfold sel.
      assert (Ef : forall (P : str -> bool) (l : list (str * str)), map fst (filter (fun x => P (fst x)) l) = filter P (map fst l)).
      { clear. intros P l. induction l as [|x l IH]; [reflexivity|]. cbn. destruct (P (fst x)); cbn; now rewrite IH. }
      rewrite !(Ef (startswith _)). apply permutation_filter. now symmetry. }
    assert (Pp : Permutation (sel ps) (ord ps)) by apply sort_perm.
    fold (ord ps) (ord ds) (ord gs) in H.
    assert (G : forall P D G : list (str * str), map fst D = map fst P -> map fst G = map fst P -> incl P ps -> incl G gs -> forall tops,
      mapM (fun pdg => do p <- eval_partition (snd (fst (fst pdg))); do g <- eval_graph (snd (snd pdg)); Ok (mkTop p g (fst (fst (fst pdg)))))
              (combine (combine (named pe P) (named de D)) (named ge G)) = Ok tops ->
      map t_file tops = map (fun x => fst x ++ "."%char :: pe) P /\
      forall t, In t tops -> exists stem ptext gtext, t_file t = stem ++ "."%char :: pe /\ In (stem, ptext) ps /\ In (stem, gtext) gs /\
        eval_partition (A := A) ptext = Ok (t_partition t) /\ eval_graph gtext = Ok (t_graph t)).
    { clear. induction P as [|[s pt] P IH]; intros [|[s1 dt] D] [|[s2 gt] G] E1 E2 IP IG tops H; try discriminate.
      - cbn in H. injection H as <-. split; [reflexivity|intros t []].
      - cbn [map fst] in E1, E2. injection E1 as -> E1. injection E2 as -> E2. cbn [named map combine fst snd mapM] in H. apply bind_ok in H as (t & Et & H). apply bind_ok in H as (ts & Ets & H). cbv beta in H. injection H as <-.
        apply bind_ok in Et as (p & Ep & Et). apply bind_ok in Et as (g & Eg & Et). injection Et as <-.
        destruct (IH D G E1 E2) with (tops := ts) as [I1 I2]; [intros x I; apply IP; now right|intros x I; apply IG; now right|exact Ets|]. split.
        + cbn [map t_file fst]. now rewrite I1.
        + intros t [<-|I]; [|now apply I2]. exists s, pt, gt. cbn [t_file t_partition t_graph]. split; [reflexivity|]. split; [apply IP; now left|]. split; [apply IG; now left|]. auto. }
    destruct (named pe (ord ps)) as [|x q] eqn:En; [discriminate|]. rewrite <- En in H. apply (G (ord ps) (ord ds) (ord gs)) in H.
    - destruct H as [H1 H2]. split; [|exact H2]. rewrite H1. apply Permutation_map. now symmetry.
    - now apply Or.
    - now apply Or.
    - intros y I. apply (Permutation_in y (Permutation_sym Pp)) in I. now apply filter_In in I.
    - intros y I. unfold ord in I. apply sort_In' in I. now apply filter_In in I.
  Qed.

  (** with a dot in a stem the pairing goes wrong: partition 1s2f_a comes with the graph of 1s2f_a.d *)
  Theorem C50_dot_refuted :
    exists t, In t (match get_topology_data (A := unit)
      (named (lit "dat") [(lit "1s2f_a", lit "S(1)"); (lit "1s2f_a.d", lit "S(2)")])
      (named (lit "png") [(lit "1s2f_a", []); (lit "1s2f_a.d", [])])
      (named (lit "csv") [(lit "1s2f_a", lit "1,1"); (lit "1s2f_a.d", lit "2,2")]) 1 2 with Ok l => l | Err _ => [] end) /\
      t_partition t = Lf (Open true, 1%N) /\ t_graph t = [(2, 2)]%N.
  Proof. eexists. split; [vm_compute; right; left; reflexivity|split; reflexivity]. Qed.
End Pairing.

(** ** C37: the topologies of the package *)

Definition dir (l : list (string * string)) : list (str * str) := map (fun x => (lit (fst x), lit (snd x))) l.

Definition shipped (n m : nat) : res (list (topology ifield)) :=
  get_topology_data (dir partitions_dir) (dir diagrams_dir) (dir graphs_dir) n m.

(** types of operators with topologies, and how many there are *)
Definition kinds : list (nat * nat * nat) :=
  [(0, 4, 1); (0, 6, 2); (1, 4, 2); (2, 2, 2); (2, 4, 8); (2, 6, 35); (3, 2, 4); (3, 4, 23); (4, 0, 1); (4, 2, 10); (5, 2, 24); (5, 4, 264); (6, 0, 5); (6, 2, 66)].

(** *** a decision procedure *)

Fixpoint join_check (g : graph) (t : ptree N) : option (N * list (N * N)) :=
  match t with
  | Lf n => Some (n, [])
  | Tp l =>
    let fix go (l : list (ptree N)) : option (list N * list (N * N)) :=
      match l with
      | [] => Some ([], [])
      | t :: l => match join_check g t with
                  | None => None
                  | Some (n, es) => match go l with None => None | Some (ns, ess) => Some (n :: ns, es ++ ess) end
                  end
      end in
    match go l with
    | None => None
    | Some ([n], es) => Some (n, es)
    | Some (ns, ess) =>
      if (2 <=? List.length ns) && (List.length ns <=? 3)
      then match get_connecting_edge g ns with Ok (c, o) => Some (c, ess ++ [(c, o)]) | Err _ => None end
      else None
    end
  end.

Fixpoint join_all (g : graph) (l : list (ptree N)) : option (list N * list (N * N)) :=
  match l with
  | [] => Some ([], [])
  | t :: l => match join_check g t with
              | None => None
              | Some (n, es) => match join_all g l with None => None | Some (ns, ess) => Some (n :: ns, es ++ ess) end
              end
  end.

Lemma joins_all_length g l ns es : joins_all g l ns es -> List.length ns = List.length l.
Proof. induction 1; cbn; auto. Qed.

Lemma join_check_ok g t : forall n es, join_check g t = Some (n, es) -> joins g t n es.
Proof.
  induction t as [x|l IH] using ptree_ind'; intros n es H.
  - cbn in H. injection H as <- <-. constructor.
  - cbn [join_check] in H. set (go := fix go (l : list (ptree N)) : option (list N * list (N * N)) := _) in H.
    assert (G : forall ns ess, go l = Some (ns, ess) -> joins_all g l ns ess).
    { clear H. induction IH as [|t l Ht IH IHl]; intros ns ess H; cbn [go] in H.
      - injection H as <- <-. constructor.
      - destruct (join_check g t) as [[n1 es1]|]; [|discriminate]. fold go in H. destruct (go l) as [[ns1 ess1]|]; [|discriminate]. injection H as <- <-. constructor; auto. }
    destruct (go l) as [[ns ess]|]; [|discriminate]. specialize (G ns ess eq_refl). pose proof (joins_all_length _ _ _ _ G) as L.
    destruct ns as [|n1 [|n2 ns]]; [discriminate| |].
    + injection H as <- <-. destruct l as [|t [|]]; try discriminate. inversion G as [|? ? ? ? ? ? Jt Jn]; subst. inversion Jn; subst. rewrite app_nil_r. now constructor.
    + destruct ((2 <=? _) && (_ <=? 3)) eqn:B; [|discriminate]. apply andb_true_iff in B as [B1 B2]. apply Nat.leb_le in B1, B2.
      destruct (get_connecting_edge g (n1 :: n2 :: ns)) as [[c o]|] eqn:Ec; [|discriminate]. injection H as <- <-. apply C37_connecting_edge in Ec. econstructor; [exact G|rewrite <- L; lia|exact Ec].
Qed.

Lemma join_all_ok g l : forall ns es, join_all g l = Some (ns, es) -> joins_all g l ns es.
Proof.
  induction l as [|t l IH]; intros ns es H; cbn [join_all] in H; [injection H as <- <-; constructor|].
  destruct (join_check g t) as [[n1 es1]|] eqn:E; [|discriminate]. destruct (join_all g l) as [[ns1 ess1]|]; [|discriminate]. injection H as <- <-. constructor; [now apply join_check_ok|auto].
Qed.

Definition edge_eqb (a b : N * N) : bool := N.eqb (fst a) (fst b) && N.eqb (snd a) (snd b).

Lemma edge_decides : decides edge_eqb.
Proof. intros [a b] [c d]. unfold edge_eqb. cbn. rewrite andb_true_iff, !N.eqb_eq. split; [intros [-> ->]; reflexivity|intros [= -> ->]; auto]. Qed.

Fixpoint nodup_check {B} (eqb : B -> B -> bool) (l : list B) : bool :=
  match l with [] => true | x :: l => negb (mem_by eqb x l) && nodup_check eqb l end.

Lemma nodup_check_ok {B} (eqb : B -> B -> bool) (H : decides eqb) l : nodup_check eqb l = true -> NoDup l.
Proof.
  induction l as [|x l IH]; intros C; constructor; cbn in C; apply andb_true_iff in C as [C1 C2]; [|auto]. apply negb_true_iff in C1. intros I. apply (mem_by_In H) in I. congruence.
Qed.

Definition swap (e : N * N) : N * N := (snd e, fst e).

Definition shape_check (n m : nat) (t : template ifield) (g : graph) : bool :=
  match t with
  | Lf _ => false
  | Tp rows =>
    let leaves := leaves_of t in
    let ext := map snd leaves in
    let S' := filter (fun x : slot_of ifield * N => match fst x with Open true => true | _ => false end) leaves in
    let F' := filter (fun x : slot_of ifield * N => match fst x with Open false => true | _ => false end) leaves in
    (3 <=? List.length rows) && (List.length rows <=? 4) && (List.length S' =? n) && (List.length F' =? m) &&
    forallb (fun x => match fst x with Open _ => true | Placed _ => false end) leaves &&
    match join_all g (map (tree_map snd) rows) with
    | None => false
    | Some (ns, es) =>
      match ns with
      | [] => false
      | v :: _ => existsb (fun c => forallb (fun w => mem_by N.eqb w ns) (neighbours g c) && forallb (fun w => mem_by N.eqb w (neighbours g c)) ns) (neighbours g v)
      end &&
      nodup_check N.eqb ext &&
      forallb (fun x => List.length (neighbours g x) =? 1) ext &&
      nodup_check edge_eqb es &&
      forallb (fun e => mem_by N.eqb (snd e) (neighbours g (fst e)) && negb (mem_by edge_eqb (swap e) es) && negb (mem_by N.eqb (fst e) ext) && negb (mem_by N.eqb (snd e) ext)) es &&
      forallb (fun e => mem_by N.eqb (fst e) ext || mem_by N.eqb (snd e) ext || mem_by edge_eqb e es || mem_by edge_eqb (swap e) es) g
    end
  end.

Lemma shape_check_ok n m t g : shape_check n m t g = true -> well_shaped n m t g.
Proof.
  unfold shape_check. destruct t as [x|rows]; [discriminate|]. cbv zeta. set (t := Tp rows). set (ext := map snd (leaves_of t)).
  destruct (join_all g (map (tree_map snd) rows)) as [[ns es]|] eqn:J; [|now rewrite andb_false_r]. rewrite !andb_true_iff.
  intros (((((H1 & H2) & H3) & H4) & H5) & ((((H6 & H7) & H8) & H9) & H10) & H11).
  exists rows, ns, es. split; [reflexivity|]. apply Nat.leb_le in H1, H2. apply Nat.eqb_eq in H3, H4. rewrite forallb_forall in H5, H8, H10, H11.
  split; [lia|]. split.
  { split; [exact H3|]. split; [exact H4|]. apply Forall_forall. intros y I. specialize (H5 y I). destruct (fst y); [eauto|discriminate]. }
  split; [now apply join_all_ok|]. split.
  { destruct ns as [|v ns']; [discriminate|]. apply existsb_exists in H6 as (c & _ & H6). apply andb_true_iff in H6 as [A1 A2]. rewrite forallb_forall in A1, A2.
    exists c. intros w. rewrite <- neighbours_In. split; intros I; [apply (mem_by_In N_decides), A1, I|apply (mem_by_In N_decides), A2, I]. }
  fold ext in H7, H8 |- *. split; [now apply (nodup_check_ok _ N_decides)|]. split.
  { intros y I. specialize (H8 (snd y) (in_map snd _ _ I)). apply Nat.eqb_eq in H8. destruct (neighbours g (snd y)) as [|v [|]] eqn:E; try discriminate. exists v. intros w. rewrite <- neighbours_In, E. cbn. intuition. }
  split; [now apply (nodup_check_ok _ edge_decides)|]. split.
  - intros a b I. specialize (H10 _ I). rewrite !andb_true_iff, !negb_true_iff in H10. cbn [fst snd swap] in H10. destruct H10 as (((K1 & K2) & K3) & K4).
    split; [apply neighbours_In; now apply (mem_by_In N_decides)|]. split; [|split]; intros I'; [apply (mem_by_In edge_decides) in I'|apply (mem_by_In N_decides) in I'|apply (mem_by_In N_decides) in I']; unfold swap in *; cbn [fst snd] in *; congruence.
  - intros a b [I|I]; specialize (H11 _ I); rewrite !orb_true_iff in H11; unfold swap in H11; cbn [fst snd] in H11; destruct H11 as [[[K|K]|K]|K];
      (apply (mem_by_In N_decides) in K || apply (mem_by_In edge_decides) in K); auto.
Qed.

(** C37 (3): all topologies of the package are well shaped *)
Theorem C37_shipped n m k : In (n, m, k) kinds ->
  exists tops, shipped n m = Ok tops /\ List.length tops = k /\ forall t, In t tops -> well_shaped n m (t_partition t) (t_graph t).
Proof.
  assert (C : forallb (fun x => match shipped (fst (fst x)) (snd (fst x)) with
                                | Ok tops => (List.length tops =? snd x) && forallb (fun t => shape_check (fst (fst x)) (snd (fst x)) (t_partition t) (t_graph t)) tops
                                | Err _ => false end) kinds = true) by (vm_compute; reflexivity).
  intros I. rewrite forallb_forall in C. specialize (C _ I). cbn [fst snd] in C. destruct (shipped n m) as [tops|]; [|discriminate].
  apply andb_true_iff in C as [C1 C2]. apply Nat.eqb_eq in C1. exists tops. split; [reflexivity|]. split; [exact C1|]. intros t It. rewrite forallb_forall in C2. apply shape_check_ok, C2, It.
Qed.

(** no other kind of operator has topologies *)
Lemma digits_prefix c d1 : forall d2 r1 r2 x, (forall y, In y d1 -> y <> c) -> (forall y, In y d2 -> y <> c) ->
  startswith (d1 ++ c :: r1) x = true -> startswith (d2 ++ c :: r2) x = true -> d1 = d2 /\ exists x', startswith r1 x' = true /\ startswith r2 x' = true.
Proof.
  induction d1 as [|a d1 IH]; intros [|b d2] r1 r2 [|y x] H1 H2 S1 S2; cbn [app startswith] in S1, S2; try discriminate; apply andb_true_iff in S1 as [E1 S1]; apply andb_true_iff in S2 as [E2 S2];
    apply ascii_decides in E1, E2; subst.
  - eauto.
  - destruct (H2 y (or_introl eq_refl) eq_refl).
  - destruct (H1 y (or_introl eq_refl) eq_refl).
  - destruct (IH d2 r1 r2 x) as [-> Hx]; auto; intros z I; [apply H1|apply H2]; now right.
Qed.

Definition some_kind (x : str * str) : bool :=
  existsb (fun q => startswith (show_nat (fst (fst q)) ++ lit "s" ++ show_nat (snd (fst q)) ++ lit "f_") (fst x)) kinds.

Lemma other_kinds A ps ds gs n m : forallb some_kind ps = true ->
  (exists k, In (n, m, k) kinds) \/ get_topology_data (A := A) ps ds gs n m = Err PlainException.
Proof.
  intros C. unfold get_topology_data. destruct (glob n m ps) as [|y l] eqn:G; [now right|left].
  assert (I : In y (glob n m ps)) by (rewrite G; now left). unfold glob in I. apply sort_In' in I. apply filter_In in I as [I S].
  rewrite forallb_forall in C. specialize (C y I). apply existsb_exists in C as ([[a b] k] & Ik & Sk). cbn [fst snd] in Sk. exists k.
  assert (D : forall k c, ~ is_digit c -> forall y, In y (show_nat k) -> y <> c).
  { intros q c Nc z Iz ->. apply Nc. pose proof (ProofsIndex.show_digits q) as F. rewrite Forall_forall in F. now apply F. }
  assert (Ns : ~ is_digit "s"%char) by (cbn; intuition discriminate). assert (Nf : ~ is_digit "f"%char) by (cbn; intuition discriminate).
  destruct (digits_prefix "s"%char (show_nat n) (show_nat a) (show_nat m ++ lit "f_") (show_nat b ++ lit "f_") (fst y)) as [E1 (x' & X1 & X2)]; [now apply D|now apply D|exact S|exact Sk|].
  destruct (digits_prefix "f"%char (show_nat m) (show_nat b) (lit "_") (lit "_") x') as [E2 _]; [now apply D|now apply D|exact X1|exact X2|].
  apply ProofsIndex.show_nat_inj in E1, E2. rewrite E1, E2. exact Ik.
Qed.

Theorem C37_kinds n m : (exists k, In (n, m, k) kinds) \/ shipped n m = Err PlainException.
Proof. apply other_kinds. vm_compute. reflexivity. Qed.

(** C37 (4): whatever fields are distributed over a topology of the package, and however their contractions turn out, the
    reduction raises nothing *)
Definition place (x : ifield * N) : slot_of ifield * N := (Placed (fst x), snd x).

Lemma placed_tree (t : template ifield) : Forall (fun x => exists f, fst x = Placed f) (leaves_of t) -> exists u, t = tree_map place u.
Proof.
  induction t as [[s n]|l IH] using ptree_ind'; cbn [leaves_of]; intros H.
  - apply Forall_cons_iff in H as [(f & E) _]. cbn in E. subst. exists (Lf (f, n)). reflexivity.
  - assert (G : exists us, l = map (tree_map place) us).
    { induction IH as [|t l Ht IH IHl]; [exists []; reflexivity|]. cbn [flat_map] in H. apply Forall_app in H as [H1 H2]. destruct (Ht H1) as (u & ->). destruct (IHl H2) as (us & ->). exists (u :: us). reflexivity. }
    destruct G as (us & ->). exists (Tp us). reflexivity.
Qed.

Lemma tree_map_map {B C D} (f : B -> C) (h : C -> D) t : tree_map h (tree_map f t) = tree_map (fun x => h (f x)) t.
Proof. induction t as [x|l IH] using ptree_ind'; [reflexivity|]. cbn [tree_map]. f_equal. induction IH as [|t l Ht IH IHl]; [reflexivity|]. cbn. now rewrite Ht, IHl. Qed.

Lemma tree_map_ext {B C} (f h : B -> C) t : (forall x, f x = h x) -> tree_map f t = tree_map h t.
Proof. intros E. induction t as [x|l IH] using ptree_ind'; cbn; [now rewrite E|]. f_equal. induction IH as [|t l Ht IH IHl]; [reflexivity|]. cbn. now rewrite Ht, IHl. Qed.

Theorem C37_never_raises n m k tops t fields is_boson t' T E CS feqb contract last_vertex (gauge : list E) (cs : CS) :
  In (n, m, k) kinds -> shipped n m = Ok tops -> In t tops ->
  List.length (filter is_boson fields) = n -> List.length (filter (fun f => negb (is_boson f)) fields) = m ->
  (forall f, feqb f f = true) -> (forall f g, feqb f g = true -> feqb g f = true) -> (forall f g h, feqb f g = true -> feqb g h = true -> feqb f h = true) ->
  In t' (distribute_fields ifield is_boson feqb fields (t_partition t)) ->
  (forall fs cs, 2 <= List.length fs <= 3 -> exists r, contract fs gauge cs = Ok r) ->
  (forall fs, 3 <= List.length fs <= 4 -> exists r, last_vertex fs gauge = Ok r) ->
  exists rows, t' = Tp (map (tree_map place) rows) /\
  exists r, construct_completion ifield T E CS feqb contract last_vertex (map (embed ifield) rows) gauge (t_graph t) cs = Ok r.
Proof.
  intros Ik Es It Hn Hm R1 R2 R3 I' Ct Lt. destruct (C37_shipped n m k Ik) as (tops' & Es' & _ & W). rewrite Es in Es'. injection Es' as <-.
  destruct (W t It) as (rows & ns & es & Er & Len & Sl & J & _).
  destruct (C35_distribute ifield is_boson feqb R1 R2 R3 fields (t_partition t)) as (D1 & _); [now rewrite Hn, Hm|]. destruct (D1 t' I') as (M & F & _).
  destruct (placed_tree t') as (u & ->).
  { clear - F. induction F as [|x y l l' (f & _ & ->) F IH]; constructor; [exists f; reflexivity|exact IH]. }
  rewrite tree_map_map in M. rewrite (tree_map_ext _ snd) in M by reflexivity. rewrite Er in M. destruct u as [x|us]; [discriminate|]. cbn [tree_map] in M. injection M as M.
  exists us. split; [reflexivity|]. assert (L : List.length us = List.length rows) by (rewrite <- (map_length (tree_map snd) us), M, map_length; reflexivity).
  eapply C37_no_error; [exact Ct|rewrite M; exact J|]. intros fs Lf. apply Lt. lia.
Qed.

Print Assumptions C50_pairing.
Print Assumptions C50_dot_refuted.
Print Assumptions C37_shipped.
Print Assumptions C37_kinds.
Print Assumptions C37_never_raises.
