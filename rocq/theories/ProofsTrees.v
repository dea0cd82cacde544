(** * ProofsTrees: drawings of tree diagrams, their enumeration and an invariant (C106) *)

From Coq Require Import List Bool Arith ZArith NArith Lia Permutation.
From Verif Require Import ModelPartition SpecPartition PropsPartition SpecTrees.
Import ListNotations.
Local Open Scope nat_scope.

Scheme line_mut := Minimality for line Sort Prop
  with lines_mut := Minimality for lines Sort Prop.

(** ** Drawings *)

Section Drawings.
  Context {A : Type}.

  Lemma turned_sym (t u : ptree A) : turned t u -> turned u t.
  Proof.
    induction 1; [apply turned_refl|now apply turned_order, Permutation_sym|now apply turned_inside|eapply turned_trans; eauto].
  Qed.

  Lemma redrawn_refl (t : ptree A) : redrawn t t.
  Proof. apply redrawn_turned, turned_refl. Qed.

  Lemma redrawn_sym (t u : ptree A) : redrawn t u -> redrawn u t.
  Proof. induction 1; [now apply redrawn_turned, turned_sym|apply redrawn_across|eapply redrawn_trans; eauto]. Qed.

  Lemma turned_children (l l' : list (ptree A)) : Forall2 turned l l' -> turned (Tp l) (Tp l').
  Proof.
    intros F. enough (G : forall p, turned (Tp (p ++ l)) (Tp (p ++ l'))) by exact (G []).
    induction F as [|t t' l l' H F IH]; intros p; [apply turned_refl|].
    apply turned_trans with (Tp (p ++ t' :: l)); [now apply turned_inside|].
    specialize (IH (p ++ [t'])). rewrite <- !app_assoc in IH. exact IH.
  Qed.

  Lemma turned_leaves (t u : ptree A) : turned t u -> Permutation (leaves_of t) (leaves_of u).
  Proof.
    induction 1 as [t|l l' P|p q t t' H IH|t u v H1 IH1 H2 IH2]; [reflexivity| | |now rewrite IH1].
    - cbn [leaves_of]. induction P; cbn [flat_map]; [reflexivity|now apply Permutation_app_head| |etransitivity; eassumption].
      rewrite !app_assoc. apply Permutation_app_tail, Permutation_app_comm.
    - cbn [leaves_of]. rewrite !flat_map_app. cbn [flat_map]. apply Permutation_app_head. now apply Permutation_app_tail.
  Qed.

  Lemma redrawn_leaves (t u : ptree A) : redrawn t u -> Permutation (leaves_of t) (leaves_of u).
  Proof.
    induction 1 as [t u H|l r|t u v H1 IH1 H2 IH2]; [now apply turned_leaves| |now rewrite IH1].
    cbn [leaves_of flat_map]. apply Permutation_app_comm.
  Qed.

  Lemma turned_exchange (t u : ptree A) : turned t u -> exchange t -> exchange u.
  Proof.
    induction 1 as [t|l l' P|p q t t' H IH|t u v H1 IH1 H2 IH2]; intros X; auto.
    - destruct X as (m & c & [= <-] & I). exists l', c. split; [reflexivity|]. now apply (Permutation_in _ P).
    - destruct X as (m & c & [= <-] & I). apply in_app_iff in I as [I|[->|I]].
      + exists (p ++ t' :: q), c. split; [reflexivity|]. apply in_app_iff. now left.
      + assert (E : exists c', t' = Tp c').
        { clear - H. remember (Tp c) as t eqn:E. revert c E. induction H; intros c0 E; subst; eauto; try discriminate.
          edestruct IHturned1 as (c1 & ->); [reflexivity|]. now apply (IHturned2 c1). }
        destruct E as (c' & ->). exists (p ++ Tp c' :: q), c'. split; [reflexivity|]. apply in_app_iff. right. now left.
      + exists (p ++ t' :: q), c. split; [reflexivity|]. apply in_app_iff. right. now right.
  Qed.

  Lemma redrawn_exchange (t u : ptree A) : redrawn t u -> exchange t -> exchange u.
  Proof.
    induction 1 as [t u H|l r|t u v H1 IH1 H2 IH2]; intros X; auto; [now apply (turned_exchange t)|].
    exists (Tp r :: l), r. split; [reflexivity|now left].
  Qed.

  (** *** kinds of lines *)

  Variable kind : A -> bool.

  Lemma lines_app l m ks : lines kind (l ++ m) ks -> exists k1 k2, ks = k1 ++ k2 /\ lines kind l k1 /\ lines kind m k2.
  Proof.
    revert ks. induction l as [|t l IH]; intros ks H; [exists [], ks; repeat split; [constructor|exact H]|].
    inversion H as [|t0 k l0 ks0 L Ls]; subst. destruct (IH ks0 Ls) as (k1 & k2 & -> & H1 & H2). exists (k :: k1), k2. repeat split; [now constructor|exact H2].
  Qed.

  Lemma app_lines l m k1 k2 : lines kind l k1 -> lines kind m k2 -> lines kind (l ++ m) (k1 ++ k2).
  Proof. intros H1 H2. induction H1 as [|t k l ks L Ls IH]; cbn; [exact H2|now constructor]. Qed.

  Lemma lines_perm l l' : Permutation l l' -> forall ks, lines kind l ks -> exists ks', Permutation ks ks' /\ lines kind l' ks'.
  Proof.
    induction 1 as [|t l l' P IH|t u l|l l' l'' P1 IH1 P2 IH2]; intros ks H.
    - exists ks. auto.
    - inversion H as [|t0 k l0 ks0 L Ls]; subst. destruct (IH _ Ls) as (ks' & P' & H'). exists (k :: ks'). split; [now constructor|now constructor].
    - inversion H as [|t0 k l0 ks0 L Ls]; subst. inversion Ls as [|t0 k' l0 ks' L' Ls']; subst. exists (k' :: k :: ks'). split; [constructor|now repeat constructor].
    - destruct (IH1 _ H) as (k1 & Q1 & H1). destruct (IH2 _ H1) as (k2 & Q2 & H2). exists k2. split; [now rewrite Q1|exact H2].
  Qed.

  Lemma vertex_perm ks ks' : Permutation ks ks' -> vertex ks -> vertex ks'.
  Proof. intros P [V|[V|V]]; [left|right; left|right; right]; rewrite <- V; now apply Permutation_sym. Qed.

  Lemma turned_line (t u : ptree A) : turned t u ->
    (forall k, line kind t k -> line kind u k) /\ (tree_diagram kind t -> tree_diagram kind u).
  Proof.
    induction 1 as [t|l l' P|p q t t' H IH|t u v H1 IH1 H2 IH2]; auto.
    - split.
      + intros k L. inversion L as [|l0 ks k0 Ls V]; subst. destruct (lines_perm _ _ P _ Ls) as (ks' & Pk & Ls'). apply line_inner with ks'; [exact Ls'|]. revert V. apply vertex_perm. now constructor.
      + intros (m & ks & [= <-] & Ls & V). destruct (lines_perm _ _ P _ Ls) as (ks' & Pk & Ls'). exists l', ks'. repeat split; [exact Ls'|]. now apply (vertex_perm ks).
    - destruct IH as [IH _].
      assert (G : forall ks, lines kind (p ++ t :: q) ks -> lines kind (p ++ t' :: q) ks).
      { intros ks Ls. apply lines_app in Ls as (k1 & k2 & -> & H1 & H2). inversion H2; subst. apply app_lines; [exact H1|constructor; auto]. }
      split.
      + intros k L. inversion L as [|l0 ks k0 Ls V]; subst. apply line_inner with ks; auto.
      + intros (m & ks & [= <-] & Ls & V). exists (p ++ t' :: q), ks. auto.
    - destruct IH1, IH2. split; auto.
  Qed.

  Lemma redrawn_diagram (t u : ptree A) : redrawn t u -> tree_diagram kind t -> tree_diagram kind u.
  Proof.
    induction 1 as [t u H|l r|t u v H1 IH1 H2 IH2]; auto; [now apply (turned_line t u)|].
    intros (m & ks & [= <-] & Ls & V). inversion Ls as [|t0 k l0 kr L Lr]; subst. inversion L as [|l0 kl k0 Ll Vl]; subst.
    exists (Tp r :: l), (k :: kl). repeat split; [|exact Vl]. constructor; [|exact Ll]. now apply line_inner with kr.
  Qed.

  (** *** drawn from the vertex of a leg *)

  Lemma from_leg a (t : ptree A) : In a (leaves_of t) -> forall r, exists l, redrawn (Tp (t :: r)) (Tp (Lf a :: l)).
  Proof.
    induction t as [x|c IH] using ptree_ind'; intros I r.
    - destruct I as [->|[]]. exists r. apply redrawn_refl.
    - cbn [leaves_of] in I. apply in_flat_map in I as (u & Iu & Ia). rewrite Forall_forall in IH. apply in_split in Iu as (p & q & ->).
      destruct (IH u ltac:(apply in_app_iff; right; now left) Ia (p ++ q ++ [Tp r])) as (l & H). exists l.
      apply redrawn_trans with (Tp (Tp r :: p ++ u :: q)); [apply redrawn_across|].
      apply redrawn_trans with (Tp (u :: p ++ q ++ [Tp r])); [|exact H]. apply redrawn_turned, turned_order.
      transitivity (u :: Tp r :: p ++ q); [etransitivity; [|apply perm_swap]; constructor; apply Permutation_sym, Permutation_middle|].
      constructor. rewrite app_assoc. apply (Permutation_cons_append (p ++ q)).
  Qed.

  Lemma from_leg_root a (t : ptree A) : (exists l, t = Tp l) -> In a (leaves_of t) -> exists l, redrawn t (Tp (Lf a :: l)).
  Proof.
    intros (c & ->) I. cbn [leaves_of] in I. apply in_flat_map in I as (u & Iu & Ia). apply in_split in Iu as (p & q & ->).
    destruct (from_leg a u Ia (p ++ q)) as (l & H). exists l. apply redrawn_trans with (Tp (u :: p ++ q)); [|exact H].
    apply redrawn_turned, turned_order, Permutation_sym, Permutation_middle.
  Qed.

  Lemma legs_perm k (t u : ptree A) : Permutation (leaves_of t) (leaves_of u) -> legs kind k t = legs kind k u.
  Proof.
    unfold legs. induction 1; cbn [filter]; auto; try congruence; repeat (destruct (Bool.eqb _ k); cbn [List.length]; try congruence).
  Qed.
End Drawings.

(** ** Trees with other leaves *)

Section Leaves.
  Context {A : Type} (kind : A -> bool).

  Lemma line_map : forall t k, line kind t k -> line (fun b : bool => b) (tree_map kind t) k.
  Proof.
    apply (line_mut A kind (fun t k => line (fun b : bool => b) (tree_map kind t) k) (fun l ks => lines (fun b : bool => b) (map (tree_map kind) l) ks)).
    - intros a. apply (line_leg (fun b : bool => b)).
    - intros l ks k _ H V. cbn. now apply line_inner with ks.
    - constructor.
    - intros t k l ks _ H _ Hs. cbn. now constructor.
  Qed.

  Lemma diagram_map (t : ptree A) : tree_diagram kind t -> tree_diagram (fun b : bool => b) (tree_map kind t).
  Proof.
    intros (l & ks & -> & Ls & V). exists (map (tree_map kind) l), ks. repeat split; [|exact V]. clear V.
    induction Ls as [|t k l ks L Ls IH]; cbn; constructor; [now apply line_map|exact IH].
  Qed.

  Lemma leaves_map {B C} (f : B -> C) (t : ptree B) : leaves_of (tree_map f t) = map f (leaves_of t).
  Proof.
    induction t as [x|l IH] using ptree_ind'; [reflexivity|]. cbn [tree_map leaves_of]. induction IH as [|t l Ht IH IHl]; [reflexivity|]. cbn [map flat_map]. now rewrite map_app, Ht, IHl.
  Qed.

  Lemma legs_map k (t : ptree A) : legs (fun b : bool => b) k (tree_map kind t) = legs kind k t.
  Proof.
    unfold legs. rewrite leaves_map. induction (leaves_of t) as [|a l IH]; [reflexivity|]. cbn. destruct (Bool.eqb (kind a) k); cbn; now rewrite IH.
  Qed.

  Lemma exchange_map {B C} (f : B -> C) (t : ptree B) : exchange t -> exchange (tree_map f t).
  Proof. intros (l & c & -> & I). exists (map (tree_map f) l), (map (tree_map f) c). split; [reflexivity|]. change (Tp (map (tree_map f) c)) with (tree_map f (Tp c)). now apply in_map. Qed.

  Lemma map_perm_lift {B C} (f : B -> C) l' : forall k, Permutation l' k -> forall l, map f l = l' -> exists m, Permutation l m /\ map f m = k.
  Proof.
    induction 1 as [|x l1 l2 P IH|x y l1|l1 l2 l3 P1 IH1 P2 IH2]; intros l E.
    - exists l. auto.
    - destruct l as [|b l]; [discriminate|]. injection E as <- E. destruct (IH l E) as (m & Q & <-). exists (b :: m). auto.
    - destruct l as [|b [|c l]]; try discriminate. injection E as <- <- <-. exists (c :: b :: l). split; [constructor|reflexivity].
    - destruct (IH1 l E) as (m & Q & E1). destruct (IH2 m E1) as (m' & Q' & E2). exists m'. split; [now rewrite Q|exact E2].
  Qed.

  (** a drawing of the kinds is a drawing of the diagram *)
  Lemma turned_lift {B C} (f : B -> C) (x y : ptree C) : turned x y -> forall t, tree_map f t = x -> exists u, turned t u /\ tree_map f u = y.
  Proof.
    induction 1 as [x|l l' P|p q x y H IH|x y z H1 IH1 H2 IH2]; intros t E.
    - exists t. split; [apply turned_refl|exact E].
    - destruct t as [a|m]; [discriminate|]. injection E as E. destruct (map_perm_lift _ _ _ P m E) as (m' & Q & E'). exists (Tp m'). split; [now apply turned_order|cbn; congruence].
    - destruct t as [a|m]; [discriminate|]. injection E as E. apply map_eq_app in E as (p' & m' & -> & <- & E). destruct m' as [|t q']; [discriminate|]. injection E as E <-.
      destruct (IH t E) as (u & Tu & <-). exists (Tp (p' ++ u :: q')). split; [now apply turned_inside|]. cbn. now rewrite map_app.
    - destruct (IH1 t E) as (u & T1 & E1). destruct (IH2 u E1) as (v & T2 & E2). exists v. split; [now apply turned_trans with u|exact E2].
  Qed.

  Lemma redrawn_lift {B C} (f : B -> C) (x y : ptree C) : redrawn x y -> forall t, tree_map f t = x -> exists u, redrawn t u /\ tree_map f u = y.
  Proof.
    induction 1 as [x y H|l r|x y z H1 IH1 H2 IH2]; intros t E.
    - destruct (turned_lift f x y H t E) as (u & T & E'). exists u. split; [now apply redrawn_turned|exact E'].
    - destruct t as [a|m]; [discriminate|]. injection E as E. destruct m as [|t m]; [discriminate|]. injection E as E <-. destruct t as [a|c]; [discriminate|]. injection E as <-.
      exists (Tp (Tp m :: c)). split; [apply redrawn_across|reflexivity].
    - destruct (IH1 t E) as (u & T1 & E1). destruct (IH2 u E1) as (v & T2 & E2). exists v. split; [now apply redrawn_trans with u|exact E2].
  Qed.

  (** two trees of the same shape as one *)
  Lemma zip_trees {B C D} (f : B -> D) (g : C -> D) (t : ptree B) : forall u : ptree C, tree_map f t = tree_map g u ->
    exists v : ptree (B * C), tree_map fst v = t /\ tree_map snd v = u /\ Forall (fun x => f (fst x) = g (snd x)) (leaves_of v).
  Proof.
    induction t as [x|l IH] using ptree_ind'; intros [y|m] E; try discriminate.
    - injection E as E. exists (Lf (x, y)). cbn. auto.
    - injection E as E. assert (G : exists vs, map (tree_map fst) vs = l /\ map (tree_map snd) vs = m /\ Forall (fun x => f (fst x) = g (snd x)) (flat_map leaves_of vs)).
      { revert m E. induction IH as [|t l Ht IH IHl]; intros [|u m] E; try discriminate; [exists []; cbn; auto|]. injection E as E1 E2.
        destruct (Ht u E1) as (v & V1 & V2 & V3). destruct (IHl m E2) as (vs & W1 & W2 & W3). exists (v :: vs). cbn. rewrite V1, V2, W1, W2. repeat split. apply Forall_app. auto. }
      destruct G as (vs & W1 & W2 & W3). exists (Tp vs). cbn. rewrite W1, W2. auto.
  Qed.
End Leaves.

(** ** Order and normal form of trees of kinds *)

Notation kt := (ptree bool).
Notation idk := (fun b : bool => b).

Fixpoint cmp (t u : kt) : comparison :=
  match t, u with
  | Lf a, Lf b => match a, b with true, true | false, false => Eq | true, false => Gt | false, true => Lt end
  | Lf _, Tp _ => Lt
  | Tp _, Lf _ => Gt
  | Tp l, Tp m =>
    (fix go (l m : list kt) : comparison :=
       match l, m with
       | [], [] => Eq
       | [], _ => Lt
       | _, [] => Gt
       | x :: l, y :: m => match cmp x y with Eq => go l m | c => c end
       end) l m
  end.

Definition same_tree (t u : kt) : bool := match cmp t u with Eq => true | _ => false end.

Lemma cmp_eq (t : kt) : forall u, cmp t u = Eq -> t = u.
Proof.
  induction t as [x|l IH] using ptree_ind'; intros [y|m] H; try discriminate; [destruct x, y; (reflexivity || discriminate)|].
  f_equal. cbn [cmp] in H. set (go := fix go (l m : list kt) : comparison := _) in H. revert m H.
  induction IH as [|t l Ht IH IHl]; intros [|u m] H; cbn [go] in H; try discriminate; [reflexivity|].
  destruct (cmp t u) eqn:E; try discriminate. f_equal; [now apply Ht|now apply IHl].
Qed.

Lemma same_tree_eq t u : same_tree t u = true -> t = u.
Proof. unfold same_tree. destruct (cmp t u) eqn:E; try discriminate. intros _. now apply cmp_eq. Qed.

Fixpoint insert_tree (t : kt) (l : list kt) : list kt :=
  match l with
  | [] => [t]
  | u :: l => match cmp t u with Gt => u :: insert_tree t l | _ => t :: u :: l end
  end.

Definition sort_trees (l : list kt) : list kt := fold_right insert_tree [] l.

Lemma insert_perm t l : Permutation (t :: l) (insert_tree t l).
Proof.
  induction l as [|u l IH]; cbn; [reflexivity|]. destruct (cmp t u); try reflexivity. rewrite <- IH. constructor.
Qed.

Lemma sort_perm l : Permutation l (sort_trees l).
Proof. induction l as [|t l IH]; cbn; [reflexivity|]. rewrite <- insert_perm. now constructor. Qed.

Fixpoint normal (t : kt) : kt := match t with Lf b => Lf b | Tp l => Tp (sort_trees (map normal l)) end.

Lemma normal_turned t : turned t (normal t).
Proof.
  induction t as [x|l IH] using ptree_ind'; [apply turned_refl|]. cbn [normal].
  apply turned_trans with (Tp (map normal l)); [|apply turned_order, sort_perm]. apply turned_children.
  induction IH; cbn; constructor; auto.
Qed.

(** ** All branches with given legs *)

Fixpoint kind_of (t : kt) : option bool :=
  match t with
  | Lf b => Some b
  | Tp l => match map kind_of l with
            | [Some a; Some b] => Some (Bool.eqb a b)
            | [Some true; Some true; Some true] => Some true
            | _ => None
            end
  end.

Definition falses (ks : list bool) : nat := List.length (filter negb ks).

Lemma falses_perm ks ks' : Permutation ks ks' -> falses ks = falses ks'.
Proof. unfold falses. induction 1 as [|x l l' P IH|x y l|l l' l'' P1 IH1 P2 IH2]; cbn; auto; [destruct x; cbn; congruence|destruct x, y; reflexivity|congruence]. Qed.

Lemma vertex_counts ks : vertex ks -> (List.length ks = 3 /\ (falses ks = 0 \/ falses ks = 2)) \/ (List.length ks = 4 /\ falses ks = 0).
Proof.
  intros [P|[P|P]]; rewrite (Permutation_length P), (falses_perm _ _ P); cbn; auto.
Qed.

Lemma kind_of_line : forall t k, line idk t k -> kind_of t = Some k.
Proof.
  apply (line_mut bool idk (fun t k => kind_of t = Some k) (fun l ks => map kind_of l = map Some ks)).
  - reflexivity.
  - intros l ks k _ H V. cbn [kind_of]. rewrite H. clear H. apply vertex_counts in V. cbn [List.length] in V.
    destruct ks as [|a [|b [|c [|d ks]]]]; cbn [List.length] in V; try lia; cbn [map].
    + destruct V as [[_ V]|[V _]]; [|discriminate]. destruct k, a, b; cbn in V; try lia; reflexivity.
    + destruct V as [[V _]|[_ V]]; [discriminate|]. destruct k, a, b, c; cbn in V; try lia; reflexivity.
  - reflexivity.
  - intros t k l ks _ H _ Hs. cbn. now rewrite H, Hs.
Qed.

Lemma line_kind_of (t : kt) : forall k, kind_of t = Some k -> line idk t k.
Proof.
  induction t as [x|l IH] using ptree_ind'; intros k H; [injection H as <-; apply (line_leg idk)|].
  assert (G : forall ks, map kind_of l = map Some ks -> lines idk l ks).
  { clear H. induction IH as [|t l Ht IH IHl]; intros [|q ks] E; try discriminate; [constructor|]. injection E as E1 E2. constructor; auto. }
  cbn [kind_of] in H. destruct (map kind_of l) as [|[a|] [|[b|] [|[c|] [|d m]]]] eqn:E; try discriminate; try (destruct a; discriminate); try (destruct a, b; discriminate).
  - destruct a, b; injection H as <-.
    + apply line_inner with [true; true]; [apply G; reflexivity|]. left. reflexivity.
    + apply line_inner with [true; false]; [apply G; reflexivity|]. right. right. constructor.
    + apply line_inner with [false; true]; [apply G; reflexivity|]. right. right. etransitivity; [apply perm_skip, perm_swap|constructor].
    + apply line_inner with [false; false]; [apply G; reflexivity|]. right. right. reflexivity.
  - destruct a, b, c; try discriminate. injection H as <-. apply line_inner with [true; true; true]; [apply G; reflexivity|]. right. left. reflexivity.
  - destruct a, b, c; discriminate.
Qed.

Fixpoint dedup (l : list kt) : list kt :=
  match l with [] => [] | t :: l => let d := dedup l in if existsb (same_tree t) d then d else t :: d end.

Lemma dedup_In t l : In t l -> In t (dedup l).
Proof.
  induction l as [|u l IH]; [intros []|]. intros [->|I]; cbn; destruct (existsb _ (dedup l)) eqn:E.
  - apply existsb_exists in E as (v & I & E). apply same_tree_eq in E as ->. exact I.
  - now left.
  - auto.
  - right. auto.
Qed.

Section Enumeration.
  Variables S F : nat.

  Definition fits (t : kt) : bool :=
    (legs idk true t <=? S) && (legs idk false t <=? F) && match kind_of t with Some _ => true | None => false end.

  (** [tab] holds the branches with fewer than [n] legs by their number *)
  Definition grow (tab : list (list kt)) (n : nat) : list kt :=
    dedup (filter fits
      ((if n =? 1 then [Lf true; Lf false] else []) ++
       flat_map (fun i => flat_map (fun t => map (fun u => Tp (sort_trees [t; u])) (nth (n - i) tab [])) (nth i tab [])) (seq 1 (n - 1)) ++
       flat_map (fun i => flat_map (fun j => flat_map (fun t => flat_map (fun u => map (fun v => Tp (sort_trees [t; u; v])) (nth (n - i - j) tab [])) (nth j tab [])) (nth i tab []))
         (seq 1 (n - 1))) (seq 1 (n - 1)))).

  Fixpoint table (n : nat) : list (list kt) :=
    match n with 0 => [[]] | Datatypes.S n => let tab := table n in tab ++ [grow tab (Datatypes.S n)] end.

  Lemma table_length n : List.length (table n) = Datatypes.S n.
  Proof. induction n as [|n IH]; [reflexivity|]. cbn [table]. rewrite app_length, IH. cbn. lia. Qed.

  Lemma table_below n m : m <= n -> forall i, i <= m -> nth i (table n) [] = nth i (table m) [].
  Proof.
    intros L i Li. induction n as [|n IH]; [replace m with 0 by lia; reflexivity|].
    destruct (Nat.eq_dec m (Datatypes.S n)) as [->|Ne]; [reflexivity|]. cbn [table]. rewrite app_nth1 by (rewrite table_length; lia). apply IH. lia.
  Qed.

  Lemma table_at n : nth (Datatypes.S n) (table (Datatypes.S n)) [] = grow (table n) (Datatypes.S n).
  Proof. cbn [table]. rewrite app_nth2 by (rewrite table_length; lia). rewrite table_length, Nat.sub_diag. reflexivity. Qed.

  Lemma leaves_some : forall t k, line idk t k -> 1 <= List.length (leaves_of t).
  Proof.
    apply (line_mut bool idk (fun t _ => 1 <= List.length (leaves_of t)) (fun l ks => List.length ks <= List.length (flat_map leaves_of l))).
    - cbn. lia.
    - intros l ks k _ H V. cbn [leaves_of]. apply vertex_counts in V. cbn [List.length] in V. lia.
    - cbn. lia.
    - intros t k l ks _ H _ Hs. cbn. rewrite app_length. lia.
  Qed.

  Lemma legs_sub k t l : In t l -> legs idk k t <= legs idk k (Tp l).
  Proof.
    unfold legs. cbn [leaves_of]. intros I. apply in_split in I as (p & q & ->). rewrite flat_map_app. cbn [flat_map]. rewrite !filter_app, !app_length. lia.
  Qed.

  Lemma enumerated (t : kt) : forall k n N, line idk t k -> legs idk true t <= S -> legs idk false t <= F ->
    List.length (leaves_of t) = n -> n <= N -> exists e, In e (nth n (table N) []) /\ turned t e.
  Proof.
    induction t as [x|l IH] using ptree_ind'; intros k n N L LS LF En Le.
    - cbn in En. subst n. exists (Lf x). split; [|apply turned_refl]. rewrite (table_below N 1) by lia. rewrite table_at. unfold grow. apply dedup_In, filter_In. split.
      + apply in_app_iff. left. destruct x; cbn; auto.
      + unfold fits. apply Nat.leb_le in LS, LF. rewrite LS, LF. reflexivity.
    - pose proof (leaves_some _ _ L) as Pos. destruct n as [|n]; [lia|].
      assert (Fit : forall e, turned (Tp l) e -> fits e = true).
      { intros e T. unfold fits. rewrite <- !(legs_perm idk _ _ _ (turned_leaves _ _ T)). apply Nat.leb_le in LS, LF. rewrite LS, LF. rewrite (kind_of_line e k) by (now apply (turned_line idk _ _ T)). reflexivity. }
      rewrite (table_below N (Datatypes.S n)) by lia. rewrite table_at.
      inversion L as [|l0 ks k0 Ls V]; subst.
      assert (Sub : forall t, In t l -> exists q, line idk t q /\ legs idk true t <= S /\ legs idk false t <= F).
      { intros t I. assert (X : exists q, line idk t q).
        { clear - Ls I. induction Ls as [|u q l ks H Hs IHs]; [destruct I|]. destruct I as [->|I]; eauto. }
        destruct X as (q & X). exists q. split; [exact X|]. pose proof (legs_sub true t l I). pose proof (legs_sub false t l I). lia. }
      assert (Two : List.length l = 2 \/ List.length l = 3).
      { apply vertex_counts in V. cbn [List.length] in V. assert (EL : List.length ks = List.length l) by (clear - Ls; induction Ls; cbn; congruence). lia. }
      rewrite Forall_forall in IH. cbn [leaves_of] in En.
      destruct l as [|t1 [|t2 [|t3 [|t4 l]]]]; cbn [List.length] in Two; try lia.
      + destruct (Sub t1 ltac:(now left)) as (q1 & L1 & S1 & F1). destruct (Sub t2 ltac:(right; now left)) as (q2 & L2 & S2 & F2).
        pose proof (leaves_some _ _ L1) as P1. pose proof (leaves_some _ _ L2) as P2. cbn [flat_map] in En. rewrite app_nil_r, app_length in En.
        destruct (IH t1 ltac:(now left) q1 _ n L1 S1 F1 eq_refl ltac:(lia)) as (e1 & I1 & T1).
        destruct (IH t2 ltac:(right; now left) q2 _ n L2 S2 F2 eq_refl ltac:(lia)) as (e2 & I2 & T2).
        assert (T : turned (Tp [t1; t2]) (Tp (sort_trees [e1; e2]))).
        { apply turned_trans with (Tp [e1; e2]); [apply turned_children; auto|apply turned_order, sort_perm]. }
        exists (Tp (sort_trees [e1; e2])). split; [|exact T]. unfold grow. apply dedup_In, filter_In. split; [|now apply Fit].
        apply in_app_iff. right. apply in_app_iff. left. apply in_flat_map. exists (List.length (leaves_of t1)). split; [apply in_seq; lia|].
        apply in_flat_map. exists e1. split; [exact I1|]. apply (in_map (fun u => Tp (sort_trees [e1; u]))).
        replace (Datatypes.S n - List.length (leaves_of t1)) with (List.length (leaves_of t2)) by lia. exact I2.
      + destruct (Sub t1 ltac:(now left)) as (q1 & L1 & S1 & F1). destruct (Sub t2 ltac:(right; now left)) as (q2 & L2 & S2 & F2). destruct (Sub t3 ltac:(right; right; now left)) as (q3 & L3 & S3 & F3).
        pose proof (leaves_some _ _ L1) as P1. pose proof (leaves_some _ _ L2) as P2. pose proof (leaves_some _ _ L3) as P3. cbn [flat_map] in En. rewrite app_nil_r, !app_length in En.
        destruct (IH t1 ltac:(now left) q1 _ n L1 S1 F1 eq_refl ltac:(lia)) as (e1 & I1 & T1).
        destruct (IH t2 ltac:(right; now left) q2 _ n L2 S2 F2 eq_refl ltac:(lia)) as (e2 & I2 & T2).
        destruct (IH t3 ltac:(right; right; now left) q3 _ n L3 S3 F3 eq_refl ltac:(lia)) as (e3 & I3 & T3).
        assert (T : turned (Tp [t1; t2; t3]) (Tp (sort_trees [e1; e2; e3]))).
        { apply turned_trans with (Tp [e1; e2; e3]); [apply turned_children; auto|apply turned_order, sort_perm]. }
        exists (Tp (sort_trees [e1; e2; e3])). split; [|exact T]. unfold grow. apply dedup_In, filter_In. split; [|now apply Fit].
        apply in_app_iff. right. apply in_app_iff. right. apply in_flat_map. exists (List.length (leaves_of t1)). split; [apply in_seq; lia|].
        apply in_flat_map. exists (List.length (leaves_of t2)). split; [apply in_seq; lia|].
        apply in_flat_map. exists e1. split; [exact I1|]. apply in_flat_map. exists e2. split; [exact I2|]. apply (in_map (fun u => Tp (sort_trees [e1; e2; u]))).
        replace (Datatypes.S n - List.length (leaves_of t1) - List.length (leaves_of t2)) with (List.length (leaves_of t3)) by lia. exact I3.
  Qed.
End Enumeration.

(** ** The branches seen from the legs of a diagram *)

Fixpoint cuts (k : bool) (t : kt) (r : list kt) : list kt :=
  match t with
  | Lf b => if Bool.eqb b k then [Tp r] else []
  | Tp c =>
    (fix go (p q : list kt) : list kt :=
       match q with [] => [] | u :: q => cuts k u (p ++ q ++ [Tp r]) ++ go (u :: p) q end) [] c
  end.

Fixpoint cuts_from (k : bool) (p q : list kt) : list kt :=
  match q with [] => [] | u :: q => cuts k u (p ++ q) ++ cuts_from k (u :: p) q end.

Definition views (k : bool) (t : kt) : list kt := match t with Lf _ => [] | Tp l => cuts_from k [] l end.

Lemma cuts_ok k t : forall r v, In v (cuts k t r) -> exists l, v = Tp l /\ redrawn (Tp (t :: r)) (Tp (Lf k :: l)).
Proof.
  induction t as [x|c IH] using ptree_ind'; intros r v I.
  - cbn [cuts] in I. destruct (Bool.eqb x k) eqn:E; [|destruct I]. apply eqb_prop in E as ->. destruct I as [<-|[]]. exists r. split; [reflexivity|apply redrawn_refl].
  - cbn [cuts] in I. set (go := fix go (p q : list kt) {struct q} : list kt := _) in I.
    assert (G : forall q p, Forall (fun u => forall r v, In v (cuts k u r) -> exists l, v = Tp l /\ redrawn (Tp (u :: r)) (Tp (Lf k :: l))) q ->
      In v (go p q) -> exists u p' q', Permutation (p ++ q) (u :: p' ++ q') /\ exists l, v = Tp l /\ redrawn (Tp (u :: p' ++ q' ++ [Tp r])) (Tp (Lf k :: l))).
    { induction q as [|u q IHq]; intros p H J; [destruct J|]. cbn [go] in J. apply Forall_cons_iff in H as [Hu Hq]. apply in_app_iff in J as [J|J].
      - exists u, p, q. split; [apply Permutation_sym, Permutation_middle|]. now apply Hu.
      - destruct (IHq (u :: p) Hq J) as (w & p' & q' & P & X). exists w, p', q'. split; [|exact X]. rewrite <- P. cbn. apply Permutation_sym, Permutation_middle. }
    destruct (G c [] IH I) as (u & p & q & P & l & -> & R). exists l. split; [reflexivity|].
    apply redrawn_trans with (Tp (Tp r :: c)); [apply redrawn_across|]. apply redrawn_trans with (2 := R). apply redrawn_turned, turned_order. cbn [app] in P. rewrite P.
    transitivity (u :: Tp r :: p ++ q); [constructor|]. constructor. rewrite app_assoc. apply Permutation_cons_append.
Qed.

Lemma views_ok k t v : In v (views k t) -> exists l, v = Tp l /\ redrawn t (Tp (Lf k :: l)).
Proof.
  destruct t as [x|c]; [intros []|]. unfold views.
  assert (G : forall q p, In v (cuts_from k p q) -> exists u p' q', Permutation (p ++ q) (u :: p' ++ q') /\ exists l, v = Tp l /\ redrawn (Tp (u :: p' ++ q')) (Tp (Lf k :: l))).
  { induction q as [|u q IHq]; intros p J; [destruct J|]. cbn [cuts_from] in J. apply in_app_iff in J as [J|J].
    - exists u, p, q. split; [apply Permutation_sym, Permutation_middle|]. now apply cuts_ok.
    - destruct (IHq (u :: p) J) as (w & p' & q' & P & X). exists w, p', q'. split; [|exact X]. rewrite <- P. cbn. apply Permutation_sym, Permutation_middle. }
  intros I. destruct (G c [] I) as (u & p & q & P & l & -> & R). exists l. split; [reflexivity|].
  apply redrawn_trans with (2 := R). now apply redrawn_turned, turned_order.
Qed.

(** ** The check *)

Lemma turned_more {A} (t u : ptree A) : turned t u -> forall l, t = Tp l -> exists c, u = Tp c /\ forall p, turned (Tp (p ++ l)) (Tp (p ++ c)).
Proof.
  induction 1 as [t|l l' P|p q t t' H IH|t u v H1 IH1 H2 IH2]; intros m E.
  - subst. exists m. split; [reflexivity|]. intros. apply turned_refl.
  - injection E as <-. exists l'. split; [reflexivity|]. intros r. apply turned_order. now apply Permutation_app_head.
  - injection E as <-. eexists. split; [reflexivity|]. intros r. rewrite !app_assoc. now apply turned_inside.
  - destruct (IH1 m E) as (c & -> & T1). destruct (IH2 c eq_refl) as (d & -> & T2). exists d. split; [reflexivity|]. intros r. now apply turned_trans with (Tp (r ++ c)).
Qed.

(** all legs: one vertex only *)
Definition no_exchange (t : kt) : bool := match t with Lf _ => true | Tp l => forallb (fun u => match u with Lf _ => true | Tp _ => false end) l end.

Lemma no_exchange_ok a l : no_exchange (Tp l) = true -> ~ exchange (Tp (Lf a :: l)).
Proof.
  cbn. intros H (m & c & [= <-] & [E|I]); [discriminate|]. rewrite forallb_forall in H. discriminate (H _ I).
Qed.

(** every branch that together with a leg of kind [k] makes a diagram with [n] scalars and [m] fermions is seen *)
Definition all_seen (n m : nat) (tops : list kt) : bool :=
  let k := m =? 0 in
  let S := if k then n - 1 else n in let F := if k then m else m - 1 in
  let seen := flat_map (fun s => map normal (views k s)) tops in
  forallb (fun e => match kind_of e with
                    | Some k' => if Bool.eqb k' k && (legs idk true e =? S) && (legs idk false e =? F)
                                 then no_exchange e || existsb (same_tree e) seen else true
                    | None => true end)
    (nth (S + F) (table S F (S + F)) []).

Lemma legs_cons k a l : legs idk k (Tp (Lf a :: l)) = (if Bool.eqb a k then 1 else 0) + legs idk k (Tp l).
Proof. unfold legs. cbn [leaves_of flat_map app filter]. destruct (Bool.eqb a k); reflexivity. Qed.

Lemma legs_total (t : kt) : legs idk true t + legs idk false t = List.length (leaves_of t).
Proof. unfold legs. induction (leaves_of t) as [|[|] l IH]; cbn in *; lia. Qed.

Lemma leaf_of_kind k (t : kt) : 1 <= legs idk k t -> In k (leaves_of t).
Proof.
  unfold legs. induction (leaves_of t) as [|a l IH]; cbn; [lia|]. destruct (Bool.eqb a k) eqn:E; [apply eqb_prop in E; now left|right; auto].
Qed.

Lemma all_seen_ok n m tops : all_seen n m tops = true -> 1 <= n + m -> forall t, tree_diagram idk t -> exchange t -> legs idk true t = n -> legs idk false t = m ->
  exists s, In s tops /\ redrawn t s.
Proof.
  intros C Pos t D X Ln Lm. unfold all_seen in C. cbv zeta in C. remember (m =? 0) as k eqn:Ek.
  assert (I : In k (leaves_of t)).
  { apply leaf_of_kind. subst k. destruct (m =? 0) eqn:E; [apply Nat.eqb_eq in E; lia|apply Nat.eqb_neq in E; lia]. }
  destruct (from_leg_root k t) as (l & R); [destruct D as (c & _ & -> & _); eauto|exact I|].
  pose proof (redrawn_diagram idk _ _ R D) as D'. pose proof (redrawn_exchange _ _ R X) as X'. pose proof (redrawn_leaves _ _ R) as P.
  rewrite (legs_perm idk true _ _ P), legs_cons in Ln. rewrite (legs_perm idk false _ _ P), legs_cons in Lm.
  destruct D' as (c & ks & [= <-] & Ls & V). inversion Ls as [|t0 k0 l0 ks0 L0 Lr]; subst t0 l0 ks. assert (E0 : k0 = k) by (inversion L0; reflexivity). subst k0.
  assert (L : line idk (Tp l) k) by now apply line_inner with ks0.
  set (S := if k then n - 1 else n) in *. set (F := if k then m else m - 1) in *.
  assert (ES : legs idk true (Tp l) = S) by (unfold S; destruct k; cbn in *; lia).
  assert (EF : legs idk false (Tp l) = F).
  { unfold F. destruct k; cbn in *; lia. }
  destruct (enumerated S F (Tp l) k (S + F) (S + F) L) as (e & Ie & Te); [lia|lia|rewrite <- legs_total; lia|lia|].
  rewrite forallb_forall in C. specialize (C e Ie).
  assert (Lt : line idk e k) by now apply (turned_line idk _ _ Te).
  rewrite (kind_of_line e k Lt), eqb_reflx in C. rewrite <- !(legs_perm idk _ _ _ (turned_leaves _ _ Te)), ES, EF, !Nat.eqb_refl in C. cbn [andb] in C.
  destruct (turned_more _ _ Te l eq_refl) as (c & -> & Tc). specialize (Tc [Lf k]). cbn [app] in Tc.
  apply orb_true_iff in C as [C|C].
  - exfalso. apply (no_exchange_ok k c C). now apply (turned_exchange _ _ Tc).
  - apply existsb_exists in C as (v & Iv & Ev). apply same_tree_eq in Ev. subst v. apply in_flat_map in Iv as (s & Is & Iv). exists s. split; [exact Is|].
    apply in_map_iff in Iv as (v & En & Iv). destruct (views_ok k s v Iv) as (l' & -> & R').
    apply redrawn_trans with (1 := R). apply redrawn_trans with (1 := redrawn_turned _ _ Tc). apply redrawn_sym. apply redrawn_trans with (1 := R'). apply redrawn_turned.
    assert (T : turned (Tp l') (Tp c)) by (rewrite <- En; apply normal_turned).
    destruct (turned_more _ _ T l' eq_refl) as (c' & [= <-] & T'). exact (T' [Lf k]).
Qed.

(** ** An invariant *)

Fixpoint sum_N (l : list N) : N := match l with [] => 0%N | x :: l => (x + sum_N l)%N end.

Lemma sum_perm l l' : Permutation l l' -> sum_N l = sum_N l'.
Proof. induction 1; cbn; lia. Qed.

Section Invariant.
  Variables (leaf : bool -> N) (mix R : N -> N).

  (** a number for each branch *)
  Fixpoint branch_number (t : kt) : N := match t with Lf b => leaf b | Tp l => mix (sum_N (map branch_number l)) end.

  (** the sum over all vertices of the branch, [up] being the number of the rest of the diagram *)
  Fixpoint below (up : N) (t : kt) : N :=
    match t with
    | Lf _ => 0
    | Tp l => let s := (up + sum_N (map branch_number l))%N in (R s + sum_N (map (fun c => below (mix (s - branch_number c)) c) l))%N
    end.

  Definition diagram_number (t : kt) : N := below 0 t.

  Lemma turned_number t u : turned t u -> branch_number t = branch_number u /\ forall up, below up t = below up u.
  Proof.
    induction 1 as [t|l l' P|p q t t' H [IH1 IH2]|t u v H1 [I1 J1] H2 [I2 J2]]; auto.
    - assert (E : sum_N (map branch_number l) = sum_N (map branch_number l')) by now apply sum_perm, Permutation_map. cbn [branch_number below]. rewrite E. split; [reflexivity|]. intros up.
      cbv zeta. f_equal. now apply sum_perm, Permutation_map.
    - assert (E : sum_N (map branch_number (p ++ t :: q)) = sum_N (map branch_number (p ++ t' :: q))).
      { rewrite !map_app. cbn [map]. now rewrite IH1. }
      cbn [branch_number below]. rewrite E. split; [reflexivity|]. intros up. cbv zeta. f_equal. rewrite !map_app. cbn [map]. now rewrite IH1, IH2.
    - split; [congruence|]. intros up. now rewrite J1, J2.
  Qed.

  Lemma redrawn_number t u : redrawn t u -> diagram_number t = diagram_number u.
  Proof.
    unfold diagram_number. induction 1 as [t u H|l r|t u v H1 IH1 H2 IH2]; [now apply (turned_number t u)| |congruence].
    cbn [below branch_number map sum_N]. cbv zeta.
    set (L := sum_N (map branch_number l)). set (Q := sum_N (map branch_number r)). cbn [below]. cbv zeta. fold L Q.
    rewrite !N.add_0_l. replace (mix L + Q - mix L)%N with Q by lia. replace (mix Q + L - mix Q)%N with L by lia. lia.
  Qed.
End Invariant.
