(** * PropsPartition: properties C35 and C36: distributing fields, counting fields *)

From Coq Require Import Ascii String List Bool Arith ZArith NArith Lia Permutation QArith Qcanon.
From Verif Require Import Base BaseFacts Show ModelFunctions ProofsFunctions ModelIndex SpecIndex ProofsIndex
  ModelField ModelContract SpecContract ProofsContract PropsContract ModelPartition SpecPartition.
From Verif Require Spec.
Import ListNotations.
Local Open Scope nat_scope.

(** ** Trees and their leaves *)

Lemma ptree_ind' {B} (P : ptree B -> Prop) : (forall x, P (Lf x)) -> (forall l, Forall P l -> P (Tp l)) -> forall t, P t.
Proof.
  intros H1 H2. fix IH 1. intros [x|l]; [apply H1|]. apply H2. induction l as [|t l IHl]; constructor; auto.
Qed.

Lemma leaf_list_of {B} (t : ptree B) : leaf_list t = leaves_of t.
Proof.
  induction t as [x|l IH] using ptree_ind'; [reflexivity|]. cbn [leaf_list leaves_of]. induction IH as [|t l Ht IH IHl]; [reflexivity|]. cbn. now rewrite Ht, IHl.
Qed.

(** a tree is determined by the tree of nodes and the list of leaves *)
Lemma tree_determined {B C} (g : B -> C) (t : ptree B) : forall t', tree_map g t = tree_map g t' -> leaves_of t = leaves_of t' -> t = t'.
Proof.
  assert (Len : forall t t' : ptree B, tree_map g t = tree_map g t' -> List.length (leaves_of t) = List.length (leaves_of t')).
  { induction t0 as [x|l IH] using ptree_ind'; intros [y|l'] E; try discriminate; [reflexivity|]. cbn [tree_map] in E. injection E as E. cbn [leaves_of].
    revert l' E. induction IH as [|t0 l Ht IH IHl]; intros [|t' l'] E; try discriminate; [reflexivity|]. cbn [map] in E. injection E as E1 E2.
    cbn [flat_map]. rewrite !app_length. f_equal; auto. }
  induction t as [x|l IH] using ptree_ind'; intros [y|l'] E L; try discriminate; cbn [leaves_of] in L; [congruence|]. cbn [tree_map] in E. injection E as E.
  f_equal. revert l' E L. induction IH as [|t0 l Ht IH IHl]; intros [|t' l'] E L; try discriminate; [reflexivity|]. cbn [map] in E. injection E as E1 E2.
  cbn [flat_map] in L. assert (L1 : leaves_of t0 = leaves_of t' /\ flat_map leaves_of l = flat_map leaves_of l').
  { pose proof (Len _ _ E1) as Ln. revert L Ln. generalize (leaves_of t0) (leaves_of t') (flat_map leaves_of l) (flat_map leaves_of l').
    induction l0 as [|a l0 IH0]; intros [|b l1] m m' L Ln; try discriminate; [auto|]. cbn in L. injection L as -> L. injection Ln as Ln.
    destruct (IH0 l1 m m' L Ln) as [-> ->]. auto. }
  destruct L1 as [L1 L2]. f_equal; auto.
Qed.

Section Distribute.
  Variable A : Type.
  Variable is_boson : A -> bool.
  Variable feqb : A -> A -> bool.

  Notation leaf := (slot_of A * N)%type.

  (** replacing in the list of leaves *)
  Fixpoint repl (c : bool) (f : A) (l : list leaf) : list leaf * bool :=
    match l with
    | [] => ([], false)
    | (s, n) :: l => if is_open A c s then ((Placed f, n) :: l, true) else let (l, b) := repl c f l in ((s, n) :: l, b)
    end.

  Lemma repl_app c f l l' : repl c f (l ++ l') =
    if snd (repl c f l) then (fst (repl c f l) ++ l', true) else (l ++ fst (repl c f l'), snd (repl c f l')).
  Proof using Type.
    induction l as [|[s n] l IH]; cbn [app repl]; [cbn; now destruct (repl c f l')|].
    destruct (is_open A c s); [reflexivity|]. rewrite IH. destruct (repl c f l) as [l1 b]. cbn [fst snd]. now destruct b.
  Qed.

  Lemma replace_found t c f : replace A t c f true = (t, true).
  Proof using Type. destruct t; reflexivity. Qed.

  Lemma replace_ok t : forall c f,
    leaves_of (fst (replace A t c f false)) = fst (repl c f (leaves_of t)) /\
    snd (replace A t c f false) = snd (repl c f (leaves_of t)) /\
    tree_map snd (fst (replace A t c f false)) = tree_map snd t.
  Proof using Type.
    induction t as [[s n]|l IH] using ptree_ind'; intros c f.
    - cbn. now destruct (is_open A c s).
    - cbn [replace leaves_of]. set (go := fix go (l : list (template A)) (found : bool) := _).
      assert (Gt : forall l, go l true = (l, true)).
      { clear. induction l as [|t l IH]; [reflexivity|]. cbn. fold go. rewrite replace_found. fold go in IH. now rewrite IH. }
      assert (G : flat_map leaves_of (fst (go l false)) = fst (repl c f (flat_map leaves_of l)) /\
                  snd (go l false) = snd (repl c f (flat_map leaves_of l)) /\ map (tree_map snd) (fst (go l false)) = map (tree_map snd) l).
      { induction IH as [|t l Ht IH IHl]; [cbn; auto|]. cbn [go flat_map]. rewrite repl_app. destruct (Ht c f) as (H1 & H2 & H3).
        destruct (replace A t c f false) as [t1 b1]. cbn [fst snd] in H1, H2, H3. rewrite <- H2. destruct b1.
        - change (fix go (l : list (template A)) (found : bool) := _) with go. fold go. rewrite Gt. cbn [fst snd flat_map map]. now rewrite H1, H3.
        - fold go. destruct (go l false) as [l1 b]. cbn [fst snd] in IHl |- *. destruct IHl as (I1 & I2 & I3). cbn [flat_map map]. rewrite I1, I2, I3, H3, H1.
          split; [|auto]. f_equal. clear - H2. revert H2. induction (leaves_of t) as [|[s n] q IHq]; cbn [repl]; [reflexivity|].
          destruct (is_open A c s); [discriminate|]. destruct (repl c f q). cbn [fst snd] in *. intros H. f_equal. now apply IHq. }
      destruct (go l false) as [l1 b]. cbn [fst snd tree_map leaves_of] in *. destruct G as (G1 & G2 & G3). rewrite G1, G2, G3. auto.
  Qed.

  Notation fill := (fill A).

  Lemma fill_repl c f l : forall bs fs,
    fill bs fs (fst (repl c f l)) = if c then fill (f :: bs) fs l else fill bs (f :: fs) l.
  Proof using Type.
    induction l as [|[s n] l IH]; intros bs fs; cbn [repl]; [now destruct c|].
    destruct s as [c'|g]; cbn [is_open].
    - destruct c, c'; cbn [Bool.eqb]; try reflexivity; destruct (repl _ f l) as [l1 b1] eqn:E; cbn [fst fill] in *.
      + destruct fs; now rewrite IH.
      + destruct bs; now rewrite IH.
    - destruct (repl c f l) as [l1 b1]. cbn [fst fill] in *. destruct c; now rewrite IH.
  Qed.

  Lemma fill_nil l : fill [] [] l = l.
  Proof using Type. induction l as [|[[[]|f] n] l IH]; cbn [fill]; congruence. Qed.

  Lemma replace_fields_ok fields : forall t,
    leaves_of (replace_fields A is_boson fields t) = fill (filter is_boson fields) (filter (fun f => negb (is_boson f)) fields) (leaves_of t) /\
    tree_map snd (replace_fields A is_boson fields t) = tree_map snd t.
  Proof using Type.
    unfold replace_fields. induction fields as [|f fields IH]; intros t; cbn [fold_left filter]; [now rewrite fill_nil|].
    destruct (IH (fst (replace A t (is_boson f) f false))) as [H1 H2]. destruct (replace_ok t (is_boson f) f) as (R1 & _ & R3).
    rewrite H1, H2, R1, R3, fill_repl. split; [|reflexivity]. now destruct (is_boson f).
  Qed.

  (** the fields on a filled template *)
  Lemma fill_arranged l : forall bs fs,
    Forall (fun x => exists c, fst x = Open c) l -> forallb is_boson bs = true -> forallb (fun f => negb (is_boson f)) fs = true ->
    List.length (filter (fun x : leaf => match fst x with Open true => true | _ => false end) l) = List.length bs ->
    List.length (filter (fun x : leaf => match fst x with Open false => true | _ => false end) l) = List.length fs ->
    Forall2 (filled A is_boson) l (fill bs fs l) /\
    filter is_boson (flat_map (fun x => match fst x with Placed f => [f] | Open _ => [] end) (fill bs fs l)) = bs /\
    filter (fun f => negb (is_boson f)) (flat_map (fun x => match fst x with Placed f => [f] | Open _ => [] end) (fill bs fs l)) = fs.
  Proof using Type.
    induction l as [|[s n] l IH]; intros bs fs Op Hb Hf Lb Lf; cbn [filter fst] in *.
    - destruct bs, fs; try discriminate. repeat split; constructor.
    - apply Forall_cons_iff in Op as [[c E] Op]. cbn [fst] in E. subst s. destruct c; cbn [fill].
      + destruct bs as [|b bs]; [discriminate|]. cbn [forallb] in Hb. apply andb_true_iff in Hb as [Hb1 Hb]. cbn in Lb.
        destruct (IH bs fs) as (H1 & H2 & H3); auto. split.
        * constructor; [|exact H1]. exists b. cbn. now rewrite Hb1.
        * cbn [app flat_map fst filter]. rewrite Hb1. cbn [negb]. now rewrite H2, H3.
      + destruct fs as [|b fs]; [discriminate|]. cbn [forallb] in Hf. apply andb_true_iff in Hf as [Hf1 Hf]. cbn in Lf.
        destruct (IH bs fs) as (H1 & H2 & H3); auto. apply negb_true_iff in Hf1. split.
        * constructor; [|exact H1]. exists b. cbn. now rewrite Hf1.
        * cbn [app flat_map fst filter]. rewrite Hf1. cbn [negb]. now rewrite H2, H3.
  Qed.

  Lemma arranged_fill l l' : Forall2 (filled A is_boson) l l' ->
    let on := flat_map (fun x : leaf => match fst x with Placed f => [f] | Open _ => [] end) l' in
    l' = fill (filter is_boson on) (filter (fun f => negb (is_boson f)) on) l.
  Proof using Type.
    induction 1 as [|[s n] y l l' (f & E1 & E2) F IH]; [reflexivity|]. cbn [fst snd] in *. subst s y. cbn [flat_map fst app filter]. cbv zeta in IH. rewrite IH at 1.
    cbn [fill]. now destruct (is_boson f).
  Qed.

  Lemma permutation_filter (P : A -> bool) l l' : Permutation l l' -> Permutation (filter P l) (filter P l').
  Proof using Type.
    induction 1 as [|x l l' H IH|x y l|l l' l'' H1 IH1 H2 IH2]; cbn [filter]; auto.
    - destruct (P x); auto.
    - destruct (P x), (P y); auto. apply perm_swap.
    - etransitivity; eauto.
  Qed.

  Lemma split_filter p : Permutation p (filter is_boson p ++ filter (fun f => negb (is_boson f)) p).
  Proof using Type.
    induction p as [|f p IH]; [constructor|]. cbn [filter]. destruct (is_boson f); cbn [negb app].
    - now constructor.
    - rewrite IH at 1. apply Permutation_middle.
  Qed.

  (** every arrangement comes from some order of the fields, and the other way round *)
  Lemma distribute_arrangements fields t : 
    slots A t (List.length (filter is_boson fields)) (List.length (filter (fun f => negb (is_boson f)) fields)) ->
    forall t', arrangement A is_boson fields t t' <-> exists p, In p (permutations fields) /\ t' = replace_fields A is_boson p t.
  Proof using Type.
    intros (S1 & S2 & S3) t'. split.
    - intros (M & F & P). exists (fields_on A t'). split; [now apply permutations_spec|].
      apply (tree_determined snd); [destruct (replace_fields_ok (fields_on A t') t) as [_ ->]; exact M|].
      destruct (replace_fields_ok (fields_on A t') t) as [-> _]. apply arranged_fill, F.
    - intros (p & Ip & ->). apply permutations_spec in Ip. destruct (replace_fields_ok p t) as [R1 R2]. split; [exact R2|]. unfold fields_on. rewrite R1.
      destruct (fill_arranged (leaves_of t) (filter is_boson p) (filter (fun f => negb (is_boson f)) p)) as (H1 & H2 & H3).
      + exact S3.
      + apply forallb_forall. intros f I. now apply filter_In in I.
      + apply forallb_forall. intros f I. now apply filter_In in I.
      + rewrite <- (Permutation_length (permutation_filter is_boson _ _ Ip)). exact S1.
      + rewrite <- (Permutation_length (permutation_filter _ _ _ Ip)). exact S2.
      + split; [exact H1|]. eapply Permutation_trans; [exact Ip|]. eapply Permutation_trans; [apply split_filter|]. rewrite <- H2 at 1. rewrite <- H3 at 2. apply Permutation_sym, split_filter.
  Qed.

  (** ** Equality of partitions *)

  Lemma ptree_eqb_alike t : forall t', ptree_eqb A feqb t t' = true <-> alike A feqb t t'.
  Proof.
    unfold alike. induction t as [[s n]|l IH] using ptree_ind'; intros [[s' n']|l'].
    - cbn. rewrite andb_true_iff, N.eqb_eq. split.
      + intros [H1 ->]. split; [reflexivity|]. constructor; [|constructor]. cbn. destruct s, s'; cbn in H1; try discriminate; [now apply eqb_prop|exact H1].
      + intros [H1 H2]. injection H1 as ->. split; [|reflexivity]. inversion H2 as [|? ? ? ? H3]; subst. cbn in H3. destruct s, s'; cbn; try tauto. subst. apply eqb_reflx.
    - cbn. split; [discriminate|]. intros [H _]. discriminate.
    - cbn. split; [discriminate|]. intros [H _]. discriminate.
    - cbn [ptree_eqb tree_map leaves_of]. set (go := fix go (l k : list (template A)) := _).
      assert (G : go l l' = true <-> map (tree_map snd) l = map (tree_map snd) l' /\
        Forall2 (fun x y : leaf => match fst x, fst y with Placed f, Placed g => feqb f g = true | Open c, Open d => c = d | _, _ => False end)
            (flat_map leaves_of l) (flat_map leaves_of l')).
      { revert l'. induction IH as [|t l Ht IH IHl]; intros [|t' l'].
        - cbn. split; auto.
        - cbn. split; [discriminate|]. intros [H _]. discriminate.
        - cbn. split; [discriminate|]. intros [H _]. discriminate.
        - cbn [go map flat_map]. fold go. rewrite andb_true_iff, Ht, IHl. split.
          + intros [[H1 H2] [H3 H4]]. split; [congruence|]. now apply Forall2_app.
          + intros [H1 H2]. injection H1 as H1 H3. apply Forall2_app_inv_l in H2 as (k & k' & H4 & H5 & H6).
            assert (L : List.length (leaves_of t) = List.length (leaves_of t')).
            { clear - H1. revert t' H1. induction t as [x|l IH] using ptree_ind'; intros [y|l'] E; try discriminate; [reflexivity|]. cbn [tree_map] in E. injection E as E. cbn [leaves_of].
              revert l' E. induction IH as [|t0 l Ht IH IHl]; intros [|t' l'] E; try discriminate; [reflexivity|]. cbn [map] in E. injection E as E1 E2.
              cbn [flat_map]. rewrite !app_length. f_equal; auto. }
            assert (Lk : List.length k = List.length (leaves_of t')) by (now rewrite <- (Spec.Forall2_len H4)).
            assert (K : leaves_of t' = k /\ flat_map leaves_of l' = k').
            { clear - H6 Lk. revert H6 Lk. generalize (leaves_of t') (flat_map leaves_of l'). induction k as [|a k IHk]; intros [|b m] m' E L; try discriminate; [auto|].
              cbn in E. injection E as -> E. injection L as L. destruct (IHk m m' E L) as [-> ->]. auto. }
            destruct K as [-> ->]. auto. }
      rewrite G. split; intros [H1 H2]; (split; [|exact H2]); congruence.
  Qed.

  Hypothesis feqb_refl : forall f, feqb f f = true.
  Hypothesis feqb_sym : forall f g, feqb f g = true -> feqb g f = true.
  Hypothesis feqb_trans : forall f g h, feqb f g = true -> feqb g h = true -> feqb f h = true.

  Lemma alike_refl t : alike A feqb t t.
  Proof.
    split; [reflexivity|]. induction (leaves_of t) as [|[[c|f] n] l IH]; constructor; cbn; auto.
  Qed.

  Lemma alike_sym t t' : alike A feqb t t' -> alike A feqb t' t.
  Proof.
    intros [H1 H2]. split; [auto|]. clear H1. induction H2 as [|x y l l' H F IH]; constructor; auto. destruct (fst x), (fst y); auto.
  Qed.

  Lemma alike_trans t t' t'' : alike A feqb t t' -> alike A feqb t' t'' -> alike A feqb t t''.
  Proof.
    intros [H1 H2] [H3 H4]. split; [congruence|]. clear H1 H3. revert H4. generalize (leaves_of t''). induction H2 as [|x y l l' H F IH]; intros l'' F'; inversion F'; subst; constructor; auto.
    destruct (fst x), (fst y), (fst y0); try tauto; try congruence; eauto.
  Qed.

  Lemma nodup_by_alike l : (forall t, In t l -> exists t', In t' (nodup_by (ptree_eqb A feqb) l) /\ alike A feqb t t') /\
    (forall t, In t (nodup_by (ptree_eqb A feqb) l) -> In t l) /\
    ForallOrdPairs (fun t t' => ~ alike A feqb t t') (nodup_by (ptree_eqb A feqb) l).
  Proof.
    induction l as [|x l (I1 & I2 & I3)]; cbn [nodup_by]; [split; [intros t []|split; [intros t []|constructor]]|]. split; [|split].
    - intros t [<- | I]; [exists x; split; [now left|apply alike_refl]|]. destruct (I1 t I) as (t' & It & Al).
      destruct (ptree_eqb A feqb x t') eqn:E.
      + exists x. split; [now left|]. apply alike_trans with t'; [exact Al|]. apply alike_sym. now apply ptree_eqb_alike.
      + exists t'. split; [right; apply filter_In; rewrite E; auto|exact Al].
    - intros t [<- | I]; [now left|]. apply filter_In in I. right. apply I2, I.
    - constructor.
      + apply Forall_forall. intros t I. apply filter_In in I as [_ E]. apply negb_true_iff in E. intros Al. apply ptree_eqb_alike in Al. congruence.
      + clear - I3. induction I3 as [|t q Ft Fq IH]; cbn [filter]; [constructor|]. destruct (negb (ptree_eqb A feqb x t)); [|exact IH].
        constructor; [|exact IH]. apply Forall_forall. intros u I. apply filter_In in I. rewrite Forall_forall in Ft. now apply Ft.
  Qed.

  (** C35 (1): the arrangements of the fields, each once *)
  Theorem C35_distribute fields t :
    slots A t (List.length (filter is_boson fields)) (List.length (filter (fun f => negb (is_boson f)) fields)) ->
    let out := distribute_fields A is_boson feqb fields t in
    (forall t', In t' out -> arrangement A is_boson fields t t') /\
    (forall t', arrangement A is_boson fields t t' -> exists t'', In t'' out /\ alike A feqb t' t'') /\
    ForallOrdPairs (fun t t' => ~ alike A feqb t t') out.
  Proof.
    intros S out. unfold out, distribute_fields. destruct (nodup_by_alike (map (fun fields => replace_fields A is_boson fields t) (permutations fields))) as (N1 & N2 & N3).
    split; [|split; [|exact N3]].
    - intros t' I. apply N2, in_map_iff in I as (p & <- & Ip). apply (distribute_arrangements fields t S). eauto.
    - intros t' Ar. apply (distribute_arrangements fields t S) in Ar as (p & Ip & ->). apply N1. apply in_map_iff. eauto.
  Qed.

  (** C35 (2): with pairwise different fields there are s! f! of them *)
  Theorem C35_count fields t :
    (forall f g, feqb f g = true -> f = g) -> NoDup fields ->
    slots A t (List.length (filter is_boson fields)) (List.length (filter (fun f => negb (is_boson f)) fields)) ->
    List.length (distribute_fields A is_boson feqb fields t) =
    fact (List.length (filter is_boson fields)) * fact (List.length (filter (fun f => negb (is_boson f)) fields)).
  Proof.
    intros Dec Nd S. pose proof (C35_distribute fields t S) as (D1 & D2 & D3). cbv zeta in *. set (out := distribute_fields A is_boson feqb fields t) in *. clearbody out.
    assert (AE : forall t t', alike A feqb t t' -> t = t').
    { intros t1 t2 [H1 H2]. apply (tree_determined snd); [exact H1|]. clear - H1 H2 Dec.
      assert (M : map snd (leaves_of t1) = map snd (leaves_of t2)).
      { revert t2 H1 H2. assert (G : forall t : template A, map snd (leaves_of t) = leaves_of (tree_map snd t)).
        { induction t as [x|l IH] using ptree_ind'; [reflexivity|]. cbn [leaves_of tree_map]. induction IH as [|t0 l Ht IH IHl]; [reflexivity|]. cbn. now rewrite map_app, Ht, IHl. }
        intros t2 H1 _. rewrite !G. now rewrite H1. }
      clear H1. revert M. induction H2 as [|[s n] [s' n'] l l' H F IH]; [reflexivity|]. cbn in *. intros M. injection M as -> M. rewrite IH by exact M. f_equal. f_equal.
      destruct s, s'; try tauto; f_equal; auto. }
    assert (No : NoDup out).
    { clear - D3 feqb_refl. induction D3 as [|x l F D IH]; constructor; [|exact IH]. intros I. rewrite Forall_forall in F. apply (F x I), alike_refl. }
    set (bs := filter is_boson fields) in *. set (fs := filter (fun f => negb (is_boson f)) fields) in *.
    set (g := fun pq : list A * list A => replace_fields A is_boson (fst pq ++ snd pq) t).
    assert (Pb : forall p, In p (permutations bs) -> filter is_boson p = p /\ filter (fun f => negb (is_boson f)) p = []).
    { intros p Ip. apply permutations_spec in Ip. assert (H : forall f, In f p -> is_boson f = true).
      { intros f I. apply (Permutation_in f (Permutation_sym Ip)) in I. now apply filter_In in I. }
      clear - H. induction p as [|f p IH]; [auto|]. cbn [filter]. rewrite (H f (or_introl eq_refl)). cbn. destruct IH as [-> ->]; [intros; apply H; now right|auto]. }
    assert (Pf : forall p, In p (permutations fs) -> filter is_boson p = [] /\ filter (fun f => negb (is_boson f)) p = p).
    { intros p Ip. apply permutations_spec in Ip. assert (H : forall f, In f p -> is_boson f = false).
      { intros f I. apply (Permutation_in f (Permutation_sym Ip)) in I. apply filter_In in I as [_ I]. now apply negb_true_iff. }
      clear - H. induction p as [|f p IH]; [auto|]. cbn [filter]. rewrite (H f (or_introl eq_refl)). cbn. destruct IH as [-> ->]; [intros; apply H; now right|auto]. }
    assert (Gon : forall p q, In p (permutations bs) -> In q (permutations fs) ->
      filter is_boson (fields_on A (g (p, q))) = p /\ filter (fun f => negb (is_boson f)) (fields_on A (g (p, q))) = q).
    { intros p q Ip Iq. destruct (Pb p Ip) as [B1 B2]. destruct (Pf q Iq) as [F1 F2]. unfold g, fields_on. cbn [fst snd].
      destruct (replace_fields_ok (p ++ q) t) as [-> _]. rewrite !filter_app, B1, B2, F1, F2, app_nil_r. cbn [app].
      destruct S as (S1 & S2 & S3). apply permutations_spec in Ip. apply permutations_spec in Iq.
      destruct (fill_arranged (leaves_of t) p q) as (_ & H2 & H3); auto.
      - rewrite <- B1. apply forallb_forall. intros f I. now apply filter_In in I.
      - rewrite <- F2. apply forallb_forall. intros f I. now apply filter_In in I.
      - now rewrite <- (Permutation_length Ip).
      - now rewrite <- (Permutation_length Iq). }
    assert (Ndg : NoDup (map g (list_prod (permutations bs) (permutations fs)))).
    { assert (Inj : forall x y, In x (list_prod (permutations bs) (permutations fs)) -> In y (list_prod (permutations bs) (permutations fs)) -> g x = g y -> x = y).
      { intros [p q] [p' q'] I I' E. apply in_prod_iff in I as [I1 I2]. apply in_prod_iff in I' as [I1' I2']. destruct (Gon p q I1 I2) as [A1 A2]. destruct (Gon p' q' I1' I2') as [A1' A2'].
        rewrite E in A1, A2. congruence. }
      assert (Np : NoDup (list_prod (permutations bs) (permutations fs))).
      { assert (N1 : NoDup (permutations bs)) by (apply permutations_NoDup, NoDup_filter, Nd). assert (N2 : NoDup (permutations fs)) by (apply permutations_NoDup, NoDup_filter, Nd).
        clear - N1 N2. induction N1 as [|p l Np Nl IH]; [constructor|]. cbn [list_prod]. apply NoDup_app_intro; [|exact IH|].
        - apply FinFun.Injective_map_NoDup; [|exact N2]. intros x y E. congruence.
        - intros [p' q'] I I'. apply in_map_iff in I as (z & E & _). injection E as <- <-. apply in_prod_iff in I' as [I' _]. contradiction. }
      revert Inj Np. generalize (list_prod (permutations bs) (permutations fs)). clear. induction l as [|x l IH]; intros Inj Np; cbn [map]; constructor.
      - intros I. apply in_map_iff in I as (y & E & Iy). apply NoDup_cons_iff in Np as [Nx _]. apply Nx. rewrite (Inj x y); [exact Iy|now left|now right|auto].
      - apply IH; [|now apply NoDup_cons_iff in Np]. intros y z Iy Iz. apply Inj; now right. }
    assert (P : Permutation out (map g (list_prod (permutations bs) (permutations fs)))).
    { apply NoDup_Permutation; [exact No|exact Ndg|]. intros t'. split.
      - intros I. apply D1 in I. assert (Ar := I). destruct I as (M & F & P). set (on := fields_on A t') in *.
        apply in_map_iff. exists (filter is_boson on, filter (fun f => negb (is_boson f)) on). split.
        + apply (tree_determined snd); unfold g; cbn [fst snd]; destruct (replace_fields_ok (filter is_boson on ++ filter (fun f => negb (is_boson f)) on) t) as [R1 R2]; [rewrite R2; auto|].
          rewrite R1. rewrite (arranged_fill _ _ F). fold (fields_on A t'). fold on.
          destruct (Pb (filter is_boson on)) as [B1 B2]; [apply permutations_spec; now apply permutation_filter|].
          destruct (Pf (filter (fun f => negb (is_boson f)) on)) as [F1 F2]; [apply permutations_spec; now apply permutation_filter|].
          now rewrite !filter_app, B1, B2, F1, F2, app_nil_r.
        + apply in_prod_iff. split; apply permutations_spec; now apply permutation_filter.
      - intros I. apply in_map_iff in I as ([p q] & <- & I). apply in_prod_iff in I as [Ip Iq]. destruct (D2 (g (p, q))) as (t'' & It & Al).
        + apply (distribute_arrangements fields t S). exists (p ++ q). split; [|reflexivity]. apply permutations_spec. apply permutations_spec in Ip. apply permutations_spec in Iq.
          rewrite <- Ip, <- Iq. apply split_filter.
        + now rewrite (AE _ _ Al). }
    rewrite (Permutation_length P), map_length, prod_length, !permutations_count. reflexivity.
  Qed.
End Distribute.

(** C35 (3): for any fields and any template: the tree of nodes is kept, the slots take the bosons and the fermions in
    order; fields beyond the slots are dropped, slots beyond the fields stay open *)
Theorem C35_replace_fields A (is_boson : A -> bool) fields (t : template A) :
  tree_map snd (replace_fields A is_boson fields t) = tree_map snd t /\
  leaves_of (replace_fields A is_boson fields t) =
  SpecPartition.fill A (filter is_boson fields) (filter (fun f => negb (is_boson f)) fields) (leaves_of t).
Proof. destruct (replace_fields_ok A is_boson fields t) as [H1 H2]. auto. Qed.

(** ** Examples: numbers below 10 are bosons *)

Definition ex_template : template nat := Tp [Tp [Lf (Open true, 18%N); Lf (Open false, 54%N)]; Lf (Open false, 6%N); Lf (Open true, 4%N)].

Example C35_example :
  slots nat ex_template 2 2 /\
  List.length (distribute_fields nat (fun n => n <? 10) Nat.eqb [1; 2; 11; 12] ex_template) = 4 /\
  List.length (distribute_fields nat (fun n => n <? 10) Nat.eqb [1; 1; 11; 12] ex_template) = 2 /\
  In (Tp [Tp [Lf (Placed 2, 18%N); Lf (Placed 11, 54%N)]; Lf (Placed 12, 6%N); Lf (Placed 1, 4%N)])
     (distribute_fields nat (fun n => n <? 10) Nat.eqb [1; 2; 11; 12] ex_template).
Proof. split; [split; [reflexivity|]; split; [reflexivity|]; repeat constructor; eexists; reflexivity|]. vm_compute. auto 10. Qed.

(** too many fields: one is lost *)
Theorem C35_extra_refuted :
  replace_fields nat (fun n => n <? 10) [1; 2; 3; 11; 12] ex_template =
  replace_fields nat (fun n => n <? 10) [1; 2; 11; 12] ex_template.
Proof. reflexivity. Qed.

Print Assumptions C35_distribute.
Print Assumptions C35_count.
Print Assumptions C35_replace_fields.
Print Assumptions C35_extra_refuted.
