(** * PropsPartition3: properties C37 (in general) and C41: connecting edges, the reduction of a partition *)

From Coq Require Import Ascii String List Bool Arith ZArith NArith Lia Permutation.
From Verif Require Import Base BaseFacts Show ModelIndex ModelField ModelContract ModelPartition SpecPartition PropsPartition.
From Verif Require Spec.
Import ListNotations.
Local Open Scope nat_scope.

Lemma N_decides : decides N.eqb.
Proof. intros x y. apply N.eqb_eq. Qed.

Lemma neighbours_NoDup g n : NoDup (neighbours g n).
Proof. apply nodup_by_NoDup, N_decides. Qed.

Lemma neighbours_In g n v : In v (neighbours g n) <-> adjacent g n v.
Proof.
  unfold neighbours. rewrite (nodup_by_In N_decides), in_flat_map. unfold adjacent. split.
  - intros ([a b] & I & H). cbn [fst snd] in H. destruct (N.eqb_spec a n) as [-> | _]; [destruct H as [<-|[]]; auto|].
    destruct (N.eqb_spec b n) as [-> | _]; [destruct H as [<-|[]]; auto|destruct H].
  - intros [I|I].
    + exists (n, v). split; [exact I|]. cbn. rewrite N.eqb_refl. now left.
    + exists (v, n). split; [exact I|]. cbn. destruct (N.eqb_spec v n) as [-> | _]; [now left|]. rewrite N.eqb_refl. now left.
Qed.

Lemma in_graph_spec g n : in_graph g n = true <-> exists v, adjacent g n v.
Proof.
  unfold in_graph, touches, adjacent. rewrite existsb_exists. split.
  - intros ([a b] & I & H). cbn [fst snd] in H. apply orb_true_iff in H as [H|H]; apply N.eqb_eq in H; subst; eauto.
  - intros (v & [I|I]); eexists; (split; [exact I|]); cbn; rewrite N.eqb_refl; auto using orb_true_r.
Qed.

Lemma remove_all nodes : forall l, NoDup l ->
  match foldM (fun l n => remove_first N.eqb n l) nodes l with
  | Ok others => NoDup nodes /\ Permutation l (nodes ++ others)
  | Err e => e = ValueError /\ ~ (NoDup nodes /\ incl nodes l)
  end.
Proof.
  induction nodes as [|n nodes IH]; intros l N; cbn [foldM]; [split; [constructor|reflexivity]|].
  destruct (remove_first N.eqb n l) as [r|e] eqn:E; cbn [bind].
  - apply (remove_first_ok N_decides) in E. assert (Nr : NoDup (n :: r)) by (eapply Permutation_NoDup; eauto).
    apply NoDup_cons_iff in Nr as [Nn Nr]. specialize (IH r Nr). destruct (foldM _ nodes r) as [others|e].
    + destruct IH as [I1 I2]. split.
      * constructor; [|exact I1]. intros I. apply Nn. apply (Permutation_in n (Permutation_sym I2)). apply in_or_app. now left.
      * cbn. rewrite E. now constructor.
    + destruct IH as [-> I]. split; [reflexivity|]. intros [D In_]. apply I. apply NoDup_cons_iff in D as [D1 D2]. split; [exact D2|]. intros x Ix.
      assert (Ix' : In x l) by (apply In_; now right). apply (Permutation_in x E) in Ix'. destruct Ix' as [<-|H]; [contradiction|exact H].
  - assert (Nn : ~ In n l). { intros I. apply (remove_first_In N_decides) in I as (r & E'). congruence. }
    rewrite (remove_first_not_In N_decides) in E by exact Nn. injection E as <-. split; [reflexivity|]. intros [_ I]. apply Nn, I. now left.
Qed.

(** C37 (1): the connecting edge *)
Theorem C37_connecting_edge g nodes c o : get_connecting_edge g nodes = Ok (c, o) <-> joined_at g nodes c o.
Proof.
  unfold get_connecting_edge, joined_at.
  assert (Int : forall n rst v, In v (filter (fun v => forallb (fun m => mem_by N.eqb v (neighbours g m)) rst) (neighbours g n)) <-> forall m, In m (n :: rst) -> adjacent g m v).
  { intros n rst v. rewrite filter_In, neighbours_In, forallb_forall. split.
    - intros [H1 H2] m [<-|I]; [exact H1|]. specialize (H2 m I). apply (mem_by_In N_decides) in H2. now apply neighbours_In.
    - intros H. split; [apply H; now left|]. intros m I. apply (mem_by_In N_decides), neighbours_In, H. now right. }
  assert (NoI : forall n rst, NoDup (filter (fun v => forallb (fun m => mem_by N.eqb v (neighbours g m)) rst) (neighbours g n))) by (intros; apply NoDup_filter, neighbours_NoDup).
  split.
  - destruct (forallb (in_graph g) nodes); [cbn [bind]|discriminate]. destruct nodes as [|n rst]; [discriminate|]. specialize (Int n rst). specialize (NoI n rst).
    destruct (filter _ (neighbours g n)) as [|c' [|]] eqn:Ei; try discriminate. pose proof (remove_all (n :: rst) (neighbours g c') (neighbours_NoDup g c')) as R.
    destruct (foldM _ (n :: rst) (neighbours g c')) as [others|e]; [cbn [bind]|discriminate]. destruct others as [|o' [|]]; try discriminate. intros [= -> ->].
    destruct R as [R1 R2]. split; [discriminate|]. split; [exact R1|]. split; [|split].
    + intros v. rewrite <- Int. cbn. intuition.
    + assert (N : NoDup ((n :: rst) ++ [o])) by (eapply Permutation_NoDup; [exact R2|apply neighbours_NoDup]). intros I.
      apply (NoDup_remove_2 (n :: rst) [] o) in N. apply N. rewrite app_nil_r. exact I.
    + intros v. rewrite <- neighbours_In. split.
      * intros I. apply (Permutation_in v R2), in_app_iff in I as [I|[<-|[]]]; auto.
      * intros I. apply (Permutation_in v (Permutation_sym R2)). apply in_or_app. destruct I as [I| ->]; [now left|right; now left].
  - intros (Ne & Nd & Cm & No & Ad).
    assert (Ac : forall n, In n nodes -> adjacent g n c) by (apply Cm; reflexivity).
    assert (G : forallb (in_graph g) nodes = true) by (apply forallb_forall; intros n I; apply in_graph_spec; eauto). rewrite G. cbn [bind].
    destruct nodes as [|n rst]; [congruence|]. specialize (Int n rst). specialize (NoI n rst).
    assert (Ei : filter (fun v => forallb (fun m => mem_by N.eqb v (neighbours g m)) rst) (neighbours g n) = [c]).
    { apply Permutation_length_1_inv. apply NoDup_Permutation; [repeat constructor; auto|exact NoI|]. intros v. rewrite Int, Cm. cbn. intuition. }
    rewrite Ei. pose proof (remove_all (n :: rst) (neighbours g c) (neighbours_NoDup g c)) as R.
    destruct (foldM _ (n :: rst) (neighbours g c)) as [others|e].
    + cbn [bind]. destruct R as [_ R2]. assert (Eo : others = [o]).
      { apply Permutation_length_1_inv. apply Permutation_app_inv_l with (l := n :: rst). rewrite <- R2. apply NoDup_Permutation.
        - apply ProofsContract.NoDup_app_intro; [exact Nd|repeat constructor; auto|]. intros x Ix [<-|[]]. contradiction.
        - apply neighbours_NoDup.
        - intros v. rewrite neighbours_In, Ad, in_app_iff. cbn. intuition. }
      now rewrite Eo.
    + exfalso. apply R. split; [exact Nd|]. intros x I. apply neighbours_In, Ad. now left.
Qed.

(** otherwise it raises *)
Theorem C37_raises g nodes : (forall c o, ~ joined_at g nodes c o) <-> exists e, get_connecting_edge g nodes = Err e.
Proof.
  split.
  - intros H. destruct (get_connecting_edge g nodes) as [[c o]|e] eqn:E; [|eauto]. apply C37_connecting_edge in E. destruct (H c o E).
  - intros (e & E) c o J. apply C37_connecting_edge in J. congruence.
Qed.

Example C37_example :
  get_connecting_edge [(1, 3); (2, 3); (3, 4)]%N [1; 2]%N = Ok (3, 4)%N /\ joined_at [(1, 3); (2, 3); (3, 4)]%N [1; 2]%N 3 4 /\
  get_connecting_edge [(1, 3); (2, 3); (3, 4); (3, 5)]%N [1; 2]%N = Err AssertionError.
Proof. split; [reflexivity|]. split; [apply C37_connecting_edge; reflexivity|reflexivity]. Qed.

(** ** The reduction *)

(** reducing a tuple is reducing its elements from left to right and then applying the function, also when they are
    leaves *)
Lemma reduced_row_eq {B St} (func : list B -> St -> res (B * St)) l st :
  reduced_row B St func (Tp l) st = do r <- reduced_rows B St func l st; func (fst r) (snd r).
Proof.
  cbn [reduced_row]. set (go := fix go (l : list (ptree B)) (st : St) := _).
  assert (G : forall l st, go l st = reduced_rows B St func l st) by (induction l0 as [|t l0 IH]; intros s; [reflexivity|]; cbn [go reduced_rows]; destruct (reduced_row B St func t s); [cbn [bind]; fold go; now rewrite IH|reflexivity]).
  rewrite G. destruct (forallb (is_leaf B) l) eqn:Lv; [|reflexivity].
  assert (H : reduced_rows B St func l st = Ok (flat_map (fun t => match t with Lf x => [x] | Tp _ => [] end) l, st)).
  { clear - Lv. induction l as [|[x|k] l IH]; [reflexivity| |discriminate]. cbn [forallb is_leaf andb] in Lv. cbn [reduced_rows reduced_row bind flat_map app fst snd]. rewrite IH by exact Lv. reflexivity. }
  rewrite H. reflexivity.
Qed.

(** C41 (1): a function that counts its calls is called once for every tuple *)
Fixpoint tuples {B} (t : ptree B) : nat := match t with Lf _ => 0 | Tp l => Datatypes.S (list_sum (map tuples l)) end.

Theorem C41_once B St (func : list B -> St -> res (B * St)) (calls : St -> nat) :
  (forall xs st x st', func xs st = Ok (x, st') -> calls st' = calls st + 1) ->
  forall t st x st', reduced_row B St func t st = Ok (x, st') -> calls st' = calls st + tuples t.
Proof.
  intros H. induction t as [y|l IH] using ptree_ind'; intros st x st' E.
  - cbn in E. injection E as _ <-. cbn. lia.
  - rewrite reduced_row_eq in E. apply bind_ok in E as ([xs st1] & E1 & E2). cbn [fst snd] in E2. apply H in E2. rewrite E2. cbn [tuples].
    assert (G : calls st1 = calls st + list_sum (map tuples l)).
    { clear E2. revert st xs E1. induction IH as [|t l Ht IH IHl]; intros st xs E1; cbn [reduced_rows] in E1.
      - injection E1 as _ <-. cbn. lia.
      - apply bind_ok in E1 as ([y s1] & E1 & E2). apply bind_ok in E2 as ([ys s2] & E2 & E3). injection E3 as _ <-. cbn [snd] in *.
        apply Ht in E1. apply IHl in E2. cbn [map list_sum fold_right]. change (fold_right Nat.add 0 (map tuples l)) with (list_sum (map tuples l)). lia. }
    lia.
Qed.

Scheme completed_mind := Induction for completed Sort Prop
  with completed_all_mind := Induction for completed_all Sort Prop.
Combined Scheme completed_both from completed_mind, completed_all_mind.

Section Run.
  Variables F T E CS : Type.
  Variable feqb : F -> F -> bool.
  Variable contract : list F -> list E -> CS -> res ((str + F * T * list E) * CS).
  Variable last_vertex : list F -> list E -> res (str + T * list E).
  Variable gauge : list E.
  Variable g : graph.

  Notation rleaf := (rleaf F).
  Notation func := (replace_and_mutate F T E CS feqb contract gauge g).
  Notation row := (reduced_row rleaf (rstate F T E CS) func).
  Notation rows := (reduced_rows rleaf (rstate F T E CS) func).
  Notation completed := (completed F T E CS contract gauge g).
  Notation completed_all := (completed_all F T E CS contract gauge g).
  Notation rstate := (rstate F T E CS).
  Notation entry := (entry F T E).

  Definition good (x : F * N) : rleaf := (inl (fst x), Some (snd x)).
  Definition embed (t : ptree (F * N)) : ptree rleaf := tree_map good t.

  Definition labelled_edges (d : list (F * (N * N))) (log : list entry) : list (F * (N * N)) :=
    fold_left (fun d e => dset feqb d (fst (fst (fst e))) (snd (fst e))) log d.

  Definition extend (st : rstate) (log : list entry) (cs : CS) : rstate :=
    mkR F T E CS (r_terms _ _ _ _ st ++ map (fun e => snd (fst (fst e))) log) (labelled_edges (r_edges _ _ _ _ st) log)
        (r_lorentz _ _ _ _ st ++ concat (map snd log)) cs.

  Lemma extend_app st a cs1 b cs2 : extend (extend st a cs1) b cs2 = extend st (a ++ b) cs2.
  Proof. unfold extend, labelled_edges. cbn. f_equal; [now rewrite map_app, app_assoc|now rewrite fold_left_app|now rewrite map_app, concat_app, app_assoc]. Qed.

  Lemma extend_nil st : extend st [] (r_cs _ _ _ _ st) = st.
  Proof. destruct st. unfold extend. cbn. now rewrite !app_nil_r. Qed.

  Lemma unpack_good fs ns : List.length fs = List.length ns -> unpack F (map good (combine fs ns)) = inr (fs, ns).
  Proof.
    revert ns. induction fs as [|f fs IH]; intros [|n ns] L; try discriminate; [reflexivity|]. cbn [combine map good fst snd unpack]. rewrite IH by (cbn in L; lia). reflexivity.
  Qed.

  (** completed trees reduce *)
  Lemma completed_reduces :
    (forall t cs f n log cs', completed t cs f n log cs' -> forall st, r_cs _ _ _ _ st = cs ->
       row (embed t) st = Ok (good (f, n), extend st log cs')) /\
    (forall l cs fs ns log cs', completed_all l cs fs ns log cs' -> List.length fs = List.length l /\ List.length ns = List.length l /\ forall st, r_cs _ _ _ _ st = cs ->
       rows (map embed l) st = Ok (map good (combine fs ns), extend st log cs')).
  Proof.
    apply completed_both.
    - intros f n cs st <-. rewrite extend_nil. reflexivity.
    - intros t cs f n log cs' C IH st Ecs. cbn [embed tree_map map]. rewrite reduced_row_eq. cbn [reduced_rows]. fold (embed t). rewrite (IH st Ecs). reflexivity.
    - intros l cs fs ns log cs1 exotic term lorentz cs2 c o Len C (L1 & L2 & IH) Ec J st Ecs. cbn [embed tree_map]. rewrite reduced_row_eq. fold embed. change (map (tree_map good) l) with (map embed l). rewrite (IH st Ecs). cbn [bind fst snd].
      unfold replace_and_mutate. rewrite unpack_good by congruence. destruct fs as [|f1 [|f2 fs]]; [cbn in L1; lia|cbn in L1; lia|]. 
      unfold extend at 1. cbn [r_cs]. rewrite Ec. cbn [bind fst snd]. apply C37_connecting_edge in J. rewrite J. cbn [bind fst snd]. unfold good. cbn [fst snd]. f_equal. f_equal.
      rewrite <- extend_app with (cs1 := cs1). unfold extend, labelled_edges. cbn. now rewrite app_nil_r.
    - intros cs. split; [reflexivity|]. split; [reflexivity|]. intros st <-. cbn. now rewrite extend_nil.
    - intros t l cs f n log cs1 fs ns logs cs2 C IH C' (L1 & L2 & IH'). split; [cbn; lia|]. split; [cbn; lia|]. intros st Ecs. cbn [map reduced_rows]. rewrite (IH st Ecs). cbn [bind fst snd].
      rewrite (IH' (extend st log cs1)) by reflexivity. cbn [bind fst snd combine map]. now rewrite extend_app.
  Qed.

  (** where a reason comes from *)
  Definition refused (r : str) : Prop := exists fs cs cs', contract fs gauge cs = Ok (inl r, cs').

  (** where an exception comes from: a contraction, a missing edge, an empty tuple *)
  Definition raised (e : exn) : Prop :=
    (exists fs cs, contract fs gauge cs = Err e) \/ (exists ns, get_connecting_edge g ns = Err e) \/ e = PlainException.

  Definition outcome (t : ptree (F * N)) (st : rstate) : Prop :=
    match row (embed t) st with
    | Ok ((inl f, Some n), st') => exists log, completed t (r_cs _ _ _ _ st) f n log (r_cs _ _ _ _ st') /\ st' = extend st log (r_cs _ _ _ _ st')
    | Ok ((inr r, None), st') => refused r
    | Ok _ => False
    | Err e => raised e
    end.

  Lemma row_outcome t : forall st, outcome t st.
  Proof.
    induction t as [[f n]|l IH] using ptree_ind'; intros st; unfold outcome.
    - cbn. exists []. split; [constructor|]. symmetry. apply extend_nil.
    - cbn [embed tree_map]. rewrite reduced_row_eq. change (map (tree_map good) l) with (map embed l).
      assert (G : match rows (map embed l) st with
                  | Ok (xs, st') => match unpack F xs with
                                    | inl (inr r, None) => refused r
                                    | inl _ => False
                                    | inr (fs, ns) => exists log, completed_all l (r_cs _ _ _ _ st) fs ns log (r_cs _ _ _ _ st') /\ st' = extend st log (r_cs _ _ _ _ st')
                                    end
                  | Err e => raised e
                  end).
      { revert st. induction IH as [|t l Ht IH IHl]; intros st; cbn [map reduced_rows].
        - cbn [unpack]. exists []. split; [constructor|]. symmetry. apply extend_nil.
        - specialize (Ht st). unfold outcome in Ht. destruct (row (embed t) st) as [[x st1]|e]; [|exact Ht]. cbn [bind fst snd]. specialize (IHl st1).
          destruct (rows (map embed l) st1) as [[xs st2]|e]; [|exact IHl]. cbn [bind fst snd unpack]. destruct x as [[f|r] [n|]]; try contradiction; [|exact Ht].
          destruct Ht as (log & C & E1). destruct (unpack F xs) as [y|[fs ns]]; [destruct y as [[?|?] [?|]]; try contradiction; exact IHl|].
          destruct IHl as (logs & C' & E2). exists (log ++ logs). split; [econstructor; eassumption|]. rewrite E2, E1 at 1. rewrite extend_app. reflexivity. }
      destruct (rows (map embed l) st) as [[xs st1]|e] eqn:Er; [|exact G]. cbn [bind fst snd]. unfold replace_and_mutate.
      destruct (unpack F xs) as [y|[fs ns]]; [destruct y as [[?|?] [?|]]; try contradiction; exact G|].
      destruct G as (log & C & E1). destruct (proj2 completed_reduces _ _ _ _ _ _ C) as (L1 & L2 & _).
      destruct fs as [|f1 [|f2 fs]].
      + right. now right.
      + destruct ns as [|n [|]]; cbn in L1, L2; try lia. destruct l as [|t [|]]; cbn in L1; try lia. exists log. split; [|exact E1]. constructor.
        inversion C as [|? ? ? ? ? ? ? ? ? ? ? C1 C2]; subst. inversion C2; subst. rewrite app_nil_r. exact C1.
      + destruct (contract (f1 :: f2 :: fs) gauge (r_cs _ _ _ _ st1)) as [[[r|[[exotic term] lorentz]] cs2]|e] eqn:Ec; cbn [bind fst snd].
        * red. eauto.
        * destruct (get_connecting_edge g ns) as [[c o]|e] eqn:Eg; cbn [bind fst snd]; [|right; left; eauto]. apply C37_connecting_edge in Eg.
          exists (log ++ [(exotic, term, (c, o), lorentz)]). cbn [r_cs]. split.
          -- econstructor; [cbn in L1; lia|exact C|exact Ec|exact Eg].
          -- rewrite <- extend_app with (cs1 := r_cs _ _ _ _ st1), <- E1. unfold extend, labelled_edges. cbn. now rewrite app_nil_r.
        * left. eauto.
  Qed.

  Lemma rows_outcome l : forall st,
    match rows (map embed l) st with
    | Ok (xs, st') => match first_reason F xs with
                      | inl r => refused r
                      | inr fs => exists ns log, completed_all l (r_cs _ _ _ _ st) fs ns log (r_cs _ _ _ _ st') /\ st' = extend st log (r_cs _ _ _ _ st')
                      end
    | Err e => raised e
    end.
  Proof.
    induction l as [|t l IH]; intros st; cbn [map reduced_rows].
    - cbn. exists [], []. split; [constructor|]. symmetry. apply extend_nil.
    - pose proof (row_outcome t st) as Ht. unfold outcome in Ht. destruct (row (embed t) st) as [[x st1]|e]; [|exact Ht]. cbn [bind fst snd]. specialize (IH st1).
      destruct (rows (map embed l) st1) as [[xs st2]|e]; [|exact IH]. cbn [bind fst snd]. unfold first_reason in *. cbn [fold_right]. destruct x as [[f|r] [n|]]; try contradiction; [|exact Ht]. cbn [fst].
      destruct Ht as (log & C & E1). destruct (fold_right _ _ xs) as [r|fs]; [exact IH|]. destruct IH as (ns & logs & C' & E2). exists (n :: ns), (log ++ logs). split; [econstructor; eassumption|].
      rewrite E2, E1 at 1. rewrite extend_app. reflexivity.
  Qed.

  Notation construct := (construct_completion F T E CS feqb contract last_vertex).

  (** C41 (2): a completion comes out exactly when every vertex is contracted, once, and the last vertex is allowed *)
  Theorem C41_completion l cs terms edges lorentz cs' :
    construct (map embed l) gauge g cs = Ok (inr (terms, edges, lorentz), cs') <->
    exists fs ns log term lorentz', completed_all l cs fs ns log cs' /\ last_vertex fs gauge = Ok (inr (term, lorentz')) /\
      terms = map (fun e => snd (fst (fst e))) log ++ [term] /\ edges = labelled_edges [] log /\ lorentz = concat (map snd log) ++ lorentz'.
  Proof.
    unfold construct_completion. split.
    - intros H. apply bind_ok in H as ([xs st] & Exs & H). cbn [fst snd] in H. pose proof (rows_outcome l (mkR F T E CS [] [] [] cs)) as O. rewrite Exs in O.
      destruct (first_reason F xs) as [r|fs]; [discriminate|]. destruct O as (ns & log & C & Es). cbn [r_cs] in C. apply bind_ok in H as ([r|[term lor']] & El & H); [discriminate|].
      injection H as <- <- <- <-. exists fs, ns, log, term, lor'. split; [exact C|]. split; [exact El|]. rewrite Es. cbn. auto.
    - intros (fs & ns & log & term & lor' & C & El & -> & -> & ->). destruct (proj2 completed_reduces _ _ _ _ _ _ C) as (L1 & L2 & R).
      rewrite (R (mkR F T E CS [] [] [] cs)) by reflexivity. cbn [bind fst snd].
      assert (Fr : first_reason F (map good (combine fs ns)) = inr fs).
      { assert (L : List.length fs = List.length ns) by congruence. clear - L. revert ns L. induction fs as [|f fs IH]; intros [|n ns] L; try discriminate; [reflexivity|]. cbn in L.
        unfold first_reason in *. cbn [combine map fold_right good fst]. rewrite IH by lia. reflexivity. }
      rewrite Fr, El. cbn [bind]. unfold extend. cbn. reflexivity.
  Qed.

  (** C41 (3): a failure carries the reason of a contraction or of the last vertex; nothing else makes it fail *)
  Theorem C41_failure l cs r cs' :
    construct (map embed l) gauge g cs = Ok (inl r, cs') ->
    refused r \/ exists fs, last_vertex fs gauge = Ok (inl r).
  Proof.
    unfold construct_completion. intros H. apply bind_ok in H as ([xs st] & Exs & H). cbn [fst snd] in H. pose proof (rows_outcome l (mkR F T E CS [] [] [] cs)) as O. rewrite Exs in O.
    destruct (first_reason F xs) as [r'|fs]; [injection H as <- _; now left|]. apply bind_ok in H as ([r'|[term lor']] & El & H); [|discriminate]. injection H as <- _. right. eauto.
  Qed.

  (** one contraction per tuple with more than one element *)
  Lemma completed_vertices :
    (forall t cs f n log cs', completed t cs f n log cs' -> List.length log = vertices t) /\
    (forall l cs fs ns log cs', completed_all l cs fs ns log cs' -> List.length log = list_sum (map vertices l)).
  Proof.
    apply completed_both; cbn [vertices map]; try reflexivity.
    - intros t cs f n log cs' C IH. cbn. lia.
    - intros l cs fs ns log cs1 exotic term lorentz cs2 c o L C IH Ec J. rewrite app_length, IH. cbn [List.length]. destruct l as [|a [|b l]]; cbn in L; lia.
    - intros t l cs f n log cs1 fs ns logs cs2 C IH C' IH'. rewrite app_length, IH, IH'. reflexivity.
  Qed.

  Theorem C41_terms l cs terms edges lorentz cs' :
    construct (map embed l) gauge g cs = Ok (inr (terms, edges, lorentz), cs') -> List.length terms = list_sum (map vertices l) + 1.
  Proof.
    intros H. apply C41_completion in H as (fs & ns & log & term & lor' & C & _ & -> & _). apply (proj2 completed_vertices) in C. rewrite app_length, map_length. cbn [List.length]. f_equal. exact C.
  Qed.

  (** ** When the nodes are joined step by step *)

  Scheme joins_mind := Induction for joins Sort Prop
    with joins_all_mind := Induction for joins_all Sort Prop.
  Combined Scheme joins_both from joins_mind, joins_all_mind.

  Definition at_node (n : N) (x : rleaf) : Prop := (exists f, x = (inl f, Some n)) \/ exists r, x = (inr r, None).

  Hypothesis contract_total : forall fs cs, 2 <= List.length fs <= 3 -> exists r, contract fs gauge cs = Ok r.

  Lemma unpack_nodes ns xs : Forall2 at_node ns xs ->
    (exists r, unpack F xs = inl (inr r, None)) \/ exists fs, unpack F xs = inr (fs, ns) /\ List.length fs = List.length ns.
  Proof.
    induction 1 as [|n x ns xs [(f & ->)|(r & ->)] H IH]; cbn [unpack]; [right; exists []; auto| |left; eauto].
    destruct IH as [(r & ->)|(fs & -> & L)]; [left; eauto|right]. exists (f :: fs). cbn. auto.
  Qed.

  Lemma joins_no_error :
    (forall t n es, joins g t n es -> forall t', tree_map snd t' = t -> forall st, exists x st', row (embed t') st = Ok (x, st') /\ at_node n x) /\
    (forall l ns ess, joins_all g l ns ess -> forall l', map (tree_map snd) l' = l -> forall st, exists xs st', rows (map embed l') st = Ok (xs, st') /\ Forall2 at_node ns xs).
  Proof.
    apply joins_both.
    - intros n [[f m]|] Et st; [|discriminate]. cbn in Et. injection Et as ->. exists (good (f, n)), st. split; [reflexivity|]. left. exists f. reflexivity.
    - intros t n es J IH [x|[|t' [|]]] Et st; try discriminate. cbn [tree_map map] in Et. injection Et as Et. destruct (IH t' Et st) as (x & st' & Ex & A).
      cbn [embed tree_map map]. rewrite reduced_row_eq. cbn [reduced_rows]. change (tree_map good t') with (embed t'). rewrite Ex. cbn [bind fst snd]. unfold replace_and_mutate. destruct A as [(f & ->)|(r & ->)]; cbn [unpack].
      + eexists _, _. split; [reflexivity|]. left. eauto.
      + eexists _, _. split; [reflexivity|]. right. eauto.
    - intros l ns ess c o J IH Len Jd [x|l'] Et st; try discriminate. cbn [tree_map] in Et. injection Et as Et. destruct (IH l' Et st) as (xs & st' & Ex & A).
      cbn [embed tree_map]. rewrite reduced_row_eq. change (map (tree_map good) l') with (map embed l'). rewrite Ex. cbn [bind fst snd]. unfold replace_and_mutate.
      assert (Ln : List.length ns = List.length l) by (clear - J; induction J; cbn; auto).
      destruct (unpack_nodes _ _ A) as [(r & Eu)|(fs & Eu & Lf)]; rewrite Eu; [eexists _, _; split; [reflexivity|]; right; eauto|].
      destruct fs as [|f1 [|f2 fs]]; cbn in Lf; try lia. destruct (contract_total (f1 :: f2 :: fs) (r_cs _ _ _ _ st')) as ([[r|[[exotic term] lor]] cs2] & Ec); [cbn; lia|..]; rewrite Ec; cbn [bind fst snd].
      + eexists _, _. split; [reflexivity|]. right. eauto.
      + apply C37_connecting_edge in Jd. rewrite Jd. cbn [bind fst snd]. eexists _, _. split; [reflexivity|]. left. eauto.
    - intros [|] El st; try discriminate. cbn. eauto.
    - intros t l n ns es ess J IH J' IH' [|t' l'] El st; try discriminate. cbn [map] in El. injection El as E1 E2. destruct (IH t' E1 st) as (x & st1 & Ex & A). destruct (IH' l' E2 st1) as (xs & st2 & Exs & As).
      cbn [map reduced_rows]. rewrite Ex. cbn [bind fst snd]. rewrite Exs. cbn [bind fst snd]. eexists _, _. split; [reflexivity|]. now constructor.
  Qed.

  (** C37 (2): the reduction raises nothing of its own *)
  Theorem C37_no_error l ns es cs :
    joins_all g (map (tree_map snd) l) ns es ->
    (forall fs, List.length fs = List.length l -> exists r, last_vertex fs gauge = Ok r) ->
    exists r, construct (map embed l) gauge g cs = Ok r.
  Proof.
    intros J Lv. destruct (proj2 joins_no_error _ _ _ J l eq_refl (mkR F T E CS [] [] [] cs)) as (xs & st & Exs & A).
    unfold construct_completion. rewrite Exs. cbn [bind fst snd]. pose proof (rows_outcome l (mkR F T E CS [] [] [] cs)) as O. rewrite Exs in O.
    destruct (first_reason F xs) as [r|fs]; [eauto|]. destruct O as (ns' & log & C & _). destruct (proj2 completed_reduces _ _ _ _ _ _ C) as (L1 & _).
    destruct (Lv fs L1) as ([r|[term lor]] & El); rewrite El; cbn [bind]; eauto.
  Qed.

  (** the edges that get a label are the ones found by joining *)
  Lemma completed_edges :
    (forall t cs f n log cs', completed t cs f n log cs' -> forall n' es, joins g (tree_map snd t) n' es -> n' = n /\ map (fun e => snd (fst e)) log = es) /\
    (forall l cs fs ns log cs', completed_all l cs fs ns log cs' -> forall ns' es, joins_all g (map (tree_map snd) l) ns' es -> ns' = ns /\ map (fun e => snd (fst e)) log = es).
  Proof.
    apply completed_both.
    - intros f n cs n' es J. cbn in J. inversion J; subst. auto.
    - intros t cs f n log cs' C IH n' es J. cbn in J. inversion J; subst; [auto|]. cbn in *. lia.
    - intros l cs fs ns log cs1 exotic term lorentz cs2 c o Len C IH Ec Jd n' es J. cbn [tree_map] in J. inversion J as [|t n0 es0 J0 Et|l0 ns0 ess0 c0 o0 Ja La Jc El]; subst.
      + destruct l as [|a [|]]; try discriminate. cbn in Len. lia.
      + destruct (IH _ _ Ja) as [-> <-]. apply C37_connecting_edge in Jd, Jc. rewrite Jd in Jc. injection Jc as <- <-. split; [reflexivity|]. rewrite map_app. reflexivity.
    - intros cs ns' es J. inversion J. auto.
    - intros t l cs f n log cs1 fs ns logs cs2 C IH C' IH' ns' es J. cbn [map] in J. inversion J; subst. destruct (IH _ _ H1) as [-> <-]. destruct (IH' _ _ H4) as [-> <-]. split; [reflexivity|]. now rewrite map_app.
  Qed.

  Theorem C37_labelled_edges l ns es cs terms edges lorentz cs' :
    joins_all g (map (tree_map snd) l) ns es ->
    construct (map embed l) gauge g cs = Ok (inr (terms, edges, lorentz), cs') ->
    exists exotics, List.length exotics = List.length es /\ edges = fold_left (fun d x => dset feqb d (fst x) (snd x)) (combine exotics es) [].
  Proof.
    intros J H. apply C41_completion in H as (fs & ns' & log & term & lor' & C & _ & _ & -> & _). destruct (proj2 completed_edges _ _ _ _ _ _ C _ _ J) as [_ <-].
    exists (map (fun e => fst (fst (fst e))) log). rewrite !map_length. split; [reflexivity|]. unfold labelled_edges. generalize (@nil (F * (N * N))). clear. induction log as [|e log IH]; intros d; [reflexivity|]. cbn. apply IH.
  Qed.
End Run.

(** C41 (4): what [operator_completions] yields *)
Theorem C41_operator_completions F T E CS feqb contract last_vertex parts (cs : CS) out :
  operator_completions F T E CS feqb contract last_vertex parts cs = Ok out ->
  forall c, In c out <-> exists rows gauge g cs', In (rows, gauge, g) parts /\
    construct_completion F T E CS feqb contract last_vertex rows gauge g cs = Ok (inr c, cs').
Proof.
  unfold operator_completions. intros H. apply bind_ok in H as (l & El & H). cbv beta in H. injection H as <-. apply mapM_Forall2 in El. intros c. rewrite in_flat_map. split.
  - intros ([[r|c'] cs'] & I & H); cbn in H; [destruct H|destruct H as [<-|[]]]. induction El as [|[[rows gauge] g] y ps ys E1 F2 IH]; [destruct I|]. destruct I as [-> | I].
    + cbn [fst snd] in E1. exists rows, gauge, g, cs'. split; [now left|exact E1].
    + destruct (IH I) as (rows' & gauge' & g' & cs'' & I' & E'). exists rows', gauge', g', cs''. split; [now right|exact E'].
  - intros (rows & gauge & g & cs' & I & E1). induction El as [|p y ps ys E2 F2 IH]; [destruct I|]. destruct I as [-> | I].
    + cbn [fst snd] in E2. rewrite E1 in E2. injection E2 as <-. eexists. split; [now left|]. cbn. auto.
    + destruct (IH I) as (x & Ix & Hx). exists x. split; [now right|exact Hx].
Qed.

(** ** Examples: fields are numbers, a contraction adds them up and refuses multiples of seven *)

Definition ex_contract (fs : list nat) (gauge : list unit) (cs : list nat) : res ((str + nat * list nat * list unit) * list nat) :=
  let s := list_sum fs in
  if (s mod 7 =? 0) then Ok (inl (lit "seven"), cs ++ [s]) else Ok (inr (s, fs, []), cs ++ [s]).
Definition ex_last (fs : list nat) (gauge : list unit) : res (str + list nat * list unit) := Ok (inr (fs, [])).
(** two cherries and a leaf around the centre 6 *)
Definition ex_graph : graph := [(1, 4); (2, 4); (4, 6); (3, 5); (7, 5); (5, 6); (8, 6)]%N.
Definition ex_rows (a b c d : nat) : list (ptree (nat * N)) :=
  [Tp [Lf (a, 1%N); Lf (b, 2%N)]; Tp [Lf (c, 3%N); Lf (d, 7%N)]; Lf (100, 8%N)].

Example C41_example :
  construct_completion nat (list nat) unit (list nat) Nat.eqb ex_contract ex_last (map (embed nat) (ex_rows 1 2 1 4)) [] ex_graph [] =
  Ok (inr ([[1; 2]; [1; 4]; [3; 5; 100]], [(3, (4%N, 6%N)); (5, (5%N, 6%N))], []), [3; 5]) /\
  construct_completion nat (list nat) unit (list nat) Nat.eqb ex_contract ex_last (map (embed nat) (ex_rows 6 1 1 4)) [] ex_graph [] =
  Ok (inl (lit "seven"), [7; 5]).
Proof. split; vm_compute; reflexivity. Qed.

(** Not every edge keeps its label: equal exotic fields share one entry (completions.py:815). *)
Theorem C41_edge_lost_refuted :
  exists edges, construct_completion nat (list nat) unit (list nat) Nat.eqb ex_contract ex_last (map (embed nat) (ex_rows 1 2 2 1)) [] ex_graph [] =
    Ok (inr ([[1; 2]; [2; 1]; [3; 3; 100]], edges, []), [3; 3]) /\ List.length edges = 1.
Proof. eexists. split; [vm_compute; reflexivity|reflexivity]. Qed.

Print Assumptions C37_connecting_edge.
Print Assumptions C37_raises.
Print Assumptions C37_no_error.
Print Assumptions C37_labelled_edges.
Print Assumptions C41_once.
Print Assumptions C41_completion.
Print Assumptions C41_failure.
Print Assumptions C41_terms.
Print Assumptions C41_operator_completions.
Print Assumptions C41_edge_lost_refuted.
