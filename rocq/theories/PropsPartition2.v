(** * PropsPartition2: property C36: counters of indexed fields *)

From Coq Require Import Ascii String List Bool Arith ZArith NArith Lia Permutation QArith Qcanon.
From Verif Require Import Base BaseFacts Show ModelFunctions ProofsFunctions ModelIndex SpecIndex ProofsIndex
  ModelField ModelContract SpecContract ProofsContract PropsField2 PropsContract ModelPartition SpecPartition.
From Verif Require Spec.
Import ListNotations.
Local Open Scope nat_scope.

(** ** Pairs of positions *)

Lemma pairs_map {A B} (f : A -> B) l : pairs (map f l) = map (fun p => (f (fst p), f (snd p))) (pairs l).
Proof. induction l as [|x l IH]; [reflexivity|]. cbn [map pairs]. rewrite map_app, !map_map, IH. reflexivity. Qed.

Lemma pairs_seq_In n : forall s i j, In (i, j) (pairs (seq s n)) <-> s <= i /\ i < j /\ j < s + n.
Proof.
  induction n as [|n IH]; intros s i j; cbn [seq pairs]; [cbn; lia|]. rewrite in_app_iff, IH. split.
  - intros [H|H]; [|lia]. apply in_map_iff in H as (y & [= -> ->] & I). apply in_seq in I. lia.
  - intros H. destruct (Nat.eq_dec i s) as [-> | N]; [left|right; lia]. apply in_map_iff. exists j. split; [reflexivity|]. apply in_seq. lia.
Qed.

Lemma pairs_seq_NoDup n : forall s, NoDup (pairs (seq s n)).
Proof.
  induction n as [|n IH]; intros s; cbn [seq pairs]; [constructor|]. apply NoDup_app_intro.
  - apply FinFun.Injective_map_NoDup; [|apply seq_NoDup]. intros x y E. congruence.
  - apply IH.
  - intros [i j] I I'. apply in_map_iff in I as (y & [= <- <-] & _). apply pairs_seq_In in I'. lia.
Qed.

Lemma enumerate_nth {A} (l : list A) d : enumerate l = map (fun j => (nth j l d, j)) (seq 0 (List.length l)).
Proof.
  unfold enumerate.
  assert (G : forall s, combine l (seq s (List.length l)) = map (fun j => (nth (j - s) l d, j)) (seq s (List.length l))).
  { induction l as [|x l IH]; intros s; [reflexivity|]. cbn [List.length seq combine map]. rewrite Nat.sub_diag. cbn [nth]. f_equal. rewrite IH.
    apply map_ext_in. intros j I. apply in_seq in I. replace (j - s) with (Datatypes.S (j - Datatypes.S s)) by lia. reflexivity. }
  rewrite G. apply map_ext. intros j. now rewrite Nat.sub_0_r.
Qed.

(** ** One label *)

Lemma distinct_nth l d : distinct_fields l -> forall i j, i < List.length l -> j < List.length l ->
  ifield_eqb (nth i l d) (nth j l d) = (i =? j).
Proof.
  intros [R F]. induction F as [|x l Fx F IH]; intros i j Hi Hj; [cbn in Hi; lia|]. apply Forall_cons_iff in R as [Rx R]. cbn in Hi, Hj. rewrite Forall_forall in Fx.
  destruct i as [|i], j as [|j]; cbn [nth]; [exact Rx|..].
  - apply Fx, nth_In. lia.
  - apply Fx, nth_In. lia.
  - rewrite IH by (auto; lia). reflexivity.
Qed.

Section OneLabel.
  Variable idxs : list (list index).
  Variable vs : list ifield.
  Variable d0 : ifield.
  Variable h : nat -> nat -> bool.
  Hypothesis D : distinct_fields vs.
  Let n := List.length vs.
  Hypothesis Hh : forall i j, i < j -> j < n -> interchanged idxs (nth i vs d0) (nth j vs d0) = Ok (h i j).

  Definition upd (c : nat -> nat) (j i : nat) : nat -> nat := fun k => if k =? j then i else c k.
  Definition st (c : nat -> nat) := map (fun j => (nth j vs d0, c j)) (seq 0 n).

  Lemma replace_at_ok c j i : j < n -> replace_at entry_eqb (nth j vs d0, j) (nth j vs d0, i) (st c) =
    if c j =? j then Ok (st (upd c j i)) else Err ValueError.
  Proof.
    intros Hj. unfold st. assert (G : forall ks, NoDup ks -> (forall k, In k ks -> k < n) ->
      replace_at entry_eqb (nth j vs d0, j) (nth j vs d0, i) (map (fun k => (nth k vs d0, c k)) ks) =
      if existsb (Nat.eqb j) ks && (c j =? j) then Ok (map (fun k => (nth k vs d0, upd c j i k)) ks) else Err ValueError).
    { induction ks as [|k ks IH]; intros Nd Lt; [reflexivity|]. apply NoDup_cons_iff in Nd as [Nk Nd]. cbn [map replace_at existsb]. unfold entry_eqb at 1. cbn [fst snd].
      rewrite (distinct_nth _ _ D k j (Lt k (or_introl eq_refl)) Hj). rewrite (Nat.eqb_sym k j). destruct (Nat.eqb_spec j k) as [<- | Njk].
      - cbn [andb orb]. destruct (Nat.eqb_spec (c j) j) as [E|E]; cbn [andb].
        + f_equal. f_equal; [unfold upd; now rewrite Nat.eqb_refl|]. apply map_ext_in. intros k I. unfold upd. destruct (Nat.eqb_spec k j) as [-> | _]; [contradiction|reflexivity].
        + rewrite IH by (auto; intros; apply Lt; now right). rewrite andb_false_r. reflexivity.
      - cbn [andb orb]. rewrite IH by (auto; intros; apply Lt; now right). destruct (existsb _ _ && _); [|reflexivity]. cbn [bind]. f_equal. f_equal.
        unfold upd. destruct (Nat.eqb_spec k j); [lia|reflexivity]. }
    rewrite G; [|apply seq_NoDup|intros k I; apply in_seq in I; lia].
    assert (E : existsb (Nat.eqb j) (seq 0 n) = true) by (apply existsb_exists; exists j; split; [apply in_seq; lia|apply Nat.eqb_refl]). now rewrite E.
  Qed.

  Definition step cur (p : (ifield * nat) * (ifield * nat)) :=
    let '((f1, i1), (f2, i2)) := p in
    do same <- interchanged idxs f1 f2; if same then replace_at entry_eqb (f2, i2) (f2, i1) cur else Ok cur.

  Definition entries (p : nat * nat) := ((nth (fst p) vs d0, fst p), (nth (snd p) vs d0, snd p)).

  Lemma fold_pairs ps : NoDup ps -> (forall i j, In (i, j) ps -> i < j /\ j < n) -> forall c,
    (exists c', foldM step (map entries ps) (st c) = Ok (st c') /\
      forall j, j < n -> ((forall i, In (i, j) ps -> h i j = false) /\ c' j = c j) \/
                         (c j = j /\ exists i, In (i, j) ps /\ h i j = true /\ c' j = i /\ forall i', In (i', j) ps -> h i' j = true -> i' = i)) \/
    (foldM step (map entries ps) (st c) = Err ValueError /\
      exists j, j < n /\ exists i, In (i, j) ps /\ h i j = true /\ (c j <> j \/ exists i', i' <> i /\ In (i', j) ps /\ h i' j = true)).
  Proof.
    induction ps as [|[i j] ps IH]; intros Nd Lt c; cbn [map foldM].
    - left. exists c. split; [reflexivity|]. intros j Hj. left. split; [intros i []|reflexivity].
    - apply NoDup_cons_iff in Nd as [Ni Nd]. assert (Lt' : forall i j, In (i, j) ps -> i < j /\ j < n) by (intros; apply Lt; now right).
      destruct (Lt i j (or_introl eq_refl)) as [Hij Hj]. unfold step at 1 3, entries at 1 3. cbn [fst snd]. rewrite Hh by assumption. cbn [bind].
      destruct (h i j) eqn:Hit.
      + rewrite replace_at_ok by exact Hj. destruct (Nat.eqb_spec (c j) j) as [E|E]; cbn [bind].
        * destruct (IH Nd Lt' (upd c j i)) as [(c' & Ec & P)|(Ec & j' & Hj' & i' & I & Hh' & P)].
          -- left. exists c'. split; [exact Ec|]. intros k Hk. specialize (P k Hk). unfold upd in P. destruct (Nat.eqb_spec k j) as [Ekj | Nk]; [subst k|].
             ++ destruct P as [[P1 P2]|[P1 _]]; [|lia]. right. split; [exact E|]. exists i. split; [now left|]. split; [exact Hit|]. split; [exact P2|].
                intros i' [[= <-]|I] Hi; [reflexivity|]. rewrite (P1 i' I) in Hi. discriminate.
             ++ destruct P as [[P1 P2]|(P1 & i' & I & P2 & P3 & P4)].
                ** left. split; [|exact P2]. intros i' [[= _ E']|I]; [congruence|now apply P1].
                ** right. split; [exact P1|]. exists i'. split; [now right|]. split; [exact P2|]. split; [exact P3|]. intros i'' [[= _ E']|I'] Hi; [congruence|now apply P4].
          -- right. split; [exact Ec|]. exists j'. split; [exact Hj'|]. exists i'. split; [now right|]. split; [exact Hh'|]. unfold upd in P. destruct (Nat.eqb_spec j' j) as [-> | Nj].
             ++ right. exists i. split; [|split; [now left|exact Hit]]. intros ->. contradiction.
             ++ destruct P as [P|(i'' & P1 & P2 & P3)]; [left; exact P|right; exists i''; split; [exact P1|split; [now right|exact P3]]].
        * right. split; [reflexivity|]. exists j. split; [exact Hj|]. exists i. split; [now left|]. auto.
      + destruct (IH Nd Lt' c) as [(c' & Ec & P)|(Ec & j' & Hj' & i' & I & Hh' & P)].
        * left. exists c'. split; [exact Ec|]. intros k Hk. destruct (P k Hk) as [[P1 P2]|(P1 & i' & I & P2 & P3 & P4)].
          -- left. split; [|exact P2]. intros i' [[= <- <-]|I]; [exact Hit|now apply P1].
          -- right. split; [exact P1|]. exists i'. split; [now right|]. split; [exact P2|]. split; [exact P3|]. intros i'' [[= <- <-]|I'] Hi; [congruence|now apply P4].
        * right. split; [exact Ec|]. exists j'. split; [exact Hj'|]. exists i'. split; [now right|]. split; [exact Hh'|].
          destruct P as [P|(i'' & P1 & P2 & P3)]; [left; exact P|right; exists i''; split; [exact P1|split; [now right|exact P3]]].
  Qed.

  Lemma count_label_ok :
    (exists c, count_label idxs (enumerate vs) = Ok (st c) /\
      forall j, j < n -> ((forall i, i < j -> h i j = false) /\ c j = j) \/
                         (exists i, i < j /\ h i j = true /\ c j = i /\ forall i', i' < j -> h i' j = true -> i' = i)) \/
    (count_label idxs (enumerate vs) = Err ValueError /\
      exists i i' j, i < j /\ i' < j /\ j < n /\ i <> i' /\ h i j = true /\ h i' j = true).
  Proof.
    assert (Ce : count_label idxs (enumerate vs) = foldM step (map entries (pairs (seq 0 n))) (st (fun j => j))).
    { unfold count_label. rewrite (enumerate_nth vs d0), pairs_map. reflexivity. }
    rewrite Ce. destruct (fold_pairs (pairs (seq 0 n)) (pairs_seq_NoDup n 0)) with (c := fun j : nat => j) as [(c & E & P)|(E & j & Hj & i & I & Hi & [P|(i' & P1 & P2 & P3)])].
    - intros i j I. apply pairs_seq_In in I. lia.
    - left. exists c. split; [exact E|]. intros j Hj. destruct (P j Hj) as [[P1 P2]|(_ & i & I & P2 & P3 & P4)].
      + left. split; [|exact P2]. intros i Hi. apply P1, pairs_seq_In. lia.
      + right. exists i. apply pairs_seq_In in I. split; [lia|]. split; [exact P2|]. split; [exact P3|]. intros i' Hi'. apply P4, pairs_seq_In. lia.
    - congruence.
    - right. split; [exact E|]. apply pairs_seq_In in I, P2. exists i, i', j. repeat split; try assumption; try lia; try congruence.
  Qed.
End OneLabel.

(** ** All labels *)

Definition with_label (l : str) (x : ifield) : bool := if list_eq_dec ascii_dec (f_label (i_field x)) l then true else false.

Lemma with_label_eqb l x : with_label l x = str_eqb (f_label (i_field x)) l.
Proof.
  unfold with_label. destruct (list_eq_dec _ _ _) as [E|E].
  - symmetry. now apply str_decides.
  - destruct (str_eqb _ _) eqn:H; [|reflexivity]. apply str_decides in H. contradiction.
Qed.

Lemma dset_In_iff {V} (d : list (str * V)) k v k' v' : NoDup (keys d) -> In (k', v') (dset str_eqb d k v) -> (k' = k /\ v' = v) \/ (k' <> k /\ In (k', v') d).
Proof.
  intros N I. apply (In_dget str_decides) in I; [|now apply (NoDup_keys_dset str_decides)]. rewrite (dget_dset str_decides) in I. destruct (str_eqb k' k) eqn:E.
  - apply str_decides in E. injection I as ->. auto.
  - right. split; [intros ->; rewrite (proj2 (str_decides k k) eq_refl) in E; discriminate|]. now apply (dget_In str_decides).
Qed.

Lemma by_label_spec fields :
  NoDup (keys (by_label fields)) /\
  (forall l vs, In (l, vs) (by_label fields) -> vs = filter (with_label l) fields /\ vs <> []) /\
  (forall x, In x fields -> In (f_label (i_field x)) (keys (by_label fields))).
Proof.
  unfold by_label.
  assert (G : forall rest done d, NoDup (keys d) -> (forall l vs, In (l, vs) d -> vs = filter (with_label l) done /\ vs <> []) ->
    (forall x, In x done -> In (f_label (i_field x)) (keys d)) ->
    let d' := fold_left (fun d f => match dget str_eqb d (f_label (i_field f)) with
                        | Some l => dset str_eqb d (f_label (i_field f)) (l ++ [f])
                        | None => dset str_eqb d (f_label (i_field f)) [f]
                        end) rest d in
    NoDup (keys d') /\ (forall l vs, In (l, vs) d' -> vs = filter (with_label l) (done ++ rest) /\ vs <> []) /\
    (forall x, In x (done ++ rest) -> In (f_label (i_field x)) (keys d'))).
  { induction rest as [|f rest IH]; intros done d N H1 H2; cbn [fold_left]; [rewrite app_nil_r; auto|].
    replace (done ++ f :: rest) with ((done ++ [f]) ++ rest) by now rewrite <- app_assoc.
    set (k := f_label (i_field f)).
    set (v := match dget str_eqb d k with Some l => l ++ [f] | None => [f] end).
    assert (Ed : (match dget str_eqb d k with Some l => dset str_eqb d k (l ++ [f]) | None => dset str_eqb d k [f] end) = dset str_eqb d k v) by (unfold v; now destruct (dget str_eqb d k)).
    rewrite Ed. clear Ed. apply IH.
    - now apply (NoDup_keys_dset str_decides).
    - intros l vs I. apply dset_In_iff in I; [|exact N]. destruct I as [[-> ->]|[Nk I]].
      + split; [|unfold v; destruct (dget str_eqb d k) as [[]|]; discriminate]. rewrite filter_app. cbn [filter]. rewrite with_label_eqb. fold k. rewrite (proj2 (str_decides k k) eq_refl). unfold v.
        destruct (dget str_eqb d k) as [w|] eqn:E.
        * apply (dget_In str_decides) in E. destruct (H1 _ _ E) as [-> _]. reflexivity.
        * apply (dget_None str_decides) in E. assert (Z : filter (with_label k) done = []).
          { clear - E H2. induction done as [|x done IHd]; [reflexivity|]. cbn [filter]. rewrite with_label_eqb. destruct (str_eqb _ _) eqn:Q; [|apply IHd; intros; apply H2; now right].
            apply str_decides in Q. exfalso. apply E. rewrite <- Q. apply H2. now left. }
          now rewrite Z.
      + destruct (H1 _ _ I) as [-> Ne]. split; [|exact Ne]. rewrite filter_app. cbn [filter]. rewrite with_label_eqb. fold k. destruct (str_eqb k l) eqn:Q; [apply str_decides in Q; congruence|]. now rewrite app_nil_r.
    - intros x I. apply (keys_dset_In str_decides). apply in_app_iff in I as [I|[<-|[]]]; auto. }
  apply (G fields [] []); [constructor|intros l vs []|intros x []].
Qed.

Lemma isospin_of_indices x : isospin_of x = isospin_indices x.
Proof. unfold isospin_of, isospin_indices. rewrite by_type_filter. apply filter_ext. intros i. now destruct (ix_type i). Qed.

Lemma listed_spec a b op : listed a b (map symbol_indices (epsilons op)) = true <->
  exists s x y, In s (epsilons op) /\ symbol_indices s = [x; y] /\ slot x = slot a /\ slot y = slot b.
Proof.
  unfold listed. rewrite existsb_exists. split.
  - intros (l & I & E). apply in_map_iff in I as (s & <- & I). destruct (symbol_indices s) as [|x [|y [|]]] eqn:Es; cbn in E; try (rewrite ?andb_false_r in E; discriminate).
    rewrite andb_true_r in E. apply andb_true_iff in E as [E1 E2]. apply ProofsContract.slot_eqb in E1, E2. exists s, x, y. auto.
  - intros (s & x & y & I & Es & E1 & E2). exists [x; y]. split; [apply in_map_iff; exists s; auto|]. cbn. symmetry in E1, E2. apply ProofsContract.slot_eqb in E1, E2. now rewrite E1, E2.
Qed.

Lemma interchanged_spec op v w : Forall clean (i_indices v) -> Forall clean (i_indices w) ->
  (isospin_indices v = [] <-> isospin_indices w = []) ->
  exists b, interchanged (map symbol_indices (epsilons op)) v w = Ok b /\ (b = true <-> interchangeable op v w).
Proof.
  intros Cv Cw Co. unfold interchanged, interchangeable. rewrite !isospin_of_indices. destruct (isospin_indices v) as [|a ra] eqn:Ev; [exists true; split; [reflexivity|split; auto]|].
  destruct (isospin_indices w) as [|b rb] eqn:Ew; [destruct Co as [_ Co]; discriminate (Co eq_refl)|].
  assert (Ia : In a (i_indices v)) by (assert (I : In a (isospin_indices v)) by (rewrite Ev; now left); now apply filter_In in I).
  assert (Ib : In b (i_indices w)) by (assert (I : In b (isospin_indices w)) by (rewrite Ew; now left); now apply filter_In in I).
  rewrite Forall_forall in Cv, Cw. destruct (clean_neg a (Cv a Ia)) as (a' & -> & _ & A1 & A2 & A3). destruct (clean_neg b (Cw b Ib)) as (b' & -> & _ & B1 & B2 & B3).
  cbn [bind]. eexists. split; [reflexivity|]. rewrite orb_true_iff, !listed_spec. unfold slot at 2 4 6 8. rewrite A1, A2, A3, B1, B2, B3. split.
  - intros [(s & x & y & I & Es & E1 & E2)|(s & x & y & I & Es & E1 & E2)]; right; exists a, b, ra, rb, s; [exists x, y|exists y, x]; auto 10.
  - intros [H|(a0 & b0 & ra0 & rb0 & s & x & y & [= <- <-] & [= <- <-] & I & [Es|Es] & E1 & E2)]; [discriminate|left|right]; exists s; [exists x, y|exists y, x]; auto.
Qed.

Lemma distinct_filter P l : distinct_fields l -> distinct_fields (filter P l).
Proof.
  intros [R F]. split.
  - apply Forall_forall. intros x I. apply filter_In in I as [I _]. rewrite Forall_forall in R. now apply R.
  - clear R. induction F as [|x l Fx F IH]; cbn [filter]; [constructor|]. destruct (P x); [|exact IH]. constructor; [|exact IH].
    apply Forall_forall. intros y I. apply filter_In in I as [I _]. rewrite Forall_forall in Fx. now apply Fx.
Qed.

Lemma mapM_cases {A B} (f : A -> res B) e l :
  (forall x, In x l -> (exists y, f x = Ok y) \/ f x = Err e) ->
  (exists ys, mapM f l = Ok ys /\ Forall2 (fun x y => f x = Ok y) l ys) \/ (mapM f l = Err e /\ exists x, In x l /\ f x = Err e).
Proof.
  induction l as [|x l IH]; intros H; cbn [mapM]; [left; exists []; auto|]. destruct (H x (or_introl eq_refl)) as [(y & E)|E]; rewrite E; cbn [bind].
  - destruct IH as [(ys & -> & F)|(-> & x' & I & E')]; [intros; apply H; now right|..]; cbn [bind].
    + left. exists (y :: ys). split; [reflexivity|]. now constructor.
    + right. split; [reflexivity|]. exists x'. split; [now right|exact E'].
  - right. split; [reflexivity|]. exists x. split; [now left|exact E].
Qed.

Lemma dict_distinct (l : list (ifield * nat)) :
  ForallOrdPairs (fun x y => ifield_eqb (fst y) (fst x) = false) l ->
  fold_left (fun d x => dset ifield_eqb d (fst x) (snd x)) l [] = l.
Proof.
  assert (G : forall l d, ForallOrdPairs (fun x y : ifield * nat => ifield_eqb (fst y) (fst x) = false) (d ++ l) -> fold_left (fun d x => dset ifield_eqb d (fst x) (snd x)) l d = d ++ l).
  { clear l. induction l as [|x l IH]; intros d H; cbn [fold_left]; [now rewrite app_nil_r|].
    assert (E : dset ifield_eqb d (fst x) (snd x) = d ++ [x]).
    { clear IH. induction d as [|[k v] d IHd]; cbn [dset app]; [now destruct x|]. cbn [app] in H. inversion H as [|? ? H1 H2]; subst. rewrite IHd by exact H2.
      rewrite Forall_forall in H1. specialize (H1 x). cbn [fst] in H1. rewrite H1 by (apply in_or_app; right; now left). reflexivity. }
    rewrite E. rewrite IH; rewrite <- app_assoc; [reflexivity|exact H]. }
  apply (G l []).
Qed.

Lemma FOP_NoDup l : Forall (fun x => ifield_eqb x x = true) l -> ForallOrdPairs (fun x y => ifield_eqb y x = false) l -> NoDup l.
Proof.
  intros R F. induction F as [|x l Fx F IH]; constructor.
  - intros I. rewrite Forall_forall in Fx. specialize (Fx x I). apply Forall_cons_iff in R as [Rx _]. congruence.
  - apply IH. now apply Forall_cons_iff in R.
Qed.

Lemma FOP_app {A} (R : A -> A -> Prop) a b : ForallOrdPairs R a -> ForallOrdPairs R b -> (forall x y, In x a -> In y b -> R x y) -> ForallOrdPairs R (a ++ b).
Proof.
  intros Ha Hb H. induction Ha as [|x a Fx Ha IH]; [exact Hb|]. cbn. constructor.
  - apply Forall_app. split; [exact Fx|]. apply Forall_forall. intros y Iy. apply H; [now left|exact Iy].
  - apply IH. intros; apply H; [now right|assumption].
Qed.

(** C36: every field gets the position, among the fields with its label, of the one earlier field it is interchangeable
    with, or its own position if there is none; a field that is interchangeable with two earlier ones raises. *)
Theorem C36_counters op :
  distinct_fields (indexed_fields op) -> indexed_fields op <> [] ->
  Forall clean (op_indices op) ->
  (forall v w, In v (indexed_fields op) -> In w (indexed_fields op) -> f_label (i_field v) = f_label (i_field w) ->
     isospin_indices v = [] -> isospin_indices w = []) ->
  match indexed_fields_with_counters op with
  | Ok d =>
    Permutation (keys d) (indexed_fields op) /\
    forall v n, In (v, n) d ->
      exists j, nth_error (copies op (f_label (i_field v))) j = Some v /\
        ((n = j /\ forall i w, i < j -> nth_error (copies op (f_label (i_field v))) i = Some w -> ~ interchangeable op w v) \/
         (n < j /\ forall i w, i < j -> nth_error (copies op (f_label (i_field v))) i = Some w -> (interchangeable op w v <-> n = i)))
  | Err e =>
    e = ValueError /\
    exists l i i' j u v w, i < i' < j /\ nth_error (copies op l) i = Some u /\ nth_error (copies op l) i' = Some v /\
      nth_error (copies op l) j = Some w /\ interchangeable op u w /\ interchangeable op v w
  end.
Proof.
  intros Di Ne Cl Co. unfold indexed_fields_with_counters. set (fields := indexed_fields op) in *. set (idxs := map symbol_indices (epsilons op)).
  assert (Clf : forall v, In v fields -> Forall clean (i_indices v)).
  { intros v I. unfold fields, indexed_fields in I. apply in_flat_map in I as (t & It & Iv). destruct t as [f|s]; [destruct Iv as [<-|[]]|destruct Iv].
    apply Forall_forall. intros i Ii. rewrite Forall_forall in Cl. apply Cl. unfold op_indices. apply in_flat_map. exists (TField f). auto. }
  destruct (by_label_spec fields) as (Nk & Gr & Ka).
  assert (Cop : forall l, copies op l = filter (with_label l) fields) by reflexivity.
  assert (Ef : exists d0 fields0, fields = d0 :: fields0) by (destruct fields as [|x q]; [congruence|eauto]). destruct Ef as (d0 & fields0 & Ef').
  assert (One : forall l vs, In (l, vs) (by_label fields) -> exists h : nat -> nat -> bool,
     (forall i j, i < j -> j < List.length vs -> interchanged idxs (nth i vs d0) (nth j vs d0) = Ok (h i j)) /\
     (forall i j, i < j -> j < List.length vs -> (h i j = true <-> interchangeable op (nth i vs d0) (nth j vs d0)))).
  { intros l vs I. destruct (Gr l vs I) as [-> _]. exists (fun i j => match interchanged idxs (nth i (filter (with_label l) fields) d0) (nth j (filter (with_label l) fields) d0) with Ok b => b | Err _ => false end).
    assert (H : forall i j, i < j -> j < List.length (filter (with_label l) fields) -> exists b, interchanged idxs (nth i (filter (with_label l) fields) d0) (nth j (filter (with_label l) fields) d0) = Ok b /\ (b = true <-> interchangeable op (nth i (filter (with_label l) fields) d0) (nth j (filter (with_label l) fields) d0))).
    { intros i j Hij Hj. assert (Ii : In (nth i (filter (with_label l) fields) d0) (filter (with_label l) fields)) by (apply nth_In; lia).
      assert (Ij : In (nth j (filter (with_label l) fields) d0) (filter (with_label l) fields)) by (apply nth_In; lia).
      apply filter_In in Ii as [Ii Li]. apply filter_In in Ij as [Ij Lj]. rewrite with_label_eqb in Li, Lj. apply str_decides in Li, Lj.
      apply interchanged_spec; auto. split; apply Co; auto; congruence. }
    split; intros i j Hij Hj; destruct (H i j Hij Hj) as (b & -> & E); auto. }
  destruct (mapM_cases (fun kv : str * list ifield => count_label idxs (enumerate (snd kv))) ValueError (by_label fields)) as [(counts & -> & F)|(-> & [l vs] & I & E)].
  - intros [l vs] I. destruct (One l vs I) as (h & H1 & _). destruct (Gr l vs I) as [Ev _].
    destruct (count_label_ok idxs vs d0 h) as [(c & E & _)|(E & _)]; cbn [snd]; eauto. rewrite Ev. now apply distinct_filter.
  - cbn [bind].
    (* what the groups look like *)
    assert (Fs : Forall2 (fun kv (y : list (ifield * nat)) => map fst y = snd kv /\ forall j v n, nth_error y j = Some (v, n) ->
        ((n = j /\ forall i w, i < j -> nth_error (snd kv) i = Some w -> ~ interchangeable op w v) \/
         (n < j /\ forall i w, i < j -> nth_error (snd kv) i = Some w -> (interchangeable op w v <-> n = i)))) (by_label fields) counts).
    { clear - F One Gr Di. induction F as [|[l vs] y ls ys E F IH]; [constructor|]. constructor; [|apply IH; intros l1 vs1 I1; [apply (Gr l1 vs1)|apply (One l1 vs1)]; now right].
      cbn [snd] in *. destruct (One l vs (or_introl eq_refl)) as (h & H1 & H2). destruct (Gr l vs (or_introl eq_refl)) as [Ev _].
      destruct (count_label_ok idxs vs d0 h) as [(c & E' & P)|(E' & _)]; [rewrite Ev; now apply distinct_filter|exact H1| |congruence].
      rewrite E in E'. injection E' as ->. unfold st. split.
      - rewrite map_map. cbn [fst]. clear. induction vs as [|x vs IH]; [reflexivity|]. cbn [List.length seq map nth]. f_equal. rewrite <- seq_shift, map_map. exact IH.
      - intros j v n En. assert (Hj : j < List.length vs). { assert (L : j < List.length (map (fun j => (nth j vs d0, c j)) (seq 0 (List.length vs)))) by (apply nth_error_Some; congruence). now rewrite map_length, seq_length in L. }
        rewrite nth_error_map in En. rewrite (nth_error_nth' _ 0) in En by (rewrite seq_length; lia). rewrite seq_nth in En by exact Hj. cbn in En. injection En as <- <-.
        assert (W : forall i w, i < j -> nth_error vs i = Some w -> w = nth i vs d0) by (intros i w _ Ew; symmetry; now apply nth_error_nth).
        destruct (P j Hj) as [[P1 ->]|(i & Hi & P1 & -> & P2)].
        + left. split; [reflexivity|]. intros i w Hi Ew. rewrite (W i w Hi Ew), <- (H2 i j) by lia. rewrite P1 by exact Hi. discriminate.
        + right. split; [exact Hi|]. intros i' w Hi' Ew. rewrite (W i' w Hi' Ew), <- (H2 i' j) by lia. split; [intros Q; symmetry; now apply P2|intros <-; exact P1]. }
    assert (Kc : map fst (concat counts) = concat (map snd (by_label fields))).
    { clear - Fs. induction Fs as [|kv y ls ys [E _] F IH]; [reflexivity|]. cbn [concat map]. now rewrite map_app, E, IH. }
    assert (Mem : forall x, In x (concat (map snd (by_label fields))) <-> In x fields).
    { intros x. split.
      - intros I. apply in_concat in I as (q & Iq & I). apply in_map_iff in Iq as ([l vs] & <- & I'). cbn [snd] in I. destruct (Gr l vs I') as [-> _]. now apply filter_In in I.
      - intros I. pose proof (Ka x I) as Kx. unfold keys in Kx. apply in_map_iff in Kx as ([l vs] & El & I'). cbn [fst] in El. apply in_concat. exists vs. split; [apply in_map_iff; exists (l, vs); auto|].
        destruct (Gr l vs I') as [-> _]. apply filter_In. split; [exact I|]. rewrite with_label_eqb. apply str_decides. congruence. }
    assert (Dk : ForallOrdPairs (fun x y => ifield_eqb y x = false) (concat (map snd (by_label fields)))).
      { clear - Nk Gr Di. induction (by_label fields) as [|[l vs] ls IH]; cbn [map concat]; [constructor|]. cbn [keys map fst] in Nk. apply NoDup_cons_iff in Nk as [Nl Nk]. apply FOP_app.
        - cbn [snd]. destruct (Gr l vs (or_introl eq_refl)) as [-> _]. destruct (distinct_filter (with_label l) _ Di) as [_ H]. clear - H. induction H as [|x q Fx H IH]; constructor; [|exact IH].
          apply Forall_forall. intros y Iy. rewrite Forall_forall in Fx. now apply Fx.
        - apply IH; [exact Nk|intros; apply Gr; now right].
        - intros x y Ix Iy. cbn [snd] in Ix. destruct (Gr l vs (or_introl eq_refl)) as [-> _]. apply filter_In in Ix as [_ Lx]. rewrite with_label_eqb in Lx. apply str_decides in Lx.
          apply in_concat in Iy as (q & Iq & Iy). apply in_map_iff in Iq as ([l' vs'] & <- & I'). cbn [snd] in Iy. destruct (Gr l' vs' (or_intror I')) as [-> _]. apply filter_In in Iy as [_ Ly]. rewrite with_label_eqb in Ly. apply str_decides in Ly.
          destruct (ifield_eqb y x) eqn:Q; [|reflexivity]. exfalso. unfold ifield_eqb in Q. rewrite !andb_true_iff in Q. destruct Q as (((((((((Q & _) & _) & _) & _) & _) & _) & _) & _) & _). apply str_decides in Q.
          apply Nl. unfold keys. apply in_map_iff. exists (l', filter (with_label l') fields). split; [cbn; congruence|exact I']. }
    assert (Nc : NoDup (concat (map snd (by_label fields)))).
    { apply FOP_NoDup; [|exact Dk]. apply Forall_forall. intros x I. apply Mem in I. destruct Di as [R _]. rewrite Forall_forall in R. now apply R. }
    assert (Dc : ForallOrdPairs (fun x y : ifield * nat => ifield_eqb (fst y) (fst x) = false) (concat counts)).
    { rewrite <- Kc in Dk. clear - Dk. revert Dk. induction (concat counts) as [|x q IH]; cbn [map]; intros H; [constructor|]. inversion H as [|? ? H1 H2]; subst. constructor; [|now apply IH].
      apply Forall_forall. intros y Iy. rewrite Forall_forall in H1. apply H1. now apply in_map. }
    destruct counts as [|y0 ys0] eqn:Ec.
    { exfalso. inversion F as [Eb|]; subst. assert (I : In d0 fields). { rewrite Ef'. now left. } specialize (Ka d0 I). now rewrite <- Eb in Ka. }
    rewrite <- Ec in *. clear Ec y0 ys0. rewrite dict_distinct by exact Dc. split.
    + unfold keys. rewrite Kc. apply NoDup_Permutation; [exact Nc| |exact Mem]. apply FOP_NoDup; [apply Di|]. destruct Di as [_ H]. clear - H. induction H as [|x q Fx H IH]; constructor; [|exact IH].
      apply Forall_forall. intros y Iy. rewrite Forall_forall in Fx. now apply Fx.
    + intros v n I. apply in_concat in I as (y & Iy & I). apply In_nth_error in I as (j & Ej).
      assert (G : exists kv, In kv (by_label fields) /\ map fst y = snd kv /\ forall j v n, nth_error y j = Some (v, n) ->
        ((n = j /\ forall i w, i < j -> nth_error (snd kv) i = Some w -> ~ interchangeable op w v) \/
         (n < j /\ forall i w, i < j -> nth_error (snd kv) i = Some w -> (interchangeable op w v <-> n = i)))).
      { clear - Fs Iy. induction Fs as [|kv y' ls ys H F IH]; [destruct Iy|]. destruct Iy as [-> | Iy]; [exists kv; split; [now left|exact H]|]. destruct (IH Iy) as (kv' & I' & H'). exists kv'. split; [now right|exact H']. }
      destruct G as ([l vs] & Il & Em & G). cbn [snd] in *. destruct (Gr l vs Il) as [Ev _].
      assert (Nv : nth_error vs j = Some v) by (rewrite <- Em, nth_error_map, Ej; reflexivity).
      assert (Lv : f_label (i_field v) = l). { assert (Iv : In v vs) by (eapply nth_error_In, Nv). rewrite Ev in Iv. apply filter_In in Iv as [_ Iv]. rewrite with_label_eqb in Iv. now apply str_decides. }
      exists j. rewrite Lv, Cop, <- Ev. split; [exact Nv|]. exact (G j v n Ej).
  - cbn [bind]. split; [reflexivity|]. destruct (One l vs I) as (h & H1 & H2). destruct (Gr l vs I) as [Ev _]. cbn [snd] in E.
    destruct (count_label_ok idxs vs d0 h) as [(c & E' & _)|(_ & i & i' & j & Hi & Hi' & Hj & Nii & A1 & A2)]; [rewrite Ev; now apply distinct_filter|exact H1|congruence|].
    apply H2 in A1, A2; try lia.
    exists l. rewrite Cop, <- Ev. destruct (Nat.lt_ge_cases i i') as [L|L]; [exists i, i', j, (nth i vs d0), (nth i' vs d0), (nth j vs d0)|exists i', i, j, (nth i' vs d0), (nth i vs d0), (nth j vs d0)];
      (split; [lia|]); rewrite !(nth_error_nth' vs d0) by lia; auto.
Qed.

(** ** Properly contracted doublets never raise *)

Lemma flat_map_same {A B} (f : A -> list B) l a b z : NoDup (flat_map f l) -> In a l -> In b l -> In z (f a) -> In z (f b) -> a = b.
Proof.
  induction l as [|x l IH]; intros N Ia Ib Za Zb; [destruct Ia|]. cbn [flat_map] in N.
  assert (Nx : forall y, In y (f x) -> ~ In y (flat_map f l)).
  { clear - N. induction (f x) as [|w q IHq]; [intros y []|]. cbn in N. apply NoDup_cons_iff in N as [N1 N2]. intros y [<-|I]; [intros H; apply N1, in_or_app; auto|now apply IHq]. }
  assert (N' : NoDup (flat_map f l)) by (clear - N; induction (f x) as [|w q IHq]; [exact N|apply IHq; cbn in N; now apply NoDup_cons_iff in N]).
  destruct Ia as [<-|Ia], Ib as [<-|Ib]; auto.
  - exfalso. apply (Nx z Za). apply in_flat_map. eauto.
  - exfalso. apply (Nx z Zb). apply in_flat_map. eauto.
Qed.

Theorem C36_doublets op :
  distinct_fields (indexed_fields op) -> indexed_fields op <> [] -> Forall clean (op_indices op) -> proper_op op ->
  (forall v, In v (indexed_fields op) -> isospin_indices v <> []) ->
  exists d, indexed_fields_with_counters op = Ok d.
Proof.
  intros Di Ne Cl Pr Is. pose proof (C36_counters op Di Ne Cl) as C. assert (Co : forall v w, In v (indexed_fields op) -> In w (indexed_fields op) -> f_label (i_field v) = f_label (i_field w) -> isospin_indices v = [] -> isospin_indices w = []).
  { intros v w Iv _ _ E. destruct (Is v Iv E). }
  specialize (C Co). destruct (indexed_fields_with_counters op) as [d|e]; [eauto|]. exfalso.
  destruct C as (_ & l & i & i' & j & u & v & w & Hi & Eu & Ev & Ew & [U|U] & [V|V]).
  - apply (Is u); [|exact U]. apply nth_error_In in Eu. now apply filter_In in Eu.
  - apply (Is u); [|exact U]. apply nth_error_In in Eu. now apply filter_In in Eu.
  - apply (Is v); [|exact V]. apply nth_error_In in Ev. now apply filter_In in Ev.
  - destruct U as (a & b & ra & rb & s & x & y & Ea & Eb & Hs & Es & Sx & Sy). destruct V as (a' & b' & ra' & rb' & s' & x' & y' & Ea' & Eb' & Hs' & Es' & Sx' & Sy').
    rewrite Eb in Eb'. injection Eb' as <- <-. rewrite <- Sy in Sy'.
    assert (P : NoDup (flat_map (fun t => map slot (tensor_indices t)) op)).
    { unfold proper_op, op_indices in Pr. clear - Pr. assert (E : map slot (flat_map tensor_indices op) = flat_map (fun t => map slot (tensor_indices t)) op).
      { clear. induction op as [|t op IH]; [reflexivity|]. cbn. now rewrite map_app, IH. } now rewrite E in Pr. }
    assert (Ts : forall s, In s (epsilons op) -> In (TSymbol s) op).
    { intros q I. apply in_flat_map in I as ([f|q'] & I & H); [destruct H|destruct H as [<-|[]]; exact I]. }
    assert (Tf : forall f, In f (indexed_fields op) -> In (TField f) op).
    { intros q I. apply in_flat_map in I as ([f|q'] & I & H); [destruct H as [<-|[]]; exact I|destruct H]. }
    assert (Iy : In (slot y) (map slot (tensor_indices (TSymbol s)))) by (apply in_map; cbn [tensor_indices]; destruct Es as [-> | ->]; cbn; auto).
    assert (Iy' : In (slot y) (map slot (tensor_indices (TSymbol s')))) by (rewrite <- Sy'; apply in_map; cbn [tensor_indices]; destruct Es' as [-> | ->]; cbn; auto).
    assert (Ess : TSymbol s = TSymbol s') by (eapply (flat_map_same _ _ _ _ _ P); [apply Ts, Hs|apply Ts, Hs'|exact Iy|exact Iy']).
    injection Ess as <-.
    assert (Nd : NoDup (map slot (symbol_indices s))).
    { apply Ts in Hs. clear - P Hs. apply in_split in Hs as (l1 & l2 & ->). rewrite flat_map_app in P. cbn [flat_map tensor_indices] in P.
      assert (G : forall (A : Type) (p q : list A), NoDup (p ++ q) -> NoDup q) by (intros A p q; induction p; cbn; [auto|intros N; apply NoDup_cons_iff in N; tauto]).
      assert (G' : forall (A : Type) (p q : list A), NoDup (p ++ q) -> NoDup p).
      { intros A p q N. induction p as [|z p IH]; [constructor|]. cbn in N. apply NoDup_cons_iff in N as [N1 N2]. constructor; [intros I; apply N1, in_or_app; auto|auto]. }
      apply G in P. now apply G' in P. }
    assert (Exx : slot x = slot x').
    { destruct Es as [Es|Es], Es' as [Es'|Es']; rewrite Es in Es'; injection Es' as E1 E2; subst; try reflexivity;
        rewrite Es in Nd; cbn in Nd; apply NoDup_cons_iff in Nd as [Nd _]; cbn in Nd; exfalso; apply Nd; left; congruence. }
    rewrite Sx, Sx' in Exx. injection Exx as X1 X2 X3. apply (f_equal negb) in X3. rewrite !negb_involutive in X3.
    assert (Sa : slot a = slot a') by (unfold slot; congruence).
    assert (Ia : In a (i_indices u)) by (assert (I : In a (isospin_indices u)) by (rewrite Ea; now left); now apply filter_In in I).
    assert (Ia' : In a' (i_indices v)) by (assert (I : In a' (isospin_indices v)) by (rewrite Ea'; now left); now apply filter_In in I).
    assert (Iu : In u (indexed_fields op)) by (apply nth_error_In in Eu; now apply filter_In in Eu).
    assert (Iv : In v (indexed_fields op)) by (apply nth_error_In in Ev; now apply filter_In in Ev).
    assert (Euv : TField u = TField v) by (eapply (flat_map_same _ _ _ _ (slot a) P); [apply Tf, Iu|apply Tf, Iv|cbn; now apply in_map|cbn; rewrite Sa; now apply in_map]).
    injection Euv as <-. destruct (distinct_filter (with_label l) _ Di) as [R F].
    assert (L : forall k z, nth_error (copies op l) k = Some z -> k < List.length (copies op l)) by (intros k z E; apply nth_error_Some; congruence).
    pose proof (distinct_nth (copies op l) u (conj R F) i i' (L _ _ Eu) (L _ _ Ev)) as Q. rewrite (nth_error_nth _ _ _ Eu), (nth_error_nth _ _ _ Ev) in Q.
    pose proof (distinct_nth (copies op l) u (conj R F) i i (L _ _ Eu) (L _ _ Eu)) as Q'. rewrite (nth_error_nth _ _ _ Eu), Nat.eqb_refl in Q'.
    rewrite Q' in Q. symmetry in Q. apply Nat.eqb_eq in Q. lia.
Qed.

(** ** Examples *)

Definition small (label idx : string) : res ifield :=
  mk_ifield (mkIargs (lit label) (AStr (lit idx)) None false None (lit "fermi") (Some []) 1 0 None).

Definition eps_of (idx : string) : res tensor := do e <- eps (lit idx); Ok (TSymbol e).

(** three lepton doublets and a singlet: the first two doublets are joined *)
Definition ex_op : res operator :=
  do a <- small "L" "u0 i0"; do b <- small "L" "u1 i1"; do c <- small "L" "u2 i2"; do d <- small "Q" "u3 i3"; do e <- eps_of "-i0 -i1"; do e' <- eps_of "-i3 -i2";
  Ok [TField a; TField b; TField c; TField d; e; e'].

Example C36_example :
  (do op <- ex_op; do d <- indexed_fields_with_counters op; Ok (map (fun x => (f_label (i_field (fst x)), snd x)) d)) =
  Ok [(lit "L", 0); (lit "L", 0); (lit "L", 2); (lit "Q", 0)].
Proof. vm_compute. reflexivity. Qed.

(** the hypotheses of the theorems hold for it *)
Lemma ex_op_ok : exists op, ex_op = Ok op /\ distinct_fields (indexed_fields op) /\ proper_op op /\ Forall clean (op_indices op) /\
  forall v, In v (indexed_fields op) -> isospin_indices v <> [].
Proof.
  eexists. split; [vm_compute; reflexivity|]. split.
  { split; repeat constructor; vm_compute; reflexivity. }
  split. { unfold proper_op. cbv [op_indices flat_map tensor_indices i_indices symbol_indices app map slot ix_name ix_type ix_up]. repeat constructor; cbn; intuition discriminate. }
  split.
  - cbv [op_indices flat_map tensor_indices i_indices symbol_indices app]. repeat constructor; try (cbn; intuition discriminate);
      match goal with |- exists low auto t rest, lower (ix_label (mkIndex _ _ ?t0 ?up)) = _ => exists (negb up), false, t0; eexists; vm_compute; reflexivity end.
  - cbv [indexed_fields flat_map app In]. intros v I. intuition; subst v; discriminate.
Qed.

(** The naive statement fails: three copies of an isosinglet raise, although the operator is well formed, *)
Theorem C36_three_singlets_refuted : exists op,
  (do a <- small "eb" "u0"; do b <- small "eb" "u1"; do c <- small "eb" "u2"; Ok [TField a; TField b; TField c]) = Ok op /\
  distinct_fields (indexed_fields op) /\ proper_op op /\ indexed_fields_with_counters op = Err ValueError.
Proof.
  eexists. split; [vm_compute; reflexivity|]. split.
  { split; repeat constructor; vm_compute; reflexivity. }
  split. { unfold proper_op. cbv [op_indices flat_map tensor_indices i_indices symbol_indices app map slot ix_name ix_type ix_up]. repeat constructor; cbn; intuition discriminate. }
  vm_compute. reflexivity.
Qed.

(** and two triplets that are contracted with each other, but not through their first indices, are told apart. *)
Theorem C36_second_index_refuted :
  (do a <- small "T" "i0 i1"; do b <- small "T" "i2 i3"; do e <- eps_of "-i0 -i3"; do e' <- eps_of "-i1 -i2";
   do d <- indexed_fields_with_counters [TField a; TField b; e; e']; Ok (map snd d)) = Ok [0; 1] /\
  (do a <- small "T" "i0 i1"; do b <- small "T" "i2 i3"; do e <- eps_of "-i0 -i2"; do e' <- eps_of "-i1 -i3";
   do d <- indexed_fields_with_counters [TField a; TField b; e; e']; Ok (map snd d)) = Ok [0; 0].
Proof. split; vm_compute; reflexivity. Qed.

Print Assumptions C36_counters.
Print Assumptions C36_doublets.
Print Assumptions C36_three_singlets_refuted.
Print Assumptions C36_second_index_refuted.
