(** * ProofsExport6: graphs and completions written and read *)

From Coq Require Import Ascii String List Bool Arith ZArith NArith QArith Qcanon Lia Sorted.
From Verif Require Import Base BaseFacts Show ShowRead ModelFunctions ModelIndex SpecIndex ProofsIndex ModelField SpecField ProofsField
  PropsField PropsField2 ModelContract SpecContract ProofsContract ModelPartition ModelExotic SpecExotic ProofsExotic ProofsExotic2
  ModelInfo ModelLagrangian ModelDatabase ModelExport ProofsExport SpecExport ProofsExport2 ProofsExport3 ProofsExport4 ProofsExport5.
Import ListNotations.
Local Open Scope nat_scope.

(** ** Graphs *)

Lemma Neqb_decides : decides N.eqb.
Proof. intros a b. apply N.eqb_eq. Qed.

Definition look (g : adjacency) (u v : N) : option (list (str * str)) :=
  match dget N.eqb g u with Some nb => dget N.eqb nb v | None => None end.

Definition simple (g : adjacency) : Prop := NoDup (keys g) /\ forall u nb, In (u, nb) g -> NoDup (keys nb).

Lemma look_link g u v a : simple g -> (look g u v = Some a <-> link g u v a).
Proof.
  intros [N E]. unfold look, link. split.
  - destruct (dget N.eqb g u) as [nb|] eqn:D; [|discriminate]. intros H. exists nb. split; [now apply (dget_In Neqb_decides)|now apply (dget_In Neqb_decides)].
  - intros (nb & I & J). rewrite (In_dget Neqb_decides g u nb N I). apply (In_dget Neqb_decides); [now apply (E u)|exact J].
Qed.

Lemma dset_same {V} (d : list (str * V)) k v : NoDup (keys d) -> In (k, v) d -> dset str_eqb d k v = d.
Proof.
  induction d as [|[k' v'] d IH]; intros N I; [destruct I|]. cbn [dset]. destruct (str_eqb k k') eqn:E.
  - apply str_decides in E. subst k'. destruct I as [I|I]; [now injection I as ->|]. inversion N as [|? ? H N']; subst. destruct H. apply (in_map fst) in I. exact I.
  - destruct I as [I|I]; [injection I as -> ->; now rewrite (decides_refl str_decides) in E|]. inversion N; subst. now rewrite IH.
Qed.

Lemma dupdate_same {V} (d : list (str * V)) : NoDup (keys d) -> dupdate str_eqb d d = d.
Proof.
  intros N. assert (H : forall e, incl e d -> dupdate str_eqb d e = d).
  { unfold dupdate. induction e as [|[k v] e IH]; intros I; [reflexivity|]. cbn [fold_left fst snd]. rewrite dset_same; [apply IH; intros x J; apply I; now right|exact N|apply I; now left]. }
  apply H. intros x I. exact I.
Qed.

Lemma dset_new {K V} (eqb : K -> K -> bool) (d : list (K * V)) k v : (forall k', In k' (keys d) -> eqb k k' = false) -> dset eqb d k v = d ++ [(k, v)].
Proof.
  induction d as [|[k' v'] d IH]; intros H; [reflexivity|]. cbn [dset]. rewrite (H k') by now left. cbn [app]. rewrite IH; [reflexivity|]. intros x I. apply H. now right.
Qed.

Lemma dict_of_new {K V} (eqb : K -> K -> bool) (vs : list (K * V)) : ForallOrdPairs (fun a b => eqb (fst b) (fst a) = false) vs -> dict_of eqb vs = vs.
Proof.
  unfold dict_of, dupdate. assert (H : forall acc, ForallOrdPairs (fun a b => eqb (fst b) (fst a) = false) vs ->
    (forall a b, In a acc -> In b vs -> eqb (fst b) (fst a) = false) -> fold_left (fun a kv => dset eqb a (fst kv) (snd kv)) vs acc = acc ++ vs).
  { induction vs as [|[k v] vs IH]; intros acc F H; [now rewrite app_nil_r|]. cbn [fold_left fst snd].
    inversion F as [|? ? F1 F2]; subst. rewrite dset_new.
    - rewrite IH, <- app_assoc; [reflexivity|exact F2|]. intros a b Ia Ib. apply in_app_iff in Ia as [Ia|[<-|[]]]; [apply H; [exact Ia|now right]|].
      rewrite Forall_forall in F1. exact (F1 b Ib).
    - intros k' I. apply in_map_iff in I as ([k2 v2] & <- & I). exact (H (k2, v2) (k, v) I ltac:(now left)). }
  intros F. apply (H [] F). intros a b [].
Qed.

Lemma dict_of_map {K V} (j : K -> val) (w : K * V -> val) l : (forall a b, key_eqb (j a) (j b) = true -> a = b) -> NoDup (map fst l) ->
  dict_of key_eqb (map (fun kv => (j (fst kv), w kv)) l) = map (fun kv => (j (fst kv), w kv)) l.
Proof.
  intros J N. apply dict_of_new. induction l as [|[k v] l IH]; [constructor|]. inversion N as [|? ? H N']; subst. cbn [map]. constructor; [|now apply IH].
  apply Forall_forall. intros x I. apply in_map_iff in I as ([k' v'] & <- & I). cbn [fst]. destruct (key_eqb (j k') (j k)) eqn:E; [|reflexivity].
  apply J in E. subst k'. destruct H. apply in_map_iff. exists (k, v'). auto.
Qed.

Lemma add_node_old g n : In n (keys g) -> add_node g n = g.
Proof. intros I. unfold add_node. apply (dmem_In Neqb_decides) in I. now rewrite I. Qed.

Lemma nodes_added ns : forall g, NoDup (keys g ++ ns) -> fold_left add_node ns g = g ++ map (fun n => (n, [])) ns.
Proof.
  induction ns as [|n ns IH]; intros g N; [now rewrite app_nil_r|]. cbn [fold_left map]. unfold add_node at 2.
  assert (X : dmem N.eqb g n = false).
  { destruct (dmem N.eqb g n) eqn:E; [|reflexivity]. apply (dmem_In Neqb_decides) in E. apply NoDup_remove_2 in N. destruct N. apply in_app_iff. now left. }
  rewrite X, IH; [now rewrite <- app_assoc|]. unfold keys in *. rewrite map_app, <- app_assoc. exact N.
Qed.

Lemma keys_half h u v a : In u (keys h) -> keys (set_half h u v a) = keys h.
Proof. intros I. unfold set_half. rewrite (keys_dset Neqb_decides). apply (dmem_In Neqb_decides) in I. now rewrite I. Qed.

Lemma In_dset {V} (d : list (N * V)) k v k' v' : In (k', v') (dset N.eqb d k v) -> NoDup (keys d) -> (k' = k /\ v' = v) \/ (k' <> k /\ In (k', v') d).
Proof.
  intros I N. pose proof (In_dget Neqb_decides _ _ _ (NoDup_keys_dset Neqb_decides d k v N) I) as E. rewrite (dget_dset Neqb_decides) in E.
  destruct (N.eqb_spec k' k) as [->|H]; [left; split; congruence|right]. split; [exact H|now apply (dget_In Neqb_decides)].
Qed.

Lemma half_simple h u v a : simple h -> simple (set_half h u v a).
Proof.
  intros [N E]. split; [unfold set_half; now apply (NoDup_keys_dset Neqb_decides)|].
  intros x nb I. unfold set_half in I. apply In_dset in I as [[-> ->]|[_ I]]; [|now apply (E x)|exact N].
  apply (NoDup_keys_dset Neqb_decides). destruct (dget N.eqb h u) as [m|] eqn:D; [|constructor]. apply (E u). now apply (dget_In Neqb_decides).
Qed.

Lemma look_half h u v a x y : look (set_half h u v a) x y = if (N.eqb x u && N.eqb y v)%bool then Some a else look h x y.
Proof.
  unfold look, set_half. rewrite (dget_dset Neqb_decides). destruct (N.eqb_spec x u) as [->|H]; cbn [andb]; [|reflexivity].
  rewrite (dget_dset Neqb_decides). destruct (N.eqb y v); [reflexivity|]. destruct (dget N.eqb h u); reflexivity.
Qed.

Section Graph.
  Variable g : adjacency.
  Hypothesis U : undirected g.

  Lemma g_simple : simple g.
  Proof. split; [exact (ud_nodes g U)|exact (ud_edges g U)]. Qed.

  Lemma g_fun u v a b : link g u v a -> link g u v b -> a = b.
  Proof. rewrite <- !(look_link _ _ _ _ g_simple). congruence. Qed.

  Lemma g_node u v a : link g u v a -> In u (keys g) /\ In v (keys g).
  Proof.
    assert (H : forall u v a, link g u v a -> In u (keys g)) by (intros ? ? ? (nb & I & _); apply (in_map fst) in I; exact I).
    intros L. split; [eapply H; exact L|]. eapply H. apply (ud_ends g U). exact L.
  Qed.

  Record built (h : adjacency) : Prop := mkBuilt
    { bu_nodes : keys h = keys g; bu_simple : simple h; bu_from : forall u v a, look h u v = Some a -> link g u v a }.

  Lemma edge_built h u v a : built h -> link g u v a ->
    built (add_edge h u v a) /\ forall x y, look (add_edge h u v a) x y =
      if (N.eqb x v && N.eqb y u)%bool then Some a else if (N.eqb x u && N.eqb y v)%bool then Some a else look h x y.
  Proof.
    intros [Bn Bs Bf] L. destruct (g_node u v a L) as [Iu Iv]. destruct (ud_attributes g U u v a L) as [Na _].
    assert (E : add_edge h u v a = set_half (set_half h u v a) v u a).
    { unfold add_edge. rewrite (add_node_old h u) by now rewrite Bn. rewrite (add_node_old h v) by now rewrite Bn. cbv zeta.
      assert (D : dupdate str_eqb (edge_data h u v) a = a).
      { unfold edge_data. change (match dget N.eqb h u with Some nb => match dget N.eqb nb v with Some a => a | None => [] end | None => [] end) with
          (match dget N.eqb h u with Some nb => match dget N.eqb nb v with Some a => a | None => [] end | None => @nil (str * str) end).
        pose proof (fun b => Bf u v b) as Q. unfold look in Q. destruct (dget N.eqb h u) as [nb|]; [|exact (dupdate_id_keys str_decides a snd Na)].
        destruct (dget N.eqb nb v) as [b|]; [|exact (dupdate_id_keys str_decides a snd Na)]. rewrite (g_fun u v b a (Q b eq_refl) L). now apply dupdate_same. }
      now rewrite D. }
    rewrite E. assert (K : forall x y, look (set_half (set_half h u v a) v u a) x y =
      if (N.eqb x v && N.eqb y u)%bool then Some a else if (N.eqb x u && N.eqb y v)%bool then Some a else look h x y).
    { intros x y. now rewrite !look_half. }
    split; [|exact K]. constructor.
    - rewrite keys_half; [rewrite keys_half; [exact Bn|now rewrite Bn]|]. rewrite keys_half by now rewrite Bn. now rewrite Bn.
    - now apply half_simple, half_simple.
    - intros x y b. rewrite K. destruct (N.eqb_spec x v) as [->|H1]; cbn [andb].
      + destruct (N.eqb_spec y u) as [->|H2]; cbn [andb]; [intros Q; injection Q as <-; now apply (ud_ends g U)|].
        destruct (N.eqb_spec v u) as [->|H3]; cbn [andb]; [destruct (N.eqb_spec y u); cbn [andb]; [congruence|apply Bf]|apply Bf].
      + destruct (N.eqb_spec x u) as [->|H3]; cbn [andb]; [|apply Bf]. destruct (N.eqb_spec y v) as [->|H4]; [intros Q; injection Q as <-; exact L|apply Bf].
  Qed.

  Definition edges_of (d : adjacency) : list (N * N * list (str * str)) := flat_map (fun nb => map (fun e => (fst nb, fst e, snd e)) (snd nb)) d.

  Lemma edges_folded d : forall h, fold_left (fun h nb => fold_left (fun h e => add_edge h (fst nb) (fst e) (snd e)) (snd nb) h) d h =
    fold_left (fun h e => add_edge h (fst (fst e)) (snd (fst e)) (snd e)) (edges_of d) h.
  Proof.
    induction d as [|[n nb] d IH]; intros h; [reflexivity|]. cbn [fold_left edges_of flat_map fst snd]. fold (edges_of d). rewrite fold_left_app, IH. f_equal.
    revert h. induction nb as [|e nb IHn]; intros h; [reflexivity|]. cbn [fold_left map fst snd]. apply IHn.
  Qed.

  Lemma edges_link u v a : In (u, v, a) (edges_of g) <-> link g u v a.
  Proof.
    unfold edges_of, link. rewrite in_flat_map. split.
    - intros ([n nb] & I & J). apply in_map_iff in J as ([m b] & E & J). cbn [fst snd] in *. injection E as <- <- <-. eauto.
    - intros (nb & I & J). exists (u, nb). split; [exact I|]. apply in_map_iff. exists (v, a). auto.
  Qed.

  Lemma all_built es : (forall u v a, In (u, v, a) es -> link g u v a) -> forall h, built h ->
    let h' := fold_left (fun h e => add_edge h (fst (fst e)) (snd (fst e)) (snd e)) es h in
    built h' /\ (forall u v a, look h u v = Some a -> look h' u v = Some a) /\ forall u v a, In (u, v, a) es -> look h' u v = Some a.
  Proof.
    induction es as [|[[u v] a] es IH]; intros H h B; cbv zeta.
    - split; [exact B|]. split; [auto|intros ? ? ? []].
    - cbn [fold_left fst snd]. assert (L : link g u v a) by (apply H; now left). destruct (edge_built h u v a B L) as [B1 K].
      destruct (IH ltac:(intros x y b I; apply H; now right) _ B1) as (B2 & M & D). split; [exact B2|].
      assert (Own : look (add_edge h u v a) u v = Some a).
      { rewrite K, !N.eqb_refl. cbn [andb]. destruct (N.eqb u v && N.eqb v u)%bool; reflexivity. }
      split.
      + intros x y b E. apply M. rewrite K. destruct (N.eqb_spec x v) as [->|H1]; cbn [andb].
        * destruct (N.eqb_spec y u) as [->|H2]; cbn [andb].
          -- f_equal. apply (g_fun v u a b); [now apply (ud_ends g U)|now apply (bu_from h B)].
          -- destruct (N.eqb_spec v u) as [->|H3]; cbn [andb]; [destruct (N.eqb_spec y u); [congruence|exact E]|exact E].
        * destruct (N.eqb_spec x u) as [->|H3]; cbn [andb]; [|exact E]. destruct (N.eqb_spec y v) as [->|H4]; [|exact E].
          f_equal. apply (g_fun u v a b); [exact L|now apply (bu_from h B)].
      + intros x y b [I|I]; [|now apply D]. injection I as <- <- <-. now apply M.
  Qed.

  Lemma graph_rebuilt : same_graph g (graph_of_dicts g).
  Proof.
    unfold graph_of_dicts. rewrite edges_folded, nodes_added by (cbn [keys map app]; exact (ud_nodes g U)). cbn [app].
    set (h0 := map _ (map fst g)).
    assert (B0 : built h0).
    { assert (Kn : keys h0 = keys g) by (unfold h0, keys; rewrite map_map; cbn [fst]; apply map_id). constructor; [exact Kn| |].
      - split; [rewrite Kn; exact (ud_nodes g U)|]. intros u nb I. unfold h0 in I. apply in_map_iff in I as (n & E & _). injection E as <- <-. constructor.
      - intros u v a E. unfold look in E. destruct (dget N.eqb h0 u) as [nb|] eqn:D; [|discriminate]. apply (dget_In Neqb_decides) in D.
        unfold h0 in D. apply in_map_iff in D as (n & E' & _). injection E' as <- <-. discriminate E. }
    destruct (all_built (edges_of g) (fun u v a => proj1 (edges_link u v a)) h0 B0) as ([Bn Bs Bf] & _ & D). fold h0.
    match goal with |- same_graph g ?x => set (h := x) in * end. split; [symmetry; exact Bn|]. split; [exact (proj2 Bs)|]. intros u v a. split.
    - intros L. apply (look_link _ _ _ _ Bs). apply D. now apply edges_link.
    - intros L. apply Bf. now apply (look_link _ _ _ _ Bs).
  Qed.

  Definition attrs_val (a : list (str * str)) : val := VDict (map (fun kv => (VStr (fst kv), VStr (snd kv))) a).
  Definition nb_val (nb : list (N * list (str * str))) : val := VDict (map (fun e => (VInt (fst e), attrs_val (snd e))) nb).
  Definition graph_val (d : adjacency) : val := VDict (map (fun nb => (VInt (fst nb), nb_val (snd nb))) d).

  Definition attrs_text (a : list (str * str)) : str := show_dict (map (fun kv : str * str => (py_repr (fst kv), py_repr (snd kv))) a).
  Definition nb_text (nb : list (N * list (str * str))) : str := show_dict (map (fun e => (show_N (fst e), attrs_text (snd e))) nb).
  Definition graph_text (d : adjacency) : str := show_dict (map (fun nb => (show_N (fst nb), nb_text (snd nb))) d).

  Lemma VInt_inj a b : key_eqb (VInt a) (VInt b) = true -> a = b.
  Proof. apply N.eqb_eq. Qed.
  Lemma VStr_inj a b : key_eqb (VStr a) (VStr b) = true -> a = b.
  Proof. apply str_decides. Qed.

  Lemma attrs_reads a : NoDup (map fst a) -> Forall (fun kv => plain (fst kv) /\ plain (snd kv)) a ->
    reads 0 (attrs_text a) (attrs_val a) /\ quiet (attrs_text a).
  Proof.
    intros N F. split.
    - apply reads_dict; [|exact (dict_of_map VStr (fun kv => VStr (snd kv)) a VStr_inj N)].
      clear N. induction F as [|kv a [P Q] F IH]; [constructor|]. cbn [map]. constructor; [|exact IH]. cbn [fst snd].
      rewrite !repr_plain by assumption. split; apply reads_up, reads_str, plain_denotes; assumption.
    - apply quiet_dict, Forall_map. eapply Forall_impl; [|exact F]. intros kv [P Q]. cbn [fst snd]. split; now apply repr_quiet_plain.
  Qed.

  Lemma nb_reads nb : NoDup (map fst nb) -> (forall v a, In (v, a) nb -> NoDup (map fst a) /\ Forall (fun kv => plain (fst kv) /\ plain (snd kv)) a) ->
    reads 0 (nb_text nb) (nb_val nb) /\ quiet (nb_text nb).
  Proof.
    intros N H. split.
    - apply reads_dict; [|exact (dict_of_map VInt (fun e => attrs_val (snd e)) nb VInt_inj N)].
      clear N. induction nb as [|[v a] nb IH]; [constructor|]. cbn [map]. constructor; [|apply IH; intros w b I; apply (H w b); now right]. cbn [fst snd].
      destruct (H v a ltac:(now left)) as [Na Fa]. split; [apply reads_up, reads_int|apply reads_up; now apply attrs_reads].
    - apply quiet_dict, Forall_map, Forall_forall. intros [v a] I. cbn [fst snd]. split; [apply show_N_quiet|]. destruct (H v a I). now apply attrs_reads.
  Qed.

  Lemma graph_parsed : reads 0 (graph_text g) (graph_val g) /\ quiet (graph_text g).
  Proof.
    assert (H : forall u nb, In (u, nb) g -> reads 0 (nb_text nb) (nb_val nb) /\ quiet (nb_text nb)).
    { intros u nb I. apply nb_reads; [exact (ud_edges g U u nb I)|]. intros v a J. apply (ud_attributes g U u v a). exists nb. auto. }
    split.
    - apply reads_dict; [|exact (dict_of_map VInt (fun nb => nb_val (snd nb)) g VInt_inj (ud_nodes g U))].
      revert H. generalize g. intros d H. induction d as [|[u nb] d IH]; [constructor|]. cbn [map]. constructor; [|apply IH; intros w m I; apply (H w m); now right].
      cbn [fst snd]. split; [apply reads_up, reads_int|apply reads_up, (H u nb); now left].
    - apply quiet_dict, Forall_map, Forall_forall. intros [u nb] I. cbn [fst snd]. split; [apply show_N_quiet|apply (H u nb I)].
  Qed.

  Lemma as_attrs_val a : as_attrs (attrs_val a) = Ok a.
  Proof. unfold as_attrs, attrs_val. cbn [as_dict bind]. induction a as [|[k v] a IH]; [reflexivity|]. cbn [map mapM fst snd]. cbn [as_str bind]. cbn [as_str bind] in IH. rewrite IH. reflexivity. Qed.

  Lemma as_adjacency_val d : as_adjacency (graph_val d) = Ok d.
  Proof.
    unfold as_adjacency, graph_val. cbn [as_dict bind]. induction d as [|[u nb] d IH]; [reflexivity|]. cbn [map mapM as_node bind fst snd]. cbn [as_dict nb_val bind].
    assert (E : mapM (fun e : val * val => do m <- as_node (fst e); do a <- as_attrs (snd e); Ok (m, a)) (map (fun e => (VInt (fst e), attrs_val (snd e))) nb) = Ok nb).
    { clear IH. induction nb as [|[v a] nb IHn]; [reflexivity|]. cbn [map mapM as_node bind fst snd]. rewrite as_attrs_val. cbn [bind]. now rewrite IHn. }
    rewrite E. cbn [bind]. now rewrite IH.
  Qed.

  Lemma graph_reads : exists h, reads 0 (export_graph g) (VGraph h) /\ same_graph g h /\ quiet (export_graph g).
  Proof.
    destruct graph_parsed as [R Q]. exists (graph_of_dicts g). split; [|split; [exact graph_rebuilt|]].
    - change (export_graph g) with (lit "Graph(" ++ without_dquotes (graph_text g) ++ lit ")"). rewrite (without_quiet _ Q).
      apply (reads_call (lit "Graph") (VFun (lit "Graph")) [graph_text g] [IPos (graph_val g)] [(None, graph_val g)]);
        [apply reads_name; [is_name|reflexivity]|now apply one_item|reflexivity|].
      change (apply (VFun (lit "Graph")) [(None, graph_val g)]) with (do h <- as_adjacency (graph_val g); Ok (VGraph (graph_of_dicts h))).
      now rewrite as_adjacency_val.
    - change (export_graph g) with (lit "Graph(" ++ without_dquotes (graph_text g) ++ lit ")"). rewrite (without_quiet _ Q).
      apply quiet_app; [q_lit|]. apply quiet_app; [exact Q|q_lit].
  Qed.
End Graph.

(** ** Completions *)

(** the texts of the parts put together *)
Definition eager_text (name op part graph exotics terms topo : str) : str :=
  lit "Completion(operator=" ++ (lit "EffectiveOperator(name='" ++ name ++ lit "', operator=" ++ op ++ lit ")") ++ lit ", partition=" ++ part ++
  lit ", graph=" ++ graph ++ lit ", exotics=" ++ exotics ++ lit ", terms=" ++ terms ++ lit ", topology='" ++ topo ++ lit "')".

Lemma kw_reads1 k v w : name (lit k) -> reads 1 v w -> ireads (kwarg k v) (IKw (lit k) w).
Proof. intros N R. unfold kwarg. apply reads_kw; [exact (proj1 N)|exact R]. Qed.

Lemma eager_reads name op part graph exotics terms topo op' p' g' xs ts' : plain name -> plain topo ->
  reads 1 op (VOp op') -> reads 0 part (tree_val p') -> reads 0 graph (VGraph g') -> reads 0 exotics (VSet xs) -> reads 0 terms (VList (map VOp ts')) ->
  reads 0 (eager_text name op part graph exotics terms topo) (VComp (mkComp name op' p' g' xs ts' topo)).
Proof.
  intros Pn Pt Ro Rp Rg Rx Rt.
  assert (Eff : reads 0 (lit "EffectiveOperator" ++ lit "(" ++ join (lit ", ") [kwarg "name" (quoted name); kwarg "operator" op] ++ lit ")") (VEff name op')).
  { apply (reads_call (lit "EffectiveOperator") (VFun (lit "EffectiveOperator")) _ [IKw (lit "name") (VStr name); IKw (lit "operator") (VOp op')]
      [(Some (lit "name"), VStr name); (Some (lit "operator"), VOp op')]); [apply reads_name; [is_name|reflexivity]| |reflexivity|reflexivity].
    constructor; [apply kw_reads; [is_name|now apply reads_str, plain_denotes]|]. constructor; [apply kw_reads1; [is_name|exact Ro]|constructor]. }
  set (eff := lit "EffectiveOperator" ++ _) in Eff.
  assert (E : eager_text name op part graph exotics terms topo =
    lit "Completion" ++ lit "(" ++ join (lit ", ") [kwarg "operator" eff; kwarg "partition" part; kwarg "graph" graph; kwarg "exotics" exotics; kwarg "terms" terms; kwarg "topology" (quoted topo)] ++ lit ")").
  { unfold eager_text, eff, kwarg, quoted. cbn [join]. repeat rewrite <- app_assoc. cbn [app]. repeat rewrite <- app_assoc. reflexivity. }
  rewrite E.
  apply (reads_call (lit "Completion") (VFun (lit "Completion")) _
    [IKw (lit "operator") (VEff name op'); IKw (lit "partition") (tree_val p'); IKw (lit "graph") (VGraph g'); IKw (lit "exotics") (VSet xs); IKw (lit "terms") (VList (map VOp ts')); IKw (lit "topology") (VStr topo)]
    [(Some (lit "operator"), VEff name op'); (Some (lit "partition"), tree_val p'); (Some (lit "graph"), VGraph g'); (Some (lit "exotics"), VSet xs); (Some (lit "terms"), VList (map VOp ts')); (Some (lit "topology"), VStr topo)]);
    [apply reads_name; [is_name|reflexivity]| |reflexivity|].
  - repeat (constructor; [apply kw_reads; [is_name|first [eassumption|now apply reads_str, plain_denotes]]|]). constructor.
  - change (apply (VFun (lit "Completion")) ?l) with (call_completion l).
    assert (T : mapM (fun v => as_op (Some v)) (map VOp ts') = Ok ts') by (clear; induction ts' as [|t ts IH]; [reflexivity|]; cbn [map mapM]; change (as_op (Some (VOp t))) with (Ok t); cbn [bind]; now rewrite IH).
    transitivity (do p <- as_partition (tree_val p'); do terms <- as_list (Some (VList (map VOp ts'))); do terms <- mapM (fun v => as_op (Some v)) terms; do t <- as_str (Some (VStr topo)); Ok (VComp (mkComp name op' p g' xs terms t)));
      [reflexivity|]. rewrite as_partition_val. cbn [bind as_list]. rewrite T. reflexivity.
Qed.

Lemma eager_denotes name op part graph x x' terms topo : plain name -> plain topo -> denotes dquote op op -> quiet part -> quiet graph ->
  denotes dquote x x' -> denotes dquote terms terms ->
  denotes dquote (eager_text name op part graph x terms topo) (eager_text name op part graph x' terms topo).
Proof.
  intros Pn Pt Do Qp Qg Dx Dt. unfold eager_text.
  apply denotes_app; [apply quiet_denotes; q_lit|]. apply denotes_app.
  { apply denotes_app; [apply quiet_denotes; q_lit|]. apply denotes_app; [now apply plain_denotes|]. apply denotes_app; [apply quiet_denotes; q_lit|].
    apply denotes_app; [exact Do|apply quiet_denotes; q_lit]. }
  apply denotes_app; [apply quiet_denotes; q_lit|]. apply denotes_app; [now apply quiet_denotes|].
  apply denotes_app; [apply quiet_denotes; q_lit|]. apply denotes_app; [now apply quiet_denotes|].
  apply denotes_app; [apply quiet_denotes; q_lit|]. apply denotes_app; [exact Dx|].
  apply denotes_app; [apply quiet_denotes; q_lit|]. apply denotes_app; [exact Dt|].
  apply denotes_app; [apply quiet_denotes; q_lit|]. apply denotes_app; [now apply plain_denotes|apply quiet_denotes; q_lit].
Qed.

(** *** the head of the lazy form *)

Lemma info_letter e q : info_of e = Ok q -> qn_lorentz q = lit "F" \/ qn_lorentz q = lit "S".
Proof.
  unfold info_of. intros E. apply bind_ok in E as (y & _ & E). apply bind_ok in E as (f & _ & E). cbv zeta in E. apply bind_ok in E as (sm & _ & E).
  apply bind_ok in E as (fm & _ & E). cbv beta in E. destruct fm; [injection E as <-; now left|]. apply bind_ok in E as (sc & _ & E). cbv beta in E.
  destruct sc; [injection E as <-; now right|discriminate].
Qed.

Lemma info_values l info : exotic_info l = Ok info -> forall q, In q (values info) -> exists e, info_of e = Ok q.
Proof.
  unfold exotic_info. assert (H : forall acc, (forall q, In q (values acc) -> exists e, info_of e = Ok q) ->
    foldM (fun info e => do q <- info_of e; Ok (dset cfield_eqb info e q)) l acc = Ok info -> forall q, In q (values info) -> exists e, info_of e = Ok q).
  { induction l as [|x l IH]; intros acc A E; cbn [foldM] in E; [injection E as <-; exact A|]. apply bind_ok in E as (acc' & Ea & E). apply bind_ok in Ea as (q0 & Eq & Ea).
    injection Ea as <-.
    refine (IH _ _ E). intros q I. unfold values in I. apply in_map_iff in I as ([k v] & <- & I). cbn [snd].
    clear E IH. induction acc as [|[k' v'] acc IHa]; cbn [dset] in I.
    - destruct I as [I|[]]. injection I as <- <-. eauto.
    - destruct (cfield_eqb x k').
      + destruct I as [I|I]; [injection I as <- <-; eauto|]. apply A. right. apply in_map_iff. exists (k, v). auto.
      + destruct I as [I|I]; [injection I as <- <-; apply A; now left|]. apply IHa; [|exact I]. intros q J. apply A. now right. }
  intros E. exact (H [] ltac:(intros q []) E).
Qed.

Lemma nat_plain n : plain (show_nat n).
Proof. eapply Forall_impl; [|apply ProofsIndex.show_digits]. exact digit_plain. Qed.

Lemma qnumbers_plain l qns : quantum_number_strings l = Ok qns -> Forall plain qns.
Proof.
  unfold quantum_number_strings. intros E. apply bind_ok in E as (info & Ei & E). apply bind_ok in E as (ss & Es & E). injection E as <-.
  assert (F : Forall plain ss).
  { apply Forall_forall. intros s I. assert (H : forall m r, mapM show_qnumbers m = Ok r -> forall s, In s r -> exists q, In q m /\ show_qnumbers q = Ok s).
    { clear. induction m as [|q m IH]; intros r E s I; cbn [mapM] in E; [injection E as <-; destruct I|]. apply bind_ok in E as (s0 & E0 & E). apply bind_ok in E as (r0 & E1 & E). injection E as <-.
      destruct I as [<-|I]; [exists q; split; [now left|exact E0]|]. destruct (IH r0 E1 s I) as (q' & I' & E'). exists q'. split; [now right|exact E']. }
    destruct (H _ _ Es s I) as (q & Iq & Eq). destruct (info_values _ _ Ei q Iq) as (e & Ee).
    assert (Pl : plain (qn_lorentz q)) by (destruct (info_letter e q Ee) as [-> | ->]; plain_lit).
    unfold show_qnumbers in Eq. destruct (qn_sm q) as [|cu [|cd [|i [|? ?]]]]; try discriminate Eq. destruct (qn_charges q) as [|[? b] [|[? y] [|? ?]]]; try discriminate Eq.
    apply ok_inj in Eq. subst s. repeat (apply plain_app; [first [assumption|apply nat_plain|apply show_Q_plain|plain_lit]|]). apply show_Q_plain. }
  unfold sorted_str. eapply Permutation.Permutation_Forall; [|exact F]. apply sort_perm.
Qed.

Lemma strs_read l : Forall plain l -> Forall2 (reads 1) (map py_repr l) (map VStr l).
Proof.
  induction 1 as [|s l P F IH]; [constructor|]. cbn [map]. constructor; [|exact IH]. rewrite repr_plain by exact P. now apply reads_up, reads_str, plain_denotes.
Qed.

Lemma head_reads name qns terms topo : plain name -> plain topo -> Forall plain qns -> Forall (Forall plain) terms ->
  reads 0 (head_text name qns terms topo)
    (VDict [(VStr (lit "operator_name"), VStr name); (VStr (lit "quantum_numbers"), VList (map VStr qns));
            (VStr (lit "terms"), VList (map (fun t => VTuple (map VStr t)) terms)); (VStr (lit "topology"), VStr topo)]).
Proof.
  intros Pn Pt Fq Ft.
  assert (E : head_text name qns terms topo = show_dict [(quoted (lit "operator_name"), quoted name); (quoted (lit "quantum_numbers"), show_list (map py_repr qns));
    (quoted (lit "terms"), show_list (map (fun t => show_tuple (map py_repr t)) terms)); (quoted (lit "topology"), quoted topo)]).
  { unfold head_text, show_dict, show_items. cbn [map fst snd join]. unfold quoted. cbn [lit list_ascii_of_string app]. repeat (progress (repeat rewrite <- app_assoc; cbn [app])). reflexivity. }
  rewrite E. apply reads_dict; [|reflexivity].
  assert (K : forall s, forallb plainb (lit s) = true -> reads 1 (quoted (lit s)) (VStr (lit s))) by (intros s H; apply reads_up, reads_str, plain_denotes, plain_of, H).
  assert (P : forall s, plain s -> reads 1 (quoted s) (VStr s)) by (intros s H; now apply reads_up, reads_str, plain_denotes).
  constructor; [split; [now apply K|now apply P]|]. constructor; [split; [now apply K|]|].
  - apply reads_up, reads_list, strs_read, Fq.
  - constructor; [split; [now apply K|]|].
    + apply reads_up, reads_list. cbn [fst snd]. clear E. induction Ft as [|t terms Ht Ft IH]; [constructor|]. cbn [map]. constructor; [|exact IH].
      apply reads_up, reads_tuple, strs_read, Ht.
    + constructor; [split; [now apply K|now apply P]|constructor].
Qed.

Lemma lazy_reads name qns terms topo raw tail : plain name -> plain topo -> Forall plain qns -> Forall (Forall plain) terms -> denotes dquote raw tail ->
  reads 0 (lit "LazyCompletion(head=" ++ head_text name qns terms topo ++ lit ", tail=" ++ dquote :: raw ++ dquote :: lit ")")
    (VLazy (mkLazy qns name terms tail) (Some topo)).
Proof.
  intros Pn Pt Fq Ft D. pose proof (head_reads name qns terms topo Pn Pt Fq Ft) as H. set (h := head_text name qns terms topo) in *.
  match type of H with reads _ _ ?d => set (hd := d) in H end.
  assert (E : lit "LazyCompletion(head=" ++ h ++ lit ", tail=" ++ dquote :: raw ++ dquote :: lit ")" =
    lit "LazyCompletion" ++ lit "(" ++ join (lit ", ") [kwarg "head" h; kwarg "tail" (dquote :: raw ++ [dquote])] ++ lit ")").
  { unfold kwarg. cbn [join]. repeat rewrite <- app_assoc. cbn [app]. repeat rewrite <- app_assoc. reflexivity. }
  rewrite E.
  apply (reads_call (lit "LazyCompletion") (VFun (lit "LazyCompletion")) _ [IKw (lit "head") hd; IKw (lit "tail") (VStr tail)]
    [(Some (lit "head"), hd); (Some (lit "tail"), VStr tail)]); [apply reads_name; [is_name|reflexivity]| |reflexivity|].
  - constructor; [apply kw_reads; [is_name|exact H]|]. constructor; [apply kw_reads; [is_name|now apply reads_dstr]|constructor].
  - assert (Q : mapM val_str (map VStr qns) = Ok qns) by (clear; induction qns as [|q qns IH]; [reflexivity|]; cbn [map mapM]; cbn [val_str as_str bind]; now rewrite IH).
    assert (T : mapM (fun t => do t <- as_sequence t; mapM val_str t) (map (fun t => VTuple (map VStr t)) terms) = Ok terms).
    { clear. induction terms as [|t ts IH]; [reflexivity|]. cbn [map mapM]. cbn [as_sequence bind].
      assert (X : mapM val_str (map VStr t) = Ok t) by (clear; induction t as [|q qns IH]; [reflexivity|]; cbn [map mapM]; cbn [val_str as_str bind]; now rewrite IH).
      rewrite X. cbn [bind]. now rewrite IH. }
    transitivity (do q <- mapM val_str (map VStr qns); do n <- val_str (VStr name); do t <- mapM (fun t => do t <- as_sequence t; mapM val_str t) (map (fun t => VTuple (map VStr t)) terms);
      Ok (VLazy (mkLazy q n t tail) (Some topo))); [reflexivity|]. rewrite Q. cbn [bind val_str as_str]. rewrite T. reflexivity.
Qed.

(** *** the fields of the terms *)

Lemma mapM_inv {A B} (f : A -> res B) l m : mapM f l = Ok m -> Forall2 (fun a b => f a = Ok b) l m.
Proof.
  revert m. induction l as [|a l IH]; intros m E; cbn [mapM] in E; [injection E as <-; constructor|].
  apply bind_ok in E as (b & Eb & E). apply bind_ok in E as (r & Er & E). injection E as <-. constructor; [exact Eb|now apply IH].
Qed.

Lemma field_of_parts x f : field_of x = Ok f ->
  f_label f = (if f_is_conj (i_field x) then removelast (f_label (i_field x)) else f_label (i_field x)) /\
  f_dynkin f = f_dynkin (i_field x) /\ f_charges f = dupdate str_eqb default_charges (f_charges (i_field x)) /\ f_is_conj f = f_is_conj (i_field x).
Proof.
  unfold field_of, mk_field. cbv zeta. intros E. cbn [bind] in E. destruct (negb (f_nf (i_field x) =? 1) && negb (f_nf (i_field x) =? 3)); [discriminate|].
  apply ok_inj in E. subst f. cbn [f_label f_dynkin f_charges f_is_conj]. split; [reflexivity|]. split; [reflexivity|]. split; reflexivity.
Qed.

Lemma mem_names s : mem_by str_eqb s sm_names = true <-> In s sm_names.
Proof. apply mem_by_In. exact str_decides. Qed.

Lemma scalar_text f b : is_scalar f = Ok b -> forall a c r, f_dynkin f = a :: c :: r -> b = str_eqb [a; c] (lit "00").
Proof.
  unfold is_scalar, lorentz_irrep, dynkin_ints. intros E a c r D. rewrite D in E. cbn [mapM] in E.
  apply bind_ok in E as (l & E & Eb). apply bind_ok in E as (l0 & E & El). apply bind_ok in E as (p & Ep & E). apply bind_ok in E as (m & Em & E). injection E as <-.
  apply bind_ok in Em as (q & Eq & Em). apply bind_ok in Em as (m' & _ & Em). injection Em as <-. cbn [firstn] in El. injection El as <-. injection Eb as <-.
  apply digit_of_ok in Ep as [Lp ->]. apply digit_of_ok in Eq as [Lq ->].
  assert (Dz : forall n, n < 10 -> Ascii.eqb (digit n) "0" = (n =? 0)).
  { intros n H. assert (Q : forallb (fun n => Bool.eqb (Ascii.eqb (digit n) "0") (n =? 0)) (seq 0 10) = true) by reflexivity.
    rewrite forallb_forall in Q. apply Bool.eqb_prop, Q, in_seq. lia. }
  cbn [nats_eqb list_eqb str_eqb lit list_ascii_of_string]. unfold str_eqb, nats_eqb. cbn [list_eqb]. rewrite !Dz by assumption. reflexivity.
Qed.

Lemma dupdate_member (e : charges) : forall d k v, dget str_eqb (dupdate str_eqb d e) k = Some v ->
  In (k, v) e \/ (~ In k (map fst e) /\ dget str_eqb d k = Some v).
Proof.
  unfold dupdate. induction e as [|[k' v'] e IH]; intros d k v E; [right; split; [intros []|exact E]|]. cbn [fold_left fst snd] in E.
  destruct (IH _ _ _ E) as [I|[N D]]; [left; now right|]. rewrite (dget_dset str_decides) in D. destruct (str_eqb k k') eqn:Q.
  - apply str_decides in Q. subst k'. injection D as <-. left. now left.
  - right. split; [|exact D]. cbn [map fst]. intros [H|H]; [|now apply N]. subst k'. rewrite (decides_refl str_decides) in Q. discriminate.
Qed.

Lemma charge_member f g k v : f_charges f = dupdate str_eqb default_charges (f_charges g) -> In k [lit "y"; lit "3b"] -> dget str_eqb (f_charges f) k = Some v -> has_charge g k v.
Proof.
  intros E K D. rewrite E in D. destruct (dupdate_member _ _ _ _ D) as [I|[N Q]]; [now left|right]. split; [exact N|].
  destruct K as [<-|[<-|[]]]; cbn in Q; injection Q as <-; reflexivity.
Qed.

Lemma field_spelled x f s : field_of (cf_if x) = Ok f -> field_qns f = Ok s -> spells_field x s.
Proof.
  intros Ef E. destruct (field_of_parts _ _ Ef) as (Pl & Pd & Pc & Pj). unfold field_qns in E. apply bind_ok in E as (sc & Es & E). apply bind_ok in E as (y & Ey & E).
  apply bind_ok in E as (b & Eb & E). unfold spells_field. cbv zeta. match goal with |- (In ?l _ /\ _) \/ _ => replace l with (f_label f) by exact Pl end. rewrite <- Pd, <- Pj. unfold stringify_qns in E. fold sm_names in E.
  destruct (mem_by str_eqb (f_label f) sm_names) eqn:M; cbn [negb] in E.
  - left. split; [now apply mem_names|]. apply ok_inj in E. rewrite <- E. now destruct (f_is_conj f).
  - right. split; [intros H; apply mem_names in H; congruence|]. destruct (f_dynkin f) as [|a [|c [|cu [|cd [|i [|? ?]]]]]] eqn:D; try discriminate E.
    apply ok_inj in E. exists a, c, cu, cd, i, y, b. split; [reflexivity|].
    unfold dgetM in Ey, Eb. destruct (dget str_eqb (f_charges f) (lit "y")) as [y'|] eqn:Ey'; [|discriminate Ey]. injection Ey as ->.
    destruct (dget str_eqb (f_charges f) (lit "3b")) as [b'|] eqn:Eb'; [|discriminate Eb]. injection Eb as ->.
    split; [apply (charge_member f); [exact Pc|cbn; tauto|exact Ey']|]. split; [apply (charge_member f); [exact Pc|cbn; tauto|exact Eb']|]. rewrite <- E. rewrite (scalar_text f sc Es a c _ D). destruct (str_eqb [a; c] (lit "00")); reflexivity.
Qed.

Lemma five_chars f a b c d e : field_ok f a b c d e -> plain (f_dynkin f).
Proof. intros (E & (L1 & L2 & L3 & L4 & L5) & _). rewrite E. now apply five_plain. Qed.

Lemma spelled_plain x u s : read_back (KField x) u -> spells_field x s -> plain s.
Proof.
  intros R Sp.
  assert (Lp : forall l, In l sm_names -> plain l).
  { intros l [<-|[<-|[<-|[<-|[<-|[<-|[]]]]]]]; plain_lit. }
  assert (D : In (if f_is_conj (i_field (cf_if x)) then removelast (f_label (i_field (cf_if x))) else f_label (i_field (cf_if x))) sm_names \/ plain (f_dynkin (i_field (cf_if x)))).
  { inversion R as [f t x0 y Sf E L W Q1 Q2|f dyn g t y Sf Eg Ld E W Q1 Q2|x0 Ex In Q1 Q2|]; subst.
    - left. cbn [cf_if]. destruct L as (L1 & L2 & L3 & _). destruct (label_field f y t E) as (Y1 & Y2 & _). rewrite L1, L2.
      rewrite (bare_field_label f y Y1 Y2). destruct Sf as [M|(g & M & Eg)].
      + destruct M as [<-|[<-|[<-|[<-|[<-|[<-|[]]]]]]]; cbn; tauto.
      + assert (Lg : f_label f = f_label g).
        { unfold conj_field in Eg. apply bind_ok in Eg as (lo & _ & Eg). apply bind_ok in Eg as (co & _ & Eg). apply bind_ok in Eg as (is & _ & Eg). unfold mk_field in Eg. cbv zeta in Eg. cbn [bind] in Eg. destruct (negb (f_nf g =? 1) && negb (f_nf g =? 3)); [discriminate|]. injection Eg as <-. reflexivity. }
        rewrite Lg. destruct M as [<-|[<-|[<-|[<-|[<-|[<-|[]]]]]]]; cbn; tauto.
    - right. cbn [cf_if]. destruct (standard_ok f Sf) as (a & b & c & d & e & F & Rk & Dv & St & Lx & _).
      destruct dyn as [|d0 [|d1 [|? ?]]]; try discriminate Ld.
      assert (Dg : exists p q, p < 10 /\ q < 10 /\ d0 = digit p /\ d1 = digit q).
      { clear E. unfold D in Eg. apply bind_ok in Eg as (l & El & Eg). cbv beta in Eg. destruct l as [|l0 [|l1 l]]; try discriminate Eg.
        apply bind_ok in Eg as (p & Ep & Eg). apply bind_ok in Eg as (q & Eq & _). apply digit_of_ok in Ep as [Lp' ->]. apply digit_of_ok in Eq as [Lq ->]. eauto 8. }
      destruct Dg as (p & q & Lp' & Lq & -> & ->).
      destruct (proj2 (C27_D f a b c d e p q F Lp' Lq Lx) g Eg) as (G & Gs & _).
      assert (Rg : rank (f_symmetry g) = p + q + c + d + e) by (rewrite Gs, rank_symmetry_of; cbn [list_sum fold_right]; lia).
      destruct (proj2 (call_field_spec g p q c d e t G Rg) y E) as (idx & _ & _ & Ey). rewrite Ey. cbn [i_field f_dynkin]. exact (five_chars _ _ _ _ _ _ G).
    - right. pose proof (ex_dynkin x Ex) as Ed. cbv zeta beta in Ed. rewrite Ed. apply five_plain; apply (xp_few x Ex); discriminate. }
  destruct Sp as [[I ->]|(N & a & b & cu & cd & i & y & b3 & Ed & _ & _ & ->)].
  - apply plain_app; [now apply Lp|]. destruct (f_is_conj (i_field (cf_if x))); [plain_lit|constructor].
  - destruct D as [D|D]; [now destruct N|]. rewrite Ed in D. inversion D as [|? ? P1 D1]; subst. inversion D1 as [|? ? P2 D2]; subst. inversion D2 as [|? ? P3 D3]; subst.
    inversion D3 as [|? ? P4 D4]; subst. inversion D4 as [|? ? P5 D5]; subst.
    apply plain_app; [destruct (str_eqb [a; b] (lit "00")); plain_lit|]. apply plain_app; [plain_lit|]. apply plain_app; [constructor; [exact P3|constructor; [exact P4|constructor]]|].
    apply plain_app; [plain_lit|]. apply plain_app; [constructor; [exact P5|constructor]|]. apply plain_app; [plain_lit|]. apply plain_app; [apply show_Q_plain|].
    apply plain_app; [plain_lit|apply show_Q_plain].
Qed.

Lemma term_spelled t t' r : Forall2 read_back t t' -> mapM (fun x => do f <- field_of (cf_if x); field_qns f) (cfields t) = Ok r ->
  Forall2 spells_field (cfields t) r /\ Forall plain r.
Proof.
  intros F. revert r. induction F as [|a b t t' R F IH]; intros r E.
  - cbn in E. injection E as <-. split; constructor.
  - destruct a as [x|s]; [|exact (IH r E)]. cbn [cfields flat_map app] in *. fold (cfields t) in *. cbn [mapM] in E.
    apply bind_ok in E as (s & Es & E). apply bind_ok in E as (r' & Er & E). injection E as <-. apply bind_ok in Es as (f & Ef & Es).
    destruct (IH r' Er) as [A B]. pose proof (field_spelled x f s Ef Es) as Sp. split; constructor; auto. eapply spelled_plain; eauto.
Qed.

Lemma terms_spelled ts ts' r : Forall2 operator_back ts ts' -> plain_terms ts = Ok r ->
  Forall2 (fun t => Forall2 spells_field (cfields t)) ts r /\ Forall (Forall plain) r.
Proof.
  unfold plain_terms. intros F. revert r. induction F as [|t t' ts ts' R F IH]; intros r E; cbn [mapM] in E; [injection E as <-; split; constructor|].
  apply bind_ok in E as (s & Es & E). apply bind_ok in E as (r' & Er & E). injection E as <-. destruct (IH r' Er) as [A B].
  destruct (term_spelled t t' s (proj2 (proj2 R)) Es). split; constructor; auto.
Qed.

Lemma numbers_spelled l qns : quantum_number_strings l = Ok qns -> exists info ss, exotic_info l = Ok info /\ Forall2 spells_numbers (map snd info) ss /\
  Permutation.Permutation ss qns /\ StronglySorted (fun a b => str_leb a b = true) qns.
Proof.
  unfold quantum_number_strings. intros E. apply bind_ok in E as (info & Ei & E). apply bind_ok in E as (ss & Es & E). injection E as <-. exists info, ss.
  split; [exact Ei|]. split; [|split].
  - apply mapM_inv in Es. unfold values in Es. clear Ei. induction Es as [|q s m ss Eq Es IH]; [constructor|]. constructor; [|exact IH].
    unfold show_qnumbers in Eq. destruct (qn_sm q) as [|cu [|cd [|i [|? ?]]]] eqn:E1; try discriminate Eq. destruct (qn_charges q) as [|[kb b] [|[ky y] [|? ?]]] eqn:E2; try discriminate Eq.
    apply ok_inj in Eq. subst s. exists cu, cd, i, kb, b, ky, y. auto.
  - apply sort_perm.
  - apply sort_sorted; [exact str_leb_total|exact str_leb_trans].
Qed.

(** ** The whole text *)

Section Whole.
  Variables (c : comp) (op' : cop) (p' : ptree (cfield * N)) (ts' : list cop).
  Hypothesis W : writable_completion c.
  Hypothesis Ho : operator_back (co_operator c) op'.
  Hypothesis Hp : tree_back (co_partition c) p'.
  Hypothesis Ht : Forall2 operator_back (co_terms c) ts'.

  Lemma whole_reads : exists g' xs, let c' := mkComp (co_name c) op' p' g' xs ts' (co_topology c) in completion_back c c' /\
    forall is_lazy s, export_completion c is_lazy = Ok s ->
      (is_lazy = false -> reads 0 s (VComp c')) /\
      (is_lazy = true -> exists m, reads 0 s (VLazy m (Some (co_topology c))) /\ head_of c m /\
         (Forall (fun x => inert (f_latex (i_field (cf_if x)))) (co_exotics c) -> reads 0 (lz_tail m) (VComp c'))).
  Proof.
    destruct (operator_reads _ _ Ho) as (so & Eo & Ro & Do). destruct (wc_partition c W) as (l & El).
    pose proof Hp as Hp'. rewrite El in Hp'. destruct (export_partition_reads l p' Hp') as (sp & Ep & Rp & Qp). rewrite <- El in Ep.
    destruct (graph_reads (co_graph c) (wc_graph c W)) as (g' & Rg & Sg & Qg).
    destruct (terms_read _ _ Ht) as (st & Et & Rt & Dt).
    destruct (exotics_ok _ (wc_exotics c W)) as (m & Em & Im & Sm).
    assert (Fm : Forall exportable m).
    { apply Forall_forall. intros x I. pose proof (wc_exotics c W) as F. rewrite Forall_forall in F. exact (proj1 (F x (Im x I))). }
    assert (Bm : forall x, In x m -> backslashed (latex_of x)).
    { intros x I. pose proof (wc_exotics c W) as F. rewrite Forall_forall in F. exact (proj2 (F x (Im x I))). }
    set (xs := nodup_by cfield_eqb (map (fun x => reread (latex_of x) x) m)) in *.
    exists g', xs. cbv zeta. split; [constructor; try reflexivity; assumption|].
    intros is_lazy s E. unfold export_completion in E. rewrite Eo in E. cbn [bind] in E. cbv zeta in E. rewrite Ep in E. cbn [bind] in E. rewrite Et in E. cbn [bind] in E.
    rewrite Em in E. cbn [bind] in E. apply bind_ok in E as (qns & Eq & E). apply bind_ok in E as (pt & Ept & E). apply ok_inj in E.
    pose proof (exotics_reads (fun x => double (latex_of x)) latex_of m Fm (fun x I => double_denotes squote _ (Bm x I))) as Rx. fold xs in Rx.
    split; intros ->; subst s.
    - exact (eager_reads (co_name c) so sp (export_graph (co_graph c)) _ st (co_topology c) op' p' g' xs ts' (wc_name c W) (wc_topology c W) Ro Rp Rg Rx Rt).
    - destruct (terms_spelled _ _ _ Ht Ept) as [Sp Pt].
      exists (mkLazy qns (co_name c) pt (eager_text (co_name c) so sp (export_graph (co_graph c)) (exotics_text latex_of m) st (co_topology c))). split; [|split].
      + apply lazy_reads; [exact (wc_name c W)|exact (wc_topology c W)|eapply qnumbers_plain; exact Eq|exact Pt|].
        apply eager_denotes; [exact (wc_name c W)|exact (wc_topology c W)|exact Do|exact Qp|exact Qg| |exact Dt].
        apply exotics_denotes; [exact Fm|]. intros x I. apply double_denotes, Bm, I.
      + constructor; cbn [lz_operator lz_quantum_numbers lz_terms]; [reflexivity|now apply numbers_spelled|exact Sp].
      + intros Fi. cbn [lz_tail]. apply eager_reads; [exact (wc_name c W)|exact (wc_topology c W)|exact Ro|exact Rp|exact Rg| |exact Rt].
        unfold xs. apply (exotics_reads latex_of latex_of m Fm). intros x I. apply inert_denotes. rewrite Forall_forall in Fi. apply Fi, Im, I.
  Qed.
End Whole.
