(** * PropsPartition4: property C75: labels of external edges *)

From Coq Require Import Ascii String List Bool Arith ZArith NArith Lia Permutation.
From Verif Require Import Base BaseFacts Show ModelIndex ModelField ModelContract ModelPartition SpecPartition PropsPartition
  PropsPartition3.
From Verif Require Spec.
Import ListNotations.
Local Open Scope nat_scope.

Section External.
  Variable A : Type.
  Variable label : A -> str.
  Variable counter : A -> nat.
  Variable counter_of : A -> res nat.

  Definition on_edge (n : N) (e : N * N) : Prop := n = fst e \/ n = snd e.

  Lemma touches_spec n e : touches n e = true <-> on_edge n e.
  Proof. unfold touches, on_edge. now rewrite orb_true_iff, !N.eqb_eq. Qed.

  Lemma node_dictionary_ok (t : template A) fs :
    (forall f, In f fs -> counter_of f = Ok (counter f)) ->
    (forall x, In x (leaves_of t) -> exists f, In f fs /\ fst x = Placed f) -> NoDup (map snd (leaves_of t)) ->
    exists d, node_dictionary A label counter_of t = Ok d /\
      forall n s, In (n, s) d <-> exists f, In (Placed f, n) (leaves_of t) /\ s = label f ++ show_nat (counter f).
  Proof.
    intros Hc Hp Nd. unfold node_dictionary. rewrite leaf_list_of. set (l := leaves_of t) in *. clearbody l.
    assert (G : forall done d, NoDup (map snd (done ++ l)) -> NoDup (keys d) -> (forall x, In x l -> exists f, In f fs /\ fst x = Placed f) ->
      (forall n s, In (n, s) d <-> exists f, In (Placed f, n) done /\ s = label f ++ show_nat (counter f)) ->
      exists d', foldM (fun d x => match x with
                      | (Open _, _) => Err AttributeError
                      | (Placed f, n) => do s <- particle A label counter_of f; Ok (dset N.eqb d n s)
                      end) l d = Ok d' /\ forall n s, In (n, s) d' <-> exists f, In (Placed f, n) (done ++ l) /\ s = label f ++ show_nat (counter f)).
    { clear Nd Hp. induction l as [|[s n] l IH]; intros done d Nd Nk Hp Hd; cbn [foldM].
      - exists d. split; [reflexivity|]. now rewrite app_nil_r.
      - destruct (Hp (s, n) (or_introl eq_refl)) as (f & If & Es). cbn [fst] in Es. subst s. unfold particle. rewrite (Hc f If). cbn [bind].
        replace (done ++ (Placed f, n) :: l) with ((done ++ [(Placed f, n)]) ++ l) in * by now rewrite <- app_assoc. apply IH; [exact Nd|now apply (NoDup_keys_dset N_decides)|intros; apply Hp; now right|].
        assert (Nn : ~ In n (keys d)).
        { intros I. unfold keys in I. apply in_map_iff in I as ([n' s'] & En & I). cbn in En. subst n'. apply Hd in I as (f' & I & _). rewrite !map_app in Nd. cbn [map snd] in Nd. rewrite <- app_assoc in Nd. cbn in Nd. apply NoDup_remove_2 in Nd.
          apply Nd, in_or_app. left. apply in_map_iff. exists (Placed f', n). auto. }
        assert (Ed : forall v : str, dset N.eqb d n v = d ++ [(n, v)]).
        { intros v0. clear - Nn. induction d as [|[k v] d IHd]; [reflexivity|]. cbn [dset]. destruct (N.eqb_spec n k) as [-> | _]; [exfalso; apply Nn; now left|]. rewrite IHd; [reflexivity|]. intros I. apply Nn. now right. }
        intros n' s'. match goal with |- context [In _ ?x] => match x with dset _ _ _ ?v => change x with (dset N.eqb d n v); rewrite (Ed v) end end. rewrite in_app_iff, Hd. split.
        + intros [(f' & I & ->)|[[= <- <-]|[]]]; [exists f'; split; [apply in_or_app; auto|auto]|exists f; split; [apply in_or_app; right; now left|auto]].
        + intros (f' & I & ->). apply in_app_iff in I as [I|[[= <- <-]|[]]]; [left; eauto|right; now left]. }
    destruct (G [] []) as (d & E & H); cbn [app]; auto; [constructor|intros n s; split; [intros []|intros (f & [] & _)]|]. exists d. auto.
  Qed.

  (** C75: an edge that ends in exactly one external node gets the label and the counter of the field there, an edge
      between internal nodes gets none *)
  Theorem C75_external (t : template A) fs edges :
    (forall f, In f fs -> counter_of f = Ok (counter f)) ->
    (forall x, In x (leaves_of t) -> exists f, In f fs /\ fst x = Placed f) -> NoDup (map snd (leaves_of t)) ->
    exists out, set_external_fields A label counter_of t edges = Ok out /\
      forall e, In e edges ->
        (forall f n, In (Placed f, n) (leaves_of t) -> on_edge n e -> (forall x, In x (leaves_of t) -> on_edge (snd x) e -> snd x = n) ->
           forall s, In (e, s) out <-> s = label f ++ show_nat (counter f)) /\
        ((forall x, In x (leaves_of t) -> ~ on_edge (snd x) e) -> forall s, ~ In (e, s) out).
  Proof.
    intros Hc Hp Nd. destruct (node_dictionary_ok t fs Hc Hp Nd) as (d & Ed & Hd). unfold set_external_fields. rewrite Ed. cbn [bind]. eexists. split; [reflexivity|].
    intros e Ie.
    assert (Mem : forall s, In (e, s) (flat_map (fun e => match filter (fun a => touches (fst a) e) d with [] => [] | l => [(e, snd (last l (0%N, [])))] end) edges) <->
        exists a, filter (fun a => touches (fst a) e) d <> [] /\ a = last (filter (fun a => touches (fst a) e) d) (0%N, []) /\ s = snd a).
    { intros s. rewrite in_flat_map. split.
      - intros (e' & _ & H). destruct (filter (fun a => touches (fst a) e') d) as [|x l] eqn:El; [destruct H|]. destruct H as [[= -> <-]|[]]. exists (last (x :: l) (0%N, [])). rewrite El. split; [discriminate|]. auto.
      - intros (a & Ne & -> & ->). exists e. split; [exact Ie|]. destruct (filter (fun a => touches (fst a) e) d) as [|x l]; [congruence|]. now left. }
    split.
    - intros f n In_ On Un s. rewrite Mem.
      assert (All : forall a, In a (filter (fun a => touches (fst a) e) d) -> snd a = label f ++ show_nat (counter f)).
      { intros [n' s'] I. apply filter_In in I as [I T]. cbn [fst] in T. apply touches_spec in T. apply Hd in I as (f' & I & ->). cbn [snd]. pose proof (Un _ I T) as E. cbn in E. subst n'.
        assert (Eq : f' = f). { assert (H : (Placed f', n) = (Placed f, n)); [|congruence]. clear - I In_ Nd. induction (leaves_of t) as [|x l IH]; [destruct I|]. cbn [map] in Nd. apply NoDup_cons_iff in Nd as [N1 N2].
          destruct I as [-> | I], In_ as [E|J]; [exact E| | |now apply IH].
          - exfalso. apply N1. cbn. apply in_map_iff. exists (Placed f, n). auto.
          - exfalso. apply N1. subst x. cbn. apply in_map_iff. exists (Placed f', n). auto. }
        now subst. }
      assert (Ne : filter (fun a => touches (fst a) e) d <> []).
      { assert (I : In (n, label f ++ show_nat (counter f)) (filter (fun a => touches (fst a) e) d)) by (apply filter_In; split; [apply Hd; eauto|now apply touches_spec]). intros Z. rewrite Z in I. destruct I. }
      assert (La : forall d0 (l : list (N * str)), l <> [] -> In (last l d0) l).
      { clear. intros d0 l. induction l as [|x [|y l] IH]; intros H; [congruence|now left|]. right. apply IH. discriminate. }
      split.
      + intros (a & _ & -> & ->). apply All, La, Ne.
      + intros ->. eexists. split; [exact Ne|]. split; [reflexivity|]. symmetry. apply All, La, Ne.
    - intros No s H. apply Mem in H as (a & Ne & _). apply Ne. clear - No Hd. 
      destruct (filter (fun a => touches (fst a) e) d) as [|[n s] l] eqn:E; [reflexivity|]. exfalso. assert (I : In (n, s) (filter (fun a => touches (fst a) e) d)) by (rewrite E; now left).
      apply filter_In in I as [I T]. apply touches_spec in T. apply Hd in I as (f & I & _). exact (No _ I T).
  Qed.
End External.

Example C75_example :
  set_external_fields nat (fun n => lit (if n =? 1 then "L" else "H")) Ok
    (Tp [Tp [Lf (Placed 1, 4%N); Lf (Placed 2, 5%N)]; Lf (Placed 3, 6%N)]) [(4, 7); (5, 7); (7, 8); (6, 8)]%N =
  Ok [((4%N, 7%N), lit "L1"); ((5%N, 7%N), lit "H2"); ((6%N, 8%N), lit "H3")].
Proof. reflexivity. Qed.

Print Assumptions C75_external.
