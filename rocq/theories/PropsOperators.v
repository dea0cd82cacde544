(** * PropsOperators: completions of an operator from start to end (C88) *)

From Coq Require Import Ascii String List Bool Arith ZArith NArith QArith Qcanon Lia Permutation.
From Verif Require Import Base BaseFacts Show ModelFunctions ModelIndex SpecIndex ProofsIndex ModelField SpecField ProofsField ModelContract SpecContract ProofsContract PropsContract
  ModelPartition SpecPartition PropsPartition PropsPartition2 PropsPartition3 PropsPartition4 DataTopology PropsTopology
  ModelExotic SpecExotic ProofsExotic PropsExotic PropsExotic2 SpecCompletion PropsCompletion ModelInfo ModelOperators SpecOperators ProofsOperators.
Import ListNotations.
Local Open Scope nat_scope.

(** ** Distinct fields *)

Lemma distinct_eq l : distinct_fields l -> forall f g, In f l -> In g l -> (ifield_eqb f g = true <-> f = g).
Proof.
  intros [R P]. rewrite Forall_forall in R. intros f g If Ig. split; [|intros <-; now apply R].
  revert f g If Ig. clear R. induction P as [|x l F P IH]; intros f g If Ig E; [destruct If|]. rewrite Forall_forall in F.
  destruct If as [<- | If], Ig as [<- | Ig]; auto; [destruct (F g Ig); congruence|destruct (F f If); congruence].
Qed.

Lemma distinct_nodup l : distinct_fields l -> NoDup l.
Proof.
  intros [R P]. rewrite Forall_forall in R. induction P as [|x l F P IH]; constructor.
  - intros I. rewrite Forall_forall in F. destruct (F x I) as [E _]. rewrite R in E by (now left). discriminate.
  - apply IH. intros y I. apply R. now right.
Qed.

Lemma arrangement_perm {A} (isb : A -> bool) l l' t t' : Permutation l l' -> arrangement A isb l t t' -> arrangement A isb l' t t'.
Proof. intros P (M & F & Q). split; [exact M|]. split; [exact F|]. now rewrite <- P. Qed.

Lemma distributed_iff {A} (isb : A -> bool) feqb fields t t' :
  (forall f g, In f fields -> In g fields -> feqb f g = true -> f = g) ->
  slots A t (List.length (filter isb fields)) (List.length (filter (fun f => negb (isb f)) fields)) ->
  (In t' (distribute_fields A isb feqb fields t) <-> arrangement A isb fields t t').
Proof.
  intros D Sl. split; [now apply distributed|]. intros Ar.
  assert (Same : forall x y, arrangement A isb fields t x -> arrangement A isb fields t y -> ptree_eqb A feqb x y = true -> x = y).
  { intros x y (Mx & Fx & Px) (My & Fy & Py) E. apply (ptree_eqb_alike A isb feqb) in E as [E1 E2]. apply (tree_determined snd); [exact E1|].
    assert (Ex : tree_map snd x = tree_map snd y) by exact E1. clear E1.
    assert (Sx : map snd (leaves_of x) = map snd (leaves_of y)) by (rewrite <- !leaves_map; now rewrite Ex).
    assert (Ix : forall f n, In (Placed f, n) (leaves_of x) -> In f fields).
    { intros f n I. eapply Permutation_in; [apply Permutation_sym, Px|]. apply in_flat_map. exists (Placed f, n). split; [exact I|now left]. }
    assert (Iy : forall f n, In (Placed f, n) (leaves_of y) -> In f fields).
    { intros f n I. eapply Permutation_in; [apply Permutation_sym, Py|]. apply in_flat_map. exists (Placed f, n). split; [exact I|now left]. }
    clear Mx Fx Px My Fy Py Ex. induction E2 as [|[s n] [s' n'] l l' H E2 IH]; [reflexivity|]. cbn [map] in Sx. cbn [snd] in Sx. injection Sx as -> Sx. cbn [fst] in H.
    f_equal; [|apply IH; [exact Sx|intros f m I; eapply Ix; right; exact I|intros f m I; eapply Iy; right; exact I]].
    destruct s as [c|f], s' as [c'|f']; [now subst|destruct H|destruct H|]. assert (f = f') as -> by (apply D; [eapply Ix; now left|eapply Iy; now left|exact H]). reflexivity. }
  unfold distribute_fields. apply (distribute_arrangements A isb fields t Sl) in Ar as Ar'. destruct Ar' as (p & Ip & Ep).
  assert (I : In t' (map (fun fields => replace_fields A isb fields t) (permutations fields))) by (rewrite Ep; now apply (in_map (fun fields => replace_fields A isb fields t))).
  assert (Al : forall x, In x (map (fun fields => replace_fields A isb fields t) (permutations fields)) -> arrangement A isb fields t x).
  { intros x Ix. apply in_map_iff in Ix as (q & <- & Iq). apply (distribute_arrangements A isb fields t Sl). eauto. }
  clear Ep Ip p. revert I Al. generalize (map (fun fields => replace_fields A isb fields t) (permutations fields)). intros l.
  induction l as [|x l IH]; intros I Al; [destruct I|]. cbn [nodup_by].
  destruct I as [-> | I]; [now left|]. destruct (ptree_eqb A feqb x t') eqn:E.
  - left. apply Same; [apply Al; now left|exact Ar|exact E].
  - right. apply filter_In. split; [|now rewrite E]. apply IH; [exact I|intros y J; apply Al; now right].
Qed.

(** ** Labels of the edges *)

Lemma same_edge_spec e e' : same_edge e e' = true <-> e' = e \/ e' = (snd e, fst e).
Proof.
  unfold same_edge. destruct e as [a b], e' as [c d]. cbn [fst snd]. rewrite orb_true_iff, !andb_true_iff, !N.eqb_eq. split.
  - intros [[-> ->]|[-> ->]]; auto.
  - intros [[= -> ->]|[= -> ->]]; auto.
Qed.

Lemma pair_eqb_decides : decides pair_eqb.
Proof. intros [a b] [c d]. unfold pair_eqb. cbn [fst snd]. rewrite andb_true_iff, !N.eqb_eq. split; [intros [-> ->]; reflexivity|intros [= -> ->]; auto]. Qed.

(** the edges of different exotic fields are different *)
Lemma dset_edges (d : list (cfield * (N * N))) x e : NoDup (map snd d) -> ~ In e (map snd d) ->
  NoDup (map snd (dset cfield_eqb d x e)) /\ (forall e', In e' (map snd (dset cfield_eqb d x e)) -> e' = e \/ In e' (map snd d)).
Proof.
  induction d as [|[y e0] d IH]; intros N I; cbn [dset map snd].
  - split; [constructor; [intros []|constructor]|]. intros e' [<-|[]]. now left.
  - cbn [map snd] in N, I. apply NoDup_cons_iff in N as [N1 N2]. destruct (cfield_eqb x y); cbn [map snd].
    + split; [constructor; [intros J; apply I; now right|exact N2]|]. intros e' [<-|J]; [now left|right; now right].
    + destruct (IH N2) as [H1 H2]; [intros J; apply I; now right|]. split.
      * constructor; [|exact H1]. intros J. apply H2 in J as [->|J]; [apply I; now left|contradiction].
      * intros e' [<-|J]; [right; now left|]. apply H2 in J as [->|J]; [now left|right; now right].
Qed.

Lemma exotic_edges (exotics : list cfield) (es : list (N * N)) : NoDup es ->
  let labelled := fold_left (fun d x => dset cfield_eqb d (fst x) (snd x)) (combine exotics es) [] in
  NoDup (map snd labelled) /\ forall e, In e (map snd labelled) -> In e es.
Proof.
  intros Nd. assert (G : forall (exotics : list cfield) (es : list (N * N)) (d : list (cfield * (N * N))), NoDup (map snd d) -> NoDup es -> (forall e, In e (map snd d) -> ~ In e es) ->
    NoDup (map snd (fold_left (fun d x => dset cfield_eqb d (fst x) (snd x)) (combine exotics es) d)) /\
    forall e, In e (map snd (fold_left (fun d x => dset cfield_eqb d (fst x) (snd x)) (combine exotics es) d)) -> In e es \/ In e (map snd d)).
  { clear. induction exotics as [|x xs IH]; intros [|e es] d N Ne Di; cbn [combine fold_left fst snd]; auto. apply NoDup_cons_iff in Ne as [Ne1 Ne2].
    destruct (dset_edges d x e N) as [H1 H2]; [intros I; apply (Di e I); now left|].
    destruct (IH es (dset cfield_eqb d x e) H1 Ne2) as [I1 I2].
    - intros e' I. apply H2 in I as [->|I]; [exact Ne1|]. intros J. apply (Di e' I). now right.
    - split; [exact I1|]. intros e' I. apply I2 in I as [I|I]; [left; now right|]. apply H2 in I as [->|I]; [left; now left|now right]. }
  destruct (G exotics es [] (NoDup_nil _) Nd) as [H1 H2]; [intros e []|]. split; [exact H1|]. intros e I. apply H2 in I as [I|[]]. exact I.
Qed.

Lemma attrs_map {V} (l : list (V * (N * N))) (h : V -> str) : NoDup (map snd l) ->
  fold_left (fun d kv => dset pair_eqb d (snd kv) (h (fst kv))) l [] = map (fun kv => (snd kv, h (fst kv))) l.
Proof.
  assert (G : forall (l : list (V * (N * N))) (acc : list (N * N * str)), NoDup (map fst acc ++ map snd l) -> fold_left (fun d kv => dset pair_eqb d (snd kv) (h (fst kv))) l acc = acc ++ map (fun kv => (snd kv, h (fst kv))) l).
  { clear l. induction l as [|[v e] l IH]; intros acc N; cbn [fold_left map fst snd]; [now rewrite app_nil_r|].
    assert (E : dset pair_eqb acc e (h v) = acc ++ [(e, h v)]).
    { cbn [map snd] in N. apply NoDup_remove_2 in N. assert (Ni : ~ In e (map fst acc)) by (intros I; apply N, in_app_iff; now left). clear - Ni.
      induction acc as [|[e' s] acc IH]; [reflexivity|]. cbn [dset app]. cbn [map fst] in Ni. rewrite (decides_neq pair_eqb_decides); [f_equal; apply IH; intros I; apply Ni; now right|intros ->; apply Ni; now left]. }
    rewrite E. rewrite IH; [now rewrite <- app_assoc|]. rewrite map_app. cbn [map fst]. rewrite <- app_assoc. exact N. }
  intros N. rewrite G by exact N. reflexivity.
Qed.

Lemma particles_app (g : graph) (new : list (N * N * str)) : forall old,
  (forall x, In x new -> exists e, In e g /\ same_edge (fst x) e = true) ->
  (forall x y, In x new -> In y old -> same_edge (fst x) (fst y) = false) ->
  ForallOrdPairs (fun x y => same_edge (fst y) (fst x) = false) new ->
  fold_left (set_particle g) new old = old ++ new.
Proof.
  induction new as [|x new IH]; intros old He Ho Hn; cbn [fold_left]; [now rewrite app_nil_r|].
  assert (E : set_particle g old x = old ++ [x]).
  { unfold set_particle. assert (X : existsb (same_edge (fst x)) g = true) by (destruct (He x) as (e & Ie & S); [now left|]; apply existsb_exists; eauto). rewrite X.
    assert (Hx : forall y, In y old -> same_edge (fst x) (fst y) = false) by (intros y J; apply Ho; [now left|exact J]). clear - Hx.
    induction old as [|[e s] old IH]; cbn [dset app]; [now destruct x|]. pose proof (Hx (e, s) (or_introl eq_refl)) as Hq. cbn [fst] in Hq. rewrite Hq. f_equal. apply IH. intros y J. apply Hx. now right. }
  rewrite E, IH.
  - now rewrite <- app_assoc.
  - intros y J. apply He. now right.
  - inversion Hn as [|? ? F Hn']; subst. rewrite Forall_forall in F. intros y z Jy Jz. apply in_app_iff in Jz as [Jz|[<-|[]]]; [apply Ho; [now right|exact Jz]|now apply F].
  - now inversion Hn.
Qed.

(** no edge of a shipped topology joins two external nodes *)
Definition apart_check (t : topology ifield) : bool :=
  forallb (fun e => negb (existsb (fun x => N.eqb (snd x) (fst e)) (leaves_of (t_partition t)) && existsb (fun x => N.eqb (snd x) (snd e)) (leaves_of (t_partition t)))) (t_graph t).

Lemma shipped_apart n m k tops t : In (n, m, k) kinds -> shipped n m = Ok tops -> In t tops ->
  forall e x y, In e (t_graph t) -> In x (leaves_of (t_partition t)) -> In y (leaves_of (t_partition t)) -> snd x = fst e -> snd y = snd e -> False.
Proof.
  assert (C : forallb (fun x => match shipped (fst (fst x)) (snd (fst x)) with Ok tops => forallb apart_check tops | Err _ => false end) kinds = true) by (vm_compute; reflexivity).
  intros Ik Es It. rewrite forallb_forall in C. specialize (C _ Ik). cbn [fst snd] in C. rewrite Es in C. rewrite forallb_forall in C. specialize (C t It).
  intros e x y Ie Ix Iy Ex Ey. unfold apart_check in C. rewrite forallb_forall in C. specialize (C e Ie). apply negb_true_iff, andb_false_iff in C as [C|C].
  - assert (existsb (fun x => N.eqb (snd x) (fst e)) (leaves_of (t_partition t)) = true) by (apply existsb_exists; exists x; split; [exact Ix|now apply N.eqb_eq]). congruence.
  - assert (existsb (fun x => N.eqb (snd x) (snd e)) (leaves_of (t_partition t)) = true) by (apply existsb_exists; exists y; split; [exact Iy|now apply N.eqb_eq]). congruence.
Qed.

Lemma external_edges A (label : A -> str) counter_of t edges out : set_external_fields A label counter_of t edges = Ok out -> forall e s, In (e, s) out -> In e edges.
Proof.
  intros E e s I. unfold set_external_fields in E. apply bind_ok in E as (d & _ & E). cbv beta in E. injection E as <-. apply in_flat_map in I as (e' & Ie & I).
  destruct (filter (fun a => touches (fst a) e') d) as [|z l]; [destruct I|]. destruct I as [[= -> _]|[]]. exact Ie.
Qed.

(** ** One partition *)

Definition number_of (fc : list (ifield * nat)) (f : ifield) : res nat := match dget ifield_eqb fc f with Some n => Ok n | None => Err KeyError end.

Lemma placed_rows rows : map placed_tree (map (tree_map place) rows) = map (embed cfield) (map (tree_map as_plain) rows).
Proof.
  rewrite !map_map. apply map_ext. intros t. unfold embed. rewrite tree_map_map. induction t as [[f n]|l IH] using ptree_ind'; [reflexivity|].
  cbn [tree_map placed_tree]. f_equal. rewrite map_map. induction IH as [|t l Ht IH IHl]; [reflexivity|]. cbn [map]. now rewrite Ht, IHl.
Qed.

Lemma spec_rows rows : map (embed cfield) (map (tree_map as_plain) rows) = map (tree_map (fun x : ifield * N => (inl (mkCF Plain (fst x)), Some (snd x)))) rows.
Proof. rewrite map_map. apply map_ext. intros t. unfold embed. now rewrite tree_map_map. Qed.

Lemma numbers_ok op fc f : distinct_fields (indexed_fields op) -> Permutation (keys fc) (indexed_fields op) -> In f (indexed_fields op) ->
  exists k, number_of fc f = Ok k /\ forall k', In (f, k') fc <-> k' = k.
Proof.
  intros D P I. pose proof (distinct_eq _ D) as Eq. assert (Nd : NoDup (keys fc)) by (eapply Permutation_NoDup; [apply Permutation_sym, P|now apply distinct_nodup]).
  assert (Il : forall g, In g (keys fc) -> In g (indexed_fields op)) by (intros g J; eapply Permutation_in; [exact P|exact J]).
  assert (If : In f (keys fc)) by (eapply Permutation_in; [apply Permutation_sym, P|exact I]). clear P. unfold number_of.
  induction fc as [|[g k] fc IH]; [destruct If|]. cbn [dget keys map fst] in *. apply NoDup_cons_iff in Nd as [N1 N2].
  destruct (ifield_eqb f g) eqn:E.
  - apply Eq in E; [|exact I|apply Il; now left]. subst g. exists k. split; [reflexivity|]. intros k'. split; [|intros ->; now left]. intros [[= ->]|J]; [reflexivity|].
    exfalso. apply N1. apply in_map_iff. exists (f, k'). auto.
  - destruct If as [<- | If]; [assert (X : ifield_eqb g g = true) by (apply Eq; auto); congruence|]. destruct (IH N2) as (k0 & E0 & H0); [intros h J; apply Il; now right|exact If|].
    exists k0. split; [exact E0|]. intros k'. rewrite <- H0. split; [|intros J; now right]. intros [[= -> ->]|J]; [|exact J].
    exfalso. assert (X : ifield_eqb f f = true) by (apply Eq; auto). congruence.
Qed.

Lemma partition_ok vanishes n op nb nf k fc tops t perm r ss :
  colour_open n op -> In (nb, nf, k) kinds -> shipped nb nf = Ok tops -> In t tops ->
  Permutation (keys fc) (indexed_fields op) ->
  List.length (filter boson_field (indexed_fields op)) = nb -> List.length (filter (fun f => negb (boson_field f)) (indexed_fields op)) = nf ->
  arrangement ifield boson_field (indexed_fields op) (t_partition t) perm ->
  r = op ++ map TSymbol ss -> contracted_type Colour op r -> invariant_operator (plain_fields op) (epsilons op ++ ss) ->
  exists attrs, set_external_fields ifield (fun f => f_label (i_field f)) (number_of fc) perm (t_graph t) = Ok attrs /\
  exists y, partition_completion vanishes (mkPart r perm (epsilons r) (t_graph t) attrs (stem_of (t_file t))) = Ok y /\
    match y with
    | inl _ => fails_from vanishes r t perm
    | inr c => made_from vanishes r t perm c /\ Forall good_term (cm_terms c) /\ accounts_for (plain_fields op) (cm_terms c) (cm_exotics c) /\ closed (cm_operator c) /\ diagram fc c
    end.
Proof.
  intros O Ik Es It Pk Hb Hf Ar -> Ct Inv.
  destruct (C37_shipped nb nf k Ik) as (tops' & Es' & _ & W). rewrite Es in Es'. injection Es' as <-.
  destruct (W t It) as (rows0 & ns & es & Er & Len & Sl & J & _ & Nn & One & Ne & Hes & _).
  pose proof (oo_distinct n op O) as Ds. pose proof (distinct_eq _ Ds) as Deq.
  assert (Sl' : slots ifield (t_partition t) (List.length (filter boson_field (indexed_fields op))) (List.length (filter (fun f => negb (boson_field f)) (indexed_fields op)))) by (now rewrite Hb, Hf).
  assert (Iperm : In perm (distribute_fields ifield boson_field ifield_eqb (indexed_fields op) (t_partition t))) by (apply distributed_iff; [intros f g If Ig; now apply Deq|exact Sl'|exact Ar]).
  assert (Bo : forall f, In f (indexed_fields op) -> is_boson (i_field f) = Ok (boson_field f)).
  { intros f If. pose proof (oo_legit n op O) as L. rewrite Forall_forall in L. pose proof (is_boson_ok _ (L (mkCF Plain f) (in_map _ _ _ If))) as E. cbn [cf_if] in E. unfold boson_field. now rewrite E. }
  destruct (C76_shipped nb nf k tops t (indexed_fields op) boson_field ifield_eqb perm vanishes (epsilons op ++ ss) Ik Es It Inv Bo Hb Hf Iperm) as (us & Ep & res & st & Ec & Good).
  destruct Ar as (M & F & Pf).
  assert (Leaf : map snd (leaves_of perm) = map snd (leaves_of (t_partition t))) by (rewrite <- !leaves_map; now rewrite M).
  assert (Inl : forall f m, In (Placed f, m) (leaves_of perm) -> In f (indexed_fields op)).
  { intros f m I. eapply Permutation_in; [apply Permutation_sym, Pf|]. apply in_flat_map. exists (Placed f, m). split; [exact I|now left]. }
  set (cnt := fun f => match number_of fc f with Ok m => m | Err _ => 0 end).
  destruct (C75_external ifield (fun f => f_label (i_field f)) cnt (number_of fc) perm (indexed_fields op) (t_graph t)) as (attrs & Ea & Ha).
  { intros f If. destruct (numbers_ok op fc f Ds Pk If) as (m & Em & _). unfold cnt. now rewrite Em. }
  { intros x Ix. clear - F Ix Inl. assert (G : exists f, fst x = Placed f). { clear Inl. induction F as [|a b l l' (f & _ & ->) F IH]; [destruct Ix|]. destruct Ix as [<- | Ix]; [exists f; reflexivity|now apply IH]. }
    destruct G as (f & Ef). exists f. split; [|exact Ef]. destruct x as [s m]. cbn in Ef. subst. eapply Inl. exact Ix. }
  { now rewrite Leaf. }
  exists attrs. split; [exact Ea|].
  pose proof (normal_app op ss (oo_normal n op O)) as Nr.
  unfold partition_completion. cbn [pt_partition pt_epsilons pt_graph pt_operator pt_particles pt_topology]. rewrite Ep, placed_rows, epsilons_symbols, Ec. cbn [bind fst].
  destruct res as [reason|[[terms labelled] lor]].
  { eexists. split; [reflexivity|]. exists us, reason, st. rewrite <- Ep. split; [exact Ep|]. now rewrite <- spec_rows, epsilons_symbols. }
  destruct (Good terms labelled lor eq_refl) as (G1 & G2 & G3 & G4). eexists. split; [reflexivity|]. rewrite fold_op_mul by exact Nr.
  cbn [cm_terms cm_exotics cm_operator].
  split; [|split; [exact G1|split; [exact G4|split]]].
  - split; [reflexivity|]. split; [reflexivity|]. split; [reflexivity|]. exists us, labelled, lor, st. cbn [cm_terms cm_exotics cm_operator]. split; [reflexivity|].
    split; [now rewrite <- spec_rows, epsilons_symbols|]. split; [reflexivity|]. split; [reflexivity|]. split; [exact G2|]. rewrite fields_symbols. exact G3.
  - destruct G3 as (L1 & L2 & L3). destruct Ct as (_ & Pr & _).
    assert (V : forall i, In i (vertex_indices (plain_fields op) (epsilons op ++ ss)) <-> In i (op_indices (op ++ map TSymbol ss))).
    { intros i. unfold vertex_indices. rewrite indices_symbols, (indices_halves op (oo_normal n op O)), flat_map_app, app_assoc. reflexivity. }
    assert (Sp : forall i, In i (op_indices (op ++ map TSymbol ss)) -> ix_type i = Undotted \/ ix_type i = Dotted -> In i (flat_map indices_of (plain_fields op)) /\ ix_up i = true).
    { intros i I T. assert (If : In i (flat_map indices_of (plain_fields op))).
      { apply V in I. unfold vertex_indices in I. apply in_app_iff in I as [I|I]; [exact I|]. exfalso. apply in_flat_map in I as (e & Ie & I). pose proof (cn_gauge _ _ (io_contractible _ _ Inv)) as Gs.
        rewrite Forall_forall in Gs. destruct (Gs e Ie) as (_ & [H|[_ H]]); [specialize (H i I); destruct T; congruence|destruct (H i I) as [H1 _]; destruct T; congruence]. }
      split; [exact If|]. apply in_flat_map in If as (x & Ix & I'). pose proof (oo_legit n op O) as L. rewrite Forall_forall in L. destruct (L x Ix) as (_ & L' & _). apply L'; [exact I'|]. unfold su2_type. tauto. }
    split.
    + unfold proper_op. rewrite indices_symbols, map_app. apply NoDup_app_intro; [exact Pr|exact L1|]. intros s S1 S2. apply in_map_iff in S1 as (i & <- & I1). apply in_map_iff in S2 as (j & Sj & I2).
      destruct (L2 j I2) as (Tj & Uj & _). unfold slot in Sj. injection Sj as _ Tij Uij. destruct (Sp i I1) as [_ U]; [destruct Tj; [left|right]; congruence|]. congruence.
    + intros i [I Fi]. rewrite indices_symbols in I, Fi. apply in_app_iff in I as [I|I].
      * destruct (ix_type i) eqn:T; [| | | |reflexivity]; exfalso.
        -- destruct (Sp i I (or_introl T)) as [If _]. destruct (L3 i If (or_introl T)) as (j & Ij & C). apply (Fi j); [apply in_app_iff; now right|exact C].
        -- destruct (Sp i I (or_intror T)) as [If _]. destruct (L3 i If (or_intror T)) as (j & Ij & C). apply (Fi j); [apply in_app_iff; now right|exact C].
        -- destruct (io_matched _ _ Inv i) as (j & Ij & C); [now apply V|unfold gauge_type; tauto|]. apply (Fi j); [apply in_app_iff; left; now apply V|exact C].
        -- destruct (io_matched _ _ Inv i) as (j & Ij & C); [now apply V|unfold gauge_type; tauto|]. apply (Fi j); [apply in_app_iff; left; now apply V|exact C].
      * exfalso. destruct (L2 i I) as (_ & _ & _ & j & Ij & C). apply (Fi j); [|exact C]. apply in_app_iff. left. apply V. unfold vertex_indices. apply in_app_iff. now left.
  - assert (Jn : joins_all (t_graph t) (map (tree_map snd) (map (tree_map as_plain) us)) ns es).
    { rewrite Er, Ep in M. cbn [tree_map] in M. injection M as M. rewrite map_map in M. rewrite (map_ext _ (tree_map snd)) in M by (intros v; rewrite tree_map_map; now apply tree_map_ext).
      rewrite map_map. rewrite (map_ext _ (tree_map snd)) by (intros v; rewrite tree_map_map; now apply tree_map_ext). rewrite M. exact J. }
    assert (Lab : NoDup (map snd labelled) /\ forall e, In e (map snd labelled) -> In e es).
    { unfold completion in Ec. destruct (C37_labelled_edges _ _ _ _ _ _ _ _ _ _ _ _ _ _ _ _ _ Jn Ec) as (exotics & _ & ->). now apply exotic_edges. }
    destruct Lab as [La Lb].
    assert (Inner : forall xe, In xe labelled -> adjacent (t_graph t) (fst (snd xe)) (snd (snd xe)) /\ ~ In (snd (snd xe), fst (snd xe)) es /\ forall x, In x (leaves_of perm) -> ~ ends_in (snd x) (snd xe)).
    { intros [x [a b]] I. cbn [fst snd]. assert (Ie : In (a, b) es) by (apply Lb, in_map_iff; exists (x, (a, b)); auto). destruct (Hes a b Ie) as (H1 & H2 & H3 & H4). split; [exact H1|]. split; [exact H2|].
      intros y Iy [E|E]; cbn [fst snd] in E; [apply H3|apply H4]; rewrite <- Leaf, <- E; apply in_map, Iy. }
    assert (Ext : forall e s, In (e, s) attrs -> In e (t_graph t) /\ exists x, In x (leaves_of perm) /\ ends_in (snd x) e).
    { intros e s I. assert (Ie : In e (t_graph t)) by (eapply external_edges; [exact Ea|exact I]). split; [exact Ie|].
      destruct (existsb (fun x => touches (snd x) e) (leaves_of perm)) eqn:X.
      - apply existsb_exists in X as (x & Ix & T). exists x. split; [exact Ix|]. unfold touches in T. apply orb_true_iff in T. rewrite !N.eqb_eq in T. exact T.
      - exfalso. destruct (Ha e Ie) as [_ Hn]. apply (Hn) with (s := s); [|exact I]. intros x Ix On. assert (existsb (fun x => touches (snd x) e) (leaves_of perm) = true); [|congruence].
        apply existsb_exists. exists x. split; [exact Ix|]. unfold touches. apply orb_true_iff. rewrite !N.eqb_eq. exact On. }
    assert (Swap : forall m e e', (e' = e \/ e' = (snd e, fst e)) -> ends_in m e -> ends_in m e') by (intros m [a b] e' [-> | ->] [H|H]; cbn in *; unfold ends_in; cbn; auto).
    assert (Parts : fold_left (set_particle (t_graph t)) (fold_left (fun d kv => dset pair_eqb d (snd kv) (f_label (i_field (cf_if (fst kv))))) labelled []) attrs =
                    attrs ++ map (fun kv => (snd kv, f_label (i_field (cf_if (fst kv))))) labelled).
    { rewrite (attrs_map labelled (fun x => f_label (i_field (cf_if x)))) by exact La. apply particles_app.
      - intros x I. apply in_map_iff in I as ([y [a b]] & <- & I). cbn [fst snd]. destruct (Inner _ I) as ([H|H] & _); cbn [fst snd] in H; [exists (a, b)|exists (b, a)]; (split; [exact H|]); apply same_edge_spec; auto.
      - intros x y I Iy. apply in_map_iff in I as (z & <- & I). cbn [fst]. destruct (same_edge (snd z) (fst y)) eqn:X; [|reflexivity]. exfalso. apply same_edge_spec in X.
        destruct y as [e s]. cbn [fst] in X. destruct (Ext e s Iy) as (_ & w & Iw & Ew). destruct (Inner z I) as (_ & _ & H). apply (H w Iw). apply (Swap (snd w) e); [|exact Ew].
        destruct X as [-> | ->]; [now left|right]. destruct (snd z); reflexivity.
      - clear - La Lb Inner. assert (In' : forall xe, In xe labelled -> ~ In (snd (snd xe), fst (snd xe)) es) by (intros xe I; apply (Inner xe I)). clear Inner.
        induction labelled as [|[x e] l IH]; [constructor|]. cbn [map fst snd] in *. apply NoDup_cons_iff in La as [N1 N2]. constructor.
        + apply Forall_forall. intros y I. apply in_map_iff in I as ([x' e'] & <- & I). cbn [fst snd]. destruct (same_edge e' e) eqn:X; [|reflexivity]. exfalso. apply same_edge_spec in X as [-> | ->].
          * apply N1. apply in_map_iff. exists (x', e'). auto.
          * apply (In' (x', e')); [now right|]. cbn [fst snd]. apply Lb. now left.
        + apply IH; [exact N2|intros e' I; apply Lb; now right|intros xe I; apply In'; now right]. }
    unfold graph in *. rewrite Parts. constructor; cbn [cm_partition cm_particles cm_exotics cm_graph]; rewrite <- ?Ep.
    + intros f m v e Iv Ifm Ie On. assert (If : In f (indexed_fields op)) by (eapply Inl; exact Iv).
      assert (Ecnt : cnt f = m). { destruct (numbers_ok op fc f Ds Pk If) as (m0 & Em & Hm). unfold cnt. rewrite Em. symmetry. now apply Hm. }
      assert (Only : forall e', In e' (t_graph t) -> ends_in v e' -> forall x, In x (leaves_of perm) -> PropsPartition4.on_edge (snd x) e' -> snd x = v).
      { intros e' Ie' On' x Ix Ox.
        assert (Two : forall p q, In p (leaves_of perm) -> In q (leaves_of perm) -> snd p = fst e' -> snd q = snd e' -> False).
        { intros p q Ip Iq Hp Hq. assert (Tr : forall z, In z (leaves_of perm) -> exists z', In z' (leaves_of (t_partition t)) /\ snd z' = snd z).
          { intros z Iz. apply (in_map snd) in Iz. rewrite Leaf in Iz. apply in_map_iff in Iz as (z' & Ez & Iz). exists z'. auto. }
          destruct (Tr p Ip) as (p' & Ip' & Ep'). destruct (Tr q Iq) as (q' & Iq' & Eq'). apply (shipped_apart nb nf k tops t Ik Es It e' p' q'); auto; congruence. }
        unfold PropsPartition4.on_edge in Ox. destruct On' as [On'|On'], Ox as [Ox|Ox]; try congruence; exfalso.
        - apply (Two (Placed f, v) x); auto.
        - apply (Two x (Placed f, v)); auto. }
      destruct (Ha e Ie) as [He _]. split.
      * exists e. split; [now left|]. apply in_app_iff. left. apply (He f v Iv On (Only e Ie On)). now rewrite Ecnt.
      * intros e' s' Ee I'. apply in_app_iff in I' as [I'|I'].
        -- assert (Ie' : In e' (t_graph t)) by (eapply external_edges; [exact Ea|exact I']). assert (On' : ends_in v e') by (apply (Swap v e); assumption). destruct (Ha e' Ie') as [He' _].
           apply (He' f v Iv On' (Only e' Ie' On')) in I'. now rewrite Ecnt in I'.
        -- exfalso. apply in_map_iff in I' as (z & [= <- _] & Iz). destruct (Inner z Iz) as (_ & _ & H). apply (H (Placed f, v) Iv). cbn [snd]. apply (Swap v e); assumption.
    + intros e s Ie No I. apply in_app_iff in I as [I|I].
      * exfalso. destruct (Ext e s I) as (_ & x & Ix & Ox). now apply (No x Ix).
      * apply in_map_iff in I as (z & [= <- <-] & Iz). exists (fst z). split; [now apply in_map|reflexivity].
    + intros x Ix. apply in_map_iff in Ix as ([x' [a b]] & <- & Iz). cbn [fst]. destruct (Inner _ Iz) as (Adj & Nr' & No). cbn [fst snd] in Adj, Nr', No.
      assert (Lbl : forall e, (e = (a, b) \/ e = (b, a)) -> labelled_edge (attrs ++ map (fun kv => (snd kv, f_label (i_field (cf_if (fst kv))))) labelled) e (f_label (i_field (cf_if x')))).
      { intros e Ee. split.
        - exists (a, b). split; [destruct Ee as [-> | ->]; [now left|right; reflexivity]|]. apply in_app_iff. right. apply in_map_iff. exists (x', (a, b)). auto.
        - intros e' s' Ee' I'. assert (Ee'' : e' = (a, b) \/ e' = (b, a)) by (destruct Ee as [-> | ->], Ee' as [-> | ->]; cbn; auto). clear Ee Ee'. apply in_app_iff in I' as [I'|I'].
          + exfalso. destruct (Ext e' s' I') as (_ & y & Iy & Oy). apply (No y Iy). apply (Swap (snd y) e'); [|exact Oy]. destruct Ee'' as [-> | ->]; [now left|now right].
          + apply in_map_iff in I' as ([y e0] & [= -> <-] & Iy). cbn [fst snd]. destruct Ee'' as [-> | ->].
            * f_equal. f_equal. f_equal. clear - La Iz Iy. induction labelled as [|[z e] l IH]; [destruct Iz|]. cbn [map snd] in La. apply NoDup_cons_iff in La as [N1 N2].
              destruct Iz as [[= -> ->]|Iz], Iy as [E|Iy]; [congruence| | |now apply IH].
              -- exfalso. apply N1. apply in_map_iff. exists (y, (a, b)). auto.
              -- exfalso. injection E as -> ->. apply N1. apply in_map_iff. exists (x', (a, b)). auto.
            * exfalso. apply Nr'. apply Lb. apply in_map_iff. exists (y, (b, a)). auto. }
      destruct Adj as [Ad|Ad]; [exists (a, b)|exists (b, a)]; (split; [exact Ad|]); apply Lbl; auto.
Qed.

(** ** All partitions *)

Lemma mapM_each {A B} (f : A -> res B) (P : A -> B -> Prop) l : (forall x, In x l -> exists y, f x = Ok y /\ P x y) -> exists ys, mapM f l = Ok ys /\ Forall2 P l ys.
Proof.
  induction l as [|x l IH]; intros H; [exists []; split; [reflexivity|constructor]|]. destruct (H x) as (y & E & Py); [now left|]. destruct IH as (ys & Es & F); [intros z I; apply H; now right|].
  exists (y :: ys). cbn [mapM]. rewrite E. cbn [bind]. rewrite Es. cbn [bind]. split; [reflexivity|now constructor].
Qed.

Lemma Forall2_left {A B} (R : A -> B -> Prop) l l' : Forall2 R l l' -> forall x, In x l -> exists y, In y l' /\ R x y.
Proof. induction 1 as [|a b l l' H F IH]; intros x I; [destruct I|]. destruct I as [<- | I]; [exists b; split; [now left|exact H]|]. destruct (IH x I) as (y & Iy & Hy). exists y. split; [now right|exact Hy]. Qed.

(** C88: the completions of an operator.  Nothing raises; every topology, every arrangement of the fields on it and every
    colour contraction is tried and either fails with a reason or gives a completion; nothing else is returned.  In each
    completion every index is contracted, the terms are singlets, the fields are used once each, and the lines of the diagram
    have the right labels. *)
Theorem C88_completions : forall vanishes n op st nb nf k fc,
  colour_open n op -> n <= 5 -> n <> 3 -> (n = 2 -> forall i, In i (op_indices op) -> ix_name i <> fresh_name Colour (st Colour)) ->
  In (nb, nf, k) kinds -> topology_type op = Ok (nb, nf) ->
  List.length (filter boson_field (indexed_fields op)) = nb -> List.length (filter (fun f => negb (boson_field f)) (indexed_fields op)) = nf ->
  indexed_fields_with_counters op = Ok fc ->
  exists tops cops cs st',
    shipped nb nf = Ok tops /\ List.length tops = k /\
    colour_singlets true [op] st = Ok (cops, st') /\ List.length cops = fact n + (if n =? 2 then 1 else 0) /\ Forall (contracted_type Colour op) cops /\
    completions_of vanishes shipped op st = Ok (cs, st') /\ completions_are vanishes op fc tops cops cs.
Proof.
  intros vanishes n op st nb nf k fc O L5 N3 Fr Ik Ty Hb Hf Efc.
  destruct (C37_shipped nb nf k Ik) as (tops & Es & Lt & W).
  destruct (colour_results n op st O L5 N3 Fr) as (cops & st' & Ec & Lc & Hc).
  pose proof (C36_counters op (oo_distinct n op O) (oo_some n op O) (oo_clean n op O) (oo_labels n op O)) as C36. rewrite Efc in C36. destruct C36 as [Pk _].
  exists tops, cops.
  pose proof (distinct_eq _ (oo_distinct n op O)) as Deq.
  assert (Pf : Permutation (map fst fc) (indexed_fields op)) by exact Pk.
  assert (Bo : forall f, In f (map fst fc) -> exists b, is_boson (i_field f) = Ok b /\ True).
  { intros f If. apply (Permutation_in _ Pf) in If. pose proof (oo_legit n op O) as L. rewrite Forall_forall in L. pose proof (is_boson_ok _ (L (mkCF Plain f) (in_map _ _ _ If))) as E. cbn [cf_if] in E. eauto. }
  destruct (mapM_each _ _ _ Bo) as (bs & Ebs & _).
  set (good := fun (t : topology ifield) (perm : template ifield) (r : operator) (p : partition) =>
     exists y, partition_completion vanishes p = Ok y /\
       match y with inl _ => fails_from vanishes r t perm
       | inr c => made_from vanishes r t perm c /\ Forall good_term (cm_terms c) /\ accounts_for (plain_fields op) (cm_terms c) (cm_exotics c) /\ closed (cm_operator c) /\ diagram fc c end).
  assert (Perms : forall t perm, In t tops -> (In perm (distribute_fields ifield boson_field ifield_eqb (map fst fc) (t_partition t)) <-> arrangement ifield boson_field (indexed_fields op) (t_partition t) perm)).
  { intros t perm It. destruct (W t It) as (rows0 & ns & es & Er & Len & Sl & _). rewrite distributed_iff.
    - split; apply arrangement_perm; [exact Pf|now apply Permutation_sym].
    - intros f g If Ig. apply (Permutation_in _ Pf) in If. apply (Permutation_in _ Pf) in Ig. now apply Deq.
    - rewrite (Permutation_length (permutation_filter _ boson_field _ _ Pf)), (Permutation_length (permutation_filter _ (fun f => negb (boson_field f)) _ _ Pf)), Hb, Hf. exact Sl. }
  assert (T : forall t, In t tops -> exists ps, topology_partitions op cops t = Ok ps /\
     (forall perm r, arrangement ifield boson_field (indexed_fields op) (t_partition t) perm -> In r cops -> exists p, In p ps /\ good t perm r p) /\
     (forall p, In p ps -> exists perm r, arrangement ifield boson_field (indexed_fields op) (t_partition t) perm /\ In r cops /\ good t perm r p)).
  { intros t It. unfold topology_partitions. rewrite Efc. cbn [bind]. rewrite Ebs. cbn [bind].
    change (fun f => match dget ifield_eqb fc f with Some n => Ok n | None => Err KeyError end) with (number_of fc).
    set (perms := distribute_fields ifield boson_field ifield_eqb (map fst fc) (t_partition t)).
    destruct (mapM_each (fun r => mapM (fun perm => do attrs <- set_external_fields ifield (fun f => f_label (i_field f)) (number_of fc) perm (t_graph t);
                          Ok (mkPart r perm (epsilons r) (t_graph t) attrs (stem_of (t_file t)))) perms)
                        (fun r ps => Forall2 (fun perm p => good t perm r p) perms ps) cops) as (pss & Eps & Fps).
    { intros r Ir. apply mapM_each. intros perm Ip. destruct (Hc r Ir) as (ss & Er & Ct & Inv).
      destruct (partition_ok vanishes n op nb nf k fc tops t perm r ss O Ik Es It Pk Hb Hf (proj1 (Perms t perm It) Ip) Er Ct Inv) as (attrs & Ea & y & Ey & Hy).
      exists (mkPart r perm (epsilons r) (t_graph t) attrs (stem_of (t_file t))). rewrite Ea. cbn [bind]. split; [reflexivity|]. exists y. auto. }
    rewrite Eps. cbn [bind]. exists (concat pss). split; [reflexivity|]. split.
    - intros perm r Ar Ir. apply (Perms t perm It) in Ar. destruct (Forall2_left _ _ _ Fps r Ir) as (ps & Ips & F). destruct (Forall2_left _ _ _ F perm Ar) as (p & Ip & G).
      exists p. split; [apply in_concat; eauto|exact G].
    - intros p Ip. apply in_concat in Ip as (ps & Ips & Ip). destruct (Forall2_right _ _ _ Fps ps Ips) as (r & Ir & F). destruct (Forall2_right _ _ _ F p Ip) as (perm & Iperm & G).
      exists perm, r. split; [now apply Perms|auto]. }
  destruct (mapM_each _ _ _ T) as (pss & Eps & Fps).
  assert (Parts : partitions shipped op st = Ok (concat pss, st')).
  { unfold partitions. rewrite Ty. cbn [bind fst snd]. rewrite Es. cbn [bind]. rewrite Ec. cbn [bind fst snd]. rewrite Eps. reflexivity. }
  destruct (mapM_each (partition_completion vanishes) (fun p y => partition_completion vanishes p = Ok y) (concat pss)) as (ys & Eys & Fys).
  { intros p Ip. apply in_concat in Ip as (ps & Ips & Ip). destruct (Forall2_right _ _ _ Fps ps Ips) as (t & It & _ & H2). destruct (H2 p Ip) as (perm & r & _ & _ & y & Ey & _). exists y. auto. }
  exists (flat_map (fun x => match x with inl _ => [] | inr c => [c] end) ys), st'.
  split; [exact Es|]. split; [exact Lt|]. split; [exact Ec|]. split; [exact Lc|]. split; [apply Forall_forall; intros r Ir; destruct (Hc r Ir) as (ss & _ & Ct & _); exact Ct|].
  unfold completions_are. split; [|split].
  - unfold completions_of. rewrite Parts. cbn [bind fst snd]. rewrite Eys. reflexivity.
  - intros t perm r It Ar Ir. destruct (Forall2_left _ _ _ Fps t It) as (ps & Ips & H1 & _). destruct (H1 perm r Ar Ir) as (p & Ip & y & Ey & Hy).
    destruct y as [reason|c]; [now left|]. right. exists c. split; [|apply Hy]. destruct (Forall2_left _ _ _ Fys p) as (y' & Iy' & Ey'); [apply in_concat; eauto|].
    rewrite Ey in Ey'. injection Ey' as <-. apply in_flat_map. exists (inr c). split; [exact Iy'|now left].
  - intros c Ic. apply in_flat_map in Ic as ([reason|c'] & Iy & Ic); [destruct Ic|]. destruct Ic as [<-|[]]. destruct (Forall2_right _ _ _ Fys _ Iy) as (p & Ip & Ey).
    apply in_concat in Ip as (ps & Ips & Ip). destruct (Forall2_right _ _ _ Fps ps Ips) as (t & It & _ & H2). destruct (H2 p Ip) as (perm & r & Ar & Ir & y & Ey' & Hy).
    rewrite Ey in Ey'. injection Ey' as <-. destruct Hy as (H & H'). split; [exists t, perm, r; auto|exact H'].
Qed.

Print Assumptions C88_completions.
