(** * PropsExotic: C38 and C39, Lorentz contractions and epsilons of a vertex *)

From Coq Require Import Ascii String List Bool Arith ZArith QArith Qcanon Lia Permutation Sorted.
From Verif Require Import Base BaseFacts Show ModelFunctions ProofsFunctions ModelIndex SpecIndex ProofsIndex PropsIndex ModelField SpecField
  ProofsField ProofsField2 PropsField PropsField2 ModelContract SpecContract ProofsContract ModelPartition ModelExotic SpecExotic ProofsExotic.
From Verif Require Spec.
Import ListNotations.
Local Open Scope nat_scope.

(** ** Bosons and fermions *)

Definition bosonb (x : cfield) : bool := Nat.even (count_kind Undotted true (indices_of x) + count_kind Dotted true (indices_of x)).

Lemma bosonb_spec x : bosonb x = true <-> boson x.
Proof. apply Nat.even_spec. Qed.

Lemma bosonb_not x : bosonb x = false <-> fermion x.
Proof. unfold fermion. rewrite <- bosonb_spec. now destruct (bosonb x). Qed.

Lemma is_boson_ok x : legit x -> is_boson (i_field (cf_if x)) = Ok (bosonb x).
Proof.
  intros L. unfold is_boson, lorentz_irrep. rewrite (legit_ints x L). cbn [bind firstn list_sum fold_right]. f_equal.
  rewrite Nat.add_0_r. unfold bosonb. set (n := _ + _).
  destruct (Nat.even n) eqn:E.
  - apply Nat.even_spec in E as (k & ->). rewrite Nat.mul_comm, Nat.mod_mul; auto.
  - assert (O : Nat.odd n = true) by (unfold Nat.odd; now rewrite E). apply Nat.odd_spec in O as (k & ->).
    rewrite Nat.add_comm, Nat.mul_comm, Nat.mod_add; auto.
Qed.

Lemma is_fermion_ok x : legit x -> is_fermion (i_field (cf_if x)) = Ok (negb (bosonb x)).
Proof. intros L. unfold is_fermion. now rewrite is_boson_ok. Qed.

Lemma all_with_ok p q fs : Forall (fun x => p (i_field (cf_if x)) = Ok (q x)) fs -> all_with p fs = Ok (forallb q fs).
Proof.
  intros F. unfold all_with. assert (H : forall b, foldM (fun (b : bool) x => if b then p (i_field (cf_if x)) else Ok false) fs b = Ok (b && forallb q fs)); [|exact (H true)].
  induction F as [|x fs E F IH]; intros b; cbn [foldM forallb]; [now rewrite andb_true_r|].
  destruct b; [rewrite E|]; cbn [bind]; now rewrite IH.
Qed.

Lemma drop_scalar_ok fs : Forall legit fs ->
  drop_scalar fs = if List.length (filter bosonb fs) =? 1 then Ok (filter (fun x => negb (bosonb x)) fs) else Err AssertionError.
Proof.
  intros L. unfold drop_scalar.
  assert (E : mapM (fun x => do b <- is_boson (i_field (cf_if x)); Ok (x, b)) fs = Ok (map (fun x => (x, bosonb x)) fs)).
  { induction L as [|x fs Lx L IH]; [reflexivity|]. cbn [mapM map]. rewrite is_boson_ok by exact Lx. cbn [bind]. now rewrite IH. }
  rewrite E. cbn [bind].
  assert (F : forall (q : cfield * bool -> bool), filter q (map (fun x => (x, bosonb x)) fs) = map (fun x => (x, bosonb x)) (filter (fun x => q (x, bosonb x)) fs)).
  { intros q. clear. induction fs as [|x fs IH]; [reflexivity|]. cbn [map filter]. destruct (q (x, bosonb x)); cbn [map]; now rewrite IH. }
  rewrite !F, map_map, map_length. cbn [fst snd]. rewrite map_id. destruct (_ =? 1); reflexivity.
Qed.

Lemma sort_ext_in {A} (p q : A -> A -> bool) l : (forall x y, In x l -> In y l -> p x y = q x y) -> sort p l = sort q l.
Proof.
  induction l as [|x l IH]; intros H; [reflexivity|]. cbn [sort]. rewrite IH by (intros; apply H; now right).
  assert (I : forall r, incl r l -> insert p x r = insert q x r).
  { induction r as [|y r IHr]; intros Hr; [reflexivity|]. cbn [insert]. rewrite H; [|now left|right; apply Hr; now left].
    destruct (q x y); [reflexivity|]. f_equal. apply IHr. intros z Hz. apply Hr. now right. }
  apply I. intros z Hz. eapply Permutation_in; [apply Permutation_sym, sort_perm|exact Hz].
Qed.

Lemma derivs_in x fs : In x fs -> cf_derivs x <= derivs_on fs.
Proof. intros I. induction fs as [|y fs IH]; [destruct I|]. unfold derivs_on in *. cbn [map list_sum fold_right]. unfold cf_derivs in *. destruct I as [-> | I]; [lia|]. specialize (IH I). unfold list_sum in IH. lia. Qed.

(** ** C38: Lorentz contractions of a vertex *)

Theorem C38_lorentz : forall fs, vertex fs -> fs <> [] -> lorentz_table fs (get_lorentz_epsilons fs).
Proof.
  intros fs [L _] N. unfold get_lorentz_epsilons. cbv zeta. change (list_sum (map cf_derivs fs)) with (derivs_on fs).
  destruct (2 <? derivs_on fs) eqn:E; [apply Nat.ltb_lt in E; now constructor|]. apply Nat.ltb_ge in E.
  destruct (Nat.eqb_spec (derivs_on fs) 0) as [Z|Z]; cbn [andb].
  - destruct (Nat.eqb_spec (List.length fs) 4) as [L4|L4]; [now apply lt_four|].
    destruct (Nat.eqb_spec (List.length fs) 3) as [L3|L3].
    + rewrite (all_with_ok _ bosonb) by (eapply Forall_impl; [|exact L]; intros x; apply is_boson_ok). cbn [bind].
      rewrite (all_with_ok _ (fun x => negb (bosonb x))) by (eapply Forall_impl; [|exact L]; intros x; apply is_fermion_ok).
      destruct fs as [|x [|y [|z [|]]]]; try discriminate L3.
      rewrite drop_scalar_ok by exact L. cbn [bind forallb filter].
      destruct (bosonb x) eqn:Ex, (bosonb y) eqn:Ey, (bosonb z) eqn:Ez; cbn [andb negb filter List.length Nat.eqb bind].
      all: repeat match goal with H : bosonb _ = true |- _ => apply bosonb_spec in H | H : bosonb _ = false |- _ => apply bosonb_not in H end.
      * apply lt_scalars; auto.
      * apply (lt_two _ x y z); auto.
      * apply (lt_two _ x z y); auto. apply perm_skip, perm_swap.
      * inversion L as [|? ? Lx Lr]; subst. pose proof (pair_lorentz_ok [y; z] Lr) as P. pose proof (classed_ordered [y; z]) as O. pose proof (Permutation_length (classed_perm [y; z])) as Lc.
        destruct (classed [y; z]) as [|a' [|b' [|]]]; try discriminate Lc.
        eapply (lt_one _ x y z a' b'); auto; [exists [], [y; z]; auto|apply P; discriminate].
      * apply (lt_two _ y z x); auto. eapply perm_trans; [apply perm_swap|]. apply perm_skip, perm_swap.
      * inversion L as [|? ? Lx Lr]; subst. inversion Lr as [|? ? Ly Lr']; subst. inversion Lr' as [|? ? Lz Lr'']; subst. assert (Lr2 : Forall legit [x; z]) by auto.
        pose proof (pair_lorentz_ok [x; z] Lr2) as P. pose proof (classed_ordered [x; z]) as O. pose proof (Permutation_length (classed_perm [x; z])) as Lc.
        destruct (classed [x; z]) as [|a' [|b' [|]]]; try discriminate Lc.
        eapply (lt_one _ y x z a' b'); auto; [apply perm_swap|exists [x], [z]; auto|apply P; discriminate].
      * inversion L as [|? ? Lx Lr]; subst. inversion Lr as [|? ? Ly Lr']; subst. assert (Lr2 : Forall legit [x; y]) by auto.
        pose proof (pair_lorentz_ok [x; y] Lr2) as P. pose proof (classed_ordered [x; y]) as O. pose proof (Permutation_length (classed_perm [x; y])) as Lc.
        destruct (classed [x; y]) as [|a' [|b' [|]]]; try discriminate Lc.
        eapply (lt_one _ z x y a' b'); auto; [|exists [x; y], []; auto|apply P; discriminate].
        eapply perm_trans; [apply perm_skip, perm_swap|apply perm_swap].
      * apply lt_fermions; auto.
    + rewrite Z. cbn [Nat.eqb andb]. eapply lt_other; [lia|auto|lia|apply classed_ordered|now apply pair_lorentz_ok].
  - destruct (Nat.eqb_spec (derivs_on fs) 2) as [D|D]; cbn [andb].
    + destruct (Nat.eqb_spec (List.length fs) 3) as [L3|L3].
      * set (fs' := sort (fun a b => cf_derivs b <=? cf_derivs a) fs).
        assert (Ef : fs' = sort (kleb (fun x => 2 - f_derivs (i_field (cf_if x)))) fs).
        { apply sort_ext_in. intros x y Ix Iy. apply derivs_in in Ix, Iy. unfold kleb, cf_derivs in *. rewrite D in *.
          destruct (Nat.leb_spec (f_derivs (i_field (cf_if y))) (f_derivs (i_field (cf_if x)))); symmetry; [apply Nat.leb_le|apply Nat.leb_gt]; lia. }
        assert (P : Permutation fs fs') by apply sort_perm.
        eapply (lt_sorted fs fs' (classed fs')); auto; [rewrite Ef; apply sort_ordered|apply classed_ordered|].
        apply pair_lorentz_ok; [now rewrite <- P|]. intros X. rewrite X in P. apply Permutation_sym, Permutation_nil in P. auto.
      * eapply lt_other; [lia|lia|auto|apply classed_ordered|now apply pair_lorentz_ok].
    + eapply lt_other; [lia|lia|lia|apply classed_ordered|now apply pair_lorentz_ok].
Qed.

(** ** What the contraction leaves *)

Definition product_of (fs : list cfield) : operator := map (fun x => TField (cf_if x)) fs.

Lemma product_of_indices fs : op_indices (product_of fs) = flat_map indices_of fs.
Proof. induction fs as [|x fs IH]; [reflexivity|]. unfold product_of, op_indices in *. cbn [map flat_map tensor_indices]. now rewrite IH. Qed.

Lemma joins_contracts t m es : joins t m es -> Forall2 counterpart (flat_map (fun p => [fst p; snd p]) m) (flat_map symbol_indices es).
Proof.
  induction 1 as [|p e m es (a & b & -> & Ca & Cb) J IH]; [constructor|]. cbn [flat_map symbol_indices app]. constructor; [exact Ca|]. now constructor.
Qed.

Lemma paired_contracts t l es : paired t l es ->
  (exists i0, l = [i0] /\ es = []) \/ Forall2 counterpart l (flat_map symbol_indices es).
Proof.
  intros [[S ->]|(m & C & J)]; [left; red in S; destruct l as [|i0 [|]]; try discriminate S; eauto|].
  right. rewrite <- (consecutive_flat _ _ C). eapply joins_contracts, J.
Qed.

(** the indices [l] of the fields are contracted, at most one Lorentz index is not *)
Lemma pairing_leaves fs es : lorentz_pairing fs (Ok (true, es)) ->
  exists l, Forall2 counterpart l (flat_map symbol_indices es) /\
    (l = indices_on Undotted fs ++ indices_on Dotted fs \/
     exists i0, ((indices_on Undotted fs = [i0] /\ l = indices_on Dotted fs) \/ (indices_on Dotted fs = [i0] /\ l = indices_on Undotted fs))).
Proof.
  intros [(_ & _ & X)|[(_ & _ & X)|(NS & eu & ev & PU & PV & X)]]; try discriminate X. injection X as ->.
  apply paired_contracts in PU, PV. rewrite flat_map_app.
  destruct PU as [(i0 & EU & ->)|FU], PV as [(j0 & EV & ->)|FV].
  - destruct NS. rewrite EU, EV. split; reflexivity.
  - exists (indices_on Dotted fs). cbn [flat_map app]. split; [exact FV|]. right. exists i0. auto.
  - exists (indices_on Undotted fs). cbn [flat_map app]. rewrite app_nil_r. split; [exact FU|]. right. exists j0. auto.
  - eexists. split; [apply Forall2_app; eassumption|]. now left.
Qed.

Lemma scalar_none x i : legit x -> scalar x -> In i (indices_of x) -> ~ lorentz_type (ix_type i).
Proof.
  intros L [S1 S2] I T. pose proof (legit_raised x i L I T) as U. unfold count_kind in S1, S2.
  assert (N : forall p : index -> bool, List.length (filter p (indices_of x)) = 0 -> p i = false).
  { intros p E. apply length_zero_iff_nil in E. destruct (p i) eqn:P; [|reflexivity]. assert (X : In i (filter p (indices_of x))) by (apply filter_In; auto). rewrite E in X. destruct X. }
  destruct T as [T|T]; [apply N in S1; rewrite T, U in S1; discriminate S1|apply N in S2; rewrite T, U in S2; discriminate S2].
Qed.

(** Where the contraction is allowed and fields without derivatives have spin at most 1/2, the contracted product has at
    most one free Lorentz index: it is a scalar or a Weyl fermion.  No other index is touched. *)
Theorem C38_allowed : forall fs es, vertex fs -> fs <> [] -> get_lorentz_epsilons fs = Ok (true, es) ->
  (derivs_on fs = 0 -> forall x, In x fs -> boson x -> scalar x) -> (derivs_on fs = 0 -> List.length fs = 4 -> Forall boson fs) ->
  (forall i j, is_free (product_of fs ++ map TSymbol es) i -> lorentz_type (ix_type i) ->
               is_free (product_of fs ++ map TSymbol es) j -> lorentz_type (ix_type j) -> slot i = slot j) /\
  (forall i, ~ lorentz_type (ix_type i) -> (is_free (product_of fs ++ map TSymbol es) i <-> is_free (product_of fs) i)).
Proof.
  intros fs es V N E HS H4. pose proof (C38_lorentz fs V N) as T. rewrite E in T. destruct V as [L ND].
  assert (R : forall i, In i (flat_map indices_of fs) -> lorentz_type (ix_type i) -> ix_up i = true).
  { intros i I Ht. apply in_flat_map in I as (x & Ix & I). rewrite Forall_forall in L. eapply legit_raised; [apply L, Ix|exact I|exact Ht]. }
  assert (FR : forall i, In i (flat_map indices_of fs) -> lorentz_type (ix_type i) -> is_free (product_of fs) i).
  { intros i I Ht. split; [now rewrite product_of_indices|]. rewrite product_of_indices. intros j J (_ & Tj & Uj).
    rewrite (R i I Ht), (R j J) in Uj by now rewrite Tj. discriminate Uj. }
  assert (None : forall i, Forall scalar fs -> is_free (product_of fs) i -> ~ lorentz_type (ix_type i)).
  { intros i S [I _]. rewrite product_of_indices in I. apply in_flat_map in I as (x & Ix & I). rewrite Forall_forall in L, S. eapply scalar_none; eauto. }
  assert (Zero : es = [] -> Forall scalar fs -> 
    (forall i j, is_free (product_of fs ++ map TSymbol es) i -> lorentz_type (ix_type i) ->
               is_free (product_of fs ++ map TSymbol es) j -> lorentz_type (ix_type j) -> slot i = slot j) /\
    (forall i, ~ lorentz_type (ix_type i) -> (is_free (product_of fs ++ map TSymbol es) i <-> is_free (product_of fs) i))).
  { intros -> S. cbn [map]. rewrite app_nil_r. split; [|tauto]. intros i j Fi Ti. destruct (None i S Fi Ti). }
  assert (Main : forall fs', lorentz_pairing fs' (Ok (true, es)) -> (forall x, In x fs' -> In x fs) ->
    (forall x i, In x fs -> In i (indices_of x) -> lorentz_type (ix_type i) -> In x fs') ->
    (forall i j, is_free (product_of fs ++ map TSymbol es) i -> lorentz_type (ix_type i) ->
               is_free (product_of fs ++ map TSymbol es) j -> lorentz_type (ix_type j) -> slot i = slot j) /\
    (forall i, ~ lorentz_type (ix_type i) -> (is_free (product_of fs ++ map TSymbol es) i <-> is_free (product_of fs) i))).
  { intros fs' P Sub All. destruct (pairing_leaves _ _ P) as (l & F2 & Hl).
    assert (On : forall t i, lorentz_type t -> In i (indices_on t fs') -> In i (flat_map indices_of fs) /\ ix_type i = t).
    { intros t i Ht I. apply filter_In in I as [I T']. apply has_type_iff in T'. apply in_flat_map in I as (x & Ix & I). split; [|exact T'].
      apply in_flat_map. eauto. }
    assert (Hin : forall i, In i l -> In i (flat_map indices_of fs) /\ lorentz_type (ix_type i)).
    { intros i I.
      assert (X : In i (indices_on Undotted fs') \/ In i (indices_on Dotted fs')).
      { destruct Hl as [->|(i0 & [[_ ->]|[_ ->]])]; auto. apply in_app_iff in I. exact I. }
      destruct X as [X|X]; apply On in X as [X X']; unfold lorentz_type; auto. }
    assert (C : contracts es l) by (exists l; split; [apply Permutation_refl|exact F2]).
    assert (Inc : incl l (free_indices (product_of fs))).
    { intros i I. apply free_indices_spec. destruct (Hin i I). auto. }
    destruct (contracted _ _ _ C Inc) as [Free _]. split.
    - assert (K : forall i, is_free (product_of fs ++ map TSymbol es) i -> lorentz_type (ix_type i) ->
                 ~ In i l /\ (In i (indices_on Undotted fs') \/ In i (indices_on Dotted fs'))).
      { intros i Fi Ti. apply Free in Fi as [[I _] NI]. split; [intros X; apply NI, in_map, X|]. rewrite product_of_indices in I.
        apply in_flat_map in I as (x & Ix & I). pose proof (All x i Ix I Ti) as Ix'.
        assert (Y : In i (flat_map indices_of fs')) by (apply in_flat_map; eauto).
        destruct Ti as [Ti|Ti]; [left|right]; (apply filter_In; split; [exact Y|apply has_type_iff, Ti]). }
      intros i j Fi Ti Fj Tj. destruct (K i Fi Ti) as [Ni Oi], (K j Fj Tj) as [Nj Oj].
      destruct Hl as [->|(i0 & [[E0 ->]|[E0 ->]])].
      + destruct Ni. apply in_app_iff. exact Oi.
      + rewrite E0 in Oi, Oj. destruct Oi as [[<-|[]]|]; [|tauto]. destruct Oj as [[<-|[]]|]; [reflexivity|tauto].
      + rewrite E0 in Oi, Oj. destruct Oi as [|[<-|[]]]; [tauto|]. destruct Oj as [|[<-|[]]]; [tauto|reflexivity].
    - intros i Ti. rewrite Free. split; [tauto|]. intros F. split; [exact F|]. intros X. apply in_map_iff in X as (j & Sj & J).
      apply Hin in J as [_ Tj]. injection Sj as _ Sj _. rewrite Sj in Tj. auto. }
  inversion T as [|Z L4 X|Z L3 B X| |s a b a' b' r Z P Bs Fa Fb O _ LP X|s s' a Z P|fs' fs'' r D L3 O O' LP X|fs' r D Z D2 O LP X]; subst.
  - apply Zero; [reflexivity|]. apply Forall_forall. intros x Ix. apply HS; auto. specialize (H4 Z L4). rewrite Forall_forall in H4. auto.
  - apply Zero; [reflexivity|]. apply Forall_forall. intros x Ix. apply HS; auto. rewrite Forall_forall in B. auto.
  - apply (Main _ LP).
    + intros x Ix. eapply Permutation_in; [apply Permutation_sym, P|]. right. eapply Permutation_in; [apply Permutation_sym, (ordered_perm _ _ _ O)|exact Ix].
    + intros x i Ix I Ti. pose proof (Permutation_in _ P Ix) as [<- | Ix'].
      * exfalso. rewrite Forall_forall in L. apply (scalar_none s i (L s Ix) (HS Z s Ix Bs) I Ti).
      * eapply Permutation_in; [exact (ordered_perm _ _ _ O)|exact Ix'].
  - pose proof (ordered_perm _ _ _ O) as P1. pose proof (ordered_perm _ _ _ O') as P2.
    apply (Main _ LP); intros x; [|intros i]; intros Ix; intros; eapply Permutation_in; [|exact Ix| |exact Ix];
      [apply Permutation_sym|]; eapply perm_trans; eassumption.
  - pose proof (ordered_perm _ _ _ O) as P1. apply (Main _ LP); intros x; [|intros i]; intros Ix; intros; eapply Permutation_in; [|exact Ix| |exact Ix];
      [apply Permutation_sym|]; eassumption.
Qed.

(** ** C39: contracted and spectator symbols *)

Definition metb (l : list index) (i : index) : bool := existsb (opposite i) l.

Lemma metb_spec l i : metb l i = true <-> met l i.
Proof.
  unfold metb, met. rewrite existsb_exists. split; intros (j & J & C); exists j; (split; [exact J|]); now apply opposite_spec.
Qed.

Lemma metb_not l i : metb l i = false <-> ~ met l i.
Proof. rewrite <- metb_spec. now destruct (metb l i). Qed.

Lemma mem_counterpart l i n : counterpart i n -> mem_index n l = metb l i.
Proof.
  intros C. unfold mem_index, metb. induction l as [|j l IH]; [reflexivity|]. cbn [existsb]. rewrite IH. f_equal.
  apply eq_true_iff_eq. rewrite ProofsContract.slot_eqb, opposite_spec. split.
  - intros S. injection S as S1 S2 S3. destruct C as (N & T & U). unfold counterpart. now rewrite <- S1, <- S2, <- S3.
  - intros C'. apply counterpart_inj with i; now apply counterpart_sym.
Qed.

Lemma met_ext l l' : (forall i, In i l <-> In i l') -> forall i, met l i <-> met l' i.
Proof. intros H i. unfold met. split; intros (j & J & C); exists j; (split; [now apply H|exact C]). Qed.

Lemma contracted_epsilon_ok e l : symbol_ok e ->
  exists b l', is_contracted_epsilon e l = Ok (b, l') /\ forall es s c, split_symbols l' es s c ->
    split_symbols l (e :: es) (if b then s else e :: s) (if b then e :: c else c).
Proof.
  intros [C L]. unfold is_contracted_epsilon. destruct (symbol_indices e) as [|i [|j r]] eqn:E; try (cbn in L; lia).
  inversion C as [|? ? Ci C1]; subst. inversion C1 as [|? ? Cj C2]; subst.
  destruct (clean_neg i Ci) as (ni & Ei & _ & Ni). destruct (clean_neg j Cj) as (nj & Ej & _ & Nj).
  destruct r as [|k [|]]; [| |cbn in L; lia].
  - rewrite Ei. cbn [bind]. rewrite (mem_counterpart l i ni Ni). destruct (metb l i) eqn:Mi.
    + rewrite Ej. cbn [bind]. rewrite (mem_counterpart l j nj Nj). exists (metb l j), l. split; [reflexivity|]. intros es s c S. apply metb_spec in Mi.
      destruct (metb l j) eqn:Mj; [apply metb_spec in Mj; eapply ss_two; eauto|apply metb_not in Mj; eapply ss_two_not; eauto; tauto].
    + exists false, l. split; [reflexivity|]. intros es s c S. apply metb_not in Mi. eapply ss_two_not; eauto. tauto.
  - inversion C2 as [|? ? Ck _]; subst. destruct (clean_neg k Ck) as (nk & Ek & _ & Nk).
    cbn [mapM]. rewrite Ei, Ej, Ek. cbn [bind]. rewrite (mem_counterpart l i ni Ni), (mem_counterpart l j nj Nj), (mem_counterpart l k nk Nk).
    destruct (metb l i) eqn:Mi, (metb l j) eqn:Mj, (metb l k) eqn:Mk; cbn [filter snd negb map fst List.length Nat.eqb].
    all: eexists; eexists; split; [reflexivity|]; intros es s c S.
    all: repeat match goal with H : metb _ _ = true |- _ => apply metb_spec in H | H : metb _ _ = false |- _ => apply metb_not in H end.
    + eapply ss_three; eauto.
    + apply (ss_three_two l e i j k); auto. now rewrite E.
    + apply (ss_three_two l e i k j); auto. rewrite E. apply perm_skip, perm_swap.
    + apply (ss_three_not l e j k i); auto. rewrite E. eapply perm_trans; [apply perm_swap|]. apply perm_skip, perm_swap.
    + apply (ss_three_two l e j k i); auto. rewrite E. eapply perm_trans; [apply perm_swap|]. apply perm_skip, perm_swap.
    + apply (ss_three_not l e i k j); auto. rewrite E. apply perm_skip, perm_swap.
    + apply (ss_three_not l e i j k); auto. now rewrite E.
    + apply (ss_three_not l e i j k); auto. now rewrite E.
Qed.

Lemma separate_fold es : Forall symbol_ok es -> forall s0 c0 l, exists s c l',
  foldM separate_step es (s0, c0, l) = Ok (s0 ++ s, c0 ++ c, l') /\ split_symbols l es s c.
Proof.
  induction 1 as [|e es He F IH]; intros s0 c0 l; [exists [], [], l; rewrite !app_nil_r; split; [reflexivity|constructor]|].
  destruct (contracted_epsilon_ok e l He) as (b & l1 & E & S). cbn [foldM]. unfold separate_step at 1. rewrite E. cbn [bind fst snd].
  destruct b.
  - destruct (IH s0 (c0 ++ [e]) l1) as (s & c & l' & Ef & Sp). exists s, (e :: c), l'. rewrite Ef, <- app_assoc. split; [reflexivity|]. now apply S.
  - destruct (IH (s0 ++ [e]) c0 l1) as (s & c & l' & Ef & Sp). exists (e :: s), c, l'. rewrite Ef, <- app_assoc. split; [reflexivity|]. now apply S.
Qed.

Lemma product_free fs i : is_free (cop_erase (map KField (classed fs))) i <-> is_free (product_of fs) i.
Proof.
  apply is_free_perm. rewrite op_indices_fields, product_of_indices. apply Permutation_flat_map, Permutation_sym, classed_perm.
Qed.

Theorem C39_split : forall fs es, fs <> [] -> Forall symbol_ok es ->
  exists s c l, separate_gauge_epsilons fs es = Ok (s, c) /\ (forall i, In i l <-> is_free (product_of fs) i) /\ split_symbols l es s c.
Proof.
  intros fs es N F. unfold separate_gauge_epsilons. rewrite c_reduce_ok by now destruct fs. cbn [bind]. rewrite cnormalise_fields.
  set (l := free_indices _). destruct (separate_fold es F [] [] l) as (s & c & l' & E & S). rewrite E. cbn [bind fst]. exists s, c, l. cbn [app].
  split; [reflexivity|]. split; [|exact S]. intros i. unfold l. rewrite free_indices_spec. apply product_free.
Qed.

Lemma split_interleaved l es s c : split_symbols l es s c -> interleaved es s c.
Proof. induction 1; constructor; auto. Qed.

Lemma interleaved_perm {A} (l a b : list A) : interleaved l a b -> Permutation l (a ++ b).
Proof. induction 1 as [|x l a b I IH|x l a b I IH]; [constructor|cbn; now constructor|]. rewrite IH. apply Permutation_middle. Qed.

(** nothing is lost, doubled or reordered *)
Theorem C39_partition : forall fs es s c, fs <> [] -> Forall symbol_ok es -> separate_gauge_epsilons fs es = Ok (s, c) ->
  interleaved es s c /\ Permutation es (s ++ c).
Proof.
  intros fs es s c N F E. destruct (C39_split fs es N F) as (s' & c' & l & E' & _ & S). rewrite E in E'. injection E' as -> ->.
  apply split_interleaved in S. split; [exact S|now apply interleaved_perm].
Qed.

Lemma split_unchained l0 es s c : forall l, (forall e i, In e es -> In i (symbol_indices e) -> (met l i <-> met l0 i)) ->
  (forall e e' i j, In e es -> In e' es -> In i (symbol_indices e) -> In j (symbol_indices e') -> ~ counterpart i j) ->
  split_symbols l es s c -> kept (contracted_with l0) es c /\ kept (fun e => ~ contracted_with l0 e) es s.
Proof.
  intros l H U S. induction S as [|l e i j es s c E Mi Mj S IH|l e i j es s c E NM S IH|l e i j k es s c E Mi Mj Mk S IH|l e i j k es s c P Mi Mj NMk S IH|l e i j k es s c P NMi NMj S IH].
  - split; constructor.
  - assert (W : contracted_with l0 e).
    { left. intros x X. apply (H e); [now left|exact X|]. rewrite E in X. destruct X as [<-|[<-|[]]]; auto. }
    destruct IH as [IH1 IH2]; [intros e' x He' X; apply (H e'); [now right|exact X]|intros e1 e2 x y H1 H2; apply (U e1 e2 x y); now right|]. split; [now constructor|apply kept_no; tauto].
  - assert (W : ~ contracted_with l0 e).
    { intros [A|(a & b & d & P & _)].
      - apply NM. split; apply (H e); auto; try (now left); try (apply A); rewrite E; cbn; auto.
      - rewrite E in P. apply Permutation_length in P. discriminate P. }
    destruct IH as [IH1 IH2]; [intros e' x He' X; apply (H e'); [now right|exact X]|intros e1 e2 x y H1 H2; apply (U e1 e2 x y); now right|]. split; [now apply kept_no|now constructor].
  - assert (W : contracted_with l0 e).
    { left. intros x X. apply (H e); [now left|exact X|]. rewrite E in X. destruct X as [<-|[<-|[<-|[]]]]; auto. }
    destruct IH as [IH1 IH2]; [intros e' x He' X; apply (H e'); [now right|exact X]|intros e1 e2 x y H1 H2; apply (U e1 e2 x y); now right|]. split; [now constructor|apply kept_no; tauto].
  - assert (I : forall x, In x [i; j; k] -> In x (symbol_indices e)) by (intros x X; eapply Permutation_in; [apply Permutation_sym, P|exact X]).
    assert (W : contracted_with l0 e).
    { right. exists i, j, k. split; [exact P|]. split; (apply (H e); [now left|apply I; cbn; auto|assumption]). }
    destruct IH as [IH1 IH2].
    + intros e' x He' X. rewrite <- (H e' x); [|now right|exact X]. unfold met. split; intros (y & Y & C); [|exists y; split; [apply in_app_iff; now left|exact C]].
      apply in_app_iff in Y as [Y|[<-|[]]]; [eauto|]. destruct (U e' e x k); [now right|now left|exact X|apply I; cbn; auto|exact C].
    + intros e1 e2 x y H1 H2. apply (U e1 e2 x y); now right.
    + split; [now constructor|apply kept_no; tauto].
  - assert (I : forall x, In x [i; j; k] -> In x (symbol_indices e)) by (intros x X; eapply Permutation_in; [apply Permutation_sym, P|exact X]).
    assert (W : ~ contracted_with l0 e).
    { assert (N1 : ~ met l0 i) by (rewrite <- (H e i); [exact NMi|now left|apply I; cbn; auto]).
      assert (N2 : ~ met l0 j) by (rewrite <- (H e j); [exact NMj|now left|apply I; cbn; auto]).
      intros [A|(a & b & d & P' & Ma & Mb)]; [apply N1, A, I; cbn; auto|].
      rewrite P in P'.
      assert (T : In i [a; b; d] /\ In j [a; b; d]) by (split; eapply Permutation_in; try exact P'; cbn; auto).
      assert (Id : i = d) by (destruct T as [[<-|[<-|[<-|[]]]] _]; tauto).
      assert (Jd : j = d) by (destruct T as [_ [<-|[<-|[<-|[]]]]]; tauto).
      subst i j. assert (P2 : Permutation [d; k] [a; b]).
      { apply Permutation_cons_inv with d. rewrite P'. eapply perm_trans; [apply perm_skip, perm_swap|apply perm_swap]. }
      assert (X : In d [a; b]) by (eapply Permutation_in; [exact P2|now left]). destruct X as [->|[->|[]]]; tauto. }
    destruct IH as [IH1 IH2]; [intros e' x He' X; apply (H e'); [now right|exact X]|intros e1 e2 x y H1 H2; apply (U e1 e2 x y); now right|]. split; [now apply kept_no|now constructor].
Qed.

(** Without chains the contracted symbols are those contracted with the fields alone. *)
Theorem C39_fields_only : forall fs es s c, fs <> [] -> Forall symbol_ok es -> unchained es -> separate_gauge_epsilons fs es = Ok (s, c) ->
  exists l, (forall i, In i l <-> is_free (product_of fs) i) /\
    kept (contracted_with l) es c /\ kept (fun e => ~ contracted_with l e) es s.
Proof.
  intros fs es s c N F U E. destruct (C39_split fs es N F) as (s' & c' & l & E' & L & S). rewrite E in E'. injection E' as <- <-.
  exists l. split; [exact L|]. apply (split_unchained l es s c l); auto. intros. reflexivity.
Qed.

Lemma kept_dec {A} (P : A -> Prop) l r : kept P l r -> forall x, In x l -> P x \/ ~ P x.
Proof. induction 1 as [|y l r Py K IH|y l r Py K IH]; intros x []; subst; auto. Qed.

Lemma kept_exists {A} (P : A -> Prop) l : (forall x, In x l -> P x \/ ~ P x) -> exists r, kept P l r.
Proof.
  induction l as [|x l IH]; intros D; [exists []; constructor|]. destruct IH as (r & K); [intros; apply D; now right|].
  destruct (D x); [now left| |]; [exists (x :: r)|exists r]; now constructor.
Qed.

Lemma kept_unique {A} (P : A -> Prop) l r r' : kept P l r -> kept P l r' -> r = r'.
Proof.
  intros K. revert r'. induction K as [|x l r Px K IH|x l r Px K IH]; intros r' K'; inversion K'; subst; try tauto; try reflexivity; try f_equal; auto.
Qed.

Lemma kept_perm {A} (P : A -> Prop) l1 l2 : Permutation l1 l2 -> forall r1 r2, kept P l1 r1 -> kept P l2 r2 -> Permutation r1 r2.
Proof.
  induction 1 as [|x l1 l2 Pm IH|x y l|l1 l2 l3 Pm1 IH1 Pm2 IH2]; intros r1 r2 K1 K2.
  - inversion K1; inversion K2; constructor.
  - inversion K1; inversion K2; subst; try tauto; [constructor|]; apply IH; auto.
  - inversion K1 as [|? ? ? Py K1' |? ? ? Py K1']; subst; inversion K2 as [|? ? ? Px K2'|? ? ? Px K2']; subst;
      inversion K1' as [|? ? ? Px' K1''|? ? ? Px' K1'']; subst; try tauto; inversion K2' as [|? ? ? Py' K2''|? ? ? Py' K2'']; subst; try tauto;
      rewrite (kept_unique _ _ _ _ K1'' K2''); try apply Permutation_refl. apply perm_swap.
  - destruct (kept_exists P l2) as (r & K).
    { intros x I. apply (kept_dec _ _ _ K1). eapply Permutation_in; [apply Permutation_sym, Pm1|exact I]. }
    eapply perm_trans; [apply IH1|apply IH2]; eauto.
Qed.

Lemma kept_ext {A} (P Q : A -> Prop) l r : (forall x, P x <-> Q x) -> kept P l r -> kept Q l r.
Proof. intros H. induction 1; constructor; auto; now rewrite <- H. Qed.

(** Without chains neither the order of the fields nor that of the symbols matters. *)
Theorem C39_order : forall fs fs' es es' s c s' c', fs <> [] -> Forall symbol_ok es -> unchained es ->
  Permutation fs fs' -> Permutation es es' -> separate_gauge_epsilons fs es = Ok (s, c) -> separate_gauge_epsilons fs' es' = Ok (s', c') ->
  Permutation s s' /\ Permutation c c'.
Proof.
  intros fs fs' es es' s c s' c' N F U Pf Pe E E'.
  assert (N' : fs' <> []) by (intros ->; apply Permutation_sym, Permutation_nil in Pf; auto).
  assert (F' : Forall symbol_ok es') by now rewrite <- Pe.
  assert (U' : unchained es') by (intros e e' i j He He'; apply U; eapply Permutation_in; [apply Permutation_sym, Pe|exact He|apply Permutation_sym, Pe|exact He']).
  destruct (C39_fields_only fs es s c N F U E) as (l & L & K1 & K2). destruct (C39_fields_only fs' es' s' c' N' F' U' E') as (l' & L' & K1' & K2').
  assert (LL : forall i, met l i <-> met l' i).
  { apply met_ext. intros i. rewrite L, L'. apply is_free_perm. rewrite !product_of_indices. now apply Permutation_flat_map. }
  assert (W : forall e, contracted_with l' e <-> contracted_with l e).
  { intros e. unfold contracted_with. setoid_rewrite LL. reflexivity. }
  split; eapply kept_perm; try exact Pe; eauto; (eapply kept_ext; [|eassumption]); intros e; cbv beta; rewrite W; reflexivity.
Qed.

(** A symbol on two indices, a metric or a delta, is contracted exactly when both sit on the fields. *)
Theorem C39_two : forall fs es s c e i j, fs <> [] -> Forall symbol_ok es -> unchained es -> separate_gauge_epsilons fs es = Ok (s, c) ->
  In e es -> symbol_indices e = [i; j] ->
  (In e c <-> exists i' j', is_free (product_of fs) i' /\ is_free (product_of fs) j' /\ counterpart i i' /\ counterpart j j').
Proof.
  intros fs es s c e i j N F U E I S. destruct (C39_fields_only fs es s c N F U E) as (l & L & K & _).
  assert (X : In e c <-> contracted_with l e).
  { clear - K I. induction K as [|x es c Px K IH|x es c Px K IH]; [destruct I| |].
    - destruct I as [->|I]; [split; auto; intros; now left|]. split; [intros [<-|Y]; auto; now apply IH|intros W; right; now apply IH].
    - destruct I as [->|I]; [|now apply IH]. split; [|tauto]. intros Y. exfalso. apply Px.
      clear - K Y. induction K as [|x es c Px K IH|x es c Px K IH]; [destruct Y| |auto]. destruct Y as [->|Y]; auto. }
  rewrite X. unfold contracted_with. rewrite S. split.
  - intros [A|(a & b & d & P & _)]; [|apply Permutation_length in P; discriminate P].
    destruct (A i) as (i' & Ii & Ci); [now left|]. destruct (A j) as (j' & Ij & Cj); [right; now left|].
    exists i', j'. rewrite <- !L. auto.
  - intros (i' & j' & Fi & Fj & Ci & Cj). rewrite <- L in Fi, Fj. left. intros x [<-|[<-|[]]]; [exists i'|exists j']; auto.
Qed.

(** ** Examples *)

Definition plain (label idx : string) (y : Q) (derivs : nat) : res cfield :=
  do x <- mk_ifield (mkIargs (lit label) (AStr (lit idx)) (Some [(lit "y", Q2Qc y)]) false None (lit "fermi") None 1 derivs None);
  Ok (mkCF Plain x).

Definition got {A} (d : A) (r : res A) : A := match r with Ok a => a | Err _ => d end.

Definition no_field : cfield := mkCF Plain (mkIField (mkField [] [] [] false [] [] None 1 [] 1 0 None) [] (AStr [])).

Definition fields_of (l : list (res cfield)) : list cfield := got [] (mapM (fun x => x) l).

Definition slots_of (r : res (bool * list symbol)) := do x <- r; Ok (fst x, map (fun e => map slot (symbol_indices e)) (snd x)).

Definition vLL := fields_of [plain "L" "u0 i0" (-1#2) 0; plain "L" "u1 i1" (-1#2) 0].
Definition vLHL := fields_of [plain "L" "u0 i0" (-1#2) 0; plain "H" "i2" (1#2) 0; plain "eb" "u1" 1 0].
Definition vLLd := fields_of [plain "L" "u0 i0" (-1#2) 0; plain "L+" "d1 i1" (1#2) 0].
Definition vDLL := fields_of [plain "DL" "d0 i0" (-1#2) 1; plain "L" "u1 i1" (-1#2) 0].
Definition vlow (s : string) : str * itype * bool := (lit s, match s with String "d" _ => Dotted | _ => Undotted end, false).

Example C38_ex1 : vertex vLL /\ vLL <> [] /\ slots_of (get_lorentz_epsilons vLL) = Ok (true, [[vlow "u0"; vlow "u1"]]).
Proof. split; [apply vertexb_ok; vm_compute; reflexivity|]. split; [discriminate|]. vm_compute. reflexivity. Qed.

Example C38_ex2 : vertex vLHL /\ slots_of (get_lorentz_epsilons vLHL) = Ok (true, [[vlow "u0"; vlow "u1"]]).
Proof. split; [apply vertexb_ok; vm_compute; reflexivity|]. vm_compute. reflexivity. Qed.

Example C38_ex3 : vertex vLLd /\ slots_of (get_lorentz_epsilons vLLd) = Ok (false, []).
Proof. split; [apply vertexb_ok; vm_compute; reflexivity|]. vm_compute. reflexivity. Qed.

(** the hypotheses of C38_allowed hold of L H eb *)
Example C38_ex4 : exists es, get_lorentz_epsilons vLHL = Ok (true, es) /\ derivs_on vLHL = 0 /\ List.length vLHL = 3 /\
  (forall x, In x vLHL -> boson x -> scalar x).
Proof.
  eexists. split; [vm_compute; reflexivity|]. split; [reflexivity|]. split; [reflexivity|].
  intros x [<-|[<-|[<-|[]]]] B; try (apply bosonb_spec in B; vm_compute in B; discriminate B). split; reflexivity.
Qed.

(** A derivative of a fermion in the larger representation, next to a fermion: three undotted indices, and the tuple of
    indices has no [pop]. *)
Definition vbad := fields_of [plain "DL" "u0 u2 d0 i0" (-1#2) 1; plain "L" "u1 i1" (-1#2) 0].

Theorem C38_total_refuted : exists fs, vertex fs /\ List.length fs = 2 /\ derivs_on fs = 1 /\ get_lorentz_epsilons fs = Err AttributeError.
Proof. exists vbad. split; [apply vertexb_ok; vm_compute; reflexivity|]. split; [reflexivity|]. split; [reflexivity|]. vm_compute. reflexivity. Qed.

(** Two scalars and one fermion: an assertion fails. *)
Definition vssf := fields_of [plain "L" "u0 i0" (-1#2) 0; plain "H" "i2" (1#2) 0; plain "H" "i1" (1#2) 0].

Theorem C38_assertion_refuted : exists fs, vertex fs /\ List.length fs = 3 /\ derivs_on fs = 0 /\ get_lorentz_epsilons fs = Err AssertionError.
Proof. exists vssf. split; [apply vertexb_ok; vm_compute; reflexivity|]. split; [reflexivity|]. split; [reflexivity|]. vm_compute. reflexivity. Qed.

Definition symbols_from (l : list string) : list symbol := got [] (mapM (fun s => eps (lit s)) l).

Definition symbol_okb (e : symbol) : bool := forallb cleanb (symbol_indices e) && ((List.length (symbol_indices e) =? 2) || (List.length (symbol_indices e) =? 3)).

Lemma symbol_okb_ok es : forallb symbol_okb es = true -> Forall symbol_ok es.
Proof.
  intros H. apply Forall_forall. intros e I. rewrite forallb_forall in H. specialize (H e I). unfold symbol_okb in H. apply andb_true_iff in H as [C L].
  split; [|apply orb_true_iff in L as [L|L]; apply Nat.eqb_eq in L; auto]. apply Forall_forall. intros i Ii. rewrite forallb_forall in C. apply cleanb_ok, C, Ii.
Qed.

Definition unchainedb (es : list symbol) : bool :=
  let l := flat_map symbol_indices es in forallb (fun i => negb (existsb (opposite i) l)) l.

Lemma unchainedb_ok es : unchainedb es = true -> unchained es.
Proof.
  unfold unchainedb. cbv zeta. rewrite forallb_forall. intros H e e' i j He He' Hi Hj C.
  assert (I : In i (flat_map symbol_indices es)) by (apply in_flat_map; eauto). assert (J : In j (flat_map symbol_indices es)) by (apply in_flat_map; eauto).
  specialize (H i I). apply negb_true_iff in H. assert (existsb (opposite i) (flat_map symbol_indices es) = true); [|congruence].
  apply existsb_exists. exists j. split; [exact J|now apply opposite_spec].
Qed.

(** Q Q with a colour epsilon to another field, an isospin epsilon on both and one on other fields *)
Definition vQQ := fields_of [plain "Q" "u0 c0 i0" (1#6) 0; plain "Q" "u1 c1 i1" (1#6) 0].
Definition eQQ := symbols_from ["-i0 -i1"%string; "-i2 -i3"%string; "-c0 -c1 -c2"%string; "-i0 -i2"%string].

Definition names (r : res (list symbol * list symbol)) :=
  do x <- r; Ok (map (fun e => map ix_label (symbol_indices e)) (fst x), map (fun e => map ix_label (symbol_indices e)) (snd x)).

Example C39_ex1 : Forall symbol_ok eQQ /\ unchained eQQ /\
  names (separate_gauge_epsilons vQQ eQQ) =
  Ok ([[lit "-i2"; lit "-i3"]; [lit "-i0"; lit "-i2"]], [[lit "-i0"; lit "-i1"]; [lit "-c0"; lit "-c1"; lit "-c2"]]).
Proof.
  split; [apply symbol_okb_ok; vm_compute; reflexivity|]. split; [apply unchainedb_ok; vm_compute; reflexivity|]. vm_compute. reflexivity.
Qed.

(** Chained colour epsilons, as [colour_singlets] makes them: the split depends on the order. *)
Definition vchain := fields_of [plain "Q" "u0 c0 i0" (1#6) 0; plain "Q" "u1 c1 i1" (1#6) 0; plain "ub" "u2 -c2" (-2#3) 0].
Definition echain := symbols_from ["-c0 -c1 -c9"%string; "c2 c3 c9"%string].

Theorem C39_order_refuted : exists fs es, vertex fs /\ fs <> [] /\ Forall symbol_ok es /\ ~ unchained es /\
  exists s c s' c', separate_gauge_epsilons fs es = Ok (s, c) /\ separate_gauge_epsilons fs (rev es) = Ok (s', c') /\
    List.length c = 2 /\ List.length c' = 1.
Proof.
  exists vchain, echain. split; [apply vertexb_ok; vm_compute; reflexivity|]. split; [discriminate|].
  split; [apply symbol_okb_ok; vm_compute; reflexivity|]. split.
  - intros U. unfold echain, symbols_from in U. set (es := got [] _) in U. vm_compute in es. subst es.
    eapply (U _ _ _ _ (or_introl eq_refl) (or_intror (or_introl eq_refl)) (or_intror (or_intror (or_introl eq_refl))) (or_intror (or_intror (or_introl eq_refl)))).
    split; [|split]; reflexivity.
  - eexists. eexists. eexists. eexists. split; [vm_compute; reflexivity|]. split; [vm_compute; reflexivity|]. split; reflexivity.
Qed.

Print Assumptions C38_lorentz.
Print Assumptions C38_allowed.
Print Assumptions C38_total_refuted.
Print Assumptions C38_assertion_refuted.
Print Assumptions C39_split.
Print Assumptions C39_partition.
Print Assumptions C39_fields_only.
Print Assumptions C39_order.
Print Assumptions C39_two.
Print Assumptions C39_order_refuted.
