(** * PropsExotic3: contraction of the fields of a vertex (C40) *)

From Coq Require Import Ascii String List Bool Arith ZArith QArith Qcanon Lia Permutation Sorted.
From Verif Require Import Base BaseFacts Show ModelFunctions ProofsFunctions ModelIndex SpecIndex ProofsIndex PropsIndex ModelField SpecField
  ProofsField ProofsField2 PropsField PropsField2 ModelContract SpecContract ProofsContract PropsContract PropsContract3 ModelPartition
  ModelExotic SpecExotic ProofsExotic PropsExotic ProofsExotic2 PropsExotic2.
From Verif Require Spec.
Import ListNotations.
Local Open Scope nat_scope.

(** ** The Lorentz epsilons have labels of the documented form *)

Lemma pair_up_clean t l es : lorentz_type t -> Forall clean l -> Forall (fun i => ix_type i = t /\ ix_up i = true) l ->
  pair_up l = Ok es -> Forall clean (flat_map symbol_indices es).
Proof.
  intros Ht C F E. destruct (even_or_odd l) as [(m & M)|[S|K]].
  - pose proof (consecutive_length _ _ M) as L.
    assert (R : pair_up l = do l' <- chunks l 2; mapM (fun ij => match ij with
                         | [i; j] => eps (lit "-" ++ show_index i ++ lit " -" ++ show_index j)
                         | _ => Err ValueError end) l').
    { destruct l as [|x [|y r]]; [reflexivity|cbn in L; lia|]. unfold pair_up. rewrite L, Nat.mul_comm, Nat.mod_mul by lia. reflexivity. }
    rewrite R in E. unfold chunks in E. rewrite (consecutive_chunks _ _ M) in E by lia. cbn [bind] in E. clear R L.
    revert es E C F. induction M as [|a b l m M IH]; intros es E C F; [injection E as <-; constructor|].
    inversion C as [|? ? Ca C1]; subst. inversion C1 as [|? ? Cb C2]; subst. inversion F as [|? ? [Ta Ua] F1]; subst. inversion F1 as [|? ? [Tb Ub] F2]; subst.
    destruct (eps_minus (ix_type a) a b) as (a' & b' & Ee & N1 & N2 & Ca' & Cb'); auto; [red in Ht; tauto|].
    cbn [map mapM fst snd] in E. rewrite Ee in E. cbn [bind] in E. apply bind_ok in E as (es' & E' & E). injection E as <-.
    cbn [flat_map symbol_indices app]. constructor; [exact Ca'|]. constructor; [exact Cb'|]. eapply IH; eauto.
  - red in S. destruct l as [|x [|y r]]; cbn in S; try lia. injection E as <-. constructor.
  - destruct K as (n & K). destruct l as [|x [|y r]]; cbn [List.length] in K; try lia. unfold pair_up in E. cbn [List.length] in E. rewrite K in E.
    replace (2 * n + 3) with (1 + (n + 1) * 2) in E by lia. rewrite Nat.mod_add in E by lia. discriminate E.
Qed.

Lemma pair_lorentz_clean fs b es : Forall legit fs -> fs <> [] -> pair_lorentz fs = Ok (b, es) -> Forall clean (flat_map symbol_indices es).
Proof.
  intros L N E. unfold pair_lorentz in E. rewrite c_reduce_ok in E by now destruct fs. cbn [bind] in E. rewrite cnormalise_fields in E.
  assert (L' : Forall legit (classed fs)) by (eapply Permutation_Forall; [apply classed_perm|exact L]).
  assert (H : forall t, lorentz_type t -> Forall clean (by_type t (c_indices (map KField (classed fs)))) /\
                        Forall (fun i => ix_type i = t /\ ix_up i = true) (by_type t (c_indices (map KField (classed fs))))).
  { intros t Ht.
    assert (X : forall i, In i (by_type t (c_indices (map KField (classed fs)))) -> ix_type i = t /\ exists x, In x (classed fs) /\ In i (indices_of x)).
    { intros i I. rewrite by_type_has in I. apply filter_In in I as [I T]. apply has_type_iff in T. split; [exact T|].
      assert (Y : In i (flat_map indices_of (classed fs))); [|apply in_flat_map in Y; exact Y].
      rewrite <- op_indices_fields. destruct (classed fs) as [|x [|y r]]; cbn [map c_indices] in I; [exact I| |].
      - cbn. now rewrite app_nil_r.
      - apply filter_In in I. apply I. }
    rewrite Forall_forall in L'. split; apply Forall_forall; intros i I; destruct (X i I) as (T & x & Ix & Ii); destruct (L' x Ix) as (C & U & _).
    - rewrite Forall_forall in C. auto.
    - split; [exact T|]. apply (U i Ii). red. red in Ht. rewrite T. tauto. }
  destruct (_ && _) in E; [injection E as _ <-; constructor|].
  apply bind_ok in E as (a & Ea & E). apply bind_ok in E as (d & Ed & E). injection E as _ <-. rewrite flat_map_app. apply Forall_app.
  destruct (H Undotted (or_introl eq_refl)) as [C1 F1]. destruct (H Dotted (or_intror eq_refl)) as [C2 F2].
  split; [apply (pair_up_clean Undotted _ _ (or_introl eq_refl) C1 F1 Ea)|apply (pair_up_clean Dotted _ _ (or_intror eq_refl) C2 F2 Ed)].
Qed.

Lemma lorentz_clean fs b es : Forall legit fs -> fs <> [] -> get_lorentz_epsilons fs = Ok (b, es) -> Forall clean (flat_map symbol_indices es).
Proof.
  intros L N E. unfold get_lorentz_epsilons in E. cbv zeta in E.
  destruct (2 <? _) in E; [discriminate E|]. destruct (_ && _) in E; [injection E as _ <-; constructor|].
  destruct (_ && (List.length fs =? 3)) eqn:B3 in E.
  - apply bind_ok in E as (s & _ & E). destruct s; [injection E as _ <-; constructor|]. apply bind_ok in E as (f & _ & E).
    destruct f; [injection E as _ <-; constructor|]. apply bind_ok in E as (l & El & E). rewrite drop_scalar_ok in El by exact L.
    destruct (_ =? 1) eqn:One in El; [|discriminate El]. injection El as <-. eapply pair_lorentz_clean; [| |exact E].
    + apply Forall_forall. intros x I. apply filter_In in I as [I _]. rewrite Forall_forall in L. auto.
    + intros Z. apply andb_true_iff in B3 as [_ B3]. apply Nat.eqb_eq in B3, One.
      assert (S : forall l : list cfield, List.length (filter bosonb l) + List.length (filter (fun x => negb (bosonb x)) l) = List.length l).
      { induction l as [|x l IH]; [reflexivity|]. cbn [filter]. destruct (bosonb x); cbn [negb List.length]; lia. }
      specialize (S fs). rewrite Z in S. cbn in S. lia.
  - destruct (_ && _) in E.
    + eapply pair_lorentz_clean; [| |exact E]; [eapply Permutation_Forall; [apply sort_perm|exact L]|].
      intros Z. apply (f_equal (@List.length _)) in Z. rewrite <- (Permutation_length (sort_perm _ fs)) in Z. now destruct fs.
    + eapply pair_lorentz_clean; eauto.
Qed.

(** ** What the Lorentz epsilons contract *)

(** low spin: fermions have one Lorentz index *)
Lemma low_boson x : low_spin x -> boson x -> scalar x.
Proof. unfold low_spin, boson, scalar. intros L (n & E). lia. Qed.

Lemma lorentz_counterparts fs es : vertex fs -> fs <> [] -> get_lorentz_epsilons fs = Ok (true, es) ->
  exists l, Forall2 counterpart l (flat_map symbol_indices es) /\ NoDup (map slot l) /\
    forall i, In i l -> In i (flat_map indices_of fs) /\ lorentz_type (ix_type i).
Proof.
  intros V N E. pose proof (C38_lorentz fs V N) as T. rewrite E in T. destruct V as [L ND].
  assert (Zero : es = [] -> exists l, Forall2 counterpart l (flat_map symbol_indices es) /\ NoDup (map slot l) /\
    forall i, In i l -> In i (flat_map indices_of fs) /\ lorentz_type (ix_type i)).
  { intros ->. exists []. split; [constructor|]. split; [constructor|]. intros i []. }
  assert (Main : forall fs' r, lorentz_pairing fs' (Ok (true, es)) -> Permutation fs (fs' ++ r) ->
    exists l, Forall2 counterpart l (flat_map symbol_indices es) /\ NoDup (map slot l) /\
    forall i, In i l -> In i (flat_map indices_of fs) /\ lorentz_type (ix_type i)).
  { intros fs' r P Pm. destruct (pairing_leaves _ _ P) as (l & F2 & Hl). exists l. split; [exact F2|].
    assert (Pi : Permutation (flat_map indices_of fs) (flat_map indices_of fs' ++ flat_map indices_of r)) by (rewrite <- flat_map_app; now apply Permutation_flat_map).
    assert (Nd : NoDup (map slot (flat_map indices_of fs'))).
    { apply (Permutation_NoDup (Permutation_map slot Pi)) in ND. rewrite map_app in ND. clear - ND. induction (map slot (flat_map indices_of fs')) as [|a m IH]; [constructor|].
      inversion ND as [|? ? Na Nd]; subst. constructor; [intros I; apply Na; apply in_app_iff; now left|auto]. }
    assert (On : forall t i, In i (indices_on t fs') -> In i (flat_map indices_of fs) /\ ix_type i = t).
    { intros t i I. apply filter_In in I as [I T']. apply has_type_iff in T'. split; [|exact T'].
      eapply Permutation_in; [apply Permutation_sym, Pi|]. apply in_app_iff. now left. }
    assert (Nt : forall t, NoDup (map slot (indices_on t fs'))) by (intros t; now apply NoDup_filter_map).
    assert (Nut : NoDup (map slot (indices_on Undotted fs' ++ indices_on Dotted fs'))).
    { apply NoDup_slots_app; auto. intros i j I J. apply On in I as [_ I], J as [_ J]. congruence. }
    split.
    - destruct Hl as [->|(i0 & [[_ ->]|[_ ->]])]; auto.
    - intros i I. assert (X : In i (indices_on Undotted fs') \/ In i (indices_on Dotted fs')).
      { destruct Hl as [->|(i0 & [[_ ->]|[_ ->]])]; auto. apply in_app_iff in I. exact I. }
      destruct X as [X|X]; apply On in X as [X1 X2]; (split; [exact X1|red; auto]). }
  inversion T as [| | | |s a b a' b' r D P Bs Fa Fb O X Pr| |fs' fs'' r D Le O1 O2 Pr|fs' r D D0 D2 O Pr]; subst; try (apply Zero; reflexivity).
  - apply (Main [a'; b'] [s] Pr). rewrite P. apply ordered_perm in O. rewrite <- O. apply (Permutation_cons_append [a; b] s).
  - apply (Main fs'' [] Pr). rewrite app_nil_r. apply ordered_perm in O1, O2. now rewrite O1.
  - apply (Main fs' [] Pr). rewrite app_nil_r. now apply ordered_perm in O.
Qed.

(** ** The product of a vertex is ready *)

Lemma split_isospin l es s c : split_symbols l es s c -> Forall gauge_symbol es -> forall l0,
  (forall i, ix_type i = Isospin -> met l i -> met l0 i) ->
  forall i, In i (flat_map symbol_indices c) -> ix_type i = Isospin -> met l0 i.
Proof.
  induction 1 as [l|l e i j es s c E Mi Mj S IH|l e i j es s c E NM S IH|l e i j k es s c E Mi Mj Mk S IH|l e i j k es s c P Mi Mj NMk S IH|l e i j k es s c P NMi NMj S IH];
    intros G l0 H q I Ti; try (inversion G as [|? ? Ge G']; subst); [destruct I| | | | |].
  - cbn [flat_map] in I. rewrite E in I. destruct I as [<-|[<-|I]]; [auto|auto|apply (IH G' l0 H q I Ti)].
  - eapply IH; eauto.
  - cbn [flat_map] in I. rewrite E in I. destruct I as [<-|[<-|[<-|I]]]; [auto|auto|auto|apply (IH G' l0 H q I Ti)].
  - assert (Cl : forall a, In a (symbol_indices e) -> ix_type a = Colour).
    { destruct Ge as [_ [C|[L _]]]; [exact C|]. apply Permutation_length in P. cbn in P. congruence. }
    cbn [flat_map] in I. apply in_app_iff in I as [I|I]; [rewrite (Cl q I) in Ti; discriminate Ti|].
    apply (IH G' l0); auto. intros a Ta (b & B & C). apply in_app_iff in B as [B|[<-|[]]]; [apply H; [exact Ta|exists b; auto]|].
    destruct C as (_ & Tk & _). rewrite (Cl k), Ta in Tk; [discriminate Tk|]. eapply Permutation_in; [apply Permutation_sym, P|]. right. right. now left.
  - eapply IH; eauto.
Qed.

Section Product.
  Variables (fs : list cfield) (gauge lor sp c : list symbol).
  Hypothesis C : contractible fs gauge.
  Hypothesis Two : 2 <= List.length fs.
  Hypothesis El : get_lorentz_epsilons fs = Ok (true, lor).
  Hypothesis Es : separate_gauge_epsilons fs gauge = Ok (sp, c).
  Hypothesis Four : List.length fs = 4 -> Forall boson fs.

  Let T := cnormalise (map KField fs ++ map KSym lor ++ map KSym c).
  Let If := flat_map indices_of fs.
  Let Il := flat_map symbol_indices lor.
  Let Ic := flat_map symbol_indices c.

  Lemma pr_nonempty : fs <> [].
  Proof. destruct fs; [cbn in Two; lia|discriminate]. Qed.

  Lemma pr_nodup : NoDup (map slot If) /\ NoDup (map slot (flat_map symbol_indices gauge)) /\
    forall i j, In i If -> In j (flat_map symbol_indices gauge) -> slot i <> slot j.
  Proof.
    pose proof (cn_once _ _ C) as N. unfold vertex_indices in N. rewrite map_app in N. fold If in N. split; [|split].
    - clear - N. induction (map slot If) as [|a l IH]; [constructor|]. inversion N as [|? ? Na Nd]; subst. constructor; [intros I; apply Na, in_app_iff; now left|auto].
    - clear - N. induction (map slot If) as [|a l IH]; [exact N|]. apply IH. now inversion N.
    - intros i j I J E. apply (in_map slot) in I, J. rewrite E in I. clear - N I J. induction (map slot If) as [|a l IH]; [destruct I|].
      inversion N as [|? ? Na Nd]; subst. destruct I as [->|I]; [apply Na, in_app_iff; now right|auto].
  Qed.

  Lemma pr_vertex : vertex fs.
  Proof. split; [exact (cn_legit _ _ C)|apply pr_nodup]. Qed.

  Lemma pr_symbols : Forall symbol_ok gauge.
  Proof. eapply Forall_impl; [|exact (cn_gauge _ _ C)]. now intros e []. Qed.

  Lemma pr_perm : Permutation gauge (sp ++ c).
  Proof. eapply (C39_partition fs gauge sp c pr_nonempty pr_symbols Es). Qed.

  Lemma pr_c_in e : In e c -> In e gauge.
  Proof. intros I. eapply Permutation_in; [apply Permutation_sym, pr_perm|]. apply in_app_iff. now right. Qed.

  Lemma pr_Ic i : In i Ic -> In i (flat_map symbol_indices gauge).
  Proof. intros I. apply in_flat_map in I as (e & He & I). apply in_flat_map. exists e. split; [now apply pr_c_in|exact I]. Qed.

  Lemma pr_Ic_type i : In i Ic -> ix_type i = Colour \/ (ix_type i = Isospin /\ ix_up i = false).
  Proof.
    intros I. apply in_flat_map in I as (e & He & I). pose proof (cn_gauge _ _ C) as G. rewrite Forall_forall in G.
    destruct (G e (pr_c_in e He)) as [_ [H|[_ H]]]; [left; auto|right; auto].
  Qed.

  Lemma pr_Ic_met i : In i Ic -> ix_type i = Isospin -> exists j, In j If /\ counterpart i j.
  Proof.
    intros I Ti. destruct (C39_split fs gauge pr_nonempty pr_symbols) as (s' & c' & l & E' & Hl & S). rewrite Es in E'. injection E' as <- <-.
    destruct (split_isospin l gauge sp c S (cn_gauge _ _ C) l (fun _ _ M => M) i I Ti) as (j & J & Cj). exists j. split; [|exact Cj].
    apply Hl in J as [J _]. now rewrite product_of_indices in J.
  Qed.

  Lemma pr_indices : Permutation (op_indices (cop_erase T)) (If ++ Il ++ Ic).
  Proof.
    unfold T. etransitivity; [apply Permutation_sym, cop_perm_indices, cnormalise_perm|].
    rewrite !op_indices_app, op_indices_fields, !op_indices_syms. reflexivity.
  Qed.

  Lemma pr_in i : In i (op_indices (cop_erase T)) <-> In i If \/ In i Il \/ In i Ic.
  Proof. rewrite <- !in_app_iff. split; apply Permutation_in; [|apply Permutation_sym]; exact pr_indices. Qed.

  Lemma pr_If_raised i : In i If -> su2_type (ix_type i) -> ix_up i = true.
  Proof.
    intros I S. apply in_flat_map in I as (x & Ix & I). pose proof (cn_legit _ _ C) as L. rewrite Forall_forall in L. destruct (L x Ix) as (_ & U & _). auto.
  Qed.

  (** an index of a Lorentz epsilon is the counterpart of an index of a field *)
  Lemma pr_Il i : In i Il -> exists j, In j If /\ lorentz_type (ix_type j) /\ counterpart j i.
  Proof.
    intros I. destruct (lorentz_counterparts fs lor pr_vertex pr_nonempty El) as (l & F & _ & H). fold Il in F.
    clear - I F H. induction F as [|a b l m Cab F IH]; [destruct I|]. destruct I as [->|I].
    - exists a. destruct (H a (or_introl eq_refl)). auto.
    - apply IH; [exact I|]. intros k K. apply H. now right.
  Qed.

  Lemma pr_Il_low i : In i Il -> lorentz_type (ix_type i) /\ ix_up i = false.
  Proof.
    intros I. destruct (pr_Il i I) as (j & J & Tj & (_ & Ti & Ui)). rewrite Ti, Ui. split; [exact Tj|]. rewrite (pr_If_raised j J); [reflexivity|]. red. red in Tj. tauto.
  Qed.

  (** free indices are those of fields, or colour indices of epsilons *)
  Lemma pr_free i : is_free (cop_erase T) i -> In i If \/ (In i Ic /\ ix_type i = Colour).
  Proof.
    intros [I F]. apply pr_in in I as [I|[I|I]]; [now left| |].
    - exfalso. destruct (pr_Il i I) as (j & J & _ & Cj). apply (F j); [apply pr_in; now left|]. now apply counterpart_sym.
    - right. split; [exact I|]. destruct (pr_Ic_type i I) as [Ti|[Ti _]]; [exact Ti|]. exfalso.
      destruct (pr_Ic_met i I Ti) as (j & J & Cj). apply (F j); [apply pr_in; now left|exact Cj].
  Qed.

  Lemma pr_free_vertex i : is_free (cop_erase T) i -> In i (vertex_indices fs gauge).
  Proof. intros F. unfold vertex_indices. apply in_app_iff. destruct (pr_free i F) as [I|[I _]]; [left; exact I|right; now apply pr_Ic]. Qed.

  Lemma pr_proper : proper_op (cop_erase T).
  Proof.
    red. eapply Permutation_NoDup; [apply Permutation_sym, Permutation_map, pr_indices|]. destruct pr_nodup as (Nf & Ng & D). rewrite !map_app.
    assert (Nl : NoDup (map slot Il)).
    { destruct (lorentz_counterparts fs lor pr_vertex pr_nonempty El) as (l & F & N & _). fold Il in F. clear - F N.
      induction F as [|a b l m Cab F IH]; [constructor|]. cbn [map] in *. inversion N as [|? ? Na N']; subst. constructor; [|auto].
      intros I. apply Na. apply in_map_iff in I as (k & Ek & K). clear - F K Ek Cab.
      induction F as [|a' b' l m C' F IH]; [destruct K|]. destruct K as [->|K]; [left|right; auto].
      destruct Cab as (N1 & T1 & U1), C' as (N2 & T2 & U2). injection Ek as E1 E2 E3. unfold slot. rewrite N1, N2 in E1. rewrite T1, T2 in E2. rewrite U1, U2 in E3.
      rewrite E1, E2. f_equal. now destruct (ix_up a), (ix_up a'). }
    assert (Nc : NoDup (map slot Ic)).
    { assert (P : Permutation (map slot (flat_map symbol_indices gauge)) (map slot (flat_map symbol_indices sp) ++ map slot Ic)).
      { rewrite <- map_app. apply Permutation_map. unfold Ic. rewrite <- flat_map_app. apply Permutation_flat_map, pr_perm. }
      apply (Permutation_NoDup P) in Ng. clear - Ng. induction (map slot (flat_map symbol_indices sp)) as [|a m IH]; [exact Ng|]. apply IH. now inversion Ng. }
    apply NoDup_app_intro; [exact Nf| |].
    - apply NoDup_app_intro; [exact Nl|exact Nc|]. intros q I J. apply in_map_iff in I as (i & <- & I). apply in_map_iff in J as (j & E & J).
      destruct (pr_Il_low i I) as [Ti _]. injection E as _ E _. destruct (pr_Ic_type j J) as [Tj|[Tj _]]; rewrite Tj in E; rewrite <- E in Ti; destruct Ti as [Ti|Ti]; discriminate Ti.
    - intros q I J. apply in_map_iff in I as (i & <- & I). apply in_app_iff in J as [J|J]; apply in_map_iff in J as (j & E & J).
      + destruct (pr_Il_low j J) as [Tj Uj]. injection E as _ E2 E3. rewrite (pr_If_raised i I) in E3; [congruence|]. rewrite <- E2. red. red in Tj. tauto.
      + apply (D i j I (pr_Ic j J)). now symmetry.
  Qed.

  Lemma pr_clean : Forall clean (op_indices (cop_erase T)).
  Proof.
    apply Forall_forall. intros i I. apply pr_in in I as [I|[I|I]].
    - apply in_flat_map in I as (x & Ix & I). pose proof (cn_legit _ _ C) as L. rewrite Forall_forall in L. destruct (L x Ix) as (Cx & _). rewrite Forall_forall in Cx. auto.
    - pose proof (lorentz_clean fs true lor (cn_legit _ _ C) pr_nonempty El) as F. rewrite Forall_forall in F. auto.
    - apply in_flat_map in I as (e & He & I). pose proof pr_symbols as F. rewrite Forall_forall in F. destruct (F e (pr_c_in e He)) as [Ce _]. rewrite Forall_forall in Ce. auto.
  Qed.

  Lemma pr_cfields : Permutation (cfields T) fs.
  Proof.
    unfold T. etransitivity; [apply Permutation_sym, cop_perm_fields, cnormalise_perm|]. unfold cfields. rewrite !flat_map_app.
    fold (cfields (map KField fs)) (cfields (map KSym lor)) (cfields (map KSym c)). rewrite !cfields_syms, !app_nil_r.
    assert (E : cfields (map KField fs) = fs); [|now rewrite E]. clear. induction fs as [|x l IH]; [reflexivity|]. cbn. f_equal. exact IH.
  Qed.

  Lemma pr_csymbols : Permutation (csymbols T) (lor ++ c).
  Proof.
    unfold T. etransitivity; [apply Permutation_sym, cop_perm_symbols, cnormalise_perm|]. unfold csymbols. rewrite !flat_map_app.
    fold (csymbols (map KField fs)) (csymbols (map KSym lor)) (csymbols (map KSym c)). rewrite !csymbols_syms.
    assert (E : csymbols (map KField fs) = []); [|now rewrite E]. clear. induction fs as [|x l IH]; [reflexivity|exact IH].
  Qed.

  Lemma pr_derivs : derivs_on fs = 0.
  Proof.
    pose proof (cn_derivs _ _ C) as D. unfold derivs_on. clear - D. induction D as [|x l Dx D IH]; [reflexivity|].
    cbn [map]. rewrite Dx. exact IH.
  Qed.

  Lemma product_ready : ready T.
  Proof.
    constructor.
    - unfold T. rewrite <- (Permutation_length (cnormalise_perm _)), !app_length, !map_length. lia.
    - intros E. pose proof pr_cfields as P. rewrite E in P. apply Permutation_nil in P. now apply pr_nonempty.
    - eapply Permutation_Forall; [apply Permutation_sym, pr_cfields|exact (cn_charges _ _ C)].
    - eapply Permutation_Forall; [apply Permutation_sym, pr_cfields|exact (cn_nf _ _ C)].
    - exact pr_proper.
    - exact pr_clean.
    - intros i F S. destruct (pr_free i F) as [I|[_ Ti]]; [now apply pr_If_raised|]. rewrite Ti in S. destruct S as [S|[S|S]]; discriminate S.
    - intros i j Fi Fj Ti Tj.
      assert (X : forall k, is_free (cop_erase T) k -> lorentz_type (ix_type k) -> is_free (product_of fs ++ map TSymbol lor) k).
      { intros k Fk Tk. assert (Id : forall a, In a (op_indices (product_of fs ++ map TSymbol lor)) <-> In a If \/ In a Il).
        { intros a. unfold op_indices. rewrite flat_map_app, in_app_iff. fold (op_indices (product_of fs)). rewrite product_of_indices.
          assert (Y : flat_map tensor_indices (map TSymbol lor) = Il) by (clear; unfold Il; induction lor as [|e r IH]; [reflexivity|]; cbn; now rewrite IH).
          rewrite Y. reflexivity. }
        destruct Fk as [Ik Fk]. split.
        - apply Id. apply pr_in in Ik as [Ik|[Ik|Ik]]; auto. destruct (pr_Ic_type k Ik) as [Y|[Y _]]; rewrite Y in Tk; destruct Tk as [Tk|Tk]; discriminate Tk.
        - intros a Ia. apply Fk. apply pr_in. apply Id in Ia. tauto. }
      pose proof (C38_allowed fs lor pr_vertex pr_nonempty El) as [H _].
      + intros _ x Ix. apply low_boson. pose proof (cn_spin _ _ C) as L. rewrite Forall_forall in L. auto.
      + intros _. exact Four.
      + apply H; [apply X; auto|auto|apply X; auto|auto].
    - intros t up Nt. set (l := filter (fun i => Bool.eqb (ix_up i) up) (filter (fun i => itype_eqb (ix_type i) t) (free_indices (cop_erase T)))).
      assert (Ls : lists (cop_erase T) t up l).
      { split; [apply NoDup_filter_map, NoDup_filter_map, NoDup_filter_map, pr_proper|]. intros i. unfold l. rewrite !filter_In, free_indices_spec, Bool.eqb_true_iff.
        split; [intros [[F Ti] U]; apply itype_decides in Ti; auto|intros (F & Ti & U); repeat split; auto; try apply F; now apply itype_decides]. }
      exists (List.length l). split; [|exists l; auto]. pose proof (cn_few _ _ C t up Nt) as B. rewrite count_kind_filter' in B.
      eapply Nat.le_lt_trans; [|exact B]. rewrite <- (map_length slot l), <- (map_length slot (filter _ _)). apply NoDup_incl_length; [apply Ls|].
      intros q I. apply in_map_iff in I as (i & <- & I). apply in_map. apply Ls in I as (F & Ti & U). rewrite !filter_In, Bool.eqb_true_iff.
      split; [|exact U]. split; [now apply pr_free_vertex|now apply itype_decides].
    - intros i j F J. apply pr_free_vertex in F.
      assert (X : exists k, In k (vertex_indices fs gauge) /\ ix_name k = ix_name j).
      { unfold vertex_indices. apply pr_in in J as [J|[J|J]].
        - exists j. split; [apply in_app_iff; now left|reflexivity].
        - destruct (pr_Il j J) as (k & K & _ & (Nk & _)). exists k. split; [apply in_app_iff; now left|now symmetry].
        - exists j. split; [apply in_app_iff; right; now apply pr_Ic|reflexivity]. }
      destruct X as (k & K & <-). now apply (cn_fresh _ _ C).
    - intros i F. apply (cn_dotted _ _ C). now apply pr_free_vertex.
  Qed.
End Product.

(** ** Contraction of a vertex *)

Lemma lorentz_raised x i : legit x -> In i (indices_of x) -> lorentz_type (ix_type i) -> ix_up i = true.
Proof. intros (_ & U & _) I T. apply U; [exact I|]. red. red in T. tauto. Qed.

Lemma count_has t x : legit x -> lorentz_type t -> List.length (filter (has_type t) (indices_of x)) = count_kind t true (indices_of x).
Proof.
  intros L T. rewrite count_kind_filter'. rewrite filter_filter. f_equal. apply filter_ext_in. intros i I.
  assert (H : has_type t i = itype_eqb (ix_type i) t) by (unfold has_type; now destruct (ix_type i), t). rewrite H.
  destruct (itype_eqb (ix_type i) t) eqn:E; [|now rewrite andb_false_r || reflexivity]. apply itype_decides in E. subst t.
  now rewrite (lorentz_raised x i L I T).
Qed.

Lemma few_lorentz t fs : Forall legit fs -> Forall low_spin fs -> lorentz_type t -> List.length (indices_on t fs) <= List.length fs.
Proof.
  intros L S T. unfold indices_on. induction fs as [|x fs IH]; [reflexivity|]. inversion L as [|? ? Lx L']; subst. inversion S as [|? ? Sx S']; subst.
  cbn [flat_map]. rewrite filter_app, app_length. cbn [List.length]. specialize (IH L' S'). rewrite (count_has t x Lx T). red in Sx. destruct T as [->| ->]; lia.
Qed.

Lemma not_stuck fs r : Forall legit fs -> Forall low_spin fs -> List.length fs <= 2 -> lorentz_pairing fs r -> r = Ok (false, []) \/ exists es, r = Ok (true, es).
Proof.
  intros L S N [(_ & _ & ->)|[(_ & [(n & H)|(n & H)] & _)|(_ & eu & ev & _ & _ & ->)]]; [now left| | |right; eauto].
  - pose proof (few_lorentz Undotted fs L S (or_introl eq_refl)). lia.
  - pose proof (few_lorentz Dotted fs L S (or_intror eq_refl)). lia.
Qed.

Lemma ordered_members {A} (key : A -> nat) l l' x : ordered_by key l l' -> In x l' -> In x l.
Proof.
  intros [_ H] I. assert (X : In x (filter (fun y => key y =? key x) l')) by (apply filter_In; split; [exact I|apply Nat.eqb_refl]).
  rewrite H in X. now apply filter_In in X.
Qed.

Lemma ordered_length {A} (key : A -> nat) l l' : ordered_by key l l' -> List.length l' = List.length l.
Proof.
  intros [_ H].
  assert (G : forall n (m : list A), List.length (filter (fun x => key x <? n) m) = list_sum (map (fun k => List.length (filter (fun x => key x =? k) m)) (seq 0 n))).
  { induction n as [|n IH]; intros m.
    - cbn. now rewrite filter_none by (intros; reflexivity).
    - rewrite seq_S, map_app, list_sum_app, <- IH. cbn [map plus Nat.add]. change (list_sum [?a]) with (a + 0). rewrite Nat.add_0_r.
      clear. induction m as [|x m IH]; [reflexivity|]. cbn [filter]. destruct (Nat.ltb_spec (key x) (S n)), (Nat.ltb_spec (key x) n), (Nat.eqb_spec (key x) n); cbn [List.length]; lia. }
  assert (B : exists n, (forall x, In x l -> key x < n) /\ (forall x, In x l' -> key x < n)).
  { exists (S (list_sum (map key l) + list_sum (map key l'))).
    assert (Y : forall x m, In x m -> key x <= list_sum (map key m)).
    { clear. induction m as [|y m IH]; [intros []|]. change (list_sum (map key (y :: m))) with (key y + list_sum (map key m)). intros [->|I]; [lia|specialize (IH I); lia]. }
    split; intros x I; specialize (Y x _ I); lia. }
  destruct B as (n & B1 & B2).
  assert (E1 : filter (fun x => key x <? n) l = l) by (apply filter_all; intros x I; apply Nat.ltb_lt; auto).
  assert (E2 : filter (fun x => key x <? n) l' = l') by (apply filter_all; intros x I; apply Nat.ltb_lt; auto).
  rewrite <- E1, <- E2, !G. f_equal. apply map_ext. intros k. now rewrite H.
Qed.

Definition odd_fermion (fs : list cfield) : Prop := exists s s' a, Permutation fs [s; s'; a] /\ boson s /\ boson s' /\ fermion a.

Lemma lorentz_ok fs : vertex fs -> Forall low_spin fs -> derivs_on fs = 0 -> (List.length fs = 2 \/ List.length fs = 3) -> ~ odd_fermion fs ->
  (get_lorentz_epsilons fs = Ok (false, []) /\ lorentz_table fs (Ok (false, []))) \/
  exists lor, get_lorentz_epsilons fs = Ok (true, lor) /\ lorentz_table fs (Ok (true, lor)).
Proof.
  intros V S D N O. assert (N0 : fs <> []) by (intros ->; cbn in N; lia). pose proof (C38_lorentz fs V N0) as T. destruct V as [L _].
  enough (X : get_lorentz_epsilons fs = Ok (false, []) \/ exists es, get_lorentz_epsilons fs = Ok (true, es)).
  { destruct X as [X|(es & X)]; rewrite X in T |- *; [left|right]; eauto. }
  remember (get_lorentz_epsilons fs) as r eqn:Er. clear Er. destruct T as [H|H1 H2|H1 H2 H3|H1 H2 H3|s a b a' b' r H1 P Bs Fa Fb Ob _ Pa|s s' a H1 P B1 B2 Fa|fs' fs'' r H1|fs' r H1 H2 H3 Ob Pa]; try lia; [right; eauto|now left| | |].
  - rewrite Forall_forall in L, S. assert (Sub : forall x, In x [a'; b'] -> In x fs).
    { intros x I. apply (ordered_members _ _ _ x Ob) in I. eapply Permutation_in; [apply Permutation_sym, P|]. now right. }
    apply (not_stuck [a'; b']); auto; apply Forall_forall; auto.
  - exfalso. apply O. exists s, s', a. auto.
  - apply (not_stuck fs'); auto.
    + rewrite Forall_forall in *. intros x I. apply L, (ordered_members _ _ _ x Ob I).
    + rewrite Forall_forall in *. intros x I. apply S, (ordered_members _ _ _ x Ob I).
    + rewrite (ordered_length _ _ _ Ob). specialize (H2 D). lia.
Qed.

Lemma no_derivs fs : Forall (fun x => f_derivs (i_field (cf_if x)) = 0) fs -> list_sum (map cf_derivs fs) = 0.
Proof. induction 1 as [|x l Dx D IH]; [reflexivity|]. change (cf_derivs x + list_sum (map cf_derivs l) = 0). rewrite IH. unfold cf_derivs. now rewrite Dx. Qed.

Theorem C40_contract : forall vanishes fs gauge st, contractible fs gauge -> (List.length fs = 2 \/ List.length fs = 3) -> ~ odd_fermion fs -> supplied st ->
  exists r st', contract vanishes fs gauge st = Ok (r, st') /\
    match r with
    | inl _ => (lorentz_table fs (Ok (false, [])) /\ st' = st) \/
               exists lor sp c op x p term, vertex_product fs gauge lor sp c op /\ stands_for op x p /\ interaction op p term /\
                 vanishes term = true /\ ~ NoDup (map bare_label (cfields term)) /\ exists sym, named x sym /\ spends x sym st st'
    | inr (x, term, sp, lor) =>
      exists c op p, vertex_product fs gauge lor sp c op /\ stands_for op x p /\ interaction op p term /\
        (NoDup (map bare_label (cfields term)) \/ vanishes term = false) /\ exists sym, named x sym /\ spends x sym st st'
    end.
Proof.
  intros vanishes fs gauge st C N O Su. assert (N0 : fs <> []) by (intros ->; cbn in N; lia).
  unfold contract. assert (E0 : negb ((List.length fs =? 2) || (List.length fs =? 3)) = false) by (destruct N as [->| ->]; reflexivity). rewrite E0.
  destruct (lorentz_ok fs (pr_vertex fs gauge C) (cn_spin _ _ C) (pr_derivs fs gauge C) N O) as [(E & T)|(lor & E & T)]; rewrite E; cbn [bind fst snd negb].
  - do 2 eexists. split; [reflexivity|]. left. auto.
  - destruct (C39_split fs gauge N0 (pr_symbols fs gauge C)) as (sp & c & l & Es & Hl & Sl). rewrite Es. cbn [bind fst snd].
    rewrite c_reduce_ok by (destruct fs; [congruence|discriminate]). cbn [bind].
    assert (R := product_ready fs gauge lor sp c C ltac:(lia) E Es ltac:(lia)). set (op := cnormalise _) in *.
    assert (Vp : vertex_product fs gauge lor sp c op).
    { split; [exact T|]. split; [now apply split_interleaved in Sl|]. split; [exists l; auto|]. split; [apply pr_cfields|apply pr_csymbols]. }
    destruct (C40_exotic vanishes op st R Su) as (x & p & t & st' & Ex & Sf & Sy & Ht). rewrite Ex. cbn [bind].
    destruct t as [reason|term].
    + do 2 eexists. split; [reflexivity|]. right. destruct Ht as (term & Ht1 & Ht2 & Ht3). exists lor, sp, c, op, x, p, term. auto 10.
    + destruct Ht as [Ht1 Ht2].
      assert (Ck : check_singlet term = Ok tt).
      { destruct Ht1 as (P & _ & Si & _). apply singlet_ok; [intros X; rewrite X in P; apply Permutation_nil in P; discriminate P| |exact Si].
        eapply Permutation_Forall; [apply Permutation_sym, P|]. constructor; [|exact (rd_charges _ R)]. apply Sf. }
      rewrite Ck. cbn [bind].
      assert (Dz : list_sum (map cf_derivs (cfields term)) = 0).
      { apply no_derivs. destruct Ht1 as (P & _). eapply Permutation_Forall; [apply Permutation_sym, P|]. constructor; [apply Sf|].
        eapply Permutation_Forall; [apply Permutation_sym, Vp|exact (cn_derivs _ _ C)]. }
      rewrite Dz. cbn [Nat.eqb bind]. rewrite Ck. cbn [bind]. do 2 eexists. split; [reflexivity|]. exists c, op, p. auto.
Qed.

(** ** Symbols *)

Lemma field_of_same a b : i_field (cf_if a) = i_field (cf_if b) -> field_of (cf_if a) = field_of (cf_if b).
Proof. intros E. unfold field_of. now rewrite E. Qed.

Lemma fields_of_same fs : forall fs', map (fun x => i_field (cf_if x)) fs = map (fun x => i_field (cf_if x)) fs' ->
  mapM (fun x => field_of (cf_if x)) fs = mapM (fun x => field_of (cf_if x)) fs'.
Proof.
  induction fs as [|a fs IH]; intros [|b fs'] E; try discriminate E; [reflexivity|]. cbn [map] in E.
  assert (E1 : i_field (cf_if a) = i_field (cf_if b)) by congruence. assert (E2 : map (fun x => i_field (cf_if x)) fs = map (fun x => i_field (cf_if x)) fs') by congruence.
  cbn [mapM]. now rewrite (field_of_same a b E1), (IH fs' E2).
Qed.

Lemma field_of_eqb x g : standard_charges x -> f_stripped (i_field (cf_if x)) = None -> field_of (cf_if x) = Ok g -> field_eqb g g = true.
Proof.
  intros S N E. unfold field_of, mk_field in E. cbn [bind] in E. destruct (_ && _) in E; [discriminate E|]. injection E as <-.
  apply field_eqb_refl; cbn [f_charges f_stripped]; [|rewrite N; discriminate]. rewrite S. cbn. repeat constructor; cbn; intuition discriminate.
Qed.

Lemma list_eqb_refl_all {A} (eqb : A -> A -> bool) l : (forall x, In x l -> eqb x x = true) -> list_eqb eqb l l = true.
Proof. induction l as [|x l IH]; intros H; [reflexivity|]. cbn [list_eqb]. rewrite (H x (or_introl eq_refl)). apply IH. intros y I. apply H. now right. Qed.

Lemma dget_extend {K V} (eqb : K -> K -> bool) (d e : list (K * V)) k v : dget eqb d k = Some v -> dget eqb (d ++ e) k = Some v.
Proof. induction d as [|[k' v'] d IH]; [discriminate|]. cbn [dget app]. destruct (eqb k k'); auto. Qed.

Lemma dget_added {K V} (eqb : K -> K -> bool) (d e : list (K * V)) k v : dget eqb d k = None -> eqb k k = true -> dget eqb (d ++ (k, v) :: e) k = Some v.
Proof. induction d as [|[k' v'] d IH]; cbn [dget app]; [now intros _ ->|]. destruct (eqb k k'); [discriminate|auto]. Qed.

(** The symbol of an exotic field is settled by its parents, without their indices: later products of fields with the same
    data get the same symbol, however they are contracted, and no symbol is taken. *)
Theorem C40_symbol : forall vanishes op op' st st1 st2 st3 x p t x' p' t', ready op -> ready op' -> supplied st -> supplied st2 ->
  Forall (fun y => f_stripped (i_field (cf_if y)) = None) (cfields op) ->
  map (fun y => i_field (cf_if y)) (cfields op) = map (fun y => i_field (cf_if y)) (cfields op') ->
  exotic_field_and_term vanishes op st = Ok ((x, p, t), st1) -> (exists d, st_dict st2 = st_dict st1 ++ d) ->
  exotic_field_and_term vanishes op' st2 = Ok ((x', p', t'), st3) ->
  st3 = st2 /\ exists s, named x s /\ named x' s.
Proof.
  intros vanishes op op' st st1 st2 st3 x p t x' p' t' R R' Su Su2 Ns Ef E (d & Ed) E'.
  destruct (exotic_full vanishes op st R Su) as (x0 & p0 & t0 & st0 & E0 & _ & (s & (Na & _) & fl & gs & Eg & Ep) & _). rewrite E in E0.
  assert (x0 = x) by congruence. assert (st0 = st1) by congruence. subst x0 st0. clear E0.
  destruct (exotic_full vanishes op' st2 R' Su2) as (x0 & p1 & t1 & st0 & E0 & _ & (s' & (Na' & _) & fl' & gs' & Eg' & Ep') & _). rewrite E' in E0.
  assert (x0 = x') by congruence. assert (st0 = st3) by congruence. subst x0 st0. clear E0.
  rewrite <- (fields_of_same _ _ Ef), Eg in Eg'. assert (gs' = gs) by congruence. subst gs'.
  set (ps := sort _ gs) in *.
  assert (Rf : list_eqb field_eqb ps ps = true).
  { apply list_eqb_refl_all. intros g I. assert (I' : In g gs) by (eapply Permutation_in; [apply Permutation_sym, sort_perm|exact I]).
    pose proof (rd_charges _ R) as Ch. clear - Eg I' Ns Ch. revert gs Eg I'. induction (cfields op) as [|y l IH]; intros gs Eg I'; [injection Eg as <-; destruct I'|].
    cbn [mapM] in Eg. apply bind_ok in Eg as (h & Eh & Eg). apply bind_ok in Eg as (hs & Ehs & Eg). injection Eg as <-.
    inversion Ns as [|? ? N1 N2]; subst. inversion Ch as [|? ? C1 C2]; subst. destruct I' as [->|I']; [now apply (field_of_eqb y)|eapply IH; eauto]. }
  assert (D : dget (list_eqb field_eqb) (st_dict st1) ps = Some s).
  { unfold pick_symbol in Ep. destruct (dget _ (st_dict st) ps) as [s0|] eqn:D; [assert (s0 = s) by congruence; assert (st = st1) by congruence; subst; exact D|].
    destruct (if fl then _ else _) as [|s1 r]; [discriminate Ep|]. assert (X : s1 = s) by congruence. assert (Y : dset (list_eqb field_eqb) (st_dict st) ps s1 = st_dict st1) by (injection Ep as _ <-; reflexivity).
    rewrite <- Y, X, (dset_new _ _ _ _ D). now apply dget_added. }
  unfold pick_symbol in Ep'. rewrite Ed, (dget_extend _ _ d _ _ D) in Ep'. split; [congruence|]. exists s. split; [exact Na|]. assert (s' = s) by congruence. now subst.
Qed.

(** Symbols are given out once. *)
Definition distinct_symbols (st : sstate) : Prop := NoDup (st_fermion st ++ st_boson st ++ map snd (st_dict st)).

Theorem C40_fresh_symbol : forall x s st st', distinct_symbols st -> spends x s st st' ->
  distinct_symbols st' /\ (st' = st \/ ~ In s (map snd (st_dict st))).
Proof.
  intros x s st st' N [[-> _]|((ps & Ed) & H)]; [auto|]. unfold distinct_symbols in *.
  assert (P : Permutation (st_fermion st ++ st_boson st ++ map snd (st_dict st)) (st_fermion st' ++ st_boson st' ++ map snd (st_dict st'))).
  { rewrite Ed, map_app. cbn [map snd]. destruct H as [(_ & -> & ->)|(_ & -> & ->)].
    - cbn [app]. rewrite !app_assoc. apply Permutation_cons_append.
    - apply Permutation_app_head. cbn [app]. rewrite !app_assoc. apply Permutation_cons_append. }
  split; [now apply (Permutation_NoDup P)|]. right. intros I.
  destruct H as [(_ & E & _)|(_ & E & _)]; rewrite E in N.
  - cbn [app] in N. inversion N as [|? ? X _]. apply X. rewrite !in_app_iff. auto.
  - apply (Permutation_NoDup (Permutation_app_comm _ _)) in N. cbn [app] in N. inversion N as [|? ? X _]. apply X. rewrite !in_app_iff. auto.
Qed.

(** ** Examples *)

Definition low_spinb (x : cfield) : bool := count_kind Undotted true (indices_of x) + count_kind Dotted true (indices_of x) <=? 1.
Definition standardb (x : cfield) : bool := match f_charges (i_field (cf_if x)) with [(k, _); (k', _)] => str_eqb k (lit "y") && str_eqb k' (lit "3b") | _ => false end.
Definition gauge_symbolb (e : symbol) : bool :=
  symbol_okb e && (forallb (fun i => itype_eqb (ix_type i) Colour) (symbol_indices e) ||
    (List.length (symbol_indices e) =? 2) && forallb (fun i => itype_eqb (ix_type i) Isospin && negb (ix_up i)) (symbol_indices e)).

Definition contractibleb (fs : list cfield) (gauge : list symbol) : bool :=
  let l := vertex_indices fs gauge in
  vertexb fs && forallb low_spinb fs && forallb standardb fs &&
  forallb (fun x => (f_nf (i_field (cf_if x)) =? 1) || (f_nf (i_field (cf_if x)) =? 3)) fs &&
  forallb (fun x => f_derivs (i_field (cf_if x)) =? 0) fs && forallb gauge_symbolb gauge &&
  nodup_slots l && forallb (fun t => (count_kind t true l <? 10) && (count_kind t false l <? 10)) [Undotted; Dotted; Colour; Isospin] &&
  forallb (fun i => forallb (fun j => negb (str_eqb (ix_name j) (ix_name i ++ lit "^"))) l) l &&
  forallb (fun i => negb (itype_eqb (ix_type i) Dotted) || negb (existsb (Ascii.eqb "u") (ix_name i))) l.

Lemma filter_le {A} (f : A -> bool) l : List.length (filter f l) <= List.length l.
Proof. induction l as [|x l IH]; [reflexivity|]. cbn [filter]. destruct (f x); cbn [List.length]; lia. Qed.

Lemma contractibleb_ok fs gauge : contractibleb fs gauge = true -> contractible fs gauge.
Proof.
  unfold contractibleb. rewrite !andb_true_iff, !forallb_forall. intros (((((((((V & Ls) & St) & Nf) & Dv) & Gs) & N) & Lt) & Fr) & Dt).
  constructor; try (apply Forall_forall; intros x I).
  - apply vertexb_ok in V as [L _]. rewrite Forall_forall in L. auto.
  - specialize (Ls x I). now apply Nat.leb_le in Ls.
  - specialize (St x I). unfold standardb in St. unfold standard_charges, hypercharge, baryon, charge_of. destruct (f_charges _) as [|[k v] [|[k' v'] [|]]]; try discriminate St.
    apply andb_true_iff in St as [H1 H2]. apply str_decides in H1, H2. subst k k'. reflexivity.
  - specialize (Nf x I). apply orb_true_iff in Nf as [H|H]; apply Nat.eqb_eq in H; [now left|now right].
  - now apply Nat.eqb_eq, Dv.
  - specialize (Gs x I). unfold gauge_symbolb in Gs. apply andb_true_iff in Gs as [S Gs]. split.
    + assert (F : Forall symbol_ok [x]) by (apply symbol_okb_ok; cbn; now rewrite S). now inversion F.
    + apply orb_true_iff in Gs as [H|H]; [left|right].
      * intros i Ii. rewrite forallb_forall in H. apply itype_decides, H, Ii.
      * apply andb_true_iff in H as [H1 H2]. apply Nat.eqb_eq in H1. split; [exact H1|]. intros i Ii. rewrite forallb_forall in H2. specialize (H2 i Ii).
        apply andb_true_iff in H2 as [H2 H3]. apply itype_decides in H2. apply negb_true_iff in H3. auto.
  - now apply nodup_slots_ok.
  - intros t up Ng. assert (X : In t [Undotted; Dotted; Colour; Isospin]) by (destruct t; cbn; tauto). specialize (Lt t X). apply andb_true_iff in Lt as [L1 L2].
    apply Nat.ltb_lt in L1, L2. destruct up; assumption.
  - intros i j I J E. specialize (Fr i I). rewrite forallb_forall in Fr. specialize (Fr j J). rewrite E, (decides_refl str_decides) in Fr. discriminate Fr.
  - intros i I T U. specialize (Dt i I). rewrite T in Dt. cbn [itype_eqb negb orb] in Dt. apply negb_true_iff in Dt.
    assert (X : existsb (Ascii.eqb "u") (ix_name i) = true) by (apply existsb_exists; exists "u"%char; split; [exact U|reflexivity]). congruence.
Qed.

Lemma start_supplied : supplied start_symbols.
Proof.
  split; [discriminate|]. split; [discriminate|]. apply Forall_forall. intros s I. 
  assert (X : forallb (fun s => match to_tex s with Ok _ => true | Err _ => false end) (st_fermion start_symbols ++ st_boson start_symbols ++ map snd (st_dict start_symbols)) = true) by (vm_compute; reflexivity).
  rewrite forallb_forall in X. specialize (X s I). destruct (to_tex s) as [t|]; [eauto|discriminate X].
Qed.

Lemma start_distinct : distinct_symbols start_symbols.
Proof.
  unfold distinct_symbols. assert (X : no_repeats (st_fermion start_symbols ++ st_boson start_symbols ++ map snd (st_dict start_symbols)) = true) by (vm_compute; reflexivity).
  now apply no_repeats_iff.
Qed.

(** what is shown of a result: label, Dynkin labels, indices, number of fields and symbols of the term, epsilons left *)
Definition shown (r : res ((str + cfield * cop * list symbol * list symbol) * sstate)) :=
  match r with
  | Ok (inr (x, t, sp, lor), _) => Some (f_label (i_field (cf_if x)), f_dynkin (i_field (cf_if x)), cf_class x, map slot (indices_of x), List.length (cfields t), List.length (csymbols t), List.length sp)
  | _ => None
  end.

Definition vQL := fields_of [plain "Q" "u0 c0 i0" (1#6) 0; plain "L" "u1 i1" (-1#2) 0].
Definition vQQ := fields_of [plain "Q" "u0 c0 i0" (1#6) 0; plain "Q" "u1 c1 i1" (1#6) 0].

(** two doublets make a triplet with the first boson symbol; contracted with epsilon, a singlet *)
Example C40_ex1 : contractible vLL [] /\ ~ odd_fermion vLL /\
  exists x t sp lor st, contract (fun _ => false) vLL [] start_symbols = Ok (inr (x, t, sp, lor), st) /\
    f_dynkin (i_field (cf_if x)) = lit "00002" /\ cf_class x = ComplexScalar /\ f_label (i_field (cf_if x)) = [ascii_of_nat 179] /\ this (hypercharge x) = (-1)%Q.
Proof.
  split; [apply contractibleb_ok; vm_compute; reflexivity|]. split.
  - intros (s & s' & a & P & _). apply Permutation_length in P. discriminate P.
  - remember (contract (fun _ => false) vLL [] start_symbols) as r eqn:E. vm_compute in E. subst r. do 5 eexists. split; [reflexivity|]. repeat split.
Qed.

Example C40_ex2 : contractible vLHL [] /\ odd_fermion vssf /\ contract (fun _ => false) vssf [] start_symbols = Err AssertionError.
Proof.
  split; [apply contractibleb_ok; vm_compute; reflexivity|]. split; [|vm_compute; reflexivity].
  set (l := vssf). unfold odd_fermion. vm_compute in l. subst l. do 3 eexists. split; [match goal with |- Permutation (?a :: ?l) _ => exact (Permutation_cons_append l a) end|].
  split; [exists 0; reflexivity|]. split; [exists 0; reflexivity|]. intros (n & H). change (1 = 2 * n) in H. lia.
Qed.

(** One symbol for two fields: L L contracted to a triplet and to a singlet under the same label. *)
Theorem C40_label_refuted : exists fs fs' g', contractible fs [] /\ contractible fs' g' /\
  exists x t sp lor st x' t' sp' lor' st',
    contract (fun _ => false) fs [] start_symbols = Ok (inr (x, t, sp, lor), st) /\
    contract (fun _ => false) fs' g' st = Ok (inr (x', t', sp', lor'), st') /\
    f_label (i_field (cf_if x)) = f_label (i_field (cf_if x')) /\
    f_dynkin (i_field (cf_if x)) = lit "00002" /\ f_dynkin (i_field (cf_if x')) = lit "00000".
Proof.
  exists vLL, (fields_of [plain "L" "u2 i2" (-1#2) 0; plain "L" "u3 i3" (-1#2) 0]), (symbols_from ["-i2 -i3"%string]).
  split; [apply contractibleb_ok; vm_compute; reflexivity|]. split; [apply contractibleb_ok; vm_compute; reflexivity|].
  remember (contract (fun _ => false) vLL [] start_symbols) as r eqn:E. vm_compute in E. subst r. do 10 eexists. split; [reflexivity|].
  split; [vm_compute; reflexivity|]. repeat split.
Qed.

(** 3b is not conserved by right-handed Majorana fermions: two fields with 3b in all make one with the opposite. *)
Definition withb (label idx : string) (y b : Q) : res cfield :=
  do x <- mk_ifield (mkIargs (lit label) (AStr (lit idx)) (Some [(lit "y", Q2Qc y); (lit "3b", Q2Qc b)]) false None (lit "fermi") None 1 0 None);
  Ok (mkCF Plain x).

Theorem C40_baryon_refuted : exists fs gauge, contractible fs gauge /\
  exists x t sp lor st, contract (fun _ => false) fs gauge start_symbols = Ok (inr (x, t, sp, lor), st) /\
    this (sum_of baryon fs) = 1%Q /\ this (baryon x) = (-1)%Q /\ sum_of baryon (cfields t) <> Q2Qc 0.
Proof.
  exists (fields_of [withb "X" "d0" (1#2) 1; withb "S" "" (-1#2) 0]), [].
  split; [apply contractibleb_ok; vm_compute; reflexivity|].
  remember (contract (fun _ => false) (fields_of [withb "X" "d0" (1#2) 1; withb "S" "" (-1#2) 0]) [] start_symbols) as r eqn:E. vm_compute in E. subst r.
  do 5 eexists. split; [reflexivity|]. split; [vm_compute; reflexivity|]. split; [vm_compute; reflexivity|]. intros X. apply (f_equal this) in X. vm_compute in X. discriminate X.
Qed.

Print Assumptions C40_exotic.
Print Assumptions C40_contract.
Print Assumptions C40_symbol.
Print Assumptions C40_fresh_symbol.
Print Assumptions C40_label_refuted.
Print Assumptions C40_baryon_refuted.
