(** * ProofsDerivVertex: the product of a vertex with derivatives, the shape of the exotic field *)

From Coq Require Import Ascii String List Bool Arith ZArith QArith Qcanon Lia Permutation Sorted.
From Verif Require Import Base BaseFacts Show ModelFunctions ProofsFunctions ModelIndex SpecIndex ProofsIndex PropsIndex ModelField SpecField
  ProofsField ProofsField2 PropsField PropsField2 ModelContract SpecContract ProofsContract PropsContract PropsContract3 ModelPartition
  ModelExotic SpecExotic ProofsExotic PropsExotic ProofsExotic2 PropsExotic2 PropsExotic3 SpecTerms PropsTerms SpecDerivVertex.
From Verif Require PropsLagrangian2 PropsInfo4 Spec.
Import ListNotations.
Local Open Scope nat_scope.

Section Vertex.
  Variables (fs : list cfield) (gauge lor sp c : list symbol).
  Hypothesis C : derivative_vertex fs gauge.
  Hypothesis Two : 2 <= List.length fs.
  Hypothesis El : get_lorentz_epsilons fs = Ok (true, lor).
  Hypothesis Es : separate_gauge_epsilons fs gauge = Ok (sp, c).
  Hypothesis Four : List.length fs = 4 -> Forall boson fs.

  Let T := cnormalise (map KField fs ++ map KSym lor ++ map KSym c).
  Let If := flat_map indices_of fs.
  Let Il := flat_map symbol_indices lor.
  Let Ic := flat_map symbol_indices c.

  Lemma dp_nonempty : fs <> [].
  Proof. destruct fs; [cbn in Two; lia|discriminate]. Qed.

  Lemma dp_nodup : NoDup (map slot If) /\ NoDup (map slot (flat_map symbol_indices gauge)) /\
    forall i j, In i If -> In j (flat_map symbol_indices gauge) -> slot i <> slot j.
  Proof.
    pose proof (dv_once _ _ C) as N. unfold vertex_indices in N. rewrite map_app in N. fold If in N. split; [|split].
    - clear - N. induction (map slot If) as [|a l IH]; [constructor|]. inversion N as [|? ? Na Nd]; subst. constructor; [intros I; apply Na, in_app_iff; now left|auto].
    - clear - N. induction (map slot If) as [|a l IH]; [exact N|]. apply IH. now inversion N.
    - intros i j I J E. apply (in_map slot) in I, J. rewrite E in I. clear - N I J. induction (map slot If) as [|a l IH]; [destruct I|].
      inversion N as [|? ? Na Nd]; subst. destruct I as [->|I]; [apply Na, in_app_iff; now right|auto].
  Qed.

  Lemma dp_vertex : vertex fs.
  Proof. split; [exact (dv_legit _ _ C)|apply dp_nodup]. Qed.

  Lemma dp_symbols : Forall symbol_ok gauge.
  Proof. eapply Forall_impl; [|exact (dv_gauge _ _ C)]. now intros e []. Qed.

  Lemma dp_perm : Permutation gauge (sp ++ c).
  Proof. eapply (C39_partition fs gauge sp c dp_nonempty dp_symbols Es). Qed.

  Lemma dp_c_in e : In e c -> In e gauge.
  Proof. intros I. eapply Permutation_in; [apply Permutation_sym, dp_perm|]. apply in_app_iff. now right. Qed.

  Lemma dp_Ic i : In i Ic -> In i (flat_map symbol_indices gauge).
  Proof. intros I. apply in_flat_map in I as (e & He & I). apply in_flat_map. exists e. split; [now apply dp_c_in|exact I]. Qed.

  Lemma dp_Ic_type i : In i Ic -> ix_type i = Colour \/ (ix_type i = Isospin /\ ix_up i = false).
  Proof.
    intros I. apply in_flat_map in I as (e & He & I). pose proof (dv_gauge _ _ C) as G. rewrite Forall_forall in G.
    destruct (G e (dp_c_in e He)) as [_ [H|[_ H]]]; [left; auto|right; auto].
  Qed.

  Lemma dp_Ic_met i : In i Ic -> ix_type i = Isospin -> exists j, In j If /\ counterpart i j.
  Proof.
    intros I Ti. destruct (C39_split fs gauge dp_nonempty dp_symbols) as (s' & c' & l & E' & Hl & S). rewrite Es in E'. injection E' as <- <-.
    destruct (split_isospin l gauge sp c S (dv_gauge _ _ C) l (fun _ _ M => M) i I Ti) as (j & J & Cj). exists j. split; [|exact Cj].
    apply Hl in J as [J _]. now rewrite product_of_indices in J.
  Qed.

  Lemma dp_indices : Permutation (op_indices (cop_erase T)) (If ++ Il ++ Ic).
  Proof.
    unfold T. etransitivity; [apply Permutation_sym, cop_perm_indices, cnormalise_perm|].
    rewrite !op_indices_app, op_indices_fields, !op_indices_syms. reflexivity.
  Qed.

  Lemma dp_in i : In i (op_indices (cop_erase T)) <-> In i If \/ In i Il \/ In i Ic.
  Proof. rewrite <- !in_app_iff. split; apply Permutation_in; [|apply Permutation_sym]; exact dp_indices. Qed.

  Lemma dp_If_raised i : In i If -> su2_type (ix_type i) -> ix_up i = true.
  Proof.
    intros I S. apply in_flat_map in I as (x & Ix & I). pose proof (dv_legit _ _ C) as L. rewrite Forall_forall in L. destruct (L x Ix) as (_ & U & _). auto.
  Qed.

  (** an index of a Lorentz epsilon is the counterpart of an index of a field *)
  Lemma dp_Il i : In i Il -> exists j, In j If /\ lorentz_type (ix_type j) /\ counterpart j i.
  Proof.
    intros I. destruct (lorentz_counterparts fs lor dp_vertex dp_nonempty El) as (l & F & _ & H). fold Il in F.
    clear - I F H. induction F as [|a b l m Cab F IH]; [destruct I|]. destruct I as [->|I].
    - exists a. destruct (H a (or_introl eq_refl)). auto.
    - apply IH; [exact I|]. intros k K. apply H. now right.
  Qed.

  Lemma dp_Il_low i : In i Il -> lorentz_type (ix_type i) /\ ix_up i = false.
  Proof.
    intros I. destruct (dp_Il i I) as (j & J & Tj & (_ & Ti & Ui)). rewrite Ti, Ui. split; [exact Tj|]. rewrite (dp_If_raised j J); [reflexivity|]. red. red in Tj. tauto.
  Qed.

  (** free indices are those of fields, or colour indices of epsilons *)
  Lemma dp_free i : is_free (cop_erase T) i -> In i If \/ (In i Ic /\ ix_type i = Colour).
  Proof.
    intros [I F]. apply dp_in in I as [I|[I|I]]; [now left| |].
    - exfalso. destruct (dp_Il i I) as (j & J & _ & Cj). apply (F j); [apply dp_in; now left|]. now apply counterpart_sym.
    - right. split; [exact I|]. destruct (dp_Ic_type i I) as [Ti|[Ti _]]; [exact Ti|]. exfalso.
      destruct (dp_Ic_met i I Ti) as (j & J & Cj). apply (F j); [apply dp_in; now left|exact Cj].
  Qed.

  Lemma dp_free_vertex i : is_free (cop_erase T) i -> In i (vertex_indices fs gauge).
  Proof. intros F. unfold vertex_indices. apply in_app_iff. destruct (dp_free i F) as [I|[I _]]; [left; exact I|right; now apply dp_Ic]. Qed.

  Lemma dp_proper : proper_op (cop_erase T).
  Proof.
    red. eapply Permutation_NoDup; [apply Permutation_sym, Permutation_map, dp_indices|]. destruct dp_nodup as (Nf & Ng & D). rewrite !map_app.
    assert (Nl : NoDup (map slot Il)).
    { destruct (lorentz_counterparts fs lor dp_vertex dp_nonempty El) as (l & F & N & _). fold Il in F. clear - F N.
      induction F as [|a b l m Cab F IH]; [constructor|]. cbn [map] in *. inversion N as [|? ? Na N']; subst. constructor; [|auto].
      intros I. apply Na. apply in_map_iff in I as (k & Ek & K). clear - F K Ek Cab.
      induction F as [|a' b' l m C' F IH]; [destruct K|]. destruct K as [->|K]; [left|right; auto].
      destruct Cab as (N1 & T1 & U1), C' as (N2 & T2 & U2). injection Ek as E1 E2 E3. unfold slot. rewrite N1, N2 in E1. rewrite T1, T2 in E2. rewrite U1, U2 in E3.
      rewrite E1, E2. f_equal. now destruct (ix_up a), (ix_up a'). }
    assert (Nc : NoDup (map slot Ic)).
    { assert (P : Permutation (map slot (flat_map symbol_indices gauge)) (map slot (flat_map symbol_indices sp) ++ map slot Ic)).
      { rewrite <- map_app. apply Permutation_map. unfold Ic. rewrite <- flat_map_app. apply Permutation_flat_map, dp_perm. }
      apply (Permutation_NoDup P) in Ng. clear - Ng. induction (map slot (flat_map symbol_indices sp)) as [|a m IH]; [exact Ng|]. apply IH. now inversion Ng. }
    apply NoDup_app_intro; [exact Nf| |].
    - apply NoDup_app_intro; [exact Nl|exact Nc|]. intros q I J. apply in_map_iff in I as (i & <- & I). apply in_map_iff in J as (j & E & J).
      destruct (dp_Il_low i I) as [Ti _]. injection E as _ E _. destruct (dp_Ic_type j J) as [Tj|[Tj _]]; rewrite Tj in E; rewrite <- E in Ti; destruct Ti as [Ti|Ti]; discriminate Ti.
    - intros q I J. apply in_map_iff in I as (i & <- & I). apply in_app_iff in J as [J|J]; apply in_map_iff in J as (j & E & J).
      + destruct (dp_Il_low j J) as [Tj Uj]. injection E as _ E2 E3. rewrite (dp_If_raised i I) in E3; [congruence|]. rewrite <- E2. red. red in Tj. tauto.
      + apply (D i j I (dp_Ic j J)). now symmetry.
  Qed.

  Lemma dp_clean : Forall clean (op_indices (cop_erase T)).
  Proof.
    apply Forall_forall. intros i I. apply dp_in in I as [I|[I|I]].
    - apply in_flat_map in I as (x & Ix & I). pose proof (dv_legit _ _ C) as L. rewrite Forall_forall in L. destruct (L x Ix) as (Cx & _). rewrite Forall_forall in Cx. auto.
    - pose proof (lorentz_clean fs true lor (dv_legit _ _ C) dp_nonempty El) as F. rewrite Forall_forall in F. auto.
    - apply in_flat_map in I as (e & He & I). pose proof dp_symbols as F. rewrite Forall_forall in F. destruct (F e (dp_c_in e He)) as [Ce _]. rewrite Forall_forall in Ce. auto.
  Qed.

  Lemma dp_cfields : Permutation (cfields T) fs.
  Proof.
    unfold T. etransitivity; [apply Permutation_sym, cop_perm_fields, cnormalise_perm|]. unfold cfields. rewrite !flat_map_app.
    fold (cfields (map KField fs)) (cfields (map KSym lor)) (cfields (map KSym c)). rewrite !cfields_syms, !app_nil_r.
    assert (E : cfields (map KField fs) = fs); [|now rewrite E]. clear. induction fs as [|x l IH]; [reflexivity|]. cbn. f_equal. exact IH.
  Qed.

  Lemma dp_csymbols : Permutation (csymbols T) (lor ++ c).
  Proof.
    unfold T. etransitivity; [apply Permutation_sym, cop_perm_symbols, cnormalise_perm|]. unfold csymbols. rewrite !flat_map_app.
    fold (csymbols (map KField fs)) (csymbols (map KSym lor)) (csymbols (map KSym c)). rewrite !csymbols_syms.
    assert (E : csymbols (map KField fs) = []); [|now rewrite E]. clear. induction fs as [|x l IH]; [reflexivity|exact IH].
  Qed.

  Lemma derivative_ready : ready T.
  Proof.
    constructor.
    - unfold T. rewrite <- (Permutation_length (cnormalise_perm _)), !app_length, !map_length. lia.
    - intros E. pose proof dp_cfields as P. rewrite E in P. apply Permutation_nil in P. now apply dp_nonempty.
    - eapply Permutation_Forall; [apply Permutation_sym, dp_cfields|exact (dv_charges _ _ C)].
    - eapply Permutation_Forall; [apply Permutation_sym, dp_cfields|exact (dv_nf _ _ C)].
    - exact dp_proper.
    - exact dp_clean.
    - intros i F S. destruct (dp_free i F) as [I|[_ Ti]]; [now apply dp_If_raised|]. rewrite Ti in S. destruct S as [S|[S|S]]; discriminate S.
    - intros i j Fi Fj Ti Tj.
      assert (X : forall k, is_free (cop_erase T) k -> lorentz_type (ix_type k) -> is_free (product_of fs ++ map TSymbol lor) k).
      { intros k Fk Tk. assert (Id : forall a, In a (op_indices (product_of fs ++ map TSymbol lor)) <-> In a If \/ In a Il).
        { intros a. unfold op_indices. rewrite flat_map_app, in_app_iff. fold (op_indices (product_of fs)). rewrite product_of_indices.
          assert (Y : flat_map tensor_indices (map TSymbol lor) = Il) by (clear; unfold Il; induction lor as [|e r IH]; [reflexivity|]; cbn; now rewrite IH).
          rewrite Y. reflexivity. }
        destruct Fk as [Ik Fk]. split.
        - apply Id. apply dp_in in Ik as [Ik|[Ik|Ik]]; auto. destruct (dp_Ic_type k Ik) as [Y|[Y _]]; rewrite Y in Tk; destruct Tk as [Tk|Tk]; discriminate Tk.
        - intros a Ia. apply Fk. apply dp_in. apply Id in Ia. tauto. }
      pose proof (C38_allowed fs lor dp_vertex dp_nonempty El) as [H _].
      + intros Z x Ix. apply low_boson. apply (dv_spin _ _ C x Ix). clear - Z Ix. unfold derivs_on in Z. induction fs as [|a l IH]; [destruct Ix|].
        change (derivs a + list_sum (map derivs l) = 0) in Z. destruct Ix as [->|Ix]; [lia|]. apply IH; [|exact Ix]. change (list_sum (map derivs l) = 0). lia.
      + intros _. exact Four.
      + apply H; [apply X; auto|auto|apply X; auto|auto].
    - intros t up Nt. set (l := filter (fun i => Bool.eqb (ix_up i) up) (filter (fun i => itype_eqb (ix_type i) t) (free_indices (cop_erase T)))).
      assert (Ls : lists (cop_erase T) t up l).
      { split; [apply NoDup_filter_map, NoDup_filter_map, NoDup_filter_map, dp_proper|]. intros i. unfold l. rewrite !filter_In, free_indices_spec, Bool.eqb_true_iff.
        split; [intros [[F Ti] U]; apply itype_decides in Ti; auto|intros (F & Ti & U); repeat split; auto; try apply F; now apply itype_decides]. }
      exists (List.length l). split; [|exists l; auto]. pose proof (dv_few _ _ C t up Nt) as B. rewrite count_kind_filter' in B.
      eapply Nat.le_lt_trans; [|exact B]. rewrite <- (map_length slot l), <- (map_length slot (filter _ _)). apply NoDup_incl_length; [apply Ls|].
      intros q I. apply in_map_iff in I as (i & <- & I). apply in_map. apply Ls in I as (F & Ti & U). rewrite !filter_In, Bool.eqb_true_iff.
      split; [|exact U]. split; [now apply dp_free_vertex|now apply itype_decides].
    - intros i j F J. apply dp_free_vertex in F.
      assert (X : exists k, In k (vertex_indices fs gauge) /\ ix_name k = ix_name j).
      { unfold vertex_indices. apply dp_in in J as [J|[J|J]].
        - exists j. split; [apply in_app_iff; now left|reflexivity].
        - destruct (dp_Il j J) as (k & K & _ & (Nk & _)). exists k. split; [apply in_app_iff; now left|now symmetry].
        - exists j. split; [apply in_app_iff; right; now apply dp_Ic|reflexivity]. }
      destruct X as (k & K & <-). now apply (dv_fresh _ _ C).
    - intros i F. apply (dv_dotted _ _ C). now apply dp_free_vertex.
  Qed.
End Vertex.

(** ** The exotic field *)

Definition typed (x : cfield) : Prop :=
  exists z c s label y b u cj lx lab tex, let k := class_for z (real_rep (z ++ c ++ s) y) u in
    arranged z c s /\ to_tex label = Ok tex /\
    x = mkCF k (made label (z ++ c ++ s) (two y b) cj (class_comm k) lx (sym_of (z ++ c ++ s)) lab).

(** two lowered indices of an SU(2) type *)
Definition lowers (e : symbol) : Prop :=
  exists i j, symbol_indices e = [i; j] /\ ix_type j = ix_type i /\ ix_up i = false /\ ix_up j = false /\ su2_type (ix_type i).

Lemma filter_tilde_tex label tex : to_tex label = Ok tex -> exists t, to_tex (filter (fun c => negb (Ascii.eqb c "~")) label) = Ok t.
Proof.
  intros T. destruct label as [|ch label]; [discriminate T|]. cbn [filter]. destruct (Ascii.eqb ch "~") eqn:D; cbn [negb]; [|exact (PropsInfo4.tex_head _ _ _ _ T)].
  apply Ascii.eqb_eq in D as ->. discriminate T.
Qed.

Lemma class_for_typed z r u : class_for z r u <> Plain.
Proof. unfold class_for. destruct z, r; discriminate. Qed.

(** the partner with its class *)
Lemma partner_typed x y : typed x -> partner_of x = Ok y -> exists z c s, indices_of x = z ++ c ++ s /\ indices_of y = z ++ map flip c ++ s /\ arranged z c s /\
  exists label' u' b' cj' lx' lab' tex', let k' := class_for z (real_rep (z ++ map flip c ++ s) (- hypercharge x)%Qc) u' in
    to_tex label' = Ok tex' /\ y = mkCF k' (made label' (z ++ map flip c ++ s) (two (- hypercharge x)%Qc b') cj' (class_comm k') lx' (sym_of (z ++ map flip c ++ s)) lab').
Proof.
  intros (z & c & s & label & h & b & u & cj & lx & lab & tex & A & Tx & ->) E. exists z, c, s.
  set (k := class_for z (real_rep (z ++ c ++ s) h) u) in *. split; [reflexivity|].
  pose proof (arranged_flip _ _ _ A) as A'.
  assert (Ar : arg_indices (arg_of (TTuple (z ++ map flip c ++ s))) = Ok (z ++ map flip c ++ s)) by (apply printed_arg, (ar_printed _ _ _ A')).
  assert (Rr : real_rep (z ++ map flip c ++ s) (- h)%Qc = real_rep (z ++ c ++ s) h).
  { rewrite PropsInfo4.real_neg. apply real_rep_ext.
    - intros up. rewrite (colour_none_z _ _ _ _ A'), (colour_none_z _ _ _ _ A). apply count_flip, (ar_colour _ _ _ A).
    - now rewrite (isospin_only _ _ _ A'), (isospin_only _ _ _ A). }
  change (hypercharge (mkCF k (made label (z ++ c ++ s) (two h b) cj (class_comm k) lx (sym_of (z ++ c ++ s)) lab))) with h. rewrite Rr.
  assert (Re : real_rep (z ++ c ++ s) h = true ->
     count_kind Colour true (z ++ map flip c ++ s) = count_kind Colour false (z ++ map flip c ++ s) /\
     forall cc : charges, None = Some cc -> forall y0, dget str_eqb cc (lit "y") = Some y0 -> y0 = 0%Qc).
  { intros R. apply real_colour in R as [R _]. split; [|discriminate]. rewrite !(flip_colours _ _ _ _ A). cbn [negb]. auto. }
  assert (Z : real_rep (z ++ c ++ s) h = true -> charges_or None = two (- h)%Qc (Q2Qc 0)).
  { intros R. apply real_colour in R as [_ ->]. reflexivity. }
  assert (L : forall lx' label', latex_or (Some lx') label' = Ok lx') by reflexivity.
  assert (Done : forall u' label' b' cj' lx' lab' tex' , to_tex label' = Ok tex' -> class_for z (real_rep (z ++ c ++ s) h) u' = class_for z (real_rep (z ++ c ++ s) h) u' ->
    y = mkCF (class_for z (real_rep (z ++ c ++ s) h) u') (made label' (z ++ map flip c ++ s) (two (- h)%Qc b') cj' (class_comm (class_for z (real_rep (z ++ c ++ s) h) u')) lx' (sym_of (z ++ map flip c ++ s)) lab') ->
    indices_of y = z ++ map flip c ++ s /\ arranged z c s /\
    exists label' u' b' cj' lx' lab' tex', let k' := class_for z (real_rep (z ++ c ++ s) h) u' in
    to_tex label' = Ok tex' /\ y = mkCF k' (made label' (z ++ map flip c ++ s) (two (- h)%Qc b') cj' (class_comm k') lx' (sym_of (z ++ map flip c ++ s)) lab')).
  { intros u' label' b' cj' lx' lab' tex' T _ ->. split; [reflexivity|]. split; [exact A|]. exists label', u', b', cj', lx', lab', tex'. split; [exact T|reflexivity]. }
  unfold partner_of in E. cbn [cf_class] in E.
  assert (Fz : forall u, class_fits (class_for z (real_rep (z ++ c ++ s) h) u) z) by (intros u'; unfold class_for; destruct z, (real_rep _ _); cbn; congruence).
  destruct (real_rep (z ++ c ++ s) h) eqn:R.
  - assert (K : k = RealScalar \/ k = MajoranaFermion) by (unfold k, class_for; destruct z; auto).
    assert (E' : swap_colour_indices k (mkCF k (made label (z ++ c ++ s) (two h b) cj (class_comm k) lx (sym_of (z ++ c ++ s)) lab)) = Ok y) by (destruct K as [K|K]; rewrite K in E |- *; exact E). clear E.
    unfold swap_colour_indices in E'. cbn [cf_if] in E'. rewrite (swapped_ok _ _ _ _ _ _ _ _ _ _ A) in E'. cbn [bind f_label f_latex f_is_conj f_symmetry i_field made] in E'.
    rewrite (mk_typed_ok _ _ _ _ (Some lx) lx _ _ z (map flip c) s A' Ar (L _ _)) in E'; [|apply Fz|exact (flip_rank _ _ _ A)|intros _; now apply Re].
    rewrite Z in E' by reflexivity. injection E' as <-. eapply (Done u); [exact Tx|reflexivity|reflexivity].
  - destruct z as [|z0 z1].
    + change k with ComplexScalar in *. unfold conj_typed in E. cbn [cf_class cf_if] in E.
      destruct (conj_text_gauge label c s (two h b) cj (class_comm ComplexScalar) lx (sym_of ([] ++ c ++ s)) lab A) as (t & Et & At).
      rewrite Et in E. cbn [bind] in E. cbn [f_label f_latex f_is_conj f_symmetry f_charges i_field made] in E. rewrite two_neg in E.
      rewrite (mk_typed_ok _ _ _ _ (Some lx) lx _ _ [] (map flip c) s A' At (L _ _)) in E; [|reflexivity|exact (flip_rank _ _ _ A)|intros [K|K]; discriminate K].
      rewrite two_or in E. injection E as <-. destruct (PropsInfo4.tex_conj label cj tex Tx) as (t' & Tx'). eapply (Done u); [exact Tx'|reflexivity|reflexivity].
    + set (z := z0 :: z1) in *. assert (K : exists v, k = DiracFermion v) by (unfold k, class_for, z; eauto). destruct K as (v & K).
      rewrite K in E. unfold dirac_partner in E. cbn [cf_if] in E. rewrite (swapped_ok _ _ _ _ _ _ _ _ _ _ A) in E.
      cbn [bind f_label f_latex f_is_conj f_symmetry f_charges i_field made] in E. rewrite two_neg in E.
      rewrite (mk_typed_ok _ _ _ _ (Some lx) lx _ _ z (map flip c) s A' Ar (L _ _)) in E; [|discriminate|exact (flip_rank _ _ _ A)|intros [X|X]; discriminate X].
      rewrite two_or in E. injection E as <-.
      assert (T : exists t, to_tex (if v then label ++ lit "~" else filter (fun c => negb (Ascii.eqb c "~")) label) = Ok t) by (destruct v; [exact (to_tex_app _ _ _ Tx)|exact (filter_tilde_tex _ _ Tx)]).
      destruct T as (t & T). eapply (Done (Some (negb v))); [exact T|reflexivity|reflexivity].
Qed.

Lemma exotic_shape vanishes op st x p t st' : ready op -> supplied st -> exotic_field_and_term vanishes op st = Ok ((x, p, t), st') ->
  typed x /\ typed p /\ forall term, t = inr term -> exists es, Permutation (csymbols term) (csymbols op ++ es) /\ Forall lowers es.
Proof.
  intros R Su E. pose proof (ready_arranged op R) as A. unfold exotic_field_and_term in E.
  rewrite (sum_charges_ok _ (rd_fields _ R) (rd_charges _ R)) in E. cbn [bind] in E. rewrite (ready_text op R) in E.
  set (z := zs op) in *. set (c := cs op) in *. set (s := ss op) in *. set (y := sum_of hypercharge (cfields op)) in *. set (b := sum_of baryon (cfields op)) in *.
  rewrite (printed_tokens _ (ar_printed _ _ _ A)) in E. cbn [bind] in E. rewrite (arr_dynkin _ _ _ A) in E. cbn [bind] in E.
  destruct (fields_of_ok _ (rd_nf _ R)) as (gs & Egs). rewrite Egs in E. cbn [bind] in E.
  match type of E with context [pick_symbol ?f ?ps st] => destruct (pick_ok f ps st Su) as (sym & st1 & tex & Ep & Tx & _); rewrite Ep in E end. cbn [bind fst snd] in E.
  rewrite (text_head _ _ _ A) in E.
  assert (Du : forall i, In i z -> ix_type i = Dotted -> ~ In "u"%char (ix_name i)).
  { intros i I T. destruct (proj1 (in_zcs op R i)) as (i' & F & _ & <-); [apply in_app_iff; now left|]. exact (rd_dotted _ R i' F T). }
  destruct (exotic_ok z c s y b sym tex A Tx Du) as (ind & x0 & e0 & label & b' & conj & lx & lab & E1 & E2 & E3 & E4 & Eb & El). cbv zeta in E1, E4.
  rewrite E1 in E. cbn [bind] in E. rewrite E2 in E. cbn [bind] in E. rewrite E3 in E. cbn [bind] in E. rewrite E4 in E. cbn [bind] in E.
  set (k := exotic_class z (z ++ c ++ s) y) in *. set (x1 := mkCF k _) in *.
  assert (Tl : exists tl, to_tex label = Ok tl).
  { rewrite El. destruct (dotted z); [exact (to_tex_app _ _ _ Tx)|]. rewrite app_nil_r. eauto. }
  destruct Tl as (tl & Tl).
  assert (Ty : typed x1) by (exists z, c, s, label, y, b', None, conj, lx, lab, tl; split; [exact A|split; [exact Tl|reflexivity]]).
  apply bind_ok in E as (pa & Epa & E). destruct (partner_typed x1 pa Ty Epa) as (z' & c' & s' & Ix & Iy & A1 & label' & u' & b1 & cj1 & lx1 & lab1 & tex1 & Tx1 & Ey). cbv zeta in Ey.
  change (hypercharge x1) with y in Ey.
  pose proof (arranged_flip _ _ _ A1) as A2. change (indices_of x1) with (z ++ c ++ s) in Ix.
  assert (Zz : z' = z) by (rewrite <- (arr_by_lorentz _ _ _ A1), <- Ix; apply (arr_by_lorentz _ _ _ A)).
  assert (Zc : c' = c) by (rewrite <- (arr_by_colour _ _ _ A1), <- Ix; apply (arr_by_colour _ _ _ A)).
  assert (Zs : s' = s) by (rewrite <- (arr_by_isospin _ _ _ A1), <- Ix; apply (arr_by_isospin _ _ _ A)).
  subst z' c' s'. set (k1 := class_for z _ u') in *.
  assert (Nk1 : k1 <> Plain) by apply class_for_typed.
  assert (Lo : exists cj2 lab2 v, lower_su2 pa (fun _ => false) =
     Ok (mkCF (class_for (map hat z) (real_rep (map hat z ++ map flip c ++ map hat s) (- y)%Qc) v)
           (made label' (map hat z ++ map flip c ++ map hat s) (two (- y)%Qc b1) cj2 (class_comm (class_for (map hat z) (real_rep (map hat z ++ map flip c ++ map hat s) (- y)%Qc) v)) lx1 (sym_of (map hat z ++ map flip c ++ map hat s)) lab2),
         map hat_eps (z ++ s))).
  { rewrite Ey. unfold lower_su2. cbn [cf_class cf_if i_indices made].
    rewrite (app_assoc (by_type Undotted _)), (arr_by_lorentz _ _ _ A2), (arr_by_isospin _ _ _ A2). rewrite filter_all by reflexivity.
    destruct (lower_fold z (map flip c) s (- y)%Qc b1 label' (class_comm k1) lx1 cj1 (sym_of (z ++ map flip c ++ s)) A2 (arr_rank _ _ _ A2) (ready_fresh op R)
                (z ++ s) (incl_refl _) [] [] lab1) as (lab' & Ef); [intros i []|].
    rewrite !hats_nil in Ef. cbn [app] in Ef.
    rewrite (hats_all (z ++ s) z), (hats_all (z ++ s) s) in Ef by (intros i I; apply in_app_iff; auto).
    pose proof (arranged_hats (z ++ s) _ _ _ A2) as A3. rewrite (hats_all (z ++ s) z), (hats_all (z ++ s) s) in A3 by (intros i I; apply in_app_iff; auto).
    assert (G : forall v, exists cj2 lab2, (do r <- foldM lower_one (z ++ s) (made label' (z ++ map flip c ++ s) (two (- y)%Qc b1) cj1 (class_comm k1) lx1 (sym_of (z ++ map flip c ++ s)) lab1, []);
                     do p <- cons_completion_field (fst r) v; Ok (p, snd r)) =
       Ok (mkCF (class_for (map hat z) (real_rep (map hat z ++ map flip c ++ map hat s) (- y)%Qc) v)
           (made label' (map hat z ++ map flip c ++ map hat s) (two (- y)%Qc b1) cj2 (class_comm (class_for (map hat z) (real_rep (map hat z ++ map flip c ++ map hat s) (- y)%Qc) v)) lx1 (sym_of (map hat z ++ map flip c ++ map hat s)) lab2),
         map hat_eps (z ++ s))).
    { intros v. rewrite Ef. cbn [bind fst snd].
      destruct (cons_ok label' _ _ _ (- y)%Qc b1 cj1 (class_comm k1) lx1 (sym_of (z ++ map flip c ++ s)) lab' v A3) as (cj2 & lab2 & E' & _). rewrite E'. cbn [bind]. now exists cj2, lab2. }
    clear - G Nk1. clearbody k1. unfold made in *. destruct k1 eqn:Ek; try congruence; match goal with |- context [cons_completion_field _ ?v] => destruct (G v) as (c1 & l1 & G1) end; exists c1, l1; eexists; exact G1. }
  destruct Lo as (cj2 & lab2 & v & Lo). rewrite Lo in E. cbn [bind fst snd] in E. rewrite term_eq in E.
  set (p1 := mkCF _ (made label' _ _ _ _ _ _ lab2)) in E. set (es := map hat_eps (z ++ s)) in E. set (T := op ++ KField p1 :: map KSym es) in E.
  pose proof (arranged_hats (z ++ s) _ _ _ A2) as A3. rewrite (hats_all (z ++ s) z), (hats_all (z ++ s) s) in A3 by (intros i I; apply in_app_iff; auto).
  assert (Tp : typed p1) by (exists (map hat z), (map flip c), (map hat s), label', (- y)%Qc, b1, v, cj2, lx1, lab2, tex1; split; [exact A3|split; [exact Tx1|reflexivity]]).
  apply bind_ok in E as (ts & Ets & E). destruct (_ && _) in E.
  - assert (x1 = x) by congruence. assert (p1 = p) by congruence. assert (t = inl (lit "Vanishing coupling at ")) by congruence. subst x p t.
    split; [exact Ty|]. split; [exact Tp|]. discriminate.
  - apply bind_ok in E as ([] & _ & E). assert (x1 = x) by congruence. assert (p1 = p) by congruence. assert (t = inr (cnormalise T)) by congruence. subst x p t.
    split; [exact Ty|]. split; [exact Tp|]. intros term [= <-]. exists es. split.
    + rewrite <- (cop_perm_symbols _ _ (cnormalise_perm T)). unfold T, csymbols. rewrite flat_map_app. cbn [flat_map app]. fold (csymbols op) (csymbols (map KSym es)).
      now rewrite csymbols_syms.
    + unfold es. apply Forall_forall. intros e I. apply in_map_iff in I as (i & <- & I). exists (flip (hat i)), (flip i). cbn [symbol_indices hat_eps].
      assert (Su2 : su2_type (ix_type i) /\ ix_up i = true).
      { apply in_app_iff in I as [I|I]; [destruct (arr_z_type _ _ _ A i I) as [T1 U1]|destruct (ar_isospin _ _ _ A i I) as [T1 U1]]; (split; [|exact U1]); red; [destruct T1 as [T1|T1]|]; auto. }
      split; [reflexivity|]. split; [reflexivity|]. split; [reflexivity|]. split; [cbn; now rewrite (proj2 Su2)|apply Su2].
Qed.

(** ** Exotic fields as the classes make them *)

Record exotic_field (x : cfield) (z c s : list index) : Prop := mkEF
  { ef_arranged : arranged z c s;
    ef_indices : indices_of x = z ++ c ++ s;
    ef_class : right_class x;
    ef_charges : standard_charges x;
    ef_bare : bare x;
    ef_dynkin : get_dynkin (indices_of x) = Ok (f_dynkin (i_field (cf_if x)));
    ef_symmetry : exists l, dynkin_ints (i_field (cf_if x)) = Ok l /\ f_symmetry (i_field (cf_if x)) = symmetry_of l;
    ef_comm : f_comm (i_field (cf_if x)) = PropsLagrangian2.comm_of (cf_class x);
    ef_fresh : f_history (i_field (cf_if x)) = None /\ f_multiplicity (i_field (cf_if x)) = 1;
    ef_label : exists tex, to_tex (f_label (i_field (cf_if x))) = Ok tex }.

Lemma ef_eq x z c s : exotic_field x z c s -> exists u,
  let f := i_field (cf_if x) in
  let k := class_for z (real_rep (z ++ c ++ s) (hypercharge x)) u in
  x = mkCF k (made (f_label f) (z ++ c ++ s) (two (hypercharge x) (baryon x)) (f_is_conj f) (class_comm k) (f_latex f) (sym_of (z ++ c ++ s)) (i_index_labels (cf_if x))).
Proof.
  intros [A I K Ch (Nf & Dv & Sp) Dy (l & El & Sy) Co (Hi & Mu) _].
  destruct x as [k [f idx lab]]. unfold indices_of in *. cbn [cf_class cf_if i_field i_indices i_index_labels] in *. subst idx.
  rewrite (arr_dynkin _ _ _ A) in Dy. injection Dy as Dy.
  assert (El' : l = [count_kind Undotted true (z ++ c ++ s); count_kind Dotted true (z ++ c ++ s); count_kind Colour true (z ++ c ++ s); count_kind Colour false (z ++ c ++ s); count_kind Isospin true (z ++ c ++ s)]).
  { unfold dynkin_ints in El. rewrite <- Dy, (arr_digits _ _ _ A) in El. congruence. }
  subst l. set (x := mkCF k (mkIField f (z ++ c ++ s) lab)) in *.
  assert (Ek : exists u, k = class_for z (real_rep (z ++ c ++ s) (hypercharge x)) u).
  { pose proof (real_rep_iff x (hypercharge x) (z ++ c ++ s) eq_refl eq_refl) as Re. pose proof (arr_lorentz_counts _ _ _ A) as L.
    unfold right_class, fermion, boson, scalar, indices_of in K. cbn [cf_class cf_if i_indices x] in K.
    change (indices_of x) with (z ++ c ++ s) in K. unfold class_for. destruct (ar_lorentz _ _ _ A) as [Z|(i & Z & _)]; rewrite Z in L; cbn [List.length] in L.
    - subst z. exists None. cbn [app] in *. destruct (real_rep (c ++ s) (hypercharge x)); destruct k as [| | |b|]; try contradiction; destruct K as [K1 K2]; try reflexivity; exfalso;
        first [apply K1; exists 0; lia|apply K2, Re; reflexivity|apply Re in K2; discriminate K2].
    - subst z. destruct (real_rep ([i] ++ c ++ s) (hypercharge x)) eqn:Rr; destruct k as [| | |b|]; try contradiction; destruct K as [K1 K2];
        first [exists None; reflexivity|exists (Some b); reflexivity|exfalso; lia|exfalso; apply K2, Re; reflexivity|exfalso; apply Re in K2; discriminate K2]. }
  destruct Ek as (u & Ek). exists u. cbv zeta. rewrite <- Ek. unfold x at 1. unfold made. destruct f as [label dynkin ch cj comm sym hist mult latex nf derivs stripped].
  cbn [f_label f_dynkin f_charges f_is_conj f_comm f_symmetry f_history f_multiplicity f_latex f_nf f_derivs f_stripped] in *.
  unfold standard_charges in Ch. cbn [x cf_if i_field f_charges] in Ch.
  subst hist mult nf derivs stripped dynkin sym comm. unfold two. rewrite <- Ch. reflexivity.
Qed.


Lemma ef_typed x z c s : exotic_field x z c s -> typed x.
Proof.
  intros H. destruct (ef_eq _ _ _ _ H) as (u & E). destruct (ef_label _ _ _ _ H) as (tex & T). unfold typed. do 10 eexists. exists tex.
  split; [exact (ef_arranged _ _ _ _ H)|]. split; [exact T|exact E].
Qed.

Lemma typed_ef x : typed x -> exists z c s, exotic_field x z c s.
Proof.
  intros (z & c & s & label & y & b & u & cj & lx & lab & tex & A & Tx & E). exists z, c, s. set (k := class_for z _ u) in E.
  assert (L : count_kind Undotted true (indices_of x) + count_kind Dotted true (indices_of x) = List.length z) by (rewrite E; exact (arr_lorentz_counts _ _ _ A)).
  assert (R : real_rep (z ++ c ++ s) y = true <-> real_irrep x) by (apply (real_rep_iff x y (z ++ c ++ s)); rewrite E; reflexivity).
  assert (Ek : cf_class x = k) by now rewrite E.
  constructor.
  - exact A.
  - now rewrite E.
  - unfold right_class. rewrite Ek. clear E Ek. unfold k. clear k. revert R. generalize (real_rep (z ++ c ++ s) y). intros r R.
    unfold class_for, fermion, boson, scalar. rewrite L. destruct (ar_lorentz _ _ _ A) as [Z|(i & Z & _)]; rewrite Z in L |- *; cbn [List.length] in *.
    + destruct r; (split; [lia|]); [now apply R|]. intros X. apply R in X. discriminate X.
    + destruct r; (split; [intros (n & Hn); lia|]); [now apply R|intros X; apply R in X; discriminate X].
  - now rewrite E.
  - rewrite E. repeat split.
  - rewrite E. exact (arr_dynkin _ _ _ A).
  - eexists. split; [rewrite E; exact (arr_digits _ _ _ A)|rewrite E; reflexivity].
  - rewrite E. cbn [cf_if cf_class i_field f_comm made]. now destruct k.
  - rewrite E. split; reflexivity.
  - exists tex. now rewrite E.
Qed.
