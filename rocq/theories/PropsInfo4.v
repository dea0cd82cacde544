(** * PropsInfo4: the quantum numbers of exotic fields and of models *)

From Coq Require Import Ascii String List Bool Arith ZArith QArith Qcanon Lia Permutation Sorted.
From Verif Require Import Base BaseFacts Spec SpecFunctions ProofsFunctions PropsFunctions Show ModelFunctions ProofsDatabase3 ModelIndex SpecIndex ProofsIndex ModelField SpecField ProofsField ProofsField2 ModelContract SpecContract ProofsContract
  ModelPartition ModelExotic SpecExotic ProofsExotic ProofsExotic2 PropsExotic2 ModelLagrangian SpecLagrangian ProofsLagrangian PropsLagrangian PropsLagrangian2 PropsLagrangian5 ModelInfo SpecInfo.
Import ListNotations.
Local Open Scope nat_scope.

Lemma conj_lorentz_list z c s : arranged z c s -> exists z', mapM conj_index z = Ok z' /\ List.length z' = List.length z /\ arranged z' (map flip c) s.
Proof.
  intros A. destruct (arr_split _ _ _ A) as (Fz & _ & _). destruct (ar_lorentz _ _ _ A) as [-> | (i & -> & T & U)].
  - exists []. split; [reflexivity|]. split; [reflexivity|]. now apply arranged_flip.
  - inversion Fz as [|? ? P _]; subst. destruct P as (r & G & Ei). rewrite U in Ei.
    set (t := ix_type i) in *. set (j := index_at (conj_type t) (replace_char (letter t) (letter (conj_type t)) r) true).
    assert (Gj : good (replace_char (letter t) (letter (conj_type t)) r)) by (apply replace_good; [apply letter_low|destruct T as [-> | ->]; discriminate|exact G]).
    exists [j]. split; [|split; [reflexivity|]].
    + cbn [mapM]. rewrite Ei. rewrite (conj_lorentz_at t r T G). reflexivity.
    + apply arranged_flip. apply (arranged_lorentz i j c s A).
      * exists (replace_char (letter t) (letter (conj_type t)) r). split; [exact Gj|]. reflexivity.
      * unfold j. cbn [ix_type index_at]. destruct T as [-> | ->]; red; cbn; auto.
      * reflexivity.
Qed.

Lemma real_neg l y : real_rep l (- y)%Qc = real_rep l y.
Proof.
  unfold real_rep. f_equal. destruct (Qc_eq_dec y 0) as [E0|N], (Qc_eq_dec (- y)%Qc 0) as [E|E]; try reflexivity; exfalso.
  - apply E. rewrite E0. ring.
  - apply N. rewrite <- (Qcopp_involutive y), E. ring.
Qed.

Lemma conj_made z c s (y b : Qc) u (label : str) (cj : bool) (lx : str) lab tex :
  arranged z c s -> to_tex (if cj then filter (fun ch => negb (Ascii.eqb ch dagger)) label else label ++ [dagger]) = Ok tex ->
  let k := class_for z (real_rep (z ++ c ++ s) y) u in
  exists z' lx' lab', arranged z' (map flip c) s /\ List.length z' = List.length z /\
    k = class_for z' (real_rep (z' ++ map flip c ++ s) (- y)%Qc) u /\
    conj_typed (mkCF k (made label (z ++ c ++ s) (two y b) cj (class_comm k) lx (sym_of (z ++ c ++ s)) lab)) =
    Ok (mkCF k (made (if cj then filter (fun ch => negb (Ascii.eqb ch dagger)) label else label ++ [dagger]) (z' ++ map flip c ++ s) (two (- y)%Qc (- b)%Qc) (negb cj) (class_comm k) lx' (sym_of (z' ++ map flip c ++ s)) lab')).
Proof.
  intros A Tx. cbv zeta. destruct (conj_lorentz_list z c s A) as (z' & Mz & Lz & A1). destruct (arr_split _ _ _ A) as (Fz & Fc & Fs).
  assert (M : mapM conj_index (z ++ c ++ s) = Ok (z' ++ map flip c ++ s)).
  { apply mapM_app_ok; [exact Mz|]. apply mapM_app_ok; [apply conj_colours; [exact Fc|exact (ar_colour _ _ _ A)]|].
    apply conj_isospins. intros i I. apply (ar_isospin _ _ _ A i I). }
  assert (Rr : real_rep (z' ++ map flip c ++ s) (- y)%Qc = real_rep (z ++ c ++ s) y).
  { rewrite real_neg. apply real_rep_ext.
    - intros up. rewrite (colour_none_z _ _ _ _ A1), (colour_none_z _ _ _ _ A). apply count_flip, (ar_colour _ _ _ A).
    - now rewrite (isospin_only _ _ _ A1), (isospin_only _ _ _ A). }
  assert (Kz : forall real, class_for z real u = class_for z' real u) by (intros real; destruct z, z'; try discriminate Lz; reflexivity).
  set (k := class_for z (real_rep (z ++ c ++ s) y) u).
  assert (Ek : k = class_for z' (real_rep (z' ++ map flip c ++ s) (- y)%Qc) u) by (unfold k; now rewrite Kz, Rr).
  assert (Fit : class_fits k z') by (rewrite Ek; unfold class_for; destruct z'; destruct (real_rep _ _); cbn; congruence).
  assert (At : arg_indices (arg_of (TStr (join (lit " ") (map ix_label (z' ++ map flip c ++ s))))) = Ok (z' ++ map flip c ++ s)).
  { cbn [arg_of arg_indices]. apply clean_tokens. eapply Forall_impl; [exact printed_clean|]. apply (ar_printed _ _ _ A1). }
  assert (Rk : forall m, Some (sym_of (z ++ c ++ s)) = Some m -> rank m = List.length (z' ++ map flip c ++ s)).
  { intros m [= <-]. rewrite (arr_rank _ _ _ A), !app_length, map_length. lia. }
  assert (Re : real_class k -> count_kind Colour true (z' ++ map flip c ++ s) = count_kind Colour false (z' ++ map flip c ++ s) /\
                   forall cc, Some (two (- y)%Qc (- b)%Qc) = Some cc -> forall y0, dget str_eqb cc (lit "y") = Some y0 -> y0 = 0%Qc).
  { intros RC. assert (R : real_rep (z' ++ map flip c ++ s) (- y)%Qc = true).
    { destruct (real_rep (z' ++ map flip c ++ s) (- y)%Qc); [reflexivity|]. rewrite Ek in RC. unfold class_for in RC. destruct z', RC as [X|X]; discriminate X. }
    apply real_colour in R as [Rc Ry]. split; [exact Rc|]. intros cc [= <-] y0 Y. cbn in Y. injection Y as <-. exact Ry. }
  assert (C : exists lx', latex_or (match k with DiracFermion _ => None | _ => Some lx end) (if cj then filter (fun ch => negb (Ascii.eqb ch dagger)) label else label ++ [dagger]) = Ok lx').
  { destruct k; cbn [latex_or]; eauto. }
  destruct C as (lx' & Lx).
  exists z', lx', (lab_of (TStr (join (lit " ") (map ix_label (z' ++ map flip c ++ s))))). split; [exact A1|]. split; [exact Lz|]. split; [exact Ek|].
  assert (NP : k <> Plain) by (rewrite Ek; unfold class_for; destruct z', (real_rep _ _); discriminate).
  assert (U : conj_typed (mkCF k (made label (z ++ c ++ s) (two y b) cj (class_comm k) lx (sym_of (z ++ c ++ s)) lab)) =
    mk_typed k (if cj then filter (fun ch => negb (Ascii.eqb ch dagger)) label else label ++ [dagger]) (TStr (join (lit " ") (map ix_label (z' ++ map flip c ++ s))))
      (Some (two (- y)%Qc (- b)%Qc)) (match k with DiracFermion _ => None | _ => Some lx end) (negb cj) (Some (sym_of (z ++ c ++ s)))).
  { unfold conj_typed. cbn [cf_class cf_if]. unfold conj_indices_text. cbn [i_indices made]. rewrite M. clearbody k; destruct k; first [reflexivity|congruence]. }
  rewrite U. rewrite (mk_typed_ok k _ _ _ _ lx' _ _ z' (map flip c) s A1 At Lx Fit Rk Re). now rewrite two_or.
Qed.

Lemma tex_head ch label label' tex : to_tex (ch :: label) = Ok tex -> exists t, to_tex (ch :: label') = Ok t.
Proof.
  unfold to_tex. destruct (_ || _); [eauto|]. destruct (160 <=? nat_of_ascii ch); [|discriminate].
  destruct (nth_error tex_greek (nat_of_ascii ch - 160)); [eauto|discriminate].
Qed.

Lemma tex_conj (label : str) (cj : bool) tex : to_tex label = Ok tex ->
  exists t, to_tex (if cj then filter (fun ch => negb (Ascii.eqb ch dagger)) label else label ++ [dagger]) = Ok t.
Proof.
  intros T. destruct cj; [|exact (to_tex_app _ _ _ T)]. destruct label as [|ch label]; [discriminate T|]. cbn [filter].
  destruct (Ascii.eqb ch dagger) eqn:D; cbn [negb]; [|exact (tex_head _ _ _ _ T)].
  apply Ascii.eqb_eq in D as ->. discriminate T.
Qed.

Definition letter_of (z : list index) : str := match z with [] => lit "S" | _ => lit "F" end.

Lemma info_made z c s (y b : Qc) u (label : str) (cj : bool) (lx : str) lab tex :
  arranged z c s -> to_tex label = Ok tex ->
  let k := class_for z (real_rep (z ++ c ++ s) y) u in
  let up := count_kind Colour true c in let down := count_kind Colour false c in
  info_of (mkCF k (made label (z ++ c ++ s) (two y b) cj (class_comm k) lx (sym_of (z ++ c ++ s)) lab)) =
  Ok (if Qc_ltb y 0 then mkQn (letter_of z) [down; up; List.length s] [(lit "3b", (- b)%Qc); (lit "y", (- y)%Qc)]
      else mkQn (letter_of z) [up; down; List.length s] [(lit "3b", b); (lit "y", y)]).
Proof.
  intros A T. cbv zeta. set (k := class_for z (real_rep (z ++ c ++ s) y) u). unfold info_of, field_y, dgetM. cbn [cf_if i_field made f_charges].
  rewrite two_y. cbn [bind].
  assert (Fe : forall sm ch, (do fermion <- is_fermion (i_field (made label (z ++ c ++ s) (two y b) cj (class_comm k) lx (sym_of (z ++ c ++ s)) lab));
     if fermion then Ok (mkQn (lit "F") sm ch)
     else do scalar <- is_scalar (i_field (made label (z ++ c ++ s) (two y b) cj (class_comm k) lx (sym_of (z ++ c ++ s)) lab));
       if scalar then Ok (mkQn (lit "S") sm ch) else Err ValueError) = Ok (mkQn (letter_of z) sm ch)).
  { intros sm ch. rewrite (made_fermion _ _ _ _ _ _ _ _ _ _ A), (made_scalar _ _ _ _ _ _ _ _ _ _ A). destruct z; reflexivity. }
  destruct (Qc_ltb y 0).
  - destruct (tex_conj label cj tex T) as (t & Tc).
    destruct (conj_made z c s y b u label cj lx lab t A Tc) as (z' & lx' & lab' & A1 & Lz & Ek & Cj). fold k in Ek, Cj.
    set (label' := if cj then _ else _) in *. set (X := made label' _ _ _ _ _ _ _) in Cj.
    etransitivity; [apply (f_equal (fun r => bind (bind r (fun c => Ok (i_field (cf_if c)))) _) Cj)|]. cbn [bind cf_if].
    assert (I : sm_irrep (i_field X) = Ok [count_kind Colour false c; count_kind Colour true c; List.length s]).
    { unfold sm_irrep, X. rewrite (made_ints _ _ _ _ _ _ _ _ _ _ A1). cbn [bind skipn].
      now rewrite !(colour_none_z _ _ _ _ A1), (isospin_only _ _ _ A1), !count_flip by apply (ar_colour _ _ _ A). }
    rewrite I. cbn [bind]. exact (Fe _ _).
  - cbn [bind f_charges].
    assert (I : sm_irrep (i_field (made label (z ++ c ++ s) (two y b) cj (class_comm k) lx (sym_of (z ++ c ++ s)) lab)) = Ok [count_kind Colour true c; count_kind Colour false c; List.length s]).
    { unfold sm_irrep. rewrite (made_ints _ _ _ _ _ _ _ _ _ _ A). cbn [bind skipn].
      now rewrite !(colour_none_z _ _ _ _ A), (isospin_only _ _ _ A). }
    cbn [made i_field] in I. rewrite I. cbn [bind]. exact (Fe _ _).
Qed.

Lemma ltb_neg y : Qc_ltb y 0 = true <-> (y < 0)%Qc.
Proof. unfold Qc_ltb. rewrite Qclt_alt. destruct (y ?= 0)%Qc; intuition discriminate. Qed.

(** ** C56 *)

(** the Lorentz letter of an exotic field *)
Definition lorentz_letter (x : cfield) (l : str) : Prop := (scalar x -> l = lit "S") /\ (fermion x -> l = lit "F").

Definition numbers (x : cfield) (l : str) : qnumbers :=
  mkQn l [count_kind Colour true (indices_of x); count_kind Colour false (indices_of x); count_kind Isospin true (indices_of x)]
    [(lit "3b", baryon x); (lit "y", hypercharge x)].
Definition conjugate_numbers (x : cfield) (l : str) : qnumbers :=
  mkQn l [count_kind Colour false (indices_of x); count_kind Colour true (indices_of x); count_kind Isospin true (indices_of x)]
    [(lit "3b", (- baryon x)%Qc); (lit "y", (- hypercharge x)%Qc)].

Lemma letter_fits x z c s : arranged z c s -> indices_of x = z ++ c ++ s -> lorentz_letter x (letter_of z).
Proof.
  intros A I. pose proof (arr_lorentz_counts _ _ _ A) as L. unfold lorentz_letter, scalar, fermion, boson. rewrite I.
  destruct (ar_lorentz _ _ _ A) as [-> | (i & -> & _)]; cbn [List.length letter_of] in *; split; intros H; try reflexivity.
  - destruct H. rewrite L. exists 0. reflexivity.
  - lia.
Qed.

Lemma numbers_of_made z c s x : arranged z c s -> indices_of x = z ++ c ++ s -> forall l,
  numbers x l = mkQn l [count_kind Colour true c; count_kind Colour false c; List.length s] [(lit "3b", baryon x); (lit "y", hypercharge x)] /\
  conjugate_numbers x l = mkQn l [count_kind Colour false c; count_kind Colour true c; List.length s] [(lit "3b", (- baryon x)%Qc); (lit "y", (- hypercharge x)%Qc)].
Proof. intros A I l. unfold numbers, conjugate_numbers. rewrite I, !(colour_none_z _ _ _ _ A), (isospin_only _ _ _ A). auto. Qed.

(** The quantum numbers are those of the field, or of its conjugate if the hypercharge is negative. *)
Theorem C56_info : forall x z c s, well_made x z c s -> (exists tex, to_tex (f_label (i_field (cf_if x))) = Ok tex) ->
  exists l, lorentz_letter x l /\
    ((0 <= hypercharge x)%Qc -> info_of x = Ok (numbers x l)) /\
    ((hypercharge x < 0)%Qc -> info_of x = Ok (conjugate_numbers x l)).
Proof.
  intros x z c s W (tex & T). pose proof (wm_arranged _ _ _ _ W) as A. pose proof (wm_indices _ _ _ _ W) as I.
  destruct (wm_eq x z c s W) as (u & E). cbv zeta in E. exists (letter_of z). split; [exact (letter_fits x z c s A I)|].
  destruct (numbers_of_made z c s x A I (letter_of z)) as [-> ->].
  assert (E' : info_of x = Ok (if Qc_ltb (hypercharge x) 0 then mkQn (letter_of z) [count_kind Colour false c; count_kind Colour true c; List.length s] [(lit "3b", (- baryon x)%Qc); (lit "y", (- hypercharge x)%Qc)]
      else mkQn (letter_of z) [count_kind Colour true c; count_kind Colour false c; List.length s] [(lit "3b", baryon x); (lit "y", hypercharge x)])).
  { rewrite E at 1. apply (info_made z c s (hypercharge x) (baryon x) u _ _ _ _ tex A T). }
  rewrite E'. split; intros H.
  - destruct (Qc_ltb (hypercharge x) 0) eqn:L; [|reflexivity]. apply ltb_neg in L. exfalso. exact (Qclt_not_le _ _ L H).
  - apply ltb_neg in H. now rewrite H.
Qed.

Lemma opp_zero (q : Qc) : (- q = q)%Qc -> q = 0%Qc.
Proof.
  intros H. assert (X : ((1 + 1) * q = 0)%Qc) by (replace ((1 + 1) * q)%Qc with (q + q)%Qc by ring; rewrite <- H at 1; ring).
  apply Qcmult_integral in X as [X|X]; [|exact X]. apply (f_equal (fun r : Qc => Qnum r)) in X. discriminate X.
Qed.

Lemma ltb_opp y : y <> 0%Qc -> Qc_ltb (- y)%Qc 0 = negb (Qc_ltb y 0).
Proof.
  intros N. destruct (Qc_ltb y 0) eqn:L; cbn [negb].
  - apply not_true_iff_false. intros H. apply ltb_neg in H, L. apply (Qclt_not_le _ _ H). apply Qclt_le_weak in L. apply Qcopp_le_compat in L.
    replace (- 0)%Qc with 0%Qc in L by (apply Qc_is_canon; reflexivity). exact L.
  - apply ltb_neg. apply not_true_iff_false in L. rewrite ltb_neg in L. apply Qcnot_lt_le in L. apply Qcopp_le_compat in L.
    replace (- 0)%Qc with 0%Qc in L by (apply Qc_is_canon; reflexivity). apply Qcle_lt_or_eq in L as [L|L]; [exact L|].
    exfalso. apply N. rewrite <- (Qcopp_involutive y), L. apply Qc_is_canon. reflexivity.
Qed.

(** A field and its conjugate are given the same quantum numbers unless the hypercharge is zero; then only if colour and baryon
    number are those of the conjugate as well. *)
Theorem C56_conjugate : forall x z c s, well_made x z c s -> (exists tex, to_tex (f_label (i_field (cf_if x))) = Ok tex) ->
  exists x' q q', conj_typed x = Ok x' /\ info_of x = Ok q /\ info_of x' = Ok q' /\
    (q' = q <-> hypercharge x <> 0%Qc \/ count_kind Colour true (indices_of x) = count_kind Colour false (indices_of x) /\ baryon x = 0%Qc).
Proof.
  intros x z c s W (tex & T). pose proof (wm_arranged _ _ _ _ W) as A. pose proof (wm_indices _ _ _ _ W) as I.
  destruct (wm_eq x z c s W) as (u & E). cbv zeta in E.
  destruct (tex_conj _ (f_is_conj (i_field (cf_if x))) tex T) as (t & Tc).
  destruct (conj_made z c s (hypercharge x) (baryon x) u _ _ (f_latex (i_field (cf_if x))) (i_index_labels (cf_if x)) t A Tc) as (z' & lx' & lab' & A1 & Lz & Ek & Cj).
  set (label' := if f_is_conj _ then _ else _) in *.
  eexists. do 2 eexists. split; [rewrite E at 1; exact Cj|].
  split; [rewrite E at 1; apply (info_made z c s (hypercharge x) (baryon x) u _ _ _ _ tex A T)|].
  rewrite Ek. split; [apply (info_made z' (map flip c) s (- hypercharge x)%Qc (- baryon x)%Qc u label' _ _ _ t A1 Tc)|].
  rewrite I, !(colour_none_z _ _ _ _ A), !count_flip by apply (ar_colour _ _ _ A). cbn [negb].
  assert (letter_of z' = letter_of z) as -> by (destruct z, z'; try discriminate Lz; reflexivity).
  rewrite !Qcopp_involutive.
  destruct (Qc_eq_dec (hypercharge x) 0) as [Z|N].
  - rewrite Z. replace (- 0)%Qc with 0%Qc by (apply Qc_is_canon; reflexivity).
    assert (Qc_ltb 0 0 = false) as -> by reflexivity. split.
    + intros H. injection H. intros Hb H1 H2. right. split; [congruence|]. apply opp_zero. exact Hb.
    + intros [H|[H Hb]]; [congruence|]. rewrite H, Hb. replace (- 0)%Qc with 0%Qc by (apply Qc_is_canon; reflexivity). reflexivity.
  - rewrite (ltb_opp _ N). split; [auto|]. intros _. destruct (Qc_ltb (hypercharge x) 0); reflexivity.
Qed.

(** The property fails without the condition on the hypercharge: a neutral quark. *)
Theorem C56_refuted : exists x x' q q', (exists z c s, well_made x z c s) /\ conj_typed x = Ok x' /\ info_of x = Ok q /\ info_of x' = Ok q' /\ q <> q'.
Proof.
  destruct examples_made as (_ & _ & _ & (z & c & s & W) & _).
  destruct (C56_conjugate neutral_quark z c s W) as (x' & q & q' & C & Q & Q' & H); [eexists; reflexivity|].
  exists neutral_quark, x', q, q'. split; [eauto|]. split; [exact C|]. split; [exact Q|]. split; [exact Q'|].
  intros E. symmetry in E. apply H in E as [E|[E _]]; [apply E; reflexivity|discriminate E].
Qed.

(** ** All the exotic fields *)

(** no two of them are equal *)
Definition unequal (es : list cfield) : Prop := ForallOrdPairs (fun a b => cfield_eqb b a = false) es.

Lemma exotic_from es : forall qs done, Forall2 (fun e q => info_of e = Ok q) es qs -> unequal es ->
  (forall e p, In e es -> In p done -> cfield_eqb e (fst p) = false) ->
  foldM (fun info e => do q <- info_of e; Ok (dset cfield_eqb info e q)) es done = Ok (done ++ combine es qs).
Proof.
  induction es as [|e es IH]; intros qs don F U D; inversion F as [|? q ? qs' Q F']; subst; cbn [foldM combine]; [now rewrite app_nil_r|].
  inversion U as [|? ? U1 U2]; subst. rewrite Q. cbn [bind]. rewrite dset_new.
  - rewrite (IH qs' _ F' U2); [now rewrite <- app_assoc|]. intros e' p I J.
    apply in_app_or in J as [J|[<-|[]]]; [apply D; [now right|exact J]|cbn; rewrite Forall_forall in U1; auto].
  - clear - D. assert (H : forall p, In p don -> cfield_eqb e (fst p) = false) by (intros p I; apply D; [now left|exact I]). clear D.
    induction don as [|[k v] don IH]; [reflexivity|]. cbn [dget]. pose proof (H (k, v) (or_introl eq_refl)) as Hk. cbn [fst] in Hk. rewrite Hk. apply IH. intros p I. apply H. now right.
Qed.

(** exotic_info maps every exotic field to its quantum numbers. *)
Theorem C56_exotic_info : forall es qs, unequal es -> Forall2 (fun e q => info_of e = Ok q) es qs ->
  exotic_info es = Ok (combine es qs).
Proof. intros es qs U F. unfold exotic_info. rewrite (exotic_from es qs []); [reflexivity|exact F|exact U|intros ? ? _ []]. Qed.

Lemma values_combine {A B} (l : list A) (m : list B) : List.length l = List.length m -> values (combine l m) = m.
Proof. revert m. induction l as [|x l IH]; intros [|y m] H; try discriminate H; [reflexivity|]. cbn. f_equal. apply IH. now injection H. Qed.

(** C81: a model is printed as the sorted texts of the exotic fields of its first completion, each once. *)
Theorem C81_model : forall es rest qs ts,
  unequal es -> Forall2 (fun e q => info_of e = Ok q) es qs -> Forall2 (fun q t => format_quantum_numbers q = Ok t) qs ts ->
  exists out, exotic_numbers (es :: rest) = Ok out /\
    StronglySorted (fun a b => str_leb a b = true) out /\ NoDup out /\ (forall t, In t out <-> In t ts) /\
    model_repr (es :: rest) = Ok (lit "Model(" ++ join (lit " + ") out ++ lit ")").
Proof.
  intros es rest qs ts U F G. unfold model_repr, exotic_numbers. rewrite (C56_exotic_info es qs U F). cbn [bind].
  rewrite values_combine by exact (Forall2_len F).
  assert (M : mapM format_quantum_numbers qs = Ok ts) by (clear - G; induction G as [|q t qs ts Q G IH]; [reflexivity|cbn [mapM]; now rewrite Q, IH]).
  rewrite M. cbn [bind]. eexists. split; [reflexivity|]. split; [apply sorted_str_sorted|]. split; [|split; [|reflexivity]].
  - eapply Permutation_NoDup; [apply sorted_str_perm|]. apply nodup_by_NoDup, str_decides.
  - intros t. rewrite <- (nodup_by_In str_decides t ts). split; apply Permutation_in; [symmetry|]; apply sorted_str_perm.
Qed.

(** It does not depend on the order of iteration over the exotic fields, nor on the other completions. *)
Theorem C81_order : forall es es' rest rest' qs ts,
  unequal es -> unequal es' -> Permutation es es' ->
  Forall2 (fun e q => info_of e = Ok q) es qs -> Forall2 (fun q t => format_quantum_numbers q = Ok t) qs ts ->
  model_repr (es :: rest) = model_repr (es' :: rest').
Proof.
  intros es es' rest rest' qs ts U U' P F G.
  assert (X : exists qs' ts', Forall2 (fun e q => info_of e = Ok q) es' qs' /\ Forall2 (fun q t => format_quantum_numbers q = Ok t) qs' ts' /\ Permutation ts ts').
  { clear U U'. revert qs ts F G. induction P as [|x l l' P IH|x y l|l l' l'' P1 IH1 P2 IH2]; intros qs ts F G.
    - inversion F; subst. inversion G; subst. exists [], []. auto.
    - inversion F as [|? q ? qs0 Q F']; subst. inversion G as [|? t ? ts0 T G']; subst. destruct (IH _ _ F' G') as (qs' & ts' & F1 & G1 & P1).
      exists (q :: qs'), (t :: ts'). split; [now constructor|]. split; [now constructor|]. now constructor.
    - inversion F as [|? q ? qs0 Q F']; subst. inversion G as [|? t ? ts0 T G']; subst. inversion F' as [|? q2 ? qs2 Q2 F2]; subst. inversion G' as [|? t2 ? ts2 T2 G2]; subst.
      exists (q2 :: q :: qs2), (t2 :: t :: ts2). split; [now repeat constructor|]. split; [now repeat constructor|]. constructor.
    - destruct (IH1 _ _ F G) as (qs1 & ts1 & F1 & G1 & E1). destruct (IH2 _ _ F1 G1) as (qs2 & ts2 & F2 & G2 & E2). exists qs2, ts2. split; [exact F2|]. split; [exact G2|].
      now transitivity ts1. }
  destruct X as (qs' & ts' & F' & G' & Pt).
  destruct (C81_model es rest qs ts U F G) as (out & _ & S & N & I & ->). destruct (C81_model es' rest' qs' ts' U' F' G') as (out' & _ & S' & N' & I' & ->).
  assert (out = out') as ->; [|reflexivity].
  assert (Po : Permutation out out').
  { apply NoDup_Permutation; [exact N|exact N'|]. intros t. rewrite I, I'. split; apply Permutation_in; [exact Pt|now symmetry]. }
  rewrite <- (sort_sorted_id str_leb S), <- (sort_sorted_id str_leb S'). change (sorted_str out = sorted_str out'). now apply sorted_str_eq_iff.
Qed.

Theorem C81_none : model_repr [] = Err IndexError.
Proof. reflexivity. Qed.

Example C56_example :
  unequal [heavy_lepton; quark_scalar; real_triplet] /\
  info_of heavy_lepton = Ok (mkQn (lit "F") [0; 0; 1] [(lit "3b", Q2Qc 0); (lit "y", Q2Qc (3 # 2))]) /\
  model_repr [[heavy_lepton; quark_scalar; real_triplet]] = Ok (lit "Model(F(1, 2, 3/2)(0) + S(1, 3, 0)(0) + S(3b, 1, 1/3)(-1))").
Proof.
  split; [|split; vm_compute; reflexivity]. constructor; [constructor; [vm_compute; reflexivity|constructor; [vm_compute; reflexivity|constructor]]|].
  constructor; [constructor; [vm_compute; reflexivity|constructor]|]. constructor; constructor.
Qed.

Print Assumptions C56_info.
Print Assumptions C56_conjugate.
Print Assumptions C81_model.
Print Assumptions C81_order.
