(** * ProofsDerivVertex2: what the fields of a term with derivatives are replaced with *)

From Coq Require Import Ascii String List Bool Arith ZArith QArith Qcanon Lia Permutation Sorted.
From Verif Require Import Base BaseFacts Show ModelFunctions ProofsFunctions ModelIndex SpecIndex ProofsIndex PropsIndex ModelField SpecField
  ProofsField ProofsField2 PropsField PropsField2 ModelContract SpecContract ProofsContract PropsContract PropsContract3 ModelPartition
  ModelExotic SpecExotic ProofsExotic PropsExotic ProofsExotic2 PropsExotic2 PropsExotic3 SpecTerms PropsTerms SpecDerivVertex ProofsDerivVertex.
From Verif Require PropsLagrangian2 PropsInfo4 Spec.
Import ListNotations.
Local Open Scope nat_scope.


(** ** Replacing fields *)

Lemma one_spinor_fermion x : one_spinor x -> clean_field x -> raised_spinors x -> fermion x.
Proof.
  intros (i & E & U) _ R (n & B). assert (L : List.length (spinors Undotted x) + List.length (spinors Dotted x) = 1) by (rewrite <- app_length, E; reflexivity).
  assert (K : forall t, spinor_type t -> count_kind t true (indices_of x) = List.length (spinors t x)).
  { intros t T. unfold spinors. rewrite count_kind_filter', filter_filter. f_equal. apply filter_ext_in. intros j J.
    assert (H : has_type t j = itype_eqb (ix_type j) t) by (unfold has_type; now destruct (ix_type j), t). rewrite H.
    destruct (itype_eqb (ix_type j) t) eqn:Q; [|now rewrite andb_false_r]. apply itype_decides in Q. rewrite (R j J) by (red; now rewrite Q). reflexivity. }
  rewrite !K in B by (red; auto). lia.
Qed.

Lemma in_spinors t x i : In i (spinors t x) <-> In i (indices_of x) /\ ix_type i = t.
Proof.
  unfold spinors. rewrite filter_In. assert (H : has_type t i = itype_eqb (ix_type i) t) by (unfold has_type; now destruct (ix_type i), t).
  rewrite H. split; intros [I Q]; (split; [exact I|]); now apply itype_decides.
Qed.

Lemma one_spinor_raised x : one_spinor x -> raised_spinors x.
Proof.
  intros (i & E & U) j J T. assert (I : In j (spinors Undotted x ++ spinors Dotted x)).
  { apply in_app_iff. rewrite !in_spinors. destruct T as [T|T]; [left|right]; auto. }
  rewrite E in I. destruct I as [<-|[]]. exact U.
Qed.

Lemma one_spinor_is x : one_spinor x -> clean_field x -> fermion x.
Proof. intros O C. apply one_spinor_fermion; auto using one_spinor_raised. Qed.

Lemma spinless_boson x : spinless (indices_of x) -> boson x.
Proof.
  intros S. exists 0. assert (K : forall t up, spinor_type t -> count_kind t up (indices_of x) = 0).
  { intros t up T. rewrite count_kind_filter', filter_filter. red in S. rewrite Forall_forall in S. rewrite filter_none; [reflexivity|].
    intros j J. destruct (itype_eqb (ix_type j) t) eqn:Q; [|now rewrite andb_false_r]. apply itype_decides in Q. exfalso. apply (S j J). now rewrite Q. }
  rewrite !K by (red; auto). reflexivity.
Qed.

Lemma replaces_trans x y w : replaces x y -> replaces y w -> replaces x w.
Proof.
  intros (Sy & Hy & Dy & Gy & Cy & By & Fy) (Sw & Hw & Dw & Gw & Cw & Bw & Fw). split; [exact Sw|]. split; [congruence|]. split; [exact Dw|]. split; [|split; [exact Cw|split]].
  - intros q Q. rewrite (Gy q Q). exact (Gw q Q).
  - intros B. apply Bw, spinless_boson, By, B.
  - intros F. apply Fw. apply one_spinor_is; auto.
Qed.

(** the spinors of an arrangement *)
Lemma arr_spinors x z c s : arranged z c s -> indices_of x = z ++ c ++ s -> spinors Undotted x ++ spinors Dotted x = z.
Proof. intros A E. unfold spinors. rewrite E, <- !by_type_has. apply (arr_by_lorentz _ _ _ A). Qed.

Lemma arr_gauge z c s q : arranged z c s -> gauge_type (snd (fst q)) -> (In q (map slot (z ++ c ++ s)) <-> In q (map slot (c ++ s))).
Proof.
  intros A G. rewrite map_app, in_app_iff. split; [|now right]. intros [I|I]; [|exact I]. exfalso. apply in_map_iff in I as (i & <- & I).
  destruct (arr_z_type _ _ _ A i I) as [T _]. cbn in G. destruct T as [T|T], G as [G|G]; congruence.
Qed.

Lemma arr_replaces x y z z' c s : arranged z c s -> arranged z' c s -> List.length z' = List.length z -> indices_of x = z ++ c ++ s -> indices_of y = z' ++ c ++ s ->
  standard_charges y -> hypercharge y = hypercharge x -> derivs y = 0 -> replaces x y.
Proof.
  intros A A' L Ix Iy Sy Hy Dy. split; [exact Sy|]. split; [exact Hy|]. split; [exact Dy|]. split; [|split; [|split]].
  - intros q Q. rewrite Ix, Iy, (arr_gauge _ _ _ _ A Q), (arr_gauge _ _ _ _ A' Q). reflexivity.
  - red. rewrite Iy. eapply Forall_impl; [exact printed_clean|]. apply (ar_printed _ _ _ A').
  - intros (n & B). rewrite Ix, (arr_lorentz_counts _ _ _ A) in B. red. rewrite Iy. apply Forall_forall. intros i I T.
    assert (Z : z' = []) by (destruct (ar_lorentz _ _ _ A) as [-> | (j & -> & _)]; cbn [List.length] in *; [now apply length_zero_iff_nil|lia]). subst z'.
    apply in_app_iff in I as [I|I]; [exact I|]. apply in_app_iff in I as [I|I]; [rewrite (ar_colour _ _ _ A i I) in T|rewrite (proj1 (ar_isospin _ _ _ A i I)) in T]; destruct T as [T|T]; discriminate T.
  - intros F. destruct (ar_lorentz _ _ _ A') as [Z | (j & Z & _ & U)].
    + exfalso. apply F. exists 0. rewrite Ix, (arr_lorentz_counts _ _ _ A), <- L, Z. reflexivity.
    + exists j. split; [now rewrite (arr_spinors _ _ _ _ A' Iy), Z|exact U].
Qed.

Lemma flips_back z c s : arranged z c s -> map flip (map flip c) = c.
Proof.
  intros A. destruct (arr_split _ _ _ A) as (_ & Fc & _). rewrite map_map. rewrite <- (map_id c) at 2. apply map_ext_in. intros i I.
  rewrite Forall_forall in Fc. now apply flip_flip, Fc.
Qed.

Lemma typed_standard x : typed x -> standard_charges x /\ derivs x = 0 /\ cf_class x <> Plain.
Proof. intros (z & c & s & label & y & b & u & cj & lx & lab & tex & A & Tx & ->). split; [reflexivity|]. split; [reflexivity|]. apply class_for_typed. Qed.

Lemma typed_replaces x : typed x -> replaces x x.
Proof.
  intros T. destruct (typed_standard x T) as (S & D & _). destruct T as (z & c & s & label & y & b & u & cj & lx & lab & tex & A & Tx & E).
  apply (arr_replaces x x z z c s); auto; now rewrite E.
Qed.

Lemma conj_exists x : typed x -> exists w z z' c s, conj_typed x = Ok w /\ typed w /\ arranged z c s /\ arranged z' (map flip c) s /\ List.length z' = List.length z /\
  indices_of x = z ++ c ++ s /\ indices_of w = z' ++ map flip c ++ s /\ hypercharge w = (- hypercharge x)%Qc.
Proof.
  intros (z & c & s & label & y & b & u & cj & lx & lab & tex & A & Tx & ->).
  destruct (PropsInfo4.tex_conj label cj tex Tx) as (t & Tc).
  destruct (PropsInfo4.conj_made z c s y b u label cj lx lab t A Tc) as (z' & lx' & lab' & A1 & Lz & Ek & Cj).
  set (k := class_for z _ u) in *. eexists. exists z, z', c, s. split; [exact Cj|]. split.
  { exists z', (map flip c), s. do 7 eexists. exists t. cbv zeta. split; [exact A1|]. split; [exact Tc|]. rewrite <- Ek. reflexivity. }
  split; [exact A|]. split; [exact A1|]. split; [exact Lz|]. repeat split.
Qed.

Lemma typed_spin x : typed x -> (cf_class x = ComplexScalar \/ cf_class x = RealScalar -> scalar x) /\ (cf_class x = MajoranaFermion \/ (exists b, cf_class x = DiracFermion b) -> fermion x).
Proof.
  intros T. destruct (typed_ef x T) as (z & c & s & H). pose proof (ef_class _ _ _ _ H) as K. red in K. split.
  - intros [E|E]; rewrite E in K; apply K.
  - intros [E|(b & E)]; rewrite E in K; apply K.
Qed.

Lemma dirac_image x b : typed x -> cf_class x = DiracFermion b -> exists y w, dirac_partner b x = Ok y /\ conj_typed y = Ok w /\ replaces x w /\ typed w.
Proof.
  intros T Ek. assert (Ep : exists y, partner_of x = Ok y).
  { destruct T as (z & c & s & label & y & b' & u & cj & lx & lab & tex & A & Tx & ->).
    destruct (partner_ok label z c s y b' cj lx lab u _ A eq_refl) as (k' & l' & b1 & c1 & x1 & a1 & _ & E). eexists. exact E. }
  destruct Ep as (y & Ep). assert (Ed : dirac_partner b x = Ok y) by (unfold partner_of in Ep; now rewrite Ek in Ep).
  destruct (partner_typed x y T Ep) as (z & c & s & Ix & Iy & A & label' & u' & b' & cj' & lx' & lab' & tex' & Tx' & Ey). cbv zeta in Ey.
  pose proof (arranged_flip _ _ _ A) as A1.
  assert (Ty : typed y) by (exists z, (map flip c), s; do 7 eexists; exists tex'; cbv zeta; split; [exact A1|]; split; [exact Tx'|exact Ey]).
  destruct (conj_exists y Ty) as (w & z1 & z2 & c1 & s1 & Ec & Tw & B & B' & L & Iy' & Iw & Hw).
  rewrite Iy in Iy'.
  assert (Zz : z1 = z) by (rewrite <- (arr_by_lorentz _ _ _ B), <- Iy'; apply (arr_by_lorentz _ _ _ A1)).
  assert (Zc : c1 = map flip c) by (rewrite <- (arr_by_colour _ _ _ B), <- Iy'; apply (arr_by_colour _ _ _ A1)).
  assert (Zs : s1 = s) by (rewrite <- (arr_by_isospin _ _ _ B), <- Iy'; apply (arr_by_isospin _ _ _ A1)).
  subst z1 c1 s1. rewrite (flips_back _ _ _ A) in B', Iw. exists y, w. split; [exact Ed|]. split; [exact Ec|]. split; [|exact Tw].
  destruct (typed_standard w Tw) as (Sw & Dw & _). apply (arr_replaces x w z z2 c s); auto.
  rewrite Hw, Ey. change (- - hypercharge x = hypercharge x)%Qc. apply Qcopp_involutive.
Qed.

Lemma majorana_image x : typed x -> cf_class x = MajoranaFermion -> colourless x -> exists w, conj_typed x = Ok w /\ replaces x w /\ typed w.
Proof.
  intros T Ek Cl. destruct (conj_exists x T) as (w & z & z' & c & s & Ec & Tw & A & A' & L & Ix & Iw & Hw). exists w. split; [exact Ec|]. split; [|exact Tw].
  assert (c = []).
  { destruct c as [|i c]; [reflexivity|]. exfalso. apply (Cl i); [rewrite Ix; apply in_app_iff; right; now left|]. apply (ar_colour _ _ _ A). now left. }
  subst c. destruct (typed_standard w Tw) as (Sw & Dw & _). apply (arr_replaces x w z z' [] s); auto. rewrite Hw.
  destruct (typed_ef x T) as (z1 & c1 & s1 & H). pose proof (ef_class _ _ _ _ H) as K. red in K. rewrite Ek in K. destruct K as (_ & _ & _ & ->). apply Qc_is_canon. reflexivity.
Qed.

(** the spinor index of an exotic fermion is lowered *)
Lemma lower_spinor x : typed x -> fermion x -> exists x' d e a b,
  lower_su2 x (fun t => match t with Isospin => true | _ => false end) = Ok (x', [e]) /\ replaces x x' /\
  spinors Undotted x ++ spinors Dotted x = [d] /\ spinors Undotted x' ++ spinors Dotted x' = [hat d] /\ symbol_indices e = [a; b] /\ counterpart (hat d) a /\ counterpart d b.
Proof.
  intros T F. pose proof (typed_standard x T) as (_ & _ & Nk). destruct T as (z & c & s & label & y & b' & u & cj & lx & lab & tex & A & Tx & E). set (k := class_for z _ u) in E.
  destruct (ar_lorentz _ _ _ A) as [-> | (d & -> & Td & Ud)].
  { exfalso. apply F. exists 0. rewrite E. change (indices_of (mkCF k (made label ([] ++ c ++ s) (two y b') cj (class_comm k) lx (sym_of ([] ++ c ++ s)) lab))) with ([] ++ c ++ s). now rewrite (arr_lorentz_counts _ _ _ A). }
  destruct (arr_split _ _ _ A) as (Fz & Fc & Fs). inversion Fz as [|? ? Pd _]; subst x0 l.
  pose proof (arranged_hats [d] _ _ _ A) as A2.
  assert (Nz : forall l, (forall i, In i l -> ~ lorentz_type (ix_type i)) -> hats [d] l = l).
  { intros l H. apply hats_none. intros j J. unfold among. cbn [existsb]. rewrite orb_false_r. destruct (index_eqb j d) eqn:Q; [|reflexivity].
    apply ProofsContract.slot_eqb in Q. exfalso. apply (H j J). injection Q as _ Q _. now rewrite Q. }
  assert (Ns : forall i, In i s -> ~ lorentz_type (ix_type i)) by (intros i I [X|X]; rewrite (proj1 (ar_isospin _ _ _ A i I)) in X; discriminate X).
  assert (Nc : forall i, In i c -> ~ lorentz_type (ix_type i)) by (intros i I [X|X]; rewrite (ar_colour _ _ _ A i I) in X; discriminate X).
  rewrite (Nz s Ns), (hats_all [d] [d]) in A2 by apply incl_refl. cbn [map] in A2.
  assert (Su : su2_type (ix_type d)) by (red; destruct Td; auto).
  assert (Lo : exists lab', foldM lower_one [d] (made label ([d] ++ c ++ s) (two y b') cj (class_comm k) lx (sym_of ([d] ++ c ++ s)) lab, []) =
     Ok (made label ([hat d] ++ c ++ s) (two y b') cj (class_comm k) lx (sym_of ([d] ++ c ++ s)) lab', [hat_eps d])).
  { cbn [foldM]. unfold lower_one at 1. cbn [fst snd]. destruct (hat_new d Pd Ud) as [En Es]. rewrite En. cbn [bind]. unfold substituted_indices. cbn [i_indices made fold_left fst snd].
    assert (New : map (fun k => if index_eqb d k then hat d else k) ([d] ++ c ++ s) = [hat d] ++ c ++ s).
    { cbn [map app]. rewrite (proj2 (ProofsContract.slot_eqb d d) eq_refl). f_equal. rewrite <- (map_id (c ++ s)) at 2. apply map_ext_in. intros j J.
      destruct (index_eqb d j) eqn:Q; [|reflexivity]. apply ProofsContract.slot_eqb in Q. injection Q as _ Q _. exfalso. apply in_app_iff in J as [J|J]; [apply (Nc j J)|apply (Ns j J)]; now rewrite <- Q. }
    rewrite New. cbn [made i_field f_label f_charges f_is_conj f_symmetry f_comm f_latex f_nf f_derivs f_stripped].
    rewrite (mk_made label (AIdxs _) (Some (two y b')) cj (Some (sym_of ([d] ++ c ++ s))) (class_comm k) (Some lx) lx _ _ _ A2 (printed_arg _ (ar_printed _ _ _ A2)) eq_refl).
    2:{ intros m' [= <-]. exact (arr_rank _ _ _ A). }
    rewrite two_or. cbn [bind]. rewrite (hat_eps_ok d Pd Ud Su). cbn [bind]. eexists. reflexivity. }
  destruct Lo as (lab' & Lo).
  assert (Todo : filter (fun i => negb (match ix_type i with Isospin => true | _ => false end)) (by_type Undotted ([d] ++ c ++ s) ++ by_type Dotted ([d] ++ c ++ s) ++ by_type Isospin ([d] ++ c ++ s)) = [d]).
  { rewrite app_assoc, (arr_by_lorentz _ _ _ A), (arr_by_isospin _ _ _ A). cbn [app filter].
    assert (H : match ix_type d with Isospin => true | _ => false end = false) by (destruct Td as [-> | ->]; reflexivity). rewrite H. cbn [negb]. f_equal.
    apply filter_none. intros i I. now rewrite (proj1 (ar_isospin _ _ _ A i I)). }
  assert (G : forall v, exists cj2 lab2, (do r <- foldM lower_one [d] (made label ([d] ++ c ++ s) (two y b') cj (class_comm k) lx (sym_of ([d] ++ c ++ s)) lab, []);
                     do p <- cons_completion_field (fst r) v; Ok (p, snd r)) =
       Ok (mkCF (class_for [hat d] (real_rep ([hat d] ++ c ++ s) y) v)
           (made label ([hat d] ++ c ++ s) (two y b') cj2 (class_comm (class_for [hat d] (real_rep ([hat d] ++ c ++ s) y) v)) lx (sym_of ([hat d] ++ c ++ s)) lab2),
         [hat_eps d])).
  { intros v. rewrite Lo. cbn [bind fst snd].
    destruct (cons_ok label _ _ _ y b' cj (class_comm k) lx (sym_of ([d] ++ c ++ s)) lab' v A2) as (cj2 & lab2 & E' & _). rewrite E'. cbn [bind]. now exists cj2, lab2. }
  assert (Ls : exists v cj2 lab2, lower_su2 x (fun t => match t with Isospin => true | _ => false end) =
     Ok (mkCF (class_for [hat d] (real_rep ([hat d] ++ c ++ s) y) v)
           (made label ([hat d] ++ c ++ s) (two y b') cj2 (class_comm (class_for [hat d] (real_rep ([hat d] ++ c ++ s) y) v)) lx (sym_of ([hat d] ++ c ++ s)) lab2),
         [hat_eps d])).
  { rewrite E in Nk |- *. unfold lower_su2. cbn [cf_class cf_if i_indices made] in *. rewrite Todo. clear - G Nk. clearbody k. unfold made in *.
    destruct k eqn:Ek; try congruence; match goal with |- context [cons_completion_field _ ?v] => destruct (G v) as (c1 & l1 & G1) end; eexists; exists c1, l1; exact G1. }
  destruct Ls as (v & cj2 & lab2 & Ls). eexists. exists d, (hat_eps d), (flip (hat d)), (flip d). split; [exact Ls|]. split.
  { apply (arr_replaces _ _ [d] [hat d] c s); try assumption; try reflexivity; now rewrite E. }
  split; [apply (arr_spinors _ _ _ _ A); now rewrite E|]. split; [apply (arr_spinors _ _ _ _ A2); reflexivity|]. split; [reflexivity|].
  split; [apply flip_counterpart, hat_printed, Pd|apply flip_counterpart, Pd].
Qed.
