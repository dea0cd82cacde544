(** * PropsLagrangian3: C48, when the symmetries can be computed *)

From Coq Require Import Ascii String List Bool Arith ZArith QArith Qcanon Lia Permutation.
From Verif Require Import Base BaseFacts Spec SpecFunctions ProofsFunctions PropsFunctions Show ModelFunctions ProofsDatabase3 ModelIndex SpecIndex ProofsIndex ModelField SpecField ProofsField ModelContract SpecContract ProofsContract
  ModelPartition ModelExotic SpecExotic ProofsExotic ProofsExotic2 PropsExotic2 ModelLagrangian SpecLagrangian ProofsLagrangian PropsLagrangian PropsLagrangian2.
Import ListNotations.
Local Open Scope nat_scope.

(** ** Conditions *)

(** the colour of a complex scalar is symmetric under conjugation, or in upper or in lower indices only *)
Definition pure_colour (x : cfield) : Prop :=
  let up := count_kind Colour true (indices_of x) in let down := count_kind Colour false (indices_of x) in up = 0 \/ down = 0 \/ up = down.

(** the tilde marks the partner of a Dirac fermion, and nothing else *)
Definition tilded (x : cfield) : Prop :=
  match cf_class x with
  | DiracFermion true => ~ In "~"%char (f_label (i_field (cf_if x)))
  | DiracFermion false => exists l, f_label (i_field (cf_if x)) = l ++ lit "~" /\ ~ In "~"%char l
  | _ => True
  end.

Definition massive (x : cfield) : Prop :=
  match cf_class x with
  | DiracFermion _ => hypercharge x <> 0%Qc
  | ComplexScalar => pure_colour x
  | RealScalar | MajoranaFermion => baryon x = 0%Qc
  | Plain => False
  end.

Definition ordinary (x : cfield) : Prop := (exists z c s, well_made x z c s) /\ tilded x /\ massive x.

(** ** Mass terms *)

Lemma two_charge_y y b : charge (lit "y") (mkField [] [] (two y b) false [] [] None 1 [] 1 0 None) = y. Proof. reflexivity. Qed.

Lemma scalar_dyn z c s label y b cm lx : arranged z c s -> z = [] -> exists lx',
  conj_field (fld label (z ++ c ++ s) y b false cm lx) = Ok (mkField label (dyn (z ++ map flip c ++ s)) (two (- y)%Qc (- b)%Qc) true cm (sym_of (z ++ c ++ s)) None 1 lx' 1 0 None).
Proof.
  intros A Z. exists lx. unfold conj_field, lorentz_irrep, colour_irrep, isospin_irrep, sm_irrep, dynkin_ints. cbn [f_dynkin fld].
  rewrite (arr_digits _ _ _ A). cbn [bind firstn skipn rev app].
  pose proof (arr_lorentz_counts _ _ _ A) as L. rewrite Z in L at 3. cbn [List.length] in L.
  unfold mk_field. cbn [bind f_label f_charges f_is_conj f_comm f_symmetry f_history f_multiplicity f_latex f_nf f_derivs f_stripped negb andb Nat.eqb fld].
  rewrite two_neg. change (dupdate str_eqb default_charges (two (- y)%Qc (- b)%Qc)) with (two (- y)%Qc (- b)%Qc). do 2 f_equal.
  unfold dyn, five. rewrite !(flip_colours _ _ _ _ A). cbn [negb]. rewrite !(flip_counts _ _ _ _ _ A) by discriminate.
  replace (count_kind Dotted true (z ++ c ++ s)) with (count_kind Undotted true (z ++ c ++ s)) by lia.
  pose proof (ar_few _ _ _ A) as B. cbn [map concat]. rewrite !show_nat_digit by (apply B; discriminate). reflexivity.
Qed.

Lemma sym_flip z c s : arranged z c s ->
  (sym_of (z ++ map flip c ++ s) = sym_of (z ++ c ++ s) <-> (let up := count_kind Colour true (z ++ c ++ s) in let down := count_kind Colour false (z ++ c ++ s) in up = 0 \/ down = 0 \/ up = down)).
Proof.
  intros A. cbv zeta. unfold sym_of. rewrite !(flip_colours _ _ _ _ A). cbn [negb]. rewrite !(flip_counts _ _ _ _ _ A) by discriminate.
  generalize (count_kind Colour true (z ++ c ++ s)) as a, (count_kind Colour false (z ++ c ++ s)) as b. intros a b.
  unfold symmetry_of. cbn [flat_map]. split.
  - intros E. do 2 apply app_inv_head in E. rewrite !app_assoc in E. apply app_inv_tail in E.
    destruct a as [|a]; [auto|]. destruct b as [|b]; [auto|]. right; right. cbn [Nat.eqb app] in E.
    apply (f_equal (fun l => List.length (hd [] l))) in E. cbn [hd] in E. rewrite !repeat_length in E. congruence.
  - intros H. do 2 f_equal. rewrite !app_assoc. f_equal. destruct H as [-> | [-> | ->]]; cbn [Nat.eqb]; rewrite ?app_nil_r; reflexivity.
Qed.

(** The mass term is made of the field and of its partner.  It conserves hypercharge.  The partner of a real scalar or Majorana
    fermion is alike to the field, that of a complex scalar to its conjugate, under conditions only. *)
Theorem C48_mass_term : forall x z c s, well_made x z c s ->
  exists f g t fs, field_of (cf_if x) = Ok f /\ mass_term x = Ok t /\ fields_of (cop_erase t) = Ok fs /\ Permutation fs [g; f] /\
    total (charge (lit "y")) fs = 0%Qc /\
    match cf_class x with
    | RealScalar | MajoranaFermion => (alike g f <-> baryon x = 0%Qc) /\ total (charge (lit "3b")) fs = baryon x
    | ComplexScalar => (exists h, conj_field f = Ok h /\ (alike g h <-> pure_colour x)) /\ total (charge (lit "3b")) fs = 0%Qc
    | DiracFermion u => (exists p, dirac_partner u x = Ok p /\ field_of (cf_if p) = Ok g) /\ total (charge (lit "3b")) fs = 0%Qc
    | Plain => False
    end.
Proof.
  intros x z c s W. destruct (wm_eq _ _ _ _ W) as (u & E). cbv zeta in E. pose proof (wm_arranged _ _ _ _ W) as A.
  set (k := class_for z (real_rep (z ++ c ++ s) (hypercharge x)) u) in E. set (y := hypercharge x) in *. set (b := baryon x) in *.
  set (label := f_label (i_field (cf_if x))) in *. set (cj := f_is_conj (i_field (cf_if x))) in *. set (lx := f_latex (i_field (cf_if x))) in *.
  set (lab := i_index_labels (cf_if x)) in *.
  assert (Cj : z = [] -> cj = false).
  { intros Z. apply (wm_conj _ _ _ _ W). unfold scalar. rewrite (wm_indices _ _ _ _ W). pose proof (arr_lorentz_counts _ _ _ A) as L. rewrite Z in L at 3. cbn in L. lia. }
  assert (Ix : indices_of x = z ++ c ++ s) by apply (wm_indices _ _ _ _ W). unfold pure_colour. rewrite Ix.
  clearbody y b label cj lx lab. clear Ix.
  destruct (mass_term_ok z c s y b label lx cj k lab u eq_refl A (wm_names _ _ _ _ W) Cj) as (Ef & t & fs & Et & Efs & P). clear W. rewrite <- E in Ef, Et.
  do 4 eexists. split; [exact Ef|]. split; [exact Et|]. split; [exact Efs|]. split; [exact P|].
  assert (Tot : forall q a d, total q [a; d] = (q a + q d)%Qc) by (intros; cbn; ring).
  assert (Tp : forall q l l', Permutation l l' -> total q l = total q l').
  { intros q l l' Q. unfold total. induction Q; cbn [fold_right]; [reflexivity|now rewrite IHQ|ring|congruence]. }
  split; [rewrite (Tp _ _ _ P), Tot; change (- y + y = 0)%Qc; ring|].
  assert (B : total (charge (lit "3b")) fs = (partner_baryon k b + b)%Qc) by (rewrite (Tp _ _ _ P), Tot; reflexivity).
  assert (Kx : cf_class x = k) by (rewrite E; reflexivity). rewrite Kx.
  assert (Al : k = RealScalar \/ k = MajoranaFermion ->
     (alike (fld (strip (partner_conj k cj) (partner_label k cj label)) (z ++ map flip c ++ s) (- y)%Qc (partner_baryon k b) (partner_conj k cj) (class_comm k) lx)
            (fld (strip cj label) (z ++ c ++ s) y b cj (class_comm k) lx) <-> b = 0%Qc) /\ (partner_baryon k b + b)%Qc = b).
  { intros K. assert (R : real_rep (z ++ c ++ s) y = true).
    { unfold k, class_for in K. destruct z, (real_rep _ y); auto; destruct K as [K|K]; discriminate K. }
    rewrite (fld_same (z ++ map flip c ++ s) (z ++ c ++ s)) by exact (real_counts _ _ _ _ A R). apply real_colour in R as [_ ->].
    replace (partner_conj k cj) with cj by (destruct K as [-> | ->]; reflexivity). replace (partner_label k cj label) with label by (destruct K as [-> | ->]; reflexivity).
    replace (partner_baryon k b) with 0%Qc by (destruct K as [-> | ->]; reflexivity). split; [|ring]. split.
    - intros [H _]. unfold hash_data in H. cbn [f_charges fld] in H. injection H as H. auto.
    - intros ->. apply alike_refl. }
  rewrite B. destruct (partner_detail label z c s y b cj lx lab u k A eq_refl) as (lab' & Ep). rewrite <- E in Ep.
  destruct k as [| | |u0|] eqn:Ek.
  - cbn [partner_baryon]. split; [|ring]. destruct z; [|unfold k, class_for in Ek; destruct (real_rep _ _); discriminate Ek]. rewrite (Cj eq_refl).
    destruct (scalar_dyn [] c s (strip false label) y b (class_comm ComplexScalar) lx A eq_refl) as (lx' & Eh). eexists. split; [exact Eh|].
    cbn [strip partner_conj partner_label negb]. rewrite removelast_last. unfold alike, hash_data. cbn [fld f_label f_dynkin f_is_conj f_comm f_nf f_derivs f_symmetry f_charges f_stripped].
    rewrite <- (sym_flip _ _ _ A). split; [intros [H _]; now injection H|intros ->; auto].
  - apply Al. auto.
  - apply Al. auto.
  - cbn [partner_baryon]. split; [|ring]. unfold partner_of in Ep. rewrite Kx in Ep. eexists. split; [exact Ep|]. cbn [cf_if]. rewrite field_of_made. reflexivity.
  - unfold k, class_for in Ek. destruct z; destruct (real_rep _ _); discriminate Ek.
Qed.
