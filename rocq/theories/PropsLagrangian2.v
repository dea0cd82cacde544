(** * PropsLagrangian2: C48, mass terms and when the symmetries can be computed *)

From Coq Require Import Ascii String List Bool Arith ZArith QArith Qcanon Lia Permutation.
From Verif Require Import Base BaseFacts Spec SpecFunctions ProofsFunctions PropsFunctions Show ModelFunctions ProofsDatabase3 ModelIndex SpecIndex ProofsIndex ModelField SpecField ProofsField ModelContract SpecContract ProofsContract
  ModelPartition ModelExotic SpecExotic ProofsExotic ProofsExotic2 PropsExotic2 ModelLagrangian SpecLagrangian ProofsLagrangian PropsLagrangian.
Import ListNotations.
Local Open Scope nat_scope.

(** ** Exotic fields as the package makes them *)

Definition comm_of (k : cls) : str := match k with ComplexScalar | RealScalar => lit "bose" | Plain => lit "0" | _ => lit "fermi" end.

(** [z], [c] and [s] are the Lorentz, colour and isospin indices *)
Record well_made (x : cfield) (z c s : list index) : Prop := mkWM
  { wm_arranged : arranged z c s;
    wm_indices : indices_of x = z ++ c ++ s;
    wm_names : forall i j, In i (z ++ s) -> In j (z ++ s) -> ix_name j <> ix_name i ++ lit "^";
    wm_class : right_class x;
    wm_charges : standard_charges x;
    wm_bare : bare x;
    wm_dynkin : get_dynkin (indices_of x) = Ok (f_dynkin (i_field (cf_if x)));
    wm_symmetry : exists l, dynkin_ints (i_field (cf_if x)) = Ok l /\ f_symmetry (i_field (cf_if x)) = symmetry_of l;
    wm_comm : f_comm (i_field (cf_if x)) = comm_of (cf_class x);
    wm_fresh : f_history (i_field (cf_if x)) = None /\ f_multiplicity (i_field (cf_if x)) = 1;
    (** scalars are not conjugated *)
    wm_conj : scalar x -> f_is_conj (i_field (cf_if x)) = false }.

Lemma wm_eq x z c s : well_made x z c s -> exists u,
  let f := i_field (cf_if x) in
  let k := class_for z (real_rep (z ++ c ++ s) (hypercharge x)) u in
  x = mkCF k (made (f_label f) (z ++ c ++ s) (two (hypercharge x) (baryon x)) (f_is_conj f) (class_comm k) (f_latex f) (sym_of (z ++ c ++ s)) (i_index_labels (cf_if x))).
Proof.
  intros [A I _ K Ch (Nf & Dv & Sp) Dy (l & El & Sy) Co (Hi & Mu) Cj].
  destruct x as [k [f idx lab]]. unfold indices_of in *. cbn [cf_class cf_if i_field i_indices i_index_labels] in *. subst idx.
  rewrite (arr_dynkin _ _ _ A) in Dy. injection Dy as Dy.
  assert (El' : l = [count_kind Undotted true (z ++ c ++ s); count_kind Dotted true (z ++ c ++ s); count_kind Colour true (z ++ c ++ s); count_kind Colour false (z ++ c ++ s); count_kind Isospin true (z ++ c ++ s)]).
  { unfold dynkin_ints in El. rewrite <- Dy, (arr_digits _ _ _ A) in El. congruence. }
  subst l. set (x := mkCF k (mkIField f (z ++ c ++ s) lab)) in *.
  assert (Ek : exists u, k = class_for z (real_rep (z ++ c ++ s) (hypercharge x)) u).
  { pose proof (real_rep_iff x (hypercharge x) (z ++ c ++ s) eq_refl eq_refl) as Re. pose proof (arr_lorentz_counts _ _ _ A) as L.
    unfold right_class, fermion, boson, scalar, indices_of in K. cbn [cf_class cf_if i_indices x] in K.
    change (indices_of x) with (z ++ c ++ s) in K. unfold class_for. destruct (ar_lorentz _ _ _ A) as [Z|(i & Z & _)]; rewrite Z in L; cbn [List.length] in L.
    - subst z. exists None. cbn [app] in *. destruct (real_rep (c ++ s) (hypercharge x)); destruct k as [| | |b|]; try contradiction; destruct K as [K1 K2]; try reflexivity; exfalso;
        first [apply K1; exists 0; lia|apply K2, Re; reflexivity|apply Re in K2; discriminate K2].
    - subst z. destruct (real_rep ([i] ++ c ++ s) (hypercharge x)) eqn:Rr; destruct k as [| | |b|]; try contradiction; destruct K as [K1 K2];
        first [exists None; reflexivity|exists (Some b); reflexivity|exfalso; lia|exfalso; apply K2, Re; reflexivity|exfalso; apply Re in K2; discriminate K2]. }
  destruct Ek as (u & Ek). exists u. cbv zeta. rewrite <- Ek. unfold x at 1. unfold made. destruct f as [label dynkin ch cj comm sym hist mult latex nf derivs stripped].
  cbn [f_label f_dynkin f_charges f_is_conj f_comm f_symmetry f_history f_multiplicity f_latex f_nf f_derivs f_stripped] in *.
  unfold standard_charges in Ch. cbn [x cf_if i_field f_charges] in Ch.
  subst hist mult nf derivs stripped dynkin sym comm. unfold two. rewrite <- Ch. reflexivity.
Qed.

(** ** Partners *)

Definition partner_label (k : cls) (cj : bool) (label : str) : str :=
  match k with
  | ComplexScalar => if cj then filter (fun c => negb (Ascii.eqb c dagger)) label else label ++ [dagger]
  | DiracFermion true => label ++ lit "~"
  | DiracFermion false => filter (fun c => negb (Ascii.eqb c "~")) label
  | _ => label
  end.

Definition partner_baryon (k : cls) (b : Qc) : Qc := match k with ComplexScalar | DiracFermion _ => (- b)%Qc | _ => 0%Qc end.
Definition partner_conj (k : cls) (cj : bool) : bool := match k with ComplexScalar => negb cj | _ => cj end.
Definition partner_class (k : cls) : cls := match k with DiracFermion u => DiracFermion (negb u) | _ => k end.

Lemma partner_detail label z c s y b cj lx lab u k :
  arranged z c s -> k = class_for z (real_rep (z ++ c ++ s) y) u ->
  exists lab', partner_of (mkCF k (made label (z ++ c ++ s) (two y b) cj (class_comm k) lx (sym_of (z ++ c ++ s)) lab)) =
    Ok (mkCF (partner_class k) (made (partner_label k cj label) (z ++ map flip c ++ s) (two (- y)%Qc (partner_baryon k b)) (partner_conj k cj)
         (class_comm (partner_class k)) lx (sym_of (z ++ map flip c ++ s)) lab')).
Proof.
  intros A Hk. pose proof (arranged_flip _ _ _ A) as A'.
  assert (Ar : arg_indices (arg_of (TTuple (z ++ map flip c ++ s))) = Ok (z ++ map flip c ++ s)) by (apply printed_arg, (ar_printed _ _ _ A')).
  assert (Z : real_rep (z ++ c ++ s) y = true -> charges_or None = two (- y)%Qc 0%Qc).
  { intros R. apply real_colour in R as [_ ->]. reflexivity. }
  assert (Re : forall k, real_class k -> real_rep (z ++ c ++ s) y = true ->
     count_kind Colour true (z ++ map flip c ++ s) = count_kind Colour false (z ++ map flip c ++ s) /\
     forall cc : charges, None = Some cc -> forall y0, dget str_eqb cc (lit "y") = Some y0 -> y0 = 0%Qc).
  { intros k0 _ R. apply real_colour in R as [R _]. split; [|discriminate]. rewrite !(flip_colours _ _ _ _ A). cbn [negb]. auto. }
  assert (L : forall lx' label', latex_or (Some lx') label' = Ok lx') by reflexivity.
  unfold class_for in Hk. destruct (ar_lorentz _ _ _ A) as [E | (i & E & T & U)].
  - destruct z; [|discriminate E]. clear E. destruct (real_rep ([] ++ c ++ s) y) eqn:R; subst k; unfold partner_of; cbn [cf_class].
    + unfold swap_colour_indices. cbn [cf_if]. rewrite (swapped_ok _ _ _ _ _ _ _ _ _ _ A). cbn [bind f_label f_latex f_is_conj f_symmetry i_field made].
      rewrite (mk_typed_ok _ _ _ _ (Some lx) lx _ _ [] (map flip c) s A' Ar (L _ _)); [|reflexivity|exact (flip_rank _ _ _ A)|intros K; now apply (Re _ K)].
      rewrite Z by reflexivity. eexists. reflexivity.
    + unfold conj_typed. cbn [cf_class cf_if]. destruct (conj_text_gauge label c s (two y b) cj (class_comm ComplexScalar) lx (sym_of ([] ++ c ++ s)) lab A) as (t & Et & At).
      rewrite Et. cbn [bind]. cbn [f_label f_latex f_is_conj f_symmetry f_charges i_field made]. rewrite two_neg.
      rewrite (mk_typed_ok _ _ _ _ (Some lx) lx _ _ [] (map flip c) s A' At (L _ _)); [|reflexivity|exact (flip_rank _ _ _ A)|intros [K|K]; discriminate K].
      rewrite two_or. eexists. reflexivity.
  - assert (Ne : z <> []) by (rewrite E; discriminate).
    assert (Hk' : k = if real_rep (z ++ c ++ s) y then MajoranaFermion else DiracFermion (match u with Some b0 => b0 | None => true end)).
    { rewrite E in Hk |- *. exact Hk. } clear Hk E T U i.
    destruct (real_rep (z ++ c ++ s) y) eqn:R; subst k; unfold partner_of; cbn [cf_class].
    + unfold swap_colour_indices. cbn [cf_if]. rewrite (swapped_ok _ _ _ _ _ _ _ _ _ _ A). cbn [bind f_label f_latex f_is_conj f_symmetry i_field made].
      rewrite (mk_typed_ok _ _ _ _ (Some lx) lx _ _ z (map flip c) s A' Ar (L _ _)); [|exact Ne|exact (flip_rank _ _ _ A)|intros K; now apply (Re _ K)].
      rewrite Z by reflexivity. eexists. reflexivity.
    + set (u0 := match u with Some _ => _ | None => _ end). unfold dirac_partner. cbn [cf_if]. rewrite (swapped_ok _ _ _ _ _ _ _ _ _ _ A).
      cbn [bind f_label f_latex f_is_conj f_symmetry f_charges i_field made]. rewrite two_neg.
      rewrite (mk_typed_ok _ _ _ _ (Some lx) lx _ _ z (map flip c) s A' Ar (L _ _)); [|exact Ne|exact (flip_rank _ _ _ A)|intros [K|K]; discriminate K].
      rewrite two_or. eexists. destruct u0; reflexivity.
Qed.

Lemma class_hats z c s y u : arranged z c s ->
  class_comm (class_for (map hat z) (real_rep (map hat z ++ map flip c ++ map hat s) y) u) = match z with [] => lit "bose" | _ => lit "fermi" end.
Proof. intros _. unfold class_for. destruct z; cbn [map]; destruct (real_rep _ _); reflexivity. Qed.

(** the flag of a rebuilt field *)
Lemma cons_detail label z c s y b conj cm lx m lab u : arranged z c s ->
  exists conj' lab', cons_completion_field (made label (z ++ c ++ s) (two y b) conj cm lx m lab) u =
    Ok (mkCF (class_for z (real_rep (z ++ c ++ s) y) u)
          (made label (z ++ c ++ s) (two y b) conj' (class_comm (class_for z (real_rep (z ++ c ++ s) y) u)) lx (sym_of (z ++ c ++ s)) lab')) /\
    conj' = (match class_for z (real_rep (z ++ c ++ s) y) u with RealScalar => false | _ => conj end).
Proof.
  intros A. unfold cons_completion_field.
  rewrite (made_fermion _ _ _ _ _ _ _ _ _ _ A), (made_scalar _ _ _ _ _ _ _ _ _ _ A), (made_real _ _ _ _ _ _ _ _ _ _ _ A (two_y y b)).
  cbn [bind f_label f_charges f_latex f_is_conj i_indices i_field made].
  assert (Ar : arg_indices (arg_of (TList (z ++ c ++ s))) = Ok (z ++ c ++ s)) by (apply printed_arg, (ar_printed _ _ _ A)).
  assert (Rk : forall k, real_class k -> real_rep (z ++ c ++ s) y = true ->
     count_kind Colour true (z ++ c ++ s) = count_kind Colour false (z ++ c ++ s) /\
     forall cc, Some (two y b) = Some cc -> forall y0, dget str_eqb cc (lit "y") = Some y0 -> y0 = 0%Qc).
  { intros k _ R. apply real_colour in R as [R ->]. split; [exact R|]. intros cc [= <-] y0 [= <-]. reflexivity. }
  destruct (ar_lorentz _ _ _ A) as [-> | (i & -> & T & U)]; cbn [class_for].
  - destruct (real_rep ([] ++ c ++ s) y) eqn:R; cbn [bind].
    + rewrite (mk_typed_ok _ _ _ _ (Some lx) lx _ _ [] c s A Ar eq_refl); [rewrite two_or; eexists; eexists; split; reflexivity|reflexivity|discriminate|].
      intros K. now apply (Rk _ K).
    + rewrite (mk_typed_ok _ _ _ _ (Some lx) lx _ _ [] c s A Ar eq_refl); [rewrite two_or; eexists; eexists; split; reflexivity|reflexivity|discriminate|].
      intros [K|K]; discriminate K.
  - destruct (real_rep ([i] ++ c ++ s) y) eqn:R; cbn [bind].
    + rewrite (mk_typed_ok _ _ _ _ (Some lx) lx _ _ [i] c s A Ar eq_refl); [rewrite two_or; eexists; eexists; split; reflexivity|discriminate|discriminate|].
      intros K. now apply (Rk _ K).
    + rewrite (mk_typed_ok _ _ _ _ (Some lx) lx _ _ [i] c s A Ar eq_refl); [rewrite two_or; eexists; eexists; split; reflexivity|discriminate|discriminate|].
      intros [K|K]; discriminate K.
Qed.

(** a lowered field differs by the names of its indices *)
Lemma lower_detail z c s y b label cm lx cj m k lab : arranged z c s -> rank m = List.length (z ++ c ++ s) ->
  (forall i j, In i (z ++ s) -> In j (z ++ s) -> slot (hat i) <> slot j) -> k <> Plain -> exists k' cj' lab',
    lower_su2 (mkCF k (made label (z ++ c ++ s) (two y b) cj cm lx m lab)) (fun _ => false) =
    Ok (mkCF k' (made label (map hat z ++ c ++ map hat s) (two y b) cj' (class_comm k') lx (sym_of (map hat z ++ c ++ map hat s)) lab'), map hat_eps (z ++ s)) /\
    class_comm k' = (match z with [] => lit "bose" | _ => lit "fermi" end) /\
    cj' = (match z with [] => if real_rep (map hat z ++ c ++ map hat s) y then false else cj | _ => cj end).
Proof.
  intros A Rm Fr Nk. unfold lower_su2. cbn [cf_class cf_if i_indices made].
  rewrite (app_assoc (by_type Undotted _)), (arr_by_lorentz _ _ _ A), (arr_by_isospin _ _ _ A).
  rewrite filter_all by reflexivity.
  destruct (lower_fold z c s y b label cm lx cj m A Rm Fr (z ++ s) (incl_refl _) [] [] lab) as (lab' & E); [intros i []|].
  rewrite !hats_nil in E. cbn [app] in E.
  rewrite (hats_all (z ++ s) z), (hats_all (z ++ s) s) in E by (intros i I; apply in_app_iff; auto).
  pose proof (arranged_hats (z ++ s) _ _ _ A) as A2. rewrite (hats_all (z ++ s) z), (hats_all (z ++ s) s) in A2 by (intros i I; apply in_app_iff; auto).
  assert (Cc : forall u, exists cj' lab'', cons_completion_field (made label (map hat z ++ c ++ map hat s) (two y b) cj cm lx m lab') u =
    Ok (mkCF (class_for (map hat z) (real_rep (map hat z ++ c ++ map hat s) y) u) (made label (map hat z ++ c ++ map hat s) (two y b) cj' (class_comm (class_for (map hat z) (real_rep (map hat z ++ c ++ map hat s) y) u)) lx (sym_of (map hat z ++ c ++ map hat s)) lab'')) /\
    cj' = (match z with [] => if real_rep (map hat z ++ c ++ map hat s) y then false else cj | _ => cj end)).
  { intros u. destruct (cons_detail label _ _ _ y b cj cm lx m lab' u A2) as (cj' & lab'' & E' & Hc). exists cj', lab''. split; [exact E'|].
    rewrite Hc. unfold class_for. destruct z; cbn [map]; destruct (real_rep _ _); reflexivity. }
  destruct k as [| | |b0|]; try congruence; unfold made in E |- *; rewrite E; cbn [bind fst snd];
    match goal with |- context [cons_completion_field _ ?u] => destruct (Cc u) as (cj' & lab'' & E' & Hc) end;
    unfold made in E'; rewrite E'; cbn [bind]; do 3 eexists; (split; [reflexivity|]); (split; [|exact Hc]);
    unfold class_for; destruct z; cbn [map]; destruct (real_rep _ _); reflexivity.
Qed.

(** ** Fields of a mass term *)

Definition strip (cj : bool) (label : str) : str := if cj then removelast label else label.

Definition fld (label : str) (l : list index) (y b : Qc) (cj : bool) (cm lx : str) : field :=
  mkField label (dyn l) (two y b) cj cm (sym_of l) None 1 lx 1 0 None.

Lemma field_of_made label l y b cj cm lx lab :
  field_of (made label l (two y b) cj cm lx (sym_of l) lab) = Ok (fld (strip cj label) l y b cj cm lx).
Proof. reflexivity. Qed.

Lemma count_hat t up l : (forall i, In i l -> ix_up i = true) -> count_kind t up (map hat l) = count_kind t up l.
Proof.
  induction l as [|i l IH]; intros H; [reflexivity|]. cbn [map]. rewrite !count_kind_cons, IH by (intros; apply H; now right).
  f_equal. cbn [hat index_at ix_type ix_up]. now rewrite (H i (or_introl eq_refl)).
Qed.

Lemma hat_counts z c s t up : arranged z c s -> count_kind t up (map hat z ++ c ++ map hat s) = count_kind t up (z ++ c ++ s).
Proof.
  intros A. rewrite !count_kind_app, !count_hat; [reflexivity|intros i I; now apply (ar_isospin _ _ _ A)|].
  intros i I. destruct (ar_lorentz _ _ _ A) as [->|(j & -> & _ & U)]; [destruct I|]. destruct I as [<-|[]]. exact U.
Qed.

Lemma same_counts l l' : (forall t up, count_kind t up l = count_kind t up l') -> dyn l = dyn l' /\ sym_of l = sym_of l' /\ forall y, real_rep l y = real_rep l' y.
Proof. intros H. unfold dyn, sym_of, real_rep. rewrite !H. auto. Qed.

Lemma fld_same l l' label y b cj cm lx : (forall t up, count_kind t up l = count_kind t up l') -> fld label l y b cj cm lx = fld label l' y b cj cm lx.
Proof. intros H. apply same_counts in H as (D & S & _). unfold fld. now rewrite D, S. Qed.

Lemma flip_counts z c s t up : arranged z c s -> t <> Colour -> count_kind t up (z ++ map flip c ++ s) = count_kind t up (z ++ c ++ s).
Proof.
  intros A N. rewrite !count_kind_app. do 2 f_equal.
  assert (H : forall l, (forall i, In i l -> ix_type i = Colour) -> count_kind t up l = 0).
  { induction l as [|i l IH]; intros H; [reflexivity|]. rewrite count_kind_cons, IH by (intros; apply H; now right).
    rewrite (H i (or_introl eq_refl)). destruct t; try reflexivity. congruence. }
  rewrite !H; [reflexivity|apply (ar_colour _ _ _ A)|]. apply flip_types, (ar_colour _ _ _ A).
Qed.

Lemma flip_twice z c s : arranged z c s -> z ++ map flip (map flip c) ++ s = z ++ c ++ s.
Proof.
  intros A. do 2 f_equal. rewrite map_map. destruct (arr_split _ _ _ A) as (_ & F & _). rewrite <- (map_id c) at 2. apply map_ext_in.
  intros i I. rewrite Forall_forall in F. apply flip_flip. auto.
Qed.

Lemma real_flip z c s y : arranged z c s -> real_rep (z ++ map flip c ++ s) (- y)%Qc = real_rep (z ++ c ++ s) y.
Proof.
  intros A. unfold real_rep. rewrite !(flip_colours _ _ _ _ A), (flip_counts _ _ _ _ _ A) by discriminate. cbn [negb]. f_equal.
  - f_equal. unfold nats_eqb. cbn [list_eqb]. rewrite !andb_true_r. apply andb_comm.
  - destruct (Qc_eq_dec y 0) as [E'|N], (Qc_eq_dec (- y) 0) as [E|E]; try reflexivity; exfalso.
    + apply E. rewrite E'. reflexivity.
    + apply N. rewrite <- (Qcopp_involutive y), E. reflexivity.
Qed.

Lemma real_counts z c s y : arranged z c s -> real_rep (z ++ c ++ s) y = true -> forall t up, count_kind t up (z ++ map flip c ++ s) = count_kind t up (z ++ c ++ s).
Proof.
  intros A R t up. apply real_colour in R as [R _]. destruct (itype_eqb t Colour) eqn:E.
  - destruct t; try discriminate E. rewrite (flip_colours _ _ _ _ A). destruct up; cbn [negb]; auto.
  - apply flip_counts; [exact A|]. intros ->. discriminate E.
Qed.

Lemma mass_term_ok z c s y b label lx cj k lab u :
  k = class_for z (real_rep (z ++ c ++ s) y) u -> arranged z c s ->
  (forall i j, In i (z ++ s) -> In j (z ++ s) -> ix_name j <> ix_name i ++ lit "^") ->
  (z = [] -> cj = false) ->
  let x := mkCF k (made label (z ++ c ++ s) (two y b) cj (class_comm k) lx (sym_of (z ++ c ++ s)) lab) in
  let f := fld (strip cj label) (z ++ c ++ s) y b cj (class_comm k) lx in
  let g := fld (strip (partner_conj k cj) (partner_label k cj label)) (z ++ map flip c ++ s) (- y)%Qc (partner_baryon k b) (partner_conj k cj) (class_comm k) lx in
  field_of (cf_if x) = Ok f /\
  exists t fs, mass_term x = Ok t /\ fields_of (cop_erase t) = Ok fs /\ Permutation fs [g; f].
Proof.
  intros Ek A Nm Cj x f g. split; [reflexivity|].
  destruct (partner_detail label z c s y b cj lx lab u k A Ek) as (lab' & Ep).
  assert (Nk : k <> Plain) by (rewrite Ek; unfold class_for; destruct z; destruct (real_rep _ _); discriminate).
  assert (Nk' : partner_class k <> Plain) by (destruct k; try discriminate; congruence).
  destruct (lower_detail z (map flip c) s (- y)%Qc (partner_baryon k b) (partner_label k cj label) (class_comm (partner_class k)) lx (partner_conj k cj)
    (sym_of (z ++ map flip c ++ s)) (partner_class k) lab' (arranged_flip _ _ _ A)) as (k' & cj' & lab'' & El & Ck & Cc).
  { apply arr_rank, arranged_flip, A. }
  { intros i j I J E. apply (Nm i j I J). assert (Pi : printed i /\ printed j).
    { pose proof (ar_printed _ _ _ A) as P. rewrite Forall_forall in P. split; apply P; rewrite !in_app_iff in *; tauto. }
    destruct Pi as [(r & G & Ei) _]. apply (f_equal (fun p => fst (fst p))) in E. cbn [slot fst] in E. rewrite <- E, Ei. reflexivity. }
  { exact Nk'. }
  unfold mass_term. cbn [cf_class x]. fold x. replace (match k with Plain => Err AttributeError | _ => partner_of x end) with (partner_of x) by (destruct k; congruence).
  unfold x at 1. rewrite Ep. cbn [bind]. rewrite El. cbn [bind fst snd]. eexists. 
  set (p := mkCF k' _). rewrite fold_c_mul. set (t := cnormalise _).
  assert (Pt : Permutation (cfields t) [p; x]).
  { transitivity (cfields ([KField p; KField x] ++ map KSym (map hat_eps (z ++ s)))); [apply cop_perm_fields, Permutation_sym, cnormalise_perm|].
    unfold cfields. rewrite flat_map_app. cbn [flat_map app]. replace (flat_map _ (map KSym _)) with (@nil cfield); [reflexivity|].
    generalize (map hat_eps (z ++ s)) as l. induction l as [|e l IH]; [reflexivity|exact IH]. }
  assert (Ft : indexed_fields (cop_erase t) = map cf_if (cfields t)).
  { generalize t as l. induction l as [|[q|q] l IH]; [reflexivity| |exact IH]. cbn [cop_erase map erase indexed_fields flat_map cfields app]. f_equal. exact IH. }
  assert (Fp : field_of (cf_if p) = Ok g).
  { unfold p. cbn [cf_if]. rewrite field_of_made. f_equal.
    assert (Ec : cj' = partner_conj k cj).
    { rewrite Cc. destruct (same_counts _ _ (fun t up => hat_counts z (map flip c) s t up (arranged_flip _ _ _ A))) as (_ & _ & ->). rewrite (real_flip _ _ _ _ A), Ek.
      unfold class_for. destruct z; [|destruct (real_rep _ _); reflexivity]. rewrite (Cj eq_refl). destruct (real_rep _ _); reflexivity. }
    rewrite Ec. subst g. rewrite (fld_same _ (z ++ map flip c ++ s)) by (intros t' up; apply hat_counts, arranged_flip, A). f_equal.
    rewrite Ck, Ek. unfold class_for. destruct z; destruct (real_rep _ _); reflexivity. }
  apply Permutation_sym, Permutation_length_2_inv in Pt. unfold fields_of. rewrite Ft.
  destruct Pt as [->| ->]; cbn [map mapM]; rewrite Fp; change (field_of (cf_if x)) with (@Ok field f); cbn [bind]; eexists; (split; [reflexivity|]); (split; [reflexivity|]).
  - reflexivity.
  - apply perm_swap.
Qed.
