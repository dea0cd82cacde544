(** * PropsLagrangian4: C48, the symmetries can be computed *)

From Coq Require Import Ascii String List Bool Arith ZArith QArith Qcanon Lia Permutation Sorted.
From Verif Require Import Base BaseFacts Spec SpecFunctions ProofsFunctions PropsFunctions Show ModelFunctions ProofsDatabase3 ModelIndex SpecIndex ProofsIndex ModelField SpecField ProofsField ModelContract SpecContract ProofsContract
  ModelPartition ModelExotic SpecExotic ProofsExotic ProofsExotic2 PropsExotic2 ModelLagrangian SpecLagrangian ProofsLagrangian PropsLagrangian PropsLagrangian2 PropsLagrangian3.
Import ListNotations.
Local Open Scope nat_scope.

(** ** Dirac partners *)

Lemma dirac_made label z c s y b cj lx lab u :
  arranged z c s -> z <> [] -> real_rep (z ++ c ++ s) y = false ->
  (forall i j, In i (z ++ s) -> In j (z ++ s) -> ix_name j <> ix_name i ++ lit "^") ->
  well_made (mkCF (DiracFermion u) (made label (z ++ c ++ s) (two y b) cj (lit "fermi") lx (sym_of (z ++ c ++ s)) lab)) z c s.
Proof.
  intros A Z R N. set (x := mkCF _ _). assert (L : count_kind Undotted true (indices_of x) + count_kind Dotted true (indices_of x) = 1).
  { change (indices_of x) with (z ++ c ++ s). rewrite (arr_lorentz_counts _ _ _ A). destruct (ar_lorentz _ _ _ A) as [E|(i & -> & _)]; [contradiction|reflexivity]. }
  constructor; try assumption; try reflexivity.
  - change (fermion x /\ ~ real_irrep x). split; [unfold fermion, boson; rewrite L; intros (n & Hn); lia|].
    intros X. apply (real_rep_iff x y (z ++ c ++ s) eq_refl eq_refl) in X. congruence.
  - repeat split.
  - exact (arr_dynkin _ _ _ A).
  - eexists. split; [exact (arr_digits _ _ _ A)|reflexivity].
  - split; reflexivity.
  - intros [H1 H2]. lia.
Qed.

Lemma no_tilde l : ~ In "~"%char l -> filter (fun c => negb (Ascii.eqb c "~")) l = l.
Proof. intros N. apply filter_all. intros c I. apply negb_true_iff, Ascii.eqb_neq. intros ->. contradiction. Qed.

Lemma partner_again x u : ordinary x -> cf_class x = DiracFermion u ->
  exists p, dirac_partner u x = Ok p /\ ordinary p /\ cf_class p = DiracFermion (negb u) /\
    exists p', dirac_partner (negb u) p = Ok p' /\ field_of (cf_if p') = field_of (cf_if x).
Proof.
  intros ((z & c & s & W) & T & M) K. unfold tilded in T. unfold massive in M. rewrite K in T, M.
  destruct (wm_eq _ _ _ _ W) as (u0 & E). cbv zeta in E. pose proof (wm_arranged _ _ _ _ W) as A. pose proof (wm_names _ _ _ _ W) as N.
  set (k := class_for z (real_rep (z ++ c ++ s) (hypercharge x)) u0) in E.
  assert (Ek : k = DiracFermion u) by (rewrite <- K, E; reflexivity).
  set (label := f_label (i_field (cf_if x))) in *. set (y := hypercharge x) in *. set (b := baryon x) in *.
  set (cj := f_is_conj (i_field (cf_if x))) in *. set (lx := f_latex (i_field (cf_if x))) in *. set (lab := i_index_labels (cf_if x)) in *. clearbody label y b cj lx lab.
  destruct (partner_detail label z c s y b cj lx lab u0 k A eq_refl) as (lab' & Ep). rewrite <- E in Ep. unfold partner_of in Ep. rewrite K, Ek in Ep.
  assert (Rz : z <> [] /\ real_rep (z ++ c ++ s) y = false).
  { unfold k, class_for in Ek. destruct z; destruct (real_rep _ y); try discriminate Ek. split; [discriminate|reflexivity]. }
  destruct Rz as [Z R]. pose proof (arranged_flip _ _ _ A) as A'. assert (R' : real_rep (z ++ map flip c ++ s) (- y)%Qc = false) by (rewrite (real_flip _ _ _ _ A); exact R).
  eexists. split; [exact Ep|].
  set (label' := partner_label (DiracFermion u) cj label) in *.
  assert (El : partner_label (DiracFermion (negb u)) cj label' = label /\ match negb u with true => ~ In "~"%char label' | false => exists l, label' = l ++ lit "~" /\ ~ In "~"%char l end).
  { unfold label'. destruct u; cbn [negb partner_label].
    - split; [|now exists label]. rewrite filter_app, (no_tilde _ T). cbn. apply app_nil_r.
    - destruct T as (l & -> & T). assert (F : filter (fun c : ascii => negb (Ascii.eqb c "~")) (l ++ lit "~") = l) by (rewrite filter_app, (no_tilde _ T); apply app_nil_r).
      cbn [lit list_ascii_of_string] in F |- *. rewrite F. split; [reflexivity|exact T]. }
  destruct El as [El Tl]. split; [|split; [reflexivity|]].
  - split; [|split].
    + exists z, (map flip c), s. apply dirac_made; assumption.
    + unfold tilded. cbn [cf_class partner_class cf_if i_field made f_label]. destruct (negb u); exact Tl.
    + unfold massive. cbn [cf_class partner_class]. change (- y <> 0)%Qc. intros H. apply M. rewrite <- (Qcopp_involutive y), H. reflexivity.
  - assert (Kp : DiracFermion (negb u) = class_for z (real_rep (z ++ map flip c ++ s) (- y)%Qc) (Some (negb u))).
    { rewrite R'. unfold class_for. destruct z; [contradiction|reflexivity]. }
    destruct (partner_detail label' z (map flip c) s (- y)%Qc (- b)%Qc cj lx lab' (Some (negb u)) _ A' Kp) as (lab'' & Epp).
    unfold partner_of in Epp. cbn [cf_class] in Epp. eexists. split; [exact Epp|]. rewrite El, E, Ek. cbn [cf_if partner_class partner_baryon partner_conj]. rewrite (flip_twice _ _ _ A), !Qcopp_involutive. reflexivity.
Qed.

(** ** The exotic fields of a Lagrangian *)

(** fields with two charges that are equal are alike *)
Definition plain_field (f : field) : Prop := (exists y b, f_charges f = two y b) /\ f_stripped f = None.

Lemma plain_alike f g : plain_field f -> plain_field g -> field_eqb f g = true -> alike f g.
Proof.
  intros [(y & b & Cf) Sf] [(y' & b' & Cg) Sg] E. unfold field_eqb in E. rewrite !andb_true_iff in E.
  destruct E as ((((((((E1 & E2) & E3) & E4) & E5) & E6) & E7) & E8) & _).
  apply str_decides in E1, E2, E5. apply Bool.eqb_prop in E4. apply symmetry_decides in E6. apply Nat.eqb_eq in E7, E8.
  assert (Ec : f_charges f = f_charges g).
  { rewrite Cf, Cg in *. apply charges_eqb_spec in E3; [|repeat constructor; cbn; intuition discriminate|repeat constructor; cbn; intuition discriminate].
    pose proof (E3 (lit "y")) as Y. pose proof (E3 (lit "3b")) as B. cbn in Y, B. now injection Y as ->; injection B as ->. }
  split; [|congruence]. unfold hash_data. congruence.
Qed.

Lemma ordinary_field x : ordinary x -> exists f, field_of (cf_if x) = Ok f /\ plain_field f.
Proof.
  intros ((z & c & s & W) & _). destruct (wm_eq _ _ _ _ W) as (u & E). cbv zeta in E. rewrite E. cbn [cf_if]. rewrite field_of_made. eexists. split; [reflexivity|].
  split; [do 2 eexists; reflexivity|reflexivity].
Qed.

Lemma with_partner_ok x : ordinary x -> exists l, with_partner x = Ok l /\ Forall ordinary l /\ In x l /\
  forall y u, In y l -> cf_class y = DiracFermion u -> exists p q f, dirac_partner u y = Ok p /\ In q l /\ field_of (cf_if p) = Ok f /\ field_of (cf_if q) = Ok f.
Proof.
  intros O. pose proof O as ((z & c & s & W) & T & M). destruct (wm_eq _ _ _ _ W) as (u & E). cbv zeta in E. pose proof (wm_arranged _ _ _ _ W) as A.
  unfold with_partner.
  assert (F : is_fermion (i_field (cf_if x)) = Ok (match z with [] => false | _ => true end)).
  { rewrite E. cbn [cf_if]. apply made_fermion, A. }
  assert (Y : field_y (i_field (cf_if x)) = Ok (hypercharge x)) by (rewrite E; reflexivity).
  rewrite F. cbn [bind]. rewrite Y.
  assert (Kx : cf_class x = class_for z (real_rep (z ++ c ++ s) (hypercharge x)) u) by (rewrite E; reflexivity).
  assert (One : (forall v, cf_class x <> DiracFermion v) -> exists l, Ok [x] = Ok l /\ Forall ordinary l /\ In x l /\
    forall y u, In y l -> cf_class y = DiracFermion u -> exists p q f, dirac_partner u y = Ok p /\ In q l /\ field_of (cf_if p) = Ok f /\ field_of (cf_if q) = Ok f).
  { intros N. exists [x]. split; [reflexivity|]. split; [now constructor|]. split; [now left|]. intros w v [<-|[]] K. now destruct (N v). }
  destruct z as [|i z].
  { apply One. intros v Kv. rewrite Kv in Kx. unfold class_for in Kx. destruct (real_rep _ _); discriminate Kx. }
  cbn [bind]. destruct (Qc_eq_dec (hypercharge x) 0) as [H|H].
  { apply One. intros v Kv. unfold massive in M. rewrite Kv in M. contradiction. }
  destruct (cf_class x) as [| | |v|] eqn:K.
  1,2,5: unfold class_for in Kx; destruct (real_rep _ _); discriminate Kx.
  - unfold class_for in Kx. destruct (real_rep _ _) eqn:R; [|discriminate Kx]. apply real_colour in R as [_ R]. contradiction.
  - destruct (partner_again x v O K) as (p & Ep & Op & Kp & p' & Ep' & Fp'). rewrite Ep. cbn [bind]. eexists. split; [reflexivity|].
    destruct (ordinary_field p Op) as (f & Ef & _). destruct (ordinary_field x O) as (g & Eg & _).
    split; [constructor; [exact O|constructor; [exact Op|constructor]]|]. split; [now left|]. intros w v' [<-|[<-|[]]] Kw.
    + rewrite K in Kw. injection Kw as <-. exists p, p, f. repeat split; auto. right; now left.
    + rewrite Kp in Kw. injection Kw as <-. exists p', x, g. repeat split; auto; [now left|congruence].
Qed.

Lemma mapM_total {A B} (f : A -> res B) l : Forall (fun x => exists y, f x = Ok y) l -> exists ys, mapM f l = Ok ys.
Proof.
  induction 1 as [|x l (y & E) F (ys & IH)]; [exists []; reflexivity|]. exists (y :: ys). cbn [mapM]. now rewrite E, IH.
Qed.

Lemma Forall2_in_l {A B} (R : A -> B -> Prop) l l' : Forall2 R l l' -> forall x, In x l -> exists y, In y l' /\ R x y.
Proof. induction 1 as [|x y l l' H F IH]; intros w I; [destruct I|]. destruct I as [<-|I]; [exists y; split; [now left|exact H]|]. destruct (IH w I) as (v & V & Rv). exists v. split; [now right|exact Rv]. Qed.

Lemma Forall2_in_r {A B} (R : A -> B -> Prop) l l' : Forall2 R l l' -> forall y, In y l' -> exists x, In x l /\ R x y.
Proof. induction 1 as [|x y l l' H F IH]; intros w I; [destruct I|]. destruct I as [<-|I]; [exists x; split; [now left|exact H]|]. destruct (IH w I) as (v & V & Rv). exists v. split; [now right|exact Rv]. Qed.

Definition unequal (f g : field) : Prop := field_eqb f g = false /\ field_eqb g f = false.

Lemma pairs_perm l l' : Permutation l l' -> ForallOrdPairs unequal l -> ForallOrdPairs unequal l'.
Proof.
  induction 1 as [|x l l' P IH|x y l|l l1 l' P1 IH1 P2 IH2]; intros H; auto.
  - inversion H; subst. constructor; [eapply Permutation_Forall; eauto|auto].
  - inversion H as [|? ? Hy Hl]; subst. inversion Hl as [|? ? Hx Hl']; subst. inversion Hy as [|? ? Hyx Hy']; subst.
    constructor; [constructor; [destruct Hyx; split; assumption|assumption]|]. constructor; assumption.
Qed.

Lemma pairs_nth l : ForallOrdPairs unequal l -> forall i j f g, nth_error l i = Some f -> nth_error l j = Some g -> i <> j -> field_eqb f g = false.
Proof.
  induction 1 as [|x l F _ IH]; intros i j f g I J N; [destruct i; discriminate I|].
  rewrite Forall_forall in F. destruct i as [|i], j as [|j]; cbn [nth_error] in *; [congruence| | |].
  - injection I as <-. apply F. eapply nth_error_In; exact J.
  - injection J as <-. apply F. eapply nth_error_In; exact I.
  - eapply IH; eauto.
Qed.

Lemma keep_first_more {T} (eq : T -> T -> bool) a : forall b kept q, In q (keep_first eq kept a) -> In q (keep_first eq kept (a ++ b)).
Proof.
  induction a as [|x a IH]; intros b kept q I; [destruct I|]. cbn [app keep_first] in *. destruct (existsb _ kept); [auto|]. destruct I as [I|I]; [now left|right; auto].
Qed.

Lemma plain_dictionary f : plain_field f -> dictionary f.
Proof. intros [(y & b & E) S]. split; [rewrite E; repeat constructor; cbn; intuition discriminate|]. intros s H. congruence. Qed.

(** Cleaning does not raise, keeps one of several equal fields and adds the partners of Dirac fermions: every exotic field given,
    and the partner of every Dirac fermion kept, is alike to a field that is kept. *)
Theorem C48_clean : forall text exotics, Forall ordinary exotics ->
  exists fs ex, clean_fields text exotics = Ok fs /\ mapM (fun x => field_of (cf_if x)) fs = Ok ex /\ Forall ordinary fs /\
    (forall i j f g, nth_error ex i = Some f -> nth_error ex j = Some g -> i <> j -> field_eqb f g = false) /\
    (forall x, In x exotics -> exists f, field_of (cf_if x) = Ok f /\ known ex f) /\
    (forall x u, In x fs -> cf_class x = DiracFermion u -> exists p f, dirac_partner u x = Ok p /\ field_of (cf_if p) = Ok f /\ known ex f) /\
    (forall x, In x fs -> In x exotics \/ exists x0 u, In x0 exotics /\ cf_class x0 = DiracFermion u /\ dirac_partner u x0 = Ok x) /\
    StronglySorted (fun a b => str_leb (text a) (text b) = true) fs.
Proof.
  intros text exotics O. unfold clean_fields.
  destruct (mapM_total with_partner exotics) as (ll & Ell).
  { eapply Forall_impl; [|exact O]. intros x Ox. destruct (with_partner_ok x Ox) as (l & E & _). eauto. }
  rewrite Ell. cbn [bind]. apply mapM_Forall2 in Ell.
  assert (Oc : Forall ordinary (concat ll)).
  { clear - O Ell. induction Ell as [|x l xs ls E F IH]; [apply Forall_nil|]. inversion O; subst. cbn [concat]. apply Forall_app. split; [|auto].
    destruct (with_partner_ok x) as (l' & E' & F' & _); [assumption|]. congruence. }
  destruct (mapM_total (fun x => do f <- field_of (cf_if x); Ok (x, f)) (concat ll)) as (ps & Eps).
  { eapply Forall_impl; [|exact Oc]. intros x Ox. destruct (ordinary_field x Ox) as (f & E & _). rewrite E. cbn [bind]. eauto. }
  rewrite Eps. cbn [bind]. apply mapM_Forall2 in Eps.
  assert (Fst : forall p, In p ps -> In (fst p) (concat ll) /\ field_of (cf_if (fst p)) = Ok (snd p)).
  { intros p I. destruct (Forall2_in_r _ _ _ Eps p I) as (x & Ix & E). apply bind_ok in E as (f & Ef & E). injection E as <-. auto. }
  assert (Snd : forall x, In x (concat ll) -> exists f, In (x, f) ps /\ field_of (cf_if x) = Ok f).
  { intros x I. destruct (Forall2_in_l _ _ _ Eps x I) as (p & Ip & E). apply bind_ok in E as (f & Ef & E). injection E as <-. eauto. }
  destruct (remove_equivalent (fun p q => field_eqb (snd p) (snd q)) ps) as [r|e] eqn:Er; [|rewrite remove_equivalent_ok in Er; discriminate Er].
  cbn [bind]. pose proof (C01_remove_equivalent_order_pairwise_cover _ _ _ _ Er) as (Sub & Pw & Cov).
  assert (Ir : forall p, In p r -> In p ps).
  { clear - Sub. intros p I. induction Sub; cbn in *; intuition. }
  set (fs := sort _ (map fst r)).
  assert (Pf : Permutation (map fst r) fs) by apply sort_perm.
  assert (Mr : mapM (fun x => field_of (cf_if x)) (map fst r) = Ok (map snd r)).
  { clear - Ir Fst. induction r as [|p r IH]; [reflexivity|]. cbn [map mapM]. rewrite (proj2 (Fst p (Ir p (or_introl eq_refl)))). cbn [bind].
    rewrite IH by (intros q I; apply Ir; now right). reflexivity. }
  destruct (mapM_perm _ _ _ _ Pf Mr) as (ex & Eex & Pex). exists fs, ex. split; [reflexivity|]. split; [exact Eex|].
  assert (Pl : forall p, In p ps -> plain_field (snd p)).
  { intros p I. destruct (Fst p I) as [I' E]. rewrite Forall_forall in Oc. destruct (ordinary_field _ (Oc _ I')) as (f & Ef & P). congruence. }
  assert (Ifs : forall x, In x fs -> In x (concat ll)).
  { intros x I. apply (Permutation_in _ (Permutation_sym Pf)) in I. apply in_map_iff in I as (p & <- & I). apply Fst. auto. }
  assert (Kn : forall x f, In x (concat ll) -> field_of (cf_if x) = Ok f -> known ex f).
  { intros x f I E. destruct (Snd x I) as (f' & I' & E'). assert (f' = f) by congruence. subst f'.
    apply in_split in I' as (a & b & S). destruct (Cov _ _ _ S) as (ra & Era & [(rb & Er')|(q & Iq & Iqa & Eq)]).
    - exists f. split; [|apply alike_refl]. apply (Permutation_in _ Pex), in_map_iff. exists (x, f). split; [reflexivity|]. rewrite Er'. apply in_elt.
    - exists (snd q). split; [|apply alike_sym, plain_alike; [apply Pl; rewrite S, in_app_iff; now left|apply (Pl (x, f)); rewrite S; apply in_elt|exact Eq]].
      apply (Permutation_in _ Pex), in_map. clear - Er Era S Iq. subst ps. rewrite remove_equivalent_ok in Er, Era. injection Er as <-. injection Era as <-.
      now apply keep_first_more. }
  split; [apply Forall_forall; intros x I; rewrite Forall_forall in Oc; auto|].
  split; [|split; [|split; [|split]]].
  - apply pairs_nth. apply (pairs_perm _ _ Pex). clear - Pw Pl Ir. induction Pw as [|p r F Pw IH]; cbn [map]; constructor.
    + apply Forall_map, Forall_forall. intros q I. rewrite Forall_forall in F. split; [now apply F|].
      destruct (field_eqb (snd q) (snd p)) eqn:E; [|reflexivity]. exfalso.
      assert (Pp : plain_field (snd p)) by (apply Pl, Ir; now left). assert (Pq : plain_field (snd q)) by (apply Pl, Ir; now right).
      pose proof (plain_alike _ _ Pq Pp E) as Al. pose proof (F q I) as G. cbn beta in G. rewrite (alike_eqb_r _ _ _ Al), (eqb_refl _ (plain_dictionary _ Pp)) in G. discriminate G.
    + apply IH. intros q I. apply Ir. now right.
  - intros x I. destruct (Forall2_in_l _ _ _ Ell x I) as (l & Il & E). rewrite Forall_forall in O. destruct (with_partner_ok x (O x I)) as (l' & E' & _ & Ix & _).
    assert (l' = l) by congruence. subst l'. destruct (ordinary_field x (O x I)) as (f & Ef & _). exists f. split; [exact Ef|]. apply (Kn x); [|exact Ef]. apply in_concat. eauto.
  - intros x u I K. apply Ifs, in_concat in I as (l & Il & I). destruct (Forall2_in_r _ _ _ Ell l Il) as (x0 & I0 & E0).
    rewrite Forall_forall in O. destruct (with_partner_ok x0 (O x0 I0)) as (l' & E' & _ & _ & Pr). assert (l' = l) by congruence. subst l'.
    destruct (Pr x u I K) as (p & q & f & Ep & Iq & Fp & Fq). exists p, f. split; [exact Ep|]. split; [exact Fp|]. apply (Kn q); [|exact Fq]. apply in_concat. eauto.
  - intros x I. apply Ifs, in_concat in I as (l & Il & I). destruct (Forall2_in_r _ _ _ Ell l Il) as (x0 & I0 & E0). unfold with_partner in E0.
    apply bind_ok in E0 as (b & _ & E0). destruct b; [|injection E0 as <-; destruct I as [<-|[]]; auto]. apply bind_ok in E0 as (y & _ & E0).
    destruct (Qc_eq_dec y 0); [injection E0 as <-; destruct I as [<-|[]]; auto|].
    destruct (cf_class x0) as [| | |u|] eqn:K; try discriminate E0. apply bind_ok in E0 as (p & Ep & E0). injection E0 as <-.
    destruct I as [<-|[<-|[]]]; [auto|]. right. exists x0, u. auto.
  - apply sort_sorted; [intros a b; apply str_leb_total|intros a b c; apply str_leb_trans].
Qed.

(** ** The symmetries *)

Lemma known_more l l' f : incl l l' -> known l f -> known l' f.
Proof. intros I (k & K & A). exists k. auto. Qed.

Lemma known_alike l f g : alike f g -> known l g -> known l f.
Proof. intros A (k & K & B). exists k. split; [exact K|]. exact (alike_trans _ _ _ A B). Qed.

(** All fields of the mass terms are columns or conjugates of columns. *)
Theorem C48_masses_known : forall text exotics fs ex exc, Forall ordinary exotics ->
  clean_fields text exotics = Ok fs -> mapM (fun x => field_of (cf_if x)) fs = Ok ex -> mapM conj_field ex = Ok exc ->
  exists ms ts, mapM mass_term fs = Ok ms /\ mapM (fun t => fields_of (cop_erase t)) ms = Ok ts /\
    Forall2 (fun f t => exists g, Permutation t [g; f] /\ known (exc ++ ex) g) ex ts.
Proof.
  intros text exotics fs ex exc O Ec Ef Ecj. destruct (C48_clean text exotics O) as (fs' & ex' & Ec' & Ef' & Of & _ & _ & Dp & _).
  assert (fs' = fs) by congruence. subst fs'. assert (ex' = ex) by congruence. subst ex'. clear Ec Ec' Ef'.
  apply mapM_Forall2 in Ef. apply mapM_Forall2 in Ecj.
  assert (H : forall x f, In x fs -> In f ex -> field_of (cf_if x) = Ok f -> exists m t g, mass_term x = Ok m /\ fields_of (cop_erase m) = Ok t /\ Permutation t [g; f] /\ known (exc ++ ex) g).
  { intros x f Ix If Fx. rewrite Forall_forall in Of. pose proof (Of x Ix) as ((z & c & s & W) & _ & M).
    destruct (C48_mass_term x z c s W) as (f' & g & t & l & Fx' & Et & El & P & _ & K). assert (f' = f) by congruence. subst f'.
    exists t, l, g. split; [exact Et|]. split; [exact El|]. split; [exact P|]. unfold massive in M.
    destruct (cf_class x) as [| | |u|] eqn:Kx; [| | | |contradiction].
    - destruct K as ((h & Eh & Al) & _). destruct (Forall2_in_l _ _ _ Ecj f If) as (h' & Ih & Eh'). assert (h' = h) by congruence. subst h'.
      exists h. split; [apply in_app_iff; now left|now apply Al].
    - destruct K as (Al & _). exists f. split; [apply in_app_iff; now right|now apply Al].
    - destruct K as (Al & _). exists f. split; [apply in_app_iff; now right|now apply Al].
    - destruct K as ((p & Ep & Fp) & _). destruct (Dp x u Ix Kx) as (p' & f' & Ep' & Fp' & Kn). assert (p' = p) by congruence. subst p'. assert (f' = g) by congruence. subst f'.
      eapply known_more; [|exact Kn]. intros k I. apply in_app_iff. now right. }
  clear Of Dp Ecj O. assert (H' : forall x f, In x fs -> In f ex -> field_of (cf_if x) = Ok f -> exists m t g, mass_term x = Ok m /\ fields_of (cop_erase m) = Ok t /\ Permutation t [g; f] /\ known (exc ++ ex) g) by exact H.
  revert H. generalize (known (exc ++ ex)) as Kn. clear H'. intros Kn H. induction Ef as [|x f xs fs' Fx F IH].
  - exists [], []. repeat split; constructor.
  - destruct IH as (ms & ts & Em & Et & F2). { intros x' f' I J. apply H; now right. }
    destruct (H x f (or_introl eq_refl) (or_introl eq_refl) Fx) as (m & t & g & E1 & E2 & P & K). exists (m :: ms), (t :: ts).
    cbn [mapM]. rewrite E1, Em, E2, Et. repeat split. constructor; eauto.
Qed.

(** Without neutral Dirac fermions, complex scalars of mixed colour, and baryon number of real fields, nothing raises: the
    Lagrangian is made, and its symmetries are the nullspace of the rows of all interactions and mass terms. *)
Theorem C48_total : forall text nullspace sm exotics interactions, Forall ordinary exotics ->
  exists l ex, mk_lagrangian text exotics interactions = Ok l /\ mapM (fun x => field_of (cf_if x)) (l_fields l) = Ok ex /\
    forall smc exc ts, setting sm smc ex exc ->
      mapM (fun t => fields_of (cop_erase t)) interactions = Ok ts ->
      Forall (fun t => exotic_in ex exc t -> Forall (known ((smc ++ sm) ++ (exc ++ ex))) t) ts ->
      exists ms m, Forall2 (fun f t => exists g, Permutation t [g; f] /\ known (exc ++ ex) g) ex ms /\
        u1_matrix sm ex (ts ++ ms) = Ok m /\ u1_symmetries nullspace sm l = Ok (nullspace m) /\
        num_u1_symmetries nullspace sm l = Ok (List.length (nullspace m)).
Proof.
  intros text nullspace sm exotics interactions O. destruct (C48_clean text exotics O) as (fs & ex & Ec & Ef & _).
  unfold mk_lagrangian. rewrite Ec. cbn [bind]. eexists. exists ex. split; [reflexivity|]. cbn [l_fields]. split; [exact Ef|].
  intros smc exc ts St Ets K. pose proof (se_ex _ _ _ _ St) as Ecj.
  destruct (C48_masses_known text exotics fs ex exc O Ec Ef Ecj) as (ms & tms & Em & Etm & F2). exists tms.
  destruct (C47_symmetries sm smc ex exc (ts ++ tms) St) as (m & Eu & _).
  { apply Forall_app. split; [exact K|]. apply Forall_forall. intros t I _. destruct (Forall2_in_r _ _ _ F2 t I) as (f & If & g & P & Kg).
    eapply Permutation_Forall; [apply Permutation_sym, P|]. constructor; [|constructor; [|constructor]].
    - eapply known_more; [|exact Kg]. intros k Ik. apply in_app_iff. now right.
    - exists f. split; [|apply alike_refl]. rewrite !in_app_iff. auto. }
  exists m. split; [exact F2|]. split; [exact Eu|].
  assert (Eu1 : u1_symmetries nullspace sm (mkLagrangian fs interactions) = Ok (nullspace m)).
  { unfold u1_symmetries, lag_terms. cbn [l_fields l_interactions]. rewrite Ef. cbn [bind]. rewrite Ecj. cbn [bind]. rewrite Em. cbn [bind].
    rewrite (mapM_app_ok _ _ _ _ _ Ets Etm). cbn [bind]. rewrite Eu. reflexivity. }
  split; [exact Eu1|]. unfold num_u1_symmetries. rewrite Eu1. reflexivity.
Qed.
