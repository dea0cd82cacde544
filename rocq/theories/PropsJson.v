(** * PropsJson: C96, completions as JSON objects and as diagrams *)

From Coq Require Import Ascii String List Bool Arith ZArith NArith QArith Qcanon Lia Permutation.
From Verif Require Import Base BaseFacts Show ModelFunctions ModelIndex SpecIndex ProofsIndex ModelField SpecField ProofsField ProofsField2 PropsField2
  ModelContract ModelPartition ModelExotic SpecExotic ModelExport SpecExport ProofsExport4 ModelJson SpecJson.
From Verif Require PropsExport.
Import ListNotations.
Local Open Scope nat_scope.

Lemma jnat_inj a b : jnat a = jnat b -> a = b.
Proof. intros E. injection E as E. now apply Nat2N.inj. Qed.

Lemma map_inj {A B} (f : A -> B) : (forall a b, f a = f b -> a = b) -> forall l l', map f l = map f l' -> l = l'.
Proof. intros I. induction l as [|a l IH]; intros [|b l']; cbn [map]; try discriminate; [reflexivity|]. intros E. injection E as E1 E2. f_equal; auto. Qed.

Lemma jnats_inj l l' : jnats l = jnats l' -> l = l'.
Proof. intros E. injection E as E. exact (map_inj _ jnat_inj _ _ E). Qed.

Lemma jtexts_inj l l' : jtexts l = jtexts l' -> l = l'.
Proof. intros E. injection E as E. apply (map_inj JStr); [|exact E]. intros a b X. now injection X. Qed.

Lemma by_type_list l : indices_by_type l = map (fun t => (t, by_type t l)) all_itypes.
Proof.
  assert (K : map fst (indices_by_type l) = all_itypes).
  { unfold indices_by_type. assert (G : forall l d, map fst (fold_left (fun d i => match dget itype_eqb d (ix_type i) with
                        | Some l => dset itype_eqb d (ix_type i) (l ++ [i])
                        | None => d end) l d) = map fst d).
    { clear l. induction l as [|i l IH]; intros d; [reflexivity|]. cbn [fold_left]. rewrite IH. destruct (dget itype_eqb d (ix_type i)) as [m|] eqn:E; [|reflexivity].
      revert E. induction d as [|[k v] d IHd]; cbn [dget dset]; [discriminate|]. destruct (itype_eqb (ix_type i) k) eqn:Ek.
      - intros _. reflexivity.
      - intros E. cbn [map fst]. f_equal. now apply IHd. }
    rewrite G. reflexivity. }
  unfold by_type. revert K. generalize (indices_by_type l). intros d K.
  destruct d as [|[k1 v1] [|[k2 v2] [|[k3 v3] [|[k4 v4] [|[k5 v5] [|]]]]]]; try discriminate K. cbn [map fst all_itypes] in K. injection K as -> -> -> -> ->. reflexivity.
Qed.

Lemma json_indices_same l l' : json_indices l = json_indices l' <-> same_texts l l'.
Proof.
  unfold json_indices. rewrite !by_type_list. unfold all_itypes. cbn [map fst snd]. rewrite !by_type_filter. split.
  - intros E t. injection E as E1 E2 E3 E4 E5. assert (J : forall a b : list str, map JStr a = map JStr b -> a = b) by (intros a b X; apply (jtexts_inj a b); unfold jtexts; now f_equal).
    destruct t; now apply J.
  - intros S. rewrite !(S Undotted), !(S Dotted), !(S Colour), !(S Isospin), !(S Generation). reflexivity.
Qed.

Lemma charges_inj (c c' : charges) : map (fun kv => (fst kv, JStr (show_Q (snd kv)))) c = map (fun kv => (fst kv, JStr (show_Q (snd kv)))) c' -> c = c'.
Proof. apply map_inj. intros [k v] [k' v'] E. injection E as -> E. now rewrite (show_Q_inj _ _ E). Qed.

Lemma irreps f a b c d e : f_dynkin f = five a b c d e -> (a < 10 /\ b < 10 /\ c < 10 /\ d < 10 /\ e < 10) ->
  lorentz_irrep f = Ok [a; b] /\ colour_irrep f = Ok [c; d] /\ isospin_irrep f = Ok [e].
Proof.
  intros E B. unfold lorentz_irrep, colour_irrep, isospin_irrep, sm_irrep, dynkin_ints. rewrite E, ProofsField.digits_five by lia. auto.
Qed.

(** ** Exotic fields *)

Theorem C96_exotic : forall x y, cf_class x <> Plain -> cf_class y <> Plain -> has_digits (i_field (cf_if x)) -> has_digits (i_field (cf_if y)) ->
  exists jx jy, json_tensor (KField x) = Ok jx /\ json_tensor (KField y) = Ok jy /\ (jx = jy <-> same_data x y).
Proof.
  intros x y Nx Ny (a & b & c & d & e & Ex & Bx) (a' & b' & c' & d' & e' & Ey & By).
  destruct (irreps _ _ _ _ _ _ Ex Bx) as (X1 & X2 & X3), (irreps _ _ _ _ _ _ Ey By) as (Y1 & Y2 & Y3).
  assert (Jx : exists j, json_exotic x = Ok j) by (unfold json_exotic; rewrite X1, X2, X3; eexists; reflexivity).
  assert (Jy : exists j, json_exotic y = Ok j) by (unfold json_exotic; rewrite Y1, Y2, Y3; eexists; reflexivity).
  destruct Jx as (jx & Jx), Jy as (jy & Jy). exists jx, jy.
  split; [cbn [json_tensor]; destruct (cf_class x); (exact Jx || now destruct Nx)|]. split; [cbn [json_tensor]; destruct (cf_class y); (exact Jy || now destruct Ny)|].
  unfold json_exotic in Jx, Jy. rewrite X1, X2, X3 in Jx. rewrite Y1, Y2, Y3 in Jy. cbn [bind] in Jx, Jy. injection Jx as <-. injection Jy as <-. unfold same_data. cbv zeta. split.
  - intros E. injection E as E1 E2 E3 E4 E5 E6 E7 E8 E9 E10 E11 E12 E13 E14. apply Nat2N.inj in E5, E6, E7, E8, E9, E10.
    assert (E2' : json_indices (i_indices (cf_if x)) = json_indices (i_indices (cf_if y))) by (unfold json_indices; now f_equal).
    split; [exact E1|]. split; [rewrite Ex, Ey; congruence|]. split; [exact (map_inj _ jnats_inj _ _ E3)|]. split; [now apply charges_inj|].
    split; [exact E5|]. split; [congruence|]. split; [congruence|]. split; [congruence|]. split; [|now apply json_indices_same].
    destruct (cf_class x), (cf_class y); cbn [barred_mark]; try reflexivity; try discriminate E14. now injection E14 as ->.
  - intros (E1 & E2 & E3 & E4 & E5 & E6 & E7 & E8 & E9 & E10). apply json_indices_same in E10. rewrite E1, E3, E4, E5, E6, E7, E8, E10.
    assert (Q : a = a' /\ b = b' /\ c = c' /\ d = d' /\ e = e').
    { rewrite Ex, Ey in E2. rewrite E2 in Ex. assert (M : mapM digit_of (five a b c d e) = mapM digit_of (five a' b' c' d' e')) by now f_equal.
      rewrite !ProofsField.digits_five in M by lia. injection M. auto. }
    destruct Q as (-> & -> & -> & -> & ->). do 2 f_equal. repeat f_equal. destruct (cf_class x), (cf_class y); cbn [barred_mark] in E9; try discriminate E9; try reflexivity. now injection E9 as ->.
Qed.

(** for fields whose class is that of their quantum numbers the object tells the class *)
Theorem C96_class : forall x y j, exportable x -> exportable y -> json_tensor (KField x) = Ok j -> json_tensor (KField y) = Ok j -> cf_class x = cf_class y.
Proof.
  intros x y j Px Py Jx Jy. pose proof (proj1 (xp_typed x Px)) as Nx. pose proof (proj1 (xp_typed y Py)) as Ny.
  pose proof (ex_dynkin x Px) as Dx. pose proof (ex_dynkin y Py) as Dy. cbv zeta in Dx, Dy.
  assert (Hx : has_digits (i_field (cf_if x))) by (do 5 eexists; split; [exact Dx|]; repeat split; apply (xp_few x Px); discriminate).
  assert (Hy : has_digits (i_field (cf_if y))) by (do 5 eexists; split; [exact Dy|]; repeat split; apply (xp_few y Py); discriminate).
  destruct (C96_exotic x y Nx Ny Hx Hy) as (jx & jy & Kx & Ky & S). rewrite Jx in Kx. rewrite Jy in Ky. injection Kx as <-. injection Ky as <-.
  destruct (proj1 S eq_refl) as (_ & Ed & _ & Ec & _ & _ & _ & _ & Eb & _).
  assert (Y : hypercharge x = hypercharge y) by (unfold hypercharge, charge_of; now rewrite Ec).
  assert (Q : count_kind Undotted true (indices_of x) = count_kind Undotted true (indices_of y) /\ count_kind Dotted true (indices_of x) = count_kind Dotted true (indices_of y) /\
              count_kind Colour true (indices_of x) = count_kind Colour true (indices_of y) /\ count_kind Colour false (indices_of x) = count_kind Colour false (indices_of y) /\
              count_kind Isospin true (indices_of x) = count_kind Isospin true (indices_of y)).
  { rewrite Dx, Dy in Ed. match type of Ed with ?u = ?v => assert (M : mapM digit_of u = mapM digit_of v) by now f_equal end.
    rewrite !ProofsField.digits_five in M by (first [apply (xp_few x Px)|apply (xp_few y Py)]; discriminate). injection M. auto. }
  destruct Q as (Q1 & Q2 & Q3 & Q4 & Q5). pose proof (xp_class x Px) as Cx. pose proof (xp_class y Py) as Cy. unfold right_class in Cx, Cy.
  assert (R : real_irrep x <-> real_irrep y) by (unfold real_irrep; now rewrite Q3, Q4, Q5, Y).
  assert (Sc : scalar x <-> scalar y) by (unfold scalar; now rewrite Q1, Q2).
  assert (Bo : boson x <-> boson y) by (unfold boson; now rewrite ?Q1, ?Q2).
  assert (Sb : forall z, scalar z -> boson z).
  { intros z [Z1 Z2]. unfold boson. rewrite ?Z1, ?Z2. exists 0. reflexivity. }
  unfold fermion in *. pose proof (Sb x). pose proof (Sb y). destruct (cf_class x), (cf_class y); try reflexivity; try tauto. cbn [barred_mark] in Eb. now injection Eb as ->.
Qed.

(** it does not if the classes are used directly: a real and a complex scalar *)
Theorem C96_class_refuted : exists x y j, typed x /\ typed y /\ json_tensor (KField x) = Ok j /\ json_tensor (KField y) = Ok j /\ cf_class x = RealScalar /\ cf_class y = ComplexScalar.
Proof.
  exists (PropsExport.got PropsExport.none (PropsExport.exotic RealScalar 179 "i4 i5" 0 false)), (PropsExport.got PropsExport.none (PropsExport.exotic ComplexScalar 179 "i4 i5" 0 false)).
  eexists. assert (T : forall k, mk_typed k [ascii_of_nat 179] (TStr (lit "i4 i5")) (Some (PropsExport.ynumbers 0 0)) None false None = PropsExport.exotic k 179 "i4 i5" 0 false) by reflexivity.
  split; [|split; [|split; [vm_compute; reflexivity|split; [vm_compute; reflexivity|split; vm_compute; reflexivity]]]].
  - split; [vm_compute; discriminate|]. exists [ascii_of_nat 179], (TStr (lit "i4 i5")), (Some (PropsExport.ynumbers 0 0)), None, false, None. vm_compute. reflexivity.
  - split; [vm_compute; discriminate|]. exists [ascii_of_nat 179], (TStr (lit "i4 i5")), (Some (PropsExport.ynumbers 0 0)), None, false, None. vm_compute. reflexivity.
Qed.

(** nor does it tell the order of indices of different types *)
Theorem C96_order_refuted : exists x y j, exportable x /\ exportable y /\ json_tensor (KField x) = Ok j /\ json_tensor (KField y) = Ok j /\ cfield_eqb x y = false /\ indices_of x <> indices_of y.
Proof.
  exists (PropsExport.got PropsExport.none (PropsExport.exotic ComplexScalar 179 "c0 i5" 1 false)), (PropsExport.got PropsExport.none (PropsExport.exotic ComplexScalar 179 "i5 c0" 1 false)).
  eexists. split; [|split; [|split; [vm_compute; reflexivity|split; [vm_compute; reflexivity|split; [vm_compute; reflexivity|vm_compute; discriminate]]]]].
  - constructor.
    + split; [vm_compute; discriminate|]. exists [ascii_of_nat 179], (TStr (lit "c0 i5")), (Some (PropsExport.ynumbers 1 0)), None, false, None. vm_compute. reflexivity.
    + split; [split; reflexivity|]. intros (K & _). vm_compute in K. discriminate K.
    + vm_compute. reflexivity.
    + intros t up _. destruct t, up; vm_compute; lia.
    + intros i [<-|[<-|[]]]; vm_compute; discriminate.
    + apply PropsExport.writableb_ok. vm_compute. reflexivity.
    + apply PropsExport.plainb_ok. vm_compute. reflexivity.
  - constructor.
    + split; [vm_compute; discriminate|]. exists [ascii_of_nat 179], (TStr (lit "i5 c0")), (Some (PropsExport.ynumbers 1 0)), None, false, None. vm_compute. reflexivity.
    + split; [split; reflexivity|]. intros (K & _). vm_compute in K. discriminate K.
    + vm_compute. reflexivity.
    + intros t up _. destruct t, up; vm_compute; lia.
    + intros i [<-|[<-|[]]]; vm_compute; discriminate.
    + apply PropsExport.writableb_ok. vm_compute. reflexivity.
    + apply PropsExport.plainb_ok. vm_compute. reflexivity.
Qed.

(** ** Fields of the Standard Model *)

Lemma digit_inj a b : a < 10 -> b < 10 -> digit a = digit b -> a = b.
Proof.
  intros A B E. apply show_nat_inj. rewrite !show_nat_digit by assumption. now rewrite E.
Qed.

Lemma mk_field_label l dk ch cj cm sy hi mu lx nf dv st g : mk_field l dk ch cj cm sy hi mu lx nf dv st = Ok g -> f_label g = l.
Proof.
  unfold mk_field. intros E. apply bind_ok in E as (s & _ & E). apply bind_ok in E as (t & _ & E). cbv zeta beta in E.
  match type of E with (if ?b then _ else _) = _ => destruct b end; [discriminate|]. now injection E as <-.
Qed.

Theorem C96_field : forall x y jx jy, json_tensor (KField (mkCF Plain x)) = Ok jx -> json_tensor (KField (mkCF Plain y)) = Ok jy ->
  let f := i_field x in let g := i_field y in
  f_derivs f <= 1 /\ f_derivs g <= 1 /\
  (has_digits f -> has_digits g ->
   (jx = jy <-> shown_label x = shown_label y /\ f_is_conj f = f_is_conj g /\ f_derivs f = f_derivs g /\
      (f_derivs f = 1 -> lorentz_irrep f = lorentz_irrep g) /\ same_texts (i_indices x) (i_indices y))).
Proof.
  intros x y jx jy Jx Jy f g. cbn [json_tensor cf_class cf_if] in Jx, Jy.
  assert (K : forall z j, json_field z = Ok j -> let h := i_field z in
    (f_derivs h = 0 /\ j = JDict [(lit "Label", JStr (shown_label z)); (lit "Indices", json_indices (i_indices z)); (lit "IsConj", JBool (f_is_conj h));
               (lit "Field", JBool true); (lit "Exotic", JBool false); (lit "Deriv", JBool false)]) \/
    (f_derivs h = 1 /\ exists a b, lorentz_irrep h = Ok [a; b] /\ j = JDict [(lit "Label", JStr (shown_label z)); (lit "Indices", json_indices (i_indices z)); (lit "IsConj", JBool (f_is_conj h));
                 (lit "DerivDynkin", JStr (show_nat a ++ show_nat b)); (lit "Exotic", JBool false); (lit "Field", JBool true);
                 (lit "Deriv", JBool true)])).
  { intros z j E. cbv zeta. unfold json_field in E. cbv zeta in E. unfold shown_label. cbv zeta. destruct (f_derivs (i_field z)) as [|n] eqn:Dn; cbn [Nat.eqb negb] in E.
    - left. split; [reflexivity|]. apply bind_ok in E as (h & Eh & E). injection E as <-. unfold field_of in Eh. cbv zeta in Eh. now rewrite (mk_field_label _ _ _ _ _ _ _ _ _ _ _ _ _ Eh).
    - right. apply bind_ok in E as ([] & A & E). destruct n; [|discriminate A]. split; [reflexivity|]. apply bind_ok in E as (ab & El & E). destruct ab as [|a [|b [|]]]; try discriminate E.
      exists a, b. split; [exact El|]. apply bind_ok in E as (s & Es & E). injection E as <-. unfold strip_derivs in Es. cbv zeta in Es. rewrite Dn in Es. cbn [Nat.eqb] in Es.
      destruct (f_stripped (i_field z)) as [st|]; [|discriminate Es]. apply bind_ok in Es as (h & Eh & Es). injection Es as <-. now rewrite (mk_field_label _ _ _ _ _ _ _ _ _ _ _ _ _ Eh). }
  pose proof (K x jx Jx) as Kx. pose proof (K y jy Jy) as Ky. cbv zeta in Kx, Ky. fold f in Kx. fold g in Ky. split; [lia|]. split; [lia|]. intros (p1 & p2 & p3 & p4 & p5 & Hf & Bf) (q1 & q2 & q3 & q4 & q5 & Hg & Bg).
  destruct (irreps f _ _ _ _ _ Hf Bf) as (Lf & _), (irreps g _ _ _ _ _ Hg Bg) as (Lg & _).
  rewrite <- json_indices_same. destruct Kx as [(Df & ->)|(Df & a & b & Ef & ->)], Ky as [(Dg & ->)|(Dg & a' & b' & Eg & ->)]; rewrite Df, Dg.
  - split.
    + intros E. assert (E2 : json_indices (i_indices x) = json_indices (i_indices y)) by (unfold json_indices; injection E as _ E2 _; now f_equal). injection E as E1 _ E3. repeat split; auto; discriminate.
    + intros (-> & -> & _ & _ & ->). reflexivity.
  - split; [intros E; injection E; discriminate|]. intros (_ & _ & E & _). discriminate E.
  - split; [intros E; injection E; discriminate|]. intros (_ & _ & E & _). discriminate E.
  - rewrite Lf in Ef |- *. rewrite Lg in Eg |- *. injection Ef as <- <-. injection Eg as <- <-.
    rewrite !show_nat_digit by lia. split.
    + intros E. assert (E2 : json_indices (i_indices x) = json_indices (i_indices y)) by (unfold json_indices; injection E as _ E2 _; now f_equal).
      injection E as E1 _ E3 E4 E5. apply digit_inj in E4, E5; try lia. subst. repeat split; auto.
    + intros (-> & -> & _ & E & ->). specialize (E eq_refl). injection E as -> ->. reflexivity.
Qed.

(** ** Symbols, operators, completions *)

Theorem C96_symbol : forall s t, json_tensor (KSym s) = json_tensor (KSym t) <->
  map show_index (symbol_indices s) = map show_index (symbol_indices t) /\
  ((exists l, s = DeltaC l) <-> exists l, t = DeltaC l).
Proof.
  assert (J : forall a b l l', JDict [(lit "Field", JBool false); (lit "label", JStr a); (lit "Indices", jtexts l)] = JDict [(lit "Field", JBool false); (lit "label", JStr b); (lit "Indices", jtexts l')] <-> a = b /\ l = l').
  { intros a b l l'. split; [|intros [-> ->]; reflexivity]. intros E. assert (E2 : jtexts l = jtexts l') by (injection E as _ E2; unfold jtexts; now f_equal). injection E as E1 _. split; [exact E1|now apply jtexts_inj]. }
  assert (Q : forall j k : json, @Ok json j = Ok k <-> j = k) by (intros j k; split; [intros E; now injection E|now intros ->]).
  set (name s := match s with DeltaC _ => lit "Delta" | _ => lit "Eps" end).
  assert (N : forall s, json_symbol s = JDict [(lit "Field", JBool false); (lit "label", JStr (name s)); (lit "Indices", jtexts (map show_index (symbol_indices s)))]) by (intros []; reflexivity).
  intros s t. cbn [json_tensor]. rewrite Q, !N, J.
  assert (M : name s = name t <-> ((exists l, s = DeltaC l) <-> exists l, t = DeltaC l)).
  { destruct s, t; cbn [name]; split; intros H; try reflexivity; try discriminate H; try (split; intros (l0 & X); discriminate X); try (split; intros _; eexists; reflexivity);
      exfalso; destruct H as [H H']; first [destruct (H (ex_intro _ _ eq_refl)) as (l0 & X)|destruct (H' (ex_intro _ _ eq_refl)) as (l0 & X)]; discriminate X. }
  tauto.
Qed.

Lemma mapM_Forall2 {A B} (f : A -> res B) l l' : mapM f l = Ok l' <-> Forall2 (fun a b => f a = Ok b) l l'.
Proof.
  revert l'. induction l as [|a l IH]; intros l'; cbn [mapM].
  - split; [intros E; injection E as <-; constructor|]. inversion 1. reflexivity.
  - split.
    + intros E. apply bind_ok in E as (b & Eb & E). apply bind_ok in E as (m & Em & E). injection E as <-. constructor; [exact Eb|]. now apply IH.
    + inversion 1 as [|? b ? m Eb F]; subst. rewrite Eb. cbn [bind]. apply IH in F. now rewrite F.
Qed.

(** in order, tensor by tensor *)
Theorem C96_operator : forall op j, json_operator op = Ok j <-> exists l, j = JList l /\ Forall2 (fun t o => json_tensor t = Ok o) op l.
Proof.
  intros op j. unfold json_operator. split.
  - intros E. apply bind_ok in E as (l & El & E). injection E as <-. exists l. split; [reflexivity|]. now apply mapM_Forall2.
  - intros (l & -> & F). apply mapM_Forall2 in F. now rewrite F.
Qed.

(** "A completion can be exported" is false as soon as its graph has an edge: edges carry labels, not fields. *)
Theorem C96_completion_refuted : forall field_text c op n m l particle rest_nb rest, json_eff_operator (co_name c) (co_operator c) = Ok op ->
  co_graph c = (n, (m, l) :: rest_nb) :: rest -> dget str_eqb l (lit "particle") = Some particle ->
  json_completion field_text c = Err AttributeError /\ proc_body (co_graph c) = Err AttributeError.
Proof.
  intros ft c op n m l p nb rest Eo Eg Ep.
  assert (X : exists tl, edges_of [] (co_graph c) = (n, m, l) :: tl) by (rewrite Eg; eexists; reflexivity). destruct X as (tl & X).
  assert (D : dgetM str_eqb l (lit "particle") = Ok p) by (unfold dgetM; now rewrite Ep).
  unfold json_completion, json_graph, proc_body. rewrite Eo, X. cbn [bind mapM]. cbv zeta. unfold json_link at 1. cbn [snd]. rewrite D. split; reflexivity.
Qed.

(** without edges nothing fails: the graph object lists the nodes *)
Theorem C96_graph_nodes : forall g, Forall (fun nb : N * list (N * list (str * str)) => snd nb = []) g ->
  exists d, json_graph g = Ok (JDict d) /\ dget str_eqb d (lit "nodes") = Some (JList (map (fun nb => JDict [(lit "id", JInt (fst nb))]) g)) /\ dget str_eqb d (lit "links") = Some (JList []).
Proof.
  intros g F. assert (E : forall seen, edges_of seen g = []).
  { induction F as [|[n nb] g Hn F IH]; intros seen; [reflexivity|]. cbn [snd] in Hn. subst nb. cbn [edges_of filter map app]. apply IH. }
  unfold json_graph. rewrite E. cbn [mapM bind]. eexists. split; [reflexivity|]. split; reflexivity.
Qed.

Example C96_example : forall field_text, json_completion field_text PropsExport.ex_completion = Err AttributeError.
Proof.
  intros ft. assert (E : exists op, json_eff_operator (co_name PropsExport.ex_completion) (co_operator PropsExport.ex_completion) = Ok op) by (eexists; vm_compute; reflexivity).
  destruct E as (op & E). eapply (proj1 (C96_completion_refuted ft PropsExport.ex_completion op _ _ _ _ _ _ E eq_refl eq_refl)).
Qed.

(** ** Lines of diagrams *)

(** the style of the line of a field: exotic scalars have no direction, exotic fermions that of the conjugate; a field that
    is neither scalar nor fermion has none *)
Theorem C96_lines : forall x a b c d e, let f := i_field (cf_if x) in
  f_dynkin f = five a b c d e -> (a < 10 /\ b < 10 /\ c < 10 /\ d < 10 /\ e < 10) ->
  tikz_type x = Ok match cf_class x with
      | ComplexScalar => Some (lit "charged scalar")
      | RealScalar => Some (lit "scalar")
      | MajoranaFermion | DiracFermion _ => Some (if f_is_conj f then lit "majorana" else lit "anti majorana")
      | Plain => if a + b =? 0 then Some ((if f_is_conj f then lit "anti " else []) ++ lit "charged scalar")
                 else if Nat.odd (a + b) then Some ((if f_is_conj f then lit "anti " else []) ++ lit "fermion") else None
      end.
Proof.
  intros x a b c d e f E B. destruct (irreps f _ _ _ _ _ E B) as (L & _). unfold tikz_type. cbv zeta. fold f. destruct (cf_class x); try reflexivity.
  unfold is_scalar, is_fermion, is_boson. rewrite L. cbn [bind]. assert (S : nats_eqb [a; b] [0; 0] = (a + b =? 0)) by (destruct a, b; reflexivity).
  rewrite S. destruct (a + b =? 0); [now destruct (f_is_conj f)|]. cbn [list_sum fold_right]. rewrite Nat.add_0_r.
  assert (O : negb ((a + b) mod 2 =? 0) = Nat.odd (a + b)).
  { rewrite <- Nat.negb_even. f_equal. destruct (Nat.even (a + b)) eqn:Ev.
    - apply Nat.even_spec in Ev as [k ->]. rewrite Nat.mul_comm, Nat.mod_mul by discriminate. reflexivity.
    - assert (Od : Nat.odd (a + b) = true) by (rewrite <- Nat.negb_even, Ev; reflexivity). apply Nat.odd_spec in Od as [k ->].
      rewrite Nat.add_comm, Nat.mul_comm, Nat.mod_add by discriminate. reflexivity. }
  change (fold_right Nat.add 0 [a; b]) with (a + (b + 0)). rewrite ?Nat.add_0_r, O. destruct (Nat.odd (a + b)), (f_is_conj f); reflexivity.
Qed.

(** a vector boson of the Standard Model has no style *)
Example C96_lines_example : forall f, mk_field (lit "W") (lit "20002") (Some (PropsExport.ynumbers 0 0)) false (lit "bose") None None 1 None 1 0 None = Ok f ->
  tikz_type (mkCF Plain (mkIField f [] (AStr []))) = Ok None.
Proof. intros f E. vm_compute in E. injection E as <-. vm_compute. reflexivity. Qed.

Print Assumptions C96_exotic.
Print Assumptions C96_class.
Print Assumptions C96_class_refuted.
Print Assumptions C96_order_refuted.
Print Assumptions C96_field.
Print Assumptions C96_symbol.
Print Assumptions C96_operator.
Print Assumptions C96_completion_refuted.
Print Assumptions C96_graph_nodes.
Print Assumptions C96_lines.
