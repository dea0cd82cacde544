(** * ProofsExport3: single tensors written and read *)

From Coq Require Import Ascii String List Bool Arith ZArith NArith QArith Qcanon Lia.
From Verif Require Import Base BaseFacts Show ShowRead ModelFunctions ModelIndex SpecIndex ProofsIndex ModelField SpecField ProofsField
  PropsField PropsField2 ModelContract SpecContract ProofsContract ModelPartition ModelExotic SpecExotic ProofsExotic ProofsExotic2
  ModelInfo ModelLagrangian ModelDatabase ModelExport ProofsExport SpecExport ProofsExport2.
Import ListNotations.
Local Open Scope nat_scope.

(** ** Index texts *)

Lemma plain_app a b : plain a -> plain b -> plain (a ++ b).
Proof. intros. apply Forall_app. auto. Qed.

Ltac plain_lit := repeat constructor; cbn; lia.

Lemma join_plain sep l : plain sep -> Forall plain l -> plain (join sep l).
Proof.
  intros P. induction 1 as [|s l H F IH]; [constructor|]. destruct l as [|s' l]; [exact H|].
  change (join sep (s :: s' :: l)) with (s ++ sep ++ join sep (s' :: l)). apply plain_app; [exact H|]. apply plain_app; auto.
Qed.

Lemma show_index_plain i : plain (ix_name i) -> plain (show_index i).
Proof. intros H. unfold show_index. apply plain_app; [|exact H]. destruct (ix_up i); plain_lit. Qed.

Lemma text_plain l : writable l -> plain (index_text l).
Proof.
  intros [_ P]. apply join_plain; [plain_lit|]. apply Forall_map. eapply Forall_impl; [|exact P]. exact show_index_plain.
Qed.

Lemma map_printed l : Forall clean l -> Forall printed (map reindex l).
Proof. intros F. apply Forall_map. eapply Forall_impl; [|exact F]. exact reindex_printed. Qed.

Lemma text_reread l : Forall clean l -> mapM new_index (split_ws (index_text l)) = Ok (map reindex l).
Proof.
  intros F. pose proof (printed_tokens _ (map_printed _ F)) as P. rewrite map_map in P. exact P.
Qed.

Lemma text_tokens l : Forall clean l -> split_ws (index_text l) = map show_index l.
Proof.
  intros F. apply split_ws_join. apply Forall_map. eapply Forall_impl; [|exact F]. intros i C.
  destruct (clean_at_iff i C) as (r & [_ N] & E & _). unfold show_index. rewrite E. split.
  - destruct (ix_up i); discriminate.
  - destruct (ix_up i); cbn; intros [H|H]; try discriminate.
    + destruct (ix_type i); discriminate.
    + auto.
    + destruct H as [H|H]; [destruct (ix_type i); discriminate|auto].
Qed.

(** ** Symbols *)

Lemma kinds_reindex l : map kind (map reindex l) = map kind l.
Proof. rewrite map_map. reflexivity. Qed.

Lemma name_of (s : string) : (match lit s with c :: _ => negb (digit_char c) | [] => false end) = true -> forallb ident_char (lit s) = true -> name (lit s).
Proof.
  intros A B. assert (F : Forall (fun c => ident_char c = true) (lit s)) by (apply Forall_forall; apply forallb_forall; exact B).
  destruct (lit s) as [|c r]; [discriminate|]. split; [split; [discriminate|exact F]|]. now destruct (digit_char c).
Qed.

Ltac is_name := apply name_of; reflexivity.

Lemma eps_reread s l : Forall clean l -> symbol_made s -> symbol_indices s = l ->
  (if is_delta s then delta (index_text l) else eps (index_text l)) = Ok (rewritten_symbol s).
Proof.
  intros F (text & [E|E]) L.
  - unfold eps in E. apply bind_ok in E as (l0 & E0 & E). cbv beta in E.
    assert (Ed : is_delta s = false /\ l0 = l).
    { destruct l0 as [|i0 l0]; [discriminate|]. destruct (negb (itype_eqb (ix_type i0) Colour)).
      - apply bind_ok in E as ([] & _ & E). apply bind_ok in E as ([] & _ & E). cbv beta in E. destruct (ix_type i0); try discriminate E; injection E as <-; cbn in *; auto.
      - apply bind_ok in E as ([] & _ & E). apply bind_ok in E as ([] & _ & E). injection E as <-. auto. }
    destruct Ed as [-> ->]. unfold eps. rewrite (text_reread l F). cbn [bind]. destruct l as [|i0 l]; [discriminate|].
    cbn [map]. change (ix_type (reindex i0)) with (ix_type i0). change (ix_up (reindex i0)) with (ix_up i0).
    change (reindex i0 :: map reindex l) with (map reindex (i0 :: l)). rewrite map_length.
    assert (G1 : forallb (fun i => negb (ix_up i)) (map reindex (i0 :: l)) = forallb (fun i => negb (ix_up i)) (i0 :: l)).
    { generalize (i0 :: l) as m. induction m as [|j m IH]; [reflexivity|]. cbn [map forallb]. now rewrite IH. }
    assert (G2 : forallb (fun i => Bool.eqb (ix_up i0) (ix_up i)) (map reindex (i0 :: l)) = forallb (fun i => Bool.eqb (ix_up i0) (ix_up i)) (i0 :: l)).
    { generalize (i0 :: l) as m. induction m as [|j m IH]; [reflexivity|]. cbn [map forallb]. now rewrite IH. }
    rewrite G1, G2. destruct (negb (itype_eqb (ix_type i0) Colour)).
    + apply bind_ok in E as ([] & A1 & E). apply bind_ok in E as ([] & A2 & E). cbv beta in E. rewrite A1. cbn [bind]. rewrite A2. cbn [bind].
      destruct (ix_type i0); try discriminate E; injection E as <-; reflexivity.
    + apply bind_ok in E as ([] & A1 & E). apply bind_ok in E as ([] & A2 & E). cbv beta in E. rewrite A1. cbn [bind]. rewrite A2. cbn [bind].
      injection E as <-. reflexivity.
  - unfold delta in E. apply bind_ok in E as (l0 & E0 & E). cbv beta in E. destruct l0 as [|i [|j [|? ?]]]; try discriminate.
    apply bind_ok in E as ([] & A1 & E). apply bind_ok in E as ([] & A2 & E). apply bind_ok in E as ([] & A3 & E). apply bind_ok in E as ([] & A4 & E).
    injection E as <-. cbn in L. subst l. cbn [is_delta]. unfold delta. rewrite (text_reread _ F). cbn [bind map].
    change (ix_type (reindex i)) with (ix_type i). change (ix_up (reindex i)) with (ix_up i).
    change (ix_type (reindex j)) with (ix_type j). change (ix_up (reindex j)) with (ix_up j).
    rewrite A1. cbn [bind]. rewrite A2. cbn [bind]. rewrite A3. cbn [bind]. rewrite A4. reflexivity.
Qed.

Lemma reads_text l : writable l -> reads 0 (quoted (index_text l)) (VStr (index_text l)).
Proof. intros W. apply reads_str, plain_denotes, text_plain, W. Qed.

Lemma one_item s v : reads 0 s v -> Forall2 ireads [s] [IPos v].
Proof. intros R. constructor; [now apply reads_item, reads_up|constructor]. Qed.

Lemma symbol_reads s : symbol_made s -> writable (symbol_indices s) -> reads 0 (export_symbol s) (VTensor (KSym (rewritten_symbol s))).
Proof.
  intros M W. pose proof (eps_reread s _ (proj1 W) M eq_refl) as E. pose proof (reads_text _ W) as R.
  destruct s as [t l|l|l]; cbn [symbol_indices is_delta export_symbol] in *.
  1, 2: apply (reads_call (lit "eps") (VFun (lit "eps")) [quoted (index_text l)] [IPos (VStr (index_text l))] [(None, VStr (index_text l))]);
    [apply reads_name; [is_name|reflexivity]|apply one_item, R|reflexivity|].
  1, 2: change (apply (VFun (lit "eps")) [(None, VStr (index_text l))]) with (do x <- eps (index_text l); Ok (VTensor (KSym x))); rewrite E; reflexivity.
  apply (reads_call (lit "delta") (VFun (lit "delta")) [quoted (index_text l)] [IPos (VStr (index_text l))] [(None, VStr (index_text l))]);
    [apply reads_name; [is_name|reflexivity]|apply one_item, R|reflexivity|].
  change (apply (VFun (lit "delta")) [(None, VStr (index_text l))]) with (do x <- delta (index_text l); Ok (VTensor (KSym x))). rewrite E. reflexivity.
Qed.

(** ** Fields of the Standard Model *)

Lemma show_g i : clean i -> is_g (show_index i) = itype_eqb (ix_type i) Generation && ix_up i.
Proof.
  intros C. destruct (clean_at_iff i C) as (r & _ & E & _). unfold show_index. rewrite E.
  destruct (ix_up i), (ix_type i); reflexivity.
Qed.

Lemma label_g i : clean i -> is_g (ix_label i) = true -> is_g (show_index i) = true /\ ix_type i = Generation.
Proof.
  intros C G. rewrite (show_g i C). destruct C as (E & _ & low & auto & t & rest & L).
  rewrite (new_index_spelled _ _ _ _ _ L) in E. injection E as E. rewrite <- E. cbn [ix_type ix_up].
  destruct (ix_label i) as [|c s]; [discriminate|]. cbn [is_g] in G. apply Ascii.eqb_eq in G. subst c. cbn in L.
  unfold spelled in L. destruct low; [discriminate|]. destruct auto; [discriminate|]. cbn [app] in L. injection L as L _.
  destruct t; try discriminate L. auto.
Qed.

Lemma fits_no_gen a b c d e kinds : fits a b c d e kinds -> forall k, In k kinds -> fst k <> Generation.
Proof.
  intros (hs & _ & _ & ->) k I. rewrite !in_app_iff in I. destruct I as [I|[I|[I|I]]].
  - apply repeat_spec in I as ->. discriminate.
  - apply repeat_spec in I as ->. discriminate.
  - apply in_map_iff in I as (h & <- & _). discriminate.
  - apply repeat_spec in I as ->. discriminate.
Qed.

Lemma mapM_In {A B} (f : A -> res B) l r : mapM f l = Ok r -> forall x, In x l -> exists y, f x = Ok y /\ In y r.
Proof.
  revert r. induction l as [|a l IH]; intros r E x I; [destruct I|]. cbn [mapM] in E. apply bind_ok in E as (b & Eb & E). apply bind_ok in E as (m & Em & E).
  injection E as <-. destruct I as [-> | I]; [exists b; split; [exact Eb|now left]|]. destruct (IH m Em x I) as (y & Ey & Iy). exists y. split; [exact Ey|now right].
Qed.

(** a field is indexed again by its printed indices *)
Lemma call_reread f a b c d e s y : field_ok f a b c d e -> rank (f_symmetry f) = a + b + c + d + e -> call_field f s = Ok y ->
  Forall clean (i_indices y) -> call_field f (index_text (i_indices y)) = Ok (rewritten y).
Proof.
  intros F Rk E C. destruct (call_field_spec f a b c d e s F Rk) as (Iff & Res). destruct (Res y E) as (idx & Ei & Fi & Ey).
  assert (Ex : exists x, call_field f s = Ok x) by eauto. apply Iff in Ex as ((idx0 & E0 & F0) & Gn).
  assert (El : i_indices y = idx) by (now rewrite Ey). rewrite El in *.
  pose proof (labels_tokens _ _ Ei) as Lt.
  assert (Gen : forall i, In i idx -> is_g (show_index i) = itype_eqb (ix_type i) Generation /\ is_g (ix_label i) = itype_eqb (ix_type i) Generation).
  { intros i I. rewrite Forall_forall in C. pose proof (C i I) as Ci. destruct (is_g (ix_label i)) eqn:G.
    - destruct (label_g i Ci G) as [Gs ->]. auto.
    - destruct (itype_eqb (ix_type i) Generation) eqn:T.
      + exfalso. apply itype_decides in T. assert (It : In (ix_label i) (filter (fun i => negb (is_g i)) (split_ws s))).
        { apply filter_In. split; [rewrite <- Lt; now apply in_map|now rewrite G]. }
        destruct (mapM_In _ _ _ E0 _ It) as (j & Hj & Ij). rewrite (proj1 Ci) in Hj. injection Hj as <-.
        apply (fits_no_gen _ _ _ _ _ _ F0 (kind i)); [now apply in_map|exact T].
      + rewrite (show_g i Ci), T. auto. }
  destruct (call_field_spec f a b c d e (index_text idx) F Rk) as (Iff' & Res'). rewrite (text_tokens idx C) in Iff'.
  assert (Ex : exists x, call_field f (index_text idx) = Ok x).
  { apply Iff'. split.
    - exists (map reindex (filter (fun i => negb (is_generation i)) idx)). split; [|now rewrite kinds_reindex].
      clear - C Gen. induction C as [|i l Ci C IH]; [reflexivity|]. cbn [map filter].
      destruct (Gen i (or_introl eq_refl)) as [-> _]. unfold is_generation at 1. destruct (itype_eqb (ix_type i) Generation); cbn [negb].
      + apply IH. intros j J. apply Gen. now right.
      + cbn [mapM map]. pose proof (printed_new _ (reindex_printed i Ci)) as P. change (show_index (reindex i)) with (show_index i) in P.
        rewrite P. cbn [bind]. rewrite IH by (intros j J; apply Gen; now right). reflexivity.
    - replace (List.length (filter is_g (map show_index idx))) with (List.length (filter is_g (split_ws s))); [exact Gn|].
      rewrite <- Lt. clear - Gen. induction idx as [|i l IH]; [reflexivity|]. cbn [map filter].
      destruct (Gen i (or_introl eq_refl)) as [-> ->]. destruct (itype_eqb (ix_type i) Generation); cbn [List.length];
        rewrite IH by (intros j J; apply Gen; now right); reflexivity. }
  destruct Ex as (x & Hx). destruct (Res' x Hx) as (idx' & Ei' & _ & ->). rewrite (text_reread idx C) in Ei'. injection Ei' as <-.
  rewrite Hx. unfold rewritten. rewrite El. now rewrite Ey.
Qed.

Lemma matter_ok f : matter f -> exists a b c d e, field_ok f a b c d e /\ rank (f_symmetry f) = a + b + c + d + e /\
  f_is_conj f = false /\ f_derivs f = 0 /\ f_stripped f = None /\ f_latex f <> [] /\ f_history f = None /\ f_multiplicity f = 1 /\
  name (f_label f) /\ name_value (f_label f) = Ok (VField f) /\ plain (f_label f).
Proof.
  assert (P : forall a b, proper [(lit "y", a); (lit "3b", b)]) by (intros a b; exact (two_proper a b)).
  intros [<-|[<-|[<-|[<-|[<-|[<-|[]]]]]]].
  - exists 1, 0, 0, 0, 1. split; [split; [reflexivity|split; [lia|split; [apply P|right; reflexivity]]]|].
    repeat (split; [reflexivity || discriminate|]). split; [is_name|split; [reflexivity|plain_lit]].
  - exists 1, 0, 1, 0, 1. split; [split; [reflexivity|split; [lia|split; [apply P|right; reflexivity]]]|].
    repeat (split; [reflexivity || discriminate|]). split; [is_name|split; [reflexivity|plain_lit]].
  - exists 0, 0, 0, 0, 1. split; [split; [reflexivity|split; [lia|split; [apply P|left; reflexivity]]]|].
    repeat (split; [reflexivity || discriminate|]). split; [is_name|split; [reflexivity|plain_lit]].
  - exists 1, 0, 0, 0, 0. split; [split; [reflexivity|split; [lia|split; [apply P|right; reflexivity]]]|].
    repeat (split; [reflexivity || discriminate|]). split; [is_name|split; [reflexivity|plain_lit]].
  - exists 1, 0, 0, 1, 0. split; [split; [reflexivity|split; [lia|split; [apply P|right; reflexivity]]]|].
    repeat (split; [reflexivity || discriminate|]). split; [is_name|split; [reflexivity|plain_lit]].
  - exists 1, 0, 0, 1, 0. split; [split; [reflexivity|split; [lia|split; [apply P|right; reflexivity]]]|].
    repeat (split; [reflexivity || discriminate|]). split; [is_name|split; [reflexivity|plain_lit]].
Qed.

Lemma standard_ok f : standard f -> exists a b c d e, field_ok f a b c d e /\ rank (f_symmetry f) = a + b + c + d + e /\
  f_derivs f = 0 /\ f_stripped f = None /\ f_latex f <> [] /\ f_history f = None /\ f_multiplicity f = 1 /\
  reads 0 (f_label f ++ conj_suffix (f_is_conj f)) (VField f) /\ plain (f_label f).
Proof.
  intros [M|(g & M & E)].
  - destruct (matter_ok f M) as (a & b & c & d & e & F & Rk & Cj & Dv & St & Lx & Hi & Mu & Nm & V & Pl).
    exists a, b, c, d, e. repeat (split; [assumption|]). split; [|exact Pl]. rewrite Cj. cbn [conj_suffix]. rewrite app_nil_r. now apply reads_name.
  - destruct (matter_ok g M) as (a & b & c & d & e & F & Rk & Cj & Dv & St & Lx & Hi & Mu & Nm & V & Pl).
    destruct (C24_conj g a b c d e F) as (f' & E' & F' & A1 & _ & A3 & _ & A5 & A6 & A7 & A8 & _ & A10 & A11 & _).
    assert (f' = f) by congruence. subst f'. exists b, a, d, c, e. split; [exact F'|]. split; [rewrite A5; lia|].
    split; [congruence|]. split; [congruence|]. split; [congruence|]. split; [congruence|]. split; [congruence|]. split; [|now rewrite A1].
    rewrite A1, A3, Cj. cbn [negb conj_suffix]. apply (reads_attr _ (VField g) (lit "conj")); [now apply reads_name|apply (name_of "conj"); reflexivity|].
    cbn [attribute]. rewrite (decides_refl str_decides). now rewrite E.
Qed.

Definition plain_class (x : ifield) : val := VTensor (KField (mkCF Plain x)).

Lemma label_field f y s : call_field f s = Ok y -> f_label (i_field y) = label_with_dagger f /\ f_is_conj (i_field y) = f_is_conj f /\
  f_derivs (i_field y) = f_derivs f.
Proof.
  unfold call_field. intros E. apply bind_ok in E as (l & _ & E). cbv beta in E. destruct l as [|? [|? [|? [|? [|? [|? ?]]]]]]; try discriminate E.
  apply bind_ok in E as ([] & _ & E). cbv beta in E. unfold mk_ifield in E. cbn [a_indices a_symmetry a_label a_charges a_is_conj a_comm a_latex a_nf a_derivs a_stripped] in E.
  apply bind_ok in E as (idx & _ & E). cbv zeta in E. apply bind_ok in E as ([] & _ & E). apply bind_ok in E as (dk & _ & E).
  apply bind_ok in E as (g & G & E). injection E as <-. unfold mk_field in G. cbn [bind] in G.
  destruct (negb (f_nf f =? 1) && negb (f_nf f =? 3)); [discriminate|]. injection G as <-. auto.
Qed.

Lemma bare_field_label f y : f_label (i_field y) = label_with_dagger f -> f_is_conj (i_field y) = f_is_conj f ->
  (if f_is_conj (i_field y) then removelast (f_label (i_field y)) else f_label (i_field y)) = f_label f.
Proof. intros -> ->. unfold label_with_dagger. destruct (f_is_conj f); [now rewrite removelast_last|now rewrite app_nil_r]. Qed.

(** what is called with the text of indices *)
Lemma reads_indexed t f y : reads 0 t (VField f) -> writable (i_indices y) -> call_field f (index_text (i_indices y)) = Ok (rewritten y) ->
  reads 0 (t ++ lit "(" ++ quoted (index_text (i_indices y)) ++ lit ")") (plain_class (rewritten y)).
Proof.
  intros R W E. apply (reads_call t (VField f) [quoted (index_text (i_indices y))] [IPos (VStr (index_text (i_indices y)))] [(None, VStr (index_text (i_indices y)))] _ R);
    [apply one_item, reads_text, W|reflexivity|].
  cbn [apply positional mapM bind]. rewrite E. reflexivity.
Qed.

(** a field without derivatives: only its label, its flag and its indices are written *)
Lemma field_reads f s x y : standard f -> call_field f s = Ok y -> looks_like x y -> writable (i_indices y) ->
  export_field x = Ok ((f_label f ++ conj_suffix (f_is_conj f)) ++ lit "(" ++ quoted (index_text (i_indices y)) ++ lit ")") /\
  reads 0 ((f_label f ++ conj_suffix (f_is_conj f)) ++ lit "(" ++ quoted (index_text (i_indices y)) ++ lit ")") (plain_class (rewritten y)).
Proof.
  intros Sf E (L1 & L2 & L3 & L4 & L5) W. destruct (standard_ok f Sf) as (a & b & c & d & e & F & Rk & Dv & _ & _ & _ & _ & R & _).
  destruct (label_field f y s E) as (Y1 & Y2 & Y3). split.
  - unfold export_field. cbv zeta. rewrite L3, Y3, Dv. cbn [Nat.eqb negb].
    unfold field_of. cbv zeta. match goal with |- context [mk_field ?l] => replace l with (f_label f) by (symmetry; apply bare_field_label; congruence) end. unfold mk_field. cbn [bind]. cbn [f_label f_is_conj].
    replace (negb (f_nf (i_field x) =? 1) && negb (f_nf (i_field x) =? 3)) with false by (destruct L5 as [-> | ->]; reflexivity).
    cbn [bind f_label]. rewrite L2, Y2, L4. reflexivity.
  - apply (reads_indexed _ f); [exact R|exact W|]. exact (call_reread f a b c d e s y F Rk E (proj1 W)).
Qed.

(** one derivative *)
Lemma derivative_reads f dyn g s y : standard f -> D f dyn = Ok g -> List.length dyn = 2 -> call_field g s = Ok y -> writable (i_indices y) ->
  export_field y = Ok (lit "D(" ++ (f_label f ++ conj_suffix (f_is_conj f)) ++ lit ", " ++ quoted dyn ++ lit ")(" ++ quoted (index_text (i_indices y)) ++ lit ")") /\
  plain dyn /\
  reads 0 (lit "D(" ++ (f_label f ++ conj_suffix (f_is_conj f)) ++ lit ", " ++ quoted dyn ++ lit ")(" ++ quoted (index_text (i_indices y)) ++ lit ")") (plain_class (rewritten y)).
Proof.
  intros Sf Eg Len E W. destruct (standard_ok f Sf) as (a & b & c & d & e & F & Rk & Dv & St & Lx & _ & _ & R & _).
  destruct dyn as [|d0 [|d1 [|? ?]]]; try discriminate Len. clear Len.
  assert (Dg : exists p q, p < 10 /\ q < 10 /\ d0 = digit p /\ d1 = digit q).
  { unfold D in Eg. apply bind_ok in Eg as (l & El & Eg). cbv beta in Eg. destruct l as [|l0 [|l1 l]]; try discriminate Eg.
    apply bind_ok in Eg as (p & Ep & Eg). apply bind_ok in Eg as (q & Eq & _). apply digit_of_ok in Ep as [Lp ->]. apply digit_of_ok in Eq as [Lq ->]. eauto 8. }
  destruct Dg as (p & q & Lp & Lq & -> & ->).
  destruct (proj2 (C27_D f a b c d e p q F Lp Lq Lx) g Eg) as (G & Gs & Gl & _ & Gc & _ & _ & Gd & _ & _ & _ & Gst).
  assert (Rg : rank (f_symmetry g) = p + q + c + d + e) by (rewrite Gs, rank_symmetry_of; cbn [list_sum fold_right]; lia).
  destruct (label_field g y s E) as (Y1 & Y2 & Y3).
  destruct (proj2 (call_field_spec g p q c d e s G Rg) y E) as (idx & Ei & _ & Ey).
  assert (Pd : plain [digit p; digit q]).
  { constructor; [|constructor; [|constructor]].
    all: match goal with |- plain_char (digit ?n) => assert (H : forallb (fun n => let k := nat_of_ascii (digit n) in (48 <=? k) && (k <=? 57)) (seq 0 10) = true) by reflexivity;
      rewrite forallb_forall in H; specialize (H n ltac:(apply in_seq; lia)); cbv zeta in H; apply andb_true_iff in H as [H1 H2]; apply Nat.leb_le in H1, H2; red; lia end. }
  split; [|split; [exact Pd|]].
  - unfold export_field. cbv zeta. rewrite Y3, Gd, Dv. cbn [Nat.add Nat.eqb negb assert_ bind].
    assert (Li : lorentz_irrep (i_field y) = Ok [p; q]).
    { unfold lorentz_irrep. assert (Di : dynkin_ints (i_field y) = Ok [p; q; c; d; e]).
      { pose proof (field_ok_ints _ _ _ _ _ _ G) as Dg. unfold dynkin_ints in *. rewrite Ey. cbn [i_field f_dynkin]. exact Dg. }
      rewrite Di. reflexivity. }
    rewrite Li. cbn [bind]. unfold strip_derivs. cbv zeta. rewrite Y3, Gd, Dv. cbn [Nat.add Nat.eqb].
    assert (Sy : f_stripped (i_field y) = Some (mkStripped (f_label f) (f_dynkin f) (f_symmetry f) (f_charges f) (f_latex f))).
    { rewrite Ey. cbn [i_field f_stripped]. rewrite Gst, St. reflexivity. }
    rewrite Sy. cbn [s_label s_dynkin s_symmetry s_latex]. unfold mk_field. cbn [bind].
    assert (Nf : negb (f_nf (i_field y) =? 1) && negb (f_nf (i_field y) =? 3) = false).
    { rewrite Ey. cbn [i_field f_nf]. destruct G as (_ & _ & _ & [-> | ->]); reflexivity. }
    rewrite Nf. cbn [bind f_label]. rewrite Y2, Gc. rewrite !show_nat_digit by assumption. reflexivity.
  - replace (lit "D(" ++ (f_label f ++ conj_suffix (f_is_conj f)) ++ lit ", " ++ quoted [digit p; digit q] ++ lit ")(" ++ quoted (index_text (i_indices y)) ++ lit ")")
      with ((lit "D" ++ lit "(" ++ join (lit ", ") [f_label f ++ conj_suffix (f_is_conj f); quoted [digit p; digit q]] ++ lit ")") ++ lit "(" ++ quoted (index_text (i_indices y)) ++ lit ")")
      by (cbn [join]; rewrite <- !app_assoc; reflexivity).
    apply (reads_indexed _ g); [|exact W|exact (call_reread g p q c d e s y G Rg E (proj1 W))].
    apply (reads_call (lit "D") (VFun (lit "D")) _ [IPos (VField f); IPos (VStr [digit p; digit q])] [(None, VField f); (None, VStr [digit p; digit q])]);
      [apply reads_name; [is_name|reflexivity]| |reflexivity|].
    + constructor; [apply reads_item, reads_up, R|apply one_item, reads_str, plain_denotes, Pd].
    + change (apply (VFun (lit "D")) [(None, VField f); (None, VStr [digit p; digit q])]) with (do g <- D f [digit p; digit q]; Ok (VField g)). now rewrite Eg.
Qed.
