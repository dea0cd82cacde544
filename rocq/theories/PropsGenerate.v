(** * PropsGenerate: C95, the terms of a Lagrangian *)

From Coq Require Import Ascii String List Bool Arith ZArith QArith Qcanon Lia Permutation Sorted.
From Verif Require Import Base BaseFacts Show ModelFunctions ModelIndex SpecIndex ProofsIndex ModelField SpecField ProofsField ProofsField2 PropsField2
  ModelContract SpecContract ProofsContract PropsContract PropsContract2 PropsContract3 PropsContract4 ModelPartition ModelExotic ModelLagrangian
  ModelInvariants SpecInvariants PropsInvariants ModelGenerate SpecGenerate.
From Verif Require Spec SpecLagrangian PropsLagrangian PropsLagrangian6 PropsFunctions.
Import ListNotations.
Local Open Scope nat_scope.

(** ** Fields *)

Lemma neg_same_keys f g : f_charges g = neg_charges (f_charges f) -> same_keys f g.
Proof. intros E k. rewrite E. unfold neg_charges, keys. rewrite map_map. cbn [fst]. reflexivity. Qed.

Lemma conj_plain f : plain_field f -> exists g, conj_field f = Ok g /\ plain_field g /\ same_keys f g.
Proof.
  intros [(a & b & c & d & e & H & R & S1 & S2 & S3) Hh Hm Ht]. pose proof (conj_field_ok _ _ _ _ _ _ H) as E. eexists. split; [exact E|]. split.
  - constructor; cbn [f_history f_multiplicity f_label]; try assumption. exists b, a, d, c, e. split; [exact (conj_ok_field _ _ _ _ _ _ _ H E)|].
    cbn [f_symmetry]. lia.
  - now apply neg_same_keys.
Qed.

Lemma conjs_plain fs : Forall plain_field fs -> exists cs, mapM conj_field fs = Ok cs /\ Forall plain_field cs /\ Forall2 same_keys fs cs.
Proof.
  induction 1 as [|f fs H F (cs & E & P & S)]; [exists []; repeat split; constructor|]. destruct (conj_plain f H) as (g & Eg & Pg & Sg).
  exists (g :: cs). cbn [mapM]. rewrite Eg, E. repeat split; now constructor.
Qed.

Lemma keys_sym f g : same_keys f g -> same_keys g f.
Proof. intros H k. symmetry. apply H. Qed.
Lemma keys_trans f g h : same_keys f g -> same_keys g h -> same_keys f h.
Proof. intros H K k. rewrite (H k). apply K. Qed.

Lemma stock_alike fs cs : charged_alike fs -> Forall2 same_keys fs cs -> charged_alike (fs ++ cs).
Proof.
  intros A F. assert (B : forall g, In g (fs ++ cs) -> exists f, In f fs /\ same_keys f g).
  { intros g I. apply in_app_or in I as [I|I]; [exists g; split; [exact I|now apply A]|]. clear A. induction F as [|f c fs cs S F IH]; [destruct I|].
    destruct I as [<-|I]; [exists f; split; [now left|exact S]|]. destruct (IH I) as (f' & I' & S'). exists f'. split; [now right|exact S']. }
  intros g h Ig Ih. destruct (B g Ig) as (f & If & Sf), (B h Ih) as (f' & If' & Sf'). apply (keys_trans _ f); [now apply keys_sym|]. apply (keys_trans _ f'); [now apply A|exact Sf'].
Qed.

Lemma combos_in n : forall A (l : list A) c, In c (combos_with n A l) -> List.length c = n /\ incl c l.
Proof.
  induction n as [|n IH]; intros A l c I.
  - destruct I as [<-|[]]. split; [reflexivity|]. intros x [].
  - induction l as [|x l IHl]; [destruct I|]. change (In c (map (cons x) (combos_with n A (x :: l)) ++ combos_with (S n) A l)) in I.
    apply in_app_or in I as [I|I].
    + apply in_map_iff in I as (c' & <- & I). destruct (IH A (x :: l) c' I) as [L Hi]. split; [cbn; now rewrite L|]. intros y [<-|Iy]; [now left|now apply Hi].
    + destruct (IHl I) as [L Hi]. split; [exact L|]. intros y Iy. right. now apply Hi.
Qed.

Lemma plain_labels f : plain_field f -> (forall t, su2_type t -> su2_label t f <= 2) /\ colour_label true f + colour_label false f <= 2.
Proof.
  intros [(a & b & c & d & e & (E & B & _) & R & S1 & S2 & S3) _ _ _]. split.
  - intros t Ht. rewrite (su2_label_five f _ _ _ _ _ t E B). destruct Ht as [-> | [-> | ->]]; cbn [label_at]; lia.
  - rewrite (colour_label_five f _ _ _ _ _ true E B), (colour_label_five f _ _ _ _ _ false E B). lia.
Qed.

Lemma multiplied_combo all c : Forall plain_field all -> charged_alike all -> incl c all -> List.length c <= 4 -> multiplied c.
Proof.
  intros P A I L. assert (Pc : Forall plain_field c). { apply Forall_forall. intros f H. rewrite Forall_forall in P. apply P, I, H. } constructor.
  - eapply Forall_impl; [|exact Pc]. intros f [(a & b & c0 & d & e & H & R & _) _ _ _]. now exists a, b, c0, d, e.
  - eapply Forall_impl; [|exact Pc]. now intros f [_ H _ _].
  - intros f g If Ig. apply A; now apply I.
  - eapply Forall_impl; [|exact Pc]. now intros f [_ _ _ H].
  - intros t Ht. assert (G : all_labels t c <= 2 * List.length c); [|lia]. clear I L. unfold all_labels, total_label. induction Pc as [|f c H Pc IH]; [cbn; lia|].
    cbn [map list_sum fold_right List.length]. pose proof (proj1 (plain_labels f H) t Ht). unfold list_sum in IH. lia.
  - assert (G : all_colours true c + all_colours false c <= 2 * List.length c); [|lia]. clear I L. unfold all_colours, total_label. induction Pc as [|f c H Pc IH]; [cbn; lia|].
    cbn [map list_sum fold_right List.length]. pose proof (proj2 (plain_labels f H)). unfold list_sum in IH. lia.
Qed.

(** ** One product *)

Lemma combo_terms ip c st : selection_rule ip -> multiplied c -> 2 <= List.length c ->
  (exists terms st', unsimplified_invariants ip c (fun _ => false) (mkC [] st) = (Ok terms, mkC [] st') /\ terms_of_product ip c terms /\ ~ clashes ip c) \/
  (exists st', unsimplified_invariants ip c (fun _ => false) (mkC [] st) = (Err ValueError, mkC [] st') /\ clashes ip c).
Proof.
  intros Rule M L. destruct c as [|f [|g rst]]; cbn [List.length] in L; try lia. set (c := f :: g :: rst) in *.
  destruct (C93_invariants ip f g rst (fun _ => false) st Rule M) as (products & singlets & opss & st' & D & S & _ & _ & F & _ & H1 & H2). fold c in D, F, H1, H2.
  assert (F' : Forall2 (fun r ops => ops <> [] /\ Forall (realises c (fun _ => 0)) ops) singlets opss).
  { clear - F. induction F as [|r ops ss os (_ & N & R) F IH]; constructor; [|exact IH]. split; [exact N|exact R]. }
  assert (Dec : {colour_matches (all_colours true c) (all_colours false c)} + {~ colour_matches (all_colours true c) (all_colours false c)}).
  { generalize (all_colours true c), (all_colours false c). intros n m. unfold colour_matches. destruct (Nat.eq_dec n m); [left; tauto|].
    destruct (Nat.eq_dec n 3), (Nat.eq_dec m 0), (Nat.eq_dec n 0), (Nat.eq_dec m 3); try (left; tauto); right; tauto. }
  destruct Dec as [Cm|Cm].
  - left. destruct (H1 eq_refl Cm) as (rss & E & Fc). exists (concat rss), st'. split; [exact E|]. split; [exists products, singlets, opss, rss; auto|]. intros [N _]. contradiction.
  - destruct (H2 eq_refl Cm) as [E1 E2]. destruct singlets as [|r ss].
    + left. exists [], st'. split; [now apply E1|]. split.
      * exists products, [], opss, []. split; [exact D|]. split; [exact S|]. split; [exact F'|]. split; [reflexivity|]. inversion F. constructor.
      * intros (_ & products' & r & D' & I & N). rewrite D in D'. injection D' as <-. clear - S I N. remember [] as ss eqn:Es in S. induction S as [|x l l' Hx S IH|x l l' Hx S IH]; [destruct I|discriminate Es|].
        destruct I as [<-|I]; [contradiction|now apply IH].
    + right. exists st'. split; [apply E2; discriminate|]. split; [exact Cm|]. exists products, r. split; [exact D|].
      pose proof (selected_in _ _ _ S) as Fi. apply Forall_inv in Fi. tauto.
Qed.

Lemma terms_list ip combos : selection_rule ip -> Forall (fun c => multiplied c /\ 2 <= List.length c) combos -> forall st,
  (exists termss st', terms_of ip combos (fun _ => false) (mkC [] st) = (Ok (concat termss), mkC [] st') /\ Forall2 (terms_of_product ip) combos termss /\
     Forall (fun c => ~ clashes ip c) combos) \/
  (exists st', terms_of ip combos (fun _ => false) (mkC [] st) = (Err ValueError, mkC [] st') /\ Exists (clashes ip) combos).
Proof.
  intros Rule H. induction H as [|c combos [M L] H IH]; intros st.
  - left. exists [], st. repeat split; constructor.
  - cbn [terms_of]. destruct (combo_terms ip c st Rule M L) as [(terms & st1 & E & T & N)|(st1 & E & C)]; rewrite E.
    + destruct (IH st1) as [(termss & st2 & E2 & F & Nc)|(st2 & E2 & X)]; rewrite E2.
      * left. exists (terms :: termss), st2. repeat split; now constructor.
      * right. exists st2. split; [reflexivity|now right].
    + right. exists st1. split; [reflexivity|now left].
Qed.

(** ** C95: npoint_terms *)

Lemma npoint ip n fields conjs st : selection_rule ip -> 2 <= n <= 4 -> Forall plain_field fields -> charged_alike fields -> mapM conj_field fields = Ok conjs ->
  (exists termss st', npoint_terms ip n fields (fun _ => false) (mkC [] st) = (Ok (concat termss), mkC [] st') /\
     Forall2 (terms_of_product ip) (combos_with n field (fields ++ conjs)) termss /\ Forall (fun c => ~ clashes ip c) (combos_with n field (fields ++ conjs))) \/
  (exists st', npoint_terms ip n fields (fun _ => false) (mkC [] st) = (Err ValueError, mkC [] st') /\ Exists (clashes ip) (combos_with n field (fields ++ conjs))).
Proof.
  intros Rule L P A E. unfold npoint_terms. rewrite E. apply terms_list; [exact Rule|]. destruct (conjs_plain fields P) as (cs & E' & Pc & S). rewrite E in E'. injection E' as <-.
  apply Forall_forall. intros c I. apply combos_in in I as [Lc Ic]. split; [|lia]. apply (multiplied_combo (fields ++ conjs)); [now apply Forall_app|now apply stock_alike|exact Ic|lia].
Qed.

(** [npoint_terms] for two to four fields of spin zero or one half: every choice with repetition of the fields and their
    conjugates is multiplied out in turn.  When the code can construct all the neutral singlets, the terms are theirs, choice
    by choice; when there is a choice with a neutral singlet it cannot construct, the whole call is a ValueError. *)
Theorem C95_npoint :
  forall irrep_product n fields st, selection_rule irrep_product -> 2 <= n <= 4 -> Forall plain_field fields -> charged_alike fields ->
    exists conjs, mapM conj_field fields = Ok conjs /\
      let combos := combos_with n field (fields ++ conjs) in
      (Forall (fun c => ~ clashes irrep_product c) combos -> exists termss st',
         npoint_terms irrep_product n fields (fun _ => false) (mkC [] st) = (Ok (concat termss), mkC [] st') /\
         Forall2 (terms_of_product irrep_product) combos termss) /\
      (Exists (clashes irrep_product) combos -> exists st',
         npoint_terms irrep_product n fields (fun _ => false) (mkC [] st) = (Err ValueError, mkC [] st')).
Proof.
  intros ip n fields st Rule L P A. destruct (conjs_plain fields P) as (conjs & E & _ & _). exists conjs. split; [exact E|]. intros combos. subst combos.
  destruct (npoint ip n fields conjs st Rule L P A E) as [(termss & st' & E1 & F & N)|(st' & E1 & X)].
  - split; [intros _; eauto|]. intros X. exfalso. rewrite Forall_forall in N. apply Exists_exists in X as (c & I & C). exact (N c I C).
  - split; [|intros _; eauto]. intros N. exfalso. rewrite Forall_forall in N. apply Exists_exists in X as (c & I & C). exact (N c I C).
Qed.

(** ** The fields of a term *)

Lemma Forall2_right {A B} (R : A -> B -> Prop) l l' y : Forall2 R l l' -> In y l' -> exists x, In x l /\ R x y.
Proof.
  induction 1 as [|x z l l' H F IH]; intros I; [destruct I|]. destruct I as [<-|I]; [exists x; split; [now left|exact H]|].
  destruct (IH I) as (x' & I' & H'). exists x'. split; [now right|exact H'].
Qed.
Lemma Forall2_left {A B} (R : A -> B -> Prop) l l' x : Forall2 R l l' -> In x l -> exists y, In y l' /\ R x y.
Proof.
  induction 1 as [|z y l l' H F IH]; intros I; [destruct I|]. destruct I as [<-|I]; [exists y; split; [now left|exact H]|].
  destruct (IH I) as (x' & I' & H'). exists x'. split; [now right|exact H'].
Qed.

Lemma coloured_fields n m op rs : coloured n m op rs -> Forall (fun r => indexed_fields r = indexed_fields op) rs /\ rs <> [].
Proof.
  assert (G : forall r, contracted_type Colour op r -> indexed_fields r = indexed_fields op).
  { intros r (_ & _ & ss & ->). rewrite fields_app, (proj1 (symbols_map ss)). apply app_nil_r. }
  intros [(_ & ups & downs & perms & sp & ds & _ & _ & -> & _ & Hp & F & Fc & _)|[(_ & _ & r & -> & C)|(_ & _ & r & -> & C)]].
  - split; [eapply Forall_impl; [|exact Fc]; exact G|]. intros E. apply app_eq_nil in E as [_ E]. subst ds. inversion F; subst.
    destruct (proj2 (Hp ups) (Permutation_refl _)).
  - split; [|discriminate]. constructor; [now apply G|]. apply Forall_forall. intros x I. apply repeat_spec in I. now subst.
  - split; [|discriminate]. repeat constructor. now apply G.
Qed.

Lemma coloured_free n m op rs : coloured n m op rs -> Forall (fun r => forall i, is_free r i -> is_free op i) rs.
Proof.
  assert (G : forall r, contracted_type Colour op r -> forall i, is_free r i -> is_free op i) by (intros r (H & _) i I; now apply H).
  intros [(_ & ups & downs & perms & sp & ds & _ & _ & -> & _ & Hp & F & Fc & _)|[(_ & _ & r & -> & C)|(_ & _ & r & -> & C)]].
  - eapply Forall_impl; [|exact Fc]. exact G.
  - constructor; [now apply G|]. apply Forall_forall. intros x I. apply repeat_spec in I. now subst.
  - constructor; [now apply G|]. constructor; [auto|constructor].
Qed.

Lemma product_terms ip c terms t : terms_of_product ip c terms -> In t terms -> made_of c t /\ su2_closed t.
Proof.
  intros (products & singlets & opss & rss & _ & _ & F & -> & Fc) I. apply in_concat in I as (rs & Ir & I).
  destruct (Forall2_right _ _ _ _ Fc Ir) as (op & Io & C). apply in_concat in Io as (ops & Iop & Io). destruct (Forall2_right _ _ _ _ F Iop) as (r & _ & _ & R).
  rewrite Forall_forall in R. destruct (R op Io) as (_ & _ & _ & Mf & Su & _). split.
  - unfold made_of. pose proof (proj1 (coloured_fields _ _ _ _ C)) as G. rewrite Forall_forall in G. now rewrite (G t I).
  - intros ty up i Hty Fi Ti Ui. pose proof (coloured_free _ _ _ _ C) as G. rewrite Forall_forall in G. specialize (G t I i Fi).
    destruct (Su ty Hty) as [(l1 & (_ & L1) & Z1) (l2 & (_ & L2) & Z2)]. apply length_zero_iff_nil in Z1, Z2. subst l1 l2.
    destruct up; [apply (proj2 (L1 i)); auto|apply (proj2 (L2 i)); auto].
Qed.

Lemma product_nonempty ip c terms products r : terms_of_product ip c terms -> decompose_product ip c = Ok (inr products) -> In r products -> neutral r -> terms <> [].
Proof.
  intros (products' & singlets & opss & rss & D & S & F & -> & Fc) D' I N. rewrite D in D'. injection D' as <-.
  assert (Hs : singlets <> []).
  { intros ->. remember [] as ss eqn:Es in S. clear - S I N Es. induction S as [|x l l' Hx S IH|x l l' Hx S IH]; [destruct I|discriminate Es|]. destruct I as [<-|I]; [contradiction|now apply IH]. }
  destruct F as [|s ops ss os [Ne _] F]; [now destruct Hs|]. destruct ops as [|op ops]; [now destruct Ne|]. cbn [concat app] in Fc. inversion Fc as [|? rs ? rss' C Fc' E1 E2]; subst.
  pose proof (proj2 (coloured_fields _ _ _ _ C)) as Hr. destruct rs as [|x rs]; [now destruct Hr|]. discriminate.
Qed.

Lemma field_of_dressed x f : plain_field f -> i_field x = dressed f -> field_of x = Ok f.
Proof.
  intros [(a & b & c & d & e & (E & B & P & N) & _) Hh Hm _] Ex. unfold field_of. rewrite Ex. cbn [dressed f_is_conj f_label f_dynkin f_charges f_comm f_symmetry f_latex f_nf f_derivs f_stripped].
  rewrite mk_field_ok by assumption. f_equal. destruct f; cbn [SpecField.five ModelField.f_history ModelField.f_multiplicity] in *. simpl in *. subst. destruct f_is_conj.
  - now rewrite removelast_last.
  - now rewrite app_nil_r.
Qed.

Lemma fields_made c t : Forall plain_field c -> made_of c t -> fields_of t = Ok c.
Proof.
  unfold made_of, fields_of. generalize (indexed_fields t). intros l P. revert l. induction P as [|f c Hf P IH]; intros [|x l] E; try discriminate E; [reflexivity|].
  cbn [map] in E. injection E as Ex E. cbn [mapM]. rewrite (field_of_dressed x f Hf Ex). cbn [bind]. now rewrite (IH l E).
Qed.

(** ** Mass dimensions *)

Definition half (n : nat) : Qc := Q2Qc (Z.of_nat n # 2).

Lemma half_plus a b : (half a + half b)%Qc = half (a + b).
Proof.
  unfold half. apply Qc_is_canon. cbn [Qcplus this Q2Qc]. rewrite !Qred_correct. unfold Qeq, Qplus. cbn [Qnum Qden]. rewrite Nat2Z.inj_add. lia.
Qed.

Lemma half_four n : if Qclt_le_dec (Q2Qc (4 # 1)) (half n) then 8 < n else n <= 8.
Proof.
  destruct (Qclt_le_dec (Q2Qc (4 # 1)) (half n)) as [H|H]; unfold Qclt, Qcle, half in H; cbn [this Q2Qc] in H; rewrite !Qred_correct in H; unfold Qlt, Qle in H; cbn [Qnum Qden] in H; lia.
Qed.

Lemma labels_one t f : all_labels t [f] = su2_label t f.
Proof. unfold all_labels, total_label. cbn. lia. Qed.

Lemma mass_dim_plain f : plain_field f -> mass_dim f = Ok (half (2 + all_labels Undotted [f] + all_labels Dotted [f])).
Proof.
  intros [(a & b & c & d & e & H & _ & S & _) _ _ _]. rewrite !labels_one. pose proof (field_ok_ints _ _ _ _ _ _ H) as L. destruct H as (E & B & _).
  rewrite !(su2_label_five f _ _ _ _ _ _ E B). cbn [label_at]. unfold mass_dim, is_fermion, is_scalar, is_vector, is_boson, lorentz_irrep. rewrite L. cbn [bind firstn].
  assert (C : a = 0 /\ b = 0 \/ a = 1 /\ b = 0 \/ a = 0 /\ b = 1) by lia. destruct C as [[-> ->]|[[-> ->]|[-> ->]]]; cbn -[Q2Qc]; f_equal; apply Qc_is_canon; reflexivity.
Qed.

Lemma mass_dim_term c t : Forall plain_field c -> made_of c t -> op_mass_dim t = Ok (half (twice_dimension c)).
Proof.
  intros P M. unfold op_mass_dim. pose proof (fields_made c t P M) as E. unfold fields_of in E. rewrite E. cbn [bind]. clear E M.
  replace (Q2Qc 0) with (half 0) by (apply Qc_is_canon; reflexivity). change (twice_dimension c) with (0 + twice_dimension c). generalize 0. induction P as [|f c Hf P IH]; intros k.
  - cbn [foldM]. unfold twice_dimension. cbn. now rewrite Nat.add_0_r.
  - cbn [foldM]. rewrite (mass_dim_plain f Hf). cbn [bind]. rewrite half_plus, IH. unfold twice_dimension. cbn [map list_sum fold_right]. f_equal. f_equal. unfold list_sum. lia.
Qed.

(** ** Filters *)

Lemma select_mapM {A} (P : A -> Prop) (f : A -> res (list A)) l : (forall x, In x l -> exists b : bool, f x = Ok (if b then [x] else []) /\ (b = true <-> P x)) ->
  exists ls, mapM f l = Ok ls /\ selected P l (concat ls).
Proof.
  induction l as [|x l IH]; intros H; [exists []; split; [reflexivity|constructor]|]. destruct (H x (or_introl eq_refl)) as (b & E & Hb).
  destruct IH as (ls & El & S); [intros y I; apply H; now right|]. cbn [mapM]. rewrite E. cbn [bind]. rewrite El. eexists. split; [reflexivity|]. cbn [concat]. destruct b.
  - apply sel_take; [now apply Hb|exact S].
  - apply sel_skip; [|exact S]. intros Px. apply Hb in Px. discriminate.
Qed.

Lemma selected_incl {A} (P : A -> Prop) l l' x : selected P l l' -> (In x l' <-> In x l /\ P x).
Proof.
  induction 1 as [|y l l' H S IH|y l l' H S IH]; cbn [In].
  - tauto.
  - split; [intros [<-|I]; [tauto|apply IH in I; tauto]|]. intros [[<-|I] Px]; [now left|]. right. apply IH. tauto.
  - split; [intros I; apply IH in I; tauto|]. intros [[<-|I] Px]; [contradiction|]. apply IH. tauto.
Qed.

Definition light (combos : list (list field)) (t : operator) : Prop := exists c, In c combos /\ made_of c t /\ twice_dimension c <= 8.
Definition exotic_term (combos : list (list field)) (exotics exc : list field) (t : operator) : Prop :=
  exists c, In c combos /\ made_of c t /\ SpecLagrangian.exotic_in exotics exc c.

Lemma made_unique c c' t : Forall plain_field c -> Forall plain_field c' -> made_of c t -> made_of c' t -> c = c'.
Proof. intros P P' M M'. pose proof (fields_made c t P M) as E. rewrite (fields_made c' t P' M') in E. congruence. Qed.

Section Uv.
  Variables (combos : list (list field)) (ip : str -> str -> list (list nat * nat)).
  Hypothesis Pc : Forall (Forall plain_field) combos.

  Lemma pc c : In c combos -> Forall plain_field c.
  Proof using Pc. rewrite Forall_forall in Pc. apply Pc. Qed.

  Lemma renormalisable_ok terms : (forall t, In t terms -> exists c, In c combos /\ made_of c t) ->
    exists kept, renormalisable terms = Ok kept /\ selected (light combos) terms kept.
  Proof using Pc.
    intros H. unfold renormalisable.
    match goal with |- context [mapM ?f terms] => destruct (select_mapM (light combos) f terms) as (ls & E & S) end.
    - intros t I. destruct (H t I) as (c & Ic & M). rewrite (mass_dim_term c t (pc c Ic) M). cbn [bind]. pose proof (half_four (twice_dimension c)) as D.
      destruct (Qclt_le_dec (Q2Qc (4 # 1)) (half (twice_dimension c))).
      + exists false. split; [reflexivity|]. split; [discriminate|]. intros (c' & Ic' & M' & L). rewrite (made_unique c' c t) in L; auto using pc. lia.
      + exists true. split; [reflexivity|]. split; [|reflexivity]. intros _. now exists c.
    - exists (concat ls). split; [|exact S]. exact (f_equal (fun r => do l <- r; Ok (concat l)) E).
  Qed.

  Lemma exotics_ok zero exotics exc terms : mapM conj_field exotics = Ok exc -> (forall t, In t terms -> exists c, In c combos /\ made_of c t) ->
    exists out, with_exotics zero exotics terms = Ok out /\ selected (fun t => zero t = false /\ exotic_term combos exotics exc t) terms out.
  Proof using Pc.
    intros Ex H. unfold with_exotics.
    destruct (select_mapM (fun t => zero t = false /\ exotic_term combos exotics exc t)
      (fun t => if zero t then Ok [] else do fs <- fields_of t; do b <- contains fs exotics; Ok (if b then [t] else [])) terms) as (ls & E & S).
    - intros t I. destruct (zero t) eqn:Z; [exists false; split; [reflexivity|]; split; [discriminate|]; intros [X _]; discriminate|].
      destruct (H t I) as (c & Ic & M). rewrite (fields_made c t (pc c Ic) M). cbn [bind]. destruct (PropsLagrangian.contains_ok exotics exc c Ex) as (b & Eb & Hb).
      rewrite Eb. cbn [bind]. exists b. split; [reflexivity|]. rewrite Hb. split.
      + intros X. split; [reflexivity|]. now exists c.
      + intros (_ & c' & Ic' & M' & X). rewrite (made_unique c' c t) in X; auto using pc.
    - exists (concat ls). split; [|exact S]. exact (f_equal (fun r => do l <- r; Ok (concat l)) E).
  Qed.
End Uv.

(** ** C95: generate_uv_terms *)

(** [generate_uv_terms]: a ValueError as soon as some choice of three or four fields has a neutral singlet the code cannot
    construct, whatever its mass dimension; otherwise the terms of all choices, of those the ones of dimension at most four,
    of several equivalent ones the first, and of those the ones with an exotic field or its conjugate. *)
Theorem C95_uv_terms :
  forall irrep_product same zero sm exotics st,
    selection_rule irrep_product -> Forall plain_field (sm ++ exotics) -> charged_alike (sm ++ exotics) ->
    exists conjs exc, mapM conj_field (sm ++ exotics) = Ok conjs /\ mapM conj_field exotics = Ok exc /\
      let all := (sm ++ exotics) ++ conjs in
      let combos := combos_with 3 field all ++ combos_with 4 field all in
      (Exists (clashes irrep_product) combos -> exists st', generate_uv_terms irrep_product same zero sm exotics (mkC [] st) = (Err ValueError, mkC [] st')) /\
      (Forall (fun c => ~ clashes irrep_product c) combos -> exists termss kept distinct out st',
         Forall2 (terms_of_product irrep_product) combos termss /\ selected (light combos) (concat termss) kept /\
         remove_equivalent same kept = Ok distinct /\ selected (fun t => zero t = false /\ exotic_term combos exotics exc t) distinct out /\
         generate_uv_terms irrep_product same zero sm exotics (mkC [] st) = (Ok out, mkC [] st')).
Proof.
  intros ip same zero sm exotics st Rule P A. destruct (conjs_plain _ P) as (conjs & E & Pc & Sk). apply Forall_app in P as Pp. destruct Pp as [_ Pe].
  destruct (conjs_plain _ Pe) as (exc & Ee & _). exists conjs, exc. split; [exact E|]. split; [exact Ee|]. intros all combos.
  assert (Pl : Forall (Forall plain_field) combos).
  { apply Forall_forall. intros c I. apply Forall_forall. intros f If. assert (Ia : In f all). { apply in_app_or in I as [I|I]; apply combos_in in I as [_ I]; now apply I. }
    assert (Pa : Forall plain_field all) by (now apply Forall_app). rewrite Forall_forall in Pa. now apply Pa. }
  assert (No : forall cs, Forall (fun c => ~ clashes ip c) cs -> Exists (clashes ip) cs -> False).
  { intros cs N X. rewrite Forall_forall in N. apply Exists_exists in X as (c & I & C). exact (N c I C). }
  unfold generate_uv_terms. cbv zeta.
  destruct (npoint ip 3 (sm ++ exotics) conjs st Rule ltac:(lia) P A E) as [(t3 & st3 & E3 & F3 & N3)|(st3 & E3 & X3)]; rewrite E3.
  - destruct (npoint ip 4 (sm ++ exotics) conjs st3 Rule ltac:(lia) P A E) as [(t4 & st4 & E4 & F4 & N4)|(st4 & E4 & X4)]; rewrite E4.
    + split; [intros X; exfalso; apply Exists_app in X as [X|X]; [exact (No _ N3 X)|exact (No _ N4 X)]|]. intros _.
      assert (F : Forall2 (terms_of_product ip) combos (t3 ++ t4)) by (now apply Forall2_app).
      assert (H : forall t, In t (concat (t3 ++ t4)) -> exists c, In c combos /\ made_of c t).
      { intros t I. apply in_concat in I as (ts & Its & I). destruct (Forall2_right _ _ _ _ F Its) as (c & Ic & T). exists c. split; [exact Ic|]. now apply (product_terms ip c ts t). }
      rewrite <- concat_app. destruct (renormalisable_ok combos Pl _ H) as (kept & Er & Sr). rewrite Er. cbn [bind].
      destruct (PropsFunctions.C01_remove_equivalent_snoc _ same kept []) as (_ & distinct & Ed & _). rewrite Ed. cbn [bind].
      destruct (exotics_ok combos Pl zero exotics exc distinct Ee) as (out & Eo & So).
      { intros t I. apply H. destruct (PropsFunctions.C01_remove_equivalent_order_pairwise_cover _ same kept distinct Ed) as (Sb & _). apply (selected_incl _ _ _ t Sr).
        clear - Sb I. induction Sb; cbn [In] in *; intuition. }
      exists (t3 ++ t4), kept, distinct, out, st4. split; [exact F|]. split; [exact Sr|]. split; [exact Ed|]. split; [exact So|]. now rewrite Eo.
    + split; [intros _; now exists st4|]. intros N. exfalso. apply Forall_app in N as [_ N]. exact (No _ N X4).
  - split; [intros _; now exists st3|]. intros N. exfalso. apply Forall_app in N as [N _]. exact (No _ N X3).
Qed.

(** ** What the terms are *)

Lemma product_neutral ip c terms t : selection_rule ip -> multiplied c -> 2 <= List.length c -> terms_of_product ip c terms -> In t terms ->
  SpecField.total c (lit "y") = Q2Qc 0 /\ forall ty, su2_type ty -> Nat.Even (all_labels ty c).
Proof.
  intros Rule M L T I. destruct c as [|f [|g rst]]; cbn [List.length] in L; try lia. set (c := f :: g :: rst) in *.
  destruct (C93_invariants ip f g rst (fun _ => false) (fun _ => 0) Rule M) as (products & singlets & opss & st' & D & S & Hy & Ho & _). fold c in D, Hy, Ho.
  destruct T as (products' & singlets' & opss' & rss & D' & S' & F & -> & Fc). rewrite D in D'. injection D' as <-.
  assert (Ne : singlets <> []).
  { intros ->. destruct singlets' as [|r ss].
    - inversion F; subst. cbn [concat] in Fc. inversion Fc; subst. destruct I.
    - pose proof (selected_in _ _ _ S') as G. apply Forall_inv in G as [N Ir]. apply (selected_incl _ _ _ r S). tauto. }
  split.
  - destruct (Qc_eq_dec (SpecField.total c (lit "y")) (Q2Qc 0)) as [E|N]; [exact E|]. destruct Ne. now apply Hy.
  - intros ty Hty. destruct (Nat.Even_or_Odd (all_labels ty c)) as [E|O]; [exact E|]. destruct Ne. exact (Ho ty Hty O).
Qed.

Lemma plain_spin f : plain_field f -> scalar_field f \/ spinor_field f.
Proof.
  intros [(a & b & c & d & e & (E & B & _) & R & S & _) _ _ _]. unfold scalar_field, spinor_field. rewrite !labels_one, !(su2_label_five f _ _ _ _ _ _ E B). cbn [label_at]. lia.
Qed.

Lemma all_labels_cons t f c : all_labels t (f :: c) = all_labels t [f] + all_labels t c.
Proof. rewrite labels_one. reflexivity. Qed.

Lemma kinds c : Forall plain_field c -> List.length c = 3 \/ List.length c = 4 -> (forall ty, su2_type ty -> Nat.Even (all_labels ty c)) -> twice_dimension c <= 8 -> renormalisable_kind c.
Proof.
  intros P L Ev D. destruct (Ev Undotted) as (k1 & K1); [unfold su2_type; auto|]. destruct (Ev Dotted) as (k2 & K2); [unfold su2_type; auto|]. clear Ev.
  assert (G : forall f, plain_field f -> exists b : bool, (if b then spinor_field f else scalar_field f) /\ all_labels Undotted [f] + all_labels Dotted [f] = if b then 1 else 0).
  { intros f H. destruct (plain_spin f H) as [S|S]; [exists false|exists true]; split; exact S. }
  unfold renormalisable_kind. destruct c as [|f1 [|f2 [|f3 [|f4 [|f5 c]]]]]; cbn [List.length] in L; try lia.
  - apply Forall_cons_iff in P as [P1 P]. apply Forall_cons_iff in P as [P2 P]. apply Forall_cons_iff in P as [P3 _].
    rewrite (all_labels_cons Undotted f1 [f2; f3]), (all_labels_cons Undotted f2 [f3]) in K1. rewrite (all_labels_cons Dotted f1 [f2; f3]), (all_labels_cons Dotted f2 [f3]) in K2. unfold twice_dimension in D. cbn [map list_sum fold_right] in D.
    destruct (G f1 P1) as ([|] & H1 & E1), (G f2 P2) as ([|] & H2 & E2), (G f3 P3) as ([|] & H3 & E3); try (exfalso; lia).
    + right. split; [reflexivity|]. exists f3, f1, f2. split; [|auto]. apply (Permutation_app_comm [f1; f2] [f3]).
    + right. split; [reflexivity|]. exists f2, f1, f3. split; [|auto]. apply perm_swap.
    + right. split; [reflexivity|]. exists f1, f2, f3. split; [|auto]. reflexivity.
    + left. split; [|now left]. repeat constructor; assumption.
  - apply Forall_cons_iff in P as [P1 P]. apply Forall_cons_iff in P as [P2 P]. apply Forall_cons_iff in P as [P3 P]. apply Forall_cons_iff in P as [P4 _].
    unfold twice_dimension in D. cbn [map list_sum fold_right] in D.
    destruct (G f1 P1) as ([|] & H1 & E1), (G f2 P2) as ([|] & H2 & E2), (G f3 P3) as ([|] & H3 & E3), (G f4 P4) as ([|] & H4 & E4); try (exfalso; lia).
    left. split; [|now right]. repeat constructor; assumption.
Qed.

Lemma sublist_In {A} (l l' : list A) x : Spec.sublist l l' -> In x l -> In x l'.
Proof. induction 1; cbn [In]; intuition. Qed.

(** a call that returns: nothing clashed *)
Lemma uv_result ip same zero sm exotics st out s' conjs exc : selection_rule ip -> Forall plain_field (sm ++ exotics) -> charged_alike (sm ++ exotics) ->
  mapM conj_field (sm ++ exotics) = Ok conjs -> mapM conj_field exotics = Ok exc -> generate_uv_terms ip same zero sm exotics (mkC [] st) = (Ok out, s') ->
  let all := (sm ++ exotics) ++ conjs in
  let combos := combos_with 3 field all ++ combos_with 4 field all in
  exists termss kept distinct, Forall2 (terms_of_product ip) combos termss /\ selected (light combos) (concat termss) kept /\
    remove_equivalent same kept = Ok distinct /\ selected (fun t => zero t = false /\ exotic_term combos exotics exc t) distinct out /\ c_stack s' = [].
Proof.
  intros Rule P A Ec Ee E all combos. destruct (C95_uv_terms ip same zero sm exotics st Rule P A) as (conjs' & exc' & Ec' & Ee' & H1 & H2).
  rewrite Ec in Ec'. injection Ec' as <-. rewrite Ee in Ee'. injection Ee' as <-. fold all in H1, H2. fold combos in H1, H2.
  assert (Pa : Forall plain_field all /\ charged_alike all).
  { destruct (conjs_plain _ P) as (cs & E' & Pc & S). rewrite Ec in E'. injection E' as <-. split; [now apply Forall_app|now apply stock_alike]. }
  assert (Cl : Forall (fun c => multiplied c /\ 2 <= List.length c) combos).
  { apply Forall_forall. intros c I. apply in_app_or in I as [I|I]; apply combos_in in I as [Lc Ic]; (split; [|lia]); apply (multiplied_combo all); try tauto; lia. }
  destruct (terms_list ip combos Rule Cl (fun _ => 0)) as [(_ & _ & _ & _ & N)|(_ & _ & X)].
  - destruct (H2 N) as (termss & kept & distinct & out' & st' & F & S1 & R & S2 & E'). rewrite E in E'. injection E' as -> ->. exists termss, kept, distinct. auto.
  - destruct (H1 X) as (st' & E'). rewrite E in E'. discriminate.
Qed.

(** What is returned: couplings of three scalars, of four, or of two fermions and a scalar; each has an exotic field, conserves
    hypercharge and has no free SU(2) index. *)
Theorem C95_sound :
  forall irrep_product same zero sm exotics st out s' conjs exc,
    selection_rule irrep_product -> Forall plain_field (sm ++ exotics) -> charged_alike (sm ++ exotics) ->
    mapM conj_field (sm ++ exotics) = Ok conjs -> mapM conj_field exotics = Ok exc ->
    generate_uv_terms irrep_product same zero sm exotics (mkC [] st) = (Ok out, s') ->
    ForallOrdPairs (fun earlier later => same earlier later = false) out /\
    forall t, In t out -> exists c, incl c ((sm ++ exotics) ++ conjs) /\ made_of c t /\ renormalisable_kind c /\
      SpecField.total c (lit "y") = Q2Qc 0 /\ su2_closed t /\ SpecLagrangian.exotic_in exotics exc c /\ zero t = false.
Proof.
  intros ip same zero sm exotics st out s' conjs exc Rule P A Ec Ee E.
  destruct (uv_result ip same zero sm exotics st out s' conjs exc Rule P A Ec Ee E) as (termss & kept & distinct & F & S1 & R & S2 & _).
  set (all := (sm ++ exotics) ++ conjs) in *. set (combos := combos_with 3 field all ++ combos_with 4 field all) in *.
  destruct (PropsFunctions.C01_remove_equivalent_order_pairwise_cover _ same kept distinct R) as (Sb & Pw & _).
  assert (Pa : Forall plain_field all /\ charged_alike all).
  { destruct (conjs_plain _ P) as (cs & E' & Pc & S). rewrite Ec in E'. injection E' as <-. split; [now apply Forall_app|now apply stock_alike]. }
  destruct Pa as [Pa Aa]. split.
  - clear - S2 Pw. induction S2 as [|x l l' Hx S IH|x l l' Hx S IH]; [constructor| |]; inversion Pw as [|? ? Fx Pl]; subst; [|now apply IH].
    constructor; [|now apply IH]. rewrite Forall_forall in *. intros y I. apply Fx. apply (selected_incl _ _ _ y S) in I. tauto.
  - intros t I. apply (selected_incl _ _ _ t S2) in I as (I & Z & c & Ic & M & X). exists c.
    assert (Lc : (List.length c = 3 \/ List.length c = 4) /\ incl c all). { apply in_app_or in Ic as [Ic|Ic]; apply combos_in in Ic as [L Hi]; auto. } destruct Lc as [Lc Hi].
    assert (Pc : forall c', incl c' all -> Forall plain_field c'). { intros c' H. apply Forall_forall. intros f If. rewrite Forall_forall in Pa. apply Pa, H, If. }
    apply (sublist_In _ _ t Sb) in I. apply (selected_incl _ _ _ t S1) in I as (I & c2 & Ic2 & M2 & L).
    assert (Hi2 : incl c2 all). { apply in_app_or in Ic2 as [Ic2|Ic2]; apply combos_in in Ic2; tauto. } rewrite (made_unique c2 c t (Pc _ Hi2) (Pc _ Hi) M2 M) in L.
    apply in_concat in I as (ts & Its & I). destruct (Forall2_right _ _ _ _ F Its) as (c3 & Ic3 & T). destruct (product_terms ip c3 ts t T I) as [M3 Cl].
    assert (Hi3 : incl c3 all). { apply in_app_or in Ic3 as [Ic3|Ic3]; apply combos_in in Ic3; tauto. } pose proof (made_unique c3 c t (Pc _ Hi3) (Pc _ Hi) M3 M) as ->.
    destruct (product_neutral ip c ts t Rule) with (3 := T) (4 := I) as [Y Ev]; [apply (multiplied_combo all); auto; lia|lia|].
    split; [exact Hi|]. split; [exact M|]. split; [apply kinds; auto|]. split; [exact Y|]. split; [exact Cl|]. split; [exact X|exact Z].
Qed.

(** a term that is taken, or an earlier one it is equivalent to *)
Lemma kept_or_equivalent {A} (same : A -> A -> bool) kept distinct t : remove_equivalent same kept = Ok distinct -> In t kept ->
  exists t', In t' distinct /\ In t' kept /\ (t' = t \/ same t' t = true).
Proof.
  intros R Ik. apply in_split in Ik as (a & b & Ek). destruct (PropsFunctions.C01_remove_equivalent_order_pairwise_cover _ same kept distinct R) as (Sb & _ & Cov).
  destruct (Cov a t b Ek) as (ra & Era & [(rb & Er)|(y & Iy & Iya & Ey)]).
  - exists t. split; [rewrite Er; apply in_or_app; right; now left|]. split; [rewrite Ek; apply in_or_app; right; now left|now left].
  - exists y. split; [|split; [rewrite Ek; apply in_or_app; now left|now right]].
    assert (G : forall l l1 l2 r1 r2, l = l1 ++ l2 -> remove_equivalent same l1 = Ok r1 -> remove_equivalent same l = Ok r2 -> exists r3, r2 = r1 ++ r3).
    { intros l l1 l2. revert l. induction l2 as [|x l2 IH] using rev_ind; intros l r1 r2 El E1 E2.
      - rewrite app_nil_r in El. subst. rewrite E1 in E2. injection E2 as <-. exists []. now rewrite app_nil_r.
      - rewrite app_assoc in El. destruct (PropsFunctions.C01_remove_equivalent_snoc _ same (l1 ++ l2) x) as (_ & q & Eq & H1 & H2).
        destruct (IH (l1 ++ l2) r1 q eq_refl E1 Eq) as (r3 & ->). subst l. destruct (existsb (fun z => same z x) (r1 ++ r3)) eqn:B.
        + apply existsb_exists in B. rewrite (H1 B) in E2. injection E2 as <-. now exists r3.
        + rewrite H2 in E2; [injection E2 as <-; exists (r3 ++ [x]); now rewrite app_assoc|]. intros z Iz. destruct (same z x) eqn:Q; [|reflexivity]. rewrite <- B. symmetry. apply existsb_exists. now exists z. }
    destruct (G kept a (t :: b) ra distinct Ek Era R) as (r3 & ->). apply in_or_app. now left.
Qed.

(** Nothing is missing: every choice of dimension at most four that has a neutral singlet and an exotic field is the content of
    a term returned, up to the order of its fields, as long as equivalent terms have the same fields. *)
Theorem C95_complete :
  forall irrep_product same sm exotics st out s' conjs exc,
    selection_rule irrep_product -> Forall plain_field (sm ++ exotics) -> charged_alike (sm ++ exotics) ->
    mapM conj_field (sm ++ exotics) = Ok conjs -> mapM conj_field exotics = Ok exc ->
    (forall x y cx cy, same x y = true -> made_of cx x -> made_of cy y -> Permutation cx cy) ->
    generate_uv_terms irrep_product same (fun _ => false) sm exotics (mkC [] st) = (Ok out, s') ->
    forall c products r, In c (combos_with 3 field ((sm ++ exotics) ++ conjs) ++ combos_with 4 field ((sm ++ exotics) ++ conjs)) ->
      twice_dimension c <= 8 -> SpecLagrangian.exotic_in exotics exc c ->
      decompose_product irrep_product c = Ok (inr products) -> In r products -> neutral r ->
      exists t c', In t out /\ made_of c' t /\ Permutation c' c.
Proof.
  intros ip same sm exotics st out s' conjs exc Rule P A Ec Ee Hs E c products r Ic Lt X D Ir N.
  destruct (uv_result ip same (fun _ => false) sm exotics st out s' conjs exc Rule P A Ec Ee E) as (termss & kept & distinct & F & S1 & R & S2 & _).
  destruct (Forall2_left _ _ _ _ F Ic) as (ts & Its & T). pose proof (product_nonempty ip c ts products r T D Ir N) as Ne.
  destruct ts as [|t ts]; [now destruct Ne|]. destruct (product_terms ip c (t :: ts) t T (or_introl eq_refl)) as [M _].
  assert (Ik : In t kept). { apply (selected_incl _ _ _ t S1). split; [apply in_concat; exists (t :: ts); split; [exact Its|now left]|]. now exists c. }
  assert (K : exists t' c', In t' distinct /\ In c' (combos_with 3 field ((sm ++ exotics) ++ conjs) ++ combos_with 4 field ((sm ++ exotics) ++ conjs)) /\ made_of c' t' /\ Permutation c' c).
  { destruct (kept_or_equivalent same kept distinct t R Ik) as (t' & It' & Ik' & [-> | Es]).
    - exists t, c. auto.
    - apply (selected_incl _ _ _ t' S1) in Ik' as (_ & c' & Ic' & M' & _). exists t', c'. split; [exact It'|]. split; [exact Ic'|]. split; [exact M'|]. exact (Hs t' t c' c Es M' M). }
  destruct K as (t' & c' & It' & Ic' & M' & Pm). exists t', c'. split; [|auto]. apply (selected_incl _ _ _ t' S2). split; [exact It'|]. split; [reflexivity|].
  exists c'. split; [exact Ic'|]. split; [exact M'|]. destruct X as (f & k & If & Ikk & B). exists f, k. split; [|auto]. exact (Permutation_in f (Permutation_sym Pm) If).
Qed.

(** ** Without sextets and octets nothing is raised *)

Section Triality.
  Variable ip : str -> str -> list (list nat * nat).
  Hypothesis Rule : selection_rule ip.
  Hypothesis Tri : triality_rule ip.

  Definition triality (f : field) : nat := colour_label true f + 2 * colour_label false f.

  Lemma mod3_add x y z : x mod 3 = y mod 3 -> (x + z) mod 3 = (y + z) mod 3.
  Proof using Type. intros H. rewrite (Nat.add_mod x z 3), (Nat.add_mod y z 3), H by lia. reflexivity. Qed.

  Lemma levels_triality f steps r : levels ip f steps r -> labelled f -> Forall made (map snd steps) ->
    (forall t, su2_type t -> su2_label t f + total_label (su2_label t) (map snd steps) < 10) ->
    colour_label true f + colour_label false f + total_label (colour_label true) (map snd steps) + total_label (colour_label false) (map snd steps) < 10 ->
    triality r mod 3 = (triality f + total_label triality (map snd steps)) mod 3.
  Proof using Rule Tri.
    induction 1 as [f|f x g steps r w m Hw Hd Lv IH]; intros Lf Mg Su Co; [unfold total_label; cbn [map list_sum fold_right]; now rewrite Nat.add_0_r|].
    cbn [map snd] in *. apply Forall_cons_iff in Mg as [Mg Ms]. unfold total_label in Su, Co |- *. cbn [map] in Su, Co |- *.
    destruct Lf as (a & b & c & d & e & Ef & Bf). destruct (made_labelled g Mg) as (a' & b' & c' & d' & e' & Eg & Bg).
    pose proof Hw as Hw'. rewrite Ef, Eg in Hw'.
    destruct (Rule a b c d e a' b' c' d' e' Bf Bg w m Hw') as (p & q & rr & s & t0 & -> & T1 & T2 & T3 & T4).
    pose proof (Tri a b c d e a' b' c' d' e' Bf Bg p q rr s t0 m Hw') as Ht.
    rewrite (colour_label_five f _ _ _ _ _ true Ef Bf), (colour_label_five f _ _ _ _ _ false Ef Bf) in Co. cbn [list_sum fold_right] in Co, Su |- *.
    rewrite (colour_label_five g _ _ _ _ _ true Eg Bg), (colour_label_five g _ _ _ _ _ false Eg Bg) in Co.
    assert (Lab : forall t, su2_type t -> label_at t p q t0 <= su2_label t f + su2_label t g).
    { intros t Hty. rewrite (su2_label_five f _ _ _ _ _ t Ef Bf), (su2_label_five g _ _ _ _ _ t Eg Bg). destruct T1 as (T1 & _), T2 as (T2 & _), T4 as (T4 & _).
      destruct Hty as [-> | [-> | ->]]; cbn [label_at]; lia. }
    assert (Bx : p < 10 /\ q < 10 /\ rr < 10 /\ s < 10 /\ t0 < 10).
    { pose proof (Lab Undotted (or_introl eq_refl)) as P1. pose proof (Lab Dotted (or_intror (or_introl eq_refl))) as P2. pose proof (Lab Isospin (or_intror (or_intror eq_refl))) as P3.
      cbn [label_at] in P1, P2, P3. pose proof (Su Undotted (or_introl eq_refl)). pose proof (Su Dotted (or_intror (or_introl eq_refl))). pose proof (Su Isospin (or_intror (or_intror eq_refl))). lia. }
    assert (Ex : f_dynkin x = five p q rr s t0). { rewrite Hd. cbn [map concat]. destruct Bx as (B1 & B2 & B3 & B4 & B5). rewrite !show_nat_digit by assumption. reflexivity. }
    rewrite IH.
    - replace (triality f + (triality g + fold_right Nat.add 0 (map triality (map snd steps)))) with (triality f + triality g + total_label triality (map snd steps)) by (unfold total_label, list_sum; lia).
      apply mod3_add. unfold triality. rewrite (colour_label_five f _ _ _ _ _ true Ef Bf), (colour_label_five f _ _ _ _ _ false Ef Bf), (colour_label_five g _ _ _ _ _ true Eg Bg),
        (colour_label_five g _ _ _ _ _ false Eg Bg), (colour_label_five x _ _ _ _ _ true Ex Bx), (colour_label_five x _ _ _ _ _ false Ex Bx). exact Ht.
    - exists p, q, rr, s, t0. auto.
    - exact Ms.
    - intros t Hty. specialize (Su t Hty). pose proof (Lab t Hty). rewrite (su2_label_five x _ _ _ _ _ t Ex Bx). unfold total_label, list_sum. lia.
    - rewrite (colour_label_five x _ _ _ _ _ true Ex Bx), (colour_label_five x _ _ _ _ _ false Ex Bx). unfold total_label, list_sum. lia.
  Qed.

  Lemma no_clash c : multiplied c -> 2 <= List.length c <= 4 -> Forall few_colours c -> ~ clashes ip c.
  Proof using Rule Tri.
    intros M L Fw (N & products & r & D & I & S & _). apply N. clear N. destruct c as [|f [|g rst]]; cbn [List.length] in L; try lia. set (c := f :: g :: rst) in *.
    cbn [decompose_product c] in D. apply bind_ok in D as (l & E & D). injection D as <-. destruct M as [Mm Ms Mc Mt Mf Mk].
    apply Forall_cons_iff in Ms as [Hf Ms]. apply Forall_cons_iff in Mm as [Wf Mm].
    destruct (decompose_levels ip rst f g l r E I Ms) as (steps & Sn & Lv & _).
    assert (T : triality r mod 3 = (triality f + total_label triality (map snd steps)) mod 3).
    { apply (levels_triality f steps r Lv (made_labelled f Wf)); rewrite ?Sn; [exact Mm|exact Mf|].
      unfold c, all_colours, total_label in *. cbn [map list_sum fold_right] in *. lia. }
    replace (triality r) with 0 in T by (unfold triality, colour_label; rewrite S; reflexivity). rewrite Sn in T.
    assert (G : triality f + total_label triality (g :: rst) = all_colours true c + 2 * all_colours false c).
    { change (triality f + total_label triality (g :: rst)) with (total_label triality c). clear. unfold all_colours, total_label. induction c as [|h c IH]; [reflexivity|].
      cbn [map list_sum fold_right] in *. unfold triality at 1. unfold list_sum in *. lia. }
    rewrite G in T. assert (B : all_colours true c + all_colours false c <= 4).
    { assert (B' : all_colours true c + all_colours false c <= List.length c); [|unfold c in *; cbn [List.length] in *; lia].
      clear - Fw. unfold all_colours, total_label. induction Fw as [|h c H F IH]; [cbn; lia|]. unfold few_colours in H. cbn [map list_sum fold_right List.length]. unfold list_sum in *. lia. }
    revert T B. generalize (all_colours true c), (all_colours false c). clear. intros n m T B. unfold colour_matches.
    destruct n as [|[|[|[|[|n]]]]], m as [|[|[|[|[|m]]]]]; try lia; cbn in T; try discriminate T; auto.
  Qed.
End Triality.

(** With triplets, antitriplets and singlets of colour only, terms are always returned. *)
Theorem C95_triplets :
  forall irrep_product same zero sm exotics st, selection_rule irrep_product -> triality_rule irrep_product ->
    Forall plain_field (sm ++ exotics) -> charged_alike (sm ++ exotics) -> Forall few_colours (sm ++ exotics) ->
    exists out st', generate_uv_terms irrep_product same zero sm exotics (mkC [] st) = (Ok out, mkC [] st').
Proof.
  intros ip same zero sm exotics st Rule Tri P A Fw. destruct (C95_uv_terms ip same zero sm exotics st Rule P A) as (conjs & exc & Ec & _ & _ & H).
  destruct (conjs_plain _ P) as (cs & E & Pc & Sk). rewrite Ec in E. injection E as <-.
  assert (Fc : Forall few_colours conjs).
  { clear - P Ec Fw. revert conjs Ec. induction P as [|f fs Pf P IH]; intros conjs Ec; cbn [mapM] in Ec; [injection Ec as <-; constructor|].
    apply bind_ok in Ec as (g & Eg & Ec). apply bind_ok in Ec as (gs & Egs & Ec). injection Ec as <-. apply Forall_cons_iff in Fw as [Ff Fw]. constructor; [|now apply IH].
    destruct Pf as [(a & b & c & d & e & Hf & _) _ _ _]. pose proof (conj_ok_field _ _ _ _ _ _ _ Hf Eg) as Hg. destruct Hf as (E1 & B1 & _), Hg as (E2 & B2 & _). unfold few_colours in *.
    rewrite (colour_label_five f _ _ _ _ _ true E1 B1), (colour_label_five f _ _ _ _ _ false E1 B1) in Ff. rewrite (colour_label_five g _ _ _ _ _ true E2 B2), (colour_label_five g _ _ _ _ _ false E2 B2). lia. }
  destruct H as (_ & _ & _ & out & st' & _ & _ & _ & _ & R); [|eauto]. apply Forall_forall. intros c I.
  assert (Ic : (List.length c = 3 \/ List.length c = 4) /\ incl c ((sm ++ exotics) ++ conjs)). { apply in_app_or in I as [I|I]; apply combos_in in I as [L Hi]; auto. }
  destruct Ic as [L Hi]. apply no_clash; auto; [apply (multiplied_combo ((sm ++ exotics) ++ conjs)); auto; [now apply Forall_app|now apply stock_alike|lia]|lia|].
  apply Forall_forall. intros f If. assert (Fa : Forall few_colours ((sm ++ exotics) ++ conjs)) by (now apply Forall_app). rewrite Forall_forall in Fa. apply Fa, Hi, If.
Qed.

(** "Every term is invariant" is false: whenever three triplets or three antitriplets couple to an exotic field, a term with
    free colour indices is returned as well, provided that equivalent terms have the same fields and free colour indices. *)
Theorem C95_invariant_refuted :
  forall irrep_product same sm exotics st out s' conjs exc,
    selection_rule irrep_product -> Forall plain_field (sm ++ exotics) -> charged_alike (sm ++ exotics) ->
    mapM conj_field (sm ++ exotics) = Ok conjs -> mapM conj_field exotics = Ok exc ->
    (forall x y cx cy, same x y = true -> made_of cx x -> made_of cy y -> Permutation cx cy) ->
    (forall x y, same x y = true -> (exists i, is_free y i /\ ix_type i = Colour) -> exists i, is_free x i /\ ix_type i = Colour) ->
    generate_uv_terms irrep_product same (fun _ => false) sm exotics (mkC [] st) = (Ok out, s') ->
    forall c products r, In c (combos_with 3 field ((sm ++ exotics) ++ conjs) ++ combos_with 4 field ((sm ++ exotics) ++ conjs)) ->
      twice_dimension c <= 8 -> SpecLagrangian.exotic_in exotics exc c ->
      decompose_product irrep_product c = Ok (inr products) -> In r products -> neutral r ->
      (all_colours true c, all_colours false c) = (3, 0) \/ (all_colours true c, all_colours false c) = (0, 3) ->
      exists t c' i, In t out /\ made_of c' t /\ Permutation c' c /\ is_free t i /\ ix_type i = Colour.
Proof.
  intros ip same sm exotics st out s' conjs exc Rule P A Ec Ee Hs Hc E c products r Ic Lt X D Ir N Co.
  destruct (uv_result ip same (fun _ => false) sm exotics st out s' conjs exc Rule P A Ec Ee E) as (termss & kept & distinct & F & S1 & R & S2 & _).
  destruct (Forall2_left _ _ _ _ F Ic) as (ts & Its & T).
  assert (Ex : exists t i, In t ts /\ made_of c t /\ is_free t i /\ ix_type i = Colour).
  { pose proof T as (products' & singlets & opss & rss & D' & S & F' & Et & Fc). rewrite D in D'. injection D' as <-.
    assert (Is : In r singlets) by (now apply (selected_incl _ _ _ r S)). destruct (Forall2_left _ _ _ _ F' Is) as (ops & Io & Ne & Ro). destruct ops as [|op ops]; [now destruct Ne|].
    apply Forall_inv in Ro. destruct Ro as (_ & _ & _ & M & _ & Nc). assert (Iop : In op (concat opss)) by (apply in_concat; exists (op :: ops); split; [exact Io|now left]).
    destruct (Forall2_left _ _ _ _ Fc Iop) as (rs & Irs & C).
    assert (Hop : In op rs /\ exists i, is_free op i /\ ix_type i = Colour).
    { unfold all_colours in *. destruct Co as [Co|Co]; injection Co as Cu Cd.
      - rewrite Cu, Cd in C. destruct C as [(X1 & _)|[(_ & _ & x & -> & _)|(X1 & _)]]; try discriminate X1. split; [right; now left|].
        destruct (Nc true) as (l & (_ & Hl) & Ll). rewrite Cu in Ll. destruct l as [|i l]; [discriminate Ll|]. exists i. destruct (proj1 (Hl i) (or_introl eq_refl)) as (Fi & Ti & _). auto.
      - rewrite Cu, Cd in C. destruct C as [(X1 & _)|[(X1 & _)|(_ & _ & x & -> & _)]]; try discriminate X1. split; [right; now left|].
        destruct (Nc false) as (l & (_ & Hl) & Ll). rewrite Cd in Ll. destruct l as [|i l]; [discriminate Ll|]. exists i. destruct (proj1 (Hl i) (or_introl eq_refl)) as (Fi & Ti & _). auto. }
    destruct Hop as [Irr (i & Fi & Ti)]. exists op, i. split; [rewrite Et; apply in_concat; eauto|]. split; [exact M|auto]. }
  destruct Ex as (t & i & It & M & Fi & Ti).
  assert (Ik : In t kept). { apply (selected_incl _ _ _ t S1). split; [apply in_concat; eauto|]. now exists c. }
  destruct (kept_or_equivalent same kept distinct t R Ik) as (t' & It' & Ik' & [-> | Es]).
  - exists t, c, i. split; [|auto]. apply (selected_incl _ _ _ t S2). split; [exact It'|]. split; [reflexivity|]. now exists c.
  - apply (selected_incl _ _ _ t' S1) in Ik' as (_ & c' & Ic' & M' & _). pose proof (Hs t' t c' c Es M' M) as Pm. destruct (Hc t' t Es) as (j & Fj & Tj); [now exists i|].
    exists t', c', j. split; [|auto]. apply (selected_incl _ _ _ t' S2). split; [exact It'|]. split; [reflexivity|]. exists c'. split; [exact Ic'|]. split; [exact M'|].
    destruct X as (f & k & If & Ikk & B). exists f, k. split; [|auto]. exact (Permutation_in f (Permutation_sym Pm) If).
Qed.

Print Assumptions C95_npoint.
Print Assumptions C95_uv_terms.
Print Assumptions C95_sound.
Print Assumptions C95_complete.
Print Assumptions C95_triplets.
Print Assumptions C95_invariant_refuted.
