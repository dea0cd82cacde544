(** * PropsGenerate2: C95 for the Standard Model with exotic fields *)

From Coq Require Import Ascii String List Bool Arith ZArith QArith Qcanon Lia Permutation Sorted.
From Verif Require Import Base BaseFacts Show ModelFunctions ModelIndex SpecIndex ProofsIndex ModelField SpecField ProofsField ProofsField2 PropsField2
  ModelContract SpecContract ProofsContract PropsContract3 PropsContract4 ModelPartition ModelExotic ModelLagrangian
  ModelInvariants SpecInvariants PropsInvariants ModelGenerate SpecGenerate PropsGenerate.
From Verif Require Spec SpecLagrangian PropsLagrangian PropsLagrangian6.
Import ListNotations.
Local Open Scope nat_scope.

(** ** Products as SU(3) has them, for the irreps that occur *)

Definition su3_table (x y : nat * nat) : list (nat * nat) :=
  match x, y with
  | (0, 0), _ => [y]
  | _, (0, 0) => [x]
  | (1, 0), (1, 0) => [(2, 0); (0, 1)]
  | (0, 1), (0, 1) => [(0, 2); (1, 0)]
  | (1, 0), (0, 1) | (0, 1), (1, 0) => [(1, 1); (0, 0)]
  | (2, 0), (1, 0) | (1, 0), (2, 0) => [(3, 0); (1, 1)]
  | (0, 2), (0, 1) | (0, 1), (0, 2) => [(0, 3); (1, 1)]
  | (2, 0), (0, 1) | (0, 1), (2, 0) => [(2, 1); (1, 0)]
  | (0, 2), (1, 0) | (1, 0), (0, 2) => [(1, 2); (0, 1)]
  | (1, 1), (1, 0) | (1, 0), (1, 1) => [(2, 1); (0, 2); (1, 0)]
  | (1, 1), (0, 1) | (0, 1), (1, 1) => [(1, 2); (2, 0); (0, 1)]
  | (1, 1), (1, 1) => [(2, 2); (3, 0); (0, 3); (1, 1); (1, 1); (0, 0)]
  | _, _ => []
  end.

Definition product_by (su3 : nat * nat -> nat * nat -> list (nat * nat)) (x y : str) : list (list nat * nat) :=
  match digits_of x, digits_of y with
  | [a; b; c; d; e], [a'; b'; c'; d'; e'] =>
    flat_map (fun p => flat_map (fun q => flat_map (fun rs => map (fun t => ([p; q; fst rs; snd rs; t], 1)) (spins e e'))
      (su3 (c, d) (c', d'))) (spins b b')) (spins a a')
  | _, _ => []
  end.

Definition table_product := product_by su3_table.

Lemma table_bound x y z : In z (su3_table x y) -> fst z + snd z <= fst x + snd x + (fst y + snd y) /\
  (fst z + 2 * snd z) mod 3 = (fst x + 2 * snd x + (fst y + 2 * snd y)) mod 3.
Proof.
  destruct x as [[|[|[|x1]]] [|[|[|x2]]]], y as [[|[|[|y1]]] [|[|[|y2]]]]; cbn [su3_table In fst snd]; intros H;
    repeat (destruct H as [<-|H]; [cbn [fst snd]; split; [lia|]; first [reflexivity|f_equal; lia]|]); try contradiction.
Qed.

Lemma table_in a b c d e a' b' c' d' e' w m : a < 10 /\ b < 10 /\ c < 10 /\ d < 10 /\ e < 10 -> a' < 10 /\ b' < 10 /\ c' < 10 /\ d' < 10 /\ e' < 10 ->
  In (w, m) (table_product (five a b c d e) (five a' b' c' d' e')) ->
  exists p q r s t, w = [p; q; r; s; t] /\ In p (spins a a') /\ In q (spins b b') /\ In (r, s) (su3_table (c, d) (c', d')) /\ In t (spins e e').
Proof.
  intros B B' I. unfold table_product, product_by, digits_of in I. rewrite !digits_five in I by assumption.
  apply in_flat_map in I as (p & Ip & I). apply in_flat_map in I as (q & Iq & I). apply in_flat_map in I as ([r s] & Irs & I). apply in_map_iff in I as (t & E & It).
  injection E as <- <-. exists p, q, r, s, t. auto.
Qed.

Example table_rules : selection_rule table_product /\ triality_rule table_product.
Proof.
  split.
  - intros a b c d e a' b' c' d' e' B B' w m I. destruct (table_in _ _ _ _ _ _ _ _ _ _ _ _ B B' I) as (p & q & r & s & t & -> & I1 & I2 & I3 & I4).
    exists p, q, r, s, t. split; [reflexivity|]. split; [exact (spins_triangle _ _ _ I1)|]. split; [exact (spins_triangle _ _ _ I2)|]. split; [exact (proj1 (table_bound _ _ _ I3))|exact (spins_triangle _ _ _ I4)].
  - intros a b c d e a' b' c' d' e' B B' p q r s t m I. destruct (table_in _ _ _ _ _ _ _ _ _ _ _ _ B B' I) as (p' & q' & r' & s' & t' & E & I1 & I2 & I3 & I4).
    injection E as <- <- <- <- <-. exact (proj2 (table_bound _ _ _ I3)).
Qed.

(** ** The Standard Model with a diquark, with a coloured fermion *)

Definition diquark : field := sm_field (lit "T") (lit "00100") (lit "T") (-1 # 3) (-2) (lit "bose") [[1]] 1.
Definition octet : field := sm_field (lit "O") (lit "10110") (lit "O") 0 0 (lit "fermi") [[1]; [1]; [1]] 1.

Lemma sm_charges_proper y b : proper (sm_charges y b).
Proof. do 3 eexists. split; [reflexivity|]. repeat constructor; cbn; intuition discriminate. Qed.

Lemma plain_example f a b c d e label tex y z comm sym nf : f = sm_field label (five a b c d e) tex y z comm sym nf -> (a + b <= 1 /\ c + d <= 2 /\ e <= 2) -> nf = 1 \/ nf = 3 ->
  rank sym = a + b + c + d + e -> (exists tx, to_tex label = Ok tx) -> plain_field f.
Proof.
  intros -> B N R T. constructor; cbn [sm_field f_history f_multiplicity f_label f_symmetry]; auto. exists a, b, c, d, e. split; [|split; [exact R|exact B]].
  split; [reflexivity|]. split; [lia|]. split; [apply sm_charges_proper|exact N].
Qed.

Lemma examples_plain : Forall plain_field (sm_matter ++ [diquark; octet]).
Proof.
  repeat apply Forall_cons; try apply Forall_nil;
  [eapply (plain_example _ 0 0 0 0 1)|eapply (plain_example _ 1 0 1 0 1)|eapply (plain_example _ 1 0 0 1 0)|eapply (plain_example _ 1 0 0 1 0)|eapply (plain_example _ 1 0 0 0 1)|eapply (plain_example _ 1 0 0 0 0)
   |eapply (plain_example _ 0 0 1 0 0)|eapply (plain_example _ 1 0 1 1 0)]; try reflexivity; try lia; try (now left); try (now right); eexists; vm_compute; reflexivity.
Qed.

Lemma sm_alike fs : Forall (fun f => exists y b, f_charges f = sm_charges y b) fs -> charged_alike fs.
Proof. intros F f g If Ig k. rewrite Forall_forall in F. destruct (F f If) as (y & b & ->), (F g Ig) as (y' & b' & ->). reflexivity. Qed.

Lemma examples_alike x : In x [diquark; octet] -> Forall plain_field (sm_matter ++ [x]) /\ charged_alike (sm_matter ++ [x]).
Proof.
  pose proof examples_plain as P. intros I. split.
  - apply Forall_app in P as [P1 P2]. apply Forall_app. split; [exact P1|]. constructor; [|constructor]. rewrite Forall_forall in P2. now apply P2.
  - apply sm_alike. apply Forall_app. split; [repeat constructor; eexists; eexists; reflexivity|]. constructor; [|constructor]. destruct I as [<-|[<-|[]]]; eexists; eexists; reflexivity.
Qed.

Definition all_of (exotics : list field) : list field := match mapM conj_field (sm_matter ++ exotics) with Ok c => (sm_matter ++ exotics) ++ c | Err _ => [] end.
Definition has_neutral (c : list field) : bool :=
  match decompose_product table_product c with
  | Ok (inr l) => existsb (fun r => str_eqb (f_dynkin r) (lit "00000") && (if Qc_eq_dec (charge_of r (lit "y")) (Q2Qc 0) then true else false)) l
  | _ => false
  end.
Definition matches (c : list field) : bool :=
  let n := all_colours true c in let m := all_colours false c in (n =? m) || (n =? 3) && (m =? 0) || (n =? 0) && (m =? 3).

Lemma has_neutral_ok c : has_neutral c = true <-> exists products r, decompose_product table_product c = Ok (inr products) /\ In r products /\ neutral r.
Proof.
  unfold has_neutral. destruct (decompose_product table_product c) as [[x|l]|e].
  - split; [discriminate|]. intros (p & r & E & _). discriminate.
  - rewrite existsb_exists. split.
    + intros (r & I & E). apply andb_true_iff in E as [E1 E2]. exists l, r. split; [reflexivity|]. split; [exact I|]. split; [now apply str_decides|].
      destruct (Qc_eq_dec (charge_of r (lit "y")) (Q2Qc 0)); [assumption|discriminate].
    + intros (p & r & E & I & N1 & N2). injection E as <-. exists r. split; [exact I|]. rewrite N1, N2. reflexivity.
  - split; [discriminate|]. intros (p & r & E & _). discriminate.
Qed.

Lemma matches_ok c : matches c = true <-> colour_matches (all_colours true c) (all_colours false c).
Proof.
  unfold matches, colour_matches. cbv zeta. rewrite !orb_true_iff, !andb_true_iff, !Nat.eqb_eq. tauto.
Qed.

Lemma clash_ok c : negb (matches c) && has_neutral c = true <-> clashes table_product c.
Proof.
  rewrite andb_true_iff, negb_true_iff, has_neutral_ok. unfold clashes. rewrite <- matches_ok. destruct (matches c); intuition congruence.
Qed.

(** with the diquark everything can be constructed: the terms include the coupling to two quark doublets *)
Example C95_example : forall same zero st,
  exists out st', generate_uv_terms table_product same zero sm_matter [diquark] (mkC [] st) = (Ok out, mkC [] st').
Proof.
  intros same zero st. destruct table_rules as [R T], (examples_alike diquark (or_introl eq_refl)) as [P A]. apply C95_triplets; try assumption.
  repeat constructor.
Qed.

(** of the coupling to two quark doublets there is a term with its colour indices not contracted *)
Example C95_invariant_example : forall st out s',
  generate_uv_terms table_product (fun _ _ => false) (fun _ => false) sm_matter [diquark] (mkC [] st) = (Ok out, s') ->
  exists t c i, In t out /\ made_of c t /\ Permutation c [sm_Q; sm_Q; diquark] /\ is_free t i /\ ix_type i = Colour.
Proof.
  intros st out s' E. destruct table_rules as [R _], (examples_alike diquark (or_introl eq_refl)) as [P A].
  assert (N : has_neutral [sm_Q; sm_Q; diquark] = true) by (vm_compute; reflexivity). apply has_neutral_ok in N as (products & r & D & Ir & N).
  destruct (conjs_plain _ P) as (conjs & Ec & _). assert (Ee : exists exc, mapM conj_field [diquark] = Ok exc) by (eexists; reflexivity). destruct Ee as (exc & Ee).
  apply (C95_invariant_refuted table_product (fun _ _ => false) sm_matter [diquark] st out s' conjs exc) with (products := products) (r := r); try assumption; try discriminate.
  - apply in_or_app. left. destruct (PropsLagrangian6.C49_combinations 3 field ((sm_matter ++ [diquark]) ++ conjs) diquark) as (X & H & _). rewrite X. apply in_map_iff. exists [1; 1; 6].
    split; [reflexivity|]. apply H. split; [reflexivity|]. split; [repeat constructor|]. repeat apply Forall_cons; try apply Forall_nil; cbn; lia.
  - cbv. lia.
  - exists diquark, diquark. split; [right; right; now left|]. split; [now left|]. vm_compute. reflexivity.
  - left. reflexivity.
Qed.

(** "Every Lagrangian can be completed" is false: with a colour-octet fermion of zero hypercharge the call is a ValueError.
    What cannot be constructed is a coupling of it to three antiquarks, which has dimension six and would have been dropped;
    no coupling of dimension up to four is concerned. *)
Theorem C95_octet_refuted :
  In [sm_ub; sm_db; sm_db; octet] (combos_with 4 field (all_of [octet])) /\ clashes table_product [sm_ub; sm_db; sm_db; octet] /\
  (forall c, In c (combos_with 3 field (all_of [octet]) ++ combos_with 4 field (all_of [octet])) -> twice_dimension c <= 8 -> ~ clashes table_product c) /\
  forall same zero st, exists st', generate_uv_terms table_product same zero sm_matter [octet] (mkC [] st) = (Err ValueError, mkC [] st').
Proof.
  assert (I : In [sm_ub; sm_db; sm_db; octet] (combos_with 4 field (all_of [octet]))).
  { destruct (PropsLagrangian6.C49_combinations 4 field (all_of [octet]) octet) as (E & H & _). rewrite E. apply in_map_iff. exists [2; 3; 3; 6]. split; [reflexivity|].
    apply H. split; [reflexivity|]. split; [|repeat constructor]; repeat constructor. }
  assert (C : clashes table_product [sm_ub; sm_db; sm_db; octet]) by (apply clash_ok; vm_compute; reflexivity).
  split; [exact I|]. split; [exact C|]. split.
  - assert (G : forallb (fun c => if twice_dimension c <=? 8 then if matches c then true else negb (has_neutral c) else true) (combos_with 3 field (all_of [octet]) ++ combos_with 4 field (all_of [octet])) = true)
      by (vm_compute; reflexivity).
    intros c Ic L X. rewrite forallb_forall in G. specialize (G c Ic). apply clash_ok, andb_true_iff in X as [X1 X2]. apply negb_true_iff in X1. rewrite X1, X2 in G. apply Nat.leb_le in L. rewrite L in G. discriminate G.
  - intros same zero st. destruct table_rules as [R _], (examples_alike octet (or_intror (or_introl eq_refl))) as [P A].
    destruct (C95_uv_terms table_product same zero sm_matter [octet] st R P A) as (conjs & exc & Ec & _ & H & _). apply H.
    apply Exists_exists. exists [sm_ub; sm_db; sm_db; octet]. split; [|exact C]. apply in_or_app. right. unfold all_of in I. rewrite Ec in I. exact I.
Qed.

(** ** After field strings were generated *)

Lemma charged_nothing ip f g rst st : selection_rule ip -> multiplied (f :: g :: rst) -> total (f :: g :: rst) (lit "y") <> Q2Qc 0 ->
  exists st', unsimplified_invariants ip (f :: g :: rst) (fun _ => false) (mkC [] st) = (Ok [], mkC [] st').
Proof.
  intros Rule M Y. destruct (combo_terms ip (f :: g :: rst) st Rule M) as [(terms & st' & E & T & _)|(st' & _ & X)]; [cbn; lia| |].
  - exists st'. destruct terms as [|t l]; [exact E|]. destruct Y. exact (proj1 (product_neutral ip (f :: g :: rst) _ t Rule M ltac:(cbn; lia) T (or_introl eq_refl))).
  - destruct X as (_ & products & r & D & I & N1 & N2). destruct Y. rewrite <- N2. destruct M as [Hm _ Hk Ht _ _].
    pose proof (Forall_inv Hm) as (a & b & c & d & e & (_ & _ & Pr & _) & _). destruct (Forall_inv Ht) as (tex & Etex).
    assert (K : Forall (same_keys f) (g :: rst)) by (apply Forall_forall; intros z Iz; apply Hk; [now left|now right]).
    destruct (C30_product ip f g rst tex Pr Etex K) as (l & El & Fl). rewrite D in El. injection El as <-. rewrite Forall_forall in Fl. symmetry. apply (Fl r I).
Qed.

Lemma terms_stop ip bad e post pre : (forall s, unsimplified_invariants ip bad (fun _ => false) s = (Err e, s)) ->
  Forall (fun c => forall st, exists st', unsimplified_invariants ip c (fun _ => false) (mkC [] st) = (Ok [], mkC [] st')) pre ->
  forall st, exists st', terms_of ip (pre ++ bad :: post) (fun _ => false) (mkC [] st) = (Err e, mkC [] st').
Proof.
  intros B F. induction F as [|c pre Hc F IH]; intros st; cbn [app terms_of].
  - rewrite B. eauto.
  - destruct (Hc st) as (st1 & ->). destruct (IH st1) as (st2 & E). cbn [app] in E. rewrite E. eauto.
Qed.

Lemma combos_head {A} (h q u d l e x : A) tl : exists post, combos_with 3 A (h :: q :: u :: d :: l :: e :: x :: tl) =
  map (fun y => [h; h; y]) [h; q; u; d; l; e] ++ [h; h; x] :: post.
Proof. eexists. cbn. reflexivity. Qed.

Lemma different_keys ip f x : proper (f_charges f) -> (exists tex, to_tex (f_label f) = Ok tex) -> ~ same_keys f x -> ip (f_dynkin f) (f_dynkin f) <> [] ->
  forall s, unsimplified_invariants ip [f; f; x] (fun _ => false) s = (Err AssertionError, s).
Proof.
  intros Pr (tex & Ht) N Ne s. unfold unsimplified_invariants. cbn [decompose_product decompose].
  destruct (mul_field_ok ip f f tex Pr (fun k => iff_refl _) Ht) as (t & Em & _). rewrite Em. cbn [bind].
  destruct (ip (f_dynkin f) (f_dynkin f)) as [|w l]; [now destruct Ne|]. cbn [map mapM].
  assert (E : mul_field ip (product_field f f w t) x = Err AssertionError).
  { unfold mul_field. match goal with |- context [assert_ ?b] => destruct b eqn:B end; [|reflexivity].
    exfalso. apply N. apply andb_true_iff in B as [B1 B2]. rewrite forallb_forall in B1, B2. cbn [product_field f_charges] in B1, B2. rewrite keys_sum in B1, B2. intros k.
    split; intros I; apply (mem_by_In str_decides); auto. }
  rewrite E. reflexivity.
Qed.

Definition leptonic : list field := with_lepton_number sm_matter.

Lemma leptonic_plain : Forall plain_field leptonic /\ charged_alike leptonic.
Proof.
  assert (Pr : forall y b l, proper (dset str_eqb (sm_charges y b) (lit "l") l)) by (intros y b l; do 3 eexists; split; [reflexivity|]; repeat constructor; cbn; intuition discriminate).
  assert (Pl : forall f a b c d e label tex y z comm sym nf l, f = set_charge (lit "l") l (sm_field label (five a b c d e) tex y z comm sym nf) -> (a + b <= 1 /\ c + d <= 2 /\ e <= 2) -> nf = 1 \/ nf = 3 ->
            rank sym = a + b + c + d + e -> (exists tx, to_tex label = Ok tx) -> plain_field f).
  { intros f a b c d e label tex y z comm sym nf l -> B N R T. constructor; cbn [set_charge sm_field f_history f_multiplicity f_label f_symmetry]; auto.
    exists a, b, c, d, e. split; [|split; [exact R|exact B]]. split; [reflexivity|]. split; [lia|]. split; [apply Pr|exact N]. }
  split.
  - unfold leptonic, with_lepton_number, sm_matter. cbn [combine map fst snd]. repeat apply Forall_cons; try apply Forall_nil;
    [eapply (Pl _ 0 0 0 0 1)|eapply (Pl _ 1 0 1 0 1)|eapply (Pl _ 1 0 0 1 0)|eapply (Pl _ 1 0 0 1 0)|eapply (Pl _ 1 0 0 0 1)|eapply (Pl _ 1 0 0 0 0)];
    try reflexivity; try lia; try (now left); try (now right); eexists; vm_compute; reflexivity.
  - assert (K : Forall (fun f => keys (f_charges f) = [lit "y"; lit "3b"; lit "l"]) leptonic) by (repeat constructor).
    intros f g If Ig k. rewrite Forall_forall in K. rewrite (K f If), (K g Ig). reflexivity.
Qed.

(** "The same Lagrangian has the same terms" is false: once [npoint_fieldstrings] was called, whatever its arguments, every call
    with an exotic field without the charge "l" is an AssertionError. *)
Theorem C95_state_refuted :
  forall irrep_product n pick derivs func same zero x rest st, selection_rule irrep_product -> irrep_product (lit "00001") (lit "00001") <> [] ->
    ~ In (lit "l") (keys (f_charges x)) -> Forall plain_field (x :: rest) ->
    let sm := snd (npoint_fieldstrings irrep_product n pick derivs func sm_matter) in
    exists st', generate_uv_terms irrep_product same zero sm (x :: rest) (mkC [] st) = (Err AssertionError, mkC [] st').
Proof.
  intros ip n pick derivs func same zero x rest st Rule Ne Nl P sm. subst sm. unfold npoint_fieldstrings. cbv zeta. cbn [snd]. change (with_lepton_number sm_matter) with leptonic.
  destruct leptonic_plain as [Pl Al].
  assert (Pall : Forall plain_field (leptonic ++ x :: rest)) by (apply Forall_app; now split).
  destruct (conjs_plain _ Pall) as (cs & Ec & _). unfold generate_uv_terms. cbv zeta. unfold npoint_terms at 1. rewrite Ec.
  assert (Sm : exists h q u d l e, leptonic = [h; q; u; d; l; e] /\ f_dynkin h = lit "00001" /\ In (lit "l") (keys (f_charges h)) /\
             Forall (fun y => total [h; h; y] (lit "y") <> Q2Qc 0) leptonic).
  { do 6 eexists. split; [reflexivity|]. split; [reflexivity|]. split; [right; right; now left|]. repeat apply Forall_cons; try apply Forall_nil; intros E; apply (f_equal this) in E; vm_compute in E; discriminate E. }
  destruct Sm as (h & q & u & d & l & e & Sm & Dh & Lh & Y). pose proof Pl as Pl'. rewrite Sm in Pl' at 1. apply Forall_inv in Pl'.
  assert (Ih : In h leptonic) by (rewrite Sm; now left).
  destruct (combos_head h q u d l e x (rest ++ cs)) as (post & Hp).
  assert (Eq : (leptonic ++ x :: rest) ++ cs = h :: q :: u :: d :: l :: e :: x :: rest ++ cs) by (rewrite Sm; reflexivity). rewrite Eq, Hp, <- Sm.
  edestruct (terms_stop ip [h; h; x] AssertionError post (map (fun y => [h; h; y]) leptonic)) as (st' & E).
  - apply different_keys.
    + destruct Pl' as [(a & b & c & dd & ee & (_ & _ & Pr & _) & _) _ _ _]. exact Pr.
    + now destruct Pl'.
    + intros K. apply Nl. now apply K.
    + now rewrite Dh.
  - apply Forall_forall. intros c Ic st0. apply in_map_iff in Ic as (y & <- & Iy). apply charged_nothing; [exact Rule| |].
    + apply (multiplied_combo leptonic); [exact Pl|exact Al| |cbn; lia]. intros z [<-|[<-|[<-|[]]]]; assumption.
    + rewrite Forall_forall in Y. now apply Y.
  - rewrite E. eauto.
Qed.

(** before: the diquark's couplings are found (C95_example) *)
Example C95_state_example : forall same zero st,
  exists st', generate_uv_terms table_product same zero (snd (npoint_fieldstrings table_product 5 (fun sm => sm) false None sm_matter)) [diquark] (mkC [] st) = (Err AssertionError, mkC [] st').
Proof.
  intros same zero st. apply C95_state_refuted; [exact (proj1 table_rules)|vm_compute; discriminate| |].
  - intros I. cbn in I. intuition discriminate.
  - pose proof examples_plain as P. apply Forall_app in P as [_ P]. constructor; [now apply Forall_inv in P|constructor].
Qed.

(** ** The whole Lagrangian *)

(** What [generate_full] returns has the same exotic fields, the terms found and the mass terms, whatever terms the
    Lagrangian had; [terms] of it has the mass terms twice.  Doing it again changes nothing. *)
Theorem C95_full :
  forall irrep_product same zero sm fields interactions exotics terms masses s s',
    mapM (fun x => field_of (cf_if x)) fields = Ok exotics -> mapM mass_term fields = Ok masses ->
    generate_uv_terms irrep_product same zero sm exotics s = (Ok terms, s') ->
    exists l, generate_full irrep_product same zero sm (mkLagrangian fields interactions) s = (Ok l, s') /\
      l_fields l = fields /\ l_interactions l = map plain terms ++ masses /\ lag_terms l = Ok ((map plain terms ++ masses) ++ masses) /\
      generate_full irrep_product same zero sm l s = (Ok l, s').
Proof.
  intros ip same zero sm fields its exotics terms masses s s' Ef Em Eg. exists (mkLagrangian fields (map plain terms ++ masses)).
  assert (G : forall i, generate_full ip same zero sm (mkLagrangian fields i) s = (Ok (mkLagrangian fields (map plain terms ++ masses)), s')).
  { intros i. unfold generate_full. cbn [l_fields]. rewrite Ef, Eg, Em. reflexivity. }
  split; [apply G|]. split; [reflexivity|]. split; [reflexivity|]. split; [|apply G].
  unfold lag_terms. cbn [l_fields l_interactions]. rewrite Em. reflexivity.
Qed.

(** Errors: those of the terms, and that of a field which is none of the exotic kinds, after the terms. *)
Theorem C95_full_errors :
  forall irrep_product same zero sm fields interactions exotics s e s',
    mapM (fun x => field_of (cf_if x)) fields = Ok exotics ->
    (generate_uv_terms irrep_product same zero sm exotics s = (Err e, s') -> generate_full irrep_product same zero sm (mkLagrangian fields interactions) s = (Err e, s')) /\
    (forall terms, generate_uv_terms irrep_product same zero sm exotics s = (Ok terms, s') -> mapM mass_term fields = Err e ->
       generate_full irrep_product same zero sm (mkLagrangian fields interactions) s = (Err e, s')).
Proof.
  intros ip same zero sm fields its exotics s e s' Ef. unfold generate_full. cbn [l_fields]. rewrite Ef. split.
  - intros ->. reflexivity.
  - intros terms -> ->. reflexivity.
Qed.

Print Assumptions C95_octet_refuted.
Print Assumptions C95_state_refuted.
Print Assumptions C95_full.
Print Assumptions C95_full_errors.
