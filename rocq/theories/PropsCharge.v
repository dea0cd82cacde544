(** * PropsCharge: C112, every completion of an operator breaks the charges the operator breaks *)

From Coq Require Import Ascii String List Bool Arith NArith ZArith QArith Qcanon Lia Permutation.
From Verif Require Import Base BaseFacts Show ModelFunctions ProofsFunctions ModelIndex SpecIndex ProofsIndex PropsIndex ModelField SpecField
  ProofsField ProofsField2 PropsField PropsField2 ModelContract SpecContract ProofsContract PropsContract PropsContract3 ModelPartition SpecPartition
  PropsPartition PropsPartition3 DataTopology PropsTopology ModelExotic SpecExotic ProofsExotic PropsExotic ProofsExotic2 PropsExotic2 PropsExotic3 SpecTerms PropsTerms SpecCompletion PropsCompletion SpecCuts ProofsCuts
  ModelInfo ModelOperators SpecOperators ProofsOperators PropsOperators PropsOperators2 PropsCuts SpecCharge.
From Verif Require Spec.
Import ListNotations.
Local Open Scope nat_scope.

(** ** labels *)

Definition conj_of (x : cfield) : bool := f_is_conj (i_field (cf_if x)).

Lemma mk_label a x : mk_ifield a = Ok x -> f_label (i_field x) = a_label a /\ f_is_conj (i_field x) = a_is_conj a.
Proof.
  unfold mk_ifield. destruct (arg_indices _) as [l|]; [|discriminate]. cbn [bind]. destruct (assert_ _); [|discriminate]. cbn [bind].
  destruct (get_dynkin l); [|discriminate]. cbn [bind]. destruct (mk_field _ _ _ _ _ _ _ _ _ _ _) as [f|] eqn:E; [|discriminate]. cbn [bind]. intros [= <-]. cbn [i_field].
  unfold mk_field in E. destruct (match a_symmetry a with Some s => _ | None => _ end); [|discriminate E]. cbn [bind] in E.
  destruct (match a_latex a with Some s => _ | None => _ end); [|discriminate E]. cbn [bind] in E. destruct (_ && _); [discriminate E|]. injection E as <-. auto.
Qed.

Lemma typed_label k label ind ch lx cj sym x : mk_typed k label ind ch lx cj sym = Ok x -> cf_class x = k /\ label_of x = label /\ conj_of x = cj /\ derivs x = 0.
Proof.
  intros E. split; [eapply typed_class; exact E|]. pose proof (typed_derivs _ _ _ _ _ _ _ _ E) as D. revert E.
  unfold mk_typed. cbv zeta. destruct (arg_indices _) as [l|]; [|discriminate]. cbn [bind]. destruct (match sym with Some s => _ | None => _ end); [|discriminate]. cbn [bind].
  destruct (mk_ifield _) as [y|] eqn:E; [|discriminate]. apply mk_label in E. cbn [a_label a_is_conj] in E. cbn [bind].
  match goal with |- bind ?a _ = _ -> _ => destruct a; [|discriminate] end. cbn [bind]. intros [= <-]. unfold label_of, conj_of. cbn [cf_if]. destruct E as [E1 E2]. destruct ind; cbn [i_field]; auto.
Qed.

Lemma cons_label x u y : cons_completion_field x u = Ok y ->
  label_of y = f_label (i_field x) /\ derivs y = 0 /\ cf_class y <> Plain /\ (cf_class y = ComplexScalar -> conj_of y = f_is_conj (i_field x)) /\
  (u = None -> cf_class y <> DiracFermion false).
Proof.
  unfold cons_completion_field. destruct (is_fermion _) as [[]|]; [| |discriminate]; cbn [bind].
  - destruct (is_real_sm_irrep _) as [[]|]; [| |discriminate]; cbn [bind]; intros E; apply typed_label in E as (-> & -> & -> & ->); repeat split; try discriminate; auto.
    intros ->. discriminate.
  - destruct (is_scalar _) as [[]|]; [|discriminate|discriminate]. cbn [bind]. destruct (is_real_sm_irrep _) as [[]|]; [| |discriminate]; cbn [bind]; intros E; apply typed_label in E as (-> & -> & -> & ->); repeat split; try discriminate; auto.
Qed.

Lemma lower_one_label acc i r : lower_one acc i = Ok r -> f_label (i_field (fst r)) = f_label (i_field (fst acc)).
Proof.
  unfold lower_one. cbv zeta. destruct (new_index _); [|discriminate]. cbn [bind]. destruct (substituted_indices _ _) as [p|] eqn:E; [|discriminate]. cbn [bind]. destruct (eps _); [|discriminate]. cbn [bind].
  intros [= <-]. cbn [fst]. unfold substituted_indices in E. cbv zeta in E. apply mk_label in E as [E _]. exact E.
Qed.

Lemma lower_label x sk y es : lower_su2 x sk = Ok (y, es) -> label_of y = label_of x /\ derivs y = 0.
Proof.
  intros E. split; [|eapply lower_derivs; exact E]. revert E. unfold lower_su2.
  assert (G : forall l acc r, foldM lower_one l acc = Ok r -> f_label (i_field (fst r)) = f_label (i_field (fst acc))).
  { induction l as [|i l IH]; intros acc r E; cbn [foldM] in E; [injection E as <-; reflexivity|]. apply bind_ok in E as (a & Ea & E). rewrite (IH _ _ E). now apply lower_one_label in Ea. }
  destruct (cf_class x); try discriminate;
    (match goal with |- context [foldM lower_one ?l ?a] => destruct (foldM lower_one l a) as [r|] eqn:F; [|discriminate] end; cbn [bind];
     destruct (cons_completion_field _ _) as [p|] eqn:E; [|discriminate]; apply cons_label in E as (E & _); cbn [bind]; intros [= <- _]; rewrite E; apply G in F; exact F).
Qed.

(** ** a vertex *)

Lemma c_reduce_fields l op : c_reduce l = Ok op -> Permutation (cfields op) (cfields l).
Proof.
  destruct l as [|t r]; [discriminate|]. intros E. rewrite c_reduce_ok in E by discriminate. injection E as <-.
  unfold cfields. apply Permutation_sym. apply Permutation_flat_map, cnormalise_perm.
Qed.

Lemma fold_c_mul_fields l op : Permutation (cfields (fold_left c_mul l op)) (cfields op ++ cfields l).
Proof.
  revert op. induction l as [|t l IH]; intros op; cbn [fold_left]; [unfold cfields at 3; cbn; now rewrite app_nil_r|]. rewrite IH. unfold c_mul.
  assert (P : Permutation (cfields (cnormalise (op ++ [t]))) (cfields (op ++ [t]))) by (unfold cfields; apply Permutation_sym, Permutation_flat_map, cnormalise_perm).
  rewrite P. unfold cfields. rewrite flat_map_app, <- app_assoc. cbn [flat_map]. rewrite app_nil_r. reflexivity.
Qed.

Lemma fields_and_symbols fs a : cfields (map KField fs ++ map KSym a) = fs.
Proof. unfold cfields. rewrite flat_map_app. rewrite <- (app_nil_r fs) at 2. f_equal; [induction fs; cbn; congruence|induction a; cbn; auto]. Qed.

Lemma partner_label x y : partner_of x = Ok y -> cf_class x <> Plain -> cf_class x <> DiracFermion false -> (cf_class x = ComplexScalar -> conj_of x = false) -> exchanged x y.
Proof.
  unfold partner_of, exchanged. destruct (cf_class x) as [| | |b|] eqn:C; intros E N1 N2 N3; try congruence.
  all: try (unfold swap_colour_indices in E; cbv zeta in E; apply bind_ok in E as (l & _ & E); apply typed_label in E as (_ & E & _); exact E).
  - unfold conj_typed in E. rewrite C in E. apply bind_ok in E as (s & _ & E). apply typed_label in E as (_ & E & _). rewrite E. unfold conj_label. specialize (N3 eq_refl). unfold conj_of in N3. rewrite N3. reflexivity.
  - unfold dirac_partner in E. cbv zeta in E. apply bind_ok in E as (l & _ & E). apply typed_label in E as (_ & E & _). rewrite E. destruct b; [reflexivity|congruence].
Qed.

Lemma exotic_inv vanishes op st x p term st' : exotic_field_and_term vanishes op st = Ok ((x, p, inr term), st') ->
  exchanged x p /\ derivs x = 0 /\ derivs p = 0 /\ Permutation (cfields term) (cfields op ++ [p]).
Proof.
  unfold exotic_field_and_term. cbv zeta. intros E.
  apply bind_ok in E as (ch & _ & E). apply bind_ok in E as (tk & _ & E). apply bind_ok in E as (dy & _ & E). apply bind_ok in E as (fs & _ & E). apply bind_ok in E as (s & _ & E).
  apply bind_ok in E as (ix & _ & E). apply bind_ok in E as (y & Ey & E). apply bind_ok in E as (x0 & Ex & E). apply bind_ok in E as (x1 & Ex1 & E). apply bind_ok in E as (q & Eq & E). apply bind_ok in E as ((p0, es) & Ep & E).
  cbn [fst snd] in E. apply bind_ok in E as (tfs & _ & E).
  assert (F : x1 = x /\ p0 = p /\ term = fold_left c_mul (KField p0 :: map KSym es) op).
  { destruct (_ && _); [discriminate E|]. apply bind_ok in E as (u & _ & E). injection E as -> -> <- _. auto. }
  destruct F as (-> & -> & ->). clear E.
  apply mk_label in Ey as (_ & Cy). cbn [a_is_conj] in Cy. apply cons_label in Ex as (_ & D0 & NP & CC & ND). rewrite Cy in CC.
  assert (X : derivs x = 0 /\ cf_class x <> Plain /\ cf_class x <> DiracFermion false /\ (cf_class x = ComplexScalar -> conj_of x = false)).
  { destruct (match join _ _ with [] => _ | _ => _ end).
    - unfold conj_indices in Ex1. destruct (cf_class x0) as [| | |b|] eqn:C0; try discriminate Ex1.
      + unfold conj_typed in Ex1. rewrite C0 in Ex1. apply bind_ok in Ex1 as (z & _ & Ex1). apply typed_label in Ex1 as (-> & _ & _ & ->). repeat split; discriminate.
      + apply bind_ok in Ex1 as (z & _ & Ex1). apply typed_label in Ex1 as (-> & _ & _ & ->). repeat split; try discriminate. now apply ND.
    - injection Ex1 as <-. auto. }
  destruct X as (X1 & X2 & X3 & X4). pose proof (partner_label x q Eq X2 X3 X4) as Ch. apply lower_label in Ep as (L & D).
  split; [unfold exchanged in *; now rewrite L|]. split; [exact X1|]. split; [exact D|].
  rewrite fold_c_mul_fields. apply Permutation_app_head. unfold cfields. cbn [flat_map app]. fold (cfields (map KSym es)). rewrite cfields_syms. reflexivity.
Qed.

Definition plainest (l : list cfield) : Prop := Forall (fun x => derivs x = 0) l.

Lemma plainest_zero l : plainest l -> list_sum (map cf_derivs l) = 0.
Proof. induction 1 as [|x l H _ IH]; [reflexivity|]. cbn [map list_sum fold_right]. unfold derivs in H. unfold cf_derivs at 1. rewrite H. exact IH. Qed.

Lemma contract_inv vanishes fs gauge st x term lor st' : plainest fs -> contract_vertex vanishes fs gauge st = Ok (inr (x, term, lor), st') ->
  exists p, exchanged x p /\ derivs x = 0 /\ Permutation (cfields term) (fs ++ [p]).
Proof.
  intros D E. unfold contract_vertex in E. apply bind_ok in E as ((r, s1) & Er & E). cbn [fst snd] in E. destruct r as [r|[[[x0 t0] sp] l0]]; [discriminate E|].
  apply bind_ok in E as (u & _ & E). injection E as -> -> -> ->. unfold contract in Er. destruct (negb _); [discriminate Er|].
  apply bind_ok in Er as (lo & _ & Er). destruct (negb (fst lo)); [discriminate Er|]. apply bind_ok in Er as (sep & _ & Er). apply bind_ok in Er as (op & Eo & Er).
  apply bind_ok in Er as ([[[x1 p] mt] s2] & Ex & Er). destruct mt as [reason|t1]; [discriminate Er|].
  apply exotic_inv in Ex as (Ch & Dx & Dp & P). apply bind_ok in Er as (u' & _ & Er).
  apply c_reduce_fields in Eo. rewrite <- map_app, fields_and_symbols in Eo. rewrite Eo in P.
  assert (Z : list_sum (map cf_derivs (cfields t1)) = 0). { apply plainest_zero. unfold plainest. rewrite P. apply Forall_app. split; [exact D|]. constructor; [exact Dp|constructor]. }
  rewrite Z in Er. cbn [Nat.eqb bind] in Er. apply bind_ok in Er as (u2 & _ & Er). injection Er as -> -> _ _ _. exists p. auto.
Qed.

Lemma last_inv vanishes row gauge term lor : plainest row -> last_vertex vanishes row gauge = Ok (inr (term, lor)) -> Permutation (cfields term) row.
Proof.
  intros D E. destruct row as [|a [|b row]]; try discriminate E. set (l := a :: b :: row) in *. unfold last_vertex in E. unfold l in E at 1. cbv iota beta in E.
  apply bind_ok in E as (prod & Ep & E). apply bind_ok in E as (lo & _ & E). destruct (negb (fst lo)); [discriminate E|]. apply bind_ok in E as (sep & _ & E). cbv zeta in E.
  apply c_reduce_fields in Ep. rewrite <- (app_nil_r (map KField _)) in Ep. change (@nil ctensor) with (map KSym []) in Ep. rewrite fields_and_symbols in Ep.
  assert (P : Permutation (cfields (fold_left c_mul (map KSym (snd lo) ++ map KSym (snd sep)) prod)) l).
  { rewrite fold_c_mul_fields, <- map_app, cfields_syms, app_nil_r. exact Ep. }
  set (big := fold_left c_mul _ prod) in *.
  assert (Z : list_sum (map cf_derivs (cfields big)) = 0) by (apply plainest_zero; unfold plainest; now rewrite P).
  rewrite Z in E. cbn [Nat.eqb bind] in E. apply bind_ok in E as (u & _ & E). injection E as <- _. exact P.
Qed.

(** ** the whole diagram *)

Notation both := (flat_map (fun xp : cfield * cfield => [fst xp; snd xp])).

Section Diagram.
  Variable vanishes : cop -> bool.
  Variable gauge : list symbol.
  Variable g : graph.

  Notation entry_term := (fun e : cfield * cop * (N * N) * list symbol => snd (fst (fst e))).
  Notation entry_field := (fun e : cfield * cop * (N * N) * list symbol => fst (fst (fst e))).

  (** fields in the terms and fields still to be coupled *)
  Definition balanced (leaves open : list cfield) (log : list (cfield * cop * (N * N) * list symbol)) : Prop :=
    plainest leaves -> plainest open /\
    exists pairs, Permutation (flat_map cfields (map entry_term log) ++ open) (leaves ++ both pairs) /\
      Forall (fun xp => exchanged (fst xp) (snd xp)) pairs /\ map fst pairs = map entry_field log.

  Lemma completed_balanced :
    (forall t cs f n log cs', SpecPartition.completed cfield cop symbol sstate (contract_vertex vanishes) gauge g t cs f n log cs' -> balanced (map fst (leaves_of t)) [f] log) /\
    (forall l cs fs ns log cs', SpecPartition.completed_all cfield cop symbol sstate (contract_vertex vanishes) gauge g l cs fs ns log cs' -> balanced (map fst (flat_map leaves_of l)) fs log).
  Proof.
    apply completed_both.
    - intros f n cs P. cbn in P |- *. split; [exact P|]. exists []. cbn. repeat split; auto.
    - intros t cs f n log cs' C IH. cbn [leaves_of flat_map]. rewrite app_nil_r. exact IH.
    - intros l cs fs ns log cs1 x term lor cs2 c o L C IH Ec J P. cbn [leaves_of] in P. destruct (IH P) as (O & pairs & Pm & Fo & K).
      apply contract_inv in Ec as (p & Ch & Dx & Pt); [|exact O]. split; [constructor; [exact Dx|constructor]|]. exists (pairs ++ [(x, p)]).
      rewrite !map_app, !flat_map_app. cbn [map flat_map fst snd app]. rewrite app_nil_r. split; [|split].
      + cbn [leaves_of]. rewrite Pt. rewrite app_assoc, Pm. rewrite <- !app_assoc. cbn [app]. do 2 apply Permutation_app_head. apply perm_swap.
      + apply Forall_app. split; [exact Fo|]. constructor; [exact Ch|constructor].
      + now rewrite K.
    - intros cs P. split; [constructor|]. exists []. cbn. repeat split; auto.
    - intros t l cs f n log cs1 fs ns logs cs2 C IH C' IH' P. cbn [flat_map] in P. rewrite map_app in P. unfold plainest in P. apply Forall_app in P as [P1 P2].
      destruct (IH P1) as (O1 & ps1 & Pm1 & F1 & K1). destruct (IH' P2) as (O2 & ps2 & Pm2 & F2 & K2). split; [unfold plainest in *; inversion O1; subst; now constructor|].
      exists (ps1 ++ ps2). cbn [flat_map]. rewrite !map_app, !flat_map_app. split; [|split; [now apply Forall_app|now rewrite K1, K2]].
      transitivity ((flat_map cfields (map entry_term log) ++ [f]) ++ (flat_map cfields (map entry_term logs) ++ fs)).
      + rewrite <- !app_assoc. apply Permutation_app_head. cbn [app]. change (f :: fs) with ([f] ++ fs). change (f :: flat_map cfields (map entry_term logs) ++ fs) with ([f] ++ flat_map cfields (map entry_term logs) ++ fs). rewrite !app_assoc. apply Permutation_app_tail, Permutation_app_comm.
      + rewrite Pm1, Pm2. rewrite <- !app_assoc. apply Permutation_app_head. rewrite !app_assoc. apply Permutation_app_tail, Permutation_app_comm.
  Qed.

  Lemma labelled_keys log d :
    (forall y, In y (map fst (labelled_edges cfield cop symbol cfield_eqb d log)) -> In y (map fst d) \/ In y (map entry_field log)) /\
    (forall y, In y (map fst d) -> In y (map fst (labelled_edges cfield cop symbol cfield_eqb d log))) /\
    (forall x, In x (map entry_field log) -> exists y, In y (map fst (labelled_edges cfield cop symbol cfield_eqb d log)) /\ (x = y \/ cfield_eqb x y = true)).
  Proof.
    revert d. induction log as [|e log IH]; intros d; [cbn; repeat split; auto; contradiction|].
    unfold labelled_edges. cbn [fold_left map]. fold (labelled_edges cfield cop symbol cfield_eqb (dset cfield_eqb d (entry_field e) (snd (fst e))) log).
    destruct (IH (dset cfield_eqb d (entry_field e) (snd (fst e)))) as (A & B & C). destruct (dset_keys d (entry_field e) (snd (fst e))) as (D1 & D2 & y & D3 & D4). split; [|split].
    - intros z Z. destruct (A z Z) as [Z'|Z']; [|right; now right]. destruct (D1 z Z') as [Z''| ->]; [now left|right; now left].
    - intros z Z. now apply B, D2.
    - intros x [<-|I]; [|now apply C]. exists y. split; [now apply B|exact D4].
  Qed.
End Diagram.

(** C112 (1): in the terms of a completion every field of the operator stands once, and every exotic field twice: as itself and
    as the conjugate or partner *)
Theorem C112_balance vanishes rows gauge g terms labelled lor st :
  completion vanishes (map (embed cfield) rows) gauge g = Ok (inr (terms, labelled, lor), st) ->
  (forall x, In x (map fst (flat_map leaves_of rows)) -> derivs x = 0) ->
  exists pairs, Permutation (flat_map cfields terms) (map fst (flat_map leaves_of rows) ++ both pairs) /\
    (forall x p, In (x, p) pairs -> exchanged x p) /\
    List.length terms = List.length pairs + 1 /\
    (forall y, In y (map fst labelled) -> exists p, In (y, p) pairs) /\
    (forall x p, In (x, p) pairs -> exists y, In y (map fst labelled) /\ (x = y \/ cfield_eqb x y = true)).
Proof.
  intros E D. unfold completion in E. apply C41_completion in E as (fs & ns & log & term & lor' & C & El & -> & -> & _).
  apply (proj2 (completed_balanced _ _ _)) in C. destruct (C (proj2 (Forall_forall _ _) D)) as (O & pairs & Pm & Fo & K). apply last_inv in El; [|exact O].
  exists pairs. split; [|split; [|split; [|split]]].
  - rewrite flat_map_app. cbn [flat_map]. rewrite app_nil_r, El. exact Pm.
  - intros x p I. exact (proj1 (Forall_forall _ _) Fo _ I).
  - rewrite app_length, !map_length. cbn [List.length]. f_equal. apply (f_equal (@List.length _)) in K. rewrite !map_length in K. congruence.
  - intros y I. apply (proj1 (labelled_keys log [])) in I as [[]|I]. rewrite <- K in I. apply in_map_iff in I as ((y', p) & <- & I). now exists p.
  - intros x p I. apply (proj2 (proj2 (labelled_keys log []))). rewrite <- K. apply in_map_iff. exists (x, p). auto.
Qed.

(** ** Charges *)

Lemma charge_perm q l m : Permutation l m -> charge q l = charge q m.
Proof. induction 1; cbn [charge]; [reflexivity|congruence|ring|congruence]. Qed.

Lemma charge_app q l m : charge q (l ++ m) = (charge q l + charge q m)%Qc.
Proof. induction l as [|x l IH]; cbn [charge app]; [change (Q2Qc 0) with 0%Qc; ring|rewrite IH; ring]. Qed.

Lemma charge_terms q terms : (forall t, In t terms -> charge q (cfields t) = Q2Qc 0) -> charge q (flat_map cfields terms) = Q2Qc 0.
Proof. intros H. induction terms as [|t l IH]; [reflexivity|]. cbn [flat_map]. rewrite charge_app, (H t (or_introl eq_refl)), IH; [apply Qc_is_canon; reflexivity|]. intros u U. apply H. now right. Qed.

Lemma charge_pairs q pairs : respects_masses q -> (forall x p, In (x, p) pairs -> exchanged x p) -> (forall x p, In (x, p) pairs -> real_class x -> q (label_of x) = Q2Qc 0) ->
  charge q (both pairs) = Q2Qc 0.
Proof.
  intros (Q1 & Q2) H R. induction pairs as [|[x p] l IH]; [reflexivity|]. cbn [flat_map app fst snd charge]. rewrite IH; [|intros; apply H; now right|intros; eapply R; [right; eassumption|assumption]].
  pose proof (H x p (or_introl eq_refl)) as E. pose proof (R x p (or_introl eq_refl)) as Z. unfold exchanged, real_class in *. change (Q2Qc 0) with 0%Qc in *.
  destruct (cf_class x); [| | | |contradiction]; rewrite E; [rewrite Q1|rewrite Z by auto|rewrite Z by auto|rewrite Q2]; ring.
Qed.

(** C112 (2): the charges of the terms add up to the charge of the operator, for every charge that the masses of the exotic
    fields conserve; if the terms conserve it then so does the operator *)
Theorem C112_charge vanishes rows gauge g terms labelled lor st q :
  completion vanishes (map (embed cfield) rows) gauge g = Ok (inr (terms, labelled, lor), st) ->
  (forall x, In x (map fst (flat_map leaves_of rows)) -> derivs x = 0) ->
  respects_masses q -> (forall x, In x (flat_map cfields terms) -> real_class x -> q (label_of x) = Q2Qc 0) ->
  charge q (flat_map cfields terms) = charge q (map fst (flat_map leaves_of rows)) /\
  ((forall t, In t terms -> charge q (cfields t) = Q2Qc 0) -> charge q (map fst (flat_map leaves_of rows)) = Q2Qc 0).
Proof.
  intros E D M R. destruct (C112_balance _ _ _ _ _ _ _ _ E D) as (pairs & Pm & Ch & _).
  assert (G : charge q (flat_map cfields terms) = charge q (map fst (flat_map leaves_of rows))).
  { rewrite (charge_perm _ _ _ Pm), charge_app, charge_pairs; auto; [change (Q2Qc 0) with 0%Qc; ring|]. intros x p I Rx. apply R; [|exact Rx]. apply (Permutation_in _ (Permutation_sym Pm)).
    apply in_app_iff. right. apply in_flat_map. exists (x, p). split; [exact I|now left]. }
  split; [exact G|]. intros H. rewrite <- G. now apply charge_terms.
Qed.

(** ** Lepton number of the shipped operators *)

Definition lepton_table : list (str * Z) := [(lit "L", 1%Z); (lit "eb", (-1)%Z); (lit "Q", 0%Z); (lit "ub", 0%Z); (lit "db", 0%Z); (lit "H", 0%Z)].
Definition lepton_labels : list (str * Z) := lepton_table ++ map (fun lz => (fst lz ++ [dagger], (- snd lz)%Z)) lepton_table.

Definition of_Z (z : Z) : Qc := Q2Qc (inject_Z z).

Lemma of_Z_add a b : of_Z (a + b) = (of_Z a + of_Z b)%Qc.
Proof. unfold of_Z. apply Qc_is_canon. cbn [this Q2Qc Qcplus]. rewrite !Qred_correct, inject_Z_plus. reflexivity. Qed.

Lemma lepton_labels_ok q : lepton_charge q -> respects_masses q -> forall l z, In (l, z) lepton_labels -> q l = of_Z z.
Proof.
  intros (H1 & H2 & H3 & H4 & H5 & H6) (M & _).
  assert (T : forall l z, In (l, z) lepton_table -> q l = of_Z z).
  { intros l z I. unfold lepton_table in I.
    destruct I as [I|[I|[I|[I|[I|[I|[]]]]]]]; apply pair_equal_spec in I as [<- <-]; [rewrite H1|rewrite H2|rewrite H3|rewrite H4|rewrite H5|rewrite H6]; apply Qc_is_canon; reflexivity. }
  intros l z I. unfold lepton_labels in I. apply in_app_iff in I as [I|I]; [now apply T|]. apply in_map_iff in I as ((l', z') & E & I). cbn [fst snd] in E. injection E as <- <-. rewrite M, (T _ _ I).
  unfold of_Z. apply Qc_is_canon. cbn [this Q2Qc Qcopp]. rewrite !Qred_correct, inject_Z_opp. reflexivity.
Qed.

Definition two_leptons (l : list cfield) : bool :=
  match fold_right (fun x acc => match dget str_eqb lepton_labels (label_of x), acc with Some z, Some s => Some (z + s)%Z | _, _ => None end) (Some 0%Z) l with
  | Some z => Z.eqb z 2 | None => false end.

Lemma two_leptons_ok q l : lepton_charge q -> respects_masses q -> two_leptons l = true -> charge q l = Q2Qc 2.
Proof.
  intros L M. unfold two_leptons. destruct (fold_right _ _ l) as [z|] eqn:F; [|discriminate]. intros E. apply Z.eqb_eq in E. subst z.
  change (Q2Qc 2) with (of_Z 2). revert F. generalize 2%Z. induction l as [|x l IH]; intros z F; cbn [fold_right charge] in *; [injection F as <-; apply Qc_is_canon; reflexivity|].
  destruct (dget _ _ _) as [a|] eqn:G; [|discriminate]. destruct (fold_right _ _ l) as [b|]; [|discriminate]. injection F as <-. rewrite (IH b eq_refl), of_Z_add. f_equal.
  apply lepton_labels_ok; auto. exact (dget_In str_decides _ _ G).
Qed.

Lemma shipped_two : match eff_operators with Ok ops => forallb (fun kop => two_leptons (plain_fields (snd kop)) && forallb (fun x => derivs x =? 0) (plain_fields (snd kop))) ops | Err _ => false end = true.
Proof. vm_compute. reflexivity. Qed.

(** C112 (3): all completions of all shipped operators violate lepton number: however it is assigned to the exotic fields so that
    their masses conserve it, it adds up to two over the terms, so it is not zero in all of them *)
Theorem C112_shipped : forall vanishes, exists ops, eff_operators = Ok ops /\
  forall k op, In (k, op) ops -> exists n, n <= 2 /\
    forall st, (n <> 2 \/ st Colour < 209 \/ forall i, In i (op_indices op) -> ix_name i <> fresh_name Colour (st Colour)) ->
      exists cs st', completions_of vanishes shipped op st = Ok (cs, st') /\
        forall c q, In c cs -> lepton_charge q -> respects_masses q ->
          (forall x, In x (flat_map cfields (cm_terms c)) -> real_class x -> q (label_of x) = Q2Qc 0) ->
          charge q (flat_map cfields (cm_terms c)) = Q2Qc 2 /\ exists t, In t (cm_terms c) /\ charge q (cfields t) <> Q2Qc 0.
Proof.
  intros vanishes. destruct (C107_shipped vanishes) as (ops & E & H). pose proof shipped_two as S. rewrite E in S. exists ops. split; [exact E|]. intros k op I.
  pose proof (proj1 (forallb_forall _ _) S _ I) as Si. cbn [snd] in Si. apply andb_true_iff in Si as [S1 S2].
  destruct (H k op I) as (n & Ln & Hn). exists n. split; [exact Ln|]. intros st Hs. destruct (Hn st Hs) as (nb & nf & tops & cops & cs & st' & _ & _ & Ec & Hc).
  exists cs, st'. split; [exact Ec|]. intros c q Ic L M R. destruct (Hc c Ic) as (t & rows & r & _ & _ & Ep & Mf & Pm & _).
  destruct Mf as (_ & _ & _ & rows' & labelled & lor & st2 & Ep' & Eq & _).
  assert (Rw : charge q (flat_map cfields (cm_terms c)) = Q2Qc 2).
  { rewrite <- spec_rows in Eq.
    assert (Pl : Permutation (map fst (flat_map leaves_of (map (tree_map as_plain) rows'))) (plain_fields op)).
    { assert (Lv : map fst (flat_map leaves_of (map (tree_map as_plain) rows')) = map (mkCF Plain) (map fst (flat_map leaves_of rows'))).
      { clear. induction rows' as [|u l IH]; [reflexivity|]. cbn [map flat_map]. rewrite !map_app, IH. f_equal. rewrite leaves_map, !map_map. reflexivity. }
      assert (Same : map fst (flat_map leaves_of rows') = map fst (flat_map leaves_of rows)).
      { rewrite Ep in Ep'. injection Ep' as Ep'. clear - Ep'. apply (f_equal (flat_map leaves_of)) in Ep'. rewrite !flat_map_concat_map, !map_map in Ep'.
        rewrite (map_ext (fun t => leaves_of (tree_map (fun x : ifield * N => (Placed (fst x), snd x)) t)) (fun t => map (fun x : ifield * N => (Placed (fst x), snd x)) (leaves_of t))) in Ep' by (intros; apply leaves_map).
        rewrite (map_ext (fun t => leaves_of (tree_map (fun x : ifield * N => (Placed (fst x), snd x)) t)) (fun t => map (fun x : ifield * N => (Placed (fst x), snd x)) (leaves_of t))) in Ep' by (intros; apply leaves_map).
        rewrite <- !(map_map leaves_of (map _)), <- !concat_map, <- !flat_map_concat_map in Ep'.
        revert Ep'. generalize (flat_map leaves_of rows), (flat_map leaves_of rows'). intros l m. revert m. induction l as [|x l IH]; intros [|y m] Q; try discriminate; [reflexivity|].
        cbn [map] in Q |- *. injection Q as Q1 _ Q2. rewrite Q1. f_equal. now apply IH. }
      rewrite Lv, Same. unfold plain_fields. apply Permutation_map. now apply Permutation_sym. }
    apply (C112_charge _ _ _ _ _ _ _ _ q) in Eq; auto.
    - rewrite (proj1 Eq), (charge_perm _ _ _ Pl). now apply two_leptons_ok.
    - intros x Ix. apply (Permutation_in _ Pl) in Ix. apply Nat.eqb_eq. exact (proj1 (forallb_forall _ _) S2 x Ix). }
  split; [exact Rw|].
  assert (Dec : forall l, (forall t, In t l -> charge q (cfields t) = Q2Qc 0) \/ exists t, In t l /\ charge q (cfields t) <> Q2Qc 0).
  { induction l as [|u l [IH|(v & V & Hv)]]; [left; intros ? []| |right; exists v; split; [now right|exact Hv]].
    destruct (Qc_eq_dec (charge q (cfields u)) (Q2Qc 0)) as [Z|Z]; [|right; exists u; split; [now left|exact Z]]. left. intros v [<-|V]; auto. }
  destruct (Dec (cm_terms c)) as [A|A]; [|exact A]. exfalso. rewrite charge_terms in Rw by exact A. discriminate Rw.
Qed.

(** ** Cases *)

(** the Weinberg operator with one scalar line, the scalar is a triplet of hypercharge -1: the couplings are L L S† and H H S.
    With lepton number 2 for S the second violates it, with 0 the first. *)
Example C112_example : exists terms x e lor st, completion (fun _ => false) (map (embed cfield) wein_rows) weinberg_eps wein_graph = Ok (inr (terms, [(x, e)], lor), st) /\
  (forall y, In y (map fst (flat_map leaves_of wein_rows)) -> derivs y = 0) /\ cf_class x = ComplexScalar /\
  map (fun t => sort str_leb (map label_of (cfields t))) terms = [[lit "L"; lit "L"; label_of x ++ [dagger]]; [lit "H"; lit "H"; label_of x]] /\
  forallb (fun y => match cf_class y with RealScalar | MajoranaFermion => false | _ => true end) (flat_map cfields terms) = true.
Proof.
  remember (completion (fun _ => false) (map (embed cfield) wein_rows) weinberg_eps wein_graph) as r eqn:E. vm_compute in E. subst r.
  do 5 eexists. split; [reflexivity|]. split; [|split; [reflexivity|split; vm_compute; reflexivity]].
  intros y I. apply Nat.eqb_eq. revert y I. apply forallb_forall. vm_compute. reflexivity.
Qed.

(** assignments of lepton number to the labels that the masses conserve, with any value [v] for the labels that are not of the Standard Model *)
Fixpoint lepton_reversed (v : Qc) (r : str) : Qc :=
  match r with
  | c :: r' => if Ascii.eqb c dagger || Ascii.eqb c "~" then (- lepton_reversed v r')%Qc else match dget str_eqb lepton_table (rev r) with Some z => of_Z z | None => v end
  | [] => v
  end.
Definition some_lepton (v : Qc) (l : str) : Qc := lepton_reversed v (rev l).

Example C112_example2 : forall v, lepton_charge (some_lepton v) /\ respects_masses (some_lepton v) /\ some_lepton v (lit "S") = v.
Proof.
  intros v. split; [|split].
  - repeat split; apply Qc_is_canon; reflexivity.
  - split; intros l; unfold some_lepton; [|change (lit "~") with ["~"%char]]; rewrite rev_app_distr; cbn [rev app lepton_reversed]; reflexivity.
  - reflexivity.
Qed.

Print Assumptions C112_balance.
Print Assumptions C112_charge.
Print Assumptions C112_shipped.
