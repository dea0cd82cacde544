(** * ProofsDerivVertex3: terms with derivatives whose fields can be replaced *)

From Coq Require Import Ascii String List Bool Arith ZArith QArith Qcanon Lia Permutation Sorted.
From Verif Require Import Base BaseFacts Show ModelFunctions ProofsFunctions ModelIndex SpecIndex ProofsIndex PropsIndex ModelField SpecField
  ProofsField ProofsField2 PropsField PropsField2 ModelContract SpecContract ProofsContract PropsContract PropsContract3 ModelPartition
  ModelExotic SpecExotic ProofsExotic PropsExotic ProofsExotic2 PropsExotic2 PropsExotic3 SpecTerms PropsTerms SpecDerivVertex ProofsDerivVertex ProofsDerivVertex2.
From Verif Require PropsLagrangian2 PropsInfo4 Spec ProofsOperators.
Import ListNotations.
Local Open Scope nat_scope.



(** ** Symbols *)

Definition shaped (e : symbol) : Prop :=
  symbol_indices e <> [] /\
  ((forall i, In i (symbol_indices e) -> gauge_type (ix_type i)) \/
   exists i j, symbol_indices e = [i; j] /\ spinor_type (ix_type i) /\ ix_type j = ix_type i /\ ix_up i = false /\ ix_up j = false).

Lemma joins_shaped t U m es : (forall i, In i U -> ix_type i = t /\ ix_up i = true) -> spinor_type t -> consecutive U m -> joins t m es -> Forall shaped es.
Proof.
  intros H T C J. assert (Hm : Forall (fun p => (ix_type (fst p) = t /\ ix_up (fst p) = true) /\ ix_type (snd p) = t /\ ix_up (snd p) = true) m).
  { clear J es. induction C as [|a b l m C IH]; [constructor|]. constructor; [split; apply H; cbn; auto|]. apply IH. intros i I. apply H. now right; right. }
  clear C H. induction J as [|p e m es (a & b & -> & (_ & Ta & Ua) & (_ & Tb & Ub)) J IH]; [constructor|]. inversion Hm as [|? ? ((T1 & U1) & T2 & U2) Hm']; subst.
  constructor; [|auto]. split; [discriminate|]. right. exists a, b. split; [reflexivity|]. rewrite Ta, Tb, Ua, Ub, U1, U2, T2. auto.
Qed.

Lemma pairing_shaped fs es : Forall legit fs -> lorentz_pairing fs (Ok (true, es)) -> Forall shaped es.
Proof.
  intros L P. destruct P as [(_ & _ & P)|[(_ & _ & P)|(_ & eu & ev & Pu & Pv & P)]]; try discriminate P. injection P as ->.
  assert (On : forall t i, spinor_type t -> In i (indices_on t fs) -> ix_type i = t /\ ix_up i = true).
  { intros t i T I. apply filter_In in I as [I H]. assert (Ti : ix_type i = t) by (unfold has_type in H; destruct (ix_type i), t; try discriminate H; reflexivity).
    split; [exact Ti|]. apply in_flat_map in I as (x & Ix & I). rewrite Forall_forall in L. apply (legit_raised x i (L x Ix) I). rewrite Ti. exact T. }
  apply Forall_app. split.
  - destruct Pu as [[_ ->]|(m & C & J)]; [constructor|]. apply (joins_shaped Undotted _ m eu (fun i => On Undotted i (or_introl eq_refl)) (or_introl eq_refl) C J).
  - destruct Pv as [[_ ->]|(m & C & J)]; [constructor|]. apply (joins_shaped Dotted _ m ev (fun i => On Dotted i (or_intror eq_refl)) (or_intror eq_refl) C J).
Qed.

Lemma table_shaped fs es : Forall legit fs -> lorentz_table fs (Ok (true, es)) -> Forall shaped es.
Proof.
  intros L T. rewrite Forall_forall in L.
  inversion T as [| | | |s a b a' b' r D P Bs Fa Fb O X Pr| |fs' fs'' r D Le O1 O2 Pr|fs' r D D0 D2 O Pr]; subst; try constructor.
  - apply (pairing_shaped [a'; b']); [|exact Pr]. apply Forall_forall. intros x I. apply L. apply (ordered_members _ _ _ x O) in I. eapply Permutation_in; [apply Permutation_sym, P|]. now right.
  - apply (pairing_shaped fs''); [|exact Pr]. apply Forall_forall. intros x I. apply L, (ordered_members _ _ _ x O1), (ordered_members _ _ _ x O2), I.
  - apply (pairing_shaped fs'); [|exact Pr]. apply Forall_forall. intros x I. apply L, (ordered_members _ _ _ x O), I.
Qed.

Lemma gauge_shaped e : gauge_symbol e -> shaped e.
Proof.
  intros [[_ L] G]. split; [intros E; rewrite E in L; cbn in L; lia|]. left. destruct G as [G|[_ G]]; intros i I; [left; auto|right; now apply G].
Qed.

Lemma lowers_shaped e : lowers e -> shaped e.
Proof.
  intros (i & j & E & T & Ui & Uj & S). split; [rewrite E; discriminate|]. destruct S as [S|[S|S]]; [right|right|left].
  - exists i, j. split; [exact E|]. split; [left; exact S|auto].
  - exists i, j. split; [exact E|]. split; [right; exact S|auto].
  - intros k K. rewrite E in K. right. destruct K as [<-|[<-|[]]]; congruence.
Qed.

(** ** Indices of an operator *)

Lemma cop_indices op : Permutation (op_indices (cop_erase op)) (flat_map indices_of (cfields op) ++ flat_map symbol_indices (csymbols op)).
Proof.
  induction op as [|[x|e] op IH]; [constructor| |]; unfold op_indices, cop_erase, cfields, csymbols in *; cbn [map flat_map erase tensor_indices app].
  - rewrite <- app_assoc. apply Permutation_app_head, IH.
  - rewrite IH. rewrite !app_assoc. apply Permutation_app_tail, Permutation_app_comm.
Qed.

Lemma in_cop op i : In i (op_indices (cop_erase op)) <-> (exists x, In x (cfields op) /\ In i (indices_of x)) \/ (exists e, In e (csymbols op) /\ In i (symbol_indices e)).
Proof.
  rewrite <- !in_flat_map, <- in_app_iff. split; apply Permutation_in; [|apply Permutation_sym]; apply cop_indices.
Qed.

(** ** The number of fermions is even *)

Definition spin (i : index) : bool := has_type Undotted i || has_type Dotted i.

Lemma spin_iff i : spin i = true <-> spinor_type (ix_type i).
Proof. unfold spin, spinor_type, has_type. destruct (ix_type i); cbn; intuition discriminate. Qed.

Definition other (q : str * itype * bool) : str * itype * bool := (fst q, negb (snd q)).

Lemma other_inj p q : other p = other q -> p = q.
Proof. destruct p as [a u], q as [b v]. unfold other. cbn. intros E. injection E as -> E. now destruct u, v. Qed.

Lemma counterpart_other i j : counterpart i j <-> slot j = other (slot i).
Proof. unfold counterpart, other, slot. cbn. split; [intros (-> & -> & ->); reflexivity|intros E; injection E as E1 E2 E3; auto]. Qed.

Lemma filter_flat_map {A B} (p : B -> bool) (f : A -> list B) l : filter p (flat_map f l) = flat_map (fun x => filter p (f x)) l.
Proof. induction l as [|x l IH]; [reflexivity|]. cbn. now rewrite filter_app, IH. Qed.

Lemma spin_count x : legit x -> List.length (filter spin (indices_of x)) = count_kind Undotted true (indices_of x) + count_kind Dotted true (indices_of x).
Proof.
  intros L. rewrite <- (count_has Undotted x L (or_introl eq_refl)), <- (count_has Dotted x L (or_intror eq_refl)). unfold spin.
  induction (indices_of x) as [|i l IH]; [reflexivity|]. cbn [filter]. unfold has_type in *. destruct (ix_type i); cbn [orb List.length]; lia.
Qed.

Lemma even_sum {A} (f : A -> nat) l : Forall (fun x => Nat.Even (f x)) l -> Nat.Even (list_sum (map f l)).
Proof. induction 1 as [|x l (a & Ha) F (b & Hb)]; [exists 0; reflexivity|]. exists (a + b). change (f x + list_sum (map f l) = 2 * (a + b)). lia. Qed.

Lemma length_flat_map {A B} (f : A -> list B) l : List.length (flat_map f l) = list_sum (map (fun x => List.length (f x)) l).
Proof. induction l as [|x l IH]; [reflexivity|]. cbn [flat_map]. rewrite app_length, IH. reflexivity. Qed.

Lemma even_fermions op : proper_op (cop_erase op) -> (forall i, is_free (cop_erase op) i -> ix_type i = Generation) -> Forall legit (cfields op) -> Forall shaped (csymbols op) ->
  Nat.Even (List.length (filter (fun x => negb (bosonb x)) (cfields op))).
Proof.
  intros Pr Fr L S. set (P := filter spin (flat_map indices_of (cfields op))). set (Q := filter spin (flat_map symbol_indices (csymbols op))).
  assert (Nd : NoDup (map slot (flat_map indices_of (cfields op) ++ flat_map symbol_indices (csymbols op)))) by (eapply Permutation_NoDup; [apply Permutation_map, cop_indices|exact Pr]).
  rewrite map_app in Nd.
  assert (Np : NoDup (map slot P)).
  { apply NoDup_filter_map. clear - Nd. induction (map slot (flat_map indices_of (cfields op))) as [|a m IH]; [constructor|].
    inversion Nd as [|? ? Na N]; subst. constructor; [intros I; apply Na, in_app_iff; now left|auto]. }
  assert (Nq : NoDup (map slot Q)).
  { apply NoDup_filter_map. clear - Nd. induction (map slot (flat_map indices_of (cfields op))) as [|a m IH]; [exact Nd|]. inversion Nd; auto. }
  assert (Up : forall i, In i P -> spinor_type (ix_type i) /\ ix_up i = true /\ In i (op_indices (cop_erase op))).
  { intros i I. apply filter_In in I as [I T]. apply spin_iff in T. split; [exact T|]. apply in_flat_map in I as (x & Ix & I). split; [|apply in_cop; left; eauto].
    rewrite Forall_forall in L. apply (legit_raised x i (L x Ix) I T). }
  assert (Uq : forall i, In i Q -> spinor_type (ix_type i) /\ ix_up i = false /\ In i (op_indices (cop_erase op))).
  { intros i I. apply filter_In in I as [I T]. apply spin_iff in T. split; [exact T|]. apply in_flat_map in I as (e & Ie & I). split; [|apply in_cop; right; eauto].
    rewrite Forall_forall in S. destruct (S e Ie) as [_ [G|(a & b & E & _ & _ & Ua & Ub)]].
    - exfalso. specialize (G i I). destruct T as [T|T], G as [G|G]; congruence.
    - rewrite E in I. destruct I as [<-|[<-|[]]]; auto. }
  assert (Met : forall i, spinor_type (ix_type i) -> In i (op_indices (cop_erase op)) -> exists j, In j (op_indices (cop_erase op)) /\ counterpart i j).
  { intros i T I. destruct (ProofsOperators.free_or_met _ i I) as [F|M]; [|exact M]. exfalso. rewrite (Fr i F) in T. destruct T as [T|T]; discriminate T. }
  assert (Pq : Permutation (map other (map slot P)) (map slot Q)).
  { apply NoDup_Permutation; [apply FinFun.Injective_map_NoDup; [exact other_inj|exact Np]|exact Nq|]. intros q. rewrite !in_map_iff. split.
    - intros (q' & <- & I). apply in_map_iff in I as (i & <- & I). destruct (Up i I) as (T & U & Io). destruct (Met i T Io) as (j & J & Cj).
      exists j. split; [now apply counterpart_other|]. destruct Cj as (_ & Tj & Uj). rewrite U in Uj. apply in_cop in J as [(x & Ix & J)|(e & Ie & J)].
      + exfalso. rewrite Forall_forall in L. rewrite (legit_raised x j (L x Ix) J) in Uj; [discriminate Uj|]. rewrite Tj. exact T.
      + apply filter_In. split; [apply in_flat_map; eauto|]. apply spin_iff. now rewrite Tj.
    - intros (j & <- & J). destruct (Uq j J) as (T & U & Jo). destruct (Met j T Jo) as (i & I & Ci). exists (slot i). split.
      { symmetry. apply counterpart_other. now apply counterpart_sym. }
      apply in_map. destruct Ci as (_ & Ti & Ui). rewrite U in Ui. apply filter_In. split; [|apply spin_iff; now rewrite Ti].
      apply in_cop in I as [(x & Ix & I)|(e & Ie & I)]; [apply in_flat_map; eauto|]. exfalso.
      assert (I' : In i Q) by (apply filter_In; split; [apply in_flat_map; eauto|apply spin_iff; now rewrite Ti]). destruct (Uq i I') as (_ & U' & _). rewrite U' in Ui. discriminate Ui. }
  apply Permutation_length in Pq. rewrite !map_length in Pq.
  assert (Eq : Nat.Even (List.length Q)).
  { unfold Q. rewrite filter_flat_map, length_flat_map. apply even_sum. eapply Forall_impl; [|exact S]. intros e [_ [G|(a & b & E & T & T' & _)]].
    - rewrite filter_none; [exists 0; reflexivity|]. intros i I. destruct (spin i) eqn:X; [|reflexivity]. apply spin_iff in X. specialize (G i I). destruct X as [X|X], G as [G|G]; congruence.
    - rewrite E. cbn [filter]. assert (Xa : spin a = true) by now apply spin_iff. assert (Xb : spin b = true) by (apply spin_iff; now rewrite T'). rewrite Xa, Xb. exists 1. reflexivity. }
  rewrite <- Pq in Eq. unfold P in Eq. rewrite filter_flat_map, length_flat_map in Eq. clear - Eq L.
  assert (G : forall l, Forall legit l -> (Nat.Even (list_sum (map (fun x => List.length (filter spin (indices_of x))) l)) <-> Nat.Even (List.length (filter (fun x => negb (bosonb x)) l)))).
  { clear. induction 1 as [|x l Lx L IH]; [split; intros _; exists 0; reflexivity|].
    change (list_sum (map (fun x => List.length (filter spin (indices_of x))) (x :: l))) with (List.length (filter spin (indices_of x)) + list_sum (map (fun x => List.length (filter spin (indices_of x))) l)).
    rewrite (spin_count x Lx). cbn [filter]. destruct (bosonb x) eqn:B; cbn [negb].
    - apply bosonb_spec in B. red in B. rewrite <- IH. clear IH.
      rewrite <- !Nat.even_spec in *. rewrite Nat.even_add, B. now destruct (Nat.even (list_sum _)).
    - assert (B' : Nat.even (count_kind Undotted true (indices_of x) + count_kind Dotted true (indices_of x)) = false) by exact B.
      cbn [List.length]. rewrite <- !Nat.even_spec in *. rewrite Nat.even_add, B', Nat.even_succ, <- Nat.negb_even.
      destruct (Nat.even (list_sum _)), (Nat.even (List.length _)); cbn; intuition discriminate. }
  now apply G.
Qed.

(** ** Sorting *)

Inductive manageable_field (x : cfield) : Prop :=
| mf_derived f : 0 < derivs x -> cf_class x = Plain -> ~ scalar x -> strip_derivs_with_indices (cf_if x) = Ok f -> replaces x (mkCF Plain f) -> manageable_field x
| mf_plain : derivs x = 0 -> cf_class x = Plain -> low_spin x -> legit x -> standard_charges x -> manageable_field x
| mf_exotic : typed x -> (cf_class x = MajoranaFermion -> colourless x) -> manageable_field x.

Lemma plain_replaces x : derivs x = 0 -> low_spin x -> legit x -> standard_charges x -> replaces x x.
Proof.
  intros D Lo L S. split; [exact S|]. split; [reflexivity|]. split; [exact D|]. split; [intros q _; reflexivity|]. split; [apply L|]. split.
  - intros B. apply low_boson in B; [|exact Lo]. apply Forall_forall. intros i I. exact (scalar_none x i L B I).
  - intros F. assert (E : List.length (spinors Undotted x ++ spinors Dotted x) = 1).
    { rewrite app_length. unfold spinors. rewrite (count_has Undotted x L (or_introl eq_refl)), (count_has Dotted x L (or_intror eq_refl)).
      unfold low_spin in Lo. unfold fermion, boson in F. destruct (count_kind Undotted true (indices_of x) + count_kind Dotted true (indices_of x)) as [|[|n]]; [|reflexivity|lia].
      exfalso. apply F. exists 0. reflexivity. }
    destruct (spinors Undotted x ++ spinors Dotted x) as [|i [|j r]] eqn:Es; try discriminate E. exists i. split; [exact Es|].
    assert (I : In i (spinors Undotted x ++ spinors Dotted x)) by (rewrite Es; now left). apply in_app_iff in I. rewrite !in_spinors in I.
    destruct I as [[I T]|[I T]]; apply (legit_raised x i L I); rewrite T; red; auto.
Qed.

Definition kept_symbol (e : symbol) : Prop := exists i r, symbol_indices e = i :: r /\ ~ spinor_type (ix_type i).

Record sorting (op : cop) (S F X : list cfield) (E : list symbol) : Prop := mkSorting
  { so_as : sorted_as op S F X E;
    so_fields : exists l, Forall2 replaces (cfields op) l /\ Permutation l (S ++ F ++ X);
    so_scalars : List.length S = List.length (filter bosonb (cfields op));
    so_spinless : Forall (fun x => spinless (indices_of x)) S;
    so_spinors : Forall one_spinor (F ++ X);
    so_typed : Forall typed X;
    so_symbols : forall e, In e E <-> In e (csymbols op) /\ kept_symbol e;
    so_origin : exists G H, Forall2 bared G F /\ Permutation (cfields op) (G ++ H) /\ Forall fermion G }.

Lemma sorting_exists op : (forall x, In (KField x) op -> manageable_field x) -> Forall shaped (csymbols op) -> exists S F X E, sorting op S F X E.
Proof.
  induction op as [|[x|e] op IH]; intros M Sh.
  - exists [], [], [], []. constructor; try constructor; auto.
    + exists []. split; constructor.
    + intros [].
    + now intros [].
    + exists [], []. repeat split; constructor.
  - destruct IH as (S & F & X & E & [As (l & Fl & Pl) Ls Sp So Ty Sy (G & H & Fg & Pg & Ff)]); [intros y Y; apply M; now right|exact Sh|].
    change (cfields (KField x :: op)) with (x :: cfields op) in *. change (csymbols (KField x :: op)) with (csymbols op).
    assert (AddS : forall w, replaces x w -> boson x -> sorted_as (KField x :: op) (w :: S) F X E -> exists S F X E, sorting (KField x :: op) S F X E).
    { intros w R B A. exists (w :: S), F, X, E. constructor; auto.
      - exists (w :: l). split; [now constructor|]. now constructor.
      - change (cfields (KField x :: op)) with (x :: cfields op). cbn [filter]. apply bosonb_spec in B. rewrite B. cbn [List.length]. now f_equal.
      - constructor; [|exact Sp]. now apply R.
      - exists G, (x :: H). split; [exact Fg|]. split; [|exact Ff]. change (Permutation (x :: cfields op) (G ++ x :: H)). rewrite Pg. apply Permutation_middle. }
    assert (Nb : fermion x -> bosonb x = false) by (intros B; now apply bosonb_not).
    assert (AddF : forall w, replaces x w -> bared x w -> fermion x -> sorted_as (KField x :: op) S (w :: F) X E -> exists S F X E, sorting (KField x :: op) S F X E).
    { intros w R Br B A. exists S, (w :: F), X, E. constructor; auto.
      - exists (w :: l). split; [now constructor|]. rewrite Pl. apply Permutation_middle.
      - change (cfields (KField x :: op)) with (x :: cfields op). cbn [filter]. now rewrite (Nb B).
      - cbn [app]. constructor; [now apply R|exact So].
      - exists (x :: G), H. split; [now constructor|]. split; [|now constructor]. cbn [app]. now constructor. }
    assert (AddX : forall w, replaces x w -> typed w -> fermion x -> sorted_as (KField x :: op) S F (w :: X) E -> exists S F X E, sorting (KField x :: op) S F X E).
    { intros w R Tw B A. exists S, F, (w :: X), E. constructor; auto.
      - exists (w :: l). split; [now constructor|]. rewrite Pl. rewrite !app_assoc. apply Permutation_middle.
      - change (cfields (KField x :: op)) with (x :: cfields op). cbn [filter]. now rewrite (Nb B).
      - rewrite Forall_app in So |- *. split; [apply So|]. constructor; [now apply R|apply So].
      - exists G, (x :: H). split; [exact Fg|]. split; [|exact Ff]. change (Permutation (x :: cfields op) (G ++ x :: H)). rewrite Pg. apply Permutation_middle. }
    destruct (M x (or_introl eq_refl)) as [f D Kl Ns Es R|D Kl Lo Lg Sc|T Cl].
    + destruct (bosonb x) eqn:B; [apply bosonb_spec in B|apply bosonb_not in B].
      * apply (AddS _ R B). now apply sa_boson.
      * apply (AddF _ R); [|exact B|now apply sa_derived]. split; [exact Kl|]. right. eauto.
    + destruct (bosonb x) eqn:B; [apply bosonb_spec in B|apply bosonb_not in B].
      * apply (AddS x); [now apply plain_replaces|exact B|]. apply sa_scalar; auto. now apply low_boson.
      * apply (AddF x); [now apply plain_replaces| |exact B|apply sa_fermion; auto]. split; [exact Kl|]. now left.
    + destruct (typed_standard x T) as (_ & D & Nk). destruct (typed_spin x T) as [Ks Kf]. destruct (cf_class x) eqn:Kl; [| | | |congruence].
      * assert (Sx : scalar x) by auto. apply (AddS x); [now apply typed_replaces| |apply sa_scalar; auto]. destruct Sx as [S1 S2]. exists 0. rewrite S1, S2. reflexivity.
      * assert (Sx : scalar x) by auto. apply (AddS x); [now apply typed_replaces| |apply sa_scalar; auto]. destruct Sx as [S1 S2]. exists 0. rewrite S1, S2. reflexivity.
      * destruct (majorana_image x T Kl (Cl eq_refl)) as (w & Ew & Rw & Tw). apply (AddX w); auto. now apply sa_majorana.
      * destruct (dirac_image x is_unbarred T Kl) as (y & w & Ey & Ew & Rw & Tw). apply (AddX w); eauto. eapply sa_dirac; eauto.
  - inversion Sh as [|? ? She Sh']; subst. destruct IH as (S & F & X & E & [As Fl Ls Sp So Ty Sy Og]); [intros y Y; apply M; now right|exact Sh'|].
    change (cfields (KSym e :: op)) with (cfields op) in *. change (csymbols (KSym e :: op)) with (e :: csymbols op).
    destruct She as [Ne _]. destruct (symbol_indices e) as [|i r] eqn:Ei; [congruence|]. destruct (spin i) eqn:T.
    + apply spin_iff in T. exists S, F, X, E. constructor; auto; [now apply (sa_lorentz e i r)|]. intros e'. change (csymbols (KSym e :: op)) with (e :: csymbols op). rewrite Sy. cbn [In]. split; [tauto|].
      intros [[<-|I] K]; [|auto]. exfalso. destruct K as (i' & r' & E' & N). rewrite Ei in E'. injection E' as <- <-. contradiction.
    + assert (N : ~ spinor_type (ix_type i)) by (intros Y; apply spin_iff in Y; congruence). exists S, F, X, (e :: E). constructor; auto; [now apply (sa_gauge e i r)|].
      intros e'. change (csymbols (KSym e :: op)) with (e :: csymbols op). cbn [In]. rewrite Sy. split; [intros [<-|I]; [split; [now left|exists i, r; auto]|tauto]|]. intros [[<-|I] K]; auto.
Qed.

Lemma replaces_sum l : forall l', Forall2 replaces l l' -> sum_of hypercharge l' = sum_of hypercharge l.
Proof. induction l as [|x l IH]; intros l' F; inversion F; subst; [reflexivity|]. cbn [sum_of fold_right] in *. unfold sum_of in IH. rewrite (IH _ H3). f_equal. apply H1. Qed.

Lemma Forall2_inr {A B} (R : A -> B -> Prop) l l' y : Forall2 R l l' -> In y l' -> exists x, In x l /\ R x y.
Proof. induction 1 as [|a b l l' H F IH]; [intros []|]. intros [<-|I]; [exists a; split; [now left|exact H]|]. destruct (IH I) as (x & Ix & Rx). exists x. split; [now right|exact Rx]. Qed.

Lemma Forall2_inl {A B} (R : A -> B -> Prop) l l' x : Forall2 R l l' -> In x l -> exists y, In y l' /\ R x y.
Proof. induction 1 as [|a b l l' H F IH]; [intros []|]. intros [<-|I]; [exists b; split; [now left|exact H]|]. destruct (IH I) as (y & Iy & Ry). exists y. split; [now right|exact Ry]. Qed.

(** a term with the fields replaced, the gauge symbols kept and the spinors contracted by [es] *)
Lemma replaced_singlet op S F X E t es l : singlet op -> Forall shaped (csymbols op) -> sorting op S F X E ->
  Forall2 replaces (cfields op) l -> Permutation (cfields t) l ->
  (forall e, In e (csymbols t) <-> In e E \/ In e es) ->
  (forall x i, In x (cfields t) -> In i (indices_of x) -> spinor_type (ix_type i) -> exists e j, In e es /\ In j (symbol_indices e) /\ counterpart i j) ->
  (forall e i, In e es -> In i (symbol_indices e) -> exists x j, In x (cfields t) /\ In j (indices_of x) /\ counterpart i j) ->
  singlet t.
Proof.
  intros [Ch Fr] Sh So Fl Pt Sy Sx Se.
  assert (Away : forall i, In i (op_indices (cop_erase t)) -> gauge_type (ix_type i) -> (forall j, In j (op_indices (cop_erase t)) -> ~ counterpart i j) -> False).
  { intros i I T Nf. rewrite Forall_forall in Sh.
    assert (Im : exists i', In i' (op_indices (cop_erase op)) /\ slot i' = slot i).
    { apply in_cop in I as [(w & Iw & I)|(e & Ie & I)].
      - apply (Permutation_in _ Pt) in Iw. destruct (Forall2_inr _ _ _ _ Fl Iw) as (x & Ix & (_ & _ & _ & G & _)).
        assert (Q : In (slot i) (map slot (indices_of x))) by (apply (G (slot i) T), in_map, I). apply in_map_iff in Q as (i' & Q & I'). exists i'. split; [apply in_cop; left; eauto|exact Q].
      - apply Sy in Ie as [Ie|Ie].
        + apply (so_symbols _ _ _ _ _ So) in Ie as [Ie _]. exists i. split; [apply in_cop; right; eauto|reflexivity].
        + exfalso. destruct (Se e i Ie I) as (x & j & Ix & J & C). apply (Nf j); [apply in_cop; left; eauto|exact C]. }
    destruct Im as (i' & I' & Q). destruct (ProofsOperators.free_or_met _ i' I') as [Fi|(j & J & C)].
    - apply Fr in Fi. injection Q as _ Q _. rewrite Fi in Q. rewrite <- Q in T. destruct T as [T|T]; discriminate T.
    - assert (C' : slot j = other (slot i)) by (rewrite <- Q; now apply counterpart_other).
      assert (Tj : gauge_type (ix_type j)) by (injection C' as _ Tj _; now rewrite Tj).
      apply in_cop in J as [(x & Ix & J)|(e & Ie & J)].
      + destruct (Forall2_inl _ _ _ _ Fl Ix) as (w & Iw & (_ & _ & _ & G & _)).
        assert (Qj : In (slot j) (map slot (indices_of w))) by (apply (G (slot j) Tj), in_map, J). apply in_map_iff in Qj as (j' & Qj & J').
        apply (Nf j'); [|apply counterpart_other; congruence]. apply in_cop. left. exists w. split; [|exact J']. eapply Permutation_in; [apply Permutation_sym, Pt|exact Iw].
      + apply (Nf j); [|apply counterpart_other; exact C']. apply in_cop. right. exists e. split; [|exact J]. apply Sy. left. apply (so_symbols _ _ _ _ _ So). split; [exact Ie|].
        destruct (Sh e Ie) as [Ne [G|(a & b & E1 & T1 & T2 & _)]].
        * destruct (symbol_indices e) as [|k r] eqn:Ek; [congruence|]. exists k, r. split; [exact Ek|]. intros Tk. specialize (G k (or_introl eq_refl)). destruct Tk as [Tk|Tk], G as [G|G]; congruence.
        * exfalso. rewrite E1 in J. destruct J as [<-|[<-|[]]]; [|rewrite T2 in Tj]; destruct T1 as [T1|T1], Tj as [Tj|Tj]; congruence. }
  assert (Spin : forall i, In i (op_indices (cop_erase t)) -> spinor_type (ix_type i) -> (forall j, In j (op_indices (cop_erase t)) -> ~ counterpart i j) -> False).
  { intros i I T Nf. apply in_cop in I as [(x & Ix & I)|(e & Ie & I)].
    - destruct (Sx x i Ix I T) as (e & j & Ie & J & C). apply (Nf j); [apply in_cop; right; exists e; split; [apply Sy; auto|exact J]|exact C].
    - apply Sy in Ie as [Ie|Ie].
      + apply (so_symbols _ _ _ _ _ So) in Ie as [Ie (i0 & r & E0 & N0)]. rewrite Forall_forall in Sh. destruct (Sh e Ie) as [_ [G|(a & b & E1 & T1 & _)]].
        * specialize (G i I). destruct T as [T|T], G as [G|G]; congruence.
        * rewrite E1 in E0. injection E0 as <- _. contradiction.
      + destruct (Se e i Ie I) as (x & j & Ix & J & C). apply (Nf j); [apply in_cop; left; eauto|exact C]. }
  split.
  - rewrite (sum_of_perm _ _ _ Pt), (replaces_sum _ _ Fl). exact Ch.
  - intros i [I Nf]. destruct (ix_type i) eqn:T; try reflexivity; exfalso.
    + apply (Spin i I); [left; exact T|exact Nf].
    + apply (Spin i I); [right; exact T|exact Nf].
    + apply (Away i I); [left; exact T|exact Nf].
    + apply (Away i I); [right; exact T|exact Nf].
Qed.
