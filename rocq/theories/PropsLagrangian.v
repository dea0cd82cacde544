(** * PropsLagrangian: C47, U(1) symmetries of a Lagrangian *)

From Coq Require Import Ascii String List Bool Arith ZArith QArith Qcanon Lia.
From Verif Require Import Base BaseFacts Spec Show ModelFunctions ProofsDatabase3 ModelIndex SpecIndex ModelField SpecField ProofsField ModelContract ModelPartition ModelExotic
  ModelLagrangian SpecLagrangian ProofsLagrangian.
Import ListNotations.
Local Open Scope nat_scope.

(** ** C47: rows *)

(** Every entry of the row of a term is the number of times that the field of the column is in the term, less the number of
    times that its conjugate is. *)
Theorem C47_row : forall sm smc ex exc fields,
  setting sm smc ex exc -> Forall (known ((smc ++ sm) ++ (exc ++ ex))) fields ->
  term_to_row sm fields ex (index_dict ex exc) = Ok (map (net fields) (combine (sm ++ ex) (smc ++ exc))).
Proof. intros sm smc ex exc fields [A B C E F] K. now apply row_known. Qed.

(** A field that is none of the columns or their conjugates is a KeyError. *)
Theorem C47_row_stranger : forall sm smc ex exc fields,
  setting sm smc ex exc -> Forall dictionary fields -> Forall (fun f => f_stripped f = None) fields ->
  Forall (fun f => known ((smc ++ sm) ++ (exc ++ ex)) f \/ stranger ((smc ++ sm) ++ (exc ++ ex)) f) fields ->
  Exists (stranger ((smc ++ sm) ++ (exc ++ ex))) fields ->
  term_to_row sm fields ex (index_dict ex exc) = Err KeyError.
Proof. intros sm smc ex exc fields [A B C E F] Df Ns K X. now apply (row_stranger sm smc ex exc). Qed.

(** ** Charges *)

Lemma int_0 : int 0 = 0%Qc. Proof. now apply Qc_is_canon. Qed.
Lemma int_1 : int 1 = 1%Qc. Proof. now apply Qc_is_canon. Qed.
Lemma int_m1 : int (-1) = (- (1))%Qc. Proof. now apply Qc_is_canon. Qed.
Lemma int_plus a b : int (a + b) = (int a + int b)%Qc.
Proof. unfold int. apply Qc_is_canon. cbn [this Q2Qc Qcplus]. rewrite !Qred_correct. rewrite inject_Z_plus. reflexivity. Qed.

Lemma int_mult a b : int (a * b) = (int a * int b)%Qc.
Proof. unfold int. apply Qc_is_canon. cbn [this Q2Qc Qcmult]. rewrite !Qred_correct. rewrite inject_Z_mult. reflexivity. Qed.

Lemma dot_zero n v : dot (repeat 0%Z n) v = 0%Qc.
Proof. revert v. induction n as [|n IH]; intros [|x v]; try reflexivity. cbn [repeat dot]. rewrite IH, int_0. ring. Qed.

Lemma dot_app a b v w : List.length a = List.length v -> dot (a ++ b) (v ++ w) = (dot a v + dot b w)%Qc.
Proof. revert v. induction a as [|x a IH]; intros [|y v] E; try discriminate; cbn [app dot]; [ring|]. rewrite IH by (now injection E). ring. Qed.

Lemma dot_net fields cols v : dot (map (net fields) cols) v = column_charge fields cols v.
Proof. revert v. induction cols as [|p cols IH]; intros [|x v]; try reflexivity. cbn [map dot column_charge combine fold_right fst snd]. now rewrite IH. Qed.

Definition contribution (q : field -> Qc) (f : field) (p : field * field) : Qc :=
  if field_eqb f (fst p) then q f else if field_eqb f (snd p) then q f else 0%Qc.

Lemma mapM_nth {A B} (f : A -> res B) l : forall m, mapM f l = Ok m -> forall j a b, nth_error l j = Some a -> nth_error m j = Some b -> f a = Ok b.
Proof.
  induction l as [|x l IH]; intros m; cbn [mapM]; [intros _ [|i] a b; discriminate|]. destruct (f x) eqn:E; [|discriminate]. cbn [bind].
  destruct (mapM f l) eqn:E2; [|discriminate]. intros [= <-] [|i] a' b' A' B'; [cbn in A', B'; congruence|]. now apply (IH _ eq_refl i).
Qed.

Lemma mapM_app_eq {A B} (f : A -> res B) a b x y : mapM f a = Ok x -> mapM f b = Ok y -> mapM f (a ++ b) = Ok (x ++ y).
Proof.
  revert x. induction a as [|h a IH]; intros x; cbn [mapM app]; [intros [= <-]; auto|]. destruct (f h); [|discriminate]. cbn [bind].
  destruct (mapM f a) as [v|]; [|discriminate]. intros [= <-] E. now rewrite (IH v eq_refl E).
Qed.

(** With the charges of the columns as vector, the row gives the total charge of the term. *)
Theorem C47_charge : forall sm smc ex exc fields q,
  setting sm smc ex exc -> Forall (known ((smc ++ sm) ++ (exc ++ ex))) fields -> additive q ->
  column_charge fields (combine (sm ++ ex) (smc ++ exc)) (vector q (sm ++ ex)) = total q fields.
Proof.
  intros sm smc ex exc fields q St K [Qe Qn]. pose proof St as [A B C S D].
  pose proof (mapM_app_eq _ _ _ _ _ A B) as Cj.
  assert (Ln : List.length (sm ++ ex) = List.length (smc ++ exc)) by (symmetry; apply (mapM_length _ _ _ Cj)).
  set (cols := combine (sm ++ ex) (smc ++ exc)).
  assert (Ec : sm ++ ex = map fst cols) by (unfold cols; now rewrite map_fst_combine).
  rewrite Ec. unfold vector. rewrite map_map.
  assert (Dg : forall p, In p cols -> dictionary (fst p) /\ dictionary (snd p) /\ conj_field (fst p) = Ok (snd p)).
  { intros p P. apply In_nth_error in P as (j & P). apply nth_combine_inv in P as [P1 P2]. rewrite Forall_forall in D.
    split; [|split].
    - apply D. apply nth_error_In in P1. rewrite !in_app_iff in *. tauto.
    - apply D. apply nth_error_In in P2. rewrite !in_app_iff in *. tauto.
    - exact (mapM_nth _ _ _ Cj j _ _ P1 P2). }
  assert (Eq : column_charge fields cols (map (fun p => (int (sign (fst p)) * q (fst p))%Qc) cols) =
               fold_right (fun p s => ((int (times (fst p) fields) - int (times (snd p) fields)) * q (fst p) + s)%Qc) 0%Qc cols).
  { clear. induction cols as [|p cols IH]; [reflexivity|]. cbn [map column_charge combine fold_right fst snd]. unfold column_charge in IH. rewrite IH. f_equal.
    unfold net. rewrite int_mult. replace (int (times (fst p) fields - times (snd p) fields)) with (int (times (fst p) fields) - int (times (snd p) fields))%Qc.
    2:{ replace (times (fst p) fields - times (snd p) fields)%Z with (times (fst p) fields + (-1) * times (snd p) fields)%Z by lia. rewrite int_plus, int_mult, int_m1. ring. }
    unfold sign. destruct (f_is_conj (fst p)); rewrite ?int_m1, ?int_1; ring. }
  rewrite Eq. clear Eq.
  assert (Eq : fold_right (fun p s => ((int (times (fst p) fields) - int (times (snd p) fields)) * q (fst p) + s)%Qc) 0%Qc cols =
               fold_right (fun f s => (fold_right (fun p s => (contribution q f p + s)%Qc) 0%Qc cols + s)%Qc) 0%Qc fields).
  { assert (Sp : forall p, In p cols -> forall f, In f fields -> field_eqb f (fst p) = true -> field_eqb f (snd p) = false).
    { intros p P f F E. apply In_nth_error in P as (j & P). rewrite Forall_forall in K. destruct (K f F) as (k & Kk & Ak).
      rewrite (alike_eqb_l f k _ Ak) in E. rewrite (alike_eqb_l f k _ Ak). destruct p as [g gc]. cbn [fst snd] in *. destruct (place_ok sm smc ex exc A B C j g gc P) as [Pg Pc].
      apply In_nth_error in Kk as (i & I). pose proof (position _ _ _ _ _ S D I Pg E) as ->.
      apply (S _ _ _ _ I Pc). intros X. apply (place_inj sm ex C) in X; [destruct X; discriminate| |];
        rewrite <- (columns_length sm smc ex exc A B C); apply nth_error_Some; unfold columns; fold cols; congruence. }
    clear Ec. induction fields as [|f fields IH].
    - cbn [fold_right]. clear. induction cols as [|p cols IH]; [reflexivity|]. cbn [fold_right]. rewrite IH. unfold times. cbn. rewrite int_0. ring.
    - inversion K as [|? ? Kf K']; subst. cbn [fold_right]. rewrite <- IH; [|exact K'|intros p P f0 F; apply Sp; [exact P|now right]].
      assert (Df : dictionary f). { destruct Kf as (k & Kk & Ak). rewrite Forall_forall in D. apply (alike_dictionary k f (alike_sym _ _ Ak)). auto. }
      clear - Sp Df Dg Qe Qn. induction cols as [|p cols IH]; [cbn; ring|]. cbn [fold_right].
      rewrite IH by (intros; (apply Dg + eapply Sp); eauto; now right).
      destruct (Dg p (or_introl eq_refl)) as (D1 & D2 & Cp). pose proof (Sp p (or_introl eq_refl) f (or_introl eq_refl)) as Spf.
      unfold contribution, times. cbn [filter]. destruct (field_eqb f (fst p)) eqn:E1.
      + rewrite (Spf eq_refl). cbn [List.length]. rewrite Nat2Z.inj_succ, <- Z.add_1_r, int_plus, int_1, (Qe f (fst p) Df D1 E1). ring.
      + destruct (field_eqb f (snd p)) eqn:E2; [|ring]. cbn [List.length]. rewrite Nat2Z.inj_succ, <- Z.add_1_r, int_plus, int_1, (Qe f (snd p) Df D2 E2), (Qn _ _ D1 Cp). ring. }
  rewrite Eq. clear Eq. unfold total.
  assert (Eq : forall f, In f fields -> fold_right (fun p s => (contribution q f p + s)%Qc) 0%Qc cols = q f).
  { intros f F. rewrite Forall_forall in K. destruct (K f F) as (k & Kk & Ak).
    destruct (step_known sm smc ex exc A B C S D f 0 [] (K f F)) as (j & g & gc & P & Al & _).
    assert (Bl : forall j' p, nth_error cols j' = Some p -> contribution q f p = if j' =? j then q f else 0%Qc).
    { intros j' p P'. pose proof (belongs_iff sm smc ex exc A B C S D f j g gc j' p P Al P') as Bg. unfold belongs in Bg. unfold contribution.
      destruct (field_eqb f (fst p)), (field_eqb f (snd p)); cbn [orb] in Bg; rewrite <- Bg; reflexivity. }
    assert (Lj : j < List.length cols) by (apply nth_error_Some; unfold columns in P; fold cols in P; congruence).
    clear - Bl Lj. revert j Lj Bl. induction cols as [|p cols IH]; intros j Lj Bl; [cbn in Lj; lia|]. cbn [fold_right]. rewrite (Bl 0 p eq_refl). destruct j as [|j].
    - replace (fold_right _ 0%Qc cols) with 0%Qc; [cbn; ring|]. symmetry.
      assert (Z : forall p', In p' cols -> contribution q f p' = 0%Qc). { intros p' I. apply In_nth_error in I as (i & I). apply (Bl (S i) p' I). }
      clear - Z. induction cols as [|p' cols IH]; [reflexivity|]. cbn [fold_right]. rewrite IH, (Z p') by (intros; try apply Z; cbn; auto). ring.
    - cbn [Nat.eqb]. rewrite (IH j); [ring|cbn in Lj; lia|]. intros j' p' P'. apply (Bl (S j') p' P'). }
  clear - Eq. induction fields as [|f fields IH]; [reflexivity|]. cbn [fold_right]. rewrite IH, Eq by (intros; try apply Eq; cbn; auto). reflexivity.
Qed.

(** ** The matrix *)

Lemma contains_ok ex : forall exc t, mapM conj_field ex = Ok exc ->
  exists b, contains t ex = Ok b /\ (b = true <-> exotic_in ex exc t).
Proof.
  induction ex as [|f ex IH]; intros exc t C.
  - cbn in C. injection C as <-. exists false. split; [reflexivity|]. split; [discriminate|]. intros (x & k & _ & [] & _).
  - cbn [mapM] in C. destruct (conj_field f) as [c|] eqn:Ec; [|discriminate]. cbn [bind] in C. destruct (mapM conj_field ex) as [cs|] eqn:Es; [|discriminate].
    injection C as <-. cbn [contains]. rewrite Ec.
    assert (In_ : forall k, is_in k t = true <-> exists x, In x t /\ field_eqb k x = true) by (intros k; apply is_in_iff).
    destruct (is_in f t) eqn:E1.
    { exists true. split; [reflexivity|]. split; [|reflexivity]. intros _. apply In_ in E1 as (x & X & E). exists x, f. split; [exact X|]. split; [now left|exact E]. }
    cbn [bind]. destruct (is_in c t) eqn:E2.
    { exists true. split; [reflexivity|]. split; [|reflexivity]. intros _. apply In_ in E2 as (x & X & E). exists x, c. split; [exact X|]. split; [|exact E].
      apply in_app_iff. right. now left. }
    destruct (IH cs t eq_refl) as (b & Eb & B). exists b. split; [exact Eb|]. rewrite B. split; intros (x & k & X & K & E); exists x, k; split; auto; split; auto.
    + rewrite in_app_iff in *. cbn [In]. tauto.
    + apply in_app_iff in K as [[<-|K]|[<-|K]]; [| | |].
      * exfalso. assert (Q : is_in f t = true) by (apply In_; eauto). congruence.
      * apply in_app_iff. now left.
      * exfalso. assert (Q : is_in c t = true) by (apply In_; eauto). congruence.
      * apply in_app_iff. now right.
Qed.

Section Matrix.
  Variables sm smc ex exc : list field.
  Hypothesis St : setting sm smc ex exc.
  Local Notation cols := (combine (sm ++ ex) (smc ++ exc)).

  Lemma cols_length : List.length cols = 6 + List.length ex.
  Proof. destruct St as [A B C S D]. pose proof (columns_length sm smc ex exc A B C) as L. unfold columns in L. rewrite L. lia. Qed.

  Lemma rows_ok terms : Forall (fun t => exotic_in ex exc t -> Forall (known ((smc ++ sm) ++ (exc ++ ex))) t) terms -> forall m,
    exists rows, foldM (fun m t => do b <- contains t ex; if b then do r <- term_to_row sm t ex (index_dict ex exc); Ok (m ++ [r]) else Ok m) terms m = Ok (m ++ rows) /\
      forall row, In row rows <-> exists t, In t terms /\ exotic_in ex exc t /\ row = map (net t) cols.
  Proof.
    pose proof St as [A B C S D]. induction terms as [|t terms IH]; intros K m.
    - exists []. split; [cbn; now rewrite app_nil_r|]. intros row. split; [intros []|]. intros (t & [] & _).
    - inversion K as [|? ? Kt K']; subst. cbn [foldM]. destruct (contains_ok ex exc t B) as (b & Eb & Hb). rewrite Eb. cbn [bind]. destruct b.
      + rewrite (C47_row sm smc ex exc t St) by (apply Kt, Hb; reflexivity). cbn [bind]. destruct (IH K' (m ++ [map (net t) cols])) as (rows & E & R).
        exists (map (net t) cols :: rows). split; [rewrite E, <- app_assoc; reflexivity|]. intros row. cbn [In]. rewrite R. split.
        * intros [<-|(t' & T & X & ->)]; [exists t|exists t']; split; auto. split; [apply Hb|]; reflexivity.
        * intros (t' & [<-|T] & X & ->); [now left|right; eauto].
      + cbn [bind]. destruct (IH K' m) as (rows & E & R). exists rows. split; [exact E|]. intros row. rewrite R. split.
        * intros (t' & T & X & ->). exists t'. split; [now right|auto].
        * intros (t' & [<-|T] & X & ->); [apply Hb in X; discriminate|eauto].
  Qed.

  Lemma yukawa_iff v : List.length v = 6 + List.length ex ->
    Forall (fun row => dot row v = 0%Qc) (map (fun y => y ++ repeat 0%Z (List.length ex)) yukawas) <-> yukawa v.
  Proof.
    intros L. destruct v as [|h [|q [|u [|d [|l [|e r]]]]]]; cbn in L; try lia.
    change (h :: q :: u :: d :: l :: e :: r) with ([h; q; u; d; l; e] ++ r). unfold yukawas. cbn [map].
    rewrite !Forall_cons_iff. setoid_rewrite dot_app; [|reflexivity..]. rewrite dot_zero. cbn [dot]. rewrite int_0, int_1, int_m1.
    assert (Y : yukawa ([h; q; u; d; l; e] ++ r) <-> (h + q + u = 0)%Qc /\ (- h + q + d = 0)%Qc /\ (- h + l + e = 0)%Qc).
    { split; [|intros (Y1 & Y2 & Y3); exists h, q, u, d, l, e, r; auto].
      intros (h' & q' & u' & d' & l' & e' & r' & E & Y). injection E as <- <- <- <- <- <- <-. exact Y. }
    rewrite Y. clear. split.
    - intros (Y1 & Y2 & Y3 & _). repeat split; [rewrite <- Y1|rewrite <- Y2|rewrite <- Y3]; ring.
    - intros (Y1 & Y2 & Y3). split; [etransitivity; [|exact Y1]; ring|]. split; [etransitivity; [|exact Y2]; ring|]. split; [etransitivity; [|exact Y3]; ring|apply Forall_nil].
  Qed.
End Matrix.

(** The matrix can be made, and what is spanned by its nullspace are exactly the assignments of charges under which the three
    Yukawa couplings and every term with an exotic field are neutral. *)
Theorem C47_symmetries : forall sm smc ex exc terms,
  setting sm smc ex exc ->
  Forall (fun t => exotic_in ex exc t -> Forall (known ((smc ++ sm) ++ (exc ++ ex))) t) terms ->
  exists m, u1_matrix sm ex terms = Ok m /\
    Forall (fun row => List.length row = 6 + List.length ex) m /\
    forall b, nullspace_of (6 + List.length ex) m b ->
    forall v, spanned (6 + List.length ex) b v <->
      List.length v = 6 + List.length ex /\ yukawa v /\
      forall t, In t terms -> exotic_in ex exc t -> column_charge t (combine (sm ++ ex) (smc ++ exc)) v = 0%Qc.
Proof.
  intros sm smc ex exc terms St K. pose proof St as [A B C S D]. unfold u1_matrix. rewrite B. cbn [bind].
  destruct (rows_ok sm smc ex exc St terms K []) as (rows & E & R). rewrite E. cbn [bind app]. eexists. split; [reflexivity|].
  split.
  { apply Forall_app. split.
    - apply Forall_forall. intros row I. apply R in I as (t & _ & _ & ->). rewrite map_length. apply cols_length, St.
    - apply Forall_map. unfold yukawas. repeat constructor; rewrite app_length, repeat_length; reflexivity. }
  intros b Nb v. rewrite (Nb v). unfold kernel. rewrite Forall_app. split.
  - intros (L & F1 & F2). split; [exact L|]. split; [now apply (yukawa_iff ex)|]. intros t T X. rewrite <- dot_net. rewrite Forall_forall in F1. apply F1, R. eauto.
  - intros (L & Y & F). split; [exact L|]. split; [|now apply yukawa_iff]. apply Forall_forall. intros row I. apply R in I as (t & T & X & ->). rewrite dot_net. auto.
Qed.

(** So every additive charge that the couplings conserve is found. *)
Theorem C47_conserved : forall sm smc ex exc terms q,
  setting sm smc ex exc ->
  Forall (fun t => exotic_in ex exc t -> Forall (known ((smc ++ sm) ++ (exc ++ ex))) t) terms ->
  additive q -> yukawa (vector q (sm ++ ex)) ->
  (forall t, In t terms -> exotic_in ex exc t -> total q t = 0%Qc) ->
  exists m, u1_matrix sm ex terms = Ok m /\ forall b, nullspace_of (6 + List.length ex) m b -> spanned (6 + List.length ex) b (vector q (sm ++ ex)).
Proof.
  intros sm smc ex exc terms q St K Qa Y Z. destruct (C47_symmetries sm smc ex exc terms St K) as (m & E & _ & H). exists m. split; [exact E|].
  intros b Nb. apply (H b Nb). split; [|split; [exact Y|]].
  - unfold vector. rewrite map_length, app_length, (se_six _ _ _ _ St). reflexivity.
  - intros t T X. rewrite Forall_forall in K. rewrite (C47_charge sm smc ex exc t q St (K t T X) Qa). auto.
Qed.

(** ** The charges stored with the fields *)

Lemma neg_charges_get c k : dget str_eqb (neg_charges c) k = match dget str_eqb c k with Some v => Some (- v)%Qc | None => None end.
Proof. induction c as [|[k' v] c IH]; [reflexivity|]. cbn [neg_charges map dget fst snd]. destruct (str_eqb k k'); [reflexivity|exact IH]. Qed.

Lemma conj_field_charges f g : conj_field f = Ok g -> f_charges g = dupdate str_eqb default_charges (neg_charges (f_charges f)).
Proof.
  unfold conj_field, mk_field. destruct (lorentz_irrep f); [|discriminate]. destruct (colour_irrep f); [|discriminate]. destruct (isospin_irrep f); [|discriminate].
  cbn [bind]. destruct (negb (f_nf f =? 1) && negb (f_nf f =? 3)); [discriminate|]. now intros [= <-].
Qed.

Lemma charge_additive k : additive (charge k).
Proof.
  split.
  - intros f g [Nf _] [Ng _] E. unfold field_eqb in E. rewrite !andb_true_iff in E. destruct E as ((((((((_ & _) & E) & _) & _) & _) & _) & _) & _).
    apply (charges_eqb_spec _ _ Nf Ng) in E. unfold charge. now rewrite (E k).
  - intros f g [Nf _] E. unfold charge. rewrite (conj_field_charges f g E).
    assert (Nn : NoDup (keys (neg_charges (f_charges f)))).
    { unfold keys, neg_charges. rewrite map_map. cbn. exact Nf. }
    rewrite (dget_dupdate_NoDup _ _ _ Nn), neg_charges_get. destruct (dget str_eqb (f_charges f) k) as [v|]; [reflexivity|].
    unfold default_charges. cbn [dget]. destruct (str_eqb k (lit "y")); [now apply Qc_is_canon|]. destruct (str_eqb k (lit "3b")); now apply Qc_is_canon.
Qed.

(** Hypercharge and baryon number are found when the terms conserve them, and so is lepton number after it was assigned to the
    global fields. *)
Theorem C47_stored : forall sm k smc ex exc terms,
  (sm = sm_matter /\ (k = lit "y" \/ k = lit "3b")) \/ (sm = with_lepton_number sm_matter /\ (k = lit "y" \/ k = lit "3b" \/ k = lit "l")) ->
  setting sm smc ex exc -> Forall (fun f => f_is_conj f = false) ex ->
  Forall (fun t => exotic_in ex exc t -> Forall (known ((smc ++ sm) ++ (exc ++ ex))) t) terms ->
  (forall t, In t terms -> exotic_in ex exc t -> total (charge k) t = 0%Qc) ->
  exists m, u1_matrix sm ex terms = Ok m /\
    forall b, nullspace_of (6 + List.length ex) m b -> spanned (6 + List.length ex) b (map (charge k) (sm ++ ex)).
Proof.
  intros sm k smc ex exc terms Hk St Nc K Z.
  assert (Nm : Forall (fun f => f_is_conj f = false) (sm ++ ex)).
  { apply Forall_app. split; [|exact Nc]. destruct Hk as [[-> _]|[-> _]]; repeat constructor. }
  assert (V : vector (charge k) (sm ++ ex) = map (charge k) (sm ++ ex)).
  { unfold vector. clear - Nm. induction Nm as [|f l F _ IH]; [reflexivity|]. cbn [map]. rewrite IH. f_equal. unfold sign. rewrite F, int_1. ring. }
  rewrite <- V. apply (C47_conserved sm smc ex exc); auto; [apply charge_additive|].
  rewrite V, map_app. unfold yukawa.
  destruct Hk as [[-> [-> | ->]]|[-> [-> |[-> | ->]]]];
    (do 7 eexists; split; [reflexivity|]; split; [|split]; now apply Qc_is_canon).
Qed.

(** ** Examples *)

Definition separateb (l : list field) : bool :=
  forallb (fun i => forallb (fun j => (i =? j) || match nth_error l i, nth_error l j with Some f, Some g => negb (field_eqb f g) | _, _ => true end)
                            (seq 0 (List.length l))) (seq 0 (List.length l)).

Lemma separateb_ok l : separateb l = true -> separate l.
Proof.
  intros H i j f g I J N. unfold separateb in H. rewrite forallb_forall in H.
  assert (Li : i < List.length l) by (apply nth_error_Some; congruence). assert (Lj : j < List.length l) by (apply nth_error_Some; congruence).
  specialize (H i ltac:(apply in_seq; lia)). rewrite forallb_forall in H. specialize (H j ltac:(apply in_seq; lia)). rewrite I, J in H.
  apply orb_true_iff in H as [H|H]; [apply Nat.eqb_eq in H; contradiction|]. now apply negb_true_iff.
Qed.

(** a scalar leptoquark *)
Definition leptoquark : field :=
  mkField (lit "S") (lit "00010") (sm_charges (1 # 3) (-1)) false (lit "bose") [[1]] None 1 (lit "S") 1 0 None.

Ltac keys_tac := repeat constructor; cbn; try (intros s E; discriminate E); intuition discriminate.

Lemma leptoquark_setting : exists smc exc, setting sm_matter smc [leptoquark] exc.
Proof.
  eexists. eexists. constructor; [reflexivity|reflexivity|reflexivity|apply separateb_ok; vm_compute; reflexivity|]. keys_tac.
Qed.

Definition unknown_scalar : field := mkField (lit "T") (lit "00000") (sm_charges 0 0) false (lit "bose") [] None 1 (lit "T") 1 0 None.

(** the coupling of the leptoquark to Q and L, and its mass term *)
Example C47_example :
  exists c, conj_field leptoquark = Ok c /\
    u1_matrix sm_matter [leptoquark] [[sm_Q; sm_L; leptoquark]; [leptoquark; c]; [sm_L; sm_eb; sm_H]] =
      Ok [[0; 1; 0; 0; 1; 0; 1]; [0; 0; 0; 0; 0; 0; 0]; [1; 1; 1; 0; 0; 0; 0]; [-1; 1; 0; 1; 0; 0; 0]; [-1; 0; 0; 0; 1; 1; 0]]%Z /\
    total (charge (lit "y")) [sm_Q; sm_L; leptoquark] = 0%Qc /\
    term_to_row sm_matter [sm_Q; unknown_scalar] [leptoquark] (index_dict [leptoquark] [c]) = Err KeyError.
Proof. eexists. split; [reflexivity|]. split; [vm_compute; reflexivity|]. split; [now apply Qc_is_canon|]. vm_compute. reflexivity. Qed.

Print Assumptions C47_row.
Print Assumptions C47_row_stranger.
Print Assumptions C47_charge.
Print Assumptions C47_symmetries.
Print Assumptions C47_conserved.
Print Assumptions C47_stored.
Print Assumptions C47_example.
