(** * ProofsField: lemmas about fields *)

From Coq Require Import Ascii String List Bool Arith ZArith QArith Qcanon Lia Permutation.
From Verif Require Import Base BaseFacts Show ModelIndex SpecIndex ProofsIndex ModelField SpecField.
Import ListNotations.
Local Open Scope nat_scope.

(** ** charges *)

Lemma dset_snoc {V} (d : list (str * V)) k v : ~ In k (keys d) -> dset str_eqb d k v = d ++ [(k, v)].
Proof.
  induction d as [|[k1 v1] d IH]; cbn; intros N; [reflexivity|].
  rewrite (decides_neq str_decides) by (intros ->; tauto). rewrite IH by tauto. reflexivity.
Qed.

Lemma dupdate_fresh {V} (e d : list (str * V)) :
  NoDup (keys e) -> (forall k, In k (keys e) -> ~ In k (keys d)) -> dupdate str_eqb d e = d ++ e.
Proof.
  unfold dupdate. revert d. induction e as [|[k v] e IH]; intros d N H; cbn [fold_left fst snd].
  - now rewrite app_nil_r.
  - cbn in N. inversion N; subst. rewrite dset_snoc by (apply H; left; reflexivity). rewrite IH.
    + now rewrite <- app_assoc.
    + exact H3.
    + intros k' I. unfold keys. rewrite map_app, in_app_iff. cbn. intros [J|[<-|[]]].
      * apply (H k'); [now right|exact J].
      * contradiction.
Qed.

Lemma proper_update c : proper c -> dupdate str_eqb default_charges c = c.
Proof.
  intros (y & b & r & -> & N). unfold dupdate.
  change (fold_left (fun acc kv => dset str_eqb acc (fst kv) (snd kv)) r
            [(lit "y", y); (lit "3b", b)] = (lit "y", y) :: (lit "3b", b) :: r).
  change (fold_left (fun acc kv => dset str_eqb acc (fst kv) (snd kv)) r [(lit "y", y); (lit "3b", b)])
    with (dupdate str_eqb [(lit "y", y); (lit "3b", b)] r).
  rewrite dupdate_fresh; [reflexivity| |].
  - cbn [map fst] in N. inversion N as [|? ? N1 N2]; subst. now inversion N2.
  - cbn [map fst] in N. inversion N as [|? ? N1 N2]; subst. inversion N2 as [|? ? N3 N4]; subst.
    intros k I [J|[J|[]]]; cbn in J; subst k.
    + apply N1. right. exact I.
    + apply N3. exact I.
Qed.

Lemma proper_neg c : proper c -> proper (neg_charges c).
Proof.
  intros (y & b & r & -> & N). exists (- y)%Qc, (- b)%Qc, (neg_charges r). split; [reflexivity|].
  change (map fst ((lit "y", (- y)%Qc) :: (lit "3b", (- b)%Qc) :: neg_charges r))
    with (lit "y" :: lit "3b" :: map fst (neg_charges r)).
  unfold neg_charges. rewrite map_map. exact N.
Qed.

Lemma neg_neg c : neg_charges (neg_charges c) = c.
Proof.
  unfold neg_charges. rewrite map_map. rewrite <- (map_id c) at 2. apply map_ext. intros [k v]. cbn.
  now rewrite Qcopp_involutive.
Qed.

(** whatever dictionary is passed, the charges of a field are proper *)
Lemma update_proper c : proper (dupdate str_eqb default_charges c).
Proof.
  assert (N : NoDup (keys (dupdate str_eqb default_charges c))).
  { apply (NoDup_keys_dupdate str_decides). repeat constructor; cbn; intuition discriminate. }
  assert (H : exists y b r, dupdate str_eqb default_charges c = (lit "y", y) :: (lit "3b", b) :: r).
  { clear N. unfold default_charges. generalize (Q2Qc 0) at 2. generalize (Q2Qc 0) as y.
    assert (G : forall r y b, exists y' b' r', dupdate str_eqb ((lit "y", y) :: (lit "3b", b) :: r) c =
                                               (lit "y", y') :: (lit "3b", b') :: r').
    { induction c as [|[k v] c IH]; intros r y b; [cbn; eauto|].
      change (dupdate str_eqb ((lit "y", y) :: (lit "3b", b) :: r) ((k, v) :: c))
        with (dupdate str_eqb (dset str_eqb ((lit "y", y) :: (lit "3b", b) :: r) k v) c).
      cbn [dset]. destruct (str_eqb k (lit "y")); [apply IH|]. destruct (str_eqb k (lit "3b")); apply IH. }
    intros y b. apply G. }
  destruct H as (y & b & r & E). exists y, b, r. split; [exact E|exact N].
Qed.

(** ** Dynkin digits *)

Lemma digits_five a b c d e :
  a < 10 -> b < 10 -> c < 10 -> d < 10 -> e < 10 -> mapM digit_of (five a b c d e) = Ok [a; b; c; d; e].
Proof. intros. unfold five. cbn [mapM]. now rewrite !digit_of_digit by assumption. Qed.

Lemma field_ok_ints f a b c d e : field_ok f a b c d e -> dynkin_ints f = Ok [a; b; c; d; e].
Proof. intros (E & (Ha & Hb & Hc & Hd & He) & _). unfold dynkin_ints. rewrite E. now apply digits_five. Qed.

Lemma mk_field_ok label dynkin ch is_conj comm s history m latex nf derivs stripped :
  proper ch -> nf = 1 \/ nf = 3 ->
  mk_field label dynkin (Some ch) is_conj comm (Some s) history m (Some latex) nf derivs stripped =
  Ok (mkField label dynkin ch is_conj comm s history m latex nf derivs stripped).
Proof.
  intros P N. unfold mk_field. cbn [bind]. rewrite proper_update by exact P.
  destruct N as [-> | ->]; reflexivity.
Qed.

Lemma conj_field_ok f a b c d e :
  field_ok f a b c d e ->
  conj_field f = Ok (mkField (f_label f) (five b a d c e) (neg_charges (f_charges f)) (negb (f_is_conj f))
                       (f_comm f) (f_symmetry f) (f_history f) (f_multiplicity f) (f_latex f) (f_nf f) (f_derivs f)
                       (f_stripped f)).
Proof.
  intros H. pose proof (field_ok_ints _ _ _ _ _ _ H) as L. destruct H as (E & (Ha & Hb & Hc & Hd & He) & P & N).
  unfold conj_field, lorentz_irrep, colour_irrep, isospin_irrep, sm_irrep. rewrite L.
  cbn [bind firstn skipn rev app map concat].
  rewrite !show_nat_digit by assumption. cbn [app].
  rewrite mk_field_ok; [reflexivity|now apply proper_neg|exact N].
Qed.

Lemma conj_ok_field f a b c d e g :
  field_ok f a b c d e -> conj_field f = Ok g -> field_ok g b a d c e.
Proof.
  intros H E. rewrite (conj_field_ok _ _ _ _ _ _ H) in E. injection E as <-.
  destruct H as (E & (Ha & Hb & Hc & Hd & He) & P & N).
  split; [reflexivity|]. split; [auto|]. split; [now apply proper_neg|exact N].
Qed.

(** ** equality *)

Lemma nats_decides : decides nats_eqb. Proof. apply list_decides, nat_decides. Qed.
Lemma symmetry_decides : decides symmetry_eqb. Proof. apply list_decides, nats_decides. Qed.

Lemma Qc_eq_bool_iff a b : Qc_eq_bool a b = true <-> a = b.
Proof. unfold Qc_eq_bool. destruct (Qc_eq_dec a b); split; intros; auto; discriminate. Qed.

Lemma charges_eqb_spec a b :
  NoDup (keys a) -> NoDup (keys b) -> (charges_eqb a b = true <-> same_charges a b).
Proof.
  intros Na Nb. unfold charges_eqb. rewrite andb_true_iff, Nat.eqb_eq, forallb_forall. split.
  - intros [L F] k.
    assert (Sub : forall k v, In (k, v) a -> In (k, v) b).
    { intros k' v I. specialize (F _ I). cbn in F. destruct (dget str_eqb b k') as [w|] eqn:E; [|discriminate].
      apply Qc_eq_bool_iff in F. subst w. now apply (dget_In str_decides) in E. }
    assert (Keys : forall k, In k (keys b) -> In k (keys a)).
    { apply NoDup_length_incl; [exact Na| |].
      - unfold keys. rewrite !map_length. lia.
      - intros k' I. unfold keys in *. apply in_map_iff in I as ([k2 v] & <- & I). apply in_map_iff.
        exists (k2, v). split; [reflexivity|]. now apply Sub. }
    destruct (dget str_eqb a k) as [v|] eqn:Ea.
    + symmetry. apply (In_dget str_decides); [exact Nb|]. apply Sub. now apply (dget_In str_decides) in Ea.
    + symmetry. apply (dget_None str_decides). apply (dget_None str_decides) in Ea. auto.
  - intros H. assert (Sub : forall x y : charges, NoDup (keys x) -> NoDup (keys y) -> same_charges x y -> incl x y).
    { intros x y Nx Ny S [k v] I. apply (dget_In str_decides). rewrite <- S. now apply (In_dget str_decides). }
    split.
    + apply Nat.le_antisymm.
      * apply NoDup_incl_length; [|now apply Sub].
        apply (NoDup_map_inv fst). exact Na.
      * apply NoDup_incl_length; [apply (NoDup_map_inv fst); exact Nb|]. apply Sub; auto. intros k. symmetry. apply H.
    + intros [k v] I. cbn. rewrite <- H. rewrite (In_dget str_decides a k v Na I). now apply Qc_eq_bool_iff.
Qed.

Lemma proper_NoDup c : proper c -> NoDup (keys c).
Proof. intros (y & b & r & -> & N). exact N. Qed.

Lemma same_charges_keys_eq a b : NoDup (keys a) -> NoDup (keys b) -> same_charges a b -> keys a = keys b -> a = b.
Proof.
  revert b. induction a as [|[k v] a IH]; intros [|[k' v'] b] Na Nb S E; try discriminate; [reflexivity|].
  cbn in E. injection E as <- E. cbn in Na, Nb. inversion Na; inversion Nb; subst.
  assert (v = v').
  { specialize (S k). cbn in S. rewrite (decides_refl str_decides) in S. congruence. }
  subst v'. f_equal. apply IH; auto. intros k'. specialize (S k'). cbn in S.
  destruct (str_eqb k' k) eqn:Ek; [|exact S].
  apply str_decides in Ek. subst k'.
  assert (G : forall d : charges, ~ In k (keys d) -> dget str_eqb d k = None) by (intros d; apply (dget_None str_decides)).
  rewrite !G; auto. 
Qed.

(** ** indexing *)

Definition consistent_step (ud : nat * nat) (it : str * itype) : res (nat * nat) :=
  let '(i, t) := it in
  do idx <- new_index i;
  do _ <- assert_ (itype_eqb (ix_type idx) t);
  let lowered := match i with c :: _ => Ascii.eqb c "-" | [] => false end in
  if itype_eqb t Colour then
    Ok (if lowered then (fst ud, S (snd ud)) else (S (fst ud), snd ud))
  else do _ <- assert_ (negb lowered); Ok ud.

Lemma consistent_fold toks : forall types ud r,
  List.length toks = List.length types ->
  (foldM consistent_step (combine toks types) ud = Ok r <->
   exists idx, mapM new_index toks = Ok idx /\ map ix_type idx = types /\
     forallb (fun i => itype_eqb (ix_type i) Colour || ix_up i) idx = true /\
     r = (fst ud + count_kind Colour true idx, snd ud + count_kind Colour false idx)).
Proof.
  induction toks as [|tok toks IH]; intros [|t types] ud r L; try discriminate L.
  - cbn. split.
    + intros [= <-]. exists []. cbn. rewrite !Nat.add_0_r. destruct ud; auto.
    + intros (idx & [= <-] & _ & _ & ->). cbn. rewrite !Nat.add_0_r. destruct ud; auto.
  - cbn [combine foldM mapM]. injection L as L.
    destruct (new_index tok) as [i|x] eqn:Ei.
    2:{ cbn [consistent_step]. rewrite Ei. cbn. split; [discriminate|]. intros (idx & E & _). discriminate. }
    pose proof (new_index_height _ _ Ei) as Hh.
    assert (Hl : match tok with c :: _ => Ascii.eqb c "-" | [] => false end = negb (ix_up i)).
    { rewrite Hh. destruct tok; [reflexivity|]. now rewrite negb_involutive. }
    cbn [consistent_step]. rewrite Ei. cbn [bind]. rewrite Hl.
    destruct (itype_eqb (ix_type i) t) eqn:Et; cbn [assert_ bind].
    2:{ split; [discriminate|]. intros (idx & E & T & _). apply bind_ok in E as (idx' & _ & E). injection E as <-.
        cbn in T. injection T as T _. subst t. rewrite (decides_refl itype_decides) in Et. discriminate. }
    apply itype_decides in Et. subst t. cbv zeta.
    assert (Red : forall ud', foldM consistent_step (combine toks types) ud' = Ok r <->
                   exists idx, mapM new_index toks = Ok idx /\ map ix_type idx = types /\
                     forallb (fun i => itype_eqb (ix_type i) Colour || ix_up i) idx = true /\
                     r = (fst ud' + count_kind Colour true idx, snd ud' + count_kind Colour false idx))
      by (intros; now apply IH).
    split.
    + intros H.
      assert (H' : (itype_eqb (ix_type i) Colour || ix_up i = true) /\
                   exists idx, mapM new_index toks = Ok idx /\ map ix_type idx = types /\
                     forallb (fun i => itype_eqb (ix_type i) Colour || ix_up i) idx = true /\
                     r = (fst ud + count_kind Colour true (i :: idx), snd ud + count_kind Colour false (i :: idx))).
      { destruct (itype_eqb (ix_type i) Colour) eqn:Ec.
        - split; [reflexivity|]. cbn [bind] in H. apply Red in H as (idx & E1 & E2 & E3 & E4).
          exists idx. repeat (split; [assumption|]). rewrite E4, !count_kind_cons, Ec. cbn [andb].
          destruct (ix_up i); cbn [negb fst snd Bool.eqb]; f_equal; lia.
        - destruct (ix_up i) eqn:Eu; cbn [negb assert_ bind] in H; [|discriminate]. split; [reflexivity|].
          apply Red in H as (idx & E1 & E2 & E3 & E4).
          exists idx. repeat (split; [assumption|]). rewrite E4, !count_kind_cons, Ec. cbn [andb]. reflexivity. }
      destruct H' as (Hi & idx & E1 & E2 & E3 & E4). exists (i :: idx). rewrite E1. cbn [bind map forallb].
      rewrite E2, Hi, E3. auto.
    + intros (idx & E & T & F & R). apply bind_ok in E as (idx' & E1 & E). injection E as <-.
      cbn [map] in T. injection T as T. cbn [forallb] in F. apply andb_true_iff in F as [Fi F].
      destruct (itype_eqb (ix_type i) Colour) eqn:Ec.
      * cbn [bind]. apply Red. exists idx'. repeat (split; [assumption|]).
        rewrite R, !count_kind_cons, Ec. cbn [andb]. destruct (ix_up i); cbn [negb fst snd Bool.eqb]; f_equal; lia.
      * cbn [orb] in Fi. rewrite Fi. cbn [negb assert_ bind]. apply Red. exists idx'.
        repeat (split; [assumption|]). rewrite R, !count_kind_cons, Ec. cbn [andb]. reflexivity.
Qed.

Lemma mapM_length {A B} (f : A -> res B) l r : mapM f l = Ok r -> List.length r = List.length l.
Proof.
  revert r. induction l as [|x l IH]; cbn; intros r H; [injection H as <-; reflexivity|].
  apply bind_ok in H as (y & _ & H). apply bind_ok in H as (ys & E & H). injection H as <-. cbn. f_equal. auto.
Qed.

Lemma consistent_iff toks types c d :
  assert_consistent_indices toks types (c, d) = Ok tt <->
  exists idx, mapM new_index toks = Ok idx /\ map ix_type idx = types /\
    forallb (fun i => itype_eqb (ix_type i) Colour || ix_up i) idx = true /\
    count_kind Colour true idx = c /\ count_kind Colour false idx = d.
Proof.
  unfold assert_consistent_indices.
  change (foldM _ (combine toks types) (0, 0)) with (foldM consistent_step (combine toks types) (0, 0)).
  destruct (List.length toks =? List.length types) eqn:L; cbn [assert_ bind].
  - apply Nat.eqb_eq in L. split.
    + intros H. apply bind_ok in H as (r & H & R). apply (consistent_fold _ _ _ _ L) in H as (idx & E1 & E2 & E3 & E4).
      exists idx. repeat (split; [assumption|]). subst r. cbn [fst snd Nat.add] in R.
      destruct (_ && _) eqn:Q in R; [|discriminate]. apply andb_true_iff in Q as [Q1 Q2].
      apply Nat.eqb_eq in Q1, Q2. auto.
    + intros (idx & E1 & E2 & E3 & E4 & E5).
      assert (H : foldM consistent_step (combine toks types) (0, 0) = Ok (c, d)).
      { apply (consistent_fold _ _ _ _ L). exists idx. repeat (split; [assumption|]). cbn. now rewrite E4, E5. }
      rewrite H. cbn [bind fst snd]. now rewrite !Nat.eqb_refl.
  - split; [discriminate|]. intros (idx & E1 & E2 & _). apply Nat.eqb_neq in L. exfalso. apply L.
    rewrite <- E2, map_length. symmetry. now apply (mapM_length _ _ _ E1).
Qed.

Lemma count_kind_app t up l l' : count_kind t up (l ++ l') = count_kind t up l + count_kind t up l'.
Proof. unfold count_kind. now rewrite filter_app, app_length. Qed.

Lemma count_kind_none t up l : (forall i, In i l -> ix_type i <> t) -> count_kind t up l = 0.
Proof.
  induction l as [|i l IH]; intros H; [reflexivity|]. rewrite count_kind_cons, IH by (intros; apply H; now right).
  rewrite (decides_neq itype_decides); [reflexivity|]. apply H. now left.
Qed.

Lemma types_repeat l t n : map ix_type l = repeat t n -> forall i, In i l -> ix_type i = t.
Proof.
  intros E i I. apply (in_map ix_type) in I. rewrite E in I. now apply repeat_spec in I.
Qed.

Lemma colour_counts l n :
  map ix_type l = repeat Colour n ->
  count_kind Colour true l = count_occ Bool.bool_dec (map ix_up l) true /\
  count_kind Colour false l = count_occ Bool.bool_dec (map ix_up l) false.
Proof.
  revert n. induction l as [|i l IH]; intros n E; [auto|]. destruct n; [discriminate|].
  cbn in E. injection E as E1 E. destruct (IH _ E) as [H1 H2].
  rewrite !count_kind_cons, E1. cbn [itype_eqb andb map count_occ].
  destruct (ix_up i); cbn; rewrite H1, H2; auto.
Qed.

Lemma up_repeat l t n :
  t <> Colour -> map ix_type l = repeat t n ->
  forallb (fun i => itype_eqb (ix_type i) Colour || ix_up i) l = true -> map kind l = repeat (t, true) n.
Proof.
  intros Nt. revert n. induction l as [|i l IH]; intros n E F; destruct n; try discriminate E; [reflexivity|].
  cbn in E. injection E as E1 E. cbn [forallb] in F. apply andb_true_iff in F as [F1 F].
  cbn [map repeat]. rewrite (IH n E F). f_equal. unfold kind. rewrite E1 in *.
  rewrite (decides_neq itype_decides Nt) in F1. cbn in F1. now rewrite F1.
Qed.

Lemma fits_iff idx a b c d e :
  fits a b c d e (map kind idx) <->
  map ix_type idx = call_types a b c d e /\
  forallb (fun i => itype_eqb (ix_type i) Colour || ix_up i) idx = true /\
  count_kind Colour true idx = c /\ count_kind Colour false idx = d.
Proof.
  split.
  - intros (hs & Ec & Ed & K).
    assert (T : map ix_type idx = map fst (map kind idx)) by (rewrite map_map; reflexivity).
    assert (Rf : forall (p : itype * bool) n, map fst (repeat p n) = repeat (fst p) n).
    { intros p n. induction n; cbn; congruence. }
    assert (Lh : List.length hs = c + d).
    { rewrite <- Ec, <- Ed. clear. induction hs as [|[] hs IH]; cbn; lia. }
    split; [|split; [|]].
    + rewrite T, K. unfold call_types. rewrite !map_app, !Rf, map_map. cbn [fst].
      f_equal. f_equal. f_equal.
      rewrite <- Lh. clear. induction hs; cbn; congruence.
    + assert (G : forallb (fun p => itype_eqb (fst p) Colour || snd p) (map kind idx) = true).
      { rewrite K. rewrite !forallb_app, !andb_true_iff.
        assert (R : forall (p : itype * bool) n, itype_eqb (fst p) Colour || snd p = true ->
                    forallb (fun p => itype_eqb (fst p) Colour || snd p) (repeat p n) = true).
        { intros p n Hp. induction n as [|n IH]; [reflexivity|]. cbn [repeat forallb]. now rewrite Hp, IH. }
        repeat split; try (now apply R). clear. induction hs; cbn; auto. }
      clear - G. induction idx as [|i idx IH]; [reflexivity|]. cbn [map forallb] in *.
      apply andb_true_iff in G as [G1 G2]. cbn [kind fst snd] in G1. rewrite G1. now apply IH.
    + assert (C : forall up, count_kind Colour up idx =
                  List.length (filter (fun p => itype_eqb (fst p) Colour && Bool.eqb (snd p) up) (map kind idx))).
      { intros up. clear. induction idx as [|i idx IH]; [reflexivity|].
        rewrite count_kind_cons, IH. cbn [map filter kind fst snd].
        now destruct (itype_eqb (ix_type i) Colour && Bool.eqb (ix_up i) up). }
      rewrite !C, K, !filter_app, !app_length.
      assert (Z0 : forall t n up, t <> Colour ->
                filter (fun p => itype_eqb (fst p) Colour && Bool.eqb (snd p) up) (repeat (t, true) n) = []).
      { intros t n up Nt. induction n as [|n IH]; [reflexivity|]. cbn [repeat filter fst].
        now rewrite (decides_neq itype_decides Nt). }
      rewrite !Z0 by discriminate. cbn [List.length]. rewrite !Nat.add_0_r, !Nat.add_0_l.
      rewrite <- Ec, <- Ed. clear. induction hs as [|[] hs [IH1 IH2]]; cbn; auto.
  - intros (T & F & Ec & Ed). unfold call_types in T.
    apply map_eq_app in T as (l1 & r1 & -> & T1 & T). apply map_eq_app in T as (l2 & r2 & -> & T2 & T).
    apply map_eq_app in T as (l3 & l4 & -> & T3 & T4).
    rewrite !forallb_app, !andb_true_iff in F. destruct F as (F1 & F2 & F3 & F4).
    pose proof (types_repeat _ _ _ T1) as R1. pose proof (types_repeat _ _ _ T2) as R2.
    pose proof (types_repeat _ _ _ T4) as R4.
    rewrite !count_kind_app in Ec, Ed.
    assert (Zs : forall up l t, t <> Colour -> (forall i, In i l -> ix_type i = t) -> count_kind Colour up l = 0).
    { intros up l t Nt Hl. apply count_kind_none. intros i I. rewrite (Hl i I). exact Nt. }
    rewrite (Zs true l1 Undotted), (Zs true l2 Dotted), (Zs true l4 Isospin) in Ec by (assumption || discriminate).
    rewrite (Zs false l1 Undotted), (Zs false l2 Dotted), (Zs false l4 Isospin) in Ed by (assumption || discriminate).
    destruct (colour_counts _ _ T3) as [C1 C2].
    exists (map ix_up l3). split; [lia|]. split; [lia|].
    rewrite !map_app, (up_repeat l1 Undotted a), (up_repeat l2 Dotted b), (up_repeat l4 Isospin e)
      by (assumption || discriminate).
    do 3 f_equal. clear - T3. revert T3. generalize (c + d). induction l3 as [|i l3 IH]; intros n E; [reflexivity|].
    destruct n; [discriminate|]. cbn in E. injection E as E1 E. cbn. rewrite (IH n E). unfold kind. now rewrite E1.
Qed.

(** a token beginning with g is always read as a generation index *)
Lemma g_token c r : Ascii.eqb c "g" = true -> new_index (c :: r) = Ok (mkIndex (c :: r) ("g"%char :: lower r) Generation true).
Proof.
  intros E. apply Ascii.eqb_eq in E. subst c.
  rewrite (new_index_spelled _ false false Generation (lower r)); [|reflexivity]. now rewrite app_nil_r.
Qed.

Lemma call_filter l :
  filter (fun i => match i with c :: _ => negb (Ascii.eqb c "g") | [] => true end) l = filter (fun i => negb (is_g i)) l.
Proof. apply filter_ext. now intros []. Qed.

Lemma split_ws_nonempty s tok : In tok (split_ws s) -> tok <> [].
Proof. unfold split_ws. rewrite filter_In. now destruct tok. Qed.

(** reading all tokens, and those that are not generation indices *)
Lemma tokens_gauge toks : 
  (exists idx, mapM new_index toks = Ok idx) <-> (exists idx, mapM new_index (filter (fun i => negb (is_g i)) toks) = Ok idx).
Proof.
  induction toks as [|tok toks IH]; [split; intros; exists []; reflexivity|].
  cbn [filter]. destruct (is_g tok) eqn:G; cbn [negb].
  - rewrite <- IH. destruct tok as [|c r]; [discriminate|]. cbn [is_g] in G. cbn [mapM]. rewrite (g_token _ _ G).
    cbn [bind]. split; intros (idx & E).
    + apply bind_ok in E as (idx' & E & _). eauto.
    + rewrite E. cbn. eauto.
  - cbn [mapM]. destruct (new_index tok) as [i|x]; cbn [bind].
    + split; intros (idx & E); apply bind_ok in E as (idx' & E & _).
      * destruct (proj1 IH (ex_intro _ _ E)) as (z & ->). cbn. eauto.
      * destruct (proj2 IH (ex_intro _ _ E)) as (z & ->). cbn. eauto.
    + split; intros (idx & E); discriminate.
Qed.

Lemma tokens_split toks idx gidx :
  mapM new_index toks = Ok idx -> mapM new_index (filter (fun i => negb (is_g i)) toks) = Ok gidx ->
  (forall i, In i gidx -> ix_type i <> Generation) ->
  gidx = filter (fun i => negb (is_generation i)) idx /\
  List.length (filter is_generation idx) = List.length (filter is_g toks) /\
  (forall i, In i idx -> is_generation i = true -> ix_up i = true).
Proof.
  revert idx gidx. induction toks as [|tok toks IH]; intros idx gidx E1 E2 N.
  - cbn in E1, E2. injection E1 as <-. injection E2 as <-. cbn. repeat split; tauto.
  - cbn [mapM] in E1. apply bind_ok in E1 as (i & Ei & E1). apply bind_ok in E1 as (idx' & E1 & E). injection E as <-.
    cbn [filter] in E2 |- *. destruct (is_g tok) eqn:G; cbn [negb] in E2.
    + destruct tok as [|c r]; [discriminate|]. cbn [is_g] in G. rewrite (g_token _ _ G) in Ei. injection Ei as <-.
      destruct (IH _ _ E1 E2 N) as (H1 & H2 & H3). cbn [is_generation ix_type itype_eqb negb]. 
      split; [exact H1|]. split; [cbn; now rewrite H2|]. intros j [<-|I]; [reflexivity|auto].
    + cbn [mapM] in E2. rewrite Ei in E2. cbn [bind] in E2. apply bind_ok in E2 as (g' & E2 & E). injection E as <-.
      assert (Ni : is_generation i = false).
      { apply (decides_neq itype_decides). apply N. now left. }
      destruct (IH _ _ E1 E2) as (H1 & H2 & H3); [intros; apply N; now right|].
      rewrite Ni. cbn [negb]. split; [now rewrite H1|]. split; [exact H2|].
      intros j [<-|I]; [congruence|auto].
Qed.

Lemma count_kind_filter t up l :
  t <> Generation -> count_kind t up (filter (fun i => negb (is_generation i)) l) = count_kind t up l.
Proof.
  intros Nt. induction l as [|i l IH]; [reflexivity|]. cbn [filter]. rewrite count_kind_cons.
  destruct (is_generation i) eqn:G; cbn [negb].
  - rewrite IH. unfold is_generation in G. apply itype_decides in G. rewrite G.
    rewrite (decides_neq itype_decides); [reflexivity|congruence].
  - now rewrite count_kind_cons, IH.
Qed.

Lemma filter_split_length {A} (P : A -> bool) l :
  List.length l = List.length (filter P l) + List.length (filter (fun x => negb (P x)) l).
Proof. induction l as [|x l IH]; [reflexivity|]. cbn. destruct (P x); cbn; lia. Qed.

Lemma fits_length a b c d e k : fits a b c d e k -> List.length k = a + b + c + d + e.
Proof.
  intros (hs & Ec & Ed & ->). rewrite !app_length, !repeat_length, map_length.
  assert (L : List.length hs = c + d).
  { rewrite <- Ec, <- Ed. clear. induction hs as [|[] hs IH]; cbn; lia. }
  lia.
Qed.

Lemma fits_counts idx a b c d e :
  fits a b c d e (map kind idx) ->
  count_kind Undotted true idx = a /\ count_kind Dotted true idx = b /\ count_kind Colour true idx = c /\
  count_kind Colour false idx = d /\ count_kind Isospin true idx = e.
Proof.
  intros (hs & Ec & Ed & K).
  assert (C : forall t up, count_kind t up idx =
                  List.length (filter (fun p => itype_eqb (fst p) t && Bool.eqb (snd p) up) (map kind idx))).
  { intros t up. clear. induction idx as [|i idx IH]; [reflexivity|].
    rewrite count_kind_cons, IH. cbn [map filter kind fst snd].
    now destruct (itype_eqb (ix_type i) t && Bool.eqb (ix_up i) up). }
  rewrite !C, K, !filter_app, !app_length.
  assert (R : forall p n t up, List.length (filter (fun p => itype_eqb (fst p) t && Bool.eqb (snd p) up) (repeat p n)) =
                         if itype_eqb (fst p) t && Bool.eqb (snd p) up then n else 0).
  { intros p n t up. induction n as [|n IH]; cbn [repeat filter]; [now destruct (_ && _)|].
    destruct (itype_eqb (fst p) t && Bool.eqb (snd p) up); cbn; rewrite IH; reflexivity. }
  assert (H : forall t up, List.length (filter (fun p => itype_eqb (fst p) t && Bool.eqb (snd p) up) (map (pair Colour) hs)) =
                    if itype_eqb Colour t then count_occ Bool.bool_dec hs up else 0).
  { intros t up. clear. induction hs as [|h hs IH]; cbn [map filter count_occ fst snd]; [now destruct (itype_eqb Colour t)|].
    destruct (itype_eqb Colour t); cbn [andb]; [|exact IH]. destruct h, up; cbn; rewrite ?IH; reflexivity. }
  rewrite !R, !H. cbn. repeat split; lia.
Qed.

Lemma list_sum_app' l l' : list_sum (l ++ l') = list_sum l + list_sum l'.
Proof. apply list_sum_app. Qed.

(** building the indexed field once the indices are known *)
Lemma mk_ifield_ok label a l s ch is_conj comm latex nf derivs stripped p q r t u :
  arg_indices a = Ok l -> proper ch -> (nf = 1 \/ nf = 3) ->
  rank s + List.length (filter is_generation l) = List.length l -> List.length (filter is_generation l) <= 1 ->
  forallb kinds_ok l = true ->
  count_kind Undotted true l = p -> count_kind Dotted true l = q -> count_kind Colour true l = r ->
  count_kind Colour false l = t -> count_kind Isospin true l = u ->
  p < 10 -> q < 10 -> r < 10 -> t < 10 -> u < 10 ->
  mk_ifield (mkIargs label a (Some ch) is_conj (Some s) comm (Some latex) nf derivs stripped) =
  Ok (mkIField (mkField label (five p q r t u) ch is_conj comm s None 1 latex nf derivs stripped) l (arg_after a)).
Proof.
  intros El P Nf Rk G Ko C1 C2 C3 C4 C5 Hp Hq Hr Ht Hu. unfold mk_ifield. cbn [a_indices a_symmetry a_label a_charges
    a_is_conj a_comm a_latex a_nf a_derivs a_stripped]. rewrite El. cbn [bind].
  assert (Ex : existsb is_generation l = (0 <? List.length (filter is_generation l))).
  { clear. induction l as [|i l IH]; [reflexivity|]. cbn [existsb filter]. destruct (is_generation i); [reflexivity|exact IH]. }
  assert (As : list_sum (map list_sum (s ++ (if existsb is_generation l then [[1]] else []))) =? List.length l = true).
  { apply Nat.eqb_eq. rewrite map_app, list_sum_app. fold (rank s). rewrite <- Rk. rewrite Ex.
    destruct (List.length (filter is_generation l)) as [|[|n]]; cbn; lia. }
  rewrite As. cbn [assert_ bind]. rewrite (get_dynkin_ok _ Ko). cbn [bind].
  rewrite C1, C2, C3, C4, C5, !show_nat_digit by assumption. cbn [app].
  rewrite mk_field_ok by assumption. reflexivity.
Qed.

Lemma field_eqb_refl f : NoDup (keys (f_charges f)) ->
  (forall s, f_stripped f = Some s -> NoDup (keys (s_charges s))) -> field_eqb f f = true.
Proof.
  intros N Ns. unfold field_eqb. rewrite !(decides_refl str_decides), (decides_refl symmetry_decides), !Nat.eqb_refl.
  replace (charges_eqb (f_charges f) (f_charges f)) with true.
  2:{ symmetry. apply charges_eqb_spec; auto. intros k. reflexivity. }
  rewrite (decides_refl bool_decides). cbn [andb]. destruct (f_stripped f) as [s|] eqn:Es; [|reflexivity].
  cbn [stripped_eqb]. rewrite !(decides_refl str_decides), (decides_refl symmetry_decides).
  replace (charges_eqb (s_charges s) (s_charges s)) with true; [reflexivity|].
  symmetry. apply charges_eqb_spec; auto. intros k. reflexivity.
Qed.

Lemma rank_symmetry_of l : rank (symmetry_of l) = list_sum l.
Proof.
  unfold rank. induction l as [|n l IH]; [reflexivity|]. cbn [symmetry_of flat_map list_sum fold_right].
  change (fold_right Nat.add 0 l) with (list_sum l). rewrite map_app, list_sum_app.
  change (flat_map (fun i => if i =? 0 then [] else [repeat 1 i]) l) with (symmetry_of l). rewrite IH.
  destruct n as [|n]; [reflexivity|]. f_equal. cbn [Nat.eqb map list_sum fold_right]. rewrite Nat.add_0_r.
  induction (S n) as [|m IHm]; [reflexivity|]. cbn. change (fold_right Nat.add 0 (repeat 1 m)) with (list_sum (repeat 1 m)).
  now rewrite IHm.
Qed.

Lemma gauge_no_generation a b c d e idx :
  fits a b c d e (map kind idx) -> forall i, In i idx -> ix_type i <> Generation.
Proof.
  intros H i I E. apply fits_iff in H as (T & _). apply (in_map ix_type) in I. rewrite T, E in I.
  unfold call_types in I. rewrite !in_app_iff in I.
  destruct I as [I|[I|[I|I]]]; apply repeat_spec in I; discriminate.
Qed.

(** what a successful call returns, and when it succeeds *)
Lemma call_field_spec f a b c d e s :
  field_ok f a b c d e -> rank (f_symmetry f) = a + b + c + d + e ->
  ((exists x, call_field f s = Ok x) <->
   (exists idx, mapM new_index (filter (fun i => negb (is_g i)) (split_ws s)) = Ok idx /\
                fits a b c d e (map kind idx)) /\
   List.length (filter is_g (split_ws s)) <= 1) /\
  (forall x, call_field f s = Ok x ->
     exists idx, mapM new_index (split_ws s) = Ok idx /\
       fits a b c d e (map kind (filter (fun i => negb (is_generation i)) idx)) /\
       x = mkIField (mkField (label_with_dagger f) (f_dynkin f) (f_charges f) (f_is_conj f) (f_comm f) (f_symmetry f)
                       None 1 (f_latex f) (f_nf f) (f_derivs f) (f_stripped f)) idx (AStr s)).
Proof.
  intros F Rk. pose proof (field_ok_ints _ _ _ _ _ _ F) as L. destruct F as (Ed & (Ha & Hb & Hc & Hd & He) & P & N).
  assert (Main : forall gidx, mapM new_index (filter (fun i => negb (is_g i)) (split_ws s)) = Ok gidx ->
            fits a b c d e (map kind gidx) -> List.length (filter is_g (split_ws s)) <= 1 ->
            exists idx, mapM new_index (split_ws s) = Ok idx /\
              fits a b c d e (map kind (filter (fun i => negb (is_generation i)) idx)) /\
              call_field f s = Ok (mkIField (mkField (label_with_dagger f) (f_dynkin f) (f_charges f) (f_is_conj f)
                (f_comm f) (f_symmetry f) None 1 (f_latex f) (f_nf f) (f_derivs f) (f_stripped f)) idx (AStr s))).
  { intros gidx Eg Fg Lg.
    destruct (proj2 (tokens_gauge (split_ws s)) (ex_intro _ _ Eg)) as (idx & Ei).
    destruct (tokens_split _ _ _ Ei Eg (gauge_no_generation _ _ _ _ _ _ Fg)) as (H1 & H2 & H3).
    exists idx. split; [exact Ei|]. rewrite <- H1. split; [exact Fg|].
    unfold call_field. rewrite L. cbn [bind]. rewrite call_filter.
    assert (As : assert_consistent_indices (filter (fun i => negb (is_g i)) (split_ws s)) (call_types a b c d e) (c, d) = Ok tt).
    { apply consistent_iff. exists gidx. split; [exact Eg|]. now apply fits_iff. }
    rewrite As. cbn [bind]. rewrite Ed.
    destruct (fits_counts _ _ _ _ _ _ Fg) as (C1 & C2 & C3 & C4 & C5).
    rewrite H1 in C1, C2, C3, C4, C5. rewrite count_kind_filter in C1, C2, C3, C4, C5 by discriminate.
    apply mk_ifield_ok; auto.
    - rewrite Rk, (filter_split_length is_generation idx). pose proof (fits_length _ _ _ _ _ _ Fg) as Lf.
      rewrite map_length, H1 in Lf. lia.
    - lia.
    - apply forallb_forall. intros i I. unfold kinds_ok. destruct (is_generation i) eqn:G.
      + fold (is_generation i). rewrite G. now rewrite orb_true_r.
      + assert (Ig : In i gidx) by (rewrite H1; apply filter_In; now rewrite G).
        apply fits_iff in Fg as (_ & Fa & _). rewrite forallb_forall in Fa. specialize (Fa i Ig).
        fold (is_generation i). rewrite G, orb_false_r, orb_comm. exact Fa. }
  assert (Back : forall x, call_field f s = Ok x ->
            exists gidx, mapM new_index (filter (fun i => negb (is_g i)) (split_ws s)) = Ok gidx /\
                         fits a b c d e (map kind gidx) /\ List.length (filter is_g (split_ws s)) <= 1).
  { intros x H. unfold call_field in H. rewrite L in H. cbn [bind] in H. rewrite call_filter in H.
    apply bind_ok in H as ([] & As & H). apply consistent_iff in As as (gidx & Eg & Q).
    assert (Fg : fits a b c d e (map kind gidx)) by now apply fits_iff.
    exists gidx. split; [exact Eg|]. split; [exact Fg|].
    unfold mk_ifield in H. cbn [a_indices arg_indices a_symmetry] in H. apply bind_ok in H as (idx & Ei & H).
    destruct (tokens_split _ _ _ Ei Eg (gauge_no_generation _ _ _ _ _ _ Fg)) as (H1 & H2 & H3).
    apply bind_ok in H as ([] & Sm & _).
    destruct (_ =? _) eqn:Q1 in Sm; [|discriminate]. apply Nat.eqb_eq in Q1.
    rewrite map_app, list_sum_app in Q1. fold (rank (f_symmetry f)) in Q1. rewrite Rk in Q1.
    rewrite (filter_split_length is_generation idx), <- H1, H2 in Q1.
    pose proof (fits_length _ _ _ _ _ _ Fg) as Lf. rewrite map_length in Lf.
    destruct (existsb is_generation idx); cbn in Q1; lia. }
  split.
  - split.
    + intros (x & H). destruct (Back x H) as (gidx & Eg & Fg & Lg). eauto.
    + intros ((gidx & Eg & Fg) & Lg). destruct (Main gidx Eg Fg Lg) as (idx & _ & _ & E). eauto.
  - intros x H. destruct (Back x H) as (gidx & Eg & Fg & Lg). destruct (Main gidx Eg Fg Lg) as (idx & E1 & E2 & E3).
    exists idx. split; [exact E1|]. split; [exact E2|]. rewrite E3 in H. now injection H.
Qed.

(** ** conjugation of indexed fields *)

Lemma token_nonempty tok : token_ok tok -> tok <> [] /\ ~ In " "%char tok.
Proof.
  intros (low & auto & t & rest & -> & _ & _ & N). split.
  - destruct low, auto; discriminate.
  - assert (Hl : letter t <> " "%char) by (destruct t; discriminate).
    destruct low, auto; cbn [spelled app In]; intuition discriminate.
Qed.

Lemma replace_absent a b x : ~ In a x -> replace_char a b x = x.
Proof.
  intros N. unfold replace_char. rewrite <- (map_id x) at 2. apply map_ext_in. intros c I.
  destruct (Ascii.eqb_spec c a); [now subst|reflexivity].
Qed.

Definition conj_kind (k : itype * bool) : itype * bool :=
  (conj_type (fst k), match fst k with Colour => negb (snd k) | _ => snd k end).

Lemma conj_token tok i :
  token_ok tok -> new_index tok = Ok i ->
  exists tok' j, token_ok tok' /\ conj_index i = Ok j /\ new_index tok' = Ok j /\ ix_label j = tok' /\
                 kind j = conj_kind (kind i) /\ conj_index j = Ok i.
Proof.
  intros (low & auto & t & rest & -> & Nu & Nd & Ns) Hi.
  assert (Sp : forall low t, new_index (spelled low auto t rest) =
            Ok (mkIndex (spelled low auto t rest) (letter t :: lower rest ++ (if auto then lit "_" else [])) t (negb low))).
  { intros. apply new_index_spelled, lower_spelled. }
  rewrite Sp in Hi. injection Hi as <-.
  destruct t.
  - exists (spelled low auto Dotted rest). eexists. split; [exists low, auto, Dotted, rest; auto|].
    unfold conj_index at 1. cbn [ix_type ix_label].
    rewrite (replace_spelled _ _ Undotted Dotted) by reflexivity. rewrite replace_absent by exact Nu.
    rewrite Sp. repeat (split; [reflexivity|]). unfold conj_index. cbn [ix_type ix_label].
    rewrite (replace_spelled _ _ Dotted Undotted) by reflexivity. rewrite replace_absent by exact Nd. now rewrite Sp.
  - exists (spelled low auto Undotted rest). eexists. split; [exists low, auto, Undotted, rest; auto|].
    unfold conj_index at 1. cbn [ix_type ix_label].
    rewrite (replace_spelled _ _ Dotted Undotted) by reflexivity. rewrite replace_absent by exact Nd.
    rewrite Sp. repeat (split; [reflexivity|]). unfold conj_index. cbn [ix_type ix_label].
    rewrite (replace_spelled _ _ Undotted Dotted) by reflexivity. rewrite replace_absent by exact Nu. now rewrite Sp.
  - exists (spelled (negb low) auto Colour rest).
    exists (mkIndex (spelled (negb low) auto Colour rest) (letter Colour :: lower rest ++ (if auto then lit "_" else []))
              Colour (negb (negb low))).
    split; [exists (negb low), auto, Colour, rest; auto|].
    assert (Ng : forall low, neg_index (mkIndex (spelled low auto Colour rest)
                   (letter Colour :: lower rest ++ (if auto then lit "_" else [])) Colour (negb low)) =
                 new_index (spelled (negb low) auto Colour rest)) by now intros [].
    split; [exact (eq_trans (Ng low) (Sp _ _))|]. split; [apply Sp|]. split; [reflexivity|].
    split; [reflexivity|].
    refine (eq_trans (Ng (negb low)) _). rewrite Sp, negb_involutive. reflexivity.
  - exists (spelled low auto Isospin rest). eexists. split; [exists low, auto, Isospin, rest; auto|].
    cbn. split; [reflexivity|]. split; [apply Sp|]. auto.
  - exists (spelled low auto Generation rest). eexists. split; [exists low, auto, Generation, rest; auto|].
    cbn. split; [reflexivity|]. split; [apply Sp|]. auto.
Qed.

Lemma conj_tokens toks idx :
  Forall token_ok toks -> mapM new_index toks = Ok idx ->
  exists toks' idx', Forall token_ok toks' /\ mapM conj_index idx = Ok idx' /\ mapM new_index toks' = Ok idx' /\
    map ix_label idx' = toks' /\ map kind idx' = map conj_kind (map kind idx) /\ mapM conj_index idx' = Ok idx.
Proof.
  intros H. revert idx. induction H as [|tok toks Ht H IH]; intros idx E.
  - cbn in E. injection E as <-. exists [], []. repeat split; constructor.
  - cbn [mapM] in E. apply bind_ok in E as (i & Ei & E). apply bind_ok in E as (idx0 & E0 & E). injection E as <-.
    destruct (conj_token _ _ Ht Ei) as (tok' & j & T1 & T2 & T3 & T4 & T5 & T6).
    destruct (IH _ E0) as (toks' & idx' & L1 & L2 & L3 & L4 & L5 & L6).
    exists (tok' :: toks'), (j :: idx'). cbn [mapM map]. rewrite T2, T3, T6, L2, L3, L6, T4, T5, L4, L5.
    repeat split. constructor; auto.
Qed.

Lemma count_kind_kinds t up l :
  count_kind t up l = List.length (filter (fun p => itype_eqb (fst p) t && Bool.eqb (snd p) up) (map kind l)).
Proof.
  induction l as [|i l IH]; [reflexivity|].
  rewrite count_kind_cons, IH. cbn [map filter kind fst snd].
  now destruct (itype_eqb (ix_type i) t && Bool.eqb (ix_up i) up).
Qed.

Lemma count_kind_conj t up l l' :
  map kind l' = map conj_kind (map kind l) ->
  count_kind t up l' = count_kind (conj_type t) (match t with Colour => negb up | _ => up end) l.
Proof.
  intros E. rewrite !count_kind_kinds, E. clear E. induction (map kind l) as [|k ks IH]; [reflexivity|].
  cbn [map filter]. 
  assert (Q : itype_eqb (fst (conj_kind k)) t && Bool.eqb (snd (conj_kind k)) up =
              itype_eqb (fst k) (conj_type t) && Bool.eqb (snd k) (match t with Colour => negb up | _ => up end))
    by (destruct k as [[] []], t, up; reflexivity).
  rewrite Q.
  destruct (itype_eqb (fst k) (conj_type t) && Bool.eqb (snd k) (match t with Colour => negb up | _ => up end));
    cbn [List.length]; rewrite IH; reflexivity.
Qed.

Lemma kinds_ok_map l : forallb kinds_ok l = forallb (fun p => snd p || itype_eqb (fst p) Colour || itype_eqb (fst p) Generation) (map kind l).
Proof. induction l as [|i l IH]; [reflexivity|]. cbn [forallb map]. now rewrite IH. Qed.

Lemma generation_map l : List.length (filter is_generation l) =
  List.length (filter (fun p => itype_eqb (fst p) Generation) (map kind l)).
Proof. induction l as [|i l IH]; [reflexivity|]. cbn [filter map]. unfold is_generation at 1. cbn [kind fst].
  destruct (itype_eqb (ix_type i) Generation); cbn [List.length]; auto. Qed.

Lemma filter_no_dagger x : ~ In dagger x -> filter (fun c => negb (Ascii.eqb c dagger)) (x ++ [dagger]) = x.
Proof.
  intros N. induction x as [|c x IH]; [reflexivity|]. cbn [app filter].
  destruct (Ascii.eqb_spec c dagger) as [->|Nc]; [exfalso; apply N; now left|]. cbn [negb].
  rewrite IH; [reflexivity|]. intros I. apply N. now right.
Qed.

(** [conj] of an indexed field in canonical form *)
Lemma conj_ifield_ok label ch (cj : bool) comm s latex nf derivs stripped toks idx a b c d e :
  Forall token_ok toks -> mapM new_index toks = Ok idx -> proper ch -> (nf = 1 \/ nf = 3) ->
  rank s + List.length (filter is_generation idx) = List.length idx -> List.length (filter is_generation idx) <= 1 ->
  forallb kinds_ok idx = true -> ~ In dagger label ->
  count_kind Undotted true idx = a -> count_kind Dotted true idx = b -> count_kind Colour true idx = c ->
  count_kind Colour false idx = d -> count_kind Isospin true idx = e ->
  a < 10 -> b < 10 -> c < 10 -> d < 10 -> e < 10 ->
  let ix cj ch dyn idx toks :=
    mkIField (mkField (label ++ (if cj : bool then [dagger] else [])) dyn ch cj comm s None 1 latex nf derivs stripped)
             idx (AStr (join (lit " ") toks)) in
  exists toks' idx', conj_ifield (ix cj ch (five a b c d e) idx toks) =
                       Ok (ix (negb cj) (neg_charges ch) (five b a d c e) idx' toks') /\
                     conj_ifield (ix (negb cj) (neg_charges ch) (five b a d c e) idx' toks') =
                       Ok (ix cj ch (five a b c d e) idx toks) /\
                     mapM conj_index idx = Ok idx'.
Proof.
  intros Ht Ei P Nf Rk G Ko Nl C1 C2 C3 C4 C5 Ha Hb Hc Hd He ix.
  destruct (conj_tokens _ _ Ht Ei) as (toks' & idx' & L1 & L2 & L3 & L4 & L5 & L6).
  assert (Lab : map ix_label idx = toks).
  { clear - Ei. revert idx Ei. induction toks as [|t toks IH]; intros idx E; cbn in E; [now injection E as <-|].
    apply bind_ok in E as (i & Hi & E). apply bind_ok in E as (l & Hl & E). injection E as <-. cbn.
    rewrite (new_index_label _ _ Hi). f_equal. auto. }
  assert (Sp : forall toks, Forall token_ok toks -> split_ws (join (lit " ") toks) = toks).
  { intros tk H. apply split_ws_join. eapply Forall_impl; [|exact H]. intros x. apply token_nonempty. }
  assert (Gen : List.length (filter is_generation idx') = List.length (filter is_generation idx)).
  { rewrite !generation_map, L5. clear. induction (map kind idx) as [|[t u] ks IH]; [reflexivity|].
    cbn [map filter conj_kind fst]. destruct t; cbn; rewrite ?IH; reflexivity. }
  assert (Ko' : forallb kinds_ok idx' = true).
  { rewrite kinds_ok_map in *. rewrite L5. clear - Ko. induction (map kind idx) as [|[t u] ks IH]; [reflexivity|].
    cbn [map forallb] in *. apply andb_true_iff in Ko as [K1 K2]. rewrite IH by exact K2. rewrite andb_true_r.
    destruct t, u; try discriminate K1; reflexivity. }
  assert (Len : List.length idx' = List.length idx) by (apply (mapM_length _ _ _ L2)).
  exists toks', idx'. split; [|split; [|exact L2]].
  - unfold conj_ifield, ix. cbn [i_field i_indices f_is_conj f_label f_charges f_symmetry f_comm f_latex f_nf f_derivs f_stripped].
    rewrite L2. cbn [bind]. rewrite L4.
    replace (if cj then filter (fun c0 => negb (Ascii.eqb c0 dagger)) (label ++ (if cj then [dagger] else []))
             else (label ++ (if cj then [dagger] else [])) ++ [dagger])
      with (label ++ (if negb cj then [dagger] else [])).
    2:{ destruct cj; cbn [negb]; [rewrite filter_no_dagger by exact Nl|]; now rewrite ?app_nil_r. }
    rewrite (mk_ifield_ok _ (AStr (join (lit " ") toks')) idx' s _ _ _ _ _ _ _ b a d c e); auto.
    + cbn [arg_indices]. now rewrite Sp.
    + now apply proper_neg.
    + rewrite Gen, Len. exact Rk.
    + now rewrite Gen.
    + rewrite (count_kind_conj _ _ idx idx' L5). exact C2.
    + rewrite (count_kind_conj _ _ idx idx' L5). exact C1.
    + rewrite (count_kind_conj _ _ idx idx' L5). exact C4.
    + rewrite (count_kind_conj _ _ idx idx' L5). exact C3.
    + rewrite (count_kind_conj _ _ idx idx' L5). exact C5.
  - unfold conj_ifield, ix. cbn [i_field i_indices f_is_conj f_label f_charges f_symmetry f_comm f_latex f_nf f_derivs f_stripped].
    rewrite L6. cbn [bind]. rewrite Lab, neg_neg, negb_involutive.
    replace (if negb cj then filter (fun c0 => negb (Ascii.eqb c0 dagger)) (label ++ (if negb cj then [dagger] else []))
             else (label ++ (if negb cj then [dagger] else [])) ++ [dagger])
      with (label ++ (if cj then [dagger] else [])).
    2:{ destruct cj; cbn [negb]; [|rewrite filter_no_dagger by exact Nl]; now rewrite ?app_nil_r. }
    rewrite (mk_ifield_ok _ (AStr (join (lit " ") toks)) idx s _ _ _ _ _ _ _ a b c d e); auto.
    cbn [arg_indices]. now rewrite Sp.
Qed.
