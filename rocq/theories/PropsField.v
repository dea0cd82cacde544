(** * PropsField: theorems about fields, indexed fields and operators (C24-C30, C70-C72) *)

From Coq Require Import Ascii String List Bool Arith ZArith QArith Qcanon Lia Permutation.
From Verif Require Import Base BaseFacts Show ModelIndex SpecIndex ProofsIndex ModelField SpecField ProofsField ProofsField2.
Import ListNotations.
Local Open Scope nat_scope.

(** ** C24: conjugation *)

(** Whatever the constructor makes from five digits is a field in the sense of the theorems below. *)
Theorem C24_constructed :
  forall label a b c d e ch cj comm s h m latex nf derivs st f,
    a < 10 /\ b < 10 /\ c < 10 /\ d < 10 /\ e < 10 ->
    mk_field label (five a b c d e) ch cj comm s h m latex nf derivs st = Ok f ->
    field_ok f a b c d e /\ (s = None -> f_symmetry f = symmetry_of [a; b; c; d; e] /\ rank (f_symmetry f) = a + b + c + d + e).
Proof.
  intros label a b c d e ch cj comm s h m latex nf derivs st f B H. unfold mk_field in H.
  assert (Dg : mapM digit_of (five a b c d e) = Ok [a; b; c; d; e]) by (destruct B as (B1 & B2 & B3 & B4 & B5); exact (digits_five a b c d e B1 B2 B3 B4 B5)).
  apply bind_ok in H as (sy & Es & H). cbv beta in H. apply bind_ok in H as (tx & Et & H). cbv beta in H.
  destruct (negb (nf =? 1) && negb (nf =? 3)) eqn:En; [discriminate|]. injection H as <-. split.
  - split; [reflexivity|]. split; [exact B|]. split.
    + cbn [f_charges]. destruct ch as [ch|]; [apply update_proper|]. apply (update_proper []).
    + cbn [f_nf]. destruct (Nat.eqb_spec nf 1), (Nat.eqb_spec nf 3); auto. discriminate.
  - intros ->. cbn [f_symmetry]. rewrite Dg in Es. cbn [bind] in Es. injection Es as <-. split; [reflexivity|].
    change (rank (symmetry_of [a; b; c; d; e]) = a + b + c + d + e). rewrite rank_symmetry_of.
    cbn [list_sum fold_right]. lia.
Qed.

(** The conjugate has Lorentz and colour labels swapped, isospin kept, every charge negated, [is_conj] flipped and
    everything else unchanged; conjugating it gives back the field in every attribute. *)
Theorem C24_conj :
  forall f a b c d e, field_ok f a b c d e ->
    exists g, conj_field f = Ok g /\ field_ok g b a d c e /\ f_label g = f_label f /\
      (forall k, dget str_eqb (f_charges g) k =
                 match dget str_eqb (f_charges f) k with Some v => Some (- v)%Qc | None => None end) /\
      f_is_conj g = negb (f_is_conj f) /\ f_comm g = f_comm f /\ f_symmetry g = f_symmetry f /\
      f_history g = f_history f /\ f_multiplicity g = f_multiplicity f /\ f_latex g = f_latex f /\
      f_nf g = f_nf f /\ f_derivs g = f_derivs f /\ f_stripped g = f_stripped f /\ conj_field g = Ok f.
Proof.
  intros f a b c d e F. pose proof (conj_field_ok _ _ _ _ _ _ F) as E.
  eexists. split; [exact E|]. pose proof (conj_ok_field _ _ _ _ _ _ _ F E) as G. split; [exact G|].
  split; [reflexivity|]. split.
  { intros k. cbn [f_charges]. unfold neg_charges. clear. induction (f_charges f) as [|[k' v] r IH]; [reflexivity|].
    cbn [map fst snd dget]. destruct (str_eqb k k'); [reflexivity|exact IH]. }
  repeat (split; [reflexivity|]).
  rewrite (conj_field_ok _ _ _ _ _ _ G). cbn [f_label f_charges f_is_conj f_comm f_symmetry f_history f_multiplicity
    f_latex f_nf f_derivs f_stripped]. rewrite neg_neg, negb_involutive. destruct F as (<- & _). now destruct f.
Qed.

Lemma called_indices f a b c d e toks x :
  field_ok f a b c d e -> rank (f_symmetry f) = a + b + c + d + e -> Forall token_ok toks ->
  call_field f (join (lit " ") toks) = Ok x ->
  mapM new_index toks = Ok (i_indices x) /\
  fits a b c d e (map kind (filter (fun i => negb (is_generation i)) (i_indices x))) /\
  x = mkIField (mkField (label_with_dagger f) (f_dynkin f) (f_charges f) (f_is_conj f) (f_comm f) (f_symmetry f)
                  None 1 (f_latex f) (f_nf f) (f_derivs f) (f_stripped f)) (i_indices x) (AStr (join (lit " ") toks)) /\
  List.length (filter is_generation (i_indices x)) <= 1 /\ forallb kinds_ok (i_indices x) = true /\
  rank (f_symmetry f) + List.length (filter is_generation (i_indices x)) = List.length (i_indices x).
Proof.
  intros F Rk Ht H. destruct (call_field_spec f a b c d e (join (lit " ") toks) F Rk) as (Iff & Res).
  destruct (proj1 Iff (ex_intro _ _ H)) as ((gidx & Eg & Fg) & Lg).
  destruct (Res x H) as (idx & Ei & Fi & ->). cbn [i_indices].
  assert (Sp : split_ws (join (lit " ") toks) = toks).
  { apply split_ws_join. eapply Forall_impl; [|exact Ht]. intros y. apply token_nonempty. }
  rewrite Sp in *.
  destruct (tokens_split _ _ _ Ei Eg (gauge_no_generation _ _ _ _ _ _ Fg)) as (H1 & H2 & H3).
  split; [exact Ei|]. split; [exact Fi|]. split; [reflexivity|]. split; [lia|]. split.
  - apply forallb_forall. intros i I. unfold kinds_ok. destruct (is_generation i) eqn:G.
    + fold (is_generation i). rewrite G. now rewrite orb_true_r.
    + assert (Ig : In i gidx) by (rewrite H1; apply filter_In; now rewrite G).
      apply fits_iff in Fg as (_ & Fa & _). rewrite forallb_forall in Fa. specialize (Fa i Ig).
      fold (is_generation i). rewrite G, orb_false_r, orb_comm. exact Fa.
  - rewrite Rk, (filter_split_length is_generation idx). pose proof (fits_length _ _ _ _ _ _ Fi) as Lf.
    rewrite map_length in Lf. lia.
Qed.

(** Conjugating an indexed field: the result is the conjugate field with the conjugate indices, and conjugating
    again restores the indexed field, argument string included. *)
Theorem C24_indexed_conj :
  forall f a b c d e toks x,
    field_ok f a b c d e -> rank (f_symmetry f) = a + b + c + d + e -> Forall token_ok toks ->
    ~ In dagger (f_label f) -> call_field f (join (lit " ") toks) = Ok x ->
    exists g y, conj_field f = Ok g /\ conj_ifield x = Ok y /\ conj_ifield y = Ok x /\
      mapM conj_index (i_indices x) = Ok (i_indices y) /\
      i_field y = mkField (label_with_dagger g) (f_dynkin g) (f_charges g) (f_is_conj g) (f_comm g) (f_symmetry g)
                    None 1 (f_latex g) (f_nf g) (f_derivs g) (f_stripped g).
Proof.
  intros f a b c d e toks x F Rk Ht Nd H.
  destruct (called_indices _ _ _ _ _ _ _ _ F Rk Ht H) as (Ei & Fi & Ex & Lg & Ko & Ln).
  destruct (fits_counts _ _ _ _ _ _ Fi) as (C1 & C2 & C3 & C4 & C5).
  rewrite count_kind_filter in C1, C2, C3, C4, C5 by discriminate.
  pose proof (conj_field_ok _ _ _ _ _ _ F) as Ec.
  pose proof F as (Ed & (Ha & Hb & Hc & Hd & He) & P & N).
  destruct (conj_ifield_ok (f_label f) (f_charges f) (f_is_conj f) (f_comm f) (f_symmetry f) (f_latex f) (f_nf f)
              (f_derivs f) (f_stripped f) toks (i_indices x) a b c d e Ht Ei P N Ln Lg Ko Nd C1 C2 C3 C4 C5 Ha Hb Hc Hd He)
    as (toks' & idx' & Q1 & Q2 & Q3).
  rewrite <- Ed in Q1, Q2. unfold label_with_dagger in Ex. rewrite <- Ex in Q1, Q2.
  eexists. eexists. split; [exact Ec|]. split; [exact Q1|]. split; [exact Q2|]. split; [exact Q3|]. reflexivity.
Qed.

(** ** C70: the symmetry kept by conjugation *)

Lemma symmetry_filter l : symmetry_of l = map (repeat 1) (filter (fun n => negb (n =? 0)) l).
Proof.
  induction l as [|n l IH]; [reflexivity|]. cbn [symmetry_of flat_map filter].
  change (flat_map (fun i => if i =? 0 then [] else [repeat 1 i]) l) with (symmetry_of l). rewrite IH.
  now destruct (n =? 0).
Qed.

(** [conj] passes the blocks of index symmetries on unpermuted.  They are those of the conjugate representation
    exactly when the non-zero Dynkin labels form the same sequence before and after. *)
Theorem C70_conj_symmetry :
  forall f a b c d e g, field_ok f a b c d e -> f_symmetry f = symmetry_of [a; b; c; d; e] -> conj_field f = Ok g ->
    (f_symmetry g = symmetry_of [b; a; d; c; e] <->
     filter (fun n => negb (n =? 0)) [a; b; c; d; e] = filter (fun n => negb (n =? 0)) [b; a; d; c; e]).
Proof.
  intros f a b c d e g F S E. rewrite (conj_field_ok _ _ _ _ _ _ F) in E. injection E as <-. cbn [f_symmetry].
  rewrite S, !symmetry_filter. split; [|now intros ->].
  generalize (filter (fun n => negb (n =? 0)) [a; b; c; d; e]) (filter (fun n => negb (n =? 0)) [b; a; d; c; e]).
  induction l as [|n l IH]; intros [|m l'] H; try discriminate; [reflexivity|].
  injection H as Hn Hl. f_equal; [|auto]. apply (f_equal (@List.length nat)) in Hn. now rewrite !repeat_length in Hn.
Qed.

(** A field with Lorentz labels (2,1): its conjugate is declared symmetric in the first two indices, of which the
    first is undotted and the second dotted. *)
Theorem C70_conj_symmetry_refuted :
  exists f g, mk_field (lit "F") (lit "21000") None false (lit "0") None None 1 None 1 0 None = Ok f /\
    conj_field f = Ok g /\ f_dynkin g = lit "12000" /\ f_symmetry g <> symmetry_of [1; 2; 0; 0; 0].
Proof. eexists. eexists. split; [reflexivity|]. split; [reflexivity|]. split; [reflexivity|discriminate]. Qed.

(** ** C25: indexing *)

(** [Field.__call__] succeeds exactly when the tokens other than generation indices are index labels of the right
    types and heights in canonical order (raised and lowered colour in any order), and at most one generation index is
    given.  The result carries those indices in the order given, and the attributes of the field. *)
Theorem C25_call :
  forall f a b c d e s, field_ok f a b c d e -> rank (f_symmetry f) = a + b + c + d + e ->
    ((exists x, call_field f s = Ok x) <->
     (exists idx, mapM new_index (filter (fun i => negb (is_g i)) (split_ws s)) = Ok idx /\
                  fits a b c d e (map kind idx)) /\
     List.length (filter is_g (split_ws s)) <= 1) /\
    (forall x, call_field f s = Ok x ->
       mapM new_index (split_ws s) = Ok (i_indices x) /\ f_dynkin (i_field x) = f_dynkin f /\
       fits a b c d e (map kind (filter (fun i => negb (itype_eqb (ix_type i) Generation)) (i_indices x))) /\
       f_label (i_field x) = f_label f ++ (if f_is_conj f then [dagger] else []) /\
       f_charges (i_field x) = f_charges f /\ f_is_conj (i_field x) = f_is_conj f /\ f_comm (i_field x) = f_comm f /\
       f_symmetry (i_field x) = f_symmetry f /\ f_nf (i_field x) = f_nf f /\ f_derivs (i_field x) = f_derivs f /\
       f_latex (i_field x) = f_latex f /\ f_stripped (i_field x) = f_stripped f /\ i_index_labels x = AStr s).
Proof.
  intros f a b c d e s F Rk. destruct (call_field_spec f a b c d e s F Rk) as (Iff & Res).
  split; [exact Iff|]. intros x H. destruct (Res x H) as (idx & Ei & Fi & ->). cbn. auto 20.
Qed.

(** The property [field] of the result is the field again, up to the history and multiplicity of products. *)
Theorem C25_field_of :
  forall f a b c d e s x,
    field_ok f a b c d e -> rank (f_symmetry f) = a + b + c + d + e ->
    (forall st, f_stripped f = Some st -> NoDup (keys (s_charges st))) ->
    call_field f s = Ok x ->
    exists g, field_of x = Ok g /\ field_eqb f g = true /\ f_latex g = f_latex f /\
              (f_history f = None -> f_multiplicity f = 1 -> g = f).
Proof.
  intros f a b c d e s x F Rk Ns H. destruct (call_field_spec f a b c d e s F Rk) as (_ & Res).
  destruct (Res x H) as (idx & Ei & Fi & ->). destruct F as (Ed & B & P & N).
  assert (Lb : (if f_is_conj f then removelast (label_with_dagger f) else label_with_dagger f) = f_label f).
  { unfold label_with_dagger. destruct (f_is_conj f); [now rewrite removelast_last|now rewrite app_nil_r]. }
  match goal with |- context [field_of ?x] => change (field_of x) with
    (mk_field (if f_is_conj f then removelast (label_with_dagger f) else label_with_dagger f) (f_dynkin f)
       (Some (f_charges f)) (f_is_conj f) (f_comm f) (Some (f_symmetry f)) None 1 (Some (f_latex f)) (f_nf f) (f_derivs f)
       (f_stripped f)) end.
  match goal with |- context [mk_field ?l] => replace l with (f_label f) by (symmetry; exact Lb) end.
  rewrite mk_field_ok by assumption. eexists. split; [reflexivity|]. split; [|split; [reflexivity|]].
  - pose proof (field_eqb_refl f (proper_NoDup _ P) Ns) as R. exact R.
  - intros Eh Em. destruct f. cbn in *. now subst.
Qed.

Example C25_example :
  exists f x, mk_field (lit "Q") (lit "10101") (Some [(lit "y", Q2Qc (1 # 6)); (lit "3b", Q2Qc 1)]) false (lit "fermi") None
                None 1 None 3 0 None = Ok f /\
    field_ok f 1 0 1 0 1 /\ rank (f_symmetry f) = 3 /\
    call_field f (lit "u0 c1 i2 g3") = Ok x /\ f_dynkin (i_field x) = lit "10101" /\
    (exists err, call_field f (lit "u0 c1 g3") = Err err) /\ (exists err, call_field f (lit "u0 -c1 i2") = Err err) /\
    (exists err, call_field f (lit "u0 c1 i2 g3 g4") = Err err).
Proof.
  eexists. eexists. split; [reflexivity|]. split.
  { split; [reflexivity|]. split; [lia|]. split; [|now right]. eexists. eexists. eexists. split; [reflexivity|].
    repeat constructor; cbn; intuition discriminate. }
  split; [reflexivity|]. split; [reflexivity|]. split; [reflexivity|].
  split; [|split]; eexists; reflexivity.
Qed.

(** ** C26: equality and hash *)

(** Equal fields have equal hashed tuples exactly when their charges are stored in the same order. *)
Theorem C26_hash_iff :
  forall f g, NoDup (keys (f_charges f)) -> NoDup (keys (f_charges g)) -> field_eqb f g = true ->
    (hash_data f = hash_data g <-> keys (f_charges f) = keys (f_charges g)).
Proof.
  intros f g Nf Ng H. unfold field_eqb in H. rewrite !andb_true_iff in H.
  destruct H as ((((((((H1 & H2) & H3) & H4) & H5) & H6) & H7) & H8) & H9).
  apply str_decides in H1, H2, H5. apply Bool.eqb_prop in H4. apply symmetry_decides in H6. apply Nat.eqb_eq in H7, H8.
  apply (charges_eqb_spec _ _ Nf Ng) in H3. unfold hash_data. rewrite H1, H2, H4, H5, H6, H7, H8. split.
  - intros [= E]. now rewrite E.
  - intros E. now rewrite (same_charges_keys_eq _ _ Nf Ng H3 E).
Qed.

(** With at most one charge besides y and 3b (as in the package, where l is the only other one) the order is
    always the same. *)
Theorem C26_hash :
  forall f g, proper (f_charges f) -> proper (f_charges g) -> List.length (f_charges f) <= 3 ->
    field_eqb f g = true -> hash_data f = hash_data g.
Proof.
  intros f g Pf Pg L H. apply C26_hash_iff; auto using proper_NoDup.
  pose proof (proper_NoDup _ Pf) as Nf. pose proof (proper_NoDup _ Pg) as Ng.
  unfold field_eqb in H. rewrite !andb_true_iff in H. destruct H as ((((((((_ & _) & H3) & _) & _) & _) & _) & _) & _).
  assert (Ln : List.length (f_charges f) = List.length (f_charges g)).
  { unfold charges_eqb in H3. apply andb_true_iff in H3 as [H3 _]. now apply Nat.eqb_eq. }
  apply (charges_eqb_spec _ _ Nf Ng) in H3.
  destruct Pf as (y & b & r & Ef & _), Pg as (y' & b' & r' & Eg & _). rewrite Ef, Eg in *. cbn in L, Ln.
  destruct r as [|[k v] [|? ?]]; cbn in L; try lia.
  - destruct r'; [reflexivity|discriminate].
  - destruct r' as [|[k' v'] [|? ?]]; try discriminate. cbn [keys map fst]. do 3 f_equal.
    specialize (H3 k).
    cbn [keys map fst] in Nf. inversion Nf as [|? ? N1 Nf']; inversion Nf' as [|? ? N2 _]; subst.
    assert (K1 : str_eqb k (lit "y") = false) by (apply (decides_neq str_decides); intros ->; apply N1; cbn; auto).
    assert (K2 : str_eqb k (lit "3b") = false) by (apply (decides_neq str_decides); intros ->; apply N2; cbn; auto).
    cbn [dget] in H3. rewrite K1, K2, (decides_refl str_decides) in H3.
    destruct (str_eqb k k') eqn:Ek; [now apply str_decides in Ek|discriminate].
Qed.

(** With two further charges written in different orders, equal fields are hashed differently. *)
Theorem C26_hash_refuted :
  exists f g, let ch c := mk_field (lit "F") (lit "10000") (Some c) false (lit "0") None None 1 None 1 0 None in
    ch [(lit "a", Q2Qc 1); (lit "b", Q2Qc 0)] = Ok f /\ ch [(lit "b", Q2Qc 0); (lit "a", Q2Qc 1)] = Ok g /\
    field_eqb f g = true /\ hash_data f <> hash_data g.
Proof.
  eexists. eexists. cbv zeta. split; [reflexivity|]. split; [reflexivity|]. split; [reflexivity|].
  unfold hash_data. cbn. intros [= H].
Qed.

(** An indexed field is made by IndexedField, and the symmetry is passed (which __call__, conj, fresh_indices and
    substituted_indices all do). *)
Definition indexed (x : ifield) : Prop := exists a s, a_symmetry a = Some s /\ mk_ifield a = Ok x.

Lemma indexed_inv x : indexed x ->
  arg_indices (i_index_labels x) = Ok (i_indices x) /\ arg_after (i_index_labels x) = i_index_labels x /\
  get_dynkin (i_indices x) = Ok (f_dynkin (i_field x)) /\ proper (f_charges (i_field x)) /\
  (f_nf (i_field x) = 1 \/ f_nf (i_field x) = 3) /\ f_history (i_field x) = None /\ f_multiplicity (i_field x) = 1 /\
  list_sum (map list_sum (f_symmetry (i_field x) ++ (if existsb is_generation (i_indices x) then [[1]] else []))) =
    List.length (i_indices x).
Proof.
  intros (a & s & Hs & H). unfold mk_ifield in H. rewrite Hs in H.
  apply bind_ok in H as (l & El & H). cbv beta zeta in H. apply bind_ok in H as ([] & As & H). cbv beta in H.
  apply bind_ok in H as (dy & Ed & H). cbv beta in H. apply bind_ok in H as (f & Ef & H). cbv beta in H.
  injection H as <-. cbn [i_index_labels i_indices i_field].
  assert (Ia : arg_indices (arg_after (a_indices a)) = Ok l /\ arg_after (arg_after (a_indices a)) = arg_after (a_indices a)).
  { destruct (a_indices a) as [t|t|t]; cbn [arg_after arg_indices] in *; try (split; [exact El|reflexivity]).
    injection El as <-. rewrite map_map. assert (R : map (fun x => reindex (reindex x)) t = map reindex t).
    { apply map_ext. now intros []. } now rewrite R. }
  destruct Ia as [I1 I2]. split; [exact I1|]. split; [exact I2|].
  unfold mk_field in Ef. cbn [bind] in Ef. apply bind_ok in Ef as (tx & Et & Ef). cbv beta in Ef.
  destruct (negb (a_nf a =? 1) && negb (a_nf a =? 3)) eqn:En; [discriminate|]. injection Ef as <-.
  cbn [f_dynkin f_charges f_nf f_history f_multiplicity f_symmetry].
  split; [exact Ed|]. split.
  { destruct (a_charges a); [apply update_proper|apply (update_proper [])]. }
  split. { destruct (Nat.eqb_spec (a_nf a) 1), (Nat.eqb_spec (a_nf a) 3); auto. discriminate. }
  split; [reflexivity|]. split; [reflexivity|]. unfold assert_ in As.
  destruct (_ =? _) eqn:Q in As; [|discriminate]. now apply Nat.eqb_eq.
Qed.

(** Indexed fields: the same holds. *)
Theorem C26_indexed_hash :
  forall x y, indexed x -> indexed y -> ifield_eqb x y = true ->
    (ihash_data x = ihash_data y <-> keys (f_charges (i_field x)) = keys (f_charges (i_field y))).
Proof.
  intros x y Ix Iy H.
  destruct (indexed_inv _ Ix) as (X1 & X2 & X3 & X4 & X5 & X6 & X7 & X8).
  destruct (indexed_inv _ Iy) as (Y1 & Y2 & Y3 & Y4 & Y5 & Y6 & Y7 & Y8).
  unfold ifield_eqb in H. rewrite !andb_true_iff in H.
  destruct H as (((((((((H1 & H2) & H3) & H4) & H5) & H6) & H7) & H8) & H9) & H10).
  apply str_decides in H1, H6. apply Bool.eqb_prop in H4.
  pose proof (proper_NoDup _ X4) as Nx. pose proof (proper_NoDup _ Y4) as Ny.
  apply (charges_eqb_spec _ _ Nx Ny) in H3.
  assert (Idx : map (fun i => (ix_name i, ix_type i, ix_up i)) (i_indices x) =
                map (fun i => (ix_name i, ix_type i, ix_up i)) (i_indices y)).
  { unfold idx_arg_eqb in H2. destruct (i_index_labels x) as [s|s|s], (i_index_labels y) as [t|t|t]; try discriminate.
    - apply str_decides in H2. subst. rewrite X1 in Y1. now injection Y1 as ->.
    - apply (list_decides str_decides) in H2. subst. rewrite X1 in Y1. now injection Y1 as ->.
    - cbn [arg_indices] in X1, Y1. injection X1 as <-. injection Y1 as <-. rewrite !map_map. cbn [reindex ix_name ix_type ix_up].
      clear - H2. revert t H2. induction s as [|i s IH]; intros [|j t] H; try discriminate; [reflexivity|].
      cbn in H. apply andb_true_iff in H as [E H]. apply index_eqb_spec in E as (E1 & E2 & E3).
      cbn [map]. rewrite E1, E2, E3. f_equal. now apply IH. }
  assert (Dk : f_dynkin (i_field x) = f_dynkin (i_field y)).
  { assert (G : get_dynkin (i_indices x) = get_dynkin (i_indices y)).
    { unfold get_dynkin. f_equal. clear - Idx. revert Idx. generalize (i_indices y) as m.
      generalize (0, 0, 0, 0, 0) as st. induction (i_indices x) as [|i l IH]; intros st [|j m] H; try discriminate; [reflexivity|].
      cbn [map] in H. injection H as H0 H1 H2 H3. cbn [foldM].
      assert (E : dynkin_step st i = dynkin_step st j) by (destruct st as [[[[? ?] ?] ?] ?]; unfold dynkin_step; now rewrite H1, H2).
      rewrite E. destruct (dynkin_step st j); [cbn [bind]; now apply IH|reflexivity]. }
    rewrite G, Y3 in X3. now injection X3. }
  unfold ihash_data. rewrite H1, Idx, Dk, H4, H6. split.
  - intros [= E]. now rewrite E.
  - intros E. now rewrite (same_charges_keys_eq _ _ Nx Ny H3 E).
Qed.

(** ** C27: derivatives *)

(** [D] succeeds exactly when both Lorentz labels change by one; the derivative has the new Lorentz labels, the default
    symmetry, one more derivative, and remembers the field at the start of the chain. *)
Theorem C27_D :
  forall f a b c d e p q, field_ok f a b c d e -> p < 10 -> q < 10 -> f_latex f <> [] ->
    ((exists g, D f [digit p; digit q] = Ok g) <-> (p = a + 1 \/ a = p + 1) /\ (q = b + 1 \/ b = q + 1)) /\
    (forall g, D f [digit p; digit q] = Ok g ->
       field_ok g p q c d e /\ f_symmetry g = symmetry_of [p; q; c; d; e] /\ f_label g = lit "D" ++ f_label f /\
       f_charges g = f_charges f /\ f_is_conj g = f_is_conj f /\ f_comm g = f_comm f /\ f_nf g = f_nf f /\
       f_derivs g = f_derivs f + 1 /\ f_latex g <> [] /\ f_history g = None /\ f_multiplicity g = 1 /\
       f_stripped g = match f_stripped f with
                      | Some s => Some s
                      | None => Some (mkStripped (f_label f) (f_dynkin f) (f_symmetry f) (f_charges f) (f_latex f))
                      end).
Proof.
  intros f a b c d e p q F Hp Hq Nl. pose proof (field_ok_ints _ _ _ _ _ _ F) as L.
  destruct F as (Ed & (Ha & Hb & Hc & Hd & He) & P & N).
  assert (Dp : digit_of (digit p) = Ok p) by now apply digit_of_digit.
  assert (Dq : digit_of (digit q) = Ok q) by now apply digit_of_digit.
  assert (Tex : exists tx, (do t <- get_latex f; strip_parens t) = Ok tx).
  { assert (Sp : forall t, t <> [] -> exists tx, strip_parens t = Ok tx).
    { intros [|ch t] Ht; [congruence|]. cbn [strip_parens]. destruct (_ && _); eauto. }
    unfold get_latex, isospin_irrep, sm_irrep. rewrite L. cbn [bind skipn].
    destruct (f_is_conj f); [|cbn [bind]; now apply Sp].
    destruct (negb (nats_eqb [e] [0])); [destruct (f_derivs f =? 0)|destruct (negb (f_derivs f =? 0))]; cbn [bind]; apply Sp; auto;
      discriminate. }
  destruct Tex as (tx & Tex).
  set (R := mkField (lit "D" ++ f_label f) (five p q c d e) (f_charges f) (f_is_conj f) (f_comm f)
              (symmetry_of [p; q; c; d; e]) None 1 (lit "(D" ++ tx ++ lit ")") (f_nf f) (f_derivs f + 1)
              (match f_stripped f with
               | Some s => Some s
               | None => Some (mkStripped (f_label f) (f_dynkin f) (f_symmetry f) (f_charges f) (f_latex f))
               end)).
  assert (E : D f [digit p; digit q] =
              if ((p =? a + 1) || (a =? p + 1)) && ((q =? b + 1) || (b =? q + 1)) then Ok R else Err AssertionError).
  { unfold D. rewrite L. cbn [bind]. rewrite Dp, Dq. cbn [bind].
    assert (G : forall x y, (Z.abs (Z.of_nat x - Z.of_nat y) =? 1)%Z = ((x =? y + 1) || (y =? x + 1))).
    { intros x y. apply eq_true_iff_eq. rewrite orb_true_iff, Z.eqb_eq, !Nat.eqb_eq. lia. }
    rewrite !G. destruct ((p =? a + 1) || (a =? p + 1)); [|reflexivity]. cbn [assert_ bind andb].
    destruct ((q =? b + 1) || (b =? q + 1)); [|reflexivity]. cbn [assert_ bind].
    assert (M : mk_field (lit "D" ++ f_label f) ([digit p; digit q] ++ skipn 2 (f_dynkin f)) (Some (f_charges f)) (f_is_conj f)
                  (f_comm f) None None 1 None (f_nf f) 0 (f_stripped f) =
                Ok (mkField (lit "D" ++ f_label f) (five p q c d e) (f_charges f) (f_is_conj f) (f_comm f)
                      (symmetry_of [p; q; c; d; e]) None 1 (lit "D" ++ f_label f) (f_nf f) 0 (f_stripped f))).
    { rewrite Ed. change ([digit p; digit q] ++ skipn 2 (five a b c d e)) with (five p q c d e).
      unfold mk_field. rewrite digits_five by auto. cbn [bind]. rewrite proper_update by exact P.
      change (to_tex (lit "D" ++ f_label f)) with (@Ok str (lit "D" ++ f_label f)). cbn [bind].
      destruct N as [-> | ->]; reflexivity. }
    rewrite M. cbn [bind f_label f_dynkin f_charges f_is_conj f_comm f_symmetry f_nf f_stripped].
    destruct (get_latex f) as [t|]; cbn [bind] in Tex |- *; [|discriminate]. rewrite Tex. reflexivity. }
  split.
  - rewrite E. rewrite <- !Nat.eqb_eq, <- !orb_true_iff, <- andb_true_iff.
    destruct (((p =? a + 1) || (a =? p + 1)) && ((q =? b + 1) || (b =? q + 1))); split; eauto; try discriminate.
    intros (g & Hg). discriminate.
  - intros g Hg. rewrite E in Hg.
    destruct (((p =? a + 1) || (a =? p + 1)) && ((q =? b + 1) || (b =? q + 1))); [|discriminate]. injection Hg as <-.
    split; [split; [reflexivity|split; [auto|split; [exact P|exact N]]]|].
    cbn [R f_symmetry f_label f_charges f_is_conj f_comm f_nf f_derivs f_latex f_history f_multiplicity f_stripped].
    repeat (split; [reflexivity|]). split; [discriminate|]. auto.
Qed.

(** The property [mass_dim] does not count the derivative: where both are defined the derivative of a field has the
    mass dimension of the field, 3/2 for fermions and 1 for bosons. *)
Theorem C27_mass_dim :
  forall f a b c d e p q g m, field_ok f a b c d e -> p < 10 -> q < 10 -> f_latex f <> [] ->
    D f [digit p; digit q] = Ok g -> mass_dim f = Ok m ->
    m = Q2Qc (if Nat.odd (a + b) then 3 # 2 else 1) /\
    (mass_dim g = Ok m \/ (mass_dim g = Err PlainException /\ Nat.odd (a + b) = false /\ ~ (p = 0 /\ q = 0) /\ ~ (p = 1 /\ q = 1))).
Proof.
  intros f a b c d e p q g m F Hp Hq Nl E Hm. destruct (C27_D f a b c d e p q F Hp Hq Nl) as (Iff & Res).
  destruct (proj1 Iff (ex_intro _ _ E)) as (Ip & Iq). destruct (Res g E) as (G & _).
  assert (Md : forall f a b, field_ok f a b c d e -> mass_dim f =
            if Nat.odd (a + b) then Ok (Q2Qc (3 # 2)) else if nats_eqb [a; b] [0; 0] || nats_eqb [a; b] [1; 1] then Ok (Q2Qc 1) else Err PlainException).
  { intros f0 a0 b0 F0. unfold mass_dim, is_fermion, is_boson, is_scalar, is_vector, lorentz_irrep.
    rewrite (field_ok_ints _ _ _ _ _ _ F0). cbn [bind firstn list_sum fold_right]. rewrite Nat.add_0_r.
    assert (Od : negb ((a0 + b0) mod 2 =? 0) = Nat.odd (a0 + b0)).
    { rewrite <- Nat.bit0_mod, Nat.bit0_odd. now destruct (Nat.odd (a0 + b0)). }
    rewrite Od. destruct (Nat.odd (a0 + b0)); reflexivity. }
  rewrite (Md f a b F) in Hm. rewrite (Md g p q G).
  assert (Par : Nat.odd (p + q) = Nat.odd (a + b)).
  { assert (Nat.odd (p + q + (a + b)) = false).
    { rewrite <- Nat.negb_even, negb_false_iff, Nat.even_spec.
      destruct Ip as [-> | ->], Iq as [-> | ->]; [exists (a + b + 1)|exists (a + q + 1)|exists (p + b + 1)|exists (p + q + 1)]; lia. }
    rewrite Nat.odd_add in H. now destruct (Nat.odd (p + q)), (Nat.odd (a + b)). }
  rewrite Par. destruct (Nat.odd (a + b)).
  - injection Hm as <-. auto.
  - destruct (nats_eqb [a; b] [0; 0] || nats_eqb [a; b] [1; 1]); [|discriminate]. injection Hm as <-. split; [reflexivity|].
    destruct (nats_eqb [p; q] [0; 0] || nats_eqb [p; q] [1; 1]) eqn:Q; [now left|]. right.
    apply orb_false_iff in Q as [Q1 Q2]. repeat split; intros [-> ->]; discriminate.
Qed.

Example C27_example :
  (do f <- mk_field (lit "L") (lit "10001") (Some [(lit "y", Q2Qc (-1 # 2))]) false (lit "fermi") None None 1 None 3 0 None;
   do g <- D f (lit "01");
   do h <- D g (lit "10");
   Ok (f_label g, f_derivs g, f_derivs h, f_latex h, f_symmetry h, match D f (lit "00") with Ok _ => None | Err e => Some e end)) =
  Ok (lit "DL", 1, 2, lit "(DDL)", [[1]; [1]], Some AssertionError).
Proof. vm_compute. reflexivity. Qed.
Print Assumptions C24_constructed.
Print Assumptions C24_conj.
Print Assumptions C24_indexed_conj.
Print Assumptions C70_conj_symmetry.
Print Assumptions C70_conj_symmetry_refuted.
Print Assumptions C25_call.
Print Assumptions C25_field_of.
Print Assumptions C26_hash_iff.
Print Assumptions C26_hash.
Print Assumptions C26_hash_refuted.
Print Assumptions C26_indexed_hash.
Print Assumptions C27_D.
Print Assumptions C27_mass_dim.
