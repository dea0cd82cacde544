(** * ProofsPickler: lemmas about the tables of models *)

From Coq Require Import Ascii String List Bool Arith ZArith QArith Qcanon Lia Sorted.
From Verif Require Import Base BaseFacts Spec SpecFunctions Show ModelFunctions ModelClosures ModelDatabase ModelHeavy ModelPickler SpecPickler SpecDatabase
  ProofsFunctions ProofsRegistry ProofsDatabase ProofsDatabase2 PropsDatabase PropsParse2.
Import ListNotations.
Local Open Scope nat_scope.

(** ** Least and greatest *)

Lemma least_all x r : Forall (fun y => x <= y) r -> least (x :: r) = Ok x.
Proof.
  unfold least. intros H. f_equal. induction H as [|y r Hy H IH]; [reflexivity|]. cbn [fold_left].
  replace (y <? x) with false by (symmetry; apply Nat.ltb_ge; exact Hy). exact IH.
Qed.

Lemma greatest_shift l m : greatest (map (fun i => i + l) (seq 0 (m + 1))) = Ok (l + m).
Proof.
  rewrite Nat.add_1_r. cbn [seq map greatest]. f_equal. cbn [Nat.add].
  assert (G : forall n a, fold_left (fun m y => if m <? y then y else m) (map (fun i => i + l) (seq (S a) n)) (a + l) = a + n + l).
  { induction n as [|n IH]; intros a; cbn [seq map fold_left]; [lia|].
    replace (a + l <? S a + l) with true by (symmetry; apply Nat.ltb_lt; lia). rewrite IH. lia. }
  specialize (G m 0). cbn [Nat.add] in G. rewrite G. lia.
Qed.

Lemma occurs_count k e : occurs k e (count_k k e).
Proof.
  unfold count_k. induction e as [|x e IH]; [constructor|]. cbn [filter].
  destruct (ksym_eqb k x) eqn:E.
  - assert (k = x) as <- by (destruct k, x; cbn in E; congruence). now constructor.
  - constructor; [|exact IH]. intros ->. destruct k; discriminate.
Qed.

Lemma occurs_unique k e n m : occurs k e n -> occurs k e m -> n = m.
Proof.
  intros H. revert m. induction H as [|e n H IH|x e n Hx H IH]; intros m Hm; inversion Hm; subst; auto; try congruence; f_equal; auto.
Qed.

Lemma counted_unique c l n m : counted c l n -> counted c l m -> n = m.
Proof.
  intros H. revert m. induction H as [|s l n Hs H IH|s l n Hs Hn H IH]; intros m Hm; inversion Hm; subst; auto; try contradiction; f_equal; auto.
Qed.

(** the two numbers of loops that are put into a row *)
Definition loop_list (e : estimate) : list nat :=
  let (loops, loopsv2) := loop_data e in
  match loopsv2 with [] => [loops] | _ => map (fun i => i + loops) loopsv2 end.

Lemma loops_ok e : exists lo hi, least (loop_list e) = Ok lo /\ greatest (loop_list e) = Ok hi /\ loops_between e lo hi.
Proof.
  unfold loop_list. rewrite loop_data_spec. set (n := count_k Kloop e). set (m := count_k Kloopv2 e).
  unfold orders_found. destruct (m <=? 7) eqn:Em.
  - destruct m as [|m'] eqn:Ez.
    + cbn. exists (loops_found n), (loops_found n). split; [reflexivity|]. split; [reflexivity|]. exists n, 0.
      split; [apply occurs_count|]. split; [rewrite <- Ez; apply occurs_count|]. cbn. unfold loops_found. lia.
    + rewrite <- Ez in *. replace (1 <=? m) with true by (symmetry; apply Nat.leb_le; lia). cbn [andb].
      exists (loops_found n), (loops_found n + m).
      assert (Hs : seq 0 (m + 1) = 0 :: seq 1 m) by (rewrite Nat.add_1_r; reflexivity).
      split; [|split].
      * rewrite Hs. cbn [map]. apply least_all. cbn [Nat.add]. apply Forall_forall. intros y I. apply in_map_iff in I as (i & <- & _). lia.
      * replace (match seq 0 (m + 1) with [] => [loops_found n] | _ :: _ => map (fun i => i + loops_found n) (seq 0 (m + 1)) end)
          with (map (fun i => i + loops_found n) (seq 0 (m + 1))) by (rewrite Hs; reflexivity).
        apply greatest_shift.
      * exists n, m. split; [apply occurs_count|]. split; [apply occurs_count|]. rewrite Em. unfold loops_found. auto.
  - rewrite andb_false_r. exists (loops_found n), (loops_found n). split; [reflexivity|]. split; [reflexivity|]. exists n, m.
    split; [apply occurs_count|]. split; [apply occurs_count|]. rewrite Em. unfold loops_found. split; [reflexivity|lia].
Qed.

(** ** Scalars and fermions *)

Lemma scalars_fermions_from l n r :
  foldM (fun (n : nat * nat) (f : str) =>
           match f with
           | [] => Err IndexError
           | c :: _ => Ok (if Ascii.eqb c "S" then (S (fst n), snd n) else if Ascii.eqb c "F" then (fst n, S (snd n)) else n)
           end) l n = Ok r ->
  exists a b, counted "S" l a /\ counted "F" l b /\ r = (fst n + a, snd n + b).
Proof.
  revert n. induction l as [|s l IH]; cbn [foldM]; intros n E.
  - inversion E; subst r. exists 0, 0. split; [constructor|]. split; [constructor|]. destruct n. cbn. f_equal; lia.
  - destruct s as [|c s]; [discriminate|]. cbn [bind] in E. apply IH in E as (a & b & Ha & Hb & ->).
    assert (N : forall x, c <> x -> ~ starts_with x (c :: s)) by (intros x Hx (t & Et); congruence).
    assert (Y : starts_with c (c :: s)) by (exists s; reflexivity).
    destruct (Ascii.eqb c "S") eqn:E1; [|destruct (Ascii.eqb c "F") eqn:E2].
    + apply Ascii.eqb_eq in E1. subst c. exists (S a), b. split; [now constructor|]. split.
      * constructor; [discriminate|apply N; discriminate|exact Hb].
      * cbn. f_equal; lia.
    + apply Ascii.eqb_eq in E2. subst c. exists a, (S b). split; [|split].
      * constructor; [discriminate|apply N; discriminate|exact Ha].
      * now constructor.
      * cbn. f_equal; lia.
    + apply Ascii.eqb_neq in E1, E2. exists a, b. split; [|split; [|reflexivity]]; constructor; auto; discriminate.
Qed.

Lemma scalars_fermions_some enum m : Forall (fun s => s <> []) (enum (lz_quantum_numbers m)) ->
  exists r, get_scalars_fermions enum m = Ok r.
Proof.
  unfold get_scalars_fermions, quantum_numbers. generalize (0, 0). generalize (enum (lz_quantum_numbers m)). intros l p H.
  revert p. induction H as [|s l Hs H IH]; intros p; cbn [foldM]; [eauto|]. destruct s as [|c s]; [congruence|]. cbn [bind]. apply IH.
Qed.

(** ** Rows *)

Lemma table_app rs r : table_of (rs ++ [r]) =
  mkColumns (map r_democratic rs ++ [r_democratic r]) (map r_stringent rs ++ [r_stringent r]) (map r_op rs ++ [r_op r])
    (map r_dim rs ++ [r_dim r]) (map r_scale rs ++ [r_scale r]) (map r_symbolic rs ++ [r_symbolic r]) (map r_topology rs ++ [r_topology r])
    (map r_fields rs ++ [r_fields r]) (map r_scalars rs ++ [r_scalars r]) (map r_fermions rs ++ [r_fermions r])
    (map r_min_loops rs ++ [r_min_loops r]) (map r_max_loops rs ++ [r_max_loops r]) (map r_derivs rs ++ [r_derivs r])
    (map r_completion rs ++ [r_completion r]).
Proof. unfold table_of. rewrite !map_app. reflexivity. Qed.

Lemma dgetM_In {V} (d : list (str * V)) k v : dgetM str_eqb d k = Ok v -> In (k, v) d.
Proof. unfold dgetM. destruct (dget str_eqb d k) eqn:E; [|discriminate]. intros Q. inversion Q; subst. now apply (dget_In str_decides). Qed.

Lemma dgetM_of {V} (d : list (str * V)) k : In k (keys d) -> exists v, dgetM str_eqb d k = Ok v.
Proof.
  intros I. unfold dgetM. destruct (dget str_eqb d k) eqn:E; [eauto|]. exfalso.
  apply (dmem_In str_decides) in I. unfold dmem in I. rewrite E in I. discriminate.
Qed.

Section Rows.
  Context (enum : list str -> list str) (topology : lazy -> res str) (dims : list (str * Z)) (derivs : list (str * nat)).
  Context (symbolic : list (str * estimate)) (d : db).

  Notation describes := (describes enum topology dims derivs symbolic d).

  Lemma data_dict_unfold : data_dict enum topology dims derivs (Some symbolic) d =
    foldM (fun data kv =>
             do scale <- scale_of (d_scales d) (fst kv);
             do symb <- dgetM str_eqb symbolic (fst kv);
             do lo <- least (loop_list symb);
             do hi <- greatest (loop_list symb);
             do n_derivs <- dgetM str_eqb derivs (fst kv);
             foldM (add_model enum topology dims d (fst kv) scale symb lo hi n_derivs) (snd kv) data)
          (d_data d) no_columns.
  Proof.
    unfold data_dict. generalize no_columns. induction (d_data d) as [|[k v] l IH]; intros c; cbn [foldM]; [reflexivity|].
    cbn [fst snd]. destruct (scale_of (d_scales d) k); cbn [bind]; [|reflexivity].
    destruct (dgetM str_eqb symbolic k) as [e|]; cbn [bind]; [|reflexivity]. unfold loop_list. destruct (loop_data e) as [x1 x2].
    destruct (least _); cbn [bind]; [|reflexivity]. destruct (greatest _); cbn [bind]; [|reflexivity].
    destruct (dgetM str_eqb derivs k); cbn [bind]; [|reflexivity].
    destruct (foldM _ v c); cbn [bind]; [apply IH|reflexivity].
  Qed.

  Lemma add_model_row k scale symb lo hi nd rs m c sc :
    d_scales d = Some sc -> In (k, scale) sc -> In (k, symb) symbolic -> loops_between symb lo hi -> In (k, nd) derivs ->
    add_model enum topology dims d k scale symb lo hi nd (table_of rs) m = Ok c ->
    exists r, c = table_of (rs ++ [r]) /\ describes (k, m) r.
  Proof.
    intros Hsc Is Ie Hl Id E. unfold add_model in E.
    destruct (democratic_model_number enum d m) as [n1|] eqn:E1; [|discriminate]. cbn [bind] in E.
    destruct (stringent_model_number d m) as [n2|] eqn:E2; [|discriminate]. cbn [bind] in E.
    destruct (dgetM str_eqb dims k) as [dm|] eqn:E3; [|discriminate]. cbn [bind] in E.
    destruct (topology m) as [t|] eqn:E4; [|discriminate]. cbn [bind] in E.
    destruct (get_scalars_fermions enum m) as [sf|] eqn:E5; [|discriminate]. cbn [bind] in E. inversion E; subst c. clear E.
    apply scalars_fermions_from in E5 as (a & b & Ha & Hb & ->). cbn [fst snd Nat.add].
    exists (mkRow n1 n2 k dm scale symb t (a + b) a b lo hi nd (lz_tail m)).
    split; [rewrite table_app; reflexivity|]. unfold SpecPickler.describes. cbn [r_op r_completion r_topology r_democratic r_stringent r_dim r_derivs r_symbolic r_scale r_min_loops r_max_loops r_scalars r_fermions r_fields].
    split; [reflexivity|]. split; [reflexivity|]. split; [exact E4|]. split; [exact E1|]. split; [exact E2|].
    split; [now apply dgetM_In|]. split; [exact Id|]. split; [exact Ie|]. split; [eauto|]. auto.
  Qed.

  Lemma rows_of c : data_dict enum topology dims derivs (Some symbolic) d = Ok c ->
    exists rs, c = table_of rs /\ Forall2 describes (listing (d_data d)) rs.
  Proof.
    rewrite data_dict_unfold. unfold listing.
    assert (G : forall l rs, foldM (fun data kv =>
             do scale <- scale_of (d_scales d) (fst kv);
             do symb <- dgetM str_eqb symbolic (fst kv);
             do lo <- least (loop_list symb);
             do hi <- greatest (loop_list symb);
             do n_derivs <- dgetM str_eqb derivs (fst kv);
             foldM (add_model enum topology dims d (fst kv) scale symb lo hi n_derivs) (snd kv) data) l (table_of rs) = Ok c ->
      exists rs', c = table_of (rs ++ rs') /\ Forall2 describes (flat_map (fun kv => map (fun m => (fst kv, m)) (snd kv)) l) rs').
    { induction l as [|[k v] l IH]; intros rs E; cbn [foldM] in E.
      - inversion E; subst c. exists []. rewrite app_nil_r. split; [reflexivity|constructor].
      - cbn [fst snd] in E. unfold scale_of in E. destruct (d_scales d) as [sc|] eqn:Hsc; [|discriminate].
        destruct (dgetM str_eqb sc k) as [s|] eqn:E1; [|discriminate]. cbn [bind] in E.
        destruct (dgetM str_eqb symbolic k) as [e|] eqn:E2; [|discriminate]. cbn [bind] in E.
        destruct (loops_ok e) as (lo & hi & El & Eh & Hl). rewrite El, Eh in E. cbn [bind] in E.
        destruct (dgetM str_eqb derivs k) as [nd|] eqn:E3; [|discriminate]. cbn [bind] in E.
        assert (V : forall v rs c1, foldM (add_model enum topology dims d k s e lo hi nd) v (table_of rs) = Ok c1 ->
                   exists rs', c1 = table_of (rs ++ rs') /\ Forall2 describes (map (fun m => (k, m)) v) rs').
        { clear E. induction v0 as [|m v0 IHv]; intros rs0 c1 E; cbn [foldM] in E.
          - inversion E; subst c1. exists []. rewrite app_nil_r. split; [reflexivity|constructor].
          - destruct (add_model enum topology dims d k s e lo hi nd (table_of rs0) m) as [c2|] eqn:Ea; [|discriminate]. cbn [bind] in E.
            eapply add_model_row in Ea as (r & -> & Hr); eauto using dgetM_In. apply IHv in E as (rs' & -> & F).
            exists (r :: rs'). rewrite <- app_assoc. split; [reflexivity|]. cbn [map]. now constructor. }
        destruct (foldM (add_model enum topology dims d k s e lo hi nd) v (table_of rs)) as [c1|] eqn:Ef; [|discriminate]. cbn [bind] in E.
        apply V in Ef as (r1 & -> & F1). apply IH in E as (r2 & -> & F2). exists (r1 ++ r2). rewrite app_assoc. split; [reflexivity|].
        cbn [flat_map fst snd]. now apply Forall2_app. }
    intros E. change no_columns with (table_of []) in E. apply G in E as (rs & -> & F). exists rs. auto.
  Qed.

  Lemma rows_exist sc : d_scales d = Some sc ->
    (forall k, In k (keys (d_data d)) -> In k (keys sc) /\ In k (keys symbolic) /\ In k (keys derivs) /\ In k (keys dims)) ->
    (forall k m, model_of (d_data d) k m -> is_ok (democratic_model_number enum d m) = true /\ is_ok (stringent_model_number d m) = true /\
       is_ok (topology m) = true /\ Forall (fun s => s <> []) (enum (lz_quantum_numbers m))) ->
    exists c, data_dict enum topology dims derivs (Some symbolic) d = Ok c.
  Proof.
    intros Hsc Hk Hm. rewrite data_dict_unfold. generalize no_columns.
    assert (Hk' : forall kv, In kv (d_data d) -> In kv (d_data d)) by auto. revert Hk'.
    generalize (d_data d) at 1 3. induction l as [|[k v] l IH]; intros Hi c; cbn [foldM]; [eauto|].
    assert (I : In (k, v) (d_data d)) by (apply Hi; now left).
    destruct (Hk k) as (K1 & K2 & K3 & K4); [apply in_map_iff; exists (k, v); auto|]. cbn [fst snd].
    destruct (dgetM_of sc k K1) as (s & Es). assert (Es' : scale_of (d_scales d) k = Ok s) by (rewrite Hsc; exact Es). rewrite Es'. cbn [bind].
    destruct (dgetM_of symbolic k K2) as (e & ->). cbn [bind]. destruct (loops_ok e) as (lo & hi & -> & -> & _). cbn [bind].
    destruct (dgetM_of derivs k K3) as (nd & ->). cbn [bind].
    assert (V : forall w c0, (forall m, In m w -> In m v) -> exists c1, foldM (add_model enum topology dims d k s e lo hi nd) w c0 = Ok c1).
    { induction w as [|m w IHw]; intros c0 Hw; cbn [foldM]; [eauto|].
      destruct (Hm k m) as (M1 & M2 & M3 & M4); [exists v; split; [exact I|apply Hw; now left]|].
      assert (A : exists c2, add_model enum topology dims d k s e lo hi nd c0 m = Ok c2).
      { unfold add_model. destruct (democratic_model_number enum d m); [|discriminate]. cbn [bind].
        destruct (stringent_model_number d m); [|discriminate]. cbn [bind]. destruct (dgetM_of dims k K4) as (dm & ->). cbn [bind].
        destruct (topology m); [|discriminate]. cbn [bind]. destruct (scalars_fermions_some enum m M4) as (r & ->). cbn [bind]. eauto. }
      destruct A as (c2 & ->). cbn [bind].
      apply IHw. intros x Ix. apply Hw. now right. }
    destruct (V v c) as (c1 & ->); [auto|]. cbn [bind]. apply IH. intros kv Ik. apply Hi. now right.
  Qed.
End Rows.

Lemma describes_unique enum topology dims derivs symbolic d d' km r r' :
  NoDup (keys dims) -> NoDup (keys derivs) -> NoDup (keys symbolic) ->
  d_exotics d' = d_exotics d -> d_term_primes d' = d_term_primes d ->
  (forall s s' sc sc', d_scales d = Some sc -> d_scales d' = Some sc' -> In (fst km, s) sc -> In (fst km, s') sc' -> s' = s) ->
  describes enum topology dims derivs symbolic d km r -> describes enum topology dims derivs symbolic d' km r' -> r' = r.
Proof.
  intros N1 N2 N3 X1 X2 Hs. destruct km as [k m]. destruct r as [a1 a2 a3 a4 a5 a6 a7 a8 a9 a10 a11 a12 a13 a14].
  destruct r' as [b1 b2 b3 b4 b5 b6 b7 b8 b9 b10 b11 b12 b13 b14]. unfold describes.
  cbn [r_op r_completion r_topology r_democratic r_stringent r_dim r_derivs r_symbolic r_scale r_min_loops r_max_loops r_scalars r_fermions r_fields].
  intros (-> & -> & A3 & A4 & A5 & A6 & A7 & A8 & (sc & S1 & A9) & (n & p & L1 & L2 & -> & ->) & A11 & A12 & ->).
  intros (-> & -> & B3 & B4 & B5 & B6 & B7 & B8 & (sc' & S2 & B9) & (n' & p' & M1 & M2 & -> & ->) & B11 & B12 & ->).
  assert (Hd : democratic_model_number enum d' m = democratic_model_number enum d m) by (unfold democratic_model_number; now rewrite X1).
  assert (Ht : stringent_model_number d' m = stringent_model_number d m) by (unfold stringent_model_number; now rewrite X2).
  rewrite Hd in B4. rewrite Ht in B5.
  assert (b6 = a6) as -> by (eapply NoDup_unique_key; [exact N3| |]; eauto).
  assert (n' = n) as -> by (eapply occurs_unique; eauto). assert (p' = p) as -> by (eapply occurs_unique; eauto).
  assert (b9 = a9) as -> by (eapply counted_unique; eauto). assert (b10 = a10) as -> by (eapply counted_unique; eauto).
  assert (b4 = a4) as -> by (eapply NoDup_unique_key; [exact N1| |]; eauto).
  assert (b13 = a13) as -> by (eapply NoDup_unique_key; [exact N2| |]; eauto).
  assert (b5 = a5) as -> by (eapply (Hs a5 b5); eauto).
  f_equal; congruence.
Qed.

(** ** Positions in a listing *)

Lemma listing_In data k m : In (k, m) (listing data) <-> model_of data k m.
Proof.
  unfold listing, model_of. rewrite in_flat_map. split.
  - intros ([k1 v] & I & Im). cbn in Im. apply in_map_iff in Im as (m1 & E & Im). inversion E; subst. eauto.
  - intros (v & I & Im). exists (k, v). split; [exact I|]. cbn. apply in_map_iff. eauto.
Qed.

Lemma listing_split data k m La Lb : listing data = La ++ (k, m) :: Lb ->
  exists A v1 v2 B, data = A ++ (k, v1 ++ m :: v2) :: B /\ La = listing A ++ map (fun m => (k, m)) v1.
Proof.
  revert La. induction data as [|[k1 v] data IH]; intros La E; [destruct La; discriminate|].
  unfold listing in E. cbn [flat_map fst snd] in E. fold (listing data) in E.
  assert (G : forall v La, map (fun m => (k1, m)) v ++ listing data = La ++ (k, m) :: Lb ->
     (exists v1 v2, k1 = k /\ v = v1 ++ m :: v2 /\ La = map (fun m => (k1, m)) v1) \/
     (exists La', La = map (fun m => (k1, m)) v ++ La' /\ listing data = La' ++ (k, m) :: Lb)).
  { clear. induction v as [|x v IH]; intros La E; [right; exists La; auto|]. cbn [map app] in E. destruct La as [|y La]; cbn [app] in E.
    - inversion E; subst. left. exists [], v. auto.
    - inversion E; subst. apply IH in H1 as [(v1 & v2 & Ek & Ev & El)|(La' & El & Ed)].
      + left. exists (x :: v1), v2. subst. auto.
      + right. exists La'. subst. auto. }
  apply G in E as [(v1 & v2 & -> & -> & ->)|(La' & -> & E)].
  - exists [], v1, v2, data. auto.
  - apply IH in E as (A & v1 & v2 & B & -> & ->). exists ((k1, v) :: A), v1, v2, B. split; [reflexivity|].
    unfold listing. cbn [flat_map fst snd]. now rewrite app_assoc.
Qed.

Lemma listing_app a b : listing (a ++ b) = listing a ++ listing b.
Proof. unfold listing. now rewrite flat_map_app. Qed.

Lemma F2_r {A B} (R : A -> B -> Prop) l l' y : Forall2 R l l' -> In y l' -> exists x, In x l /\ R x y.
Proof. induction 1 as [|a b l l' H F IH]; [intros []|]. intros [<-|I]; [exists a; split; [now left|exact H]|]. destruct (IH I) as (x & Ix & Rx). exists x. split; [now right|exact Rx]. Qed.

Lemma F2_l {A B} (R : A -> B -> Prop) l l' x : Forall2 R l l' -> In x l -> exists y, In y l' /\ R x y.
Proof. induction 1 as [|a b l l' H F IH]; [intros []|]. intros [<-|I]; [exists b; split; [now left|exact H]|]. destruct (IH I) as (y & Iy & Ry). exists y. split; [now right|exact Ry]. Qed.

Lemma model_key data k m : model_of data k m -> In k (keys data).
Proof. intros (v & I & _). apply in_map_iff. exists (k, v). auto. Qed.

(** two models of one operator stand in one list *)
Lemma listing_pair data k m m' La Lb Lc : NoDup (keys data) -> listing data = La ++ (k, m) :: Lb ++ (k, m') :: Lc ->
  exists v a b c, In (k, v) data /\ v = a ++ m :: b ++ m' :: c.
Proof.
  intros N E. assert (E' : listing data = (La ++ (k, m) :: Lb) ++ (k, m') :: Lc) by (rewrite E, <- app_assoc; reflexivity).
  apply listing_split in E' as (A & v1 & v2 & B & -> & E'). apply app_eq_app in E' as (l & [(E1 & E2)|(E1 & E2)]).
  - apply map_eq_app in E2 as (w1 & w2 & -> & E2 & E3). destruct w2 as [|x w2]; [discriminate|]. cbn [map] in E3. inversion E3; subst.
    exists ((w1 ++ m :: w2) ++ m' :: v2), w1, w2, v2. split; [apply in_or_app; right; now left|]. rewrite <- app_assoc. reflexivity.
  - destruct l as [|y l].
    + cbn [app] in E2. destruct v1 as [|x v1]; [discriminate|]. cbn [map] in E2. inversion E2; subst.
      exists ((x :: v1) ++ m' :: v2), [], v1, v2. split; [apply in_or_app; right; now left|reflexivity].
    + cbn [app] in E2. inversion E2; subst. exfalso. assert (I : In (k, m) (listing A)) by (rewrite E1; apply in_or_app; right; now left).
      apply listing_In, model_key in I. unfold keys in N. rewrite map_app in N. cbn [map fst] in N. apply NoDup_remove_2 in N. apply N, in_or_app. now left.
Qed.

(** the listing follows the order of the scales *)
Lemma listing_sorted sc data : NoDup (keys sc) -> keys data = keys sc -> StronglySorted (fun a b => (b <= a)%Qc) (values sc) ->
  StronglySorted (fun x y => forall s t, In (fst x, s) sc -> In (fst y, t) sc -> (t <= s)%Qc) (listing data).
Proof.
  intros N. assert (G : forall l data, incl l sc -> keys data = keys l -> StronglySorted (fun a b => (b <= a)%Qc) (values l) ->
    StronglySorted (fun x y : str * lazy => forall s t, In (fst x, s) sc -> In (fst y, t) sc -> (t <= s)%Qc) (listing data)).
  { clear data. induction l as [|[k s0] l IH]; intros data Hi K S; (destruct data as [|[k1 v] data]; cbn [keys map fst] in K; [| try discriminate]); [constructor|discriminate|].
    inversion K; subst k1. cbn [values map snd] in S. inversion S as [|? ? S1 S2]; subst.
    unfold listing. cbn [flat_map fst snd]. apply StronglySorted_app.
    - clear - N. induction v as [|m v IH]; cbn [map]; constructor; [exact IH|]. apply Forall_forall. intros y I s t Hs Ht.
      apply in_map_iff in I as (m1 & <- & _). cbn [fst] in *. assert (t = s) as -> by (eapply NoDup_unique_key; eauto). apply Qcle_refl.
    - apply (IH data); auto. intros x I. apply Hi. now right.
    - intros x y Ix Iy s t Hs Ht. apply in_map_iff in Ix as (m & <- & _). cbn [fst] in *.
      assert (s = s0) as -> by (eapply NoDup_unique_key; [exact N|exact Hs|]; apply Hi; now left).
      destruct y as [k2 m2]. apply listing_In, model_key in Iy. unfold keys in Iy. rewrite H1 in Iy. apply in_map_iff in Iy as ([k3 t'] & Q & It). cbn in Q, Ht. subst k3.
      assert (t = t') as -> by (eapply NoDup_unique_key; [exact N|exact Ht|]; apply Hi; now right).
      rewrite Forall_forall in S2. apply S2. apply in_map_iff. exists (k2, t'). auto. }
  intros K S. apply (G sc data); auto. intros x I. exact I.
Qed.

Lemma sorted_along {A B} (R : A -> B -> Prop) (P : A -> A -> Prop) (Q : B -> B -> Prop) l l' :
  (forall x x' y y', R x y -> R x' y' -> P x x' -> Q y y') -> Forall2 R l l' -> StronglySorted P l -> StronglySorted Q l'.
Proof.
  intros H F. induction F as [|x y l l' Hr F IH]; intros S; [constructor|]. inversion S as [|? ? S1 S2]; subst. constructor; [auto|].
  apply Forall_forall. intros y' I. destruct (F2_r _ _ _ _ F I) as (x' & Ix & Hr'). rewrite Forall_forall in S2. eauto.
Qed.
