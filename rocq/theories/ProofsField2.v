(** * ProofsField2: lemmas about products, derivatives and pickling *)

From Coq Require Import Ascii String List Bool Arith ZArith QArith Qcanon Lia Permutation.
From Verif Require Import Base BaseFacts Show ModelIndex SpecIndex ProofsIndex ModelField SpecField ProofsField.
Import ListNotations.
Local Open Scope nat_scope.

Lemma to_tex_app x y t : to_tex x = Ok t -> exists t', to_tex (x ++ y) = Ok t'.
Proof.
  unfold to_tex. destruct x as [|c x]; [discriminate|]. cbn [app].
  destruct (_ || _); [eauto|]. destruct (160 <=? nat_of_ascii c); [|discriminate].
  destruct (nth_error tex_greek (nat_of_ascii c - 160)); [eauto|discriminate].
Qed.

(** ** products *)

Definition sum_charges (f g : charges) : charges :=
  map (fun kv => (fst kv, (snd kv + match dget str_eqb g (fst kv) with Some w => w | None => Q2Qc 0 end)%Qc)) f.

Lemma keys_sum f g : keys (sum_charges f g) = keys f.
Proof. unfold keys, sum_charges. rewrite map_map. reflexivity. Qed.

Lemma sum_proper f g : proper f -> proper (sum_charges f g).
Proof.
  intros (y & b & r & E & N). unfold proper. rewrite E in N |- *.
  eexists. eexists. eexists. split; [reflexivity|].
  change (NoDup (keys (sum_charges ((lit "y", y) :: (lit "3b", b) :: r) g))). now rewrite keys_sum.
Qed.

Lemma dget_sum f g k :
  dget str_eqb (sum_charges f g) k =
  match dget str_eqb f k with
  | Some v => Some (v + match dget str_eqb g k with Some w => w | None => Q2Qc 0 end)%Qc
  | None => None
  end.
Proof.
  induction f as [|[k' v] f IH]; [reflexivity|]. cbn [sum_charges map fst snd dget].
  destruct (str_eqb k k') eqn:E; [|exact IH]. apply str_decides in E. now subst.
Qed.

Lemma sum_fold (f g : charges) : forall acc,
  NoDup (keys acc ++ keys f) -> (forall k, In k (keys f) -> In k (keys g)) ->
  foldM (fun c kv => do w <- dgetM str_eqb g (fst kv); Ok (dset str_eqb c (fst kv) (snd kv + w)%Qc)) f acc =
  Ok (acc ++ sum_charges f g).
Proof.
  induction f as [|[k v] f IH]; intros acc N H; cbn [foldM fst snd].
  - cbn. now rewrite app_nil_r.
  - unfold dgetM at 1. destruct (dget str_eqb g k) as [w|] eqn:E.
    2:{ apply (dget_None str_decides) in E. exfalso. apply E, H. now left. }
    cbn [bind]. cbn [keys map fst] in N. rewrite dset_snoc.
    2:{ intros I. apply NoDup_remove_2 in N. apply N. apply in_app_iff. now left. }
    cbn [bind]. rewrite IH.
    + cbn [sum_charges map fst snd]. rewrite E, <- app_assoc. reflexivity.
    + unfold keys. rewrite map_app. cbn [map fst]. rewrite <- app_assoc. exact N.
    + intros k' I. apply H. now right.
Qed.

Section Product.
  Variable irrep_product : str -> str -> list (list nat * nat).

  Definition product_field (f g : field) (wm : list nat * nat) (t : str) : field :=
    mkField (label_with_dagger f ++ label_with_dagger g) (concat (map show_nat (fst wm)))
      (sum_charges (f_charges f) (f_charges g)) false (lit "0") (symmetry_of (fst wm)) (Some (f, g)) (snd wm) t 1 0 None.

  Lemma mul_field_ok f g tex :
    proper (f_charges f) -> same_keys f g -> to_tex (f_label f) = Ok tex ->
    exists t, mul_field irrep_product f g = Ok (map (fun wm => product_field f g wm t) (irrep_product (f_dynkin f) (f_dynkin g))) /\
              to_tex (label_with_dagger f ++ label_with_dagger g) = Ok t.
  Proof using Type.
    intros P S T.
    assert (exists t, to_tex (label_with_dagger f ++ label_with_dagger g) = Ok t) as (t & Et).
    { unfold label_with_dagger at 1. rewrite <- app_assoc. apply (to_tex_app _ _ _ T). }
    exists t. split; [|exact Et]. unfold mul_field.
    replace (forallb _ _ && forallb _ _) with true.
    2:{ symmetry. apply andb_true_iff. split; apply forallb_forall; intros k I; apply (mem_by_In str_decides); now apply S. }
    cbn [assert_ bind].
    rewrite (sum_fold (f_charges f) (f_charges g) []).
    2:{ cbn [keys map app]. now apply proper_NoDup. }
    2:{ intros k I. now apply S. }
    cbn [app bind]. rewrite <- mapM_ok_map. apply mapM_ext. intros [w m] _. cbn [fst snd].
    unfold mk_field_ints. rewrite Et. cbn [bind].
    rewrite proper_update by now apply sum_proper. reflexivity.
  Qed.

  Lemma charge_sum f g wm t k : same_keys f g ->
    charge_of (product_field f g wm t) k = (charge_of f k + charge_of g k)%Qc.
  Proof using Type.
    intros S. unfold charge_of. cbn [product_field f_charges]. rewrite dget_sum.
    destruct (dget str_eqb (f_charges f) k) as [v|] eqn:Ef; [reflexivity|].
    destruct (dget str_eqb (f_charges g) k) as [w|] eqn:Eg; [|reflexivity].
    apply (dget_None str_decides) in Ef. exfalso. apply Ef, S. apply (dget_In str_decides) in Eg.
    now apply (in_map fst) in Eg.
  Qed.

  Lemma decompose_ok rst : forall f g tex,
    proper (f_charges f) -> to_tex (f_label f) = Ok tex -> Forall (same_keys f) (g :: rst) ->
    exists l, decompose irrep_product f g rst = Ok l /\
      Forall (fun r => proper (f_charges r) /\ keys (f_charges r) = keys (f_charges f) /\
                       (forall k, charge_of r k = total (f :: g :: rst) k) /\
                       leaves (walked r) = concat (map (fun f => leaves (walked f)) (f :: g :: rst)) /\
                       f_label r = concat (map label_with_dagger (f :: g :: rst)) /\ f_is_conj r = false) l.
  Proof using Type.
    induction rst as [|z rst IH]; intros f g tex P T S; cbn [decompose]; inversion S as [|? ? Sg Sr]; subst;
      destruct (mul_field_ok f g tex P Sg T) as (t & E & Et); rewrite E; cbn [bind].
    - eexists. split; [reflexivity|]. apply Forall_forall. intros r I. apply in_map_iff in I as (wm & <- & _).
      split; [now apply sum_proper|]. split; [apply keys_sum|]. split; [|split; [|split]].
      + intros k. rewrite charge_sum by exact Sg. cbn [total fold_right]. now rewrite Qcplus_0_r.
      + cbn [walked product_field f_history leaves map concat]. now rewrite app_nil_r.
      + cbn [product_field f_label map concat]. now rewrite app_nil_r.
      + reflexivity.
    - assert (G : forall wm, exists l, decompose irrep_product (product_field f g wm t) z rst = Ok l /\
        Forall (fun r => proper (f_charges r) /\ keys (f_charges r) = keys (f_charges f) /\
                       (forall k, charge_of r k = total (f :: g :: z :: rst) k) /\
                       leaves (walked r) = concat (map (fun f => leaves (walked f)) (f :: g :: z :: rst)) /\
                       f_label r = concat (map label_with_dagger (f :: g :: z :: rst)) /\ f_is_conj r = false) l).
      { intros wm. destruct (IH (product_field f g wm t) z t) as (l & El & Fl).
        - now apply sum_proper.
        - exact Et.
        - eapply Forall_impl; [|exact Sr]. intros h Sh k. cbn [product_field f_charges]. rewrite keys_sum. apply Sh.
        - exists l. split; [exact El|]. eapply Forall_impl; [|exact Fl].
          intros r (R1 & R2 & R3 & R4 & R5 & R6). split; [exact R1|]. split; [|split; [|split; [|split]]].
          + rewrite R2. apply keys_sum.
          + intros k. rewrite R3. cbn [total fold_right]. rewrite charge_sum by exact Sg. symmetry. apply Qcplus_assoc.
          + rewrite R4. cbn [map concat walked product_field f_history leaves]. now rewrite <- !app_assoc.
          + rewrite R5. cbn [map concat]. unfold label_with_dagger at 1. cbn [product_field f_label f_is_conj].
            now rewrite app_nil_r, <- !app_assoc.
          + exact R6. }
      assert (M : forall wms, exists ls, mapM (fun x => decompose irrep_product x z rst)
                    (map (fun wm => product_field f g wm t) wms) = Ok ls /\
                  Forall (Forall (fun r => proper (f_charges r) /\ keys (f_charges r) = keys (f_charges f) /\
                       (forall k, charge_of r k = total (f :: g :: z :: rst) k) /\
                       leaves (walked r) = concat (map (fun f => leaves (walked f)) (f :: g :: z :: rst)) /\
                       f_label r = concat (map label_with_dagger (f :: g :: z :: rst)) /\ f_is_conj r = false)) ls).
      { induction wms as [|wm wms IHw]; [exists []; split; [reflexivity|constructor]|].
        destruct (G wm) as (l & El & Fl). destruct IHw as (ls & Es & Fs).
        exists (l :: ls). cbn [map mapM]. rewrite El. cbn [bind]. rewrite Es. split; [reflexivity|]. constructor; auto. }
      destruct (M (irrep_product (f_dynkin f) (f_dynkin g))) as (ls & Es & Fs). rewrite Es. cbn [bind].
      exists (concat ls). split; [reflexivity|]. clear - Fs. induction Fs as [|l ls Hl Fs IH]; [constructor|].
      cbn. apply Forall_app. auto.
  Qed.

  (** ** dimensions *)

  Hypothesis Hprod : product_spec irrep_product.

  Lemma labels_five f a b c d e : f_dynkin f = five a b c d e -> a < 10 /\ b < 10 /\ c < 10 /\ d < 10 /\ e < 10 -> labels_of f = [a; b; c; d; e].
  Proof using Type.
    intros E (Ha & Hb & Hc & Hd & He). unfold labels_of. rewrite E. unfold five, digit. cbn [map].
    rewrite !nat_ascii_embedding by lia. repeat (f_equal; try lia).
  Qed.

  Lemma product_dynkin f g p q r s t tx m :
    p < 10 -> q < 10 -> r < 10 -> s < 10 -> t < 10 -> f_dynkin (product_field f g ([p; q; r; s; t], m) tx) = five p q r s t.
  Proof using Type.
    intros. cbn [product_field f_dynkin fst map concat]. rewrite !show_nat_digit by assumption. reflexivity.
  Qed.

  Lemma label_sums_cons f fs a b c d e : labels_of f = [a; b; c; d; e] ->
    label_sums (f :: fs) = let '(w, x, y, z) := label_sums fs in (a + w, b + x, c + d + y, e + z).
  Proof using Type.
    intros E. cbn [label_sums fold_right]. fold (label_sums fs). rewrite E. destruct (label_sums fs) as [[[w x] y] z]. reflexivity.
  Qed.

  Lemma same_keys_product f g wm t l : Forall (same_keys f) l -> Forall (same_keys (product_field f g wm t)) l.
  Proof using Type.
    intros S. eapply Forall_impl; [|exact S]. intros h Sh k. cbn [product_field f_charges]. rewrite keys_sum. apply Sh.
  Qed.

  Lemma mapM_concat_In {A B} (h : A -> res (list B)) xs ls r :
    mapM h xs = Ok ls -> In r (concat ls) -> exists x l, In x xs /\ h x = Ok l /\ In r l.
  Proof using Type.
    intros E I. apply in_concat in I as (l & Il & I). apply mapM_Forall2 in E.
    induction E as [|x l0 xs ls H E IH]; [destruct Il|]. destruct Il as [<-|Il].
    - exists x, l0. cbn. auto.
    - destruct (IH Il) as (x' & l' & Ix & H'). exists x', l'. cbn. tauto.
  Qed.

  Lemma decompose_chain rst : forall x y l r k tx,
    proper (f_charges x) -> to_tex (f_label x) = Ok tx -> Forall (same_keys x) (y :: rst) ->
    decompose irrep_product x y rst = Ok l -> In r l ->
    chain_multiplicity (S (List.length rst) + k) r = chain_multiplicity (S (List.length rst)) r * chain_multiplicity k x.
  Proof using Type.
    induction rst as [|z rst IH]; intros x y l r k tx P T S E I; cbn [decompose] in E; inversion S as [|? ? Sy Sr]; subst;
      destruct (mul_field_ok x y tx P Sy T) as (t & Em & Et); rewrite Em in E; cbn [bind] in E.
    - injection E as <-. apply in_map_iff in I as (wm & <- & _).
      cbn [List.length Nat.add chain_multiplicity product_field f_multiplicity f_history]. lia.
    - apply bind_ok in E as (ls & Es & E). injection E as <-.
      destruct (mapM_concat_In _ _ _ _ Es I) as (x' & l & Ix & El & Il). apply in_map_iff in Ix as (wm & <- & _).
      pose proof (fun k => IH (product_field x y wm t) z l r k t (sum_proper _ _ P) Et (same_keys_product _ _ _ _ _ Sr) El Il) as H.
      cbn [List.length].
      replace (Datatypes.S (Datatypes.S (List.length rst)) + k) with (Datatypes.S (List.length rst) + Datatypes.S k) by lia.
      replace (Datatypes.S (Datatypes.S (List.length rst))) with (Datatypes.S (List.length rst) + 1) by lia.
      rewrite (H (Datatypes.S k)), (H 1). cbn [chain_multiplicity product_field f_multiplicity f_history]. lia.
  Qed.

  Lemma decompose_dim rst : forall f g l tex,
    proper (f_charges f) -> to_tex (f_label f) = Ok tex -> Forall (same_keys f) (g :: rst) ->
    Forall has_digits (f :: g :: rst) -> small (f :: g :: rst) ->
    decompose irrep_product f g rst = Ok l ->
    list_sum (map (fun r => chain_multiplicity (S (List.length rst)) r * dim r) l) =
      dim f * fold_right (fun h n => dim h * n) 1 (g :: rst).
  Proof using Hprod.
    induction rst as [|z rst IH]; intros f g l tex P T S D Sm El; cbn [decompose] in El; inversion S as [|? ? Sg Sr]; subst;
      destruct (mul_field_ok f g tex P Sg T) as (t & E & Et); rewrite E in El; cbn [bind] in El;
      inversion D as [|? ? Df Dgr]; subst; inversion Dgr as [|? ? Dg Dr]; subst;
      destruct Df as (a & b & c & d & e & Ef & Bf); destruct Dg as (a' & b' & c' & d' & e' & Eg & Bg);
      pose proof (labels_five _ _ _ _ _ _ Ef Bf) as Lf; pose proof (labels_five _ _ _ _ _ _ Eg Bg) as Lg;
      destruct (Hprod a b c d e a' b' c' d' e' Bf Bg) as (W & Sum); rewrite <- Ef, <- Eg in W, Sum;
      set (wms := irrep_product (f_dynkin f) (f_dynkin g)) in *;
      unfold small in Sm; rewrite (label_sums_cons _ _ _ _ _ _ _ Lf) in Sm; rewrite (label_sums_cons _ _ _ _ _ _ _ Lg) in Sm.
    - injection El as <-. cbn in Sm. cbn [List.length fold_right]. rewrite Nat.mul_1_r. unfold dim at 2 3. rewrite Lf, Lg, <- Sum.
      rewrite map_map. f_equal. apply map_ext_in. intros [w m] I. cbn [chain_multiplicity]. cbn [snd fst].
      destruct (W w m I) as (p & q & r & s & u & -> & H1 & H2 & H3 & H4).
      unfold dim. rewrite (labels_five _ p q r s u); [|apply product_dynkin; lia|lia].
      cbn [product_field f_multiplicity f_history snd]. lia.
    - apply bind_ok in El as (ls & Es & El). injection El as <-.
      cbn [List.length].
      change (fold_right (fun h n => dim h * n) 1 (g :: z :: rst)) with (dim g * fold_right (fun h n => dim h * n) 1 (z :: rst)).
      rewrite Nat.mul_assoc. unfold dim at 2 3. rewrite Lf, Lg, <- Sum.
      assert (R : forall wm l r, decompose irrep_product (product_field f g wm t) z rst = Ok l -> In r l ->
                  chain_multiplicity (Datatypes.S (Datatypes.S (List.length rst))) r =
                  chain_multiplicity (Datatypes.S (List.length rst)) r * snd wm).
      { intros wm l r El I. replace (Datatypes.S (Datatypes.S (List.length rst))) with (Datatypes.S (List.length rst) + 1) by lia.
        rewrite (decompose_chain rst (product_field f g wm t) z l r 1 t);
          [|now apply sum_proper|exact Et|now apply same_keys_product|exact El|exact I].
        cbn [chain_multiplicity product_field f_multiplicity f_history]. f_equal. lia. }
      assert (Each : forall w m l, In (w, m) wms -> decompose irrep_product (product_field f g (w, m) t) z rst = Ok l ->
                list_sum (map (fun r => chain_multiplicity (Datatypes.S (Datatypes.S (List.length rst))) r * dim r) l) =
                m * dimension w * fold_right (fun h n => dim h * n) 1 (z :: rst)).
      { intros w m l I El. destruct (W w m I) as (p & q & r & s & u & -> & H1 & H2 & H3 & H4).
        inversion Dr as [|? ? (za & zb & zc & zd & ze & Ez & Bz) Dr']; subst.
        pose proof (labels_five _ _ _ _ _ _ Ez Bz) as Lz.
        assert (Ep : f_dynkin (product_field f g ([p; q; r; s; u], m) t) = five p q r s u).
        { apply product_dynkin; destruct (label_sums (z :: rst)) as [[[? ?] ?] ?]; lia. }
        assert (Bp : p < 10 /\ q < 10 /\ r < 10 /\ s < 10 /\ u < 10).
        { destruct (label_sums (z :: rst)) as [[[? ?] ?] ?]; lia. }
        pose proof (labels_five _ _ _ _ _ _ Ep Bp) as Lp.
        assert (Sk : Forall (same_keys (product_field f g ([p; q; r; s; u], m) t)) (z :: rst)).
        { eapply Forall_impl; [|exact Sr]. intros h Sh k. cbn [product_field f_charges]. rewrite keys_sum. apply Sh. }
        pose proof (IH (product_field f g ([p; q; r; s; u], m) t) z l t) as Q.
        rewrite <- (Nat.mul_comm (dimension _)), <- Nat.mul_assoc.
        replace (m * fold_right (fun h n => dim h * n) 1 (z :: rst)) with (fold_right (fun h n => dim h * n) 1 (z :: rst) * m) by lia.
        rewrite Nat.mul_assoc. unfold dim at 2 in Q. rewrite Lp in Q. rewrite <- Q.
        - assert (Rl : forall r0, In r0 l -> chain_multiplicity (Datatypes.S (Datatypes.S (List.length rst))) r0 =
                        chain_multiplicity (Datatypes.S (List.length rst)) r0 * m).
          { intros r0 I0. exact (R ([p; q; r; s; u], m) l r0 El I0). }
          clear - Rl. induction l as [|x l IHl]; [reflexivity|]. cbn [map list_sum fold_right].
          change (fold_right Nat.add 0) with list_sum. rewrite IHl by (intros; apply Rl; now right).
          rewrite Rl by now left. lia.
        - now apply sum_proper.
        - exact Et.
        - exact Sk.
        - constructor; [|exact Dr]. exists p, q, r, s, u. tauto.
        - unfold small. rewrite (label_sums_cons _ _ _ _ _ _ _ Lp).
          destruct (label_sums (z :: rst)) as [[[? ?] ?] ?]; lia.
        - exact El. }
      clear R W Sum E. revert ls Es. generalize dependent (fold_right (fun h n => dim h * n) 1 (z :: rst)). intros N Each.
      induction wms as [|[w m] wms IHw]; intros ls Es.
      + cbn in Es. injection Es as <-. reflexivity.
      + cbn [map mapM] in Es. apply bind_ok in Es as (l & El & Es). apply bind_ok in Es as (ls' & Es & E'). injection E' as <-.
        cbn [concat]. rewrite map_app, list_sum_app. rewrite (Each w m l) by (auto; now left).
        rewrite IHw by (auto; intros; apply Each; auto; now right).
        cbn [map list_sum fold_right fst snd]. change (fold_right Nat.add 0) with list_sum. lia.
  Qed.
End Product.
