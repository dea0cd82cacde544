(** * PropsScale: C113, the scale of new physics and the leading estimate *)

From Coq Require Import Ascii String List Bool Arith NArith ZArith QArith Lia Lqa Permutation.
From Verif Require Import Base BaseFacts ModelIndex ModelField ModelContract ModelClosures PropsClosures PropsParse2 ModelOperators ModelScale SpecScale.
Import ListNotations.
Local Open Scope Q_scope.

(** ** Products of powers *)

Lemma power_pos x n : 0 < x -> 0 < power x n.
Proof. intros H. induction n as [|n IH]; cbn [power]; [lra|]. now apply Qmult_lt_0_compat. Qed.

Lemma power_add x n m : power x (n + m) == power x n * power x m.
Proof. induction n as [|n IH]; cbn [power Nat.add]; [ring|]. rewrite IH. ring. Qed.

Lemma mult_le a b c d : 0 < a -> 0 < c -> a <= b -> c <= d -> a * c <= b * d.
Proof. intros. apply Qle_trans with (b * c); [now apply Qmult_le_compat_r; [|apply Qlt_le_weak]|]. rewrite !(Qmult_comm b). apply Qmult_le_compat_r; [assumption|]. lra. Qed.

Lemma power_mono x y n : 0 < x -> x <= y -> power x n <= power y n.
Proof. intros H L. induction n as [|n IH]; cbn [power]; [lra|]. apply mult_le; auto. now apply power_pos. Qed.

Definition six : list ksym := [Kye; Kyu; Kyd; Kg2; Kloop; Kloopv2].

Definition product (f : ksym -> Q) (c : ksym -> nat) : Q := fold_right (fun k acc => power (f k) (c k) * acc) 1 six.

Lemma product_pos f c : (forall k, 0 < f k) -> 0 < product f c.
Proof. intros H. unfold product. induction six as [|k l IH]; cbn [fold_right]; [lra|]. apply Qmult_lt_0_compat; [now apply power_pos|exact IH]. Qed.

Lemma product_mono f g c : (forall k, 0 < f k) -> (forall k, f k <= g k) -> product f c <= product g c.
Proof.
  intros H L. unfold product. assert (P : forall l, 0 < fold_right (fun k acc => power (f k) (c k) * acc) 1 l).
  { induction l as [|k l IH]; cbn [fold_right]; [lra|]. apply Qmult_lt_0_compat; [now apply power_pos|exact IH]. }
  induction six as [|k l IH]; cbn [fold_right]; [lra|]. apply mult_le; auto; [now apply power_pos|now apply power_mono].
Qed.

Lemma product_add f a b : product f (fun k => (a k + b k)%nat) == product f a * product f b.
Proof. unfold product. induction six as [|k l IH]; cbn [fold_right]; [ring|]. rewrite IH, power_add. ring. Qed.

Lemma product_ext f a b : (forall k, In k six -> a k = b k) -> product f a == product f b.
Proof. intros H. unfold product. induction six as [|k l IH]; cbn [fold_right]; [reflexivity|]. rewrite IH, (H k); [reflexivity|now left|intros; apply H; now right]. Qed.

Definition rest (a b : ksym -> nat) (k : ksym) : nat := (a k - b k)%nat.

(** what two products have in common cancels *)
Lemma product_compare f a b : (forall k, 0 < f k) ->
  (product f (rest b a) <= product f (rest a b) -> product f b <= product f a) /\ (product f (rest b a) < product f (rest a b) -> product f b < product f a).
Proof.
  intros H. set (m := fun k => Nat.min (a k) (b k)).
  assert (Ea : product f a == product f m * product f (rest a b)) by (rewrite <- product_add; apply product_ext; intros k _; unfold m, rest; lia).
  assert (Eb : product f b == product f m * product f (rest b a)) by (rewrite <- product_add; apply product_ext; intros k _; unfold m, rest; lia).
  pose proof (product_pos f m H) as P. rewrite Ea, Eb. rewrite !(Qmult_comm (product f m)). split; intros L; [apply Qmult_le_compat_r; lra|now apply Qmult_lt_compat_r].
Qed.

(** ** Masses *)

Section Loop.
  Variable loop : Q.
  Hypothesis L : 0 < loop.
  Notation fac := (factor loop).

  Lemma vv_pos lam : 0 < lam -> 0 < vev * vev / lam.
  Proof. intros H. unfold Qdiv. apply Qmult_lt_0_compat; [reflexivity|now apply Qinv_lt_0_compat]. Qed.

  Lemma sq_pos lam : 0 < lam -> 0 < lam * lam.
  Proof. intros H. now apply Qmult_lt_0_compat. Qed.

  Lemma fac_pos lam k : 0 < lam -> 0 < fac lam k.
  Proof. intros H. destruct k; cbn [factor]; try reflexivity; try exact L. pose proof (vv_pos _ (sq_pos lam H)). lra. Qed.

  Lemma inv_anti a b : 0 < a -> a <= b -> / b <= / a.
  Proof.
    intros A B. assert (0 < b) by lra. apply Qmult_le_l with (z := a * b); [now apply Qmult_lt_0_compat|].
    assert (E1 : a * b * / b == a) by (field; lra). assert (E2 : a * b * / a == b) by (field; lra). rewrite E1, E2. exact B.
  Qed.

  Lemma vv_anti a b : 0 < a -> a <= b -> vev * vev / b <= vev * vev / a.
  Proof. intros A B. unfold Qdiv. rewrite !(Qmult_comm (vev * vev)). apply Qmult_le_compat_r; [now apply inv_anti|]. discriminate. Qed.

  Lemma fac_anti a b k : 0 < a -> a <= b -> fac b k <= fac a k.
  Proof.
    intros A B. destruct k; cbn [factor]; try apply Qle_refl. assert (a * a <= b * b) by (apply mult_le; assumption).
    pose proof (vv_anti (a * a) (b * b) (sq_pos a A) H). lra.
  Qed.

  Definition counts (e : estimate) (k : ksym) : nat := times k e.

  Lemma mass_at_product lam e : couplings e -> mass_at loop lam e == vev * vev / lam * product (fac lam) (counts e).
  Proof.
    intros (N1 & N2). unfold mass_at. induction e as [|k e IH]; [cbn; ring|]. cbn [map fold_right].
    assert (IH' : fold_right Qmult (vev * vev / lam) (map (fac lam) e) == vev * vev / lam * product (fac lam) (counts e)) by (apply IH; intros I; (apply N1 + apply N2); now right).
    rewrite IH'.
    unfold product, six, counts, times. cbn [fold_right]. destruct k; try (exfalso; (apply N1 + apply N2); now left); cbn [filter List.length power]; ring.
  Qed.

  Lemma product_mass lam e : vev * vev / lam * product (fac lam) (counts e) == mass loop lam e.
  Proof. unfold mass, product, six, counts. cbn [fold_right factor]. change vev with 174. ring. Qed.

  (** C113 (1): the number that numerical_mv substitutes, for any Λ *)
  Theorem C113_value lam e : couplings e -> mass_at loop lam e == mass loop lam e.
  Proof. intros C. now rewrite mass_at_product, product_mass. Qed.

  Lemma mass_pos lam e : 0 < lam -> 0 < mass loop lam e.
  Proof. intros H. rewrite <- product_mass. apply Qmult_lt_0_compat; [now apply vv_pos|]. apply product_pos. intros k. now apply fac_pos. Qed.

  Lemma vv_strict a b : 0 < a -> a < b -> vev * vev / b < vev * vev / a.
  Proof.
    intros A B. assert (0 < b) by lra. apply Qmult_lt_l with (z := a * b); [now apply Qmult_lt_0_compat|].
    assert (E1 : a * b * (vev * vev / b) == vev * vev * a) by (field; lra). assert (E2 : a * b * (vev * vev / a) == vev * vev * b) by (field; lra). rewrite E1, E2. unfold vev. lra.
  Qed.

  (** C113 (2): the estimate falls with Λ *)
  Theorem C113_falls e a b : 0 < a -> a < b -> mass loop b e < mass loop a e.
  Proof.
    intros A B. rewrite <- !product_mass. assert (0 < b) by lra.
    apply Qle_lt_trans with (vev * vev / b * product (fac a) (counts e)).
    - rewrite !(Qmult_comm (vev * vev / b)). apply Qmult_le_compat_r; [|apply Qlt_le_weak; now apply vv_pos]. apply product_mono; [intros; now apply fac_pos|intros; apply fac_anti; lra].
    - apply Qmult_lt_compat_r; [apply product_pos; intros; now apply fac_pos|now apply vv_strict].
  Qed.

  Lemma mass_le e a b : 0 < a -> a <= b -> mass loop b e <= mass loop a e.
  Proof.
    intros A B. rewrite <- !product_mass. assert (0 < b) by lra.
    apply mult_le; [now apply vv_pos|apply product_pos; intros; now apply fac_pos|now apply vv_anti|apply product_mono; [intros; now apply fac_pos|intros; now apply fac_anti]].
  Qed.

  (** ** One scale *)

  (** C113 (3): it exceeds the measured mass for small Λ and not for large, so there is one scale and at most one positive
      solution of the equation; a solution is above 1 TeV exactly if the estimate at 1 TeV exceeds the measured mass *)
  Theorem C113_scale e : couplings e ->
    (exists a, exceeds loop e a) /\ (exists b, 0 < b /\ ~ exceeds loop e b) /\
    (forall a b, exceeds loop e b -> 0 < a -> a <= b -> exceeds loop e a) /\
    (forall a b, 0 < a -> 0 < b -> solves loop a e -> solves loop b e -> a == b) /\
    (forall a, 0 < a -> solves loop a e -> (forall lam, exceeds loop e lam <-> 0 < lam /\ lam < a) /\ (mv < numerical_mv loop e <-> 1000 < a)).
  Proof.
    intros C. set (p := product (fac 1) (counts e)). assert (Pp : 0 < p) by (apply product_pos; intros; apply fac_pos; reflexivity).
    assert (M1 : mass loop 1 e == 174 * 174 * p) by (rewrite <- product_mass; fold p; unfold vev; field).
    assert (Low : forall lam, 0 < lam -> lam <= 1 -> 174 * 174 * p <= lam * mass loop lam e).
    { intros lam H H1. rewrite <- product_mass. setoid_replace (lam * (vev * vev / lam * product (fac lam) (counts e))) with (174 * 174 * product (fac lam) (counts e)) by (unfold vev; field; lra).
      rewrite !(Qmult_comm (174 * 174)). apply Qmult_le_compat_r; [|discriminate]. apply product_mono; [intros; apply fac_pos; reflexivity|intros; now apply fac_anti]. }
    assert (High : forall lam, 1 <= lam -> lam * mass loop lam e <= 174 * 174 * p).
    { intros lam H. rewrite <- product_mass. assert (0 < lam) by lra. setoid_replace (lam * (vev * vev / lam * product (fac lam) (counts e))) with (174 * 174 * product (fac lam) (counts e)) by (unfold vev; field; lra).
      rewrite !(Qmult_comm (174 * 174)). apply Qmult_le_compat_r; [|discriminate]. apply product_mono; [intros; now apply fac_pos|intros; apply fac_anti; [reflexivity|exact H]]. }
    assert (Sol : forall a, solves loop a e -> mass loop a e == measured).
    { intros a S. unfold solves in S. rewrite (C113_value a e C) in S. unfold measured. unfold mv in S. lra. }
    split; [|split; [|split; [|split]]].
    - destruct (Qlt_le_dec 1 p) as [H|H].
      + exists 1. split; [reflexivity|]. rewrite M1. unfold measured. lra.
      + exists p. split; [exact Pp|]. pose proof (Low p Pp H) as Q. apply Qmult_lt_l with (z := p); [exact Pp|]. eapply Qlt_le_trans; [|exact Q]. unfold measured. lra.
    - set (b := 1 + 174 * 174 * p / measured). exists b.
      assert (B : 1 <= b) by (unfold b, measured; assert (0 < 174 * 174 * p / (5 # 100000000000)) by (unfold Qdiv; apply Qmult_lt_0_compat; [lra|reflexivity]); lra).
      split; [lra|]. intros (_ & X). pose proof (High b B) as Q.
      assert (Y : b * measured < b * mass loop b e) by (rewrite !(Qmult_comm b); apply Qmult_lt_compat_r; lra).
      assert (Z : b * measured == measured + 174 * 174 * p) by (unfold b, measured; field). rewrite Z in Y. unfold measured in Y. lra.
    - intros a b (B1 & B2) A AB. split; [exact A|]. pose proof (mass_le e a b A AB). lra.
    - intros a b A B Sa Sb. apply Sol in Sa, Sb. destruct (Q_dec a b) as [[H|H]|H]; [| |exact H]; [pose proof (C113_falls e a b A H)|pose proof (C113_falls e b a B H)]; lra.
    - intros a A S. apply Sol in S. assert (K : forall lam, 0 < lam -> (measured < mass loop lam e <-> lam < a)).
      { intros lam H. split; intros X.
        - destruct (Qlt_le_dec lam a) as [Y|Y]; [exact Y|]. pose proof (mass_le e a lam A Y). lra.
        - pose proof (C113_falls e lam a H X). lra. }
      split.
      + intros lam. unfold exceeds. split; intros (H & X); (split; [exact H|]); now apply (K lam H).
      + unfold numerical_mv. rewrite (C113_value 1000 e C). exact (K 1000 eq_refl).
  Qed.

End Loop.

(** ** Further factors *)

Lemma counts_perm e e' : Permutation e e' -> forall k, counts e k = counts e' k.
Proof. intros P k. unfold counts, times. induction P as [|x l l' P IH|x y l|l l' l'' P IH Q IH']; cbn [filter]; [reflexivity| | |congruence]; repeat match goal with |- context [if ?b then _ else _] => destruct b end; cbn [List.length]; lia. Qed.

Lemma counts_app e e' k : counts (e ++ e') k = (counts e k + counts e' k)%nat.
Proof. unfold counts, times. now rewrite filter_app, app_length. Qed.

Lemma product_nil f : product f (counts []) == 1.
Proof. unfold product, six, counts, times. cbn. ring. Qed.

Lemma product_cons f k e : In k six -> product f (counts (k :: e)) == f k * product f (counts e).
Proof. intros I. unfold product, six, counts, times. repeat (destruct I as [<-|I]; [cbn [fold_right filter List.length power]; ring|]). destruct I. Qed.

Lemma couplings_six e k : couplings e -> In k e -> In k six.
Proof. intros (A & B) I. unfold six. destruct k; cbn [In]; tauto. Qed.

(** C113 (4): an estimate with further factors is smaller, at every Λ from 175 GeV on *)
Theorem C113_more loop e e' extra lam : loop_factor loop -> couplings e' -> Permutation e' (e ++ extra) -> extra <> [] -> 175 <= lam ->
  mass loop lam e' < mass loop lam e.
Proof.
  intros (L1 & L2) C P N H. assert (L : 0 < loop) by lra. assert (H0 : 0 < lam) by lra.
  assert (S : forall k, In k six -> factor loop lam k < 1).
  { intros k I. destruct k; cbn [factor]; try reflexivity; try lra.
    - unfold six in I. cbn [In] in I. repeat (destruct I as [I|I]; [discriminate I|]). destruct I.
    - unfold six in I. cbn [In] in I. repeat (destruct I as [I|I]; [discriminate I|]). destruct I.
    - assert (X : 175 * 175 <= lam * lam) by (apply mult_le; lra). assert (Y : 0 < (175 * 175 : Q)) by reflexivity. pose proof (vv_anti _ _ Y X) as Z. unfold vev in *.
      assert (W : 174 * 174 / (175 * 175) < (99 # 100)) by reflexivity. lra. }
  assert (T : forall l, (forall k, In k l -> In k six) -> product (factor loop lam) (counts l) <= 1 /\ (l <> [] -> product (factor loop lam) (counts l) < 1)).
  { induction l as [|k l IH]; intros I; [rewrite product_nil; split; [lra|congruence]|]. destruct IH as (IH & _); [intros x X; apply I; now right|].
    assert (X : product (factor loop lam) (counts (k :: l)) < 1).
    { rewrite product_cons by (apply I; now left). pose proof (S k (I k (or_introl eq_refl))) as Y. pose proof (fac_pos loop L lam k H0) as Z.
      apply Qle_lt_trans with (factor loop lam k * 1); [|lra]. rewrite !(Qmult_comm (factor loop lam k)). apply Qmult_le_compat_r; lra. }
    split; [lra|auto]. }
  destruct (T extra) as (_ & T'); [intros k I; apply (couplings_six e'); [exact C|]; apply (Permutation_in _ (Permutation_sym P)); apply in_or_app; now right|].
  specialize (T' N). rewrite <- !product_mass.
  assert (E : product (factor loop lam) (counts e') == product (factor loop lam) (counts e) * product (factor loop lam) (counts extra)).
  { rewrite <- product_add. apply product_ext. intros k _. rewrite (counts_perm _ _ P). apply counts_app. }
  rewrite E. pose proof (vv_pos lam H0) as V. assert (Q : 0 < product (factor loop lam) (counts e)) by (apply product_pos; intros; now apply fac_pos).
  rewrite !(Qmult_comm (vev * vev / lam)). apply Qmult_lt_compat_r; [exact V|].
  apply Qlt_le_trans with (1 * product (factor loop lam) (counts e)); [rewrite (Qmult_comm (product (factor loop lam) (counts e))); now apply Qmult_lt_compat_r|lra].
Qed.

(** C113 (4b): so an estimate whose scale is above 175 GeV is not below one with further factors, and none is above that of the
    Weinberg operator, which has no factors *)
Theorem C113_factors loop : loop_factor loop ->
  (forall e e' extra, couplings e' -> Permutation e' (e ++ extra) -> exceeds loop e 175 -> scale_below loop e' e) /\ forall e, couplings e -> scale_below loop e [].
Proof.
  intros F. assert (L : 0 < loop) by (destruct F; lra).
  assert (G : forall e e' extra, couplings e' -> Permutation e' (e ++ extra) -> exceeds loop e 175 -> scale_below loop e' e).
  { intros e e' extra C P (_ & X) lam (H & Y). split; [exact H|]. destruct (Qlt_le_dec lam 175) as [Z|Z].
    - pose proof (C113_falls loop L e lam 175 H Z). lra.
    - destruct extra as [|k extra].
      + rewrite app_nil_r in P. assert (E : mass loop lam e' == mass loop lam e) by (rewrite <- !product_mass; rewrite (product_ext _ (counts e') (counts e)); [reflexivity|intros; now apply counts_perm]). lra.
      + pose proof (C113_more loop e e' (k :: extra) lam F C P ltac:(discriminate) Z). lra. }
  split; [exact G|]. intros e C. apply (G [] e e C); [apply Permutation_refl|]. split; [reflexivity|]. unfold mass, times. cbn [filter List.length power]. unfold measured.
  setoid_replace (174 * 174 / 175 * 1 * 1 * 1 * 1 * 1 * 1) with (30276 # 175) by reflexivity. reflexivity.
Qed.

(** ** Which estimate leads *)

Definition lo : Q := 6332 # 1000000.
Definition hi : Q := 6333 # 1000000.

Definition bound (l t : Q) (k : ksym) : Q := match k with Kloop => l | Kloopv2 => l + t | k => factor 1 1 k end.

Lemma fac_bound loop lam k : factor loop lam k = bound loop (vev * vev / (lam * lam)) k.
Proof. now destruct k. Qed.

Lemma bound_pos l t k : 0 < l -> 0 <= t -> 0 < bound l t k.
Proof. intros A B. destruct k; cbn [bound factor]; try reflexivity; lra. Qed.

Lemma bound_mono l t l' t' k : l <= l' -> t <= t' -> bound l t k <= bound l' t' k.
Proof. intros A B. destruct k; cbn [bound factor]; try apply Qle_refl; lra. Qed.

(** a with the factors loop + v²/Λ² it has beyond those of b replaced by loop *)
Definition lowered (a b : ksym -> nat) (k : ksym) : nat :=
  match k with Kloopv2 => Nat.min (a Kloopv2) (b Kloopv2) | Kloop => (a Kloop + (a Kloopv2 - b Kloopv2))%nat | k => a k end.

Definition vlam (lam : Q) : Q := vev * vev / (lam * lam).

Definition strictly (a b : ksym -> nat) : bool :=
  negb (Qle_bool (product (bound lo (vlam 1000)) (rest a b)) (product (bound hi (vlam 1000)) (rest b a))).

Definition dominates (a b : ksym -> nat) (lam : Q) : bool :=
  negb (Qle_bool (vev * vev / lam * product (bound lo (vlam lam)) a) mv) &&
  Qle_bool (product (bound hi (vlam lam)) (rest b (lowered a b))) (product (bound lo 0) (rest (lowered a b) b)).

Definition same (a b : ksym -> nat) : bool := forallb (fun k => Nat.eqb (a k) (b k)) six.

Definition coupl (e : estimate) : bool := forallb (fun k => match k with Kv | Knunu => false | _ => true end) e.

Definition leads (a : estimate) (b : estimate) : bool :=
  coupl b && (same (counts a) (counts b) || (strictly (counts a) (counts b) && existsb (dominates (counts a) (counts b)) [1000; 115; 1 # 100])).

Lemma not_Qle x y : negb (Qle_bool x y) = true -> y < x.
Proof. intros H. apply negb_true_iff in H. apply Qnot_le_lt. intros X. apply Qle_bool_iff in X. congruence. Qed.

Lemma product_single f k n : In k six -> product f (fun j => if ksym_eqb k j then n else 0%nat) == power (f k) n.
Proof. intros I. unfold product, six. repeat (destruct I as [<-|I]; [cbn [fold_right ksym_eqb power]; ring|]). destruct I. Qed.

Lemma product_lowered loop lam a b : 0 < loop -> 0 < lam -> product (factor loop lam) (lowered a b) <= product (factor loop lam) a.
Proof.
  intros L H. set (f := factor loop lam). set (m := (a Kloopv2 - b Kloopv2)%nat).
  set (c := fun k => match k with Kloopv2 => Nat.min (a Kloopv2) (b Kloopv2) | k => a k end).
  assert (P : forall k, 0 < f k) by (intros; now apply fac_pos).
  assert (E1 : product f (lowered a b) == product f c * power (f Kloop) m).
  { rewrite <- (product_single f Kloop m) by (cbn; tauto). rewrite <- product_add. apply product_ext. intros k _. unfold lowered, c, m. destruct k; cbn [ksym_eqb]; lia. }
  assert (E2 : product f a == product f c * power (f Kloopv2) m).
  { rewrite <- (product_single f Kloopv2 m) by (cbn; tauto). rewrite <- product_add. apply product_ext. intros k _. unfold c, m. destruct k; cbn [ksym_eqb]; lia. }
  rewrite E1, E2. rewrite !(Qmult_comm (product f c)). apply Qmult_le_compat_r; [|apply Qlt_le_weak; now apply product_pos].
  apply power_mono; [apply P|]. unfold f. cbn [factor]. pose proof (vv_pos _ (sq_pos lam H)). lra.
Qed.

Lemma coupl_sound e : coupl e = true -> couplings e.
Proof. unfold coupl. rewrite forallb_forall. intros H. split; intros I; now specialize (H _ I). Qed.

Lemma same_mass loop lam a b : same (counts a) (counts b) = true -> mass loop lam a == mass loop lam b.
Proof.
  intros H. unfold same in H. rewrite forallb_forall in H. rewrite <- !product_mass. rewrite (product_ext _ (counts a) (counts b)); [reflexivity|]. intros k I. apply Nat.eqb_eq. now apply H.
Qed.

Lemma vlam_pos lam : 0 < lam -> 0 < vlam lam.
Proof. intros H. apply vv_pos. now apply sq_pos. Qed.

Lemma strictly_sound loop a b : loop_factor loop -> strictly (counts a) (counts b) = true -> mass loop 1000 b < mass loop 1000 a.
Proof.
  intros (L1 & L2) H. apply not_Qle in H. assert (L : 0 < loop) by lra. rewrite <- !product_mass. rewrite !(Qmult_comm (vev * vev / 1000)). apply Qmult_lt_compat_r; [reflexivity|].
  apply (product_compare (factor loop 1000) (counts a) (counts b)); [intros; now apply fac_pos|]. assert (T : 0 < vlam 1000) by reflexivity.
  eapply Qle_lt_trans; [|eapply Qlt_le_trans; [exact H|]]; apply product_mono; intros k; rewrite ?fac_bound; try (apply bound_pos; unfold lo; try lra; apply Qlt_le_weak, T); apply bound_mono; try apply Qle_refl; assumption.
Qed.

Lemma dominates_sound loop a b lam0 : loop_factor loop -> 0 < lam0 -> dominates (counts a) (counts b) lam0 = true -> scale_below loop b a.
Proof.
  intros (L1 & L2) H0 H. assert (L : 0 < loop) by lra. unfold dominates in H. apply andb_true_iff in H as [H1 H2]. apply not_Qle in H1. apply Qle_bool_iff in H2.
  assert (Lo : 0 < lo) by reflexivity. pose proof (vlam_pos lam0 H0) as T0.
  assert (A : measured < mass loop lam0 a).
  { rewrite <- product_mass. eapply Qlt_le_trans; [exact H1|]. rewrite !(Qmult_comm (vev * vev / lam0)). apply Qmult_le_compat_r; [|apply Qlt_le_weak; now apply vv_pos].
    apply product_mono; intros k; rewrite ?fac_bound; [apply bound_pos; lra|apply bound_mono; [exact L1|apply Qle_refl]]. }
  intros lam (P & E). split; [exact P|]. destruct (Qlt_le_dec lam lam0) as [X|X].
  - pose proof (C113_falls loop L a lam lam0 P X). lra.
  - eapply Qlt_le_trans; [exact E|]. rewrite <- !product_mass. rewrite !(Qmult_comm (vev * vev / lam)). apply Qmult_le_compat_r; [|apply Qlt_le_weak; now apply vv_pos].
    eapply Qle_trans; [|apply product_lowered; [exact L|exact P]]. instantiate (1 := counts b).
    apply (product_compare (factor loop lam) (lowered (counts a) (counts b)) (counts b)); [intros; now apply fac_pos|].
    assert (T : vlam lam <= vlam lam0) by (apply vv_anti; [now apply sq_pos|now apply mult_le]). pose proof (vlam_pos lam P) as Tl.
    eapply Qle_trans; [|eapply Qle_trans; [exact H2|]]; apply product_mono; intros k; rewrite ?fac_bound; fold (vlam lam); try (apply bound_pos; lra); apply bound_mono; try assumption; lra.
Qed.

Lemma ordered_Q : ordered Q Q_gtb.
Proof.
  unfold Q_gtb. assert (I : forall x y, negb (Qle_bool x y) = true <-> y < x).
  { intros x y. split; [apply not_Qle|]. intros H. apply negb_true_iff. destruct (Qle_bool x y) eqn:E; [|reflexivity]. apply Qle_bool_iff in E. lra. }
  assert (N : forall x y, negb (Qle_bool x y) = false <-> x <= y).
  { intros x y. rewrite negb_false_iff. apply Qle_bool_iff. }
  split; [|split].
  - intros x. apply N. lra.
  - intros x y z. rewrite !I. lra.
  - intros x y z. rewrite !N. lra.
Qed.

Lemma first_largest_largest V (value : estimate -> V) gtb l e : ordered V gtb -> first_largest V value gtb l e -> In e l /\ forall x, In x l -> gtb (value x) (value e) = false.
Proof.
  intros O (before & after & -> & B & A). split; [apply in_or_app; right; now left|]. intros x I. apply in_app_iff in I as [I|[<-|I]]; [|apply O|now apply A]. apply (asym V gtb O). now apply B.
Qed.

Lemma last_largest_largest V (value : estimate -> V) gtb l e : ordered V gtb -> last_largest V value gtb l e -> In e l /\ forall x, In x l -> gtb (value x) (value e) = false.
Proof.
  intros O (before & after & -> & B & A). split; [apply in_or_app; right; now left|]. intros x I. apply in_app_iff in I as [I|[<-|I]]; [now apply B|apply O|]. apply (asym V gtb O). now apply A.
Qed.

(** the leading estimate, taken with the lower bound of the loop factor; that it leads for the others is checked *)
Definition checked_scale (op : operator) : bool :=
  match operator_estimate op with
  | Ok es => match max_by Q (numerical_mv lo) Q_gtb es with Ok a => existsb (fun e => same (counts a) (counts e)) es && forallb (leads a) es | Err _ => false end
  | Err _ => false
  end.

Definition exception (k : str) : bool := str_eqb k (lit "37") || str_eqb k (lit "59c").

Lemma eff_scales : match eff_operators with Ok l => forallb (fun kv => exception (fst kv) || checked_scale (snd kv)) l | Err _ => false end = true.
Proof. vm_compute. reflexivity. Qed.

Lemma deriv_scales : match deriv_eff_operators with Ok l => forallb (fun kv => exception (fst kv) || checked_scale (snd kv)) l | Err _ => false end = true.
Proof. vm_compute. reflexivity. Qed.

Lemma checked_sound loop op : loop_factor loop -> checked_scale op = true -> exists es m, operator_estimate op = Ok es /\ leading_mv loop op = Ok m /\ In m es /\
  (forall b, In b es -> couplings b /\ mass loop 1000 b <= mass loop 1000 m /\ scale_below loop b m).
Proof.
  intros F H. unfold checked_scale in H. destruct (operator_estimate op) as [es|] eqn:E; [|discriminate H]. destruct (max_by Q (numerical_mv lo) Q_gtb es) as [a|]; [|discriminate H].
  apply andb_true_iff in H as [H1 H2]. apply existsb_exists in H1 as (a' & Ia & Sa). rewrite forallb_forall in H2.
  assert (L : 0 < loop) by (destruct F; lra).
  pose proof (C78_leading Q (numerical_mv loop) Q_gtb ordered_Q op es E) as D. destruct es as [|e es]; [destruct Ia|]. destruct D as ((m & G & Fm) & _).
  apply (first_largest_largest _ _ _ _ _ ordered_Q) in Fm as (Im & Mm). exists (e :: es), m. split; [reflexivity|]. split; [exact G|]. split; [exact Im|].
  assert (C : forall b, In b (e :: es) -> couplings b) by (intros b I; apply coupl_sound; specialize (H2 b I); now apply andb_true_iff in H2 as [H2 _]).
  assert (M : forall b, In b (e :: es) -> mass loop 1000 b <= mass loop 1000 m).
  { intros b I. specialize (Mm b I). unfold Q_gtb in Mm. apply negb_false_iff, Qle_bool_iff in Mm. unfold numerical_mv in Mm. rewrite !C113_value in Mm by auto. exact Mm. }
  assert (S : same (counts a) (counts m) = true).
  { specialize (H2 m Im). apply andb_true_iff in H2 as [_ H2]. apply orb_true_iff in H2 as [H2|H2]; [exact H2|]. apply andb_true_iff in H2 as [H2 _].
    apply (strictly_sound loop) in H2; [|exact F]. specialize (M a' Ia). pose proof (same_mass loop 1000 _ _ Sa). lra. }
  intros b I. split; [now apply C|]. split; [now apply M|]. specialize (H2 b I). apply andb_true_iff in H2 as [_ H2]. apply orb_true_iff in H2 as [H2|H2].
  - intros lam (P & X). split; [exact P|]. pose proof (same_mass loop lam _ _ S). pose proof (same_mass loop lam _ _ H2). lra.
  - apply andb_true_iff in H2 as [_ H2]. apply existsb_exists in H2 as (l0 & I0 & H2).
    assert (P0 : 0 < l0) by (destruct I0 as [<-|[<-|[<-|[]]]]; reflexivity). apply (dominates_sound loop) in H2; [|exact F|exact P0].
    intros lam X. specialize (H2 lam X) as (P & Y). split; [exact P|]. pose proof (same_mass loop lam _ _ S). lra.
Qed.

(** the scale is read off in the same order: of two estimates, the one that exceeds the measured mass up to a larger Λ has
    not the smaller number *)
Definition follows_scale {V} (loop : Q) (value : estimate -> V) (gtb : V -> V -> bool) : Prop :=
  forall a b, couplings a -> couplings b -> scale_below loop b a -> gtb (value b) (value a) = false.

(** C113 (5): for every shipped operator but "37" and "59c", the estimate that get_leading_mv finds at 1 TeV is also one of the
    largest scale of new physics, so that the scale table_data prints is the scale of the leading estimate *)
Theorem C113_leading : exists ops dops, eff_operators = Ok ops /\ deriv_eff_operators = Ok dops /\
  forall k op loop, In (k, op) (ops ++ dops) -> k <> lit "37" -> k <> lit "59c" -> loop_factor loop ->
    exists es m, operator_estimate op = Ok es /\ leading_mv loop op = Ok m /\ In m es /\
      (forall b, In b es -> couplings b /\ mass loop 1000 b <= mass loop 1000 m /\ scale_below loop b m) /\
      forall V (rounded : estimate -> V) gtb, ordered V gtb -> follows_scale loop rounded gtb ->
        exists e, table_data V rounded gtb op = Ok (loops_text (loop_data e), e) /\ In e es /\ gtb (rounded e) (rounded m) = false /\ gtb (rounded m) (rounded e) = false.
Proof.
  pose proof eff_scales as H. pose proof deriv_scales as D.  destruct eff_operators as [ops|]; [|discriminate H]. destruct deriv_eff_operators as [dops|]; [|discriminate D].
  exists ops, dops. split; [reflexivity|]. split; [reflexivity|]. intros k op loop I N1 N2 F. rewrite forallb_forall in H, D.
  assert (X : exception k || checked_scale op = true) by (apply in_app_iff in I as [I|I]; [exact (H _ I)|exact (D _ I)]).
  assert (Y : exception k = false).
  { unfold exception. apply orb_false_iff. split; (destruct (str_eqb k _) eqn:E; [|reflexivity]); apply str_decides in E; contradiction. }
  rewrite Y in X. cbn [orb] in X. destruct (checked_sound loop op F X) as (es & m & E & G & Im & A). exists es, m. split; [exact E|]. split; [exact G|]. split; [exact Im|]. split; [exact A|].
  intros V rounded gtb O Fs. pose proof (C78_leading V rounded gtb O op es E) as T. destruct es as [|e0 es]; [destruct Im|]. destruct T as (_ & e & T & Le).
  apply (last_largest_largest _ _ _ _ _ O) in Le as (Ie & Le). exists e. split; [exact T|]. split; [exact Ie|]. split; [|now apply Le].
  apply Fs; [now apply A|now apply A|now apply A].
Qed.

(** C113 (6): for the two others it is not: at 42 GeV another estimate of theirs exceeds the measured mass and the leading one
    does not *)
Definition misled (ops : list (str * operator)) (k : str) : bool :=
  match dget str_eqb ops k with
  | Some op => match operator_estimate op with
    | Ok es => match max_by Q (numerical_mv lo) Q_gtb es with
      | Ok a => existsb (fun e => same (counts a) (counts e)) es && forallb (fun b => coupl b && (same (counts a) (counts b) || strictly (counts a) (counts b))) es &&
                Qle_bool (vev * vev / 42 * product (bound hi (vlam 42)) (counts a)) mv &&
                existsb (fun b => negb (Qle_bool (vev * vev / 42 * product (bound lo (vlam 42)) (counts b)) mv)) es
      | Err _ => false end
    | Err _ => false end
  | None => false end.

Lemma misled_both : match eff_operators with Ok ops => misled ops (lit "37") && misled ops (lit "59c") | Err _ => false end = true.
Proof. vm_compute. reflexivity. Qed.

Theorem C113_leading_refuted : forall k, k = lit "37" \/ k = lit "59c" -> forall loop, loop_factor loop -> exists ops op es m b, eff_operators = Ok ops /\ In (k, op) ops /\
  operator_estimate op = Ok es /\ leading_mv loop op = Ok m /\ In b es /\ mass loop 1000 b < mass loop 1000 m /\ exceeds loop b 42 /\ ~ exceeds loop m 42.
Proof.
  intros k K loop F. pose proof misled_both as H. destruct eff_operators as [ops|]; [|discriminate H].
  assert (H' : misled ops k = true) by (apply andb_true_iff in H as [H1 H2]; destruct K as [-> | ->]; assumption). clear H K. rename H' into H.
  unfold misled in H. destruct (dget str_eqb ops k) as [op|] eqn:G; [|discriminate H].
  destruct (operator_estimate op) as [es|] eqn:E; [|discriminate H]. destruct (max_by Q (numerical_mv lo) Q_gtb es) as [a|]; [|discriminate H].
  apply andb_true_iff in H as [H H4]. apply andb_true_iff in H as [H H3]. apply andb_true_iff in H as [H1 H2].
  apply existsb_exists in H1 as (a' & Ia & Sa). rewrite forallb_forall in H2. apply Qle_bool_iff in H3. apply existsb_exists in H4 as (b & Ib & H4). apply not_Qle in H4.
  assert (L : 0 < loop) by (destruct F; lra). destruct F as (F1 & F2). assert (T42 : 0 < vlam 42) by reflexivity.
  pose proof (C78_leading Q (numerical_mv loop) Q_gtb ordered_Q op es E) as D. destruct es as [|e es]; [destruct Ia|]. destruct D as ((m & Gm & Fm) & _).
  apply (first_largest_largest _ _ _ _ _ ordered_Q) in Fm as (Im & Mm).
  assert (C : forall b, In b (e :: es) -> couplings b) by (intros x I; apply coupl_sound; specialize (H2 x I); now apply andb_true_iff in H2 as [H2 _]).
  assert (M : forall b, In b (e :: es) -> mass loop 1000 b <= mass loop 1000 m).
  { intros x I. specialize (Mm x I). unfold Q_gtb in Mm. apply negb_false_iff, Qle_bool_iff in Mm. unfold numerical_mv in Mm. rewrite !C113_value in Mm by auto. exact Mm. }
  assert (S : same (counts a) (counts m) = true).
  { specialize (H2 m Im). apply andb_true_iff in H2 as [_ H2]. apply orb_true_iff in H2 as [H2|H2]; [exact H2|].
    apply (strictly_sound loop) in H2; [|now split]. specialize (M a' Ia). pose proof (same_mass loop 1000 _ _ Sa). lra. }
  assert (Xb : measured < mass loop 42 b).
  { rewrite <- product_mass. eapply Qlt_le_trans; [exact H4|]. rewrite !(Qmult_comm (vev * vev / 42)). apply Qmult_le_compat_r; [|discriminate].
    apply product_mono; intros j; rewrite ?fac_bound; [apply bound_pos; [reflexivity|apply Qlt_le_weak, T42]|apply bound_mono; [exact F1|apply Qle_refl]]. }
  assert (Xm : mass loop 42 m <= measured).
  { rewrite <- (same_mass loop 42 _ _ S). rewrite <- product_mass. eapply Qle_trans; [|exact H3]. rewrite !(Qmult_comm (vev * vev / 42)). apply Qmult_le_compat_r; [|discriminate].
    apply product_mono; intros j; rewrite ?fac_bound; [apply bound_pos; [exact L|apply Qlt_le_weak, T42]|apply bound_mono; [exact F2|apply Qle_refl]]. }
  exists ops, op, (e :: es), m, b. split; [reflexivity|]. split; [exact (dget_In str_decides _ _ G)|]. split; [exact E|]. split; [exact Gm|]. split; [exact Ib|].
  split; [|split; [split; [reflexivity|exact Xb]|intros (_ & X); lra]].
  specialize (H2 b Ib). apply andb_true_iff in H2 as [_ H2]. apply orb_true_iff in H2 as [H2|H2].
  - pose proof (same_mass loop 42 _ _ H2). pose proof (same_mass loop 42 _ _ S). lra.
  - apply (strictly_sound loop) in H2; [|now split]. pose proof (same_mass loop 1000 _ _ S). lra.
Qed.

(** ** Cases *)

(** the Weinberg operator, with no factor: the scale is 174²/(5·10⁻¹¹) GeV, or 6·10¹¹ TeV; with two loops and a Yukawa coupling
    of the down quarks it is lower *)
Example C113_example1 : solves lo (174 * 174 / mv) [] /\ 605520000000000 == 174 * 174 / mv /\ mv < numerical_mv lo [] /\ couplings [Kyd; Kloop; Kloop] /\
  mass lo 1000 [Kyd; Kloop; Kloop] < mass lo 1000 [] /\ loop_factor lo.
Proof. repeat split; try (vm_compute; reflexivity); try (intros [H|[H|[H|[]]]]; discriminate H); vm_compute; discriminate. Qed.

(** with a factor loop + v²/Λ² the order of two estimates can change with Λ, as in the operators 37 and 59c *)
Example C113_example2 : mass lo 1000 [Kloopv2; Kloopv2] < mass lo 1000 [Kye] /\ mass lo 100 [Kye] < mass lo 100 [Kloopv2; Kloopv2].
Proof. split; vm_compute; reflexivity. Qed.

Print Assumptions C113_value.
Print Assumptions C113_falls.
Print Assumptions C113_scale.
Print Assumptions C113_more.
Print Assumptions C113_factors.
Print Assumptions C113_leading.
Print Assumptions C113_leading_refuted.
