(** * PropsRounded: C114, the number of loops in the table *)

From Coq Require Import Ascii String List Bool Arith NArith ZArith QArith Lia Lqa Qround Permutation ConstructiveEpsilon.
From Verif Require Import Base BaseFacts ModelIndex ModelField ModelContract ModelClosures PropsClosures PropsParse2 ModelOperators ModelScale SpecScale PropsScale SpecRounded.
Import ListNotations.
Local Open Scope Q_scope.

Definition l18 : Q := 6332573977646110 # 1000000000000000000.
Definition h18 : Q := 6332573977646112 # 1000000000000000000.

Lemma close_factor loop : close loop -> loop_factor loop.
Proof. intros (A & B). split; lra. Qed.

Definition mass_of (l lam : Q) (c : ksym -> nat) : Q := vev * vev / lam * product (bound l (vlam lam)) c.

Lemma mass_bounds loop lam e : close loop -> 0 < lam -> mass_of l18 lam (counts e) <= mass loop lam e /\ mass loop lam e <= mass_of h18 lam (counts e).
Proof.
  intros (A & B) H. pose proof (vlam_pos lam H) as T. assert (L : 0 < l18) by reflexivity. assert (0 < loop) by (unfold l18 in L; lra). rewrite <- product_mass. unfold mass_of.
  rewrite !(Qmult_comm (vev * vev / lam)). split; (apply Qmult_le_compat_r; [|apply Qlt_le_weak; now apply vv_pos]); apply product_mono; intros k; rewrite ?fac_bound; fold (vlam lam); try (apply bound_pos; lra); apply bound_mono; try assumption; apply Qle_refl.
Qed.

Definition over (lam : Q) (c : ksym -> nat) : bool := negb (Qle_bool (mass_of l18 lam c) mv).
Definition under (lam : Q) (c : ksym -> nat) : bool := Qle_bool (mass_of h18 lam c) mv.

Lemma over_sound loop lam e : close loop -> 0 < lam -> over lam (counts e) = true -> exceeds loop e lam.
Proof. intros C H X. apply not_Qle in X. split; [exact H|]. pose proof (proj1 (mass_bounds loop lam e C H)). change measured with mv. lra. Qed.

Lemma under_sound loop lam e : close loop -> 0 < lam -> under lam (counts e) = true -> ~ exceeds loop e lam.
Proof. intros C H X (_ & Y). apply Qle_bool_iff in X. pose proof (proj2 (mass_bounds loop lam e C H)). change measured with mv in Y. lra. Qed.

Definition above (n : Z) : Q := inject_Z (10 * n + 5) + (1 # 10).
Definition beneath (n : Z) : Q := inject_Z (10 * n + 5) - (1 # 10).

(** 10 n + 5 GeV lies between the two scales *)
Definition separated (n : Z) (a b : ksym -> nat) : bool := Z.leb 0 n && over (above n) a && under (beneath n) b.

Lemma inject_le x y : inject_Z x < inject_Z y + 1 -> (x <= y)%Z.
Proof. intros H. apply Znot_gt_le. intros G. assert (E : (y + 1 <= x)%Z) by lia. rewrite Zle_Qle in E. rewrite inject_Z_plus in E. change (inject_Z 1) with 1 in E. lra. Qed.

Lemma inject_10 n c : inject_Z (10 * n + c) == 10 * inject_Z n + inject_Z c.
Proof. rewrite inject_Z_plus, inject_Z_mult. reflexivity. Qed.

Lemma inject_10m n c : inject_Z (10 * n - c) == 10 * inject_Z n - inject_Z c.
Proof. unfold Z.sub, Qminus. rewrite inject_Z_plus, inject_Z_mult, inject_Z_opp. reflexivity. Qed.

Lemma nonneg_inject n : Z.leb 0 n = true -> 0 <= inject_Z n.
Proof. intros H. apply Z.leb_le in H. now rewrite Zle_Qle in H. Qed.

Lemma separated_sound loop a b n ra rb : close loop -> separated n (counts a) (counts b) = true -> nearest loop a ra -> nearest loop b rb -> (rb < ra)%Z.
Proof.
  intros C S (Na & _) (_ & Nb). apply andb_true_iff in S as [S Sb]. apply andb_true_iff in S as [Sn Sa]. apply nonneg_inject in Sn.
  assert (P1 : 0 < above n) by (unfold above; rewrite inject_10; change (inject_Z 5) with 5; lra). assert (P2 : 0 < beneath n) by (unfold beneath; rewrite inject_10; change (inject_Z 5) with 5; lra).
  specialize (Na _ (over_sound loop _ a C P1 Sa)). specialize (Nb _ P2 (under_sound loop _ b C P2 Sb)). unfold above in Na. unfold beneath in Nb. rewrite !inject_10 in *. rewrite inject_10m in Nb. change (inject_Z 5) with 5 in *.
  assert (A : (n + 1 <= ra)%Z) by (apply inject_le; rewrite inject_Z_plus; change (inject_Z 1) with 1; lra). assert (B : (rb <= n)%Z) by (apply inject_le; lra). lia.
Qed.

(** the last of the largest is a: another entry is separated from a, or an entry like a follows it *)
Fixpoint last_like (n : Z) (a : estimate) (l : list estimate) : bool :=
  match l with
  | [] => true
  | b :: r => (same (counts a) (counts b) || existsb (fun x => same (counts a) (counts x)) r || separated n (counts a) (counts b)) && last_like n a r
  end.

Lemma last_like_sound n a before b after : last_like n a (before ++ b :: after) = true ->
  same (counts a) (counts b) = true \/ (exists x, In x after /\ same (counts a) (counts x) = true) \/ separated n (counts a) (counts b) = true.
Proof.
  induction before as [|y before IH]; cbn [app last_like]; intros H; apply andb_true_iff in H as [H H']; [|now apply IH].
  apply orb_true_iff in H as [H|H]; [apply orb_true_iff in H as [H|H]|]; [now left|right; left; now apply existsb_exists in H|now right; right].
Qed.

Lemma ordered_Z : ordered Z Z.gtb.
Proof.
  split; [|split].
  - intros x. rewrite Z.gtb_ltb. apply Z.ltb_irrefl.
  - intros x y z. rewrite !Z.gtb_ltb, !Z.ltb_lt. lia.
  - intros x y z. rewrite !Z.gtb_ltb, !Z.ltb_ge. lia.
Qed.

Lemma count_times k e : count_k k e = times k e.
Proof. reflexivity. Qed.

Lemma loops_same a b : same_factors a b -> loop_data a = loop_data b.
Proof. intros H. rewrite (proj1 (C78_loops a)), (proj1 (C78_loops b)), !count_times, !H. reflexivity. Qed.

Lemma times_none k e : couplings e -> ~ In k six -> times k e = 0%nat.
Proof.
  intros (A & B) N. unfold times. induction e as [|x e IH]; [reflexivity|]. cbn [filter].
  assert (IH' : List.length (filter (fun l => match k, l with | Kye, Kye | Kyu, Kyu | Kyd, Kyd | Kv, Kv | Knunu, Knunu | Kg2, Kg2 | Kloop, Kloop | Kloopv2, Kloopv2 => true | _, _ => false end) e) = 0%nat)
    by (apply IH; intros I; (apply A + apply B); now right).
  destruct k; try (exfalso; apply N; cbn; tauto); destruct x; try exact IH'; exfalso; (apply A + apply B); now left.
Qed.

Lemma ksym_dec (x y : ksym) : {x = y} + {x <> y}.
Proof. decide equality. Qed.

Lemma same_factors_of a b : couplings a -> couplings b -> same (counts a) (counts b) = true -> same_factors a b.
Proof.
  intros A B H k. unfold same in H. rewrite forallb_forall in H. destruct (in_dec ksym_dec k six) as [I|I].
  - apply Nat.eqb_eq. exact (H k I).
  - now rewrite !times_none.
Qed.

(** a number of hundredths of a TeV between the scales of the leading estimate and of the largest of the others after it *)
Definition between : list (str * Z) := [
  (lit "1", 3033292998413%Z); (lit "8", 295%Z); (lit "11b", 70198%Z); (lit "12a", 119912042%Z); (lit "14b", 2901321%Z); (lit "23b", 3785%Z);
  (lit "24b", 988%Z); (lit "24d", 8876%Z); (lit "24e", 49%Z); (lit "24f", 8876%Z); (lit "25a", 18836%Z); (lit "26b", 3785%Z);
  (lit "27a", 121639578%Z); (lit "27b", 121639578%Z); (lit "28a", 18836%Z); (lit "28c", 18372%Z); (lit "28e", 18836%Z); (lit "28f", 18836%Z);
  (lit "28g", 943%Z); (lit "28h", 943%Z); (lit "29a", 121639578%Z); (lit "29b", 121639578%Z); (lit "31b", 18836%Z); (lit "32b", 759364%Z);
  (lit "32f", 38039%Z); (lit "33", 121639578%Z); (lit "40e", 121639578%Z); (lit "40h", 121639578%Z); (lit "40k", 4642011%Z); (lit "43d", 943%Z);
  (lit "44b", 121639578%Z); (lit "44d", 121639578%Z); (lit "45", 121639578%Z); (lit "46", 121639578%Z); (lit "47a", 121639578%Z); (lit "47b", 121639578%Z);
  (lit "47c", 121639578%Z); (lit "47d", 121639578%Z); (lit "47g", 121639578%Z); (lit "47j", 121639578%Z); (lit "47k", 121639578%Z); (lit "48", 121639578%Z);
  (lit "49", 121639578%Z); (lit "50b", 943%Z); (lit "51", 121639578%Z); (lit "52b", 943%Z); (lit "54a", 151%Z); (lit "54d", 189%Z);
  (lit "55a", 1413%Z); (lit "55d", 7823%Z); (lit "59b", 9%Z); (lit "60c", 24%Z); (lit "62b", 1623%Z); (lit "63b", 3785%Z);
  (lit "63d", 3785%Z); (lit "65b", 943%Z); (lit "1p", 19208552308%Z); (lit "8p", 68%Z); (lit "1pp", 121639578%Z); (lit "8pp", 45%Z);
  (lit "77p", 157304%Z); (lit "82", 7%Z); (lit "D2b", 3033292998413%Z); (lit "D2c", 3033292998413%Z); (lit "D3", 196501282%Z); (lit "D5d", 19208552308%Z);
  (lit "D6a", 19208552308%Z); (lit "D8a", 19208552308%Z); (lit "D8b", 19208552308%Z); (lit "D8d", 19208552308%Z); (lit "D8e", 19208552308%Z); (lit "D8f", 19208552308%Z);
  (lit "D9a", 19208552308%Z); (lit "D12a", 19208552308%Z); (lit "D15", 295%Z); (lit "D18a", 19208552308%Z); (lit "D18b", 19208552308%Z); (lit "D18c", 19208552308%Z);
  (lit "D18e", 19208552308%Z); (lit "D18f", 19208552308%Z); (lit "D20", 1244366%Z); (lit "D21", 196501282%Z)].

(** where the rounded scales of two estimates agree: the rounded scale, and a scale between the two *)
Definition agreeing : list (str * (Z * Q)) := [
  (lit "21b", (156183%Z, (156183242463661 # 100000000)));
  (lit "28i", (366767%Z, (366767095357740 # 100000000)));
  (lit "30b", (156183%Z, (156183242463661 # 100000000)));
  (lit "32c", (15158534%Z, (15158534004911930 # 100000000)));
  (lit "32e", (15158534%Z, (15158534004911930 # 100000000)));
  (lit "64a", (156183%Z, (156183242463661 # 100000000)));
  (lit "64d", (156183%Z, (156183242463661 # 100000000)));
  (lit "71", (2410921019%Z, (2410921018840262007 # 100000000)));
  (lit "77", (24840469%Z, (24840468937843844 # 100000000)));
  (lit "78", (58333236%Z, (58333236043198951 # 100000000)));
  (lit "71p", (15267336%Z, (15267335710765107 # 100000000)));
  (lit "78p", (369400%Z, (369399726735408 # 100000000)))].

Definition number (k : str) : Z := match dget str_eqb between k with Some n => n | None => 0%Z end.

Definition leader (es : list estimate) : res estimate := max_by Q (numerical_mv lo) Q_gtb es.

Definition checked_last (k : str) (op : operator) : bool :=
  match operator_estimate op with
  | Ok es => match leader es with Ok a => existsb (fun e => same (counts a) (counts e)) es && forallb (leads a) es && last_like (number k) a es | Err _ => false end
  | Err _ => false
  end.

Definition excepted (k : str) : bool := exception k || match dget str_eqb agreeing k with Some _ => true | None => false end.

Lemma eff_last : match eff_operators with Ok l => forallb (fun kv => excepted (fst kv) || checked_last (fst kv) (snd kv)) l | Err _ => false end = true.
Proof. vm_compute. reflexivity. Qed.

Lemma deriv_last : match deriv_eff_operators with Ok l => forallb (fun kv => excepted (fst kv) || checked_last (fst kv) (snd kv)) l | Err _ => false end = true.
Proof. vm_compute. reflexivity. Qed.

(** the leading estimate has the factors of a *)
Lemma leads_like loop op es a : loop_factor loop -> operator_estimate op = Ok es -> existsb (fun e => same (counts a) (counts e)) es = true ->
  forallb (fun b => coupl b && (same (counts a) (counts b) || strictly (counts a) (counts b))) es = true ->
  exists m, leading_mv loop op = Ok m /\ In m es /\ same (counts a) (counts m) = true /\ forall b, In b es -> couplings b.
Proof.
  intros F E H1 H2. apply existsb_exists in H1 as (a' & Ia & Sa). rewrite forallb_forall in H2. assert (L : 0 < loop) by (destruct F; lra).
  pose proof (C78_leading Q (numerical_mv loop) Q_gtb ordered_Q op es E) as D. destruct es as [|e es]; [destruct Ia|]. destruct D as ((m & Gm & Fm) & _).
  apply (first_largest_largest _ _ _ _ _ ordered_Q) in Fm as (Im & Mm).
  assert (C : forall b, In b (e :: es) -> couplings b) by (intros x I; apply coupl_sound; specialize (H2 x I); now apply andb_true_iff in H2 as [H2 _]).
  exists m. split; [exact Gm|]. split; [exact Im|]. split; [|exact C].
  specialize (H2 m Im). apply andb_true_iff in H2 as [_ H2]. apply orb_true_iff in H2 as [H2|H2]; [exact H2|].
  apply (strictly_sound loop) in H2; [|exact F]. specialize (Mm a' Ia). unfold Q_gtb in Mm. apply negb_false_iff, Qle_bool_iff in Mm. unfold numerical_mv in Mm. rewrite !C113_value in Mm by auto.
  pose proof (same_mass loop 1000 _ _ Sa). lra.
Qed.

Lemma leads_weaker a es : forallb (leads a) es = true -> forallb (fun b => coupl b && (same (counts a) (counts b) || strictly (counts a) (counts b))) es = true.
Proof.
  rewrite !forallb_forall. intros H b I. specialize (H b I). apply andb_true_iff in H as [H1 H2]. rewrite H1. cbn [andb]. apply orb_true_iff in H2 as [H2|H2]; [now rewrite H2|]. apply andb_true_iff in H2 as [H2 _]. rewrite H2. apply orb_true_r.
Qed.

Lemma same_counts a b k : same (counts a) (counts b) = true -> In k six -> counts a k = counts b k.
Proof. intros H I. unfold same in H. rewrite forallb_forall in H. apply Nat.eqb_eq. exact (H k I). Qed.

Lemma over_same lam a b : same (counts a) (counts b) = true -> over lam (counts a) = true -> over lam (counts b) = true.
Proof.
  intros S H. unfold over, mass_of in *. apply not_Qle in H. apply negb_true_iff. destruct (Qle_bool _ mv) eqn:Z; [|reflexivity]. apply Qle_bool_iff in Z.
  rewrite <- (product_ext _ (counts a) (counts b)) in Z; [lra|]. intros j Ij. now apply same_counts.
Qed.

Lemma separated_same n a b c : same (counts a) (counts b) = true -> separated n (counts a) c = true -> separated n (counts b) c = true.
Proof. intros S H. unfold separated in *. apply andb_true_iff in H as [H H2]. apply andb_true_iff in H as [H0 H1]. rewrite H0, H2. cbn [andb]. rewrite andb_true_r. now apply (over_same _ a). Qed.

Lemma same_trans a b c : same (counts a) (counts b) = true -> same (counts a) (counts c) = true -> same (counts b) (counts c) = true.
Proof. intros H H'. unfold same. apply forallb_forall. intros k I. apply Nat.eqb_eq. rewrite <- (same_counts a b k H I). now apply same_counts. Qed.

Lemma same_below loop a b : same (counts a) (counts b) = true -> scale_below loop a b /\ scale_below loop b a.
Proof. intros H. split; intros lam (P & X); (split; [exact P|]); pose proof (same_mass loop lam a b H); lra. Qed.

(** the labels for which the largest rounded scale is that of two estimates *)
Definition ambiguous : list str := map lit ["21b"; "28i"; "30b"; "32c"; "32e"; "64a"; "64d"; "71"; "77"; "78"; "71p"; "78p"]%string.

Lemma agreeing_labels : map fst agreeing = ambiguous.
Proof. reflexivity. Qed.

Lemma excepted_labels k : excepted k = true -> k = lit "37" \/ k = lit "59c" \/ In k ambiguous.
Proof.
  unfold excepted, exception. intros H. apply orb_true_iff in H as [H|H].
  - apply orb_true_iff in H as [H|H]; apply str_decides in H; tauto.
  - right. right. destruct (dget str_eqb agreeing k) as [v|] eqn:G; [|discriminate H]. rewrite <- agreeing_labels. apply (dget_In str_decides _ _) in G. apply in_map_iff. now exists (k, v).
Qed.

(** C114 (1): for all but fourteen of the shipped operators the table shows the number of loops of the leading estimate *)
Theorem C114_loops : exists ops dops, eff_operators = Ok ops /\ deriv_eff_operators = Ok dops /\
  forall k op loop rounded, In (k, op) (ops ++ dops) -> k <> lit "37" -> k <> lit "59c" -> ~ In k ambiguous -> close loop -> rounds loop rounded ->
    exists m e, leading_mv loop op = Ok m /\ table_data Z rounded Z.gtb op = Ok (loops_text (loop_data m), e) /\ same_factors e m.
Proof.
  pose proof eff_last as H. pose proof deriv_last as D. destruct eff_operators as [ops|]; [|discriminate H]. destruct deriv_eff_operators as [dops|]; [|discriminate D].
  exists ops, dops. split; [reflexivity|]. split; [reflexivity|]. intros k op loop rounded I N1 N2 N3 Cl (R1 & R2). rewrite forallb_forall in H, D.
  assert (X : excepted k || checked_last k op = true) by (apply in_app_iff in I as [I|I]; [exact (H _ I)|exact (D _ I)]). clear H D.
  assert (Y : excepted k = false) by (destruct (excepted k) eqn:E; [|reflexivity]; apply excepted_labels in E; tauto).
  rewrite Y in X. cbn [orb] in X. unfold checked_last in X. destruct (operator_estimate op) as [es|] eqn:E; [|discriminate X]. destruct (leader es) as [a|]; [|discriminate X].
  apply andb_true_iff in X as [X X3]. apply andb_true_iff in X as [X1 X2]. pose proof (close_factor loop Cl) as F.
  destruct (leads_like loop op es a F E X1 (leads_weaker _ _ X2)) as (m & Gm & Im & Sm & C). rewrite forallb_forall in X2.
  assert (Low : forall b, In b es -> scale_below loop b m).
  { intros b Ib. specialize (X2 b Ib). apply andb_true_iff in X2 as [_ X2]. apply orb_true_iff in X2 as [X2|X2].
    - apply same_below. now apply (same_trans a).
    - apply andb_true_iff in X2 as [_ X2]. apply existsb_exists in X2 as (l0 & I0 & X2).
      assert (P0 : 0 < l0) by (destruct I0 as [<-|[<-|[<-|[]]]]; reflexivity). apply (dominates_sound loop) in X2; [|exact F|exact P0].
      intros lam Z. destruct (same_below loop a m Sm) as (Q & _). apply Q. now apply X2. }
  pose proof (C78_leading Z rounded Z.gtb ordered_Z op es E) as T. destruct es as [|e0 es]; [destruct Im|]. destruct T as (_ & e & T & Le).
  assert (Ie : In e (e0 :: es)) by (apply (last_largest_largest _ _ _ _ _ ordered_Z) in Le; tauto).
  assert (S : same (counts a) (counts e) = true).
  { pose proof (last_largest_largest _ _ _ _ _ ordered_Z Le) as (_ & Lm). specialize (Lm m Im). rewrite Z.gtb_ltb, Z.ltb_ge in Lm.
    destruct Le as (before & after & Q & B & A). rewrite Q in X3. destruct (last_like_sound _ _ _ _ _ X3) as [S|[(x & Ix & Sx)|S]]; [exact S| |].
    - exfalso. specialize (A x Ix). rewrite Z.gtb_ltb, Z.ltb_lt in A. assert (Ix' : In x (e0 :: es)) by (rewrite Q; apply in_or_app; right; now right).
      assert (B' : scale_below loop e x) by (intros lam Z; apply (same_below loop m x); [now apply (same_trans a)|now apply (Low e Ie)]).
      pose proof (R2 x e (C _ Ix') (C _ Ie) B'). lia.
    - exfalso. assert (S' : separated (number k) (counts m) (counts e) = true) by now apply (separated_same _ a).
      pose proof (separated_sound loop m e _ _ _ Cl S' (R1 m (C _ Im)) (R1 e (C _ Ie))). lia. }
  assert (SF : same_factors e m) by (apply same_factors_of; [now apply C|now apply C|now apply (same_trans a)]).
  exists m, e. split; [exact Gm|]. split; [|exact SF]. now rewrite <- (loops_same e m SF).
Qed.

(** ** Two estimates with the same rounded scale *)

Definition near (n : Z) (c : ksym -> nat) : bool := Z.leb 1 n && over (inject_Z (10 * n - 5) + (1 # 10)) c && under (inject_Z (10 * n + 5) - (1 # 10)) c.

Lemma near_sound loop e n r : close loop -> near n (counts e) = true -> nearest loop e r -> r = n.
Proof.
  intros C H (N1 & N2). apply andb_true_iff in H as [H H3]. apply andb_true_iff in H as [H1 H2]. apply Z.leb_le in H1.
  assert (P : 1 <= inject_Z n) by (change 1 with (inject_Z 1); now rewrite <- Zle_Qle).
  assert (P1 : 0 < inject_Z (10 * n - 5) + (1 # 10)) by (rewrite inject_10m; change (inject_Z 5) with 5; lra). assert (P2 : 0 < inject_Z (10 * n + 5) - (1 # 10)) by (rewrite inject_10; change (inject_Z 5) with 5; lra).
  specialize (N1 _ (over_sound loop _ e C P1 H2)). specialize (N2 _ P2 (under_sound loop _ e C P2 H3)). rewrite inject_10, inject_10m in N1, N2. change (inject_Z 5) with 5 in *.
  assert (A : (n <= r)%Z) by (apply inject_le; lra). assert (B : (r <= n)%Z) by (apply inject_le; lra). lia.
Qed.

(** behind the last entry like a there is one that agrees with it *)
Fixpoint followed (n : Z) (a : estimate) (l : list estimate) : bool :=
  match l with
  | [] => true
  | b :: r => (negb (same (counts a) (counts b)) || existsb (fun x => near n (counts x)) r) && followed n a r
  end.

Lemma followed_sound n a before b after : followed n a (before ++ b :: after) = true -> same (counts a) (counts b) = true -> exists x, In x after /\ near n (counts x) = true.
Proof.
  induction before as [|y before IH]; cbn [app followed]; intros H S; apply andb_true_iff in H as [H H']; [|now apply IH].
  rewrite S in H. cbn [negb orb] in H. now apply existsb_exists in H.
Qed.

Definition lower_loops (n : Z) (lam : Q) (a b : estimate) : bool :=
  same (counts a) (counts b) || separated (n - 1) (counts a) (counts b) || (negb (str_eqb (loops_text (loop_data a)) (loops_text (loop_data b))) && under lam (counts b)).

Definition checked_ambiguous (ops : list (str * operator)) (kv : str * (Z * Q)) : bool :=
  match dget str_eqb ops (fst kv) with
  | Some op => match operator_estimate op with
    | Ok es => match leader es with
      | Ok a => let n := fst (snd kv) in let lam := snd (snd kv) in
          existsb (fun e => same (counts a) (counts e)) es && forallb (fun b => coupl b && (same (counts a) (counts b) || strictly (counts a) (counts b))) es &&
          near n (counts a) && followed n a es && negb (Qle_bool lam 0) && over lam (counts a) && forallb (lower_loops n lam a) es
      | Err _ => false end
    | Err _ => false end
  | None => false end.

Lemma all_ambiguous : match eff_operators with Ok ops => forallb (checked_ambiguous ops) agreeing | Err _ => false end = true.
Proof. vm_compute. reflexivity. Qed.

Lemma near_same n a b : same (counts a) (counts b) = true -> near n (counts a) = true -> near n (counts b) = true.
Proof.
  intros S H. unfold near in *. apply andb_true_iff in H as [H H3]. apply andb_true_iff in H as [H1 H2]. rewrite H1. cbn [andb]. apply andb_true_iff. split; [now apply (over_same _ a)|].
  unfold under, mass_of in *. apply Qle_bool_iff. apply Qle_bool_iff in H3. rewrite <- (product_ext _ (counts a) (counts b)); [exact H3|]. intros j Ij. now apply same_counts.
Qed.

(** C114 (2): for twelve operators another estimate rounds to the same scale and stands later, and the table shows its number of
    loops, and its scale, which is below that of the leading estimate *)
Theorem C114_loops_refuted : exists ops, eff_operators = Ok ops /\ forall k, In k ambiguous -> exists op, In (k, op) ops /\
  forall loop rounded, close loop -> rounds loop rounded ->
    exists m t e, leading_mv loop op = Ok m /\ table_data Z rounded Z.gtb op = Ok (t, e) /\ t <> loops_text (loop_data m) /\ exists lam, exceeds loop m lam /\ ~ exceeds loop e lam.
Proof.
  pose proof all_ambiguous as H. destruct eff_operators as [ops|]; [|discriminate H]. exists ops. split; [reflexivity|]. intros k K. rewrite <- agreeing_labels in K.
  apply in_map_iff in K as ([k' (n & lam)] & <- & K). rewrite forallb_forall in H. specialize (H _ K). clear K. unfold checked_ambiguous in H. cbn [fst snd] in H |- *.
  destruct (dget str_eqb ops k') as [op|] eqn:G; [|discriminate H]. exists op. split; [exact (dget_In str_decides _ _ G)|]. intros loop rounded Cl (R1 & R2).
  destruct (operator_estimate op) as [es|] eqn:E; [|discriminate H]. destruct (leader es) as [a|]; [|discriminate H].
  apply andb_true_iff in H as [H H7]. apply andb_true_iff in H as [H H6]. apply andb_true_iff in H as [H H5]. apply andb_true_iff in H as [H H4]. apply andb_true_iff in H as [H H3]. apply andb_true_iff in H as [H1 H2].
  apply not_Qle in H5. destruct (leads_like loop op es a (close_factor loop Cl) E H1 H2) as (m & Gm & Im & Sm & C). rewrite forallb_forall in H7.
  assert (Rm : rounded m = n) by (apply (near_sound loop m n); [exact Cl|now apply (near_same n a)|apply R1; now apply C]).
  pose proof (C78_leading Z rounded Z.gtb ordered_Z op es E) as T. destruct es as [|e0 es]; [destruct Im|]. destruct T as (_ & e & T & Le).
  pose proof (last_largest_largest _ _ _ _ _ ordered_Z Le) as (Ie & Lm). specialize (Lm m Im). rewrite Z.gtb_ltb, Z.ltb_ge in Lm.
  assert (Rank : rounded e = n -> same (counts a) (counts e) = true -> False).
  { intros Re S. destruct Le as (before & after & Q & B & A). rewrite Q in H4. destruct (followed_sound _ _ _ _ _ H4 S) as (x & Ix & Nx). specialize (A x Ix). rewrite Z.gtb_ltb, Z.ltb_lt in A.
    assert (Ix' : In x (e0 :: es)) by (rewrite Q; apply in_or_app; right; now right). pose proof (near_sound loop x n _ Cl Nx (R1 x (C _ Ix'))). lia. }
  assert (Xa : exceeds loop m lam) by (apply (same_below loop a m Sm); now apply (over_sound loop)).
  exists m, (loops_text (loop_data e)), e. split; [exact Gm|]. split; [exact T|].
  specialize (H7 e Ie). unfold lower_loops in H7. apply orb_true_iff in H7 as [H7|H7]; [apply orb_true_iff in H7 as [H7|H7]|].
  - exfalso. apply Rank; [|exact H7]. apply (near_sound loop e n); [exact Cl|now apply (near_same n a)|apply R1; now apply C].
  - exfalso. assert (S' : separated (n - 1) (counts m) (counts e) = true) by now apply (separated_same _ a).
    pose proof (separated_sound loop m e _ _ _ Cl S' (R1 m (C _ Im)) (R1 e (C _ Ie))). lia.
  - apply andb_true_iff in H7 as [H7 H8]. split.
    + intros Q. apply negb_true_iff in H7. assert (Q' : loop_data a = loop_data m).
      { assert (Q1 : count_k Kloop a = count_k Kloop m) by (apply (same_counts a m Kloop Sm); cbn; tauto). assert (Q2 : count_k Kloopv2 a = count_k Kloopv2 m) by (apply (same_counts a m Kloopv2 Sm); cbn; tauto).
        rewrite (proj1 (C78_loops a)), (proj1 (C78_loops m)), Q1, Q2. reflexivity. }
      rewrite Q' in H7. rewrite Q in H7. rewrite (decides_refl str_decides) in H7. discriminate H7.
    + exists lam. split; [exact Xa|now apply (under_sound loop)].
Qed.

(** ** Rounding exists *)

Definition step (n : nat) : Q := inject_Z (10 * Z.of_nat n + 5).

Lemma step_pos n : 0 < step n.
Proof. unfold step. rewrite inject_10. assert (0 <= inject_Z (Z.of_nat n)) by (change 0 with (inject_Z 0); rewrite <- Zle_Qle; lia). change (inject_Z 5) with 5. lra. Qed.

Lemma step_le n m : (n <= m)%nat -> step n <= step m.
Proof. intros H. unfold step. rewrite <- Zle_Qle. lia. Qed.

Lemma exceeds_dec loop e lam : {exceeds loop e lam} + {~ exceeds loop e lam}.
Proof.
  destruct (Qlt_le_dec 0 lam) as [H|H]; [|right; intros (X & _); lra]. destruct (Qlt_le_dec measured (mass loop lam e)) as [X|X]; [left; now split|right; intros (_ & Y); lra].
Qed.

(** n is the number of hundredths: not beyond 10 n + 5, and beyond 10 n - 5 unless n is 0 *)
Definition hundredths (loop : Q) (e : estimate) (n : nat) : Prop := ~ exceeds loop e (step n) /\ match n with O => True | S m => exceeds loop e (step m) end.

Lemma hundredths_dec loop e n : {hundredths loop e n} + {~ hundredths loop e n}.
Proof.
  unfold hundredths. destruct (exceeds_dec loop e (step n)) as [X|X]; [right; tauto|]. destruct n as [|m]; [left; tauto|]. destruct (exceeds_dec loop e (step m)) as [Y|Y]; [left; tauto|right; tauto].
Qed.

Lemma hundredths_ex loop e : 0 < loop -> couplings e -> exists n, hundredths loop e n.
Proof.
  intros L C. destruct (C113_scale loop L e C) as (_ & (b & B1 & B2) & D & _).
  assert (H : exists n, ~ exceeds loop e (step n)).
  { exists (Z.to_nat (Qceiling b)). intros X. apply B2. apply (D b _ X B1). pose proof (Qle_ceiling b) as G. unfold step. assert (Z0 : (0 <= Qceiling b)%Z) by (apply inject_le; change (inject_Z 0) with 0; lra).
    rewrite Z2Nat.id by exact Z0. rewrite inject_10. change (inject_Z 5) with 5. assert (0 <= inject_Z (Qceiling b)) by lra. lra. }
  destruct H as (n & H). induction n as [|n IH]; [exists 0%nat; now split|]. destruct (exceeds_dec loop e (step n)) as [X|X]; [exists (S n); now split|now apply IH].
Qed.

Definition round_scale (loop : Q) (L : 0 < loop) (e : estimate) : Z :=
  match bool_dec (coupl e) true with
  | left H => Z.of_nat (proj1_sig (constructive_indefinite_ground_description_nat _ (hundredths_dec loop e) (hundredths_ex loop e L (coupl_sound e H))))
  | right _ => 0%Z
  end.

(** the hypothesis on rounding in the theorems holds of a function *)
Theorem C114_rounds : forall loop, 0 < loop -> exists rounded, rounds loop rounded.
Proof.
  intros loop L. exists (round_scale loop L).
  assert (K : forall e, couplings e -> exists n, round_scale loop L e = Z.of_nat n /\ hundredths loop e n).
  { intros e C. unfold round_scale. destruct (bool_dec (coupl e) true) as [H|H].
    - destruct (constructive_indefinite_ground_description_nat _ _ _) as (n & Hn). exists n. now split.
    - exfalso. apply H. unfold coupl. apply forallb_forall. intros k I. destruct C as (A & B). destruct k; try reflexivity; contradiction. }
  assert (Down : forall e, couplings e -> forall a b, exceeds loop e b -> 0 < a -> a <= b -> exceeds loop e a) by (intros e C; apply (C113_scale loop L e C)).
  split.
  - intros e C. destruct (K e C) as (n & -> & U & O). split.
    + intros lam X. destruct (Qlt_le_dec (step n) lam) as [Y|Y]; [|exact Y]. exfalso. apply U. apply (Down e C _ lam X); [apply step_pos|lra].
    + intros lam P X. destruct n as [|m]; [apply Qle_trans with 0; [discriminate|lra]|]. destruct (Qlt_le_dec lam (step m)) as [Y|Y]; [exfalso; apply X; apply (Down e C lam _ O P); lra|].
      eapply Qle_trans; [|exact Y]. unfold step. rewrite <- Zle_Qle. lia.
  - intros a b Ca Cb S. destruct (K a Ca) as (na & -> & Ua & _). destruct (K b Cb) as (nb & -> & _ & Ob). destruct nb as [|m]; [lia|]. apply S in Ob.
    destruct (le_lt_dec na m) as [X|X]; [|lia]. exfalso. apply Ua. apply (Down a Ca _ _ Ob); [apply step_pos|now apply step_le].
Qed.

(** ** Cases *)

(** 21b: two estimates with scales of 1561.834 TeV and 1561.831 TeV; both are 1561.83 TeV when rounded, and the loops of the
    second are shown *)
Example C114_example : close l18 /\ near 156183 (counts [Kyu; Kloop; Kye; Kloop; Kloopv2]) = true /\ near 156183 (counts [Kloop; Kyu; Kloop; Kye; Kloop]) = true /\
  loops_text (loop_data [Kyu; Kloop; Kye; Kloop; Kloopv2]) = lit "2,3" /\ loops_text (loop_data [Kloop; Kyu; Kloop; Kye; Kloop]) = lit "3".
Proof. repeat split; vm_compute; (reflexivity || discriminate). Qed.

(** a rounded scale exists: 24109210188.4 GeV are 24109210.19 TeV *)
Example C114_example2 : forall loop, close loop -> nearest loop [Kloop; Kyu; Kloop] 2410921019.
Proof.
  intros loop C. set (e := [Kloop; Kyu; Kloop]). assert (L : 0 < loop) by (destruct C; lra).
  assert (O : exceeds loop e (inject_Z (10 * 2410921019 - 5))) by (apply over_sound; [exact C|reflexivity|vm_compute; reflexivity]).
  assert (U : ~ exceeds loop e (inject_Z (10 * 2410921019 + 5))) by (apply under_sound; [exact C|reflexivity|vm_compute; reflexivity]).
  assert (K : couplings e) by (split; intros [H|[H|[H|[]]]]; discriminate H).
  destruct (C113_scale loop L e K) as (_ & _ & D & _). split.
  - intros lam X. destruct (Qlt_le_dec (inject_Z (10 * 2410921019 + 5)) lam) as [Y|Y]; [|exact Y]. exfalso. apply U. apply (D _ lam X); [reflexivity|lra].
  - intros lam P X. destruct (Qlt_le_dec lam (inject_Z (10 * 2410921019 - 5))) as [Y|Y]; [|exact Y]. exfalso. apply X. apply (D lam _ O P). lra.
Qed.

Print Assumptions C114_rounds.
Print Assumptions C114_loops.
Print Assumptions C114_loops_refuted.
