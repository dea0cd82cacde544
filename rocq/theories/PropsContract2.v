(** * PropsContract2: property C32 of tensormethod/contract.py, SU(2) singlets *)

From Coq Require Import Ascii String List Bool Arith ZArith Lia Permutation QArith Qcanon.
From Verif Require Import Base BaseFacts Show ModelFunctions ProofsFunctions ModelIndex SpecIndex ProofsIndex PropsIndex
  ModelField SpecField ProofsField ProofsField2 PropsField PropsField2 ModelContract SpecContract ProofsContract PropsContract.
From Verif Require Spec.
Import ListNotations.
Local Open Scope nat_scope.

(** ** Matchings *)

Definition flat {A} (m : list (A * A)) : list A := flat_map (fun p => [fst p; snd p]) m.

Definition same_pair {A} (p q : A * A) : Prop := p = q \/ p = (snd q, fst q).

Definition inc {A} (m m' : list (A * A)) : Prop := forall p, In p m -> exists q, In q m' /\ same_pair p q.

Section Matchings.
  Context {A : Type}.
  Implicit Types (m : list (A * A)) (p q : A * A).

  Lemma same_pair_sym p q : same_pair p q -> same_pair q p.
  Proof using Type. destruct p, q. intros [E|E]; cbn in *; injection E as -> ->; [now left|now right]. Qed.

  Lemma same_pair_trans p q r : same_pair p q -> same_pair q r -> same_pair p r.
  Proof using Type. destruct p, q, r. intros [E|E] [F|F]; cbn in *; injection E as -> ->; injection F as -> ->; [left|right|right|left]; reflexivity. Qed.

  Lemma flat_length m : List.length (flat m) = 2 * List.length m.
  Proof using Type. induction m as [|p m IH]; [reflexivity|]. cbn in *. unfold flat in IH. lia. Qed.

  Lemma flat_app m m' : flat (m ++ m') = flat m ++ flat m'.
  Proof using Type. apply flat_map_app. Qed.

  Lemma In_flat p m : In p m -> In (fst p) (flat m) /\ In (snd p) (flat m).
  Proof using Type. intros I. split; apply in_flat_map; exists p; cbn; auto. Qed.

  Lemma same_inc m m' : same_matching m m' -> inc m m' /\ inc m' m.
  Proof using Type.
    intros (m'' & P & F). split; intros p I.
    - assert (H : exists q, In q m'' /\ same_pair p q).
      { clear P. induction F as [|x y m m'' R F IH]; [destruct I|]. destruct I as [<-|I]; [exists y; split; [now left|exact R]|].
        destruct (IH I) as (q & Iq & Rq). exists q. split; [now right|exact Rq]. }
      destruct H as (q & Iq & R). exists q. split; [|exact R]. now apply Permutation_in with (1 := Permutation_sym P).
    - apply (Permutation_in _ P) in I. clear P. induction F as [|x y m m'' R F IH]; [destruct I|].
      destruct I as [<-|I]; [exists x; split; [now left|now apply same_pair_sym]|]. destruct (IH I) as (q & Iq & Rq). exists q. split; [now right|exact Rq].
  Qed.

  Lemma same_pair_In p q x : same_pair p q -> x = fst p \/ x = snd p -> x = fst q \/ x = snd q.
  Proof using Type. destruct p, q. intros [E|E]; cbn in *; injection E as -> ->; tauto. Qed.

  Lemma inc_same m : forall m', NoDup (flat m) -> List.length m = List.length m' -> inc m m' -> same_matching m m'.
  Proof using Type.
    induction m as [|p m IH]; intros m' N L H.
    - destruct m'; [|discriminate]. exists []. split; constructor.
    - destruct (H p (or_introl eq_refl)) as (q & Iq & R). apply in_split in Iq as (a & b & ->).
      cbn [flat flat_map app] in N. inversion N as [|? ? N1 N2]; subst. inversion N2 as [|? ? N3 N4]; subst.
      destruct (IH (a ++ b)) as (m'' & P & F).
      + exact N4.
      + rewrite app_length in *. cbn [List.length] in L. lia.
      + intros p' I. destruct (H p' (or_intror I)) as (q' & Iq' & R'). exists q'. split; [|exact R'].
        apply in_app_iff in Iq' as [Iq'|[<-|Iq']]; [apply in_or_app; auto| |apply in_or_app; auto]. exfalso.
        apply N1. right. destruct (In_flat p' m I) as [I1 I2].
        destruct (same_pair_In q p' (fst p)) as [E|E]; [now apply same_pair_sym| |rewrite E; exact I1|rewrite E; exact I2].
        eapply same_pair_In; [exact R|now left].
      + exists (q :: m''). split; [|constructor; assumption]. rewrite <- P. symmetry. apply Permutation_middle.
  Qed.

  Lemma matching_length l m m' : matching l m -> matching l m' -> List.length m = List.length m'.
  Proof using Type.
    intros P P'. apply Permutation_length in P, P'. pose proof (flat_length m). pose proof (flat_length m'). unfold flat in *. lia.
  Qed.

  Lemma inc_matching l m m' : NoDup l -> matching l m -> matching l m' -> inc m m' -> same_matching m m'.
  Proof using Type. intros N P P' I. apply inc_same; [eapply Permutation_NoDup; eauto|eapply matching_length; eauto|exact I]. Qed.

  Lemma same_sym m m' l : NoDup l -> matching l m -> matching l m' -> same_matching m m' -> same_matching m' m.
  Proof using Type. intros N P P' H. apply same_inc in H as [_ H]. eapply inc_matching; eauto. Qed.

  Lemma inc_trans m1 m2 m3 : inc m1 m2 -> inc m2 m3 -> inc m1 m3.
  Proof using Type.
    intros H H' p I. destruct (H p I) as (q & Iq & R). destruct (H' q Iq) as (r & Ir & R'). exists r. split; [exact Ir|eapply same_pair_trans; eauto].
  Qed.

  Lemma same_trans l m1 m2 m3 : NoDup l -> matching l m1 -> matching l m3 -> same_matching m1 m2 -> same_matching m2 m3 -> same_matching m1 m3.
  Proof using Type.
    intros N P1 P3 H1 H2. apply same_inc in H1 as [H1 _]. apply same_inc in H2 as [H2 _]. eapply inc_matching; eauto. eapply inc_trans; eauto.
  Qed.

  (** a list of all matchings, to count them *)
  Fixpoint matchings (n : nat) (l : list A) : list (list (A * A)) :=
    match n, l with
    | S n, x :: l => flat_map (fun yr => map (cons (x, fst yr)) (matchings n (snd yr))) (selects l)
    | _, _ => [[]]
    end.

  Lemma matchings_count n : forall l, List.length l = 2 * n -> List.length (matchings n l) = odd_factorial n.
  Proof using Type.
    induction n as [|n IH]; intros l L; [reflexivity|]. destruct l as [|x l]; [discriminate|]. cbn [matchings odd_factorial].
    assert (L' : List.length l = 2 * n + 1) by (cbn in L; lia). clear L.
    rewrite <- L', <- (selects_count l).
    assert (H : forall yr, In yr (selects l) -> List.length (matchings n (snd yr)) = odd_factorial n).
    { intros [y r] I. apply IH. apply selects_length in I. cbn in *. lia. }
    clear L' IH. induction (selects l) as [|yr s IHs]; [reflexivity|]. cbn [flat_map List.length]. rewrite app_length, map_length, (H yr) by now left.
    rewrite IHs by (intros; apply H; now right). cbn. reflexivity.
  Qed.

  Lemma matchings_sound n : forall l m, List.length l = 2 * n -> In m (matchings n l) -> matching l m.
  Proof using Type.
    induction n as [|n IH]; intros l m L I.
    - destruct l; [|discriminate]. cbn in I. destruct I as [<-|[]]. constructor.
    - destruct l as [|x l]; [discriminate|]. cbn [matchings] in I. apply in_flat_map in I as ([y r] & Is & I). cbn [fst snd] in I.
      apply in_map_iff in I as (m' & <- & I). pose proof (selects_perm l y r Is) as Pr. pose proof (selects_length l y r Is) as Lr.
      apply IH in I; [|cbn in L; lia]. unfold matching. cbn [flat_map fst snd app]. constructor. rewrite Pr. constructor. exact I.
  Qed.

  Lemma matchings_complete n : forall l m, NoDup l -> List.length l = 2 * n -> matching l m -> exists m', In m' (matchings n l) /\ inc m m'.
  Proof using Type.
    induction n as [|n IH]; intros l m N L P.
    - destruct l; [|discriminate]. apply Permutation_nil in P. destruct m; [|discriminate]. exists []. split; [now left|]. intros p [].
    - destruct l as [|x l]; [discriminate|].
      assert (Ix : In x (flat m)) by (apply (Permutation_in _ P); now left). apply in_flat_map in Ix as (p & Ip & Ix).
      apply in_split in Ip as (a & b & ->). unfold matching in P.
      assert (Hp : exists y, same_pair p (x, y) /\ Permutation l (y :: flat (a ++ b))).
      { fold (flat (a ++ p :: b)) in P. rewrite flat_app in P. cbn [flat flat_map] in P. fold (flat b) in P.
        assert (P' : Permutation (x :: l) ([fst p; snd p] ++ flat (a ++ b))).
        { rewrite P, flat_app. rewrite !app_assoc. apply Permutation_app_tail, Permutation_app_comm. }
        destruct p as [u v]. cbn [fst snd app In] in *. destruct Ix as [<-|[<-|[]]].
        - exists v. split; [now left|]. now apply Permutation_cons_inv in P'.
        - exists u. split; [now right|]. rewrite perm_swap in P'. now apply Permutation_cons_inv in P'. }
      destruct Hp as (y & R & P'). assert (Iy : In y l) by (apply (Permutation_in _ (Permutation_sym P')); now left).
      destruct (selects_In l y Iy) as (r & Ir). pose proof (selects_perm l y r Ir) as Pr. pose proof (selects_length l y r Ir) as Lr.
      inversion N as [|? ? N1 N2]; subst.
      destruct (IH r (a ++ b)) as (m' & Im & Hm).
      + apply (Permutation_NoDup Pr) in N2. now inversion N2.
      + cbn in L. lia.
      + red. rewrite Pr in P'. apply Permutation_cons_inv in P'. exact P'.
      + exists ((x, y) :: m'). split.
        * cbn [matchings]. apply in_flat_map. exists (y, r). split; [exact Ir|]. cbn. now apply in_map.
        * intros q Iq. apply in_app_iff in Iq. assert (Hq : q = p \/ In q (a ++ b)) by (rewrite in_app_iff; destruct Iq as [Iq|[Iq|Iq]]; auto).
          destruct Hq as [->|Hq]; [exists (x, y); split; [now left|exact R]|]. destruct (Hm q Hq) as (q' & Iq' & R'). exists q'. split; [now right|exact R'].
  Qed.

  Lemma FOP_app {B} (R : B -> B -> Prop) l l' :
    ForallOrdPairs R l -> ForallOrdPairs R l' -> (forall x y, In x l -> In y l' -> R x y) -> ForallOrdPairs R (l ++ l').
  Proof using Type.
    intros H H' C. induction H as [|x l F H IH]; [exact H'|]. cbn. constructor.
    - apply Forall_app. split; [exact F|]. apply Forall_forall. intros y I. apply C; [now left|exact I].
    - apply IH. intros; apply C; [now right|assumption].
  Qed.

  Lemma FOP_map {B C} (R : C -> C -> Prop) (f : B -> C) l : ForallOrdPairs (fun x y => R (f x) (f y)) l -> ForallOrdPairs R (map f l).
  Proof using Type. induction 1 as [|x l F H IH]; cbn; constructor; [|exact IH]. apply Forall_map. exact F. Qed.

  Lemma FOP_impl {B} (R R' : B -> B -> Prop) l : (forall x y, In x l -> In y l -> R x y -> R' x y) -> ForallOrdPairs R l -> ForallOrdPairs R' l.
  Proof using Type.
    intros H F. induction F as [|x l F Fs IH]; constructor.
    - rewrite Forall_forall in *. intros y I. apply H; [now left|now right|auto].
    - apply IH. intros; apply H; [now right|now right|assumption].
  Qed.

  Lemma inc_cons x y y' m m' : NoDup (flat ((x, y) :: m)) -> NoDup (flat ((x, y') :: m')) ->
    inc ((x, y) :: m) ((x, y') :: m') -> y = y' /\ inc m m'.
  Proof using Type.
    intros N N' H. cbn [flat flat_map fst snd app] in N, N'. fold (flat m) in N. fold (flat m') in N'.
    inversion N as [|? ? N1 N2]; subst. inversion N' as [|? ? N1' N2']; subst.
    split.
    - destruct (H (x, y) (or_introl eq_refl)) as (q & [<-|Iq] & R).
      + destruct R as [[= ->]|[= -> ->]]; [reflexivity|]. exfalso. apply N1. now left.
      + exfalso. destruct (In_flat q m' Iq) as [I1 I2]. destruct (same_pair_In _ _ x R (or_introl eq_refl)); apply N1'; right; congruence.
    - intros p I. destruct (H p (or_intror I)) as (q & [<-|Iq] & R); [|eauto]. exfalso. destruct (In_flat p m I) as [I1 I2].
      destruct (same_pair_In (x, y') p x); [now apply same_pair_sym|now left| |]; apply N1; right; congruence.
  Qed.

  Lemma matchings_distinct n : forall l, NoDup l -> List.length l = 2 * n -> ForallOrdPairs (fun m m' => ~ inc m m') (matchings n l).
  Proof using Type.
    induction n as [|n IH]; intros l N L; [cbn; repeat constructor|]. destruct l as [|x l]; [discriminate|]. cbn [matchings].
    inversion N as [|? ? N1 N2]; subst.
    assert (S : forall yr, In yr (selects l) -> NoDup (snd yr) /\ List.length (snd yr) = 2 * n /\ Permutation l (fst yr :: snd yr)).
    { intros [y r] I. pose proof (selects_perm l y r I) as Pr. pose proof (selects_length l y r I) as Lr. cbn [fst snd]. split; [|split; [cbn in L; lia|exact Pr]].
      apply (Permutation_NoDup Pr) in N2. now inversion N2. }
    assert (Nd : NoDup (map fst (selects l))) by (rewrite selects_fst; exact N2).
    assert (Fl : forall yr m, In yr (selects l) -> In m (matchings n (snd yr)) -> NoDup (flat ((x, fst yr) :: m))).
    { intros yr m I Im. destruct (S yr I) as (_ & Lr & Pr). apply matchings_sound in Im; [|exact Lr]. eapply Permutation_NoDup; [|exact N].
      cbn [flat flat_map fst snd app]. constructor. rewrite Pr. constructor. exact Im. }
    induction (selects l) as [|yr s IHs]; [constructor|]. cbn [flat_map]. cbn [map] in Nd. inversion Nd as [|? ? Nd1 Nd2]; subst. apply FOP_app.
    - destruct (S yr (or_introl eq_refl)) as (Nr & Lr & Pr). apply FOP_map. eapply FOP_impl; [|apply (IH _ Nr Lr)].
      intros m m' Im Im' H G. apply H. apply inc_cons in G; [tauto| |]; apply Fl; auto; now left.
    - apply IHs; auto; intros; [apply S|apply Fl]; auto; now right.
    - intros m m' I I' G. apply in_map_iff in I as (m1 & <- & I). apply in_flat_map in I' as (zr & Iz & I'). apply in_map_iff in I' as (m2 & <- & I').
      apply inc_cons in G as [G _]; [|apply Fl; [now left|exact I]|apply Fl; [now right|exact I']].
      apply Nd1. rewrite G. now apply in_map.
  Qed.

  Lemma all_matchings_exist n l : NoDup l -> List.length l = 2 * n -> all_matchings l (matchings n l).
  Proof using Type.
    intros N L. split; [|split].
    - apply Forall_forall. intros m I. eapply matchings_sound; eauto.
    - intros m P. destruct (matchings_complete n l m N L P) as (m' & I & H). exists m'. split; [exact I|]. eapply inc_matching; eauto. eapply matchings_sound; eauto.
    - eapply FOP_impl; [|apply (matchings_distinct n l N L)]. intros m m' _ _ H G. apply H. apply same_inc in G. tauto.
  Qed.

  (** two lists of representatives are equally long *)
  Lemma representatives l ms : forall ms', NoDup l -> Forall (matching l) ms -> Forall (matching l) ms' ->
    ForallOrdPairs (fun m m' => ~ same_matching m m') ms -> (forall m, In m ms -> exists m', In m' ms' /\ same_matching m m') ->
    List.length ms <= List.length ms'.
  Proof using Type.
    induction ms as [|m ms IH]; intros ms' N F F' O H; [cbn; lia|].
    destruct (H m (or_introl eq_refl)) as (m' & I & Sm). apply in_split in I as (a & b & ->).
    inversion O as [|? ? O1 O2]; subst. inversion F as [|? ? F1 F2]; subst.
    enough (List.length ms <= List.length (a ++ b)) by (rewrite app_length in *; cbn; lia).
    apply Forall_app in F' as [Fa Fb]. inversion Fb as [|? ? Fm Fb']; subst. rewrite Forall_forall in O1, F2.
    apply IH; auto.
    - now apply Forall_forall.
    - now apply Forall_app.
    - intros k Ik. destruct (H k (or_intror Ik)) as (k' & Ik' & Sk). exists k'. split; [|exact Sk].
      apply in_app_iff in Ik' as [Ik'|[<-|Ik']]; [apply in_or_app; auto| |apply in_or_app; auto]. exfalso. apply (O1 k Ik).
      eapply same_trans; [exact N|exact F1|auto|exact Sm|]. eapply same_sym; [exact N|auto|exact Fm|exact Sk].
  Qed.

  Lemma all_matchings_count n (l : list A) ms : NoDup l -> List.length l = 2 * n -> all_matchings l ms -> List.length ms = odd_factorial n.
  Proof using Type.
    intros N L (F & C & O). rewrite <- (matchings_count n l L). destruct (all_matchings_exist n l N L) as (F' & C' & O').
    rewrite Forall_forall in F, F'.
    apply Nat.le_antisymm; apply representatives with (l := l); auto; try (apply Forall_forall; auto; fail); intros m I; auto.
  Qed.
End Matchings.

(** ** C32: the combinations of epsilon_combos are the matchings *)

Definition pairs_of {A} (m : list (A * A)) : list (list A) := map (fun p => [fst p; snd p]) m.

Lemma chunks_pairs {A} n : forall l : list A, List.length l = 2 * n -> exists m, chunks l 2 = Ok (pairs_of m) /\ flat m = l.
Proof.
  unfold chunks. intros l L.
  assert (H : forall n fuel (l : list A), List.length l = 2 * n -> List.length l <= fuel -> exists m, chunks_fuel fuel 2 l = pairs_of m /\ flat m = l).
  { clear. induction n as [|n IH]; intros fuel l L F.
    - destruct l; [|discriminate]. exists []. split; [now destruct fuel|reflexivity].
    - destruct l as [|x [|y l]]; try (cbn in L; lia). destruct fuel as [|fuel]; [cbn in F; lia|].
      destruct (IH fuel l) as (m & E & Em); [cbn in L; lia|cbn in F; lia|]. exists ((x, y) :: m). cbn [chunks_fuel firstn skipn]. rewrite E.
      split; [reflexivity|]. cbn. unfold flat in Em. now rewrite Em. }
  destruct (H n (List.length l) l L (Nat.le_refl _)) as (m & E & Em). exists m. now rewrite E.
Qed.

Lemma subset_by_spec {A} (eqb : A -> A -> bool) a b :
  subset_by eqb a b = true <-> forall x, In x a -> exists y, In y b /\ eqb x y = true.
Proof.
  unfold subset_by. rewrite forallb_forall. split; intros H x I.
  - apply H, existsb_exists in I. exact I.
  - apply existsb_exists. auto.
Qed.

Section Combos.
  Variable l : list index.
  Hypothesis N : NoDup (map slot l).

  Lemma slot_inj i j : In i l -> In j l -> slot i = slot j -> i = j.
  Proof using N.
    revert N. clear. induction l as [|k l' IH]; intros N I J E; [destruct I|]. cbn in N. inversion N as [|? ? N1 N2]; subst.
    destruct I as [<-|I], J as [<-|J]; auto; exfalso; apply N1; [rewrite E|rewrite <- E]; now apply in_map.
  Qed.

  Lemma index_eqb_l i j : In i l -> In j l -> index_eqb i j = true <-> i = j.
  Proof using N. intros I J. rewrite slot_eqb. split; [now apply slot_inj|now intros ->]. Qed.

  Lemma pair_eqb a b c d : In a l -> In b l -> In c l -> In d l -> a <> b -> c <> d ->
    set_eqb index_eqb [a; b] [c; d] = true <-> same_pair (a, b) (c, d).
  Proof using N.
    intros Ia Ib Ic Id Nab Ncd. unfold set_eqb. rewrite andb_true_iff, !subset_by_spec. unfold same_pair. cbn [fst snd]. split.
    - intros [H H'].
      destruct (H a) as (x & Ix & Ex); [cbn; auto|]. destruct (H b) as (y & Iy & Ey); [cbn; auto|].
      destruct Ix as [<-|[<-|[]]], Iy as [<-|[<-|[]]]; apply index_eqb_l in Ex; auto; apply index_eqb_l in Ey; auto; subst; try tauto.
    - intros [[= -> ->]|[= -> ->]]; split; intros x [<-|[<-|[]]]; eexists; (split; [|apply index_eqb_l; auto]); cbn; auto.
  Qed.

  Lemma matching_pairs m p : matching l m -> In p m -> In (fst p) l /\ In (snd p) l /\ fst p <> snd p.
  Proof using N.
    intros P I. destruct (In_flat p m I) as [I1 I2]. split; [apply (Permutation_in _ (Permutation_sym P)), I1|].
    split; [apply (Permutation_in _ (Permutation_sym P)), I2|]. pose proof (Permutation_NoDup P (NoDup_map_inv _ _ N)) as Nf.
    apply in_split in I as (a & b & ->). fold (flat (a ++ p :: b)) in Nf. rewrite flat_app in Nf. apply NoDup_remove in Nf as [_ Nf].
    intros E. apply Nf. apply in_or_app. right. left. now symmetry.
  Qed.

  Lemma combo_inc m m' : matching l m -> matching l m' -> subset_by (set_eqb index_eqb) (pairs_of m) (pairs_of m') = true <-> inc m m'.
  Proof using N.
    intros P P'. rewrite subset_by_spec. unfold pairs_of. split.
    - intros H p I. destruct (H [fst p; snd p]) as (y & Iy & E); [apply (in_map (fun p => [fst p; snd p])), I|].
      apply in_map_iff in Iy as (q & <- & Iq). exists q. split; [exact Iq|].
      destruct (matching_pairs m p P I) as (A1 & A2 & A3), (matching_pairs m' q P' Iq) as (B1 & B2 & B3).
      apply pair_eqb in E; auto. now destruct p, q.
    - intros H x I. apply in_map_iff in I as (p & <- & I). destruct (H p I) as (q & Iq & R). exists [fst q; snd q].
      split; [apply (in_map (fun p => [fst p; snd p])), Iq|].
      destruct (matching_pairs m p P I) as (A1 & A2 & A3), (matching_pairs m' q P' Iq) as (B1 & B2 & B3). apply pair_eqb; auto. now destruct p, q.
  Qed.

  Lemma combo_same m m' : matching l m -> matching l m' -> combo_eqb (pairs_of m) (pairs_of m') = true <-> same_matching m m'.
  Proof using N.
    intros P P'. unfold combo_eqb, set_eqb at 1. rewrite andb_true_iff, !combo_inc by assumption. split.
    - intros [H _]. apply (inc_matching l); auto. apply (NoDup_map_inv _ _ N).
    - intros H. now apply same_inc.
  Qed.
End Combos.

Lemma dedup_spec {A} (eqb : A -> A -> bool) (P : A -> Prop) l : forall out,
  (forall x, P x -> eqb x x = true) -> Forall P l ->
  (forall x, In x out -> P x) -> ForallOrdPairs (fun x y => eqb y x = false) out ->
  let r := fold_left (fun out c => if existsb (eqb c) out then out else out ++ [c]) l out in
  (forall x, In x r -> In x out \/ In x l) /\ ForallOrdPairs (fun x y => eqb y x = false) r /\
  (forall x, In x out -> In x r) /\ (forall x, In x l -> exists y, In y r /\ eqb x y = true).
Proof.
  induction l as [|c l IH]; intros out Re F Po Oo r; subst r; cbn [fold_left].
  - repeat split; auto. intros x [].
  - inversion F as [|? ? Pc F']; subst. destruct (existsb (eqb c) out) eqn:E.
    + destruct (IH out Re F' Po Oo) as (A1 & A2 & A3 & A4). repeat split; auto.
      * intros x I. apply A1 in I. cbn. tauto.
      * intros x [<-|I]; [|auto]. apply existsb_exists in E as (y & Iy & Ey). eauto.
    + destruct (IH (out ++ [c]) Re F') as (A1 & A2 & A3 & A4).
      * intros x I. apply in_app_iff in I as [I|[<-|[]]]; auto.
      * apply FOP_app; auto; [repeat constructor|]. intros x y Ix [<-|[]]. destruct (eqb c x) eqn:Ex; [|reflexivity].
        assert (existsb (eqb c) out = true) by (apply existsb_exists; eauto). congruence.
      * repeat split; auto.
        -- intros x I. apply A1 in I. rewrite in_app_iff in I. cbn in *. tauto.
        -- intros x I. apply A3. apply in_or_app. auto.
        -- intros x [<-|I]; [|auto]. exists c. split; [apply A3; apply in_or_app; right; now left|auto].
Qed.

Theorem C32_epsilon_combos :
  forall l n, NoDup (map slot l) -> List.length l = 2 * n ->
    exists ms, epsilon_combos l = Ok (map (map (fun p => [fst p; snd p])) ms) /\ all_matchings l ms /\ List.length ms = odd_factorial n.
Proof.
  intros l n N L. unfold epsilon_combos.
  assert (H : forall ps : list (list index), (forall p, In p ps -> List.length p = 2 * n) ->
            exists ms, mapM (fun p => chunks p 2) ps = Ok (map pairs_of ms) /\ map flat ms = ps).
  { induction ps as [|p ps IH]; intros Hp; [exists []; auto|]. destruct IH as (ms & E & Em); [intros; apply Hp; now right|].
    destruct (chunks_pairs n p) as (m & Ec & Ef); [apply Hp; now left|]. exists (m :: ms). cbn [mapM map]. rewrite Ec, E. split; [reflexivity|congruence]. }
  destruct (H (permutations l)) as (ms0 & E & Em).
  { intros p I. apply permutations_spec, Permutation_length in I. lia. }
  rewrite E. cbn [bind]. clear H E.
  assert (M0 : forall m, In m ms0 <-> matching l m).
  { intros m. split.
    - intros I. red. apply permutations_spec. rewrite <- Em. now apply (in_map flat).
    - intros P. apply permutations_spec in P. rewrite <- Em in P. apply in_map_iff in P as (m' & E & I). replace m with m'; [exact I|].
      clear - E. revert m E. induction m' as [|[a b] m' IH]; intros [|[c d] m] E; try discriminate; [reflexivity|].
      cbn in E. injection E as -> -> E. f_equal. now apply IH. }
  destruct (dedup_spec combo_eqb (fun c => exists m, matching l m /\ c = pairs_of m) (map pairs_of ms0) []) as (A1 & A2 & A3 & A4).
  - intros c (m & P & ->). apply (combo_same l N m m P P). exists m. split; [reflexivity|]. clear. induction m; constructor; auto.
  - apply Forall_map, Forall_forall. intros m I. exists m. split; [now apply M0|reflexivity].
  - intros x [].
  - constructor.
  - cbv zeta in *. set (r := fold_left _ (map pairs_of ms0) []) in *. clearbody r.
    assert (Hr : exists ms, r = map pairs_of ms /\ Forall (matching l) ms).
    { assert (A1' : forall x, In x r -> exists m, x = pairs_of m /\ matching l m).
      { intros x I. destruct (A1 x I) as [[]|I']. apply in_map_iff in I' as (m & <- & Im). exists m. split; [reflexivity|now apply M0]. }
      clear - A1'. induction r as [|c r IH]; [exists []; auto|]. destruct IH as (ms & -> & F); [intros; apply A1'; now right|].
      destruct (A1' c (or_introl eq_refl)) as (m & -> & P). exists (m :: ms). auto. }
    destruct Hr as (ms & -> & F). exists ms. split; [reflexivity|].
    assert (Am : all_matchings l ms).
    { split; [exact F|]. split.
      - intros m P. destruct (A4 (pairs_of m)) as (c & Ic & Ec); [apply in_map, M0, P|]. apply in_map_iff in Ic as (m' & <- & I').
        exists m'. split; [exact I'|]. rewrite Forall_forall in F. apply (combo_same l N m m' P (F _ I')), Ec.
      - clear - A2 F N. induction ms as [|m ms IH]; [constructor|]. cbn [map] in A2. inversion A2 as [|? ? O1 O2]; subst. inversion F as [|? ? F1 F2]; subst.
        constructor; [|auto]. rewrite Forall_forall in *. intros m' I G. specialize (O1 _ (in_map pairs_of _ _ I)).
        assert (combo_eqb (pairs_of m') (pairs_of m) = true); [|congruence]. apply (combo_same l N); auto.
        eapply same_sym; [exact (NoDup_map_inv _ _ N)| | |exact G]; auto. }
    split; [exact Am|]. apply (all_matchings_count n l); auto. apply (NoDup_map_inv _ _ N).
Qed.

(** the iteration of the sets holds the same matchings *)
Lemma iterates_matchings l ms0 ms : NoDup l -> all_matchings l ms0 -> iterates ms (map (map (fun p => [fst p; snd p])) ms0) -> all_matchings l ms.
Proof.
  intros N (F & C & O) (cs & P & F2).
  assert (H : exists ms1, Permutation ms0 ms1 /\ Forall2 (fun m m1 => same_matching m m1) ms ms1).
  { apply Permutation_sym, Permutation_map_inv in P as (ms1 & -> & P). exists ms1. split; [exact P|]. clear - F2.
    revert ms F2. induction ms1 as [|m1 ms1 IH]; intros [|m ms] F2; inversion F2 as [|? ? ? ? (c' & Pc & Fc) F2']; subst; [constructor|]. constructor; [|now apply IH].
    apply Permutation_sym, Permutation_map_inv in Pc as (m1' & -> & Pm). exists m1'. split; [exact Pm|]. clear - Fc.
    revert m Fc. induction m1' as [|[a b] m1' IH]; intros [|[c d] m] Fc; inversion Fc as [|? ? ? ? R Fc']; subst; [constructor|]. constructor; [|now apply IH].
    cbn [fst snd] in *. apply Permutation_length_2 in R as [[-> ->]|[-> ->]]; auto. }
  destruct H as (ms1 & P1 & F1). clear P F2 cs.
  assert (F' : Forall (matching l) ms1) by (eapply Permutation_Forall; eauto).
  assert (C' : forall m, matching l m -> exists m', In m' ms1 /\ same_matching m m').
  { intros m Pm. destruct (C m Pm) as (m' & I & S). exists m'. split; [now apply (Permutation_in _ P1)|exact S]. }
  assert (Sy : forall m m', matching l m -> matching l m' -> same_matching m m' -> same_matching m' m) by (intros; eapply same_sym; eauto).
  assert (O' : ForallOrdPairs (fun m m' => ~ same_matching m m') ms1).
  { clear - P1 F O Sy. revert F O. induction P1 as [|x a b P IH|x y a|a b c P IH P' IH']; intros F O; [constructor| | |].
    - inversion O as [|? ? O1 O2]; subst. inversion F; subst. constructor; [|auto]. rewrite Forall_forall in *. intros z I. apply O1. now apply (Permutation_in _ (Permutation_sym P)).
    - inversion O as [|? ? O1 O2]; subst. inversion O2 as [|? ? O3 O4]; subst. inversion O1 as [|? ? O5 O6]; subst. inversion F as [|? ? F1 F2]; subst. inversion F2; subst.
      constructor; [|constructor; auto]. constructor; [|auto]. intros S. apply O5. now apply Sy.
    - apply IH'; [eapply Permutation_Forall; eauto|auto]. }
  assert (Fm : Forall (matching l) ms).
  { clear - F1 F'. revert F'. induction F1 as [|m m1 ms ms1 (m2 & P & F) F1 IH]; intros F'; [constructor|]. inversion F' as [|? ? M F'']; subst. constructor; [|auto].
    red in M |- *. rewrite M. rewrite (Permutation_flat_map (fun p => [fst p; snd p]) P). clear - F. induction F as [|p q m m2 R F IH]; [constructor|]. cbn [flat_map].
    apply Permutation_app; [|exact IH]. destruct p, q. cbn. destruct R as [[= -> ->]|[= -> ->]]; [reflexivity|apply perm_swap]. }
  split; [exact Fm|]. split.
  - intros m Pm. destruct (C' m Pm) as (m1 & I1 & S1).
    assert (H : exists m', In m' ms /\ same_matching m' m1).
    { clear - F1 I1. induction F1 as [|x y ms ms1 R F1 IH]; [destruct I1|]. destruct I1 as [<-|I1]; [exists x; split; [now left|exact R]|].
      destruct (IH I1) as (m' & I' & S'). exists m'. split; [now right|exact S']. }
    destruct H as (m' & I' & S'). exists m'. split; [exact I'|]. rewrite Forall_forall in Fm, F'.
    apply (same_trans l m m1 m' N Pm (Fm _ I') S1). apply Sy; auto.
  - clear C C' P1 F O. revert F' Fm O'. induction F1 as [|m m1 ms ms1 R F1 IH]; intros F' Fm O'; [constructor|].
    inversion O' as [|? ? O1 O2]; subst. inversion F' as [|? ? G1 G2]; subst. inversion Fm as [|? ? K1 K2]; subst. constructor; [|auto].
    rewrite Forall_forall in *. intros k Ik S.
    assert (H : exists k1, In k1 ms1 /\ same_matching k k1).
    { clear - F1 Ik. induction F1 as [|x y ms ms1 R F1 IH]; [destruct Ik|]. destruct Ik as [<-|Ik]; [exists y; split; [now left|exact R]|].
      destruct (IH Ik) as (m' & I' & S'). exists m'. split; [now right|exact S']. }
    destruct H as (k1 & I1 & S1). apply (O1 k1 I1).
    apply (same_trans l m1 m k1 N G1 (G2 _ I1) (Sy m m1 K1 G1 R)). apply (same_trans l m k k1 N K1 (G2 _ I1) S S1).
Qed.

Lemma matching_contracts t m es :
  Forall2 (fun ij e => exists a b, e = Metric t [a; b] /\ counterpart (fst ij) a /\ counterpart (snd ij) b) m es ->
  contracts es (flat m).
Proof.
  intros F. exists (flat m). split; [reflexivity|].
  induction F as [|ij d ijs ds (a & b & -> & Ca & Cb) F IH]; [constructor|]. cbn [flat flat_map symbol_indices app] in *. auto.
Qed.

Theorem C32_su2_singlets :
  forall enum op t n,
    (forall l cs, epsilon_combos l = Ok cs -> iterates (enum l) cs) ->
    su2_type t -> normal op -> proper_op op -> Forall clean (op_indices op) ->
    number op t true n -> number op t false 0 ->
    (Nat.Odd n -> su2_singlets_type enum op t = Err ValueError) /\
    (forall k, n = 2 * k -> exists indices ms rs,
       lists op t true indices /\ all_matchings indices ms /\
       su2_singlets_type enum op t = Ok rs /\ Forall2 (metric_pairing t op) ms rs /\
       Forall (contracted_type t op) rs /\ Forall (fun r => Forall clean (op_indices r) /\ normal r) rs /\ List.length rs = odd_factorial k).
Proof.
  intros enum op t n En Ht Nm Pr Cl Hn Hm.
  remember (free_of_type t op) as ix eqn:Ex.
  assert (Ln : lists op t true ix).
  { destruct (free_lists op t true Pr) as [N I]. destruct Hm as (l0 & [_ H0] & L0). destruct l0; [|discriminate].
    assert (Up : forall i, In i ix -> ix_up i = true).
    { intros i Ii. destruct (ix_up i) eqn:U; [reflexivity|]. exfalso. apply (H0 i). rewrite Ex in Ii. unfold free_of_type in Ii. apply filter_In in Ii as [Ii T].
      apply free_indices_spec in Ii. apply itype_decides in T. auto. }
    rewrite <- Ex in N, I. rewrite filter_all in N, I; [split; assumption| |]; intros i Ii; now rewrite Up. }
  pose proof (number_length _ _ _ _ _ Hn Ln) as L. unfold su2_singlets_type. cbv zeta. rewrite <- Ex, L. split.
  - intros [k ->]. replace ((2 * k + 1) mod 2) with 1; [reflexivity|]. rewrite Nat.add_comm, Nat.mul_comm, Nat.mod_add by lia. reflexivity.
  - intros k ->. replace ((2 * k) mod 2) with 0 by (now rewrite Nat.mul_comm, Nat.mod_mul by lia). cbn [Nat.eqb negb]. clear Ex.
    destruct Ln as [Ni Ii]. destruct (C32_epsilon_combos ix k Ni L) as (ms0 & Ec & Am & _). apply En in Ec.
    pose proof (NoDup_map_inv _ _ Ni) as Nd. pose proof (iterates_matchings ix ms0 (enum ix) Nd Am Ec) as Am'.
    assert (H : forall ms, Forall (matching ix) ms -> exists rs,
        mapM (fun combo => do epsilons <- mapM (fun ij => do s <- pair_text (fst ij) (snd ij); eps s) combo;
           Ok (fold_left (fun prod e => op_mul prod [e]) epsilons op)) ms = Ok rs /\ Forall2 (metric_pairing t op) ms rs /\ Forall (contracted_type t op) rs /\
           Forall (fun r => Forall clean (op_indices r) /\ normal r) rs).
    { induction ms as [|m ms IH]; intros F; [exists []; auto|]. inversion F as [|? ? M F']; subst. destruct (IH F') as (rs & E & F2 & Fc & Fk).
      assert (Hm' : forall i, In i (flat m) -> clean i /\ ix_type i = t /\ ix_up i = true).
      { intros i I. apply (Permutation_in _ (Permutation_sym M)) in I. apply Ii in I as (Fi & T & U). split; [eapply free_clean; eauto|auto]. }
      assert (He : exists es, mapM (fun ij => do s <- pair_text (fst ij) (snd ij); eps s) m = Ok es /\
          Forall2 (fun ij e => exists a b, e = Metric t [a; b] /\ counterpart (fst ij) a /\ counterpart (snd ij) b) m es /\
          Forall (fun e => Forall clean (symbol_indices e)) es).
      { clear - Hm' Ht. induction m as [|[i j] m IH]; [exists []; auto|]. destruct IH as (es & E & F & Fc); [intros; apply Hm'; cbn; auto|].
        destruct (Hm' i) as (Ci & Ti & Ui); [cbn; auto|]. destruct (Hm' j) as (Cj & Tj & Uj); [cbn; auto|].
        destruct (pair_eps i j t) as (a & b & Ee & Ca & Cb & Cla & Clb); auto. exists (Metric t [a; b] :: es). cbn [mapM fst snd]. rewrite Ee, E.
        split; [reflexivity|]. split; constructor; auto; [exists a, b; auto|]. cbn. auto. }
      destruct He as (es & Ee & Fe & Fce). exists ((op ++ map TSymbol es) :: rs). cbn [mapM]. rewrite Ee. cbn [bind]. rewrite E. cbn [bind].
      rewrite fold_op_mul by exact Nm. split; [reflexivity|]. split; [constructor; [exists es; auto|exact F2]|]. split; constructor; auto.
      - apply contracted_all with (l := flat m); auto; [now apply matching_contracts with t| |].
        + eapply Permutation_NoDup; [apply Permutation_map, M|exact Ni].
        + intros i. assert (Hi : In i (flat m) <-> In i ix) by (split; [apply Permutation_in, Permutation_sym, M|apply Permutation_in, M]).
          rewrite Hi, Ii. split; [tauto|]. intros [Fi T]. split; [exact Fi|]. split; [exact T|].
          destruct (ix_up i) eqn:U; [reflexivity|]. exfalso. destruct Hm as (l0 & [_ H0] & L0). destruct l0; [|discriminate]. apply (H0 i). auto.
      - split; [|now apply normal_app]. rewrite op_indices_app, op_indices_symbols. apply Forall_app. split; [exact Cl|]. clear - Fce.
        induction Fce; [constructor|]. cbn [flat_map]. apply Forall_app. auto. }
    destruct (H (enum ix)) as (rs & E & F2 & Fc & Fk); [apply Am'|]. exists ix, (enum ix), rs. split; [split; assumption|]. split; [exact Am'|]. split; [exact E|].
    split; [exact F2|]. split; [exact Fc|]. split; [exact Fk|]. rewrite <- (all_matchings_count k ix (enum ix) Nd L Am'). symmetry. eapply Spec.Forall2_len; eauto.
Qed.

Lemma contracted_lists t t' op r up l : contracted_type t op r -> t' <> t -> lists op t' up l -> lists r t' up l.
Proof.
  intros (H & _) Ne [N I]. split; [exact N|]. intros i. rewrite I, H. split; [intros (F & T & U)|intros ((F & _) & T & U)]; repeat split; auto; try apply F.
  now rewrite T.
Qed.

Lemma odd_even n : Nat.Odd n \/ exists k, n = 2 * k.
Proof. destruct (Nat.Even_or_Odd n) as [[k H]|H]; eauto. Qed.

Lemma odd_factorial_pos n : 0 < odd_factorial n.
Proof. induction n as [|n IH]; cbn [odd_factorial]; [lia|]. nia. Qed.

Theorem C32_lorentz_singlets :
  forall enum op a b,
    (forall l cs, epsilon_combos l = Ok cs -> iterates (enum l) cs) ->
    normal op -> proper_op op -> Forall clean (op_indices op) ->
    number op Undotted true a -> number op Undotted false 0 -> number op Dotted true b -> number op Dotted false 0 ->
    (Nat.Odd a \/ Nat.Odd b -> lorentz_singlets enum op = Err ValueError) /\
    (forall k j, a = 2 * k -> b = 2 * j -> exists us ds ms1 r1s rss,
       lists op Undotted true us /\ lists op Dotted true ds /\
       all_matchings us ms1 /\ Forall2 (metric_pairing Undotted op) ms1 r1s /\
       Forall2 (fun r1 rs => exists ms2, all_matchings ds ms2 /\ Forall2 (metric_pairing Dotted r1) ms2 rs) r1s rss /\
       lorentz_singlets enum op = Ok (concat rss) /\
       List.length (concat rss) = odd_factorial k * odd_factorial j /\
       Forall (fun r => forall i, is_free r i <-> is_free op i /\ ix_type i <> Undotted /\ ix_type i <> Dotted) (concat rss)).
Proof.
  intros enum op a b En Nm Pr Cl A A0 B B0.
  destruct (C32_su2_singlets enum op Undotted a En (or_introl eq_refl) Nm Pr Cl A A0) as [So Se].
  unfold lorentz_singlets.
  assert (Hd : forall r, contracted_type Undotted op r -> Forall clean (op_indices r) /\ normal r ->
     (Nat.Odd b -> su2_singlets_type enum r Dotted = Err ValueError) /\
     (forall ds j, lists op Dotted true ds -> b = 2 * j -> exists ms rs, all_matchings ds ms /\ su2_singlets_type enum r Dotted = Ok rs /\
        Forall2 (metric_pairing Dotted r) ms rs /\ Forall (contracted_type Dotted r) rs /\ List.length rs = odd_factorial j)).
  { intros r C [Clr Nmr]. assert (Pr' : proper_op r) by apply C.
    assert (Br : number r Dotted true b) by (destruct B as (l & Ll & L); exists l; split; [eapply contracted_lists; eauto; discriminate|exact L]).
    assert (Br0 : number r Dotted false 0) by (destruct B0 as (l & Ll & L); exists l; split; [eapply contracted_lists; eauto; discriminate|exact L]).
    destruct (C32_su2_singlets enum r Dotted b En (or_intror (or_introl eq_refl)) Nmr Pr' Clr Br Br0) as [Do De]. split; [exact Do|].
    intros ds j Lds Eb. destruct (De j Eb) as (ix & ms & rs & Li & Am & E & F2 & Fc & _ & Ln). exists ms, rs. split; [|auto].
    assert (P : Permutation ix ds).
    { eapply lists_unique; [exact Li|]. eapply contracted_lists; eauto. discriminate. }
    destruct Am as (M1 & M2 & M3). split; [|split; [|exact M3]].
    - eapply Forall_impl; [|exact M1]. intros m M. red. now rewrite <- P.
    - intros m M. apply M2. red. now rewrite P. }
  split.
  - intros O. destruct (odd_even a) as [Oa|(k & Ea)]; [now rewrite So|].
    destruct O as [[q Oa]|Ob]; [lia|]. destruct (Se k Ea) as (ix & ms & rs & Li & Am & E & F2 & Fc & Fk & Ln). rewrite E. cbn [bind].
    destruct rs as [|r rs]; [pose proof (odd_factorial_pos k); cbn in Ln; lia|]. inversion Fc as [|? ? C _]; subst. inversion Fk as [|? ? K _]; subst.
    destruct (Hd r C K) as [H _]. cbn [mapM]. now rewrite H.
  - intros k j Ea Eb. destruct (Se k Ea) as (us & ms1 & r1s & Li & Am & E & F2 & Fc & Fk & Ln). rewrite E. cbn [bind].
    destruct B as (ds & Lds & Lb).
    assert (H : exists rss, mapM (fun us0 => su2_singlets_type enum us0 Dotted) r1s = Ok rss /\
              Forall2 (fun r1 rs => exists ms2, all_matchings ds ms2 /\ Forall2 (metric_pairing Dotted r1) ms2 rs) r1s rss /\
              List.length (concat rss) = List.length r1s * odd_factorial j /\
              Forall (fun r => forall i, is_free r i <-> is_free op i /\ ix_type i <> Undotted /\ ix_type i <> Dotted) (concat rss)).
    { clear - Hd Fc Fk Lds Eb. induction r1s as [|r r1s IH]; [exists []; repeat split; constructor|].
      inversion Fc as [|? ? C Fc']; subst. inversion Fk as [|? ? K Fk']; subst. destruct (IH Fc' Fk') as (rss & E & F & L & G).
      destruct (Hd r C K) as [_ H]. destruct (H ds j Lds eq_refl) as (ms & rs & Am & Er & F2 & Fcr & Lr).
      exists (rs :: rss). cbn [mapM]. rewrite Er, E. split; [reflexivity|]. split; [constructor; [exists ms; auto|exact F]|].
      split; [cbn; rewrite app_length, L, Lr; reflexivity|]. cbn [concat]. apply Forall_app. split; [|exact G].
      eapply Forall_impl; [|exact Fcr]. intros r' (H1 & _) i. rewrite H1. destruct C as (H2 & _). rewrite H2. tauto. }
    destruct H as (rss & Em & F & L & G). exists us, ds, ms1, r1s, rss. rewrite Em. cbn [bind]. rewrite L, Ln. repeat (split; [assumption || reflexivity|]). exact G.
Qed.

(** an order in which the sets may be iterated *)
Definition in_order (l : list index) : list (list (index * index)) :=
  match epsilon_combos l with
  | Ok cs => map (flat_map (fun d => match d with [a; b] => [(a, b)] | _ => [] end)) cs
  | Err _ => []
  end.

(** the hypothesis on the order can be met, for lists of even length without repetition and for all others *)
Lemma in_order_iterates l cs : epsilon_combos l = Ok cs -> (forall c d, In c cs -> In d c -> List.length d = 2) -> iterates (in_order l) cs.
Proof.
  intros E H. unfold in_order. rewrite E. exists cs. split; [reflexivity|]. clear E.
  induction cs as [|c cs IH]; [constructor|]. cbn [map]. constructor; [|apply IH; intros; eapply H; [right|]; eassumption].
  exists c. split; [reflexivity|]. assert (Hc : forall d, In d c -> List.length d = 2) by (intros; eapply H; [now left|assumption]). clear - Hc.
  induction c as [|d c IH]; [constructor|]. cbn [flat_map]. pose proof (Hc d (or_introl eq_refl)) as L. destruct d as [|a [|b [|? ?]]]; try discriminate.
  cbn [app]. constructor; [reflexivity|]. apply IH. intros; apply Hc; now right.
Qed.

(** four isospin indices: three ways; an odd number is refused *)
Example C32_example :
  (do f <- simple_field "S" "00003" [[1; 1; 1]]; do g <- simple_field "T" "00001" [[1]];
   do x <- call_field f (lit "i0 i1 i2"); do y <- call_field g (lit "i3");
   do r <- su2_singlets_type in_order [TField x; TField y] Isospin; Ok (map (fun op => skipn 2 (op_text op)) r)) =
  Ok [[[lit "-i0"; lit "-i1"]; [lit "-i2"; lit "-i3"]]; [[lit "-i0"; lit "-i2"]; [lit "-i1"; lit "-i3"]];
      [[lit "-i0"; lit "-i3"]; [lit "-i1"; lit "-i2"]]] /\
  (do f <- simple_field "S" "00003" [[1; 1; 1]]; do x <- call_field f (lit "i0 i1 i2"); su2_singlets_type in_order [TField x] Isospin) = Err ValueError.
Proof. vm_compute. auto. Qed.

Example C32_lorentz_example :
  (do f <- simple_field "S" "22000" [[1; 1; 1; 1]]; do g <- simple_field "T" "20000" [[1; 1]];
   do x <- call_field f (lit "u0 u1 d0 d1"); do y <- call_field g (lit "u2 u3");
   do r <- lorentz_singlets in_order [TField x; TField y]; Ok (map (fun op => skipn 2 (op_text op)) r)) =
  Ok [[[lit "-u0"; lit "-u1"]; [lit "-u2"; lit "-u3"]; [lit "-d0"; lit "-d1"]]; [[lit "-u0"; lit "-u2"]; [lit "-u1"; lit "-u3"]; [lit "-d0"; lit "-d1"]];
      [[lit "-u0"; lit "-u3"]; [lit "-u1"; lit "-u2"]; [lit "-d0"; lit "-d1"]]].
Proof. vm_compute. auto. Qed.

Print Assumptions C32_epsilon_combos.
Print Assumptions C32_su2_singlets.
Print Assumptions C32_lorentz_singlets.
