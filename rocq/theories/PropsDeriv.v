(** * PropsDeriv: C51, where derivatives may act *)

From Coq Require Import Ascii String List Bool Arith ZArith QArith Qcanon Lia Permutation.
From Verif Require Import Base BaseFacts Show Spec ModelIndex SpecIndex ProofsIndex ModelField SpecField ProofsField ProofsField2 PropsField ModelLagrangian PropsLagrangian4 ModelDeriv SpecDeriv.
Import ListNotations.
Local Open Scope nat_scope.

Lemma fermion_ok f a b c d e : field_ok f a b c d e -> is_fermion f = Ok (Nat.odd (a + b)) /\ lorentz_irrep f = Ok [a; b].
Proof.
  intros F. unfold is_fermion, is_boson, lorentz_irrep. rewrite (field_ok_ints _ _ _ _ _ _ F). cbn [bind firstn list_sum fold_right]. split; [|reflexivity].
  rewrite Nat.add_0_r. f_equal. rewrite <- Nat.negb_even. f_equal. apply eq_true_iff_eq. rewrite Nat.eqb_eq, Nat.even_spec. split.
  - intros H. exists ((a + b) / 2). pose proof (Nat.div_mod (a + b) 2 ltac:(lia)). lia.
  - intros (k & ->). rewrite Nat.mul_comm. apply Nat.mod_mul. discriminate.
Qed.

Lemma show_Z_digit n : n < 10 -> show_Z (Z.of_nat n) = [digit n].
Proof. intros H. do 10 (destruct n as [|n]; [reflexivity|]). lia. Qed.

Definition options (a b : nat) : list (nat * nat) :=
  (S a, S b) :: if Nat.odd (a + b) then (match a with O => [] | S a' => [(a', S b)] end) ++ (match b with O => [] | S b' => [(S a, b')] end)
                else match a, b with S a', S b' => [(a', b')] | _, _ => [] end.

Lemma option_move a b p q : In (p, q) (options a b) <-> deriv_move (a, b) (p, q).
Proof.
  unfold options. split.
  - intros [[= <- <-]|I]; [constructor|]. destruct (Nat.odd (a + b)) eqn:O.
    + apply Nat.odd_spec in O. apply in_app_or in I as [I|I].
      * destruct a as [|a]; [destruct I|]. destruct I as [[= <- <-]|[]]. now constructor.
      * destruct b as [|b]; [destruct I|]. destruct I as [[= <- <-]|[]]. now constructor.
    + rewrite <- Nat.negb_even, negb_false_iff, Nat.even_spec in O. destruct a as [|a]; [destruct I|]. destruct b as [|b]; [destruct I|].
      destruct I as [[= <- <-]|[]]. now constructor.
  - intros M. inversion M as [u d|u d O|u d O|u d E]; subst.
    + now left.
    + right. apply Nat.odd_spec in O. rewrite O. apply in_or_app. left. now left.
    + right. apply Nat.odd_spec in O. rewrite O. apply in_or_app. right. now left.
    + right. apply Nat.even_spec in E. rewrite <- Nat.negb_even, E. now left.
Qed.

Lemma options_text a b : S a < 10 -> S b < 10 ->
  flat_map (fun delta : Z * Z => let sum_u := (fst delta + Z.of_nat a)%Z in let sum_d := (snd delta + Z.of_nat b)%Z in
    if (0 <=? sum_u)%Z && (0 <=? sum_d)%Z then [show_Z sum_u ++ show_Z sum_d] else []) (deltas (Nat.odd (a + b))) =
  map (fun pq => [digit (fst pq); digit (snd pq)]) (options a b).
Proof.
  intros A B. unfold options. cbn [map fst snd].
  assert (U : forall n, n < 10 -> forall z, z = Z.of_nat n -> show_Z z = [digit n]) by (intros n H z ->; now apply show_Z_digit).
  assert (P : forall n, (0 <=? 1 + Z.of_nat n)%Z = true) by (intros n; apply Z.leb_le; lia).
  assert (M : forall n, (0 <=? -1 + Z.of_nat (S n))%Z = true) by (intros n; apply Z.leb_le; lia).
  unfold deltas. destruct (Nat.odd (a + b)); cbn [flat_map fst snd]; rewrite !P; cbn [andb app].
  - rewrite (U (S a) A) by lia. rewrite (U (S b) B) by lia. cbn [app]. f_equal. 
    destruct a as [|a], b as [|b]; cbn [app map fst snd]; rewrite ?M, ?andb_true_r; cbn [andb].
    + reflexivity.
    + change (0 <=? -1 + Z.of_nat 0)%Z with false. cbn [app map fst snd]. rewrite (U b) by lia. reflexivity.
    + change (0 <=? -1 + Z.of_nat 0)%Z with false. cbn [app map fst snd]. rewrite (U a) by lia. reflexivity.
    + rewrite (U a), (U b) by lia. reflexivity.
  - rewrite (U (S a) A) by lia. rewrite (U (S b) B) by lia. cbn [app]. f_equal.
    destruct a as [|a], b as [|b]; cbn [app map fst snd]; rewrite ?M, ?andb_true_r, ?andb_false_r; cbn [andb].
    + reflexivity.
    + reflexivity.
    + change (0 <=? -1 + Z.of_nat 0)%Z with false. reflexivity.
    + rewrite (U a), (U b) by lia. reflexivity.
Qed.

Lemma mapM_some {A B} (f : A -> res B) l : (forall x, In x l -> exists y, f x = Ok y) -> exists ys, mapM f l = Ok ys /\ Forall2 (fun x y => f x = Ok y) l ys.
Proof.
  induction l as [|x l IH]; intros H; [exists []; split; [reflexivity|constructor]|].
  destruct (H x (or_introl eq_refl)) as (y & Y). destruct IH as (ys & E & F); [intros z I; apply H; now right|].
  exists (y :: ys). cbn [mapM]. rewrite Y. cbn [bind]. rewrite E. split; [reflexivity|now constructor].
Qed.

(** The fields returned are those reached by [order] derivatives with the allowed changes of Lorentz labels. *)
Theorem C51_possibilities : forall n f a b c d e, field_ok f a b c d e -> f_latex f <> [] -> a + n < 10 -> b + n < 10 ->
  exists gs, deriv_possibilities f n = Ok gs /\ forall g, In g gs <-> derived n f g.
Proof.
  induction n as [|n IH]; intros f a b c d e F T A B.
  - exists [f]. split; [reflexivity|]. intros g. split; [intros [<-|[]]; constructor|]. intros H. inversion H; subst. now left.
  - destruct (fermion_ok f a b c d e F) as [Fe Lo]. cbn [deriv_possibilities]. rewrite Fe, Lo. cbn [bind]. rewrite options_text by lia.
    set (step := fun dynkin : str => do g <- D f dynkin; deriv_possibilities g n).
    assert (St : forall p q, In (p, q) (options a b) -> exists g gs, D f [digit p; digit q] = Ok g /\ step [digit p; digit q] = Ok gs /\ forall h, In h gs <-> derived n g h).
    { intros p q I. apply option_move in I.
      assert (R : p <= S a /\ q <= S b /\ (p = a + 1 \/ a = p + 1) /\ (q = b + 1 \/ b = q + 1)) by (inversion I; subst; lia).
      destruct R as (R1 & R2 & R3). destruct (C27_D f a b c d e p q F ltac:(lia) ltac:(lia) T) as [D1 D2]. destruct (proj2 D1 R3) as (g & G). destruct (D2 g G) as (Fg & _ & _ & _ & _ & _ & _ & _ & Tg & _).
      destruct (IH g p q c d e Fg Tg ltac:(lia) ltac:(lia)) as (gs & E & H). exists g, gs. split; [exact G|]. split; [unfold step; rewrite G; exact E|exact H]. }
    destruct (mapM_some step (map (fun pq => [digit (fst pq); digit (snd pq)]) (options a b))) as (l & E & Fl).
    { intros x I. apply in_map_iff in I as ([p q] & <- & I). destruct (St p q I) as (g & gs & _ & X & _). eauto. }
    rewrite E. cbn [bind]. exists (List.concat l). split; [reflexivity|]. intros h. rewrite in_concat. split.
    + intros (gs & I & J). apply (Forall2_in_r _ _ _ Fl) in I as (x & Ix & X). apply in_map_iff in Ix as ([p q] & <- & Ix). cbn [fst snd] in X.
      destruct (St p q Ix) as (g & gs' & G & X' & H). rewrite X in X'. injection X' as ->. apply option_move in Ix.
      econstructor; [exact F|exact Ix|exact G|now apply H].
    + intros H. inversion H as [|n' f' g h' u d' c1 c2 s p q F' M G Dv]; subst.
      assert (Ea : (u, d') = (a, b)).
      { pose proof (field_ok_ints _ _ _ _ _ _ F) as I1. pose proof (field_ok_ints _ _ _ _ _ _ F') as I2. rewrite I1 in I2. injection I2 as <- <- _ _ _. reflexivity. }
      injection Ea as -> ->. apply option_move in M. destruct (St p q M) as (g' & gs & G' & X & H'). rewrite G in G'. injection G' as <-.
      assert (Ix : In [digit p; digit q] (map (fun pq => [digit (fst pq); digit (snd pq)]) (options a b))) by (apply in_map_iff; exists (p, q); auto).
      apply (Forall2_in_l _ _ _ Fl) in Ix as (gs' & I & X'). rewrite X in X'. injection X' as <-. exists gs. split; [exact I|now apply H'].
Qed.

(** What comes out: the colour and isospin labels, the charges, the family number and the statistics of the field are kept, the
    number of derivatives grows by [n], and the sum of the Lorentz labels keeps its parity. *)
Theorem C51_result : forall n f g a b c d e, derived n f g -> field_ok f a b c d e -> f_latex f <> [] -> a + n < 10 -> b + n < 10 ->
  exists p q, field_ok g p q c d e /\ p <= a + n /\ q <= b + n /\ a <= p + n /\ b <= q + n /\ Nat.even (p + q) = Nat.even (a + b) /\
    f_derivs g = f_derivs f + n /\ f_charges g = f_charges f /\ f_is_conj g = f_is_conj f /\ f_comm g = f_comm f /\ f_nf g = f_nf f.
Proof.
  intros n f g a b c d e H. revert a b c d e. induction H as [f|n f g h u v c1 c2 s p q F M G H IH]; intros a b c d e F' T A B.
  - exists a, b. split; [exact F'|]. split; [lia|]. split; [lia|]. split; [lia|]. split; [lia|]. split; [reflexivity|]. split; [lia|]. auto.
  - assert (E : u = a /\ v = b /\ c1 = c /\ c2 = d /\ s = e).
    { pose proof (field_ok_ints _ _ _ _ _ _ F) as I1. pose proof (field_ok_ints _ _ _ _ _ _ F') as I2. rewrite I1 in I2. injection I2 as <- <- <- <- <-. auto. }
    destruct E as (-> & -> & -> & -> & ->).
    assert (R : p <= S a /\ q <= S b /\ (p = a + 1 \/ a = p + 1) /\ (q = b + 1 \/ b = q + 1)) by (inversion M; subst; lia).
    destruct R as (R1 & R2 & R3 & R4).
    destruct (C27_D f a b c d e p q F ltac:(lia) ltac:(lia) T) as [_ D2]. destruct (D2 g G) as (Fg & _ & _ & Eq1 & Eq2 & Eq3 & Eq4 & Dg & Tg & _).
    destruct (IH p q c d e Fg Tg ltac:(lia) ltac:(lia)) as (p' & q' & Fh & L1 & L2 & L3 & L4 & Pa & De & E1 & E2 & E3 & E4).
    exists p', q'. split; [exact Fh|]. split; [lia|]. split; [lia|]. split; [lia|]. split; [lia|]. split.
    { rewrite Pa. assert (X : forall x y, x = y + 1 \/ y = x + 1 -> Nat.even x = negb (Nat.even y)).
      { intros x y [-> | ->]; rewrite Nat.even_add; cbn; [destruct (Nat.even y)|destruct (Nat.even x)]; reflexivity. }
      rewrite !Nat.even_add, (X _ _ R3), (X _ _ R4). now destruct (Nat.even a), (Nat.even b). }
    split; [lia|]. repeat split; congruence.
Qed.

(** One derivative of a scalar or of a Weyl fermion: every possibility is found, once. *)
Theorem C51_one : forall f a b c d e, field_ok f a b c d e -> f_latex f <> [] -> (a, b) = (0, 0) \/ (a, b) = (1, 0) \/ (a, b) = (0, 1) ->
  exists gs, deriv_possibilities f 1 = Ok gs /\ NoDup gs /\ forall g, In g gs <-> exists p q, p < 10 /\ q < 10 /\ D f [digit p; digit q] = Ok g.
Proof.
  intros f a b c d e F T AB.
  assert (A : a + 1 < 10 /\ b + 1 < 10) by (destruct AB as [[= -> ->]|[[= -> ->]|[= -> ->]]]; lia). destruct A as [A B].
  destruct (C51_possibilities 1 f a b c d e F T A B) as (gs & E & H). exists gs. split; [exact E|]. split.
  - destruct (fermion_ok f a b c d e F) as [Fe Lo]. cbn [deriv_possibilities] in E. rewrite Fe, Lo in E. cbn [bind] in E. rewrite options_text in E by lia.
    assert (X : exists g, gs = [g] \/ exists g', gs = [g; g'] /\ f_dynkin g <> f_dynkin g').
    { destruct AB as [[= -> ->]|[[= -> ->]|[= -> ->]]]; cbn in E.
      - destruct (D f _) as [g|] eqn:G; cbn in E; [|discriminate]. injection E as <-. eauto.
      - destruct (D f [digit 2; digit 1]) as [g|] eqn:G; cbn in E; rewrite ?G in E; cbn in E; [|try discriminate].
        + change [digit 2; digit 1] with ["2"; "1"]%char in G. rewrite ?G in E. cbn in E. destruct (D f ["0"; "1"]%char) as [g'|] eqn:G'; cbn in E; [|discriminate]. injection E as <-.
          exists g. right. exists g'. split; [reflexivity|].
          destruct (C27_D f 1 0 c d e 2 1 F ltac:(lia) ltac:(lia) T) as [_ D1]. destruct (C27_D f 1 0 c d e 0 1 F ltac:(lia) ltac:(lia) T) as [_ D2].
          destruct (D1 g G) as ((K1 & _) & _). destruct (D2 g' G') as ((K2 & _) & _). rewrite K1, K2. discriminate.
        + change [digit 2; digit 1] with ["2"; "1"]%char in G. rewrite G in E. discriminate.
      - destruct (D f [digit 1; digit 2]) as [g|] eqn:G; cbn in E; rewrite ?G in E; cbn in E; [|try discriminate].
        + change [digit 1; digit 2] with ["1"; "2"]%char in G. rewrite ?G in E. cbn in E. destruct (D f ["1"; "0"]%char) as [g'|] eqn:G'; cbn in E; [|discriminate]. injection E as <-.
          exists g. right. exists g'. split; [reflexivity|].
          destruct (C27_D f 0 1 c d e 1 2 F ltac:(lia) ltac:(lia) T) as [_ D1]. destruct (C27_D f 0 1 c d e 1 0 F ltac:(lia) ltac:(lia) T) as [_ D2].
          destruct (D1 g G) as ((K1 & _) & _). destruct (D2 g' G') as ((K2 & _) & _). rewrite K1, K2. discriminate.
        + change [digit 1; digit 2] with ["1"; "2"]%char in G. rewrite G in E. discriminate. }
    destruct X as (g & [-> |(g' & -> & N)]); repeat constructor; cbn; intuition (subst; congruence).
  - intros g. rewrite H. split.
    + intros Dv. inversion Dv as [|n' f' g' h' u v c1 c2 s p q F' M G Dv']; subst. inversion Dv'; subst.
      assert (E' : u = a /\ v = b).
      { pose proof (field_ok_ints _ _ _ _ _ _ F) as I1. pose proof (field_ok_ints _ _ _ _ _ _ F') as I2. rewrite I1 in I2. injection I2 as <- <- _ _ _. auto. }
      destruct E' as [-> ->]. exists p, q. inversion M; subst; repeat split; try lia; exact G.
    + intros (p & q & P & Q & G). destruct (C27_D f a b c d e p q F P Q T) as [D1 _]. destruct (proj1 D1 (ex_intro _ g G)) as [R1 R2].
      econstructor; [exact F| |exact G|constructor].
      destruct AB as [[= -> ->]|[[= -> ->]|[= -> ->]]].
      * assert (p = 1) as -> by lia. assert (q = 1) as -> by lia. constructor.
      * assert (q = 1) as -> by lia. destruct R1 as [-> |R1]; [apply (dm_raise 1 0)|]. assert (p = 0) as -> by lia. apply dm_left. exists 0. reflexivity.
      * assert (p = 1) as -> by lia. destruct R2 as [-> |R2]; [apply (dm_raise 0 1)|]. assert (q = 0) as -> by lia. apply dm_right. exists 0. reflexivity.
Qed.

(** Of the derivatives of a vector two are missing, D^{20} and D^{02} (the field strength of the vector); of a fermion with both
    labels positive one, lowering both. *)
Theorem C51_refuted :
  (exists f g gs, field_ok f 1 1 0 0 0 /\ f_latex f <> [] /\ deriv_possibilities f 1 = Ok gs /\ D f [digit 2; digit 0] = Ok g /\ ~ In g gs) /\
  (exists f g gs, field_ok f 2 1 0 0 0 /\ f_latex f <> [] /\ deriv_possibilities f 1 = Ok gs /\ D f [digit 1; digit 0] = Ok g /\ ~ In g gs).
Proof.
  split.
  - destruct (mk_field (lit "V") (lit "11000") (Some [(lit "y", Q2Qc 0)]) false (lit "bose") None None 1 None 1 0 None) as [f|] eqn:E; [|vm_compute in E; discriminate].
    assert (F : field_ok f 1 1 0 0 0 /\ f_latex f <> []).
    { vm_compute in E. injection E as <-. split; [|discriminate]. split; [reflexivity|]. split; [lia|]. split; [|cbn; auto].
      eexists _, _, []. split; [reflexivity|]. cbn. repeat constructor; cbn; intuition discriminate. }
    destruct F as [F T]. destruct (C51_possibilities 1 f 1 1 0 0 0 F T ltac:(lia) ltac:(lia)) as (gs & Eg & H).
    destruct (C27_D f 1 1 0 0 0 2 0 F ltac:(lia) ltac:(lia) T) as [D1 D2]. destruct (proj2 D1 ltac:(lia)) as (g & G). exists f, g, gs. repeat (split; [assumption|]).
    intros I. apply H in I. inversion I as [|n' f' g' h' u v c1 c2 s p q F' M G' Dv']; subst. inversion Dv'; subst.
    assert (E' : u = 1 /\ v = 1).
    { pose proof (field_ok_ints _ _ _ _ _ _ F) as I1. pose proof (field_ok_ints _ _ _ _ _ _ F') as I2. rewrite I1 in I2. injection I2 as <- <- _ _ _. auto. }
    destruct E' as [-> ->]. destruct (D2 g G) as ((K & _) & _).
    assert (PQ : (p, q) = (2, 2) \/ (p, q) = (0, 0)).
    { inversion M as [|? ? O|? ? O|]; subst; auto; apply Nat.odd_spec in O; discriminate O. }
    destruct PQ as [[= -> ->]|[= -> ->]]; match type of G' with D f [digit ?x; digit ?y] = _ => destruct (C27_D f 1 1 0 0 0 x y F ltac:(lia) ltac:(lia) T) as [_ D3] end; destruct (D3 g G') as ((K' & _) & _); rewrite K in K'; discriminate K'.
  - destruct (mk_field (lit "V") (lit "21000") (Some [(lit "y", Q2Qc 0)]) false (lit "fermi") None None 1 None 1 0 None) as [f|] eqn:E; [|vm_compute in E; discriminate].
    assert (F : field_ok f 2 1 0 0 0 /\ f_latex f <> []).
    { vm_compute in E. injection E as <-. split; [|discriminate]. split; [reflexivity|]. split; [lia|]. split; [|cbn; auto].
      eexists _, _, []. split; [reflexivity|]. cbn. repeat constructor; cbn; intuition discriminate. }
    destruct F as [F T]. destruct (C51_possibilities 1 f 2 1 0 0 0 F T ltac:(lia) ltac:(lia)) as (gs & Eg & H).
    destruct (C27_D f 2 1 0 0 0 1 0 F ltac:(lia) ltac:(lia) T) as [D1 D2]. destruct (proj2 D1 ltac:(lia)) as (g & G). exists f, g, gs. repeat (split; [assumption|]).
    intros I. apply H in I. inversion I as [|n' f' g' h' u v c1 c2 s p q F' M G' Dv']; subst. inversion Dv'; subst.
    assert (E' : u = 2 /\ v = 1).
    { pose proof (field_ok_ints _ _ _ _ _ _ F) as I1. pose proof (field_ok_ints _ _ _ _ _ _ F') as I2. rewrite I1 in I2. injection I2 as <- <- _ _ _. auto. }
    destruct E' as [-> ->]. destruct (D2 g G) as ((K & _) & _).
    assert (PQ : (p, q) = (3, 2) \/ (p, q) = (1, 2) \/ (p, q) = (3, 0)).
    { inversion M as [|? ? O|? ? O|? ? O]; subst; auto; apply Nat.even_spec in O; discriminate O. }
    destruct PQ as [[= -> ->]|[[= -> ->]|[= -> ->]]]; match type of G' with D f [digit ?x; digit ?y] = _ => destruct (C27_D f 2 1 0 0 0 x y F ltac:(lia) ltac:(lia) T) as [_ D3] end; destruct (D3 g G') as ((K' & _) & _); rewrite K in K'; discriminate K'.
Qed.

(** With more derivatives the same field is returned several times: two derivatives of L give five fields, some of them
    twice. *)
Theorem C51_twice : exists f gs, field_ok f 1 0 0 0 1 /\ deriv_possibilities f 2 = Ok gs /\ List.length gs = 5 /\ ~ NoDup gs.
Proof.
  destruct (mk_field (lit "L") (lit "10001") (Some [(lit "y", Q2Qc (-1 # 2))]) false (lit "fermi") None None 1 None 3 0 None) as [f|] eqn:E; [|vm_compute in E; discriminate].
  assert (F : field_ok f 1 0 0 0 1).
  { vm_compute in E. injection E as <-. split; [reflexivity|]. split; [lia|]. split; [|cbn; auto].
    eexists _, _, []. split; [reflexivity|]. cbn. repeat constructor; cbn; intuition discriminate. }
  vm_compute in E. injection E as <-. eexists _, _. split; [exact F|]. split; [vm_compute; reflexivity|]. split; [reflexivity|].
  intros N. rewrite NoDup_nth_error in N. specialize (N 1 3). cbn [List.length nth_error] in N. discriminate (N ltac:(lia) eq_refl).
Qed.

Print Assumptions C51_possibilities.
Print Assumptions C51_one.
Print Assumptions C51_refuted.
