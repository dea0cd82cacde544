(** * PropsRegistry2: exactly what collect_completions returns (C14) *)

From Coq Require Import List Bool Arith Permutation Sorted Lia.
From Verif Require Import Base BaseFacts Spec ModelRegistry ProofsRegistry.
Import ListNotations.
Local Open Scope nat_scope.

(** a longest block of neighbours that are alike *)
Definition run {C} (same : C -> C -> Prop) (cs a g b : list C) : Prop :=
  cs = a ++ g ++ b /\ g <> [] /\ (forall x y, In x g -> In y g -> same x y) /\
  (forall a' x y g', a = a' ++ [x] -> g = y :: g' -> ~ same x y) /\
  (forall g' x y b', g = g' ++ [x] -> b = y :: b' -> ~ same x y).

Section Exact.
  Context {C V : Type} (key : C -> list V) (veqb vleb : V -> V -> bool).
  Context (Hv : decides veqb) (Htot : forall a b, vleb a b = true \/ vleb b a = true)
          (Htr : forall a b c, vleb a b = true -> vleb b c = true -> vleb a c = true)
          (Hanti : forall a b, vleb a b = true -> vleb b a = true -> a = b).
  Notation fk := (func_key key vleb).
  Notation gb := (groupby key veqb vleb).
  Notation same := (fun x y => Permutation (key x) (key y)).

  Lemma fk_same x y : fk x = fk y <-> same x y.
  Proof using Htot Htr Hanti. apply sort_eq_iff; auto. Qed.

  Lemma gb_groups l : Forall (fun kg => snd kg <> [] /\ Forall (fun c => fk c = fst kg) (snd kg)) (gb l).
  Proof using Hv. apply Forall_forall. intros [k g] I. now apply (groupby_keys key veqb vleb Hv l). Qed.

  Lemma run_group cs a g b : run same cs a g b -> exists A k B, gb cs = A ++ (k, g) :: B /\ concat (map snd A) = a /\ concat (map snd B) = b.
  Proof using Hv Htot Htr Hanti.
    revert a g b. induction cs as [|c l IH]; intros a g b (E & N & S & L & R).
    - destruct a; [|discriminate]. destruct g; [congruence|discriminate].
    - pose proof (gb_groups l) as Gl. pose proof (groupby_concat key veqb vleb l) as Cl.
      assert (Hd : forall k g1 gs y r, gb l = (k, g1) :: gs -> l = y :: r -> fk y = k).
      { intros k g1 gs y r Eg El. rewrite Eg in Gl, Cl. apply Forall_inv in Gl as [G1 G2]. cbn [fst snd map concat] in *.
        destruct g1 as [|z g1]; [congruence|]. rewrite El in Cl. cbn in Cl. injection Cl as <- _. now apply Forall_inv in G2. }
      destruct a as [|c' a].
      + destruct g as [|c' g]; [congruence|]. cbn in E. injection E as <- El. destruct g as [|c2 g].
        * cbn [app] in El. cbn [groupby]. destruct (gb l) as [|[k g1] gs] eqn:Eg.
          { cbn in Cl. subst l. exists [], (fk c), []. auto. }
          assert (Nk : list_eqb veqb (fk c) k = false).
          { destruct l as [|y r]; [discriminate Eg|]. rewrite <- (Hd k g1 gs y r eq_refl eq_refl). apply (decides_neq (list_decides Hv)). rewrite fk_same. symmetry in El.
            apply (R [] c y r); auto. }
          rewrite Nk. exists [], (fk c), ((k, g1) :: gs). split; [reflexivity|]. split; [reflexivity|]. rewrite <- El. exact Cl.
        * destruct (IH [] (c2 :: g) b) as (A & k & B & Eg & Ea & Eb).
          { split; [exact El|]. split; [discriminate|]. split; [intros x y Ix Iy; apply S; now right|]. split; [intros a' x y g' Ea; destruct a'; discriminate|].
            intros g' x y b' Eg. apply (R (c :: g') x y b'). cbn. now rewrite Eg. }
          cbn [groupby]. rewrite Eg. destruct A as [|[k1 g1] A].
          2:{ rewrite Eg in Gl. apply Forall_inv in Gl as [G1 _]. cbn in Ea, G1. destruct g1; [congruence|discriminate]. }
          cbn [app]. rewrite Eg in Gl. apply Forall_inv in Gl as [_ G2]. cbn [fst snd] in G2. apply Forall_inv in G2.
          assert (Ek : list_eqb veqb (fk c) k = true).
          { apply (list_decides Hv). rewrite <- G2. apply fk_same. apply S; cbn; auto. }
          rewrite Ek. exists [], k, B. auto.
      + cbn in E. injection E as <- El. destruct (IH a g b) as (A & k & B & Eg & Ea & Eb).
        { split; [exact El|]. split; [exact N|]. split; [exact S|]. split; [|exact R]. intros a' x y g' Ex. apply (L (c :: a') x y g'). cbn. now rewrite Ex. }
        cbn [groupby]. rewrite Eg. destruct A as [|[k1 g1] A].
        * cbn [app]. cbn in Ea. subst a. assert (Nk : list_eqb veqb (fk c) k = false).
          { destruct g as [|y g]; [congruence|]. rewrite <- (Hd k (y :: g) B y (g ++ b)); [|exact Eg|exact El]. apply (decides_neq (list_decides Hv)). rewrite fk_same. apply (L [] c y g); reflexivity. }
          rewrite Nk. exists [(fk c, [c])], k, B. auto.
        * cbn [app]. destruct (list_eqb veqb (fk c) k1).
          { exists ((k1, c :: g1) :: A), k, B. cbn in Ea |- *. rewrite Ea. auto. }
          { exists ((fk c, [c]) :: (k1, g1) :: A), k, B. cbn in Ea |- *. rewrite Ea. auto. }
  Qed.

  Lemma group_run cs A k g B : gb cs = A ++ (k, g) :: B -> run same cs (concat (map snd A)) g (concat (map snd B)).
  Proof using Hv Htot Htr Hanti.
    intros E. pose proof (groupby_concat key veqb vleb cs) as Cl. pose proof (gb_groups cs) as Gl. rewrite E in Cl, Gl.
    rewrite map_app, concat_app in Cl. cbn [map concat snd] in Cl. apply Forall_app in Gl as [GA GB]. pose proof (Forall_inv GB) as [G1 G2]; pose proof (Forall_inv_tail GB) as GB'. cbn [fst snd] in G1, G2.
    rewrite Forall_forall in G2. split; [now symmetry|]. split; [exact G1|]. split; [intros x y Ix Iy; apply fk_same; rewrite (G2 x Ix), (G2 y Iy); reflexivity|]. split.
    - intros a' x y g' Ea Eg. rewrite <- fk_same. destruct A as [|kg A _] using rev_ind; [destruct a'; discriminate|]. destruct kg as [k1 g1].
      rewrite <- app_assoc in E. cbn [app] in E. pose proof (groupby_adjacent key veqb vleb Hv cs A k1 g1 k g B E) as Nk.
      apply Forall_app in GA as [_ GA]. apply Forall_inv in GA as [H1 H2]. cbn [fst snd] in H1, H2.
      rewrite map_app, concat_app in Ea. cbn [map concat snd] in Ea. rewrite app_nil_r in Ea. destruct g1 as [|z g1 _] using rev_ind; [congruence|].
      rewrite app_assoc in Ea. apply app_inj_tail in Ea as [_ ->]. rewrite Forall_forall in H2. rewrite (H2 x), (G2 y); [exact Nk|rewrite Eg; now left|apply in_app_iff; right; now left].
    - intros g' x y b' Eg Eb. rewrite <- fk_same. destruct B as [|[k1 g1] B]; [discriminate Eb|].
      pose proof (groupby_adjacent key veqb vleb Hv cs A k g k1 g1 B E) as Nk. apply Forall_inv in GB' as [H1 H2]. cbn [fst snd] in H1, H2.
      cbn in Eb. destruct g1 as [|z g1]; [congruence|]. cbn in Eb. injection Eb as -> _. rewrite Forall_forall in H2. rewrite (G2 x), (H2 y); [exact Nk|now left|rewrite Eg; apply in_app_iff; right; now left].
  Qed.

  Lemma set_key_spec c k : k = set_key veqb vleb (fk c) <-> NoDup k /\ StronglySorted (fun x y => vleb x y = true) k /\ forall v, In v k <-> In v (key c).
  Proof using Hv Htot Htr Hanti.
    assert (A : NoDup (set_key veqb vleb (fk c)) /\ StronglySorted (fun x y => vleb x y = true) (set_key veqb vleb (fk c)) /\ forall v, In v (set_key veqb vleb (fk c)) <-> In v (key c)).
    { unfold set_key, func_key. split; [eapply Permutation_NoDup; [apply sort_perm|]; now apply nodup_by_NoDup|]. split; [apply sort_sorted; auto|].
      intros v. rewrite sort_In, (nodup_by_In Hv), sort_In. reflexivity. }
    split; [now intros ->|]. intros (N & S & I). destruct A as (N' & S' & I').
    rewrite <- (sort_sorted_id vleb S), <- (sort_sorted_id vleb S'). apply sort_eq_iff; auto. apply NoDup_Permutation; auto. intros v. now rewrite I, I'.
  Qed.
End Exact.

(** An entry of the dictionary is a longest block of neighbouring completions with the same fields (counted with multiplicity), listed under
    the sorted list of their different fields, provided no later completion has the same different fields; all of these are entries. *)
Theorem C14_collect_completions_exact :
  forall (C V : Type) (key : C -> list V) (veqb vleb : V -> V -> bool) (cs : list C),
    decides veqb ->
    (forall a b, vleb a b = true \/ vleb b a = true) ->
    (forall a b c, vleb a b = true -> vleb b c = true -> vleb a c = true) ->
    (forall a b, vleb a b = true -> vleb b a = true -> a = b) ->
    NoDup (map fst (collect_completions key veqb vleb cs)) /\
    forall k g, In (k, g) (collect_completions key veqb vleb cs) <->
      exists a b, run (fun x y => Permutation (key x) (key y)) cs a g b /\
        NoDup k /\ StronglySorted (fun x y => vleb x y = true) k /\
        (forall c, In c g -> forall v, In v k <-> In v (key c)) /\
        (forall c y, In c g -> In y b -> ~ (forall v, In v (key y) <-> In v (key c))).
Proof.
  intros C V key veqb vleb cs Hv Htot Htr Hanti. rewrite collect_as_dict. pose proof (list_decides Hv) as Hk.
  set (h := fun kg : list V * list C => set_key veqb vleb (fst kg)). split.
  { rewrite map_map. apply (last_writes_NoDup _ Hk h). }
  assert (Dom : forall k g, In (k, g) (map (fun kv => (fst kv, snd (snd kv))) (last_writes (list_eqb veqb) h (groupby key veqb vleb cs))) <->
            exists A k2 B, groupby key veqb vleb cs = A ++ (k2, g) :: B /\ set_key veqb vleb k2 = k /\ forall w, In w B -> h w <> k).
  { intros k g. split.
    - intros I. apply in_map_iff in I as ([k1 [k2 g2]] & E & I). cbn in E. injection E as -> ->.
      apply (In_dget Hk) in I; [|apply last_writes_NoDup, Hk]. apply (last_writes_get _ Hk h) in I as (A & B & El & Ek & Nw). eauto 6.
    - intros (A & k2 & B & El & Ek & Nw). apply in_map_iff. exists (k, (k2, g)). split; [reflexivity|]. apply (dget_In Hk), (last_writes_get _ Hk h). eauto. }
  assert (SK : forall x y, set_key veqb vleb (func_key key vleb x) = set_key veqb vleb (func_key key vleb y) <-> (forall v, In v (key x) <-> In v (key y))).
  { intros x y. rewrite (set_key_spec key veqb vleb Hv Htot Htr Hanti y).
    destruct (proj1 (set_key_spec key veqb vleb Hv Htot Htr Hanti x _) eq_refl) as (N & S & I). split.
    - intros (_ & _ & J) v. now rewrite <- I, <- J.
    - intros J. split; [exact N|]. split; [exact S|]. intros v. now rewrite I, J. }
  intros k g. rewrite Dom. split.
  - intros (A & k2 & B & El & Ek & Nw). subst k. exists (concat (map snd A)), (concat (map snd B)).
    split; [now apply (group_run key veqb vleb Hv Htot Htr Hanti cs A k2 g B)|].
    pose proof (gb_groups key veqb vleb Hv cs) as Gl. rewrite El in Gl. apply Forall_app in Gl as [_ Gl]. pose proof (Forall_inv Gl) as [G1 G2]; pose proof (Forall_inv_tail Gl) as GB. cbn [fst snd] in G1, G2. rewrite Forall_forall in G2.
    assert (Kc : forall c, In c g -> set_key veqb vleb k2 = set_key veqb vleb (func_key key vleb c)) by (intros c I; now rewrite (G2 c I)).
    destruct g as [|c0 g]; [congruence|]. destruct (proj1 (set_key_spec key veqb vleb Hv Htot Htr Hanti c0 _) (Kc c0 (or_introl eq_refl))) as (N & S & _).
    split; [exact N|]. split; [exact S|]. split.
    + intros c Ic. apply (proj1 (set_key_spec key veqb vleb Hv Htot Htr Hanti c _) (Kc c Ic)).
    + intros c y Ic Iy Same. apply in_concat in Iy as (g1 & Ig & Iy). apply in_map_iff in Ig as ([k1 g1'] & E & Ig). cbn in E. subst g1'.
      apply (Nw _ Ig). unfold h. cbn [fst]. rewrite Forall_forall in GB. destruct (GB _ Ig) as [_ F1]. cbn [fst snd] in F1. rewrite Forall_forall in F1. rewrite <- (F1 y Iy), (Kc c Ic). now apply SK.
  - intros (a & b & R & N & S & I & Nb). destruct (run_group key veqb vleb Hv Htot Htr Hanti cs a g b R) as (A & k2 & B & El & Ea & Eb). subst a b.
    exists A, k2, B. split; [exact El|].
    pose proof (gb_groups key veqb vleb Hv cs) as Gl. rewrite El in Gl. apply Forall_app in Gl as [_ Gl]. pose proof (Forall_inv Gl) as [G1 G2]; pose proof (Forall_inv_tail Gl) as GB. cbn [fst snd] in G1, G2. rewrite Forall_forall in G2.
    destruct g as [|c0 g]; [congruence|].
    assert (Ek : k = set_key veqb vleb k2).
    { rewrite <- (G2 c0 (or_introl eq_refl)). apply set_key_spec; auto. split; [exact N|]. split; [exact S|]. apply I. now left. }
    split; [now symmetry|]. intros [k1 g1] Iw E. unfold h in E. cbn [fst] in E. rewrite Forall_forall in GB. destruct (GB _ Iw) as [N1 F1]. cbn [fst snd] in N1, F1.
    destruct g1 as [|y g1]; [congruence|]. rewrite Forall_forall in F1.
    apply (Nb c0 y (or_introl eq_refl)).
    + apply in_concat. exists (y :: g1). split; [|now left]. change (y :: g1) with (snd (k1, y :: g1)). now apply in_map.
    + apply SK. rewrite (F1 y (or_introl eq_refl)), (G2 c0 (or_introl eq_refl)), E. exact Ek.
Qed.

(** the second block with field 0 replaces the first one *)
Example C14_exact_example :
  let key := fun c : nat => [c mod 3] in
  run (fun x y => Permutation (key x) (key y)) [3; 9; 1; 6; 12; 4] [3; 9; 1] [6; 12] [4] /\
  collect_completions key Nat.eqb Nat.leb [3; 9; 1; 6; 12; 4] = [([0], [6; 12]); ([1], [4])].
Proof.
  split; [|reflexivity]. split; [reflexivity|]. split; [discriminate|]. split.
  - intros x y [<- | [<- | []]] [<- | [<- | []]]; apply Permutation_refl.
  - split.
    + intros a' x y g' E1 E2. injection E2 as <- _. change [3; 9; 1] with ([3; 9] ++ [1]) in E1. apply app_inj_tail in E1 as [_ <-]. intros P. apply Permutation_length_1 in P. discriminate.
    + intros g' x y b' E1 E2. injection E2 as <- _. change [6; 12] with ([6] ++ [12]) in E1. apply app_inj_tail in E1 as [_ <-]. intros P. apply Permutation_length_1 in P. discriminate.
Qed.

Print Assumptions C14_collect_completions_exact.
