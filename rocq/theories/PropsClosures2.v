(** * PropsClosures2: power counting and chirality in estimates, leading estimates (C77, C78) *)

From Coq Require Import Ascii String List Bool Arith ZArith Lia Permutation.
From Verif Require Import Base BaseFacts ModelClosures SpecClosures PropsClosures.
Import ListNotations.
Local Open Scope nat_scope.

(** ** Power counting *)

Definition power_of (a : atom) : Z :=
  match a with
  | Fd SW | Cj SW => 2 | Fd _ | Cj _ => 1
  | Cst k => match k with Knunu => 2 | Kv => 1 | Kye | Kyu | Kyd => -1 | Kg2 => -2 | Kloop | Kloopv2 => 2 end
  end%Z.

Lemma power_rule r : In r RULES -> r <> wrong_hp -> total power_of (snd r) = total power_of (fst r).
Proof.
  assert (C : Forall (fun r => r = wrong_hp \/ total power_of (snd r) = total power_of (fst r)) RULES).
  { unfold RULES. repeat (constructor; [first [right; reflexivity|left; reflexivity]|]). constructor. }
  rewrite Forall_forall in C. intros I N. destruct (C r I) as [H|H]; [contradiction|exact H].
Qed.

Lemma power_steps s rs s' : steps s rs s' -> uses wrong_hp rs = 0 -> total power_of s' = total power_of s.
Proof.
  unfold uses. induction 1 as [s s' P|s r s1 rs s' St _ IH]; intros U; [symmetry; now apply total_perm|]. cbn [count_occ] in U. destruct (rule_dec r wrong_hp) as [|N]; [discriminate U|].
  rewrite (IH U), (step_total _ _ _ _ St), (power_rule r (step_rule _ _ _ St) N). lia.
Qed.

Lemma power_components op : components op -> total power_of op = Z.of_nat (fields_in op) /\ fields_in op = List.length op.
Proof.
  unfold total, fields_in. induction op as [|a op IH]; intros C; [split; reflexivity|]. cbn [map fold_right filter List.length].
  destruct IH as [IH1 IH2]; [intros b I; apply C; now right|]. destruct (C a (or_introl eq_refl)) as (K & N1 & N2). destruct a as [[]|[]|]; cbn [is_const negb List.length power_of] in *; try discriminate K; try congruence; lia.
Qed.

Lemma power_consts l : total power_of (map Cst l) =
  (2 * Z.of_nat (count_k Knunu l) + Z.of_nat (count_k Kv l) - Z.of_nat (count_k Kye l + count_k Kyu l + count_k Kyd l) - 2 * Z.of_nat (count_k Kg2 l) + 2 * Z.of_nat (count_k Kloop l + count_k Kloopv2 l))%Z.
Proof.
  unfold total, count_k. induction l as [|k l IH]; [reflexivity|]. cbn [map fold_right filter]. rewrite IH. destruct k; cbn [ksym_eqb List.length power_of]; lia.
Qed.

Lemma components_no k op : components op -> constant k op = 0.
Proof.
  intros C. unfold constant. induction op as [|a op IH]; [reflexivity|]. cbn [filter]. destruct (C a (or_introl eq_refl)) as (K & _). destruct a; try discriminate K; apply IH; intros b I; apply C; now right.
Qed.

(** C77 (1): the number of loop factors of an estimate is fixed by the number of fields and couplings *)
Theorem C77_power_counting : forall op e, admissible op -> components op -> estimate_one op = Ok (Some e) ->
  2 * (count_k Kloop e + count_k Kloopv2 e) + 4 = fields_in op + (count_k Kye e + count_k Kyu e + count_k Kyd e) + 2 * count_k Kg2 e.
Proof.
  intros op e A C E. destruct (C44_estimate op A (components_no _ _ C)) as [(_ & E1)|(R & e' & E1 & (_ & _ & K & V))]; [congruence|].
  assert (e' = e) as -> by congruence. destruct A as (L & Q & T). destruct (C45_fixed_point op 10) as (rs & S & _). destruct (C43_neutral _ _ _ S Q R) as [U _].
  pose proof (power_steps _ _ _ S U) as P. destruct (power_components _ C) as [Pc _]. rewrite Pc in P. pose proof (C42_neutrino_pairs _ _ R) as Nn. rewrite L in Nn.
  apply clean_reduced in R as (l & Cl). apply clean_spec in Cl. rewrite Cl in *. rewrite power_consts in P. rewrite !const_k in *.
  rewrite (K Kloop), (K Kye), (K Kyu), (K Kyd), (K Kg2) by discriminate. rewrite !const_k. lia.
Qed.

(** ** Chirality *)

(** parity of the number of singlets of a kind and of the Yukawa couplings that go with them *)
Definition chirality_of (s : fsym) (k : ksym) (a : atom) : Z :=
  match a with Fd t | Cj t => if fsym_eqb s t then 1 else 0 | Cst c => if ksym_eqb k c then 1 else 0 end%Z.

Lemma chirality_rules f (P : rule -> bool) : forallb (fun r : rule => P r || Z.even (total f (snd r) - total f (fst r))) RULES = true ->
  forall s rs s', steps s rs s' -> (forall r, In r rs -> P r = false) -> Z.even (total f s' - total f s) = true.
Proof.
  intros C. rewrite forallb_forall in C. intros s rs s'. induction 1 as [s s' Pe|s r s1 rs s' St _ IH]; intros H; [rewrite (total_perm _ _ _ Pe), Z.sub_diag; reflexivity|].
  specialize (IH (fun r I => H r (or_intror I))). pose proof (step_total f _ _ _ St) as T. specialize (C r (step_rule _ _ _ St)). rewrite (H r (or_introl eq_refl)) in C. cbn [orb] in C.
  apply Z.even_spec in IH as (a & Ha). apply Z.even_spec in C as (b & Hb). apply Z.even_spec. exists (a + b)%Z. lia.
Qed.

Lemma chirality_count s k op : total (chirality_of s k) op = Z.of_nat (singlets s op + constant k op).
Proof.
  unfold total, singlets, constant. induction op as [|a op IH]; [reflexivity|]. cbn [map fold_right filter]. rewrite IH. destruct a as [t|t|c]; cbn [chirality_of].
  - destruct (fsym_eqb s t); cbn [List.length]; lia. - destruct (fsym_eqb s t); cbn [List.length]; lia. - destruct (ksym_eqb k c); cbn [List.length]; lia.
Qed.

Lemma singlets_consts s l : singlets s (map Cst l) = 0.
Proof. unfold singlets. induction l as [|k l IH]; [reflexivity|exact IH]. Qed.

Lemma even_parity a b : Z.even (Z.of_nat a - Z.of_nat b) = true -> Nat.even a = Nat.even b.
Proof.
  intros H. apply Z.even_spec in H as (c & H). destruct (Nat.even b) eqn:B.
  - apply Nat.even_spec in B as (d & B). apply Nat.even_spec. exists (Z.to_nat (c + Z.of_nat d)). lia.
  - assert (Ob : Nat.odd b = true) by (unfold Nat.odd; now rewrite B). apply Nat.odd_spec in Ob as (d & D).
    assert (Oa : Nat.odd a = true) by (apply Nat.odd_spec; exists (Z.to_nat (c + Z.of_nat d)); lia). unfold Nat.odd in Oa. now apply negb_true_iff.
Qed.

(** C77 (2): an estimate has an odd number of charged-lepton Yukawa couplings exactly for an odd number of eb; the same for
    quarks unless the rule for c(eb) c(d) u is used, and always for both kinds of quarks together *)
Theorem C77_chirality : forall op e, admissible op -> components op -> estimate_one op = Ok (Some e) ->
  Nat.even (count_k Kye e) = Nat.even (singlets Seb op) /\
  Nat.even (count_k Kyu e + count_k Kyd e) = Nat.even (singlets Sub op + singlets Sdb op) /\
  (singlets Seb op = 0 -> Nat.even (count_k Kyu e) = Nat.even (singlets Sub op) /\ Nat.even (count_k Kyd e) = Nat.even (singlets Sdb op)).
Proof.
  intros op e A C E. destruct (C44_estimate op A (components_no _ _ C)) as [(_ & E1)|(R & e' & E1 & (_ & _ & K & V))]; [congruence|].
  assert (e' = e) as -> by congruence. destruct (C45_fixed_point op 10) as (rs & S & _).
  rewrite (K Kye), (K Kyu), (K Kyd) by discriminate. apply clean_reduced in R as (l & Cl). apply clean_spec in Cl. rewrite Cl in *. rewrite !const_k.
  assert (Par : forall s k, Z.even (total (chirality_of s k) (map Cst l) - total (chirality_of s k) op) = true -> Nat.even (count_k k l) = Nat.even (singlets s op)).
  { intros s k H. rewrite !chirality_count, (components_no k op C), singlets_consts, const_k, Nat.add_0_r in H. now apply even_parity. }
  split; [|split].
  - apply Par. apply (chirality_rules _ (fun _ => false)) with (2 := S); [vm_compute; reflexivity|reflexivity].
  - assert (H : Z.even (total (fun a => chirality_of Sub Kyu a + chirality_of Sdb Kyd a)%Z (map Cst l) - total (fun a => chirality_of Sub Kyu a + chirality_of Sdb Kyd a)%Z op) = true).
    { apply (chirality_rules _ (fun _ => false)) with (2 := S); [vm_compute; reflexivity|reflexivity]. }
    assert (Sum : forall o, total (fun a => chirality_of Sub Kyu a + chirality_of Sdb Kyd a)%Z o = (total (chirality_of Sub Kyu) o + total (chirality_of Sdb Kyd) o)%Z).
    { intros o. unfold total. induction o as [|a o IH]; [reflexivity|]. cbn [map fold_right]. rewrite IH. lia. }
    rewrite !Sum, !chirality_count, !(components_no _ op C), !singlets_consts, !const_k in H. apply even_parity. replace (Z.of_nat (count_k Kyu l + count_k Kyd l) - Z.of_nat (singlets Sub op + singlets Sdb op))%Z with (Z.of_nat (0 + count_k Kyu l) + Z.of_nat (0 + count_k Kyd l) - (Z.of_nat (singlets Sub op + 0) + Z.of_nat (singlets Sdb op + 0)))%Z by lia. exact H.
  - intros Z0.
    assert (NoEb : forall s rs s', steps s rs s' -> ~ In (Cj Seb) s -> forall r, In r rs -> mema (Cj Seb) (fst r) = false).
    { clear. intros s rs s'. induction 1 as [s s' P|s r s1 rs s' St _ IH]; intros N r' I; [destruct I|]. destruct I as [<-|I]; [|apply IH; [eapply no_eb_later; eauto|exact I]].
      destruct (mema (Cj Seb) (fst r)) eqn:M; [|reflexivity]. exfalso. apply mema_iff in M. apply N. destruct St as (ea & la & rst & _ & (_ & P) & _).
      eapply Permutation_in; [apply Permutation_sym, P|]. apply in_app_iff. now left. }
    assert (N : ~ In (Cj Seb) op).
    { intros I. apply in_split in I as (p & q & Ei). rewrite Ei in Z0. unfold singlets in Z0. rewrite filter_app in Z0. cbn [filter fsym_eqb] in Z0. rewrite app_length in Z0. cbn [List.length] in Z0. lia. }
    split; apply Par; (apply (chirality_rules _ (fun r => mema (Cj Seb) (fst r))) with (2 := S); [vm_compute; reflexivity|exact (NoEb _ _ _ S N)]).
Qed.

(** The rule for c(eb) c(d) u puts in Yukawa couplings of quarks although no right-handed quark is there. *)
Theorem C77_quark_yukawas_refuted : exists op e, admissible op /\ components op /\ estimate_one op = Ok (Some e) /\ singlets Sub op = 0 /\ count_k Kyu e = 1.
Proof.
  exists [Cj Seb; Cj Sd; Fd Su; Fd Snu; Fd Sh0; Fd Sh0; Fd Sh0]. eexists. split; [repeat split; vm_compute; reflexivity|].
  split; [intros a I; repeat (destruct I as [<-|I]; [repeat split; discriminate|]); destruct I|]. split; [vm_compute; reflexivity|]. split; reflexivity.
Qed.

Example C77_ex1 : let op := [Fd Snu; Fd Se; Fd Snu; Fd Seb; Fd Sh0] in admissible op /\ components op /\ fields_in op = 5 /\ estimate_one op = Ok (Some [Kye; Kloop]).
Proof. cbv zeta. split; [repeat split; vm_compute; reflexivity|]. split; [intros a I; repeat (destruct I as [<-|I]; [repeat split; discriminate|]); destruct I|]. split; vm_compute; reflexivity. Qed.

Print Assumptions C77_power_counting.
Print Assumptions C77_chirality.
Print Assumptions C77_quark_yukawas_refuted.
