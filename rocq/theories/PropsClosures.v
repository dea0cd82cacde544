(** * PropsClosures: the loop-closing rules (C42-C45) *)

From Coq Require Import Ascii String List Bool Arith ZArith Lia Permutation.
From Verif Require Import Base BaseFacts ModelClosures SpecClosures.
Import ListNotations.
Local Open Scope nat_scope.

(** ** Operands *)

Lemma fsym_eqb_iff a b : fsym_eqb a b = true <-> a = b.
Proof. destruct a, b; cbn; split; intros H; try reflexivity; discriminate. Qed.

Lemma ksym_eqb_iff a b : ksym_eqb a b = true <-> a = b.
Proof. destruct a, b; cbn; split; intros H; try reflexivity; discriminate. Qed.

Lemma atom_eqb_iff a b : atom_eqb a b = true <-> a = b.
Proof.
  destruct a, b; cbn; try (split; discriminate).
  - rewrite fsym_eqb_iff. split; congruence.
  - rewrite fsym_eqb_iff. split; congruence.
  - rewrite ksym_eqb_iff. split; congruence.
Qed.

Lemma remove_atom_perm x s t : remove_atom x s = Some t -> Permutation s (x :: t).
Proof.
  revert t. induction s as [|y r IH]; intros t; cbn [remove_atom]; [discriminate|].
  destruct (atom_eqb x y) eqn:E; [apply atom_eqb_iff in E; intros [= <-]; now subst|].
  destruct (remove_atom x r) as [r'|]; [|discriminate]. intros [= <-]. rewrite (IH r' eq_refl). constructor.
Qed.

Lemma remove_atom_in x s : In x s -> exists t, remove_atom x s = Some t.
Proof.
  induction s as [|y r IH]; [intros []|]. cbn [remove_atom]. destruct (atom_eqb x y) eqn:E; [eauto|].
  intros [->|I]; [rewrite (proj2 (atom_eqb_iff x x) eq_refl) in E; discriminate|]. destruct (IH I) as (t & ->). eauto.
Qed.

Lemma remove_atoms_perm l s t : remove_atoms l s = Some t -> Permutation s (l ++ t).
Proof.
  revert s. induction l as [|x l IH]; intros s; cbn [remove_atoms]; [intros [= <-]; reflexivity|].
  destruct (remove_atom x s) as [s'|] eqn:E; [|discriminate]. intros H. rewrite (remove_atom_perm _ _ _ E). cbn [app]. constructor. auto.
Qed.

Lemma remove_atoms_some l s t : Permutation s (l ++ t) -> exists t', remove_atoms l s = Some t' /\ Permutation t' t.
Proof.
  revert s. induction l as [|x l IH]; intros s P; cbn [remove_atoms]; [exists s; auto|].
  destruct (remove_atom_in x s) as (s' & E); [eapply Permutation_in; [apply Permutation_sym, P|now left]|]. rewrite E.
  apply IH. apply (Permutation_cons_inv (a := x)). rewrite <- (remove_atom_perm _ _ _ E). exact P.
Qed.

Lemma match_some r s s' : match_rule r s = Some s' -> exists rst, fires r s rst /\ s' = snd r ++ rst.
Proof.
  unfold match_rule. destruct (remove_atoms (fst r) s) as [[|x rst]|] eqn:E; try discriminate. intros [= <-].
  exists (x :: rst). split; [|reflexivity]. split; [discriminate|now apply remove_atoms_perm].
Qed.

Lemma match_none r s : match_rule r s = None <-> forall rst, ~ fires r s rst.
Proof.
  split.
  - intros H rst (N & P). destruct (remove_atoms_some _ _ _ P) as (t & E & Pt). unfold match_rule in H. rewrite E in H.
    destruct t; [|discriminate]. apply Permutation_nil in Pt. contradiction.
  - intros H. destruct (match_rule r s) as [s'|] eqn:E; [|reflexivity]. destruct (match_some _ _ _ E) as (rst & F & _). destruct (H rst F).
Qed.

Lemma apply_cases rules s : (exists earlier r later rst, rules = earlier ++ r :: later /\ fires r s rst /\ apply_rules rules s = snd r ++ rst /\
    forall r' rst', In r' earlier -> ~ fires r' s rst') \/
  (apply_rules rules s = s /\ forall r rst, In r rules -> ~ fires r s rst).
Proof.
  induction rules as [|r rules IH]; cbn [apply_rules]; [right; split; [reflexivity|intros ? ? []]|].
  destruct (match_rule r s) as [s'|] eqn:E.
  - left. destruct (match_some _ _ _ E) as (rst & F & ->). exists [], r, rules, rst. do 3 (split; [auto|]). intros ? ? [].
  - pose proof (proj1 (match_none r s) E) as N. destruct IH as [(earlier & r' & later & rst & -> & F & Ea & Ne)|[Ea Ne]].
    + left. exists (r :: earlier), r', later, rst. do 3 (split; [auto|]). intros r'' rst'' [<-|I]; [apply N|now apply Ne].
    + right. split; [exact Ea|]. intros r'' rst'' [<-|I]; [apply N|now apply Ne].
Qed.

Lemma apply_step s : (exists r, step s r (apply_rules RULES s)) \/ (apply_rules RULES s = s /\ normal s).
Proof.
  destruct (apply_cases RULES s) as [(earlier & r & later & rst & E & F & Ea & N)|H]; [left|right; exact H].
  exists r, earlier, later, rst. rewrite Ea. auto.
Qed.

Lemma fires_perm r s t rst : Permutation s t -> fires r s rst -> fires r t rst.
Proof. intros P [N Q]. split; [exact N|]. now rewrite <- P. Qed.

Lemma normal_perm s t : Permutation s t -> normal s -> normal t.
Proof. intros P N r rst I F. apply (N r rst I). eapply fires_perm; [apply Permutation_sym, P|exact F]. Qed.

Lemma step_perm s t r s' t' : Permutation s t -> Permutation s' t' -> step s r s' -> step t r t'.
Proof.
  intros P P' (ea & la & rst & E & F & Q & N). exists ea, la, rst. split; [exact E|]. split; [eapply fires_perm; eauto|].
  split; [now rewrite <- P'|]. intros r' rst' I F'. apply (N r' rst' I). eapply fires_perm; [apply Permutation_sym, P|exact F'].
Qed.

(** ** Checks on the rules *)

Lemma step_rule s r s' : step s r s' -> In r RULES.
Proof. intros (ea & la & rst & E & _). rewrite E. apply in_app_iff. right. now left. Qed.

Lemma total_app f a b : total f (a ++ b) = (total f a + total f b)%Z.
Proof. unfold total. induction a as [|x a IH]; cbn [app map fold_right]; [reflexivity|]. rewrite IH. lia. Qed.

Lemma total_perm f a b : Permutation a b -> total f a = total f b.
Proof. unfold total. induction 1; cbn [map fold_right]; lia. Qed.

Lemma step_total f s r s' : step s r s' -> (total f s' = total f s + (total f (snd r) - total f (fst r)))%Z.
Proof. intros (ea & la & rst & _ & (_ & P) & Q & _). rewrite (total_perm f _ _ P), (total_perm f _ _ Q), !total_app. lia. Qed.

Lemma weight_app a b : weight (a ++ b) = weight a + weight b.
Proof. unfold weight. now rewrite map_app, list_sum_app. Qed.

Lemma weight_perm a b : Permutation a b -> weight a = weight b.
Proof. unfold weight. induction 1; cbn [map list_sum fold_right]; [reflexivity| | |congruence]; unfold list_sum in *; cbn [fold_right]; lia. Qed.

Lemma step_weight s r s' : step s r s' -> weight s' < weight s.
Proof.
  intros St. pose proof (step_rule _ _ _ St) as I. destruct St as (ea & la & rst & _ & (_ & P) & Q & _).
  rewrite (weight_perm _ _ P), (weight_perm _ _ Q), !weight_app.
  assert (C : forallb (fun r : rule => weight (snd r) <? weight (fst r)) RULES = true) by (vm_compute; reflexivity).
  rewrite forallb_forall in C. specialize (C r I). apply Nat.ltb_lt in C. lia.
Qed.

Lemma weight_length s : weight s <= 3 * List.length s.
Proof.
  unfold weight. induction s as [|a s IH]; [reflexivity|]. cbn [map List.length]. unfold list_sum in *. cbn [fold_right].
  assert (match a with Cst _ => 0 | Fd Se | Cj Seb => 3 | _ => 1 end <= 3) by (destruct a as [[]|[]|]; lia). lia.
Qed.

(** ** fixed_point *)

Lemma mop_eqb_perm a b : mop_eqb a b = true <-> Permutation a b.
Proof.
  unfold mop_eqb. split.
  - destruct (remove_atoms a b) as [[|]|] eqn:E; try discriminate. intros _. apply remove_atoms_perm in E. rewrite app_nil_r in E. now apply Permutation_sym.
  - intros P. destruct (remove_atoms_some a b []) as (t & -> & Pt); [rewrite app_nil_r; now apply Permutation_sym|]. apply Permutation_sym, Permutation_nil in Pt. now subst.
Qed.

Lemma step_differs s r s' : step s r s' -> ~ Permutation s' s.
Proof. intros St P. pose proof (step_weight _ _ _ St). rewrite (weight_perm _ _ P) in H. lia. Qed.

Lemma loop_turns n old s : match old with Some o => ~ Permutation s o | None => True end ->
  fixed_point_loop RULES n old s = match n with O => s | S n => fixed_point_loop RULES n (Some s) (apply_rules RULES s) end.
Proof.
  intros H. destruct n; cbn [fixed_point_loop]; destruct old as [o|]; try reflexivity;
    (destruct (mop_eqb s o) eqn:E; [apply mop_eqb_perm in E; contradiction|reflexivity]).
Qed.

Lemma loop_spec n : forall old s, match old with Some o => ~ Permutation s o | None => True end ->
  exists rs, steps s rs (fixed_point_loop RULES n old s) /\ List.length rs <= n /\ (normal (fixed_point_loop RULES n old s) \/ List.length rs = n).
Proof.
  induction n as [|n IH]; intros old s H; rewrite (loop_turns _ _ _ H).
  - exists []. split; [now constructor|]. split; [reflexivity|now right].
  - destruct (apply_step s) as [(r & St)|[E N]].
    + destruct (IH (Some s) (apply_rules RULES s) (step_differs _ _ _ St)) as (rs & Sts & L & D). exists (r :: rs). cbn [List.length].
      split; [econstructor; eauto|]. split; [lia|]. destruct D as [D|D]; [now left|right; lia].
    + rewrite E. exists []. assert (F : fixed_point_loop RULES n (Some s) s = s).
      { destruct n; cbn [fixed_point_loop]; rewrite (proj2 (mop_eqb_perm s s) (Permutation_refl _)); reflexivity. }
      rewrite F. split; [now constructor|]. split; [cbn; lia|now left].
Qed.

(** C45 (1): [fixed_point] makes at most [max_iterations] steps, each with the first rule that fires, and stops before only
    where no rule fires *)
Theorem C45_fixed_point : forall op max_iterations, exists rules,
  steps op rules (fixed_point op max_iterations) /\ List.length rules <= max_iterations /\
  (normal (fixed_point op max_iterations) \/ List.length rules = max_iterations).
Proof. intros op n. exact (loop_spec n None op I). Qed.

Lemma steps_weight s rs s' : steps s rs s' -> weight s' + List.length rs <= weight s.
Proof.
  induction 1 as [s s' P|s r s1 rs s' St _ IH]; cbn [List.length]; [rewrite (weight_perm _ _ P); lia|].
  pose proof (step_weight _ _ _ St). lia.
Qed.

(** C45 (2): rewriting ends, after at most three times as many steps as there are operands; with that many turns the result
    is a normal form *)
Theorem C45_terminates : forall op,
  (forall rules op', steps op rules op' -> List.length rules <= 3 * List.length op) /\
  (forall n, 3 * List.length op <= n -> normal (fixed_point op n)).
Proof.
  intros op. pose proof (weight_length op) as W. split.
  - intros rs op' S. pose proof (steps_weight _ _ _ S). lia.
  - intros n L. destruct (C45_fixed_point op n) as (rs & S & _ & [N|E]); [exact N|].
    pose proof (steps_weight _ _ _ S) as H. intros r rst I F. set (fp := fixed_point op n) in *.
    assert (W0 : weight fp = 0) by lia. destruct F as [_ P]. rewrite (weight_perm _ _ P), weight_app in W0.
    assert (C : forallb (fun r : rule => 0 <? weight (fst r)) RULES = true) by (vm_compute; reflexivity).
    rewrite forallb_forall in C. specialize (C r I). apply Nat.ltb_lt in C. lia.
Qed.

(** a step is determined by the product: at most one rule, one result *)
Lemma app_order {A} (a b c d : list A) x y : a ++ x :: b = c ++ y :: d -> (a = c /\ x = y) \/ In x c \/ In y a.
Proof.
  revert c. induction a as [|z a IH]; intros [|w c]; cbn; intros E; injection E as E1 E2; subst.
  - left. auto. - right. left. now left. - right. right. now left.
  - destruct (IH c E2) as [[-> ->]|[H|H]]; auto.
Qed.

Lemma step_det s r s' r2 s2 : step s r s' -> step s r2 s2 -> r = r2 /\ Permutation s' s2.
Proof.
  intros (ea & la & rst & E & F & Q & N) (ea2 & la2 & rst2 & E2 & F2 & Q2 & N2). rewrite E in E2.
  destruct (app_order _ _ _ _ _ _ E2) as [[-> ->]|[I|I]]; [|destruct (N2 _ _ I F)|destruct (N _ _ I F2)].
  split; [reflexivity|]. rewrite Q, Q2. apply Permutation_app_head. destruct F as [_ P], F2 as [_ P2]. apply (Permutation_app_inv_l (fst r2)). now rewrite <- P, <- P2.
Qed.

(** C45 (3): the order in which the operands are kept makes no difference *)
Lemma loop_order n : forall old old' s t, Permutation s t -> match old with Some o => ~ Permutation s o | None => True end -> match old' with Some o => ~ Permutation t o | None => True end ->
  Permutation (fixed_point_loop RULES n old s) (fixed_point_loop RULES n old' t).
Proof.
  induction n as [|n IH]; intros old old' s t P H H'; rewrite (loop_turns _ _ _ H), (loop_turns _ _ _ H'); [exact P|].
  destruct (apply_step s) as [(r & St)|[E N]].
  - destruct (apply_step t) as [(r' & St')|[E' N']].
    + apply IH; [|eapply step_differs; eauto|eapply step_differs; eauto]. eapply step_det; [eapply step_perm; [exact P|reflexivity|exact St]|exact St'].
    + exfalso. destruct St as (ea & la & rst & E & F & _). eapply (N' r rst); [rewrite E; apply in_app_iff; right; now left|]. eapply fires_perm; eauto.
  - destruct (apply_step t) as [(r' & St')|[E' N']].
    + exfalso. destruct St' as (ea & la & rst & E' & F & _). eapply (N r' rst); [rewrite E'; apply in_app_iff; right; now left|]. eapply fires_perm; [apply Permutation_sym, P|exact F].
    + rewrite E, E'. assert (X : forall u, fixed_point_loop RULES n (Some u) u = u).
      { intros u. destruct n; cbn [fixed_point_loop]; rewrite (proj2 (mop_eqb_perm u u) (Permutation_refl _)); reflexivity. }
      now rewrite !X.
Qed.

Theorem C45_order : forall op op' n, Permutation op op' -> Permutation (fixed_point op n) (fixed_point op' n).
Proof. intros op op' n P. now apply loop_order. Qed.

(** Ten turns are not enough for every operator: nu nu and nine more Higgs fields. *)
Definition many_higgs : mop := [Fd Snu; Fd Snu] ++ repeat (Fd Sh0) 10 ++ repeat (Cj Sh0) 8.

Theorem C45_ten_turns_refuted : exists op, admissible op /\ ~ normal (fixed_point op 10) /\ estimate_one op = Ok None /\
  reduced (fixed_point op 11).
Proof.
  exists many_higgs. split; [vm_compute; auto|]. split; [|split; [vm_compute; reflexivity|]].
  - intros N. assert (E : exists rst, remove_atoms [Fd Sh0] (fixed_point many_higgs 10) = Some rst /\ rst <> []) by (vm_compute; eexists; split; [reflexivity|discriminate]).
    destruct E as (rst & E & Ne). apply (N ([Fd Sh0], [Cst Kv]) rst); [vm_compute; do 32 right; now left|]. split; [exact Ne|]. now apply remove_atoms_perm.
  - remember (fixed_point many_higgs 11) as l eqn:E. vm_compute in E. subst l. intros a I. repeat (destruct I as [<-|I]; [reflexivity|]). destruct I.
Qed.

(** ** Conserved numbers *)

Lemma conserved f : forallb (fun r : rule => Z.eqb (total f (fst r)) (total f (snd r))) RULES = true -> forall s rs s', steps s rs s' -> total f s' = total f s.
Proof.
  intros C s rs s' S. rewrite forallb_forall in C. induction S as [s s' P|s r s1 rs s' St _ IH]; [symmetry; now apply total_perm|].
  rewrite IH, (step_total _ _ _ _ St). specialize (C r (step_rule _ _ _ St)). apply Z.eqb_eq in C. lia.
Qed.

(** C42 (1): lepton and baryon number are conserved *)
Theorem C42_conserved : forall op n, lepton (fixed_point op n) = lepton op /\ thrice_baryon (fixed_point op n) = thrice_baryon op.
Proof.
  intros op n. destruct (C45_fixed_point op n) as (rs & S & _). split; eapply conserved; try exact S; vm_compute; reflexivity.
Qed.

Lemma clean_spec op l : clean op = Some l <-> op = map Cst l.
Proof.
  revert l. induction op as [|a op IH]; intros l; cbn [clean].
  - split; [now intros [= <-]|destruct l; [reflexivity|discriminate]].
  - destruct a as [s|s|k]; [split; [discriminate|destruct l; discriminate]|split; [discriminate|destruct l; discriminate]|].
    destruct (clean op) as [l'|] eqn:E.
    + pose proof (proj1 (IH l') eq_refl) as ->. split; [intros [= <-]; reflexivity|]. destruct l as [|k' l]; [discriminate|]. cbn [map]. intros [= <- H].
      assert (E2 : Some l' = Some l) by (now apply IH). congruence.
    + split; [discriminate|]. destruct l as [|k' l]; [discriminate|]. cbn [map]. intros [= <- H]. apply IH in H. discriminate H.
Qed.

Lemma clean_reduced op : (exists l, clean op = Some l) <-> reduced op.
Proof.
  split.
  - intros (l & E) a I. apply clean_spec in E. rewrite E in I. apply in_map_iff in I as (k & <- & _). reflexivity.
  - intros R. induction op as [|a op IH]; [exists []; reflexivity|]. cbn [clean]. pose proof (R a (or_introl eq_refl)) as A. destruct a; try discriminate A.
    destruct IH as (l & ->); [intros b I; apply R; now right|]. eauto.
Qed.

Lemma lepton_consts l : lepton (map Cst l) = Z.of_nat (2 * count_k Knunu l).
Proof.
  unfold lepton, total, count_k. induction l as [|k l IH]; [reflexivity|]. cbn [map fold_right filter of_atom]. rewrite IH. destruct k; cbn [ksym_eqb List.length]; lia.
Qed.

Lemma const_k k l : constant k (map Cst l) = count_k k l.
Proof. unfold constant, count_k. induction l as [|x l IH]; [reflexivity|]. cbn [map filter]. destruct (ksym_eqb k x); cbn [List.length]; congruence. Qed.

(** C42 (2): a structure reduced to constants has one neutrino pair for two units of lepton number *)
Theorem C42_neutrino_pairs : forall op n, reduced (fixed_point op n) -> lepton op = Z.of_nat (2 * constant Knunu (fixed_point op n)).
Proof.
  intros op n R. apply clean_reduced in R as (l & E). apply clean_spec in E. destruct (C42_conserved op n) as [<- _]. rewrite E. rewrite lepton_consts, const_k. reflexivity.
Qed.

(** ** Charge *)

Lemma charge_rule r : In r RULES -> r <> wrong_hp -> r <> wrong_eb -> thrice_charge (snd r) = thrice_charge (fst r).
Proof.
  assert (C : Forall (fun r => r = wrong_hp \/ r = wrong_eb \/ thrice_charge (snd r) = thrice_charge (fst r)) RULES).
  { unfold RULES. repeat (constructor; [first [right; right; reflexivity|left; reflexivity|right; left; reflexivity]|]). constructor. }
  rewrite Forall_forall in C. intros I N1 N2. destruct (C r I) as [H|[H|H]]; [contradiction|contradiction|exact H].
Qed.

Lemma rule_dec (r r' : rule) : {r = r'} + {r <> r'}.
Proof. repeat decide equality. Qed.

Definition uses (r : rule) (rs : list rule) : nat := count_occ rule_dec rs r.

(** C43 (1): charge is conserved but for two rules, one of which takes away and one of which adds two units *)
Theorem C43_charge : forall op rules op', steps op rules op' ->
  (thrice_charge op' = thrice_charge op + 6 * (Z.of_nat (uses wrong_eb rules) - Z.of_nat (uses wrong_hp rules)))%Z.
Proof.
  intros op rs op'. unfold uses. induction 1 as [s s' P|s r s1 rs s' St _ IH].
  - cbn [count_occ]. unfold thrice_charge. rewrite (total_perm _ _ _ P). lia.
  - rewrite IH. pose proof (step_total (of_atom thrice_charge_of (fun _ => 0%Z)) _ _ _ St) as T. fold thrice_charge in T. unfold thrice_charge in *. rewrite T. clear T IH. fold thrice_charge.
    cbn [count_occ]. destruct (rule_dec r wrong_hp) as [->|N1]; [|destruct (rule_dec r wrong_eb) as [->|N2]].
    + destruct (rule_dec wrong_hp wrong_eb) as [X|_]; [discriminate X|].
      change (thrice_charge (snd wrong_hp)) with 0%Z. change (thrice_charge (fst wrong_hp)) with 6%Z. lia.
    + change (thrice_charge (snd wrong_eb)) with 3%Z. change (thrice_charge (fst wrong_eb)) with (-3)%Z. lia.
    + pose proof (charge_rule r (step_rule _ _ _ St) N1 N2) as C. lia.
Qed.

(** *** Both are never used in one reduction *)

Fixpoint splits {A} (l : list A) : list (list A * A) :=
  match l with [] => [] | x :: l => ([], x) :: map (fun p => (x :: fst p, snd p)) (splits l) end.

Lemma splits_in {A} (a b : list A) x : In (a, x) (splits (a ++ x :: b)).
Proof. induction a as [|y a IH]; cbn [app splits]; [now left|]. right. apply in_map_iff. exists (a, x). auto. Qed.

Definition rule_eqb (r r' : rule) : bool := list_eqb atom_eqb (fst r) (fst r') && list_eqb atom_eqb (snd r) (snd r').

Lemma list_eqb_iff a b : list_eqb atom_eqb a b = true <-> a = b.
Proof.
  revert b. induction a as [|x a IH]; intros [|y b]; cbn [list_eqb]; split; intros H; try reflexivity; try discriminate.
  - apply andb_true_iff in H as [H1 H2]. apply atom_eqb_iff in H1. apply IH in H2. congruence.
  - injection H as <- <-. rewrite (proj2 (atom_eqb_iff x x) eq_refl). now apply IH.
Qed.

Lemma rule_eqb_iff r r' : rule_eqb r r' = true <-> r = r'.
Proof. destruct r as [a b], r' as [a' b']. unfold rule_eqb. cbn [fst snd]. rewrite andb_true_iff, !list_eqb_iff. split; [intros [-> ->]; reflexivity|intros [= -> ->]; auto]. Qed.

Definition mass_u : rule := ([Fd Su; Fd Sub], [Cst Kv; Cst Kyu; Cst Kloop]).
Definition make_d : rule := ([Fd Shp; Fd Sub], [Cst Kyu; Cj Sd; Cst Kloop]).
Definition join_eb : rule := ([Cj Seb; Cj Sd; Fd Su], [Cst Kv; Cst Kg2; Cst Kloop; Cst Kloop; Cst Kloopv2; Cst Kyu; Cst Kyd; Cst Kye; Fd Snu]).

Definition memr (r : rule) (l : list rule) : bool := existsb (rule_eqb r) l.
Definition mema (a : atom) (l : list atom) : bool := existsb (atom_eqb a) l.

Lemma memr_iff r l : memr r l = true <-> In r l.
Proof. unfold memr. rewrite existsb_exists. split; [intros (x & I & E); apply rule_eqb_iff in E; now subst|intros I; exists r; split; [exact I|now apply rule_eqb_iff]]. Qed.

Lemma mema_iff a l : mema a l = true <-> In a l.
Proof. unfold mema. rewrite existsb_exists. split; [intros (x & I & E); apply atom_eqb_iff in E; now subst|intros I; exists a; split; [exact I|now apply atom_eqb_iff]]. Qed.

Lemma order_facts : forallb (fun p : list rule * rule => let (ea, r) := p in
  negb (mema (Fd Su) (snd r)) && negb (mema (Cj Seb) (snd r)) && (negb (mema (Cj Sd) (snd r)) || rule_eqb r make_d) &&
  (negb (rule_eqb r make_d) || memr mass_u ea) && (negb (rule_eqb r wrong_eb) || memr join_eb ea) && (negb (rule_eqb r wrong_hp) || memr join_eb ea)) (splits RULES) = true.
Proof. vm_compute. reflexivity. Qed.

Lemma order_of ea r la : RULES = ea ++ r :: la ->
  ~ In (Fd Su) (snd r) /\ ~ In (Cj Seb) (snd r) /\ (In (Cj Sd) (snd r) -> r = make_d) /\ (r = make_d -> In mass_u ea) /\ (r = wrong_eb -> In join_eb ea) /\ (r = wrong_hp -> In join_eb ea).
Proof.
  intros E. pose proof order_facts as O. rewrite forallb_forall in O. specialize (O (ea, r)). cbv beta iota in O. rewrite E in O. specialize (O (splits_in ea la r)).
  rewrite !andb_true_iff, !orb_true_iff, !negb_true_iff in O. destruct O as (((((O1 & O2) & O3) & O4) & O5) & O6).
  assert (NF : forall a l, mema a l = false -> ~ In a l) by (intros a l H I; apply mema_iff in I; congruence).
  assert (Fr : forall r', r = r' -> rule_eqb r r' = false -> False) by (intros r' -> H; rewrite (proj2 (rule_eqb_iff r' r') eq_refl) in H; discriminate).
  split; [auto|]. split; [auto|]. split; [intros I; destruct O3 as [H|H]; [destruct (NF _ _ H I)|now apply rule_eqb_iff]|].
  split; [|split]; intros Er; [destruct O4 as [H|H]|destruct O5 as [H|H]|destruct O6 as [H|H]]; try (destruct (Fr _ Er H)); now apply memr_iff.
Qed.

Lemma rest_in a r s rst : fires r s rst -> In a s -> In a (fst r) \/ In a rst.
Proof. intros [_ P] I. apply in_app_iff. eapply Permutation_in; eauto. Qed.

Lemma rest_split (a : atom) (l : mop) : In a l -> exists l', Permutation l (a :: l').
Proof. intros I. apply in_split in I as (p & q & ->). exists (p ++ q). apply Permutation_sym, Permutation_middle. Qed.

(** u and c(d) are both there only if they were *)
Lemma back_ud s r s' : step s r s' -> In (Fd Su) s' -> In (Cj Sd) s' -> In (Fd Su) s /\ In (Cj Sd) s.
Proof.
  intros (ea & la & rst & E & F & Q & N) Iu Id. destruct (order_of _ _ _ E) as (O1 & _ & O3 & O4 & _).
  assert (Ru : In (Fd Su) rst) by (assert (X : In (Fd Su) (snd r ++ rst)) by (eapply Permutation_in; eauto); apply in_app_iff in X as [X|X]; [contradiction|exact X]).
  assert (Us : In (Fd Su) s) by (destruct F as [_ P]; eapply Permutation_in; [apply Permutation_sym, P|]; apply in_app_iff; now right).
  split; [exact Us|]. assert (X : In (Cj Sd) (snd r ++ rst)) by (eapply Permutation_in; eauto). apply in_app_iff in X as [X|X].
  - exfalso. specialize (O3 X). specialize (O4 O3). subst r. destruct (rest_split _ _ Ru) as (rst' & Pr). apply (N mass_u (Fd Shp :: rst') O4).
    split; [discriminate|]. destruct F as [_ P]. rewrite P, Pr. cbn [make_d mass_u fst app].
    apply perm_trans with (Fd Shp :: Fd Su :: Fd Sub :: rst'); [constructor; constructor|]. apply perm_trans with (Fd Su :: Fd Shp :: Fd Sub :: rst'); constructor. constructor.
  - destruct F as [_ P]. eapply Permutation_in; [apply Permutation_sym, P|]. apply in_app_iff. now right.
Qed.

Lemma no_eb_later s r s' : step s r s' -> ~ In (Cj Seb) s -> ~ In (Cj Seb) s'.
Proof.
  intros (ea & la & rst & E & (_ & P) & Q & _) N I. destruct (order_of _ _ _ E) as (_ & O2 & _).
  assert (X : In (Cj Seb) (snd r ++ rst)) by (eapply Permutation_in; eauto). apply in_app_iff in X as [X|X]; [contradiction|].
  apply N. eapply Permutation_in; [apply Permutation_sym, P|]. apply in_app_iff. now right.
Qed.

Lemma hp_no_eb s s' : step s wrong_hp s' -> ~ In (Cj Seb) s.
Proof.
  intros (ea & la & rst & E & F & _ & N) I. destruct (order_of _ _ _ E) as (_ & _ & _ & _ & _ & O). specialize (O eq_refl).
  destruct (rest_in _ _ _ _ F I) as [X|X]; [cbn in X; intuition discriminate|]. destruct (rest_split _ _ X) as (rst' & Pr). apply (N join_eb (Fd Shp :: rst') O).
  split; [discriminate|]. destruct F as [_ P]. rewrite P, Pr. cbn [wrong_hp join_eb fst app].
  apply perm_trans with (Cj Seb :: Fd Shp :: Fd Su :: Cj Sd :: rst').
  - apply Permutation_sym. exact (Permutation_middle [Fd Shp; Fd Su; Cj Sd] rst' (Cj Seb)).
  - constructor. apply perm_trans with (Fd Su :: Fd Shp :: Cj Sd :: rst'); [constructor|]. apply perm_trans with (Fd Su :: Cj Sd :: Fd Shp :: rst'); [do 2 constructor|constructor].
Qed.

Lemma eb_no_ud s s' : step s wrong_eb s' -> ~ (In (Fd Su) s /\ In (Cj Sd) s).
Proof.
  intros (ea & la & rst & E & F & _ & N) [Iu Id]. destruct (order_of _ _ _ E) as (_ & _ & _ & _ & O & _). specialize (O eq_refl).
  destruct (rest_in _ _ _ _ F Iu) as [X|Xu]; [cbn in X; intuition discriminate|]. destruct (rest_in _ _ _ _ F Id) as [X|Xd]; [cbn in X; intuition discriminate|].
  destruct (rest_split _ _ Xu) as (r1 & P1). assert (Xd1 : In (Cj Sd) r1) by (assert (X : In (Cj Sd) (Fd Su :: r1)) by (eapply Permutation_in; eauto); destruct X as [X|X]; [discriminate X|exact X]).
  destruct (rest_split _ _ Xd1) as (r2 & P2). apply (N join_eb (Fd Snu :: r2) O). split; [discriminate|]. destruct F as [_ P]. rewrite P, P1, P2. cbn [wrong_eb join_eb fst app].
  constructor. apply perm_trans with (Fd Su :: Cj Sd :: Fd Snu :: r2).
  - apply perm_trans with (Fd Su :: Fd Snu :: Cj Sd :: r2); [constructor|do 2 constructor].
  - constructor.
Qed.

Lemma no_eb_uses s rs s' : steps s rs s' -> ~ In (Cj Seb) s -> uses wrong_eb rs = 0.
Proof.
  unfold uses. induction 1 as [s s' P|s r s1 rs s' St _ IH]; intros N; [reflexivity|]. cbn [count_occ]. destruct (rule_dec r wrong_eb) as [->|_]; [|apply IH; eapply no_eb_later; eauto].
  exfalso. apply N. destruct St as (ea & la & rst & _ & (_ & P) & _). eapply Permutation_in; [apply Permutation_sym, P|now left].
Qed.

Lemma hp_uses_ud s rs s' : steps s rs s' -> uses wrong_hp rs <> 0 -> In (Fd Su) s /\ In (Cj Sd) s.
Proof.
  unfold uses. induction 1 as [s s' P|s r s1 rs s' St _ IH]; intros N; [now destruct N|]. cbn [count_occ] in N. destruct (rule_dec r wrong_hp) as [->|_].
  - destruct St as (ea & la & rst & _ & (_ & P) & _). split; eapply Permutation_in; try (apply Permutation_sym, P); cbn; auto.
  - destruct (IH N). eapply back_ud; eauto.
Qed.

Lemma not_both s rs s' : steps s rs s' -> uses wrong_hp rs <> 0 -> uses wrong_eb rs = 0.
Proof.
  induction 1 as [s s' P|s r s1 rs s' St S IH]; intros N; [reflexivity|].
  pose proof (hp_uses_ud s (r :: rs) s' (steps_cons _ _ _ _ _ St S) N) as Ud. unfold uses in *. cbn [count_occ] in *.
  destruct (rule_dec r wrong_eb) as [->|N2]; [destruct (eb_no_ud _ _ St Ud)|]. destruct (rule_dec r wrong_hp) as [->|_]; [|now apply IH].
  pose proof (hp_no_eb _ _ St). eapply no_eb_uses; [exact S|]. eapply no_eb_later; eauto.
Qed.

Lemma charge_consts op : reduced op -> thrice_charge op = 0%Z.
Proof.
  intros R. unfold thrice_charge, total. induction op as [|a op IH]; [reflexivity|]. cbn [map fold_right]. rewrite IH by (intros b I; apply R; now right).
  pose proof (R a (or_introl eq_refl)) as A. destruct a; try discriminate A. reflexivity.
Qed.

(** C43 (2): the two rules do no harm: the reduction of a neutral structure to constants never uses them, so charge is
    conserved in each of its steps *)
Theorem C43_neutral : forall op rules op', steps op rules op' -> thrice_charge op = 0%Z -> reduced op' ->
  uses wrong_hp rules = 0 /\ uses wrong_eb rules = 0.
Proof.
  intros op rs op' S Q R. pose proof (C43_charge _ _ _ S) as C. rewrite Q, (charge_consts _ R) in C.
  destruct (Nat.eq_dec (uses wrong_hp rs) 0) as [E|N]; [lia|]. pose proof (not_both _ _ _ S N). lia.
Qed.

(** Charge is not conserved in general. *)
Theorem C43_refuted : exists op, thrice_charge op <> thrice_charge (apply_rules RULES op) /\ step op wrong_hp (apply_rules RULES op).
Proof.
  exists [Fd Shp; Fd Su; Cj Sd; Fd Sdb]. split; [vm_compute; discriminate|]. exists (firstn 30 RULES), (skipn 31 RULES), [Fd Sdb].
  split; [reflexivity|]. split; [split; [discriminate|reflexivity]|]. split; [vm_compute; reflexivity|].
  intros r' rst' I. apply match_none. cbn in I. repeat (destruct I as [<-|I]; [vm_compute; reflexivity|]). destruct I.
Qed.

(** ** Vacuum expectation values *)

Definition nv (op : mop) : Z := total (fun a => match a with Cst Kv => 1%Z | _ => 0%Z end) op.

Lemma nv_constant op : nv op = Z.of_nat (constant Kv op).
Proof. unfold nv, total, constant. induction op as [|a op IH]; [reflexivity|]. cbn [map fold_right filter]. rewrite IH. destruct a as [s|s|[]]; cbn [ksym_eqb List.length]; lia. Qed.

Lemma isospin_rule r : In r RULES -> r <> wrong_hp -> r <> wrong_eb ->
  (exists k, twice_isospin (snd r) = twice_isospin (fst r) + nv (snd r) - nv (fst r) - 2 * k /\ 0 <= k <= nv (snd r) - nv (fst r))%Z.
Proof.
  assert (C : Forall (fun r => r = wrong_hp \/ r = wrong_eb \/ let d := (nv (snd r) - nv (fst r))%Z in let e := (twice_isospin (fst r) + d - twice_isospin (snd r))%Z in (0 <=? e)%Z && (e <=? 2 * d)%Z && Z.even e = true) RULES).
  { unfold RULES. repeat (constructor; [first [right; right; reflexivity|left; reflexivity|right; left; reflexivity]|]). constructor. }
  rewrite Forall_forall in C. intros I N1 N2. destruct (C r I) as [H|[H|H]]; [contradiction|contradiction|]. cbv zeta in H. rewrite !andb_true_iff in H. destruct H as [[H1 H2] H3].
  apply Z.leb_le in H1, H2. apply Z.even_spec in H3 as (k & H3). exists k. lia.
Qed.

Lemma isospin_steps s rs s' : steps s rs s' -> uses wrong_hp rs = 0 -> uses wrong_eb rs = 0 ->
  (exists k, twice_isospin s' = twice_isospin s + (nv s' - nv s) - 2 * k /\ 0 <= k <= nv s' - nv s)%Z.
Proof.
  unfold uses. induction 1 as [s s' P|s r s1 rs s' St _ IH]; intros U1 U2.
  - exists 0%Z. unfold twice_isospin, nv. rewrite (total_perm _ _ _ P), (total_perm _ s s' P). lia.
  - cbn [count_occ] in U1, U2. destruct (rule_dec r wrong_hp) as [|N1]; [discriminate U1|]. destruct (rule_dec r wrong_eb) as [|N2]; [discriminate U2|].
    destruct (IH U1 U2) as (k & K & K'). destruct (isospin_rule r (step_rule _ _ _ St) N1 N2) as (j & J & J').
    pose proof (step_total (of_atom twice_isospin_of (fun k => match k with Knunu => 2 | _ => 0 end)%Z) _ _ _ St) as T. pose proof (step_total (fun a => match a with Cst Kv => 1 | _ => 0 end)%Z _ _ _ St) as T2.
    exists (k + j)%Z. unfold twice_isospin, nv in *. lia.
Qed.

Lemma isospin_consts l : twice_isospin (map Cst l) = Z.of_nat (2 * count_k Knunu l).
Proof. unfold twice_isospin, total, count_k. induction l as [|k l IH]; [reflexivity|]. cbn [map fold_right filter of_atom]. rewrite IH. destruct k; cbn [ksym_eqb List.length]; lia. Qed.

(** C44 (1): the vevs of a neutral structure reduced to constants are even in number, and at least two for each neutrino
    pair *)
Theorem C44_vevs : forall op n, thrice_charge op = 0%Z -> twice_isospin op = 0%Z -> constant Kv op = 0 -> reduced (fixed_point op n) ->
  Nat.even (constant Kv (fixed_point op n)) = true /\ 2 * constant Knunu (fixed_point op n) <= constant Kv (fixed_point op n).
Proof.
  intros op n Q T V R. destruct (C45_fixed_point op n) as (rs & S & _). destruct (C43_neutral _ _ _ S Q R) as [U1 U2].
  destruct (isospin_steps _ _ _ S U1 U2) as (k & K & K'). rewrite T in K. apply clean_reduced in R as (l & E). apply clean_spec in E. rewrite E in *. rewrite isospin_consts in K.
  rewrite !nv_constant, V, const_k in *. rewrite !const_k. split; [|lia].
  apply Nat.even_spec. exists (Z.to_nat (k + Z.of_nat (count_k Knunu l))). lia.
Qed.

Lemma count_remove k l : 0 < count_k k l -> exists l', remove_first ksym_eqb k l = Ok l' /\ Permutation l (k :: l') /\ count_k k l = S (count_k k l').
Proof.
  unfold count_k. induction l as [|x l IH]; cbn [filter remove_first]; [cbn; lia|]. destruct (ksym_eqb k x) eqn:E.
  - apply ksym_eqb_iff in E as ->. intros _. exists l. cbn [List.length]. auto.
  - intros H. destruct (IH H) as (l' & -> & P & C). exists (x :: l'). cbn [bind]. split; [reflexivity|]. split; [rewrite P; constructor|]. cbn [filter]. now rewrite E.
Qed.

Lemma count_perm k a b : Permutation a b -> count_k k a = count_k k b.
Proof. unfold count_k. induction 1; cbn [filter]; repeat match goal with |- context [ksym_eqb k ?x] => destruct (ksym_eqb k x) end; cbn [List.length]; congruence. Qed.

(** what an estimate says: the constants met, but for the neutrino pair and the vevs; two vevs are in the prefactor and every
    further pair gives a factor *)
Definition estimates (consts : mop) (e : estimate) : Prop :=
  count_k Kv e = 0 /\ count_k Knunu e = 0 /\
  (forall k, k <> Kv -> k <> Knunu -> k <> Kloopv2 -> count_k k e = constant k consts) /\
  2 * count_k Kloopv2 e + 2 = 2 * constant Kloopv2 consts + constant Kv consts.

Lemma count_filter_v k l : count_k k (filter (fun x => negb (ksym_eqb Kv x)) l) = if ksym_eqb k Kv then 0 else count_k k l.
Proof.
  unfold count_k. induction l as [|x l IH]; cbn [filter]; [destruct (ksym_eqb k Kv); reflexivity|].
  destruct k, x; cbn [ksym_eqb negb filter List.length] in *; rewrite ?IH; reflexivity.
Qed.

Lemma count_app k a b : count_k k (a ++ b) = count_k k a + count_k k b.
Proof. unfold count_k. now rewrite filter_app, app_length. Qed.

Lemma count_repeat k x n : count_k k (repeat x n) = if ksym_eqb k x then n else 0.
Proof. unfold count_k. induction n as [|n IH]; cbn [repeat filter]; [destruct (ksym_eqb k x); reflexivity|]. destruct (ksym_eqb k x); cbn [List.length]; congruence. Qed.

(** C44 (2): the estimate of a structure with lepton number two and neither charge nor isospin never fails: it is skipped,
    or made of the constants *)
Theorem C44_estimate : forall op, admissible op -> constant Kv op = 0 ->
  (~ reduced (fixed_point op 10) /\ estimate_one op = Ok None) \/
  (reduced (fixed_point op 10) /\ exists e, estimate_one op = Ok (Some e) /\ estimates (fixed_point op 10) e).
Proof.
  intros op (L & Q & T) V. unfold estimate_one. destruct (clean (fixed_point op 10)) as [l|] eqn:E.
  - right. assert (R : reduced (fixed_point op 10)) by (apply clean_reduced; eauto). split; [exact R|].
    pose proof (C42_neutrino_pairs _ _ R) as P. destruct (C44_vevs op 10 Q T V R) as [Ev Two]. apply clean_spec in E. rewrite E in *. rewrite !const_k in *. rewrite L in P.
    assert (N1 : count_k Knunu l = 1) by lia. rewrite N1. cbn [Nat.eqb assert_ bind].
    destruct (count_remove Knunu l) as (l' & -> & Pl & C); [lia|]. cbn [bind].
    assert (Cv : count_k Kv l' = count_k Kv l) by (rewrite (count_perm Kv _ _ Pl); reflexivity). rewrite Cv.
    apply Nat.even_spec in Ev as (m & Ev). assert (M : count_k Kv l mod 2 = 0) by (rewrite Ev; rewrite Nat.mul_comm; now apply Nat.mod_mul). rewrite M. cbn [Nat.eqb assert_ bind].
    eexists. split; [reflexivity|]. unfold estimates. rewrite !count_app, !count_filter_v, !count_repeat. cbn [ksym_eqb]. split; [reflexivity|]. split; [lia|]. split.
    + intros k N2 N3 N4. rewrite const_k, count_app, count_filter_v, count_repeat, (count_perm k _ _ Pl). unfold count_k at 2. cbn [filter].
      destruct k; try congruence; cbn [ksym_eqb List.length]; unfold count_k; rewrite ?Nat.add_0_r; reflexivity.
    + rewrite !const_k. rewrite (count_perm Kloopv2 _ _ Pl). change (count_k Kloopv2 (Knunu :: l')) with (count_k Kloopv2 l').
      assert (D : ((Z.of_nat (count_k Kv l) - 2) / 2 = Z.of_nat m - 1)%Z).
      { rewrite Ev. replace (Z.of_nat (2 * m) - 2)%Z with ((Z.of_nat m - 1) * 2)%Z by lia. now apply Z.div_mul. }
      rewrite D, Ev. lia.
  - left. split; [|reflexivity]. intros R. apply clean_reduced in R as (l & R). congruence.
Qed.

(** C44 (3): a list of them *)
Theorem C44_estimates : forall ops, (forall op, In op ops -> admissible op /\ constant Kv op = 0) ->
  exists es, neutrino_mass_estimate ops = Ok es /\
    exists good, good = filter (fun op => forallb is_const (fixed_point op 10)) ops /\ Forall2 (fun op e => estimates (fixed_point op 10) e) good es.
Proof.
  induction ops as [|op ops IH]; intros H.
  - exists []. split; [reflexivity|]. exists []. split; [reflexivity|constructor].
  - destruct IH as (es & E & good & -> & F); [intros o I; apply H; now right|]. destruct (H op (or_introl eq_refl)) as [A V].
    unfold neutrino_mass_estimate in E |- *. cbn [mapM]. destruct (mapM estimate_one ops) as [l|] eqn:El; [|discriminate E]. cbn [bind] in E. injection E as <-.
    cbn [filter]. destruct (C44_estimate op A V) as [(N & E1)|(R & e & E1 & Es)]; rewrite E1; cbn [bind flat_map app].
    + eexists. split; [reflexivity|]. eexists. split; [reflexivity|].
      destruct (forallb is_const (fixed_point op 10)) eqn:Fb; [|exact F]. exfalso. apply N. intros a I. rewrite forallb_forall in Fb. auto.
    + eexists. split; [reflexivity|]. eexists. split; [reflexivity|].
      assert (Fb : forallb is_const (fixed_point op 10) = true) by (now apply forallb_forall). rewrite Fb. constructor; assumption.
Qed.

(** C42 (3): the assertion on neutrino pairs fails exactly for reduced structures with another lepton number *)
Theorem C42_assertion : forall op, reduced (fixed_point op 10) -> lepton op <> 2%Z -> estimate_one op = Err AssertionError.
Proof.
  intros op R L. pose proof (C42_neutrino_pairs _ _ R) as P. unfold estimate_one. apply clean_reduced in R as (l & E). rewrite E. apply clean_spec in E. rewrite E, const_k in P.
  destruct (Nat.eqb_spec (count_k Knunu l) 1) as [H|H]; [|reflexivity]. exfalso. apply L. rewrite P, H. reflexivity.
Qed.

(** Without neutrality the number of vevs may be odd, although the doublets are even in number. *)
Theorem C44_charged_refuted : exists op, lepton op = 2%Z /\ Z.even (twice_isospin op) = true /\ constant Kv op = 0 /\ estimate_one op = Err AssertionError.
Proof. exists [Fd Shp; Fd Su; Cj Sd; Fd Snu; Fd Snu; Fd Sh0]. repeat split; vm_compute; reflexivity. Qed.

(** ** Cases *)

(** components of L L H H and of L L L eb H *)
Example C42_ex1 : admissible [Fd Snu; Fd Snu; Fd Sh0; Fd Sh0] /\ fixed_point [Fd Snu; Fd Snu; Fd Sh0; Fd Sh0] 10 = [Cst Kv; Cst Kv; Cst Knunu] /\
  estimate_one [Fd Snu; Fd Snu; Fd Sh0; Fd Sh0] = Ok (Some []).
Proof. repeat split; vm_compute; reflexivity. Qed.

Example C44_ex1 : admissible [Fd Snu; Fd Se; Fd Snu; Fd Seb; Fd Sh0] /\ estimate_one [Fd Snu; Fd Se; Fd Snu; Fd Seb; Fd Sh0] = Ok (Some [Kye; Kloop]).
Proof. repeat split; vm_compute; reflexivity. Qed.

(** c(eb) c(eb) c(ub) c(ub) db db: 76 of the list *)
Example C44_ex2 : let op := [Cj Seb; Cj Seb; Cj Sub; Cj Sub; Fd Sdb; Fd Sdb] in
  admissible op /\ exists e, estimate_one op = Ok (Some e) /\ count_k Kye e = 2 /\ count_k Kyu e = 2 /\ count_k Kyd e = 2 /\ count_k Kg2 e = 2 /\ count_k Kloop e = 4 /\ count_k Kloopv2 e = 2.
Proof. cbv zeta. split; [repeat split; vm_compute; reflexivity|]. eexists. split; [vm_compute; reflexivity|]. repeat split. Qed.

(** the hypotheses of C43_neutral and C44_vevs: a neutral structure that is reduced in ten steps *)
Example C43_ex1 : let op := [Fd Snu; Fd Se; Fd Su; Fd Sub; Fd Shp; Fd Sh0; Fd Sh0] in
  thrice_charge op = 0%Z /\ twice_isospin op = 0%Z /\ reduced (fixed_point op 10) /\ ~ reduced (fixed_point op 2).
Proof.
  cbv zeta. do 2 (split; [vm_compute; reflexivity|]). split.
  - intros a. set (l := fixed_point _ _). vm_compute in l. subst l. intros I. repeat (destruct I as [<-|I]; [reflexivity|]). destruct I.
  - intros R. set (l := fixed_point _ _) in R. vm_compute in l. subst l. specialize (R (Fd SW)). cbn [In] in R. specialize (R ltac:(tauto)). discriminate R.
Qed.

(** every key of RULES is there once, so no entry of the dictionary overwrites another *)
Example C45_keys : NoDup (map fst RULES).
Proof.
  assert (D : forall l : list (list atom), (fix nd (l : list (list atom)) := match l with [] => true | x :: l => negb (existsb (list_eqb atom_eqb x) l) && nd l end) l = true -> NoDup l).
  { induction l as [|x l IH]; intros H; [constructor|]. apply andb_true_iff in H as [H1 H2]. constructor; [|auto]. intros I. apply negb_true_iff in H1.
    assert (X : existsb (list_eqb atom_eqb x) l = true) by (apply existsb_exists; exists x; split; [exact I|now apply list_eqb_iff]). congruence. }
  apply D. vm_compute. reflexivity.
Qed.

Print Assumptions C42_conserved.
Print Assumptions C42_neutrino_pairs.
Print Assumptions C42_assertion.
Print Assumptions C43_charge.
Print Assumptions C43_neutral.
Print Assumptions C43_refuted.
Print Assumptions C44_vevs.
Print Assumptions C44_estimate.
Print Assumptions C44_estimates.
Print Assumptions C44_charged_refuted.
Print Assumptions C45_fixed_point.
Print Assumptions C45_terminates.
Print Assumptions C45_order.
Print Assumptions C45_ten_turns_refuted.
