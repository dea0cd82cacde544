(** * PropsParse2: cases for C46, the leading estimate and the number of loops (C78) *)

From Coq Require Import Ascii String List Bool Arith ZArith QArith Qcanon Lia Permutation.
From Verif Require Import Base BaseFacts Show ModelIndex ModelField ModelContract ModelClosures SpecClosures SpecParse PropsClosures PropsParse.
Import ListNotations.
Local Open Scope nat_scope.

(** ** Cases *)

Definition sm_field (label idx : string) (cj : bool) (comm : str) : tensor :=
  match mk_ifield (mkIargs (lit label ++ (if cj then [dagger] else [])) (AStr (lit idx)) None cj None comm None 1 0 None) with
  | Ok x => TField x
  | Err _ => TSymbol (Metric Isospin [])
  end.
Definition sm_eps (idx : string) : tensor := match eps (lit idx) with Ok s => TSymbol s | Err _ => TSymbol (Metric Isospin []) end.

Definition weinberg_op : operator :=
  [sm_field "L" "u0 i0" false (lit "fermi"); sm_field "L" "u1 i1" false (lit "fermi"); sm_field "H" "i2" false (lit "bose"); sm_field "H" "i3" false (lit "bose");
   sm_eps "-i0 -i2"; sm_eps "-i1 -i3"].
Definition weinberg_parts := [PD LeptonD false (lit "i0"); PD LeptonD false (lit "i1"); PD HiggsD false (lit "i2"); PD HiggsD false (lit "i3")].
Definition weinberg_pairs := [(lit "i0", lit "i2"); (lit "i1", lit "i3")].

(** L L Q^dagger ub^dagger H, operator 4 of the list *)
Definition op4 : operator :=
  [sm_field "L" "u0 i0" false (lit "fermi"); sm_field "L" "u1 i1" false (lit "fermi"); sm_field "Q" "d0 -c0 i2" true (lit "fermi"); sm_field "ub" "d1 c1" true (lit "fermi"); sm_field "H" "i3" false (lit "bose");
   sm_eps "-i0 -i1"; sm_eps "-i2 -i3"].
Definition op4_parts := [PD LeptonD false (lit "i0"); PD LeptonD false (lit "i1"); PD QuarkD true (lit "i2"); PS UpS true; PD HiggsD false (lit "i3")].
Definition op4_pairs := [(lit "i0", lit "i1"); (lit "i2", lit "i3")].

Ltac part_tac := eexists; split; [left; split; [vm_compute; reflexivity|reflexivity]|]; split; [split; vm_compute; reflexivity|]; try (eexists; split; vm_compute; reflexivity); vm_compute; reflexivity.
Ltac lowers_tac := do 4 eexists; split; [vm_compute; reflexivity|]; split; [vm_compute; reflexivity|]; split; [vm_compute; reflexivity|]; split; vm_compute; reflexivity.

Lemma short_names l : NoDup l -> (forall n, In n l -> exists c, n = ["i"%char; c] /\ In c (lit "0123456789")) -> readable l.
Proof.
  intros ND H. split; [exact ND|]. split; [|split].
  - intros n I. destruct (H n I) as (c & -> & _). now exists c, [].
  - intros n c I J K. destruct (H n I) as (d & -> & D). cbn in J, D. destruct K as [<-|[<-|[]]].
    + repeat (destruct J as [J|J]; [discriminate J|]). exact J.
    + repeat (destruct D as [<-|D]; [repeat (destruct J as [J|J]; [discriminate J|]); exact J|]). exact D.
  - intros n m I J N (u & v & E). destruct (H n I) as (c & -> & _). destruct (H m J) as (d & -> & D). destruct u as [|u0 [|u1 u]]; cbn in E.
    + injection E as -> _. now apply N.
    + injection E as _ E _. subst d. cbn in D. repeat (destruct D as [D|D]; [discriminate D|]). exact D.
    + destruct u; discriminate E.
Qed.

Ltac names_tac := apply short_names; [repeat (constructor; [cbn; intros I; repeat (destruct I as [I|I]; [discriminate I|]); exact I|]); constructor|
  cbn; intros n I; repeat (destruct I as [<-|I]; [eexists; split; [reflexivity|cbn; tauto]|]); destruct I].


Lemma weinberg_ok : breaks_lepton_number weinberg_op weinberg_parts weinberg_pairs.
Proof.
  split; [|split; [|split; [cbn; lia|split; [names_tac|split; [|split; reflexivity]]]]].
  - remember (indexed_fields weinberg_op) as l eqn:E. vm_compute in E. subst l. repeat (constructor; [part_tac|]). constructor.
  - remember (epsilons weinberg_op) as l eqn:E. vm_compute in E. subst l. repeat (constructor; [lowers_tac|]). constructor.
  - cbn. apply perm_skip. apply perm_swap.
Qed.

Lemma op4_ok : breaks_lepton_number op4 op4_parts op4_pairs.
Proof.
  split; [|split; [|split; [cbn; lia|split; [names_tac|split; [|split; reflexivity]]]]].
  - remember (indexed_fields op4) as l eqn:E. vm_compute in E. subst l. repeat (constructor; [part_tac|]). constructor.
  - remember (epsilons op4) as l eqn:E. vm_compute in E. subst l. repeat (constructor; [lowers_tac|]). constructor.
  - cbn. reflexivity.
Qed.

Example C46_ex1 : parse_operator weinberg_op = Ok
  [[Fd Snu; Fd Snu; Fd Sh0; Fd Sh0]; [Fd Snu; Fd Se; Fd Sh0; Fd Shp]; [Fd Se; Fd Snu; Fd Shp; Fd Sh0]; [Fd Se; Fd Se; Fd Shp; Fd Shp]] /\
  operator_estimate weinberg_op = Ok [[]; [Kloop; Kg2]; [Kloop; Kg2]].
Proof. split; vm_compute; reflexivity. Qed.

Example C46_ex2 : exists ops es, parse_operator op4 = Ok ops /\ nth 0 ops [] = [Fd Snu; Fd Se; Cj Sd; Cj Sub; Fd Sh0] /\ operator_estimate op4 = Ok es /\
  es = [[Kyu; Kloop; Kloop; Kg2]; [Kloop; Kg2; Kyu; Kloop]; [Kyu; Kloop; Kloop; Kg2]; [Kloop; Kg2; Kyu; Kloop]].
Proof. eexists. eexists. split; [vm_compute; reflexivity|]. split; [reflexivity|]. split; vm_compute; reflexivity. Qed.

(** Index names that begin with one another are confused: i1 and i10. *)
Definition long_names_op : operator :=
  [sm_field "L" "u0 i1" false (lit "fermi"); sm_field "L" "u1 i10" false (lit "fermi"); sm_field "H" "i2" false (lit "bose"); sm_field "H" "i3" false (lit "bose");
   sm_eps "-i1 -i2"; sm_eps "-i10 -i3"].

Theorem C46_long_names_refuted : exists op parts pairs,
  Forall2 is_part (indexed_fields op) parts /\ Forall2 lowers (epsilons op) pairs /\ List.length pairs = 2 /\ NoDup (names_of pairs) /\
  Permutation (part_names parts) (names_of pairs) /\ parse_operator op = Err IndexError.
Proof.
  exists long_names_op, [PD LeptonD false (lit "i1"); PD LeptonD false (lit "i10"); PD HiggsD false (lit "i2"); PD HiggsD false (lit "i3")], [(lit "i1", lit "i2"); (lit "i10", lit "i3")].
  split; [|split; [|split; [reflexivity|split; [|split; [|vm_compute; reflexivity]]]]].
  - remember (indexed_fields long_names_op) as l eqn:E. vm_compute in E. subst l. repeat (constructor; [part_tac|]). constructor.
  - remember (epsilons long_names_op) as l eqn:E. vm_compute in E. subst l. repeat (constructor; [lowers_tac|]). constructor.
  - cbn. repeat (constructor; [cbn; intros I; repeat (destruct I as [I|I]; [discriminate I|]); exact I|]). constructor.
  - cbn. apply perm_skip. apply perm_swap.
Qed.

(** L L H H (H^dagger H)^3 has five epsilons *)
Definition five_op : operator :=
  [sm_field "L" "u0 i0" false (lit "fermi"); sm_field "L" "u1 i1" false (lit "fermi"); sm_field "H" "i2" false (lit "bose"); sm_field "H" "i3" false (lit "bose");
   sm_field "H" "i4" false (lit "bose"); sm_field "H" "i5" true (lit "bose"); sm_field "H" "i6" false (lit "bose"); sm_field "H" "i7" true (lit "bose");
   sm_field "H" "i8" false (lit "bose"); sm_field "H" "i9" true (lit "bose"); sm_eps "-i0 -i2"; sm_eps "-i1 -i3"; sm_eps "-i4 -i5"; sm_eps "-i6 -i7"; sm_eps "-i8 -i9"].
Example C46_ex3 : parse_operator five_op = Err IndexError. Proof. vm_compute. reflexivity. Qed.

(** with an epsilon of colour *)
Example C46_ex4 : parse_operator [sm_field "Q" "u0 c0 i0" false (lit "fermi"); sm_field "Q" "u1 c1 i1" false (lit "fermi"); sm_eps "-c0 -c1 -c2"; sm_eps "-i0 -i1"] = Err ValueError.
Proof. vm_compute. reflexivity. Qed.

(** ** C78: the leading estimate *)

Section Leading.
  Variable V : Type.
  Variable value : estimate -> V.
  Variable gtb : V -> V -> bool.

  (** numbers are ordered *)
  Definition ordered : Prop :=
    (forall x, gtb x x = false) /\ (forall x y z, gtb x y = true -> gtb y z = true -> gtb x z = true) /\
    (forall x y z, gtb x y = false -> gtb y z = false -> gtb x z = false).

  (** e is the first of the largest *)
  Definition first_largest (l : list estimate) (e : estimate) : Prop :=
    exists before after, l = before ++ e :: after /\ (forall x, In x before -> gtb (value e) (value x) = true) /\
      forall x, In x after -> gtb (value x) (value e) = false.

  (** e is the last of the largest *)
  Definition last_largest (l : list estimate) (e : estimate) : Prop :=
    exists before after, l = before ++ e :: after /\ (forall x, In x before -> gtb (value x) (value e) = false) /\
      forall x, In x after -> gtb (value e) (value x) = true.

  Hypothesis O : ordered.

  Lemma gt_le x y z : gtb x y = true -> gtb z y = false -> gtb x z = true.
  Proof. destruct O as (_ & _ & N). intros A B. destruct (gtb x z) eqn:E; [reflexivity|]. rewrite (N _ _ _ E B) in A. discriminate. Qed.

  Lemma le_gt x y z : gtb y x = false -> gtb y z = true -> gtb x z = true.
  Proof. destruct O as (_ & _ & N). intros A B. destruct (gtb x z) eqn:E; [reflexivity|]. rewrite (N _ _ _ A E) in B. discriminate. Qed.

  Lemma asym x y : gtb x y = true -> gtb y x = false.
  Proof. destruct O as (I & T & _). intros A. destruct (gtb y x) eqn:E; [|reflexivity]. pose proof (T _ _ _ A E). rewrite I in *. discriminate. Qed.

  Lemma max_by_spec l : match l with [] => max_by V value gtb l = Err ValueError | _ => exists e, max_by V value gtb l = Ok e /\ first_largest l e end.
  Proof.
    destruct l as [|e0 l]; [reflexivity|]. cbn [max_by]. eexists. split; [reflexivity|].
    enough (G : forall l before best after, (forall x, In x before -> gtb (value best) (value x) = true) -> (forall x, In x after -> gtb (value x) (value best) = false) ->
      first_largest (before ++ best :: after ++ l) (fold_left (fun best x => if gtb (value x) (value best) then x else best) l best))
      by exact (G l [] e0 [] (fun x I => match I with end) (fun x I => match I with end)).
    clear l e0. induction l as [|y l IH]; intros before best after Hb Ha; cbn [fold_left].
    - rewrite app_nil_r. now exists before, after.
    - destruct (gtb (value y) (value best)) eqn:E.
      + replace (before ++ best :: after ++ y :: l) with ((before ++ best :: after) ++ y :: [] ++ l) by (now rewrite <- app_assoc).
        apply IH; [|intros x []]. intros x I. apply in_app_iff in I as [I|[<-|I]]; [|exact E|].
        * destruct O as (_ & T & _). eapply T; [exact E|now apply Hb].
        * eapply gt_le; [exact E|]. now apply Ha.
      + replace (before ++ best :: after ++ y :: l) with (before ++ best :: (after ++ [y]) ++ l) by (now rewrite <- app_assoc).
        apply IH; [exact Hb|]. intros x I. apply in_app_iff in I as [I|[<-|[]]]; [now apply Ha|exact E].
  Qed.

  Lemma insert_perm x l : Permutation (insert_by V value gtb x l) (x :: l).
  Proof. induction l as [|y l IH]; [reflexivity|]. cbn [insert_by]. destruct (gtb (value y) (value x)); [reflexivity|]. rewrite IH. apply perm_swap. Qed.

  (** the last entry of the sorted list *)
  Lemma last_insert x l d : l <> [] -> (forall y, In y l -> gtb (value y) (value (List.last l d)) = false) ->
    (gtb (value (List.last l d)) (value x) = true /\ List.last (insert_by V value gtb x l) d = List.last l d) \/
    (gtb (value (List.last l d)) (value x) = false /\ List.last (insert_by V value gtb x l) d = x).
  Proof.
    induction l as [|y l IH]; intros Ne M; [contradiction|]. cbn [insert_by]. destruct (gtb (value y) (value x)) eqn:E.
    - left. split; [|reflexivity]. eapply le_gt; [|exact E]. apply M. now left.
    - destruct l as [|z l].
      + right. split; [exact E|reflexivity].
      + change (List.last (y :: z :: l) d) with (List.last (z :: l) d) in *. destruct (IH ltac:(discriminate)) as [[H1 H2]|[H1 H2]]; [intros w I; apply M; now right| |].
        * left. split; [exact H1|]. rewrite <- H2. assert (N : insert_by V value gtb x (z :: l) <> []) by (cbn [insert_by]; destruct (gtb (value z) (value x)); discriminate).
          destruct (insert_by V value gtb x (z :: l)); [contradiction|reflexivity].
        * right. split; [exact H1|]. rewrite <- H2 at 2. assert (N : insert_by V value gtb x (z :: l) <> []) by (cbn [insert_by]; destruct (gtb (value z) (value x)); discriminate).
          destruct (insert_by V value gtb x (z :: l)); [contradiction|reflexivity].
  Qed.

  Lemma sort_last l d : forall seen acc, acc <> [] -> Permutation acc seen -> (forall y, In y acc -> gtb (value y) (value (List.last acc d)) = false) ->
    last_largest seen (List.last acc d) ->
    last_largest (seen ++ l) (List.last (fold_left (fun acc x => insert_by V value gtb x acc) l acc) d) /\ fold_left (fun acc x => insert_by V value gtb x acc) l acc <> [].
  Proof.
    induction l as [|x l IH]; intros seen acc Ne P M L; cbn [fold_left]; [rewrite app_nil_r; auto|].
    replace (seen ++ x :: l) with ((seen ++ [x]) ++ l) by (now rewrite <- app_assoc). pose proof (insert_perm x acc) as Pi.
    destruct L as (before & after & Es & Hb & Ha). apply IH.
    - intros E. rewrite E in Pi. now apply Permutation_nil_cons in Pi.
    - rewrite Pi, P. apply Permutation_cons_append.
    - intros y I. apply (Permutation_in _ Pi) in I. destruct O as (Ir & _ & N). destruct (last_insert x acc d Ne M) as [[H1 ->]|[H1 ->]].
      + destruct I as [<-|I]; [now apply asym|now apply M].
      + destruct I as [<-|I]; [apply Ir|]. eapply N; [now apply M|exact H1].
    - destruct (last_insert x acc d Ne M) as [[H1 ->]|[H1 ->]].
      + exists before, (after ++ [x]). split; [rewrite Es, <- app_assoc; reflexivity|]. split; [exact Hb|]. intros y I. apply in_app_iff in I as [I|[<-|[]]]; auto.
      + exists seen, []. split; [reflexivity|]. split; [|intros y []]. intros y I. destruct O as (_ & _ & N). eapply N; [apply M|exact H1]. now apply (Permutation_in _ (Permutation_sym P)).
  Qed.

  Lemma last_sorted_spec l : match l with [] => last_sorted V value gtb l = Err IndexError | _ => exists e, last_sorted V value gtb l = Ok e /\ last_largest l e end.
  Proof.
    destruct l as [|x l]; [reflexivity|]. unfold last_sorted, sort_by. cbn [fold_left insert_by].
    destruct (sort_last l x [x] [x]) as [L Ne]; [discriminate|reflexivity| |exists [], []; repeat split; intros y []|].
    - intros y [<-|[]]. destruct O as (I & _). apply I.
    - set (r := fold_left _ l [x]) in *. clearbody r. destruct (exists_last Ne) as (r' & e & ->). rewrite last_last in L. exists e. split; [|exact L].
      rewrite rev_app_distr. reflexivity.
  Qed.
End Leading.

(** what loop_data says about a product with n factors loop and m factors loopv2 *)
Definition loops_found (n : nat) : nat := if n <=? 7 then n else 0.
Definition orders_found (m : nat) : list nat := if (1 <=? m) && (m <=? 7) then seq 0 (m + 1) else [].

Lemma loop_data_spec e : loop_data e = (loops_found (count_k Kloop e), orders_found (count_k Kloopv2 e)).
Proof.
  unfold loop_data. generalize (count_k Kloop e) (count_k Kloopv2 e). clear e. intros n m.
  assert (E1 : forall k, 7 < k -> forall j, j <= 7 -> (k =? j) = false) by (intros k K j J; apply Nat.eqb_neq; lia).
  destruct (le_lt_dec n 7) as [Hn|Hn]; destruct (le_lt_dec m 7) as [Hm|Hm].
  - do 8 (destruct n as [|n]; [do 8 (destruct m as [|m]; [reflexivity|]); lia|]). lia.
  - unfold orders_found. replace (m <=? 7) with false by (symmetry; apply Nat.leb_gt; lia). rewrite andb_false_r. cbn [seq fold_left fst snd]. rewrite !(E1 m Hm) by lia.
    do 8 (destruct n as [|n]; [reflexivity|]). lia.
  - unfold loops_found. replace (n <=? 7) with false by (symmetry; apply Nat.leb_gt; lia). cbn [seq fold_left fst snd]. rewrite !(E1 n Hn) by lia.
    do 8 (destruct m as [|m]; [reflexivity|]). lia.
  - unfold loops_found, orders_found. replace (n <=? 7) with false by (symmetry; apply Nat.leb_gt; lia). replace (m <=? 7) with false by (symmetry; apply Nat.leb_gt; lia).
    rewrite andb_false_r. cbn [seq fold_left fst snd]. rewrite !(E1 n Hn), !(E1 m Hm) by lia. reflexivity.
Qed.

(** The leading contribution is the first of the largest; the table shows the last of those with the largest rounded scale.
    Both refuse an operator without estimates. *)
Theorem C78_leading : forall V (value : estimate -> V) gtb, ordered V gtb -> forall op es, operator_estimate op = Ok es ->
  match es with
  | [] => get_leading_mv V value gtb op = Err ValueError /\ table_data V value gtb op = Err IndexError
  | _ => (exists e, get_leading_mv V value gtb op = Ok e /\ first_largest V value gtb es e) /\
         exists e, table_data V value gtb op = Ok (loops_text (loop_data e), e) /\ last_largest V value gtb es e
  end.
Proof.
  intros V value gtb O op es E. unfold get_leading_mv, table_data. rewrite E. cbn [bind]. pose proof (max_by_spec V value gtb O es) as M. pose proof (last_sorted_spec V value gtb O es) as L.
  destruct es as [|e es]; [split; [exact M|now rewrite L]|]. split; [exact M|]. destruct L as (e' & -> & L). now exists e'.
Qed.

(** The number of loops: exact up to seven factors of either kind; an estimate of a structure has a loop for every two fields
    beyond four, for every two Yukawa couplings and for every g2. *)
Theorem C78_loops : forall e, loop_data e = (loops_found (count_k Kloop e), orders_found (count_k Kloopv2 e)) /\
  (count_k Kloop e <= 7 -> count_k Kloopv2 e = 0 -> loops_text (loop_data e) = show_nat (count_k Kloop e)) /\
  (count_k Kloop e <= 7 -> 1 <= count_k Kloopv2 e <= 7 -> loops_text (loop_data e) = join (lit ",") (map show_nat (seq (count_k Kloop e) (count_k Kloopv2 e + 1)))).
Proof.
  intros e. rewrite loop_data_spec. split; [reflexivity|]. unfold loops_text, loops_found, orders_found. cbn [fst snd]. split.
  - intros H ->. cbn. replace (count_k Kloop e <=? 7) with true by (symmetry; now apply Nat.leb_le). reflexivity.
  - intros H [H1 H2]. apply Nat.leb_le in H, H1, H2. rewrite H, H1, H2. cbn [andb]. apply Nat.leb_le in H1.
    destruct (seq 0 (count_k Kloopv2 e + 1)) as [|a l] eqn:Es; [apply (f_equal (@List.length nat)) in Es; rewrite seq_length in Es; cbn in Es; lia|]. rewrite <- Es. f_equal.
    enough (G : forall n k c, map (fun i => show_nat (i + c)) (seq k n) = map show_nat (seq (k + c) n)) by exact (G _ 0 _).
    induction n as [|n IH]; intros k c; [reflexivity|]. cbn [seq map]. f_equal. apply (IH (S k)).
Qed.

(** Eight or more loops are not seen. *)
Theorem C78_many_loops_refuted : exists e, count_k Kloop e = 8 /\ fst (loop_data e) = 0.
Proof. exists (repeat Kloop 8). split; reflexivity. Qed.

(** ** Cases: comparing by the number of factors *)
Definition fewer (n m : nat) : bool := n <? m.
Lemma fewer_ordered : ordered nat fewer.
Proof.
  unfold fewer. repeat split.
  - intros x. apply Nat.ltb_irrefl.
  - intros x y z A B. apply Nat.ltb_lt in A, B. apply Nat.ltb_lt. lia.
  - intros x y z A B. apply Nat.ltb_ge in A, B. apply Nat.ltb_ge. lia.
Qed.

Example C78_ex1 : get_leading_mv nat (@List.length ksym) fewer weinberg_op = Ok [] /\ get_leading_mv nat (count_k Kyu) fewer op4 = Ok [Kyu; Kloop; Kloop; Kg2] /\
  table_data nat (count_k Kyu) fewer op4 = Ok (lit "2", [Kloop; Kg2; Kyu; Kloop]).
Proof. repeat split; vm_compute; reflexivity. Qed.

Example C78_ex2 : loops_text (loop_data [Kyu; Kloop; Kloopv2; Kloop; Kloopv2]) = lit "2,3,4". Proof. vm_compute. reflexivity. Qed.

Print Assumptions C46_parse.
Print Assumptions C46_choices.
Print Assumptions C46_five_epsilons.
Print Assumptions C46_other_epsilons.
Print Assumptions C46_estimates.
Print Assumptions C46_fresh_names.
Print Assumptions C46_long_names_refuted.
Print Assumptions C78_leading.
Print Assumptions C78_loops.
Print Assumptions C78_many_loops_refuted.
