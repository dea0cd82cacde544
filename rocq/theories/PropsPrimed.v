(** * PropsPrimed: C115, operators with a further pair of Higgs fields *)

From Coq Require Import Ascii String List Bool Arith NArith ZArith QArith Lia Lqa Permutation.
From Verif Require Import Base BaseFacts ModelIndex ModelField ModelContract ModelClosures PropsClosures PropsParse2 ModelOperators ModelScale SpecScale PropsScale SpecRounded PropsRounded SpecPrimed.
Import ListNotations.
Local Open Scope Q_scope.

Definition scales : list Q := [48000000000000; 300000000000; 20000000; 4500; 965; 1900000000; 46000000].

Fixpoint take_out (x : str) (l : list str) : option (list str) :=
  match l with [] => None | y :: r => if str_eqb x y then Some r else match take_out x r with Some r' => Some (y :: r') | None => None end end.

Fixpoint permutes (l l' : list str) : bool :=
  match l with [] => match l' with [] => true | _ => false end | x :: r => match take_out x l' with Some r' => permutes r r' | None => false end end.

Lemma take_out_perm x l r : take_out x l = Some r -> Permutation l (x :: r).
Proof.
  revert r. induction l as [|y l IH]; intros r H; [discriminate H|]. cbn [take_out] in H. destruct (str_eqb x y) eqn:E.
  - apply str_decides in E. injection H as <-. now subst.
  - destruct (take_out x l) as [r'|]; [|discriminate H]. injection H as <-. eapply Permutation_trans; [apply perm_skip, (IH r' eq_refl)|apply perm_swap].
Qed.

Lemma permutes_perm l : forall l', permutes l l' = true -> Permutation l l'.
Proof.
  induction l as [|x l IH]; intros l' H; cbn [permutes] in H; [destruct l'; [apply perm_nil|discriminate H]|].
  destruct (take_out x l') as [r|] eqn:E; [|discriminate H]. apply take_out_perm in E. apply Permutation_trans with (x :: r); [apply perm_skip; now apply IH|now apply Permutation_sym].
Qed.

Definition has (h : str) (c : bool) (op : operator) : bool := existsb (fun x => str_eqb (f_label (i_field x)) h && Bool.eqb (f_is_conj (i_field x)) c) (indexed_fields op).

Definition hc (op : operator) : str := match filter (fun x => f_is_conj (i_field x) && str_eqb (removelast (f_label (i_field x))) (lit "H")) (indexed_fields op) with x :: _ => f_label (i_field x) | [] => [] end.

Definition check_pair (op op' : operator) : bool :=
  permutes (labels op') (lit "H" :: hc op' :: labels op) && has (lit "H") false op' && has (hc op') true op' && str_eqb (removelast (hc op')) (lit "H").

Lemma has_sound h c op : has h c op = true -> exists x, In x (indexed_fields op) /\ f_label (i_field x) = h /\ f_is_conj (i_field x) = c.
Proof. intros H. apply existsb_exists in H as (x & I & H). apply andb_true_iff in H as [A B]. exists x. split; [exact I|]. split; [now apply str_decides in A|now apply eqb_prop in B]. Qed.

Lemma check_pair_sound op op' : check_pair op op' = true -> higgs_pair op op'.
Proof.
  intros H. unfold check_pair in H. apply andb_true_iff in H as [H H4]. apply andb_true_iff in H as [H H3]. apply andb_true_iff in H as [H1 H2].
  exists (lit "H"), (hc op'). split; [now apply permutes_perm|]. split; [now apply has_sound|]. split; [now apply has_sound|]. split; [reflexivity|]. now apply str_decides in H4.
Qed.

Definition agree (a : estimate) (es : list estimate) : bool :=
  existsb (fun e => same (counts a) (counts e)) es && forallb (fun b => coupl b && (same (counts a) (counts b) || strictly (counts a) (counts b))) es.

(** the estimates of both operators, with their leading ones *)
Definition with_leaders (op op' : operator) (P : estimate -> estimate -> bool) : bool :=
  match operator_estimate op, operator_estimate op' with
  | Ok es, Ok es' => match leader es, leader es' with Ok a, Ok a' => agree a es && agree a' es' && P a a' | _, _ => false end
  | _, _ => false
  end.

Definition lower (a a' : estimate) : bool :=
  existsb (dominates (counts a) (counts a')) [1000; 115; 1 # 100] && existsb (fun lam => negb (Qle_bool lam 0) && over lam (counts a) && under lam (counts a')) scales.

Definition check_primed (ops : list (str * operator)) (kk : str * str) : bool :=
  match dget str_eqb ops (fst kk), dget str_eqb ops (snd kk) with
  | Some op, Some op' => check_pair op op' && with_leaders op op' lower
  | _, _ => false
  end.

Definition higher (a a' : estimate) : bool := over 30 (counts a') && under 30 (counts a).

Definition check_76 (ops : list (str * operator)) : bool :=
  match dget str_eqb ops (lit "76"), dget str_eqb ops (lit "76p") with
  | Some op, Some op' => check_pair op op' && with_leaders op op' higher
  | _, _ => false
  end.

Lemma all_primed : match eff_operators with Ok ops => forallb (check_primed ops) primed && check_76 ops | Err _ => false end = true.
Proof. vm_compute. reflexivity. Qed.

Lemma with_leaders_sound loop op op' P : close loop -> with_leaders op op' P = true -> exists a a' m m', P a a' = true /\ leading_mv loop op = Ok m /\ leading_mv loop op' = Ok m' /\
  same (counts a) (counts m) = true /\ same (counts a') (counts m') = true.
Proof.
  intros Cl H. unfold with_leaders in H. destruct (operator_estimate op) as [es|] eqn:E; [|discriminate H]. destruct (operator_estimate op') as [es'|] eqn:E'; [|discriminate H].
  destruct (leader es) as [a|]; [|discriminate H]. destruct (leader es') as [a'|]; [|discriminate H]. apply andb_true_iff in H as [H H3]. apply andb_true_iff in H as [H1 H2].
  apply andb_true_iff in H1 as [A1 A2]. apply andb_true_iff in H2 as [B1 B2]. pose proof (close_factor loop Cl) as F.
  destruct (leads_like loop op es a F E A1 A2) as (m & G & _ & S & _). destruct (leads_like loop op' es' a' F E' B1 B2) as (m' & G' & _ & S' & _).
  exists a, a', m, m'. repeat (split; [assumption|]). assumption.
Qed.

(** C115: with a further pair of Higgs fields, contracted with each other, the scale of new physics is lower *)
Theorem C115_primed : exists ops, eff_operators = Ok ops /\ forall k k', In (k, k') primed -> exists op op', In (k, op) ops /\ In (k', op') ops /\ higgs_pair op op' /\
  forall loop, close loop -> exists m m', leading_mv loop op = Ok m /\ leading_mv loop op' = Ok m' /\ scale_below loop m' m /\ exists lam, exceeds loop m lam /\ ~ exceeds loop m' lam.
Proof.
  pose proof all_primed as H. destruct eff_operators as [ops|]; [|discriminate H]. exists ops. split; [reflexivity|]. intros k k' I. apply andb_true_iff in H as [H _]. rewrite forallb_forall in H. specialize (H _ I).
  unfold check_primed in H. cbn [fst snd] in H. destruct (dget str_eqb ops k) as [op|] eqn:G; [|discriminate H]. destruct (dget str_eqb ops k') as [op'|] eqn:G'; [|discriminate H].
  exists op, op'. split; [exact (dget_In str_decides _ _ G)|]. split; [exact (dget_In str_decides _ _ G')|]. apply andb_true_iff in H as [H1 H2]. split; [now apply check_pair_sound|].
  intros loop Cl. destruct (with_leaders_sound loop op op' lower Cl H2) as (a & a' & m & m' & P & L & L' & S & S'). exists m, m'. split; [exact L|]. split; [exact L'|].
  unfold lower in P. apply andb_true_iff in P as [P1 P2]. apply existsb_exists in P1 as (l0 & I0 & P1). apply existsb_exists in P2 as (lam & _ & P2).
  destruct (same_below loop a m S) as (Sa & _). destruct (same_below loop a' m' S') as (_ & Sb). split.
  - assert (P0 : 0 < l0) by (destruct I0 as [<-|[<-|[<-|[]]]]; reflexivity). apply (dominates_sound loop) in P1; [|now apply close_factor|exact P0]. intros x X. now apply Sa, P1, Sb.
  - apply andb_true_iff in P2 as [P2 P4]. apply andb_true_iff in P2 as [P2 P3]. apply not_Qle in P2. exists lam. split; [apply Sa; now apply (over_sound loop)|]. intros X. apply Sb in X. now apply (under_sound loop lam a' Cl P2 P4).
Qed.

(** for 76 it is higher: both scales are below the mass of the Higgs boson, where v²/Λ² is large *)
Theorem C115_primed_refuted : exists ops op op', eff_operators = Ok ops /\ In (lit "76", op) ops /\ In (lit "76p", op') ops /\ higgs_pair op op' /\
  forall loop, close loop -> exists m m', leading_mv loop op = Ok m /\ leading_mv loop op' = Ok m' /\ exceeds loop m' 30 /\ ~ exceeds loop m 30.
Proof.
  pose proof all_primed as H. destruct eff_operators as [ops|]; [|discriminate H]. apply andb_true_iff in H as [_ H]. unfold check_76 in H.
  destruct (dget str_eqb ops (lit "76")) as [op|] eqn:G; [|discriminate H]. destruct (dget str_eqb ops (lit "76p")) as [op'|] eqn:G'; [|discriminate H].
  exists ops, op, op'. split; [reflexivity|]. split; [exact (dget_In str_decides _ _ G)|]. split; [exact (dget_In str_decides _ _ G')|]. apply andb_true_iff in H as [H1 H2]. split; [now apply check_pair_sound|].
  intros loop Cl. destruct (with_leaders_sound loop op op' higher Cl H2) as (a & a' & m & m' & P & L & L' & S & S'). exists m, m'. split; [exact L|]. split; [exact L'|].
  unfold higher in P. apply andb_true_iff in P as [P1 P2]. destruct (same_below loop a m S) as (_ & Sa). destruct (same_below loop a' m' S') as (Sb & _).
  split; [apply Sb; apply (over_sound loop); [exact Cl|reflexivity|exact P1]|]. intros X. apply Sa in X. revert X. apply (under_sound loop); [exact Cl|reflexivity|exact P2].
Qed.

(** the pair (1, 1p) is among them *)
Example C115_example : In (lit "1", lit "1p") primed /\ close l18.
Proof. split; [now left|]. split; vm_compute; discriminate. Qed.

Print Assumptions C115_primed.
Print Assumptions C115_primed_refuted.
