(** * PropsSeries3: C97, neutrality of what is parsed, and the operators shipped with the package *)

From Coq Require Import Ascii String List Bool Arith ZArith QArith Qcanon Lia Permutation.
From Verif Require Import Base BaseFacts Show ModelIndex SpecIndex ModelField SpecField ProofsField ModelLagrangian ModelDeriv SpecDeriv PropsDeriv PropsDeriv2
  DataSeries ModelSeries SpecSeries PropsSeries PropsSeries2 DataOperators.
Import ListNotations.
Local Open Scope nat_scope.

(** ** Hypercharge *)

Definition y_of (x : str) : Qc := match field_lookup x with Ok f => match field_y f with Ok y => y | Err _ => 0%Qc end | Err _ => 0%Qc end.
Definition ysum (l : list str) : Qc := fold_right (fun x s => (y_of x + s)%Qc) 0%Qc l.

Lemma ysum_perm l l' : Permutation l l' -> ysum l = ysum l'.
Proof.
  induction 1; cbn [ysum fold_right]; [reflexivity| |rewrite !Qcplus_assoc; f_equal; apply Qcplus_comm|congruence]. unfold ysum in IHPermutation. now rewrite IHPermutation.
Qed.

Definition neutral (cq : content * Q) : bool := Qc_eq_bool (ysum (map fst (factors (snd (fst cq))))) 0%Qc.

Lemma neutral7 : forallb neutral (with_generations 3 H7_LNV) = true. Proof. vm_compute. reflexivity. Qed.
Lemma neutral9 : forallb neutral (with_generations 3 H9_LNV) = true. Proof. vm_compute. reflexivity. Qed.
Lemma neutral11 : forallb neutral (with_generations 3 H11_LNV) = true. Proof. vm_compute. reflexivity. Qed.

Lemma derived_facts n b f : derived n b f -> differentiable n b -> f_charges f = f_charges b /\ f_derivs f = f_derivs b + n.
Proof.
  intros D (a & b0 & c & d & e & F & T & A & B). destruct (C51_result n b f a b0 c d e D F T A B) as (p & q & _ & _ & _ & _ & _ & _ & E1 & E2 & _). auto.
Qed.

Lemma placed_names n m t : placed n m t -> Permutation (map fst t) (map fst m) /\ list_sum (map snd t) = n + list_sum (map snd m).
Proof.
  intros (k & L & S & P). split.
  - rewrite P. clear P S. revert k L. induction m as [|[x i] m IH]; intros [|a k] L; try discriminate L; [reflexivity|]. injection L as L. cbn [combine map fst snd]. constructor. now apply IH.
  - assert (E : list_sum (map snd t) = list_sum (map snd (map (fun fk : str * nat * nat => (fst (fst fk), snd (fst fk) + snd fk)) (combine m k)))).
    { clear - P. induction P; unfold list_sum in *; cbn [map fold_right] in *; lia. }
    rewrite E. clear E P. subst n. revert k L. unfold list_sum. induction m as [|[x i] m IH]; intros [|a k] L; try discriminate L; [reflexivity|]. injection L as L. cbn [combine map fold_right fst snd]. rewrite (IH k L). lia.
Qed.

Lemma factors_orders fs : list_sum (map snd (factors fs)) = 0.
Proof.
  assert (Z : Forall (fun p : str * nat => snd p = 0) (factors fs)).
  { apply Forall_forall. intros [x k] I. apply in_factors in I as [-> _]. reflexivity. }
  induction Z as [|p l E Z IH]; [reflexivity|]. unfold list_sum in *. cbn [map fold_right]. rewrite E, IH. reflexivity.
Qed.

(** Every list of fields that is parsed has hypercharge zero, and as many derivatives and as many fields as its term. *)
Theorem C97_neutral : forall s, In s [H7_LNV; H9_LNV; H11_LNV] -> forall l, parse_series (Sum (with_generations 3 s)) = Ok l -> forall fields, In fields l ->
  exists n fs q, In ((n, fs), q) (with_generations 3 s) /\ list_sum (map f_derivs fields) = n /\ List.length fields = list_sum (map snd fs) /\
    exists ys, mapM field_y fields = Ok ys /\ fold_right Qcplus 0%Qc ys = 0%Qc.
Proof.
  intros s I l E fields J. destruct (C97_parse s I) as (l' & E' & P). assert (l' = l) as -> by congruence. clear E E'.
  destruct P as [P _]. destruct (P fields J) as (n & fs & q & t & K & Pl & F). exists n, fs, q. split; [exact K|]. fold (factors fs) in Pl. destruct (placed_names _ _ _ Pl) as [Pn Ps]. rewrite factors_orders in Ps.
  assert (C : easy ((n, fs), q) = true /\ neutral ((n, fs), q) = true).
  { cbn [In] in I. destruct I as [<- |[<- |[<- |[]]]].
    - exact (conj (proj1 (forallb_forall _ _) easy7 _ K) (proj1 (forallb_forall _ _) neutral7 _ K)).
    - exact (conj (proj1 (forallb_forall _ _) easy9 _ K) (proj1 (forallb_forall _ _) neutral9 _ K)).
    - exact (conj (proj1 (forallb_forall _ _) easy11 _ K) (proj1 (forallb_forall _ _) neutral11 _ K)). }
  destruct C as [C1 C2].
  assert (G : forall t0 l0, (forall x, In x (map fst t0) -> In x (map fst (factors fs))) -> (forall p, In p t0 -> snd p <= n) ->
     Forall2 (fun (p : str * nat) f => exists b, field_lookup (fst p) = Ok b /\ derived (snd p) b f) t0 l0 ->
     list_sum (map f_derivs l0) = list_sum (map snd t0) /\ exists ys, mapM field_y l0 = Ok ys /\ fold_right Qcplus 0%Qc ys = ysum (map fst t0)).
  { intros t0 l0 Sub Le F0. induction F0 as [|[x k] f t0 l0 (b & Eb & D) F0 IH]; [split; [reflexivity|exists []; split; reflexivity]|].
    destruct IH as (S1 & ys & M & S2); [intros y Y; apply Sub; now right|intros p Y; apply Le; now right|]. cbn [fst snd] in *.
    assert (Ix : exists j, In (x, j) (factors fs)).
    { specialize (Sub x (or_introl eq_refl)). apply in_map_iff in Sub as ([x' j] & [= ->] & Y). eauto. }
    destruct Ix as (j & Ix). destruct (easy_lookup _ C1 x j Ix) as (_ & b' & Eb' & Df & D0 & y & Ey). assert (b' = b) as -> by congruence. cbn [fst snd] in Df.
    assert (Df' : differentiable k b). { destruct Df as (a1 & a2 & a3 & a4 & a5 & X1 & X2 & X3 & X4). specialize (Le _ (or_introl eq_refl)). cbn [snd] in Le. exists a1, a2, a3, a4, a5. repeat split; try apply X1; auto; lia. }
    destruct (derived_facts k b f D Df') as [Ch De]. split.
    - unfold list_sum in *. cbn [map fold_right snd]. rewrite De, D0, S1. reflexivity.
    - exists (y :: ys). assert (Yx : y_of x = y) by (unfold y_of; now rewrite Eb, Ey). assert (Yf : field_y f = Ok y) by (unfold field_y in *; now rewrite Ch). cbn [mapM]. rewrite Yf. cbn [bind]. rewrite M. split; [reflexivity|]. change (y + fold_right Qcplus 0 ys = y_of x + ysum (map fst t0))%Qc. now rewrite Yx, S2. }
  assert (Ln : forall p, In p t -> snd p <= n).
  { intros p Ip. assert (X : snd p <= list_sum (map snd t)); [|lia]. clear - Ip. induction t as [|x t IH]; [destruct Ip|]. unfold list_sum in *. cbn [map fold_right]. destruct Ip as [-> |Ip]; [lia|specialize (IH Ip); lia]. }
  destruct (G t fields) as (S1 & ys & M & S2); [intros x X; exact (Permutation_in _ Pn X)|exact Ln|exact F|].
  split; [lia|]. split.
  - rewrite <- (Spec.Forall2_len F), <- (map_length fst t), (Permutation_length Pn), map_length. unfold factors. clear. unfold list_sum. induction fs as [|p fs IH]; [reflexivity|]. cbn [flat_map map fold_right]. now rewrite app_length, repeat_length, IH.
  - exists ys. split; [exact M|]. rewrite S2, (ysum_perm _ _ Pn). unfold neutral in C2. cbn [fst snd] in C2. now apply Qc_eq_bool_correct in C2.
Qed.

(** ** The shipped operators *)

Lemma strength_name x : In x (map fst strengths) -> In x names.
Proof. intros I. cbn in *. intuition. Qed.

Definition pvec (o : string * list iargs * list (list string)) : list nat := vec (shipped_product (snd (fst o))).
Definition shipped_ok (s7 s9 s11 : list (list nat)) (v : list nat) : bool :=
  if no_strength v then
  if vlepton v then
  if vconserving 5 v then true else if existsb (nats_eq v) s7 then true else if existsb (nats_eq v) s9 then true else existsb (nats_eq v) s11
  else false else false.
Lemma shipped_check : let s7 := map svec H7_LNV in let s9 := map svec H9_LNV in let s11 := map svec H11_LNV in
  forallb (shipped_ok s7 s9 s11) (map pvec (operators_p ++ deriv_operators_p)) = true. Proof. vm_compute. reflexivity. Qed.

Lemma existsb_vec c s : existsb (nats_eq (vec c)) (map svec s) = true -> occurs s c.
Proof. intros E. apply existsb_exists in E as (w & W & X). apply nats_eq_spec in X as <-. now apply occurs_vec. Qed.

(** Every shipped operator, with or without derivatives, has lepton number two and is the Weinberg operator's product or that of a term of
    the series. *)
Theorem C97_shipped : forall name fields eps, In (name, fields, eps) (operators_p ++ deriv_operators_p) ->
  let c := shipped_product fields in
  matter_only c /\ lepton_two c /\ (conserving 5 c \/ occurs H7_LNV c \/ occurs H9_LNV c \/ occurs H11_LNV c).
Proof.
  intros name fields eps I c. pose proof shipped_check as X. cbv zeta in X. rewrite forallb_forall in X. specialize (X (vec c)).
  assert (J : In (vec c) (map pvec (operators_p ++ deriv_operators_p))) by (apply in_map_iff; exists (name, fields, eps); split; [reflexivity|exact I]).
  specialize (X J). unfold shipped_ok in X. destruct (no_strength (vec c)) eqn:N; [|discriminate X]. destruct (vlepton (vec c)) eqn:L; [|discriminate X]. split.
  - intros x S. unfold no_strength in N. rewrite forallb_forall in N. specialize (N x S). rewrite get_vec in N by exact (strength_name x S). exact (proj1 (Nat.eqb_eq _ _) N).
  - split; [now apply vlepton_spec|]. destruct (vconserving 5 (vec c)) eqn:C5; [left; now apply vconserving_spec|]. right.
    destruct (existsb (nats_eq (vec c)) (map svec H7_LNV)) eqn:E7; [left; now apply existsb_vec|]. right.
    destruct (existsb (nats_eq (vec c)) (map svec H9_LNV)) eqn:E9; [left; now apply existsb_vec|]. right. now apply existsb_vec.
Qed.

Definition deriv_ok (ps : list (list nat)) (v : list nat) : bool :=
  if no_strength v then if get v "D"%string =? 0 then true else existsb (nats_eq v) ps else true.
Lemma deriv_check : let ps := map pvec deriv_operators_p in forallb (deriv_ok ps) (map svec (H7_LNV ++ H9_LNV)) = true. Proof. vm_compute. reflexivity. Qed.
Lemma deriv_has : forallb (fun v => if get v "D"%string =? 0 then false else if existsb (nats_eq v) (map svec H7_LNV) then true else existsb (nats_eq v) (map svec H9_LNV)) (map pvec deriv_operators_p) = true.
Proof. vm_compute. reflexivity. Qed.

(** The products with derivatives and without field strengths of the series of dimensions seven and nine are exactly those of the shipped
    operators with derivatives. *)
Theorem C97_derivatives : forall c, matter_only c -> c "D"%string <> 0 ->
  (occurs H7_LNV c \/ occurs H9_LNV c <-> exists name fields eps, In (name, fields, eps) deriv_operators_p /\ same_product (shipped_product fields) c).
Proof.
  intros c M D. split.
  - intros O. assert (I : In (vec c) (map svec (H7_LNV ++ H9_LNV))) by (rewrite map_app, in_app_iff; destruct O as [O|O]; apply occurs_vec in O; auto).
    pose proof deriv_check as X. cbv zeta in X. rewrite forallb_forall in X. specialize (X _ I). unfold deriv_ok in X. rewrite (no_strength_spec c M), get_vec in X by (cbn; auto 20).
    destruct (Nat.eqb_spec (c "D"%string) 0) as [|_]; [contradiction|]. apply existsb_exists in X as (w & W & E). apply nats_eq_spec in E. subst w.
    apply in_map_iff in W as ([[name fields] eps] & E & J). exists name, fields, eps. split; [exact J|]. now apply same_vec.
  - intros (name & fields & eps & I & S). apply same_vec in S. pose proof deriv_has as X. rewrite forallb_forall in X.
    assert (J : In (vec c) (map pvec deriv_operators_p)) by (apply in_map_iff; exists (name, fields, eps); split; [exact S|exact I]). specialize (X _ J).
    destruct (get (vec c) "D"%string =? 0); [discriminate X|].
    destruct (existsb (nats_eq (vec c)) (map svec H7_LNV)) eqn:E7; [left; now apply existsb_vec|right; now apply existsb_vec].
Qed.

(** vectors of the products of at most three of the terms of the Standard Model *)
Definition tvec (ls : list (list string)) : list nat := vec (fold_right (fun l c => times c l) (fun _ => 0) ls).
Definition combos : list (list (list string)) :=
  let one := standard_model_terms in
  [] :: map (fun a => [a]) one ++ flat_map (fun a => map (fun b => [a; b]) one) one ++ flat_map (fun a => flat_map (fun b => map (fun c => [a; b; c]) one) one) one.
Definition vadd (a b : list nat) : list nat := map (fun p => fst p + snd p) (combine a b).
Definition product_ok (ov cv : list (list nat)) (v : list nat) : bool :=
  if no_strength v then if get v "D"%string =? 0 then existsb (fun o => existsb (fun k => nats_eq (vadd o k) v) cv) ov else true else true.
Lemma product_check : let ov := nodup_by nats_eq (map pvec operators_p) in let cv := nodup_by nats_eq (map tvec combos) in
  forallb (product_ok ov cv) (nodup_by nats_eq (map svec (H7_LNV ++ H9_LNV ++ H11_LNV))) = true.
Proof. vm_compute. reflexivity. Qed.

Lemma vadd_vec c c' : vadd (vec c) (vec c') = vec (fun x => c x + c' x).
Proof. unfold vadd, vec. induction names as [|x l IH]; [reflexivity|]. cbn [map combine fst snd]. now rewrite IH. Qed.

Lemma times_sum ls : forall c x, fold_right (fun l c => times c l) c ls x = c x + fold_right (fun l c => times c l) (fun _ => 0) ls x.
Proof. induction ls as [|l ls IH]; intros c x; cbn [fold_right]; [now rewrite Nat.add_0_r|]. unfold times at 1 3. rewrite IH. lia. Qed.

Lemma combos_terms ls : In ls combos -> List.length ls <= 3 /\ forall l, In l ls -> In l standard_model_terms.
Proof.
  unfold combos. cbv zeta. generalize standard_model_terms as one. intros one [<- |I]; [split; [cbn; lia|intros l []]|].
  apply in_app_iff in I as [I|I].
  - apply in_map_iff in I as (a & <- & A). split; [cbn; lia|]. intros l [<- |[]]. exact A.
  - apply in_app_iff in I as [I|I].
    + apply in_flat_map in I as (a & A & I). apply in_map_iff in I as (b & <- & B). split; [cbn; lia|]. intros l [<- |[<- |[]]]; assumption.
    + apply in_flat_map in I as (a & A & I). apply in_flat_map in I as (b & B & I). apply in_map_iff in I as (c & <- & C). split; [cbn; lia|]. intros l [<- |[<- |[<- |[]]]]; assumption.
Qed.

(** Every product without derivatives and field strengths of the series is that of a shipped operator times at most three factors H H^dagger
    or Yukawa couplings. *)
Theorem C97_products : forall c, matter_only c -> c "D"%string = 0 -> occurs H7_LNV c \/ occurs H9_LNV c \/ occurs H11_LNV c ->
  exists name fields eps ls, In (name, fields, eps) operators_p /\ List.length ls <= 3 /\ (forall l, In l ls -> In l standard_model_terms) /\
    same_product (fold_right (fun l p => times p l) (shipped_product fields) ls) c.
Proof.
  intros c M D O. assert (I : In (vec c) (map svec (H7_LNV ++ H9_LNV ++ H11_LNV))).
  { rewrite !map_app, !in_app_iff. destruct O as [O|[O|O]]; apply occurs_vec in O; auto. }
  pose proof product_check as X. cbv zeta in X. rewrite forallb_forall in X. rewrite <- (nodup_by_In nats_eq_spec) in I. specialize (X _ I). unfold product_ok in X. rewrite (no_strength_spec c M), get_vec, D in X by (cbn; auto 20). cbn [Nat.eqb] in X.
  apply existsb_exists in X as (ov & Ov & X). apply existsb_exists in X as (k & K & X). apply nats_eq_spec in X. rewrite (nodup_by_In nats_eq_spec) in Ov, K. apply in_map_iff in Ov as ([[name fields] eps] & <- & J). apply in_map_iff in K as (ls & <- & L).
  exists name, fields, eps, ls. destruct (combos_terms ls L) as [L1 L2]. split; [exact J|]. split; [exact L1|]. split; [exact L2|].
  apply same_vec. rewrite <- X. unfold pvec, tvec. cbn [fst snd]. rewrite vadd_vec. apply map_ext. intros x. apply times_sum.
Qed.

(** There are shipped operators of dimension eleven. *)
Example C97_shipped_example : exists name fields eps, In (name, fields, eps) operators_p /\ occurs H11_LNV (shipped_product fields).
Proof.
  assert (X : existsb (fun o => existsb (nats_eq (pvec o)) (map svec H11_LNV)) operators_p = true) by (vm_compute; reflexivity).
  apply existsb_exists in X as ([[name fields] eps] & I & E). exists name, fields, eps. split; [exact I|]. now apply existsb_vec.
Qed.

Print Assumptions C97_sound.
Print Assumptions C97_complete.
Print Assumptions C97_generations.
Print Assumptions C97_counts_refuted.
Print Assumptions C97_lookup.
Print Assumptions C97_parse.
Print Assumptions C97_tuple_refuted.
Print Assumptions C97_neutral.
Print Assumptions C97_shipped.
Print Assumptions C97_derivatives.
Print Assumptions C97_products.
