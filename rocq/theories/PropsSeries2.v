(** * PropsSeries2: C97, three generations, what is parsed, and the operators shipped with the package *)

From Coq Require Import Ascii String List Bool Arith ZArith QArith Qcanon Lia Permutation.
From Verif Require Import Base BaseFacts Show ModelIndex SpecIndex ModelField SpecField ProofsField ModelLagrangian ModelDeriv SpecDeriv PropsDeriv PropsDeriv2
  DataSeries ModelSeries SpecSeries PropsSeries DataOperators.
Import ListNotations.
Local Open Scope nat_scope.

(** ** Three generations *)

Definition ebool (s : list summand) (cq : content * Q) : bool :=
  let c := product_with (fst (fst cq)) (snd (fst cq)) in
  if Qeq_bool (snd cq) (coefficient 3 s c) then if Qeq_bool (snd cq) 0 then false else true else false.
Definition evec (cq : content * Q) : list nat := vec (product_with (fst (fst cq)) (snd (fst cq))).

Definition gcheck (s : list summand) : bool :=
  let es := with_generations 3 s in
  if forallb (ebool s) es then
  if forallb (fun t => existsb (nats_eq (svec t)) (map evec es)) s then
  if forallb (fun cq => existsb (nats_eq (evec cq)) (map svec s)) es then
  list_eqb nats_eq (nodup_by nats_eq (map evec es)) (map evec es) else false else false else false.

Lemma gcheck_spec s : gcheck s = true ->
  let es := with_generations 3 s in
  (forall n fs q, In ((n, fs), q) es -> occurs s (product_with n fs) /\ (q == coefficient 3 s (product_with n fs))%Q /\ ~ (q == 0)%Q) /\
  (forall c, occurs s c -> exists n fs q, In ((n, fs), q) es /\ same_product (product_with n fs) c) /\
  NoDup (map evec es).
Proof.
  intros G. unfold gcheck in G. cbv zeta in G. set (es := with_generations 3 s) in *. cbv zeta.
  destruct (forallb (ebool s) es) eqn:G1; [|discriminate G]. destruct (forallb (fun t => existsb (nats_eq (svec t)) (map evec es)) s) eqn:G2; [|discriminate G].
  destruct (forallb (fun cq => existsb (nats_eq (evec cq)) (map svec s)) es) eqn:G3; [|discriminate G].
  rewrite forallb_forall in G1, G2, G3. split; [|split].
  - intros n fs q I. specialize (G1 _ I). specialize (G3 _ I). unfold ebool in G1. cbn [fst snd] in G1.
    destruct (Qeq_bool q (coefficient 3 s (product_with n fs))) eqn:E; [|discriminate G1]. destruct (Qeq_bool q 0) eqn:E0; [discriminate G1|].
    split; [|split; [now apply Qeq_bool_iff|intros X; apply Qeq_bool_iff in X; congruence]].
    apply occurs_vec. apply existsb_exists in G3 as (w & W & X). apply nats_eq_spec in X. unfold evec in X. cbn [fst snd] in X. rewrite X. exact W.
  - intros c O. apply occurs_vec in O. apply in_map_iff in O as (t & Et & I). specialize (G2 t I). apply existsb_exists in G2 as (w & W & X). apply nats_eq_spec in X. subst w.
    apply in_map_iff in W as ([[n fs] q] & Ev & J). exists n, fs, q. split; [exact J|]. apply same_vec. rewrite <- Et. exact Ev.
  - apply (list_decides nats_eq_spec) in G. rewrite <- G. apply nodup_by_NoDup. exact nats_eq_spec.
Qed.

Lemma gcheck7 : gcheck H7_LNV = true. Proof. vm_compute. reflexivity. Qed.
Lemma gcheck9 : gcheck H9_LNV = true. Proof. vm_compute. reflexivity. Qed.
Lemma gcheck11 : gcheck H11_LNV = true. Proof. vm_compute. reflexivity. Qed.

(** For three generations no term cancels: the series have one term for each product, with the sum of its coefficients, which is
    not zero. *)
Theorem C97_generations : forall s, In s [H7_LNV; H9_LNV; H11_LNV] ->
  let es := with_generations 3 s in
  (forall n fs q, In ((n, fs), q) es -> occurs s (product_with n fs) /\ (q == coefficient 3 s (product_with n fs))%Q /\ ~ (q == 0)%Q) /\
  (forall c, occurs s c -> exists n fs q, In ((n, fs), q) es /\ same_product (product_with n fs) c) /\
  NoDup (map (fun cq : content * Q => map (product_with (fst (fst cq)) (snd (fst cq))) (map fst table)) es).
Proof.
  intros s I. apply gcheck_spec. cbn [In] in I. destruct I as [<- |[<- |[<- |[]]]]; [exact gcheck7|exact gcheck9|exact gcheck11].
Qed.

Lemma coefficient_filter nf s c : coefficient nf s c =
  fold_right (fun (qk : Q * nat) sum => (fst qk * inject_Z (Z.of_nat (nf ^ snd qk)) + sum)%Q) 0%Q
    (map (fun t : summand => let '(q, k, _, _) := t in (q, k)) (filter (fun t : summand => let '(q, k, n, fs) := t in same_productb (product_with n fs) c) s)).
Proof.
  unfold coefficient. induction s as [|[[[q k] n] fs] s IH]; [reflexivity|]. cbn [fold_right filter]. destruct (same_productb (product_with n fs) c); [|exact IH].
  cbn [map fold_right fst snd]. now rewrite IH.
Qed.

(** The coefficients are not numbers of operators: in each series some are negative.  For instance the product of two lepton doublets, two
    Higgs doublets and the field strength B should have n(n-1)/2 operators for n generations, which is three, but has
    coefficient -n(n+1)/2. *)
Theorem C97_counts_refuted :
  (forall s, In s [H7_LNV; H9_LNV; H11_LNV] -> exists c q, In (c, q) (with_generations 3 s) /\ (q < 0)%Q) /\
  forall nf, (coefficient nf H7_LNV (product_with 0 [("B"%string, 1%nat); ("H"%string, 2%nat); ("L"%string, 2%nat)]) == - (inject_Z (Z.of_nat (nf * (nf + 1))) / inject_Z 2))%Q.
Proof.
  split.
  - assert (X : forall s, existsb (fun cq : content * Q => negb (Qle_bool 0 (snd cq))) (with_generations 3 s) = true -> exists c q, In (c, q) (with_generations 3 s) /\ (q < 0)%Q).
    { intros s E. apply existsb_exists in E as ([c q] & I & N). exists c, q. split; [exact I|]. cbn [snd] in N. apply Bool.negb_true_iff in N.
      apply Qnot_le_lt. intros L. apply Qle_bool_iff in L. congruence. }
    intros s [<- |[<- |[<- |[]]]]; apply X; vm_compute; reflexivity.
  - intros nf. rewrite coefficient_filter.
    assert (E : map (fun t : summand => let '(q, k, _, _) := t in (q, k)) (filter (fun t : summand => let '(q, k, n, fs) := t in same_productb (product_with n fs) (product_with 0 [("B"%string, 1%nat); ("H"%string, 2%nat); ("L"%string, 2%nat)])) H7_LNV) = [(-1 # 2, 1%nat); (-1 # 2, 2%nat)]) by (vm_compute; reflexivity).
    rewrite E. cbn [fold_right fst snd]. rewrite Nat.mul_add_distr_l, Nat.mul_1_r, Nat2Z.inj_add. rewrite (inject_Z_plus (Z.of_nat (nf * nf))). cbn [Nat.pow]. rewrite Nat.mul_1_r. field.
Qed.

(** ** The fields of the parser *)

Ltac row_tac :=
  cbn [fst snd];
  match goal with |- exists f a b c d e, field_lookup ?n = Ok f /\ _ =>
    let r := eval vm_compute in (field_lookup n) in
    match r with Ok ?f =>
      let l := eval vm_compute in (dynkin_ints f) in
      match l with Ok [?a; ?b; ?c; ?d; ?e] => exists f, a, b, c, d, e; split; [vm_compute; reflexivity|] end
    end
  end;
  split; [split; [reflexivity|]; split; [lia|]; split; [eexists; eexists; exists []; split; [reflexivity|]; repeat constructor; cbn; intuition discriminate|cbn; auto]|];
  split; [discriminate|]; split; [reflexivity|]; split; [repeat split; vm_compute; reflexivity|];
  unfold field_y; cbn; f_equal; apply Qc_is_canon; vm_compute; reflexivity.

(** Each function stands for the field with the spinor, colour and isospin labels and the hypercharge of the table. *)
Lemma lookup_all : Forall (fun r : string * quantum => exists f a b c d e, field_lookup (lit (fst r)) = Ok f /\ field_ok f a b c d e /\ f_latex f <> [] /\ f_derivs f = 0 /\
   (Z.of_nat a = q_left (snd r) /\ Z.of_nat b = q_right (snd r) /\ Z.of_nat e = q_iso (snd r) /\ (Z.of_nat c - Z.of_nat d - q_tri (snd r)) mod 3 = 0)%Z /\
   field_y f = Ok (Q2Qc (q_y (snd r) # 6))) (matter ++ strengths).
Proof.
  unfold matter, strengths. cbn [app].
  repeat (apply Forall_cons; [row_tac|]). apply Forall_nil.
Qed.

Theorem C97_lookup : forall x q, In (x, q) (matter ++ strengths) -> exists f a b c d e, field_lookup (lit x) = Ok f /\ field_ok f a b c d e /\ f_derivs f = 0 /\
   (Z.of_nat a = q_left q /\ Z.of_nat b = q_right q /\ Z.of_nat e = q_iso q /\ (Z.of_nat c - Z.of_nat d - q_tri q) mod 3 = 0)%Z /\
   field_y f = Ok (Q2Qc (q_y q # 6)).
Proof.
  intros x q I. pose proof lookup_all as A. rewrite Forall_forall in A. destruct (A (x, q) I) as (f & a & b & c & d & e & E & F & _ & D0 & L & Y). cbn [fst snd] in *.
  exists f, a, b, c, d, e. auto 8.
Qed.

(** ** Parsing *)

Definition easy (cq : content * Q) : bool :=
  if fst (fst cq) <=? 4 then forallb (fun p => existsb (String.eqb (fst p)) (map fst (matter ++ strengths))) (snd (fst cq)) else false.

Lemma in_factors x k fs : In (x, k) (factors fs) -> k = 0 /\ exists p, In p fs /\ x = lit (fst p).
Proof.
  unfold factors. intros I. apply in_flat_map in I as (p & J & R). apply repeat_spec in R. injection R as -> ->. split; [reflexivity|eauto].
Qed.

Lemma easy_lookup cq : easy cq = true -> forall x k, In (x, k) (factors (snd (fst cq))) -> k = 0 /\ exists f, field_lookup x = Ok f /\ differentiable (fst (fst cq)) f /\ f_derivs f = 0 /\ exists y, field_y f = Ok y.
Proof.
  unfold easy. intros E x k I. destruct (Nat.leb_spec (fst (fst cq)) 4) as [L|]; [|discriminate E]. apply in_factors in I as (-> & p & J & ->). split; [reflexivity|].
  rewrite forallb_forall in E. specialize (E p J). apply existsb_exists in E as (y & Y & Ey). apply String.eqb_eq in Ey as <-.
  pose proof lookup_all as A. rewrite Forall_forall in A. apply in_map_iff in Y as ([x q] & <- & Iq). destruct (A _ Iq) as (f & a & b & c & d & e & F & Fo & T & D0 & Q & Yf). cbn [fst snd] in *.
  exists f. split; [exact F|]. split; [|eauto]. exists a, b, c, d, e. split; [exact Fo|]. split; [exact T|].
  assert (B : Forall (fun r : string * quantum => (q_left (snd r) <= 2 /\ q_right (snd r) <= 2)%Z) (matter ++ strengths)) by (repeat constructor; vm_compute; discriminate).
  rewrite Forall_forall in B. specialize (B _ Iq). cbn [snd] in B. lia.
Qed.

Lemma expands_two : forall t bs s, mapM (fun x : str * nat => field_lookup (fst x)) t = Ok bs ->
  (expands (map Some (combine (map snd t) bs)) s <-> Forall2 (fun (p : str * nat) f => exists b, field_lookup (fst p) = Ok b /\ derived (snd p) b f) t s).
Proof.
  induction t as [|[x k] t IH]; intros bs s M; cbn [mapM fst] in M.
  - injection M as <-. cbn. split; [intros E; inversion E; constructor|intros F; inversion F; constructor].
  - apply bind_ok in M as (b & Eb & M). apply bind_ok in M as (bs' & Ebs & M). injection M as <-. cbn [map combine snd]. split.
    + intros E. inversion E as [| |n f g l u D X E1 E2]; subst. constructor; [exists b; auto|]. now apply (IH bs' u Ebs).
    + intros F. inversion F as [|? g ? u (b' & Eb' & D) X]; subst. cbn [fst snd] in *. assert (b' = b) as -> by congruence. constructor; [exact D|]. now apply (IH bs' u Ebs).
Qed.

Lemma mapM_concat {A B} (f : A -> res (list B)) l : (forall x, In x l -> exists y, f x = Ok y) ->
  exists ys, mapM f l = Ok ys /\ forall z, In z (List.concat ys) <-> exists x y, In x l /\ f x = Ok y /\ In z y.
Proof.
  induction l as [|x l IH]; intros H.
  - exists []. split; [reflexivity|]. cbn. split; [intros []|intros (x & _ & [] & _)].
  - destruct (H x (or_introl eq_refl)) as (y & E). destruct IH as (ys & Es & I); [intros; apply H; now right|]. exists (y :: ys). cbn [mapM]. rewrite E. cbn [bind]. rewrite Es. split; [reflexivity|].
    intros z. cbn [List.concat]. rewrite in_app_iff, I. split.
    + intros [Z|(x' & y' & J & E' & Z)]; [exists x, y; cbn; auto|exists x', y'; cbn; auto].
    + intros (x' & y' & [<- |J] & E' & Z); [left; congruence|right; eauto].
Qed.

Lemma parse_easy es : forallb easy es = true -> forall s, s = Sum es \/ s = ListOf es -> exists l, parse_series s = Ok l /\ parsed field_lookup es l.
Proof.
  intros E s Hs. rewrite forallb_forall in E. unfold parse_series. assert (T : terms_of s = Ok es) by (destruct Hs as [-> | ->]; reflexivity). rewrite T. cbn [bind].
  assert (P : forall cq, In cq es -> exists ss, parse field_lookup (fst (fst cq)) (factors (snd (fst cq))) = Ok ss /\
    forall s, In s ss <-> exists t fs, In t (distribute_derivatives (fst (fst cq)) (factors (snd (fst cq)))) /\ mapM (fun x => field_lookup (fst x)) t = Ok fs /\
                                       expands (map Some (combine (map snd t) fs)) s).
  { intros cq I. apply C85_parse. intros x k J. destruct (easy_lookup cq (E cq I) x k J) as (-> & f & F & D & _). split; [reflexivity|eauto]. }
  destruct (mapM_concat (fun cq : content * Q => parse field_lookup (fst (fst cq)) (factors (snd (fst cq)))) es) as (ls & Els & I).
  { intros cq J. destruct (P cq J) as (ss & Es & _). eauto. }
  rewrite Els. cbn [bind]. exists (List.concat ls). split; [reflexivity|]. split.
  - intros u U. apply I in U as ([[n fs] q] & ss & J & Es & U). destruct (P _ J) as (ss' & Es' & X). assert (ss' = ss) as -> by congruence. apply X in U as (t & bs & D & M & Ex). cbn [fst snd] in *.
    exists n, fs, q, t. split; [exact J|]. split; [exact (proj1 (C85_distribute n (factors fs)) t D)|]. now apply (expands_two t bs u M).
  - intros n fs q t J Pl. destruct (proj1 (proj2 (C85_distribute n (factors fs))) t Pl) as (t' & D & Pt). exists t'. split; [exact Pt|]. intros u F. apply I.
    destruct (P _ J) as (ss & Es & X). cbn [fst snd] in *. exists (n, fs, q), ss. split; [exact J|]. split; [exact Es|]. apply X.
    assert (M : exists bs, mapM (fun x : str * nat => field_lookup (fst x)) t' = Ok bs).
    { clear - F. induction F as [|p f t' u (b & Eb & _) F (bs & M)]; [now exists []|]. exists (b :: bs). cbn [mapM]. now rewrite Eb, M. }
    destruct M as (bs & M). exists t', bs. split; [exact D|]. split; [exact M|]. now apply (expands_two t' bs u M).
Qed.

Lemma easy6 : forallb easy (as_written H6) = true. Proof. vm_compute. reflexivity. Qed.
Lemma easy7 : forallb easy (with_generations 3 H7_LNV) = true. Proof. vm_compute. reflexivity. Qed.
Lemma easy9 : forallb easy (with_generations 3 H9_LNV) = true. Proof. vm_compute. reflexivity. Qed.
Lemma easy11 : forallb easy (with_generations 3 H11_LNV) = true. Proof. vm_compute. reflexivity. Qed.

(** Each series is parsed, and the lists of fields are exactly those that arise from its terms by placing the derivatives on the factors
    and choosing the spinor labels of each derivative. *)
Theorem C97_parse : forall s, In s [H7_LNV; H9_LNV; H11_LNV] -> exists l, parse_series (Sum (with_generations 3 s)) = Ok l /\ parsed field_lookup (with_generations 3 s) l.
Proof.
  intros s I. cbn [In] in I. destruct I as [<- |[<- |[<- |[]]]]; [exact (parse_easy _ easy7 _ (or_introl eq_refl))|exact (parse_easy _ easy9 _ (or_introl eq_refl))|exact (parse_easy _ easy11 _ (or_introl eq_refl))].
Qed.

(** The series of dimension six is not a sum but a tuple, which [parse] does not take; as a list it would be parsed. *)
Theorem C97_tuple_refuted : parse_series (TupleOf (as_written H6)) = Err AttributeError /\ exists l, parse_series (ListOf (as_written H6)) = Ok l /\ parsed field_lookup (as_written H6) l.
Proof. split; [reflexivity|exact (parse_easy _ easy6 _ (or_intror eq_refl))]. Qed.
