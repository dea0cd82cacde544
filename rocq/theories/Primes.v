(** * Primes: [sympy.prime] and unique factorisation.

    [sympy.prime(n)] is used by completions/completions.py:1127,1303-1304 and database/database.py:187-188,
    207-208 with n = 1, 2, 3, ...; it is modelled by the n-th prime number itself. *)

From Coq Require Import List Bool Arith ZArith Znumtheory Lia Permutation.
From Verif Require Import Base Spec.
Import ListNotations.
Local Open Scope Z_scope.

(** [n] consecutive integers from [a] *)
Fixpoint zseq (a : Z) (n : nat) : list Z :=
  match n with O => [] | S n' => a :: zseq (a + 1) n' end.

Definition is_prime (p : Z) : bool :=
  (1 <? p) && forallb (fun d => negb (p mod d =? 0)) (zseq 2 (Z.to_nat (p - 2))).

(** look at up to 2^d candidates from [p] on *)
Fixpoint search (d : nat) (p : Z) : Z + Z :=
  match d with
  | O => if is_prime p then inl p else inr (p + 1)
  | S d' => match search d' p with
            | inl q => inl q
            | inr p' => search d' p'
            end
  end.

Definition next_prime (p : Z) : Z :=
  match search (Z.to_nat (p * p)) (p + 1) with inl q => q | inr q => q end.

Fixpoint nth_prime (k : nat) : Z :=
  match k with O => 2 | S k' => next_prime (nth_prime k') end.

(** [sympy.prime(n)], n >= 1 (the package never calls it with n = 0) *)
Definition prime_ (n : nat) : Z := nth_prime (n - 1).

(** ** correctness *)

Lemma zseq_In a n x : In x (zseq a n) <-> a <= x < a + Z.of_nat n.
Proof.
  revert a. induction n as [|n IH]; simpl zseq; intros a.
  - simpl. lia.
  - simpl. rewrite IH. lia.
Qed.

Lemma is_prime_spec p : is_prime p = true <-> prime p.
Proof.
  unfold is_prime. rewrite andb_true_iff, forallb_forall, Z.ltb_lt, <- prime_alt. unfold prime'.
  split; intros [H1 H2]; split; auto.
  - intros n Hn Hd. assert (I : In n (zseq 2 (Z.to_nat (p - 2)))) by (apply zseq_In; lia).
    apply H2 in I. apply negb_true_iff, Z.eqb_neq in I. apply I. apply Z.mod_divide; auto. lia.
  - intros n I. apply zseq_In in I. apply negb_true_iff, Z.eqb_neq. intros E.
    apply (H2 n); [lia|]. apply Z.mod_divide; auto. lia.
Qed.

Lemma search_spec d p :
  match search d p with
  | inl q => p <= q < p + 2 ^ Z.of_nat d /\ prime q /\ forall x, p <= x < q -> ~ prime x
  | inr q => q = p + 2 ^ Z.of_nat d /\ forall x, p <= x < q -> ~ prime x
  end.
Proof.
  revert p. induction d as [|d IH]; intros p.
  - simpl search. change (2 ^ Z.of_nat 0) with 1. destruct (is_prime p) eqn:E.
    + apply is_prime_spec in E. split; [lia|]. split; auto. intros x Hx. lia.
    + split; [lia|]. intros x Hx. assert (x = p) by lia. subst. intros H. apply is_prime_spec in H.
      congruence.
  - simpl search. rewrite Nat2Z.inj_succ, Z.pow_succ_r by lia. pose proof (IH p) as H.
    assert (0 < 2 ^ Z.of_nat d) by (apply Z.pow_pos_nonneg; lia).
    destruct (search d p) as [q|q].
    + destruct H as (H1 & H2 & H3). split; [lia|auto].
    + destruct H as (E & H1). pose proof (IH q) as H'. destruct (search d q) as [r|r].
      * destruct H' as (H4 & H5 & H6). split; [lia|]. split; auto.
        intros x Hx. destruct (Z.lt_ge_cases x q); [apply H1; lia|apply H6; lia].
      * destruct H' as (E' & H6). split; [lia|].
        intros x Hx. destruct (Z.lt_ge_cases x q); [apply H1; lia|apply H6; lia].
Qed.

Lemma prime_divisor n : 1 < n -> exists p, prime p /\ (p | n).
Proof.
  intros H. assert (G : forall k : nat, forall m, 1 < m -> m < Z.of_nat k -> exists p, prime p /\ (p | m)).
  { induction k as [|k IH]; intros m Hm Hk; [lia|].
    destruct (is_prime m) eqn:E.
    - apply is_prime_spec in E. exists m. split; auto. apply Z.divide_refl.
    - unfold is_prime in E. apply andb_false_iff in E as [E|E]; [apply Z.ltb_ge in E; lia|].
      assert (X : exists d, In d (zseq 2 (Z.to_nat (m - 2))) /\ m mod d = 0).
      { clear -E. induction (zseq 2 (Z.to_nat (m - 2))) as [|d l IHl]; [discriminate|].
        simpl in E. apply andb_false_iff in E as [E|E].
        - exists d. split; [left; auto|]. apply negb_false_iff, Z.eqb_eq in E. exact E.
        - destruct (IHl E) as (d' & I & Hd). exists d'. split; [right|]; auto. }
      destruct X as (d & I & Hd). apply zseq_In in I.
      destruct (IH d) as (p & Hp & Hpd); [lia|lia|]. exists p. split; auto.
      apply Z.divide_trans with d; auto. apply Z.mod_divide; auto. lia. }
  apply (G (Z.to_nat (n + 1))); lia.
Qed.

Fixpoint zfact (n : nat) : Z := match n with O => 1 | S k => Z.of_nat n * zfact k end.

Lemma zfact_pos n : 0 < zfact n.
Proof. induction n as [|n IH]; [simpl; lia|]. cbn [zfact]. apply Z.mul_pos_pos; lia. Qed.

Lemma zfact_divide n k : 0 < k <= Z.of_nat n -> (k | zfact n).
Proof.
  induction n as [|n IH]; [lia|]. intros H. cbn [zfact]. destruct (Z.eq_dec k (Z.of_nat (S n))) as [->|N].
  - apply Z.divide_factor_l.
  - apply Z.divide_mul_r. apply IH. lia.
Qed.

Lemma zfact_bound n : zfact n <= 2 ^ (Z.of_nat n * Z.of_nat n).
Proof.
  assert (G : forall m : nat, (m <= n)%nat -> zfact m <= 2 ^ (Z.of_nat m * Z.of_nat n)).
  { induction m as [|m IH]; intros Hm; [simpl; lia|]. cbn [zfact].
    replace (Z.of_nat (S m) * Z.of_nat n) with (Z.of_nat n + Z.of_nat m * Z.of_nat n) by lia.
    rewrite Z.pow_add_r by lia. apply Z.mul_le_mono_nonneg.
    - lia.
    - apply Z.le_trans with (Z.of_nat n); [lia|].
      destruct (Z.eq_dec (Z.of_nat n) 0) as [E|N0]; [rewrite E; simpl; lia|].
      apply Z.lt_le_incl. apply Z.pow_gt_lin_r; lia.
    - pose proof (zfact_pos m). lia.
    - apply IH. lia. }
  apply G. lia.
Qed.

Lemma euclid p : 1 < p -> exists q, prime q /\ p < q <= zfact (Z.to_nat p) + 1.
Proof.
  intros H. destruct (prime_divisor (zfact (Z.to_nat p) + 1)) as (q & Hq & Hd).
  - pose proof (zfact_pos (Z.to_nat p)). lia.
  - exists q. split; auto. split.
    + destruct (Z.lt_ge_cases p q) as [L|L]; auto. exfalso.
      assert (D : (q | zfact (Z.to_nat p))).
      { apply zfact_divide. destruct Hq. lia. }
      assert (D1 : (q | 1)).
      { replace 1 with ((zfact (Z.to_nat p) + 1) - zfact (Z.to_nat p)) by lia.
        now apply Z.divide_sub_r. }
      apply Z.divide_1_r_nonneg in D1; destruct Hq; lia.
    + apply Z.divide_pos_le; auto. pose proof (zfact_pos (Z.to_nat p)). lia.
Qed.

Lemma next_prime_spec p :
  1 < p -> prime (next_prime p) /\ p < next_prime p /\ (forall x, p < x < next_prime p -> ~ prime x).
Proof.
  intros H. unfold next_prime. pose proof (search_spec (Z.to_nat (p * p)) (p + 1)) as S.
  destruct (search (Z.to_nat (p * p)) (p + 1)) as [q|q].
  - destruct S as (S1 & S2 & S3). split; auto. split; [lia|]. intros x Hx. apply S3. lia.
  - exfalso. destruct S as (E & S). destruct (euclid p H) as (r & Hr & L1 & L2).
    apply (S r); auto. split; [lia|]. rewrite E.
    pose proof (zfact_bound (Z.to_nat p)) as B.
    replace (Z.of_nat (Z.to_nat (p * p))) with (p * p) by nia.
    rewrite Z2Nat.id in B by lia. lia.
Qed.

Lemma nth_prime_prime k : prime (nth_prime k).
Proof.
  induction k as [|k IH]; simpl; [apply prime_2|]. apply next_prime_spec. destruct IH; lia.
Qed.

Lemma nth_prime_lt_S k : nth_prime k < nth_prime (S k).
Proof. simpl. apply next_prime_spec. destruct (nth_prime_prime k); lia. Qed.

Lemma nth_prime_lt j k : (j < k)%nat -> nth_prime j < nth_prime k.
Proof.
  induction 1 as [|k H IH]; [apply nth_prime_lt_S|]. pose proof (nth_prime_lt_S k). lia.
Qed.

Lemma nth_prime_inj j k : nth_prime j = nth_prime k -> j = k.
Proof.
  intros E. destruct (lt_eq_lt_dec j k) as [[L|L]|L]; auto; apply nth_prime_lt in L; lia.
Qed.

(** [prime_] really enumerates the primes: 2 first, nothing skipped *)
Theorem prime_enumerates p : prime p <-> exists n, (1 <= n)%nat /\ prime_ n = p.
Proof.
  split.
  - intros Hp. assert (G : forall k, nth_prime k <= p -> exists n, nth_prime n = p \/ nth_prime (k + n) <= p).
    { intros k Hk. exists O. right. now rewrite Nat.add_0_r. }
    clear G.
    assert (B : forall k, Z.of_nat k + 2 <= nth_prime k).
    { induction k as [|k IH]; [simpl; lia|]. pose proof (nth_prime_lt_S k). lia. }
    assert (S : forall k, p < nth_prime k -> exists n, nth_prime n = p).
    { induction k as [|k IH]; intros L.
      - simpl in L. destruct Hp. lia.
      - destruct (Z.lt_ge_cases p (nth_prime k)) as [L'|L']; [auto|].
        destruct (Z.eq_dec p (nth_prime k)) as [->|N]; [exists k; auto|].
        exfalso. assert (P1 : 1 < nth_prime k) by (destruct (nth_prime_prime k); lia).
        destruct (next_prime_spec _ P1) as (_ & _ & X). apply (X p); auto. simpl in L. lia. }
    destruct (S (Z.to_nat p)) as [n Hn].
    + specialize (B (Z.to_nat p)). destruct Hp. lia.
    + exists (Datatypes.S n). split; [lia|]. unfold prime_. simpl. now rewrite Nat.sub_0_r.
  - intros (n & _ & <-). apply nth_prime_prime.
Qed.

Lemma prime_prime n : prime (prime_ n).
Proof. apply nth_prime_prime. Qed.

Lemma prime_inj m n : (1 <= m)%nat -> (1 <= n)%nat -> prime_ m = prime_ n -> m = n.
Proof. unfold prime_. intros H1 H2 E. apply nth_prime_inj in E. lia. Qed.

Example prime_first : map prime_ (seq 1 8) = [2; 3; 5; 7; 11; 13; 17; 19].
Proof. vm_compute. reflexivity. Qed.

(** ** products of primes *)

Lemma Zprod_app a b : Zprod (a ++ b) = Zprod a * Zprod b.
Proof. induction a as [|x a IH]; simpl Zprod; simpl app; [destruct (Zprod b); reflexivity|]. cbn [Zprod]. rewrite IH. ring. Qed.

Lemma Zprod_perm a b : Permutation a b -> Zprod a = Zprod b.
Proof. induction 1; simpl; auto; [now rewrite IHPermutation|ring|congruence]. Qed.

Lemma Zprod_pos l : Forall prime l -> 0 < Zprod l.
Proof.
  induction 1 as [|x l H Hl IH]; simpl; [lia|]. destruct H. nia.
Qed.

Lemma prime_divides_prod p l : prime p -> Forall prime l -> (p | Zprod l) -> In p l.
Proof.
  intros Hp. induction 1 as [|x l H Hl IH]; simpl; intros D.
  - exfalso. apply Z.divide_1_r_nonneg in D; destruct Hp; lia.
  - apply prime_mult in D; auto. destruct D as [D|D]; auto.
    left. symmetry. now apply prime_div_prime.
Qed.

Lemma Zprod_divides_iff a b :
  Forall prime a -> Forall prime b -> ((Zprod a | Zprod b) <-> contains b a).
Proof.
  intros Ha. revert b. induction Ha as [|x a Hx Ha IH]; intros b Hb.
  - split; intros _; [apply contains_nil|apply Z.divide_1_l].
  - split.
    + intros D. simpl in D. assert (I : In x b).
      { apply prime_divides_prod; auto. apply Z.divide_trans with (x * Zprod a); auto.
        apply Z.divide_factor_l. }
      apply in_split in I as (b1 & b2 & ->).
      assert (Hb' : Forall prime (b1 ++ b2)).
      { rewrite Forall_app in *. destruct Hb as [? Hb]. inversion Hb; auto. }
      destruct (proj1 (IH _ Hb')) as [r Hr].
      * rewrite Zprod_app in *. simpl in D. apply Z.mul_divide_cancel_l with x; [destruct Hx; lia|].
        replace (x * (Zprod b1 * Zprod b2)) with (Zprod b1 * (x * Zprod b2)) by ring. exact D.
      * exists r. rewrite <- Permutation_middle. simpl. now constructor.
    + intros [r P]. rewrite (Zprod_perm _ _ P), Zprod_app. apply Z.divide_factor_l.
Qed.

Lemma Zprod_eq_iff a b :
  Forall prime a -> Forall prime b -> (Zprod a = Zprod b <-> Permutation a b).
Proof.
  intros Ha Hb. split; [|apply Zprod_perm]. intros E.
  assert (C : contains b a).
  { apply Zprod_divides_iff; auto. rewrite E. apply Z.divide_refl. }
  destruct C as [r P]. destruct r as [|x r].
  - rewrite app_nil_r in P. now symmetry.
  - exfalso. pose proof (Zprod_perm _ _ P) as Q. rewrite Zprod_app in Q. simpl in Q.
    assert (F : Forall prime (a ++ x :: r)) by (eapply Permutation_Forall; eauto).
    rewrite Forall_app in F. destruct F as [_ F]. inversion F; subst.
    pose proof (Zprod_pos a Ha). pose proof (Zprod_pos r H2). destruct H1 as [H1 _].
    assert (G : 2 <= x * Zprod r) by nia. nia.
Qed.

(** ** primes as labels of equivalence classes *)

Section Labels.
  Context {X : Type} (f : X -> Z) (R : X -> X -> Prop).

  Lemma contains_map_R (a b : list X) :
    (forall x y, In x a -> In y b -> (f x = f y <-> R x y)) ->
    (contains (map f b) (map f a) <-> contains_upto R b a).
  Proof using Type.
    intros HR. split.
    - intros [r P]. apply Permutation_sym, Permutation_map_inv in P as (l3 & E & P).
      assert (S : exists a' r', l3 = a' ++ r' /\ map f a' = map f a).
      { clear -E. revert l3 E. induction a as [|x a IH]; simpl; intros l3 E.
        - exists [], l3. auto.
        - destruct l3 as [|y l3]; [discriminate|]. inversion E.
          destruct (IH _ H1) as (a' & r' & -> & Ea). exists (y :: a'), r'.
          split; auto. simpl. congruence. }
      destruct S as (a' & r' & -> & Ea). exists a'. split; [|exists r'; exact P].
      assert (Sub : forall y, In y a' -> In y b).
      { intros y Hy. apply (Permutation_in y (Permutation_sym P)). apply in_app_iff. auto. }
      clear P E. revert a' Ea Sub. induction a as [|x a IH]; intros [|y a'] Ea Sub; try discriminate.
      + constructor.
      + simpl in Ea. inversion Ea. constructor.
        * apply HR; [left; auto|apply Sub; left; auto|congruence].
        * apply IH; auto.
          -- intros x0 y0 I1 I2. apply HR; auto. right; auto.
          -- intros z Hz. apply Sub. right; auto.
    - intros (a' & F & [r P]). exists (map f r).
      rewrite (Permutation_map f P), map_app. apply Permutation_app_tail.
      assert (Sub : forall y, In y a' -> In y b).
      { intros y Hy. apply (Permutation_in y (Permutation_sym P)). apply in_app_iff. auto. }
      assert (E : map f a = map f a'); [|now rewrite E].
      clear P. revert Sub. induction F as [|x y a a' Hxy F IH]; simpl; intros Sub; auto.
      f_equal.
      + apply HR; [left; auto|apply Sub; left; auto|auto].
      + apply IH; [|intros; apply Sub; auto]. intros x0 y0 I1 I2. apply HR; auto. right; auto.
  Qed.

  Lemma same_map_R (a b : list X) :
    (forall x y, In x a -> In y b -> (f x = f y <-> R x y)) ->
    (Permutation (map f a) (map f b) <-> same_upto R a b).
  Proof using Type.
    intros HR. split.
    - intros P. destruct (contains_map_R a b HR) as [H _].
      destruct H as (a' & F & [r P']).
      { exists []. rewrite app_nil_r. now symmetry. }
      exists a'. split; auto. assert (r = []).
      { apply Permutation_length in P, P'. apply Forall2_len in F.
        rewrite !map_length in P. rewrite app_length in P'. destruct r; auto. simpl in P'. lia. }
      subst. rewrite app_nil_r in P'. now symmetry.
    - intros (a' & F & P). rewrite <- (Permutation_map f P).
      assert (Sub : forall y, In y a' -> In y b) by (intros y; apply Permutation_in; auto).
      assert (E : map f a = map f a'); [|now rewrite E].
      clear P. revert Sub. induction F as [|x y a a' Hxy F IH]; simpl; intros Sub; auto.
      f_equal.
      + apply HR; [left; auto|apply Sub; left; auto|auto].
      + apply IH; [|intros; apply Sub; auto]. intros x0 y0 I1 I2. apply HR; auto. right; auto.
  Qed.
End Labels.
