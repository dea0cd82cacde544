(** * Show: how integers and rationals print.

    [show_Z] is Python's [str] of an int, [show_Q] is [str] of a [sympy.Rational]: the numerator, and
    ["/" + denominator] unless the denominator is one.  Rationals are Coq's [Qc] (always in lowest terms,
    like [sympy.Rational]). *)

From Coq Require Import List Bool Arith ZArith Lia Ascii String QArith Qcanon.
From Coq Require Import Decimal DecimalString DecimalFacts DecimalZ DecimalNat DecimalPos DecimalN.
From Verif Require Import Base BaseFacts.
Import ListNotations.

Definition show_Z (z : Z) : str := lit (NilEmpty.string_of_int (Z.to_int z)).
Definition show_nat (n : nat) : str := lit (NilEmpty.string_of_uint (Nat.to_uint n)).

Definition show_Q (q : Qc) : str :=
  show_Z (Qnum (this q)) ++
  (if Pos.eqb (Qden (this q)) 1 then [] else lit "/" ++ show_Z (Zpos (Qden (this q)))).

(** ** facts *)

Definition is_digit (c : ascii) : Prop :=
  In c (lit "0123456789").

Lemma lit_inj x y : lit x = lit y -> x = y.
Proof.
  intros E. rewrite <- (string_of_list_ascii_of_string x), <- (string_of_list_ascii_of_string y).
  unfold lit in E. now rewrite E.
Qed.

Lemma uint_digits d : Forall is_digit (lit (NilEmpty.string_of_uint d)).
Proof.
  induction d; simpl; constructor; auto; unfold is_digit; simpl; tauto.
Qed.

Lemma show_Z_inj a b : show_Z a = show_Z b -> a = b.
Proof.
  unfold show_Z. intros E. apply lit_inj in E.
  assert (E2 : Z.to_int a = Z.to_int b).
  { assert (H : Some (Z.to_int a) = Some (Z.to_int b)).
    { rewrite <- !NilEmpty.isi, E; auto. }
    now inversion H. }
  rewrite <- (DecimalZ.of_to a), <- (DecimalZ.of_to b). now rewrite E2.
Qed.

Lemma show_Z_0 : show_Z 0 = lit "0".
Proof. reflexivity. Qed.

Lemma show_Z_neg p : show_Z (Zneg p) = lit "-" ++ show_Z (Zpos p).
Proof. reflexivity. Qed.

Lemma show_Z_pos_digits p : Forall is_digit (show_Z (Zpos p)).
Proof. apply uint_digits. Qed.

Lemma show_Z_pos_nonnil p : show_Z (Zpos p) <> [].
Proof.
  unfold show_Z. simpl. intros E. pose proof (DecimalPos.Unsigned.to_uint_nonnil p) as N.
  destruct (Pos.to_uint p); try discriminate. now apply N.
Qed.

Lemma digit_not c d : is_digit c -> ~ In d (lit "0123456789") -> c <> d.
Proof. unfold is_digit. intros H N ->. contradiction. Qed.

Lemma show_Z_chars z c : In c (show_Z z) -> is_digit c \/ c = "-"%char.
Proof.
  destruct z as [|p|p].
  - rewrite show_Z_0. simpl. intros [<-|[]]. left. unfold is_digit. simpl. tauto.
  - intros H. left. pose proof (show_Z_pos_digits p) as F. rewrite Forall_forall in F. auto.
  - rewrite show_Z_neg. simpl. intros [<-|H]; auto. left.
    pose proof (show_Z_pos_digits p) as F. rewrite Forall_forall in F. auto.
Qed.

Lemma show_Q_chars q c : In c (show_Q q) -> is_digit c \/ c = "-"%char \/ c = "/"%char.
Proof.
  unfold show_Q. rewrite in_app_iff. intros [H|H].
  - apply show_Z_chars in H. tauto.
  - destruct (Pos.eqb _ 1); [destruct H|]. simpl in H. destruct H as [<-|H]; auto.
    apply show_Z_chars in H. tauto.
Qed.

Lemma show_Q_no_comma q : ~ In ","%char (show_Q q).
Proof.
  intros H. apply show_Q_chars in H as [H|[H|H]]; try discriminate.
  unfold is_digit in H. simpl in H. repeat destruct H as [H|H]; discriminate || auto.
Qed.

Lemma show_Q_nonnil q : show_Q q <> [].
Proof.
  unfold show_Q. destruct (Qnum (this q)) as [|p|p].
  - rewrite show_Z_0. discriminate.
  - pose proof (show_Z_pos_nonnil p). destruct (show_Z (Zpos p)); [congruence|discriminate].
  - rewrite show_Z_neg. discriminate.
Qed.

Lemma app_slash_inj (a a' b b' : str) :
  ~ In "/"%char a -> ~ In "/"%char a' ->
  a ++ "/"%char :: b = a' ++ "/"%char :: b' -> a = a' /\ b = b'.
Proof.
  revert a'. induction a as [|x a IH]; intros [|y a'] N N' E; simpl in *.
  - inversion E; auto.
  - inversion E; subst. tauto.
  - inversion E; subst. tauto.
  - inversion E; subst. destruct (IH a') as [-> ->]; auto.
Qed.

Lemma show_Z_no_slash z : ~ In "/"%char (show_Z z).
Proof.
  intros H. apply show_Z_chars in H as [H|H]; [|discriminate].
  unfold is_digit in H. simpl in H. repeat destruct H as [H|H]; discriminate || auto.
Qed.

Lemma show_Q_inj p q : show_Q p = show_Q q -> p = q.
Proof.
  unfold show_Q. intros E.
  assert (E2 : Qnum (this p) = Qnum (this q) /\ Qden (this p) = Qden (this q)).
  { destruct (Pos.eqb (Qden (this p)) 1) eqn:E1; destruct (Pos.eqb (Qden (this q)) 1) eqn:E2.
    - rewrite !List.app_nil_r in E. apply show_Z_inj in E. apply Pos.eqb_eq in E1, E2. split; congruence.
    - rewrite List.app_nil_r in E. exfalso. apply (show_Z_no_slash (Qnum (this p))). rewrite E.
      apply in_app_iff. right. simpl. auto.
    - rewrite List.app_nil_r in E. exfalso. apply (show_Z_no_slash (Qnum (this q))). rewrite <- E.
      apply in_app_iff. right. simpl. auto.
    - change (lit "/") with ["/"%char] in E. simpl in E.
      apply app_slash_inj in E as [Ea Eb]; try apply show_Z_no_slash.
      apply show_Z_inj in Ea, Eb. split; congruence. }
  destruct E2 as [E3 E4]. apply Qc_is_canon. destruct (this p), (this q). simpl in *. subst. reflexivity.
Qed.

Lemma show_Q_0 : show_Q 0%Qc = lit "0".
Proof. reflexivity. Qed.

Lemma show_Q_eq_0 q : show_Q q = lit "0" <-> q = 0%Qc.
Proof.
  split; [|intros ->; reflexivity]. rewrite <- show_Q_0. apply show_Q_inj.
Qed.

Lemma this_opp q : Qnum (this (- q)%Qc) = (- Qnum (this q))%Z /\ Qden (this (- q)%Qc) = Qden (this q).
Proof.
  destruct q as [q H]. change (this (- {| this := q; canon := H |})%Qc) with (Qred (- q)).
  change (this {| this := q; canon := H |}) with q.
  assert (C : Qred (- q) = (- q)%Q).
  { rewrite Qred_opp. now rewrite H. }
  rewrite C. destruct q. simpl. auto.
Qed.

(** no leading zeros *)
Lemma show_Z_pos_no_zero p r : show_Z (Zpos p) <> "0"%char :: r.
Proof.
  unfold show_Z. cbn [Z.to_int NilEmpty.string_of_int]. intros E.
  pose proof (DecimalPos.Unsigned.to_uint_nonzero p) as Nz.
  assert (U : unorm (Pos.to_uint p) = Pos.to_uint p).
  { change (Pos.to_uint p) with (N.to_uint (Npos p)). rewrite <- (DecimalN.Unsigned.of_to (Npos p)) at 2.
    now rewrite DecimalN.Unsigned.to_of. }
  destruct (Pos.to_uint p) as [|u|u|u|u|u|u|u|u|u|u]; try discriminate E.
  unfold unorm in U. cbn [nzhead] in U. pose proof (nzhead_nonzero u) as N.
  destruct (nzhead u) as [|w|w|w|w|w|w|w|w|w|w] eqn:En; try discriminate U.
  - inversion U; subst. now apply Nz.
  - now apply (N w).
Qed.

Lemma show_Q_zero_prefix q r : show_Q q = "0"%char :: r -> q = 0%Qc /\ r = [].
Proof.
  intros E. assert (Z : q = 0%Qc).
  { unfold show_Q in E. apply Qc_is_canon. unfold Qeq. cbn. rewrite Z.mul_1_r.
    destruct (Qnum (this q)) as [|p|p] eqn:En; [reflexivity| |].
    - exfalso. destruct (show_Z (Zpos p)) as [|c s] eqn:Es; [now apply show_Z_pos_nonnil in Es|].
      cbn in E. inversion E; subst. now apply show_Z_pos_no_zero in Es.
    - rewrite show_Z_neg in E. discriminate. }
  subst. split; [reflexivity|]. rewrite show_Q_0 in E. now inversion E.
Qed.
