(** * ShowRead: reading numbers back.  [read_Q] is [sympy.Rational] of a string "p" or "p/q", [read_N] is the value of a
      string of decimal digits. *)

From Coq Require Import List Bool Arith ZArith NArith Lia Ascii String QArith Qcanon.
From Coq Require Import Decimal DecimalString DecimalFacts DecimalZ DecimalNat DecimalPos DecimalN.
From Verif Require Import Base BaseFacts Show.
Import ListNotations.
Local Open Scope nat_scope.

Definition read_Z (s : str) : option Z := option_map Z.of_int (NilEmpty.int_of_string (string_of_list_ascii s)).

Definition read_N (s : str) : option N := option_map N.of_uint (NilEmpty.uint_of_string (string_of_list_ascii s)).

Definition read_Q (s : str) : option Qc :=
  match split_on "/" s with
  | [a] => match read_Z a with Some n => Some (Q2Qc (inject_Z n)) | None => None end
  | [a; b] => match read_Z a, read_Z b with
              | Some n, Some (Zpos d) => Some (Q2Qc (Qmake n d))
              | _, _ => None
              end
  | _ => None
  end.

Definition show_N (n : N) : str := show_Z (Z.of_N n).

Lemma read_show_Z z : read_Z (show_Z z) = Some z.
Proof.
  unfold read_Z, show_Z, lit. rewrite string_of_list_ascii_of_string, NilEmpty.isi. cbn. now rewrite DecimalZ.of_to.
Qed.

Lemma show_N_uint n : show_N n = lit (NilEmpty.string_of_uint (N.to_uint n)).
Proof. unfold show_N, show_Z. destruct n; reflexivity. Qed.

Lemma read_show_N n : read_N (show_N n) = Some n.
Proof.
  rewrite show_N_uint. unfold read_N, lit. rewrite string_of_list_ascii_of_string, NilEmpty.usu. cbn.
  now rewrite DecimalN.Unsigned.of_to.
Qed.

Lemma show_N_digits n : Forall is_digit (show_N n).
Proof. rewrite show_N_uint. apply uint_digits. Qed.

Lemma show_N_nonnil n : show_N n <> [].
Proof.
  intros E. pose proof (read_show_N n) as H. rewrite E in H. cbn in H. destruct n; [|discriminate].
  vm_compute in E. discriminate.
Qed.

Lemma split_on_none c (s : str) : ~ In c s -> split_on c s = [s].
Proof.
  induction s as [|a s IH]; cbn; intros H; [reflexivity|].
  destruct (Ascii.eqb a c) eqn:E; [apply Ascii.eqb_eq in E; subst; exfalso; apply H; now left|].
  rewrite IH; [reflexivity|tauto].
Qed.

Lemma split_on_one c (a b : str) : ~ In c a -> split_on c (a ++ c :: b) = a :: split_on c b.
Proof.
  induction a as [|x a IH]; cbn; intros H.
  - now rewrite Ascii.eqb_refl.
  - destruct (Ascii.eqb x c) eqn:E; [apply Ascii.eqb_eq in E; subst; exfalso; apply H; now left|].
    rewrite IH; [reflexivity|tauto].
Qed.

Lemma Q2Qc_this q : Q2Qc (this q) = q.
Proof. apply Qc_is_canon. apply Qred_correct. Qed.

Lemma read_show_Q q : read_Q (show_Q q) = Some q.
Proof.
  unfold read_Q, show_Q. destruct (Pos.eqb (Qden (this q)) 1) eqn:E.
  - rewrite List.app_nil_r, split_on_none by apply show_Z_no_slash. rewrite read_show_Z. f_equal.
    apply Pos.eqb_eq in E. rewrite <- (Q2Qc_this q) at 2. f_equal. destruct (this q); cbn in *. now subst.
  - change (lit "/" ++ show_Z (Zpos (Qden (this q)))) with ("/"%char :: show_Z (Zpos (Qden (this q)))).
    rewrite split_on_one by apply show_Z_no_slash. rewrite split_on_none by apply show_Z_no_slash.
    rewrite !read_show_Z. f_equal. rewrite <- (Q2Qc_this q) at 3. f_equal. now destruct (this q).
Qed.
