(** * Spec: notions used to state properties.  They mention no function of the model. *)

From Coq Require Import List Bool Arith ZArith Znumtheory Lia Permutation.
Import ListNotations.
Set Implicit Arguments.

(** [big] contains [small] as a multiset. *)
Definition contains {A} (big small : list A) : Prop := exists rest, Permutation big (small ++ rest).

(** The two lists agree as multisets once related elements are identified. *)
Definition same_upto {A} (R : A -> A -> Prop) (a b : list A) : Prop :=
  exists a', Forall2 R a a' /\ Permutation a' b.

(** [big] contains [small] as a multiset once related elements are identified. *)
Definition contains_upto {A} (R : A -> A -> Prop) (big small : list A) : Prop :=
  exists small', Forall2 R small small' /\ contains big small'.

(** [sub] is obtained from [l] by deleting elements (order kept). *)
Inductive sublist {A} : list A -> list A -> Prop :=
| sub_nil : sublist [] []
| sub_skip x a b : sublist a b -> sublist a (x :: b)
| sub_keep x a b : sublist a b -> sublist (x :: a) (x :: b).

Fixpoint Zprod (l : list Z) : Z :=
  match l with [] => 1%Z | x :: r => (x * Zprod r)%Z end.

Lemma sublist_refl {A} (l : list A) : sublist l l.
Proof. induction l; [constructor|now apply sub_keep]. Qed.

Lemma sublist_In {A} (a b : list A) x : sublist a b -> In x a -> In x b.
Proof. induction 1; simpl; intuition. Qed.

Lemma sublist_filter {A} (P : A -> bool) l : sublist (filter P l) l.
Proof. induction l as [|x l IH]; simpl; [constructor|]. destruct (P x); [now apply sub_keep|now apply sub_skip]. Qed.

Lemma sublist_trans {A} (a b c : list A) : sublist a b -> sublist b c -> sublist a c.
Proof.
  intros H1 H2. revert a H1. induction H2; intros a0 H1; auto.
  - apply sub_skip. auto.
  - inversion H1; subst; [apply sub_skip|apply sub_keep]; auto.
Qed.

Lemma sublist_nil {A} (l : list A) : sublist [] l.
Proof. induction l; [constructor|now apply sub_skip]. Qed.

Lemma sublist_app {A} (a b c d : list A) : sublist a b -> sublist c d -> sublist (a ++ c) (b ++ d).
Proof. induction 1; simpl; auto; intros; [apply sub_skip|apply sub_keep]; auto. Qed.

Lemma sublist_length {A} (a b : list A) : sublist a b -> (length a <= length b)%nat.
Proof. induction 1; simpl; lia. Qed.

Lemma sublist_NoDup {A} (a b : list A) : sublist a b -> NoDup b -> NoDup a.
Proof.
  induction 1; intros N; auto.
  - inversion N; auto.
  - inversion N; subst. constructor; auto. intros I. eapply sublist_In in I; eauto.
Qed.

Lemma sublist_map {A B} (f : A -> B) (a b : list A) : sublist a b -> sublist (map f a) (map f b).
Proof. induction 1; simpl; [apply sub_nil|apply sub_skip|apply sub_keep]; auto. Qed.

Lemma sublist_contains {A} (a b : list A) : sublist a b -> contains b a.
Proof.
  induction 1 as [|x a b H [r IH]|x a b H [r IH]].
  - exists []. reflexivity.
  - exists (x :: r). rewrite IH. apply Permutation_middle.
  - exists r. simpl. now rewrite IH.
Qed.

Lemma contains_refl {A} (l : list A) : contains l l.
Proof. exists []. now rewrite app_nil_r. Qed.

Lemma contains_trans {A} (a b c : list A) : contains a b -> contains b c -> contains a c.
Proof.
  intros [r H] [r' H']. exists (r' ++ r). rewrite H, H'. now rewrite app_assoc.
Qed.

Lemma contains_In {A} (a b : list A) x : contains a b -> In x b -> In x a.
Proof.
  intros [r H] I. apply (Permutation_in x (Permutation_sym H)). apply in_app_iff. auto.
Qed.

Lemma contains_nil {A} (a : list A) : contains a [].
Proof. exists a. reflexivity. Qed.

(** for lists without repetitions containment is inclusion *)
Lemma contains_NoDup {A} (a b : list A) :
  NoDup b -> (contains a b <-> incl b a).
Proof.
  intros N. split.
  - intros H x. apply contains_In; auto.
  - revert a. induction b as [|x b IH]; intros a I; [apply contains_nil|].
    inversion N; subst. assert (Ix : In x a) by (apply I; left; auto).
    apply in_split in Ix as (l1 & l2 & ->).
    destruct (IH H2 (l1 ++ l2)) as [r Hr].
    + intros y Hy. assert (Iy : In y (l1 ++ x :: l2)) by (apply I; right; auto).
      rewrite in_app_iff in *. simpl in Iy. destruct Iy as [?|[->|?]]; auto. contradiction.
    + exists r. rewrite <- Permutation_middle. simpl. now constructor.
Qed.

Lemma Forall2_len {A B} (R : A -> B -> Prop) a b : Forall2 R a b -> length a = length b.
Proof. induction 1; simpl; auto. Qed.
