(** * BaseFacts: lemmas about Base (no model content). *)

From Coq Require Import List Bool Arith ZArith Lia Permutation Ascii String Sorted Relations.
From Verif Require Import Base.
Import ListNotations.
Set Implicit Arguments.

(** [eqb] decides equality *)
Definition decides {A} (eqb : A -> A -> bool) : Prop := forall x y, eqb x y = true <-> x = y.

Lemma decides_refl {A} (eqb : A -> A -> bool) : decides eqb -> forall x, eqb x x = true.
Proof. intros H x. apply H. reflexivity. Qed.

Lemma decides_false {A} (eqb : A -> A -> bool) : decides eqb -> forall x y, eqb x y = false <-> x <> y.
Proof.
  intros H x y. split; intros E.
  - intros ->. rewrite (decides_refl H) in E. discriminate.
  - destruct (eqb x y) eqn:E'; auto. apply H in E'. contradiction.
Qed.

Lemma decides_neq {A} (eqb : A -> A -> bool) : decides eqb -> forall x y, x <> y -> eqb x y = false.
Proof. intros H x y E. now apply (decides_false H). Qed.

Lemma ascii_decides : decides Ascii.eqb.
Proof. intros x y. apply Ascii.eqb_eq. Qed.

Lemma list_decides {A} (eqb : A -> A -> bool) : decides eqb -> decides (list_eqb eqb).
Proof.
  intros H a. induction a as [|x a IH]; intros [|y b]; simpl; split; intros E; try congruence; auto.
  - apply andb_true_iff in E as [E1 E2]. apply H in E1. apply IH in E2. congruence.
  - inversion E; subst. rewrite (decides_refl H). simpl. now apply IH.
Qed.

Lemma str_decides : decides str_eqb.
Proof. apply list_decides, ascii_decides. Qed.

Lemma prod_decides {A B} (ea : A -> A -> bool) (eb : B -> B -> bool) :
  decides ea -> decides eb -> decides (prod_eqb ea eb).
Proof.
  intros Ha Hb [x1 x2] [y1 y2]; unfold prod_eqb; simpl. rewrite andb_true_iff, (Ha x1 y1), (Hb x2 y2).
  split; [intros [-> ->]; reflexivity | intros E; inversion E; auto].
Qed.

Lemma Z_decides : decides Z.eqb.
Proof. intros x y. apply Z.eqb_eq. Qed.

Lemma nat_decides : decides Nat.eqb.
Proof. intros x y. apply Nat.eqb_eq. Qed.

Lemma bool_decides : decides Bool.eqb.
Proof. intros x y. apply Bool.eqb_true_iff. Qed.

Lemma decides_dec {A} (eqb : A -> A -> bool) : decides eqb -> forall x y : A, {x = y} + {x <> y}.
Proof.
  intros H x y. destruct (eqb x y) eqn:E; [left; now apply H | right; now apply (decides_false H)].
Qed.

(** ** monad *)

Lemma bind_ok {A B} (x : res A) (f : A -> res B) b :
  bind x f = Ok b <-> exists a, x = Ok a /\ f a = Ok b.
Proof.
  destruct x as [a|e]; simpl; split.
  - intros H; exists a; auto.
  - intros (a' & E & H). now inversion E; subst.
  - discriminate.
  - intros (a' & E & _). discriminate.
Qed.

Lemma bind_err {A B} (x : res A) (f : A -> res B) e :
  bind x f = Err e <-> x = Err e \/ exists a, x = Ok a /\ f a = Err e.
Proof.
  destruct x as [a|e']; simpl; split.
  - intros H; right; exists a; auto.
  - intros [H|(a' & E & H)]; [discriminate|]. now inversion E; subst.
  - intros H; left. congruence.
  - intros [H|(a' & E & _)]; [congruence|discriminate].
Qed.

Lemma mapM_ok_map {A B} (f : A -> B) l : mapM (fun x => Ok (f x)) l = Ok (map f l).
Proof. induction l as [|x l IH]; simpl; auto. rewrite IH. reflexivity. Qed.

Lemma mapM_Forall2 {A B} (f : A -> res B) l ys :
  mapM f l = Ok ys <-> Forall2 (fun x y => f x = Ok y) l ys.
Proof.
  revert ys. induction l as [|x l IH]; simpl; intros ys; split.
  - intros E; inversion E; constructor.
  - intros E; inversion E; reflexivity.
  - intros E. apply bind_ok in E as (y & E1 & E). apply bind_ok in E as (ys' & E2 & E).
    inversion E; subst. constructor; auto. now apply IH.
  - intros E; inversion E; subst. apply IH in H3. now rewrite H1, H3.
Qed.

Lemma mapM_ext {A B} (f g : A -> res B) l :
  (forall x, In x l -> f x = g x) -> mapM f l = mapM g l.
Proof.
  induction l as [|x l IH]; simpl; intros H; auto.
  rewrite H by auto. destruct (g x); simpl; auto. rewrite IH; auto.
Qed.

(** ** dictionaries *)

Section DictFacts.
  Context {K V : Type} (eqb : K -> K -> bool) (Heq : decides eqb).
  Implicit Types (d : list (K * V)).

  Lemma dget_dset_same d k v : dget eqb (dset eqb d k v) k = Some v.
  Proof using Heq.
    induction d as [|[k' v'] d IH]; simpl.
    - now rewrite (decides_refl Heq).
    - destruct (eqb k k') eqn:E; simpl; rewrite E; auto.
  Qed.

  Lemma dget_dset_other d k k' v : k <> k' -> dget eqb (dset eqb d k' v) k = dget eqb d k.
  Proof using Heq.
    intros N. induction d as [|[k2 v2] d IH]; simpl.
    - now rewrite (decides_neq Heq N).
    - destruct (eqb k' k2) eqn:E; simpl.
      + apply Heq in E; subst. now rewrite (decides_neq Heq N).
      + now rewrite IH.
  Qed.

  Lemma dget_dset d k k' v :
    dget eqb (dset eqb d k' v) k = if eqb k k' then Some v else dget eqb d k.
  Proof using Heq.
    destruct (eqb k k') eqn:E.
    - apply Heq in E; subst. apply dget_dset_same.
    - apply dget_dset_other. now apply (decides_false Heq).
  Qed.

  Lemma dget_In d k v : dget eqb d k = Some v -> In (k, v) d.
  Proof using Heq.
    induction d as [|[k' v'] d IH]; simpl; [discriminate|].
    destruct (eqb k k') eqn:E; intros H.
    - apply Heq in E; inversion H; subst; auto.
    - right; auto.
  Qed.

  Lemma dget_None d k : dget eqb d k = None <-> ~ In k (keys d).
  Proof using Heq.
    induction d as [|[k' v'] d IH]; simpl; [tauto|].
    destruct (eqb k k') eqn:E.
    - apply Heq in E; subst. split; [discriminate|tauto].
    - rewrite IH. apply (decides_false Heq) in E. split; [|tauto].
      intros N [->|H]; [congruence|tauto].
  Qed.

  Lemma dmem_In d k : dmem eqb d k = true <-> In k (keys d).
  Proof using Heq.
    unfold dmem. destruct (dget eqb d k) eqn:E.
    - split; auto. intros _. apply dget_In in E. apply (in_map fst) in E. exact E.
    - apply dget_None in E. split; [discriminate|contradiction].
  Qed.

  Lemma dmem_dset d k k' v : dmem eqb (dset eqb d k' v) k = (eqb k k' || dmem eqb d k)%bool.
  Proof using Heq. unfold dmem. rewrite dget_dset. destruct (eqb k k'); auto. Qed.

  Lemma In_dget d k v : NoDup (keys d) -> In (k, v) d -> dget eqb d k = Some v.
  Proof using Heq.
    induction d as [|[k' v'] d IH]; simpl; [tauto|].
    intros N [H|H].
    - inversion H; subst. now rewrite (decides_refl Heq).
    - inversion N; subst. rewrite (decides_neq Heq); auto.
      intros ->. apply H2. apply (in_map fst) in H. exact H.
  Qed.

  Lemma keys_dset d k v :
    keys (dset eqb d k v) = if dmem eqb d k then keys d else keys d ++ [k].
  Proof using Heq.
    unfold dmem. induction d as [|[k' v'] d IH]; simpl; auto.
    destruct (eqb k k') eqn:E; simpl; auto.
    rewrite IH. destruct (dget eqb d k); auto.
  Qed.

  Lemma keys_dset_In d k v x : In x (keys (dset eqb d k v)) <-> x = k \/ In x (keys d).
  Proof using Heq.
    rewrite keys_dset. destruct (dmem eqb d k) eqn:E.
    - apply dmem_In in E. split; [auto|intros [->|H]; auto].
    - rewrite in_app_iff; simpl. intuition.
  Qed.

  Lemma NoDup_keys_dset d k v : NoDup (keys d) -> NoDup (keys (dset eqb d k v)).
  Proof using Heq.
    intros N. rewrite keys_dset. destruct (dmem eqb d k) eqn:E; auto.
    apply NoDup_rev in N. rewrite <- (rev_involutive (keys d ++ [k])). apply NoDup_rev.
    rewrite rev_app_distr; simpl. constructor; auto.
    rewrite <- in_rev. intros H. apply dmem_In in H. congruence.
  Qed.

  Lemma NoDup_keys_dupdate e d : NoDup (keys d) -> NoDup (keys (dupdate eqb d e)).
  Proof using Heq.
    revert d. induction e as [|[k v] e IH]; simpl; auto. intros d N. apply IH.
    now apply NoDup_keys_dset.
  Qed.

  Lemma keys_dupdate_In e d x : In x (keys (dupdate eqb d e)) <-> In x (keys d) \/ In x (keys e).
  Proof using Heq.
    revert d. induction e as [|[k v] e IH]; simpl; intros d; [tauto|].
    unfold dupdate in *; simpl. rewrite IH, keys_dset_In. intuition.
  Qed.

  Lemma dget_dupdate e d k :
    dget eqb (dupdate eqb d e) k =
    match dget eqb (dupdate eqb [] e) k with Some v => Some v | None => dget eqb d k end.
  Proof using Heq.
    unfold dupdate. revert d. induction e as [|[k' v'] e IH] using rev_ind; intros d; simpl; auto.
    rewrite !fold_left_app; simpl. rewrite !dget_dset. destruct (eqb k k'); auto.
  Qed.

  (** the last binding of a key wins *)
  Lemma dget_dupdate_last e d k v e' :
    ~ In k (keys e') -> dget eqb (dupdate eqb d (e ++ (k, v) :: e')) k = Some v.
  Proof using Heq.
    unfold dupdate. intros N. rewrite fold_left_app. simpl.
    generalize (fold_left (fun acc kv => dset eqb acc (fst kv) (snd kv)) e d). intros d0.
    assert (H : dget eqb (dset eqb d0 k v) k = Some v) by apply dget_dset_same.
    revert H. generalize (dset eqb d0 k v). clear d0.
    induction e' as [|[k2 v2] e' IH]; simpl in *; auto. intros d1 H1. apply IH; [tauto|].
    rewrite dget_dset_other; auto.
  Qed.

  Lemma dupdate_id_keys d (f : K * V -> V) :
    NoDup (keys d) -> dupdate eqb [] d = d.
  Proof using Heq.
    intros N. unfold dupdate.
    assert (H : forall acc, NoDup (keys acc ++ keys d) ->
              fold_left (fun a kv => dset eqb a (fst kv) (snd kv)) d acc = acc ++ d).
    { clear N. induction d as [|[k v] d IH]; intros acc N; simpl.
      - now rewrite app_nil_r.
      - assert (Hn : dset eqb acc k v = acc ++ [(k, v)]).
        { simpl in N. apply NoDup_remove_2 in N. clear IH.
          assert (M : ~ In k (keys acc)) by (rewrite in_app_iff in N; tauto). clear N.
          induction acc as [|[k2 v2] acc IHa]; simpl; auto. simpl in M.
          rewrite (decides_neq Heq) by intuition. rewrite IHa; auto. }
        rewrite Hn. rewrite IH.
        + rewrite <- app_assoc. reflexivity.
        + unfold keys in *. rewrite map_app. simpl. rewrite <- app_assoc. exact N. }
    apply (H []). exact N.
  Qed.
End DictFacts.

(** ** sorting *)

Section SortFacts.
  Context {A : Type} (leb : A -> A -> bool).
  Hypothesis total : forall x y, leb x y = true \/ leb y x = true.
  Hypothesis trans : forall x y z, leb x y = true -> leb y z = true -> leb x z = true.

  Let le x y := leb x y = true.

  Lemma insert_perm x l : Permutation (x :: l) (insert leb x l).
  Proof using Type.
    induction l as [|y l IH]; simpl; auto.
    destruct (leb x y); auto. rewrite perm_swap. now constructor.
  Qed.

  Lemma sort_perm l : Permutation l (sort leb l).
  Proof using Type.
    induction l as [|x l IH]; simpl; auto. rewrite <- insert_perm. now constructor.
  Qed.

  Lemma insert_sorted x l : StronglySorted le l -> StronglySorted le (insert leb x l).
  Proof using total trans.
    induction l as [|y l IH]; simpl; intros H.
    - repeat constructor.
    - destruct (leb x y) eqn:E.
      + constructor; auto. inversion H; subst. constructor; auto.
        eapply Forall_impl; [|exact H3]. intros z Hz. eapply trans; eauto.
      + inversion H; subst. constructor; auto.
        eapply Permutation_Forall; [apply insert_perm|]. constructor; auto.
        destruct (total x y) as [T|T]; [congruence|exact T].
  Qed.

  Lemma sort_sorted l : StronglySorted le (sort leb l).
  Proof using total trans.
    induction l as [|x l IH]; simpl; [constructor|]. now apply insert_sorted.
  Qed.

  Lemma sort_length l : List.length (sort leb l) = List.length l.
  Proof using Type. symmetry. apply Permutation_length, sort_perm. Qed.

  Lemma sort_In x l : In x (sort leb l) <-> In x l.
  Proof using Type.
    split; apply Permutation_in; [symmetry|]; apply sort_perm.
  Qed.

  (** stability: elements that compare equal both ways keep their relative order *)
  Lemma insert_filter (P : A -> bool) x l :
    (forall y, P x = true -> P y = true -> leb x y = true) ->
    filter P (insert leb x l) = filter P (x :: l).
  Proof using Type.
    intros H. induction l as [|y l IH]; simpl; auto.
    destruct (leb x y) eqn:E; simpl; auto.
    rewrite IH. simpl. destruct (P x) eqn:Ex; destruct (P y) eqn:Ey; auto.
    rewrite H in E; auto. discriminate.
  Qed.

  Lemma sort_stable (P : A -> bool) l :
    (forall x y, P x = true -> P y = true -> leb x y = true) ->
    filter P (sort leb l) = filter P l.
  Proof using Type.
    intros H. induction l as [|x l IH]; simpl; auto.
    rewrite insert_filter by auto. simpl. now rewrite IH.
  Qed.

  Lemma sort_sorted_id l : StronglySorted le l -> sort leb l = l.
  Proof using Type.
    induction l as [|x l IH]; simpl; auto. intros H; inversion H; subst.
    rewrite IH; auto. destruct l as [|y l']; simpl; auto.
    inversion H3; subst. unfold le in H4. now rewrite H4.
  Qed.

  Hypothesis antisym : forall x y, leb x y = true -> leb y x = true -> x = y.

  Lemma sorted_unique l1 l2 :
    StronglySorted le l1 -> StronglySorted le l2 -> Permutation l1 l2 -> l1 = l2.
  Proof using antisym.
    revert l2. induction l1 as [|x l1 IH]; intros l2 S1 S2 P.
    - apply Permutation_nil in P. now subst.
    - destruct l2 as [|y l2]; [symmetry in P; apply Permutation_nil in P; discriminate|].
      inversion S1; subst. inversion S2; subst.
      assert (x = y).
      { assert (I1 : In x (y :: l2)) by (eapply Permutation_in; [exact P|left; auto]).
        assert (I2 : In y (x :: l1)) by (eapply Permutation_in; [symmetry; exact P|left; auto]).
        destruct I1 as [->|I1]; auto. destruct I2 as [->|I2]; auto.
        rewrite Forall_forall in *. apply antisym; [now apply H2|now apply H4]. }
      subst. f_equal. apply IH; auto. eapply Permutation_cons_inv; eauto.
  Qed.

  Lemma sort_perm_eq l1 l2 : Permutation l1 l2 -> sort leb l1 = sort leb l2.
  Proof using antisym total trans.
    intros P. apply sorted_unique; try apply sort_sorted.
    rewrite <- !sort_perm. exact P.
  Qed.

  Lemma sort_eq_iff l1 l2 : sort leb l1 = sort leb l2 <-> Permutation l1 l2.
  Proof using antisym total trans.
    split; [|apply sort_perm_eq].
    intros E. rewrite (sort_perm l1), (sort_perm l2). now rewrite E.
  Qed.

  Lemma sort_idem l : sort leb (sort leb l) = sort leb l.
  Proof using antisym total trans. apply sort_perm_eq. symmetry. apply sort_perm. Qed.
End SortFacts.

(** ** order on strings *)

Lemma char_leb_total x y : char_leb x y = true \/ char_leb y x = true.
Proof. unfold char_leb. rewrite !Nat.leb_le. lia. Qed.

Lemma char_leb_trans x y z : char_leb x y = true -> char_leb y z = true -> char_leb x z = true.
Proof. unfold char_leb. rewrite !Nat.leb_le. lia. Qed.

Lemma char_leb_antisym x y : char_leb x y = true -> char_leb y x = true -> x = y.
Proof.
  unfold char_leb. rewrite !Nat.leb_le. intros H1 H2.
  assert (E : nat_of_ascii x = nat_of_ascii y) by lia.
  rewrite <- (ascii_nat_embedding x), <- (ascii_nat_embedding y). now rewrite E.
Qed.

Section LexFacts.
  Context {A : Type} (eqb leb : A -> A -> bool).
  Hypothesis Heq : decides eqb.
  Hypothesis total : forall x y, leb x y = true \/ leb y x = true.
  Hypothesis trans : forall x y z, leb x y = true -> leb y z = true -> leb x z = true.
  Hypothesis antisym : forall x y, leb x y = true -> leb y x = true -> x = y.

  Lemma lex_total x y : lex_leb eqb leb x y = true \/ lex_leb eqb leb y x = true.
  Proof using Heq total.
    revert y. induction x as [|a x IH]; intros [|b y]; simpl; auto.
    destruct (eqb a b) eqn:E.
    - apply Heq in E; subst. rewrite (decides_refl Heq). apply IH.
    - apply (decides_false Heq) in E. rewrite (decides_neq Heq (x:=b) (y:=a)) by congruence. apply total.
  Qed.

  Lemma lex_antisym x y : lex_leb eqb leb x y = true -> lex_leb eqb leb y x = true -> x = y.
  Proof using Heq antisym.
    revert y. induction x as [|a x IH]; intros [|b y]; simpl; try discriminate; auto.
    destruct (eqb a b) eqn:E.
    - apply Heq in E; subst. rewrite (decides_refl Heq). intros H1 H2. f_equal. now apply IH.
    - apply (decides_false Heq) in E. rewrite (decides_neq Heq (x:=b) (y:=a)) by congruence.
      intros H1 H2. elim E. now apply antisym.
  Qed.

  Lemma lex_trans x y z :
    lex_leb eqb leb x y = true -> lex_leb eqb leb y z = true -> lex_leb eqb leb x z = true.
  Proof using Heq trans antisym.
    revert y z. induction x as [|a x IH]; intros [|b y] [|c z]; simpl; try discriminate; auto.
    destruct (eqb a b) eqn:E1.
    - apply Heq in E1; subst. destruct (eqb b c) eqn:E2; auto. apply IH.
    - apply (decides_false Heq) in E1. intros H1. destruct (eqb b c) eqn:E2.
      + apply Heq in E2; subst. intros _. now rewrite (decides_neq Heq E1).
      + apply (decides_false Heq) in E2. intros H2.
        destruct (eqb a c) eqn:E3; [|now apply trans with b].
        apply Heq in E3; subst. elim E1. now apply antisym.
  Qed.
End LexFacts.

Lemma str_leb_lex : str_leb = lex_leb Ascii.eqb char_leb.
Proof. reflexivity. Qed.

Lemma str_leb_total x y : str_leb x y = true \/ str_leb y x = true.
Proof. rewrite str_leb_lex. apply lex_total; [apply ascii_decides|apply char_leb_total]. Qed.

Lemma str_leb_antisym x y : str_leb x y = true -> str_leb y x = true -> x = y.
Proof. rewrite str_leb_lex. apply lex_antisym; [apply ascii_decides|apply char_leb_antisym]. Qed.

Lemma str_leb_trans x y z : str_leb x y = true -> str_leb y z = true -> str_leb x z = true.
Proof.
  rewrite str_leb_lex.
  apply lex_trans; [apply ascii_decides|apply char_leb_trans|apply char_leb_antisym].
Qed.

Lemma sorted_str_perm l : Permutation l (sorted_str l).
Proof. apply sort_perm. Qed.

Lemma sorted_str_eq_iff l1 l2 : sorted_str l1 = sorted_str l2 <-> Permutation l1 l2.
Proof. apply sort_eq_iff; [apply str_leb_total|apply str_leb_trans|apply str_leb_antisym]. Qed.

Lemma sorted_str_sorted l : StronglySorted (fun x y => str_leb x y = true) (sorted_str l).
Proof. apply sort_sorted; [apply str_leb_total|apply str_leb_trans]. Qed.

Lemma sorted_str_idem l : sorted_str (sorted_str l) = sorted_str l.
Proof. apply sorted_str_eq_iff. symmetry. apply sorted_str_perm. Qed.

(** ** split and join *)

Lemma split_on_nonnil c x : split_on c x <> [].
Proof.
  induction x as [|a x IH]; simpl; [discriminate|].
  destruct (Ascii.eqb a c); [discriminate|]. destruct (split_on c x); discriminate.
Qed.

Lemma split_on_no_sep c x : ~ In c x -> split_on c x = [x].
Proof.
  induction x as [|a x IH]; simpl; auto. intros N.
  rewrite (decides_neq ascii_decides) by intuition. rewrite IH by tauto. reflexivity.
Qed.

Lemma split_on_app c x y : ~ In c x -> split_on c (x ++ c :: y) = x :: split_on c y.
Proof.
  induction x as [|a x IH]; simpl; intros N.
  - now rewrite (decides_refl ascii_decides).
  - rewrite (decides_neq ascii_decides) by intuition. rewrite IH by tauto. reflexivity.
Qed.

Lemma split_join c l :
  l <> [] -> Forall (fun x => ~ In c x) l -> split_on c (join [c] l) = l.
Proof.
  induction l as [|x l IH]; [congruence|]. intros _ H. inversion H; subst. destruct l as [|y l].
  - simpl. now apply split_on_no_sep.
  - change (join [c] (x :: y :: l)) with (x ++ c :: join [c] (y :: l)).
    rewrite split_on_app by auto. rewrite IH; auto. discriminate.
Qed.

Lemma join_split c x : join [c] (split_on c x) = x.
Proof.
  induction x as [|a x IH]; simpl; auto.
  destruct (Ascii.eqb a c) eqn:E.
  - apply Ascii.eqb_eq in E; subst. destruct (split_on c x) as [|p0 l] eqn:E2.
    + now elim (split_on_nonnil c x).
    + change (c :: join [c] (p0 :: l) = c :: x). f_equal. exact IH.
  - destruct (split_on c x) eqn:E2; [now elim (split_on_nonnil c x)|].
    destruct l; simpl in *; now rewrite IH.
Qed.

Lemma split_on_Forall c x : Forall (fun p => ~ In c p) (split_on c x).
Proof.
  induction x as [|a x IH]; simpl.
  - repeat constructor; auto.
  - destruct (Ascii.eqb a c) eqn:E; [constructor; auto|].
    destruct (split_on c x); inversion IH; subst; constructor; auto; simpl;
    apply Ascii.eqb_neq in E; intros [H|H]; auto.
Qed.

(** ** permutations *)

Section PermFacts.
  Context {A : Type}.

  Lemma selects_perm (l : list A) x r : In (x, r) (selects l) -> Permutation l (x :: r).
  Proof using Type.
    revert x r. induction l as [|a l IH]; simpl; [tauto|]. intros x r [H|H].
    - inversion H; subst. reflexivity.
    - apply in_map_iff in H as ([y r'] & E & H). simpl in E. inversion E; subst.
      apply IH in H. rewrite H. apply perm_swap.
  Qed.

  Lemma selects_length (l : list A) x r : In (x, r) (selects l) -> List.length l = S (List.length r).
  Proof using Type. intros H. apply selects_perm, Permutation_length in H. exact H. Qed.

  Lemma selects_In (l : list A) x : In x l -> exists r, In (x, r) (selects l).
  Proof using Type.
    induction l as [|a l IH]; simpl; [tauto|]. intros [->|H]; [eauto|].
    destruct (IH H) as [r Hr]. exists (a :: r). right. apply in_map_iff. exists (x, r). auto.
  Qed.

  Lemma selects_fst (l : list A) : map fst (selects l) = l.
  Proof using Type.
    induction l as [|a l IH]; simpl; auto. f_equal. rewrite map_map. simpl. exact IH.
  Qed.

  Lemma selects_count (l : list A) : List.length (selects l) = List.length l.
  Proof using Type. rewrite <- (map_length fst). now rewrite selects_fst. Qed.

  Lemma perms_fuel_sound n (l p : list A) :
    List.length l = n -> In p (perms_fuel n l) -> Permutation l p.
  Proof using Type.
    revert l p. induction n as [|n IH]; simpl; intros l p E H.
    - destruct l; [|discriminate]. destruct H as [<-|[]]. reflexivity.
    - apply in_flat_map in H as ([x r] & Hs & H). apply in_map_iff in H as (q & <- & Hq).
      simpl in *. pose proof (selects_length _ _ _ Hs) as Hl. rewrite E in Hl. injection Hl as Hl.
      symmetry in Hl. apply IH in Hq; auto. rewrite (selects_perm _ _ _ Hs). now constructor.
  Qed.

  Lemma selects_mid (l1 l2 : list A) x : In (x, l1 ++ l2) (selects (l1 ++ x :: l2)).
  Proof using Type.
    induction l1 as [|a l1 IH]; simpl; auto. right. apply in_map_iff. exists (x, l1 ++ l2). auto.
  Qed.

  Lemma perms_fuel_complete n (l p : list A) :
    List.length l = n -> Permutation l p -> In p (perms_fuel n l).
  Proof using Type.
    revert l p. induction n as [|n IH]; simpl; intros l p E P.
    - destruct l; [|discriminate]. apply Permutation_nil in P; subst. auto.
    - destruct p as [|x p]; [symmetry in P; apply Permutation_nil in P; subst; discriminate|].
      assert (I : In x l) by (eapply Permutation_in; [symmetry; exact P|left; auto]).
      apply in_split in I as (l1 & l2 & ->). apply in_flat_map. exists (x, l1 ++ l2). split.
      + apply selects_mid.
      + simpl. apply in_map. apply IH.
        * rewrite app_length in *. simpl in E. lia.
        * apply Permutation_cons_inv with x. rewrite <- P. apply Permutation_middle.
  Qed.

  Lemma permutations_spec (l p : list A) : In p (permutations l) <-> Permutation l p.
  Proof using Type.
    unfold permutations. split; [now apply perms_fuel_sound|now apply perms_fuel_complete].
  Qed.

  Lemma perms_fuel_count n (l : list A) :
    List.length l = n -> List.length (perms_fuel n l) = fact n.
  Proof using Type.
    revert l. induction n as [|n IH]; intros l E; auto. simpl perms_fuel.
    assert (H : forall ss : list (A * list A), (forall p, In p ss -> List.length (snd p) = n) ->
       List.length (flat_map (fun p => map (cons (fst p)) (perms_fuel n (snd p))) ss)
       = (List.length ss * fact n)%nat).
    { induction ss as [|[x r] ss IHs]; simpl; auto. intros Hs.
      rewrite app_length, map_length, IHs by auto. rewrite IH; auto.
      apply (Hs (x, r)); auto. }
    rewrite H.
    - rewrite selects_count, E. reflexivity.
    - intros [x r] Hp. apply selects_length in Hp. simpl. lia.
  Qed.

  Lemma permutations_count (l : list A) : List.length (permutations l) = fact (List.length l).
  Proof using Type. now apply perms_fuel_count. Qed.

  Lemma NoDup_flat_map_disjoint {B C} (f : B -> list C) (l : list B) :
    NoDup l -> (forall b, In b l -> NoDup (f b)) ->
    (forall b1 b2 c, In b1 l -> In b2 l -> In c (f b1) -> In c (f b2) -> b1 = b2) ->
    NoDup (flat_map f l).
  Proof using Type.
    induction l as [|b l IH]; simpl; intros N H1 H2; [constructor|].
    inversion N; subst. assert (Hr : NoDup (flat_map f l)) by (apply IH; eauto).
    assert (Hb : NoDup (f b)) by auto. revert Hb.
    assert (D : forall c, In c (f b) -> ~ In c (flat_map f l)).
    { intros c Hc Hc'. apply in_flat_map in Hc' as (b2 & Hb2 & Hc2).
      assert (b = b2) by (apply (H2 b b2 c); auto). subst. contradiction. }
    revert D. generalize (f b) as lb. induction lb as [|c lb IHl]; simpl; intros D Nb; auto.
    inversion Nb; subst. constructor; auto.
    rewrite in_app_iff. intros [I|I]; [contradiction|]. apply (D c); auto.
  Qed.

  Lemma NoDup_map_inj {B C} (f : B -> C) (l : list B) :
    (forall x y, In x l -> In y l -> f x = f y -> x = y) -> NoDup l -> NoDup (map f l).
  Proof using Type.
    induction l as [|x l IH]; simpl; intros Hf N; [constructor|]. inversion N; subst.
    constructor; auto. rewrite in_map_iff. intros (y & E & Hy).
    assert (y = x) by (apply Hf; auto). subst. contradiction.
  Qed.

  Lemma perms_fuel_NoDup n (l : list A) :
    List.length l = n -> NoDup l -> NoDup (perms_fuel n l).
  Proof using Type.
    revert l. induction n as [|n IH]; simpl; intros l E N; [repeat constructor; auto|].
    apply NoDup_flat_map_disjoint.
    - apply (NoDup_map_inv fst). rewrite selects_fst. exact N.
    - intros [x r] Hs. simpl. apply NoDup_map_inj; [congruence|]. apply IH.
      + apply selects_length in Hs. lia.
      + apply selects_perm in Hs. eapply Permutation_NoDup in N; [|exact Hs]. now inversion N.
    - intros [x1 r1] [x2 r2] c H1 H2 C1 C2. simpl in *.
      apply in_map_iff in C1 as (c1 & <- & C1). apply in_map_iff in C2 as (c2 & E2 & C2).
      inversion E2; subst.
      assert (G : NoDup (map fst (selects l))) by now rewrite selects_fst.
      clear - H1 H2 G. revert H1 H2 G. generalize (selects l) as ss.
      induction ss as [|[y r] ss IHs]; simpl; [tauto|]. intros H1 H2 G. inversion G; subst.
      destruct H1 as [H1|H1], H2 as [H2|H2].
      + congruence.
      + inversion H1; subst. elim H3. apply (in_map fst) in H2. exact H2.
      + inversion H2; subst. elim H3. apply (in_map fst) in H1. exact H1.
      + auto.
  Qed.

  Lemma permutations_NoDup (l : list A) : NoDup l -> NoDup (permutations l).
  Proof using Type. intros N. now apply perms_fuel_NoDup. Qed.
End PermFacts.

(** ** filter / nodup_by / misc *)

Lemma mem_by_In {A} (eqb : A -> A -> bool) (H : decides eqb) x l : mem_by eqb x l = true <-> In x l.
Proof.
  unfold mem_by. rewrite existsb_exists. split.
  - intros (y & Hy & E). apply H in E. now subst.
  - intros Hx. exists x. split; auto. now apply H.
Qed.

Lemma nodup_by_In {A} (eqb : A -> A -> bool) (H : decides eqb) x l : In x (nodup_by eqb l) <-> In x l.
Proof.
  induction l as [|y l IH]; simpl; [tauto|]. rewrite filter_In, IH.
  destruct (eqb y x) eqn:E; simpl.
  - apply H in E; subst. intuition.
  - intuition.
Qed.

Lemma nodup_by_NoDup {A} (eqb : A -> A -> bool) (H : decides eqb) l : NoDup (nodup_by eqb l).
Proof.
  induction l as [|y l IH]; simpl; constructor.
  - rewrite filter_In. rewrite (decides_refl H). simpl. intuition.
  - now apply NoDup_filter.
Qed.

Lemma filter_Permutation {A} (P : A -> bool) l l' :
  Permutation l l' -> Permutation (filter P l) (filter P l').
Proof.
  induction 1; simpl; auto.
  - destruct (P x); auto.
  - destruct (P x), (P y); auto. apply perm_swap.
  - etransitivity; eauto.
Qed.

Lemma filter_length_le {A} (P : A -> bool) l : (List.length (filter P l) <= List.length l)%nat.
Proof. induction l as [|x l IH]; simpl; auto. destruct (P x); simpl; lia. Qed.

Lemma remove_first_ok {A} (eqb : A -> A -> bool) (H : decides eqb) x l r :
  remove_first eqb x l = Ok r -> Permutation l (x :: r).
Proof.
  revert r. induction l as [|y l IH]; simpl; intros r E; [discriminate|].
  destruct (eqb x y) eqn:E2.
  - apply H in E2. inversion E; subst. reflexivity.
  - apply bind_ok in E as (r' & E1 & E). inversion E; subst. apply IH in E1.
    rewrite E1. apply perm_swap.
Qed.

Lemma remove_first_In {A} (eqb : A -> A -> bool) (H : decides eqb) x l :
  In x l -> exists r, remove_first eqb x l = Ok r.
Proof.
  induction l as [|y l IH]; simpl; [tauto|]. intros I. destruct (eqb x y) eqn:E; [eauto|].
  destruct I as [->|I]; [rewrite (decides_refl H) in E; discriminate|].
  destruct (IH I) as [r ->]. simpl. eauto.
Qed.

Lemma remove_first_not_In {A} (eqb : A -> A -> bool) (H : decides eqb) x l :
  ~ In x l -> remove_first eqb x l = Err ValueError.
Proof.
  induction l as [|y l IH]; simpl; auto. intros N.
  rewrite (decides_neq H) by intuition. rewrite IH by tauto. reflexivity.
Qed.
