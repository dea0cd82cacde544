(** * ProofsDatabase3: files, subsets and related models *)

From Coq Require Import Ascii String List Bool Arith ZArith Znumtheory Lia Permutation Sorted QArith Qcanon.
From Verif Require Import Base BaseFacts Spec Show Primes ModelFunctions SpecFunctions ProofsFunctions
  ModelMatch ProofsMatch ModelRegistry SpecRegistry ProofsRegistry ModelDatabase SpecDatabase ProofsDatabase ProofsDatabase2.
Import ListNotations.
Local Open Scope nat_scope.

(** ** Files *)

Lemma dget_dupdate_NoDup {V} (d e : list (str * V)) k : NoDup (keys e) ->
  dget str_eqb (dupdate str_eqb d e) k = match dget str_eqb e k with Some v => Some v | None => dget str_eqb d k end.
Proof.
  unfold dupdate. revert d. induction e as [|[k1 v1] e IH]; intros d N; [reflexivity|].
  inversion N as [|? ? Nk Ne]; subst. cbn [fold_left fst snd]. rewrite IH by auto. cbn [dget].
  rewrite (dget_dset str_decides). destruct (str_eqb k k1) eqn:E.
  - apply str_decides in E. subst k1. destruct (dget str_eqb e k) as [w|] eqn:Ew; [|reflexivity].
    exfalso. apply Nk. apply (dget_In str_decides) in Ew. apply in_map_iff. exists (k, w). auto.
  - reflexivity.
Qed.

Lemma load_get_snoc files f k :
  dget str_eqb (load (files ++ [f])) k
  = match filter (fun c => str_eqb (lz_operator c) k) f with [] => dget str_eqb (load files) k | l => Some l end.
Proof.
  rewrite load_snoc, dget_dupdate_NoDup by apply read_completions_NoDup. rewrite read_completions_get.
  now destruct (filter (fun c => str_eqb (lz_operator c) k) f).
Qed.

(** ** Combinations and subsets *)

Lemma NoDup_app_intro {A} (a b : list A) : NoDup a -> NoDup b -> (forall x, In x a -> ~ In x b) -> NoDup (a ++ b).
Proof.
  induction 1 as [|x a Nx N IH]; intros Nb D; cbn; auto. constructor.
  - rewrite in_app_iff. intros [I|I]; [contradiction|]. apply (D x); [left; reflexivity|exact I].
  - apply IH; auto. intros y Iy. apply D. now right.
Qed.

Lemma NoDup_app_left {A} (a b : list A) : NoDup (a ++ b) -> NoDup a.
Proof.
  induction a as [|x a IH]; cbn; intros N; [constructor|]. inversion N as [|? ? Nx Na]; subst. constructor; auto.
  intros I. apply Nx. apply in_app_iff. auto.
Qed.

Lemma combinations_In {A} k (l s : list A) : In s (combinations k l) <-> sublist s l /\ List.length s = k.
Proof.
  revert k s. induction l as [|x l IH]; intros [|k] s; cbn [combinations].
  - split; [intros [<-|[]]; split; [constructor|reflexivity]|]. intros (S & L). left. now destruct s.
  - split; [intros []|]. intros (S & L). inversion S; subst. discriminate.
  - split; [intros [<-|[]]; split; [apply sublist_nil|reflexivity]|]. intros (S & L). left. now destruct s.
  - rewrite in_app_iff, in_map_iff, IH. split.
    + intros [(s1 & <- & I)|(S & L)].
      * apply IH in I as (S & L). split; [now apply sub_keep|cbn; lia].
      * split; [now apply sub_skip|auto].
    + intros (S & L). inversion S as [|? ? ? S1|? s1 ? S1]; subst.
      * right. auto.
      * left. exists s1. split; [reflexivity|]. apply IH. split; [auto|]. cbn in L. lia.
Qed.

Lemma combinations_NoDup {A} k (l : list A) : NoDup l -> NoDup (combinations k l).
Proof.
  revert k. induction l as [|x l IH]; intros [|k] N; cbn [combinations]; try (repeat constructor; intros []).
  inversion N as [|? ? Nx Nl]; subst. apply NoDup_app_intro.
  - apply FinFun.Injective_map_NoDup; [|now apply IH]. intros a b E. now inversion E.
  - now apply IH.
  - intros s I1 I2. apply in_map_iff in I1 as (s1 & <- & _). apply combinations_In in I2 as (S & _).
    apply Nx. eapply sublist_In; [exact S|left; reflexivity].
Qed.

Lemma subsets_In {A} (l s : list A) : In s (subsets l) <-> sublist s l.
Proof.
  unfold subsets. rewrite in_concat. split.
  - intros (c & I & Is). apply in_map_iff in I as (k & <- & _). now apply combinations_In in Is.
  - intros S. exists (combinations (List.length s) l). split; [|now apply combinations_In].
    apply in_map_iff. exists (List.length s). split; [reflexivity|]. apply in_seq.
    pose proof (sublist_length S). lia.
Qed.

Lemma subsets_NoDup {A} (l : list A) : NoDup l -> NoDup (subsets l).
Proof.
  intros N. unfold subsets. rewrite <- flat_map_concat_map. apply NoDup_flat_map_disjoint.
  - apply seq_NoDup.
  - intros k _. now apply combinations_NoDup.
  - intros a b s _ _ Ia Ib. apply combinations_In in Ia as (_ & <-). apply combinations_In in Ib as (_ & <-).
    reflexivity.
Qed.

Lemma subsets_length {A} (l : list A) : List.length (subsets l) = 2 ^ List.length l.
Proof.
  assert (G : forall (l : list A) m, List.length l <= m ->
            List.length (concat (map (fun i => combinations i l) (seq 0 (S m)))) = 2 ^ List.length l).
  { assert (Len : forall (f : nat -> list (list A)) a n, List.length (concat (map f (seq a n)))
              = fold_right plus 0 (map (fun i => List.length (f i)) (seq a n))).
    { intros f a n. revert a. induction n as [|n IH]; intros a; [reflexivity|]. cbn. rewrite app_length, IH. reflexivity. }
    clear l. induction l as [|x l IH]; intros m Hm.
    - rewrite Len. cbn [seq map fold_right combinations List.length].
      assert (Z : forall n a, fold_right plus 0 (map (fun i => List.length (combinations i (@nil A))) (seq (S a) n)) = 0).
      { induction n as [|n IHn]; intros a; [reflexivity|]. cbn [seq map fold_right]. rewrite IHn. reflexivity. }
      rewrite Z. reflexivity.
    - destruct m as [|m]; [cbn in Hm; lia|]. cbn [List.length] in *.
      assert (I1 := IH m ltac:(lia)). assert (I2 := IH (S m) ltac:(lia)). rewrite Len in *.
      assert (Step : forall n a,
        fold_right plus 0 (map (fun i => List.length (combinations i (x :: l))) (seq (S a) n))
        = fold_right plus 0 (map (fun i => List.length (combinations i l)) (seq a n))
          + fold_right plus 0 (map (fun i => List.length (combinations i l)) (seq (S a) n))).
      { induction n as [|n IHn]; intros a; [reflexivity|]. cbn [seq map fold_right].
        rewrite IHn. cbn [combinations]. rewrite app_length, map_length. lia. }
      change (seq 0 (S (S m))) with (0 :: seq 1 (S m)) in *. cbn [map fold_right] in *.
      rewrite Step. cbn [combinations List.length] in *. rewrite I1. cbn [Nat.pow].
      destruct l; cbn [combinations List.length] in *; lia. }
  unfold subsets. rewrite Nat.add_1_r. apply G. lia.
Qed.

(** ** Factorisations *)

Lemma factorisation n : (1 <= n)%Z -> exists fs, Forall prime fs /\ n = Zprod fs.
Proof.
  intros Hn. assert (G : forall k m, (Z.to_nat m <= k)%nat -> (1 <= m)%Z -> exists fs, Forall prime fs /\ m = Zprod fs).
  { induction k as [|k IH]; intros m L Hm; [lia|].
    destruct (Z.eq_dec m 1) as [->|]; [exists []; split; [constructor|reflexivity]|].
    destruct (prime_divisor m) as (p & Pp & (q & E)); [lia|].
    assert (1 < p)%Z by (destruct Pp; lia). assert (1 <= q)%Z by nia.
    destruct (IH q) as (fs & F & Eq); [nia|lia|]. exists (p :: fs). split; [now constructor|].
    cbn. rewrite <- Eq. lia. }
  apply (G (Z.to_nat n) n); lia.
Qed.

Definition squarefree (n : Z) : Prop := forall p, prime p -> ~ (p * p | n)%Z.

Lemma squarefree_NoDup fs : Forall prime fs -> squarefree (Zprod fs) <-> NoDup fs.
Proof.
  intros F. split.
  - intros S. induction F as [|p fs Pp F IH]; constructor.
    + intros I. apply (S p Pp). apply in_split in I as (a & b & ->).
      exists (Zprod (a ++ b)). cbn. rewrite !Zprod_app. cbn. ring.
    + apply IH. intros q Pq (r & E). apply (S q Pq). exists (p * r)%Z. cbn. rewrite E. ring.
  - intros N p Pp D. assert (D2 : (Zprod [p; p] | Zprod fs)%Z) by (cbn; now rewrite Z.mul_1_r).
    apply Zprod_divides_iff in D2; auto.
    destruct D2 as (r & Pm). apply (Permutation_NoDup Pm) in N. cbn in N. inversion N as [|? ? Nx _]. apply Nx.
    left. reflexivity.
Qed.

Lemma fold_Zprod l acc : fold_left Z.mul l acc = (acc * Zprod l)%Z.
Proof. revert acc. induction l as [|x l IH]; intros acc; cbn; [ring|]. rewrite IH. ring. Qed.

Lemma sublist_of_members (fs ms : list Z) : NoDup fs -> NoDup ms -> incl ms fs ->
  exists s, sublist s fs /\ Permutation s ms.
Proof.
  intros Nf Nm I. exists (filter (fun x => existsb (Z.eqb x) ms) fs). split; [apply sublist_filter|].
  apply NoDup_Permutation; [now apply NoDup_filter|auto|]. intros x. rewrite filter_In, existsb_exists. split.
  - intros (_ & y & Iy & E). apply Z.eqb_eq in E. now subst.
  - intros Ix. split; [auto|]. exists x. split; [auto|apply Z.eqb_refl].
Qed.

Definition factors_of (factorint : Z -> list Z) (n : Z) : Prop :=
  NoDup (factorint n) /\ forall p, In p (factorint n) <-> prime p /\ (p | n)%Z.

Lemma divisors_are_subsets fs n m : (1 <= n)%Z -> squarefree n -> NoDup fs ->
  (forall p, In p fs <-> prime p /\ (p | n)%Z) ->
  ((1 <= m)%Z /\ (m | n)%Z) <-> exists s, sublist s fs /\ m = Zprod s.
Proof.
  intros Hn S N Hf. assert (Fp : Forall prime fs) by (apply Forall_forall; intros p I; now apply Hf).
  destruct (factorisation n Hn) as (ns & Fns & En).
  assert (Nns : NoDup ns) by (apply squarefree_NoDup; [auto|now rewrite <- En]).
  assert (P : Permutation ns fs).
  { apply NoDup_Permutation; auto. intros p. rewrite Hf. split.
    - intros I. rewrite Forall_forall in Fns. split; [auto|]. rewrite En. apply in_split in I as (a & b & ->).
      exists (Zprod (a ++ b)). rewrite !Zprod_app. cbn. ring.
    - intros (Pp & D). rewrite En in D. now apply prime_divides_prod in D. }
  assert (Ef : n = Zprod fs) by (rewrite En; now apply Zprod_perm).
  split.
  - intros (Hm & D). destruct (factorisation m Hm) as (ms & Fms & Em). rewrite Em, Ef in D.
    apply Zprod_divides_iff in D; auto.
    assert (Nm : NoDup ms).
    { destruct D as (r & Pm). apply (Permutation_NoDup Pm) in N. now apply NoDup_app_left in N. }
    destruct (sublist_of_members fs ms N Nm) as (s & Ss & Ps).
    + intros x Ix. eapply contains_In; eauto.
    + exists s. split; [exact Ss|]. rewrite Em. symmetry. now apply Zprod_perm.
  - intros (s & Ss & ->). assert (Fs : Forall prime s).
    { rewrite Forall_forall in *. intros x Ix. apply Fp. eapply sublist_In; eauto. }
    split; [pose proof (Zprod_pos _ Fs); lia|]. rewrite Ef. apply Zprod_divides_iff; auto. now apply sublist_contains.
Qed.

Lemma sublist_Forall {A} (P : A -> Prop) s l : sublist s l -> Forall P l -> Forall P s.
Proof. intros S F. rewrite Forall_forall in *. intros x Ix. apply F. eapply sublist_In; eauto. Qed.

Lemma Zprod_sublist_inj fs s t : NoDup fs -> Forall prime fs -> sublist s fs -> sublist t fs ->
  Zprod s = Zprod t -> s = t.
Proof.
  intros N F Ss St E.
  assert (Fs : Forall prime s) by (eapply sublist_Forall; eauto).
  assert (Ft : Forall prime t) by (eapply sublist_Forall; eauto).
  apply Zprod_eq_iff in E; auto.
  clear F Fs Ft. revert s t Ss St E. induction N as [|x fs Nx N IH]; intros s t Ss St P.
  - inversion Ss; inversion St; reflexivity.
  - inversion Ss as [|? ? ? S1|? s1 ? S1]; subst; inversion St as [|? ? ? T1|? t1 ? T1]; subst.
    + now apply IH.
    + exfalso. apply Nx. eapply sublist_In; [exact S1|]. eapply Permutation_in; [symmetry; exact P|left; reflexivity].
    + exfalso. apply Nx. eapply sublist_In; [exact T1|]. eapply Permutation_in; [exact P|left; reflexivity].
    + f_equal. apply IH; auto. eapply Permutation_cons_inv; eauto.
Qed.

(** a product of a list of primes is 1 or a prime exactly if the list has at most one element *)
Lemma Zprod_small s : Forall prime s -> (1 < List.length s)%nat <-> (Zprod s <> 1 /\ ~ prime (Zprod s))%Z.
Proof.
  intros F. destruct s as [|p [|q s]].
  - cbn. split; [lia|]. intros (A & _). congruence.
  - cbn. rewrite Z.mul_1_r. inversion F; subst. split; [lia|tauto].
  - cbn [List.length]. split; [|lia]. intros _. inversion F as [|? ? Pp F1]; subst. inversion F1 as [|? ? Pq F2]; subst.
    assert (1 < p)%Z by (destruct Pp; lia). assert (1 < q)%Z by (destruct Pq; lia).
    pose proof (Zprod_pos _ F2). cbn [Zprod]. change (Zprod (p :: q :: s)) with (p * (q * Zprod s))%Z.
    assert (R : (2 <= q * Zprod s)%Z) by nia. revert R. generalize (q * Zprod s)%Z as r. intros r R.
    split; [nia|]. intros Pr.
    destruct (prime_divisors _ Pr p) as [E|[E|[E|E]]]; [exists r; ring|lia|lia|nia|nia].
Qed.

(** ** related_models *)

Definition rows (df : list (Z * Z)) (prod : Z) : list Z := map fst (filter (fun row => (snd row =? prod)%Z) df).

Lemma rows_In df prod j : In j (rows df prod) <-> In (j, prod) df.
Proof.
  unfold rows. rewrite in_map_iff. split.
  - intros ([j1 m] & E & I). cbn in E. subst j1. apply filter_In in I as (I & Em). apply Z.eqb_eq in Em. cbn in Em. now subst.
  - intros I. exists (j, prod). split; [reflexivity|]. apply filter_In. split; [auto|apply Z.eqb_refl].
Qed.

Lemma rows_NoDup df prod : NoDup (keys df) -> NoDup (rows df prod).
Proof. intros N. apply (sublist_NoDup (sublist_map fst (sublist_filter _ df)) N). Qed.

Lemma df_functional (df : list (Z * Z)) j a b : NoDup (keys df) -> In (j, a) df -> In (j, b) df -> a = b.
Proof.
  intros N A B. apply (In_dget Z_decides) in A; auto. apply (In_dget Z_decides) in B; auto. congruence.
Qed.

Section Related.
  Context (factorint : Z -> list Z) (df : list (Z * Z)) (index n : Z)
    (ND : NoDup (keys df)) (Hi : In (index, n) df) (Hn : (1 <= n)%Z) (Hf : factors_of factorint n).

  Definition groups : list (list Z) := filter (fun l => (1 <? List.length l)) (subsets (factorint n)).
  Definition found : list Z := concat (map (fun g => rows df (fold_left Z.mul g 1%Z)) groups).

  Lemma groups_In g : In g groups <-> sublist g (factorint n) /\ 1 < List.length g.
  Proof using Type. unfold groups. rewrite filter_In, subsets_In, Nat.ltb_lt. reflexivity. Qed.

  Lemma factors_prime : Forall prime (factorint n).
  Proof using Hf. apply Forall_forall. intros p I. now apply (proj2 Hf). Qed.

  Lemma group_prime g : In g groups -> Forall prime g.
  Proof using Hf.
    intros I. apply groups_In in I as (S & _). pose proof factors_prime as F. rewrite Forall_forall in *.
    intros x Ix. apply F. eapply sublist_In; eauto.
  Qed.

  Lemma found_NoDup : NoDup found.
  Proof using Hf ND.
    unfold found. rewrite <- flat_map_concat_map. apply NoDup_flat_map_disjoint.
    - apply NoDup_filter, subsets_NoDup, Hf.
    - intros g _. now apply rows_NoDup.
    - intros g h j Ig Ih Jg Jh. apply rows_In in Jg, Jh. pose proof (df_functional df j _ _ ND Jg Jh) as E.
      rewrite !fold_Zprod in E. apply groups_In in Ig as (Sg & _). apply groups_In in Ih as (Sh & _).
      apply (Zprod_sublist_inj (factorint n)); auto; [apply Hf|apply factors_prime|lia].
  Qed.

  Lemma found_In j : In j found <-> exists s, sublist s (factorint n) /\ 1 < List.length s /\ In (j, Zprod s) df.
  Proof using Type.
    unfold found. rewrite in_concat. split.
    - intros (l & I & Ij). apply in_map_iff in I as (g & <- & Ig). apply rows_In in Ij. rewrite fold_Zprod, Z.mul_1_l in Ij.
      apply groups_In in Ig as (S & L). eauto.
    - intros (s & S & L & Ij). exists (rows df (fold_left Z.mul s 1%Z)). split.
      + apply in_map_iff. exists s. split; [reflexivity|]. now apply groups_In.
      + apply rows_In. now rewrite fold_Zprod, Z.mul_1_l.
  Qed.

  Lemma related_eq : related_models factorint df index = list_remove index found.
  Proof using Hi ND.
    unfold related_models, dgetM. rewrite (In_dget Z_decides df index n ND Hi). reflexivity.
  Qed.

  Lemma related_ok : squarefree n -> n <> 1%Z -> ~ prime n ->
    exists out, related_models factorint df index = Ok out /\ NoDup out /\
      forall j, In j out <-> j <> index /\ exists m, In (j, m) df /\ (1 < m)%Z /\ ~ prime m /\ (m | n)%Z.
  Proof using Hi Hf Hn ND.
    intros S N1 Np. rewrite related_eq. unfold list_remove.
    assert (Char : forall j, In j found <-> exists m, In (j, m) df /\ (1 < m)%Z /\ ~ prime m /\ (m | n)%Z).
    { intros j. rewrite found_In. split.
      - intros (s & Ss & L & Ij). exists (Zprod s). split; [exact Ij|].
        assert (Fs : Forall prime s).
        { pose proof factors_prime as F. rewrite Forall_forall in *. intros x Ix. apply F. eapply sublist_In; eauto. }
        apply (Zprod_small s Fs) in L as (A & B).
        destruct (proj2 (divisors_are_subsets (factorint n) n (Zprod s) Hn S (proj1 Hf) (proj2 Hf))) as (C & D); eauto.
        split; [lia|]. split; auto.
      - intros (m & Ij & L & B & D).
        destruct (proj1 (divisors_are_subsets (factorint n) n m Hn S (proj1 Hf) (proj2 Hf))) as (s & Ss & ->); [split; [lia|auto]|].
        exists s. split; [exact Ss|]. split; [|exact Ij]. apply Zprod_small.
        + pose proof factors_prime as F. rewrite Forall_forall in *. intros x Ix. apply F. eapply sublist_In; eauto.
        + split; [lia|auto]. }
    assert (Ii : In index found).
    { apply Char. exists n. split; [auto|]. split; [lia|]. split; [auto|apply Z.divide_refl]. }
    destruct (in_split _ _ Ii) as (a & b & Eab). pose proof found_NoDup as NF.
    assert (Na : ~ In index a /\ ~ In index b).
    { rewrite Eab in NF. apply NoDup_remove_2 in NF. rewrite in_app_iff in NF. tauto. }
    exists (a ++ b). split; [|split].
    - rewrite Eab. clear -Na. destruct Na as (Na & _). induction a as [|x a IH]; cbn.
      + now rewrite Z.eqb_refl.
      + replace (index =? x)%Z with false by (symmetry; apply Z.eqb_neq; intros ->; apply Na; left; reflexivity).
        rewrite IH by (intros I; apply Na; now right). reflexivity.
    - rewrite Eab in NF. now apply NoDup_remove_1 in NF.
    - intros j. rewrite <- Char, Eab. rewrite !in_app_iff. cbn [In]. split.
      + intros I. split; [|tauto]. intros ->. tauto.
      + intros (Nj & [I|[E|I]]); auto. congruence.
  Qed.

  Lemma related_err : ~ (squarefree n /\ n <> 1%Z /\ ~ prime n) -> related_models factorint df index = Err ValueError.
  Proof using Hi Hf Hn ND.
    intros Hno. rewrite related_eq. unfold list_remove.
    assert (Ni : ~ In index found).
    { rewrite found_In. intros (s & Ss & L & Is). pose proof (df_functional df index _ _ ND Is Hi) as E.
      assert (Fs : Forall prime s).
      { pose proof factors_prime as F. rewrite Forall_forall in *. intros x Ix. apply F. eapply sublist_In; eauto. }
      apply Hno. rewrite <- E. apply (Zprod_small s Fs) in L as (A & B). split; [|split]; auto.
      apply squarefree_NoDup; auto. eapply sublist_NoDup; [exact Ss|apply Hf]. }
    revert Ni. generalize found as l. induction l as [|x l IH]; intros Ni; [reflexivity|]. cbn.
    replace (index =? x)%Z with false by (symmetry; apply Z.eqb_neq; intros ->; apply Ni; left; reflexivity).
    rewrite IH by (intros I; apply Ni; now right). reflexivity.
  Qed.
End Related.

(** ** keep_first, spelled out *)

Lemma keep_first_spec_pair {A} (eq : A -> A -> bool) l : forall kept,
  (forall x y, In x kept -> In y (keep_first eq kept l) -> eq x y = false) /\
  (forall a s b t c, keep_first eq kept l = a ++ s :: b ++ t :: c -> eq s t = false).
Proof.
  induction l as [|x l IH]; intros kept; cbn [keep_first].
  - split; [intros ? ? _ []|]. intros [|? a] s b t c E; discriminate.
  - destruct (existsb (fun y => eq y x) kept) eqn:E.
    + apply IH.
    + destruct (IH (kept ++ [x])) as (I1 & I2). split.
      * intros z y Iz [<-|Iy].
        -- apply not_true_is_false. intros T. assert (existsb (fun y => eq y x) kept = true) by (apply existsb_exists; eauto). congruence.
        -- apply I1; [|exact Iy]. apply in_app_iff. auto.
      * intros [|w a] s b t c Eq; cbn in Eq; inversion Eq; subst.
        -- apply I1; [apply in_app_iff; right; left; reflexivity|]. rewrite H1. apply in_app_iff. right. left. reflexivity.
        -- eapply I2; eauto.
Qed.

Lemma keep_first_covers {A} (eq : A -> A -> bool) l : forall kept a s b, l = a ++ s :: b ->
  (exists s0, In s0 kept /\ eq s0 s = true) \/ In s (keep_first eq kept l) \/
  exists s0, In s0 a /\ In s0 (keep_first eq kept l) /\ eq s0 s = true.
Proof.
  induction l as [|x l IH]; intros kept a s b El; [destruct a; discriminate|]. cbn [keep_first].
  destruct a as [|y a]; cbn in El; inversion El; subst.
  - destruct (existsb (fun y => eq y s) kept) eqn:E.
    + left. apply existsb_exists in E. exact E.
    + right. left. left. reflexivity.
  - destruct (existsb (fun z => eq z y) kept) eqn:E.
    + destruct (IH kept a s b eq_refl) as [K|[K|(s0 & K1 & K2 & K3)]]; auto.
      right. right. exists s0. split; [right; exact K1|]. auto.
    + destruct (IH (kept ++ [y]) a s b eq_refl) as [(s0 & K & K')|[K|(s0 & K1 & K2 & K3)]].
      * apply in_app_iff in K as [K|[<-|[]]]; [left; eauto|]. right. right. exists y.
        split; [left; reflexivity|]. split; [left; reflexivity|exact K'].
      * right. left. right. exact K.
      * right. right. exists s0. split; [right; exact K1|]. split; [right; exact K2|exact K3].
Qed.

(** ** Prefixes of printed fields *)

Lemma startswith_iff p d : startswith p d = true <-> exists r, d = p ++ r.
Proof.
  revert d. induction p as [|x p IH]; intros d; cbn.
  - split; eauto.
  - destruct d as [|y d]; [split; [discriminate|intros (r & E); discriminate]|].
    rewrite andb_true_iff, IH, Ascii.eqb_eq. split.
    + intros (-> & r & ->). eauto.
    + intros (r & E). inversion E; subst. eauto.
Qed.

Lemma app_comma_inj (a a' b b' : str) :
  ~ In ","%char a -> ~ In ","%char a' -> a ++ ","%char :: b = a' ++ ","%char :: b' -> a = a' /\ b = b'.
Proof.
  revert a'. induction a as [|x a IH]; intros [|y a'] N N' E; simpl in *.
  - inversion E; auto.
  - inversion E; subst. tauto.
  - inversion E; subst. tauto.
  - inversion E; subst. destruct (IH a') as [-> ->]; auto.
Qed.

Lemma print_exotic_parts e : print_exotic e
  = e_lor e ++ ","%char :: e_col e ++ ","%char :: e_iso e ++ ","%char :: show_Q (e_hyp e) ++ ","%char :: show_Q (e_bar e).
Proof. unfold print_exotic. cbn [join]. reflexivity. Qed.

(** a complete field string is a prefix of another exactly if all but the last entries agree and the last is a
    prefix *)
Lemma prefix_exotic e f : exotic_ok e -> exotic_ok f ->
  startswith (print_exotic e) (print_exotic f) = true <->
  e_lor e = e_lor f /\ e_col e = e_col f /\ e_iso e = e_iso f /\ e_hyp e = e_hyp f /\
  startswith (show_Q (e_bar e)) (show_Q (e_bar f)) = true.
Proof.
  intros (A1 & A2 & A3) (B1 & B2 & B3). rewrite !startswith_iff, !print_exotic_parts. split.
  - intros (r & E). repeat (rewrite <- app_assoc in E || rewrite <- app_comm_cons in E).
    apply app_comma_inj in E as (E1 & E); auto. apply app_comma_inj in E as (E2 & E); auto.
    apply app_comma_inj in E as (E3 & E); auto. apply app_comma_inj in E as (E4 & E); try apply show_Q_no_comma.
    apply show_Q_inj in E4. repeat split; auto. eauto.
  - intros (E1 & E2 & E3 & E4 & r & E). exists r. repeat (rewrite <- app_assoc || rewrite <- app_comm_cons). rewrite E1, E2, E3, E4, E. reflexivity.
Qed.

Lemma prefix_exotic_zero e f : exotic_ok e -> exotic_ok f -> e_bar e = 0%Qc ->
  startswith (print_exotic e) (print_exotic f) = true <-> e = f.
Proof.
  intros A B Z. rewrite prefix_exotic by auto. split.
  - intros (E1 & E2 & E3 & E4 & S). rewrite Z, show_Q_0 in S. apply startswith_iff in S as (r & S). cbn in S.
    apply show_Q_zero_prefix in S as (S & _). destruct e, f. cbn in *. congruence.
  - intros <-. repeat split; auto. apply startswith_iff. exists []. now rewrite app_nil_r.
Qed.

(** Standard Model names contain no comma *)
Lemma prefix_sm e s c : startswith (print_exotic e) (print_field (SM s c)) = false.
Proof.
  apply not_true_is_false. intros S. apply startswith_iff in S as (r & E).
  pose proof (print_exotic_comma e) as I.
  assert (N : ~ In ","%char (print_field (SM s c))).
  { destruct s, c; cbn; intuition discriminate. }
  apply N. rewrite E. apply in_app_iff. auto.
Qed.
