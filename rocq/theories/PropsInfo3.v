(** * PropsInfo3: the printed quantum numbers of exotic fields *)

From Coq Require Import Ascii String List Bool Arith ZArith QArith Qcanon Lia Permutation Sorted.
From Verif Require Import Base BaseFacts Show Spec SpecFunctions ProofsFunctions ProofsIndex ProofsDatabase3 ProofsContract
  ModelIndex ModelField ModelContract ModelPartition ModelExotic ModelInfo SpecInfo.
Import ListNotations.
Local Open Scope nat_scope.

Definition patterns (p q : nat) : list (nat * nat * nat) :=
  flat_map (fun a => flat_map (fun b => map (fun c => (a, b, c)) (seq b (a - b + 1))) (seq 0 (q + 1))) (seq q (p + 1)).

Lemma patterns_in p q a b c : In (a, b, c) (patterns p q) <-> q <= a <= p + q /\ b <= q /\ b <= c <= a.
Proof.
  unfold patterns. rewrite in_flat_map. split.
  - intros (a' & A & H). apply in_flat_map in H as (b' & B & H). apply in_map_iff in H as (c' & [= -> -> ->] & C). apply in_seq in A, B, C. lia.
  - intros (A & B & C). exists a. split; [apply in_seq; lia|]. apply in_flat_map. exists b. split; [apply in_seq; lia|]. apply in_map_iff. exists c. split; [reflexivity|apply in_seq; lia].
Qed.

Lemma nodup_flat_map {A B} (f : A -> list B) (g : B -> A) l : NoDup l -> (forall x, In x l -> NoDup (f x)) -> (forall x y, In y (f x) -> g y = x) -> NoDup (flat_map f l).
Proof.
  intros N F G. induction N as [|x l Nx N IH]; [constructor|]. cbn [flat_map]. apply NoDup_app_intro.
  - apply F. now left.
  - apply IH. intros y Y. apply F. now right.
  - intros y Y Z. apply in_flat_map in Z as (z & Z1 & Z2). apply G in Y, Z2. congruence.
Qed.

Lemma patterns_nodup p q : NoDup (patterns p q).
Proof.
  unfold patterns. apply (nodup_flat_map _ (fun t => fst (fst t))); [apply seq_NoDup| |].
  - intros a _. apply (nodup_flat_map _ (fun t => snd (fst t))); [apply seq_NoDup| |].
    + intros b _. apply FinFun.Injective_map_NoDup; [|apply seq_NoDup]. intros c c' [= H]. exact H.
    + intros b t T. apply in_map_iff in T as (c & <- & _). reflexivity.
  - intros a t T. apply in_flat_map in T as (b & _ & T). apply in_map_iff in T as (c & <- & _). reflexivity.
Qed.

Lemma row_length a k : k <= a -> 2 * length (flat_map (fun b => map (fun c => (a, b, c)) (seq b (a - b + 1))) (seq 0 (k + 1))) = (k + 1) * (2 * a + 2 - k).
Proof.
  induction k as [|k IH]; intros L.
  - cbn [Nat.add seq flat_map]. rewrite app_nil_r, map_length, seq_length. lia.
  - replace (S k + 1) with (S (k + 1)) by lia. rewrite seq_S, flat_map_app, app_length. cbn [Nat.add flat_map]. rewrite app_nil_r, map_length, seq_length.
    rewrite Nat.mul_add_distr_l, IH by lia. nia.
Qed.

Lemma patterns_length p q : 2 * length (patterns p q) = (p + 1) * (q + 1) * (p + q + 2).
Proof.
  unfold patterns. induction p as [|p IH].
  - cbn [Nat.add seq flat_map]. rewrite app_nil_r, row_length by lia. nia.
  - replace (S p + 1) with (S (p + 1)) by lia. rewrite seq_S, flat_map_app, app_length. cbn [flat_map]. rewrite app_nil_r.
    rewrite Nat.mul_add_distr_l, IH, row_length by lia. nia.
Qed.

Lemma dim_unique p q n : su3_states p q n -> 2 * n = (p + 1) * (q + 1) * (p + q + 2).
Proof.
  intros (l & N & L & <-). rewrite <- patterns_length. f_equal. apply Permutation_length. apply NoDup_Permutation; [exact N|apply patterns_nodup|].
  intros [[a b] c]. rewrite L, patterns_in. reflexivity.
Qed.

Lemma dim_exists p q : su3_states p q (su3_dim p q).
Proof.
  exists (patterns p q). split; [apply patterns_nodup|]. split.
  - intros [[a b] c]. rewrite patterns_in. reflexivity.
  - unfold su3_dim. rewrite <- patterns_length. rewrite Nat.mul_comm, Nat.div_mul by discriminate. reflexivity.
Qed.

Lemma dim_states p q n : su3_states p q n <-> n = su3_dim p q.
Proof.
  split; [|intros ->; apply dim_exists]. intros S. apply dim_unique in S. unfold su3_dim. rewrite <- S. rewrite Nat.mul_comm, Nat.div_mul by discriminate. reflexivity.
Qed.

Lemma split_at (c : ascii) (a a' b b' : str) : ~ In c a -> ~ In c a' -> a ++ c :: b = a' ++ c :: b' -> a = a' /\ b = b'.
Proof.
  revert a'. induction a as [|x a IH]; intros [|y a'] N N' E; simpl in *.
  - inversion E; auto.
  - inversion E; subst. tauto.
  - inversion E; subst. tauto.
  - inversion E; subst. destruct (IH a') as [-> ->]; auto.
Qed.

Lemma digits_no (c : ascii) n : ~ is_digit c -> ~ In c (show_nat n).
Proof. intros H I. apply H. pose proof (show_digits n) as F. rewrite Forall_forall in F. auto. Qed.

Lemma charges_no (c : ascii) q : ~ is_digit c -> c <> "-"%char -> c <> "/"%char -> ~ In c (show_Q q).
Proof. intros H1 H2 H3 I. apply show_Q_chars in I. tauto. Qed.

Ltac nodig := unfold is_digit; cbn; intuition discriminate.

Lemma format_eq lor p q i cs : NoDup (keys cs) ->
  format_quantum_numbers (mkQn lor [p; q; i] cs) =
  match dget str_eqb cs (lit "y"), dget str_eqb cs (lit "3b") with
  | Some y, Some b => Ok (lor ++ "("%char :: (show_nat (su3_dim p q) ++ (if p <? q then lit "b" else [])) ++ ","%char :: " "%char ::
                          show_nat (i + 1) ++ ","%char :: " "%char :: show_Q y ++ ")"%char :: "("%char :: show_Q b ++ lit ")")
  | _, _ => Err KeyError
  end.
Proof.
  intros N. unfold format_quantum_numbers. cbn [qn_sm qn_charges qn_lorentz]. unfold dgetM, dict_of. rewrite !dget_dupdate_NoDup by exact N.
  destruct (dget str_eqb cs (lit "y")) as [y|]; [|reflexivity]. cbn [bind]. destruct (dget str_eqb cs (lit "3b")) as [b|]; [|reflexivity]. reflexivity.
Qed.

(** C55: what is printed: the Lorentz letter, the number of colour states with a bar, the number of isospin states,
    the hypercharge and three times the baryon number. *)
Theorem C55_format : forall lor p q i cs n y b,
  NoDup (map fst cs) -> In (lit "y", y) cs -> In (lit "3b", b) cs -> su3_states p q n ->
  (q <= p -> format_quantum_numbers (mkQn lor [p; q; i] cs) =
     Ok (lor ++ lit "(" ++ show_nat n ++ lit ", " ++ show_nat (i + 1) ++ lit ", " ++ show_Q y ++ lit ")(" ++ show_Q b ++ lit ")")) /\
  (p < q -> format_quantum_numbers (mkQn lor [p; q; i] cs) =
     Ok (lor ++ lit "(" ++ show_nat n ++ lit "b, " ++ show_nat (i + 1) ++ lit ", " ++ show_Q y ++ lit ")(" ++ show_Q b ++ lit ")")).
Proof.
  intros lor p q i cs n y b N Y B D. apply dim_states in D as ->. rewrite (format_eq _ _ _ _ _ N).
  rewrite (In_dget str_decides _ _ _ N Y), (In_dget str_decides _ _ _ N B). split; intros L.
  - assert ((p <? q) = false) as -> by (apply Nat.ltb_ge; exact L). now rewrite app_nil_r.
  - assert ((p <? q) = true) as -> by (apply Nat.ltb_lt; exact L). now rewrite <- !app_assoc.
Qed.

Theorem C55_missing : forall lor p q i cs,
  NoDup (map fst cs) -> ~ In (lit "y") (map fst cs) \/ ~ In (lit "3b") (map fst cs) ->
  format_quantum_numbers (mkQn lor [p; q; i] cs) = Err KeyError.
Proof.
  intros lor p q i cs N [H|H]; rewrite (format_eq _ _ _ _ _ N); apply (dget_None str_decides) in H; rewrite H; [reflexivity|].
  now destruct (dget str_eqb cs (lit "y")).
Qed.

(** C55: two texts agree exactly when everything that is printed does. *)
Theorem C55_same : forall lor p q i cs n y b lor' p' q' i' cs' n' y' b',
  NoDup (map fst cs) -> In (lit "y", y) cs -> In (lit "3b", b) cs -> su3_states p q n ->
  NoDup (map fst cs') -> In (lit "y", y') cs' -> In (lit "3b", b') cs' -> su3_states p' q' n' ->
  lor = lit "S" \/ lor = lit "F" -> lor' = lit "S" \/ lor' = lit "F" ->
  (format_quantum_numbers (mkQn lor [p; q; i] cs) = format_quantum_numbers (mkQn lor' [p'; q'; i'] cs') <->
   lor = lor' /\ n = n' /\ (p < q <-> p' < q') /\ i = i' /\ y = y' /\ b = b').
Proof.
  intros lor p q i cs n y b lor' p' q' i' cs' n' y' b' N Y B D N' Y' B' D' L L'. apply dim_states in D as ->. apply dim_states in D' as ->.
  rewrite (format_eq _ _ _ _ _ N), (format_eq _ _ _ _ _ N').
  rewrite (In_dget str_decides _ _ _ N Y), (In_dget str_decides _ _ _ N B), (In_dget str_decides _ _ _ N' Y'), (In_dget str_decides _ _ _ N' B').
  assert (Nl : forall l, l = lit "S" \/ l = lit "F" -> ~ In "("%char l) by (intros l [-> | ->]; cbn; intuition discriminate).
  assert (Nc : forall m u, ~ In ","%char (show_nat m ++ (if u : bool then lit "b" else []))).
  { intros m u I. apply in_app_or in I as [I|I]; [revert I; apply digits_no; nodig|destruct u; cbn in I; intuition discriminate]. }
  split.
  - intros [= E]. apply split_at in E as [-> E]; [|auto|auto].
    apply split_at in E as [E1 E]; [|apply Nc|apply Nc]. injection E as E.
    apply split_at in E as [E2 E]; [|apply digits_no; nodig|apply digits_no; nodig]. injection E as E.
    apply split_at in E as [E3 E]; [|apply charges_no; [nodig|discriminate|discriminate]|apply charges_no; [nodig|discriminate|discriminate]]. injection E as E.
    apply (split_at ")"%char) in E as [E4 _]; [|apply charges_no; [nodig|discriminate|discriminate]|apply charges_no; [nodig|discriminate|discriminate]].
    apply show_nat_inj in E2. apply show_Q_inj in E3, E4. subst.
    assert (i = i') as -> by lia.
    assert (X : (p <? q) = (p' <? q') /\ show_nat (su3_dim p q) = show_nat (su3_dim p' q')).
    { destruct (p <? q), (p' <? q'); rewrite ?app_nil_r in E1; [apply app_inj_tail in E1 as [E1 _]; auto| | |auto].
      - exfalso. apply (digits_no "b"%char (su3_dim p' q')); [nodig|]. rewrite <- E1. apply in_or_app. right. now left.
      - exfalso. apply (digits_no "b"%char (su3_dim p q)); [nodig|]. rewrite E1. apply in_or_app. right. now left. }
    destruct X as [X1 X2]. apply show_nat_inj in X2. split; [reflexivity|]. split; [exact X2|]. split; [|auto].
    rewrite <- !Nat.ltb_lt. now rewrite X1.
  - intros (-> & -> & I & -> & -> & ->).
    assert ((p <? q) = (p' <? q')) as ->; [|reflexivity].
    apply eq_true_iff_eq. now rewrite !Nat.ltb_lt.
Qed.

(** C55: up to three colour indices no two representations are printed alike; *)
Theorem C55_small : forall p q p' q' n,
  p + q <= 3 -> p' + q' <= 3 -> su3_states p q n -> su3_states p' q' n -> (p < q <-> p' < q') -> p = p' /\ q = q'.
Proof.
  intros p q p' q' n L L' D D' H. apply dim_unique in D, D'. rewrite D in D'. clear D n.
  assert (C : p <= 3 /\ q <= 3 /\ p' <= 3 /\ q' <= 3) by lia. destruct C as (C1 & C2 & C3 & C4).
  destruct p as [|[|[|[|p]]]], q as [|[|[|[|q]]]], p' as [|[|[|[|p']]]], q' as [|[|[|[|q']]]]; try (exfalso; clear D' H; lia); cbn in D'; try discriminate D';
    try (split; reflexivity); exfalso; destruct H as [H1 H2]; try (apply Nat.nlt_ge in H1; lia); first [assert (Z := H1 ltac:(lia)); lia|assert (Z := H2 ltac:(lia)); lia].
Qed.

(** with four they can be: (2, 1) and (4, 0) are both "15". *)
Theorem C55_refuted : exists p q p' q' n,
  (p, q) <> (p', q') /\ su3_states p q n /\ su3_states p' q' n /\
  forall lor i cs, format_quantum_numbers (mkQn lor [p; q; i] cs) = format_quantum_numbers (mkQn lor [p'; q'; i] cs).
Proof. exists 2, 1, 4, 0, 15. split; [discriminate|]. split; [apply (dim_exists 2 1)|]. split; [apply (dim_exists 4 0)|]. reflexivity. Qed.

(** The scalar leptoquark (3bar, 1, 1/3). *)
Example C55_example :
  format_quantum_numbers (mkQn (lit "S") [0; 1; 0] [(lit "3b", Q2Qc (- 1)); (lit "y", Q2Qc (1 # 3))]) = Ok (lit "S(3b, 1, 1/3)(-1)") /\
  su3_states 0 1 3 /\ NoDup (map fst [(lit "3b", Q2Qc (- 1)); (lit "y", Q2Qc (1 # 3))]).
Proof.
  split; [vm_compute; reflexivity|]. split; [apply (dim_exists 0 1)|]. cbn. constructor; [cbn; intuition discriminate|]. constructor; [intros []|constructor].
Qed.

Print Assumptions C55_same.
Print Assumptions C55_small.
