(** * ProofsFunctions: proofs about utils/functions.py *)

From Coq Require Import Ascii String List Bool Arith ZArith Lia Permutation Sorted QArith Qcanon.
From Verif Require Import Base BaseFacts Spec Show ModelFunctions SpecFunctions.
Import ListNotations.
Local Open Scope nat_scope.

(** ** chunks *)

Lemma chunks_fuel_concat {A} fuel n (l : list A) :
  (0 < n)%nat -> (List.length l <= fuel)%nat -> concat (chunks_fuel fuel n l) = l.
Proof.
  intros Hn. revert l. induction fuel as [|f IH]; intros l Hl.
  - destruct l; [reflexivity|simpl in Hl; lia].
  - destruct l as [|x l]; [reflexivity|]. cbn [chunks_fuel concat].
    rewrite IH; [apply firstn_skipn|]. rewrite skipn_length. cbn [List.length] in *. lia.
Qed.

Lemma chunks_fuel_sizes {A} fuel n (l : list A) :
  (0 < n)%nat -> (List.length l <= fuel)%nat ->
  forall a c b, chunks_fuel fuel n l = a ++ c :: b ->
    (1 <= List.length c <= n)%nat /\ (b <> [] -> List.length c = n).
Proof.
  intros Hn. revert l. induction fuel as [|f IH]; intros l Hl a c b E.
  - simpl in E. destruct a; discriminate.
  - destruct l as [|x l]; [simpl in E; destruct a; discriminate|]. cbn [chunks_fuel] in E.
    destruct a as [|a0 a].
    + simpl in E. inversion E; subst. split.
      * rewrite firstn_length. cbn [List.length]. lia.
      * intros Hb. rewrite firstn_length. destruct (Nat.le_gt_cases n (List.length (x :: l))) as [L|L]; [lia|].
        exfalso. apply Hb. rewrite skipn_all2 by lia. destruct f; reflexivity.
    + simpl in E. inversion E; subst. eapply IH; [|exact H1]. rewrite skipn_length. cbn [List.length] in *. lia.
Qed.

(** ** keep_first *)

Section KeepFirst.
  Context {T : Type} (eq : T -> T -> bool).

  (** keep the head and filter the tail *)
  Fixpoint sieve (fuel : nat) (l : list T) : list T :=
    match fuel, l with
    | O, _ => []
    | _, [] => []
    | S f, x :: r => x :: sieve f (filter (fun y => negb (eq x y)) r)
    end.

  Lemma sieve_fuel a b l :
    (List.length l <= a)%nat -> (List.length l <= b)%nat -> sieve a l = sieve b l.
  Proof using Type.
    revert b l. induction a as [|a IHa]; intros [|b] l La Lb;
      try (destruct l; [reflexivity|cbn in *; lia]).
    destruct l as [|z l]; [reflexivity|]. cbn [sieve]. f_equal.
    pose proof (filter_length_le (fun y => negb (eq z y)) l). cbn in *.
    apply IHa; lia.
  Qed.

  Lemma sieve_keep_first fuel kept l :
    (List.length l <= fuel)%nat ->
    sieve fuel (filter (fun y => negb (existsb (fun k => eq k y) kept)) l) = keep_first eq kept l.
  Proof using Type.
    revert kept l. induction fuel as [|f IH]; intros kept l Hl.
    - destruct l; [reflexivity|simpl in Hl; lia].
    - revert kept Hl. induction l as [|x l IHl]; intros kept Hl; [reflexivity|].
      cbn [keep_first filter]. destruct (existsb (fun k => eq k x) kept) eqn:E; cbn [negb].
      + apply IHl. simpl in Hl. lia.
      + cbn [sieve]. f_equal. rewrite <- IH by (simpl in Hl; lia). f_equal.
        clear. induction l as [|y l IH]; [reflexivity|]. cbn [filter].
        rewrite existsb_app. cbn [existsb]. rewrite orb_false_r.
        destruct (existsb (fun k => eq k y) kept); cbn [negb orb].
        * exact IH.
        * cbn [filter]. destruct (eq x y); cbn [negb]; rewrite IH; reflexivity.
  Qed.

  Lemma keep_first_snoc kept l x :
    keep_first eq kept (l ++ [x]) =
    keep_first eq kept l ++
      (if existsb (fun y => eq y x) (kept ++ keep_first eq kept l) then [] else [x]).
  Proof using Type.
    revert kept. induction l as [|y l IH]; intros kept; cbn [app keep_first].
    - rewrite app_nil_r. destruct (existsb _ kept); reflexivity.
    - destruct (existsb (fun k => eq k y) kept) eqn:E.
      + apply IH.
      + rewrite IH. cbn [app]. rewrite <- app_assoc. reflexivity.
  Qed.

  Lemma keep_first_sublist kept l : sublist (keep_first eq kept l) l.
  Proof using Type.
    revert kept. induction l as [|x l IH]; intros kept; cbn [keep_first]; [constructor|].
    destruct (existsb _ kept); [now apply sub_skip|now apply sub_keep].
  Qed.

  Lemma keep_first_covers kept l x :
    In x l -> In x (keep_first eq kept l) \/ exists y, In y (kept ++ keep_first eq kept l) /\ eq y x = true.
  Proof using Type.
    revert kept. induction l as [|y l IH]; intros kept; [intros []|]. cbn [keep_first].
    intros [->|I].
    - destruct (existsb (fun k => eq k x) kept) eqn:E.
      + apply existsb_exists in E as (k & Hk & Ek). right. exists k. rewrite in_app_iff. auto.
      + left. left. reflexivity.
    - destruct (existsb (fun k => eq k y) kept) eqn:E; [auto|].
      destruct (IH (kept ++ [y]) I) as [H|(k & Hk & Ek)].
      + left. right. exact H.
      + right. exists k. split; auto. rewrite <- app_assoc in Hk. exact Hk.
  Qed.

  Lemma keep_first_fresh kept l y :
    In y (keep_first eq kept l) -> existsb (fun k => eq k y) kept = false.
  Proof using Type.
    revert kept. induction l as [|x l IH]; intros kept; [intros []|]. cbn [keep_first].
    destruct (existsb (fun k => eq k x) kept) eqn:E; [apply IH|].
    intros [->|I]; [exact E|]. apply IH in I. rewrite existsb_app in I. apply orb_false_iff in I. tauto.
  Qed.

  Lemma keep_first_pairwise kept l :
    ForallOrdPairs (fun x y => eq x y = false) (keep_first eq kept l).
  Proof using Type.
    revert kept. induction l as [|x l IH]; intros kept; cbn [keep_first]; [constructor|].
    destruct (existsb (fun k => eq k x) kept) eqn:E; [apply IH|]. constructor; [|apply IH].
    rewrite Forall_forall. intros y Hy. apply keep_first_fresh in Hy.
    rewrite existsb_app in Hy. apply orb_false_iff in Hy as [_ Hy]. cbn in Hy.
    apply orb_false_iff in Hy. tauto.
  Qed.
End KeepFirst.

(** ** remove_equivalent *)

Lemma getM_mid {A} (l1 l2 : list A) x : getM (l1 ++ x :: l2) (List.length l1) = Ok x.
Proof. unfold getM. rewrite nth_error_app2 by lia. now rewrite Nat.sub_diag. Qed.

Lemma getM_left {A} (l1 l2 : list A) i x : nth_error l1 i = Some x -> getM (l1 ++ l2) i = Ok x.
Proof.
  intros H. unfold getM. rewrite nth_error_app1; [now rewrite H|].
  apply nth_error_Some. congruence.
Qed.

Lemma pop_at_mid {A} (l1 l2 : list A) x : pop_at (l1 ++ x :: l2) (List.length l1) = Ok (l1 ++ l2).
Proof.
  unfold pop_at. rewrite app_length. cbn [List.length].
  replace (List.length l1 <? List.length l1 + S (List.length l2))%nat with true
    by (symmetry; apply Nat.ltb_lt; lia).
  rewrite firstn_app, Nat.sub_diag, firstn_all. cbn [firstn]. rewrite app_nil_r.
  f_equal. f_equal. clear. induction l1 as [|y l1 IH]; [reflexivity|exact IH].
Qed.

Section RE.
  Context {T : Type} (eq : T -> T -> bool).

  Lemma re_inner_spec fuel pre rest i x :
    nth_error pre i = Some x -> (List.length rest < fuel)%nat ->
    re_inner eq fuel (pre ++ rest) i (List.length pre)
    = Ok (pre ++ filter (fun y => negb (eq x y)) rest).
  Proof using Type.
    revert pre rest. induction fuel as [|f IH]; intros pre rest Hx Hf; [lia|].
    cbn [re_inner]. destruct rest as [|y rest].
    - rewrite app_nil_r. rewrite Nat.ltb_irrefl. cbn. now rewrite app_nil_r.
    - rewrite app_length. cbn [List.length].
      replace (List.length pre <? List.length pre + S (List.length rest))%nat with true
        by (symmetry; apply Nat.ltb_lt; lia).
      rewrite (getM_left _ _ _ _ Hx), getM_mid. cbn [bind]. cbn [filter].
      destruct (eq x y) eqn:E; cbn [negb].
      + rewrite pop_at_mid. cbn [bind]. apply IH; auto. cbn in Hf. lia.
      + replace (S (List.length pre)) with (List.length (pre ++ [y])) by (rewrite app_length; cbn; lia).
        replace (pre ++ y :: rest) with ((pre ++ [y]) ++ rest) by (rewrite <- app_assoc; reflexivity).
        rewrite IH.
        * rewrite <- app_assoc. reflexivity.
        * rewrite nth_error_app1; auto. apply nth_error_Some. congruence.
        * cbn in Hf. lia.
  Qed.

  Lemma re_outer_spec fuel pre rest :
    (List.length rest < fuel)%nat ->
    re_outer eq fuel (pre ++ rest) (List.length pre) = Ok (pre ++ sieve eq (List.length rest) rest).
  Proof using Type.
    revert pre rest. induction fuel as [|f IH]; intros pre rest Hf; [lia|].
    cbn [re_outer]. rewrite app_length. destruct rest as [|x rest].
    - cbn [List.length]. replace (List.length pre + 1 <? List.length pre + 0)%nat with false
        by (symmetry; apply Nat.ltb_ge; lia). cbn. reflexivity.
    - destruct rest as [|y rest].
      + cbn [List.length]. replace (List.length pre + 1 <? List.length pre + 1)%nat with false
          by (symmetry; apply Nat.ltb_irrefl). reflexivity.
      + set (r := y :: rest) in *.
        replace (List.length pre + 1 <? List.length pre + List.length (x :: r))%nat with true
          by (symmetry; apply Nat.ltb_lt; subst r; cbn; lia).
        replace (pre ++ x :: r) with ((pre ++ [x]) ++ r) by (rewrite <- app_assoc; reflexivity).
        replace (List.length pre + 1)%nat with (List.length (pre ++ [x])) by (rewrite app_length; cbn; lia).
        rewrite (re_inner_spec _ (pre ++ [x]) r (List.length pre) x).
        * cbn [bind]. rewrite IH.
          -- cbn [List.length sieve]. rewrite <- app_assoc. cbn [app]. f_equal. f_equal. f_equal.
             apply sieve_fuel; [lia|apply filter_length_le].
          -- pose proof (filter_length_le (fun y => negb (eq x y)) r). cbn in Hf. subst r. cbn in *. lia.
        * rewrite nth_error_app2 by lia. rewrite Nat.sub_diag. reflexivity.
        * cbn [List.length]. lia.
  Qed.

  Lemma remove_equivalent_ok l : remove_equivalent eq l = Ok (keep_first eq [] l).
  Proof using Type.
    unfold remove_equivalent. pose proof (re_outer_spec (S (List.length l)) [] l) as H.
    cbn [app List.length] in H. rewrite H by lia. f_equal.
    rewrite <- (sieve_keep_first eq (List.length l) [] l) by lia.
    f_equal. cbn. clear. induction l as [|x l IH]; [reflexivity|]. cbn. now f_equal.
  Qed.

  (** *** the non-popping version *)

  (** elements at positions not in [rm], positions starting at [k] *)
  Fixpoint survivors (k : nat) (rm : list nat) (l : list T) : list T :=
    match l with
    | [] => []
    | x :: r => if mem_by Nat.eqb k rm then survivors (S k) rm r else x :: survivors (S k) rm r
    end.

  Lemma survivors_app k rm a b :
    survivors k rm (a ++ b) = survivors k rm a ++ survivors (k + List.length a) rm b.
  Proof using Type.
    revert k. induction a as [|x a IH]; intros k; cbn [app survivors List.length].
    - now rewrite Nat.add_0_r.
    - rewrite IH. replace (S k + List.length a)%nat with (k + S (List.length a))%nat by lia.
      destruct (mem_by Nat.eqb k rm); reflexivity.
  Qed.

  Lemma survivors_In k rm l y :
    In y (survivors k rm l) <->
    exists q, nth_error l q = Some y /\ ~ In (k + q)%nat rm.
  Proof using Type.
    revert k. induction l as [|x l IH]; intros k; cbn [survivors].
    - split; [intros []|]. intros (q & H & _). destruct q; discriminate.
    - assert (G : In y (survivors (S k) rm l) <->
                  exists q, nth_error (x :: l) (S q) = Some y /\ ~ In (k + S q)%nat rm).
      { rewrite IH. split; intros (q & H1 & H2); exists q; (split; [exact H1|]);
        (replace (k + S q)%nat with (S k + q)%nat in * by lia); exact H2. }
      destruct (mem_by Nat.eqb k rm) eqn:E.
      + rewrite G. split; [intros (q & H)|]. exists (S q); exact H.
        intros ([|q] & H1 & H2); [|exists q; auto]. exfalso. apply H2. rewrite Nat.add_0_r.
        now apply (mem_by_In nat_decides).
      + assert (N : ~ In k rm).
        { intros H. apply (mem_by_In nat_decides) in H. congruence. }
        split.
        * intros [->|H]; [exists 0%nat; rewrite Nat.add_0_r; auto|].
          apply G in H as (q & H). exists (S q). exact H.
        * intros ([|q] & H1 & H2); [left; cbn in H1; congruence|right; apply G; exists q; auto].
  Qed.

  Lemma survivors_ext k rm rm' l :
    (forall p, (k <= p < k + List.length l)%nat -> (In p rm <-> In p rm')) ->
    survivors k rm l = survivors k rm' l.
  Proof using Type.
    revert k. induction l as [|x l IH]; intros k H; [reflexivity|]. cbn [survivors].
    assert (E : mem_by Nat.eqb k rm = mem_by Nat.eqb k rm').
    { apply eq_true_iff_eq. rewrite !(mem_by_In nat_decides). apply H. cbn; lia. }
    rewrite E, (IH (S k)); [reflexivity|]. intros p Hp. apply H. cbn. lia.
  Qed.

  Lemma nopop_inner_spec fuel l i x j rm :
    nth_error l i = Some x -> (i < j)%nat -> NoDup rm -> (forall p, In p rm -> (p < List.length l)%nat) ->
    (2 * (List.length l - j) < fuel + (if mem_by Nat.eqb j rm then 1 else 0))%nat ->
    exists rm', nopop_inner eq fuel l i j rm = Ok rm' /\ NoDup rm' /\
      forall p, In p rm' <-> In p rm \/
        ((j <= p)%nat /\ exists y, nth_error l p = Some y /\ eq x y = true).
  Proof using Type.
    intros Hx. revert j rm. induction fuel as [|f IH]; intros j rm Hij ND Hrm Hf.
    - (* fuel 0: only possible past the end with j in rm, contradiction *)
      destruct (mem_by Nat.eqb j rm) eqn:E; [|lia]. apply (mem_by_In nat_decides) in E.
      apply Hrm in E. lia.
    - cbn [nopop_inner]. destruct (j <? List.length l)%nat eqn:El.
      + apply Nat.ltb_lt in El. destruct (mem_by Nat.eqb j rm) eqn:Em.
        * destruct (IH (S j) rm) as (rm' & E & N' & H); auto.
          { destruct (mem_by Nat.eqb (S j) rm); lia. }
          exists rm'. split; [exact E|]. split; [exact N'|]. intros p. rewrite H.
          apply (mem_by_In nat_decides) in Em. split; intros [A|(A & B)]; auto.
          -- right. split; [lia|exact B].
          -- destruct (Nat.eq_dec p j) as [->|Np]; [auto|]. right. split; [lia|exact B].
        * destruct (nth_error l j) as [y|] eqn:Ey.
          2:{ apply nth_error_None in Ey. lia. }
          unfold getM. rewrite Hx, Ey. cbn [bind]. destruct (eq x y) eqn:Exy.
          -- destruct (IH j (j :: rm)) as (rm' & E & N' & H); auto.
             { constructor; auto. intros I. apply (mem_by_In nat_decides) in I. congruence. }
             { intros p [<-|I]; auto. }
             { cbn [mem_by existsb]. rewrite Nat.eqb_refl. cbn. lia. }
             exists rm'. split; [exact E|]. split; [exact N'|]. intros p. rewrite H. cbn [In].
             split; intros A.
             ++ destruct A as [[<-|A]|A]; auto. right. split; [lia|]. exists y; auto.
             ++ destruct A as [A|A]; auto.
          -- destruct (IH (S j) rm) as (rm' & E & N' & H); auto.
             { destruct (mem_by Nat.eqb (S j) rm); lia. }
             exists rm'. split; [exact E|]. split; [exact N'|]. intros p. rewrite H.
             split; intros [A|(A & B)]; auto.
             ++ right. split; [lia|exact B].
             ++ destruct (Nat.eq_dec p j) as [->|Np].
                ** destruct B as (y' & B1 & B2). congruence.
                ** right. split; [lia|exact B].
      + apply Nat.ltb_ge in El. exists rm. split; [reflexivity|]. split; [exact ND|].
        intros p. split; auto. intros [A|(A & y & B & _)]; auto.
        assert (nth_error l p = None) by (apply nth_error_None; lia). congruence.
  Qed.

  (** position [p] is removed because of an earlier position [q < i] that stays *)
  Definition removed_upto (l : list T) (i : nat) (rm : list nat) : Prop :=
    forall p, In p rm <->
      exists q x y, (q < p)%nat /\ (q < i)%nat /\ ~ In q rm /\
                    nth_error l q = Some x /\ nth_error l p = Some y /\ eq x y = true.

  Lemma nopop_outer_spec fuel l i rm :
    (List.length l - i < fuel)%nat -> NoDup rm -> removed_upto l i rm ->
    exists rm', nopop_outer eq fuel l i rm = Ok rm' /\ NoDup rm' /\ removed_upto l (List.length l) rm'.
  Proof using Type.
    revert i rm. induction fuel as [|f IH]; intros i rm Hf ND HI; [lia|].
    assert (Hrm : forall p, In p rm -> (p < List.length l)%nat).
    { intros p Hp. apply HI in Hp as (q & x & y & _ & _ & _ & _ & Hy & _).
      apply nth_error_Some. congruence. }
    cbn [nopop_outer]. destruct (i + 1 <? List.length l)%nat eqn:El.
    - apply Nat.ltb_lt in El. destruct (mem_by Nat.eqb i rm) eqn:Em.
      + apply (mem_by_In nat_decides) in Em. apply IH; auto; [lia|].
        intros p. rewrite (HI p). split; intros (q & x & y & A & B & C & D); exists q, x, y.
        * repeat split; try tauto; lia.
        * assert (q <> i) by congruence. repeat split; try tauto; lia.
      + assert (Ni : ~ In i rm).
        { intros H. apply (mem_by_In nat_decides) in H. congruence. }
        destruct (nth_error l i) as [x|] eqn:Ex.
        2:{ apply nth_error_None in Ex. lia. }
        destruct (nopop_inner_spec (S (2 * List.length l)) l i x (i + 1) rm) as (rm' & E & N' & H); auto;
          [lia|destruct (mem_by Nat.eqb (i + 1) rm); lia|].
        rewrite E. cbn [bind]. apply IH; auto; [lia|].
        intros p. rewrite H. split.
        * intros [A|(A & y & Ey & Eq)].
          -- apply HI in A as (q & x0 & y0 & A1 & A2 & A3 & A4 & A5 & A6).
             exists q, x0, y0. repeat split; auto; try lia. rewrite H.
             intros [B|(B & _)]; [auto|lia].
          -- exists i, x, y. repeat split; auto; try lia. rewrite H. intros [B|(B & _)]; [auto|lia].
        * intros (q & x0 & y0 & A1 & A2 & A3 & A4 & A5 & A6).
          destruct (Nat.eq_dec q i) as [->|Nq].
          -- right. split; [lia|]. exists y0. split; auto. congruence.
          -- left. apply HI. exists q, x0, y0. repeat split; auto; try lia.
             intros B. apply A3. rewrite H. auto.
    - apply Nat.ltb_ge in El. exists rm. split; [reflexivity|]. split; [exact ND|].
      intros p. rewrite (HI p). split; intros (q & x & y & A & B & C & D & E & F); exists q, x, y.
      * assert (q < List.length l)%nat by (apply nth_error_Some; congruence). repeat split; auto.
      * assert (p < List.length l)%nat by (apply nth_error_Some; congruence).
        repeat split; auto. lia.
  Qed.

  Lemma survivors_keep_first l rm :
    removed_upto l (List.length l) rm -> survivors 0 rm l = keep_first eq [] l.
  Proof using Type.
    intros HI.
    assert (G : forall n, (n <= List.length l)%nat ->
                survivors 0 rm (firstn n l) = keep_first eq [] (firstn n l)).
    { induction n as [|n IH]; intros Hn; [reflexivity|].
      destruct (nth_error l n) as [x|] eqn:Ex.
      2:{ apply nth_error_None in Ex. lia. }
      assert (Ef : firstn (S n) l = firstn n l ++ [x]).
      { clear -Ex. revert n Ex. induction l as [|z l IHl]; intros [|n] Ex; cbn in *; try discriminate.
        - congruence.
        - f_equal. now apply IHl. }
      rewrite Ef, survivors_app, keep_first_snoc. rewrite IH by lia. f_equal.
      rewrite firstn_length, Nat.min_l by lia. cbn [survivors app Nat.add].
      assert (B : mem_by Nat.eqb n rm = existsb (fun y => eq y x) (keep_first eq [] (firstn n l))).
      { apply eq_true_iff_eq. rewrite (mem_by_In nat_decides), (HI n), existsb_exists. rewrite <- IH by lia.
        split.
        - intros (q & x0 & y0 & A1 & A2 & A3 & A4 & A5 & A6). exists x0. split; [|congruence].
          apply survivors_In. exists q. split; [|exact A3].
          rewrite <- A4. clear -A1. revert q n A1. induction l as [|z l IHl]; intros [|q] [|n] A1; cbn; auto; try lia.
          apply IHl. lia.
        - intros (y & Hy & E). apply survivors_In in Hy as (q & Hq & Nq).
          assert (q < n)%nat.
          { assert (q < List.length (firstn n l))%nat by (apply nth_error_Some; congruence).
            rewrite firstn_length in H. lia. }
          exists q, y, x. repeat split; auto; try lia.
          rewrite <- Hq. clear -H. revert q n H. induction l as [|z l IHl]; intros [|q] [|n] H; cbn; auto; try lia.
          apply IHl. lia. }
      rewrite B. destruct (existsb _ _); reflexivity. }
    specialize (G (List.length l) (Nat.le_refl _)). now rewrite firstn_all in G.
  Qed.

  Lemma survivors_count k rm l :
    NoDup rm -> (forall p, In p rm -> (k <= p < k + List.length l)%nat) ->
    List.length (survivors k rm l) = (List.length l - List.length rm)%nat.
  Proof using Type.
    assert (G : (List.length (survivors k rm l) +
                 List.length (filter (fun p => mem_by Nat.eqb p rm) (seq k (List.length l))))%nat
                = List.length l).
    { revert k. induction l as [|x l IH]; intros k; [reflexivity|]. cbn [survivors List.length seq filter].
      specialize (IH (S k)). destruct (mem_by Nat.eqb k rm); cbn [List.length]; lia. }
    intros ND H.
    assert (P : Permutation (filter (fun p => mem_by Nat.eqb p rm) (seq k (List.length l))) rm).
    { apply NoDup_Permutation; auto.
      - apply NoDup_filter, seq_NoDup.
      - intros p. rewrite filter_In, in_seq, (mem_by_In nat_decides). split; [tauto|].
        intros I. split; auto. }
    apply Permutation_length in P. lia.
  Qed.

  Lemma dropped_loop_spec l idx vals (done : list T) n :
    List.length (survivors idx vals l) = n ->
    dropped_loop l idx vals (map Some done ++ repeat None n) (List.length done)
    = Ok (map Some (done ++ survivors idx vals l)).
  Proof using Type.
    revert idx done n. induction l as [|x l IH]; intros idx done n E; cbn [dropped_loop survivors] in *.
    - cbn in E. subst. cbn. now rewrite !app_nil_r.
    - destruct (mem_by Nat.eqb idx vals); [now apply IH|].
      cbn [List.length] in E. destruct n as [|n]; [discriminate|]. injection E as E.
      unfold set_at. rewrite app_length, map_length, repeat_length.
      replace (List.length done <? List.length done + S n)%nat with true by (symmetry; apply Nat.ltb_lt; lia).
      cbn [bind].
      replace (firstn (List.length done) (map Some done ++ repeat None (S n)) ++
               Some x :: skipn (S (List.length done)) (map Some done ++ repeat None (S n)))
        with (map Some (done ++ [x]) ++ repeat None n).
      + replace (S (List.length done)) with (List.length (done ++ [x])) by (rewrite app_length; cbn; lia).
        rewrite IH by auto. now rewrite <- app_assoc.
      + rewrite firstn_app, map_length, Nat.sub_diag, firstn_all2 by (rewrite map_length; lia).
        cbn [firstn]. rewrite app_nil_r, skipn_app, map_length, skipn_all2 by (rewrite map_length; lia).
        replace (S (List.length done) - List.length done)%nat with 1%nat by lia.
        rewrite map_app, <- app_assoc. reflexivity.
  Qed.

  Lemma remove_equivalent_nopop_ok l :
    remove_equivalent_nopop eq l = Ok (map Some (keep_first eq [] l)).
  Proof using Type.
    unfold remove_equivalent_nopop.
    destruct (nopop_outer_spec (S (List.length l)) l 0 []) as (rm & E & ND & HI).
    - lia.
    - constructor.
    - intros p. split; [intros []|]. intros (q & x & y & _ & A & _). lia.
    - rewrite E. cbn [bind]. unfold dropped_vals.
      pose proof (dropped_loop_spec l 0 rm [] (List.length l - List.length rm)) as H.
      cbn [app map List.length] in H. rewrite H.
      + now rewrite survivors_keep_first.
      + apply survivors_count; auto. intros p Hp.
        apply HI in Hp as (q & x & y & _ & _ & _ & _ & Hy & _).
        assert (p < List.length l)%nat by (apply nth_error_Some; congruence). lia.
  Qed.
End RE.

(** ** field strings *)

Lemma negate_show_Q q : negate_u1 (show_Q q) = Ok (show_Q (- q)%Qc).
Proof.
  unfold negate_u1. destruct (str_eqb (show_Q q) (lit "0")) eqn:E.
  - apply str_decides in E. apply show_Q_eq_0 in E. subst. reflexivity.
  - apply (decides_false str_decides) in E. rewrite show_Q_eq_0 in E.
    destruct (this_opp q) as [En Ed]. unfold show_Q at 3. rewrite En, Ed. unfold show_Q.
    destruct (Qnum (this q)) as [|p|p] eqn:N.
    + exfalso. apply E. apply Qc_is_canon. destruct (this q) as [n d]. simpl in N. subst. reflexivity.
    + destruct (show_Z (Zpos p)) as [|c r] eqn:Es; [now elim (show_Z_pos_nonnil p)|].
      cbn [app]. assert (D : is_digit c).
      { pose proof (show_Z_pos_digits p) as F. rewrite Es in F. now inversion F. }
      rewrite (decides_neq ascii_decides).
      * cbn [Z.opp]. rewrite show_Z_neg, Es. reflexivity.
      * apply digit_not with (1 := D). simpl. intros H. repeat destruct H as [H|H]; discriminate || auto.
    + rewrite show_Z_neg. cbn [lit list_ascii_of_string app]. rewrite Ascii.eqb_refl. reflexivity.
Qed.

Lemma show_Q_field q : ~ In ","%char (show_Q q).
Proof. apply show_Q_no_comma. Qed.

Lemma print_exotic_split e :
  exotic_ok e ->
  split_on "," (print_exotic e) = [e_lor e; e_col e; e_iso e; show_Q (e_hyp e); show_Q (e_bar e)].
Proof.
  intros (H1 & H2 & H3). unfold print_exotic. change (lit ",") with [","%char]. apply split_join.
  - discriminate.
  - repeat constructor; auto using show_Q_no_comma.
Qed.

Lemma print_exotic_comma e : In ","%char (print_exotic e).
Proof.
  unfold print_exotic. cbn [join]. rewrite in_app_iff. right. simpl. auto.
Qed.

Lemma exotic_not_sm e l :
  Forall (fun x => ~ In ","%char x) l -> mem_by str_eqb (print_exotic e) l = false.
Proof.
  intros F. apply not_true_is_false. intros H. apply (mem_by_In str_decides) in H.
  rewrite Forall_forall in F. apply (F _ H). apply print_exotic_comma.
Qed.

Lemma sm_no_comma : Forall (fun x => ~ In ","%char x) sm_labels /\ Forall (fun x => ~ In ","%char x) sm_conj_labels.
Proof.
  split; repeat constructor; simpl; intros H; repeat destruct H as [H|H]; discriminate || auto.
Qed.

Lemma conjugate_print f :
  qfield_ok f -> conjugate_field (print_field f) = Ok (print_field (conj_qfield f)).
Proof.
  destruct f as [f c|e].
  - intros _. destruct f, c; reflexivity.
  - intros Hok. simpl. unfold conjugate_field.
    rewrite !exotic_not_sm by apply sm_no_comma. rewrite print_exotic_split by exact Hok.
    rewrite !negate_show_Q. reflexivity.
Qed.

Lemma Qc_opp_opp (q : Qc) : (- - q)%Qc = q.
Proof. ring. Qed.

Lemma conj_qfield_involutive f : conj_qfield (conj_qfield f) = f.
Proof.
  destruct f as [f c|[lor col iso h b]]; simpl.
  - now rewrite negb_involutive.
  - unfold conj_exotic. simpl. now rewrite rev_involutive, !Qc_opp_opp.
Qed.

Lemma conj_qfield_ok f : qfield_ok f -> qfield_ok (conj_qfield f).
Proof.
  destruct f as [f c|e]; simpl; auto. unfold exotic_ok. simpl. rewrite <- in_rev. auto.
Qed.

Lemma field_string_conj x :
  field_string x -> exists y, conjugate_field x = Ok y /\ field_string y /\ conjugate_field y = Ok x.
Proof.
  intros (f & Hf & ->). exists (print_field (conj_qfield f)).
  split; [now apply conjugate_print|]. split.
  - exists (conj_qfield f). split; auto. now apply conj_qfield_ok.
  - rewrite conjugate_print by now apply conj_qfield_ok. now rewrite conj_qfield_involutive.
Qed.

Lemma conjugate_mapM l :
  Forall field_string l ->
  exists l', mapM conjugate_field l = Ok l' /\ Forall field_string l' /\ mapM conjugate_field l' = Ok l.
Proof.
  induction 1 as [|x l Hx Hl (l' & E & F & E')].
  - exists []. repeat split; constructor.
  - destruct (field_string_conj x Hx) as (y & Ey & Fy & Ey'). exists (y :: l').
    split; [simpl; now rewrite Ey, E|]. split; [constructor; auto|]. simpl. now rewrite Ey', E'.
Qed.

Lemma mapM_perm {A B} (f : A -> res B) l1 l2 r1 :
  Permutation l1 l2 -> mapM f l1 = Ok r1 -> exists r2, mapM f l2 = Ok r2 /\ Permutation r1 r2.
Proof.
  intros P. revert r1. induction P; intros r1 E.
  - exists r1. split; auto.
  - simpl in E. apply bind_ok in E as (y & E1 & E). apply bind_ok in E as (ys & E2 & E).
    inversion E; subst. destruct (IHP _ E2) as (r2 & E3 & P2). exists (y :: r2). simpl. rewrite E1, E3.
    split; [reflexivity|now constructor].
  - simpl in E. apply bind_ok in E as (y1 & E1 & E). apply bind_ok in E as (ys & E2 & E).
    apply bind_ok in E2 as (y2 & E3 & E2). apply bind_ok in E2 as (zs & E4 & E2).
    inversion E2; subst. inversion E; subst. exists (y2 :: y1 :: zs). simpl. rewrite E3, E1, E4.
    split; [reflexivity|apply perm_swap].
  - destruct (IHP1 _ E) as (r2 & E2 & Q1). destruct (IHP2 _ E2) as (r3 & E3 & Q2).
    exists r3. split; auto. now transitivity r2.
Qed.

Lemma conjugate_term_perm t1 t2 r :
  Permutation t1 t2 -> conjugate_term t1 = Ok r -> conjugate_term t2 = Ok r.
Proof.
  unfold conjugate_term. intros P E. apply bind_ok in E as (c & E1 & E). inversion E; subst.
  destruct (mapM_perm _ _ _ _ P E1) as (c2 & E2 & P2). rewrite E2. simpl. f_equal.
  apply sorted_str_eq_iff. now symmetry.
Qed.

Lemma conjugate_term_twice t :
  Forall field_string t ->
  exists t', conjugate_term t = Ok t' /\ Forall field_string t' /\ conjugate_term t' = Ok (sorted_str t).
Proof.
  intros F. destruct (conjugate_mapM t F) as (t' & E & F' & E').
  exists (sorted_str t'). unfold conjugate_term at 1. rewrite E. split; [reflexivity|]. split.
  - eapply Permutation_Forall; [apply sorted_str_perm|exact F'].
  - apply conjugate_term_perm with t'; [apply sorted_str_perm|].
    unfold conjugate_term. rewrite E'. reflexivity.
Qed.
