(** * ProofsMatch *)

From Coq Require Import Ascii String List Bool Arith ZArith Lia Permutation.
From Verif Require Import Base BaseFacts Spec ModelMatch SpecMatch.
Import ListNotations.
Local Open Scope nat_scope.

Section PyvalInd.
  Context (P : pyval -> Prop)
    (HS : forall x, P (PStr x)) (HI : forall z, P (PInt z))
    (HL : forall l, Forall P l -> P (PList l)) (HT : forall l, Forall P l -> P (PTuple l)).
  Fixpoint pyval_ind' (v : pyval) : P v :=
    let fix go (l : list pyval) : Forall P l :=
      match l with [] => Forall_nil P | x :: r => Forall_cons x (pyval_ind' x) (go r) end in
    match v with
    | PStr x => HS x | PInt z => HI z
    | PList l => HL l (go l) | PTuple l => HT l (go l)
    end.
End PyvalInd.

Definition pylist_eqb := fix go (l1 l2 : list pyval) : bool :=
    match l1, l2 with
    | [], [] => true
    | x :: r1, y :: r2 => pyval_eqb x y && go r1 r2
    | _, _ => false
    end.

Lemma pyval_decides : decides pyval_eqb.
Proof.
  intros a. induction a as [x|z|l IH|l IH] using pyval_ind'; intros [y|w|m|m]; cbn [pyval_eqb];
    try (split; [discriminate|intros E; discriminate E]).
  - split; [intros E; apply str_decides in E; congruence|intros E; apply str_decides; congruence].
  - rewrite Z.eqb_eq. split; congruence.
  - change (pylist_eqb l m = true <-> PList l = PList m).
    assert (G : pylist_eqb l m = true <-> l = m).
    { revert m. induction IH as [|x l Hx _ IHl]; intros [|y m]; cbn; try (split; [discriminate|intros E; discriminate E]).
      - tauto.
      - rewrite andb_true_iff, Hx, IHl. split; [intros [-> ->]; reflexivity|intros E; inversion E; auto]. }
    rewrite G. split; congruence.
  - change (pylist_eqb l m = true <-> PTuple l = PTuple m).
    assert (G : pylist_eqb l m = true <-> l = m).
    { revert m. induction IH as [|x l Hx _ IHl]; intros [|y m]; cbn; try (split; [discriminate|intros E; discriminate E]).
      - tauto.
      - rewrite andb_true_iff, Hx, IHl. split; [intros [-> ->]; reflexivity|intros E; inversion E; auto]. }
    rewrite G. split; congruence.
Qed.

Lemma is_pattern_var_spec p b :
  is_pattern_var p = Ok b ->
  (b = true <-> exists x, p = PStr x /\ is_var x).
Proof.
  destruct p as [[|c x]|z|l|l]; cbn; intros E; inversion E; subst.
  - destruct (Ascii.eqb_spec c "?").
    + subst. split; auto. intros _. exists ("?"%char :: x). split; auto. now exists x.
    + split; [discriminate|]. intros (y & E1 & r & E2). inversion E1; subst. now elim n; inversion H0.
  - split; [discriminate|]. intros (y & E1 & _). discriminate.
  - split; [discriminate|]. intros (y & E1 & _). discriminate.
  - split; [discriminate|]. intros (y & E1 & _). discriminate.
Qed.

Lemma ground_list l : ground (PList l) <-> Forall ground l.
Proof.
  rewrite Forall_forall. split.
  - intros H v Hv x Hx. apply (H x). econstructor; eauto.
  - intros H x Hx. inversion Hx; subst. eapply H; eauto.
Qed.
Lemma ground_tuple l : ground (PTuple l) <-> Forall ground l.
Proof.
  rewrite Forall_forall. split.
  - intros H v Hv x Hx. apply (H x). econstructor; eauto.
  - intros H x Hx. inversion Hx; subst. eapply H; eauto.
Qed.

Lemma ground_inst sigma v : ground v -> inst sigma v v.
Proof.
  induction v as [x|z|l IH|l IH] using pyval_ind'; intros G.
  - apply i_str. apply G. constructor.
  - constructor.
  - apply i_list. apply ground_list in G. induction IH as [|y l Hy _ IHl]; [constructor|].
    inversion G; subst. constructor; auto.
  - apply i_tuple. apply ground_tuple in G. induction IH as [|y l Hy _ IHl]; [constructor|].
    inversion G; subst. constructor; auto.
Qed.

Lemma inst_mono (s1 s2 : str -> pyval -> Prop) p d :
  (forall x v, s1 x v -> s2 x v) -> inst s1 p d -> inst s2 p d.
Proof.
  intros H. revert d. induction p as [x|z|l IH|l IH] using pyval_ind'; intros d I; inversion I; subst.
  - apply i_var; auto.
  - now apply i_str.
  - constructor.
  - apply i_list. clear I. revert l2 H1. induction IH as [|y l Hy _ IHl]; intros l2 F; inversion F; subst;
      constructor; auto.
  - apply i_tuple. clear I. revert l2 H1. induction IH as [|y l Hy _ IHl]; intros l2 F; inversion F; subst;
      constructor; auto.
Qed.

(** a ground value only instantiates to itself *)
Lemma inst_ground_eq sigma v d : ground v -> inst sigma v d -> d = v.
Proof.
  revert d. induction v as [x|z|l IH|l IH] using pyval_ind'; intros d G I; inversion I; subst; auto.
  - exfalso. apply (G x); [constructor|auto].
  - f_equal. apply ground_list in G. clear I. revert l2 H0. induction IH as [|y l Hy _ IHl]; intros l2 F.
    + now inversion F.
    + inversion F; subst. inversion G; subst. f_equal; auto.
  - f_equal. apply ground_tuple in G. clear I. revert l2 H0. induction IH as [|y l Hy _ IHl]; intros l2 F.
    + now inversion F.
    + inversion F; subst. inversion G; subst. f_equal; auto.
Qed.

Lemma var_dec x : {is_var x} + {~ is_var x}.
Proof.
  destruct x as [|c x]; [right; intros (r & E); discriminate|].
  destruct (ascii_dec c "?"); [left; subst; now exists x|right; intros (r & E); inversion E; auto].
Defined.

Definition match_post (fr : frame) (p d : pyval) (fr' : frame) : Prop :=
  extends fr fr' /\ ground_frame fr' /\ inst (binds fr') p d /\
  (forall x, bound fr' x -> bound fr x \/ var_of p x).

Lemma bind_frame_extends fr x d :
  dget str_eqb fr x = None -> extends fr (dset str_eqb fr x d).
Proof.
  intros N y v B. unfold binds in *. rewrite (dget_dset str_decides).
  destruct (str_eqb y x) eqn:E; auto. apply str_decides in E. congruence.
Qed.

Lemma match_post_collection (mk : list pyval -> pyval) p0 pr d0 dr fr fr1 fr' :
  (mk = PList \/ mk = PTuple) ->
  match_post fr p0 d0 fr1 -> match_post fr1 (mk pr) (mk dr) fr' ->
  match_post fr (mk (p0 :: pr)) (mk (d0 :: dr)) fr'.
Proof.
  intros Hmk (E1 & G1 & I1 & B1) (E2 & G2 & I2 & B2). split; [|split; [exact G2|split]].
  - intros y v B. apply E2, E1, B.
  - pose proof (inst_mono _ _ _ _ E2 I1) as I1'. destruct Hmk as [-> | ->]; inversion I2; subst;
      constructor; constructor; auto.
  - intros y By. destruct (B2 y By) as [B|(M & V)].
    + destruct (B1 y B) as [B'|(M & V)]; [auto|]. right. split; auto.
      destruct Hmk as [-> | ->]; econstructor; [left; reflexivity|exact M|left; reflexivity|exact M].
    + right. split; auto. destruct Hmk as [-> | ->]; inversion M; subst; econstructor; eauto; right; eauto.
Qed.

(** list against tuple never matches *)
Lemma mixed_no_match fuel fr :
  forall p d, (forall fr', pattern_match fuel (PList p) (PTuple d) fr = Ok (Some fr') -> False) /\
              (forall fr', pattern_match fuel (PTuple p) (PList d) fr = Ok (Some fr') -> False).
Proof.
  revert fr. induction fuel as [|f IH]; intros fr p d; [split; discriminate|].
  destruct fr as [fr|]; [|split; discriminate].
  split; intros fr'; cbn [pattern_match is_pattern_var bind pyval_eqb];
    destruct p as [|p0 pr], d as [|d0 dr]; cbn; try discriminate;
    destruct (pattern_match f p0 d0 (Some fr)) as [o|e]; cbn; try discriminate.
  - destruct (pattern_match f (PList pr) (PTuple dr) o) eqn:E; [|discriminate].
    intros H. inversion H; subst. exact (proj1 (IH o pr dr) _ E).
  - destruct (pattern_match f (PTuple pr) (PList dr) o) eqn:E; [|discriminate].
    intros H. inversion H; subst. exact (proj2 (IH o pr dr) _ E).
Qed.

Lemma pattern_match_none fuel p d r : pattern_match fuel p d None = Ok r -> r = None.
Proof. destruct fuel; cbn; congruence. Qed.

Lemma pattern_match_sound fuel :
  forall p d fr fr', ground d -> ground_frame fr ->
    pattern_match fuel p d (Some fr) = Ok (Some fr') -> match_post fr p d fr'.
Proof.
  induction fuel as [|f IH]; intros p d fr fr' Gd Gf E; [discriminate|].
  cbn [pattern_match] in E. apply bind_ok in E as (b & Eb & E).
  pose proof (is_pattern_var_spec _ _ Eb) as Sb. destruct b.
  - destruct p as [x|z|l|l]; try discriminate.
    assert (V : is_var x) by (destruct (proj1 Sb eq_refl) as (y & E1 & V); inversion E1; subst; exact V).
    destruct (dget str_eqb fr x) as [v|] eqn:Ex.
    + assert (Gv : ground v) by (eapply Gf; exact Ex).
      destruct (IH _ _ _ _ Gd Gf E) as (X & G & I & B).
      assert (d = v) by (eapply inst_ground_eq; eauto). subst d.
      split; [exact X|]. split; [exact G|]. split.
      * apply i_var; [exact V|]. apply X. exact Ex.
      * intros y By. destruct (B y By) as [B'|(M & V')]; [auto|]. exfalso. exact (Gv y M V').
    + inversion E; subst. split; [now apply bind_frame_extends|]. split; [|split].
      * intros y v B. unfold binds in B. rewrite (dget_dset str_decides) in B.
        destruct (str_eqb y x); [inversion B; subst; auto|]. eapply Gf; exact B.
      * apply i_var; auto. unfold binds. now rewrite (dget_dset_same str_decides).
      * intros y (v & B). unfold binds in B. rewrite (dget_dset str_decides) in B.
        destruct (str_eqb y x) eqn:Eyx; [|left; now exists v].
        apply str_decides in Eyx. subst. right. split; auto. constructor.
  - destruct (pyval_eqb p d) eqn:Epd.
    + apply pyval_decides in Epd. subst. inversion E; subst. split; [intros y v B; exact B|].
      split; [exact Gf|]. split; [now apply ground_inst|auto].
    + destruct p as [x|z|pl|pl], d as [y|w|dl|dl]; try discriminate.
      * destruct pl as [|p0 pr], dl as [|d0 dr]; try discriminate.
        destruct (pattern_match f p0 d0 (Some fr)) as [[fr1|]|e] eqn:E1; cbn [bind] in E; try discriminate.
        -- destruct (pattern_match f (PList pr) (PList dr) (Some fr1)) as [r|e] eqn:E2; [|discriminate].
           inversion E; subst. apply ground_list in Gd. inversion Gd; subst.
           assert (M1 : match_post fr p0 d0 fr1) by (apply IH; auto).
           eapply (match_post_collection PList); [auto|exact M1|]. apply IH; auto; [now apply ground_list|apply M1].
        -- destruct (pattern_match f (PList pr) (PList dr) None) as [r|e] eqn:E2; [|discriminate].
           apply pattern_match_none in E2. congruence.
      * exfalso. eapply (proj1 (mixed_no_match (S f) (Some fr) pl dl)).
        cbn [pattern_match is_pattern_var bind]. rewrite Epd. exact E.
      * exfalso. eapply (proj2 (mixed_no_match (S f) (Some fr) pl dl)).
        cbn [pattern_match is_pattern_var bind]. rewrite Epd. exact E.
      * destruct pl as [|p0 pr], dl as [|d0 dr]; try discriminate.
        destruct (pattern_match f p0 d0 (Some fr)) as [[fr1|]|e] eqn:E1; cbn [bind] in E; try discriminate.
        -- destruct (pattern_match f (PTuple pr) (PTuple dr) (Some fr1)) as [r|e] eqn:E2; [|discriminate].
           inversion E; subst. apply ground_tuple in Gd. inversion Gd; subst.
           assert (M1 : match_post fr p0 d0 fr1) by (apply IH; auto).
           eapply (match_post_collection PTuple); [auto|exact M1|]. apply IH; auto; [now apply ground_tuple|apply M1].
        -- destruct (pattern_match f (PTuple pr) (PTuple dr) None) as [r|e] eqn:E2; [|discriminate].
           apply pattern_match_none in E2. congruence.
Qed.

Lemma size_pos v : 0 < size v.
Proof. destruct v; cbn; lia. Qed.

Lemma no_empty_var x : no_empty (PStr x) -> exists c r, x = c :: r.
Proof. destruct x as [|c r]; [|eauto]. intros H. exfalso. apply H. constructor. Qed.

Lemma no_empty_cons mk p0 pr :
  (mk = PList \/ mk = PTuple) -> no_empty (mk (p0 :: pr)) -> no_empty p0 /\ no_empty (mk pr).
Proof.
  intros Hmk H. split; intros M; apply H.
  - destruct Hmk as [-> | ->]; econstructor; [left; reflexivity|exact M|left; reflexivity|exact M].
  - destruct Hmk as [-> | ->]; inversion M; subst; econstructor; eauto; right; eauto.
Qed.

Lemma is_pattern_var_ok p : no_empty p -> exists b, is_pattern_var p = Ok b.
Proof.
  destruct p as [x|z|l|l]; cbn; eauto. intros H. destruct (no_empty_var x H) as (c & r & ->). eauto.
Qed.

Lemma pattern_match_refl fuel v fr :
  0 < fuel -> ground v -> no_empty v -> pattern_match fuel v v (Some fr) = Ok (Some fr).
Proof.
  intros Hf G N. destruct fuel as [|f]; [lia|]. cbn [pattern_match].
  destruct (is_pattern_var_ok v N) as (b & Eb). rewrite Eb. cbn [bind].
  pose proof (is_pattern_var_spec _ _ Eb) as Sb. destruct b.
  - destruct (proj1 Sb eq_refl) as (x & -> & V). exfalso. exact (G x (m_str x) V).
  - rewrite (decides_refl pyval_decides). reflexivity.
Qed.

Lemma pattern_match_complete fuel (sigma : str -> pyval -> Prop) :
  (forall x v w, sigma x v -> sigma x w -> v = w) ->
  (forall x v, sigma x v -> ground v /\ no_empty v) ->
  forall p d fr, no_empty p -> ground d -> agrees fr sigma -> inst sigma p d -> size d < fuel ->
    exists fr', pattern_match fuel p d (Some fr) = Ok (Some fr') /\ agrees fr' sigma.
Proof.
  intros Hfun Hok. induction fuel as [|f IH]; intros p d fr Np Gd Ag I Hf; [lia|].
  cbn [pattern_match]. destruct (is_pattern_var_ok p Np) as (b & Eb). rewrite Eb. cbn [bind].
  pose proof (is_pattern_var_spec _ _ Eb) as Sb. destruct b.
  - destruct (proj1 Sb eq_refl) as (x & -> & V). inversion I; subst; [|contradiction].
    destruct (dget str_eqb fr x) as [v|] eqn:Ex.
    + assert (v = d) by (eapply Hfun; [apply Ag; exact Ex|auto]). subst v.
      exists fr. split; auto. apply pattern_match_refl; auto; [pose proof (size_pos d); lia|].
      now apply (Hok x d).
    + eexists. split; [reflexivity|]. intros y w B. unfold binds in B. rewrite (dget_dset str_decides) in B.
      destruct (str_eqb y x) eqn:E; [|apply Ag; exact B]. apply str_decides in E. congruence.
  - assert (NV : forall x, p = PStr x -> ~ is_var x).
    { intros x -> V. assert (false = true) by (apply Sb; eauto). discriminate. }
    destruct (pyval_eqb p d) eqn:Epd; [exists fr; auto|].
    apply (decides_false pyval_decides) in Epd.
    inversion I as [x d' V S1|x V|z|l1 l2 F|l1 l2 F]; subst; try congruence.
    + exfalso. now apply (NV x).
    + destruct F as [|p0 d0 pr dr I0 Fr]; [congruence|].
      destruct (no_empty_cons PList p0 pr) as (N0 & Nr); auto.
      apply ground_list in Gd. inversion Gd as [|? ? G0 Gr]; subst.
      change (size (PList (d0 :: dr))) with (S (S (size d0) + list_sum (map (fun x => S (size x)) dr))) in Hf.
      destruct (IH p0 d0 fr N0 G0 Ag I0) as (fr1 & E1 & A1); [lia|].
      rewrite E1. cbn [bind].
      destruct (IH (PList pr) (PList dr) fr1 Nr (proj2 (ground_list dr) Gr) A1 (i_list _ _ _ Fr)) as (fr2 & E2 & A2);
        [cbn [size]; lia|].
      rewrite E2. exists fr2. auto.
    + destruct F as [|p0 d0 pr dr I0 Fr]; [congruence|].
      destruct (no_empty_cons PTuple p0 pr) as (N0 & Nr); auto.
      apply ground_tuple in Gd. inversion Gd as [|? ? G0 Gr]; subst.
      change (size (PTuple (d0 :: dr))) with (S (S (size d0) + list_sum (map (fun x => S (size x)) dr))) in Hf.
      destruct (IH p0 d0 fr N0 G0 Ag I0) as (fr1 & E1 & A1); [lia|].
      rewrite E1. cbn [bind].
      destruct (IH (PTuple pr) (PTuple dr) fr1 Nr (proj2 (ground_tuple dr) Gr) A1 (i_tuple _ _ _ Fr)) as (fr2 & E2 & A2);
        [cbn [size]; lia|].
      rewrite E2. exists fr2. auto.
Qed.

(** ** flatten *)

Lemma leaves_app a b : leaves_of (a ++ b) = leaves_of a ++ leaves_of b.
Proof. induction a as [|[?|?|v] a IH]; cbn; auto. now rewrite IH. Qed.

Lemma flatten1_tokens v : flatten1 v = leaves_of (tokens v).
Proof.
  induction v as [x|z|l IH|l IH] using pyval_ind'; try reflexivity; cbn [flatten1 tokens leaves_of];
    rewrite leaves_app; cbn; rewrite app_nil_r.
  - induction IH as [|y l Hy _ IHl]; [reflexivity|]. cbn [flat_map]. now rewrite leaves_app, Hy, IHl.
  - induction IH as [|y l Hy _ IHl]; [reflexivity|]. cbn [flat_map]. now rewrite leaves_app, Hy, IHl.
Qed.

Lemma flatten_tokens l : flatten l = leaves_of (flat_map tokens l).
Proof.
  unfold flatten. induction l as [|x l IH]; [reflexivity|]. cbn [flat_map].
  now rewrite leaves_app, flatten1_tokens, IH.
Qed.

(** ** foldr *)

Lemma fold_left_rev_fold_right {A} (f : A -> A -> A) xs a :
  fold_left (fun x y => f y x) (rev xs) a = fold_right f a xs.
Proof. rewrite <- (rev_involutive xs) at 2. symmetry. apply (fold_left_rev_right (A := A) (B := A)). Qed.

(** ** factors *)

Lemma reduce_app_concat {A} (ls : list (list A)) :
  ls <> [] -> reduce (@app A) ls = Ok (concat ls).
Proof.
  destruct ls as [|x r]; [congruence|]. intros _. cbn. f_equal. revert x.
  induction r as [|y r IH]; intros x; cbn; [now rewrite app_nil_r|]. rewrite IH. cbn. now rewrite <- app_assoc.
Qed.

Lemma factors_list n root :
  (1 <= n)%Z -> (1 <= root)%Z ->
  factors n root = Ok (concat (map (fun i => [i; n / i]%Z)
                    (filter (fun i => (n mod i =? 0)%Z) (map Z.of_nat (seq 1 (Z.to_nat root)))))).
Proof.
  intros Hn Hr. unfold factors. apply reduce_app_concat.
  intros E. apply map_eq_nil in E.
  assert (I : In 1%Z (filter (fun i => (n mod i =? 0)%Z) (map Z.of_nat (seq 1 (Z.to_nat root))))).
  { apply filter_In. split.
    - apply in_map_iff. exists 1. split; auto. apply in_seq. lia.
    - rewrite Z.mod_1_r. reflexivity. }
  rewrite E in I. destruct I.
Qed.

Lemma factors_members n root x :
  (1 <= n)%Z -> (1 <= root)%Z ->
  In x (concat (map (fun i => [i; n / i]%Z)
         (filter (fun i => (n mod i =? 0)%Z) (map Z.of_nat (seq 1 (Z.to_nat root)))))) <->
  exists i, (1 <= i <= root)%Z /\ (i | n)%Z /\ (x = i \/ x = n / i)%Z.
Proof.
  intros Hn Hr. rewrite in_concat. split.
  - intros (l & Hl & Hx). apply in_map_iff in Hl as (i & <- & Hi). apply filter_In in Hi as (Hi & Em).
    apply in_map_iff in Hi as (k & <- & Hk). apply in_seq in Hk. apply Z.eqb_eq in Em.
    exists (Z.of_nat k). split; [lia|]. split.
    + apply Z.mod_divide in Em; [auto|lia].
    + destruct Hx as [->|[->|[]]]; auto.
  - intros (i & Hi & Hd & Hx). exists [i; n / i]%Z. split.
    + apply in_map_iff. exists i. split; auto. apply filter_In. split.
      * apply in_map_iff. exists (Z.to_nat i). split; [lia|]. apply in_seq. lia.
      * apply Z.eqb_eq. apply Z.mod_divide; [lia|auto].
    + destruct Hx as [->| ->]; simpl; auto.
Qed.

Lemma divisor_pairing n root x :
  (1 <= n)%Z -> (1 <= root)%Z -> (n < (root + 1) * (root + 1))%Z ->
  ((exists i, (1 <= i <= root)%Z /\ (i | n)%Z /\ (x = i \/ x = n / i)%Z) <-> (1 <= x)%Z /\ (x | n)%Z).
Proof.
  intros Hn Hr Hsq. split.
  - intros (i & Hi & (q & Hq) & [->| ->]).
    + split; [lia|]. exists q. exact Hq.
    + subst n. rewrite Z.div_mul by lia. split; [nia|]. exists i. lia.
  - intros (Hx & q & Hq).
    assert (1 <= q)%Z by nia.
    destruct (Z_le_gt_dec x root) as [L|L].
    + exists x. split; [lia|]. split; [exists q; exact Hq|auto].
    + exists q. assert (q <= root)%Z by nia. split; [lia|]. split.
      * exists x. lia.
      * right. rewrite Hq. rewrite Z.mul_comm, Z.div_mul; lia.
Qed.

(** ** multiple_replace *)

Lemma startswith_app k r : startswith k (k ++ r) = true.
Proof. induction k as [|c k IH]; cbn; auto. now rewrite Ascii.eqb_refl. Qed.

Lemma startswith_iff k t : startswith k t = true <-> exists r, t = k ++ r.
Proof.
  split.
  - revert t. induction k as [|c k IH]; intros t E; [now exists t|].
    destruct t as [|d t]; [discriminate|]. cbn in E. apply andb_true_iff in E as (E1 & E2).
    apply Ascii.eqb_eq in E1. subst. destruct (IH _ E2) as (r & ->). now exists r.
  - intros (r & ->). apply startswith_app.
Qed.

Lemma skipn_app_exact {A} (a b : list A) : skipn (List.length a) (a ++ b) = b.
Proof. induction a; auto. Qed.

Lemma first_key_spec m t :
  match first_key m t with
  | Some (k, v) => exists m1 m2 r, m = m1 ++ (k, v) :: m2 /\ t = k ++ r /\
                                   forall k', In k' (map fst m1) -> ~ exists r', t = k' ++ r'
  | None => forall k', In k' (map fst m) -> ~ exists r', t = k' ++ r'
  end.
Proof.
  induction m as [|[k v] m IH]; cbn [first_key]; [intros k []|].
  destruct (startswith k t) eqn:E.
  - apply startswith_iff in E as (r & ->). exists [], m, r. repeat split; auto.
  - assert (N : ~ exists r', t = k ++ r').
    { intros H. apply startswith_iff in H. congruence. }
    destruct (first_key m t) as [[k1 v1]|].
    + destruct IH as (m1 & m2 & r & -> & -> & H). exists ((k, v) :: m1), m2, r. repeat split; auto.
      intros k' [<-|I]; auto.
    + intros k' [<-|I]; auto.
Qed.

Lemma mreplace_scanned fuel m t :
  (forall k, In k (map fst m) -> k <> []) ->
  List.length t <= fuel -> scanned m t (mreplace fuel m t).
Proof.
  intros Hne. revert t. induction fuel as [|f IH]; intros t Hf.
  - destruct t; [constructor|cbn in Hf; lia].
  - destruct t as [|c t]; [constructor|]. cbn [mreplace].
    pose proof (first_key_spec m (c :: t)) as S. destruct (first_key m (c :: t)) as [[k v]|].
    + destruct S as (m1 & m2 & r & Em & Et & H). rewrite Et in *. rewrite skipn_app_exact.
      eapply sc_key; eauto. apply IH.
      assert (k <> []) by (apply Hne; rewrite Em, map_app; apply in_or_app; right; left; reflexivity).
      assert (L : List.length (c :: t) = List.length (k ++ r)) by congruence.
      rewrite app_length in L. cbn in L. cbn in Hf. rewrite app_length in Hf. destruct k; [congruence|]. cbn in *; lia.
    + apply sc_char; auto. apply IH. cbn in Hf. lia.
Qed.

Lemma dget_app_notin {V} (m1 : list (str * V)) k v m2 :
  ~ In k (keys m1) -> dget str_eqb (m1 ++ (k, v) :: m2) k = Some v.
Proof.
  induction m1 as [|[k1 v1] m1 IH]; cbn; intros N.
  - now rewrite (decides_refl str_decides).
  - rewrite (decides_neq str_decides) by (intros ->; apply N; auto). apply IH. auto.
Qed.

Lemma mreplace_pieces fuel m ps :
  (forall k, In k (keys m) -> k <> []) -> prefix_free (keys m) -> pieces_ok m ps ->
  List.length (text_of ps) <= fuel ->
  mreplace fuel m (text_of ps) = concat (map (rename m) ps).
Proof.
  intros Hne Hpf. revert fuel. induction ps as [|p ps IH]; intros fuel Hok Hf.
  - destruct fuel; reflexivity.
  - inversion Hok as [|? ? Hp Hps]; subst. unfold text_of in *. cbn [map concat] in *.
    rewrite app_length in Hf. destruct p as [x|c]; cbn [piece_text] in *.
    + assert (Nx : x <> []) by (apply Hne; exact Hp).
      destruct x as [|c x]; [congruence|]. destruct fuel as [|f]; [cbn in Hf; lia|].
      cbn [app mreplace].
      set (t := c :: x ++ concat (map piece_text ps)).
      pose proof (first_key_spec m t) as S. destruct (first_key m t) as [[k v]|].
      * destruct S as (m1 & m2 & r & Em & Et & H).
        assert (Hk : In k (keys m)).
        { rewrite Em. unfold keys. rewrite map_app. apply in_or_app. right. left. reflexivity. }
        assert (k = c :: x).
        { unfold t in Et. change (c :: x ++ concat (map piece_text ps))
            with ((c :: x) ++ concat (map piece_text ps)) in Et.
          revert Et Hk Hp. generalize (c :: x) as a. generalize (concat (map piece_text ps)) as b.
          clear -Hpf. intros b a Et Hk Ha.
          assert (G : (exists u, a = k ++ u) \/ (exists u, k = a ++ u)).
          { clear -Et. revert a Et. induction k as [|y k IHk]; intros a Et; [left; now exists a|].
            destruct a as [|z a]; [right; now exists (y :: k)|]. cbn in Et. inversion Et; subst.
            destruct (IHk a H1) as [(u & ->)|(u & ->)]; [left|right]; now exists u. }
          destruct G as [(u & ->)|(u & ->)].
          - rewrite (Hpf k u Hk Ha). now rewrite app_nil_r.
          - rewrite (Hpf a u Ha Hk). now rewrite app_nil_r. }
        subst k. unfold t in Et. cbn [app] in Et. inversion Et as [E2]. apply app_inv_head in E2. subst r.
        unfold t. cbn [List.length skipn]. rewrite skipn_app_exact.
        rewrite IH; auto; [|cbn in Hf; lia].
        f_equal. cbn [rename]. rewrite Em. rewrite dget_app_notin; auto.
        intros I. apply (H (c :: x)); auto. exists (concat (map piece_text ps)). reflexivity.
      * exfalso. apply (S (c :: x)); [exact Hp|]. now exists (concat (map piece_text ps)).
    + destruct fuel as [|f]; [cbn in Hf; lia|]. cbn [app mreplace].
      pose proof (first_key_spec m (c :: concat (map piece_text ps))) as S.
      destruct (first_key m (c :: concat (map piece_text ps))) as [[k v]|].
      * exfalso. destruct S as (m1 & m2 & r & Em & Et & H).
        assert (Hk : In k (keys m)).
        { rewrite Em. unfold keys. rewrite map_app. apply in_or_app. right. left. reflexivity. }
        destruct k as [|d k]; [now apply (Hne [])|]. cbn in Et. inversion Et; subst. exact (Hp k Hk).
      * cbn [rename app]. f_equal. apply IH; auto. cbn in Hf. lia.
Qed.

Lemma inst_restrict (s : str -> pyval -> Prop) p d :
  ground d -> no_empty d -> inst s p d -> inst (fun x v => s x v /\ ground v /\ no_empty v) p d.
Proof.
  revert d. induction p as [x|z|l IH|l IH] using pyval_ind'; intros d G N I; inversion I; subst.
  - apply i_var; auto.
  - now apply i_str.
  - constructor.
  - apply i_list. clear I. apply ground_list in G. revert l2 G N H0.
    induction IH as [|y l Hy _ IHl]; intros l2 G N F; inversion F; subst; constructor.
    + inversion G; subst. apply Hy; auto. eapply (no_empty_cons PList); eauto.
    + inversion G; subst. apply IHl; auto. eapply (no_empty_cons PList); eauto.
  - apply i_tuple. clear I. apply ground_tuple in G. revert l2 G N H0.
    induction IH as [|y l Hy _ IHl]; intros l2 G N F; inversion F; subst; constructor.
    + inversion G; subst. apply Hy; auto. eapply (no_empty_cons PTuple); eauto.
    + inversion G; subst. apply IHl; auto. eapply (no_empty_cons PTuple); eauto.
Qed.

Lemma scanned_functional m t o1 o2 :
  (forall k, In k (map fst m) -> k <> []) -> NoDup (map fst m) ->
  scanned m t o1 -> scanned m t o2 -> o1 = o2.
Proof.
  intros Hne ND S1. revert o2. induction S1 as [|m1 k v m2 rest out E F S1 IH|c rest out F S1 IH]; intros o2 S2.
  - inversion S2 as [|m1' k v' m2' rest' out' E' F' S2' Et|]; auto. exfalso.
    destruct k; [|discriminate]. apply (Hne []); auto.
    rewrite E', map_app. apply in_or_app. right. left. reflexivity.
  - inversion S2 as [E2|m1' k' v' m2' rest' out' E' F' S2' Et|c' rest' out' F' S2' Et]; subst o2.
    + exfalso. destruct k; [|discriminate]. apply (Hne []); auto.
      rewrite E, map_app. apply in_or_app. right. left. reflexivity.
    + assert (Em : m1 = m1' /\ (k, v) = (k', v')).
      { assert (E2 : m1 ++ (k, v) :: m2 = m1' ++ (k', v') :: m2') by congruence.
        assert (F1 : ~ In k' (map fst m1)) by (intros I; apply (F k' I); exists rest'; congruence).
        assert (F2 : ~ In k (map fst m1')) by (intros I; apply (F' k I); exists rest; congruence).
        clear -E2 F1 F2. revert m1' E2 F1 F2. induction m1 as [|x m1 IH]; intros [|y m1'] E2 F1 F2; cbn in *.
        - inversion E2; auto.
        - inversion E2; subst. exfalso. apply F2. left. reflexivity.
        - inversion E2; subst. exfalso. apply F1. left. reflexivity.
        - inversion E2; subst. destruct (IH m1') as (-> & ->); auto. }
      destruct Em as (_ & Em). inversion Em; subst k' v'. apply app_inv_head in Et. subst rest'.
      f_equal. now apply IH.
    + exfalso. apply (F' k); [rewrite E, map_app; apply in_or_app; right; left; reflexivity|].
      exists rest. congruence.
  - inversion S2 as [E2|m1' k' v' m2' rest' out' E' F' S2' Et|c' rest' out' F' S2' Et]; subst o2.
    + exfalso. apply (F k'); [rewrite E', map_app; apply in_or_app; right; left; reflexivity|].
      exists rest'. congruence.
    + f_equal. now apply IH.
Qed.

Fixpoint ground_b (v : pyval) : bool :=
  match v with
  | PStr (c :: _) => negb (Ascii.eqb c "?")
  | PList l | PTuple l => forallb ground_b l
  | _ => true
  end.

Lemma ground_b_ok v : ground_b v = true -> ground v.
Proof.
  induction v as [x|z|l IH|l IH] using pyval_ind'; cbn; intros E.
  - intros y M (r & ->). inversion M; subst. cbn in E. discriminate.
  - intros y M. inversion M.
  - apply ground_list. rewrite Forall_forall in *. rewrite forallb_forall in E. auto.
  - apply ground_tuple. rewrite Forall_forall in *. rewrite forallb_forall in E. auto.
Qed.
