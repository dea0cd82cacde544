(** * ProofsExotic: orders of factors, products of classes of fields *)

From Coq Require Import Ascii String List Bool Arith ZArith QArith Qcanon Lia Permutation Sorted.
From Verif Require Import Base BaseFacts Show ModelFunctions ProofsFunctions ModelIndex SpecIndex ProofsIndex PropsIndex ModelField SpecField
  ProofsField ProofsField2 PropsField PropsField2 ModelContract SpecContract ProofsContract ModelPartition ModelExotic SpecExotic.
From Verif Require Spec.
Import ListNotations.
Local Open Scope nat_scope.

(** ** Stable orders *)

Section Ordered.
  Context {A : Type}.
  Variable key : A -> nat.

  Lemma keyed_unique (l1 : list A) : forall l2,
    StronglySorted (fun x y => key x <= key y) l1 -> StronglySorted (fun x y => key x <= key y) l2 ->
    (forall k, filter (fun x => key x =? k) l1 = filter (fun x => key x =? k) l2) -> l1 = l2.
  Proof.
    assert (M : forall (l : list A) x, In x l -> In x (filter (fun y => key y =? key x) l)) by (intros; apply filter_In; rewrite Nat.eqb_refl; auto).
    induction l1 as [|x l1 IH]; intros [|y l2] S1 S2 F; [reflexivity| | |].
    - specialize (M (y :: l2) y (or_introl eq_refl)). rewrite <- F in M. destruct M.
    - specialize (M (x :: l1) x (or_introl eq_refl)). rewrite F in M. destruct M.
    - apply StronglySorted_inv in S1 as [S1 L1], S2 as [S2 L2].
      assert (K : key x = key y).
      { assert (Ix : In x (y :: l2)) by (specialize (M (x :: l1) x (or_introl eq_refl)); rewrite F in M; now apply filter_In in M).
        assert (Iy : In y (x :: l1)) by (specialize (M (y :: l2) y (or_introl eq_refl)); rewrite <- F in M; now apply filter_In in M).
        rewrite Forall_forall in L1, L2. destruct Ix as [-> | Ix]; [reflexivity|]. destruct Iy as [-> | Iy]; [reflexivity|]. specialize (L1 _ Iy). specialize (L2 _ Ix). lia. }
      assert (x = y). { specialize (F (key x)). cbn [filter] in F. rewrite Nat.eqb_refl, K, Nat.eqb_refl in F. now injection F. } subst y.
      f_equal. apply IH; auto. intros k. specialize (F k). cbn [filter] in F. destruct (key x =? k); [now injection F|exact F].
  Qed.

  Definition kleb (x y : A) : bool := key x <=? key y.

  Lemma kleb_total x y : kleb x y = true \/ kleb y x = true.
  Proof. unfold kleb. rewrite !Nat.leb_le. lia. Qed.
  Lemma kleb_trans x y z : kleb x y = true -> kleb y z = true -> kleb x z = true.
  Proof. unfold kleb. rewrite !Nat.leb_le. lia. Qed.

  Lemma sort_keyed (l : list A) : StronglySorted (fun x y => key x <= key y) (sort kleb l).
  Proof.
    assert (H : StronglySorted (fun x y => kleb x y = true) (sort kleb l)) by (apply sort_sorted; [exact kleb_total|exact kleb_trans]).
    induction H as [|x l' _ IH F]; constructor; auto. eapply Forall_impl; [|exact F]. intros y. unfold kleb. now rewrite Nat.leb_le.
  Qed.

  Lemma insert_keyed k x l : filter (fun y => key y =? k) (insert kleb x l) = filter (fun y => key y =? k) (x :: l).
  Proof.
    induction l as [|y l IH]; [reflexivity|]. cbn [insert]. destruct (kleb x y) eqn:E; [reflexivity|].
    cbn [filter] in *. rewrite IH. unfold kleb in E. apply Nat.leb_gt in E.
    destruct (Nat.eqb_spec (key y) k), (Nat.eqb_spec (key x) k); try reflexivity. lia.
  Qed.

  Lemma sort_keyed_filter k l : filter (fun y => key y =? k) (sort kleb l) = filter (fun y => key y =? k) l.
  Proof. induction l as [|x l IH]; [reflexivity|]. cbn [sort]. rewrite insert_keyed. cbn [filter]. now rewrite IH. Qed.

  Lemma sort_ordered l : ordered_by key l (sort kleb l).
  Proof. split; [apply sort_keyed|intros k; apply sort_keyed_filter]. Qed.

  Lemma ordered_unique l l1 l2 : ordered_by key l l1 -> ordered_by key l l2 -> l1 = l2.
  Proof. intros [S1 F1] [S2 F2]. apply keyed_unique; auto. intros k. now rewrite F1, F2. Qed.

  Lemma ordered_perm l l' : ordered_by key l l' -> Permutation l l'.
  Proof. intros H. rewrite (ordered_unique _ _ _ H (sort_ordered l)). apply sort_perm. Qed.

  Lemma sort_again l l' : sort kleb (sort kleb l ++ l') = sort kleb (l ++ l').
  Proof.
    apply keyed_unique; [apply sort_keyed|apply sort_keyed|]. intros k. now rewrite !sort_keyed_filter, !filter_app, sort_keyed_filter.
  Qed.
End Ordered.

Lemma sort_map_keyed {A B} (key : A -> nat) (key' : B -> nat) (f : A -> B) (H : forall x, key' (f x) = key x) l :
  sort (kleb key') (map f l) = map f (sort (kleb key) l).
Proof.
  induction l as [|x l IH]; [reflexivity|]. cbn [map sort]. rewrite IH. generalize (sort (kleb key) l). intros r.
  induction r as [|y r IHr]; [reflexivity|]. cbn [map insert]. unfold kleb at 1 3. rewrite !H. destruct (key x <=? key y); [reflexivity|]. cbn [map]. now rewrite IHr.
Qed.

(** ** Products *)

Lemma cnormalise_eq l : cnormalise l = sort (kleb class_rank) l.
Proof. reflexivity. Qed.

Lemma fold_c_mul l : forall op, fold_left c_mul l (cnormalise op) = cnormalise (op ++ l).
Proof.
  induction l as [|t l IH]; intros op; cbn [fold_left]; [now rewrite app_nil_r|].
  unfold c_mul at 2. rewrite (cnormalise_eq op), (cnormalise_eq (_ ++ _)), sort_again, <- cnormalise_eq, IH, <- app_assoc. reflexivity.
Qed.

Lemma c_reduce_ok l : l <> [] -> c_reduce l = Ok (cnormalise l).
Proof.
  intros N. destruct l as [|t l]; [congruence|]. cbn [c_reduce].
  change [t] with (cnormalise [t]). now rewrite fold_c_mul.
Qed.

(** the fields in the order of their classes *)
Definition classed (fs : list cfield) : list cfield := sort (kleb class_position) fs.

Lemma classed_ordered fs : ordered_by class_position fs (classed fs).
Proof. apply sort_ordered. Qed.

Lemma classed_perm fs : Permutation fs (classed fs).
Proof. apply sort_perm. Qed.

Lemma cnormalise_fields fs : cnormalise (map KField fs) = map KField (classed fs).
Proof. rewrite cnormalise_eq. unfold classed. apply sort_map_keyed. intros x. reflexivity. Qed.

Lemma op_indices_fields fs : op_indices (cop_erase (map KField fs)) = flat_map indices_of fs.
Proof. induction fs as [|x fs IH]; [reflexivity|]. cbn [map cop_erase op_indices flat_map erase tensor_indices]. unfold cop_erase, op_indices in IH. now rewrite IH. Qed.

Lemma cnormalise_perm l : Permutation l (cnormalise l).
Proof. apply sort_perm. Qed.

Lemma op_indices_perm l l' : Permutation l l' -> Permutation (op_indices l) (op_indices l').
Proof. apply Permutation_flat_map. Qed.

Lemma is_free_perm op op' i : Permutation (op_indices op) (op_indices op') -> (is_free op i <-> is_free op' i).
Proof.
  intros P. unfold is_free. split; intros [I F]; (split; [eapply Permutation_in; [|exact I]; auto using Permutation_sym|]);
    intros j J; apply F; eapply Permutation_in; [|exact J| |exact J]; auto using Permutation_sym.
Qed.

Lemma has_type_eq t i : has_type t i = itype_eqb (ix_type i) t.
Proof. unfold has_type. now destruct (ix_type i), t. Qed.

Lemma has_type_iff t i : has_type t i = true <-> ix_type i = t.
Proof. rewrite has_type_eq. apply itype_decides. Qed.

Lemma by_type_has t l : by_type t l = filter (has_type t) l.
Proof. rewrite by_type_filter. apply filter_ext. intros i. now rewrite has_type_eq. Qed.

(** raised indices of a type all of whose indices are raised are free *)
Lemma free_raised op t :
  (forall i, In i (op_indices op) -> ix_type i = t -> ix_up i = true) ->
  by_type t (free_indices op) = filter (has_type t) (op_indices op).
Proof.
  intros H. rewrite by_type_has. unfold free_indices. cbv zeta. rewrite filter_filter. apply filter_ext_in. intros i I.
  destruct (has_type t i) eqn:E; [|reflexivity]. cbn [andb]. apply has_type_iff in E. apply negb_true_iff.
  destruct (existsb (opposite i) (op_indices op)) eqn:X; [|reflexivity]. apply existsb_exists in X as (j & Ij & C).
  apply opposite_spec in C as (N & T & U). rewrite (H i I E), (H j Ij) in U by congruence. discriminate U.
Qed.

(** ** Printed indices *)

Lemma clean_minus i : clean i -> ix_up i = true ->
  exists a, new_index (lit "-" ++ show_index i) = Ok a /\ clean a /\ counterpart i a /\ ix_label a = lit "-" ++ show_index i.
Proof.
  intros C U. destruct (clean_show i C) as (j & E & S & Cj). destruct (clean_neg j Cj) as (a & Ea & Ca & (N & T & Ua)).
  unfold neg_index in Ea. rewrite (new_index_label _ _ E) in Ea. injection S as S1 S2 S3. rewrite S3, U in Ea.
  exists a. split; [exact Ea|]. split; [exact Ca|]. split; [|exact (new_index_label _ _ Ea)]. unfold counterpart. rewrite N, T, Ua, S1, S2, S3. auto.
Qed.

Lemma eps_minus t i j : clean i -> clean j -> ix_up i = true -> ix_up j = true -> ix_type i = t -> ix_type j = t ->
  t = Undotted \/ t = Dotted \/ t = Isospin ->
  exists a b, eps (lit "-" ++ show_index i ++ lit " -" ++ show_index j) = Ok (Metric t [a; b]) /\ counterpart i a /\ counterpart j b /\ clean a /\ clean b.
Proof.
  intros Ci Cj Ui Uj Ti Tj Ht. destruct (clean_minus i Ci Ui) as (a & Ea & Ca & Na & La). destruct (clean_minus j Cj Uj) as (b & Eb & Cb & Nb & Lb).
  exists a, b. split; [|auto]. unfold eps.
  assert (X : lit "-" ++ show_index i ++ lit " -" ++ show_index j = join (lit " ") (map ix_label [a; b])).
  { cbn [map join]. rewrite La, Lb. rewrite <- !app_assoc. reflexivity. }
  rewrite X, clean_tokens by auto. cbn [bind]. destruct Na as (_ & Ta & Va), Nb as (_ & Tb & Vb). rewrite Ta, Ti. rewrite Ui in Va. rewrite Uj in Vb.
  cbn [List.length forallb]. rewrite Va, Vb. destruct Ht as [-> | [-> | ->]]; reflexivity.
Qed.

(** ** Pairs *)

Lemma even_or_odd {A} (l : list A) : (exists m, consecutive l m) \/ single l \/ stuck l.
Proof.
  assert (H : forall n (l : list A), List.length l <= n -> (exists m, consecutive l m) \/ single l \/ stuck l).
  { clear l. induction n as [|n IH]; intros [|x [|y l]] L; cbn in L; try lia; try (left; exists []; constructor); try (right; left; reflexivity).
    destruct (IH l) as [(m & M)|[S|(k & K)]]; [lia| | |].
    - left. exists ((x, y) :: m). now constructor.
    - right. right. exists 0. cbn. red in S. lia.
    - right. right. exists (S k). cbn. lia. }
  eauto.
Qed.

Lemma consecutive_length {A} (l : list A) m : consecutive l m -> List.length l = 2 * List.length m.
Proof. induction 1; cbn; lia. Qed.

Lemma stuck_not_paired {A} (l : list A) m : stuck l -> ~ single l /\ ~ consecutive l m.
Proof. intros (n & E). split; [unfold single; lia|]. intros C. apply consecutive_length in C. lia. Qed.

Lemma consecutive_flat {A} (l : list A) m : consecutive l m -> flat_map (fun p => [fst p; snd p]) m = l.
Proof. induction 1 as [|a b l m C IH]; [reflexivity|]. cbn. now rewrite IH. Qed.

Lemma consecutive_chunks {A} (l : list A) m : consecutive l m -> forall fuel, List.length l <= fuel -> chunks_fuel fuel 2 l = map (fun p => [fst p; snd p]) m.
Proof.
  induction 1 as [|a b l m C IH]; intros [|fuel] L; cbn in L; try lia; try reflexivity.
  cbn [chunks_fuel firstn skipn map fst snd]. f_equal. apply IH. lia.
Qed.

Definition lorentz_type (t : itype) : Prop := t = Undotted \/ t = Dotted.

Lemma pair_up_ok t l : lorentz_type t -> Forall clean l -> Forall (fun i => ix_type i = t /\ ix_up i = true) l ->
  (stuck l /\ pair_up l = Err AttributeError) \/ exists es, pair_up l = Ok es /\ paired t l es.
Proof.
  intros Ht C F. destruct (even_or_odd l) as [(m & M)|[S|K]].
  - right. pose proof (consecutive_length _ _ M) as L.
    assert (R : pair_up l = do l' <- chunks l 2; mapM (fun ij => match ij with
                         | [i; j] => eps (lit "-" ++ show_index i ++ lit " -" ++ show_index j)
                         | _ => Err ValueError end) l').
    { destruct l as [|x [|y r]]; [reflexivity|cbn in L; lia|]. unfold pair_up. rewrite L, Nat.mul_comm, Nat.mod_mul by lia. reflexivity. }
    rewrite R. unfold chunks. rewrite (consecutive_chunks _ _ M) by lia. cbn [bind]. clear R L.
    assert (X : exists es, mapM (fun ij => match ij with
                         | [i; j] => eps (lit "-" ++ show_index i ++ lit " -" ++ show_index j)
                         | _ => Err ValueError end) (map (fun p => [fst p; snd p]) m) = Ok es /\ joins t m es).
    { revert C F. induction M as [|a b l m M IH]; intros C F; [exists []; split; [reflexivity|constructor]|].
      inversion C as [|? ? Ca C1]; subst. inversion C1 as [|? ? Cb C2]; subst. inversion F as [|? ? [Ta Ua] F1]; subst. inversion F1 as [|? ? [Tb Ub] F2]; subst.
      destruct (IH C2 F2) as (es & E & J). destruct (eps_minus (ix_type a) a b) as (a' & b' & Ee & N1 & N2 & _); auto; [red in Ht; tauto|].
      exists (Metric (ix_type a) [a'; b'] :: es). cbn [map mapM fst snd]. rewrite Ee, E. split; [reflexivity|]. constructor; [|exact J]. cbn [fst snd]. eauto. }
    destruct X as (es & E & J). exists es. split; [exact E|]. right. eauto.
  - right. exists []. split; [|left; auto]. red in S. destruct l as [|x [|y r]]; cbn in S; try lia. reflexivity.
  - left. split; [exact K|]. destruct K as (n & K). destruct l as [|x [|y r]]; cbn [List.length] in K; try lia.
    unfold pair_up. cbn [List.length]. rewrite K. replace (2 * n + 3) with (1 + (n + 1) * 2) by lia. rewrite Nat.mod_add by lia. reflexivity.
Qed.

(** ** Fields *)

Lemma legit_raised x i : legit x -> In i (indices_of x) -> lorentz_type (ix_type i) -> ix_up i = true.
Proof. intros (_ & H & _) I T. apply H; [exact I|]. red; red in T; tauto. Qed.

Lemma pair_lorentz_ok fs : Forall legit fs -> fs <> [] -> lorentz_pairing (classed fs) (pair_lorentz fs).
Proof.
  intros L N. unfold pair_lorentz. rewrite c_reduce_ok by now destruct fs. cbn [bind]. rewrite cnormalise_fields.
  assert (L' : Forall legit (classed fs)) by (eapply Permutation_Forall; [apply classed_perm|exact L]).
  assert (R : forall i t, In i (flat_map indices_of (classed fs)) -> lorentz_type t -> ix_type i = t -> ix_up i = true).
  { intros i t I Ht T. apply in_flat_map in I as (x & Ix & I). rewrite Forall_forall in L'. eapply legit_raised; [apply L', Ix|exact I|now rewrite T]. }
  assert (E : forall t, lorentz_type t -> by_type t (c_indices (map KField (classed fs))) = indices_on t (classed fs)).
  { intros t Ht. unfold indices_on. rewrite <- op_indices_fields.
    destruct (classed fs) as [|x [|y r]] eqn:Ec; cbn [map c_indices].
    - now rewrite by_type_has.
    - rewrite by_type_has. unfold cop_erase, op_indices. cbn [map erase flat_map tensor_indices]. now rewrite app_nil_r.
    - apply (free_raised (cop_erase (map KField (x :: y :: r)))). intros i I T. rewrite op_indices_fields in I. eapply R; eauto. }
  rewrite !E by (red; auto). unfold lorentz_pairing. cbv zeta.
  set (U := indices_on Undotted (classed fs)). set (V := indices_on Dotted (classed fs)).
  assert (FF : forall t, lorentz_type t -> Forall clean (indices_on t (classed fs)) /\ Forall (fun i => ix_type i = t /\ ix_up i = true) (indices_on t (classed fs))).
  { intros t Ht. split; apply Forall_forall; intros i I; apply filter_In in I as [I T]; apply has_type_iff in T.
    - apply in_flat_map in I as (x & Ix & I). rewrite Forall_forall in L'. destruct (L' x Ix) as (C & _). rewrite Forall_forall in C. auto.
    - split; [exact T|]. eapply R; eauto. }
  destruct ((List.length U =? 1) && (List.length V =? 1)) eqn:B.
  - apply andb_true_iff in B as [B1 B2]. apply Nat.eqb_eq in B1, B2. left. auto.
  - assert (NS : ~ (single U /\ single V)). { intros [S1 S2]. red in S1, S2. rewrite S1, S2 in B. discriminate B. }
    right. destruct (FF Undotted) as [C1 F1]; [red; auto|]. destruct (FF Dotted) as [C2 F2]; [red; auto|].
    destruct (pair_up_ok Undotted U) as [[K EU]|(eu & EU & PU)]; auto; [red; auto| |]; fold U in EU; rewrite EU; cbn [bind]; [left; auto|].
    destruct (pair_up_ok Dotted V) as [[K EV]|(ev & EV & PV)]; auto; [red; auto| |]; rewrite EV; cbn [bind]; [left; auto|].
    right. split; [exact NS|]. exists eu, ev. auto.
Qed.

Lemma kinds_ok_clean l : Forall clean l -> (forall i, In i l -> su2_type (ix_type i) -> ix_up i = true) -> forallb kinds_ok l = true.
Proof.
  intros C H. apply forallb_forall. intros i I. specialize (H i I). unfold kinds_ok. unfold su2_type in H. destruct (ix_type i); cbn [itype_eqb]; rewrite ?orb_true_r; auto; rewrite H by auto; reflexivity.
Qed.

Lemma legit_ints x : legit x ->
  dynkin_ints (i_field (cf_if x)) = Ok [count_kind Undotted true (indices_of x); count_kind Dotted true (indices_of x);
    count_kind Colour true (indices_of x); count_kind Colour false (indices_of x); count_kind Isospin true (indices_of x)].
Proof.
  intros (C & R & B & E). rewrite get_dynkin_ok in E by now apply kinds_ok_clean. injection E as E.
  unfold dynkin_ints. rewrite <- E. pose proof (B Undotted true). pose proof (B Dotted true). pose proof (B Colour true). pose proof (B Colour false). pose proof (B Isospin true).
  rewrite !show_nat_digit by (apply B; discriminate). apply digits_five; try apply B; discriminate.
Qed.

(** ** Deciding that a field is as the package makes them, for the examples *)

Definition spelledb (s : str) : bool :=
  let s := match s with c :: r => if Ascii.eqb c "-" then r else s | [] => s end in
  let s := match s with c :: r => if Ascii.eqb c "_" then r else s | [] => s end in
  match s with c :: _ => match type_of_char c with Ok _ => true | Err _ => false end | [] => false end.

Lemma spelledb_ok s : spelledb s = true -> exists low auto t rest, s = spelled low auto t rest.
Proof.
  unfold spelledb. cbv zeta. intros H.
  assert (T : forall c t, type_of_char c = Ok t -> c = letter t).
  { intros c t. unfold type_of_char. repeat match goal with |- context [if Ascii.eqb ?a ?b then _ else _] => destruct (Ascii.eqb_spec a b) as [->|_]; [intros [= <-]; reflexivity|] end. discriminate. }
  destruct s as [|c r]; [discriminate H|].
  assert (K : forall low (s : str), (match (match s with c :: r => if Ascii.eqb c "_" then r else s | [] => s end) with c :: _ => match type_of_char c with Ok _ => true | Err _ => false end | [] => false end) = true ->
     exists auto t rest, (if low : bool then ["-"%char] else []) ++ s = spelled low auto t rest).
  { intros low [|d s'] X; [discriminate X|]. destruct (Ascii.eqb_spec d "_") as [->|_].
    - destruct s' as [|e s']; [discriminate X|]. destruct (type_of_char e) as [t|] eqn:Et; [|discriminate X]. exists true, t, s'. rewrite (T _ _ Et). reflexivity.
    - destruct (type_of_char d) as [t|] eqn:Et; [|discriminate X]. exists false, t, s'. rewrite (T _ _ Et). reflexivity. }
  destruct (Ascii.eqb_spec c "-") as [->|_].
  - exists true. apply (K true r H).
  - exists false. apply (K false (c :: r) H).
Qed.

Definition cleanb (i : index) : bool :=
  match new_index (ix_label i) with
  | Ok j => index_eqb i j && str_eqb (ix_label i) (ix_label j)
  | Err _ => false
  end && negb (mem_by Ascii.eqb " "%char (ix_label i)) && spelledb (lower (ix_label i)).

Lemma cleanb_ok i : cleanb i = true -> clean i.
Proof.
  unfold cleanb. rewrite !andb_true_iff. intros [[H1 H2] H3]. split; [|split].
  - destruct (new_index (ix_label i)) as [j|]; [|discriminate H1]. apply andb_true_iff in H1 as [Q E]. apply ProofsContract.slot_eqb in Q. apply str_decides in E.
    f_equal. destruct i, j. unfold slot in Q. cbn in *. congruence.
  - intros I. apply negb_true_iff in H2. unfold mem_by in H2. assert (X : existsb (Ascii.eqb " "%char) (ix_label i) = true) by (apply existsb_exists; exists " "%char; split; [exact I|reflexivity]). congruence.
  - now apply spelledb_ok.
Qed.

Definition legitb (x : cfield) : bool :=
  let l := indices_of x in
  forallb cleanb l && forallb kinds_ok l &&
  forallb (fun k : itype * bool => count_kind (fst k) (snd k) l <? 10)
    [(Undotted, true); (Undotted, false); (Dotted, true); (Dotted, false); (Colour, true); (Colour, false); (Isospin, true); (Isospin, false)] &&
  match get_dynkin l with Ok d => str_eqb d (f_dynkin (i_field (cf_if x))) | Err _ => false end.

Lemma legitb_ok x : legitb x = true -> legit x.
Proof.
  unfold legitb. cbv zeta. rewrite !andb_true_iff. intros [[[C K] B] E]. split; [|split; [|split]].
  - apply Forall_forall. intros i I. rewrite forallb_forall in C. apply cleanb_ok, C, I.
  - intros i I T. rewrite forallb_forall in K. specialize (K i I). unfold kinds_ok in K. red in T.
    destruct (ix_up i); [reflexivity|]. destruct T as [T|[T|T]]; rewrite T in K; discriminate K.
  - rewrite forallb_forall in B. intros t up N. apply Nat.ltb_lt. apply (B (t, up)). destruct t, up; cbn; tauto.
  - destruct (get_dynkin (indices_of x)) as [d|]; [|discriminate E]. apply str_decides in E. now rewrite E.
Qed.

Fixpoint nodup_slots (l : list index) : bool :=
  match l with [] => true | i :: l => negb (existsb (index_eqb i) l) && nodup_slots l end.

Lemma nodup_slots_ok l : nodup_slots l = true -> NoDup (map slot l).
Proof.
  induction l as [|i l IH]; intros H; [constructor|]. cbn in H. apply andb_true_iff in H as [H1 H2]. cbn [map]. constructor; auto.
  intros I. apply in_map_iff in I as (j & S & J). apply negb_true_iff in H1.
  assert (existsb (index_eqb i) l = true); [|congruence]. apply existsb_exists. exists j. split; [exact J|]. now apply ProofsContract.slot_eqb.
Qed.

Definition vertexb (fs : list cfield) : bool := forallb legitb fs && nodup_slots (flat_map indices_of fs).

Lemma vertexb_ok fs : vertexb fs = true -> vertex fs.
Proof.
  unfold vertexb. rewrite andb_true_iff. intros [L N]. split; [|now apply nodup_slots_ok].
  apply Forall_forall. intros x I. rewrite forallb_forall in L. apply legitb_ok, L, I.
Qed.
