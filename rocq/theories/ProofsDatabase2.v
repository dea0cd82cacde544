(** * ProofsDatabase2: prime tables, duplicates, orders, files, related models *)

From Coq Require Import Ascii String List Bool Arith ZArith Znumtheory Lia Permutation Sorted QArith Qcanon.
From Verif Require Import Base BaseFacts Spec Show Primes ModelFunctions SpecFunctions ProofsFunctions
  ModelMatch ProofsMatch ModelRegistry SpecRegistry ProofsRegistry ModelDatabase SpecDatabase ProofsDatabase.
Import ListNotations.
Local Open Scope nat_scope.

(** ** Strings and classes *)

Lemma same_class_field s t : field_string s -> (same_class conjugate_field s t <-> same_field s t).
Proof.
  intros (f & Of & ->). unfold same_class, same_field. split.
  - intros [E|E]; [auto|]. right. rewrite conjugate_print in E by auto. inversion E. exists f. auto.
  - intros [E|(g & Og & E & ->)]; [auto|]. right. apply print_field_inj in E; auto. subst g. now apply conjugate_print.
Qed.

Lemma field_strings_print t : Forall field_string t -> exists fs, Forall qfield_ok fs /\ t = map print_field fs.
Proof.
  induction 1 as [|x t (f & Of & ->) F (fs & Ofs & ->)]; [exists []; auto|]. exists (f :: fs). auto.
Qed.

Lemma sorted_valid t : Forall field_string t -> valid_key (sorted_str t).
Proof. intros F. destruct (field_strings_print t F) as (fs & O & ->). exists fs. auto. Qed.

Lemma Forall2_conj_string fs s' : Forall qfield_ok fs ->
  Forall2 conj_string (map print_field fs) s' <-> s' = map print_field (map conj_qfield fs).
Proof.
  intros F. revert s'. induction F as [|f fs Of F IH]; intros s'; cbn.
  - split; [intros H; inversion H; reflexivity|intros ->; constructor].
  - split.
    + intros H. inversion H as [|x y l l' (g & Og & E & ->) H2]; subst. apply print_field_inj in E; auto. subst g.
      apply IH in H2. now subst.
    + intros ->. constructor; [exists f; auto|]. now apply IH.
Qed.

Lemma same_class_term s t : Forall field_string s -> Forall field_string t ->
  (same_class conjugate_term (sorted_str s) (sorted_str t) <-> same_term s t).
Proof.
  intros Fs Ft. destruct (field_strings_print s Fs) as (fs & Os & ->).
  destruct (field_strings_print t Ft) as (gs & Og & ->).
  change (sorted_str (map print_field fs)) with (qkey fs). change (sorted_str (map print_field gs)) with (qkey gs).
  unfold same_class, same_term. rewrite conjugate_qkey by auto.
  unfold qkey. rewrite sorted_str_eq_iff. split.
  - intros [P|E]; [auto|]. right. inversion E as [E1]. apply sorted_str_eq_iff in E1.
    eexists. split; [apply Forall2_conj_string; auto|exact E1].
  - intros [P|(s' & F & P)]; [auto|]. right. apply Forall2_conj_string in F; auto. subst s'.
    f_equal. now apply sorted_str_eq_iff.
Qed.

(** ** The tables, exactly *)

Section Table.
  Context {K : Type} (eqb : K -> K -> bool) (H : decides eqb) (conj : K -> res K) (valid : K -> Prop)
    (Hconj : forall k, valid k -> exists k', conj k = Ok k' /\ valid k' /\ conj k' = Ok k).

  (** the two entries of a class: conjugate first, unless it is the same key *)
  Definition entries (k : K) (p : Z) : list (K * Z) :=
    match conj k with
    | Ok k' => if eqb k k' then [(k, p)] else [(k', p); (k, p)]
    | Err _ => []
    end.

  Fixpoint table (n : nat) (reps : list K) : list (K * Z) :=
    match reps with [] => [] | k :: r => entries k (prime_ n) ++ table (S n) r end.

  Definition class_eqb (s k : K) : bool :=
    eqb s k || match conj s with Ok s' => eqb s' k | Err _ => false end.

  Lemma class_eqb_iff s k : class_eqb s k = true <-> same_class conj s k.
  Proof using H.
    unfold class_eqb, same_class. rewrite orb_true_iff, (H s k). destruct (conj s) as [s'|e].
    - rewrite (H s' k). split; intros [E|E]; auto; right; congruence.
    - split; intros [E|E]; auto; discriminate.
  Qed.

  Lemma table_snoc n reps k : table n (reps ++ [k]) = table n reps ++ entries k (prime_ (n + List.length reps)).
  Proof using Type.
    revert n. induction reps as [|r reps IH]; intros n; cbn.
    - now rewrite app_nil_r, Nat.add_0_r.
    - rewrite IH, <- app_assoc. do 3 f_equal. f_equal. lia.
  Qed.

  Lemma table_keys n reps x : Forall valid reps ->
    In x (keys (table n reps)) <-> exists s, In s reps /\ same_class conj s x.
  Proof using H Hconj.
    intros V. revert n. induction V as [|k reps Vk V IH]; intros n.
    - cbn. split; [intros []|intros (s & [] & _)].
    - cbn [table]. unfold keys. rewrite map_app, in_app_iff. fold (keys (table (S n) reps)). rewrite IH.
      assert (E : In x (map fst (entries k (prime_ n))) <-> same_class conj k x).
      { unfold entries, same_class. destruct (Hconj k Vk) as (k' & -> & _). destruct (eqb k k') eqn:Ek.
        - apply H in Ek. subst. cbn. split; [intros [->|[]]; auto|intros [->|E]; [auto|]]. left. congruence.
        - cbn. split; [intros [->|[->|[]]]; auto|intros [->|E]; [auto|]]. left. congruence. }
      rewrite E. split.
      + intros [S|(s & I & S)]; [exists k; split; [left; reflexivity|exact S]|exists s; split; [right; exact I|exact S]].
      + intros (s & [<-|I] & S); [auto|right; eauto].
  Qed.

  Lemma class_fold_exact ks : forall kept, Forall valid ks -> Forall valid kept ->
    foldM (class_step eqb conj) ks (table 1 kept, S (List.length kept))
    = Ok (table 1 (kept ++ keep_first class_eqb kept ks), S (List.length (kept ++ keep_first class_eqb kept ks))).
  Proof using H Hconj.
    induction ks as [|k ks IH]; intros kept V Vk; cbn [foldM keep_first]; [now rewrite app_nil_r|].
    inversion V as [|? ? Vkk Vks]; subst. unfold class_step at 1.
    assert (Em : dmem eqb (table 1 kept) k = existsb (fun y => class_eqb y k) kept).
    { apply eq_true_iff_eq. rewrite (dmem_In H), table_keys by auto. rewrite existsb_exists.
      split; intros (s & I & S); exists s; (split; [exact I|]); now apply class_eqb_iff. }
    rewrite Em. destruct (existsb (fun y => class_eqb y k) kept) eqn:E; [cbn [bind]; now apply IH|].
    destruct (Hconj k Vkk) as (k' & Ek & Vk' & Ek'). rewrite Ek. cbn [bind].
    assert (Nk : ~ In k (keys (table 1 kept))) by (intros I; apply (dmem_In H) in I; congruence).
    assert (Nk' : ~ In k' (keys (table 1 kept))).
    { intros I. apply Nk. apply table_keys in I as (s & I & S); auto. apply table_keys; auto. exists s. split; auto.
      rewrite Forall_forall in Vk. eapply same_class_trans; eauto. right. exact Ek'. }
    assert (D1 : dset eqb (table 1 kept) k' (prime_ (S (List.length kept))) = table 1 kept ++ [(k', prime_ (S (List.length kept)))]).
    { apply dset_new; [exact H|]. apply not_true_is_false. intros M. apply (dmem_In H) in M. contradiction. }
    assert (D : dset eqb (dset eqb (table 1 kept) k' (prime_ (S (List.length kept)))) k (prime_ (S (List.length kept)))
                = table 1 (kept ++ [k])).
    { rewrite D1, table_snoc. cbn [plus]. unfold entries. rewrite Ek. destruct (eqb k k') eqn:Ekk.
      - apply H in Ekk. subst k'. now rewrite (dset_middle eqb H).
      - rewrite dset_new; [|exact H|].
        + now rewrite <- app_assoc.
        + apply not_true_is_false. intros M. apply (dmem_In H) in M. unfold keys in M. rewrite map_app in M.
          apply in_app_iff in M as [M|[M|[]]]; [contradiction|]. cbn in M. subst k'.
          rewrite (decides_refl H) in Ekk. discriminate. }
    rewrite D. replace (S (S (List.length kept))) with (S (List.length (kept ++ [k]))) by (rewrite app_length; cbn; lia).
    rewrite IH; auto.
    - now rewrite <- !app_assoc.
    - apply Forall_app. auto.
  Qed.

  (** the inverse dictionary *)
  Lemma inverse_app (d e : list (K * Z)) :
    inverse_dict (d ++ e) = fold_left (fun inv kv => dset Z.eqb inv (snd kv) (fst kv)) e (inverse_dict d).
  Proof using Type. unfold inverse_dict. now rewrite fold_left_app. Qed.

  Lemma inverse_table reps : Forall valid reps -> forall p k,
    dget Z.eqb (inverse_dict (table 1 reps)) p = Some k <->
    exists i, nth_error reps i = Some k /\ p = prime_ (S i).
  Proof using H Hconj.
    induction reps as [|r reps IH] using rev_ind; intros V p k.
    - cbn. split; [discriminate|]. intros (i & E & _). destruct i; discriminate.
    - apply Forall_app in V as (V & Vr). inversion Vr as [|? ? Vrr _]; subst. rewrite table_snoc, inverse_app. cbn [plus].
      set (q := prime_ (S (List.length reps))).
      assert (E : dget Z.eqb (fold_left (fun inv kv => dset Z.eqb inv (snd kv) (fst kv)) (entries r q)
                         (inverse_dict (table 1 reps))) p
                  = if (p =? q)%Z then Some r else dget Z.eqb (inverse_dict (table 1 reps)) p).
      { unfold entries. destruct (Hconj r Vrr) as (r' & -> & _). destruct (eqb r r'); cbn [fold_left fst snd].
        - apply (dget_dset Z_decides).
        - rewrite !(dget_dset Z_decides). now destruct (p =? q)%Z. }
      rewrite E. destruct (p =? q)%Z eqn:Ep.
      + apply Z.eqb_eq in Ep. split.
        * intros Er. inversion Er; subst. exists (List.length reps). rewrite nth_error_app2 by lia.
          rewrite Nat.sub_diag. auto.
        * intros (i & En & Pi). unfold q in Ep. rewrite Pi in Ep. apply prime_inj in Ep; [|lia|lia]. inversion Ep; subst i.
          rewrite nth_error_app2, Nat.sub_diag in En by lia. exact En.
      + rewrite (IH V). split; intros (i & En & Pi); exists i; (split; [|exact Pi]).
        * rewrite nth_error_app1; auto. apply nth_error_Some. congruence.
        * destruct (Nat.lt_ge_cases i (List.length reps)) as [L|L]; [now rewrite nth_error_app1 in En|].
          exfalso. assert (i < List.length (reps ++ [r])) by (apply nth_error_Some; congruence).
          rewrite app_length in *. cbn [List.length] in *. apply Z.eqb_neq in Ep. apply Ep. rewrite Pi. unfold q. f_equal. lia.
  Qed.
End Table.

(** ** Initialisation *)

Section Init.
  Context (enum : list str -> list str) (Henum : set_order enum).

  Definition all_fields (data : list (str * list lazy)) : list str :=
    flat_map (fun kv => flat_map (quantum_numbers enum) (snd kv)) data.
  Definition all_terms (data : list (str * list lazy)) : list (list str) :=
    flat_map (fun kv => flat_map lz_terms (snd kv)) (sort_data data).

  Lemma all_fields_In data x :
    In x (all_fields data) <-> exists k m, model_of data k m /\ In x (quantum_numbers enum m).
  Proof using Type.
    unfold all_fields. rewrite in_flat_map. split.
    - intros ([k v] & I & I2). apply in_flat_map in I2 as (m & Im & Ix). exists k, m. split; auto. exists v. auto.
    - intros (k & m & (v & I & Im) & Ix). exists (k, v). split; auto. apply in_flat_map. eauto.
  Qed.

  Lemma model_of_sort data k m : model_of (sort_data data) k m <-> exists m0, model_of data k m0 /\ m = sort_terms m0.
  Proof using Type.
    unfold model_of, sort_data. split.
    - intros (v & I & Im). apply in_map_iff in I as ([k1 v1] & E & I). cbn in E. inversion E; subst.
      apply in_map_iff in Im as (m0 & <- & Im). exists m0. split; auto. exists v1. auto.
    - intros (m0 & (v & I & Im) & ->). exists (map sort_terms v). split; [|now apply in_map].
      apply in_map_iff. exists (k, v). auto.
  Qed.

  Lemma all_terms_In data x :
    In x (all_terms data) <-> exists k m t, model_of data k m /\ In t (lz_terms m) /\ x = sorted_str t.
  Proof using Type.
    unfold all_terms. rewrite in_flat_map. split.
    - intros ([k v] & I & I2). apply in_flat_map in I2 as (m & Im & Ix).
      assert (Hm : model_of (sort_data data) k m) by (exists v; auto). apply model_of_sort in Hm as (m0 & Hm & ->).
      cbn in Ix. apply in_map_iff in Ix as (t & <- & It). eauto 6.
    - intros (k & m & t & Hm & It & ->).
      assert (Hs : model_of (sort_data data) k (sort_terms m)) by (apply model_of_sort; eauto).
      destruct Hs as (v & I & Im). exists (k, v). split; auto. apply in_flat_map. exists (sort_terms m). split; auto.
      cbn. now apply in_map.
  Qed.

  Lemma all_fields_valid data : data_ok data -> Forall field_string (all_fields data).
  Proof using Henum.
    intros Hd. apply Forall_forall. intros x I. apply all_fields_In in I as (k & m & Hm & Ix).
    destruct (Hd k m Hm) as (F & _). rewrite Forall_forall in F. apply F. now apply (proj2 (Henum _)).
  Qed.

  Lemma all_terms_valid data : data_ok data -> Forall valid_key (all_terms data).
  Proof using Type.
    intros Hd. apply Forall_forall. intros x I. apply all_terms_In in I as (k & m & t & Hm & It & ->).
    destruct (Hd k m Hm) as (_ & F). rewrite Forall_forall in F. apply sorted_valid. auto.
  Qed.

  Lemma exotic_fold data :
    exotic_prime_dict enum data = do st <- foldM (class_step str_eqb conjugate_field) (all_fields data) ([], 1); Ok (fst st).
  Proof using Type.
    unfold exotic_prime_dict, all_fields. f_equal. rewrite <- foldM_flat_map. apply foldM_ext_in. intros st kv _.
    apply foldM_flat_map.
  Qed.

  Lemma term_fold data :
    term_prime_dict data = do st <- foldM (class_step term_eqb conjugate_term) (all_terms data) ([], 1); Ok (fst st).
  Proof using Type.
    unfold term_prime_dict, all_terms. f_equal. rewrite <- foldM_flat_map. apply foldM_ext_in. intros st kv _.
    apply foldM_flat_map.
  Qed.

  Lemma new_db_ok files ph cr data src :
    src = match data with None => load files | Some x => x end -> data_ok src ->
    exists d ex te, new_db enum files ph cr data = Ok d /\
      d = mkDb ph cr (sort_data src) (match data with None => None | Some _ => Some true end) ex te None [] /\
      good_labels str_eqb conjugate_field field_string (all_fields src) ex /\
      good_labels term_eqb conjugate_term valid_key (all_terms src) te /\
      ex = table str_eqb conjugate_field 1 (keep_first (class_eqb str_eqb conjugate_field) [] (all_fields src)) /\
      te = table term_eqb conjugate_term 1 (keep_first (class_eqb term_eqb conjugate_term) [] (all_terms src)).
  Proof using Henum.
    intros -> Hd.
    set (src := match data with None => load files | Some x => x end) in *.
    pose proof (all_fields_valid src Hd) as Vf. pose proof (all_terms_valid src Hd) as Vt.
    destruct (class_labels str_eqb str_decides conjugate_field field_string field_string_conj (all_fields src) Vf)
      as (ex & c1 & E1 & G1).
    destruct (class_labels term_eqb term_eqb_decides conjugate_term valid_key valid_key_conj (all_terms src) Vt)
      as (te & c2 & E2 & G2).
    pose proof (class_fold_exact str_eqb str_decides conjugate_field field_string field_string_conj
                  (all_fields src) [] Vf (Forall_nil _)) as X1. cbn [table List.length] in X1.
    pose proof (class_fold_exact term_eqb term_eqb_decides conjugate_term valid_key valid_key_conj
                  (all_terms src) [] Vt (Forall_nil _)) as X2. cbn [table List.length] in X2.
    rewrite E1 in X1. rewrite E2 in X2. inversion X1. inversion X2.
    eexists _, ex, te. split; [|split; [reflexivity|]].
    - unfold new_db. destruct data as [x|].
      + rewrite exotic_fold, term_fold. fold src. subst src. rewrite E1, E2. reflexivity.
      + rewrite exotic_fold, term_fold. fold src. subst src. rewrite E1, E2. reflexivity.
    - split; [exact G1|]. split; [exact G2|]. split; reflexivity || assumption.
  Qed.

  Lemma democratic_ok src d m :
    data_ok src -> good_labels str_eqb conjugate_field field_string (all_fields src) (d_exotics d) ->
    (forall x, In x (quantum_numbers enum m) -> In x (all_fields src)) ->
    democratic_model_number enum d m = Ok (Zprod (map (label_of str_eqb (d_exotics d)) (quantum_numbers enum m))).
  Proof using Henum.
    intros Hd (Dom & _) Hin. unfold democratic_model_number.
    rewrite (foldM_ext_in _ (fun prod t => do k <- Ok t; do p <- dgetM str_eqb (d_exotics d) k; Ok (prod * p)%Z))
      by reflexivity.
    rewrite (product_fold str_eqb (d_exotics d) (fun t => Ok t) (fun t => t)); [f_equal; apply Z.mul_1_l|auto|].
    intros x Ix. apply Dom.
    - pose proof (all_fields_valid src Hd) as V. rewrite Forall_forall in V. auto.
    - exists x. split; [auto|left; reflexivity].
  Qed.

  Lemma stringent_ok src d m :
    data_ok src -> good_labels term_eqb conjugate_term valid_key (all_terms src) (d_term_primes d) ->
    (forall x, In x (lz_terms m) -> In x (all_terms src)) ->
    stringent_model_number d m = Ok (Zprod (map (label_of term_eqb (d_term_primes d)) (lz_terms m))).
  Proof using Henum.
    intros Hd (Dom & _) Hin. unfold stringent_model_number.
    rewrite (foldM_ext_in _ (fun prod t => do k <- Ok t; do p <- dgetM term_eqb (d_term_primes d) k; Ok (prod * p)%Z))
      by reflexivity.
    rewrite (product_fold term_eqb (d_term_primes d) (fun t => Ok t) (fun t => t)); [f_equal; apply Z.mul_1_l|auto|].
    intros x Ix. apply Dom.
    - pose proof (all_terms_valid src Hd) as V. rewrite Forall_forall in V. auto.
    - exists x. split; [auto|left; reflexivity].
  Qed.

  Lemma labels_pos {K} (eqb : K -> K -> bool) conj valid ks d l :
    good_labels eqb conj valid ks d -> (forall x, In x l -> dmem eqb d x = true) ->
    (1 <= Zprod (map (label_of eqb d) l))%Z.
  Proof using Type.
    intros (_ & Pr & _) Hl. assert (P : Forall prime (map (label_of eqb d) l)).
    { rewrite Forall_map, Forall_forall. intros x Ix. specialize (Hl x Ix). unfold label_of, dmem in *.
      destruct (dget eqb d x) as [p|] eqn:E; [|discriminate]. now apply (Pr x). }
    pose proof (Zprod_pos _ P). lia.
  Qed.
End Init.

Lemma contains_upto_impl {A} (R1 R2 : A -> A -> Prop) big small :
  (forall x y, In x small -> In y big -> R1 x y -> R2 x y) -> contains_upto R1 big small -> contains_upto R2 big small.
Proof.
  intros Hi (s' & F2 & C). exists s'. split; auto.
  assert (Hb : forall y, In y s' -> In y big) by (intros y Iy; eapply contains_In; eauto).
  clear C. induction F2 as [|x y a a' Hxy F2 IH]; constructor.
  - apply Hi; auto; [left; reflexivity|apply Hb; left; reflexivity].
  - apply IH; intros; [apply Hi; auto; right; auto|apply Hb; right; auto].
Qed.

(** ** remove_equivalent_models *)

Lemma keep_first_map {A B} (f : A -> B) (eqa : A -> A -> bool) (eqb : B -> B -> bool) :
  (forall x y, eqb (f x) (f y) = eqa x y) ->
  forall l kept, keep_first eqb (map f kept) (map f l) = map f (keep_first eqa kept l).
Proof.
  intros Hf. induction l as [|x l IH]; intros kept; [reflexivity|]. cbn.
  replace (existsb (fun y => eqb y (f x)) (map f kept)) with (existsb (fun y => eqa y x) kept).
  2:{ clear -Hf. induction kept; cbn; [reflexivity|]. now rewrite IHkept, Hf. }
  destruct (existsb (fun y => eqa y x) kept); [apply IH|]. cbn. f_equal. rewrite <- IH. now rewrite map_app.
Qed.

Lemma remove_equivalent_with_ok numR num data :
  NoDup (keys data) -> (forall k m, model_of data k m -> numR m = Ok (num m)) ->
  remove_equivalent_with numR data
  = Ok (map (fun kv => (fst kv, keep_first (fun x y => (num x =? num y)%Z) [] (snd kv))) data).
Proof.
  intros ND Hn. unfold remove_equivalent_with.
  apply (fold_update str_eqb str_decides _ (fun kv => keep_first (fun x y => (num x =? num y)%Z) [] (snd kv))); auto.
  intros out [k v] I. left. cbn [fst snd].
  assert (E : numbered numR v = Ok (map (fun m => (m, num m)) v)).
  { unfold numbered. assert (Hv : forall m, In m v -> numR m = Ok (num m)) by (intros m Im; apply (Hn k); exists v; auto).
    clear -Hv. induction v as [|m v IH]; [reflexivity|]. cbn. rewrite (Hv m) by (left; reflexivity). cbn.
    rewrite IH by (intros; apply Hv; now right). reflexivity. }
  rewrite E. cbn [bind]. rewrite remove_equivalent_nopop_ok. cbn [bind]. do 2 f_equal.
  pose proof (keep_first_map (fun m => (m, num m)) (fun x y => (num x =? num y)%Z)
             (fun x y => (snd x =? snd y)%Z) (fun _ _ => eq_refl) v []) as KM.
  change (map (fun m => (m, num m)) []) with (@nil (lazy * Z)) in KM. rewrite KM.
  generalize (keep_first (fun x y => (num x =? num y)%Z) [] v) as w. clear.
  induction w as [|m w IH]; [reflexivity|]. cbn [map flat_map app]. f_equal. exact IH.
Qed.

Lemma keep_first_num_In (num : lazy -> Z) l : forall kept m, In m l -> 
  exists m', (In m' kept \/ In m' (keep_first (fun x y => (num x =? num y)%Z) kept l)) /\ num m' = num m.
Proof.
  induction l as [|x l IH]; intros kept m I; [destruct I|]. cbn [keep_first]. destruct I as [->|I].
  - destruct (existsb (fun y => (num y =? num m)%Z) kept) eqn:E.
    + apply existsb_exists in E as (y & Iy & Ey). apply Z.eqb_eq in Ey. eauto.
    + exists m. split; [right; left|]; reflexivity.
  - destruct (existsb (fun y => (num y =? num x)%Z) kept) eqn:E.
    + destruct (IH kept m I) as (m' & [A|A] & B); eauto.
    + destruct (IH (kept ++ [x]) m I) as (m' & [A|A] & B).
      * apply in_app_iff in A as [A|[<-|[]]]; [eauto|]. exists x. split; [right; left; reflexivity|auto].
      * exists m'. split; [right; right; exact A|auto].
Qed.

Lemma keep_first_sublist {A} (eq : A -> A -> bool) l kept : sublist (keep_first eq kept l) l.
Proof.
  revert kept. induction l as [|x l IH]; intros kept; cbn; [constructor|].
  destruct (existsb (fun y => eq y x) kept); [apply sub_skip|apply sub_keep]; apply IH.
Qed.

(** ** Orders *)

Lemma StronglySorted_app {A} (R : A -> A -> Prop) a b :
  StronglySorted R a -> StronglySorted R b -> (forall x y, In x a -> In y b -> R x y) -> StronglySorted R (a ++ b).
Proof.
  induction a as [|x a IH]; intros Sa Sb Hr; cbn; auto. inversion Sa as [|? ? S F]; subst. constructor.
  - apply IH; auto. intros; apply Hr; auto. now right.
  - rewrite Forall_forall in *. intros y Iy. apply in_app_iff in Iy as [Iy|Iy]; [auto|]. apply Hr; auto. now left.
Qed.

Lemma StronglySorted_rev {A} (R : A -> A -> Prop) l :
  StronglySorted R l -> StronglySorted (fun x y => R y x) (rev l).
Proof.
  induction 1 as [|x l S IH F]; cbn; [constructor|]. apply StronglySorted_app; auto.
  - repeat constructor.
  - intros y z Iy [<-|[]]. apply in_rev in Iy. rewrite Forall_forall in F. auto.
Qed.

Lemma StronglySorted_map {A B} (f : A -> B) (R : B -> B -> Prop) l :
  StronglySorted (fun x y => R (f x) (f y)) l -> StronglySorted R (map f l).
Proof.
  induction 1 as [|x l S IH F]; cbn; constructor; auto. now rewrite Forall_map.
Qed.

Lemma mapM_get {V} (data : list (str * V)) {W} (l : list (str * W)) :
  NoDup (keys data) -> (forall k w, In (k, w) l -> dmem str_eqb data k = true) ->
  exists x, mapM (fun kv => do v <- dgetM str_eqb data (fst kv); Ok (fst kv, v)) l = Ok x /\
    keys x = keys l /\ (forall k v, In (k, v) x <-> In (k, v) data /\ In k (keys l)).
Proof.
  intros ND. induction l as [|[k w] l IH]; intros Hl; cbn [mapM].
  - exists []. split; [reflexivity|]. split; [reflexivity|]. cbn. tauto.
  - destruct IH as (x & E & Ek & Hx); [intros; eapply Hl; right; eauto|].
    assert (M : dmem str_eqb data k = true) by (apply (Hl k w); left; reflexivity).
    cbn [fst]. unfold dgetM, dmem in *. destruct (dget str_eqb data k) as [v|] eqn:Ev; [|discriminate]. cbn [bind].
    unfold dgetM in E. rewrite E. cbn [bind]. exists ((k, v) :: x). split; [reflexivity|].
    split; [unfold keys in *; cbn [map fst]; now rewrite Ek|].
    intros k1 v1. cbn [keys map In fst]. fold (keys l). rewrite Hx. split.
    + intros [Q|(A & B)]; [|tauto]. inversion Q; subst. split; auto. now apply (dget_In str_decides).
    + intros (A & [<-|B]); [|tauto]. left. apply (In_dget str_decides) in A; auto. congruence.
Qed.

Definition is_max (s : Qc) (l : list Qc) : Prop := In s l /\ forall y, In y l -> (y <= s)%Qc.

Lemma fold_max l : forall x,
  let m := fold_left (fun m y => if Qc_geb m y then m else y) l x in is_max m (x :: l).
Proof.
  induction l as [|y l IH]; intros x; cbn [fold_left].
  - split; [left; reflexivity|]. intros z [<-|[]]. apply Qcle_refl.
  - cbv zeta. destruct (Qc_geb x y) eqn:E.
    + destruct (IH x) as (I & M). split; [destruct I as [I|I]; [left; exact I|right; right; exact I]|].
      intros z [<-|[<-|Iz]]; [apply M; left; reflexivity| |apply M; right; exact Iz].
      apply Qc_geb_iff in E. eapply Qcle_trans; [exact E|]. apply M. left. reflexivity.
    + destruct (IH y) as (I & M). split; [right; exact I|].
      intros z [<-|Iz]; [|apply M; exact Iz]. apply Qc_geb_false in E. apply Qclt_le_weak in E.
      eapply Qcle_trans; [exact E|]. apply M. left. reflexivity.
Qed.

Lemma max_scale_ok l : l <> [] -> exists s, max_scale l = Ok s /\ is_max s l.
Proof.
  destruct l as [|x l]; [congruence|]. intros _. eexists. split; [reflexivity|]. apply fold_max.
Qed.

Lemma is_max_unique s t l : is_max s l -> is_max t l -> s = t.
Proof. intros (A & B) (C & D). apply Qcle_antisym; auto. Qed.

Lemma order_by_mass_ok estimates (d : db) :
  NoDup (keys (d_data d)) -> NoDup (keys estimates) -> (forall k es, In (k, es) estimates -> es <> []) ->
  exists sc x,
    order_by_mass estimates d
    = Ok (mkDb (d_philosophy d) (d_criterion d) x (Some true) (d_exotics d) (d_term_primes d) (Some sc) (d_filter_data d)) /\
    keys x = keys sc /\ NoDup (keys x) /\
    StronglySorted (fun a b => (b <= a)%Qc) (values sc) /\
    (forall k s, In (k, s) sc <-> In k (keys (d_data d)) /\ exists es, In (k, es) estimates /\ is_max s es) /\
    (forall k v, In (k, v) x <-> In (k, v) (d_data d) /\ In k (keys estimates)).
Proof.
  intros ND NE Hne. unfold order_by_mass.
  set (sel := filter (fun kv => dmem str_eqb (d_data d) (fst kv)) estimates).
  assert (S : exists scales, mapM (fun kv => do s <- max_scale (snd kv); Ok (fst kv, s)) sel = Ok scales /\
              keys scales = keys sel /\
              forall k s, In (k, s) scales <-> exists es, In (k, es) sel /\ is_max s es).
  { assert (Hs : forall k es, In (k, es) sel -> es <> []) by (intros k es I; apply filter_In in I as (I & _); eauto).
    assert (NS : NoDup (keys sel)) by (apply (sublist_NoDup (sublist_map fst (sublist_filter _ _)) NE)).
    clearbody sel. clear -Hs NS. induction sel as [|[k es] sel IH].
    - exists []. split; [reflexivity|]. split; [reflexivity|]. intros k s. split; [intros []|intros (es & [] & _)].
    - inversion NS as [|? ? Nk NS']; subst.
      destruct IH as (sc & E & Ek & Hsc); [intros; eapply Hs; right; eauto|exact NS'|].
      destruct (max_scale_ok es) as (s & Es & Ms); [apply (Hs k); left; reflexivity|].
      exists ((k, s) :: sc). cbn [mapM fst snd]. rewrite Es. cbn [bind]. rewrite E. cbn [bind].
      split; [reflexivity|]. split; [unfold keys in *; cbn [map fst]; now rewrite Ek|].
      intros k1 s1. cbn [In]. rewrite Hsc. split.
      + intros [Q|(es1 & I1 & M1)]; [inversion Q; subst; eauto|eauto].
      + intros (es1 & [Q|I1] & M1); [|eauto]. inversion Q; subst. left. f_equal. eapply is_max_unique; eauto. }
  destruct S as (scales & E & Ek & Hsc). rewrite E. cbn [bind].
  set (sc := rev (sort (fun a b => Qc_geb (snd b) (snd a)) scales)).
  assert (Psc : Permutation scales sc).
  { unfold sc. rewrite <- Permutation_rev. apply sort_perm. }
  assert (Isc : forall ks, In ks sc <-> In ks scales).
  { intros ks. split; apply Permutation_in; [now symmetry|auto]. }
  assert (NS : NoDup (keys sc)).
  { apply Permutation_NoDup with (keys scales); [apply Permutation_map, Psc|]. rewrite Ek.
    apply (sublist_NoDup (sublist_map fst (sublist_filter _ _)) NE). }
  assert (Sel : forall k es, In (k, es) sel <-> In (k, es) estimates /\ In k (keys (d_data d))).
  { intros k es. unfold sel. rewrite filter_In. cbn [fst]. now rewrite (dmem_In str_decides). }
  destruct (mapM_get (d_data d) sc ND) as (x & Ex & Kx & Hx).
  { intros k w I. apply Isc, Hsc in I as (es & I & _). apply Sel in I as (_ & I). now apply (dmem_In str_decides). }
  fold sc. rewrite Ex. cbn [bind]. exists sc, x. split; [reflexivity|]. split; [exact Kx|]. split; [now rewrite Kx|].
  split; [|split].
  - unfold values. apply StronglySorted_map with (R := fun a b => (b <= a)%Qc).
    unfold sc. apply (StronglySorted_rev (fun a b : str * Qc => (snd a <= snd b)%Qc)).
    assert (SS := sort_sorted (fun a b : str * Qc => Qc_geb (snd b) (snd a))).
    assert (T : forall a b : str * Qc, Qc_geb (snd b) (snd a) = true \/ Qc_geb (snd a) (snd b) = true).
    { intros a b. rewrite !Qc_geb_iff. destruct (Qclt_le_dec (snd b) (snd a)) as [L|L]; [right; now apply Qclt_le_weak|auto]. }
    assert (Tr : forall a b c : str * Qc, Qc_geb (snd b) (snd a) = true -> Qc_geb (snd c) (snd b) = true ->
                   Qc_geb (snd c) (snd a) = true).
    { intros a b c. rewrite !Qc_geb_iff. intros A B. eapply Qcle_trans; eauto. }
    specialize (SS T Tr scales). clear -SS.
    induction SS as [|a l S IH F]; constructor; auto. eapply Forall_impl; [|exact F]. intros b. apply Qc_geb_iff.
  - intros k s. rewrite Isc, Hsc. split.
    + intros (es & I & M). apply Sel in I as (I & K). eauto.
    + intros (K & es & I & M). exists es. split; [apply Sel; auto|exact M].
  - intros k v. rewrite Hx. split; intros (A & B); (split; [exact A|]).
    + apply in_map_iff in B as ([k1 s] & Q & B). cbn in Q. subst k1. apply Isc, Hsc in B as (es & B & _).
      apply Sel in B as (B & _). apply in_map_iff. exists (k, es). auto.
    + apply in_map_iff in B as ([k1 es] & Q & B). cbn in Q. subst k1.
      destruct (max_scale_ok es) as (s & _ & Ms); [eauto|].
      apply in_map_iff. exists (k, s). split; [reflexivity|]. apply Isc, Hsc. exists es. split; [|exact Ms].
      apply Sel. split; [exact B|]. apply in_map_iff. exists (k, v). auto.
Qed.

Lemma order_by_dimension_ok dims (d : db) :
  (forall k, In k (keys (d_data d)) -> dmem str_eqb dims k = true) ->
  exists x,
    order_by_dimension dims d
    = Ok (mkDb (d_philosophy d) (d_criterion d) x (Some true) (d_exotics d) (d_term_primes d) (d_scales d) (d_filter_data d)) /\
    Permutation (d_data d) x /\
    StronglySorted (fun a b => (dim dims (fst a) <= dim dims (fst b))%Z) x /\
    (forall n, filter (fun kv => (dim dims (fst kv) =? n)%Z) x = filter (fun kv => (dim dims (fst kv) =? n)%Z) (d_data d)).
Proof.
  intros Hall. unfold order_by_dimension.
  assert (E : mapM (fun kv => do m <- dgetM str_eqb dims (fst kv); Ok (m, kv)) (d_data d)
              = Ok (map (fun kv => (dim dims (fst kv), kv)) (d_data d))).
  { assert (G : forall l : list (str * list lazy), (forall kv, In kv l -> dmem str_eqb dims (fst kv) = true) ->
              mapM (fun kv => do m <- dgetM str_eqb dims (fst kv); Ok (m, kv)) l = Ok (map (fun kv => (dim dims (fst kv), kv)) l)).
    { induction l as [|kv l IH]; intros Hl; [reflexivity|]. cbn [mapM map].
      assert (M := Hl kv (or_introl eq_refl)). unfold dgetM, dmem, dim in *.
      destruct (dget str_eqb dims (fst kv)); [|discriminate]. cbn [bind]. rewrite IH by (intros; apply Hl; now right).
      reflexivity. }
    apply G. intros [k v] I. apply Hall. apply in_map_iff. exists (k, v). auto. }
  rewrite E. cbn [bind]. set (keyed := map (fun kv => (dim dims (fst kv), kv)) (d_data d)).
  set (dle := fun a b : Z * (str * list lazy) => (fst a <=? fst b)%Z).
  exists (map snd (sort dle keyed)). split; [reflexivity|].
  assert (Ps : map snd keyed = d_data d) by (unfold keyed; rewrite map_map; cbn; now rewrite map_id).
  assert (Hk : forall z, In z (sort dle keyed) -> fst z = dim dims (fst (snd z))).
  { intros z I. apply sort_In in I. unfold keyed in I. apply in_map_iff in I as (kv & <- & _). reflexivity. }
  split; [|split].
  - rewrite <- Ps at 1. apply Permutation_map, sort_perm.
  - apply StronglySorted_map.
    assert (SS : StronglySorted (fun x y => dle x y = true) (sort dle keyed)).
    { apply sort_sorted; unfold dle; intros; rewrite !Z.leb_le in *; lia. }
    revert Hk SS. generalize (sort dle keyed) as l. induction l as [|z l IH]; intros Hk SS; constructor;
      inversion SS as [|? ? S F]; subst.
    + apply IH; auto. intros; apply Hk; now right.
    + rewrite Forall_forall in *. intros y Iy. specialize (F y Iy). unfold dle in F. apply Z.leb_le in F.
      rewrite (Hk z), (Hk y) in F by (simpl; auto). exact F.
  - intros n.
    assert (FM : forall l : list (Z * (str * list lazy)), (forall z, In z l -> fst z = dim dims (fst (snd z))) ->
               filter (fun kv => (dim dims (fst kv) =? n)%Z) (map snd l) = map snd (filter (fun z => (fst z =? n)%Z) l)).
    { induction l as [|z l IH]; intros Hl; [reflexivity|]. cbn. rewrite IH by (intros; apply Hl; now right).
      rewrite (Hl z) by (left; reflexivity). now destruct (dim dims (fst (snd z)) =? n)%Z. }
    rewrite FM by exact Hk. rewrite <- Ps at 1. rewrite FM.
    2:{ intros z I. unfold keyed in I. apply in_map_iff in I as (kv & <- & _). reflexivity. }
    f_equal. apply sort_stable. unfold dle. intros a b A B. apply Z.eqb_eq in A, B. apply Z.leb_le. lia.
Qed.

(** ** Files *)

Lemma read_completions_get file k :
  dget str_eqb (read_completions file) k
  = match filter (fun c => str_eqb (lz_operator c) k) file with [] => None | l => Some l end.
Proof.
  unfold read_completions.
  induction file as [|c file IH] using rev_ind; [reflexivity|].
  rewrite fold_left_app. cbn [fold_left]. rewrite (dget_dset str_decides), filter_app. cbn [filter].
  destruct (str_eqb k (lz_operator c)) eqn:E.
  - apply str_decides in E. subst k. rewrite (decides_refl str_decides). rewrite IH.
    destruct (filter (fun c0 => str_eqb (lz_operator c0) (lz_operator c)) file); reflexivity.
  - rewrite IH. replace (str_eqb (lz_operator c) k) with false.
    + now rewrite app_nil_r.
    + symmetry. apply (decides_neq str_decides). intros Q. subst. rewrite (decides_refl str_decides) in E. discriminate.
Qed.

Lemma read_completions_NoDup file : NoDup (keys (read_completions file)).
Proof.
  unfold read_completions. induction file as [|c file IH] using rev_ind; [constructor|].
  rewrite fold_left_app. cbn [fold_left]. now apply (NoDup_keys_dset str_decides).
Qed.

Lemma load_snoc files f : load (files ++ [f]) = dupdate str_eqb (load files) (read_completions f).
Proof.
  unfold load. rewrite map_app, fold_left_app. cbn. reflexivity.
Qed.

Lemma load_NoDup files : NoDup (keys (load files)).
Proof.
  induction files as [|f files IH] using rev_ind; [constructor|]. rewrite load_snoc.
  now apply (NoDup_keys_dupdate str_decides).
Qed.
