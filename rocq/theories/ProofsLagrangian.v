(** * ProofsLagrangian: rows of terms *)

From Coq Require Import Ascii String List Bool Arith ZArith QArith Qcanon Lia.
From Verif Require Import Base BaseFacts Spec Show ModelFunctions ModelIndex SpecIndex ModelField SpecField ProofsField ModelContract ModelPartition ModelExotic
  ModelLagrangian SpecLagrangian.
Import ListNotations.
Local Open Scope nat_scope.

(** ** Keys *)

Lemma alike_refl f : alike f f. Proof. split; reflexivity. Qed.
Lemma alike_sym f g : alike f g -> alike g f. Proof. intros [A B]. split; congruence. Qed.
Lemma alike_trans f g h : alike f g -> alike g h -> alike f h. Proof. intros [A B] [C D]. split; congruence. Qed.

Ltac open_alike H := let A := fresh in let B := fresh in destruct H as [A B]; unfold hash_data in A; injection A as ? ? ? ? ? ? ? ?.

Lemma alike_eqb_l f f' g : alike f f' -> field_eqb f g = field_eqb f' g.
Proof. intros H. unfold field_eqb. open_alike H. congruence. Qed.

Lemma alike_eqb_r f g g' : alike g g' -> field_eqb f g = field_eqb f g'.
Proof. intros H. unfold field_eqb. open_alike H. congruence. Qed.

Lemma alike_conj f g : alike f g -> f_is_conj f = f_is_conj g.
Proof. intros H. open_alike H. assumption. Qed.

Lemma alike_dictionary f g : alike f g -> dictionary f -> dictionary g.
Proof. intros H [A B]. open_alike H. split; [congruence|]. intros s E. apply B. congruence. Qed.

Lemma Qc_decides : decides Qc_eq_bool.
Proof.
  intros x y. unfold Qc_eq_bool. destruct (Qc_eq_dec x y); split; congruence.
Qed.

Lemma hash_eqb_iff f g : hash_eqb f g = true <-> hash_data f = hash_data g.
Proof.
  unfold hash_eqb, hash_data. rewrite !andb_true_iff.
  assert (C : decides charges_same) by (apply list_decides, prod_decides; [exact str_decides|exact Qc_decides]).
  rewrite (str_decides (f_label f)), (str_decides (f_dynkin f)), (str_decides (f_comm f)), Bool.eqb_true_iff, !Nat.eqb_eq, (symmetry_decides _ _), (C _ _).
  intuition congruence.
Qed.

Lemma key_l f f' g : alike f f' -> key_eqb f g = key_eqb f' g.
Proof.
  intros H. unfold key_eqb. rewrite (alike_eqb_l f f' g H). f_equal. apply eq_true_iff_eq. rewrite !hash_eqb_iff.
  destruct H as [H _]. now rewrite H.
Qed.

Lemma eqb_refl f : dictionary f -> field_eqb f f = true.
Proof. intros [A B]. now apply field_eqb_refl. Qed.

Lemma key_refl f : dictionary f -> key_eqb f f = true.
Proof. intros D. unfold key_eqb. rewrite (eqb_refl f D), andb_true_r. now apply hash_eqb_iff. Qed.

Lemma key_sub f g : field_eqb f g = false -> key_eqb f g = false.
Proof. intros E. unfold key_eqb. rewrite E. apply andb_false_r. Qed.

(** ** Counting *)

(** the number of times that [counter] has seen keys *)
Definition weigh (g : field -> Z) (d : list (field * nat)) : Z := fold_right (fun fm s => (g (fst fm) * Z.of_nat (snd fm) + s)%Z) 0%Z d.
Definition sumZ (g : field -> Z) (l : list field) : Z := fold_right (fun f s => (g f + s)%Z) 0%Z l.

Lemma weigh_step g d f : (forall f', In f' (map fst d) -> key_eqb f f' = true -> g f = g f') ->
  weigh g (dset key_eqb d f (S (match dget key_eqb d f with Some n => n | None => 0 end))) = (weigh g d + g f)%Z.
Proof.
  induction d as [|[f' n] d IH]; intros H; cbn [dget dset].
  - cbn [weigh fold_right fst snd]. lia.
  - destruct (key_eqb f f') eqn:K.
    + cbn [weigh fold_right fst snd]. rewrite (H f') by (cbn; auto). lia.
    + cbn [weigh fold_right fst snd]. fold (weigh g d). fold (weigh g (dset key_eqb d f (S (match dget key_eqb d f with Some n0 => n0 | None => 0 end)))).
      rewrite IH by (intros; apply H; cbn; auto). lia.
Qed.

Lemma keys_dset (d : list (field * nat)) f n : forall f', In f' (map fst (dset key_eqb d f n)) -> In f' (map fst d) \/ f' = f.
Proof.
  induction d as [|[g m] d IH]; cbn [dset]; intros f' I.
  - destruct I as [<-|[]]. now right.
  - destruct (key_eqb f g); cbn [map fst] in *; [left; exact I|]. destruct I as [<-|I]; [left; now left|]. destruct (IH f' I); [left; now right|now right].
Qed.

Lemma counter_ok g l : (forall f f', In f l -> In f' l -> key_eqb f f' = true -> g f = g f') ->
  weigh g (counter l) = sumZ g l /\ incl (map fst (counter l)) l.
Proof.
  unfold counter.
  assert (G : forall r d, (forall f f', In f r -> In f' (map fst d ++ r) -> key_eqb f f' = true -> g f = g f') ->
    let d' := fold_left (fun d f => dset key_eqb d f (S (match dget key_eqb d f with Some n => n | None => 0 end))) r d in
    weigh g d' = (weigh g d + sumZ g r)%Z /\ incl (map fst d') (map fst d ++ r)).
  { induction r as [|f r IH]; intros d H; cbn [fold_left].
    - cbn. rewrite app_nil_r. split; [lia|apply incl_refl].
    - edestruct (IH (dset key_eqb d f (S (match dget key_eqb d f with Some n => n | None => 0 end)))) as [W I].
      + intros x x' X X' K. apply H; [now right| |exact K]. apply in_app_iff in X' as [X'|X'].
        * apply keys_dset in X' as [X'| ->]; apply in_app_iff; [now left|right; now left].
        * apply in_app_iff. right. now right.
      + split.
        * rewrite W, weigh_step; [cbn [sumZ fold_right]; fold (sumZ g r); lia|]. intros f' F K. apply H; [now left| |exact K]. apply in_app_iff. now left.
        * intros x X. apply I in X. apply in_app_iff in X as [X|X].
          -- apply keys_dset in X as [X| ->]; apply in_app_iff; [now left|right; now left].
          -- apply in_app_iff. right. now right. }
  intros H. destruct (G l []) as [W I]; [intros f f' F F'; now apply H|]. split; [rewrite W; cbn; lia|exact I].
Qed.

(** ** Dictionaries of distinct keys *)

Lemma dset_fresh {V} (d : list (field * V)) k v : (forall k', In k' (map fst d) -> key_eqb k k' = false) -> dset key_eqb d k v = d ++ [(k, v)].
Proof.
  induction d as [|[k' v'] d IH]; intros H; [reflexivity|]. cbn [dset]. rewrite (H k') by (cbn; auto). cbn [app]. f_equal. apply IH. intros. apply H. cbn; auto.
Qed.

Lemma dupdate_fresh {V} (e : list (field * V)) : forall d, separate (map fst d ++ map fst e) -> dupdate key_eqb d e = d ++ e.
Proof.
  unfold dupdate. induction e as [|[k v] e IH]; intros d S; [now rewrite app_nil_r|]. cbn [fold_left fst snd].
  rewrite dset_fresh.
  - rewrite IH; [now rewrite <- app_assoc|]. rewrite map_app, <- app_assoc. exact S.
  - intros k' I. apply key_sub. apply In_nth_error in I as (i & I). cbn [map fst] in S.
    apply (S (List.length (map fst d)) i k k').
    + rewrite nth_error_app2, Nat.sub_diag by lia. reflexivity.
    + rewrite nth_error_app1; [exact I|]. apply nth_error_Some. congruence.
    + intros E. assert (i < List.length (map fst d)) by (apply nth_error_Some; congruence). lia.
Qed.

Lemma separate_app_l a b : separate (a ++ b) -> separate a.
Proof. intros S i j f g F G N. apply (S i j f g); auto; rewrite nth_error_app1; auto; apply nth_error_Some; congruence. Qed.

Lemma separate_app_r a b : separate (a ++ b) -> separate b.
Proof.
  intros S i j f g F G N. apply (S (List.length a + i) (List.length a + j) f g); try lia.
  - rewrite nth_error_app2 by lia. replace (List.length a + i - List.length a) with i by lia. exact F.
  - rewrite nth_error_app2 by lia. replace (List.length a + j - List.length a) with j by lia. exact G.
Qed.

Lemma separate_cross a b f g : separate (a ++ b) -> In f a -> In g b -> field_eqb f g = false /\ field_eqb g f = false.
Proof.
  intros S F G. apply In_nth_error in F as (i & F), G as (j & G).
  assert (Li : i < List.length a) by (apply nth_error_Some; congruence).
  assert (F' : nth_error (a ++ b) i = Some f) by (rewrite nth_error_app1; auto).
  assert (G' : nth_error (a ++ b) (List.length a + j) = Some g).
  { rewrite nth_error_app2 by lia. replace (List.length a + j - List.length a) with j by lia. exact G. }
  split; [apply (S i (List.length a + j))|apply (S (List.length a + j) i)]; auto; lia.
Qed.

Lemma map_fst_combine {A B} (l : list A) (m : list B) : List.length l = List.length m -> map fst (combine l m) = l.
Proof. revert m. induction l as [|a l IH]; intros [|b m] E; try discriminate; [reflexivity|]. cbn. f_equal. apply IH. now injection E. Qed.

Lemma fst_numbered (l : list field) : map fst (combine l (seq 0 (List.length l))) = l.
Proof. apply map_fst_combine. now rewrite seq_length. Qed.

Lemma index_dict_eq fs cs : separate (cs ++ fs) ->
  index_dict fs cs = combine cs (seq 0 (List.length cs)) ++ combine fs (seq 0 (List.length fs)).
Proof.
  intros S. unfold index_dict, dict_of.
  assert (N : forall l, separate l -> dupdate key_eqb [] (combine l (seq 0 (List.length l))) = combine l (seq 0 (List.length l))).
  { intros l Sl. apply (dupdate_fresh _ []). cbn [map app]. now rewrite fst_numbered. }
  rewrite (N cs (separate_app_l _ _ S)), (N fs (separate_app_r _ _ S)). apply dupdate_fresh. now rewrite !fst_numbered.
Qed.

Lemma dget_app {V} (d e : list (field * V)) k : dget key_eqb (d ++ e) k = match dget key_eqb d k with Some v => Some v | None => dget key_eqb e k end.
Proof. induction d as [|[k' v] d IH]; [reflexivity|]. cbn [app dget]. now destruct (key_eqb k k'). Qed.

Lemma dget_numbered_from f l : separate l -> Forall dictionary l -> forall j n g, nth_error l j = Some g -> alike f g ->
  dget key_eqb (combine l (seq n (List.length l))) f = Some (n + j).
Proof.
  induction l as [|k l IH]; intros S D j n g J A; [destruct j; discriminate|]. cbn [List.length seq combine dget].
  inversion D as [|? ? Dk D']; subst. rewrite (key_l f g k A). destruct j as [|j].
  - injection J as ->. rewrite (key_refl g Dk). f_equal. lia.
  - rewrite key_sub by (apply (S (Datatypes.S j) 0 g k); [exact J|reflexivity|lia]).
    rewrite (IH (separate_app_r [k] l S) D' j (Datatypes.S n) g J A). f_equal. lia.
Qed.

Lemma dget_absent f l : (forall k, In k l -> field_eqb f k = false) -> forall n, dget key_eqb (combine l (seq n (List.length l))) f = None.
Proof.
  induction l as [|k l IH]; intros H n; [reflexivity|]. cbn [List.length seq combine dget]. rewrite key_sub by (apply H; now left). apply IH. intros; apply H; now right.
Qed.

Lemma index_dict_plain fs cs f g j : separate (cs ++ fs) -> Forall dictionary (cs ++ fs) -> nth_error fs j = Some g -> alike f g ->
  dget key_eqb (index_dict fs cs) f = Some j.
Proof.
  intros S D J A. rewrite index_dict_eq, dget_app by exact S. rewrite dget_absent.
  - apply (dget_numbered_from f fs (separate_app_r _ _ S) (proj2 (proj1 (Forall_app _ _ _) D)) j 0 g J A).
  - intros k K. rewrite (alike_eqb_l f g k A). apply (separate_cross cs fs k g S K). now apply nth_error_In in J.
Qed.

Lemma index_dict_conj fs cs f g j : separate (cs ++ fs) -> Forall dictionary (cs ++ fs) -> nth_error cs j = Some g -> alike f g ->
  dget key_eqb (index_dict fs cs) f = Some j.
Proof.
  intros S D J A. rewrite index_dict_eq, dget_app by exact S.
  now rewrite (dget_numbered_from f cs (separate_app_l _ _ S) (proj1 (proj1 (Forall_app _ _ _) D)) j 0 g J A).
Qed.

Lemma index_dict_absent fs cs f : separate (cs ++ fs) -> (forall k, In k (cs ++ fs) -> field_eqb f k = false) -> dget key_eqb (index_dict fs cs) f = None.
Proof.
  intros S H. rewrite index_dict_eq, dget_app by exact S. rewrite !dget_absent; auto; intros k K; apply H, in_app_iff; auto.
Qed.

(** ** Rows *)

Lemma add_at_ok row : forall i x, i < List.length row -> exists row', add_at row i x = Ok row' /\ List.length row' = List.length row /\
  forall j, nth j row' 0%Z = (nth j row 0 + (if (j =? i)%nat then x else 0))%Z.
Proof.
  induction row as [|r row IH]; intros i x L; [cbn in L; lia|]. destruct i as [|i]; cbn [add_at].
  - eexists. split; [reflexivity|]. split; [reflexivity|]. intros [|j]; cbn; lia.
  - destruct (IH i x) as (row' & E & Ln & N); [cbn in L; lia|]. rewrite E. cbn [bind]. eexists. split; [reflexivity|]. split; [cbn; lia|].
    intros [|j]; cbn [nth Nat.eqb]; [lia|apply N].
Qed.

Lemma conj_field_flag f g : conj_field f = Ok g -> f_is_conj g = negb (f_is_conj f).
Proof.
  unfold conj_field, mk_field. destruct (lorentz_irrep f); [|discriminate]. destruct (colour_irrep f); [|discriminate]. destruct (isospin_irrep f); [|discriminate].
  cbn [bind]. destruct (negb (f_nf f =? 1) && negb (f_nf f =? 3)); [discriminate|]. now intros [= <-].
Qed.

Section Rows.
  Variables sm smc ex exc : list field.
  Hypothesis Csm : mapM conj_field sm = Ok smc.
  Hypothesis Cex : mapM conj_field ex = Ok exc.
  Hypothesis Six : List.length sm = 6.
  Hypothesis S : separate ((smc ++ sm) ++ (exc ++ ex)).
  Hypothesis D : Forall dictionary ((smc ++ sm) ++ (exc ++ ex)).

  Local Notation keys := ((smc ++ sm) ++ (exc ++ ex)).
  Local Notation known_key k := (In k keys).
  Local Notation known := (known keys).
  Local Notation stranger := (stranger keys).

  Definition step (row : list Z) (fm : field * nat) : res (list Z) :=
    let f := fst fm in
    let m := Z.of_nat (snd fm) in
    let m := if negb (f_is_conj f) then m else (- m)%Z in
    if is_in f (sm ++ smc) then do i <- dgetM key_eqb (index_dict sm smc) f; add_at row i m
    else do i <- dgetM key_eqb (index_dict ex exc) f; add_at row (6 + i) m.

  Lemma row_eq fields : term_to_row sm fields ex (index_dict ex exc) = foldM step (counter fields) (repeat 0%Z (List.length ex + 6)).
  Proof. unfold term_to_row. rewrite Csm. reflexivity. Qed.

  Lemma mapM_length {A B} (f : A -> res B) l : forall m, mapM f l = Ok m -> List.length m = List.length l.
  Proof.
    induction l as [|a l IH]; intros m; cbn [mapM]; [now intros [= <-]|]. destruct (f a); [|discriminate]. cbn [bind]. destruct (mapM f l); [|discriminate].
    intros [= <-]. cbn. f_equal. now apply IH.
  Qed.

  Lemma len_smc : List.length smc = 6. Proof. rewrite (mapM_length _ _ _ Csm). exact Six. Qed.
  Lemma len_exc : List.length exc = List.length ex. Proof. exact (mapM_length _ _ _ Cex). Qed.

  Lemma dic k : known_key k -> dictionary k. Proof. rewrite Forall_forall in D. apply D. Qed.

  (** the column of a known field *)
  Definition columns : list (field * field) := combine (sm ++ ex) (smc ++ exc).

  Lemma columns_length : List.length columns = List.length ex + 6.
  Proof. unfold columns. rewrite combine_length, !app_length, len_smc, len_exc, Six. lia. Qed.

  Lemma nth_combine {A B} (l : list A) (m : list B) j a b : nth_error l j = Some a -> nth_error m j = Some b -> nth_error (combine l m) j = Some (a, b).
  Proof. revert m j. induction l as [|x l IH]; intros [|y m] [|j] L M; try discriminate; [cbn in *; congruence|]. cbn in *. now apply IH. Qed.

  Lemma nth_combine_inv {A B} (l : list A) (m : list B) j p : nth_error (combine l m) j = Some p -> nth_error l j = Some (fst p) /\ nth_error m j = Some (snd p).
  Proof. revert m j. induction l as [|x l IH]; intros [|y m] [|j] L; try discriminate; [injection L as <-; split; reflexivity|]. cbn in *. now apply IH. Qed.

  Lemma columns_sm j g gc : nth_error sm j = Some g -> nth_error smc j = Some gc -> nth_error columns j = Some (g, gc).
  Proof.
    intros G C. apply nth_combine; rewrite nth_error_app1; auto; apply nth_error_Some; congruence.
  Qed.

  Lemma columns_ex j g gc : nth_error ex j = Some g -> nth_error exc j = Some gc -> nth_error columns (6 + j) = Some (g, gc).
  Proof.
    intros G C. apply nth_combine; rewrite nth_error_app2; rewrite ?Six, ?len_smc; try lia; replace (6 + j - 6) with j by lia; auto.
  Qed.

  Lemma other {A B} (l : list A) (m : list B) j a : List.length l = List.length m -> nth_error l j = Some a -> exists b, nth_error m j = Some b.
  Proof. intros E N. destruct (nth_error m j) eqn:M; [eauto|]. apply nth_error_None in M. assert (j < List.length l) by (apply nth_error_Some; congruence). lia. Qed.

  Lemma is_in_iff f l : is_in f l = true <-> exists k, In k l /\ field_eqb f k = true.
  Proof. unfold is_in. rewrite existsb_exists. reflexivity. Qed.

  Definition signed (f : field) (m : nat) : Z := if negb (f_is_conj f) then Z.of_nat m else (- Z.of_nat m)%Z.

  Lemma step_known f m row : known f -> exists j g gc, nth_error columns j = Some (g, gc) /\ (alike f g \/ alike f gc) /\
    step row (f, m) = add_at row j (signed f m).
  Proof.
    intros (k & K & A). unfold step. cbn [fst snd]. fold (signed f m). 
    pose proof (separate_app_l _ _ S) as S1. pose proof (separate_app_r _ _ S) as S2.
    pose proof (proj1 (Forall_app _ _ _) D) as [D1 D2]. apply in_app_iff in K as [K|K].
    - assert (I : is_in f (sm ++ smc) = true).
      { apply is_in_iff. exists k. split; [apply in_app_iff; apply in_app_iff in K; tauto|]. rewrite (alike_eqb_l f k k A). apply eqb_refl. rewrite Forall_forall in D1. auto. }
      rewrite I. apply in_app_iff in K as [K|K]; apply In_nth_error in K as (j & J); unfold dgetM.
      + rewrite (index_dict_conj sm smc f k j S1 D1 J A). destruct (other smc sm j k) as (g & G); [rewrite len_smc; auto|exact J|].
        exists j, g, k. split; [now apply columns_sm|]. auto.
      + rewrite (index_dict_plain sm smc f k j S1 D1 J A). destruct (other sm smc j k) as (g & G); [rewrite len_smc; auto|exact J|].
        exists j, k, g. split; [now apply columns_sm|]. auto.
    - assert (I : is_in f (sm ++ smc) = false).
      { destruct (is_in f (sm ++ smc)) eqn:Q; [|reflexivity]. apply is_in_iff in Q as (k' & K' & E). rewrite (alike_eqb_l f k k' A) in E.
        destruct (separate_cross _ _ k' k S) as [_ N]; [apply in_app_iff; apply in_app_iff in K'; tauto|exact K|]. congruence. }
      rewrite I. apply in_app_iff in K as [K|K]; apply In_nth_error in K as (j & J); unfold dgetM.
      + rewrite (index_dict_conj ex exc f k j S2 D2 J A). destruct (other exc ex j k) as (g & G); [apply len_exc|exact J|].
        exists (6 + j), g, k. split; [now apply columns_ex|]. auto.
      + rewrite (index_dict_plain ex exc f k j S2 D2 J A). destruct (other ex exc j k) as (g & G); [symmetry; apply len_exc|exact J|].
        exists (6 + j), k, g. split; [now apply columns_ex|]. auto.
  Qed.

  Lemma step_stranger f m row : stranger f -> step row (f, m) = Err KeyError.
  Proof.
    intros N. unfold step. cbn [fst snd].
    assert (I : is_in f (sm ++ smc) = false).
    { destruct (is_in f (sm ++ smc)) eqn:Q; [|reflexivity]. apply is_in_iff in Q as (k & K & E). rewrite N in E; [discriminate|].
      rewrite !in_app_iff in *. tauto. }
    rewrite I. unfold dgetM. rewrite index_dict_absent; [reflexivity|now apply separate_app_r in S|]. intros k K. apply N. apply in_app_iff. now right.
  Qed.

  (** two columns are different, and a field is not equal to its conjugate *)
  Lemma position l i j k k' : separate l -> Forall dictionary l -> nth_error l i = Some k -> nth_error l j = Some k' -> field_eqb k k' = true -> i = j.
  Proof. intros Sl Dl I J E. destruct (Nat.eq_dec i j) as [|N]; [assumption|]. rewrite (Sl i j k k' I J N) in E. discriminate. Qed.

  (** positions of the two fields of a column among the keys *)
  Definition place (c : bool) (j : nat) : nat := if j <? 6 then (if c then j else 6 + j) else (if c then 12 + (j - 6) else 12 + List.length ex + (j - 6)).

  Lemma place_ok j g gc : nth_error columns j = Some (g, gc) ->
    nth_error ((smc ++ sm) ++ exc ++ ex) (place false j) = Some g /\ nth_error ((smc ++ sm) ++ exc ++ ex) (place true j) = Some gc.
  Proof.
    intros C. apply nth_combine_inv in C as [G C]. cbn [fst snd] in G, C. unfold place. destruct (Nat.ltb_spec j 6) as [L|L].
    - rewrite nth_error_app1 in G, C by (rewrite ?Six, ?len_smc; lia). split.
      + rewrite nth_error_app1 by (rewrite app_length, Six, len_smc; lia). rewrite nth_error_app2 by (rewrite len_smc; lia). rewrite len_smc. replace (6 + j - 6) with j by lia. exact G.
      + rewrite nth_error_app1 by (rewrite app_length, Six, len_smc; lia). rewrite nth_error_app1 by (rewrite len_smc; lia). exact C.
    - rewrite nth_error_app2 in G, C by (rewrite ?Six, ?len_smc; lia). rewrite Six in G. rewrite len_smc in C.
      assert (L' : j - 6 < List.length ex) by (apply nth_error_Some; congruence). split.
      + rewrite nth_error_app2 by (rewrite app_length, Six, len_smc; lia). rewrite app_length, Six, len_smc. rewrite nth_error_app2 by (rewrite len_exc; lia).
        rewrite len_exc. replace (12 + List.length ex + (j - 6) - (6 + 6) - List.length ex) with (j - 6) by lia. exact G.
      + rewrite nth_error_app2 by (rewrite app_length, Six, len_smc; lia). rewrite app_length, Six, len_smc. rewrite nth_error_app1 by (rewrite len_exc; lia).
        replace (12 + (j - 6) - (6 + 6)) with (j - 6) by lia. exact C.
  Qed.

  Lemma place_inj b j b' j' : j < List.length ex + 6 -> j' < List.length ex + 6 -> place b j = place b' j' -> b = b' /\ j = j'.
  Proof.
    intros L L'. unfold place. destruct (Nat.ltb_spec j 6), (Nat.ltb_spec j' 6), b, b'; intros E; try lia; split; try reflexivity; lia.
  Qed.

  (** whether a field belongs to a column *)
  Definition belongs (f : field) (p : field * field) : bool := field_eqb f (fst p) || field_eqb f (snd p).

  Lemma belongs_iff f j g gc j' p : nth_error columns j = Some (g, gc) -> alike f g \/ alike f gc -> nth_error columns j' = Some p -> belongs f p = (j' =? j).
  Proof.
    intros C A P. destruct p as [h hc]. unfold belongs. cbn [fst snd]. destruct (place_ok _ _ _ C) as [Pg Pc]. destruct (place_ok _ _ _ P) as [Qg Qc].
    assert (Lj : j < List.length ex + 6) by (rewrite <- columns_length; apply nth_error_Some; congruence).
    assert (Lj' : j' < List.length ex + 6) by (rewrite <- columns_length; apply nth_error_Some; congruence).
    assert (Ex : exists b k, nth_error ((smc ++ sm) ++ exc ++ ex) (place b j) = Some k /\ alike f k /\ ((b = false /\ k = g) \/ (b = true /\ k = gc))).
    { destruct A as [A|A]; [exists false, g|exists true, gc]; auto 6. }
    destruct Ex as (b & k & Pk & Ak & W). rewrite !(alike_eqb_l f k _ Ak).
    destruct (Nat.eqb_spec j' j) as [->|N].
    - assert (Eh : h = g /\ hc = gc) by (split; congruence). destruct Eh as [-> ->].
      assert (Dk : dictionary k) by (apply dic; apply nth_error_In in Pk; exact Pk).
      destruct W as [[_ ->]|[_ ->]]; rewrite (eqb_refl _ Dk); [reflexivity|apply orb_true_r].
    - assert (F1 : field_eqb k h = false) by (apply (S (place b j) (place false j')); auto; intros E; apply place_inj in E; auto; tauto || lia).
      assert (F2 : field_eqb k hc = false) by (apply (S (place b j) (place true j')); auto; intros E; apply place_inj in E; auto; tauto || lia).
      now rewrite F1, F2.
  Qed.

  Lemma fold_known items : Forall (fun fm => known (fst fm)) items -> forall row, List.length row = List.length ex + 6 ->
    exists row', foldM step items row = Ok row' /\ List.length row' = List.length ex + 6 /\
      forall j p, nth_error columns j = Some p -> nth j row' 0%Z = (nth j row 0 + weigh (fun f => if belongs f p then sign f else 0) items)%Z.
  Proof.
    induction items as [|[f m] items IH]; intros K row L.
    - exists row. split; [reflexivity|]. split; [exact L|]. intros j p _. cbn. lia.
    - inversion K as [|? ? Kf K']; subst. cbn [fst] in Kf. destruct (step_known f m row Kf) as (j & g & gc & C & A & E).
      destruct (add_at_ok row j (signed f m)) as (row1 & E1 & L1 & N1).
      { rewrite L, <- columns_length. apply nth_error_Some. congruence. }
      destruct (IH K' row1) as (row2 & E2 & L2 & N2); [lia|]. exists row2. cbn [foldM]. rewrite E, E1. cbn [bind]. split; [exact E2|]. split; [exact L2|].
      intros j' p P. rewrite (N2 j' p P), N1. cbn [weigh fold_right fst snd].
      rewrite (belongs_iff f j g gc j' p C A P). fold (weigh (fun f0 : field => if belongs f0 p then sign f0 else 0%Z) items).
      set (w := weigh _ items). clearbody w. unfold signed, sign. destruct (Nat.eqb_spec j' j), (f_is_conj f); cbn [negb]; lia.
  Qed.

  Lemma fold_stranger items : Forall (fun fm => known (fst fm) \/ stranger (fst fm)) items -> Exists (fun fm => stranger (fst fm)) items ->
    forall row, List.length row = List.length ex + 6 -> foldM step items row = Err KeyError.
  Proof.
    induction items as [|[f m] items IH]; intros K X row L; [inversion X|]. inversion K as [|? ? Kf K']; subst. cbn [fst] in Kf. cbn [foldM].
    destruct Kf as [Kf|Kf]; [|now rewrite step_stranger].
    destruct (step_known f m row Kf) as (j & g & gc & C & A & E). destruct (add_at_ok row j (signed f m)) as (row1 & E1 & L1 & N1).
    { rewrite L, <- columns_length. apply nth_error_Some. congruence. }
    rewrite E, E1. cbn [bind]. apply IH; auto; [|lia]. inversion X as [? ? X0|? ? X0]; subst; [|exact X0]. exfalso. cbn [fst] in X0. destruct Kf as (k & Kk & Ak).
    pose proof (X0 k Kk) as Q. rewrite (alike_eqb_l f k k Ak), (eqb_refl k (dic k Kk)) in Q. discriminate.
  Qed.

  Lemma conj_sign j g gc : nth_error columns j = Some (g, gc) -> f_is_conj gc = negb (f_is_conj g).
  Proof.
    assert (M : forall l m, mapM conj_field l = Ok m -> forall j a b, nth_error l j = Some a -> nth_error m j = Some b -> conj_field a = Ok b).
    { induction l as [|x l IH]; intros m; cbn [mapM]; [intros _ [|i] a b; discriminate|]. destruct (conj_field x) eqn:E; [|discriminate]. cbn [bind].
      destruct (mapM conj_field l) eqn:E2; [|discriminate]. intros [= <-] [|i] a' b' A B; [cbn in A, B; congruence|]. now apply (IH _ eq_refl i). }
    intros C. apply nth_combine_inv in C as [G C]. cbn [fst snd] in *. apply conj_field_flag.
    assert (Cj : mapM conj_field (sm ++ ex) = Ok (smc ++ exc)).
    { clear - Csm Cex. revert smc Csm. induction sm as [|a l IH]; cbn [mapM app]; intros m; [intros [= <-]; exact Cex|]. destruct (conj_field a); [|discriminate].
      cbn [bind]. destruct (mapM conj_field l) as [v|]; [|discriminate]. intros [= <-]. now rewrite (IH v eq_refl). }
    exact (M _ _ Cj j g gc G C).
  Qed.

  Lemma known_key_eq f f' : known f -> known f' -> key_eqb f f' = true -> forall j p, nth_error columns j = Some p ->
    belongs f p = belongs f' p /\ sign f = sign f'.
  Proof.
    intros (k & K & A) (k' & K' & A') E j p _. unfold key_eqb in E. apply andb_true_iff in E as [_ E]. rewrite (alike_eqb_l f k f' A), (alike_eqb_r k f' k' A') in E.
    apply In_nth_error in K as (i & I), K' as (i' & I'). pose proof (position _ _ _ _ _ S D I I' E) as ->. assert (Q : k = k') by congruence. rewrite <- Q in *.
    unfold belongs, sign. rewrite !(alike_eqb_l f k _ A), !(alike_eqb_l f' k _ A'), (alike_conj f k A), (alike_conj f' k A'). split; reflexivity.
  Qed.

  Lemma sum_net fields : Forall known fields -> forall j p, nth_error columns j = Some p ->
    sumZ (fun f => if belongs f p then sign f else 0%Z) fields = net fields p.
  Proof.
    intros K j [g gc] P. unfold net, times. cbn [fst snd]. induction fields as [|f fields IH]; [cbn; lia|]. inversion K as [|? ? Kf K']; subst.
    cbn [sumZ fold_right]. fold (sumZ (fun f => if belongs f (g, gc) then sign f else 0%Z) fields). rewrite (IH K'). cbn [filter].
    destruct Kf as (k & Kk & A). apply In_nth_error in Kk as (i & I). destruct (place_ok _ _ _ P) as [Pg Pc].
    assert (Lj : j < List.length ex + 6) by (rewrite <- columns_length; apply nth_error_Some; congruence).
    pose proof (conj_sign _ _ _ P) as Cs. unfold belongs. cbn [fst snd]. rewrite !(alike_eqb_l f k _ A). unfold sign at 1. rewrite (alike_conj f k A).
    destruct (field_eqb k g) eqn:E.
    - pose proof (position _ _ _ _ _ S D I Pg E) as ->. assert (k = g) by congruence. subst k.
      destruct (field_eqb g gc) eqn:E'.
      + pose proof (position _ _ _ _ _ S D Pg Pc E') as Q. apply place_inj in Q; auto. destruct Q; discriminate.
      + cbn [orb List.length]. unfold sign. destruct (f_is_conj g); lia.
    - cbn [orb]. destruct (field_eqb k gc) eqn:E'; [|lia].
      pose proof (position _ _ _ _ _ S D I Pc E') as ->. assert (k = gc) by congruence. subst k. rewrite Cs. cbn [List.length]. unfold sign. destruct (f_is_conj g); cbn [negb]; lia.
  Qed.

  Lemma row_known fields : Forall known fields -> term_to_row sm fields ex (index_dict ex exc) = Ok (map (net fields) columns).
  Proof.
    intros K. rewrite row_eq.
    assert (I : incl (map fst (counter fields)) fields) by (apply (counter_ok (fun _ => 0%Z)); reflexivity).
    destruct (fold_known (counter fields)) with (row := repeat 0%Z (List.length ex + 6)) as (row & E & L & N).
    - apply Forall_forall. intros fm M. rewrite Forall_forall in K. apply K, I, in_map, M.
    - apply repeat_length.
    - rewrite E. f_equal. apply (nth_ext _ _ 0%Z (net fields (sm_H, sm_H))); [rewrite map_length, columns_length; exact L|]. intros j Lj.
      destruct (nth_error columns j) as [p|] eqn:P; [|apply nth_error_None in P; rewrite columns_length in P; lia].
      rewrite (N j p P), map_nth. rewrite (nth_error_nth columns j _ P). rewrite <- (sum_net fields K j p P).
      rewrite (proj1 (counter_ok (fun f => if belongs f p then sign f else 0%Z) fields
         (fun f f' F F' Q => match known_key_eq f f' (proj1 (Forall_forall _ _) K f F) (proj1 (Forall_forall _ _) K f' F') Q j p P with
            conj B Sg => ltac:(cbv beta; rewrite B, Sg; reflexivity) end))).
      rewrite nth_repeat. reflexivity.
  Qed.

  Lemma counter_keeps l : Forall dictionary l -> forall f, In f l -> exists f', In f' (map fst (counter l)) /\ key_eqb f f' = true.
  Proof.
    unfold counter.
    assert (G : forall r d f, (In f r /\ Forall dictionary r \/ exists f', In f' (map fst d) /\ key_eqb f f' = true) ->
      exists f', In f' (map fst (fold_left (fun d f => dset key_eqb d f (Datatypes.S (match dget key_eqb d f with Some n => n | None => 0 end))) r d)) /\ key_eqb f f' = true).
    { induction r as [|g r IH]; intros d f H; cbn [fold_left]; [destruct H as [[[] _]|H]; exact H|]. apply IH.
      assert (Kp : forall n (d : list (field * nat)) x, In x (map fst d) -> In x (map fst (dset key_eqb d g n))).
      { clear. intros n. induction d as [|[k v] d IH]; intros x X; [destruct X|]. cbn [dset]. destruct (key_eqb g k); cbn [map fst] in *; [exact X|].
        destruct X as [X|X]; [left; exact X|right; auto]. }
      assert (Kn : forall n (d : list (field * nat)), dictionary g -> exists f', In f' (map fst (dset key_eqb d g n)) /\ key_eqb g f' = true).
      { clear. intros n d Dg. induction d as [|[k v] d IH]; cbn [dset]; [exists g; split; [now left|now apply key_refl]|].
        destruct (key_eqb g k) eqn:E; [exists k; split; [now left|exact E]|]. destruct IH as (f' & I & E'). exists f'. split; [now right|exact E']. }
      destruct H as [[[->|F] Dr]|(f' & F' & E)].
      - right. inversion Dr; subst. now apply Kn.
      - left. inversion Dr; subst. auto.
      - right. exists f'. auto. }
    intros Dl f F. apply G. left. auto.
  Qed.

  Lemma key_alike_stranger f f' : alike f f' -> stranger f -> stranger f'.
  Proof. intros A N k K. rewrite <- (alike_eqb_l f f' k A). now apply N. Qed.

  Lemma row_stranger fields : Forall dictionary fields -> Forall (fun f => f_stripped f = None) fields -> Forall (fun f => known f \/ stranger f) fields -> Exists stranger fields ->
    term_to_row sm fields ex (index_dict ex exc) = Err KeyError.
  Proof.
    intros Df Ns K X. rewrite row_eq.
    assert (I : incl (map fst (counter fields)) fields) by (apply (counter_ok (fun _ => 0%Z)); reflexivity).
    apply fold_stranger; [| |apply repeat_length].
    - apply Forall_forall. intros fm M. rewrite Forall_forall in K. apply K, I, in_map, M.
    - apply Exists_exists in X as (f & F & N). destruct (counter_keeps fields Df f F) as (f' & F' & E).
      assert (A : alike f f').
      { unfold key_eqb in E. apply andb_true_iff in E as [E _]. split; [now apply hash_eqb_iff|]. rewrite Forall_forall in Ns. rewrite (Ns f F), (Ns f' (I f' F')). reflexivity. }
      apply in_map_iff in F' as (fm & <- & M). apply Exists_exists. exists fm. split; [exact M|]. now apply (key_alike_stranger f).
  Qed.
End Rows.
