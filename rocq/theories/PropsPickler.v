(** * PropsPickler: theorems about the tables of models (C108) *)

From Coq Require Import Ascii String List Bool Arith ZArith Znumtheory Lia Sorted QArith Qcanon.
From Verif Require Import Base BaseFacts Spec SpecFunctions Show Primes ModelFunctions ModelRegistry SpecRegistry ModelClosures ModelDatabase ModelHeavy ModelPickler
  SpecDatabase SpecPickler ProofsFunctions ProofsRegistry ProofsDatabase ProofsDatabase2 PropsDatabase ProofsPickler.
Import ListNotations.
Local Open Scope nat_scope.

(** ** One table *)

(** Whatever the database, a table has one row for each model, in order, and every row describes its model; all columns
    have the same length. *)
Theorem C108_rows : forall enum topology dims derivs symbolic d c,
  data_dict enum topology dims derivs (Some symbolic) d = Ok c ->
  exists rs, c = table_of rs /\ Forall2 (describes enum topology dims derivs symbolic d) (listing (d_data d)) rs.
Proof. exact rows_of. Qed.

(** It can be made if every operator is known, the primes of every model are known, and topologies are given. *)
Theorem C108_made : forall enum topology dims derivs symbolic d sc,
  d_scales d = Some sc ->
  (forall k, In k (keys (d_data d)) -> In k (keys sc) /\ In k (keys symbolic) /\ In k (keys derivs) /\ In k (keys dims)) ->
  (forall k m, model_of (d_data d) k m -> is_ok (democratic_model_number enum d m) = true /\ is_ok (stringent_model_number d m) = true /\
     is_ok (topology m) = true /\ Forall (fun s => s <> []) (enum (lz_quantum_numbers m))) ->
  exists rs, data_dict enum topology dims derivs (Some symbolic) d = Ok (table_of rs) /\
    Forall2 (describes enum topology dims derivs symbolic d) (listing (d_data d)) rs.
Proof.
  intros enum topology dims derivs symbolic d sc Hsc Hk Hm.
  destruct (rows_exist enum topology dims derivs symbolic d sc Hsc Hk Hm) as (c & E).
  destruct (rows_of _ _ _ _ _ _ _ E) as (rs & -> & F). eauto.
Qed.

(** ** The leading estimate *)

Lemma Qc_geb_le a b : Qc_geb a b = true <-> (b <= a)%Qc.
Proof. unfold Qc_geb, Qcle. apply Qle_bool_iff. Qed.

Lemma Qc_geb_lt a b : Qc_geb a b = false <-> (a < b)%Qc.
Proof.
  split; intros H.
  - apply Qcnot_le_lt. intros L. apply Qc_geb_le in L. congruence.
  - destruct (Qc_geb a b) eqn:E; [|reflexivity]. apply Qc_geb_le in E. now apply Qcle_not_lt in E.
Qed.

Section Leading.
  Context (value : estimate -> Qc).

  Lemma leading_from l best : (forall e, snd best = Some e -> value e = fst best) ->
    let r := fold_left (fun best e => if Qc_geb (fst best) (value e) then best else (value e, Some e)) l best in
    (r = best /\ forall x, In x l -> (value x <= fst best)%Qc) \/
    exists e, r = (value e, Some e) /\ (fst best < value e)%Qc /\ first_leading value l e.
  Proof.
    revert best. induction l as [|x l IH]; intros best Hb; cbn [fold_left].
    - left. split; [reflexivity|]. intros x [].
    - destruct (Qc_geb (fst best) (value x)) eqn:E.
      + apply Qc_geb_le in E. destruct (IH best Hb) as [(-> & H)|(e & -> & L & a & b & -> & H1 & H2)].
        * left. split; [reflexivity|]. intros y [<-|I]; auto.
        * right. exists e. split; [reflexivity|]. split; [exact L|]. exists (x :: a), b. split; [reflexivity|]. split; [|exact H2].
          intros y [<-|I]; [eapply Qcle_lt_trans; eauto|auto].
      + apply Qc_geb_lt in E. right. destruct (IH (value x, Some x)) as [(-> & H)|(e & -> & L & a & b & -> & H1 & H2)].
        * intros e Q. cbn in Q. inversion Q; subst. reflexivity.
        * exists x. split; [reflexivity|]. split; [exact E|]. exists [], l. split; [reflexivity|]. split; [intros y []|exact H].
        * cbn [fst] in L. exists e. split; [reflexivity|]. split; [eapply Qclt_trans; eauto|]. exists (x :: a), b. split; [reflexivity|].
          split; [|exact H2]. intros y [<-|I]; auto.
  Qed.

  Lemma leading_scale_ok l : (exists e, In e l /\ (0 < value e)%Qc) ->
    exists e, leading_scale value l = (value e, Some e) /\ (0 < value e)%Qc /\ first_leading value l e.
  Proof.
    intros (e0 & I0 & L0). unfold leading_scale.
    destruct (leading_from l (Q2Qc 0, None)) as [(E & H)|(e & E & L & H)]; [discriminate| |eauto].
    exfalso. specialize (H e0 I0). cbn [fst] in H. now apply Qcle_not_lt in H.
  Qed.

  Lemma symbolic_ok estimates : NoDup (keys estimates) -> (forall k es, In (k, es) estimates -> exists e, In e es /\ (0 < value e)%Qc) ->
    exists symb, symbolic_scale_dict value estimates = Ok symb /\ keys symb = keys estimates /\
      forall k e, In (k, e) symb -> exists es, In (k, es) estimates /\ first_leading value es e.
  Proof.
    intros N H. unfold symbolic_scale_dict.
    assert (G : forall l acc, NoDup (keys acc ++ keys l) -> (forall kv, In kv l -> In kv estimates) ->
      exists symb, foldM (fun sd kv => let best := leading_scale value (snd kv) in
                        if Qc_geb (Q2Qc 0) (fst best) then Err AssertionError
                        else match snd best with None => Err AssertionError | Some e => Ok (dset str_eqb sd (fst kv) e) end) l acc
        = Ok (acc ++ symb) /\ keys symb = keys l /\
        forall k e, In (k, e) symb -> exists es, In (k, es) estimates /\ first_leading value es e).
    { induction l as [|[k es] l IH]; intros acc Na Hi; cbn [foldM].
      - exists []. rewrite app_nil_r. split; [reflexivity|]. split; [reflexivity|]. intros k e [].
      - destruct (leading_scale_ok es) as (e & E & L & F); [apply (H k); apply Hi; now left|]. cbv zeta. cbn [fst snd]. rewrite E. cbn [fst snd].
        assert (Eg : Qc_geb (Q2Qc 0) (value e) = false) by now apply Qc_geb_lt. rewrite Eg. cbn [bind].
        assert (Ed : dset str_eqb acc k e = acc ++ [(k, e)]).
        { apply dset_new; [apply str_decides|]. destruct (dmem str_eqb acc k) eqn:Em; [|reflexivity]. exfalso. apply (dmem_In str_decides) in Em.
          cbn [keys map fst] in Na. apply NoDup_remove_2 in Na. apply Na. apply in_or_app. now left. }
        rewrite Ed. destruct (IH (acc ++ [(k, e)])) as (symb & E2 & K & S); [| |].
        + unfold keys in *. rewrite map_app. cbn [map fst] in *. rewrite <- app_assoc. exact Na.
        + intros kv I. apply Hi. now right.
        + exists ((k, e) :: symb). split; [cbv zeta in E2; rewrite E2, <- app_assoc; reflexivity|]. split; [cbn; f_equal; exact K|].
          intros k1 e1 [Q|I]; [|now apply S]. inversion Q; subst. exists es. split; [apply Hi; now left|exact F]. }
    destruct (G estimates []) as (symb & E & K & S); [exact N|auto|]. exists symb. auto.
  Qed.
End Leading.

(** ** The script *)

Lemma largest_unique s t l : largest s l -> largest t l -> s = t.
Proof. intros (I & H) (J & K). apply Qcle_antisym; auto. Qed.

Lemma filter_by_mass_keeps enum d d' : filter_by_mass enum d = Ok d' ->
  d_exotics d' = d_exotics d /\ d_term_primes d' = d_term_primes d /\ d_philosophy d' = d_philosophy d.
Proof.
  unfold filter_by_mass. generalize (keys (d_data d)). intros l. revert d.
  induction l as [|k l IH]; intros d E; cbn [foldM] in E; [inversion E; auto|].
  destruct (filter_models_by_mass enum d k) as [d1|] eqn:E1; [|discriminate]. cbn [bind] in E. apply IH in E as (A & B & C).
  assert (K : d_exotics d1 = d_exotics d /\ d_term_primes d1 = d_term_primes d /\ d_philosophy d1 = d_philosophy d).
  { unfold filter_models_by_mass in E1. destruct (dgetM str_eqb (d_data d) k) as [v|]; [|discriminate]. cbn [bind] in E1.
    clear - E1. revert d E1. induction v as [|m v IHv]; intros d E1; cbn [foldM] in E1; [inversion E1; auto|].
    destruct (filter_model_by_mass enum d k m) as [d2|] eqn:E2; [|discriminate]. cbn [bind] in E1. apply IHv in E1 as (A & B & C).
    unfold filter_model_by_mass in E2. destruct (scale_of _ _); [|discriminate]. cbn [bind] in E2.
    destruct (db_model_number enum d m); [|discriminate]. cbn [bind] in E2. destruct (sieve_data _ _ _ _); [|discriminate].
    cbn [bind] in E2. inversion E2; subst d2. cbn in *. auto. }
  destruct K as (K1 & K2 & K3). rewrite A, B, C. auto.
Qed.

(** what the script does before the one-loop filter is [process] *)
Lemma script_process enum dims estimates d : d_philosophy d = democratic -> d_criterion d = mass ->
  (do d <- democratic_remove_equivalent_models enum d; do d <- order_by_mass estimates d; filter_by_mass enum d)
  = process enum dims estimates false d.
Proof.
  intros P C. unfold process, democratic_remove_equivalent_models, remove_equivalent_models.
  assert (E : db_model_number enum d = democratic_model_number enum d \/ True) by now right. clear E.
  assert (E : remove_equivalent_with (db_model_number enum d) (d_data d) = remove_equivalent_with (democratic_model_number enum d) (d_data d)).
  { unfold db_model_number. rewrite P. reflexivity. }
  rewrite E. destruct (remove_equivalent_with (democratic_model_number enum d) (d_data d)) as [x|]; cbn [bind]; [|reflexivity].
  unfold order. cbn [set_data d_criterion]. rewrite C. destruct (order_by_mass estimates (set_data d x)) as [d2|] eqn:E2; cbn [bind]; [|reflexivity].
  assert (K : d_is_ordered d2 = Some true /\ d_criterion d2 = mass).
  { unfold order_by_mass in E2. destruct (mapM _ _); [|discriminate]. cbn [bind] in E2. destruct (mapM _ _); [|discriminate].
    cbn [bind] in E2. inversion E2. cbn. auto. }
  destruct K as (K1 & K2). unfold filter_db. rewrite K1. cbn [bind]. now rewrite K2.
Qed.

Lemma process_keeps enum dims estimates d d' : d_criterion d = mass -> process enum dims estimates false d = Ok d' ->
  d_exotics d' = d_exotics d /\ d_term_primes d' = d_term_primes d /\ d_philosophy d' = d_philosophy d.
Proof.
  intros C E. unfold process, remove_equivalent_models in E.
  destruct (remove_equivalent_with (db_model_number enum d) (d_data d)) as [x|]; [|discriminate]. cbn [bind] in E.
  unfold order in E. cbn [set_data d_criterion] in E. rewrite C in E. destruct (order_by_mass estimates (set_data d x)) as [d2|] eqn:E2; [|discriminate]. cbn [bind] in E.
  assert (K : d_is_ordered d2 = Some true /\ d_criterion d2 = mass /\ d_exotics d2 = d_exotics d /\ d_term_primes d2 = d_term_primes d /\ d_philosophy d2 = d_philosophy d).
  { unfold order_by_mass in E2. destruct (mapM _ _); [|discriminate]. cbn [bind] in E2. destruct (mapM _ _); [|discriminate].
    cbn [bind] in E2. inversion E2. cbn. auto. }
  destruct K as (K1 & K2 & K3 & K4 & K5). unfold filter_db in E. rewrite K1 in E. cbn [bind] in E. rewrite K2 in E.
  apply filter_by_mass_keeps in E as (A & B & D). rewrite A, B, D. auto.
Qed.

Lemma one_loop_positive primes models nums : (forall k p, In (k, p) primes -> (p <> 0)%Z) ->
  one_loop_democratic_nums primes models = Ok nums -> Forall (fun x => x <> 0%Z) nums.
Proof.
  intros Hp. unfold one_loop_democratic_nums. match goal with |- foldM ?f _ _ = _ -> _ => set (step := f) end.
  assert (G : Forall (fun x : Z => x <> 0%Z) []) by constructor. revert G. generalize (@nil Z).
  induction models as [|m models IH]; intros acc Ha E; cbn [foldM] in E; [now inversion E; subst|].
  unfold step at 1 in E. cbv zeta in E. destruct (existsb _ (map (field_options primes) m)); cbn [bind] in E; [now apply IH in E|].
  match type of E with context [foldM ?f ?l 1%Z] => destruct (foldM f l 1%Z) as [n|] eqn:En; [|discriminate] end. cbn [bind] in E.
  apply IH in E; [exact E|]. apply Forall_app. split; [exact Ha|]. constructor; [|constructor].
  assert (H1 : 1%Z <> 0%Z) by discriminate. revert H1 En. generalize 1%Z. generalize (map (field_options primes) m).
  clear - Hp. induction l as [|o l IH]; intros z Hz En; cbn [foldM] in En; [inversion En; now subst|].
  destruct o as [|k [|k2 o]]; [discriminate| |discriminate]. unfold dgetM in En. destruct (dget str_eqb primes k) as [p|] eqn:Ek; [|discriminate].
  cbn [bind] in En. apply (dget_In str_decides) in Ek. apply Hp in Ek. apply IH in En; [exact En|]. nia.
Qed.

Lemma table_nonzero {K} (eqb : K -> K -> bool) conj n l (k : K) p : In (k, p) (table eqb conj n l) -> p <> 0%Z.
Proof.
  revert n. induction l as [|x l IH]; intros n I; cbn [table] in I; [destruct I|]. apply in_app_or in I as [I|I]; [|eapply IH; eauto].
  assert (p = prime_ n) as ->.
  { unfold entries in I. repeat (match type of I with context [match ?e with _ => _ end] => destruct e end); cbn in I; intuition congruence. }
  pose proof (prime_prime n) as P. apply prime_ge_2 in P. lia.
Qed.

Section Script.
  Context (enum : list str -> list str) (zenum : list Z -> list Z) (value : estimate -> Qc) (topology : lazy -> res str).
  Context (estimates : list (str * list estimate)) (dims : list (str * Z)) (derivs : list (str * nat)).
  Context (raw : list (list lazy)) (one_loop : Qc).
  Context (He : set_order enum) (Hz : forall l x, In x (zenum l) <-> In x l).
  Context (Hd : data_ok (load raw)).
  Context (Nes : NoDup (keys estimates)) (Ndi : NoDup (keys dims)) (Nde : NoDup (keys derivs)).
  Context (Hes : forall k es, In (k, es) estimates -> exists e, In e es /\ (0 < value e)%Qc).
  Context (Hk : forall k, In k (keys (load raw)) -> In k (keys estimates) /\ In k (keys dims) /\ In k (keys derivs)).
  Context (Ht : forall k m, model_of (load raw) k m -> is_ok (topology (in_order m)) = true).

  Lemma numerical_keys : keys (numerical value estimates) = keys estimates.
  Proof. unfold numerical, keys. rewrite map_map. reflexivity. Qed.

  Lemma numerical_In k l : In (k, l) (numerical value estimates) <-> exists es, In (k, es) estimates /\ l = map value es.
  Proof.
    unfold numerical. rewrite in_map_iff. split.
    - intros ([k1 es] & E & I). cbn in E. inversion E; subst. eauto.
    - intros (es & I & ->). exists (k, es). auto.
  Qed.

  Lemma fields_nonempty k m : model_of (load raw) k m -> Forall (fun s => s <> []) (enum (lz_quantum_numbers m)).
  Proof using He Hd.
    intros Hm. destruct (Hd k m Hm) as (F & _). rewrite Forall_forall in F. apply Forall_forall. intros s I.
    apply (proj2 (He (lz_quantum_numbers m))) in I. apply F in I. destruct I as (f & _ & ->). destruct f as [f c|e]; cbn [print_field]; [destruct f; discriminate|]. unfold print_exotic. destruct (e_lor e); discriminate.
  Qed.

  Lemma stringent_ok ph cr d k m : new_db enum raw ph cr None = Ok d -> model_of (d_data d) k m ->
    is_ok (stringent_model_number d m) = true.
  Proof using He Hd.
    intros E Hm. destruct (new_db_ok enum He raw ph cr None (load raw) eq_refl Hd) as (d1 & ex & te & E1 & Ed1 & _ & _ & _ & T1).
    destruct (new_db_ok enum He raw stringent cr None (load raw) eq_refl Hd) as (d2 & ex2 & te2 & E2 & Ed2 & _ & _ & _ & T2).
    pose proof (new_db_faithful enum He raw stringent cr None (load raw) d2 eq_refl Hd E2) as F2.
    rewrite E in E1. inversion E1; subst d1. subst d d2. cbn [d_data] in Hm. destruct (F2 k m k m) as (n & _ & En & _); [exact Hm|exact Hm|].
    unfold db_model_number in En. cbn [d_philosophy] in En. unfold stringent_model_number in *. cbn [d_term_primes] in *. rewrite T1. rewrite T2 in En. rewrite En. reflexivity.
  Qed.

  Lemma sorted_models k m : model_of (sort_data (load raw)) k m -> exists m0, model_of (load raw) k m0 /\ m = in_order m0.
  Proof.
    intros (v & I & Im). unfold sort_data in I. apply in_map_iff in I as ([k1 v1] & Q & I). cbn [fst snd] in Q. inversion Q; subst.
    apply in_map_iff in Im as (m0 & <- & Im). exists m0. split; [exists v1; auto|reflexivity].
  Qed.

  Lemma script_ok : exists us d0 rest,
    new_db enum raw democratic mass None = Ok d0 /\
    pickler enum zenum value topology estimates dims derivs raw one_loop = Ok (mkFiles (table_of us) (d_exotics d0) (d_term_primes d0) rest) /\
    (exists symb sc, Forall2 (describes enum topology dims derivs symb (scaled d0 sc))
                             (listing (map (fun kv => (fst kv, map in_order (snd kv))) (load raw))) us) /\
    (forall r, In r us -> exists es, In (r_op r, es) estimates /\ first_leading value es (r_symbolic r) /\ r_scale r = value (r_symbolic r)) /\
    match one_loop_democratic_nums (d_exotics d0) generate_models with
    | Err e => rest = Err e
    | Ok nums => exists ds, rest = Ok (table_of ds) /\ (forall r, In r ds <-> stays one_loop nums us r) /\
        StronglySorted (fun a b => (r_scale b <= r_scale a)%Qc) ds /\
        (forall a r b r' c, ds = a ++ r :: b ++ r' :: c -> r_op r = r_op r' -> r_democratic r <> r_democratic r')
    end.
  Proof.
    destruct (new_db_ok enum He raw democratic mass None (load raw) eq_refl Hd) as (d0 & ex & te & E0 & Ed0 & _ & _ & Tex & _).
    pose proof (new_db_faithful enum He raw democratic mass None (load raw) d0 eq_refl Hd E0) as F0.
    pose proof (load_NoDup raw) as Nl.
    assert (Nd0 : NoDup (keys (d_data d0))) by (rewrite Ed0; cbn [d_data]; unfold sort_data, keys; rewrite map_map; exact Nl).
    assert (Kd0 : keys (d_data d0) = keys (load raw)) by (rewrite Ed0; cbn [d_data]; unfold sort_data, keys; rewrite map_map; reflexivity).
    assert (Md0 : forall k m, model_of (d_data d0) k m -> exists m0, model_of (load raw) k m0 /\ m = in_order m0)
      by (rewrite Ed0; exact sorted_models).
    assert (Pos : forall k es, In (k, es) (numerical value estimates) -> exists e, In e es /\ (0 < e)%Qc).
    { intros k es I. apply numerical_In in I as (l & I & ->). destruct (Hes k l I) as (e & Ie & L). exists (value e). split; [now apply in_map|exact L]. }
    destruct (C20_fill_scale_dict (numerical value estimates) d0) as (sc0 & E1 & Ksc0 & Hsc0); [now rewrite numerical_keys|exact Pos|].
    rewrite numerical_keys in Ksc0.
    destruct (symbolic_ok value estimates Nes Hes) as (symb & E2 & Ksy & Hsy).
    set (d1 := scaled d0 sc0). assert (E1' : fill_scale_dict (numerical value estimates) d0 = Ok d1) by exact E1.
    assert (D1 : forall k m, model_of (d_data d0) k m -> is_ok (democratic_model_number enum d0 m) = true).
    { intros k m Hm. destruct (F0 k m k m Hm Hm) as (n & _ & En & _). unfold db_model_number in En.
      assert (P0 : d_philosophy d0 = democratic) by (rewrite Ed0; reflexivity). rewrite P0 in En. now rewrite En. }
    assert (G0 : forall k m, model_of (d_data d0) k m -> is_ok (democratic_model_number enum d0 m) = true /\ is_ok (stringent_model_number d0 m) = true /\
       is_ok (topology m) = true /\ Forall (fun s => s <> []) (enum (lz_quantum_numbers m))).
    { intros k m Hm. split; [eapply D1; eauto|]. split; [eapply stringent_ok; eauto|]. destruct (Md0 k m Hm) as (m0 & H0 & ->).
      split; [eapply Ht; eauto|]. exact (fields_nonempty k m0 H0). }
    destruct (C108_made enum topology dims derivs symb d1 sc0 eq_refl) as (us & E3 & Fus).
    { intros k I. change (d_data d1) with (d_data d0) in I. rewrite Kd0 in I. destruct (Hk k I) as (K1 & K2 & K3). rewrite Ksc0, Ksy. auto. }
    { intros k m Hm. exact (G0 k m Hm). }
    change (d_data d1) with (d_data d0) in Fus.
    (* rows of the unfiltered table *)
    assert (Rl : forall r, In r us -> exists es, In (r_op r, es) estimates /\ first_leading value es (r_symbolic r) /\ r_scale r = value (r_symbolic r)).
    { intros r I. apply (F2_r _ _ _ _ Fus) in I as ([k m] & _ & D). destruct D as (-> & _ & _ & _ & _ & _ & _ & S1 & (sc & Q & S2) & _).
      inversion Q; subst sc. destruct (Hsy _ _ S1) as (es & I & FL). exists es. split; [exact I|]. split; [exact FL|].
      apply Hsc0 in S2 as (l & I2 & Lg). apply numerical_In in I2 as (es' & I2 & ->).
      assert (es' = es) as -> by (eapply NoDup_unique_key; [exact Nes| |]; eauto).
      apply (largest_unique _ _ _ Lg). destruct FL as (a & b & -> & H1 & H2). split; [apply in_map; apply in_or_app; right; now left|].
      intros y Iy. apply in_map_iff in Iy as (x & <- & Ix). apply in_app_or in Ix as [Ix|[<-|Ix]]; auto using Qclt_le_weak, Qcle_refl. }
    assert (L0 : listing (d_data d0) = listing (map (fun kv => (fst kv, map in_order (snd kv))) (load raw))) by (rewrite Ed0; reflexivity).
    eexists us, d0, _. split; [exact E0|]. split.
    { unfold pickler. rewrite E0. cbn [bind]. rewrite E1'. cbn [bind]. rewrite E2. cbn [bind]. rewrite E3. cbn [bind]. reflexivity. }
    split; [exists symb, sc0; rewrite <- L0; exact Fus|]. split; [exact Rl|].
    (* before the one-loop filter *)
    assert (F1 : faithful enum d1) by exact F0.
    destruct (C66_process_mass enum dims (numerical value estimates) false d1) as (d2 & sc2 & E4 & S2 & K2 & N2 & Srt & Dis & Hsc2 & Char); auto.
    { exact (f_equal d_criterion Ed0). }
    { now rewrite numerical_keys. }
    { intros k es I. destruct (Pos k es I) as (e & Ie & _). intros ->. destruct Ie. }
    destruct (process_keeps enum dims (numerical value estimates) d1 d2 (f_equal d_criterion Ed0) E4) as (X1 & X2 & X3).
    pose proof (script_process enum dims (numerical value estimates) d1 (f_equal d_philosophy Ed0) (f_equal d_criterion Ed0)) as Sp.
    rewrite E4 in Sp.
    match goal with |- context [do d <- democratic_remove_equivalent_models enum ?x; _] => change x with d1 end.
    destruct (democratic_remove_equivalent_models enum d1) as [da|]; [|discriminate Sp]. cbn [bind] in *.
    destruct (order_by_mass (numerical value estimates) da) as [dd|]; [|discriminate Sp]. cbn [bind] in *. rewrite Sp. cbn [bind].
    rewrite X1. change (d_exotics d1) with (d_exotics d0).
    destruct (one_loop_democratic_nums (d_exotics d0) generate_models) as [nums|] eqn:En; cbn [bind]; [|reflexivity].
    assert (Sub : forall k m, model_of (d_data d2) k m -> model_of (d_data d0) k m).
    { intros k m Hm. apply Char in Hm as ((a & b & I & _) & _). exists (a ++ m :: b). split; [exact I|]. apply in_or_app. right. now left. }
    assert (Dn : forall m, democratic_model_number enum d2 m = democratic_model_number enum d0 m) by (intros m; unfold democratic_model_number; now rewrite X1).
    assert (Nz : Forall (fun x => x <> 0%Z) (zenum nums)).
    { apply Forall_forall. intros x I. apply (proj1 (Hz _ _)) in I. revert x I. apply Forall_forall. eapply one_loop_positive; [|exact En].
      rewrite Ed0. cbn [d_exotics]. intros k p I. rewrite Tex in I. eapply table_nonzero; eauto. }
    destruct (C69_filter_one_loop_weinberg enum d2 sc2 one_loop (zenum nums) S2 N2) as (keep & E5 & K5); auto.
    { now rewrite K2. }
    { intros k I. rewrite K2 in I. apply in_map_iff in I as ([k1 s] & Q & I). cbn in Q. subst k1. exists s. exact I. }
    { intros k m Hm. rewrite Dn. eapply D1. apply Sub. exact Hm. }
    rewrite E5. cbn [bind]. set (d3 := set_data d2 _).
    assert (M3 : forall k m, model_of (d_data d3) k m <-> model_of (d_data d2) k m /\ keep k m = true).
    { intros k m. exact (model_of_restrict (d_data d2) keep k m). }
    assert (K3 : keys (d_data d3) = keys sc2) by (unfold d3; cbn [set_data d_data]; unfold keys; rewrite map_map; exact K2).
    assert (Kin : forall k, In k (keys sc2) -> In k (keys (load raw))).
    { intros k I. apply in_map_iff in I as ([k1 s] & Q & I). cbn in Q. subst k1. apply Hsc2 in I as (I & _). change (d_data d1) with (d_data d0) in I. now rewrite Kd0 in I. }
    destruct (C108_made enum topology dims derivs symb d3 sc2 S2) as (ds & E6 & Fds).
    { intros k I. rewrite K3 in I. destruct (Hk k (Kin k I)) as (H1 & H2 & H3). rewrite Ksy. auto. }
    { intros k m Hm. apply M3 in Hm as (Hm & _). apply Sub in Hm. destruct (G0 k m Hm) as (H1 & H2 & H3 & H4).
      unfold d3. unfold democratic_model_number, stringent_model_number in *. cbn [set_data d_exotics d_term_primes]. rewrite X1, X2. auto. }
    exists ds. split; [exact E6|].
    assert (Scs : forall k s s', In (k, s) sc0 -> In (k, s') sc2 -> s' = s).
    { intros k s s' H1 H2. apply Hsc0 in H1 as (l1 & I1 & L1). apply Hsc2 in H2 as (_ & l2 & I2 & L2).
      assert (l2 = l1) as -> by (eapply NoDup_unique_key; [|exact I2|exact I1]; now rewrite numerical_keys). exact (largest_unique _ _ _ L2 L1). }
    assert (Uni : forall km r r', describes enum topology dims derivs symb d1 km r -> describes enum topology dims derivs symb d3 km r' -> r' = r).
    { intros km r r'. apply describes_unique; auto.
      - now rewrite Ksy.
      - intros s s' sc sc' Q1 Q2 H1 H2. cbn in Q1. inversion Q1; subst sc. unfold d3 in Q2. cbn [set_data d_scales] in Q2. rewrite S2 in Q2. inversion Q2; subst sc'. eapply Scs; eauto. }
    assert (Num : forall k m k' m' r r', model_of (d_data d0) k m -> model_of (d_data d0) k' m' ->
       describes enum topology dims derivs symb d1 (k, m) r -> describes enum topology dims derivs symb d1 (k', m') r' ->
       (r_democratic r = r_democratic r' <-> equivalent_models enum democratic m m') /\ ((r_democratic r | r_democratic r')%Z <-> part_of enum democratic m m')).
    { intros k m k' m' r r' H1 H2 (_ & _ & _ & Q1 & _) (_ & _ & _ & Q2 & _). destruct (F1 k m k' m' H1 H2) as (n & n' & Q3 & Q4 & _ & W1 & W2).
      assert (P1 : d_philosophy d1 = democratic) by exact (f_equal d_philosophy Ed0). unfold db_model_number in Q3, Q4. rewrite P1 in *.
      rewrite Q1 in Q3. rewrite Q2 in Q4. inversion Q3; inversion Q4; subst. auto. }
    assert (P1 : d_philosophy d1 = democratic) by exact (f_equal d_philosophy Ed0).
    rewrite P1 in *.
    assert (In2 : forall k s, In (k, s) sc0 -> In k (keys (d_data d0)) -> In (k, s) sc2).
    { intros k s I Ik. apply Hsc2. split; [exact Ik|]. apply Hsc0 in I. exact I. }
    assert (Dis3 : forall k v a m b m' c, In (k, v) (d_data d3) -> v = a ++ m :: b ++ m' :: c -> ~ equivalent_models enum democratic m m').
    { intros k v a m b m' c I Ev. unfold d3 in I. cbn [set_data d_data] in I. apply in_map_iff in I as ([k1 w] & Q1 & I). cbn [fst snd] in Q1.
      injection Q1 as Qk Ef. rewrite Qk in *. rewrite Ev in Ef. apply filter_split in Ef as (a1 & r1 & -> & _ & _ & Er).
      apply filter_split in Er as (a2 & r2 & -> & _ & _ & _). exact (Dis k _ a1 m a2 m' r2 I eq_refl). }
    split; [|split].
    - intros r. split.
      + intros I. destruct (F2_r _ _ _ _ Fds I) as ([k m] & Ikm & D3). apply listing_In in Ikm. pose proof Ikm as Hm3. apply M3 in Ikm as (Hm2 & Kp).
        pose proof (Sub k m Hm2) as Hm0. pose proof Hm2 as Hc. apply Char in Hc as ((a & b & Iv & _ & Hfirst) & Ksc & Hno).
        change (d_data d1) with (d_data d0) in Iv. apply in_split in Iv as (A & B & Edata).
        assert (El : listing (d_data d0) = (listing A ++ map (fun m => (k, m)) a) ++ (k, m) :: (map (fun m => (k, m)) b ++ listing B)).
        { rewrite Edata, listing_app. unfold listing at 2. cbn [flat_map fst snd]. rewrite map_app. cbn [map]. rewrite <- !app_assoc. reflexivity. }
        rewrite El in Fus. apply Forall2_app_inv_l in Fus as (u1 & u2 & Fu1 & Fu2 & Eus). inversion Fu2 as [|km r1 lx u3 D1r Fu3]; subst km lx u2.
        pose proof (Uni (k, m) r1 r D1r D3) as ->.
        assert (Fus : Forall2 (describes enum topology dims derivs symb d1) (listing (d_data d0)) us).
        { rewrite El, Eus. apply Forall2_app; auto. }
        assert (Op1 : r_op r1 = k) by exact (proj1 D1r).
        assert (Sc1 : In (k, r_scale r1) sc2).
        { destruct D3 as (_ & _ & _ & _ & _ & _ & _ & _ & (sc & Q & H9) & _). unfold d3 in Q. cbn [set_data d_scales] in Q. rewrite S2 in Q. inversion Q; subst sc. exact H9. }
        split; [|split].
        * exists u1, u3. split; [exact Eus|]. intros r0 I0 Eop Q. destruct (F2_r _ _ _ _ Fu1 I0) as ([k0 m0] & Ik0 & D0).
          assert (Op0 : r_op r0 = k0) by exact (proj1 D0). assert (k0 = k) as -> by congruence.
          apply in_app_or in Ik0 as [Ik0|Ik0].
          -- apply listing_In, model_key in Ik0. rewrite Edata in Nd0. unfold keys in Nd0. rewrite map_app in Nd0. cbn [map fst] in Nd0.
             apply NoDup_remove_2 in Nd0. apply Nd0, in_or_app. now left.
          -- apply in_map_iff in Ik0 as (m1 & Qm & Im1). inversion Qm; subst m1. apply (Hfirst m0 Im1 eq_refl).
             try rewrite P1; apply (Num k m0 k m r0 r1); auto. exists (a ++ m :: b). split; [rewrite Edata; apply in_or_app; right; now left|apply in_or_app; now left].
        * intros r0 I0 Ls Dv. destruct (F2_r _ _ _ _ Fus I0) as ([k0 m0] & Ik0 & D0). apply listing_In in Ik0.
          apply Hno. exists k0, m0, (r_scale r1), (r_scale r0). split; [exact Ik0|]. split; [reflexivity|]. split; [exact Sc1|].
          split; [|split; [exact Ls|]].
          { destruct D0 as (_ & _ & _ & _ & _ & _ & _ & _ & (sc & Q & H9) & _). cbn in Q. inversion Q; subst sc. apply In2; [exact H9|eapply model_key; eauto]. }
          try rewrite P1; apply (Num k0 m0 k m r0 r1); auto.
        * destruct D3 as (_ & _ & _ & D4 & _). unfold d3, democratic_model_number in D4. cbn [set_data d_exotics] in D4. fold (democratic_model_number enum d2 m) in D4.
          apply (proj1 (K5 k m _ _ Hm2 D4 Sc1)) in Kp as [Kp|Kp]; [now left|right]. intros x Ix. apply Kp. now apply (proj2 (Hz _ _)).
      + intros ((a & b & Eus & Hfirst) & Hno & Hol). pose proof Fus as Fus'. rewrite Eus in Fus'. apply Forall2_app_inv_r in Fus' as (La & L2 & Fa & F2 & El).
        inversion F2 as [|[k m] rx Lb bx D1r Fb]; subst rx bx L2. assert (Op1 : r_op r = k) by exact (proj1 D1r).
        apply listing_split in El as (A & v1 & v2 & B & Edata & ELa).
        assert (Iv : In (k, v1 ++ m :: v2) (d_data d0)) by (rewrite Edata; apply in_or_app; right; now left).
        assert (Hm0 : model_of (d_data d0) k m) by (exists (v1 ++ m :: v2); split; [exact Iv|apply in_or_app; right; now left]).
        assert (Sc0 : In (k, r_scale r) sc0).
        { destruct D1r as (_ & _ & _ & _ & _ & _ & _ & _ & (sc & Q & H9) & _). cbn in Q. inversion Q; subst sc. exact H9. }
        assert (Sc2 : In (k, r_scale r) sc2) by (apply In2; [exact Sc0|eapply model_key; eauto]).
        assert (Hm2 : model_of (d_data d2) k m).
        { apply Char. split; [|split].
          - exists v1, v2. split; [exact Iv|]. split; [reflexivity|]. intros m0 I0 _ Q. rewrite P1 in Q.
            assert (I0' : In (k, m0) La) by (rewrite ELa; apply in_or_app; right; apply in_map_iff; eauto).
            destruct (F2_l _ _ _ _ Fa I0') as (r0 & Ir0 & D0). apply (Hfirst r0 Ir0); [transitivity k; [exact (proj1 D0)|symmetry; exact Op1]|].
            try rewrite P1; apply (Num k m0 k m r0 r); auto. exists (v1 ++ m :: v2). split; [exact Iv|apply in_or_app; now left].
          - apply in_map_iff. exists (k, r_scale r). auto.
          - intros (op & m0 & s & s0 & H0 & _ & Hs & Hs0 & Lt & Pt). change (d_data d1) with (d_data d0) in H0.
            destruct (F2_l _ _ _ _ Fus (proj2 (listing_In _ _ _) H0)) as (r0 & Ir0 & D0).
            assert (s = r_scale r) as -> by (eapply NoDup_unique_key; [exact N2| |]; eauto).
            assert (s0 = r_scale r0) as ->.
            { destruct D0 as (_ & _ & _ & _ & _ & _ & _ & _ & (sc & Q & H9) & _). cbn in Q. inversion Q; subst sc. eapply Scs; eauto. }
            apply (Hno r0 Ir0 Lt). try rewrite P1; apply (Num op m0 k m r0 r); auto. }
        assert (Hm3 : model_of (d_data d3) k m).
        { apply M3. split; [exact Hm2|]. pose proof D1r as (_ & _ & _ & D4 & _).
          assert (D4' : democratic_model_number enum d2 m = Ok (r_democratic r)) by (rewrite Dn; exact D4).
          apply (K5 k m _ _ Hm2 D4' Sc2). destruct Hol as [Hol|Hol]; [now left|right]. intros x Ix. apply (proj1 (Hz _ _)) in Ix. now apply Hol. }
        apply listing_In in Hm3. destruct (F2_l _ _ _ _ Fds Hm3) as (r' & Ir' & D3). now rewrite <- (Uni (k, m) r r' D1r D3).
    - eapply sorted_along; [|exact Fds|apply (listing_sorted sc2 (d_data d3) N2 K3 Srt)].
      intros [k m] [k' m'] y y' (_ & _ & _ & _ & _ & _ & _ & _ & (sc & Q & H9) & _) (_ & _ & _ & _ & _ & _ & _ & _ & (sc' & Q' & H9') & _) P.
      unfold d3 in Q, Q'. cbn [set_data d_scales] in Q, Q'. rewrite S2 in Q, Q'. inversion Q; inversion Q'; subst sc sc'. cbn [fst] in P. now apply P.
    - intros a r b r' c Eds Eop Q. rewrite Eds in Fds. apply Forall2_app_inv_r in Fds as (la & l2 & Fa & F2 & El).
      inversion F2 as [|[k m] rx l3 bx Dr F3]; subst rx bx l2. apply Forall2_app_inv_r in F3 as (lb & l4 & Fb & F4 & ->).
      inversion F4 as [|[k' m'] rx lc cx Dr' Fc]; subst rx cx l4.
      assert (k' = k) as -> by (transitivity (r_op r'); [symmetry; exact (proj1 Dr')|rewrite <- Eop; exact (proj1 Dr)]).
      assert (I1 : model_of (d_data d0) k m) by (apply Sub; apply M3; apply listing_In; rewrite El; apply in_or_app; right; now left).
      assert (I2 : model_of (d_data d0) k m').
      { apply Sub; apply M3; apply listing_In; rewrite El; apply in_or_app; right; right. apply in_or_app. right. now left. }
      apply listing_pair in El as (v & x & y & z & Iv & Ev); [|rewrite K3; exact N2]. apply (Dis3 k v x m y m' z Iv Ev).
      destruct (F2_l _ _ _ _ Fus (proj2 (listing_In _ _ _) I1)) as (r1 & Ir1 & D1r). destruct (F2_l _ _ _ _ Fus (proj2 (listing_In _ _ _) I2)) as (r2 & Ir2 & D2r).
      pose proof (Uni _ _ _ D1r Dr) as ->. pose proof (Uni _ _ _ D2r Dr') as ->. try rewrite P1; apply (Num k m k m' r1 r2); auto.
  Qed.
End Script.

(** ** The script *)

(** Whatever completions are read, if their fields are known to be well formed, every operator has its estimates,
    dimension and derivatives, and the completions have topologies: unfiltered.p has a row for every completion, with
    the first leading estimate of its operator; and unless the one-loop lookup fails, democratic.p has exactly the rows
    that should stay, by decreasing scale, and no number twice for one operator. *)
Theorem C108_script : forall enum zenum value topology estimates dims derivs raw one_loop,
  set_order enum -> (forall l x, In x (zenum l) <-> In x l) -> data_ok (load raw) ->
  NoDup (keys estimates) -> NoDup (keys dims) -> NoDup (keys derivs) ->
  (forall k es, In (k, es) estimates -> exists e, In e es /\ (0 < value e)%Qc) ->
  (forall k, In k (keys (load raw)) -> In k (keys estimates) /\ In k (keys dims) /\ In k (keys derivs)) ->
  (forall k m, model_of (load raw) k m -> is_ok (topology (in_order m)) = true) ->
  exists us d0 rest,
    new_db enum raw democratic mass None = Ok d0 /\
    pickler enum zenum value topology estimates dims derivs raw one_loop = Ok (mkFiles (table_of us) (d_exotics d0) (d_term_primes d0) rest) /\
    (exists symb sc, Forall2 (describes enum topology dims derivs symb (scaled d0 sc))
                             (listing (map (fun kv => (fst kv, map in_order (snd kv))) (load raw))) us) /\
    (forall r, In r us -> exists es, In (r_op r, es) estimates /\ first_leading value es (r_symbolic r) /\ r_scale r = value (r_symbolic r)) /\
    match one_loop_democratic_nums (d_exotics d0) generate_models with
    | Err e => rest = Err e
    | Ok nums => exists ds, rest = Ok (table_of ds) /\ (forall r, In r ds <-> stays one_loop nums us r) /\
        StronglySorted (fun a b => (r_scale b <= r_scale a)%Qc) ds /\
        (forall a r b r' c, ds = a ++ r :: b ++ r' :: c -> r_op r = r_op r' -> r_democratic r <> r_democratic r')
    end.
Proof. intros. apply script_ok; assumption. Qed.

(** the completions of the database examples; an estimate is worth less the more factors it has *)
Definition ex_raw := [[ex_a]; [ex_b; ex_c; ex_d]].
Definition ex_value (e : estimate) : Qc := Q2Qc (100 # Pos.of_nat (List.length e)).
Definition ex_topology (m : lazy) : res str := Ok (lit "2s2f_1").
Definition ex_estimates := [(lit "1", [[Kloop; Kloop; Kv]; [Kv]; [Kye]]); (lit "2", [[Kv; Kloop; Kloopv2; Kye]])].
Definition ex_dims := [(lit "1", 5%Z); (lit "2", 7%Z)].
Definition ex_derivs := [(lit "1", 0); (lit "2", 1)].

Example C108_hypotheses :
  (forall k es, In (k, es) ex_estimates -> exists e, In e es /\ (0 < ex_value e)%Qc) /\ data_ok (load ex_raw) /\
  forall k, In k (keys (load ex_raw)) -> In k (keys ex_estimates) /\ In k (keys ex_dims) /\ In k (keys ex_derivs).
Proof.
  split; [|split].
  - intros k es [E|[E|[]]]; inversion E; eexists; (split; [left; reflexivity|reflexivity]).
  - assert (load ex_raw = ex_data) as -> by (vm_compute; reflexivity). exact ex_data_ok.
  - intros k [<-|[<-|[]]]; cbn; auto 10.
Qed.

Example C108_example :
  match new_db ex_enum ex_raw democratic mass None with
  | Err _ => False
  | Ok d0 =>
      match fill_scale_dict (numerical ex_value ex_estimates) d0, symbolic_scale_dict ex_value ex_estimates with
      | Ok d, Ok symb =>
          match data_dict ex_enum ex_topology ex_dims ex_derivs (Some symb) d with
          | Ok c => k_op c = [lit "1"; lit "2"; lit "2"; lit "2"] /\ k_democratic c = [2; 6; 3; 3]%Z /\
                    k_symbolic c = [[Kv]; [Kv; Kloop; Kloopv2; Kye]; [Kv; Kloop; Kloopv2; Kye]; [Kv; Kloop; Kloopv2; Kye]] /\
                    k_min_loops c = [0; 1; 1; 1] /\ k_max_loops c = [0; 2; 2; 2] /\ k_fields c = [1; 2; 1; 1] /\
                    k_scalars c = [1; 1; 0; 0] /\ k_fermions c = [0; 1; 1; 1] /\ k_completion c = [lit "a"; lit "b"; lit "c"; lit "d"]
          | Err _ => False
          end /\
          (do d <- democratic_remove_equivalent_models ex_enum d;
           do d <- order_by_mass (numerical ex_value ex_estimates) d;
           do d <- filter_by_mass ex_enum d;
           do d <- filter_one_loop_weinberg ex_enum (Q2Qc 10) [3%Z] d;
           do c <- data_dict ex_enum ex_topology ex_dims ex_derivs (Some symb) d;
           Ok (k_completion c)) = Ok [lit "a"; lit "c"]
      | _, _ => False
      end
  end.
Proof. vm_compute. auto 12. Qed.

(** the table cannot be made before the scales are filled in, or if a completion has no topology *)
Example C108_fails :
  match new_db ex_enum ex_raw democratic mass None with
  | Ok d => data_dict ex_enum ex_topology ex_dims ex_derivs None d = Err TypeError /\
            (do symb <- symbolic_scale_dict ex_value ex_estimates;
             do d <- fill_scale_dict (numerical ex_value ex_estimates) d;
             data_dict ex_enum (fun _ => Err KeyError) ex_dims ex_derivs (Some symb) d) = Err KeyError
  | Err _ => False
  end.
Proof. vm_compute. auto. Qed.

Print Assumptions C108_rows.
Print Assumptions C108_made.
Print Assumptions C108_script.
