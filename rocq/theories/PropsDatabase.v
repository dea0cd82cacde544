(** * PropsDatabase: theorems about database/database.py (C15-C21, C58, C60, C62, C64-C68) *)

From Coq Require Import Ascii String List Bool Arith ZArith Znumtheory Lia Permutation Sorted QArith Qcanon.
From Verif Require Import Base BaseFacts Spec Show Primes ModelFunctions SpecFunctions ProofsFunctions
  ModelMatch ProofsMatch ModelRegistry SpecRegistry ProofsRegistry ModelDatabase SpecDatabase
  ProofsDatabase ProofsDatabase2 ProofsDatabase3.
Import ListNotations.
Local Open Scope nat_scope.

(** ** C15: model numbers *)

Lemma same_upto_iff {A} (R1 R2 : A -> A -> Prop) a b :
  (forall x y, In x a -> In y b -> (R1 x y <-> R2 x y)) -> (same_upto R1 a b <-> same_upto R2 a b).
Proof. intros H. split; apply same_upto_impl; intros x y Ix Iy; now apply H. Qed.

Lemma contains_upto_iff {A} (R1 R2 : A -> A -> Prop) a b :
  (forall x y, In x b -> In y a -> (R1 x y <-> R2 x y)) -> (contains_upto R1 a b <-> contains_upto R2 a b).
Proof. intros H. split; apply contains_upto_impl; intros x y Ix Iy; now apply H. Qed.

Section Faithful.
  Context (enum : list str -> list str) (Henum : set_order enum).

  Lemma fields_in src k m : model_of (sort_data src) k m ->
    forall x, In x (quantum_numbers enum m) -> In x (all_fields enum src).
  Proof using Type.
    intros Hm x Ix. apply model_of_sort in Hm as (m0 & Hm & ->). apply all_fields_In. exists k, m0. auto.
  Qed.

  Lemma terms_in src k m : model_of (sort_data src) k m -> forall x, In x (lz_terms m) -> In x (all_terms src).
  Proof using Type.
    intros Hm x Ix. apply model_of_sort in Hm as (m0 & Hm & ->). cbn in Ix. apply in_map_iff in Ix as (t & <- & It).
    apply all_terms_In. exists k, m0, t. auto.
  Qed.

  Lemma key_sorted src t : data_ok src -> In t (all_terms src) -> Forall field_string t /\ sorted_str t = t.
  Proof using Type.
    intros Hd I. apply all_terms_In in I as (k & m & t0 & Hm & It & ->). split; [|apply sorted_str_idem].
    destruct (Hd k m Hm) as (_ & F). rewrite Forall_forall in F. specialize (F t0 It). rewrite Forall_forall in *.
    intros x Ix. apply F. apply Permutation_in with (sorted_str t0); [symmetry; apply sorted_str_perm|exact Ix].
  Qed.

  Lemma new_db_faithful files ph cr data src d :
    src = match data with None => load files | Some x => x end -> data_ok src ->
    new_db enum files ph cr data = Ok d -> faithful enum d.
  Proof using Henum.
    intros Es Hd E. destruct (new_db_ok enum Henum files ph cr data src Es Hd) as (d' & ex & te & E' & -> & G1 & G2 & _).
    rewrite E' in E. inversion E; subst d. clear E E'. intros ka a kb b Ha Hb. cbn [d_data d_philosophy] in *.
    pose proof (all_fields_valid enum Henum src Hd) as Vf. pose proof (all_terms_valid src Hd) as Vt.
    set (d := mkDb ph cr (sort_data src) (match data with None => None | Some _ => Some true end) ex te None []).
    destruct ph.
    - exists (Zprod (map (label_of str_eqb ex) (quantum_numbers enum a))),
             (Zprod (map (label_of str_eqb ex) (quantum_numbers enum b))).
      split; [apply (democratic_ok enum Henum src d a); auto; exact (fields_in src ka a Ha)|].
      split; [apply (democratic_ok enum Henum src d b); auto; exact (fields_in src kb b Hb)|].
      split.
      { apply (labels_pos str_eqb conjugate_field field_string (all_fields enum src)); [exact G1|].
        intros x Ix. apply (proj1 G1); [|exists x; split; [exact (fields_in src ka a Ha x Ix)|left; reflexivity]].
        rewrite Forall_forall in Vf. apply Vf. exact (fields_in src ka a Ha x Ix). }
      destruct (labels_numbers str_eqb conjugate_field field_string (all_fields enum src) ex
                  (quantum_numbers enum a) (quantum_numbers enum b) G1) as (N1 & N2); [|exact Vf|].
      { intros x [I|I]; [exact (fields_in src ka a Ha x I)|exact (fields_in src kb b Hb x I)]. }
      cbn zeta in N1, N2. unfold equivalent_models, part_of. rewrite N1, N2. rewrite Forall_forall in Vf.
      split; [apply same_upto_iff|apply contains_upto_iff]; intros x y Ix Iy; apply same_class_field; apply Vf;
        exact (fields_in src ka a Ha x Ix).
    - exists (Zprod (map (label_of term_eqb te) (lz_terms a))), (Zprod (map (label_of term_eqb te) (lz_terms b))).
      split; [apply (stringent_ok enum Henum src d a); auto; exact (terms_in src ka a Ha)|].
      split; [apply (stringent_ok enum Henum src d b); auto; exact (terms_in src kb b Hb)|].
      split.
      { apply (labels_pos term_eqb conjugate_term valid_key (all_terms src)); [exact G2|].
        intros x Ix. apply (proj1 G2); [|exists x; split; [exact (terms_in src ka a Ha x Ix)|left; reflexivity]].
        rewrite Forall_forall in Vt. apply Vt. exact (terms_in src ka a Ha x Ix). }
      destruct (labels_numbers term_eqb conjugate_term valid_key (all_terms src) te
                  (lz_terms a) (lz_terms b) G2) as (N1 & N2); [|exact Vt|].
      { intros x [I|I]; [exact (terms_in src ka a Ha x I)|exact (terms_in src kb b Hb x I)]. }
      cbn zeta in N1, N2. unfold equivalent_models, part_of. rewrite N1, N2.
      split; [apply same_upto_iff|apply contains_upto_iff]; intros x y Ix Iy;
        destruct (key_sorted src x Hd (terms_in src ka a Ha x Ix)) as (Fx & Ex);
        destruct (key_sorted src y Hd (terms_in src kb b Hb y Iy)) as (Fy & Ey);
        pose proof (same_class_term x y Fx Fy) as S; now rewrite Ex, Ey in S.
  Qed.
End Faithful.

(** The constructor succeeds on well-formed data, keeps the models (with the fields of every term sorted), and
    the numbers of any two of them are equal exactly if the contents agree up to conjugation, and divide each
    other exactly if one content is part of the other. *)
Theorem C15_model_numbers :
  forall enum files ph cr data src,
    set_order enum -> src = match data with None => load files | Some x => x end -> data_ok src ->
    exists d, new_db enum files ph cr data = Ok d /\ d_philosophy d = ph /\ d_criterion d = cr /\
      d_data d = map (fun kv => (fst kv, map (fun m => mkLazy (lz_quantum_numbers m) (lz_operator m)
                                                         (map sorted_str (lz_terms m)) (lz_tail m)) (snd kv))) src /\
      faithful enum d.
Proof.
  intros enum files ph cr data src He Es Hd.
  destruct (new_db_ok enum He files ph cr data src Es Hd) as (d & ex & te & E & Ed & _).
  exists d. split; [exact E|]. rewrite Ed. cbn. split; [reflexivity|]. split; [reflexivity|]. split; [reflexivity|].
  rewrite <- Ed. eapply new_db_faithful; eauto.
Qed.

Lemma restrict_faithful enum d x :
  faithful enum d -> (forall k m, model_of x k m -> model_of (d_data d) k m) -> faithful enum (set_data d x).
Proof. intros F Hx ka a kb b Ha Hb. exact (F ka a kb b (Hx _ _ Ha) (Hx _ _ Hb)). Qed.

Lemma faithful_num enum d : faithful enum d ->
  (forall k m, model_of (d_data d) k m -> exists n, db_model_number enum d m = Ok n /\ (1 <= n)%Z).
Proof. intros F k m Hm. destruct (F k m k m Hm Hm) as (n & _ & E & _ & L & _). eauto. Qed.

Lemma faithful_numbers enum d ka a kb b : faithful enum d -> model_of (d_data d) ka a -> model_of (d_data d) kb b ->
  let num := num_of (db_model_number enum d) in
  (1 <= num a)%Z /\ (num a = num b <-> equivalent_models enum (d_philosophy d) a b) /\
  ((num b mod num a = 0)%Z <-> part_of enum (d_philosophy d) a b).
Proof.
  intros F Ha Hb num. destruct (F ka a kb b Ha Hb) as (na & nb & Ea & Eb & L & N1 & N2).
  unfold num, num_of. rewrite Ea, Eb. split; [exact L|]. split; [exact N1|]. rewrite <- N2.
  rewrite Z.mod_divide by lia. reflexivity.
Qed.

(** Strings for the examples: the fields S1 = (1,1)_1 and its conjugate, F3 = (1,3)_0. *)
Definition ex_S1 := lit "S,00,0,1,0".
Definition ex_S1c := lit "S,00,0,-1,0".
Definition ex_F3 := lit "F,00,2,0,0".
Definition ex_Ls := lit "L".
Definition ex_Lcs := lit "L.conj".
Definition ex_a := mkLazy [ex_S1] (lit "1") [[ex_S1; ex_Ls; ex_Ls]] (lit "a").
Definition ex_b := mkLazy [ex_F3; ex_S1c] (lit "2") [[ex_Lcs; ex_S1c; ex_Lcs]; [ex_F3; ex_Ls; lit "H"]] (lit "b").
Definition ex_c := mkLazy [ex_F3] (lit "2") [[ex_F3; ex_Ls; lit "H"]] (lit "c").
Definition ex_d := mkLazy [ex_F3] (lit "2") [[ex_Ls; ex_F3; lit "H"]] (lit "d").
Definition ex_data := [(lit "1", [ex_a]); (lit "2", [ex_b; ex_c; ex_d])].
Definition ex_enum (l : list str) : list str := nodup_by str_eqb l.

Lemma ex_enum_ok : set_order ex_enum.
Proof. intros l. split; [apply nodup_by_NoDup, str_decides|]. intros x. apply nodup_by_In, str_decides. Qed.

Example C15_example :
  match new_db ex_enum [] democratic mass (Some ex_data) with
  | Ok d => d_exotics d = [(ex_S1c, 2%Z); (ex_S1, 2%Z); (ex_F3, 3%Z)] /\
            mapM (db_model_number ex_enum d) [ex_a; ex_b; ex_c] = Ok [2; 6; 3]%Z
  | Err _ => False
  end.
Proof. vm_compute. auto. Qed.

Lemma ex_field_strings : Forall field_string [ex_S1; ex_S1c; ex_F3; ex_Ls; ex_Lcs; lit "H"].
Proof.
  assert (X : forall l c i y, ~ In ","%char l -> ~ In ","%char c -> ~ In ","%char i ->
              field_string (print_field (Ex (mkExotic l c i (Q2Qc y) (Q2Qc 0))))).
  { intros l c i y A B C. exists (Ex (mkExotic l c i (Q2Qc y) (Q2Qc 0))). split; [|reflexivity]. repeat split; assumption. }
  assert (M : forall f c, field_string (print_field (SM f c))) by (intros f c; exists (SM f c); split; [exact I|reflexivity]).
  constructor; [apply (X (lit "S") (lit "00") (lit "0") 1%Q); cbn; intuition discriminate|].
  constructor; [apply (X (lit "S") (lit "00") (lit "0") (-1)%Q); cbn; intuition discriminate|].
  constructor; [apply (X (lit "F") (lit "00") (lit "2") 0%Q); cbn; intuition discriminate|].
  constructor; [exact (M fL false)|]. constructor; [exact (M fL true)|]. constructor; [exact (M fH false)|]. constructor.
Qed.

Lemma ex_data_ok : data_ok ex_data.
Proof.
  pose proof ex_field_strings as F. rewrite Forall_forall in F.
  intros k m (v & I & Im). unfold ex_data in I. destruct I as [E|[E|[]]]; inversion E; subst.
  - destruct Im as [<-|[]]. split; cbn [ex_a lz_quantum_numbers lz_terms]; repeat constructor; apply F; simpl; auto 10.
  - destruct Im as [<-|[<-|[<-|[]]]]; (split; cbn [ex_b ex_c ex_d lz_quantum_numbers lz_terms]; repeat constructor; apply F; simpl; auto 10).
Qed.

(** ** C64: the inverse dictionaries *)

(** [int2exotic]: the i-th prime is mapped to the i-th field in the order of reading, counting each field and
    its conjugate once, and in the form in which it was first read. *)
Theorem C64_inverse_exotics :
  forall enum files ph cr data src,
    set_order enum -> src = match data with None => load files | Some x => x end -> data_ok src ->
    exists d reps, new_db enum files ph cr data = Ok d /\
      sublist reps (flat_map (fun kv => flat_map (fun m => enum (lz_quantum_numbers m)) (snd kv)) src) /\
      (forall p s, dget Z.eqb (inverse_dict (d_exotics d)) p = Some s <->
                   exists i, nth_error reps i = Some s /\ p = prime_ (S i)) /\
      (forall a s b t c, reps = a ++ s :: b ++ t :: c -> ~ same_field s t) /\
      (forall a s b, flat_map (fun kv => flat_map (fun m => enum (lz_quantum_numbers m)) (snd kv)) src = a ++ s :: b ->
                     In s reps \/ exists s0, In s0 a /\ In s0 reps /\ same_field s0 s).
Proof.
  intros enum files ph cr data src He Es Hd.
  destruct (new_db_ok enum He files ph cr data src Es Hd) as (d & ex & te & E & Ed & _ & _ & Ex & _).
  pose proof (all_fields_valid enum He src Hd) as V.
  set (reps := keep_first (class_eqb str_eqb conjugate_field) [] (all_fields enum src)) in *.
  exists d, reps. split; [exact E|]. change (flat_map _ src) with (all_fields enum src).
  assert (Sub : sublist reps (all_fields enum src)) by apply keep_first_sublist.
  split; [exact Sub|].
  assert (Vr : Forall field_string reps) by (eapply sublist_Forall; eauto).
  split; [|split].
  - rewrite Ed. cbn [d_exotics]. rewrite Ex. fold reps.
    apply (inverse_table str_eqb str_decides conjugate_field field_string field_string_conj reps Vr).
  - intros a s b t c Er S.
    assert (Vs : field_string s) by (rewrite Er in Vr; rewrite Forall_forall in Vr; apply Vr, in_or_app; right; left; reflexivity).
    apply same_class_field in S; [|exact Vs].
    destruct (keep_first_spec_pair (class_eqb str_eqb conjugate_field) (all_fields enum src) []) as (_ & K).
    specialize (K a s b t c Er). apply (class_eqb_iff str_eqb str_decides) in S. congruence.
  - intros a s b El.
    destruct (keep_first_covers (class_eqb str_eqb conjugate_field) (all_fields enum src) [] a s b El) as [I|[I|(s0 & I0 & I1 & C)]].
    + destruct I as (s0 & [] & _).
    + left. exact I.
    + right. exists s0. split; [exact I0|]. split; [exact I1|].
      apply (class_eqb_iff str_eqb str_decides) in C. apply same_class_field; [|exact C].
      rewrite Forall_forall in Vr. auto.
Qed.

Example C64_example :
  match new_db ex_enum [] democratic mass (Some ex_data) with
  | Ok d => inverse_dict (d_exotics d) = [(2%Z, ex_S1); (3%Z, ex_F3)]
  | Err _ => False
  end.
Proof. vm_compute. reflexivity. Qed.

(** the same for [int2term]: terms are compared up to order and conjugation *)
Theorem C64_inverse_terms :
  forall enum files ph cr data src,
    set_order enum -> src = match data with None => load files | Some x => x end -> data_ok src ->
    exists d reps, new_db enum files ph cr data = Ok d /\
      sublist reps (map sorted_str (flat_map (fun kv => flat_map lz_terms (snd kv)) src)) /\
      (forall p t, dget Z.eqb (inverse_dict (d_term_primes d)) p = Some t <->
                   exists i, nth_error reps i = Some t /\ p = prime_ (S i)) /\
      (forall a s b t c, reps = a ++ s :: b ++ t :: c -> ~ same_term s t).
Proof.
  intros enum files ph cr data src He Es Hd.
  destruct (new_db_ok enum He files ph cr data src Es Hd) as (d & ex & te & E & Ed & _ & _ & _ & Et).
  pose proof (all_terms_valid src Hd) as V.
  set (reps := keep_first (class_eqb term_eqb conjugate_term) [] (all_terms src)) in *.
  exists d, reps. split; [exact E|].
  assert (Sub : sublist reps (all_terms src)) by apply keep_first_sublist.
  assert (Vr : Forall valid_key reps) by (eapply sublist_Forall; eauto).
  split; [|split].
  - replace (map sorted_str _) with (all_terms src); [exact Sub|]. unfold all_terms, sort_data. clear.
    induction src as [|[k v] src IH]; [reflexivity|]. cbn [map flat_map fst snd]. rewrite map_app, IH. f_equal. clear.
    induction v as [|m v IH]; [reflexivity|]. cbn [map flat_map]. rewrite map_app, IH. reflexivity.
  - rewrite Ed. cbn [d_term_primes]. rewrite Et. fold reps.
    apply (inverse_table term_eqb term_eqb_decides conjugate_term valid_key valid_key_conj reps Vr).
  - intros a s b t c Er S.
    assert (Is : In s reps) by (rewrite Er; apply in_or_app; right; left; reflexivity).
    assert (It : In t reps).
    { rewrite Er. apply in_or_app. right. right. apply in_or_app. right. left. reflexivity. }
    destruct (key_sorted src s Hd (sublist_In _ Sub Is)) as (Fs & Ess).
    destruct (key_sorted src t Hd (sublist_In _ Sub It)) as (Ft & Ett).
    apply same_class_term in S; auto. rewrite Ess, Ett in S.
    destruct (keep_first_spec_pair (class_eqb term_eqb conjugate_term) (all_terms src) []) as (_ & K).
    specialize (K a s b t c Er). apply (class_eqb_iff term_eqb term_eqb_decides) in S. congruence.
Qed.

(** ** C16: filtering by neutrino-mass scale *)

Lemma scale_is_scale sc k s : NoDup (keys sc) -> scale_is sc k s -> scale sc k = s.
Proof. intros N I. unfold scale. now rewrite (In_dget str_decides sc k s N I). Qed.

(** The operators keep their places; a model survives exactly if no model that was present at the start, at an
    operator of strictly larger scale, has its content inside it. *)
Theorem C16_filter_by_mass :
  forall enum d sc,
    faithful enum d -> NoDup (keys (d_data d)) -> d_scales d = Some sc -> NoDup (keys sc) ->
    (forall k, In k (keys (d_data d)) -> exists s, scale_is sc k s) ->
    exists keep : str -> lazy -> bool,
      filter_by_mass enum d = Ok (set_data d (map (fun kv => (fst kv, filter (keep (fst kv)) (snd kv))) (d_data d))) /\
      forall k m, model_of (d_data d) k m ->
        (keep k m = true <->
         ~ exists op m0 s s0, model_of (d_data d) op m0 /\ scale_is sc k s /\ scale_is sc op s0 /\ (s < s0)%Qc /\
                              part_of enum (d_philosophy d) m0 m).
Proof.
  intros enum d sc F ND Hsc NS Hall.
  destruct (filter_by_mass_ok enum d sc ND Hsc) as (keep & E & K).
  - intros k I. destruct (Hall k I) as (s & Hs). apply (dmem_In str_decides). apply in_map_iff. exists (k, s). auto.
  - now apply faithful_num.
  - exists keep. split; [exact E|]. intros k m Hm. rewrite (K k m Hm). unfold dominated.
    assert (Q : (exists op m0, model_of (d_data d) op m0 /\ hi_mass sc op k = true /\
                   (num_of (db_model_number enum d) m mod num_of (db_model_number enum d) m0 = 0)%Z) <->
                exists op m0 s s0, model_of (d_data d) op m0 /\ scale_is sc k s /\ scale_is sc op s0 /\ (s < s0)%Qc /\
                                   part_of enum (d_philosophy d) m0 m); [|now rewrite Q].
    split.
    + intros (op & m0 & H0 & Hi & Hd). destruct (Hall k (model_of_key _ _ _ Hm)) as (s & Hs).
      destruct (Hall op (model_of_key _ _ _ H0)) as (s0 & Hs0). exists op, m0, s, s0.
      apply hi_mass_iff in Hi. rewrite (scale_is_scale _ _ _ NS Hs), (scale_is_scale _ _ _ NS Hs0) in Hi.
      repeat split; auto. now apply (faithful_numbers enum d op m0 k m F H0 Hm).
    + intros (op & m0 & s & s0 & H0 & Hs & Hs0 & L & P). exists op, m0. split; [exact H0|]. split.
      * apply hi_mass_iff. now rewrite (scale_is_scale _ _ _ NS Hs), (scale_is_scale _ _ _ NS Hs0).
      * now apply (faithful_numbers enum d op m0 k m F H0 Hm).
Qed.

Lemma model_of_perm (x y : list (str * list lazy)) k m : Permutation x y -> model_of x k m -> model_of y k m.
Proof. intros P (v & I & Im). exists v. split; [eapply Permutation_in; eauto|exact Im]. Qed.

(** the visiting order does not matter *)
Theorem C16_order_independent :
  forall enum d x sc,
    faithful enum d -> NoDup (keys (d_data d)) -> d_scales d = Some sc -> NoDup (keys sc) ->
    (forall k, In k (keys (d_data d)) -> exists s, scale_is sc k s) ->
    Permutation (d_data d) x ->
    exists d1 d2, filter_by_mass enum d = Ok d1 /\ filter_by_mass enum (set_data d x) = Ok d2 /\
      forall k m, model_of (d_data d1) k m <-> model_of (d_data d2) k m.
Proof.
  intros enum d x sc F ND Hsc NS Hall P.
  destruct (C16_filter_by_mass enum d sc F ND Hsc NS Hall) as (k1 & E1 & K1).
  assert (Pk : Permutation (keys (d_data d)) (keys x)) by (now apply Permutation_map).
  destruct (C16_filter_by_mass enum (set_data d x) sc) as (k2 & E2 & K2); cbn [set_data d_data d_scales].
  - apply restrict_faithful; [exact F|]. intros k m. apply model_of_perm. now symmetry.
  - eapply Permutation_NoDup; eauto.
  - exact Hsc.
  - exact NS.
  - intros k I. apply Hall. eapply Permutation_in; [symmetry; exact Pk|exact I].
  - eexists _, _. split; [exact E1|]. split; [exact E2|]. cbn [set_data d_data] in *.
    assert (H1 := model_of_restrict (d_data d) k1). assert (H2 := model_of_restrict x k2).
    unfold restrict in H1, H2. intros k m. rewrite H1, H2.
    assert (Q : model_of (d_data d) k m <-> model_of x k m)
      by (split; apply model_of_perm; [exact P|now symmetry]).
    rewrite Q. split; intros (M & T); (split; [exact M|]).
    + apply K2; [exact M|]. apply Q in M as M1. apply (K1 k m M1) in T. intros (op & m0 & s & s0 & A & B).
      apply T. exists op, m0, s, s0. split; [|exact B]. eapply model_of_perm; [symmetry; exact P|exact A].
    + apply Q in M as M1. apply K1; [exact M1|]. apply (K2 k m M) in T. intros (op & m0 & s & s0 & A & B).
      apply T. exists op, m0, s, s0. split; [|exact B]. eapply model_of_perm; [exact P|exact A].
Qed.

Definition ex_scales := [(lit "1", Q2Qc 100); (lit "2", Q2Qc 10)].
Definition ex_with (cr : criterion) (sc : option (list (str * Qc))) : res db :=
  do d <- new_db ex_enum [] democratic cr (Some ex_data);
  Ok (mkDb (d_philosophy d) (d_criterion d) (d_data d) (d_is_ordered d) (d_exotics d) (d_term_primes d) sc []).

(** model b contains the field of model a, which has the larger scale *)
Example C16_example :
  (do d <- ex_with mass (Some ex_scales); do d <- filter_by_mass ex_enum d;
   Ok (map (fun kv => (fst kv, map lz_tail (snd kv))) (d_data d)))
  = Ok [(lit "1", [lit "a"]); (lit "2", [lit "c"; lit "d"])].
Proof. vm_compute. reflexivity. Qed.

(** ** C17 and C65: filtering by dimension *)

Lemma dim_is_dim dims k n : NoDup (keys dims) -> dim_is dims k n -> dim dims k = n.
Proof. intros N I. unfold dim. now rewrite (In_dget str_decides dims k n N I). Qed.

(** As for masses, with strictly smaller dimensions.  The rows and columns of filter_data are the operators in
    their order: the number of additions made in the column of an operator is the number of its models that
    were removed. *)
Theorem C17_filter_by_dimension :
  forall enum dims d,
    faithful enum d -> NoDup (keys (d_data d)) -> NoDup (keys dims) -> d_filter_data d = [] ->
    (forall k, In k (keys (d_data d)) -> exists n, dim_is dims k n) ->
    exists (keep : str -> lazy -> bool) d',
      filter_by_dimension enum dims d = Ok d' /\
      d_data d' = map (fun kv => (fst kv, filter (keep (fst kv)) (snd kv))) (d_data d) /\
      (forall k m, model_of (d_data d) k m ->
        (keep k m = true <->
         ~ exists op m0 n n0, model_of (d_data d) op m0 /\ dim_is dims k n /\ dim_is dims op n0 /\ (n0 < n)%Z /\
                              part_of enum (d_philosophy d) m0 m)) /\
      (forall j k v, nth_error (d_data d) j = Some (k, v) ->
        List.length (filter (fun note => snd (fst note) =? j) (d_filter_data d')) + List.length (filter (keep k) v)
        = List.length v).
Proof.
  intros enum dims d F ND NS Hfd Hall.
  destruct (filter_by_dimension_ok enum dims d ND) as (keep & fd' & E & A & K).
  - intros k I. destruct (Hall k I) as (s & Hs). apply (dmem_In str_decides). apply in_map_iff. exists (k, s). auto.
  - now apply faithful_num.
  - exists keep, (with_data d (restrict (d_data d) keep) fd'). split; [exact E|]. split; [reflexivity|]. split.
    2:{ intros j k v En. specialize (A j k v En). rewrite Hfd in A. exact A. }
    intros k m Hm. rewrite (K k m Hm). unfold dominated.
    assert (Q : (exists op m0, model_of (d_data d) op m0 /\ hi_dim dims op k = true /\
                   (num_of (db_model_number enum d) m mod num_of (db_model_number enum d) m0 = 0)%Z) <->
                exists op m0 s s0, model_of (d_data d) op m0 /\ dim_is dims k s /\ dim_is dims op s0 /\ (s0 < s)%Z /\
                                   part_of enum (d_philosophy d) m0 m); [|now rewrite Q].
    split.
    + intros (op & m0 & H0 & Hi & Hd). destruct (Hall k (model_of_key _ _ _ Hm)) as (s & Hs).
      destruct (Hall op (model_of_key _ _ _ H0)) as (s0 & Hs0). exists op, m0, s, s0.
      apply hi_dim_iff in Hi. rewrite (dim_is_dim _ _ _ NS Hs), (dim_is_dim _ _ _ NS Hs0) in Hi.
      repeat split; auto. now apply (faithful_numbers enum d op m0 k m F H0 Hm).
    + intros (op & m0 & s & s0 & H0 & Hs & Hs0 & L & P). exists op, m0. split; [exact H0|]. split.
      * apply hi_dim_iff. now rewrite (dim_is_dim _ _ _ NS Hs), (dim_is_dim _ _ _ NS Hs0).
      * now apply (faithful_numbers enum d op m0 k m F H0 Hm).
Qed.

Definition ex_dims := [(lit "2", 7%Z); (lit "1", 5%Z)].

Example C17_example :
  (do d <- ex_with dimension None; do d <- filter_by_dimension ex_enum ex_dims d;
   Ok (map (fun kv => (fst kv, map lz_tail (snd kv))) (d_data d), d_filter_data d))
  = Ok ([(lit "1", [lit "a"]); (lit "2", [lit "c"; lit "d"])], [(0, 1, 3)]).
Proof. vm_compute. reflexivity. Qed.

(** The source documents the entry (i, j) of filter_data as the number of models rejected from operator j
    because of operator i.  What is added is 1/len(v), with the length of the list at that moment, so the entry
    need not be a number of models: one of the two models of operator 2 is rejected and the entry is 1/2, and
    the additions for one operator can be made with different lengths (1/3 + 1/2 below). *)
Definition ex_data65 :=
  [(lit "1", [ex_a; ex_c]); (lit "2", [ex_b; ex_d; mkLazy [lit "S,00,4,0,0"] (lit "2") [] (lit "e")])].

Theorem C65_filter_data_counts_refuted :
  exists d, new_db ex_enum [] democratic dimension (Some ex_data65) = Ok d /\
    (exists d', filter_by_dimension ex_enum ex_dims d = Ok d' /\ d_filter_data d' = [(0, 1, 3); (0, 1, 2)]).
Proof. eexists. split; [vm_compute; reflexivity|]. eexists. split; vm_compute; reflexivity. Qed.

(** ** C18: removing equivalent models *)

Theorem C18_remove_equivalent_models :
  forall enum d, faithful enum d -> NoDup (keys (d_data d)) ->
    exists x, remove_equivalent_models enum d = Ok (set_data d x) /\
      Forall2 (fun kv kv' =>
                 fst kv' = fst kv /\ sublist (snd kv') (snd kv) /\
                 (forall a m b m' c, snd kv' = a ++ m :: b ++ m' :: c ->
                                     ~ equivalent_models enum (d_philosophy d) m m') /\
                 (forall a m b, snd kv = a ++ m :: b ->
                    In m (snd kv') \/
                    exists m0, In m0 a /\ In m0 (snd kv') /\ equivalent_models enum (d_philosophy d) m0 m))
              (d_data d) x.
Proof.
  intros enum d F ND.
  set (num := num_of (db_model_number enum d)).
  assert (Hn : forall k m, model_of (d_data d) k m -> db_model_number enum d m = Ok (num m)).
  { intros k m Hm. destruct (faithful_num enum d F k m Hm) as (n & E & _). unfold num, num_of. now rewrite E. }
  unfold remove_equivalent_models.
  rewrite (remove_equivalent_with_ok (db_model_number enum d) num (d_data d) ND Hn). cbn [bind].
  eexists. split; [reflexivity|].
  assert (All : forall k v, In (k, v) (d_data d) -> forall m, In m v -> model_of (d_data d) k m)
    by (intros k v I m Im; exists v; auto).
  revert All. generalize (d_data d) at 1 3 4 as l. induction l as [|[k v] l IH]; intros All; cbn [map]; constructor.
  - cbn [fst snd]. split; [reflexivity|].
    assert (Sub : sublist (keep_first (fun x y => (num x =? num y)%Z) [] v) v) by apply keep_first_sublist.
    assert (Hv : forall m, In m v -> model_of (d_data d) k m) by (apply All; left; reflexivity).
    assert (Hw : forall m, In m (keep_first (fun x y => (num x =? num y)%Z) [] v) -> model_of (d_data d) k m)
      by (intros m I; apply Hv; eapply sublist_In; eauto).
    split; [exact Sub|]. split.
    + intros a m b m' c E Q.
      destruct (keep_first_spec_pair (fun x y => (num x =? num y)%Z) v []) as (_ & K). specialize (K a m b m' c E).
      apply Z.eqb_neq in K. apply K.
      apply (faithful_numbers enum d k m k m' F); [apply Hw|apply Hw|exact Q]; rewrite E; apply in_or_app; right;
        [left; reflexivity|right; apply in_or_app; right; left; reflexivity].
    + intros a m b E.
      destruct (keep_first_covers (fun x y => (num x =? num y)%Z) v [] a m b E) as [(s & [] & _)|[I|(s0 & I0 & I1 & C)]];
        [left; exact I|right]. exists s0. split; [exact I0|]. split; [exact I1|].
      apply (faithful_numbers enum d k s0 k m F); [now apply Hw| |now apply Z.eqb_eq].
      apply Hv. rewrite E. apply in_or_app. right. left. reflexivity.
  - apply IH. intros k1 v1 I. apply All. now right.
Qed.

Example C18_example :
  (do d <- ex_with mass None; do d <- remove_equivalent_models ex_enum d;
   Ok (map (fun kv => (fst kv, map lz_tail (snd kv))) (d_data d)))
  = Ok [(lit "1", [lit "a"]); (lit "2", [lit "b"; lit "c"])].
Proof. vm_compute. reflexivity. Qed.

(** ** C19: force *)

(** Only the last operator is left. *)
Theorem C19_force_last :
  forall (X : Type) (eval : str -> res X) data k v,
    (forall kv m, In kv (data ++ [(k, v)]) -> In m (snd kv) -> is_ok (eval (lz_tail m)) = true) ->
    exists xs, force eval (data ++ [(k, v)]) = Ok (Some [(k, xs)]) /\ mapM (fun m => eval (lz_tail m)) v = Ok xs.
Proof.
  intros X eval data k v H.
  assert (M : forall l, (forall m, In m l -> is_ok (eval (lz_tail m)) = true) ->
                        exists xs, mapM (fun m => eval (lz_tail m)) l = Ok xs).
  { induction l as [|m l IH]; intros Hl; [exists []; reflexivity|]. cbn.
    specialize (Hl m (or_introl eq_refl)) as Hm. destruct (eval (lz_tail m)) as [x|]; [|discriminate].
    destruct IH as (xs & ->); [intros; apply Hl; now right|]. cbn. eauto. }
  unfold force. rewrite foldM_app.
  assert (G : forall l st, (forall kv m, In kv l -> In m (snd kv) -> is_ok (eval (lz_tail m)) = true) ->
    exists st', foldM (fun (_ : option (list (str * list X))) kv =>
             do xs <- mapM (fun m => eval (lz_tail m)) (snd kv); Ok (Some [(fst kv, xs)])) l st = Ok st').
  { induction l as [|kv l IH]; intros st Hl; [eexists; reflexivity|]. cbn [foldM].
    destruct (M (snd kv)) as (xs & ->); [intros; eapply Hl; [left; reflexivity|assumption]|]. cbn [bind].
    apply IH. intros; eapply Hl; [right; eassumption|assumption]. }
  destruct (G data None) as (st & ->).
  { intros kv m I. apply H. apply in_or_app. auto. }
  cbn [bind foldM fst snd]. destruct (M v) as (xs & E).
  { intros m Im. apply (H (k, v) m); [apply in_or_app; right; left; reflexivity|exact Im]. }
  rewrite E. cbn [bind]. eauto.
Qed.

Theorem C19_force_refuted :
  force (fun s => Ok s) ex_data = Ok (Some [(lit "2", [lit "b"; lit "c"; lit "d"])]) /\
  keys ex_data = [lit "1"; lit "2"].
Proof. split; reflexivity. Qed.

(** A database with at most one operator is forced completely. *)
Theorem C19_force_partial :
  forall (X : Type) (eval : str -> res X) k v xs,
    mapM (fun m => eval (lz_tail m)) v = Ok xs ->
    force eval [(k, v)] = Ok (Some [(k, xs)]) /\ List.length xs = List.length v.
Proof.
  intros X eval k v xs E. unfold force. cbn [foldM fst snd]. rewrite E. split; [reflexivity|].
  revert xs E. induction v as [|m v IH]; intros xs E; cbn in E; [inversion E; reflexivity|].
  destruct (eval (lz_tail m)); [|discriminate]. cbn in E.
  destruct (mapM (fun m => eval (lz_tail m)) v) as [ys|]; [|discriminate]. inversion E. cbn. f_equal. now apply IH.
Qed.

(** ** C20: orders *)

Theorem C20_order_by_mass :
  forall estimates d,
    NoDup (keys (d_data d)) -> NoDup (keys estimates) -> (forall k es, In (k, es) estimates -> es <> []) ->
    exists sc x,
      order_by_mass estimates d
      = Ok (mkDb (d_philosophy d) (d_criterion d) x (Some true) (d_exotics d) (d_term_primes d) (Some sc)
                 (d_filter_data d)) /\
      keys x = keys sc /\ NoDup (keys x) /\
      StronglySorted (fun a b => (b <= a)%Qc) (values sc) /\
      (forall k s, In (k, s) sc <-> In k (keys (d_data d)) /\ exists es, In (k, es) estimates /\ largest s es) /\
      (forall k v, In (k, v) x <-> In (k, v) (d_data d) /\ In k (keys estimates)).
Proof. exact order_by_mass_ok. Qed.

(** an operator of the data without an estimate disappears, silently *)
Example C20_mass_example :
  (do d <- ex_with mass None;
   do d <- order_by_mass [(lit "9", [Q2Qc 1]); (lit "2", [Q2Qc 3; Q2Qc 10; Q2Qc 4])] d; Ok (keys (d_data d)))
  = Ok [lit "2"].
Proof. vm_compute. reflexivity. Qed.

Theorem C20_order_by_dimension :
  forall dims d,
    NoDup (keys dims) -> (forall k, In k (keys (d_data d)) -> exists n, dim_is dims k n) ->
    exists x,
      order_by_dimension dims d
      = Ok (mkDb (d_philosophy d) (d_criterion d) x (Some true) (d_exotics d) (d_term_primes d) (d_scales d)
                 (d_filter_data d)) /\
      Permutation (d_data d) x /\
      (forall a kv b kv' c n n', x = a ++ kv :: b ++ kv' :: c -> dim_is dims (fst kv) n -> dim_is dims (fst kv') n' ->
                                 (n <= n')%Z) /\
      (* operators of equal dimension keep their order *)
      (forall kv kv' a b c n, d_data d = a ++ kv :: b ++ kv' :: c -> kv <> kv' ->
          dim_is dims (fst kv) n -> dim_is dims (fst kv') n ->
          exists a' b' c', x = a' ++ kv :: b' ++ kv' :: c').
Proof.
  intros dims d N Hall.
  destruct (order_by_dimension_ok dims d) as (x & E & P & S & St).
  { intros k I. destruct (Hall k I) as (n & Hn). apply (dmem_In str_decides). apply in_map_iff. exists (k, n). auto. }
  exists x. split; [exact E|]. split; [exact P|]. split.
  - intros a kv b kv' c n n' Ex D D'. rewrite Ex in S. clear -S D D' N.
    rewrite <- (dim_is_dim _ _ _ N D), <- (dim_is_dim _ _ _ N D'). induction a as [|z a IH]; cbn in S.
    + inversion S as [|? ? _ Fa]; subst. rewrite Forall_forall in Fa. apply Fa. apply in_or_app. right. left. reflexivity.
    + inversion S; subst. auto.
  - intros kv kv' a b c n Ed Hne D D'. specialize (St n). rewrite Ed in St.
    apply dim_is_dim in D; auto. apply dim_is_dim in D'; auto.
    rewrite filter_app in St. cbn [filter] in St. rewrite D, Z.eqb_refl in St. rewrite filter_app in St. cbn [filter] in St.
    rewrite D', Z.eqb_refl in St. clear -St.
    set (P := fun kv : str * list lazy => (dim dims (fst kv) =? n)%Z) in *.
    revert St. generalize (filter P a) (filter P b) (filter P c). clear. intros a b c.
    assert (G : forall (l0 : list (str * list lazy)) a z r, filter P l0 = a ++ z :: r ->
                exists a' r', l0 = a' ++ z :: r' /\ filter P r' = r).
    { induction l0 as [|y l0 IH]; intros a0 z r E; cbn [filter] in E; [destruct a0; discriminate E|].
      destruct (P y) eqn:Py.
      - destruct a0 as [|w a0]; cbn [app] in E; inversion E; subst.
        + exists [], l0. split; reflexivity.
        + destruct (IH a0 z r H1) as (a' & r' & -> & Er). exists (w :: a'), r'. auto.
      - destruct (IH a0 z r E) as (a' & r' & -> & Er). exists (y :: a'), r'. auto. }
    intros St. destruct (G _ _ _ _ St) as (a' & r' & -> & Er). destruct (G _ _ _ _ Er) as (b' & c' & -> & _).
    exists a', b', c'. reflexivity.
Qed.

Example C20_dimension_example :
  (do d <- ex_with dimension None; do d <- order_by_dimension [(lit "1", 9%Z); (lit "2", 7%Z)] d; Ok (keys (d_data d)))
  = Ok [lit "2"; lit "1"].
Proof. vm_compute. reflexivity. Qed.

(** an unknown operator stops the ordering *)
Theorem C20_order_by_dimension_unknown :
  forall dims d a k v b, d_data d = a ++ (k, v) :: b -> ~ In k (keys dims) ->
    order_by_dimension dims d = Err KeyError.
Proof.
  intros dims d a k v b E N. unfold order_by_dimension. rewrite E.
  assert (G : mapM (fun kv : str * list lazy => do m <- dgetM str_eqb dims (fst kv); Ok (m, kv)) (a ++ (k, v) :: b)
              = Err KeyError); [|now rewrite G].
  clear E. induction a as [|kv a IH]; cbn [app mapM fst].
  - unfold dgetM. destruct (dget str_eqb dims k) as [z|] eqn:Eg; [|reflexivity].
    exfalso. apply N. apply (dget_In str_decides) in Eg. apply in_map_iff. exists (k, z). auto.
  - unfold dgetM in *. destruct (dget str_eqb dims (fst kv)); cbn [bind]; [|reflexivity].
    rewrite IH. reflexivity.
Qed.

(** fill_scale_dict: the same scales, for every operator that has estimates, when they are positive *)
Theorem C20_fill_scale_dict :
  forall estimates d,
    NoDup (keys estimates) -> (forall k es, In (k, es) estimates -> exists e, In e es /\ (0 < e)%Qc) ->
    exists sc, fill_scale_dict estimates d
      = Ok (mkDb (d_philosophy d) (d_criterion d) (d_data d) (d_is_ordered d) (d_exotics d) (d_term_primes d) (Some sc)
                 (d_filter_data d)) /\
      keys sc = keys estimates /\
      forall k s, In (k, s) sc <-> exists es, In (k, es) estimates /\ largest s es.
Proof.
  intros estimates d N Hp. unfold fill_scale_dict.
  assert (G : forall l acc, NoDup (keys acc ++ keys l) -> (forall k es, In (k, es) l -> exists e, In e es /\ (0 < e)%Qc) ->
    exists sc, foldM (fun sd kv =>
                      let m := fold_left (fun m y => if Qc_geb m y then m else y) (snd kv) (Q2Qc 0) in
                      if Qc_geb (Q2Qc 0) m then Err AssertionError else Ok (dset str_eqb sd (fst kv) m)) l acc
               = Ok (acc ++ sc) /\ keys sc = keys l /\
               forall k s, In (k, s) sc <-> exists es, In (k, es) l /\ largest s es).
  { clear. induction l as [|[k es] l IH]; intros acc N Hp; cbn [foldM].
    - exists []. rewrite app_nil_r. split; [reflexivity|]. split; [reflexivity|]. intros k s.
      split; [intros []|intros (es & [] & _)].
    - cbv zeta. cbn [fst snd]. pose proof (fold_max es (Q2Qc 0)) as M. cbv zeta in M.
      set (m := fold_left (fun m y => if Qc_geb m y then m else y) es (Q2Qc 0)) in *.
      destruct (Hp k es (or_introl eq_refl)) as (e & Ie & Pe). destruct M as (Im & M).
      assert (Lm : (0 < m)%Qc) by (eapply Qclt_le_trans; [exact Pe|]; apply M; right; exact Ie).
      destruct (Qc_geb (Q2Qc 0) m) eqn:Eg.
      { exfalso. apply Qc_geb_iff in Eg. apply Qclt_not_le in Lm. contradiction. }
      cbn [bind].
      assert (Lg : largest m es).
      { split; [|intros y Iy; apply M; now right]. destruct Im as [Im|Im]; [|exact Im].
        exfalso. rewrite <- Im in Lm. now apply Qclt_not_eq in Lm. }
      assert (Nk : ~ In k (keys acc)).
      { cbn [keys map fst] in N. apply NoDup_remove_2 in N. rewrite in_app_iff in N. tauto. }
      rewrite dset_new; [|apply str_decides|].
      2:{ apply not_true_is_false. intros T. apply (dmem_In str_decides) in T. contradiction. }
      destruct (IH (acc ++ [(k, m)])) as (sc & E & Ek & Hs).
      + unfold keys in *. rewrite map_app, <- app_assoc. exact N.
      + intros; eapply Hp; right; eassumption.
      + exists ((k, m) :: sc). cbv zeta in E. rewrite E, <- app_assoc. split; [reflexivity|].
        split; [unfold keys in *; cbn [map fst]; now rewrite Ek|].
        intros k1 s1. cbn [In]. rewrite Hs. split.
        * intros [Q|(es1 & I1 & L1)]; [inversion Q; subst; eauto|eauto].
        * intros (es1 & [Q|I1] & L1); [|eauto]. inversion Q; subst. left. f_equal.
          destruct Lg as (A & B). destruct L1 as (C & D). apply Qcle_antisym; auto. }
  destruct (G estimates [] N Hp) as (sc & E & Ek & Hs). exists sc. split; [|auto].
  match goal with |- bind ?X _ = _ => replace X with (Ok sc : res (list (str * Qc))) by (symmetry; exact E) end. reflexivity.
Qed.

(** ** C60: subsets *)

Theorem C60_subsets :
  forall (A : Type) (l : list A),
    (forall s, In s (subsets l) <-> sublist s l) /\
    List.length (subsets l) = 2 ^ List.length l /\
    (NoDup l -> NoDup (subsets l)) /\
    (* shorter ones first *)
    StronglySorted (fun s t => List.length s <= List.length t) (subsets l).
Proof.
  intros A l. split; [apply subsets_In|]. split; [apply subsets_length|]. split; [apply subsets_NoDup|].
  unfold subsets. generalize (List.length l + 1) as n. intros n.
  assert (G : forall a, StronglySorted (fun s t : list A => List.length s <= List.length t)
                          (concat (map (fun i => combinations i l) (seq a n)))); [|apply G].
  induction n as [|n IH]; intros a; cbn [seq map concat]; [constructor|].
  apply StronglySorted_app; [|apply IH|].
  - assert (Hl : forall s, In s (combinations a l) -> List.length s = a) by (intros s I; now apply combinations_In in I).
    induction (combinations a l) as [|s c IHc]; constructor.
    + apply IHc. intros; apply Hl; now right.
    + apply Forall_forall. intros t It. rewrite (Hl s), (Hl t); [lia|now right|now left].
  - intros s t Is It. apply combinations_In in Is as (_ & <-).
    apply in_concat in It as (c & Ic & It). apply in_map_iff in Ic as (k & <- & Ik). apply in_seq in Ik.
    apply combinations_In in It as (_ & <-). lia.
Qed.

Example C60_example : subsets [1; 2; 3] = [[]; [1]; [2]; [3]; [1; 2]; [1; 3]; [2; 3]; [1; 2; 3]].
Proof. reflexivity. Qed.

(** ** C21: related_models *)

(** [factorint] is sympy's: the distinct primes dividing its argument.  For a model whose number is squarefree
    and has at least two prime factors (at least two fields, none of which is repeated or the conjugate of
    another), the rows returned are exactly the other rows whose number is a product of at least two of them. *)
Theorem C21_related_models :
  forall factorint df index n,
    NoDup (keys df) -> In (index, n) df -> (1 < n)%Z -> ~ prime n -> (forall p, prime p -> ~ (p * p | n)%Z) ->
    NoDup (factorint n) -> (forall p, In p (factorint n) <-> prime p /\ (p | n)%Z) ->
    exists out, related_models factorint df index = Ok out /\ NoDup out /\
      forall j, In j out <-> j <> index /\ exists m, In (j, m) df /\ (1 < m)%Z /\ ~ prime m /\ (m | n)%Z.
Proof.
  intros factorint df index n ND Hi L Np Sq N1 N2. apply (related_ok factorint df index n); auto; try lia. split; auto.
Qed.

(** Otherwise the row itself is not among the rows found and its removal raises ValueError, so the related
    models of a model with a single field, or with a repeated field, cannot be asked for. *)
Theorem C21_related_models_refuted :
  forall factorint df index n,
    NoDup (keys df) -> In (index, n) df -> (1 <= n)%Z ->
    NoDup (factorint n) -> (forall p, In p (factorint n) <-> prime p /\ (p | n)%Z) ->
    n = 1%Z \/ prime n \/ (exists p, prime p /\ (p * p | n)%Z) ->
    related_models factorint df index = Err ValueError.
Proof.
  intros factorint df index n ND Hi L N1 N2 Hbad. apply (related_err factorint df index n); auto; [split; auto|].
  intros (S & A & B). destruct Hbad as [E|[E|(p & Pp & D)]]; auto. now apply (S p).
Qed.

Definition ex_factorint (n : Z) : list Z := filter (fun p => (n mod p =? 0)%Z) [2; 3; 5]%Z.

Example C21_example :
  related_models ex_factorint [(10, 30); (11, 6); (12, 2); (13, 15); (14, 7); (15, 30)]%Z 10%Z
    = Ok [11; 13; 15]%Z /\
  related_models ex_factorint [(10, 30); (11, 6); (12, 2)]%Z 12%Z = Err ValueError /\
  related_models ex_factorint [(10, 4); (11, 6)]%Z 10%Z = Err ValueError.
Proof. vm_compute. auto. Qed.

(** ** C62: reading several files *)

(** For a single file everything is there. *)
Theorem C62_read_completions :
  forall file,
    NoDup (keys (read_completions file)) /\
    forall k v, In (k, v) (read_completions file) <->
                v = filter (fun c => str_eqb (lz_operator c) k) file /\ exists c, In c file /\ lz_operator c = k.
Proof.
  intros file. pose proof (read_completions_NoDup file) as N. split; [exact N|]. intros k v.
  assert (Q : In (k, v) (read_completions file) <-> dget str_eqb (read_completions file) k = Some v).
  { split; [now apply (In_dget str_decides)|apply (dget_In str_decides)]. }
  rewrite Q, read_completions_get.
  destruct (filter (fun c => str_eqb (lz_operator c) k) file) as [|c l] eqn:Ef.
  - split; [discriminate|]. intros (_ & c & Ic & Ec). exfalso.
    assert (I : In c (filter (fun c => str_eqb (lz_operator c) k) file)).
    { apply filter_In. split; [exact Ic|]. rewrite Ec. apply (decides_refl str_decides). }
    rewrite Ef in I. destruct I.
  - split.
    + intros E. inversion E; subst. split; [reflexivity|]. exists c.
      assert (I : In c (filter (fun c => str_eqb (lz_operator c) k) file)) by (rewrite Ef; left; reflexivity).
      apply filter_In in I as (I & Ec). split; [exact I|now apply str_decides].
    + intros (-> & _). reflexivity.
Qed.

(** For several files the completions of an operator are those of the last file that names it. *)
Theorem C62_load_last :
  forall files k v,
    dget str_eqb (load files) k = Some v <->
    exists before file after, files = before ++ file :: after /\
      v = filter (fun c => str_eqb (lz_operator c) k) file /\ v <> [] /\
      forall f c, In f after -> In c f -> lz_operator c <> k.
Proof.
  intros files k. induction files as [|f files IH] using rev_ind; intros v.
  - cbn. split; [discriminate|]. intros (b & x & a & E & _). destruct b; discriminate.
  - rewrite load_get_snoc. destruct (filter (fun c => str_eqb (lz_operator c) k) f) as [|c l] eqn:Ef.
    + assert (Nf : forall c, In c f -> lz_operator c <> k).
      { intros c Ic Ec. assert (I : In c (filter (fun c => str_eqb (lz_operator c) k) f)).
        { apply filter_In. split; [exact Ic|]. rewrite Ec. apply (decides_refl str_decides). }
        rewrite Ef in I. destruct I. }
      rewrite IH. split.
      * intros (b & x & a & -> & Ev & Nv & Ha). exists b, x, (a ++ [f]). split; [now rewrite <- app_assoc|].
        split; [exact Ev|]. split; [exact Nv|]. intros g c Ig Ic. apply in_app_iff in Ig as [Ig|[<-|[]]]; eauto.
      * intros (b & x & a & E & Ev & Nv & Ha). destruct a as [|y a] using rev_ind.
        -- apply app_inj_tail in E as (-> & ->). exfalso. apply Nv. now rewrite Ev.
        -- clear IHa. rewrite app_comm_cons, app_assoc in E. apply app_inj_tail in E as (-> & ->).
           exists b, x, a. split; [reflexivity|]. split; [exact Ev|]. split; [exact Nv|].
           intros g c Ig Ic. eapply Ha; [apply in_or_app; left; exact Ig|exact Ic].
    + split.
      * intros E. inversion E; subst. exists files, f, []. split; [reflexivity|]. split; [now rewrite Ef|].
        split; [discriminate|]. intros g c' [].
      * intros (b & x & a & E & Ev & Nv & Ha). destruct a as [|y a] using rev_ind.
        -- apply app_inj_tail in E as (-> & ->). rewrite Ev, Ef. reflexivity.
        -- clear IHa. rewrite app_comm_cons, app_assoc in E. apply app_inj_tail in E as (-> & ->). exfalso.
           assert (I : In c (filter (fun c => str_eqb (lz_operator c) k) y)) by (rewrite Ef; left; reflexivity).
           apply filter_In in I as (I & Ec). apply str_decides in Ec.
           eapply Ha; [apply in_or_app; right; left; reflexivity|exact I|exact Ec].
Qed.

(** So nothing is lost exactly when no operator is named in two files; in general completions are lost. *)
Theorem C62_load_disjoint :
  forall files,
    (forall a f b g c x y, files = a ++ f :: b ++ g :: c -> In x f -> In y g -> lz_operator x <> lz_operator y) ->
    forall k, dget str_eqb (load files) k
              = match filter (fun c => str_eqb (lz_operator c) k) (concat files) with [] => None | l => Some l end.
Proof.
  intros files. induction files as [|f files IH] using rev_ind; intros Hd k; [reflexivity|].
  rewrite load_get_snoc, concat_app, filter_app. cbn [concat]. rewrite app_nil_r.
  rewrite IH.
  - destruct (filter (fun c => str_eqb (lz_operator c) k) f) as [|c l] eqn:Ef; [now rewrite app_nil_r|].
    destruct (filter (fun c => str_eqb (lz_operator c) k) (concat files)) as [|x r] eqn:Eg; [reflexivity|].
    exfalso.
    assert (Ic : In c (filter (fun c => str_eqb (lz_operator c) k) f)) by (rewrite Ef; left; reflexivity).
    assert (Ix : In x (filter (fun c => str_eqb (lz_operator c) k) (concat files))) by (rewrite Eg; left; reflexivity).
    apply filter_In in Ic as (Ic & Ec). apply filter_In in Ix as (Ix & Ex). apply str_decides in Ec, Ex.
    apply in_concat in Ix as (g & Ig & Ix). apply in_split in Ig as (a & b & ->).
    apply (Hd a g b f [] x c); auto; [now rewrite <- app_assoc|congruence].
  - intros a g b h c x y E. apply (Hd a g b h (c ++ [f]) x y). rewrite E. now rewrite <- app_assoc, <- app_comm_cons, <- app_assoc.
Qed.

Theorem C62_load_refuted :
  load [[ex_b]; [ex_c]] = [(lit "2", [ex_c])].
Proof. vm_compute. reflexivity. Qed.

(** ** C58: field queries *)

(** A query with a complete field string finds the fields that agree in everything but the last entry, of
    which the entry asked for is a prefix. *)
Theorem C58_contains_field :
  forall enum m e, set_order enum -> model_ok m -> exotic_ok e ->
    (contains_field enum m (print_exotic e) = true <->
     exists f, exotic_ok f /\ In (print_exotic f) (lz_quantum_numbers m) /\
               e_lor f = e_lor e /\ e_col f = e_col e /\ e_iso f = e_iso e /\ e_hyp f = e_hyp e /\
               exists rest, show_Q (e_bar f) = show_Q (e_bar e) ++ rest).
Proof.
  intros enum m e He (Fm & _) Oe. unfold contains_field, matches_in, re_match, quantum_numbers.
  rewrite existsb_exists. rewrite Forall_forall in Fm. split.
  - intros (s & Is & S). rewrite (proj2 (He _)) in Is. destruct (Fm s Is) as ([f c|f] & Of & ->).
    + rewrite prefix_sm in S. discriminate.
    + cbn [print_field] in *. apply prefix_exotic in S as (A & B & C & D & P); auto. apply startswith_iff in P.
      exists f. repeat split; auto; apply Of.
  - intros (f & Of & I & A & B & C & D & P). exists (print_exotic f). split; [now apply (proj2 (He _))|].
    apply prefix_exotic; auto. repeat split; auto. apply startswith_iff. destruct P as (r & P). eauto.
Qed.

(** With last entry 0 the match is exact. *)
Theorem C58_contains_field_exact :
  forall enum m e, set_order enum -> model_ok m -> exotic_ok e -> e_bar e = 0%Qc ->
    (contains_field enum m (print_exotic e) = true <-> In (print_exotic e) (lz_quantum_numbers m)).
Proof.
  intros enum m e He (Fm & _) Oe Z. unfold contains_field, matches_in, re_match, quantum_numbers.
  rewrite existsb_exists. rewrite Forall_forall in Fm. split.
  - intros (s & Is & S). rewrite (proj2 (He _)) in Is. destruct (Fm s Is) as ([f c|f] & Of & ->).
    + rewrite prefix_sm in S. discriminate.
    + cbn [print_field] in *. apply prefix_exotic_zero in S; auto. now subst.
  - intros I. exists (print_exotic e). split; [now apply (proj2 (He _))|]. now apply prefix_exotic_zero.
Qed.

(** With another last entry it is not: 3B = 1 also finds 3B = 1/2. *)
Theorem C58_contains_field_refuted :
  let e := mkExotic (lit "S") (lit "10") (lit "0") (Q2Qc 1) (Q2Qc 1) in
  let f := mkExotic (lit "S") (lit "10") (lit "0") (Q2Qc 1) (Q2Qc (1#2)) in
  contains_field ex_enum (mkLazy [print_exotic f] [] [] []) (print_exotic e) = true /\ print_exotic e <> print_exotic f.
Proof. vm_compute. split; [reflexivity|discriminate]. Qed.

Theorem C58_no_seesaws :
  forall enum m, set_order enum -> model_ok m ->
    (no_seesaws enum m = true <->
     ~ In (lit "F,00,2,0,0") (lz_quantum_numbers m) /\ ~ In (lit "F,00,0,0,0") (lz_quantum_numbers m) /\
     ~ In (lit "S,00,2,1,0") (lz_quantum_numbers m)).
Proof.
  intros enum m He Hm.
  assert (X : forall l i y, ~ In ","%char l -> ~ In ","%char i ->
    let e := mkExotic l (lit "00") i (Q2Qc y) (Q2Qc 0) in
    contains_field enum m (print_exotic e) = true <-> In (print_exotic e) (lz_quantum_numbers m)).
  { intros l i y A B e. apply C58_contains_field_exact; auto. repeat split; cbn; auto. intuition discriminate. }
  assert (X1 := X (lit "F") (lit "2") 0%Q). assert (X2 := X (lit "F") (lit "0") 0%Q).
  assert (X3 := X (lit "S") (lit "2") 1%Q). clear X. cbv zeta in *.
  change (print_exotic _) with (lit "F,00,2,0,0") in X1. change (print_exotic _) with (lit "F,00,0,0,0") in X2.
  change (print_exotic _) with (lit "S,00,2,1,0") in X3.
  unfold no_seesaws. rewrite !andb_true_iff, !negb_true_iff, <- !not_true_iff_false.
  rewrite X1, X2, X3; cbn; intuition discriminate.
Qed.

(** The conjugate of the scalar triplet is not recognised. *)
Theorem C58_no_seesaws_conjugate_refuted :
  same_field (lit "S,00,2,1,0") (lit "S,00,2,-1,0") /\
  no_seesaws ex_enum (mkLazy [lit "S,00,2,-1,0"] [] [] []) = true.
Proof.
  split; [|vm_compute; reflexivity]. right.
  exists (Ex (mkExotic (lit "S") (lit "00") (lit "2") (Q2Qc 1) (Q2Qc 0))).
  split; [repeat split; cbn; intuition discriminate|]. split; reflexivity.
Qed.

(** ** C68: interaction queries *)

(** Each pattern is matched on its own: one field may answer for several patterns. *)
Theorem C68_contains_interaction :
  forall m patterns,
    contains_interaction m patterns = true <->
    exists t, In t (lz_terms m) /\
              forall p, In p patterns -> exists f rest, In f t /\ f = p ++ rest.
Proof.
  intros m patterns. unfold contains_interaction. rewrite existsb_exists.
  assert (G : forall t b, fold_left (fun is_match pattern => is_match && matches_in pattern t) patterns b = true <->
                          b = true /\ forall p, In p patterns -> exists f rest, In f t /\ f = p ++ rest).
  { intros t. induction patterns as [|p ps IH]; intros b; cbn [fold_left].
    - split; [intros ->; split; [reflexivity|intros p []]|tauto].
    - rewrite IH, andb_true_iff. unfold matches_in, re_match. rewrite existsb_exists. split.
      + intros ((Hb & f & If & S) & Hps). split; [exact Hb|]. intros q [<-|Iq]; [|auto].
        apply startswith_iff in S as (r & ->). exists (p ++ r), r. auto.
      + intros (Hb & Hps). split; [|auto with datatypes]. split; [exact Hb|].
        destruct (Hps p (or_introl eq_refl)) as (f & r & If & Ef). exists f. split; [exact If|].
        apply startswith_iff. eauto. }
  split; intros (t & It & Ht); exists t; (split; [exact It|]).
  - now apply G in Ht.
  - apply G. auto.
Qed.

Theorem C68_two_patterns_one_field_refuted :
  contains_interaction (mkLazy [] [] [[lit "L"; lit "H"; lit "F,00,2,0,0"]] []) [lit "L"; lit "L"] = true.
Proof. reflexivity. Qed.

(** ** C67: filtering before ordering *)

(** A database that was read from files has no attribute is_ordered until it is ordered. *)
Theorem C67_filter_unordered_refuted :
  forall enum dims estimates files ph cr d,
    new_db enum files ph cr None = Ok d -> filter_db enum dims estimates d = Err AttributeError.
Proof.
  intros enum dims estimates files ph cr d E. unfold new_db in E.
  destruct (exotic_prime_dict enum (load files)) as [ex|]; [|discriminate]. cbn [bind] in E.
  destruct (term_prime_dict (load files)) as [te|]; [|discriminate]. cbn [bind] in E. inversion E. reflexivity.
Qed.

(** A database made from given data claims to be ordered; filtering by mass then fails for want of scales. *)
Theorem C67_filter_given_data_refuted :
  forall enum dims estimates files ph data d k m v rest,
    new_db enum files ph mass (Some data) = Ok d -> data = (k, m :: v) :: rest ->
    filter_db enum dims estimates d = Err TypeError.
Proof.
  intros enum dims estimates files ph data d k m v rest E ->. unfold new_db in E.
  destruct (exotic_prime_dict enum ((k, m :: v) :: rest)) as [ex|]; [|discriminate]. cbn [bind] in E.
  destruct (term_prime_dict ((k, m :: v) :: rest)) as [te|]; [|discriminate]. cbn [bind] in E. inversion E.
  unfold filter_db. cbn [d_is_ordered bind d_criterion d_data sort_data map fst snd]. unfold filter_by_mass.
  cbn [d_data keys map fst foldM]. unfold filter_models_by_mass at 1. cbn [d_data]. unfold dgetM. cbn [dget].
  rewrite (decides_refl str_decides). reflexivity.
Qed.

(** ** The one-loop Weinberg filter *)

Lemma none_divides_ok n nums : Forall (fun x => x <> 0%Z) nums ->
  none_divides n nums = Ok (forallb (fun x => negb (n mod x =? 0)%Z) nums).
Proof.
  induction 1 as [|x nums Hx F IH]; [reflexivity|]. cbn [none_divides forallb]. unfold not_multiple.
  replace (x =? 0)%Z with false by (symmetry; now apply Z.eqb_neq). cbn [bind].
  destruct (n mod x =? 0)%Z; cbn [negb andb]; [reflexivity|exact IH].
Qed.

Theorem C69_filter_one_loop_weinberg :
  forall enum d sc one_loop nums,
    d_scales d = Some sc -> NoDup (keys sc) -> NoDup (keys (d_data d)) ->
    (forall k, In k (keys (d_data d)) -> exists s, scale_is sc k s) ->
    (forall k m, model_of (d_data d) k m -> is_ok (democratic_model_number enum d m) = true) ->
    Forall (fun x => x <> 0%Z) nums ->
    exists keep : str -> lazy -> bool,
      filter_one_loop_weinberg enum one_loop nums d
      = Ok (set_data d (map (fun kv => (fst kv, filter (keep (fst kv)) (snd kv))) (d_data d))) /\
      forall k m n s, model_of (d_data d) k m -> democratic_model_number enum d m = Ok n -> scale_is sc k s ->
        (keep k m = true <-> (one_loop <= s)%Qc \/ forall x, In x nums -> ~ (x | n)%Z).
Proof.
  intros enum d sc one_loop nums Hsc NS ND Hall Hok Hz.
  set (num := num_of (democratic_model_number enum d)).
  assert (Hn : forall k m, model_of (d_data d) k m -> democratic_model_number enum d m = Ok (num m)).
  { intros k m Hm. specialize (Hok k m Hm). unfold num, num_of. now destruct (democratic_model_number enum d m). }
  set (keep := fun (k : str) (m : lazy) => Qc_geb (scale sc k) one_loop || forallb (fun x => negb (num m mod x =? 0)%Z) nums).
  exists keep. split.
  - unfold filter_one_loop_weinberg.
    rewrite (fold_update str_eqb str_decides _ (fun kv => filter (keep (fst kv)) (snd kv))); [reflexivity|exact ND|].
    intros out [k v] I. cbn [fst snd].
    assert (Ik : In k (keys (d_data d))) by (apply in_map_iff; exists (k, v); auto).
    destruct (Hall k Ik) as (s & Hs). pose proof (scale_is_scale sc k s NS Hs) as Esc.
    assert (Eso : scale_of (d_scales d) k = Ok (scale sc k)).
    { unfold scale_of. rewrite Hsc. unfold dgetM, scale. rewrite (In_dget str_decides sc k s NS Hs). reflexivity. }
    rewrite Eso. cbn [bind]. destruct (Qc_geb (scale sc k) one_loop) eqn:Eg.
    + right. split; [reflexivity|]. unfold keep. rewrite Eg. cbn [orb]. clear. induction v; cbn; congruence.
    + left.
      assert (Hv : forall m, In m v -> democratic_model_number enum d m = Ok (num m)).
      { intros m Im. apply (Hn k). exists v. auto. }
      assert (G : forall l acc, (forall m, In m l -> democratic_model_number enum d m = Ok (num m)) ->
        foldM (fun new_v model =>
                 do keep <- (match nums with [] => Ok true
                             | _ => do n <- democratic_model_number enum d model; none_divides n nums end);
                 Ok (if keep : bool then new_v ++ [model] else new_v)) l acc
        = Ok (acc ++ filter (keep k) l)).
      { induction l as [|m l IH]; intros acc Hl; cbn [foldM filter]; [now rewrite app_nil_r|].
        assert (Ek : (match nums with [] => Ok true
                     | _ => do n <- democratic_model_number enum d m; none_divides n nums end) = Ok (keep k m)).
        { unfold keep. rewrite Eg. cbn [orb]. rewrite Hl by (left; reflexivity). cbn [bind].
          rewrite none_divides_ok by exact Hz. now destruct nums. }
        rewrite Ek. cbn [bind]. rewrite IH by (intros; apply Hl; now right).
        destruct (keep k m); [now rewrite <- app_assoc|reflexivity]. }
      rewrite (G v [] Hv). reflexivity.
  - intros k m n s Hm En Hs. rewrite (Hn k m Hm) in En. inversion En; subst n.
    unfold keep. rewrite orb_true_iff, Qc_geb_iff, (scale_is_scale sc k s NS Hs), forallb_forall.
    rewrite Forall_forall in Hz. split; (intros [A|A]; [left; exact A|right]); intros x Ix.
    + intros D. specialize (A x Ix). apply negb_true_iff, Z.eqb_neq in A. apply A. apply Z.mod_divide; auto.
    + apply negb_true_iff, Z.eqb_neq. intros Q. apply (A x Ix). apply Z.mod_divide; auto.
Qed.

Example C69_example :
  (do d <- ex_with mass (Some ex_scales); do d <- filter_one_loop_weinberg ex_enum (Q2Qc 50) [2%Z] d;
   Ok (map (fun kv => (fst kv, map lz_tail (snd kv))) (d_data d)))
  = Ok [(lit "1", [lit "a"]); (lit "2", [lit "c"; lit "d"])].
Proof. vm_compute. reflexivity. Qed.

(** ** C66: process *)

Lemma keep_first_num_iff (num : lazy -> Z) l : forall kept m,
  In m (keep_first (fun x y => (num x =? num y)%Z) kept l) <->
  exists a b, l = a ++ m :: b /\ forall m0, In m0 kept \/ In m0 a -> num m0 <> num m.
Proof.
  induction l as [|x l IH]; intros kept m; cbn [keep_first].
  - split; [intros []|intros (a & b & E & _); destruct a; discriminate].
  - destruct (existsb (fun y => (num y =? num x)%Z) kept) eqn:E.
    + apply existsb_exists in E as (y & Iy & Ey). apply Z.eqb_eq in Ey. rewrite IH. split.
      * intros (a & b & -> & Hn). exists (x :: a), b. split; [reflexivity|]. intros m0 [I|[<-|I]]; [apply Hn; auto| |apply Hn; auto].
        rewrite <- Ey. apply Hn. auto.
      * intros (a & b & El & Hn). destruct a as [|z a]; cbn in El; inversion El; subst.
        -- exfalso. apply (Hn y); auto.
        -- exists a, b. split; [reflexivity|]. intros m0 [I|I]; apply Hn; [auto|right; right; exact I].
    + assert (Nx : forall y, In y kept -> num y <> num x).
      { intros y Iy Q. apply not_true_iff_false in E. apply E, existsb_exists. exists y. split; [exact Iy|]. now apply Z.eqb_eq. }
      cbn [In]. rewrite IH. split.
      * intros [<-|(a & b & -> & Hn)].
        -- exists [], l. split; [reflexivity|]. intros m0 [I|[]]. auto.
        -- exists (x :: a), b. split; [reflexivity|]. intros m0 [I|[<-|I]]; apply Hn; rewrite in_app_iff; cbn; auto.
      * intros (a & b & El & Hn). destruct a as [|z a]; cbn in El; inversion El; subst; [auto|]. right.
        exists a, b. split; [reflexivity|]. intros m0 [I|I]; [|apply Hn; right; right; exact I].
        apply in_app_iff in I as [I|[<-|[]]]; apply Hn; [auto|right; left; reflexivity].
Qed.

Lemma filter_split {A} (P : A -> bool) l : forall a z r,
  filter P l = a ++ z :: r <-> exists a' r', l = a' ++ z :: r' /\ P z = true /\ filter P a' = a /\ filter P r' = r.
Proof.
  induction l as [|y l IH]; intros a z r; cbn [filter].
  - split; [destruct a; discriminate|]. intros (a' & r' & E & _). destruct a'; discriminate.
  - destruct (P y) eqn:Py.
    + split.
      * destruct a as [|w a]; cbn [app]; intros E; inversion E; subst.
        -- exists [], l. auto.
        -- apply IH in H1 as (a' & r' & -> & Pz & <- & <-). exists (w :: a'), r'. cbn. rewrite Py. auto.
      * intros (a' & r' & E & Pz & <- & <-). destruct a' as [|w a']; cbn in E; inversion E; subst; [reflexivity|].
        cbn. rewrite Py. cbn. f_equal. apply IH. eauto 6.
    + rewrite IH. split.
      * intros (a' & r' & -> & Pz & <- & <-). exists (y :: a'), r'. cbn. rewrite Py. auto.
      * intros (a' & r' & E & Pz & <- & <-). destruct a' as [|w a']; cbn in E; inversion E; subst; [congruence|].
        exists a', r'. cbn. rewrite Py. auto.
Qed.

Section Process.
  Context (enum : list str -> list str) (fs : bool) (d : db).

  (** the models that are looked at *)
  Definition allowed (m : lazy) : bool := if fs then no_seesaws enum m else true.

  (** [m] is the first of the allowed models under [k] with its content *)
  Definition first_allowed (k : str) (m : lazy) : Prop :=
    exists a b, In (k, a ++ m :: b) (d_data d) /\ allowed m = true /\
      forall m0, In m0 a -> allowed m0 = true -> ~ equivalent_models enum (d_philosophy d) m0 m.

  Context (F : faithful enum d) (ND : NoDup (keys (d_data d))).
  Notation num := (num_of (db_model_number enum d)).

  Lemma prepared : exists x,
    (let d1 := if fs then filter_by_query (no_seesaws enum) d else d in remove_equivalent_models enum d1)
    = Ok (set_data d x) /\
    keys x = keys (d_data d) /\
    (forall k m, model_of x k m <-> first_allowed k m) /\
    (forall k m, model_of (d_data d) k m -> allowed m = true ->
       exists m', model_of x k m' /\ num m' = num m) /\
    (forall k m, model_of x k m -> model_of (d_data d) k m) /\
    (forall k v a m b m' c, In (k, v) x -> v = a ++ m :: b ++ m' :: c -> num m <> num m').
  Proof using F ND.
    set (data1 := map (fun kv => (fst kv, filter allowed (snd kv))) (d_data d)).
    assert (E1 : (if fs then filter_by_query (no_seesaws enum) d else d) = set_data d data1).
    { unfold data1, allowed. destruct fs; [reflexivity|]. unfold set_data.
      rewrite (map_ext _ (fun kv => kv)); [rewrite map_id; destruct d; reflexivity|].
      intros [k v]. cbn. f_equal. induction v; cbn; congruence. }
    cbv zeta. rewrite E1.
    assert (M1 : forall k m, model_of data1 k m <-> model_of (d_data d) k m /\ allowed m = true).
    { intros k m. apply (model_of_restrict (d_data d) (fun _ => allowed)). }
    assert (Hn : forall k m, model_of data1 k m -> db_model_number enum (set_data d data1) m = Ok (num m)).
    { intros k m Hm. apply M1 in Hm as (Hm & _). destruct (faithful_num enum d F k m Hm) as (n & E & _).
      unfold num_of. rewrite E. exact E. }
    assert (N1 : NoDup (keys data1)) by (unfold keys, data1; rewrite map_map; exact ND).
    unfold remove_equivalent_models. cbn [d_data set_data].
    rewrite (remove_equivalent_with_ok (db_model_number enum (set_data d data1)) num data1 N1 Hn). cbn [bind].
    set (x := map (fun kv => (fst kv, keep_first (fun x y => (num x =? num y)%Z) [] (snd kv))) data1).
    assert (Mx : forall k m, model_of x k m <->
               exists v, In (k, v) (d_data d) /\ In m (keep_first (fun x y => (num x =? num y)%Z) [] (filter allowed v))).
    { intros k m. unfold model_of, x, data1. rewrite map_map. cbn [fst snd]. split.
      - intros (w & I & Im). apply in_map_iff in I as ([k1 v] & Q & I). cbn in Q. inversion Q; subst. eauto.
      - intros (v & I & Im). eexists. split; [|exact Im]. apply in_map_iff. exists (k, v). auto. }
    assert (Char : forall k m, model_of x k m <-> first_allowed k m).
    { intros k m. rewrite Mx. unfold first_allowed. split.
      - intros (v & I & Im). apply keep_first_num_iff in Im as (a & b & El & Hm0).
        apply filter_split in El as (a' & b' & -> & Pm & <- & <-). exists a', b'. split; [exact I|]. split; [exact Pm|].
        intros m0 I0 A0 Q. apply (Hm0 m0); [right; apply filter_In; auto|].
        apply (faithful_numbers enum d k m0 k m F); [| |exact Q]; eexists; (split; [exact I|]); apply in_or_app;
          [left; exact I0|right; left; reflexivity].
      - intros (a & b & I & Pm & Hm0). exists (a ++ m :: b). split; [exact I|]. apply keep_first_num_iff.
        exists (filter allowed a), (filter allowed b). split; [apply filter_split; eauto 6|].
        intros m0 [[]|I0] Q. apply filter_In in I0 as (I0 & A0). apply (Hm0 m0 I0 A0).
        apply (faithful_numbers enum d k m0 k m F); [| |exact Q]; eexists; (split; [exact I|]); apply in_or_app;
          [left; exact I0|right; left; reflexivity]. }
    exists x. split; [reflexivity|]. split; [unfold keys, x, data1; rewrite !map_map; reflexivity|].
    split; [exact Char|]. split.
    - intros k m (v & I & Im) Am.
      destruct (keep_first_num_In num (filter allowed v) [] m) as (m' & [[]|Im'] & En); [apply filter_In; auto|].
      exists m'. split; [|exact En]. apply Mx. eauto.
    - split.
      + intros k m Hm. apply Char in Hm as (a & b & I & _). exists (a ++ m :: b). split; [exact I|].
        apply in_or_app. right. left. reflexivity.
      + intros k v a m b m' c I E. unfold x in I. apply in_map_iff in I as ([k1 w] & Q & _). cbn [fst snd] in Q. injection Q as _ Qv. rewrite E in Qv.
        destruct (keep_first_spec_pair (fun x y => (num x =? num y)%Z) w []) as (_ & K).
        specialize (K a m b m' c Qv). now apply Z.eqb_neq in K.
  Qed.
End Process.

Lemma NoDup_unique_key {V} (x : list (str * V)) k v w : NoDup (keys x) -> In (k, v) x -> In (k, w) x -> v = w.
Proof. intros N A B. apply (In_dget str_decides) in A; auto. apply (In_dget str_decides) in B; auto. congruence. Qed.

Theorem C66_process_mass :
  forall enum dims estimates fs d,
    faithful enum d -> NoDup (keys (d_data d)) -> d_criterion d = mass ->
    NoDup (keys estimates) -> (forall k es, In (k, es) estimates -> es <> []) ->
    exists d' sc, process enum dims estimates fs d = Ok d' /\ d_scales d' = Some sc /\
      keys (d_data d') = keys sc /\ NoDup (keys sc) /\ StronglySorted (fun a b => (b <= a)%Qc) (values sc) /\
      (* no two models of an operator have the same content *)
      (forall k v a m b m' c, In (k, v) (d_data d') -> v = a ++ m :: b ++ m' :: c ->
                              ~ equivalent_models enum (d_philosophy d) m m') /\
      (forall k s, In (k, s) sc <-> In k (keys (d_data d)) /\ exists es, In (k, es) estimates /\ largest s es) /\
      forall k m, model_of (d_data d') k m <->
        first_allowed enum fs d k m /\ In k (keys sc) /\
        ~ exists op m0 s s0, model_of (d_data d) op m0 /\ allowed enum fs m0 = true /\
                             scale_is sc k s /\ scale_is sc op s0 /\ (s < s0)%Qc /\
                             part_of enum (d_philosophy d) m0 m.
Proof.
  intros enum dims estimates fs d F ND Hcr NE Hne.
  destruct (prepared enum fs d F ND) as (x & E1 & Kx & Char & Cov & Sub & Dis). cbv zeta in E1.
  destruct (C20_order_by_mass estimates (set_data d x)) as (sc & y & E2 & Ky & Ny & Srt & Hsc & Hy); auto.
  { cbn [set_data d_data]. now rewrite Kx. }
  cbn [set_data d_data d_philosophy d_criterion d_exotics d_term_primes d_filter_data] in *.
  set (d2 := mkDb (d_philosophy d) (d_criterion d) y (Some true) (d_exotics d) (d_term_primes d) (Some sc) (d_filter_data d)) in *.
  assert (My : forall k m, model_of y k m <-> model_of x k m /\ In k (keys estimates)).
  { intros k m. unfold model_of. split.
    - intros (v & I & Im). apply Hy in I as (I & Ik). eauto.
    - intros ((v & I & Im) & Ik). exists v. split; [apply Hy; auto|exact Im]. }
  assert (F2 : faithful enum d2).
  { intros ka a kb b Ha Hb. cbn [d2 d_data] in Ha, Hb. apply My in Ha as (Ha & _). apply My in Hb as (Hb & _).
    exact (F ka a kb b (Sub _ _ Ha) (Sub _ _ Hb)). }
  assert (Nsc : NoDup (keys sc)) by (now rewrite <- Ky).
  destruct (C16_filter_by_mass enum d2 sc) as (keep & E3 & K3); auto.
  { intros k I. cbn [d2 d_data] in I. rewrite Ky in I. apply in_map_iff in I as ([k1 s] & Q & I). cbn in Q. subst k1. eauto. }
  exists (set_data d2 (map (fun kv => (fst kv, filter (keep (fst kv)) (snd kv))) (d_data d2))), sc.
  split.
  { unfold process. rewrite E1. cbn [bind]. unfold order. cbn [set_data d_criterion]. rewrite Hcr, E2. cbn [bind].
    unfold filter_db. cbn [d2 d_is_ordered bind d_criterion]. rewrite Hcr.
    exact E3. }
  split; [reflexivity|]. cbn [set_data d_data].
  split; [unfold keys; rewrite map_map; exact Ky|]. split; [exact Nsc|]. split; [exact Srt|]. split.
  { intros k v a m b m' c I E Q. apply in_map_iff in I as ([k1 w] & Q1 & I). cbn [fst snd] in Q1. injection Q1 as Qk Ef. rewrite Qk in *. rewrite E in Ef. apply filter_split in Ef as (a1 & r1 & -> & _ & _ & Er).
    apply filter_split in Er as (a2 & r2 & -> & _ & _ & _). cbn [d2 d_data] in I. apply Hy in I as (I & _).
    apply (Dis k _ a1 m a2 m' r2 I eq_refl). assert (In m (a1 ++ m :: a2 ++ m' :: r2) /\ In m' (a1 ++ m :: a2 ++ m' :: r2)) as (M1 & M2).
    { split; apply in_or_app; right; [left; reflexivity|right; apply in_or_app; right; left; reflexivity]. }
    apply (faithful_numbers enum d k m k m' F); [apply Sub; eexists; eauto|apply Sub; eexists; eauto|exact Q]. }
  split.
  { intros k s. rewrite Hsc, Kx. reflexivity. }
  assert (Ksc : forall k, In k (keys x) -> (In k (keys sc) <-> In k (keys estimates))).
  { intros k Ix. rewrite <- Ky. split; intros I; apply in_map_iff in I as ([k1 v] & Q & I); cbn in Q; subst k1.
    - now apply Hy in I.
    - apply in_map_iff in Ix as ([k1 w] & Q & Ix). cbn in Q. subst k1. apply in_map_iff. exists (k, w).
      split; [reflexivity|]. apply Hy. split; [exact Ix|]. apply in_map_iff. exists (k, v). auto. }
  intros k m. pose proof (model_of_restrict (d_data d2) keep k m) as R. unfold restrict in R. rewrite R. clear R.
  cbn [d2 d_data] in *. split.
  - intros (Hm & T). apply (K3 k m Hm) in T. apply My in Hm as (Hm & Ik).
    split; [now apply Char|]. split; [apply Ksc; [eapply model_of_key; eauto|exact Ik]|].
    intros (op & m0 & s & s0 & H0 & A0 & Hs & Hs0 & L & P).
    destruct (Cov op m0 H0 A0) as (m1 & H1 & E). apply T. exists op, m1, s, s0.
    split; [apply My; split; [exact H1|]|].
    { apply Ksc; [eapply model_of_key; eauto|]. apply in_map_iff. exists (op, s0). auto. }
    split; [exact Hs|]. split; [exact Hs0|]. split; [exact L|].
    apply (faithful_numbers enum d op m1 k m F); [now apply Sub|now apply Sub|]. cbv zeta. rewrite E.
    apply (faithful_numbers enum d op m0 k m F); auto.
  - intros (Hf & Ik & T). apply Char in Hf. assert (Hm : model_of y k m).
    { apply My. split; [exact Hf|]. apply Ksc; [eapply model_of_key; eauto|exact Ik]. }
    split; [exact Hm|]. apply (K3 k m Hm). intros (op & m0 & s & s0 & H0 & Hs & Hs0 & L & P).
    apply T. exists op, m0, s, s0. apply My in H0 as (H0 & _). split; [now apply Sub|].
    split; [apply Char in H0 as (a & b & _ & A & _); exact A|]. repeat split; auto.
Qed.

Example C66_example :
  (do d <- ex_with mass None;
   do d <- process ex_enum [] [(lit "2", [Q2Qc 5; Q2Qc 10]); (lit "1", [Q2Qc 100])] false d;
   Ok (map (fun kv => (fst kv, map lz_tail (snd kv))) (d_data d)))
  = Ok [(lit "1", [lit "a"]); (lit "2", [lit "c"])] /\
  (do d <- ex_with mass None;
   do d <- process ex_enum [] [(lit "2", [Q2Qc 5; Q2Qc 10]); (lit "1", [Q2Qc 100])] true d;
   Ok (map (fun kv => (fst kv, map lz_tail (snd kv))) (d_data d)))
  = Ok [(lit "1", [lit "a"]); (lit "2", [])].
Proof. vm_compute. auto. Qed.

Theorem C66_process_dimension :
  forall enum dims estimates fs d,
    faithful enum d -> NoDup (keys (d_data d)) -> d_criterion d = dimension -> d_filter_data d = [] ->
    NoDup (keys dims) -> (forall k, In k (keys (d_data d)) -> exists n, dim_is dims k n) ->
    exists d', process enum dims estimates fs d = Ok d' /\
      Permutation (keys (d_data d)) (keys (d_data d')) /\
      (forall a k b k' c n n', keys (d_data d') = a ++ k :: b ++ k' :: c -> dim_is dims k n -> dim_is dims k' n' ->
                               (n <= n')%Z) /\
      forall k m, model_of (d_data d') k m <->
        first_allowed enum fs d k m /\
        ~ exists op m0 n n0, model_of (d_data d) op m0 /\ allowed enum fs m0 = true /\
                             dim_is dims k n /\ dim_is dims op n0 /\ (n0 < n)%Z /\
                             part_of enum (d_philosophy d) m0 m.
Proof.
  intros enum dims estimates fs d F ND Hcr Hfd NE Hall.
  destruct (prepared enum fs d F ND) as (x & E1 & Kx & Char & Cov & Sub & _). cbv zeta in E1.
  destruct (C20_order_by_dimension dims (set_data d x)) as (y & E2 & Py & Srt & _); auto.
  { cbn [set_data d_data]. rewrite Kx. exact Hall. }
  cbn [set_data d_data d_philosophy d_criterion d_exotics d_term_primes d_filter_data d_scales] in *.
  set (d2 := mkDb (d_philosophy d) (d_criterion d) y (Some true) (d_exotics d) (d_term_primes d) (d_scales d) (d_filter_data d)) in *.
  assert (My : forall k m, model_of y k m <-> model_of x k m)
    by (intros k m; split; apply model_of_perm; [now symmetry|exact Py]).
  assert (Pk : Permutation (keys (d_data d)) (keys y)) by (rewrite <- Kx; now apply Permutation_map).
  assert (F2 : faithful enum d2).
  { intros ka a kb b Ha Hb. cbn [d2 d_data] in Ha, Hb. apply My in Ha, Hb.
    exact (F ka a kb b (Sub _ _ Ha) (Sub _ _ Hb)). }
  destruct (C17_filter_by_dimension enum dims d2) as (keep & d3 & E3 & Ed3 & K3 & _); auto.
  { eapply Permutation_NoDup; eauto. }
  { intros k I. apply Hall. eapply Permutation_in; [symmetry; exact Pk|exact I]. }
  assert (Kd3 : keys (d_data d3) = keys y) by (rewrite Ed3; unfold keys; rewrite map_map; reflexivity).
  exists d3. split.
  { unfold process. rewrite E1. cbn [bind]. unfold order. cbn [set_data d_criterion]. rewrite Hcr, E2. cbn [bind].
    unfold filter_db. cbn [d2 d_is_ordered bind d_criterion]. rewrite Hcr.
    exact E3. }
  split; [now rewrite Kd3|]. split.
  { intros a k b k' c n n' Ek. rewrite Kd3 in Ek. unfold keys in Ek.
    apply map_eq_app in Ek as (l1 & l2 & Ey & <- & Ek). apply map_eq_cons in Ek as (kv & l3 & -> & <- & Ek).
    apply map_eq_app in Ek as (l4 & l5 & -> & <- & Ek). apply map_eq_cons in Ek as (kv' & l6 & -> & <- & Ek).
    eapply Srt. exact Ey. }
  intros k m. rewrite Ed3. pose proof (model_of_restrict (d_data d2) keep k m) as R. unfold restrict in R. rewrite R. clear R.
  cbn [d2 d_data] in *. split.
  - intros (Hm & T). apply (K3 k m Hm) in T. apply My in Hm as Hx.
    split; [now apply Char|].
    intros (op & m0 & s & s0 & H0 & A0 & Hs & Hs0 & L & P).
    destruct (Cov op m0 H0 A0) as (m1 & H1 & E). apply T. exists op, m1, s, s0.
    split; [now apply My|].
    split; [exact Hs|]. split; [exact Hs0|]. split; [exact L|].
    apply (faithful_numbers enum d op m1 k m F); [now apply Sub|now apply Sub|]. cbv zeta. rewrite E.
    apply (faithful_numbers enum d op m0 k m F); auto.
  - intros (Hf & T). apply Char in Hf. apply My in Hf as Hm.
    split; [exact Hm|]. apply (K3 k m Hm). intros (op & m0 & s & s0 & H0 & Hs & Hs0 & L & P).
    apply T. exists op, m0, s, s0. apply My in H0. split; [now apply Sub|].
    split; [apply Char in H0 as (a & b & _ & A & _); exact A|]. repeat split; auto.
Qed.
Print Assumptions C15_model_numbers.
Print Assumptions C64_inverse_exotics.
Print Assumptions C64_inverse_terms.
Print Assumptions C16_filter_by_mass.
Print Assumptions C16_order_independent.
Print Assumptions C17_filter_by_dimension.
Print Assumptions C65_filter_data_counts_refuted.
Print Assumptions C18_remove_equivalent_models.
Print Assumptions C19_force_last.
Print Assumptions C19_force_refuted.
Print Assumptions C19_force_partial.
Print Assumptions C20_order_by_mass.
Print Assumptions C20_order_by_dimension.
Print Assumptions C20_order_by_dimension_unknown.
Print Assumptions C20_fill_scale_dict.
Print Assumptions C60_subsets.
Print Assumptions C21_related_models.
Print Assumptions C21_related_models_refuted.
Print Assumptions C62_read_completions.
Print Assumptions C62_load_last.
Print Assumptions C62_load_disjoint.
Print Assumptions C62_load_refuted.
Print Assumptions C58_contains_field.
Print Assumptions C58_contains_field_exact.
Print Assumptions C58_contains_field_refuted.
Print Assumptions C58_no_seesaws.
Print Assumptions C58_no_seesaws_conjugate_refuted.
Print Assumptions C68_contains_interaction.
Print Assumptions C68_two_patterns_one_field_refuted.
Print Assumptions C67_filter_unordered_refuted.
Print Assumptions C67_filter_given_data_refuted.
Print Assumptions C69_filter_one_loop_weinberg.
Print Assumptions C66_process_mass.
Print Assumptions C66_process_dimension.
