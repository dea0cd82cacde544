(** * PropsContract3: properties C33, C34, C73, C74: fresh indices of fields, contraction of two objects, operators from
      products *)

From Coq Require Import Ascii String List Bool Arith ZArith Lia Permutation QArith Qcanon.
From Verif Require Import Base BaseFacts Show ModelFunctions ProofsFunctions ModelIndex SpecIndex ProofsIndex PropsIndex
  ModelField SpecField ProofsField ProofsField2 PropsField PropsField2 ModelContract SpecContract ProofsContract PropsContract
  PropsContract2.
From Verif Require Spec.
Import ListNotations.
Local Open Scope nat_scope.

(** ** C73: a field with fresh indices *)

Lemma fresh_clean i :
  (exists (raised : bool) t n, i = (if raised then fresh_index t n else lowered (fresh_index t n) : index)) ->
  clean (reindex i).
Proof.
  intros H. pose proof (fresh_reparse i H) as (R & Ne & Ns). split; [exact R|]. split; [exact Ns|].
  destruct H as (raised & t & n & ->). exists (negb raised), false, t, (show_nat n ++ lit "_"). cbn [ix_label reindex].
  assert (L : lower (show_nat n ++ lit "_") = show_nat n ++ lit "_").
  { unfold lower. rewrite map_app. fold (lower (show_nat n)). now rewrite digits_lower by apply show_digits. }
  assert (L' : lower (fresh_name t n) = letter t :: show_nat n ++ lit "_").
  { unfold fresh_name. transitivity (lower_char (letter t) :: lower (show_nat n ++ lit "_")); [reflexivity|]. now rewrite lower_letter, L. }
  destruct raised; [exact L'|]. transitivity ("-"%char :: lower (fresh_name t n)); [reflexivity|]. now rewrite L'.
Qed.

Lemma join_snoc (sep x : str) l y : join sep (x :: l ++ [y]) = join sep (x :: l) ++ sep ++ y.
Proof.
  revert x. induction l as [|z l IH]; intros x; [reflexivity|].
  change (join sep (x :: (z :: l) ++ [y])) with (x ++ sep ++ join sep (z :: l ++ [y])). rewrite IH.
  change (join sep (x :: z :: l)) with (x ++ sep ++ join sep (z :: l)). now rewrite <- !app_assoc.
Qed.

Lemma mapM_app {A B} (f : A -> res B) l l' :
  mapM f (l ++ l') = (do r <- mapM f l; do r' <- mapM f l'; Ok (r ++ r')).
Proof.
  induction l as [|x l IH]; cbn [app mapM].
  - cbn [bind]. now destruct (mapM f l').
  - destruct (f x) as [y|e]; [|reflexivity]. cbn [bind]. rewrite IH. destruct (mapM f l) as [r|e]; [|reflexivity]. cbn [bind].
    now destruct (mapM f l').
Qed.

(** indices made while the counters went from [st] to [st'] *)
Definition made (st st' : counters) (i : index) : Prop := exists t n, ix_name i = fresh_name t n /\ st t <= n < st' t.

Lemma canonical_counts a b c d e l : map kind l = canonical a b c d e ->
  forallb kinds_ok l = true /\ count_kind Undotted true l = a /\ count_kind Dotted true l = b /\ count_kind Colour true l = c /\
  count_kind Colour false l = d /\ count_kind Isospin true l = e /\ filter is_generation l = [] /\ List.length l = a + b + c + d + e.
Proof.
  intros K.
  assert (C : forall t up, count_kind t up l =
              List.length (filter (fun p => itype_eqb (fst p) t && Bool.eqb (snd p) up) (canonical a b c d e))).
  { intros t up. rewrite <- K. clear. induction l as [|i l IH]; [reflexivity|].
    rewrite count_kind_cons, IH. cbn [map filter fst snd kind]. now destruct (itype_eqb (ix_type i) t && Bool.eqb (ix_up i) up). }
  assert (Rp : forall (p : itype * bool) n (P : itype * bool -> bool), List.length (filter P (repeat p n)) = if P p then n else 0).
  { intros p n P. induction n as [|n IH]; cbn; [now destruct (P p)|]. destruct (P p); cbn; rewrite IH; reflexivity. }
  assert (Rf : forall (p : itype * bool) n (P : itype * bool -> bool), P p = true -> forallb P (repeat p n) = true).
  { intros p n P Hp. induction n as [|n IH]; [reflexivity|]. cbn. now rewrite Hp, IH. }
  split.
  { rewrite kinds_ok_map, K. unfold canonical. rewrite !forallb_app, !andb_true_iff. repeat split; now apply Rf. }
  rewrite !C. unfold canonical. rewrite !filter_app, !app_length, !Rp. cbn [fst snd itype_eqb Bool.eqb andb]. repeat (split; [lia|]). split.
  - apply filter_none. intros i I. destruct (is_generation i) eqn:G; [|reflexivity]. exfalso. unfold is_generation in G. apply itype_decides in G.
    apply (in_map kind) in I. rewrite K in I. unfold canonical in I. rewrite !in_app_iff in I. unfold kind in I. rewrite G in I.
    destruct I as [I|[I|[I|[I|I]]]]; apply repeat_spec in I; discriminate.
  - transitivity (List.length (map kind l)); [now rewrite map_length|]. rewrite K. unfold canonical. rewrite !app_length, !repeat_length. lia.
Qed.

Lemma fresh_gen_clean n : clean (reindex (fresh_index Generation n)).
Proof. apply fresh_clean. exists true, Generation, n. reflexivity. Qed.

Theorem C73_fresh_indices :
  forall f a b c d e st,
    field_ok f a b c d e -> rank (f_symmetry f) = a + b + c + d + e ->
    exists idx lab st',
      fresh_ifield f st =
        Ok (mkIField (mkField (label_with_dagger f) (f_dynkin f) (f_charges f) (f_is_conj f) (f_comm f) (f_symmetry f) None 1
                              (f_latex f) (f_nf f) (f_derivs f) (f_stripped f)) idx lab, st') /\
      map kind idx = canonical a b c d e ++ (if 1 <? f_nf f then [(Generation, true)] else []) /\
      Forall clean idx /\ NoDup (map ix_name idx) /\ Forall (made st st') idx /\ (forall t, st t <= st' t).
Proof.
  intros f a b c d e st (Ed & (Ha & Hb & Hc & Hd & He) & Pc & Nf) Rk.
  destruct (fresh_list_ok a b c d e st Ha Hb Hc Hd He) as (st' & E & _).
  destruct (answer_names (RDynkin a b c d e) st ltac:(cbn; auto)) as (l & st1 & El & Mono & Nd & Nm).
  cbn [answer] in El. rewrite E in El. injection El as El <-. rewrite El in E.
  assert (Hl : Forall (fun i => exists (raised : bool) t n, i = (if raised then fresh_index t n else lowered (fresh_index t n) : index)) l).
  { rewrite <- El. assert (G : forall (raised : bool) t n k, Forall (fun i => exists (raised : bool) t n, i = (if raised then fresh_index t n else lowered (fresh_index t n) : index)) (fresh_block raised t n k)).
    { intros raised t n k. apply Forall_forall. intros i I. unfold fresh_block in I. apply in_map_iff in I as (m & <- & _). eauto. }
    rewrite !Forall_app. repeat split; apply G. }
  assert (K : map kind (map reindex l) = canonical a b c d e).
  { rewrite map_map. rewrite <- El. rewrite !map_app. cbn.
    rewrite !(fun r t n k => map_kind_block r t n k : map (fun x => kind (reindex x)) (fresh_block r t n k) = repeat (t, r) n). reflexivity. }
  clear El.
  assert (Cl : Forall clean (map reindex l)) by (apply Forall_map; eapply Forall_impl; [|exact Hl]; intros i; apply fresh_clean).
  destruct (canonical_counts a b c d e _ K) as (Ko & C1 & C2 & C3 & C4 & C5 & G0 & Ln).
  unfold fresh_ifield, fresh_indices. rewrite Ed. unfold five. rewrite E. cbn [bind fst snd].
  assert (Tk : Forall (fun s => s <> [] /\ ~ In " "%char s) (map show_index l)).
  { apply Forall_map. eapply Forall_impl; [|exact Hl]. intros i Hi. apply fresh_reparse in Hi. tauto. }
  assert (Ml : mapM new_index (map show_index l) = Ok (map reindex l)).
  { clear - Hl. induction Hl as [|i l Hi Hl IH]; [reflexivity|]. cbn [map mapM]. apply fresh_reparse in Hi as (R & _). now rewrite R, IH. }
  destruct (1 <? f_nf f) eqn:En.
  - change (fresh "g" st') with (fresh (letter Generation) st'). rewrite fresh_ok. cbn [bind fst snd].
    set (g := fresh_index Generation (st' Generation)).
    assert (Hg : exists (raised : bool) t n, g = (if raised then fresh_index t n else lowered (fresh_index t n) : index)) by (exists true, Generation, (st' Generation); reflexivity).
    assert (Ms : mapM new_index (split_ws (join (lit " ") (map show_index l) ++ lit " " ++ show_index g)) = Ok (map reindex (l ++ [g]))).
    { assert (Es : split_ws (join (lit " ") (map show_index l) ++ lit " " ++ show_index g) = map show_index (l ++ [g])).
      { pose proof (fresh_reparse g Hg) as (_ & N1 & N2).
        destruct l as [|i0 l0].
        - cbn [map join app]. rewrite <- (split_ws_join [show_index g]) by (constructor; auto).
          cbn [join]. unfold split_ws. cbn [lit list_ascii_of_string app]. reflexivity.
        - rewrite <- (split_ws_join (map show_index ((i0 :: l0) ++ [g]))).
          + f_equal. cbn [map app]. rewrite map_app. symmetry. apply join_snoc.
          + rewrite map_app. apply Forall_app. split; [exact Tk|]. repeat constructor; auto. }
      rewrite Es, !map_app. rewrite mapM_app, Ml. cbn [map mapM bind].
      pose proof (fresh_reparse g Hg) as (R & _). rewrite R. reflexivity. }
    rewrite (mk_ifield_ok _ _ (map reindex (l ++ [g])) _ _ _ _ _ _ _ _ a b c d e); auto.
    + cbn [bind]. exists (map reindex (l ++ [g])). eexists. exists (bump Generation st'). split; [reflexivity|].
      split; [|split; [|split; [|split]]].
      * rewrite map_app, map_app, K. reflexivity.
      * rewrite map_app. apply Forall_app. split; [exact Cl|]. constructor; [|constructor]. apply fresh_clean, Hg.
      * rewrite map_map. cbn [reindex ix_name]. rewrite map_app. apply NoDup_app_intro; [exact Nd|repeat constructor; cbn; tauto|].
        intros x I [<-|[]]. apply in_map_iff in I as (i & En' & I). destruct (Nm i I) as (t & n & E1 & L1 & L2). cbn [g fresh_index ix_name] in En'. rewrite E1 in En'.
        apply fresh_name_inj in En' as [-> ->]. lia.
      * rewrite map_app. apply Forall_app. split.
        -- apply Forall_map, Forall_forall. intros i I. destruct (Nm i I) as (t & n & E1 & L). exists t, n. split; [exact E1|].
           unfold bump. destruct (itype_eqb t Generation); lia.
        -- constructor; [|constructor]. exists Generation, (st' Generation). split; [reflexivity|]. specialize (Mono Generation). unfold bump. cbn. lia.
      * intros t. specialize (Mono t). unfold bump. destruct (itype_eqb t Generation); lia.
    + rewrite map_app, filter_app, G0, !app_length. cbn [app map filter List.length is_generation g reindex fresh_index ix_type itype_eqb]. rewrite Rk, Ln. reflexivity.
    + rewrite map_app, filter_app, G0. cbn. lia.
    + rewrite map_app, forallb_app, Ko. reflexivity.
    + rewrite map_app, count_kind_app, C1. cbn. apply Nat.add_0_r.
    + rewrite map_app, count_kind_app, C2. cbn. apply Nat.add_0_r.
    + rewrite map_app, count_kind_app, C3. cbn. apply Nat.add_0_r.
    + rewrite map_app, count_kind_app, C4. cbn. apply Nat.add_0_r.
    + rewrite map_app, count_kind_app, C5. cbn. apply Nat.add_0_r.
  - cbn [bind fst snd].
    assert (Ms : mapM new_index (split_ws (join (lit " ") (map show_index l) ++ [])) = Ok (map reindex l)).
    { rewrite app_nil_r, split_ws_join by exact Tk. exact Ml. }
    rewrite (mk_ifield_ok _ _ (map reindex l) _ _ _ _ _ _ _ _ a b c d e); auto.
    + cbn [bind]. exists (map reindex l). eexists. exists st'. split; [reflexivity|].
      split; [now rewrite app_nil_r|]. split; [exact Cl|]. split; [now rewrite map_map|]. split; [|exact Mono].
      apply Forall_map, Forall_forall. intros i I. exact (Nm i I).
    + rewrite G0, Rk, Ln. cbn. lia.
    + rewrite G0. cbn. lia.
Qed.

(** ** C33: contracting two objects *)

Lemma nat_digit_of n : n < 10 -> mapM digit_of (show_nat n) = Ok [n].
Proof. intros H. rewrite show_nat_digit by exact H. cbn [mapM]. now rewrite digit_of_digit. Qed.

Lemma dynkin_counts l : forallb kinds_ok l = true -> (forall t up, t <> Generation -> count_kind t up l < 10) ->
  exists dl, get_dynkin l = Ok dl /\ forall t, su2_type t -> dynkin_digit t dl = Ok (count_kind t true l).
Proof.
  intros Ko C. eexists. split; [apply get_dynkin_ok, Ko|]. intros t Ht. unfold dynkin_digit.
  rewrite !mapM_app. rewrite !nat_digit_of by (apply C; discriminate). cbn [bind app]. destruct Ht as [-> | [-> | ->]]; reflexivity.
Qed.

Lemma count_kind_filter' t up l : count_kind t up l = List.length (filter (fun i => Bool.eqb (ix_up i) up) (filter (fun i => itype_eqb (ix_type i) t) l)).
Proof.
  rewrite filter_filter. induction l as [|i l IH]; [reflexivity|]. rewrite count_kind_cons, IH. cbn [filter]. rewrite (andb_comm (Bool.eqb _ _)).
  now destruct (itype_eqb (ix_type i) t && Bool.eqb (ix_up i) up).
Qed.

Lemma count_kind_slots t up l l' : map slot l = map slot l' -> count_kind t up l = count_kind t up l' /\ forallb kinds_ok l = forallb kinds_ok l'.
Proof.
  revert l'. induction l as [|i l IH]; intros [|j l'] E; try discriminate; [auto|]. cbn [map] in E. injection E as E1 E2 E3 E.
  destruct (IH l' E) as [H1 H2]. rewrite !count_kind_cons, H1. cbn [forallb]. rewrite H2. unfold kinds_ok. rewrite E2, E3. auto.
Qed.

Lemma obj_facts o : object_ok o ->
  (forall i, In i (obj_indices o) <-> is_free (obj_tensors o) i) /\ NoDup (map slot (obj_indices o)) /\
  exists dl, obj_dynkin o = Ok dl /\ forall t, su2_type t ->
     lists (obj_tensors o) t true (by_type t (obj_indices o)) /\ dynkin_digit t dl = Ok (List.length (by_type t (obj_indices o))).
Proof.
  intros (Nm & Pr & Cl & Up & Ct & Ho).
  assert (In_free : forall i, In i (obj_indices o) <-> is_free (obj_tensors o) i).
  { destruct o as [x|op]; cbn [obj_indices obj_tensors] in *; [|apply free_indices_spec]. destruct Ho as [_ Ho]. intros i. split; [apply Ho|].
    intros [I _]. cbn in I. now rewrite app_nil_r in I. }
  assert (Nd : NoDup (map slot (obj_indices o))).
  { destruct o as [x|op]; cbn [obj_indices obj_tensors] in *; [|now apply NoDup_filter_map]. red in Pr. cbn in Pr. now rewrite app_nil_r in Pr. }
  split; [exact In_free|]. split; [exact Nd|].
  assert (Ls : forall t up, lists (obj_tensors o) t up (filter (fun i => Bool.eqb (ix_up i) up) (filter (fun i => itype_eqb (ix_type i) t) (obj_indices o)))).
  { intros t up. split; [now apply NoDup_filter_map, NoDup_filter_map|]. intros i. rewrite !filter_In, In_free, Bool.eqb_true_iff.
    split; [intros [[F T] U]; apply itype_decides in T; auto|intros (F & T & U); repeat split; auto; try apply F; now apply itype_decides]. }
  assert (Lt : forall t up, t <> Generation -> count_kind t up (obj_indices o) < 10).
  { intros t up Ng. rewrite count_kind_filter'. destruct (Ct t up Ng) as (n & Ln & Hn). now rewrite (number_length _ _ _ _ _ Hn (Ls t up)). }
  assert (Ko : forallb kinds_ok (obj_indices o) = true).
  { apply forallb_forall. intros i I. apply In_free in I. unfold kinds_ok. destruct (ix_up i) eqn:U; [reflexivity|]. cbn [orb].
    destruct (ix_type i) eqn:T; try reflexivity; rewrite Up in U; try discriminate; auto; rewrite T; red; auto. }
  assert (Dy : exists dl, obj_dynkin o = Ok dl /\ forall t, su2_type t -> dynkin_digit t dl = Ok (count_kind t true (obj_indices o))).
  { destruct o as [x|op]; cbn [obj_indices obj_tensors obj_dynkin] in *.
    - destruct Ho as [Ho _]. destruct (dynkin_counts _ Ko Lt) as (dl & E & D). exists dl. rewrite <- D || rewrite Ho in E. injection E as ->. auto.
    - assert (H : exists l', mapM (fun i => new_index (show_index i)) (free_indices op) = Ok l' /\ map slot l' = map slot (free_indices op)).
      { assert (Cf : Forall clean (free_indices op)) by (apply Forall_forall; intros i I; apply free_indices_spec in I; eapply free_clean; eauto).
        clear - Cf. induction Cf as [|i l Ci Cf (l' & E & S)]; [exists []; auto|]. destruct (clean_show i Ci) as (j & Ej & Sj & _).
        exists (j :: l'). cbn [mapM map]. rewrite Ej, E. split; [reflexivity|congruence]. }
      destruct H as (l' & E & S). rewrite E. cbn [bind].
      assert (S1 : forall t up, count_kind t up l' = count_kind t up (free_indices op)) by (intros; now apply count_kind_slots).
      destruct (dynkin_counts l') as (dl & Ed & D).
      + now rewrite (proj2 (count_kind_slots Undotted true _ _ S)).
      + intros. rewrite S1. now apply Lt.
      + exists dl. split; [exact Ed|]. intros t Ht. now rewrite D, S1. }
  destruct Dy as (dl & E & D). exists dl. split; [exact E|]. intros t Ht. rewrite D by exact Ht. rewrite count_kind_filter', by_type_filter.
  assert (Ft : filter (fun i => Bool.eqb (ix_up i) true) (filter (fun i => itype_eqb (ix_type i) t) (obj_indices o)) = filter (fun i => itype_eqb (ix_type i) t) (obj_indices o)).
  { apply filter_all. intros i I. apply filter_In in I as [I T]. apply itype_decides in T. rewrite Up; [reflexivity|now apply In_free|now rewrite T]. }
  split; [|now rewrite Ft]. rewrite <- Ft. apply Ls.
Qed.

Lemma joins_ok t ij : su2_type t ->
  (forall p, In p ij -> (clean (fst p) /\ ix_type (fst p) = t /\ ix_up (fst p) = true) /\ (clean (snd p) /\ ix_type (snd p) = t /\ ix_up (snd p) = true)) ->
  exists es, mapM (fun p => do s <- pair_text (fst p) (snd p); eps s) ij = Ok es /\ joins t ij es /\ Forall (fun e => Forall clean (symbol_indices e)) es.
Proof.
  intros Ht. induction ij as [|[i j] ij IH]; intros H; [exists []; repeat split; constructor|].
  destruct IH as (es & E & J & C); [intros; apply H; now right|].
  destruct (H (i, j) (or_introl eq_refl)) as [(Ci & Ti & Ui) (Cj & Tj & Uj)]. cbn [fst snd] in *.
  destruct (pair_eps i j t) as (a & b & Ee & Ca & Cb & Cla & Clb); auto. exists (Metric t [a; b] :: es). cbn [mapM fst snd]. rewrite Ee, E.
  split; [reflexivity|]. split; constructor; auto; [exists a, b; auto|]. cbn. auto.
Qed.

Lemma products_ok ij : forall es prod c t,
  mapM (fun p => do s <- pair_text (fst p) (snd p); eps s) ij = Ok es ->
  (forall k, 1 <= k <= List.length ij -> (c - 2 * Z.of_nat k = t)%Z -> products ij prod c t = Ok [prod ++ firstn k es]) /\
  ((forall k, 1 <= k <= List.length ij -> (c - 2 * Z.of_nat k <> t)%Z) -> products ij prod c t = Ok []).
Proof.
  induction ij as [|[i j] ij IH]; intros es prod c t E.
  - split; [intros k H; cbn in H; lia|reflexivity].
  - cbn [mapM fst snd] in E. apply bind_ok in E as (e & Ee & E). cbv beta in E. apply bind_ok in E as (es' & E' & E). cbv beta in E. injection E as <-.
    apply bind_ok in Ee as (s & Es & Ee). cbv beta in Ee. cbn [products]. rewrite Es. cbn [bind]. rewrite Ee. cbn [bind].
    destruct (IH es' (prod ++ [e]) (c - 2)%Z t E') as [H1 H2]. split.
    + intros k Hk Ek. destruct k as [|[|k]]; [lia| |].
      * rewrite H2; [|intros k' Hk'; lia]. cbn [bind]. rewrite (proj2 (Z.eqb_eq _ _)) by lia. reflexivity.
      * rewrite (H1 (S k)) by (cbn [List.length] in Hk; lia). cbn [bind]. rewrite (proj2 (Z.eqb_neq _ _)) by lia.
        rewrite <- app_assoc. reflexivity.
    + intros Hk. rewrite H2; [|intros k Hk'; specialize (Hk (S k)); cbn [List.length] in Hk; lia]. cbn [bind].
      specialize (Hk 1). cbn [List.length] in Hk. rewrite (proj2 (Z.eqb_neq _ _)) by lia. reflexivity.
Qed.

(** the pairs that one permutation of the longer list gives *)
Lemma helper_permutations t longer shorter (n_in n_target : nat) :
  su2_type t ->
  (forall i, In i longer \/ In i shorter -> clean i /\ ix_type i = t /\ ix_up i = true) ->
  List.length shorter <= List.length longer ->
  forall m, 0 < m -> n_target + 2 * m = n_in ->
  exists ess,
    (do ps <- mapM (fun perm => products (combine perm shorter) [] (Z.of_nat n_in) (Z.of_nat n_target)) (permutations longer); Ok (concat ps)) = Ok ess /\
    (List.length shorter < m -> ess = []) /\
    (m <= List.length shorter ->
       Forall2 (fun p es => joins t (combine (firstn m p) (firstn m shorter)) es /\ Forall (fun e => Forall clean (symbol_indices e)) es) (permutations longer) ess).
Proof.
  intros Ht Hc Ls m Hm En.
  assert (Hp : forall p, In p (permutations longer) -> exists es, mapM (fun p => do s <- pair_text (fst p) (snd p); eps s) (combine p shorter) = Ok es /\
             joins t (combine p shorter) es /\ Forall (fun e => Forall clean (symbol_indices e)) es /\ List.length (combine p shorter) = List.length shorter).
  { intros p I. apply permutations_spec in I. destruct (joins_ok t (combine p shorter) Ht) as (es & E & J & C).
    - intros [i j] Ip. cbn [fst snd]. split; apply Hc; [left; apply (Permutation_in _ (Permutation_sym I)); eapply in_combine_l; eauto|right; eapply in_combine_r; eauto].
    - exists es. repeat (split; [assumption|]). rewrite combine_length, <- (Permutation_length I). lia. }
  destruct (Nat.lt_ge_cases (List.length shorter) m) as [Lm|Lm].
  - exists []. split; [|split; [reflexivity|intros; lia]].
    assert (E : mapM (fun perm => products (combine perm shorter) [] (Z.of_nat n_in) (Z.of_nat n_target)) (permutations longer) = Ok (map (fun _ => []) (permutations longer))).
    { induction (permutations longer) as [|p ps IH]; [reflexivity|]. cbn [mapM map]. destruct (Hp p (or_introl eq_refl)) as (es & E & J & C & L).
      rewrite (proj2 (products_ok _ es [] _ _ E)); [|intros k Hk; rewrite L in Hk; lia]. cbn [bind]. rewrite IH by (intros; apply Hp; now right). reflexivity. }
    rewrite E. cbn [bind]. f_equal. clear. induction (permutations longer); [reflexivity|]. cbn. assumption.
  - assert (E : exists ess, mapM (fun perm => products (combine perm shorter) [] (Z.of_nat n_in) (Z.of_nat n_target)) (permutations longer) = Ok (map (fun es => [es]) ess) /\
        Forall2 (fun p es => joins t (combine (firstn m p) (firstn m shorter)) es /\ Forall (fun e => Forall clean (symbol_indices e)) es) (permutations longer) ess).
    { induction (permutations longer) as [|p ps IH]; [exists []; split; constructor|]. destruct IH as (ess & E' & F); [intros; apply Hp; now right|].
      destruct (Hp p (or_introl eq_refl)) as (es & E & J & C & L). exists (firstn m es :: ess). cbn [mapM map].
      rewrite (proj1 (products_ok _ es [] _ _ E) m) by (rewrite ?L; lia). cbn [bind]. rewrite E'. split; [reflexivity|]. constructor; [|exact F]. split.
      - rewrite <- combine_firstn. clear - J. unfold joins in *. revert J. generalize (combine p shorter) as q. revert es. induction m as [|m IH]; intros es q J; [constructor|].
        destruct J; cbn; constructor; auto.
      - rewrite Forall_forall in *. intros e I. apply C. rewrite <- (firstn_skipn m es). apply in_or_app. auto. }
    destruct E as (ess & E & F). exists ess. rewrite E. cbn [bind]. split; [f_equal|split; [intros; lia|auto]].
    clear. induction ess as [|es ess IH]; [reflexivity|]. cbn. now rewrite IH.
Qed.

Theorem C33_helper :
  forall l r t nl nr n,
    object_ok l -> object_ok r -> su2_type t -> number (obj_tensors l) t true nl -> number (obj_tensors r) t true nr ->
    (nl + nr < n -> contract_helper l r n t = Err AssertionError) /\
    (n <= nl + nr -> ~ Nat.Even (nl + nr - n) -> contract_helper l r n t = Err AssertionError) /\
    (n = nl + nr -> contract_helper l r n t = Ok [[]]) /\
    (forall m, 0 < m -> n + 2 * m = nl + nr -> exists longer shorter perms ess,
       (if nr <? nl then lists (obj_tensors l) t true longer /\ lists (obj_tensors r) t true shorter
        else lists (obj_tensors r) t true longer /\ lists (obj_tensors l) t true shorter) /\
       contract_helper l r n t = Ok ess /\
       (Nat.min nl nr < m -> ess = []) /\
       (m <= Nat.min nl nr ->
          NoDup perms /\ (forall p, In p perms <-> Permutation longer p) /\
          Forall2 (fun p es => joins t (combine (firstn m p) (firstn m shorter)) es /\ Forall (fun e => Forall clean (symbol_indices e)) es) perms ess)).
Proof.
  intros l r t nl nr n Ol Or Ht Nl Nr.
  destruct (obj_facts l Ol) as (_ & _ & dl & El & Dl). destruct (obj_facts r Or) as (_ & _ & dr & Er & Dr).
  destruct (Dl t Ht) as [Ll Cl]. destruct (Dr t Ht) as [Lr Cr].
  pose proof (number_length _ _ _ _ _ Nl Ll) as Enl. pose proof (number_length _ _ _ _ _ Nr Lr) as Enr. rewrite Enl in Cl. rewrite Enr in Cr.
  assert (Hcl : forall i, In i (by_type t (obj_indices l)) -> clean i /\ ix_type i = t /\ ix_up i = true).
  { intros i I. apply Ll in I as (F & T & U). split; [|auto]. destruct Ol as (_ & _ & C & _). eapply free_clean; eauto. }
  assert (Hcr : forall i, In i (by_type t (obj_indices r)) -> clean i /\ ix_type i = t /\ ix_up i = true).
  { intros i I. apply Lr in I as (F & T & U). split; [|auto]. destruct Or as (_ & _ & C & _). eapply free_clean; eauto. }
  unfold contract_helper. rewrite El. cbn [bind]. rewrite Cl. cbn [bind]. rewrite Er. cbn [bind]. rewrite Cr. cbn [bind]. cbv zeta.
  rewrite Enl, Enr.
  split; [|split; [|split]].
  - intros H. rewrite (proj2 (Nat.leb_gt _ _)) by exact H. reflexivity.
  - intros H O. rewrite (proj2 (Nat.leb_le _ _)) by exact H. cbn [assert_ bind].
    destruct ((Z.of_nat n - Z.of_nat (nl + nr)) mod 2 =? 0)%Z eqn:Z2; [|reflexivity]. exfalso. apply O. apply Z.eqb_eq in Z2.
    apply Z.mod_divide in Z2; [|lia]. destruct Z2 as [k Hk]. exists (Z.to_nat (- k)). lia.
  - intros ->. rewrite Nat.leb_refl, Z.sub_diag. cbn [assert_ bind Z.modulo]. rewrite Nat.eqb_refl. reflexivity.
  - intros m Hm En. rewrite (proj2 (Nat.leb_le _ _)) by lia. cbn [assert_ bind].
    replace ((Z.of_nat n - Z.of_nat (nl + nr)) mod 2 =? 0)%Z with true.
    2:{ symmetry. apply Z.eqb_eq. apply Z.mod_divide; [lia|]. exists (- Z.of_nat m)%Z. lia. }
    cbn [bind]. rewrite (proj2 (Nat.eqb_neq _ _)) by lia.
    destruct (nr <? nl) eqn:C.
    + apply Nat.ltb_lt in C.
      destruct (helper_permutations t (by_type t (obj_indices l)) (by_type t (obj_indices r)) (nl + nr) n Ht) with (m := m) as (ess & E & H1 & H2); auto; [intros i [I|I]; auto|lia|].
      exists (by_type t (obj_indices l)), (by_type t (obj_indices r)), (permutations (by_type t (obj_indices l))), ess.
      split; [auto|]. split; [exact E|]. split; [intros; apply H1; lia|]. intros Lm. split; [|split; [|apply H2; lia]].
      * apply permutations_NoDup. destruct Ll as [N _]. exact (NoDup_map_inv _ _ N).
      * intros p. apply permutations_spec.
    + apply Nat.ltb_ge in C.
      destruct (helper_permutations t (by_type t (obj_indices r)) (by_type t (obj_indices l)) (nl + nr) n Ht) with (m := m) as (ess & E & H1 & H2); auto; [intros i [I|I]; auto|lia|].
      exists (by_type t (obj_indices r)), (by_type t (obj_indices l)), (permutations (by_type t (obj_indices r))), ess.
      split; [auto|]. split; [exact E|]. split; [intros; apply H1; lia|]. intros Lm. split; [|split; [|apply H2; lia]].
      * apply permutations_NoDup. destruct Lr as [N _]. exact (NoDup_map_inv _ _ N).
      * intros p. apply permutations_spec.
Qed.

Lemma flat_map_perm_app {A B} (f : A -> list B) (a b c d : list A) :
  Permutation (a ++ b) (c ++ d) -> Permutation (flat_map f (a ++ b)) (flat_map f (c ++ d)).
Proof. apply Permutation_flat_map. Qed.

Lemma obj_mul_facts l r :
  normal (obj_tensors l) -> normal (obj_tensors r) -> proper_op (obj_tensors l) -> proper_op (obj_tensors r) -> apart (obj_tensors l) (obj_tensors r) ->
  let op := obj_mul l r in
  normal op /\ proper_op op /\ Permutation (op_indices (obj_tensors l) ++ op_indices (obj_tensors r)) (op_indices op) /\
  indexed_fields op = indexed_fields (obj_tensors l) ++ indexed_fields (obj_tensors r) /\
  epsilons op = epsilons (obj_tensors l) ++ epsilons (obj_tensors r) /\
  (forall i, is_free op i <-> is_free (obj_tensors l) i \/ is_free (obj_tensors r) i).
Proof.
  intros (fl & sl & El) (fr & sr & Er) Pl Pr Ap op.
  assert (Eo : op = map TField (fl ++ fr) ++ map TSymbol (sl ++ sr)).
  { unfold op, obj_mul. rewrite normalise_classes. cbn [concat]. rewrite app_nil_r, El, Er. rewrite !fields_app, !epsilons_app.
    destruct (fields_map fl) as [-> ->], (fields_map fr) as [-> ->], (symbols_map sl) as [-> ->], (symbols_map sr) as [-> ->]. cbn [app]. now rewrite !app_nil_r. }
  assert (Pm : Permutation (op_indices (obj_tensors l) ++ op_indices (obj_tensors r)) (op_indices op)).
  { rewrite <- op_indices_app. unfold op_indices. apply Permutation_flat_map. rewrite El, Er, Eo, !map_app, <- !app_assoc. apply Permutation_app_head.
    rewrite !app_assoc. apply Permutation_app_tail, Permutation_app_comm. }
  assert (Inop : forall i, In i (op_indices op) <-> In i (op_indices (obj_tensors l)) \/ In i (op_indices (obj_tensors r))).
  { intros i. rewrite <- in_app_iff. split; apply Permutation_in; [now apply Permutation_sym|exact Pm]. }
  split; [rewrite Eo; red; eauto|]. split.
  { red. eapply Permutation_NoDup; [apply Permutation_map, Pm|]. rewrite map_app. apply NoDup_app_intro; auto.
    intros s I J. apply in_map_iff in I as (i & <- & I). apply in_map_iff in J as (j & S & J). unfold slot in S. injection S as S _ _. apply (Ap i j I J). now symmetry. }
  split; [exact Pm|]. rewrite Eo, El, Er. rewrite !fields_app, !epsilons_app.
  destruct (fields_map fl) as [-> ->], (fields_map fr) as [-> ->], (symbols_map sl) as [-> ->], (symbols_map sr) as [-> ->].
  destruct (fields_map (fl ++ fr)) as [-> ->], (symbols_map (sl ++ sr)) as [-> ->]. rewrite !app_nil_r. split; [reflexivity|]. split; [reflexivity|].
  intros i. rewrite <- Eo, <- El, <- Er. unfold is_free. rewrite Inop. split.
  - intros [[I|I] F]; [left|right]; split; auto; intros j J; apply F; apply Inop; auto.
  - intros [[I F]|[I F]]; (split; [tauto|]); intros j J C; apply Inop in J as [J|J]; try (now apply (F j J)); destruct C as (C & _).
    + apply (Ap i j I J). now symmetry.
    + apply (Ap j i J I). exact C.
Qed.

Definition narrowed (t : itype) (n : nat) (op op' : operator) : Prop :=
  normal op' /\ proper_op op' /\ Forall clean (op_indices op') /\ indexed_fields op' = indexed_fields op /\
  (forall i, ix_type i <> t -> (is_free op' i <-> is_free op i)) /\ (forall i, is_free op' i -> is_free op i) /\ number op' t true n /\
  incl (map ix_name (op_indices op')) (map ix_name (op_indices op)).

Lemma sublist_rest (l full : list index) : NoDup l -> incl l full -> NoDup full -> exists rest, Permutation full (l ++ rest).
Proof.
  revert full. induction l as [|x l IH]; intros full N I Nf; [exists full; reflexivity|]. inversion N as [|? ? N1 N2]; subst.
  assert (Ix : In x full) by (apply I; now left). apply in_split in Ix as (a & b & ->).
  assert (P : Permutation (a ++ x :: b) (x :: a ++ b)) by (symmetry; apply Permutation_middle).
  destruct (IH (a ++ b)) as (rest & R); auto.
  - intros y Iy. assert (In y (x :: a ++ b)) as [<-|]; [apply (Permutation_in _ P), I; now right|tauto|assumption].
  - apply (Permutation_NoDup P) in Nf. now inversion Nf.
  - exists rest. rewrite P. cbn. now constructor.
Qed.

Lemma combine_flat' {A} (p q : list A) : List.length p = List.length q -> Permutation (flat (combine p q)) (p ++ q).
Proof.
  revert q. induction p as [|x p IH]; intros [|y q] E; try discriminate; [constructor|]. injection E as E.
  cbn [combine flat flat_map fst snd app]. constructor. fold (flat (combine p q)). rewrite (IH q E). apply Permutation_middle.
Qed.

Lemma step_contract op t ij es n full :
  normal op -> proper_op op -> Forall clean (op_indices op) -> lists op t true full -> incl (flat ij) full -> NoDup (flat ij) ->
  List.length full = n + 2 * List.length ij -> joins t ij es -> Forall (fun e => Forall clean (symbol_indices e)) es ->
  narrowed t n op (op_mul op es).
Proof.
  intros Nm Pr Cl [Nf If] Ic Nd Ln J Ce. rewrite op_mul_normal by exact Nm.
  assert (Ct : contracts es (flat ij)) by (eapply matching_contracts; exact J).
  destruct (contracted op es (flat ij) Ct) as [H1 H2].
  { intros i I. apply free_indices_spec. apply Ic, If in I. tauto. }
  assert (Nsl : NoDup (map slot (flat ij))).
  { destruct (sublist_rest _ full Nd Ic (NoDup_map_inv _ _ Nf)) as (rest & P). apply (Permutation_map slot) in P. apply (Permutation_NoDup P) in Nf.
    rewrite map_app in Nf. clear - Nf. induction (map slot (flat ij)) as [|x l IH]; [constructor|]. cbn in Nf. inversion Nf as [|? ? N1 N2]; subst. constructor; auto.
    intros I. apply N1. apply in_or_app. auto. }
  split; [now apply normal_app|]. split; [now apply H2|]. split.
  { rewrite op_indices_app, op_indices_symbols. apply Forall_app. split; [exact Cl|]. clear - Ce. induction Ce; [constructor|]. cbn. apply Forall_app. auto. }
  split. { rewrite fields_app. destruct (symbols_map es) as [-> _]. apply app_nil_r. }
  assert (Ty : forall i, In (slot i) (map slot (flat ij)) -> ix_type i = t).
  { intros i I. apply in_map_iff in I as (j & S & Ij). apply Ic, If in Ij as (_ & T & _). unfold slot in S. injection S as _ S _. congruence. }
  split; [|split; [|split]].
  4:{ rewrite op_indices_app, op_indices_symbols, map_app. apply incl_app; [apply incl_refl|]. intros x I. apply in_map_iff in I as (i & <- & I).
      destruct Ct as (l' & Pl & F). assert (Hj : exists j, In j l' /\ counterpart j i).
      { clear - F I. induction F as [|j k l l'' C F IH]; [destruct I|]. destruct I as [<-|I]; [exists j; cbn; auto|]. destruct (IH I) as (j' & J & C'). exists j'. cbn. auto. }
      destruct Hj as (j & Jl & C & _). rewrite C. apply in_map. apply (Permutation_in _ Pl), Ic, If in Jl. apply Jl. }
  - intros i Ti. rewrite H1. split; [tauto|]. intros F. split; [exact F|]. intros I. apply Ti. now apply Ty.
  - intros i. rewrite H1. tauto.
  - destruct (sublist_rest _ full Nd Ic (NoDup_map_inv _ _ Nf)) as (rest & P). exists rest. split.
    + pose proof (Permutation_map slot P) as Ps. apply (Permutation_NoDup Ps) in Nf. rewrite map_app in Nf.
      assert (Dj : forall x, In x (map slot (flat ij)) -> ~ In x (map slot rest)).
      { intros x I K. apply in_split in I as (u & v & E). rewrite E in Nf. rewrite <- app_assoc in Nf. cbn in Nf. apply NoDup_remove_2 in Nf. apply Nf. rewrite !in_app_iff. auto. }
      split.
      * clear - Nf. induction (map slot (flat ij)) as [|x l IH]; [exact Nf|]. cbn in Nf. inversion Nf; auto.
      * intros i. rewrite H1. split.
        -- intros I. assert (Ii : In i full) by (apply (Permutation_in _ (Permutation_sym P)), in_or_app; auto). apply If in Ii as (F & T & U).
           split; [split; [exact F|]|auto]. intros K. apply (Dj _ K). now apply in_map.
        -- intros ((F & K) & T & U). assert (Ii : In i full) by (apply If; auto). apply (Permutation_in _ P), in_app_iff in Ii as [Ii|Ii]; [|exact Ii].
           destruct K. now apply in_map.
    + apply Permutation_length in P. rewrite app_length, flat_length in P. lia.
Qed.

Lemma lists_app l r op t up la lb :
  lists l t up la -> lists r t up lb -> apart l r -> (forall i, ix_type i = t -> (is_free op i <-> is_free l i \/ is_free r i)) ->
  lists op t up (la ++ lb).
Proof.
  intros [Na Ia] [Nb Ib] Ap H. split.
  - rewrite map_app. apply NoDup_app_intro; auto. intros s I J. apply in_map_iff in I as (i & <- & I). apply in_map_iff in J as (j & S & J).
    apply Ia in I as ([I _] & _). apply Ib in J as ([J _] & _). unfold slot in S. injection S as S _ _. apply (Ap i j I J). now symmetry.
  - intros i. rewrite in_app_iff, Ia, Ib. split.
    + intros [(F & T & U)|(F & T & U)]; (split; [apply H; auto|auto]).
    + intros (F & T & U). apply H in F; [|exact T]. tauto.
Qed.

Lemma helper_step l r t n ess es op :
  object_ok l -> object_ok r -> apart (obj_tensors l) (obj_tensors r) -> su2_type t -> contract_helper l r n t = Ok ess -> In es ess ->
  normal op -> proper_op op -> Forall clean (op_indices op) ->
  (forall i, ix_type i = t -> (is_free op i <-> is_free (obj_tensors l) i \/ is_free (obj_tensors r) i)) ->
  narrowed t n op (op_mul op es).
Proof.
  intros Ol Or Ap Ht E I Nm Pr Cl Hf.
  assert (Hl : exists nl, number (obj_tensors l) t true nl) by (destruct Ol as (_ & _ & _ & _ & C & _); destruct (C t true) as (k & _ & Hk); [destruct Ht as [-> | [-> | ->]]; discriminate|eauto]).
  assert (Hr : exists nr, number (obj_tensors r) t true nr) by (destruct Or as (_ & _ & _ & _ & C & _); destruct (C t true) as (k & _ & Hk); [destruct Ht as [-> | [-> | ->]]; discriminate|eauto]).
  destruct Hl as (nl & Nl), Hr as (nr & Nr).
  destruct (C33_helper l r t nl nr n Ol Or Ht Nl Nr) as (A1 & A2 & A3 & A4).
  destruct (Nat.lt_ge_cases (nl + nr) n) as [Lt|Ge]; [rewrite A1 in E by exact Lt; discriminate|].
  destruct (Nat.Even_or_Odd (nl + nr - n)) as [[m Em]|Od].
  2:{ rewrite A2 in E; [discriminate|exact Ge|]. intros Ev. destruct Ev as [x Hx], Od as [y Hy]. lia. }
  destruct Nl as (ll & Ll & Cll), Nr as (lr & Lr & Clr).
  destruct m as [|m].
  - rewrite A3 in E by lia. injection E as <-. destruct I as [<-|[]].
    apply step_contract with (ij := []) (full := ll ++ lr); auto.
    + eapply lists_app; eauto.
    + intros x [].
    + constructor.
    + rewrite app_length. cbn. lia.
    + constructor.
  - destruct (A4 (S m)) as (longer & shorter & perms & ess' & Hls & E' & B1 & B2); [lia|lia|]. rewrite E in E'. injection E' as <-.
    destruct (Nat.lt_ge_cases (Nat.min nl nr) (S m)) as [Lm|Lm]; [rewrite B1 in I by exact Lm; destruct I|].
    destruct (B2 Lm) as (_ & Pp & F). clear B1 B2 A1 A2 A3 A4.
    assert (Hes : exists p, Permutation longer p /\ joins t (combine (firstn (S m) p) (firstn (S m) shorter)) es /\ Forall (fun e => Forall clean (symbol_indices e)) es).
    { clear - F I Pp. assert (Pp' : forall p, In p perms -> Permutation longer p) by (intros p; apply Pp). clear Pp.
      induction F as [|p es' perms ess [J C] F IH]; [destruct I|]. destruct I as [<-|I]; [exists p; split; [apply Pp'; now left|auto]|].
      apply IH; auto. intros; apply Pp'; now right. }
    destruct Hes as (p & Pl & J & Ce).
    assert (Hfull : exists full, lists op t true full /\ Permutation full (longer ++ shorter) /\ List.length full = nl + nr /\
              S m <= List.length longer /\ S m <= List.length shorter).
    { destruct (nr <? nl) eqn:C.
      - destruct Hls as [H1 H2]. exists (longer ++ shorter). split; [eapply lists_app; eauto|]. split; [reflexivity|].
        rewrite app_length, <- (Permutation_length (lists_unique _ _ _ _ _ Ll H1)), <- (Permutation_length (lists_unique _ _ _ _ _ Lr H2)). apply Nat.ltb_lt in C. lia.
      - destruct Hls as [H1 H2]. exists (shorter ++ longer). split; [eapply lists_app; eauto|]. split; [apply Permutation_app_comm|].
        rewrite app_length, <- (Permutation_length (lists_unique _ _ _ _ _ Lr H1)), <- (Permutation_length (lists_unique _ _ _ _ _ Ll H2)). apply Nat.ltb_ge in C. lia. }
    destruct Hfull as (full & Lf & Pf & Lnf & K1 & K2).
    assert (Lc : List.length (firstn (S m) p) = List.length (firstn (S m) shorter)).
    { rewrite !firstn_length, <- (Permutation_length Pl). lia. }
    assert (Pfull : Permutation full ((firstn (S m) p ++ firstn (S m) shorter) ++ (skipn (S m) p ++ skipn (S m) shorter))).
    { rewrite Pf, Pl. rewrite <- (firstn_skipn (S m) p) at 1. rewrite <- (firstn_skipn (S m) shorter) at 1. rewrite <- !app_assoc. apply Permutation_app_head.
      rewrite !app_assoc. apply Permutation_app_tail, Permutation_app_comm. }
    assert (Nfull : NoDup full) by (destruct Lf as [N _]; exact (NoDup_map_inv _ _ N)).
    apply step_contract with (ij := combine (firstn (S m) p) (firstn (S m) shorter)) (full := full); auto.
    + intros x Ix. apply (Permutation_in _ (combine_flat' _ _ Lc)) in Ix. apply (Permutation_in _ (Permutation_sym Pfull)), in_or_app. auto.
    + eapply Permutation_NoDup; [apply Permutation_sym, combine_flat', Lc|]. apply (Permutation_NoDup Pfull) in Nfull.
      clear - Nfull. induction (firstn (S m) p ++ firstn (S m) shorter) as [|x q IH]; [constructor|]. cbn in Nfull. inversion Nfull as [|? ? N1 N2]; subst. constructor; auto.
      intros I. apply N1. apply in_or_app. auto.
    + rewrite combine_length, <- Lc, Nat.min_id, firstn_length, <- (Permutation_length Pl). lia.
Qed.

(** what the helper returns, counted *)
Lemma helper_count l r t nl nr n :
  object_ok l -> object_ok r -> su2_type t -> number (obj_tensors l) t true nl -> number (obj_tensors r) t true nr ->
  (admissible nl nr n -> exists ess, contract_helper l r n t = Ok ess /\ List.length ess = ways nl nr n) /\
  (~ admissible nl nr n -> contract_helper l r n t = Err AssertionError).
Proof.
  intros Ol Or Ht Nl Nr. destruct (C33_helper l r t nl nr n Ol Or Ht Nl Nr) as (A1 & A2 & A3 & A4). unfold admissible, ways. split.
  - intros [Le [m Em]]. destruct m as [|m].
    + exists [[]]. split; [apply A3; lia|]. rewrite (proj2 (Nat.eqb_eq _ _)) by lia. reflexivity.
    + rewrite (proj2 (Nat.eqb_neq _ _)) by lia. rewrite Em, Nat.mul_comm, Nat.div_mul by lia.
      destruct (A4 (S m)) as (longer & shorter & perms & ess & Hls & E & B1 & B2); [lia|lia|]. exists ess. split; [exact E|].
      destruct (Nat.leb_spec (S m) (Nat.min nl nr)) as [L|L]; [|now rewrite B1].
      destruct (B2 L) as (Np & Ip & F). pose proof (Spec.Forall2_len F) as LF. rewrite <- LF.
      assert (P : Permutation perms (permutations longer)).
      { apply NoDup_Permutation; [exact Np|apply permutations_NoDup|intros p; now rewrite Ip, permutations_spec].
        destruct (nr <? nl); destruct Hls as [[N _] _]; exact (NoDup_map_inv _ _ N). }
      rewrite (Permutation_length P), permutations_count. f_equal. destruct (nr <? nl) eqn:C; destruct Hls as [H1 H2].
      * rewrite (number_length _ _ _ _ _ Nl H1). apply Nat.ltb_lt in C. lia.
      * rewrite (number_length _ _ _ _ _ Nr H1). apply Nat.ltb_ge in C. lia.
  - intros N. destruct (Nat.lt_ge_cases (nl + nr) n) as [Lt|Ge]; [now apply A1|]. apply A2; [exact Ge|]. intros Ev. now apply N.
Qed.

Lemma su2_helper_five l r a b c d e t : a < 10 -> b < 10 -> e < 10 -> su2_type t ->
  contract_su2_helper l r (five a b c d e) t = contract_helper l r (label_at t a b e) t.
Proof.
  intros Ha Hb He Ht. unfold contract_su2_helper, five. destruct Ht as [-> | [-> | ->]]; cbn [dynkin_position nth_error label_at];
    rewrite digit_of_digit by assumption; reflexivity.
Qed.

Theorem C33_contract_su2 :
  forall l r a b c d e (ignore : itype -> bool) st (nl nr : itype -> nat),
    object_ok l -> object_ok r -> apart (obj_tensors l) (obj_tensors r) -> a < 10 -> b < 10 -> e < 10 ->
    (forall t, su2_type t -> number (obj_tensors l) t true (nl t) /\ number (obj_tensors r) t true (nr t)) ->
    let count t := if ignore t then 1 else ways (nl t) (nr t) (label_at t a b e) in
    ((forall t, su2_type t -> ignore t = false -> admissible (nl t) (nr t) (label_at t a b e)) ->
       exists rs, contract_su2 (CObj l) (CObj r) (five a b c d e) ignore st = Ok (rs, st) /\
         List.length rs = count Undotted * count Dotted * count Isospin /\
         Forall (contracted_pair (obj_tensors l) (obj_tensors r) a b e ignore) rs) /\
    ((exists t, su2_type t /\ ignore t = false /\ ~ admissible (nl t) (nr t) (label_at t a b e)) ->
       contract_su2 (CObj l) (CObj r) (five a b c d e) ignore st = Err AssertionError).
Proof.
  intros l r a b c d e ignore st nl nr Ol Or Ap Ha Hb He Hn count.
  unfold contract_su2. cbn [make_indexed bind fst snd].
  set (h := fun t => if ignore t then Ok [[]] else contract_su2_helper l r (five a b c d e) t).
  assert (Hh : forall t, su2_type t ->
     (ignore t = true \/ admissible (nl t) (nr t) (label_at t a b e) -> exists ess, h t = Ok ess /\ List.length ess = count t /\
          forall es op, In es ess -> normal op -> proper_op op -> Forall clean (op_indices op) ->
            (forall i, ix_type i = t -> (is_free op i <-> is_free (obj_tensors l) i \/ is_free (obj_tensors r) i)) ->
            if ignore t then op_mul op es = op else narrowed t (label_at t a b e) op (op_mul op es)) /\
     (ignore t = false -> ~ admissible (nl t) (nr t) (label_at t a b e) -> h t = Err AssertionError)).
  { intros t Ht. unfold h, count. destruct (Hn t Ht) as [Nl Nr]. destruct (helper_count l r t _ _ (label_at t a b e) Ol Or Ht Nl Nr) as [C1 C2]. destruct (ignore t) eqn:Ig.
    - split; [|discriminate]. intros _. exists [[]]. split; [reflexivity|]. split; [reflexivity|]. intros es op [<-|[]] Nm _ _ _.
      rewrite op_mul_normal by exact Nm. apply app_nil_r.
    - rewrite su2_helper_five by assumption. split; [|intros _; exact C2]. intros [[=]|A]. destruct (C1 A) as (ess & E & L). exists ess. split; [exact E|]. split; [exact L|].
      intros es op I Nm Pr Cl Hf. apply (helper_step l r t (label_at t a b e) ess); auto. }
  assert (U : su2_type Undotted) by (red; auto). assert (D : su2_type Dotted) by (red; auto). assert (Is : su2_type Isospin) by (red; auto).
  cbn [mapM]. split.
  - intros A.
    assert (A' : forall t, su2_type t -> ignore t = true \/ admissible (nl t) (nr t) (label_at t a b e)).
    { intros t Ht. destruct (ignore t) eqn:Ig; auto. }
    destruct (proj1 (Hh _ U) (A' _ U)) as (us & Eu & Lu & Hu). destruct (proj1 (Hh _ D) (A' _ D)) as (ds & Edd & Ld & Hd). destruct (proj1 (Hh _ Is) (A' _ Is)) as (is & Ei & Li & Hi).
    fold (h Undotted) (h Dotted) (h Isospin). rewrite Eu, Edd, Ei. cbn [bind]. eexists. split; [reflexivity|]. split.
    { rewrite <- Lu, <- Ld, <- Li. clear. induction us as [|u us IH]; [reflexivity|]. cbn [flat_map]. rewrite app_length, IH. cbn [List.length Nat.mul]. rewrite Nat.mul_add_distr_r. f_equal. clear.
      induction ds as [|d ds IH]; [reflexivity|]. cbn [flat_map]. rewrite app_length, IH, map_length. reflexivity. }
    destruct Ol as (Nml & Prl & Cll & Upl & _). destruct Or as (Nmr & Prr & Clr & Upr & _).
    destruct (obj_mul_facts l r Nml Nmr Prl Prr Ap) as (Nm0 & Pr0 & Pm0 & Fd0 & _ & Fr0). set (op0 := obj_mul l r) in *. clearbody op0.
    assert (Cl0 : Forall clean (op_indices op0)) by (eapply Permutation_Forall; [exact Pm0|]; now apply Forall_app).
    apply Forall_forall. intros x I. apply in_flat_map in I as (u & Iu & I). apply in_flat_map in I as (d' & Id & I). apply in_map_iff in I as (i' & <- & Ii).
    (* one type after the other *)
    assert (Step : forall t es op (done : itype -> Prop),
        (if ignore t then op_mul op es = op else narrowed t (label_at t a b e) op (op_mul op es)) -> ~ done t ->
        normal op -> proper_op op -> Forall clean (op_indices op) -> indexed_fields op = indexed_fields op0 ->
        (forall i, ~ done (ix_type i) -> (is_free op i <-> is_free op0 i)) -> (forall i, is_free op i -> is_free op0 i) ->
        (forall t, done t -> ignore t = true -> forall i, ix_type i = t -> (is_free op i <-> is_free op0 i)) ->
        (forall t, done t -> ignore t = false -> number op t true (label_at t a b e)) ->
        incl (map ix_name (op_indices op)) (map ix_name (op_indices op0)) ->
        let op' := op_mul op es in let done' t' := t' = t \/ done t' in
        normal op' /\ proper_op op' /\ Forall clean (op_indices op') /\ indexed_fields op' = indexed_fields op0 /\
        (forall i, ~ done' (ix_type i) -> (is_free op' i <-> is_free op0 i)) /\ (forall i, is_free op' i -> is_free op0 i) /\
        (forall t, done' t -> ignore t = true -> forall i, ix_type i = t -> (is_free op' i <-> is_free op0 i)) /\
        (forall t, done' t -> ignore t = false -> number op' t true (label_at t a b e)) /\
        incl (map ix_name (op_indices op')) (map ix_name (op_indices op0))).
    { clear. intros t es op done S Nt Nm Pr Cl Fd F1 F2 F3 F4 F5 op' done'. unfold op', done' in *. clear op' done'. destruct (ignore t) eqn:Ig.
      - rewrite S. repeat (split; [assumption|]). split; [intros i Hi; apply F1; tauto|]. split; [exact F2|]. split.
        + intros t' [->|Dt] It i Ti; [apply F1; now rewrite Ti|now apply (F3 t')].
        + split; [|exact F5]. intros t' [->|Dt] It; [congruence|auto].
      - destruct S as (S1 & S2 & S3 & S4 & S5 & S6 & S7 & S8). split; [exact S1|]. split; [exact S2|]. split; [exact S3|]. split; [congruence|].
        split; [intros i Hi; rewrite S5 by tauto; apply F1; tauto|]. split; [auto|]. split.
        + intros t' [->|Dt] It i Ti; [congruence|]. rewrite S5; [now apply (F3 t')|]. intros E. apply Nt. now rewrite <- E, Ti.
        + split; [|eapply incl_tran; eassumption]. intros t' [->|Dt] It; [exact S7|]. destruct (F4 t' Dt It) as (q & [Nq Iq] & Lq). exists q. split; [|exact Lq]. split; [exact Nq|].
          intros i. rewrite Iq. split; intros (G1 & G2 & G3); (split; [|auto]).
          * apply S5; [|exact G1]. intros E. apply Nt. now rewrite <- E, G2.
          * apply S5 in G1; [exact G1|]. intros E. apply Nt. now rewrite <- E, G2. }
    assert (Fr : forall i, is_free op0 i <-> is_free (obj_tensors l) i \/ is_free (obj_tensors r) i) by exact Fr0.
    destruct (Step Undotted u op0 (fun _ => False)) as (P1 & P2 & P3 & P4 & P5 & P6 & P7 & P8 & P9); auto; try tauto; try (intros; tauto); [|apply incl_refl|].
    { apply (Hu u op0 Iu Nm0 Pr0 Cl0). intros i _. apply Fr. }
    set (op1 := op_mul op0 u) in *. clearbody op1.
    destruct (Step Dotted d' op1 (fun t => t = Undotted \/ False)) as (Q1 & Q2 & Q3 & Q4 & Q5 & Q6 & Q7 & Q8 & Q9); auto.
    { apply (Hd d' op1 Id P1 P2 P3). intros i Ti. rewrite P5; [apply Fr|]. intros [E|[]]. congruence. }
    { intros [E|[]]. discriminate. }
    set (op2 := op_mul op1 d') in *. clearbody op2.
    destruct (Step Isospin i' op2 (fun t => t = Dotted \/ (t = Undotted \/ False))) as (R1 & R2 & R3 & R4 & R5 & R6 & R7 & R8 & R9); auto.
    { apply (Hi i' op2 Ii Q1 Q2 Q3). intros i Ti. rewrite Q5; [apply Fr|]. intros [E|[E|[]]]; congruence. }
    { intros [E|[E|[]]]; discriminate. }
    set (op3 := op_mul op2 i') in *. clearbody op3.
    split; [exact R1|]. split; [exact R2|]. split; [exact R3|]. split; [congruence|]. split; [|split; [|split]].
    + intros t Ht Ig. apply R8; [|exact Ig]. destruct Ht as [-> | [-> | ->]]; auto.
    + intros i Hi'. rewrite <- Fr. destruct (ix_type i) eqn:Ti.
      * destruct Hi' as [N|Ig]; [destruct N; red; auto|]. apply (R7 Undotted); auto.
      * destruct Hi' as [N|Ig]; [destruct N; red; auto|]. apply (R7 Dotted); auto.
      * apply R5. rewrite Ti. intros [E|[E|[E|[]]]]; discriminate.
      * destruct Hi' as [N|Ig]; [destruct N; red; auto|]. apply (R7 Isospin); auto.
      * apply R5. rewrite Ti. intros [E|[E|[E|[]]]]; discriminate.
    + intros i Fi. apply Fr. now apply R6.
    + eapply incl_tran; [exact R9|]. intros x. apply Permutation_in, Permutation_map, Permutation_sym, Pm0.
  - intros (t & Ht & Ig & Na).
    assert (Dec : forall t, su2_type t -> h t = Err AssertionError \/ exists es, h t = Ok es).
    { intros t' Ht'. destruct (h t') as [es|x] eqn:E; [eauto|]. left. destruct (Hh t' Ht') as [H1 H2].
      destruct (ignore t') eqn:Ig'; [destruct H1 as (? & H1 & _); [now left|congruence]|].
      unfold h in E. rewrite Ig' in E. rewrite su2_helper_five in E by assumption. destruct (Hn t' Ht') as [Nl Nr].
      destruct (C33_helper l r t' _ _ (label_at t' a b e) Ol Or Ht' Nl Nr) as (A1 & A2 & A3 & A4).
      destruct (Nat.lt_ge_cases (nl t' + nr t') (label_at t' a b e)) as [Lt|Ge]; [rewrite A1 in E by exact Lt; congruence|].
      destruct (Nat.Even_or_Odd (nl t' + nr t' - label_at t' a b e)) as [Ev|Od].
      - destruct H1 as (? & H1 & _); [right; now split|]. unfold h in H1. rewrite Ig', su2_helper_five in H1 by assumption. congruence.
      - rewrite A2 in E; [congruence|exact Ge|]. intros [x' Hx]. destruct Od as [y Hy]. lia. }
    pose proof (proj2 (Hh t Ht) Ig Na) as Et. fold (h Undotted) (h Dotted) (h Isospin).
    destruct (Dec Undotted U) as [E1|(x1 & E1)]; rewrite E1; [reflexivity|]. cbn [bind].
    destruct (Dec Dotted D) as [E2|(x2 & E2)]; rewrite E2; [reflexivity|]. cbn [bind].
    destruct (Dec Isospin Is) as [E3|(x3 & E3)]; rewrite E3; [reflexivity|]. exfalso. destruct Ht as [-> | [-> | ->]]; congruence.
Qed.

(** the metrics of each result of contracting two fields with the given Dynkin labels *)
Definition contraction_example (dl sl dr sr out : string) (ignore : itype -> bool) : res (list (list (list str))) :=
  do f <- mk_field (lit "F") (lit dl) None false (lit "0") None None 1 None 1 0 None;
  do g <- mk_field (lit "G") (lit dr) None false (lit "0") None None 1 None 1 0 None;
  do x <- call_field f (lit sl); do y <- call_field g (lit sr);
  do r <- contract_su2 (CObj (OField x)) (CObj (OField y)) (lit out) ignore (fun _ => 0);
  Ok (map (fun op => skipn 2 (op_text op)) (fst r)).

Example C33_example :
  contraction_example "10001" "u0 i0" "10101" "u1 c1 i1" "00100" (fun _ => false) = Ok [[[lit "-u1"; lit "-u0"]; [lit "-i1"; lit "-i0"]]] /\
  contraction_example "10001" "u0 i0" "10101" "u1 c1 i1" "00100" (fun t => itype_eqb t Isospin) = Ok [[[lit "-u1"; lit "-u0"]]] /\
  contraction_example "10001" "u0 i0" "10101" "u1 c1 i1" "10000" (fun _ => false) = Err AssertionError /\
  contraction_example "20000" "u0 u1" "20000" "u2 u3" "20000" (fun _ => false) = Ok [[[lit "-u2"; lit "-u0"]]; [[lit "-u3"; lit "-u0"]]] /\
  contraction_example "10000" "u0" "30000" "u1 u2 u3" "20000" (fun _ => false) =
    Ok [[[lit "-u1"; lit "-u0"]]; [[lit "-u1"; lit "-u0"]]; [[lit "-u2"; lit "-u0"]]; [[lit "-u2"; lit "-u0"]]; [[lit "-u3"; lit "-u0"]]; [[lit "-u3"; lit "-u0"]]].
Proof. vm_compute. auto 10. Qed.

Example C73_example :
  (do f <- mk_field (lit "Q") (lit "10101") None false (lit "fermi") None None 1 None 3 0 None;
   do x <- fresh_ifield f (fun t => match t with Undotted => 3 | _ => 0 end);
   Ok (map index_text (i_indices (fst x)), snd x Undotted, snd x Generation)) =
  Ok ([lit "u3_"; lit "c0_"; lit "i0_"; lit "g0_"], 4, 1).
Proof. vm_compute. reflexivity. Qed.

Print Assumptions C73_fresh_indices.
Print Assumptions C33_helper.
Print Assumptions C33_contract_su2.
