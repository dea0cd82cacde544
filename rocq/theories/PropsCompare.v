(** * PropsCompare: C61, comparing completions *)

From Coq Require Import Ascii String List Bool Arith ZArith QArith Qcanon Lia Permutation Sorted.
From Verif Require Import Base BaseFacts Spec Show ModelMatch SpecMatch ProofsMatch PropsMatch ModelIndex ModelField ModelContract ModelExotic ModelInfo SpecInfo PropsLagrangian5 PropsInfo4 ModelCompare SpecCompare.
Import ListNotations.
Local Open Scope nat_scope.

Lemma digit_b_iff c : digit_b c = true <-> In c (lit "0123456789").
Proof. destruct c as [[] [] [] [] [] [] [] []]; cbn; split; intros H; try reflexivity; try discriminate; try (repeat destruct H as [H|H]; try discriminate; contradiction); auto 12. Qed.

Lemma digits_at_spec s : forall n t, digits_at s = (n, t) -> exists ds, s = ds ++ t /\ List.length ds = n /\ Forall (fun c => In c (lit "0123456789")) ds /\
  (forall c r, t = c :: r -> digit_b c = false).
Proof.
  induction s as [|c s IH]; intros n t E; cbn [digits_at] in E.
  - injection E as <- <-. exists []. repeat split; auto. discriminate.
  - destruct (digit_b c) eqn:D.
    + destruct (digits_at s) as [n' t']. injection E as <- <-. destruct (IH n' t' eq_refl) as (ds & -> & <- & F & H). exists (c :: ds). repeat split; auto. constructor; [now apply digit_b_iff|exact F].
    + injection E as <- <-. exists []. repeat split; auto. intros c' r [= <- <-]. exact D.
Qed.

Lemma digits_at_app ds r : Forall (fun c => In c (lit "0123456789")) ds -> digits_at (ds ++ "_"%char :: r) = (List.length ds, "_"%char :: r).
Proof.
  induction 1 as [|c ds D F IH]; [reflexivity|]. cbn [app digits_at]. apply digit_b_iff in D. rewrite D, IH. reflexivity.
Qed.

Lemma skip_from ds : forall r, sub_generations_from (List.length ds) (ds ++ r) = sub_generations_from 0 r.
Proof. induction ds as [|c ds IH]; intros r; [reflexivity|]. cbn [List.length app sub_generations_from]. apply IH. Qed.

Lemma erase_gen ds r : number ds -> sub_generations ("g" :: ds ++ "_" :: r)%char = ("g" :: "_" :: sub_generations r)%char.
Proof.
  intros [N F]. unfold sub_generations. cbn [sub_generations_from]. rewrite Ascii.eqb_refl, digits_at_app by exact F. destruct ds as [|c ds]; [congruence|]. cbn [List.length].
  change (S (List.length ds)) with (List.length (c :: ds)). rewrite skip_from. reflexivity.
Qed.

Lemma erase_char c r : (c = "g"%char -> forall ds r1, number ds -> r <> ds ++ "_"%char :: r1) -> sub_generations (c :: r) = c :: sub_generations r.
Proof.
  intros H. unfold sub_generations. cbn [sub_generations_from]. destruct (Ascii.eqb c "g") eqn:E; [|reflexivity]. apply Ascii.eqb_eq in E.
  destruct (digits_at r) as [n t] eqn:D. destruct n as [|n]; [reflexivity|]. destruct t as [|c' t]; [reflexivity|].
  destruct (Ascii.eqb_spec c' "_") as [-> |N]; [|destruct c' as [[] [] [] [] [] [] [] []]; try reflexivity; congruence].
  exfalso. destruct (digits_at_spec _ _ _ D) as (ds & -> & L & F & _). apply (H E ds t); [|reflexivity]. split; [intros ->; discriminate L|exact F].
Qed.

Lemma erased_fun s s' : erased s s' -> sub_generations s = s'.
Proof. induction 1 as [|ds r r' N E IH|c r r' H E IH]; [reflexivity|rewrite erase_gen, IH; auto|rewrite erase_char, IH; auto]. Qed.

Lemma erased_all s : erased s (sub_generations s).
Proof.
  assert (X : forall n s, List.length s <= n -> erased s (sub_generations s)).
  { intros n. induction n as [|n IH]; intros t L; [destruct t; [constructor|cbn in L; lia]|]. destruct t as [|c r]; [constructor|]. cbn [List.length] in L.
    destruct (Ascii.eqb_spec c "g") as [-> |Ng].
    - destruct (digits_at r) as [m t] eqn:D. destruct (digits_at_spec _ _ _ D) as (ds & -> & Lm & F & H).
      assert (Cs : (exists t', t = "_"%char :: t' /\ ds <> []) \/ (forall ds' r1, number ds' -> ds ++ t <> ds' ++ "_"%char :: r1)).
      { destruct (list_eq_dec ascii_dec ds []) as [-> |Nd].
        - right. intros ds' r1 [N' F'] E. destruct ds' as [|c ds']; [congruence|]. inversion F' as [|? ? Fc _]; subst. cbn [app] in E. apply digit_b_iff in Fc. rewrite (H _ _ E) in Fc. discriminate.
        - destruct t as [|c t].
          + right. intros ds' r1 [N' F'] E. rewrite app_nil_r in E. rewrite E in F. apply Forall_app in F as [_ F]. inversion F as [|? ? Fc _]; subst. cbn in Fc. intuition discriminate.
          + destruct (Ascii.eqb_spec c "_") as [-> |Nc]; [left; eauto|]. right. intros ds' r1 [N' F'] E. pose proof (digits_at_app ds' r1 F') as D'. rewrite <- E, D in D'. injection D' as _ -> _. congruence. }
      destruct Cs as [(t' & -> & Nd)|Cs].
      + rewrite erase_gen by (split; assumption). apply er_gen; [split; assumption|]. apply IH. rewrite app_length in L. cbn in L. lia.
      + rewrite erase_char by auto. apply er_char; [auto|]. apply IH. lia.
    - rewrite erase_char by congruence. apply er_char; [congruence|]. apply IH. lia. }
  apply (X (List.length s)). lia.
Qed.

Lemma join_split c s : join [c] (split_on c s) = s.
Proof.
  induction s as [|a s IH]; [reflexivity|]. cbn [split_on]. destruct (Ascii.eqb_spec a c) as [-> |N].
  - pose proof (split_on_nonnil c s) as Nn. destruct (split_on c s) as [|x l]; [congruence|]. change (join [c] ([] :: x :: l)) with (c :: join [c] (x :: l)). now rewrite IH.
  - pose proof (split_on_nonnil c s) as Nn. destruct (split_on c s) as [|x l]; [congruence|]. destruct l as [|y l]; cbn [join app] in *; now rewrite IH.
Qed.

Lemma split_clean c s : Forall (fun f => ~ In c f) (split_on c s).
Proof.
  induction s as [|a s IH]; [repeat constructor; auto|]. cbn [split_on]. destruct (Ascii.eqb_spec a c) as [-> |N]; [constructor; auto|].
  destruct (split_on c s) as [|x l]; [repeat constructor; cbn; intuition congruence|]. inversion IH as [|? ? H1 H2]; subst. constructor; [|exact H2]. intros [I|I]; [congruence|contradiction].
Qed.

Definition pieces (s : str) : list str := split_on "*"%char (sub_minus (sub_generations s)).

Lemma factors_pieces s fs : factors_of s fs <-> fs = pieces s.
Proof.
  unfold factors_of, pieces. split.
  - intros (s' & E & N & F & J). apply erased_fun in E. subst s'. unfold sub_minus. rewrite <- J. symmetry. now apply (split_join "*"%char).
  - intros ->. exists (sub_generations s). split; [apply erased_all|]. split; [apply split_on_nonnil|]. split; [apply split_clean|]. apply join_split.
Qed.

Lemma ascii_total x y : ascii_leb x y = true \/ ascii_leb y x = true.
Proof. unfold ascii_leb. rewrite !Nat.leb_le. lia. Qed.
Lemma ascii_trans x y z : ascii_leb x y = true -> ascii_leb y z = true -> ascii_leb x z = true.
Proof. unfold ascii_leb. rewrite !Nat.leb_le. lia. Qed.
Lemma ascii_antisym x y : ascii_leb x y = true -> ascii_leb y x = true -> x = y.
Proof. unfold ascii_leb. rewrite !Nat.leb_le. intros A B. rewrite <- (ascii_nat_embedding x), <- (ascii_nat_embedding y). f_equal. lia. Qed.

Lemma chars_iff s t : sorted_chars s = sorted_chars t <-> Permutation s t.
Proof. apply (sort_eq_iff ascii_leb ascii_total ascii_trans ascii_antisym). Qed.

Definition key (s : str) : list str := sorted_str (map sorted_chars (sorted_str (pieces s))).

Lemma key_alike s t : key s = key t <-> alike s t.
Proof.
  unfold key, alike. rewrite sorted_str_eq_iff. split.
  - intros P. assert (P' : Permutation (map sorted_chars (pieces s)) (map sorted_chars (pieces t))).
    { rewrite (sorted_str_perm (pieces s)), P, <- (sorted_str_perm (pieces t)). reflexivity. }
    apply Permutation_map_inv in P' as (hs & E & Ph). exists (pieces s), (pieces t), hs. split; [now apply factors_pieces|]. split; [now apply factors_pieces|]. split; [exact Ph|].
    clear - E. revert hs E. induction (pieces s) as [|x l IH]; intros [|y hs] E; try discriminate; constructor; [|apply IH]; cbn [map] in E; injection E as E1 E2; auto. now apply chars_iff.
  - intros (fs & gs & hs & Ff & Fg & P & F2). apply factors_pieces in Ff as ->. apply factors_pieces in Fg as ->.
    rewrite <- (sorted_str_perm (pieces s)), <- (sorted_str_perm (pieces t)), P. clear - F2. induction F2 as [|x y l l' H F IH]; [constructor|]. cbn [map]. apply chars_iff in H. rewrite H. now constructor.
Qed.

Section Compare.
  Context {O : Type} (text : O -> res str).

  Definition tuple (s : str) : list str := sorted_str (split_on "*"%char (sub_minus (sub_generations s))).

  Lemma tuples_decides : decides (list_eqb str_eqb).
  Proof. apply list_decides, str_decides. Qed.

  Lemma sort_strings_In x ss : In x (sort_strings (map tuple ss)) <-> exists s, In s ss /\ x = key s.
  Proof.
    unfold sort_strings. rewrite (nodup_by_In tuples_decides), !map_map, in_map_iff. split.
    - intros (s & <- & I). exists s. split; [exact I|]. reflexivity.
    - intros (s & I & ->). exists s. split; [reflexivity|exact I].
  Qed.

  Lemma same_set_iff us ts xs ys : (forall x, In x xs <-> In x us) -> (forall y, In y ys <-> In y ts) ->
    same_set (sort_strings (map tuple xs)) (sort_strings (map tuple ys)) = true <-> same_interactions us ts.
  Proof.
    intros Hx Hy. unfold same_set, same_interactions. rewrite andb_true_iff, !forallb_forall. split.
    - intros [A B]. split.
      + intros u I. assert (M := A (key u)). rewrite (mem_by_In tuples_decides), !sort_strings_In in M. destruct M as (t & It & E); [exists u; split; [now apply Hx|reflexivity]|].
        exists t. split; [now apply Hy|now apply key_alike].
      + intros t I. assert (M := B (key t)). rewrite (mem_by_In tuples_decides), !sort_strings_In in M. destruct M as (u & Iu & E); [exists t; split; [now apply Hy|reflexivity]|].
        exists u. split; [now apply Hx|now apply key_alike].
    - intros [A B]. split; intros x; rewrite (mem_by_In tuples_decides), !sort_strings_In.
      + intros (u & I & ->). destruct (A u) as (t & It & E); [now apply Hx|]. exists t. split; [now apply Hy|now apply key_alike].
      + intros (t & I & ->). destruct (B t) as (u & Iu & E); [now apply Hy|]. exists u. split; [now apply Hx|]. symmetry. now apply key_alike.
  Qed.

  (** The remapping is returned if, after it, the interactions are alike; otherwise nothing is. *)
  Theorem C61_check : forall terms1 terms2 remapping ts1 us1 ts2, remapping <> [] -> NoDup (map fst remapping) -> ~ In [] (map fst remapping) ->
    mapM text terms1 = Ok ts1 -> mapM text terms2 = Ok ts2 -> Forall2 (scanned remapping) ts1 us1 ->
    (same_interactions us1 ts2 -> check_remapping_on_terms text terms1 terms2 remapping = Ok remapping) /\
    (~ same_interactions us1 ts2 -> check_remapping_on_terms text terms1 terms2 remapping = Ok []).
  Proof.
    intros terms1 terms2 R ts1 us1 ts2 Nr Nd Ne M1 M2 F.
    assert (Hk : forall k, In k (map fst R) -> k <> []) by (intros k I ->; contradiction).
    assert (X : exists xs, (foldM (fun new_terms term => foldM (fun new_terms (_ : str * str) => do s <- text term; do s <- multiple_replace R s;
        Ok (new_terms ++ [sorted_str (split_on "*"%char (sub_minus (sub_generations s)))])) R new_terms) terms1 []) = Ok (map tuple xs) /\ forall x, In x xs <-> In x us1).
    { assert (St : forall term t u acc, text term = Ok t -> scanned R t u -> forall R', foldM (fun new_terms (_ : str * str) => do s <- text term; do s <- multiple_replace R s;
        Ok (new_terms ++ [sorted_str (split_on "*"%char (sub_minus (sub_generations s)))])) R' (map tuple acc) = Ok (map tuple (acc ++ repeat u (List.length R')))).
      { intros term t u acc E Sc R'. destruct (C09_multiple_replace_scans R t Nr Hk Nd) as (out & Eo & Uo). apply Uo in Sc. subst out. set (g := fun (new_terms : list (list str)) (_ : str * str) => _). revert acc.
        assert (Eg : forall acc kv, g (map tuple acc) kv = Ok (map tuple (acc ++ [u]))) by (intros acc kv; unfold g; rewrite E; cbn [bind]; rewrite Eo; cbn [bind]; rewrite map_app; reflexivity).
        clearbody g. induction R' as [|kv R' IH]; intros acc; [cbn; now rewrite app_nil_r|]. cbn [foldM]. rewrite Eg. cbn [bind]. rewrite IH, <- app_assoc. reflexivity. }
      assert (Fo : forall acc, exists xs, foldM (fun new_terms term => foldM (fun new_terms (_ : str * str) => do s <- text term; do s <- multiple_replace R s;
        Ok (new_terms ++ [sorted_str (split_on "*"%char (sub_minus (sub_generations s)))])) R new_terms) terms1 (map tuple acc) = Ok (map tuple (acc ++ xs)) /\ forall x, In x xs <-> In x us1).
      { clear M2. revert ts1 us1 M1 F. induction terms1 as [|a terms1 IH]; intros ts1 us1 M1 F acc.
        - cbn in M1. injection M1 as <-. inversion F; subst. exists []. rewrite app_nil_r. split; [reflexivity|tauto].
        - cbn [mapM] in M1. destruct (text a) as [t|] eqn:E; [|discriminate M1]. cbn [bind] in M1. destruct (mapM text terms1) as [ts|]; [|discriminate M1]. cbn [bind] in M1. injection M1 as <-.
          inversion F as [|? u ? us Sc F']; subst. cbn [foldM]. rewrite (St a t u acc E Sc R). cbn [bind]. destruct (IH ts us eq_refl F' (acc ++ repeat u (List.length R))) as (xs & Ex & Hx).
          exists (repeat u (List.length R) ++ xs). split; [etransitivity; [exact Ex|now rewrite <- app_assoc]|]. intros x. rewrite in_app_iff, Hx. cbn [In]. split.
          + intros [I|I]; [left; symmetry; now apply repeat_spec in I|now right].
          + intros [<-|I]; [left|now right]. destruct R; [congruence|]. now left. }
      destruct (Fo []) as (xs & E & H). exists xs. split; [exact E|exact H]. }
    destruct X as (xs & E & Hx). unfold check_remapping_on_terms. rewrite E. cbn [bind]. rewrite M2. cbn [bind].
    pose proof (same_set_iff us1 ts2 xs ts2 Hx (fun y => iff_refl _)) as Ss. fold tuple. split; intros H.
    - apply Ss in H. unfold tuple in *. now rewrite H.
    - destruct (same_set _ _) eqn:Sm in |- *; [|reflexivity]. exfalso. apply H, Ss. exact Sm.
  Qed.

  Lemma charge_decides : decides charge_eqb.
  Proof.
    intros [a x] [b y]. unfold charge_eqb. cbn [fst snd]. rewrite andb_true_iff, (str_decides a b). split.
    - intros [-> E]. apply Qc_eq_bool_correct in E. now subst.
    - intros [= -> ->]. split; [reflexivity|]. unfold Qc_eq_bool. destruct (Qc_eq_dec y y); [reflexivity|congruence].
  Qed.

  Lemma qn_decides : decides qn_eqb.
  Proof.
    intros [a l c] [b m d]. unfold qn_eqb. cbn [qn_lorentz qn_sm qn_charges]. rewrite !andb_true_iff, (str_decides a b), (list_decides nat_decides l m), (list_decides charge_decides c d).
    split; [intros ((-> & ->) & ->); reflexivity|intros [= -> -> ->]; auto].
  Qed.

  (** the last label with these numbers *)
  Lemma rev_map_last (info : list (cfield * qnumbers)) : forall d q, 
    (forall pre f post, info = pre ++ (f, q) :: post -> (forall f', ~ In (f', q) post) ->
      dget qn_eqb (fold_left (fun d fq => dset qn_eqb d (snd fq) (cf_label (fst fq))) info d) q = Some (cf_label f)) /\
    ((forall f', ~ In (f', q) info) -> dget qn_eqb (fold_left (fun d fq => dset qn_eqb d (snd fq) (cf_label (fst fq))) info d) q = dget qn_eqb d q).
  Proof.
    induction info as [|[e q'] info IH]; intros d q; cbn [fold_left fst snd].
    - split; [intros [|] ? ? E; discriminate E|reflexivity].
    - destruct (IH (dset qn_eqb d q' (cf_label e)) q) as [I1 I2]. split.
      + intros pre f post E N. destruct pre as [|x pre]; cbn [app] in E.
        * injection E as -> -> ->. rewrite I2 by exact N. now rewrite (dget_dset_same qn_decides).
        * injection E as _ E. exact (I1 pre f post E N).
      + intros N. rewrite I2 by (intros f' I; apply (N f'); now right). apply (dget_dset_other qn_decides). intros ->. apply (N e). now left.
  Qed.

  Lemma last_with (info : list (cfield * qnumbers)) q : In q (map snd info) -> exists pre f post, info = pre ++ (f, q) :: post /\ forall f', ~ In (f', q) post.
  Proof.
    induction info as [|[e q'] info IH]; intros I; [destruct I|]. destruct (in_dec (fun a b => decides_dec qn_decides a b) q (map snd info)) as [J|J].
    - destruct (IH J) as (pre & f & post & -> & N). exists ((e, q') :: pre), f, post. auto.
    - destruct I as [I|I]; [|contradiction]. cbn [snd] in I. subst q'. exists [], e, info. split; [reflexivity|]. intros f' I. apply J. apply in_map_iff. exists (f', q). auto.
  Qed.

  (** The remapping returned sends the label of each exotic field to a label of a field with the same numbers of the other
      completion (the last one), and after it the interactions are alike.  It is returned if both completions have fields with the
      same numbers, equally many terms, and interactions that are alike after it; otherwise the empty dictionary is. *)
  Theorem C61_compare : forall es1 qs1 es2 qs2 terms1 terms2 ts1 ts2,
    es1 <> [] -> unequal es1 -> unequal es2 -> Forall2 (fun e q => info_of e = Ok q) es1 qs1 -> Forall2 (fun e q => info_of e = Ok q) es2 qs2 ->
    NoDup (map cf_label es1) -> ~ In [] (map cf_label es1) -> mapM text terms1 = Ok ts1 -> mapM text terms2 = Ok ts2 ->
    let same := (forall q, In q qs1 <-> In q qs2) /\ List.length terms1 = List.length terms2 in
    (same -> exists remapping us1, remaps (combine es1 qs1) (combine es2 qs2) remapping /\ Forall2 (scanned remapping) ts1 us1 /\
       (same_interactions us1 ts2 -> compare_terms text (es1, terms1) (es2, terms2) = Ok remapping) /\
       (~ same_interactions us1 ts2 -> compare_terms text (es1, terms1) (es2, terms2) = Ok [])) /\
    (~ same -> compare_terms text (es1, terms1) (es2, terms2) = Ok []).
  Proof.
    intros es1 qs1 es2 qs2 terms1 terms2 ts1 ts2 Ne U1 U2 F1 F2 Nd Nn M1 M2 same.
    assert (L1 := Forall2_len F1). assert (L2 := Forall2_len F2).
    unfold compare_terms. cbn [fst snd]. rewrite (C56_exotic_info es1 qs1 U1 F1), (C56_exotic_info es2 qs2 U2 F2). cbn [bind].
    assert (V1 : map snd (combine es1 qs1) = qs1) by (apply values_combine; exact L1). assert (V2 : map snd (combine es2 qs2) = qs2) by (apply values_combine; exact L2).
    rewrite V1, V2.
    assert (Bq : forallb (fun q => mem_by qn_eqb q qs2) qs1 && forallb (fun q => mem_by qn_eqb q qs1) qs2 = true <-> forall q, In q qs1 <-> In q qs2).
    { rewrite andb_true_iff, !forallb_forall. split.
      - intros [A B] q. split; intros I; [apply A in I|apply B in I]; now apply (mem_by_In qn_decides) in I.
      - intros H. split; intros q I; apply (mem_by_In qn_decides); now apply H. }
    split.
    - intros [Sq Sl]. apply Bq in Sq as Sb. rewrite Sb. cbn [negb]. apply Nat.eqb_eq in Sl as Sl'. rewrite Sl'. cbn [negb].
      set (rev_map2 := fold_left _ (combine es2 qs2) []).
      assert (R : exists R, foldM (fun d fq => do l <- dgetM qn_eqb rev_map2 (snd fq); Ok (dset str_eqb d (cf_label (fst fq)) l)) (combine es1 qs1) [] = Ok R /\ remaps (combine es1 qs1) (combine es2 qs2) R).
      { assert (G : forall info d, (forall fq, In fq info -> In (snd fq) qs2) -> NoDup (map fst d ++ map (fun fq : cfield * qnumbers => cf_label (fst fq)) info) ->
           exists R, foldM (fun d fq => do l <- dgetM qn_eqb rev_map2 (snd fq); Ok (dset str_eqb d (cf_label (fst fq)) l)) info d = Ok (d ++ R) /\ remaps info (combine es2 qs2) R).
        { intros info. induction info as [|[e q] info IH]; intros d Hin N; [exists []; rewrite app_nil_r; split; [reflexivity|constructor]|].
          cbn [foldM fst snd]. assert (Iq : In q (map snd (combine es2 qs2))) by (rewrite V2; exact (Hin (e, q) (or_introl eq_refl))).
          destruct (last_with _ _ Iq) as (pre & f & post & E & Np). unfold dgetM at 1. unfold rev_map2 at 1. rewrite (proj1 (rev_map_last (combine es2 qs2) [] q) pre f post E Np). cbn [bind].
          cbn [map fst snd] in N. assert (Dn : dget str_eqb d (cf_label e) = None).
          { apply (dget_None str_decides). apply NoDup_remove_2 in N. intros I. apply N. apply in_or_app. now left. }
          assert (Sn : dset str_eqb d (cf_label e) (cf_label f) = d ++ [(cf_label e, cf_label f)]).
          { clear - Dn. induction d as [|[k v] d IH]; [reflexivity|]. cbn [dget dset app] in *. destruct (str_eqb (cf_label e) k); [discriminate|]. now rewrite (IH Dn). }
          rewrite Sn. destruct (IH (d ++ [(cf_label e, cf_label f)])) as (R & ER & HR); [intros fq I; apply Hin; now right|rewrite map_app; cbn [map fst]; rewrite <- app_assoc; exact N|].
          exists ((cf_label e, cf_label f) :: R). rewrite ER, <- app_assoc. split; [reflexivity|]. constructor; [|exact HR]. cbn [fst snd]. split; [reflexivity|]. exists pre, f, post. auto. }
        destruct (G (combine es1 qs1) []) as (R & ER & HR).
        - intros [e q] I. apply Sq. now apply in_combine_r in I.
        - cbn [map app]. replace (map _ (combine es1 qs1)) with (map cf_label es1); [exact Nd|]. clear - L1. revert qs1 L1. induction es1 as [|e es IH]; intros [|q qs] L; try discriminate; [reflexivity|]. cbn. f_equal. apply IH. now injection L.
        - exists R. auto. }
      destruct R as (R & ER & HR).
      assert (Kr : map fst R = map cf_label es1).
      { clear - HR L1. revert R HR. revert qs1 L1. induction es1 as [|e es IH]; intros [|q qs] L R HR; try discriminate; inversion HR as [|? lr ? R' [E _] HR']; subst; [reflexivity|]. cbn [fst] in E. cbn [map]. rewrite E. f_equal. apply (IH qs); [now injection L|exact HR']. }
      assert (Nr : R <> []) by (intros ->; destruct es1; [congruence|discriminate Kr]).
      assert (Hk : forall k, In k (map fst R) -> k <> []) by (rewrite Kr; intros k I ->; contradiction). assert (Ndr : NoDup (map fst R)) by now rewrite Kr.
      assert (Us : exists us1, Forall2 (scanned R) ts1 us1).
      { clear - Nr Hk Ndr. induction ts1 as [|t ts IH]; [exists []; constructor|]. destruct IH as (us & F). destruct (C09_multiple_replace_scans R t Nr Hk Ndr) as (u & _ & H). exists (u :: us). constructor; [now apply H|exact F]. }
      destruct Us as (us1 & Fu). exists R, us1. split; [exact HR|]. split; [exact Fu|]. 
      destruct (C61_check terms1 terms2 R ts1 us1 ts2 Nr Ndr ltac:(intros I; exact (Hk _ I eq_refl)) M1 M2 Fu) as [C1 C2].
      split; intros H; (etransitivity; [apply (f_equal (fun x => bind x _) ER)|]); cbn [bind]; auto.
    - intros Ns. destruct (forallb _ qs1 && forallb _ qs2) eqn:B; [|reflexivity]. cbn [negb]. destruct (Nat.eqb_spec (List.length terms1) (List.length terms2)) as [E|E]; [|reflexivity].
      exfalso. apply Ns. split; [now apply Bq|exact E].
  Qed.

  (** A completion whose exotic fields have different numbers is found equivalent to itself, by the identity. *)
  Theorem C61_identity : forall es qs terms ts, es <> [] -> unequal es -> Forall2 (fun e q => info_of e = Ok q) es qs -> NoDup qs ->
    NoDup (map cf_label es) -> ~ In [] (map cf_label es) -> mapM text terms = Ok ts ->
    compare_terms text (es, terms) (es, terms) = Ok (map (fun e => (cf_label e, cf_label e)) es) /\ are_equivalent_completions text (es, terms) (es, terms) = Ok true.
  Proof.
    intros es qs terms ts Ne U F Nq Nd Nn M. assert (L := Forall2_len F).
    destruct (C61_compare es qs es qs terms terms ts ts Ne U U F F Nd Nn M M) as [H _]. destruct H as (R & us & HR & Fu & C1 & _); [split; [tauto|reflexivity]|].
    assert (Er : R = map (fun e => (cf_label e, cf_label e)) es).
    { assert (X : forall info R, (forall e q, In (e, q) info -> In (e, q) (combine es qs)) -> remaps info (combine es qs) R -> R = map (fun fq : cfield * qnumbers => (cf_label (fst fq), cf_label (fst fq))) info).
      { intros info. induction info as [|[e q] info IH]; intros R' Hin HR'; inversion HR' as [|? [a b] ? R'' [E1 (pre & f & post & E & N & E2)] HR'']; subst; [reflexivity|]. cbn [fst snd map] in *. subst a b.
        assert (e = f) as ->.
        { assert (I : In (e, q) (combine es qs)) by (apply Hin; now left). clear - I E L Nq. assert (J : In (f, q) (combine es qs)) by (rewrite E; apply in_elt). clear E. revert qs L Nq I J. induction es as [|x es IH]; intros [|y qs] L Nq I J; try contradiction.
          inversion Nq as [|? ? N1 N2]; subst. cbn [combine] in I, J. destruct I as [I|I], J as [J|J].
          - congruence.
          - injection I as -> ->. apply in_combine_r in J. contradiction.
          - injection J as -> ->. apply in_combine_r in I. contradiction.
          - apply (IH qs); auto. }
        f_equal. apply IH; [intros e' q' I; apply Hin; now right|exact HR'']. }
      rewrite (X (combine es qs) R (fun _ _ I => I) HR). clear - L. revert qs L. induction es as [|e es IH]; intros [|q qs] L; try discriminate; [reflexivity|]. cbn. f_equal. apply IH. now injection L. }
    assert (Id : forall m t u, (forall k v, In (k, v) m -> k = v) -> scanned m t u -> u = t).
    { intros m t u Hm Sc. induction Sc as [|m1 k v m2 rest out Em _ Sc IH|c rest out _ Sc IH]; [reflexivity| |now rewrite IH]. rewrite IH. f_equal. symmetry. apply Hm. rewrite Em. apply in_elt. }
    assert (Eu : us = ts).
    { assert (Hr : forall k v, In (k, v) R -> k = v) by (rewrite Er; intros k v I; apply in_map_iff in I as (e & [= <- <-] & _); reflexivity). clear - Fu Hr Id. induction Fu as [|t u ts us Sc F IH]; [reflexivity|]. now rewrite (Id R t u Hr Sc), IH. }
    subst us. assert (C : compare_terms text (es, terms) (es, terms) = Ok R).
    { apply C1. split; intros t I; exists t; (split; [exact I|]); apply key_alike; reflexivity. }
    rewrite <- Er. split; [exact C|]. unfold are_equivalent_completions. rewrite C. cbn [bind]. rewrite Er. destruct es; [congruence|reflexivity].
  Qed.

  (** Without exotic fields no two completions are equivalent, *)
  Theorem C61_none_refuted : forall terms1 terms2 b, are_equivalent_completions text ([], terms1) ([], terms2) = Ok b -> b = false.
  Proof.
    intros terms1 terms2 b. unfold are_equivalent_completions, compare_terms. cbn [fst snd exotic_info foldM bind map forallb andb negb].
    destruct (negb _); [cbn; congruence|]. cbn [fold_left bind]. unfold check_remapping_on_terms.
    destruct (foldM _ terms1 []) as [x|e]; cbn [bind]; [|discriminate]. destruct (mapM text terms2) as [y|e]; cbn [bind]; [|discriminate]. destruct (same_set _ _); cbn; congruence.
  Qed.
End Compare.

(** Two exotic fields with the same numbers: a completion is not found equivalent to itself. *)
Definition second_scalar := exotic ComplexScalar (lit "R") ([] ++ [ix Colour "0" false] ++ []) (1 # 3) (-1).

Theorem C61_twins_refuted : exists es terms, unequal es /\ NoDup (map cf_label es) /\ are_equivalent_completions (fun t : str => Ok t) (es, terms) (es, terms) = Ok false.
Proof.
  exists [quark_scalar; second_scalar], [lit "S(-c0)*L(u0,i0)*Q(u1,c0,i1)*Eps(-u0,-u1)*Eps(-i0,-i1)"; lit "R(-c0)*ub(u0,-c1)*db(u1,-c2)*Eps(-u0,-u1)*Eps(c0,c1,c2)"].
  split; [constructor; [constructor; [vm_compute; reflexivity|constructor]|constructor; constructor]|]. split; [cbn; repeat constructor; cbn; intuition discriminate|]. vm_compute. reflexivity.
Qed.

(** A product of tensors with indices, and its text *)
Definition tensor_text (t : string * list string) : str := lit (fst t) ++ lit "(" ++ join (lit ",") (map lit (snd t)) ++ lit ")".
Definition product_text (ts : list (string * list string)) : str := join (lit "*") (map tensor_text ts).

(** two fields are contracted by an epsilon symbol *)
Definition contracted (ts : list (string * list string)) (a b : string) : Prop :=
  exists l m i j, In (a, l) ts /\ In (b, m) ts /\ In i l /\ In j m /\ In ("Eps", ["-" ++ i; "-" ++ j])%string ts.

(** Sorting the characters of each factor confuses P(c0,i1) with P(c1,i0): scalar interactions with different SU(2) structures are
    taken for the same. *)
Theorem C61_anagram_refuted : exists ts ts' : list (string * list string),
  contracted ts "P" "H" /\ ~ contracted ts' "P" "H" /\ contracted ts' "P" "S" /\ ~ contracted ts "P" "S" /\
  alike (product_text ts) (product_text ts') /\
  are_equivalent_completions (fun ts => Ok (product_text ts)) ([quark_scalar], [ts]) ([quark_scalar], [ts']) = Ok true.
Proof.
  exists [("P", ["c0"; "i1"]); ("R", ["-c1"; "i0"]); ("S", ["i2"]); ("H", ["i3"]); ("KD", ["-c0"; "c1"]); ("Eps", ["-i0"; "-i2"]); ("Eps", ["-i1"; "-i3"])]%string.
  exists [("P", ["c1"; "i0"]); ("R", ["-c0"; "i1"]); ("S", ["i2"]); ("H", ["i3"]); ("KD", ["c0"; "-c1"]); ("Eps", ["-i0"; "-i2"]); ("Eps", ["-i1"; "-i3"])]%string.
  split; [exists ["c0"; "i1"]%string, ["i3"]%string, "i1"%string, "i3"%string; cbn; auto 12|].
  split; [intros (l & m & i & j & I1 & I2 & I3 & I4 & I5); cbn in I1, I2; repeat destruct I1 as [I1|I1]; try discriminate; try contradiction; repeat destruct I2 as [I2|I2]; try discriminate; try contradiction;
          injection I1 as <-; injection I2 as <-; cbn in I3, I4; repeat destruct I3 as [<-|I3]; try contradiction; repeat destruct I4 as [<-|I4]; try contradiction; cbn in I5; repeat destruct I5 as [I5|I5]; try discriminate; contradiction|].
  split; [exists ["c1"; "i0"]%string, ["i2"]%string, "i0"%string, "i2"%string; cbn; auto 12|].
  split; [intros (l & m & i & j & I1 & I2 & I3 & I4 & I5); cbn in I1, I2; repeat destruct I1 as [I1|I1]; try discriminate; try contradiction; repeat destruct I2 as [I2|I2]; try discriminate; try contradiction;
          injection I1 as <-; injection I2 as <-; cbn in I3, I4; repeat destruct I3 as [<-|I3]; try contradiction; repeat destruct I4 as [<-|I4]; try contradiction; cbn in I5; repeat destruct I5 as [I5|I5]; try discriminate; contradiction|].
  split; [apply key_alike; vm_compute; reflexivity|]. vm_compute. reflexivity.
Qed.

(** Generation numbers and signs of indices do not matter. *)
Example C61_example : alike (lit "L(u0,g12_)*H(-i3)") (lit "H(i3)*L(u0,g7_)") /\ ~ alike (lit "L(u0)*H(i3)") (lit "H(i3)*Q(u0)").
Proof.
  split; [apply key_alike; vm_compute; reflexivity|]. intros H. apply key_alike in H. vm_compute in H. discriminate H.
Qed.

Print Assumptions C61_compare.
Print Assumptions C61_identity.
Print Assumptions C61_anagram_refuted.
