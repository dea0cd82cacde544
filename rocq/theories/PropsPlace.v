(** * PropsPlace: acting with derivatives in all possible ways (C52) *)

From Coq Require Import Ascii String List Bool Arith ZArith QArith Qcanon Lia Permutation.
From Verif Require Import Base BaseFacts Show Spec SpecFunctions ModelFunctions ProofsFunctions PropsFunctions ModelIndex SpecIndex ProofsIndex PropsIndex
  ModelField SpecField ProofsField PropsField ModelContract SpecContract ProofsContract PropsContract3 ProofsRegistry ProofsDatabase2 ProofsExotic ProofsExotic2 PropsDeriv ModelPlace SpecPlace.
Import ListNotations.
Local Open Scope nat_scope.

(** ** one derivative *)

Lemma act_plain f : plain f -> exists g, act true f = Ok g /\ first_derivative f g /\ (forall s, f_stripped g = Some s -> NoDup (keys (s_charges s))).
Proof.
  intros (a & b & c & d & e & F & Ab & Tx & Dv & Ns).
  destruct (fermion_ok f a b c d e F) as [Fe Lo]. unfold act, allowed_lor_dyn.
  assert (Bo : is_boson f = Ok (Nat.even (a + b))).
  { unfold is_fermion in Fe. destruct (is_boson f) as [x|]; [|discriminate]. cbn in Fe. injection Fe as Fe. rewrite <- Nat.negb_odd, <- Fe. now rewrite negb_involutive. }
  rewrite Bo. cbn [bind].
  assert (G : forall p q, p < 10 -> q < 10 -> ((a = 0 /\ b = 0 /\ p = 1 /\ q = 1) \/ (a = 1 /\ b = 0 /\ p = 0 /\ q = 1) \/ (a = 0 /\ b = 1 /\ p = 1 /\ q = 0)) ->
            exists g, D f [digit p; digit q] = Ok g /\ first_derivative f g /\ (forall s, f_stripped g = Some s -> NoDup (keys (s_charges s)))).
  { intros p q Hp Hq T. destruct (C27_D f a b c d e p q F Hp Hq Tx) as [D1 D2].
    destruct (proj2 D1 ltac:(lia)) as (g & Eg). exists g. split; [exact Eg|].
    destruct (D2 g Eg) as (Fg & Sy & Lb & Ch & Cj & Cm & Nf & Dg & _ & _ & _ & St). split.
    - exists a, b, p, q, c, d, e. rewrite Sy, rank_symmetry_of, Dg. cbn [list_sum fold_right]. repeat (split; [assumption || lia|]). lia.
    - intros s Es. rewrite St in Es. destruct (f_stripped f) as [s0|] eqn:S0.
      + injection Es as <-. now apply Ns.
      + injection Es as <-. cbn [s_charges]. destruct F as (_ & _ & P & _). now apply proper_NoDup. }
  destruct Ab as [[-> ->]|[[-> ->]|[-> ->]]]; cbn [Nat.add Nat.even].
  - apply (G 1 1); lia.
  - unfold is_left_fermion. rewrite Lo. cbn. apply (G 0 1); lia.
  - unfold is_left_fermion. rewrite Lo. cbn. apply (G 1 0); lia.
Qed.

(** ** the structures *)

Lemma choice_perm n k m : n <= k -> (choice n k m <-> Permutation (repeat true n ++ repeat false (k - n)) m).
Proof.
  intros L. unfold choice. split.
  - intros [<- <-]. clear L. induction m as [|[|] m IH]; [reflexivity| |].
    + cbn [count_occ List.length]. destruct (Bool.bool_dec true true); [|congruence]. cbn [repeat app Nat.sub]. now constructor.
    + cbn [count_occ List.length]. destruct (Bool.bool_dec false true); [congruence|].
      assert (C := count_occ_bound Bool.bool_dec true m). rewrite Nat.sub_succ_l by exact C. cbn [repeat]. apply Permutation_sym, Permutation_cons_app. now apply Permutation_sym.
  - intros P. split.
    + rewrite <- (Permutation_length P), app_length, !repeat_length. lia.
    + rewrite <- (proj1 (Permutation_count_occ Bool.bool_dec _ _) P true), count_occ_app, count_occ_repeat_eq by reflexivity.
      rewrite count_occ_repeat_neq by discriminate. lia.
Qed.

Definition one (fields : list (field * str)) (m : list bool) : res (list (field * str)) :=
  mapM (fun fp => do g <- act (snd fp) (fst (fst fp)); Ok (g, snd (fst fp))) (combine fields m).

Lemma one_ok fields : Forall (fun ft => plain (fst ft)) fields -> forall m, List.length m = List.length fields ->
  exists s, one fields m = Ok s /\ acted fields m s.
Proof.
  induction 1 as [|[f t] fields P F IH]; intros [|b m] L; try discriminate L.
  - exists []. split; [reflexivity|constructor].
  - cbn in L. injection L as L. destruct (IH m L) as (s & Es & As). cbn [fst] in P. unfold one in *. cbn [combine mapM fst snd]. destruct b.
    + destruct (act_plain f P) as (g & Eg & Fg & _). rewrite Eg. cbn [bind]. rewrite Es. cbn [bind]. exists ((g, t) :: s). split; [reflexivity|now constructor].
    + cbn [act bind]. rewrite Es. cbn [bind]. exists ((f, t) :: s). split; [reflexivity|now constructor].
Qed.

Lemma plain_refl f : plain f -> field_eqb f f = true.
Proof. intros (a & b & c & d & e & (_ & _ & P & _) & _ & _ & _ & Ns). apply field_eqb_refl; [now apply proper_NoDup|exact Ns]. Qed.

Lemma eqb_derivs f g : field_eqb f g = true -> f_derivs f = f_derivs g.
Proof. unfold field_eqb. rewrite !andb_true_iff. intros H. apply Nat.eqb_eq. tauto. Qed.

Lemma one_eqb fields : Forall (fun ft => plain (fst ft)) fields -> forall m m' s s', List.length m = List.length fields -> List.length m' = List.length fields ->
  one fields m = Ok s -> one fields m' = Ok s' -> (struct_eqb s s' = true <-> m = m').
Proof.
  induction 1 as [|[f t] fields P F IH]; intros [|b m] [|b' m'] s s' L L' E E'; try discriminate L; try discriminate L'.
  - injection E as <-. injection E' as <-. split; reflexivity.
  - cbn in L, L'. injection L as L. injection L' as L'. cbn [fst] in P. unfold one in *. cbn [combine mapM fst snd] in E, E'.
    destruct (act_plain f P) as (g & Eg & Fg & Sg).
    assert (Dv : f_derivs f = 0) by (destruct P as (? & ? & ? & ? & ? & ? & ? & ? & ? & ?); assumption).
    assert (Dg : f_derivs g = 1) by (destruct Fg as (? & ? & ? & ? & ? & ? & ? & ? & ? & ? & ? & ? & ? & ? & ? & ? & X); rewrite Dv in X; exact X).
    assert (Rg : field_eqb g g = true).
    { apply field_eqb_refl; [|exact Sg]. destruct Fg as (? & ? & ? & ? & ? & ? & ? & ? & (_ & _ & Pg & _) & _). now apply proper_NoDup. }
    destruct (mapM _ (combine fields m)) as [s1|] eqn:E1; [|destruct b; [rewrite Eg in E|]; discriminate E].
    destruct (mapM _ (combine fields m')) as [s1'|] eqn:E1'; [|destruct b'; [rewrite Eg in E'|]; discriminate E'].
    specialize (IH m m' s1 s1' L L' E1 E1'). unfold struct_eqb in *.
    destruct b, b'; [rewrite Eg in E, E'|rewrite Eg in E|rewrite Eg in E'|]; cbn [act bind] in E, E'; injection E as <-; injection E' as <-;
      cbn [list_eqb fst snd]; rewrite (decides_refl str_decides), !andb_true_r, ?Rg, ?(plain_refl f P); cbn [andb].
    + rewrite IH. split; [now intros ->|now intros [= ->]].
    + split; [|discriminate]. intros H. apply andb_true_iff in H as [H _]. apply eqb_derivs in H. lia.
    + split; [|discriminate]. intros H. apply andb_true_iff in H as [H _]. apply eqb_derivs in H. lia.
    + rewrite IH. split; [now intros ->|now intros [= ->]].
Qed.

(** Every choice of the fields that carry the derivatives occurs, and exactly once. *)
Theorem C52_structures :
  forall fields n, Forall (fun ft => plain (fst ft)) fields -> n <= List.length fields ->
    exists masks structs,
      (do l <- all_structs fields n; remove_equivalent struct_eqb l) = Ok structs /\
      NoDup masks /\ (forall m, In m masks <-> choice n (List.length fields) m) /\ Forall2 (acted fields) masks structs.
Proof.
  intros fields n P L. set (k := List.length fields) in *.
  set (all := permutations (repeat true n ++ repeat false (k - n))).
  assert (All : forall m, In m all <-> choice n k m) by (intros m; unfold all; rewrite permutations_spec; symmetry; now apply choice_perm).
  set (g := fun m => match one fields m with Ok s => s | Err _ => [] end).
  assert (Gk : forall m, List.length m = k -> one fields m = Ok (g m) /\ acted fields m (g m)).
  { intros m Lm. destruct (one_ok fields P m Lm) as (s & Es & As). unfold g. rewrite Es. auto. }
  assert (E : all_structs fields n = Ok (map g all)).
  { change (all_structs fields n) with (mapM (one fields) all). rewrite <- mapM_ok_map. apply mapM_ext. intros m I. apply All in I as [Lm _]. now apply Gk. }
  set (eqa := fun a b => struct_eqb (g a) (g b)).
  exists (keep_first eqa [] all), (map g (keep_first eqa [] all)).
  assert (Sub : forall m, In m (keep_first eqa [] all) -> In m all).
  { intros m. apply sublist_In. apply keep_first_sublist. }
  assert (Eq : forall a b, List.length a = k -> List.length b = k -> (eqa a b = true <-> a = b)).
  { intros a b La Lb. unfold eqa. apply (one_eqb fields P a b); auto; now apply Gk. }
  split; [|split; [|split]].
  - rewrite E. cbn [bind]. rewrite C01_remove_equivalent_keeps_first. f_equal. change (@nil (list (field * str))) with (map g []). now apply keep_first_map.
  - pose proof (keep_first_pairwise eqa [] all) as Q.
    assert (Ls : forall m, In m (keep_first eqa [] all) -> List.length m = k) by (intros m I; apply Sub, All in I; apply I).
    revert Q Ls. generalize (keep_first eqa [] all). induction l as [|x l IH]; intros Q Ls; [constructor|].
    inversion Q as [|? ? Q1 Q2]; subst. constructor; [|apply IH; auto; intros; apply Ls; now right].
    intros I. rewrite Forall_forall in Q1. specialize (Q1 x I). rewrite (proj2 (Eq x x (Ls x (or_introl eq_refl)) (Ls x (or_introl eq_refl))) eq_refl) in Q1. discriminate.
  - intros m. split; [intros I; now apply All, Sub|]. intros C. apply All in C as I.
    destruct (keep_first_covers eqa [] all m I) as [J|(y & J & Ey)]; [exact J|]. cbn [app] in J.
    apply Eq in Ey; [now subst|apply All, Sub; exact J|apply C].
  - assert (Ls : forall m, In m (keep_first eqa [] all) -> List.length m = k) by (intros m I; apply Sub, All in I; apply I).
    revert Ls. generalize (keep_first eqa [] all). induction l as [|x l IH]; intros Ls; constructor; [apply Gk, Ls; now left|apply IH; intros; apply Ls; now right].
Qed.

(** ** taking the derivatives off *)

Lemma gauge_string_text x : gauge_string x = join (lit " ") (map show_index (filter gauge (i_indices x))).
Proof. unfold gauge_string. f_equal. f_equal. apply filter_ext. intros i. unfold gauge. now destruct (ix_type i). Qed.

Lemma stripped_kept x f : f_derivs (i_field x) = 1 -> stripped_field x = Ok f -> kept x (f, gauge_string x).
Proof.
  intros Dx E. split; [apply gauge_string_text|]. right. split; [exact Dx|]. unfold stripped_field in E. destruct (f_stripped (i_field x)) as [s|]; [|discriminate].
  exists s. split; [reflexivity|]. unfold mk_field in E. cbn [bind Nat.eqb negb andb] in E. injection E as <-. cbn [fst f_label f_dynkin f_symmetry f_latex f_charges f_is_conj f_comm f_nf f_derivs f_stripped].
  repeat (split; [reflexivity|]). split; [|repeat (split; [reflexivity|]); reflexivity]. apply proper_update.
Qed.

Definition strip_step (so : stripped_op) (t : tensor) : res stripped_op :=
  match t with
  | TField x =>
    if negb (f_derivs (i_field x) =? 0) then
      if negb (f_derivs (i_field x) =? 1) then Err AssertionError
      else do f <- stripped_field x; Ok (mkSO (so_fields so ++ [(f, gauge_string x)]) (so_epsilons so) (so_n_derivs so + 1))
    else do f <- field_of x; Ok (mkSO (so_fields so ++ [(f, gauge_string x)]) (so_epsilons so) (so_n_derivs so))
  | TSymbol s => Ok (mkSO (so_fields so) (so_epsilons so ++ [s]) (so_n_derivs so))
  end.

Lemma strip_ok op : forall so0 so, foldM strip_step op so0 = Ok so ->
  exists fs, so_fields so = so_fields so0 ++ fs /\ Forall2 kept (op_fields op) fs /\ so_epsilons so = so_epsilons so0 ++ op_symbols op /\
    so_n_derivs so = so_n_derivs so0 + list_sum (map (fun x => f_derivs (i_field x)) (op_fields op)).
Proof.
  induction op as [|t op IH]; intros so0 so E.
  - injection E as <-. exists []. cbn. rewrite !app_nil_r, Nat.add_0_r. repeat split. constructor.
  - cbn [foldM] in E. destruct t as [x|s]; cbn [strip_step] in E.
    + destruct (f_derivs (i_field x) =? 0) eqn:D0; cbn [negb] in E.
      * apply Nat.eqb_eq in D0. destruct (field_of x) as [f|] eqn:Ef; [|discriminate]. cbn [bind] in E. destruct (IH _ _ E) as (fs & E1 & E2 & E3 & E4). cbn [so_fields so_epsilons so_n_derivs] in *.
        exists ((f, gauge_string x) :: fs). rewrite E1, <- app_assoc. split; [reflexivity|]. split; [constructor; [|exact E2]|].
        { split; [apply gauge_string_text|]. now left. }
        split; [exact E3|]. rewrite E4. cbn [op_fields flat_map app map]. change (list_sum (?n :: ?l)) with (n + list_sum l). rewrite D0. reflexivity.
      * destruct (f_derivs (i_field x) =? 1) eqn:D1; cbn [negb] in E; [|discriminate].
        apply Nat.eqb_eq in D1. destruct (stripped_field x) as [f|] eqn:Ef; [|discriminate]. cbn [bind] in E. destruct (IH _ _ E) as (fs & E1 & E2 & E3 & E4). cbn [so_fields so_epsilons so_n_derivs] in *.
        exists ((f, gauge_string x) :: fs). rewrite E1, <- app_assoc. split; [reflexivity|]. split; [constructor; [|exact E2]|].
        { now apply stripped_kept. }
        split; [exact E3|]. rewrite E4. cbn [op_fields flat_map app map]. change (list_sum (?n :: ?l)) with (n + list_sum l). rewrite D1. unfold op_fields. lia.
    + cbn [bind] in E. destruct (IH _ _ E) as (fs & E1 & E2 & E3 & E4). cbn [so_fields so_epsilons so_n_derivs] in *. exists fs. rewrite E3, <- app_assoc. auto.
Qed.

(** [operator_strip_derivs]: the fields in their order, the symbols, the number of derivatives.  It fails where a field has more
    than one derivative. *)
Theorem C52_strip :
  (forall op so, operator_strip_derivs op = Ok so ->
     Forall2 kept (op_fields op) (so_fields so) /\ so_epsilons so = op_symbols op /\
     so_n_derivs so = list_sum (map (fun x => f_derivs (i_field x)) (op_fields op)) /\ so_n_derivs so <= List.length (so_fields so)) /\
  (forall op x rest so, operator_strip_derivs op = Ok so -> 1 < f_derivs (i_field x) -> operator_strip_derivs (op ++ TField x :: rest) = Err AssertionError).
Proof.
  split.
  - intros op so E. destruct (strip_ok op (mkSO [] [] 0) so E) as (fs & E1 & E2 & E3 & E4). cbn [so_fields so_epsilons so_n_derivs app] in *.
    rewrite E1, E3. rewrite Nat.add_0_l in E4. split; [exact E2|]. split; [reflexivity|]. split; [exact E4|]. rewrite E4. clear -E2.
    induction E2 as [|x ft xs fs (_ & K) F IH]; [apply le_n|]. cbn [map List.length]. change (list_sum (?n :: ?l)) with (n + list_sum l). destruct K as [(K & _)|(K & _)]; rewrite K; lia.
  - intros op x rest so E Dx. unfold operator_strip_derivs in *. rewrite foldM_app. rewrite E. cbn [bind foldM].
    destruct (f_derivs (i_field x) =? 0) eqn:D0; [apply Nat.eqb_eq in D0; lia|]. destruct (f_derivs (i_field x) =? 1) eqn:D1; [apply Nat.eqb_eq in D1; lia|]. reflexivity.
Qed.

(** ** building the operators *)

Lemma split_on_app_ws c a b : split_on c (a ++ c :: b) = split_on c a ++ split_on c b.
Proof.
  induction a as [|x a IH]; cbn [app split_on].
  - now rewrite (decides_refl ascii_decides).
  - destruct (Ascii.eqb x c); [now rewrite IH|]. rewrite IH. pose proof (split_on_nonnil c a) as N. now destruct (split_on c a).
Qed.

Lemma split_ws_app a b : split_ws (a ++ lit " " ++ b) = split_ws a ++ split_ws b.
Proof. unfold split_ws. change (a ++ lit " " ++ b) with (a ++ " "%char :: b). now rewrite split_on_app_ws, filter_app. Qed.

Lemma lorentz_tokens l : Forall clean l -> (forall i, In i l -> ix_up i = true /\ (ix_type i = Undotted \/ ix_type i = Dotted)) ->
  split_ws (join (lit " ") (map show_index l)) = map show_index l /\ filter is_g (map show_index l) = [] /\
  filter (fun i => negb (is_g i)) (map show_index l) = map show_index l /\ mapM new_index (map show_index l) = Ok (map reindex l).
Proof.
  intros C H.
  assert (S : Forall (fun i => show_index i <> [] /\ ~ In " "%char (show_index i) /\ is_g (show_index i) = false /\ new_index (show_index i) = Ok (reindex i)) l).
  { apply Forall_forall. intros i I. rewrite Forall_forall in C. destruct (clean_at_iff i (C i I)) as (r & G & N & E). destruct (H i I) as [U T].
    assert (P := reindex_printed i (C i I)). pose proof (printed_new _ P) as Pn. change (show_index (reindex i)) with (show_index i) in Pn.
    unfold show_index in *. rewrite U, N in *. cbn [app] in *. split; [discriminate|]. split.
    - destruct G as [_ G]. intros [X|X]; [|auto]. destruct T as [T|T]; rewrite T in X; discriminate X.
    - split; [|exact Pn]. cbn [is_g]. destruct T as [-> | ->]; reflexivity. }
  split; [apply split_ws_join; apply Forall_forall; intros s I; apply in_map_iff in I as (i & <- & I); rewrite Forall_forall in S; specialize (S i I); tauto|].
  induction S as [|i l (S1 & S2 & S3 & S4) S IH]; [repeat split|]. inversion C as [|? ? C1 C2]; subst. destruct (IH C2 (fun j J => H j (or_intror J))) as (I1 & I2 & I3).
  cbn [map filter mapM]. rewrite S3, S4, I1, I2, I3. cbn [negb bind]. auto.
Qed.

Lemma map_repeat_split {A} (f : A -> itype * bool) idx p n rest : map f idx = repeat p n ++ rest ->
  exists i1 i2, idx = i1 ++ i2 /\ map f i1 = repeat p n /\ map f i2 = rest.
Proof. intros E. apply map_eq_app in E. exact E. Qed.

Lemma kinds_in ks l i : map kind l = ks -> In i l -> In (kind i) ks.
Proof. intros <- I. now apply in_map. Qed.

(** a field with new Lorentz indices and the ones of its string *)
Lemma place_field f t st : completes f t ->
  exists x y st1, fresh_ifield f st = Ok (x, st1) /\
    call_field f (join (lit " ") (map show_index (by_type Undotted (i_indices x) ++ by_type Dotted (i_indices x))) ++ lit " " ++ t) = Ok y /\
    forall fs ys st2, rebuilt st1 fs ys st2 -> rebuilt st ((f, t) :: fs) (y :: ys) st2.
Proof.
  intros (a & b & c & d & e & F & Rk & (gs & Eg & Fg) & Ng).
  destruct (C73_fresh_indices f a b c d e st F Rk) as (idx & lab & st1 & E & K & Cl & Nd & Mk & Mono).
  exists (mkIField (mkField (label_with_dagger f) (f_dynkin f) (f_charges f) (f_is_conj f) (f_comm f) (f_symmetry f) None 1 (f_latex f) (f_nf f) (f_derivs f) (f_stripped f)) idx lab).
  cbn [i_indices]. unfold canonical in K. rewrite <- !app_assoc in K.
  destruct (map_repeat_split kind idx _ _ _ K) as (iu & i2 & -> & Ku & K2).
  destruct (map_repeat_split kind i2 _ _ _ K2) as (id' & i3 & -> & Kd & K3).
  assert (Tu : forall i, In i iu -> kind i = (Undotted, true)) by (intros i I; apply (kinds_in _ _ _ Ku) in I; now apply repeat_spec in I).
  assert (Td : forall i, In i id' -> kind i = (Dotted, true)) by (intros i I; apply (kinds_in _ _ _ Kd) in I; now apply repeat_spec in I).
  assert (Tr : forall i, In i i3 -> ix_type i <> Undotted /\ ix_type i <> Dotted).
  { intros i I. apply (kinds_in _ _ _ K3) in I. rewrite !in_app_iff in I. unfold kind in I.
    destruct I as [I|[I|[I|I]]]; try (apply repeat_spec in I; injection I as I _; rewrite I; split; discriminate).
    destruct (1 <? f_nf f); [|destruct I]. destruct I as [I|[]]. injection I as I _. rewrite <- I. split; discriminate. }
  assert (Lz : by_type Undotted (iu ++ id' ++ i3) ++ by_type Dotted (iu ++ id' ++ i3) = iu ++ id').
  { rewrite !by_type_app. rewrite (by_type_all Undotted iu), (by_type_all Dotted id'), (by_type_none Undotted id'), (by_type_none Dotted iu), (by_type_none Undotted i3), (by_type_none Dotted i3).
    - cbn [app]. now rewrite !app_nil_r.
    - intros i I. now apply Tr.
    - intros i I. now apply Tr.
    - intros i I. apply Tu in I. unfold kind in I. injection I as I _. rewrite I. discriminate.
    - intros i I. apply Td in I. unfold kind in I. injection I as I _. rewrite I. discriminate.
    - intros i I. apply Td in I. unfold kind in I. now injection I.
    - intros i I. apply Tu in I. unfold kind in I. now injection I. }
  rewrite Lz. set (l := iu ++ id') in *.
  assert (Kl : map kind l = repeat (Undotted, true) a ++ repeat (Dotted, true) b) by (unfold l; now rewrite map_app, Ku, Kd).
  assert (Hl : forall i, In i l -> ix_up i = true /\ (ix_type i = Undotted \/ ix_type i = Dotted)).
  { intros i I. unfold l in I. apply in_app_iff in I as [I|I]; [apply Tu in I|apply Td in I]; unfold kind in I; injection I as I1 I2; auto. }
  rewrite app_assoc in Cl, Nd, Mk. fold l in Cl, Nd, Mk. apply Forall_app in Cl as [Cl _]. apply Forall_app in Mk as [Mk _]. rewrite map_app in Nd.
  assert (Nl : NoDup (map ix_name l)).
  { revert Nd. generalize (map ix_name l) as u, (map ix_name i3) as v. clear. induction u as [|n u IH]; intros v H; [constructor|].
    cbn [app] in H. inversion H as [|? ? H1 H2]; subst. constructor; [|now apply (IH v)]. intros I. apply H1, in_app_iff. now left. }
  destruct (lorentz_tokens l Cl Hl) as (T1 & T2 & T3 & T4).
  set (s := join (lit " ") (map show_index l) ++ lit " " ++ t).
  assert (Sp : split_ws s = map show_index l ++ split_ws t) by (unfold s; now rewrite split_ws_app, T1).
  assert (Kr : map kind (map reindex l) = map kind l) by (rewrite map_map; reflexivity).
  destruct (call_field_spec f a b c d e s F Rk) as [C1 C2].
  destruct (proj2 C1) as (y & Ey).
  { rewrite Sp, !filter_app, T2, T3. cbn [app]. split; [|exact Ng].
    exists (map reindex l ++ gs). split.
    - rewrite mapM_app, T4, Eg. reflexivity.
    - destruct Fg as (hs & H1 & H2 & H3). exists hs. split; [exact H1|]. split; [exact H2|]. rewrite map_app, Kr, Kl, H3. cbn [repeat app]. now rewrite <- app_assoc. }
  exists y, st1. split; [exact E|]. split; [exact Ey|].
  destruct (C2 y Ey) as (ix & Ei & _ & ->). rewrite Sp, mapM_app, T4 in Ei. cbn [bind] in Ei.
  destruct (mapM new_index (split_ws t)) as [gt|] eqn:Et; [|discriminate]. cbn [bind] in Ei. injection Ei as <-.
  intros fs ys st2 Rb. apply (rebuilt_cons st st1 st2 f t fs _ ys a b c d e (map reindex l) gt); auto.
  - now rewrite Kr.
  - rewrite map_map. exact Nl.
  - apply Forall_forall. intros j J. apply in_map_iff in J as (i & <- & J). rewrite Forall_forall in Mk. exact (Mk i J).
Qed.

Lemma construct_ok fields : Forall (fun ft => completes (fst ft) (snd ft)) fields -> forall acc st,
  exists xs st', foldM (fun (acc : operator * counters) fi =>
      do x <- fresh_ifield (fst fi) (snd acc);
      let l := by_type Undotted (i_indices (fst x)) ++ by_type Dotted (i_indices (fst x)) in
      do y <- call_field (fst fi) (join (lit " ") (map show_index l) ++ lit " " ++ snd fi);
      Ok (fst acc ++ [TField y], snd x)) fields (acc, st) = Ok (acc ++ map TField xs, st') /\ rebuilt st fields xs st'.
Proof.
  induction 1 as [|[f t] fields C F IH]; intros acc st.
  - exists [], st. split; [cbn; now rewrite app_nil_r|constructor].
  - cbn [fst snd] in C. destruct (place_field f t st C) as (x & y & st1 & Ex & Ey & Rb). destruct (IH (acc ++ [TField y]) st1) as (xs & st' & E & R).
    exists (y :: xs), st'. split; [|now apply Rb]. cbn [foldM fst snd]. rewrite Ex. cbn [bind fst snd]. cbv zeta. rewrite Ey. cbn [bind fst snd]. etransitivity; [exact E|]. cbn [map]. now rewrite <- app_assoc.
Qed.

Theorem C52_construct :
  forall fields eps st, Forall (fun ft => completes (fst ft) (snd ft)) fields -> fields <> [] ->
    exists xs st', construct_operator fields eps st = Ok (map TField xs ++ map TSymbol eps, st') /\ rebuilt st fields xs st'.
Proof.
  intros fields eps st F N. destruct (construct_ok fields F [] st) as (xs & st' & E & R). exists xs, st'. split; [|exact R].
  unfold construct_operator. etransitivity; [apply (f_equal (fun r => bind r _) E)|]. cbn [bind fst snd app].
  inversion R; subst; [congruence|]. reflexivity.
Qed.

Lemma field_ok_unique f a b c d e a' b' c' d' e' : field_ok f a b c d e -> field_ok f a' b' c' d' e' -> a = a' /\ b = b' /\ c = c' /\ d = d' /\ e = e'.
Proof. intros F F'. pose proof (field_ok_ints _ _ _ _ _ _ F) as X. rewrite (field_ok_ints _ _ _ _ _ _ F') in X. injection X. auto. Qed.

Lemma completes_derivative f g t : completes f t -> first_derivative f g -> completes g t.
Proof.
  intros (a & b & c & d & e & F & Rk & Gs & Ng) (a' & b' & p & q & c' & d' & e' & F' & G & _ & Rg & _).
  destruct (field_ok_unique _ _ _ _ _ _ _ _ _ _ _ F F') as (_ & _ & <- & <- & <-). exists p, q, c, d, e. auto.
Qed.

Lemma acted_completes fields m s : acted fields m s -> Forall (fun ft => completes (fst ft) (snd ft)) fields -> Forall (fun ft => completes (fst ft) (snd ft)) s.
Proof.
  induction 1 as [|f t fs m s A IH|f g t fs m s Dg A IH]; intros F; [constructor| |]; inversion F as [|? ? F1 F2]; subst; constructor; auto.
  cbn [fst snd] in *. now apply (completes_derivative f).
Qed.

(** The names of all new indices are different from one another. *)
Theorem C52_fresh :
  forall st fields xs st', rebuilt st fields xs st' ->
    exists new, Forall2 (fun fx ls => exists a b c d e gs, field_ok (fst (fst fx)) a b c d e /\ i_indices (snd fx) = ls ++ gs /\
                           map kind ls = repeat (Undotted, true) a ++ repeat (Dotted, true) b /\ mapM new_index (split_ws (snd (fst fx))) = Ok gs) (combine fields xs) new /\
      NoDup (map ix_name (concat new)) /\
      Forall (fun i => exists ty n, ix_name i = letter ty :: show_nat n ++ lit "_" /\ st ty <= n < st' ty) (concat new) /\ (forall ty, st ty <= st' ty).
Proof.
  intros st fields xs st' R. induction R as [st|st st1 st2 f t fs x xs a b c d e ls gs F L1 L2 L3 L4 L5 L6 L7 L8 L9 L10 Ix Eg K Nd Mk Mono R (new & N1 & N2 & N3 & N4)].
  - exists []. split; [constructor|]. split; [constructor|]. split; [constructor|]. auto.
  - exists (ls :: new). split; [constructor; [exists a, b, c, d, e, gs; auto|exact N1]|]. cbn [concat]. split; [|split].
    + rewrite map_app. apply NoDup_app_intro; [exact Nd|exact N2|]. intros n I J. apply in_map_iff in I as (i & <- & I). apply in_map_iff in J as (j & E & J).
      rewrite Forall_forall in Mk, N3. destruct (Mk i I) as (ty & n & En & Ln). destruct (N3 j J) as (ty' & n' & En' & Ln'). rewrite En, En' in E.
      apply fresh_name_inj in E as [-> ->]. lia.
    + apply Forall_app. split.
      * eapply Forall_impl; [|exact Mk]. intros i (ty & n & En & Ln). exists ty, n. split; [exact En|]. specialize (N4 ty). lia.
      * eapply Forall_impl; [|exact N3]. intros i (ty & n & En & Ln). exists ty, n. split; [exact En|]. specialize (Mono ty). lia.
    + intros ty. specialize (N4 ty). specialize (Mono ty). lia.
Qed.

(** [derivative_combinations]: for every choice of the fields that carry the derivatives one operator is built, with the symbols of the
    original; those are returned which do not vanish. *)
Theorem C52_combinations :
  forall (survives : operator -> res bool) op st so,
    (forall o, exists b, survives o = Ok b) ->
    operator_strip_derivs op = Ok so -> so_fields so <> [] ->
    Forall (fun ft => plain (fst ft) /\ completes (fst ft) (snd ft)) (so_fields so) ->
    exists masks structs ops bs out st',
      derivative_combinations survives op st = Ok (out, st') /\
      NoDup masks /\ (forall m, In m masks <-> choice (so_n_derivs so) (List.length (so_fields so)) m) /\
      Forall2 (acted (so_fields so)) masks structs /\
      Forall2 (fun s o => exists st1 st2 xs, (forall ty, st ty <= st1 ty) /\ rebuilt st1 s xs st2 /\ o = map TField xs ++ map TSymbol (op_symbols op)) structs ops /\
      Forall2 (fun o b => survives o = Ok b) ops bs /\ out = map fst (filter snd (combine ops bs)).
Proof.
  intros survives op st so Sv Es Ne F.
  destruct (proj1 C52_strip op so Es) as (_ & Ep & _ & Ln).
  assert (Pl : Forall (fun ft => plain (fst ft)) (so_fields so)) by (eapply Forall_impl; [|exact F]; intros ft [A _]; exact A).
  assert (Co : Forall (fun ft => completes (fst ft) (snd ft)) (so_fields so)) by (eapply Forall_impl; [|exact F]; intros ft [_ A]; exact A).
  destruct (C52_structures (so_fields so) (so_n_derivs so) Pl Ln) as (masks & structs & E & Nd & All & Ac).
  set (k := List.length (so_fields so)) in *.
  assert (Cs : Forall (fun s => Forall (fun ft => completes (fst ft) (snd ft)) s /\ s <> []) structs).
  { clear E All Nd. induction Ac as [|m s ms ss A Ac IH]; constructor; [|exact IH]. split; [now apply (acted_completes _ _ _ A)|]. inversion A; subst; congruence. }
  assert (Run : forall structs, Forall (fun s => Forall (fun ft => completes (fst ft) (snd ft)) s /\ s <> []) structs -> forall acc st0, (forall ty, st ty <= st0 ty) ->
            exists ops bs st', foldM (fun (acc : list operator * counters) struct =>
                do r <- construct_operator struct (so_epsilons so) (snd acc);
                do b <- survives (fst r);
                Ok (if b then fst acc ++ [fst r] else fst acc, snd r)) structs (acc, st0) = Ok (acc ++ map fst (filter snd (combine ops bs)), st') /\
              Forall2 (fun s o => exists st1 st2 xs, (forall ty, st ty <= st1 ty) /\ rebuilt st1 s xs st2 /\ o = map TField xs ++ map TSymbol (op_symbols op)) structs ops /\
              Forall2 (fun o b => survives o = Ok b) ops bs).
  { clear - Sv Ep. induction 1 as [|s structs (C & N) F IH]; intros acc st0 M.
    - exists [], [], st0. split; [cbn; now rewrite app_nil_r|]. split; constructor.
    - destruct (C52_construct s (so_epsilons so) st0 C N) as (xs & st1 & E & R). destruct (Sv (map TField xs ++ map TSymbol (so_epsilons so))) as (b & Eb).
      destruct (C52_fresh _ _ _ _ R) as (_ & _ & _ & _ & M1).
      destruct (IH (if b then acc ++ [map TField xs ++ map TSymbol (so_epsilons so)] else acc) st1) as (ops & bs & st' & E1 & F1 & F2).
      { intros ty. specialize (M ty). specialize (M1 ty). lia. }
      exists ((map TField xs ++ map TSymbol (so_epsilons so)) :: ops), (b :: bs), st'. split; [|split; [constructor; [|exact F1]|now constructor]].
      + cbn [foldM fst snd]. rewrite E. cbn [bind fst snd]. rewrite Eb. cbn [bind]. etransitivity; [exact E1|]. cbn [combine filter snd]. destruct b; [cbn [map fst]; now rewrite <- app_assoc|reflexivity].
      + exists st0, st1, xs. rewrite Ep. auto. }
  destruct (Run structs Cs [] st (fun ty => le_n _)) as (ops & bs & st' & E1 & F1 & F2).
  exists masks, structs, ops, bs, (map fst (filter snd (combine ops bs))), st'. split; [|auto 10].
  unfold derivative_combinations. rewrite Es. cbn [bind]. destruct (all_structs (so_fields so) (so_n_derivs so)) as [l|]; [|discriminate]. cbn [bind] in E |- *.
  rewrite E. cbn [bind]. exact E1.
Qed.

(** ** an example: (DL) L H (DH) *)

Definition fL : res field := mk_field (lit "L") (lit "10001") (Some [(lit "y", Q2Qc (-1 # 2))]) false (lit "fermi") None None 1 None 3 0 None.
Definition fH : res field := mk_field (lit "H") (lit "00001") (Some [(lit "y", Q2Qc (1 # 2))]) false (lit "0") None None 1 None 1 0 None.

Definition dim7 : res operator :=
  do l <- fL; do h <- fH; do dl <- D l (lit "01"); do dh <- D h (lit "11");
  do a <- call_field dl (lit "d0 i0 g0_"); do b <- call_field l (lit "u0 i1 g1_"); do c <- call_field h (lit "i2"); do d <- call_field dh (lit "u1 d1 i3");
  do e1 <- eps (lit "-i0 -i1"); do e2 <- eps (lit "-i2 -i3"); do e3 <- eps (lit "-u0 -u1"); do e4 <- eps (lit "-d0 -d1");
  Ok [TField a; TField b; TField c; TField d; TSymbol e1; TSymbol e2; TSymbol e3; TSymbol e4].

(** The hypotheses hold for it, and there are six placements. *)
Example C52_example :
  exists op so, dim7 = Ok op /\ operator_strip_derivs op = Ok so /\ so_n_derivs so = 2 /\ List.length (so_fields so) = 4 /\
    Forall (fun ft => plain (fst ft) /\ completes (fst ft) (snd ft)) (so_fields so) /\
    (do r <- derivative_combinations (fun _ => Ok true) op (fun _ => 5); Ok (map (fun o => map (fun x => f_derivs (i_field x)) (op_fields o)) (fst r)))
    = Ok [[1; 1; 0; 0]; [1; 0; 1; 0]; [1; 0; 0; 1]; [0; 1; 1; 0]; [0; 1; 0; 1]; [0; 0; 1; 1]].
Proof.
  destruct dim7 as [op|] eqn:E; [|vm_compute in E; discriminate E]. exists op.
  destruct (operator_strip_derivs op) as [so|] eqn:S; [|vm_compute in E; injection E as <-; vm_compute in S; discriminate S].
  exists so. split; [reflexivity|]. split; [reflexivity|].
  vm_compute in E. injection E as <-. vm_compute in S. injection S as <-. cbn [so_fields so_n_derivs List.length].
  split; [reflexivity|]. split; [reflexivity|]. split; [|vm_compute; reflexivity].
  assert (Pr : forall y : Qc, proper [(lit "y", y); (lit "3b", Q2Qc 0)]).
  { intros y. exists y, (Q2Qc 0), []. split; [reflexivity|]. cbn. repeat constructor; cbn; intuition discriminate. }
  assert (Nd : NoDup [lit "y"; lit "3b"]) by (repeat constructor; cbn; intuition discriminate).
  repeat (constructor; [cbn [fst snd]; split|]); try constructor.
  all: match goal with
       | |- plain {| f_dynkin := ("1" :: _)%char |} => exists 1, 0, 0, 0, 1
       | |- completes {| f_dynkin := ("1" :: _)%char |} _ => exists 1, 0, 0, 0, 1
       | |- plain _ => exists 0, 0, 0, 0, 1
       | |- completes _ _ => exists 0, 0, 0, 0, 1
       end.
  all: match goal with |- field_ok _ _ _ _ _ _ /\ _ => split; [split; [reflexivity|split; [lia|split; [apply (Pr _)|cbn; lia]]]|] end.
  all: try (split; [lia|split; [discriminate|split; [reflexivity|intros s Hs; discriminate Hs]]]).
  all: split; [reflexivity|split; [|vm_compute; lia]].
  all: eexists; split; [vm_compute; reflexivity|exists []; repeat split].
Qed.

(** What was stored when a derivative acted has neither statistics nor number of families: a field that carried a derivative comes
    back as a commuting field with one family, even where its derivative is put back. *)
Theorem C52_statistics_refuted :
  exists op x, In x (op_fields op) /\ f_label (i_field x) = lit "DL" /\ f_derivs (i_field x) = 1 /\ f_comm (i_field x) = lit "fermi" /\ f_nf (i_field x) = 3 /\
    exists ops st', derivative_combinations (fun _ => Ok true) op (fun _ => 5) = Ok (ops, st') /\ ops <> [] /\
      Forall (fun o => exists y, hd_error (op_fields o) = Some y /\ (f_label (i_field y) = lit "DL" \/ f_label (i_field y) = lit "L") /\
                        f_comm (i_field y) = lit "0" /\ f_nf (i_field y) = 1) ops.
Proof.
  set (first := fun o : operator => match op_fields o with y :: _ => Some (f_label (i_field y), f_derivs (i_field y), f_comm (i_field y), f_nf (i_field y)) | [] => None end).
  assert (A : (do op <- dim7; Ok (first op)) = Ok (Some (lit "DL", 1, lit "fermi", 3))) by (vm_compute; reflexivity).
  assert (B : (do op <- dim7; do r <- derivative_combinations (fun _ => Ok true) op (fun _ => 5); Ok (map first (fst r))) =
              Ok [Some (lit "DL", 1, lit "0", 1); Some (lit "DL", 1, lit "0", 1); Some (lit "DL", 1, lit "0", 1);
                  Some (lit "L", 0, lit "0", 1); Some (lit "L", 0, lit "0", 1); Some (lit "L", 0, lit "0", 1)]) by (vm_compute; reflexivity).
  destruct dim7 as [op|]; [|discriminate A]. cbn [bind] in A, B. exists op. injection A as A.
  destruct (derivative_combinations (fun _ => Ok true) op (fun _ => 5)) as [[ops st']|]; [|discriminate B]. cbn [bind fst] in B. injection B as B.
  unfold first in A. destruct (op_fields op) as [|x l]; [discriminate A|]. injection A as A1 A2 A3 A4. exists x. split; [now left|]. repeat (split; [assumption|]).
  exists ops, st'. split; [reflexivity|]. split; [intros ->; discriminate B|].
  assert (G : forall L, map first ops = L -> Forall (fun v => exists lb n, v = Some (lb, n, lit "0", 1) /\ (lb = lit "DL" \/ lb = lit "L")) L ->
            Forall (fun o => exists y, hd_error (op_fields o) = Some y /\ (f_label (i_field y) = lit "DL" \/ f_label (i_field y) = lit "L") /\ f_comm (i_field y) = lit "0" /\ f_nf (i_field y) = 1) ops).
  { clear. intros L <- F. rewrite Forall_map in F. eapply Forall_impl; [|exact F]. cbn beta. intros o (lb & n & E & Hl). unfold first in E.
    destruct (op_fields o) as [|y r]; [discriminate E|]. injection E as E1 E2 E3 E4. exists y. rewrite E1, E3, E4. auto. }
  apply (G _ B). repeat (apply Forall_cons; [eauto 6|]). apply Forall_nil.
Qed.

Print Assumptions C52_structures.
Print Assumptions C52_strip.
Print Assumptions C52_construct.
Print Assumptions C52_fresh.
Print Assumptions C52_combinations.
Print Assumptions C52_statistics_refuted.
