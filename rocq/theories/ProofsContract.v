(** * ProofsContract: lemmas about contractions *)

From Coq Require Import Ascii String List Bool Arith ZArith Lia Permutation QArith Qcanon.
From Verif Require Import Base BaseFacts Show ModelFunctions ProofsFunctions ModelIndex SpecIndex ProofsIndex PropsIndex
  ModelField SpecField ProofsField ProofsField2 PropsField PropsField2 ModelContract SpecContract.
Import ListNotations.
Local Open Scope nat_scope.

Lemma opposite_spec i j : opposite i j = true <-> counterpart i j.
Proof.
  unfold opposite, counterpart. rewrite !andb_true_iff. split.
  - intros [[N T] U]. apply str_decides in N. apply itype_decides in T. apply negb_true_iff, eqb_false_iff in U.
    split; [auto|]. split; [auto|]. now destruct (ix_up i), (ix_up j).
  - intros (N & T & U). rewrite N, T, U. split; [split; [now apply str_decides|now apply itype_decides]|]. now destruct (ix_up i).
Qed.

Lemma counterpart_sym i j : counterpart i j -> counterpart j i.
Proof. intros (N & T & U). unfold counterpart. rewrite N, T, U, negb_involutive. auto. Qed.

Lemma counterpart_inj i i' j : counterpart i j -> counterpart i' j -> slot i = slot i'.
Proof.
  intros (N & T & U) (N' & T' & U'). unfold slot. rewrite <- N, <- T, N', T'. f_equal.
  rewrite U in U'. now destruct (ix_up i), (ix_up i').
Qed.

Lemma slot_eqb i j : index_eqb i j = true <-> slot i = slot j.
Proof. rewrite index_eqb_spec. unfold slot. split; [intros (-> & -> & ->); reflexivity|intros [= -> -> ->]; auto]. Qed.

Lemma NoDup_app_intro {A} (a b : list A) : NoDup a -> NoDup b -> (forall x, In x a -> ~ In x b) -> NoDup (a ++ b).
Proof.
  intros Na Nb H. induction Na as [|x a Hx Na IH]; [exact Nb|]. cbn. constructor.
  - rewrite in_app_iff. intros [I|I]; [tauto|]. apply (H x); cbn; auto.
  - apply IH. intros y Iy. apply H. now right.
Qed.

(** ** labels *)

Lemma clean_neg i : clean i -> exists j, neg_index i = Ok j /\ clean j /\ counterpart i j.
Proof.
  intros (E & Ns & low & auto & t & rest & El).
  destruct (C22_neg _ _ _ _ _ _ El E) as (j & Ej & N1 & N2 & N3 & N4). exists j. split; [exact Ej|]. split; [|split; auto].
  unfold neg_index in Ej. pose proof (new_index_label _ _ Ej) as Lj. pose proof (new_index_spelled _ _ _ _ _ El) as Ei.
  rewrite E in Ei. apply (f_equal (fun r => match r with Ok i => Some (ix_up i) | Err _ => None end)) in Ei. cbn in Ei. injection Ei as Ei.
  split; [now rewrite Lj|]. rewrite Ei in Lj. destruct low; cbn [negb] in Lj.
  - destruct (ix_label i) as [|c l] eqn:Li; [discriminate El|]. cbn [tl] in Lj. rewrite Lj. split; [cbn in Ns; tauto|].
    exists false, auto, t, rest. cbn in El. now injection El.
  - rewrite Lj. split; [cbn; intros [H|H]; [discriminate|tauto]|]. exists true, auto, t, rest.
    change ("-"%char :: lower (ix_label i) = "-"%char :: spelled false auto t rest). now rewrite El.
Qed.

Lemma clean_tokens l : Forall clean l -> mapM new_index (split_ws (join (lit " ") (map ix_label l))) = Ok l.
Proof.
  intros F. rewrite split_ws_join.
  - induction F as [|i l (E & _) F IH]; [reflexivity|]. cbn [map mapM]. rewrite E, IH. reflexivity.
  - apply Forall_forall. intros s I. apply in_map_iff in I as (i & <- & I). rewrite Forall_forall in F.
    destruct (F i I) as (E & Ns & low & auto & t & rest & El). split; [|exact Ns]. intros N. rewrite N in El. destruct low, auto; discriminate El.
Qed.

(** printing a clean index and reading it again *)
Lemma clean_show i : clean i -> exists j, new_index (show_index i) = Ok j /\ slot j = slot i /\ clean j.
Proof.
  intros (E & Ns & low & auto & t & rest & El).
  destruct (C22_print_parse _ _ _ _ _ _ El E) as (j & Ej & Q). exists j. split; [exact Ej|]. split; [apply slot_eqb in Q; auto|].
  pose proof (new_index_label _ _ Ej) as Lj. split; [now rewrite Lj|]. rewrite Lj.
  pose proof (new_index_spelled _ _ _ _ _ El) as Ei. rewrite E in Ei. injection Ei as Ei.
  assert (Nr : ~ In " "%char rest).
  { intros I. assert (I2 : In " "%char (lower (ix_label i))).
    { rewrite El. unfold spelled. rewrite !in_app_iff. right. right. now right. }
    unfold lower in I2. apply in_map_iff in I2 as (c & Ec & Ic). apply Ns.
    replace " "%char with c; [exact Ic|]. apply lower_char_inv in Ec; [exact Ec|cbn; lia]. }
  assert (Lr : lower rest = rest).
  { pose proof (f_equal lower El) as E2. rewrite lower_idem, El, lower_spelled in E2. unfold spelled in E2.
    apply app_inv_head, app_inv_head in E2. now injection E2. }
  rewrite Ei. unfold show_index. cbn [ix_up ix_name]. split.
  - rewrite in_app_iff. cbn [In]. rewrite in_app_iff. intros [H|[H|[H|H]]].
    + destruct low; [destruct H as [H|[]]; discriminate|destruct H].
    + destruct t; discriminate.
    + tauto.
    + destruct auto; [destruct H as [H|[]]; discriminate|destruct H].
  - exists low, false, t, (rest ++ (if auto then lit "_" else [])). unfold lower. rewrite map_app. cbn [map]. rewrite map_app, lower_letter.
    fold (lower rest). rewrite Lr. now destruct low, auto.
Qed.

Lemma neg_str_ok l : Forall clean l -> exists s l', neg_str l = Ok s /\ mapM new_index (split_ws s) = Ok l' /\ Forall2 counterpart l l'.
Proof.
  intros F. unfold neg_str.
  assert (H : exists ns l', mapM neg_index l = Ok ns /\ mapM new_index (map show_index ns) = Ok l' /\ Forall2 counterpart l l' /\
                            Forall (fun s => s <> [] /\ ~ In " "%char s) (map show_index ns)).
  { induction F as [|i l C F (ns & l' & E1 & E2 & E3 & E4)]; [exists [], []; repeat split; constructor|].
    destruct (clean_neg _ C) as (n & En & Cn & Cp). destruct (clean_show _ Cn) as (k & Ek & Sk & Ck).
    exists (n :: ns), (k :: l'). cbn [mapM map]. rewrite En, E1, Ek, E2. cbn [bind]. repeat split.
    - constructor; [|exact E3]. unfold slot in Sk. injection Sk as S1 S2 S3. unfold counterpart. rewrite S1, S2, S3. exact Cp.
    - constructor; [|exact E4]. destruct Ck as (_ & Ns & low & auto & t & rest & El). rewrite (new_index_label _ _ Ek) in *.
      split; [|exact Ns]. intros N. rewrite N in El. destruct low, auto; discriminate El. }
  destruct H as (ns & l' & E1 & E2 & E3 & E4). rewrite E1. cbn [bind]. eexists. exists l'. split; [reflexivity|].
  rewrite split_ws_join by exact E4. auto.
Qed.

Lemma pair_text_ok i j : clean i -> clean j ->
  exists s a b, pair_text i j = Ok s /\ mapM new_index (split_ws s) = Ok [a; b] /\ counterpart i a /\ counterpart j b /\ clean a /\ clean b.
Proof.
  intros Ci Cj. destruct (clean_neg _ Ci) as (a & Ea & Ca & Na). destruct (clean_neg _ Cj) as (b & Eb & Cb & Nb).
  unfold pair_text. rewrite Ea, Eb. cbn [bind]. eexists. exists a, b. split; [reflexivity|].
  change [ix_label a; ix_label b] with (map ix_label [a; b]). rewrite clean_tokens by auto. auto.
Qed.

Lemma pair_eps i j t : clean i -> clean j -> ix_type i = t -> ix_type j = t -> ix_up i = true -> ix_up j = true ->
  t = Undotted \/ t = Dotted \/ t = Isospin ->
  exists a b, (do s <- pair_text i j; eps s) = Ok (Metric t [a; b]) /\ counterpart i a /\ counterpart j b /\ clean a /\ clean b.
Proof.
  intros Ci Cj Ti Tj Ui Uj Ht. destruct (pair_text_ok i j Ci Cj) as (s & a & b & Es & El & Na & Nb & Ca & Cb).
  exists a, b. rewrite Es. cbn [bind]. split; [|auto]. unfold eps. rewrite El. cbn [bind].
  destruct Na as (_ & Ta & Ua), Nb as (_ & Tb & Ub). rewrite Ta, Ti. rewrite Ui in Ua. rewrite Uj in Ub.
  cbn [List.length forallb]. rewrite Ua, Ub. destruct Ht as [-> | [-> | ->]]; reflexivity.
Qed.

Lemma pair_delta i j : clean i -> clean j -> ix_type i = Colour -> ix_type j = Colour -> ix_up i = true -> ix_up j = false ->
  exists a b, (do s <- pair_text j i; delta s) = Ok (DeltaC [a; b]) /\ counterpart j a /\ counterpart i b /\ clean a /\ clean b.
Proof.
  intros Ci Cj Ti Tj Ui Uj. destruct (pair_text_ok j i Cj Ci) as (s & a & b & Es & El & Na & Nb & Ca & Cb).
  exists a, b. rewrite Es. cbn [bind]. split; [|auto]. unfold delta. rewrite El. cbn [bind].
  destruct Na as (_ & Ta & Ua), Nb as (_ & Tb & Ub). rewrite Ta, Tb, Ti, Tj, Ua, Ub, Ui, Uj. reflexivity.
Qed.

(** ** products with symbols *)

Lemma map_single_concat {A} (l : list A) : concat (map (fun t => [t]) l) = l.
Proof. induction l as [|x l IH]; [reflexivity|]. cbn. now rewrite IH. Qed.

Lemma normalise_classes args :
  normalise_operator_input args = map TField (indexed_fields (concat args)) ++ map TSymbol (epsilons (concat args)).
Proof. unfold normalise_operator_input. cbv zeta. apply normalise_sorted. Qed.

Lemma normalise_normal args : normal (normalise_operator_input args).
Proof. rewrite normalise_classes. red. eauto. Qed.

Lemma fields_app a b : indexed_fields (a ++ b) = indexed_fields a ++ indexed_fields b.
Proof. apply flat_map_app. Qed.

Lemma epsilons_app a b : epsilons (a ++ b) = epsilons a ++ epsilons b.
Proof. apply flat_map_app. Qed.

Lemma fields_map fs : indexed_fields (map TField fs) = fs /\ epsilons (map TField fs) = [].
Proof. induction fs as [|f fs [IH1 IH2]]; [auto|]. cbn. unfold indexed_fields, epsilons in *. now rewrite IH1, IH2. Qed.

Lemma symbols_map ss : indexed_fields (map TSymbol ss) = [] /\ epsilons (map TSymbol ss) = ss.
Proof. induction ss as [|f fs [IH1 IH2]]; [auto|]. cbn. unfold indexed_fields, epsilons in *. now rewrite IH1, IH2. Qed.

Lemma op_mul_normal op ss : normal op -> op_mul op ss = op ++ map TSymbol ss.
Proof.
  intros (fs & es & ->). unfold op_mul. rewrite normalise_classes, concat_app, map_single_concat. cbn [concat]. rewrite app_nil_r.
  rewrite !fields_app, !epsilons_app.
  destruct (fields_map fs) as [-> ->], (symbols_map es) as [-> ->], (symbols_map ss) as [-> ->]. cbn [app].
  now rewrite !app_nil_r, map_app, app_assoc.
Qed.

Lemma normal_app op ss : normal op -> normal (op ++ map TSymbol ss).
Proof. intros (fs & es & ->). exists fs, (es ++ ss). now rewrite map_app, app_assoc. Qed.

Lemma fold_op_mul ss : forall op, normal op -> fold_left (fun prod d => op_mul prod [d]) ss op = op ++ map TSymbol ss.
Proof.
  induction ss as [|s ss IH]; intros op N; cbn [fold_left map]; [now rewrite app_nil_r|].
  rewrite op_mul_normal by exact N. rewrite IH by now apply normal_app. now rewrite <- app_assoc.
Qed.

(** ** free indices *)

Lemma op_indices_app a b : op_indices (a ++ b) = op_indices a ++ op_indices b.
Proof. apply flat_map_app. Qed.

Lemma op_indices_symbols ss : op_indices (map TSymbol ss) = flat_map symbol_indices ss.
Proof. induction ss as [|s ss IH]; [reflexivity|]. cbn [map op_indices flat_map tensor_indices]. now rewrite <- IH. Qed.

Lemma free_indices_spec op i : In i (free_indices op) <-> is_free op i.
Proof.
  unfold free_indices, is_free. cbv zeta. rewrite filter_In, negb_true_iff. split; intros [I F]; split; auto.
  - intros j Ij C. apply opposite_spec in C. assert (existsb (opposite i) (op_indices op) = true) by (apply existsb_exists; eauto). congruence.
  - destruct (existsb (opposite i) (op_indices op)) eqn:E; [|reflexivity]. apply existsb_exists in E as (j & Ij & C).
    apply opposite_spec in C. destruct (F j Ij C).
Qed.

Lemma filter_filter {A} (f g : A -> bool) l : filter f (filter g l) = filter (fun x => f x && g x) l.
Proof.
  induction l as [|x l IH]; [reflexivity|]. cbn [filter]. destruct (g x); cbn [filter]; rewrite ?andb_true_r, ?andb_false_r.
  - destruct (f x); [now rewrite IH|exact IH].
  - exact IH.
Qed.

Lemma filter_none {A} (f : A -> bool) l : (forall x, In x l -> f x = false) -> filter f l = [].
Proof. induction l as [|x l IH]; intros H; [reflexivity|]. cbn. rewrite H by now left. apply IH. intros; apply H; now right. Qed.

Lemma filter_all {A} (f : A -> bool) l : (forall x, In x l -> f x = true) -> filter f l = l.
Proof. induction l as [|x l IH]; intros H; [reflexivity|]. cbn. rewrite H by now left. f_equal. apply IH. intros; apply H; now right. Qed.

(** Symbols all of whose indices are counterparts of indices of the operator remove those from the free ones. *)
Lemma free_contract op ss :
  (forall e, In e (flat_map symbol_indices ss) -> exists f, In f (op_indices op ++ flat_map symbol_indices ss) /\ counterpart f e) ->
  free_indices (op ++ map TSymbol ss) =
  filter (fun i => negb (existsb (opposite i) (flat_map symbol_indices ss))) (free_indices op).
Proof.
  intros H. unfold free_indices. cbv zeta. rewrite op_indices_app, op_indices_symbols.
  rewrite filter_app. rewrite (filter_none _ (flat_map symbol_indices ss)), app_nil_r.
  - rewrite filter_filter. apply filter_ext. intros i. rewrite existsb_app, negb_orb. apply andb_comm.
  - intros e I. destruct (H e I) as (f & If & C). rewrite negb_false_iff.
    apply existsb_exists. exists f. split; [exact If|]. apply opposite_spec, counterpart_sym, C.
Qed.

(** What a contraction of the free indices [l] does. *)
Lemma contracted op ss l :
  contracts ss l -> incl l (free_indices op) ->
  (forall i, is_free (op ++ map TSymbol ss) i <-> is_free op i /\ ~ In (slot i) (map slot l)) /\
  (proper_op op -> NoDup (map slot l) -> proper_op (op ++ map TSymbol ss)).
Proof.
  intros (l' & P & F2) Hl.
  assert (Ex : forall e, In e (flat_map symbol_indices ss) -> exists f, In f l /\ counterpart f e).
  { clear - P F2. intros e I. revert l P. assert (G : forall e, In e (flat_map symbol_indices ss) -> exists f, In f l' /\ counterpart f e).
    { clear - F2. induction F2 as [|f e0 l' es C F2 IH]; intros e []; [subst; exists f; cbn; auto|]. destruct (IH e H) as (f' & I & C'). exists f'. cbn. auto. }
    intros l P. destruct (G e I) as (f & If & C). exists f. split; [|exact C]. eapply Permutation_in; eauto. }
  assert (Ey : forall f, In f l -> exists e, In e (flat_map symbol_indices ss) /\ counterpart f e).
  { clear - P F2. intros f I. apply Permutation_sym in P. apply (Permutation_in _ P) in I. clear P.
    induction F2 as [|f0 e0 l' es C F2 IH]; [destruct I|]. destruct I as [<-|I]; [exists e0; cbn; auto|].
    destruct (IH I) as (e & Ie & C'). exists e. cbn. auto. }
  split.
  - intros i. rewrite <- !free_indices_spec, free_contract.
    + rewrite filter_In, negb_true_iff. split; intros [I E]; split; auto.
      * intros J. apply in_map_iff in J as (f & S & If). destruct (Ey f If) as (e & Ie & C).
        assert (existsb (opposite i) (flat_map symbol_indices ss) = true); [|congruence].
        apply existsb_exists. exists e. split; [exact Ie|]. apply opposite_spec. unfold slot in S. injection S as S1 S2 S3.
        unfold counterpart in *. now rewrite <- S1, <- S2, <- S3.
      * destruct (existsb (opposite i) (flat_map symbol_indices ss)) eqn:X; [|reflexivity]. exfalso. apply E.
        apply existsb_exists in X as (e & Ie & C). apply opposite_spec in C. destruct (Ex e Ie) as (f & If & C').
        rewrite (counterpart_inj _ _ _ C C'). now apply in_map.
    + intros e Ie. destruct (Ex e Ie) as (f & If & C). exists f. split; [|exact C]. apply in_or_app. left. apply Hl in If. apply free_indices_spec in If. apply If.
  - intros Pr Nd. unfold proper_op in *. rewrite op_indices_app, op_indices_symbols, map_app. apply NoDup_app_intro.
    + exact Pr.
    + assert (Nd' : NoDup (map slot l')) by (eapply Permutation_NoDup; [|exact Nd]; apply Permutation_map, Permutation_sym, P).
      clear - F2 Nd'. induction F2 as [|f e l' es C F2 IH]; [constructor|]. cbn [map] in *. inversion Nd' as [|? ? N1 N2]; subst. constructor; auto.
      intros I. apply N1. apply in_map_iff in I as (e' & S & Ie).
      assert (exists f', In f' l' /\ counterpart f' e') as (f' & If & C').
      { clear - F2 Ie. induction F2 as [|f0 e0 l' es C F2 IH]; [destruct Ie|]. destruct Ie as [<-|Ie]; [exists f0; cbn; auto|].
        destruct (IH Ie) as (f' & ? & ?). exists f'. cbn. auto. }
      apply in_map_iff. exists f'. split; [|exact If]. unfold slot in S |- *. injection S as S1 S2 S3. destruct C as (C1 & C2 & C3), C' as (D1 & D2 & D3).
      rewrite <- C1, <- C2, <- D1, <- D2, S1, S2. f_equal. rewrite C3, D3 in S3. now destruct (ix_up f), (ix_up f').
    + intros s I J. apply in_map_iff in I as (i & <- & I). apply in_map_iff in J as (e & S & Ie). destruct (Ex e Ie) as (f & If & C).
      apply Hl, free_indices_spec in If as [_ If]. apply (If i I). unfold slot in S. injection S as S1 S2 S3. unfold counterpart in *. now rewrite <- S1, <- S2, <- S3.
Qed.
