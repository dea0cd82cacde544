(** * PropsContract: properties C31, C32 of tensormethod/contract.py *)

From Coq Require Import Ascii String List Bool Arith ZArith Lia Permutation QArith Qcanon.
From Verif Require Import Base BaseFacts Show ModelFunctions ProofsFunctions ModelIndex SpecIndex ProofsIndex PropsIndex
  ModelField SpecField ProofsField ProofsField2 PropsField PropsField2 ModelContract SpecContract ProofsContract.
From Verif Require Spec.
Import ListNotations.
Local Open Scope nat_scope.

(** ** C31: colour singlets *)

Lemma Forall2_impl {A B} (P Q : A -> B -> Prop) l l' : (forall a b, P a b -> Q a b) -> Forall2 P l l' -> Forall2 Q l l'.
Proof. intros H F. induction F; constructor; auto. Qed.

Lemma slot_NoDup l : NoDup (map slot l) -> NoDup l.
Proof. apply NoDup_map_inv. Qed.

Lemma NoDup_filter_map {A B} (g : A -> B) f l : NoDup (map g l) -> NoDup (map g (filter f l)).
Proof.
  induction l as [|x l IH]; [auto|]. cbn. intros H. inversion H as [|? ? N1 N2]; subst. destruct (f x); [|auto]. cbn. constructor; auto.
  intros I. apply N1. apply in_map_iff in I as (y & E & Iy). apply filter_In in Iy as [Iy _]. rewrite <- E. now apply in_map.
Qed.

Lemma free_lists op t up : proper_op op ->
  lists op t up (filter (fun i => Bool.eqb (ix_up i) up) (free_of_type t op)).
Proof.
  intros P. split.
  - apply NoDup_filter_map, NoDup_filter_map, NoDup_filter_map, P.
  - intros i. unfold free_of_type. rewrite !filter_In, free_indices_spec. rewrite Bool.eqb_true_iff.
    split; [intros [[F T] U]; split; [exact F|]; split; [now apply itype_decides|exact U]|intros (F & T & U)].
    repeat split; try assumption; [apply F|apply F|now apply itype_decides].
Qed.

Lemma lists_unique op t up l l' : lists op t up l -> lists op t up l' -> Permutation l l'.
Proof.
  intros [N H] [N' H']. apply NoDup_Permutation; [now apply slot_NoDup|now apply slot_NoDup|]. intros i. now rewrite H, H'.
Qed.

Lemma number_length op t up n l : number op t up n -> lists op t up l -> List.length l = n.
Proof. intros (l' & L & <-) L'. apply Permutation_length. eapply lists_unique; eauto. Qed.

Lemma free_clean op i : Forall clean (op_indices op) -> is_free op i -> clean i.
Proof. intros F [I _]. rewrite Forall_forall in F. auto. Qed.

Lemma combine_flat {A} (p q : list A) : List.length p = List.length q ->
  Permutation (flat_map (fun ij => [snd ij; fst ij]) (combine p q)) (p ++ q).
Proof.
  revert q. induction p as [|x p IH]; intros [|y q] E; try discriminate; [constructor|]. injection E as E.
  cbn [combine flat_map fst snd app]. rewrite (IH q E). rewrite (Permutation_middle (x :: p) q y). reflexivity.
Qed.

Lemma deltas_ok op p downs :
  Forall clean (op_indices op) ->
  (forall i, In i p -> is_free op i /\ ix_type i = Colour /\ ix_up i = true) ->
  (forall i, In i downs -> is_free op i /\ ix_type i = Colour /\ ix_up i = false) ->
  exists ds, deltas_of (combine p downs) = Ok ds /\
    Forall2 (fun ij d => exists a b, d = DeltaC [a; b] /\ counterpart (snd ij) a /\ counterpart (fst ij) b) (combine p downs) ds /\
    Forall (fun d => Forall clean (symbol_indices d)) ds.
Proof.
  intros Cl. revert downs. induction p as [|i p IH]; intros [|j downs] Hp Hd; cbn [combine]; [exists []; split; [reflexivity|split; constructor]..|].
  destruct (IH downs) as (ds & E & F & Fc); [intros; apply Hp; now right|intros; apply Hd; now right|].
  destruct (Hp i (or_introl eq_refl)) as (Fi & Ti & Ui). destruct (Hd j (or_introl eq_refl)) as (Fj & Tj & Uj).
  destruct (pair_delta i j) as (a & b & Ed & Na & Nb & Ca & Cb); eauto using free_clean.
  exists (DeltaC [a; b] :: ds). unfold deltas_of in *. cbn [mapM fst snd]. rewrite Ed, E. split; [reflexivity|].
  split; constructor; auto. exists a, b. cbn. auto. cbn. auto.
Qed.

Lemma pairing_contracts p downs ds : List.length p = List.length downs ->
  Forall2 (fun ij d => exists a b, d = DeltaC [a; b] /\ counterpart (snd ij) a /\ counterpart (fst ij) b) (combine p downs) ds ->
  contracts ds (p ++ downs).
Proof.
  intros L F. exists (flat_map (fun ij => [snd ij; fst ij]) (combine p downs)). split; [now apply combine_flat|].
  induction F as [|ij d ijs ds (a & b & -> & Ca & Cb) F IH]; [constructor|]. cbn [flat_map symbol_indices app]. auto.
Qed.

Lemma eps_colour l up : Forall clean l -> (forall i, In i l -> ix_type i = Colour /\ ix_up i = up) -> List.length l = 3 ->
  exists l', (do s <- neg_str l; eps s) = Ok (EpsC l') /\ Forall2 counterpart l l'.
Proof.
  intros C K L. destruct (neg_str_ok l C) as (s & l' & Es & El & F). exists l'. split; [|exact F]. rewrite Es. cbn [bind]. unfold eps. rewrite El. cbn [bind].
  assert (K' : forall i, In i l' -> ix_type i = Colour /\ ix_up i = negb up).
  { clear - F K. induction F as [|i j l l' (N & T & U) F IH]; intros k []; [subst k|apply IH; auto; intros; apply K; now right].
    destruct (K i (or_introl eq_refl)) as [Ti Ui]. now rewrite T, U, Ti, Ui. }
  assert (L' : List.length l' = 3).
  { clear - F L. rewrite <- L. clear L. induction F; cbn; congruence. }
  destruct l' as [|i0 l']; [discriminate|]. rewrite (proj1 (K' i0 (or_introl eq_refl))). cbn [itype_eqb negb]. rewrite L'. cbn [Nat.eqb assert_ bind].
  rewrite (proj2 (forallb_forall _ _)); [reflexivity|]. intros j Ij. rewrite (proj2 (K' j Ij)), (proj2 (K' i0 (or_introl eq_refl))). now destruct up.
Qed.

Lemma contracted_all op ss t l :
  proper_op op -> contracts ss l -> NoDup (map slot l) -> (forall i, In i l <-> is_free op i /\ ix_type i = t) ->
  contracted_type t op (op ++ map TSymbol ss).
Proof.
  intros P C N H. destruct (contracted op ss l C) as [H1 H2].
  { intros i I. apply free_indices_spec. now apply H. }
  split; [|split; [now apply H2|now exists ss]]. intros i. rewrite H1. split; intros [F T]; split; auto.
  - intros E. apply T. apply in_map. now apply H.
  - intros I. apply in_map_iff in I as (j & S & Ij). apply H in Ij as [_ Tj]. apply T. unfold slot in S. injection S as _ S _. now rewrite <- S.
Qed.

(** the setting of the theorems *)
Lemma colour_setting op : normal op -> proper_op op -> Forall clean (op_indices op) ->
  forall ups downs, ups = filter ix_up (free_of_type Colour op) -> downs = filter (fun i => negb (ix_up i)) (free_of_type Colour op) ->
  lists op Colour true ups /\ lists op Colour false downs /\ Forall clean ups /\ Forall clean downs /\
  (forall l, Permutation (ups ++ downs) l -> NoDup (map slot l) /\ (forall i, In i l <-> is_free op i /\ ix_type i = Colour)) /\
  exists dss, mapM deltas_of (map (fun perm => combine perm downs) (permutations ups)) = Ok dss /\
    Forall2 (fun p ds => Permutation ups p /\ deltas_of (combine p downs) = Ok ds /\ Forall (fun d => Forall clean (symbol_indices d)) ds /\
               Forall2 (fun ij d => exists a b, d = DeltaC [a; b] /\ counterpart (snd ij) a /\ counterpart (fst ij) b) (combine p downs) ds)
      (permutations ups) dss.
Proof.
  intros Nm Pr Cl ups downs Eu Ed.
  assert (Lu : lists op Colour true ups).
  { replace ups with (filter (fun i => Bool.eqb (ix_up i) true) (free_of_type Colour op)); [now apply free_lists|].
    rewrite Eu. apply filter_ext. intros i. now destruct (ix_up i). }
  assert (Ld : lists op Colour false downs).
  { rewrite Ed. exact (free_lists op Colour false Pr). }
  split; [exact Lu|]. split; [exact Ld|]. destruct Lu as [Nu Iu], Ld as [Nd Id].
  split; [apply Forall_forall; intros i I; apply Iu in I; eapply free_clean; [exact Cl|tauto]|].
  split; [apply Forall_forall; intros i I; apply Id in I; eapply free_clean; [exact Cl|tauto]|]. split.
  { intros l Pl. split.
    - eapply Permutation_NoDup; [apply Permutation_map, Pl|]. rewrite map_app. apply NoDup_app_intro; auto.
      intros s I J. apply in_map_iff in I as (i & <- & I). apply in_map_iff in J as (j & S & J). apply Iu in I as (_ & _ & U). apply Id in J as (_ & _ & D).
      unfold slot in S. injection S as _ _ S. congruence.
    - intros i. assert (E : In i l <-> In i (ups ++ downs)) by (split; apply Permutation_in; auto using Permutation_sym).
      rewrite E, in_app_iff, Iu, Id. destruct (ix_up i); tauto. }
  assert (All : forall p, In p (permutations ups) -> Permutation ups p) by (intros p I; now apply permutations_spec).
  clear Eu. revert All. induction (permutations ups) as [|p ps IH]; intros All; [exists []; split; [reflexivity|constructor]|].
  pose proof (All p (or_introl eq_refl)) as Pp.
  destruct (deltas_ok op p downs Cl) as (ds & E & F & Fc).
  - intros i I. apply Iu. eapply Permutation_in; [apply Permutation_sym, Pp|exact I].
  - intros i I. now apply Id.
  - destruct IH as (dss & Es & Hs); [intros; apply All; now right|].
    exists (ds :: dss). cbn [map mapM]. rewrite E, Es. split; [reflexivity|]. constructor; auto 10.
Qed.

Theorem C31_colour_singlets :
  forall op st n m,
    normal op -> proper_op op -> Forall clean (op_indices op) -> number op Colour true n -> number op Colour false m ->
    exists ups downs, lists op Colour true ups /\ lists op Colour false downs /\
      (n = m -> exists perms special rs,
         colour_singlets_one false op st = Ok (special ++ rs, st) /\
         NoDup perms /\ (forall p, In p perms <-> Permutation ups p) /\ Forall2 (delta_pairing op downs) perms rs /\
         Forall (contracted_type Colour op) (special ++ rs) /\ List.length special = if n =? 3 then 1 else 0) /\
      (n = 3 -> m = 0 -> exists r, colour_singlets_one false op st = Ok (r :: repeat op 6, st) /\ contracted_type Colour op r) /\
      (n = 0 -> m = 3 -> exists r, colour_singlets_one false op st = Ok ([r; op], st) /\ contracted_type Colour op r) /\
      (n <> m -> ~ (n = 3 /\ m = 0) -> ~ (n = 0 /\ m = 3) -> colour_singlets_one false op st = Err ValueError).
Proof.
  intros op st n m Nm Pr Cl Hn Hm.
  remember (filter ix_up (free_of_type Colour op)) as ups eqn:Eu.
  remember (filter (fun i => negb (ix_up i)) (free_of_type Colour op)) as downs eqn:Ed.
  destruct (colour_setting op Nm Pr Cl ups downs Eu Ed) as (Lu & Ld & Cu & Cd & Un & dss & Es & Hs0).
  pose proof (number_length _ _ _ _ _ Hn Lu) as En. pose proof (number_length _ _ _ _ _ Hm Ld) as Em.
  exists ups, downs. split; [exact Lu|]. split; [exact Ld|]. destruct Lu as [Nu Iu], Ld as [Nd Id].
  assert (Hs : Forall2 (fun p ds => deltas_of (combine p downs) = Ok ds /\
                (n = m -> delta_pairing op downs p (op ++ map TSymbol ds) /\ contracted_type Colour op (op ++ map TSymbol ds))) (permutations ups) dss).
  { eapply Forall2_impl; [|exact Hs0]. intros p ds (Pp & E & _ & F). split; [exact E|]. intros Enm. split; [exists ds; auto|].
    destruct (Un (p ++ downs)) as [U1 U2]; [now apply Permutation_app_tail|].
    apply contracted_all with (l := p ++ downs); auto. apply pairing_contracts; [|exact F].
    rewrite <- (Permutation_length Pp). congruence. }
  assert (Red : forall sp, (sp : res (list operator)) =
      (if (n =? 3) && (m =? 0) then do s <- neg_str ups; do e <- eps s; Ok [op_mul op [e]]
       else if (m =? 3) && (n =? 0) then do s <- neg_str downs; do e <- eps s; Ok [op_mul op [e]]
       else if (m =? 3) && (n =? 3) then do s <- neg_str ups; do e <- eps s; do s' <- neg_str downs; do e' <- eps s'; Ok [op_mul (op_mul op [e]) [e']]
       else if negb (n =? m) then Err ValueError else Ok []) ->
      colour_singlets_one false op st = do special <- sp; Ok (special ++ map (fun ds => op ++ map TSymbol ds) dss, st)).
  { intros sp ->. unfold colour_singlets_one. cbv zeta. rewrite <- Eu, <- Ed, En, Em.
    match goal with |- bind ?a _ = bind ?b _ => change a with b; destruct b; [|reflexivity] end. cbn [bind].
    rewrite Es. cbn [bind].
    assert (Ef : map (fun ds => fold_left (fun prod d => op_mul prod [d]) ds op) dss = map (fun ds => op ++ map TSymbol ds) dss).
    { apply map_ext. intros ds. now apply fold_op_mul. }
    rewrite Ef. destruct (last dss []) as [|[| |[|? [|? [|? ?]]]] [|[| |[|? [|? [|? ?]]]] [|? ?]]]; reflexivity. }
  specialize (Red _ eq_refl). rewrite Red.
  assert (E3 : forall l up, (l = ups /\ up = true) \/ (l = downs /\ up = false) -> List.length l = 3 ->
               exists l', (do s <- neg_str l; eps s) = Ok (EpsC l') /\ Forall2 counterpart l l').
  { intros l up [[-> ->]|[-> ->]] L3; [apply eps_colour with (up := true)|apply eps_colour with (up := false)]; auto.
    - intros i I. apply Iu in I. tauto.
    - intros i I. apply Id in I. tauto. }
  split; [|split; [|split]].
  - intros Enm. exists (permutations ups).
    assert (Sp : exists special, (if (n =? 3) && (m =? 0) then do s <- neg_str ups; do e <- eps s; Ok [op_mul op [e]]
       else if (m =? 3) && (n =? 0) then do s <- neg_str downs; do e <- eps s; Ok [op_mul op [e]]
       else if (m =? 3) && (n =? 3) then do s <- neg_str ups; do e <- eps s; do s' <- neg_str downs; do e' <- eps s'; Ok [op_mul (op_mul op [e]) [e']]
       else if negb (n =? m) then Err ValueError else Ok []) = Ok special /\
       Forall (contracted_type Colour op) special /\ List.length special = if n =? 3 then 1 else 0).
    { rewrite <- Enm, Nat.eqb_refl. cbn [negb]. destruct (Nat.eqb_spec n 3) as [N3|N3].
      - replace (n =? 0) with false by (symmetry; apply Nat.eqb_neq; lia). cbn [andb].
        destruct (E3 ups true) as (a & Ea & Fa); [auto|congruence|]. destruct (E3 downs false) as (b & Eb & Fb); [auto|congruence|].
        apply bind_ok in Ea as (sa & Ea1 & Ea2). apply bind_ok in Eb as (sb & Eb1 & Eb2). cbv beta in Ea2, Eb2.
        rewrite Ea1. cbn [bind]. rewrite Ea2. cbn [bind]. rewrite Eb1. cbn [bind]. rewrite Eb2. cbn [bind].
        eexists. split; [reflexivity|]. split; [|reflexivity]. constructor; [|constructor].
        rewrite (op_mul_normal op [EpsC a] Nm). rewrite op_mul_normal by now apply normal_app. rewrite <- app_assoc, <- map_app.
        destruct (Un (ups ++ downs)) as [U1 U2]; [reflexivity|]. apply contracted_all with (l := ups ++ downs); auto.
        exists (ups ++ downs). split; [reflexivity|]. cbn [app flat_map symbol_indices]. rewrite app_nil_r. now apply Forall2_app.
      - cbn [andb]. exists []. split; [reflexivity|split; [constructor|reflexivity]]. }
    destruct Sp as (special & Esp & Fsp & Lsp). rewrite Esp. cbn [bind]. exists special. eexists. split; [reflexivity|].
    split; [now apply permutations_NoDup, slot_NoDup|]. split; [intros p; apply permutations_spec|].
    assert (Both : Forall2 (delta_pairing op downs) (permutations ups) (map (fun ds => op ++ map TSymbol ds) dss) /\
                   Forall (contracted_type Colour op) (map (fun ds => op ++ map TSymbol ds) dss)).
    { clear - Hs Enm. induction Hs as [|p ds ps dss [E H] Hs [IH1 IH2]]; [split; constructor|]. destruct (H Enm). cbn [map]. split; constructor; auto. }
    destruct Both as [B1 B2]. split; [exact B1|]. split; [|exact Lsp]. now apply Forall_app.
  - intros -> ->. cbn [Nat.eqb andb]. destruct (E3 ups true) as (a & Ea & Fa); [auto|congruence|].
    apply bind_ok in Ea as (sa & Ea1 & Ea2). cbv beta in Ea2. rewrite Ea1. cbn [bind]. rewrite Ea2. cbn [bind].
    assert (Dn : downs = []) by (destruct downs; [reflexivity|discriminate]).
    assert (Edd : map (fun ds => op ++ map TSymbol ds) dss = repeat op 6).
    { pose proof (permutations_count ups) as Pc. rewrite En in Pc. change (fact 3) with 6 in Pc. rewrite <- Pc. clear - Hs Dn.
      induction Hs as [|p ds ps dss [E H] Hs IH]; [reflexivity|]. cbn [map List.length repeat]. rewrite IH. f_equal. rewrite Dn in E.
      assert (C : combine p (@nil index) = []) by (now destruct p). rewrite C in E. injection E as <-. apply app_nil_r. }
    rewrite Edd. eexists. split; [reflexivity|]. rewrite op_mul_normal by exact Nm.
    destruct (Un ups) as [U1 U2]; [rewrite Dn, app_nil_r; reflexivity|]. apply contracted_all with (l := ups); auto.
    exists ups. split; [reflexivity|]. cbn [flat_map symbol_indices]. now rewrite app_nil_r.
  - intros -> ->. cbn [Nat.eqb andb]. destruct (E3 downs false) as (a & Ea & Fa); [auto|congruence|].
    apply bind_ok in Ea as (sa & Ea1 & Ea2). cbv beta in Ea2. rewrite Ea1. cbn [bind]. rewrite Ea2. cbn [bind].
    assert (Un' : ups = []) by (destruct ups; [reflexivity|discriminate]).
    assert (Edd : map (fun ds => op ++ map TSymbol ds) dss = [op]).
    { rewrite Un' in Hs. cbn in Hs. inversion Hs as [|p ds ps dss' [E H] Hs' E1 E2]; subst. inversion Hs'; subst. cbn in E. injection E as <-. cbn. now rewrite app_nil_r. }
    rewrite Edd. eexists. split; [reflexivity|]. rewrite op_mul_normal by exact Nm.
    destruct (Un downs) as [U1 U2]; [rewrite Un'; reflexivity|]. apply contracted_all with (l := downs); auto.
    exists downs. split; [reflexivity|]. cbn [flat_map symbol_indices]. now rewrite app_nil_r.
  - intros N1 N2 N3. destruct (Nat.eqb_spec n 3), (Nat.eqb_spec m 0), (Nat.eqb_spec m 3), (Nat.eqb_spec n 0), (Nat.eqb_spec n m); subst; try lia; try reflexivity; exfalso; tauto.
Qed.

(** Several operators: the results one after the other, an error anywhere is an error. *)
Theorem C31_list :
  forall ops st,
    (forall op, In op ops -> exists rs, colour_singlets_one false op st = Ok (rs, st)) /\
      (exists rss, Forall2 (fun op rs => colour_singlets_one false op st = Ok (rs, st)) ops rss /\
                   colour_singlets false ops st = Ok (concat rss, st)) \/
    (exists op e, In op ops /\ colour_singlets_one false op st = Err e /\ colour_singlets false ops st = Err e).
Proof.
  intros ops st.
  assert (St : forall op rs st', colour_singlets_one false op st = Ok (rs, st') -> st' = st).
  { intros op rs st' E. unfold colour_singlets_one in E. cbv zeta in E. apply bind_ok in E as (sp & _ & E). apply bind_ok in E as (ds & _ & E). cbv beta in E.
    destruct (last ds []) as [|[| |[|? [|? [|? ?]]]] [|[| |[|? [|? [|? ?]]]] [|? ?]]]; now injection E. }
  induction ops as [|op ops IH].
  - left. split; [intros op []|]. exists []. split; [constructor|reflexivity].
  - cbn [colour_singlets]. destruct (colour_singlets_one false op st) as [[rs st']|e] eqn:E.
    + pose proof (St _ _ _ E) as ->. cbn [bind fst snd]. destruct IH as [(A & rss & F & Er)|(op' & e & I & E' & Er)].
      * left. split; [intros op' [<-|I]; [eauto|auto]|]. exists (rs :: rss). split; [now constructor|]. rewrite Er. reflexivity.
      * right. exists op', e. split; [now right|]. rewrite Er. auto.
    + right. exists op, e. split; [now left|]. auto.
Qed.

(** With [overcomplete], two raised and two lowered indices give one more operator, with two epsilons that share a fresh
    index; nothing else changes. *)
Theorem C31_overcomplete :
  forall op st n m,
    normal op -> proper_op op -> Forall clean (op_indices op) -> number op Colour true n -> number op Colour false m ->
    (~ (n = 2 /\ m = 2) -> colour_singlets_one true op st = colour_singlets_one false op st) /\
    (n = 2 -> m = 2 -> (forall i, In i (op_indices op) -> ix_name i <> fresh_name Colour (st Colour)) -> exists rs a b d a' b' d' st',
       colour_singlets_one false op st = Ok (rs, st) /\
       colour_singlets_one true op st = Ok (rs ++ [op ++ map TSymbol [EpsC [a; b; d]; EpsC [a'; b'; d']]], st') /\
       counterpart d d' /\ contracted_type Colour op (op ++ map TSymbol [EpsC [a; b; d]; EpsC [a'; b'; d']]) /\
       ix_name d = fresh_name Colour (st Colour) /\ ix_type d = Colour /\ ix_up d = true /\ Forall clean [a; b; d; a'; b'; d'] /\
       exists w x w' x', In (op ++ map TSymbol [DeltaC [w; w']; DeltaC [x; x']]) rs /\ map slot [a; b; a'; b'] = map slot [w; x; w'; x'] /\
         Forall (fun i => ix_type i = Colour /\ ix_up i = true) [w; x] /\ Forall (fun i => ix_type i = Colour /\ ix_up i = false) [w'; x']).
Proof.
  intros op st n m Nm Pr Cl Hn Hm.
  remember (filter ix_up (free_of_type Colour op)) as ups eqn:Eu.
  remember (filter (fun i => negb (ix_up i)) (free_of_type Colour op)) as downs eqn:Ed.
  destruct (colour_setting op Nm Pr Cl ups downs Eu Ed) as (Lu & Ld & Cu & Cd & Un & dss & Es & Hs).
  pose proof (number_length _ _ _ _ _ Hn Lu) as En. pose proof (number_length _ _ _ _ _ Hm Ld) as Em.
  unfold colour_singlets_one. cbv zeta. rewrite <- Eu, <- Ed, En, Em. split.
  - intros N. match goal with |- bind ?a _ = bind ?a _ => destruct a as [sp|] eqn:Esp; [|reflexivity] end. cbn [bind]. rewrite Es. cbn [bind].
    assert (Ln : List.length (last dss []) = Nat.min n m).
    { assert (G : Forall (fun ds => List.length ds = Nat.min n m) dss).
      { clear - Hs En Em. induction Hs as [|p ds ps dss (Pp & _ & _ & F) Hs IH]; [constructor|]. constructor; [|exact IH].
        apply Spec.Forall2_len in F. rewrite <- F, combine_length, <- (Permutation_length Pp). congruence. }
      assert (Ne : dss <> []).
      { intros ->. inversion Hs as [E|]; subst. pose proof (permutations_count (filter ix_up (free_of_type Colour op))) as C. rewrite <- E in C.
        pose proof (lt_O_fact (List.length (filter ix_up (free_of_type Colour op)))). cbn in C. lia. }
      rewrite Forall_forall in G. apply G. clear - Ne. induction dss as [|d dss IH]; [congruence|]. destruct dss; [now left|]. right. apply IH. discriminate. }
    assert (N2 : Nat.min n m <> 2).
    { destruct (Nat.eqb_spec n 3), (Nat.eqb_spec m 0), (Nat.eqb_spec m 3), (Nat.eqb_spec n 0), (Nat.eqb_spec n m); subst; cbn [andb negb] in Esp; try discriminate; lia. }
    destruct (last dss []) as [|[| |[|? [|? [|? ?]]]] [|[| |[|? [|? [|? ?]]]] [|? ?]]]; try reflexivity. cbn in Ln. lia.
  - intros -> -> Fr. cbn [Nat.eqb andb negb bind]. rewrite Es. cbn [bind].
    destruct ups as [|u1 [|u2 [|? ?]]]; try discriminate. destruct downs as [|d1 [|d2 [|? ?]]]; try discriminate.
    assert (Shape : exists ds1 w1 w2 x1 x2, dss = [ds1; [DeltaC [w1; w2]; DeltaC [x1; x2]]] /\ counterpart d1 w1 /\ counterpart u2 w2 /\
              counterpart d2 x1 /\ counterpart u1 x2 /\ Forall clean [w1; w2; x1; x2]).
    { change (permutations [u1; u2]) with [[u1; u2]; [u2; u1]] in Hs. inversion Hs as [|? ds1 ? dss1 H1 Hs1]; subst.
      inversion Hs1 as [|? ds2 ? dss2 (_ & _ & C2 & F2) Hs2]; subst. inversion Hs2; subst. cbn [combine] in F2.
      inversion F2 as [|? e1 ? es1 (a1 & b1 & -> & X1 & X2) F3]; subst. inversion F3 as [|? e2 ? es2 (a2 & b2 & -> & X3 & X4) F4]; subst. inversion F4; subst.
      cbn [fst snd] in *. exists ds1, a1, b1, a2, b2. split; [reflexivity|]. repeat (split; [assumption|]).
      inversion C2 as [|? ? C3 C4]; subst. inversion C4 as [|? ? C5 C6]; subst. cbn [symbol_indices] in C3, C5. rewrite Forall_forall in *.
      intros i [<-|[<-|[<-|[<-|[]]]]]; auto; [apply C3|apply C3|apply C5|apply C5]; cbn; auto. }
    destruct Shape as (ds1 & w1 & w2 & x1 & x2 & -> & Q1 & Q2 & Q3 & Q4 & Qc).
    change (last [ds1; [DeltaC [w1; w2]; DeltaC [x1; x2]]] []) with [DeltaC [w1; w2]; DeltaC [x1; x2]]. cbv iota.
    rewrite (fresh_ok Colour st : fresh "c" st = _). cbn [bind fst snd]. rewrite neg_fresh. cbn [bind].
    set (d := fresh_index Colour (st Colour)) in *.
    assert (Cld : clean d).
    { pose proof (show_digits (st Colour)) as Dg.
      assert (El : lower (ix_label d) = spelled false true Colour (show_nat (st Colour))).
      { unfold d, fresh_index. cbn. do 2 f_equal. now apply digits_lower. }
      split; [|split; [|eauto]].
      - rewrite (new_index_spelled _ _ _ _ _ El). unfold d, fresh_index, fresh_name. cbn. reflexivity.
      - unfold d, fresh_index. cbn [ix_label]. rewrite in_app_iff. intros [[H|[]]|[H|H]]; try discriminate.
        rewrite Forall_forall in Dg. apply Dg in H. apply digit_char in H. cbn in H. lia. }
    destruct (clean_neg d Cld) as (nd & End & Cnd & Cp). unfold d in End. rewrite neg_fresh in End. injection End as End. rewrite <- End in *. clear nd End.
    fold d in Cp, Cnd |- *.
    assert (Pt : forall l up, Forall clean l -> (forall i, In i l -> ix_type i = Colour /\ ix_up i = up) -> List.length l = 3 ->
              exists l', eps (join (lit " ") (map show_index l)) = Ok (EpsC l') /\ map slot l' = map slot l /\ Forall clean l').
    { clear. intros l up C K L.
      assert (H : exists l', mapM new_index (split_ws (join (lit " ") (map show_index l))) = Ok l' /\ map slot l' = map slot l /\ Forall clean l').
      { rewrite split_ws_join.
        - clear - C. induction C as [|i l Ci C (l' & E & S & Fl)]; [exists []; auto|]. destruct (clean_show i Ci) as (j & Ej & Sj & Cj).
          exists (j :: l'). cbn [map mapM]. rewrite Ej, E. split; [reflexivity|]. split; [cbn; congruence|now constructor].
        - apply Forall_forall. intros s I. apply in_map_iff in I as (i & <- & I). rewrite Forall_forall in C.
          destruct (clean_show i (C i I)) as (j & Ej & Sj & (_ & Ns & low & auto & t & rest & El)). rewrite (new_index_label _ _ Ej) in *.
          split; [|exact Ns]. intros N. rewrite N in El. destruct low, auto; discriminate El. }
      destruct H as (l' & E & S & Fl). exists l'. split; [|split; [exact S|exact Fl]]. unfold eps. rewrite E. cbn [bind].
      assert (L' : List.length l' = 3) by (apply (f_equal (@List.length _)) in S; rewrite !map_length in S; congruence).
      assert (K' : forall i, In i l' -> ix_type i = Colour /\ ix_up i = up).
      { intros i I. apply (in_map slot) in I. rewrite S in I. apply in_map_iff in I as (j & Sj & Ij). unfold slot in Sj. injection Sj as _ <- <-. auto. }
      destruct l' as [|i0 l']; [discriminate|]. rewrite (proj1 (K' i0 (or_introl eq_refl))). cbn [itype_eqb negb]. rewrite L'. cbn [Nat.eqb assert_ bind].
      rewrite (proj2 (forallb_forall _ _)); [reflexivity|]. intros j Ij. rewrite (proj2 (K' j Ij)), (proj2 (K' i0 (or_introl eq_refl))). now destruct up. }
    destruct Lu as [Nu Iu], Ld as [Nd Id].
    destruct (proj1 (Iu u1) ltac:(cbn; auto)) as (Fu1 & Tu1 & Uu1). destruct (proj1 (Iu u2) ltac:(cbn; auto)) as (Fu2 & Tu2 & Uu2).
    destruct (proj1 (Id d1) ltac:(cbn; auto)) as (Fd1 & Td1 & Ud1). destruct (proj1 (Id d2) ltac:(cbn; auto)) as (Fd2 & Td2 & Ud2).
    rewrite Forall_forall in Qc.
    destruct (Pt [w1; x1; d] true) as (l1 & El1 & Sl1 & Fl1).
    { rewrite Forall_forall. intros i [<-|[<-|[<-|[]]]]; auto; apply Qc; cbn; auto. }
    { intros i [<-|[<-|[<-|[]]]]; [destruct Q1 as (_ & -> & ->); rewrite Ud1; auto|destruct Q3 as (_ & -> & ->); rewrite Ud2; auto|auto]. }
    { reflexivity. }
    destruct (Pt [w2; x2; lowered d] false) as (l2 & El2 & Sl2 & Fl2).
    { rewrite Forall_forall. intros i [<-|[<-|[<-|[]]]]; auto; apply Qc; cbn; auto. }
    { intros i [<-|[<-|[<-|[]]]]; [destruct Q2 as (_ & -> & ->); rewrite Uu2; auto|destruct Q4 as (_ & -> & ->); rewrite Uu1; auto|auto]. }
    { reflexivity. }
    rewrite El1. cbn [bind]. rewrite El2. cbn [bind].
    destruct l1 as [|p1 [|p2 [|p3 [|? ?]]]]; try discriminate. destruct l2 as [|q1 [|q2 [|q3 [|? ?]]]]; try discriminate.
    cbn [map] in Sl1, Sl2. injection Sl1 as P1 P1t P1u P2 P2t P2u P3 P3t P3u. injection Sl2 as R1 R1t R1u R2 R2t R2u R3 R3t R3u.
    eexists. exists p1, p2, p3, q1, q2, q3. eexists. split; [reflexivity|]. split; [|split; [|split]].
    + rewrite (op_mul_normal op [EpsC [p1; p2; p3]] Nm). rewrite op_mul_normal by now apply normal_app. rewrite <- app_assoc, <- map_app. reflexivity.
    + destruct Cp as (C1 & C2 & C3). unfold counterpart. rewrite R3, R3t, R3u, P3, P3t, P3u. auto.
    + assert (Ct : forall i j k, counterpart i j -> slot k = slot j -> counterpart i k).
      { intros i j k (c1 & c2 & c3) S. unfold slot in S. injection S as S1 S2 S3. unfold counterpart. now rewrite S1, S2, S3. }
      set (ss := [EpsC [p1; p2; p3]; EpsC [q1; q2; q3]]).
      assert (Ix : flat_map symbol_indices ss = [p1; p2; p3; q1; q2; q3]) by reflexivity.
      assert (K1 : counterpart d1 p1) by (apply (Ct _ w1); [exact Q1|unfold slot; congruence]).
      assert (K2 : counterpart d2 p2) by (apply (Ct _ x1); [exact Q3|unfold slot; congruence]).
      assert (K3 : counterpart u2 q1) by (apply (Ct _ w2); [exact Q2|unfold slot; congruence]).
      assert (K4 : counterpart u1 q2) by (apply (Ct _ x2); [exact Q4|unfold slot; congruence]).
      assert (K5 : counterpart p3 q3) by (destruct Cp as (C1 & C2 & C3); unfold counterpart; rewrite R3, R3t, R3u, P3, P3t, P3u; auto).
      assert (Fd : forall i, In i (op_indices op) -> ~ counterpart i p3 /\ ~ counterpart i q3 /\ slot i <> slot p3 /\ slot i <> slot q3).
      { intros i I. specialize (Fr i I). assert (P3n : ix_name p3 = fresh_name Colour (st Colour)) by (rewrite P3; reflexivity).
        assert (R3n : ix_name q3 = fresh_name Colour (st Colour)) by (rewrite R3; reflexivity).
        unfold counterpart, slot. repeat split.
        - intros (X & _). congruence.
        - intros (X & _). congruence.
        - intros [= X _ _]. congruence.
        - intros [= X _ _]. congruence. }
      split; [|split; [|now exists ss]].
      * intros i. rewrite <- !free_indices_spec, free_contract.
        -- rewrite Ix, filter_In, negb_true_iff. rewrite free_indices_spec. split; intros [F T]; split; auto.
           ++ intros Ti. assert (existsb (opposite i) [p1; p2; p3; q1; q2; q3] = true); [|congruence]. apply existsb_exists.
              destruct (ix_up i) eqn:Ui.
              ** assert (I : In i [u1; u2]) by (apply Iu; auto). destruct I as [<-|[<-|[]]].
                 { exists q2. split; [cbn; auto 8|now apply opposite_spec]. } { exists q1. split; [cbn; auto 8|now apply opposite_spec]. }
              ** assert (I : In i [d1; d2]) by (apply Id; auto). destruct I as [<-|[<-|[]]].
                 { exists p1. split; [cbn; auto 8|now apply opposite_spec]. } { exists p2. split; [cbn; auto 8|now apply opposite_spec]. }
           ++ destruct (existsb (opposite i) [p1; p2; p3; q1; q2; q3]) eqn:X; [|reflexivity]. exfalso. apply T.
              apply existsb_exists in X as (e & Ie & C). apply opposite_spec in C. destruct (Fd i (proj1 F)) as (D1 & D2 & _).
              assert (ix_type e = Colour) by (destruct Ie as [<-|[<-|[<-|[<-|[<-|[<-|[]]]]]]]; [destruct K1 as (_ & -> & _)|destruct K2 as (_ & -> & _)|tauto|destruct K3 as (_ & -> & _)|destruct K4 as (_ & -> & _)|tauto]; auto).
              destruct C as (_ & C & _). congruence.
        -- rewrite Ix. intros e Ie. destruct Ie as [<-|[<-|[<-|[<-|[<-|[<-|[]]]]]]].
           ++ exists d1. split; [apply in_or_app; left; apply Fd1|exact K1].
           ++ exists d2. split; [apply in_or_app; left; apply Fd2|exact K2].
           ++ exists q3. split; [apply in_or_app; right; cbn; auto 8|now apply counterpart_sym].
           ++ exists u2. split; [apply in_or_app; left; apply Fu2|exact K3].
           ++ exists u1. split; [apply in_or_app; left; apply Fu1|exact K4].
           ++ exists p3. split; [apply in_or_app; right; cbn; auto 8|exact K5].
      * unfold proper_op. rewrite op_indices_app, op_indices_symbols, Ix, map_app. apply NoDup_app_intro; [exact Pr| |].
        -- assert (Ne : forall i j i' j', counterpart i j -> counterpart i' j' -> slot i <> slot i' -> slot j <> slot j').
           { intros i j i' j' (c1 & c2 & c3) (e1 & e2 & e3) N E. apply N. unfold slot in *. injection E as E1 E2 E3. rewrite c1, e1 in E1. rewrite c2, e2 in E2.
             rewrite E1, E2. f_equal. rewrite c3, e3 in E3. now destruct (ix_up i), (ix_up i'). }
           assert (U12 : slot u1 <> slot u2) by (inversion Nu; subst; cbn in *; intros E; rewrite E in *; tauto).
           assert (D12 : slot d1 <> slot d2) by (inversion Nd; subst; cbn in *; intros E; rewrite E in *; tauto).
           assert (Hg : forall u d, ix_up u = true -> ix_up d = false -> slot u <> slot d) by (intros ? ? ? ? E; unfold slot in E; injection E; congruence).
           assert (X : forall i j, is_free op i -> counterpart i j -> slot j <> slot p3 /\ slot j <> slot q3).
           { intros i j F (c1 & c2 & c3). destruct (Fd i (proj1 F)) as (A1 & A2 & _).
             assert (N : ix_name i <> fresh_name Colour (st Colour)) by (apply Fr, F).
             split; unfold slot; intros [= E _ _]; apply N; rewrite <- c1, E; [rewrite P3|rewrite R3]; reflexivity. }
           destruct (X d1 p1 Fd1 K1), (X d2 p2 Fd2 K2), (X u2 q1 Fu2 K3), (X u1 q2 Fu1 K4).
           assert (A1 : slot p1 <> slot p2) by (eapply Ne; eauto).
           assert (A2 : slot p1 <> slot q1) by (eapply Ne; eauto; intros E; symmetry in E; revert E; apply Hg; auto).
           assert (A3 : slot p1 <> slot q2) by (eapply Ne; eauto; intros E; symmetry in E; revert E; apply Hg; auto).
           assert (A4 : slot p2 <> slot q1) by (eapply Ne; eauto; intros E; symmetry in E; revert E; apply Hg; auto).
           assert (A5 : slot p2 <> slot q2) by (eapply Ne; eauto; intros E; symmetry in E; revert E; apply Hg; auto).
           assert (A6 : slot q1 <> slot q2) by (eapply Ne; eauto; intros E; symmetry in E; tauto).
           assert (A7 : slot p3 <> slot q3) by (unfold slot; intros [= _ _ E]; rewrite P3u, R3u in E; discriminate).
           cbn [map]. repeat constructor; cbn [In]; intuition congruence.
        -- intros s I J. apply in_map_iff in I as (i & <- & I). destruct (Fd i I) as (_ & _ & D1 & D2). cbn [map In] in J.
           assert (No : forall f e, is_free op f -> counterpart f e -> slot e <> slot i).
           { intros f e [_ F] (c1 & c2 & c3) S. apply (F i I). unfold slot in S. injection S as S1 S2 S3. unfold counterpart. now rewrite <- S1, <- S2, <- S3. }
           destruct J as [J|[J|[J|[J|[J|[J|[]]]]]]]; [exact (No _ _ Fd1 K1 J)|exact (No _ _ Fd2 K2 J)|congruence|exact (No _ _ Fu2 K3 J)|exact (No _ _ Fu1 K4 J)|congruence].
    + split; [rewrite P3; reflexivity|]. split; [rewrite P3t; reflexivity|]. split; [rewrite P3u; reflexivity|]. split; [exact (proj2 (Forall_app _ _ _) (conj Fl1 Fl2))|].
      exists w1, x1, w2, x2. split; [|split; [|split]].
      * cbn [app]. rewrite !map_cons. right. left. now rewrite fold_op_mul by exact Nm.
      * cbn [map]. unfold slot. congruence.
      * destruct Q1 as (_ & T1 & U1), Q3 as (_ & T3 & U3). rewrite Td1 in T1. rewrite Ud1 in U1. rewrite Td2 in T3. rewrite Ud2 in U3. repeat (constructor; [split; [assumption|now rewrite ?U1, ?U3]|]). constructor.
      * destruct Q2 as (_ & T2 & U2), Q4 as (_ & T4 & U4). rewrite Tu2 in T2. rewrite Uu2 in U2. rewrite Tu1 in T4. rewrite Uu1 in U4. repeat (constructor; [split; [assumption|now rewrite ?U2, ?U4]|]). constructor.
Qed.

(** One operator from labels: a field with the indices [s]; the names of the indices of each result, symbols in groups. *)
Definition simple_field (label dyn : string) (sym : list (list nat)) : res field :=
  mk_field (lit label) (lit dyn) None false (lit "bose") (Some sym) None 1 None 1 0 None.

Definition index_text (i : index) : str := (if ix_up i then [] else lit "-") ++ ix_name i.

Definition op_text (op : operator) : list (list str) := map (fun t => map index_text (tensor_indices t)) op.

(** three raised indices: one epsilon, and six copies of the operator that are not contracted *)
Example C31_example :
  (do f <- simple_field "S" "00200" [[1; 1]]; do g <- simple_field "T" "00100" [[1]];
   do x <- call_field f (lit "c0 c1"); do y <- call_field g (lit "c2");
   do r <- colour_singlets_one false [TField x; TField y] (fun _ => 0); Ok (map op_text (fst r))) =
  Ok ([[lit "c0"; lit "c1"]; [lit "c2"]; [lit "-c0"; lit "-c1"; lit "-c2"]]
      :: repeat [[lit "c0"; lit "c1"]; [lit "c2"]] 6).
Proof. vm_compute. reflexivity. Qed.

(** two raised and two lowered indices: two pairings, and with [overcomplete] a third operator *)
Example C31_overcomplete_example :
  (do f <- simple_field "S" "00200" [[1; 1]]; do g <- simple_field "T" "00020" [[1; 1]];
   do x <- call_field f (lit "c0 c1"); do y <- call_field g (lit "-c2 -c3");
   do r <- colour_singlets_one true [TField x; TField y] (fun _ => 0); Ok (map (fun op => skipn 2 (op_text op)) (fst r))) =
  Ok [[[lit "c2"; lit "-c0"]; [lit "c3"; lit "-c1"]]; [[lit "c2"; lit "-c1"]; [lit "c3"; lit "-c0"]];
      [[lit "c2"; lit "c3"; lit "c0_"]; [lit "-c1"; lit "-c0"; lit "-c0_"]]].
Proof. vm_compute. reflexivity. Qed.

(** The statement that every result is a colour singlet is false. *)
Theorem C31_all_singlets_refuted :
  exists op r rs, normal op /\ proper_op op /\ Forall clean (op_indices op) /\
    colour_singlets_one false op (fun _ => 0) = Ok (rs, fun _ => 0) /\ In r rs /\ exists i, is_free r i /\ ix_type i = Colour.
Proof.
  pose (c := fun n : string => mkIndex (lit n) (lit n) Colour true).
  pose (op := [TSymbol (EpsC [c "c0"; c "c1"; c "c2"]%string)]).
  assert (Cl : forall n, In n ["c0"; "c1"; "c2"]%string -> clean (c n)).
  { intros n I. assert (H : exists ch, lit n = lit "c" ++ [ch] /\ In ch ["0"; "1"; "2"]%char).
    { cbn in I. destruct I as [<-|[<-|[<-|[]]]]; eexists; (split; [reflexivity|cbn; auto]). }
    destruct H as (ch & E & Ic). unfold clean, c. cbn [ix_label]. rewrite E. cbn in Ic.
    destruct Ic as [<-|[<-|[<-|[]]]]; (split; [vm_compute; reflexivity|]; split; [cbn; intros [H|[H|[]]]; discriminate|];
      exists false, false, Colour; eexists; vm_compute; reflexivity). }
  assert (Nm : normal op) by (exists [], [EpsC [c "c0"; c "c1"; c "c2"]%string]; reflexivity).
  assert (Pr : proper_op op) by (unfold proper_op; cbn; repeat constructor; cbn; intuition discriminate).
  assert (Ca : Forall clean (op_indices op)) by (cbn; repeat constructor; apply Cl; cbn; auto).
  assert (Fr : forall i, In i (op_indices op) -> is_free op i).
  { intros i I. split; [exact I|]. intros j J (_ & _ & U). cbn in I, J.
    destruct I as [<-|[<-|[<-|[]]]], J as [<-|[<-|[<-|[]]]]; discriminate. }
  assert (N3 : number op Colour true 3).
  { exists (op_indices op). split; [|reflexivity]. split; [exact Pr|]. intros i. split; [|intros [F _]; apply F].
    intros I. split; [auto|]. cbn in I. destruct I as [<-|[<-|[<-|[]]]]; auto. }
  assert (N0 : number op Colour false 0).
  { exists []. split; [|reflexivity]. split; [constructor|]. intros i. split; [intros []|]. intros (F & _ & U). destruct F as [I _].
    cbn in I. destruct I as [<-|[<-|[<-|[]]]]; discriminate. }
  destruct (C31_colour_singlets op (fun _ => 0) 3 0 Nm Pr Ca N3 N0) as (ups & downs & _ & _ & _ & H & _).
  destruct (H eq_refl eq_refl) as (r & E & _). exists op, op, (r :: repeat op 6). split; [exact Nm|]. split; [exact Pr|]. split; [exact Ca|].
  split; [exact E|]. split; [right; now left|]. exists (c "c0"%string). split; [apply Fr; now left|reflexivity].
Qed.

Print Assumptions C31_colour_singlets.
Print Assumptions C31_list.
Print Assumptions C31_overcomplete.
Print Assumptions C31_all_singlets_refuted.
