(** * PropsCuts: what the inner lines of a completion carry (C107) *)

From Coq Require Import Ascii String List Bool Arith ZArith NArith QArith Qcanon Lia Permutation Sorted.
From Verif Require Import Base BaseFacts Show ModelFunctions ProofsFunctions ModelIndex SpecIndex ProofsIndex PropsIndex ModelField SpecField
  ProofsField ProofsField2 PropsField PropsField2 ModelContract SpecContract ProofsContract PropsContract PropsContract3 ModelPartition SpecPartition
  PropsPartition PropsPartition3 DataTopology PropsTopology ModelExotic SpecExotic ProofsExotic PropsExotic ProofsExotic2 PropsExotic2 PropsExotic3 SpecCompletion PropsCompletion SpecCuts ProofsCuts
  ModelInfo ModelOperators SpecOperators ProofsOperators PropsOperators PropsOperators2.
From Verif Require Spec.
Import ListNotations.
Local Open Scope nat_scope.

Lemma sum_of_app q l l' : sum_of q (l ++ l') = (sum_of q l + sum_of q l')%Qc.
Proof. induction l as [|a l IH]; cbn [app sum_of fold_right]; [unfold sum_of; cbn; ring|]. fold (sum_of q l) (sum_of q (l ++ l')). rewrite IH. ring. Qed.

Lemma list_sum_map_app (h : cfield -> nat) l l' : list_sum (map h (l ++ l')) = list_sum (map h l) + list_sum (map h l').
Proof. now rewrite map_app, list_sum_app. Qed.

Section Operator.
  Variables (F0 : list cfield) (G : list symbol).
  Hypothesis Inv : invariant_operator F0 G.
  Hypothesis Sing : Forall single_indices F0.
  Variable vanishes : cop -> bool.
  Variable g : graph.

  Notation func := (replace_and_mutate cfield cop symbol sstate cfield_eqb (contract_vertex vanishes) G g).
  Notation row := (reduced_row (rleaf cfield) (rstate cfield cop symbol sstate) func).
  Notation rows := (reduced_rows (rleaf cfield) (rstate cfield cop symbol sstate) func).
  Notation odd := (odd_tree (cfield * N) fermion_leaf).
  Notation rc := (r_cs cfield cop symbol sstate).
  Notation rk := (fun st => map fst (r_edges cfield cop symbol sstate st)).
  Notation config := (config F0 G).

  Lemma carries_leaf f : In f F0 -> carries_from G [f] f.
  Proof.
    intros I. pose proof (io_contractible _ _ Inv) as K. split; [split; [|intros _]; cbn; unfold sum_of; cbn; ring|]. split.
    - pose proof (cn_spin _ _ K) as S. rewrite Forall_forall in S. split; [exact (S f I)|]. cbn. now rewrite Nat.add_0_r.
    - split.
      + pose proof (cn_legit _ _ K) as Lg. pose proof (cn_once _ _ K) as N. unfold vertex_indices in N. rewrite map_app in N. apply NoDup_split in N as (N & _ & _). clear - N I.
        induction F0 as [|a l IH]; [destruct I|]. cbn [flat_map] in N. rewrite map_app in N. apply NoDup_split in N as (N1 & N2 & _). destruct I as [->|I]; auto.
      + intros t Tg Un. apply (shows_leaf F0 G Inv t Tg Un f I). rewrite Forall_forall in Sing. now apply Sing.
  Qed.

  Lemma quiet_part L M R : Permutation L (M ++ R) -> quiet L -> quiet M.
  Proof. intros P Q A B PA. apply (Q A (B ++ R)). rewrite P, PA. now rewrite app_assoc. Qed.

  Lemma right_handed_dec x : right_handed x \/ ~ right_handed x.
  Proof.
    destruct (existsb (fun i => match ix_type i with Dotted => true | _ => false end) (indices_of x)) eqn:E.
    - left. apply existsb_exists in E as (i & I & T). exists i. split; [exact I|]. now destruct (ix_type i).
    - right. intros (i & I & T). apply not_true_iff_false in E. apply E, existsb_exists. exists i. split; [exact I|]. now rewrite T.
  Qed.

  Lemma cls_majorana_dec k : k = MajoranaFermion \/ k <> MajoranaFermion.
  Proof. destruct k; (now left) || (right; discriminate). Qed.

  Lemma real_irrep_dec x : real_irrep x \/ ~ real_irrep x.
  Proof.
    pose proof (real_rep_iff x _ _ eq_refl eq_refl) as R. destruct (real_rep (indices_of x) (hypercharge x)); [left; now apply R|right; intros H; apply R in H; discriminate H].
  Qed.

  Lemma flow_sums Ls fs : Forall2 (carries_from G) Ls fs -> sum_of hypercharge (concat Ls) = sum_of hypercharge fs /\ (quiet (concat Ls) -> sum_of baryon (concat Ls) = sum_of baryon fs).
  Proof.
    intros F. induction F as [|L f Ls fs ((H1 & H2) & _) F [IH1 IH2]]; [split; reflexivity|]. cbn [concat]. rewrite !sum_of_app. cbn [sum_of fold_right]. fold (sum_of hypercharge fs) (sum_of baryon fs).
    split; [now rewrite IH1, H1|]. intros Q. rewrite IH2, H2; [reflexivity| |]; eapply quiet_part; try exact Q; [|apply Permutation_app_comm]. reflexivity.
  Qed.

  (** the sum of the baryon numbers in the term of a vertex *)
  Lemma term_baryon Ls fs lor c x p term : Forall2 (carries_from G) Ls fs -> carries_from G (concat Ls) x ->
    stands_for (cnormalise (map KField fs ++ map KSym lor ++ map KSym c)) x p -> interaction (cnormalise (map KField fs ++ map KSym lor ++ map KSym c)) p term ->
    quiet (concat Ls) -> sum_of baryon (cfields term) = Q2Qc 0.
  Proof.
    intros F ((_ & Cx) & _) Sf (Pt & _) Q. destruct (flow_sums Ls fs F) as [A1 A2]. specialize (A2 Q). specialize (Cx Q).
    rewrite (sum_of_perm baryon _ _ Pt). cbn [sum_of fold_right]. fold (sum_of baryon (cfields (cnormalise (map KField fs ++ map KSym lor ++ map KSym c)))).
    rewrite (sum_of_perm baryon (cfields _) fs (pr_cfields fs lor c)), <- A2. destruct Sf as (_ & _ & _ & _ & _ & Hy & _ & _ & _ & _ & _ & (_ & Hr & Hc) & _).
    destruct (real_irrep_dec x) as [R|R]; [|rewrite (Hc R), Cx; ring]. rewrite (Hr R). pose proof R as (_ & _ & Y0).
    rewrite (Q (concat Ls) []); [reflexivity|now rewrite app_nil_r|]. rewrite A1, <- (sum_of_perm hypercharge _ fs (pr_cfields fs lor c)), <- Hy. exact Y0.
  Qed.

  Lemma carries_step Ls O fs Rest Lv sp c lor l x p :
    Permutation F0 (concat Ls ++ O) -> Forall2 (carries_from G) Ls fs -> config (fs ++ Rest) Lv -> 2 <= List.length fs <= 3 ->
    get_lorentz_epsilons fs = Ok (true, lor) -> separate_gauge_epsilons fs Lv = Ok (sp, c) -> (forall i, In i l <-> is_free (product_of fs) i) -> split_symbols l Lv sp c ->
    stands_for (cnormalise (map KField fs ++ map KSym lor ++ map KSym c)) x p -> carries_from G (concat Ls) x.
  Proof.
    intros P F Cfg N El Es Hl Sl Sf. pose proof (config_contractible F0 G Inv fs Rest Lv Cfg) as K.
    assert (A : sum_of hypercharge (concat Ls) = sum_of hypercharge fs /\ Nat.odd (list_sum (map spin (concat Ls))) = Nat.odd (list_sum (map spin fs))).
    { clear - F. induction F as [|L f Ls fs ((H1 & _) & (_ & H2) & _ & _) F [IH1 IH2]]; [split; reflexivity|]. cbn [concat]. rewrite sum_of_app, list_sum_map_app. split.
      - cbn [sum_of fold_right]. fold (sum_of hypercharge fs). rewrite IH1, H1. reflexivity.
      - cbn [map]. change (list_sum (spin f :: map spin fs)) with (spin f + list_sum (map spin fs)). rewrite !odd_plus, H2, IH2. reflexivity. }
    destruct A as [A1 A2]. split; [|split; [|split]].
    - pose proof Sf as (_ & _ & _ & Rc & _ & Hy & (Hm & Hb) & _). split; [rewrite Hy, A1; apply sum_of_perm; apply pr_cfields|]. intros Q.
      assert (B : sum_of baryon (concat Ls) = sum_of baryon (cfields (cnormalise (map KField fs ++ map KSym lor ++ map KSym c)))).
      { rewrite (sum_of_perm baryon (cfields _) fs (pr_cfields fs lor c)). clear - F Q. induction F as [|L f Ls fs ((_ & H1) & _) F IH]; [reflexivity|]. cbn [concat] in *.
        rewrite sum_of_app. cbn [sum_of fold_right]. fold (sum_of baryon fs). rewrite IH, H1; [reflexivity| |]; eapply quiet_part; try exact Q; [|apply Permutation_app_comm]. reflexivity. }
      destruct (right_handed_dec x) as [Rh|Rh]; [|rewrite B; apply Hb; now left]. destruct (cls_majorana_dec (cf_class x)) as [Mj|Mj]; [|rewrite B; apply Hb; now right].
      rewrite Hm by (split; assumption). unfold right_class in Rc. rewrite Mj in Rc. destruct Rc as (_ & (_ & _ & Y0)).
      assert (Z : sum_of baryon (concat Ls) = Q2Qc 0).
      { apply (Q (concat Ls) []); [now rewrite app_nil_r|]. rewrite A1, <- (sum_of_perm hypercharge _ fs (pr_cfields fs lor c)), <- Hy. exact Y0. }
      rewrite <- B, Z. reflexivity.
    - split; [apply Sf|]. rewrite A2. assert (Sx : spin x + 2 * List.length lor = list_sum (map spin fs)) by (apply (product_spin fs Lv lor sp c x); auto; try lia; apply Sf).
      rewrite <- Sx, odd_plus, Nat.odd_mul. cbn [Nat.odd Nat.even negb andb]. now destruct (Nat.odd (spin x)).
    - apply Sf.
    - intros t Tg Un. apply (step_shows F0 G Inv t Tg Un Ls O fs Rest Lv sp c lor l x p P); auto; try lia.
      + clear - F Tg Un. intros f I. induction F as [|L f' Ls fs (_ & _ & _ & H) F IH]; [destruct I|]. destruct I as [<-|I]; [exists L; split; [now left|]; intros q; now apply H|].
        destruct (IH I) as (M & IM & S). exists M. split; [now right|exact S].
      + clear - F Tg Un. intros M I. induction F as [|L f' Ls fs (_ & _ & _ & H) F IH]; [destruct I|]. destruct I as [<-|I]; [exists f'; split; [now left|]; intros q; now apply H|].
        destruct (IH I) as (f & If & S). exists f. split; [now right|exact S].
  Qed.

  (** one vertex *)
  Lemma run_vertex2 Ls O fs Rest Lv ns c o st k : Permutation F0 (concat Ls ++ O) -> Forall2 (carries_from G) Ls fs ->
    config (fs ++ Rest) Lv -> 2 <= List.length fs <= 3 -> (List.length fs = 3 -> List.length (filter oddf fs) = 0) ->
    joined_at g ns c o -> List.length ns = List.length fs -> enough (S k) (rc st) ->
    exists x st', func (map (PropsPartition3.good cfield) (combine fs ns)) st = Ok (x, st') /\ enough k (rc st') /\
      ((exists r, x = (inr r, None)) \/
       exists f Lv' e, x = (inl f, Some c) /\ config (f :: Rest) Lv' /\ oddf f = Nat.odd (List.length (filter oddf fs)) /\ carries_from G (concat Ls) f /\
         r_edges _ _ _ _ st' = dset cfield_eqb (r_edges cfield cop symbol sstate st) f e /\
         exists term, r_terms _ _ _ _ st' = r_terms cfield cop symbol sstate st ++ [term] /\ (quiet F0 -> sum_of baryon (cfields term) = Q2Qc 0)).
  Proof.
    intros P F C N O' J L En. assert (N0 : fs <> []) by (intros ->; cbn in N; lia). pose proof (config_contractible F0 G Inv fs Rest Lv C) as K.
    assert (Uf : forall R, func (map (PropsPartition3.good cfield) (combine fs ns)) st = R <-> (do r <- contract_vertex vanishes fs G (rc st);
      match fst r with
      | inl reason => Ok ((inr reason, None), mkR cfield cop symbol sstate (r_terms _ _ _ _ st) (r_edges _ _ _ _ st) (r_lorentz _ _ _ _ st) (snd r))
      | inr (exotic, term, lorentz) =>
        do e <- get_connecting_edge g ns;
        Ok ((inl exotic, Some (fst e)),
            mkR cfield cop symbol sstate (r_terms _ _ _ _ st ++ [term]) (dset cfield_eqb (r_edges _ _ _ _ st) exotic e) (r_lorentz _ _ _ _ st ++ lorentz) (snd r))
      end) = R).
    { intros R. unfold replace_and_mutate. rewrite unpack_good by lia. destruct fs as [|f1 [|f2 fs']]; cbn in N; try lia. destruct ns as [|n1 ns']; [cbn in L; lia|]. reflexivity. }
    assert (NO : ~ odd_fermion fs) by (intros Y; apply odd_fermion_count in Y as [Y1 Y2]; rewrite O' in Y2 by exact Y1; discriminate Y2).
    destruct (lorentz_ok fs (pr_vertex fs Lv K) (cn_spin _ _ K) (pr_derivs fs Lv K) ltac:(lia) NO) as [(El & _)|(lor & El & _)].
    - exists (inr bad_lorentz, None). eexists. split; [|split; [|left; eexists; reflexivity]].
      + apply Uf. assert (E0 : negb ((List.length fs =? 2) || (List.length fs =? 3)) = false).
        { destruct fs as [|a [|b [|d [|]]]]; cbn in N |- *; try reflexivity; lia. }
        unfold contract_vertex, contract. rewrite E0, El. cbn [bind fst snd negb]. reflexivity.
      + cbn [r_cs]. now apply enough_less.
    - destruct (separate_live F0 G Inv fs Rest Lv C N0) as (sp & sp' & cc & l & Es & Es' & Hl & Sl).
      destruct (contract_full vanishes fs Lv G lor sp sp' cc (rc st) K N El Es Es' (enough_supplied k _ En)) as (x & p & st' & Sf & (sym & _ & Sp) & Out).
      destruct Out as [(r & Eo)|(term & Eo & In)].
      + exists (inr r, None). eexists. split; [apply Uf; rewrite Eo; cbn [bind fst snd]; reflexivity|]. split; [cbn [r_cs]; eapply enough_spends; eauto|]. left. eexists; reflexivity.
      + exists (inl x, Some c). eexists. split; [apply Uf; rewrite Eo; cbn [bind fst snd]; rewrite (proj2 (C37_connecting_edge g ns c o) J); cbn [bind fst]; reflexivity|].
        assert (Sx : spin x + 2 * List.length lor = list_sum (map spin fs)).
        { apply (product_spin fs Lv lor sp cc x); auto; try lia; apply Sf. }
        assert (Ox : oddf x = Nat.odd (List.length (filter oddf fs))).
        { unfold oddf at 1. rewrite <- odd_spins, <- Sx, odd_plus, Nat.odd_mul. cbn [Nat.odd Nat.even negb andb]. now destruct (Nat.odd (spin x)). }
        split; [cbn [r_cs]; eapply enough_spends; eauto|]. right. exists x, sp, (c, o). split; [reflexivity|].
        split; [apply (step_config F0 G Inv fs Rest Lv sp cc lor l x p); auto; lia|]. split; [exact Ox|].
        assert (Cx : carries_from G (concat Ls) x) by (apply (carries_step Ls O fs Rest Lv sp cc lor l x p); auto). split; [exact Cx|]. split; [reflexivity|].
        exists term. split; [reflexivity|]. intros Q. apply (term_baryon Ls fs lor cc x p term F Cx Sf In). exact (quiet_part F0 (concat Ls) O P Q).
  Qed.

  (** what is recorded on the way: [ls] are the lines drawn between [st] and [st'] *)
  Definition recorded (ls : list (list (cfield * N))) (st st' : rstate cfield cop symbol sstate) : Prop :=
    (forall y, In y (rk st) -> In y (rk st')) /\
    (forall L, In L ls -> exists x y, In y (rk st') /\ (x = y \/ cfield_eqb x y = true) /\ carries_from G (map fst L) x) /\
    (forall y, In y (rk st') -> In y (rk st) \/ exists L, In L ls /\ carries_from G (map fst L) y) /\
    (quiet F0 -> forall t, In t (r_terms _ _ _ _ st') -> In t (r_terms _ _ _ _ st) \/ sum_of baryon (cfields t) = Q2Qc 0).

  Lemma recorded_refl st : recorded [] st st.
  Proof. split; [auto|]. split; [intros L []|]. split; auto. Qed.

  Lemma recorded_trans a b st1 st2 st3 : recorded a st1 st2 -> recorded b st2 st3 -> recorded (a ++ b) st1 st3.
  Proof.
    intros (A1 & A2 & A3 & A4) (B1 & B2 & B3 & B4). split; [auto|]. split; [|split].
    - intros L I. apply in_app_iff in I as [I|I]; [|auto]. destruct (A2 L I) as (x & y & Y & H). exists x, y. split; [now apply B1|exact H].
    - intros y Y. destruct (B3 y Y) as [Y1|(L & I & H)]; [|right; exists L; split; [apply in_app_iff; now right|exact H]].
      destruct (A3 y Y1) as [Y2|(L & I & H)]; [now left|]. right. exists L. split; [apply in_app_iff; now left|exact H].
    - intros Q t I. destruct (B4 Q t I) as [H|H]; auto.
  Qed.

  Lemma recorded_one f e L st st' : r_edges _ _ _ _ st' = dset cfield_eqb (r_edges cfield cop symbol sstate st) f e -> carries_from G (map fst L) f ->
    (exists term, r_terms _ _ _ _ st' = r_terms cfield cop symbol sstate st ++ [term] /\ (quiet F0 -> sum_of baryon (cfields term) = Q2Qc 0)) -> recorded [L] st st'.
  Proof.
    intros E H (term & Et & Ht). destruct (dset_keys (r_edges cfield cop symbol sstate st) f e) as (D1 & D2 & y & D3 & D4). rewrite <- E in D1, D2, D3. split; [exact D2|]. split; [|split].
    - intros M [<-|[]]. exists f, y. auto.
    - intros z Z. destruct (D1 z Z) as [Z'| ->]; [now left|]. right. exists L. split; [now left|exact H].
    - intros Q t I. rewrite Et in I. apply in_app_iff in I as [I|[<-|[]]]; auto.
  Qed.

  Notation emb := (embed cfield).
  Notation brt := (branched (cfield * N) fermion_leaf).
  Notation bra := (branched_all (cfield * N) fermion_leaf).
  Notation fields_in := (fun t => map fst (leaves_of t)).

  Lemma run_cuts :
    (forall t n es, joins g t n es -> forall t', tree_map snd t' = t -> brt t' -> forall O Rest Lv st k,
       Permutation F0 (fields_in t' ++ O) -> config (fields_in t' ++ Rest) Lv -> enough (vertices t' + k) (rc st) ->
       exists x st', row (emb t') st = Ok (x, st') /\ enough k (rc st') /\
         ((exists r, x = (inr r, None)) \/ exists f Lv', x = (inl f, Some n) /\ config (f :: Rest) Lv' /\ oddf f = odd t' /\ carries_from G (fields_in t') f /\ recorded (beyond t') st st')) /\
    (forall l ns ess, joins_all g l ns ess -> forall l', map (tree_map snd) l' = l -> bra l' -> forall O Rest Lv st k,
       Permutation F0 (map fst (flat_map leaves_of l') ++ O) ->
       config (map fst (flat_map leaves_of l') ++ Rest) Lv -> enough (list_sum (map vertices l') + k) (rc st) ->
       exists xs st', rows (map emb l') st = Ok (xs, st') /\ enough k (rc st') /\
         ((exists r, unpack cfield xs = inl (inr r, None) /\ first_reason cfield xs = inl r) \/
          exists fs Lv', xs = map (PropsPartition3.good cfield) (combine fs ns) /\ List.length fs = List.length ns /\ config (fs ++ Rest) Lv' /\
            Forall2 (fun f t => oddf f = odd t) fs l' /\ Forall2 (carries_from G) (map (fun t => map fst (leaves_of t)) l') fs /\ recorded (flat_map beyond l') st st')).
  Proof.
    apply joins_both.
    - intros n [[f m]|l] E B O Rest Lv st k P C En; [|discriminate E]. cbn [tree_map snd] in E. injection E as ->.
      exists (inl f, Some n), st. split; [reflexivity|]. split; [exact En|]. right. exists f, Lv. split; [reflexivity|]. split; [exact C|].
      split; [|split; [|apply recorded_refl]].
      + apply leaf_odd. pose proof (cg_spin _ _ _ _ C) as S. inversion S; assumption.
      + apply carries_leaf. eapply Permutation_in; [apply Permutation_sym, P|]. now left.
    - intros t n es J IH [x|l] E B O Rest Lv st k P C En; [discriminate E|]. cbn [tree_map] in E. injection E as E. destruct l as [|t' [|]]; try discriminate E. cbn [map] in E. injection E as E.
      assert (Bt : brt t') by (inversion B as [|? B'|? ? [H|[H _]]]; subst; [exact B'|discriminate H|discriminate H]).
      cbn [leaves_of flat_map] in P, C. rewrite app_nil_r in P, C. cbn [vertices map list_sum fold_right] in En. rewrite !Nat.add_0_r in En.
      destruct (IH t' E Bt O Rest Lv st k P C En) as (x & st' & Er & En' & Out).
      assert (Ot : odd (Tp [t']) = odd t') by (unfold odd_tree; cbn [leaves_of flat_map]; now rewrite app_nil_r).
      exists x, st'. split; [|rewrite Ot; cbn [leaves_of flat_map beyond]; rewrite !app_nil_r; auto]. cbn [embed tree_map map]. rewrite reduced_row_eq. cbn [reduced_rows]. change (tree_map (PropsPartition3.good cfield) t') with (emb t'). rewrite Er. cbn [bind fst snd].
      destruct Out as [(r & ->)|(f & Lv' & -> & _)]; reflexivity.
    - intros l ns ess c o J IH N Jd [x|l'] E B O Rest Lv st k P C En; [discriminate E|]. cbn [tree_map] in E. injection E as E.
      assert (Len : List.length l' = List.length l) by (rewrite <- E; now rewrite map_length).
      inversion B as [|t B'|? B' Hlen]; subst; [cbn in N; lia|]. cbn [leaves_of] in P, C. cbn [vertices] in En.
      assert (En2 : enough (list_sum (map vertices l') + (S k)) (rc st)).
      { destruct l' as [|a [|b r]]; cbn in Len, N; try lia. replace (list_sum (map vertices (a :: b :: r)) + S k) with (list_sum (map vertices (a :: b :: r)) + 1 + k) by lia. exact En. }
      destruct (IH l' eq_refl B' O Rest Lv st (S k) P C En2) as (xs & st' & Er & En' & Out).
      cbn [embed tree_map]. rewrite reduced_row_eq. change (map (tree_map (PropsPartition3.good cfield)) l') with (map emb l'). rewrite Er. cbn [bind fst snd].
      destruct Out as [(r & Eu & _)|(fs & Lv' & -> & Lfs & C' & O2 & F2 & Rec)].
      + exists (inr r, None), st'. split; [unfold replace_and_mutate; now rewrite Eu|]. split; [now apply enough_less|]. left. eauto.
      + assert (L2 := Spec.Forall2_len O2). pose proof (same_odd fs l' O2) as So.
        assert (Cc : concat (map (fun t => map fst (leaves_of t)) l') = map fst (flat_map leaves_of l')) by (clear; induction l' as [|a l IH]; [reflexivity|cbn [map concat flat_map]; now rewrite map_app, IH]).
        destruct (run_vertex2 (map (fun t => map fst (leaves_of t)) l') O fs Rest Lv' ns c o st' k ltac:(rewrite Cc; exact P) F2 C' ltac:(lia) ltac:(destruct Hlen as [H|[H H']]; intros H3; [lia|rewrite So, H'; reflexivity]) Jd ltac:(lia) En') as (x & st2 & Ef & En2' & Out).
        exists x, st2. split; [exact Ef|]. split; [exact En2'|]. destruct Out as [R|(f & Lv2 & e & -> & C2 & Of & Cf & Ed & Tm)]; [now left|right].
        exists f, Lv2. split; [reflexivity|]. split; [exact C2|]. rewrite Cc in Cf. split; [rewrite Of, So; unfold odd_tree at 2; cbn [leaves_of]; symmetry; apply odd_trees|].
        split; [exact Cf|]. cbn [beyond]. apply (recorded_trans _ _ st st'); [exact Rec|]. destruct l' as [|a [|b r]]; cbn in Len, N; try lia. exact (recorded_one f e _ st' st2 Ed Cf Tm).
    - intros [|] E B O Rest Lv st k P C En; [|discriminate E]. exists [], st. split; [reflexivity|]. split; [exact En|]. right. exists [], Lv.
      split; [reflexivity|]. split; [reflexivity|]. split; [exact C|]. split; [constructor|]. split; [constructor|apply recorded_refl].
    - intros t l n ns es ess Jt IHt Jl IHl [|t' l'] E B O Rest Lv st k P C En; [discriminate E|]. cbn [map] in E. injection E as E1 E2.
      inversion B as [|? ? Bt Bl]; subst. cbn [flat_map] in P, C. rewrite map_app, <- app_assoc in P, C. change (list_sum (map vertices (t' :: l'))) with (vertices t' + list_sum (map vertices l')) in En.
      rewrite <- Nat.add_assoc in En. destruct (IHt t' eq_refl Bt _ _ Lv st _ P C En) as (x & st1 & Er & En1 & Out).
      assert (P2 : Permutation F0 (map fst (flat_map leaves_of l') ++ fields_in t' ++ O)).
      { rewrite P. rewrite !app_assoc. apply Permutation_app_tail, Permutation_app_comm. }
      cbn [map]. cbn [reduced_rows]. rewrite Er. cbn [bind fst snd].
      destruct Out as [(r & ->)|(f & Lv1 & -> & C1 & Of & Cf & Rec1)].
      + apply config_shuffle in C. destruct (IHl l' eq_refl Bl _ _ Lv st1 k P2 C En1) as (xs & st2 & Er2 & En2 & _). rewrite Er2. cbn [bind fst snd].
        eexists. eexists. split; [reflexivity|]. split; [exact En2|]. left. exists r. split; reflexivity.
      + apply (config_shuffle F0 G [f]) in C1. destruct (IHl l' eq_refl Bl _ _ Lv1 st1 k P2 C1 En1) as (xs & st2 & Er2 & En2 & Out2). rewrite Er2. cbn [bind fst snd].
        eexists. eexists. split; [reflexivity|]. split; [exact En2|]. destruct Out2 as [(r & U & Fr)|(fs & Lv2 & -> & Lfs & C2 & O2 & F2 & Rec2)].
        * left. exists r. split; [cbn [unpack]; now rewrite U|]. cbn [first_reason fold_right fst]. fold (first_reason cfield xs). now rewrite Fr.
        * right. exists (f :: fs), Lv2. split; [reflexivity|]. split; [cbn; lia|]. split; [apply (config_shuffle F0 G fs [f]) in C2; exact C2|]. split; [now constructor|].
          split; [constructor; assumption|]. cbn [flat_map]. exact (recorded_trans _ _ _ _ _ Rec1 Rec2).
  Qed.
End Operator.

Lemma lines_and_terms : forall vanishes fs es g rows ns edges terms labelled lor st,
  invariant_operator fs es -> Forall single_indices fs -> Permutation fs (map fst (flat_map leaves_of rows)) ->
  joins_all g (map (tree_map snd) rows) ns edges -> branched_root (cfield * N) fermion_leaf rows -> list_sum (map vertices rows) <= 15 ->
  completion vanishes (map (embed cfield) rows) es g = Ok (inr (terms, labelled, lor), st) ->
  (forall L, In L (flat_map beyond rows) -> exists x y, In y (map fst labelled) /\ (x = y \/ cfield_eqb x y = true) /\ carries_from es (map fst L) x) /\
  (forall y, In y (map fst labelled) -> exists L, In L (flat_map beyond rows) /\ carries_from es (map fst L) y) /\
  (quiet fs -> forall t, In t terms -> sum_of baryon (cfields t) = Q2Qc 0).
Proof.
  intros vanishes fs es g rows ns edges terms labelled lor st Inv Sing P J (Ba & Len & Ev & Four) V Ec.
  assert (C : config fs es (map fst (flat_map leaves_of rows) ++ []) es) by (rewrite app_nil_r; eapply config_perm; [exact P|now apply config_start]).
  assert (En : enough (list_sum (map vertices rows) + (15 - list_sum (map vertices rows))) start_symbols) by (replace (_ + _) with 15 by lia; exact start_enough).
  destruct (proj2 (run_cuts fs es Inv Sing vanishes g) _ ns edges J rows eq_refl Ba [] [] es (mkR cfield cop symbol sstate [] [] [] start_symbols) _ ltac:(now rewrite app_nil_r) C En) as (xs & st' & Er & _ & Out).
  unfold completion, construct_completion in Ec. rewrite Er in Ec. cbn [bind fst snd] in Ec. destruct Out as [(r & _ & Fr)|(fs' & Lv & -> & Lf & C' & O2 & F2 & Rec)]; [rewrite Fr in Ec; discriminate Ec|].
  assert (Efs : first_reason cfield (map (PropsPartition3.good cfield) (combine fs' ns)) = inr fs').
  { clear - Lf. revert ns Lf. induction fs' as [|f l IH]; intros [|n ns] Lf; try discriminate Lf; [reflexivity|]. cbn [combine map first_reason fold_right fst PropsPartition3.good]. fold (first_reason cfield (map (PropsPartition3.good cfield) (combine l ns))). rewrite IH by (cbn in Lf; lia). reflexivity. }
  rewrite Efs in Ec.
  assert (Hl : forall term lor', last_vertex vanishes fs' es = Ok (inr (term, lor')) -> Permutation (cfields term) fs').
  { intros term lor' E. rewrite app_nil_r in C'. pose proof (same_odd fs' rows O2) as So. pose proof (Spec.Forall2_len O2) as L2.
    destruct (last_ok fs es Inv vanishes fs' Lv C' ltac:(lia)) as (r & El & Hr); [intros H4; apply length_zero_iff_nil; rewrite So, Four by lia; reflexivity|rewrite So; exact Ev|].
    rewrite El in E. injection E as ->. apply (Hr term lor' eq_refl). }
  destruct (last_vertex vanishes fs' es) as [[reason|[term lor']]|] eqn:Ev'; cbn [bind] in Ec; try discriminate Ec.
  assert (El : labelled = r_edges _ _ _ _ st') by congruence. assert (Et : terms = r_terms _ _ _ _ st' ++ [term]) by congruence. rewrite El, Et. destruct Rec as (_ & R2 & R3 & R4). split; [exact R2|]. split; [|intros Q t I; apply in_app_iff in I as [I|[<-|[]]]].
  - intros y Y. destruct (R3 y Y) as [[]|H]. exact H.
  - destruct (R4 Q t I) as [[]|H]; exact H.
  - rewrite (sum_of_perm baryon _ _ (Hl _ _ eq_refl)). destruct (flow_sums es _ _ F2) as [_ A].
    assert (Cc : concat (map (fun t => map fst (leaves_of t)) rows) = map fst (flat_map leaves_of rows)) by (clear; induction rows as [|a l IH]; [reflexivity|cbn [map concat flat_map]; now rewrite map_app, IH]).
    rewrite Cc in A. rewrite <- A by (apply (quiet_part fs _ []); [now rewrite app_nil_r|exact Q]). rewrite <- (sum_of_perm baryon _ _ P). apply (Q fs []); [now rewrite app_nil_r|exact (io_neutral _ _ Inv)].
Qed.

(** C107 (1): every inner line of the diagram carries what flows through it - the hypercharges of the fields beyond it, a spin
    with the right parity, and exactly those isospin and colour indices that are contracted with the other side.  Every
    exotic field is one of these lines. *)
Theorem C107_lines : forall vanishes fs es g rows ns edges terms labelled lor st,
  invariant_operator fs es -> Forall single_indices fs -> Permutation fs (map fst (flat_map leaves_of rows)) ->
  joins_all g (map (tree_map snd) rows) ns edges -> branched_root (cfield * N) fermion_leaf rows -> list_sum (map vertices rows) <= 15 ->
  completion vanishes (map (embed cfield) rows) es g = Ok (inr (terms, labelled, lor), st) ->
  (forall L, In L (flat_map beyond rows) -> exists x y, In y (map fst labelled) /\ (x = y \/ cfield_eqb x y = true) /\ carries_from es (map fst L) x) /\
  (forall y, In y (map fst labelled) -> exists L, In L (flat_map beyond rows) /\ carries_from es (map fst L) y).
Proof.
  intros. edestruct lines_and_terms as (A & B & _); eauto.
Qed.

(** ** Isospin *)

Lemma unchained_two t fs es : invariant_operator fs es -> (forall e i, In e es -> In i (symbol_indices e) -> ix_type i = t -> List.length (symbol_indices e) = 2) -> unchained_at t es.
Proof. intros Inv H e i Ie I T M. destruct (io_chains _ _ Inv e i Ie I M) as [Len _]. rewrite (H e i Ie I T) in Len. discriminate Len. Qed.

Lemma isospin_symbol fs es e i : invariant_operator fs es -> In e es -> In i (symbol_indices e) -> ix_type i = Isospin ->
  List.length (symbol_indices e) = 2 /\ forall j, In j (symbol_indices e) -> ix_type j = Isospin /\ ix_up j = false.
Proof.
  intros Inv Ie I T. pose proof (cn_gauge _ _ (io_contractible _ _ Inv)) as Gs. rewrite Forall_forall in Gs. destruct (Gs e Ie) as (_ & [H|H]); [|exact H]. rewrite (H i I) in T. discriminate T.
Qed.

Lemma unchained_isospin fs es : invariant_operator fs es -> unchained_at Isospin es.
Proof. intros Inv. apply (unchained_two Isospin fs es Inv). intros e i Ie I T. now apply (isospin_symbol fs es e i). Qed.

Definition metb (l : list index) (i : index) : bool :=
  existsb (fun j => str_eqb (ix_name j) (ix_name i) && itype_eqb (ix_type j) (ix_type i) && Bool.eqb (ix_up j) (negb (ix_up i))) l.

Lemma metb_iff l i : metb l i = true <-> met l i.
Proof.
  unfold metb, met, counterpart. rewrite existsb_exists. split; intros (j & J & H); exists j; (split; [exact J|]).
  - apply andb_true_iff in H as [H H3]. apply andb_true_iff in H as [H1 H2]. apply str_decides in H1. apply itype_decides in H2. apply Bool.eqb_prop in H3. auto.
  - destruct H as (H1 & H2 & H3). rewrite H1, H2, H3, Bool.eqb_reflx, (proj2 (str_decides _ _) eq_refl), (proj2 (itype_decides _ _) eq_refl). reflexivity.
Qed.

Definition flipped (i : index) : str * itype * bool := (ix_name i, ix_type i, negb (ix_up i)).

Lemma flipped_slot i j : counterpart i j <-> slot j = flipped i.
Proof. unfold counterpart, slot, flipped. split; [intros (-> & -> & ->); reflexivity|intros E; injection E; auto]. Qed.

Lemma flipped_inj i j : flipped i = flipped j -> slot i = slot j.
Proof. unfold flipped, slot. intros E. injection E as -> -> E. destruct (ix_up i), (ix_up j); cbn in E; congruence. Qed.

Definition cutb (L : list cfield) (e : symbol) : bool :=
  let l := flat_map indices_of L in
  match symbol_indices e with [i; j] => itype_eqb (ix_type i) Isospin && itype_eqb (ix_type j) Isospin && xorb (metb l i) (metb l j) | _ => false end.

Definition key (L : list cfield) (e : symbol) : str * itype * bool :=
  match symbol_indices e with [i; j] => if metb (flat_map indices_of L) i then flipped i else flipped j | _ => (nil, Isospin, true) end.

Lemma cutb_spec L e : cutb L e = true -> exists i j, Permutation (symbol_indices e) [i; j] /\ ix_type i = Isospin /\ met (flat_map indices_of L) i /\ ~ met (flat_map indices_of L) j /\ key L e = flipped i.
Proof.
  unfold cutb, key. destruct (symbol_indices e) as [|i [|j [|]]]; try discriminate. intros H. apply andb_true_iff in H as [H X]. apply andb_true_iff in H as [H1 H2]. apply itype_decides in H1, H2.
  destruct (metb _ i) eqn:Mi, (metb _ j) eqn:Mj; try discriminate X.
  - exists i, j. split; [reflexivity|]. split; [exact H1|]. split; [now apply metb_iff|]. split; [|reflexivity]. intros M. apply metb_iff in M. congruence.
  - exists j, i. split; [constructor|]. split; [exact H2|]. split; [now apply metb_iff|]. split; [|reflexivity]. intros M. apply metb_iff in M. congruence.
Qed.

Lemma cutb_iff fs es L e : invariant_operator fs es -> In e es -> cutb L e = true <-> cut_epsilon L e.
Proof.
  intros Inv Ie. split; [intros H; destruct (cutb_spec L e H) as (i & j & P & T & M & N & _); exists i, j; auto|]. intros (i & j & P & T & M & N).
  assert (Ii : In i (symbol_indices e)) by (eapply Permutation_in; [apply Permutation_sym, P|now left]).
  destruct (isospin_symbol fs es e i Inv Ie Ii T) as [Len Ty]. unfold cutb. destruct (symbol_indices e) as [|a [|b [|]]]; try discriminate Len.
  rewrite (proj1 (Ty a (or_introl eq_refl))), (proj1 (Ty b (or_intror (or_introl eq_refl)))). cbn [itype_eqb andb].
  assert (Q : (a = i /\ b = j) \/ (a = j /\ b = i)).
  { assert (Ia : In a [i; j]) by (eapply Permutation_in; [exact P|now left]). destruct Ia as [->|[->|[]]]; apply Permutation_cons_inv in P || idtac.
    - left. split; [reflexivity|]. now apply Permutation_length_1.
    - right. split; [reflexivity|]. assert (P2 : Permutation [a; b] [a; i]) by (rewrite P; constructor). apply Permutation_cons_inv in P2. now apply Permutation_length_1. }
  apply metb_iff in M. assert (Nb : metb (flat_map indices_of L) j = false) by (destruct (metb _ j) eqn:E; [exfalso; apply N; now apply metb_iff|reflexivity]).
  destruct Q as [[-> ->]|[-> ->]]; rewrite M, Nb; reflexivity.
Qed.

Lemma kept_filter {A} (P : A -> Prop) b l : (forall x, In x l -> (b x = true <-> P x)) -> kept P l (filter b l).
Proof.
  induction l as [|a l IH]; intros H; cbn [filter]; [constructor|]. destruct (b a) eqn:E; constructor; try (apply IH; intros x X; apply H; now right).
  - apply H; [now left|exact E].
  - intros X. apply (H a (or_introl eq_refl)) in X. congruence.
Qed.

Lemma keys_once L es : NoDup (map slot (flat_map symbol_indices es)) -> NoDup (map (key L) (filter (cutb L) es)).
Proof.
  assert (K : forall e, cutb L e = true -> exists i, In i (symbol_indices e) /\ key L e = flipped i).
  { intros e H. destruct (cutb_spec L e H) as (i & j & P & _ & _ & _ & E). exists i. split; [eapply Permutation_in; [apply Permutation_sym, P|now left]|exact E]. }
  induction es as [|e es IH]; intros N; cbn [filter]; [constructor|]. cbn [flat_map] in N. rewrite map_app in N. apply NoDup_split in N as (_ & N2 & N3).
  destruct (cutb L e) eqn:E; [|now apply IH]. cbn [map]. constructor; [|now apply IH]. intros I. apply in_map_iff in I as (e' & Ee & I'). apply filter_In in I' as [I' C'].
  destruct (K e E) as (i & Ii & Ei), (K e' C') as (j & Ij & Ej). apply (N3 (slot i)); [now apply in_map|].
  assert (S : slot i = slot j) by (apply flipped_inj; congruence). rewrite S. apply in_map, in_flat_map. eauto.
Qed.

Lemma slots_once_filter (b : index -> bool) l : NoDup (map slot l) -> NoDup (map slot (filter b l)).
Proof.
  induction l as [|i l IH]; intros N; cbn [filter]; [constructor|]. cbn [map] in N. inversion N as [|? ? N1 N2]; subst. destruct (b i); [|now apply IH]. cbn [map]. constructor; [|now apply IH].
  intros I. apply N1. apply in_map_iff in I as (j & E & J). rewrite <- E. apply in_map. now apply filter_In in J.
Qed.

Lemma cut_number fs es L O x : invariant_operator fs es -> Permutation fs (L ++ O) -> carries_from es L x ->
  List.length (filter (fun i => itype_eqb (ix_type i) Isospin) (indices_of x)) = List.length (filter (cutb L) es).
Proof.
  intros Inv P (_ & _ & Nx & Cx). assert (Un := unchained_isospin fs es Inv). specialize (Cx Isospin (or_intror eq_refl) Un).
  assert (Lf : forall i, In i (flat_map indices_of L) -> In i (flat_map indices_of fs)).
  { intros i I. eapply Permutation_in; [apply Permutation_flat_map, Permutation_sym, P|]. rewrite flat_map_app. apply in_app_iff. now left. }
  assert (Up : forall i, In i (flat_map indices_of fs) -> ix_type i = Isospin -> ix_up i = true).
  { intros i I T. apply in_flat_map in I as (f & Hf & I). pose proof (cn_legit _ _ (io_contractible _ _ Inv)) as Lg. rewrite Forall_forall in Lg. destruct (Lg f Hf) as (_ & H & _). apply H; [exact I|]. rewrite T. red. tauto. }
  assert (Q : Permutation (map slot (filter (fun i => itype_eqb (ix_type i) Isospin) (indices_of x))) (map (key L) (filter (cutb L) es))).
  { apply NoDup_Permutation.
    - now apply slots_once_filter.
    - apply keys_once. pose proof (cn_once _ _ (io_contractible _ _ Inv)) as N. unfold vertex_indices in N. rewrite map_app in N. now apply NoDup_split in N.
    - intros q. split.
      + intros I. apply in_map_iff in I as (y & Ey & Iy). apply filter_In in Iy as [Iy Ty]. apply itype_decides in Ty.
        assert (Tq : snd (fst q) = Isospin) by (now rewrite <- Ey). assert (I : In q (map slot (indices_of x))) by (rewrite <- Ey; now apply in_map).
        apply (Cx q Tq) in I as (i & [Ii Ni] & Ei). assert (Ti : ix_type i = Isospin) by (now rewrite (slot_tp i q Ei)).
        assert (Leaf : In i (flat_map indices_of L)).
        { destruct Ii as [Ii|(e & Ie & W & Ii)]; [exact Ii|]. exfalso. destruct (isospin_symbol fs es e i Inv Ie Ii Ti) as [Len _].
          destruct W as [W|(a & b & d & Pe & _)]; [|apply Permutation_length in Pe; rewrite Len in Pe; discriminate Pe]. destruct (W i Ii) as (j & J & C). apply Ni. exists j. split; [now left|exact C]. }
        destruct (io_matched _ _ Inv i) as (j & J & C); [apply vertex_in; left; auto|right; exact Ti|]. apply vertex_in in J as [J|J].
        { exfalso. pose proof C as (_ & Tj & Uj). rewrite (Up i (Lf i Leaf) Ti) in Uj. rewrite (Up j J) in Uj by congruence. discriminate Uj. }
        apply in_flat_map in J as (e & Ie & J). assert (Tj : ix_type j = Isospin) by (destruct C as (_ & -> & _); exact Ti).
        destruct (isospin_symbol fs es e j Inv Ie J Tj) as [Len Ty']. apply in_map_iff. exists e.
        assert (Mj : met (flat_map indices_of L) j) by (exists i; split; [exact Leaf|now apply counterpart_sym]).
        assert (Oth : forall b, In b (symbol_indices e) -> met (flat_map indices_of L) b -> b = j \/ (forall d, In d (symbol_indices e) -> d = b \/ d = j) -> b = j).
        { intros b B Mb [E|D]; [exact E|]. exfalso. apply Ni. exists j. split; [|exact C]. right. exists e. split; [exact Ie|]. split; [|exact J]. left. intros d Hd. destruct (D d Hd) as [-> | ->]; assumption. }
        assert (Nd : NoDup (map slot (symbol_indices e))).
        { pose proof (cn_once _ _ (io_contractible _ _ Inv)) as N. unfold vertex_indices in N. rewrite map_app in N. apply NoDup_split in N as (_ & N & _). clear - N Ie.
          induction es as [|y r IH]; [destruct Ie|]. cbn [flat_map] in N. rewrite map_app in N. apply NoDup_split in N as (N1 & N2 & _). destruct Ie as [->|H]; auto. }
        assert (KC : key L e = flipped j /\ cutb L e = true).
        { unfold key, cutb. destruct (symbol_indices e) as [|a [|b [|]]]; try discriminate Len. rewrite (proj1 (Ty' a (or_introl eq_refl))), (proj1 (Ty' b (or_intror (or_introl eq_refl)))). cbn [itype_eqb andb].
          cbn [map] in Nd. inversion Nd as [|? ? Nab _]; subst. apply metb_iff in Mj. destruct J as [->|[->|[]]].
          - rewrite Mj. split; [reflexivity|]. destruct (metb _ b) eqn:Mb; [|reflexivity]. exfalso. apply metb_iff in Mb. apply Nab. left. f_equal. apply Oth; [right; now left|exact Mb|]. right. intros d [<-|[<-|[]]]; auto.
          - destruct (metb _ a) eqn:Ma; [|rewrite Mj; split; reflexivity]. exfalso. apply metb_iff in Ma. apply Nab. left. f_equal. symmetry. apply Oth; [now left|exact Ma|]. right. intros d [<-|[<-|[]]]; auto. }
        destruct KC as [Ke Ce]. split; [|apply filter_In; now split]. rewrite Ke, <- Ei. symmetry. apply flipped_slot. now apply counterpart_sym.
      + intros I. apply in_map_iff in I as (e & Ee & I). apply filter_In in I as [Ie Ce]. destruct (cutb_spec L e Ce) as (j & b & Pe & Tj & (i & Ii & C) & Nb & Ke). rewrite Ke in Ee.
        assert (Ij : In j (symbol_indices e)) by (eapply Permutation_in; [apply Permutation_sym, Pe|now left]).
        assert (Ei : slot i = q) by (rewrite <- Ee; now apply flipped_slot).
        assert (Ti : ix_type i = Isospin) by (destruct C as (_ & -> & _); exact Tj).
        assert (H : In q (map slot (indices_of x))).
        { apply (Cx q); [now rewrite <- Ei|]. exists i. split; [|exact Ei]. split; [now left|]. intros (k & [K|(e' & Ie' & W & K)] & Ck).
          - assert (E2 := counterparts_slot i k j Ck (counterpart_sym _ _ C)). exact (field_symbol fs es Inv k e j (Lf k K) Ie Ij E2).
          - assert (E2 := counterparts_slot i k j Ck (counterpart_sym _ _ C)). rewrite (symbol_one fs es Inv e' e k j Ie' Ie K Ij E2) in W.
            destruct W as [W|(a1 & b1 & d1 & P1 & _)]; [apply Nb, W; eapply Permutation_in; [apply Permutation_sym, Pe|right; now left]|].
            apply Permutation_length in P1. rewrite (Permutation_length Pe) in P1. discriminate P1. }
        apply in_map_iff in H as (y & Ey & Iy). apply in_map_iff. exists y. split; [exact Ey|]. apply filter_In. split; [exact Iy|]. rewrite (slot_tp y q Ey), <- Ei. cbn [slot fst snd]. now apply itype_decides. }
  apply Permutation_length in Q. now rewrite !map_length in Q.
Qed.

Lemma isospin_count l : (forall i, In i l -> ix_type i = Isospin -> ix_up i = true) ->
  List.length (filter (fun i => itype_eqb (ix_type i) Isospin) l) = count_kind Isospin true l /\ count_kind Isospin false l = 0.
Proof.
  unfold count_kind. intros H. induction l as [|i l IH]; [split; reflexivity|]. destruct IH as [IH1 IH2]; [intros j J; apply H; now right|]. cbn [filter].
  specialize (H i (or_introl eq_refl)). destruct (ix_type i); cbn [itype_eqb List.length]; auto. rewrite (H eq_refl). cbn [Bool.eqb List.length]. auto.
Qed.

Lemma crossing_raised fs es L O x : invariant_operator fs es -> Permutation fs (L ++ O) -> carries_from es L x ->
  forall i, In i (indices_of x) -> ix_type i = Isospin -> ix_up i = true.
Proof.
  intros Inv P (_ & _ & _ & Cx) i I T. specialize (Cx Isospin (or_intror eq_refl) (unchained_isospin fs es Inv)).
  assert (H : In (slot i) (map slot (indices_of x))) by (now apply in_map). apply (Cx (slot i) T) in H as (k & [Kk Nk] & Ek).
  assert (Tk : ix_type k = Isospin) by (rewrite (slot_type k i Ek); exact T).
  assert (Uk : ix_up k = true).
  { destruct Kk as [K|(e & Ie & W & K)].
    - apply in_flat_map in K as (f & Hf & K). pose proof (cn_legit _ _ (io_contractible _ _ Inv)) as Lg. rewrite Forall_forall in Lg.
      destruct (Lg f) as (_ & H & _); [eapply Permutation_in; [apply Permutation_sym, P|]; apply in_app_iff; now left|]. apply H; [exact K|]. rewrite Tk. red. tauto.
    - exfalso. destruct (isospin_symbol fs es e k Inv Ie K Tk) as [Len _].
      destruct W as [W|(a & b & d & Pe & _)]; [|apply Permutation_length in Pe; rewrite Len in Pe; discriminate Pe]. destruct (W k K) as (j & J & C). apply Nk. exists j. split; [now left|exact C]. }
  assert (E3 : ix_up k = ix_up i) by exact (f_equal snd Ek). congruence.
Qed.

(** C107 (2): the isospin of a field that carries what flows from the fields [L]: one half for each epsilon with one index on
    them. *)
Theorem C107_isospin : forall fs es L O x, invariant_operator fs es -> Permutation fs (L ++ O) -> carries_from es L x ->
  exists cut, kept (cut_epsilon L) es cut /\ count_kind Isospin true (indices_of x) = List.length cut /\ count_kind Isospin false (indices_of x) = 0.
Proof.
  intros fs es L O x Inv P C. exists (filter (cutb L) es). split; [apply kept_filter; intros e Ie; exact (cutb_iff fs es L e Inv Ie)|].
  destruct (isospin_count (indices_of x) (crossing_raised fs es L O x Inv P C)) as [E1 E2]. split; [|exact E2]. rewrite <- E1. exact (cut_number fs es L O x Inv P C).
Qed.

(** ** The same line in other diagrams *)

Lemma inside_perm es L L' i : Permutation L L' -> inside es L i -> inside es L' i.
Proof.
  intros P [I|(e & Ie & W & I)]; [left; eapply Permutation_in; [apply Permutation_flat_map, P|exact I]|right]. exists e. split; [exact Ie|]. split; [|exact I].
  eapply contracted_mono; [|exact W]. intros x _. apply met_incl. intros j. apply Permutation_in. now apply Permutation_flat_map.
Qed.

Lemma crossing_perm es L L' i : Permutation L L' -> crossing es L i -> crossing es L' i.
Proof. intros P [I N]. split; [now apply (inside_perm es L)|]. intros (j & J & C). apply N. exists j. split; [apply (inside_perm es L'); [now apply Permutation_sym|exact J]|exact C]. Qed.

Lemma cutb_sides fs es L O e : invariant_operator fs es -> Permutation fs (L ++ O) -> In e es -> cutb O e = cutb L e.
Proof.
  intros Inv P Ie. unfold cutb. destruct (symbol_indices e) as [|i [|j [|]]] eqn:E; try reflexivity.
  destruct (itype_eqb (ix_type i) Isospin) eqn:Ti; [|reflexivity]. destruct (itype_eqb (ix_type j) Isospin) eqn:Tj; [|reflexivity]. cbn [andb]. apply itype_decides in Ti, Tj.
  assert (H : forall a, In a (symbol_indices e) -> ix_type a = Isospin -> metb (flat_map indices_of O) a = negb (metb (flat_map indices_of L) a)).
  { intros a A Ta. destruct (io_matched _ _ Inv a) as (k & K & C); [apply vertex_in; right; apply in_flat_map; eauto|right; exact Ta|].
    apply vertex_in in K as [K|K]; [|exfalso; apply (unchained_isospin fs es Inv e a Ie A Ta); exists k; auto].
    pose proof (cn_once _ _ (io_contractible _ _ Inv)) as N. unfold vertex_indices in N. rewrite map_app in N. apply NoDup_split in N as (N & _ & _).
    apply (Permutation_NoDup (Permutation_map slot (Permutation_flat_map indices_of P))) in N. rewrite flat_map_app, map_app in N. apply NoDup_split in N as (_ & _ & N).
    apply (Permutation_in _ (Permutation_flat_map indices_of P)) in K. rewrite flat_map_app in K. apply in_app_iff in K as [K|K].
    - rewrite (proj2 (metb_iff (flat_map indices_of L) a)) by (exists k; auto). cbn [negb]. destruct (metb (flat_map indices_of O) a) eqn:M; [|reflexivity]. exfalso. apply metb_iff in M as (k' & K' & C').
      apply (N (slot k)); [now apply in_map|]. rewrite (counterparts_slot a k k' C C'). now apply in_map.
    - rewrite (proj2 (metb_iff (flat_map indices_of O) a)) by (exists k; auto). destruct (metb (flat_map indices_of L) a) eqn:M; [|reflexivity]. exfalso. apply metb_iff in M as (k' & K' & C').
      apply (N (slot k')); [now apply in_map|]. rewrite (counterparts_slot a k' k C' C). now apply in_map. }
  rewrite (H i), (H j) by (auto; rewrite E; cbn; auto). now destruct (metb _ i), (metb _ j).
Qed.

(** C107 (3): two fields that carry what flows from the same fields - in whichever diagrams - have the same hypercharge, spin
    and gauge indices; what flows the other way is the opposite hypercharge. *)
Theorem C107_same : forall fs es L L' O x x', invariant_operator fs es -> Permutation fs (L ++ O) -> Permutation L L' ->
  carries_from es L x -> carries_from es L' x' ->
  hypercharge x = hypercharge x' /\ spin x = spin x' /\
  (forall t, gauge_type t -> unchained_at t es -> forall p, snd (fst p) = t -> (In p (map slot (indices_of x)) <-> In p (map slot (indices_of x')))) /\
  (forall z, carries_from es O z -> hypercharge z = (- hypercharge x)%Qc /\ count_kind Isospin true (indices_of z) = count_kind Isospin true (indices_of x)).
Proof.
  intros fs es L L' O x x' Inv Pf P Hx Hx'. pose proof Hx as ((H1 & _) & (H2 & H2') & _ & H3). pose proof Hx' as ((G1 & _) & (G2 & G2') & _ & G3).
  assert (Sp : forall a b : nat, a <= 1 -> b <= 1 -> Nat.odd a = Nat.odd b -> a = b) by (intros [|[|a]] [|[|b]] A B E; try reflexivity; try (exfalso; lia); discriminate E).
  assert (Ls : forall a b : list nat, Permutation a b -> list_sum a = list_sum b) by (induction 1 as [|y a b Pa IH|y z a|a b c P1 IH1 P2 IH2]; cbn [list_sum fold_right] in *; [reflexivity|unfold list_sum in IH; lia|lia|congruence]).
  split; [rewrite H1, G1; now apply sum_of_perm|]. split; [|split].
  - apply Sp; auto. rewrite H2', G2'. f_equal. apply Ls. now apply Permutation_map.
  - intros t Tg Un p Tp. rewrite (H3 t Tg Un p Tp), (G3 t Tg Un p Tp). split; intros (i & C & E); exists i; (split; [|exact E]); [now apply (crossing_perm es L)|apply (crossing_perm es L'); [now apply Permutation_sym|exact C]].
  - intros z Hz. assert (Po : Permutation fs (O ++ L)) by (rewrite Pf; apply Permutation_app_comm). split.
    + pose proof Hz as ((Z1 & _) & _). rewrite Z1, H1. pose proof (io_neutral _ _ Inv) as Ne. rewrite (sum_of_perm hypercharge fs (L ++ O) Pf), sum_of_app in Ne.
      assert (E : sum_of hypercharge O = ((sum_of hypercharge L + sum_of hypercharge O) - sum_of hypercharge L)%Qc) by ring. rewrite E, Ne. ring.
    + destruct (isospin_count _ (crossing_raised fs es L O x Inv Pf Hx)) as [<- _]. destruct (isospin_count _ (crossing_raised fs es O L z Inv Po Hz)) as [<- _].
      rewrite (cut_number fs es L O x Inv Pf Hx), (cut_number fs es O L z Inv Po Hz). f_equal. apply filter_ext_in. intros e Ie. exact (cutb_sides fs es L O e Inv Pf Ie).
Qed.

(** ** The completions of the package *)

Lemma beyond_map {B C} (f : B -> C) t : beyond (tree_map f t) = map (map f) (beyond t).
Proof.
  induction t as [x|l IH] using ptree_ind'; [reflexivity|]. cbn [tree_map beyond]. rewrite map_app. f_equal.
  - induction IH as [|t l Ht IH IHl]; [reflexivity|]. cbn [map flat_map]. now rewrite map_app, Ht, IHl.
  - destruct l as [|a [|b r]]; [reflexivity|reflexivity|]. cbn [map]. f_equal. exact (leaves_map f (Tp (a :: b :: r))).
Qed.

Lemma beyond_maps {B C} (f : B -> C) l : flat_map beyond (map (tree_map f) l) = map (map f) (flat_map beyond l).
Proof. induction l as [|t l IH]; [reflexivity|]. cbn [map flat_map]. now rewrite map_app, beyond_map, IH. Qed.

Lemma shipped_arranged n m k tops t fields es us :
  In (n, m, k) kinds -> shipped n m = Ok tops -> In t tops -> invariant_operator (map (mkCF Plain) fields) es ->
  List.length (filter boson_field fields) = n -> List.length (filter (fun f => negb (boson_field f)) fields) = m ->
  arrangement ifield boson_field fields (t_partition t) (Tp (map (tree_map place) us)) ->
  exists ns edges, Permutation (map (mkCF Plain) fields) (map fst (flat_map leaves_of (map (tree_map as_plain) us))) /\
    joins_all (t_graph t) (map (tree_map snd) (map (tree_map as_plain) us)) ns edges /\ branched_root (cfield * N) fermion_leaf (map (tree_map as_plain) us) /\
    list_sum (map vertices (map (tree_map as_plain) us)) <= 15.
Proof.
  intros Ik Es It Inv Hn Hm (M & F & P).
  destruct (shipped_branched n m k Ik tops t Es It) as (rows0 & Er0 & Bc & V0).
  destruct (C37_shipped n m k Ik) as (tops' & Es' & _ & W). rewrite Es in Es'. injection Es' as <-.
  destruct (W t It) as (rows & ns & es' & Er & Len & Sl & J & _). rewrite Er0 in Er. injection Er as ->. rename Er0 into Er.
  change (Tp (map (tree_map place) us)) with (tree_map place (Tp us)) in M, F, P.
  rewrite tree_map_map in M. rewrite (tree_map_ext _ snd) in M by reflexivity. rewrite Er in M, F.
  assert (Hb : forall f, In f fields -> is_boson (i_field f) = Ok (boson_field f)).
  { intros f If. pose proof (cn_legit _ _ (io_contractible _ _ Inv)) as L. rewrite Forall_forall in L. pose proof (is_boson_ok _ (L (mkCF Plain f) (in_map _ _ _ If))) as E. cbn [cf_if] in E. unfold boson_field. now rewrite E. }
  assert (Pf : Permutation fields (map fst (flat_map leaves_of us))).
  { etransitivity; [exact P|]. unfold fields_on. rewrite leaves_map. cbn [leaves_of]. generalize (flat_map leaves_of us). clear. intros l. induction l as [|x l IH]; [constructor|]. cbn. now constructor. }
  assert (Lt : flat_map leaves_of (map (tree_map as_plain) us) = map as_plain (flat_map leaves_of us)) by exact (leaves_map as_plain (Tp us)).
  assert (Ag : Forall2 (fun x y => open_fermion x = fermion_leaf (as_plain y)) (leaves_of (Tp rows)) (leaves_of (Tp us))).
  { rewrite leaves_map in F. cbn [leaves_of] in F |- *.
    assert (Hf : forall x, In x (flat_map leaves_of us) -> In (fst x) fields) by (intros x I; eapply Permutation_in; [apply Permutation_sym, Pf|now apply in_map]).
    revert Hf F. generalize (flat_map leaves_of us). generalize (flat_map leaves_of rows). intros l l'. revert l. induction l' as [|y l' IH]; intros l Hf F; inversion F as [|a b l1 l2 (f & Ef & Eb) F']; subst; constructor.
    - assert (f = fst y) as -> by (unfold place in Eb; congruence). unfold open_fermion, fermion_leaf, as_plain. rewrite Ef. cbn [fst].
      pose proof (io_contractible _ _ Inv) as K. assert (Iy : In (mkCF Plain (fst y)) (map (mkCF Plain) fields)) by (apply in_map, Hf; now left).
      pose proof (cn_legit _ _ K) as L. rewrite Forall_forall in L. pose proof (is_boson_ok _ (L _ Iy)) as Eo. cbn [cf_if] in Eo. rewrite (Hb (fst y)) in Eo by (apply Hf; now left).
      assert (Ei : boson_field (fst y) = bosonb (mkCF Plain (fst y))) by congruence. pose proof (cn_spin _ _ K) as S. rewrite Forall_forall in S. specialize (S _ Iy). unfold low_spin in S. fold (spin (mkCF Plain (fst y))) in S.
      rewrite Ei. unfold bosonb. fold (spin (mkCF Plain (fst y))). destruct (spin (mkCF Plain (fst y))) as [|[|q]]; [reflexivity|reflexivity|lia].
    - apply IH; [intros z Z; apply Hf; now right|exact F']. }
  assert (Sh : tree_map open_fermion (Tp rows) = tree_map (fun y => fermion_leaf (as_plain y)) (Tp us)) by (apply (tree_map_agree snd snd); [now symmetry|exact Ag]).
  cbn [tree_map] in M, Sh. injection M as M. injection Sh as Sh. exists ns, es'. split; [|split; [|split]].
  - rewrite Lt. rewrite map_map. cbn [as_plain fst]. rewrite <- (map_map fst (mkCF Plain)). apply Permutation_map, Pf.
  - rewrite map_map. rewrite (map_ext _ (tree_map snd)) by (intros v; rewrite tree_map_map; now apply tree_map_ext). rewrite M. exact J.
  - apply root_check_ok. rewrite root_map. rewrite <- (root_map (fun y => fermion_leaf (as_plain y)) (fun b => b) us), <- Sh, root_map. exact Bc.
  - rewrite vertices_maps, <- (vertices_maps snd us), M, vertices_maps. exact V0.
Qed.

(** C107 (4): in every completion operator_completions returns, the exotic fields are the inner lines of its diagram. *)
Theorem C107_completions : forall vanishes n op st nb nf k fc,
  colour_open n op -> n <= 5 -> n <> 3 -> (n = 2 -> forall i, In i (op_indices op) -> ix_name i <> fresh_name Colour (st Colour)) ->
  In (nb, nf, k) kinds -> topology_type op = Ok (nb, nf) ->
  List.length (filter boson_field (indexed_fields op)) = nb -> List.length (filter (fun f => negb (boson_field f)) (indexed_fields op)) = nf ->
  indexed_fields_with_counters op = Ok fc -> Forall single_indices (plain_fields op) ->
  exists tops cops cs st',
    shipped nb nf = Ok tops /\ colour_singlets true [op] st = Ok (cops, st') /\ completions_of vanishes shipped op st = Ok (cs, st') /\
    forall c, In c cs -> exists t rows r, In t tops /\ In r cops /\ cm_partition c = Tp (map (tree_map (fun x : ifield * N => (Placed (fst x), snd x))) rows) /\
      made_from vanishes r t (cm_partition c) c /\ Permutation (indexed_fields op) (map fst (flat_map leaves_of rows)) /\
      let carried L x := carries_from (epsilons r) (map (fun y : ifield * N => mkCF Plain (fst y)) L) x in
      (forall L, In L (flat_map beyond rows) -> exists x y, In y (cm_exotics c) /\ (x = y \/ cfield_eqb x y = true) /\ carried L x) /\
      (forall y, In y (cm_exotics c) -> exists L, In L (flat_map beyond rows) /\ carried L y) /\
      (quiet (plain_fields op) -> forall u, In u (cm_terms c) -> sum_of baryon (cfields u) = Q2Qc 0).
Proof.
  intros vanishes n op st nb nf k fc O L5 N3 Fr Ik Ty Hb Hf Efc Sing.
  destruct (C88_completions vanishes n op st nb nf k fc O L5 N3 Fr Ik Ty Hb Hf Efc) as (tops & cops & cs & st' & Es & _ & Ec & _ & _ & Eo & _ & A).
  destruct (colour_results n op st O L5 N3 Fr) as (cops' & st2 & Ec' & _ & Hc). rewrite Ec in Ec'. injection Ec' as <- <-.
  exists tops, cops, cs, st'. split; [exact Es|]. split; [exact Ec|]. split; [exact Eo|]. intros c Ic. destruct (A c Ic) as ((t & perm & r & It & Ar & Ir & Mf) & _).
  pose proof Mf as (Ep & _ & _ & rows & labelled & lor & s & Erow & Ecc & Ex & _). destruct (Hc r Ir) as (ss & -> & _ & Inv).
  exists t, rows, (op ++ map TSymbol ss). split; [exact It|]. split; [exact Ir|]. split; [congruence|]. split; [rewrite Ep; exact Mf|].
  rewrite Erow in Ar. change (fun x : ifield * N => (Placed (fst x), snd x)) with place in Ar.
  destruct (shipped_arranged nb nf k tops t (indexed_fields op) _ rows Ik Es It Inv Hb Hf Ar) as (ns & edges & P & J & B & V).
  rewrite <- spec_rows in Ecc. rewrite epsilons_symbols in Ecc |- *.
  destruct (lines_and_terms vanishes (plain_fields op) (epsilons op ++ ss) (t_graph t) (map (tree_map as_plain) rows) ns edges (cm_terms c) labelled lor s Inv Sing P J B V Ecc) as (H1 & H2 & H3).
  split.
  { assert (E : map fst (flat_map leaves_of (map (tree_map as_plain) rows)) = map (mkCF Plain) (map fst (flat_map leaves_of rows))).
    { rewrite (leaves_map as_plain (Tp rows) : flat_map leaves_of (map (tree_map as_plain) rows) = map as_plain (flat_map leaves_of rows)). now rewrite !map_map. }
    rewrite E in P. apply (Permutation_map cf_if) in P. rewrite !map_map in P. cbn [cf_if] in P. now rewrite map_id in P. }
  cbv zeta. rewrite Ex. rewrite beyond_maps in H1, H2.
  assert (Em : forall L, map fst (map as_plain L) = map (fun y : ifield * N => mkCF Plain (fst y)) L) by (intros L; rewrite map_map; reflexivity).
  split; [|split; [|exact H3]].
  - intros L IL. rewrite <- Em. apply H1. now apply in_map.
  - intros y Y. destruct (H2 y Y) as (L' & IL' & C). apply in_map_iff in IL' as (L & <- & IL). rewrite Em in C. eauto.
Qed.

Definition singleb (f : cfield) : bool :=
  forallb (fun i => forallb (fun j => negb (gauge_typeb (ix_type i) && itype_eqb (ix_type i) (ix_type j)) || index_eqb i j) (indices_of f)) (indices_of f) && nodup_slots (indices_of f).

Lemma nodup_slots_ok l : nodup_slots l = true -> NoDup (map slot l).
Proof.
  induction l as [|i l IH]; intros H; [constructor|]. cbn [nodup_slots] in H. apply andb_true_iff in H as [H1 H2]. cbn [map]. constructor; [|now apply IH].
  intros I. apply in_map_iff in I as (j & E & J). apply negb_true_iff in H1. enough (existsb (index_eqb i) l = true) by congruence. apply existsb_exists. exists j. split; [exact J|]. apply ProofsContract.slot_eqb. congruence.
Qed.

Lemma singleb_ok f : singleb f = true -> single_indices f.
Proof.
  unfold singleb. rewrite andb_true_iff. intros [H N] i j I J G T. apply nodup_slots_ok in N. rewrite forallb_forall in H. specialize (H i I). rewrite forallb_forall in H. specialize (H j J).
  assert (Gb : gauge_typeb (ix_type i) = true) by (destruct G as [-> | ->]; reflexivity). rewrite Gb, (proj2 (itype_decides _ _) T) in H. cbn [andb negb orb] in H. apply ProofsContract.slot_eqb in H. exact (same_slot _ i j N I J H).
Qed.

Lemma shipped_single : match eff_operators with Ok ops => forallb (fun kop => forallb singleb (plain_fields (snd kop))) ops | Err _ => false end = true.
Proof. vm_compute. reflexivity. Qed.

(** ... in particular for all shipped operators *)
Theorem C107_shipped : forall vanishes, exists ops, eff_operators = Ok ops /\
  forall k op, In (k, op) ops -> exists n, n <= 2 /\
    forall st, (n <> 2 \/ st Colour < 209 \/ forall i, In i (op_indices op) -> ix_name i <> fresh_name Colour (st Colour)) ->
      exists nb nf tops cops cs st', shipped nb nf = Ok tops /\ colour_singlets true [op] st = Ok (cops, st') /\ completions_of vanishes shipped op st = Ok (cs, st') /\
        forall c, In c cs -> exists t rows r, In t tops /\ In r cops /\ cm_partition c = Tp (map (tree_map (fun x : ifield * N => (Placed (fst x), snd x))) rows) /\
          made_from vanishes r t (cm_partition c) c /\ Permutation (indexed_fields op) (map fst (flat_map leaves_of rows)) /\
          let carried L x := carries_from (epsilons r) (map (fun y : ifield * N => mkCF Plain (fst y)) L) x in
          (forall L, In L (flat_map beyond rows) -> exists x y, In y (cm_exotics c) /\ (x = y \/ cfield_eqb x y = true) /\ carried L x) /\
          (forall y, In y (cm_exotics c) -> exists L, In L (flat_map beyond rows) /\ carried L y) /\
          (quiet (plain_fields op) -> forall u, In u (cm_terms c) -> sum_of baryon (cfields u) = Q2Qc 0).
Proof.
  intros vanishes. destruct C87_operators as (ops & E & _ & _ & H). pose proof shipped_single as S. rewrite E in S. exists ops. split; [exact E|]. intros k op I.
  pose proof (proj1 (forallb_forall _ _) S _ I) as Si. cbn [snd] in Si.
  destruct (H k op I) as (_ & _ & n & nb & nf & m & fc & L & O & K & T & B & F & C & Fr).
  exists n. split; [exact L|]. intros st Hs. exists nb, nf.
  apply (C107_completions vanishes n op st nb nf m fc O); auto; try lia.
  - intros E2 i Ii. destruct Hs as [Hs|[Hs|Hs]]; [contradiction|now apply (Fr E2)|now apply Hs].
  - apply Forall_forall. intros f If. apply singleb_ok. exact (proj1 (forallb_forall _ _) Si f If).
Qed.

(** ** Cases *)

(** the Weinberg operator with the epsilons between leptons and Higgs fields, one line from the two leptons: a scalar with
    hypercharge -1 and two isospin indices *)
Definition wein_leaf (k : nat) : ptree (cfield * N) := Lf (nth k weinberg no_field, N.of_nat (k + 1)).
Definition wein_rows := [Tp [wein_leaf 0; wein_leaf 1]; wein_leaf 2; wein_leaf 3].
Definition wein_graph : graph := [(1, 5); (2, 5); (5, 6); (3, 6); (4, 6)]%N.

Example C107_example1 : invariant_operator weinberg weinberg_eps /\ Forall single_indices weinberg /\ map (map snd) (flat_map beyond wein_rows) = [[1; 2]]%N /\
  exists terms x e lor st, completion (fun _ => false) (map (embed cfield) wein_rows) weinberg_eps wein_graph = Ok (inr (terms, [(x, e)], lor), st) /\
    hypercharge x = Q2Qc (-1 # 1) /\ spin x = 0 /\ map show_index (indices_of x) = [lit "i0"; lit "i1"].
Proof.
  split; [apply invariantb_ok; vm_compute; reflexivity|]. split; [apply Forall_forall; intros f I; apply singleb_ok; revert f I; apply forallb_forall; vm_compute; reflexivity|]. split; [reflexivity|].
  remember (completion (fun _ => false) (map (embed cfield) wein_rows) weinberg_eps wein_graph) as r eqn:E. vm_compute in E. subst r.
  eexists. eexists. eexists. eexists. eexists. split; [reflexivity|]. split; [apply Qc_is_canon; reflexivity|]. split; vm_compute; reflexivity.
Qed.

(** with the epsilons between the leptons and between the Higgs fields: no isospin *)
Example C107_example2 : invariant_operator weinberg (symbols_from ["-i0 -i1"%string; "-i2 -i3"%string]) /\
  exists terms x e lor st, completion (fun _ => false) (map (embed cfield) wein_rows) (symbols_from ["-i0 -i1"%string; "-i2 -i3"%string]) wein_graph = Ok (inr (terms, [(x, e)], lor), st) /\
    hypercharge x = Q2Qc (-1 # 1) /\ indices_of x = [].
Proof.
  split; [apply invariantb_ok; vm_compute; reflexivity|].
  remember (completion (fun _ => false) (map (embed cfield) wein_rows) (symbols_from ["-i0 -i1"%string; "-i2 -i3"%string]) wein_graph) as r eqn:E. vm_compute in E. subst r.
  eexists. eexists. eexists. eexists. eexists. split; [reflexivity|]. split; [apply Qc_is_canon; reflexivity|]. vm_compute. reflexivity.
Qed.

(** L L Q db Q db with the two colour epsilons colour_singlets with overcomplete adds *)
Definition six_fields := fields_of [plain "L" "u0 i0" (-1#2) 0; plain "L" "u1 i1" (-1#2) 0; plain "Q" "u2 c0 i2" (1#6) 0; plain "db" "u3 -c2" (1#3) 0;
  plain "Q" "u4 c1 i3" (1#6) 0; plain "db" "u5 -c3" (1#3) 0].
Definition six_eps := symbols_from ["-i0 -i1"%string; "-i2 -i3"%string; "-c0 -c1 -c9"%string; "c2 c3 c9"%string].
Definition six_leaf (k : nat) : ptree (cfield * N) := Lf (nth k six_fields no_field, N.of_nat (k + 1)).
Definition six_rows1 := [Tp [Tp [six_leaf 3; six_leaf 2]; six_leaf 5]; six_leaf 4; Tp [six_leaf 0; six_leaf 1]].
Definition six_rows2 := [Tp [Tp [six_leaf 3; six_leaf 5]; six_leaf 2]; six_leaf 4; Tp [six_leaf 0; six_leaf 1]].
Definition six_graph1 : graph := [(4, 7); (3, 7); (7, 8); (6, 8); (8, 9); (5, 9); (9, 10); (1, 10); (2, 10)]%N.
Definition six_graph2 : graph := [(4, 7); (6, 7); (7, 8); (3, 8); (8, 9); (5, 9); (9, 10); (1, 10); (2, 10)]%N.

(** C107, limit: epsilons that are contracted with each other are looked at once, in the order of the list; what the line from
    the same three fields carries then depends on the order in which they are joined: two raised colour indices or one
    lowered index. *)
Theorem C107_chained_refuted : exists fs es rows1 rows2 g1 g2 terms1 terms2 lab1 lab2 lor1 lor2 st1 st2 x1 e1 x2 e2,
  invariant_operator fs es /\ Forall single_indices fs /\
  Permutation fs (map fst (flat_map leaves_of rows1)) /\ Permutation fs (map fst (flat_map leaves_of rows2)) /\
  (exists L1 L2, In L1 (flat_map beyond rows1) /\ In L2 (flat_map beyond rows2) /\ Permutation L1 L2 /\ List.length L1 = 3) /\
  completion (fun _ => false) (map (embed cfield) rows1) es g1 = Ok (inr (terms1, lab1, lor1), st1) /\
  completion (fun _ => false) (map (embed cfield) rows2) es g2 = Ok (inr (terms2, lab2, lor2), st2) /\
  nth_error lab1 1 = Some (x1, e1) /\ nth_error lab2 1 = Some (x2, e2) /\ e1 = e2 /\
  (count_kind Colour true (indices_of x1) = 2 /\ count_kind Colour false (indices_of x1) = 0) /\
  (count_kind Colour true (indices_of x2) = 0 /\ count_kind Colour false (indices_of x2) = 1).
Proof.
  exists six_fields, six_eps, six_rows1, six_rows2, six_graph1, six_graph2.
  assert (E1 : exists terms lab lor st x e, completion (fun _ => false) (map (embed cfield) six_rows1) six_eps six_graph1 = Ok (inr (terms, lab, lor), st) /\
     nth_error lab 1 = Some (x, e) /\ e = (8, 9)%N /\ count_kind Colour true (indices_of x) = 2 /\ count_kind Colour false (indices_of x) = 0).
  { remember (completion (fun _ => false) (map (embed cfield) six_rows1) six_eps six_graph1) as r eqn:E. vm_compute in E. subst r.
    eexists. eexists. eexists. eexists. eexists. eexists. split; [reflexivity|]. split; [reflexivity|]. split; [reflexivity|]. split; vm_compute; reflexivity. }
  assert (E2 : exists terms lab lor st x e, completion (fun _ => false) (map (embed cfield) six_rows2) six_eps six_graph2 = Ok (inr (terms, lab, lor), st) /\
     nth_error lab 1 = Some (x, e) /\ e = (8, 9)%N /\ count_kind Colour true (indices_of x) = 0 /\ count_kind Colour false (indices_of x) = 1).
  { remember (completion (fun _ => false) (map (embed cfield) six_rows2) six_eps six_graph2) as r eqn:E. vm_compute in E. subst r.
    eexists. eexists. eexists. eexists. eexists. eexists. split; [reflexivity|]. split; [reflexivity|]. split; [reflexivity|]. split; vm_compute; reflexivity. }
  destruct E1 as (terms1 & lab1 & lor1 & st1 & x1 & e1 & E1 & N1 & -> & C1), E2 as (terms2 & lab2 & lor2 & st2 & x2 & e2 & E2 & N2 & -> & C2).
  exists terms1, terms2, lab1, lab2, lor1, lor2, st1, st2, x1, (8, 9)%N, x2, (8, 9)%N.
  split; [apply invariantb_ok; vm_compute; reflexivity|]. split; [apply Forall_forall; intros f I; apply singleb_ok; revert f I; apply forallb_forall; vm_compute; reflexivity|].
  assert (Six : exists a b c d e f, six_fields = [a; b; c; d; e; f]) by (remember six_fields as l eqn:E; vm_compute in E; subst l; repeat eexists).
  split; [|split; [|split; [|split; [exact E1|split; [exact E2|split; [exact N1|split; [exact N2|split; [reflexivity|split; [exact C1|exact C2]]]]]]]]].
  - unfold six_rows1, six_leaf. destruct Six as (a & b & c & d & e & f & ->). cbn [flat_map leaves_of app map fst nth]. clear.
    apply Permutation_trans with ([d; c; f; e] ++ [a; b]); [|reflexivity]. apply Permutation_trans with ([c; d; e; f] ++ [a; b]); [apply (Permutation_app_comm [a; b])|].
    apply Permutation_app_tail. apply Permutation_trans with (d :: c :: e :: [f]); [constructor|]. do 2 apply perm_skip. constructor.
  - unfold six_rows2, six_leaf. destruct Six as (a & b & c & d & e & f & ->). cbn [flat_map leaves_of app map fst nth]. clear.
    apply Permutation_trans with ([d; f; c; e] ++ [a; b]); [|reflexivity]. apply Permutation_trans with ([c; d; e; f] ++ [a; b]); [apply (Permutation_app_comm [a; b])|].
    apply Permutation_app_tail. apply Permutation_trans with (d :: c :: e :: [f]); [constructor|]. apply perm_skip. apply (Permutation_app_comm [c; e] [f]).
  - exists (flat_map leaves_of [six_leaf 3; six_leaf 2; six_leaf 5]), (flat_map leaves_of [six_leaf 3; six_leaf 5; six_leaf 2]).
    split; [right; now left|]. split; [right; now left|]. split; [apply perm_skip; constructor|reflexivity].
Qed.

Print Assumptions C107_lines.
Print Assumptions C107_isospin.
Print Assumptions C107_same.
Print Assumptions C107_completions.
Print Assumptions C107_shipped.
Print Assumptions C107_chained_refuted.
