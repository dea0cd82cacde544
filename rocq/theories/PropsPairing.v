(** * PropsPairing: C105, every contraction of fields with at most one index is constructed *)

From Coq Require Import Ascii String List Bool Arith ZArith QArith Qcanon Lia Permutation Sorted.
From Verif Require Import Base BaseFacts Show ModelFunctions ModelIndex SpecIndex ProofsIndex ModelField SpecField ProofsField ProofsField2 PropsField2
  ModelContract SpecContract ProofsContract PropsContract PropsContract2 PropsContract3 PropsContract4 ModelPartition ModelLagrangian ModelInvariants SpecInvariants
  PropsInvariants SpecPaper SpecPairing ProofsPairing.
From Verif Require Spec PropsLagrangian6.
Import ListNotations.
Local Open Scope nat_scope.

(** ** From the product to the operators *)

Lemma construct_in f steps ignore st ops s :
  well_made f -> Forall (fun s => labelled (fst s) /\ well_made (snd s)) steps ->
  (forall t, su2_type t -> total_label (su2_label t) (f :: map snd steps) < 10) -> (forall up, total_label (colour_label up) (f :: map snd steps) < 10) ->
  (forall t, su2_type t -> ignore t = false -> forall h, In h (f :: map snd steps) -> su2_label t h <= 1) ->
  chain_triangle ignore (fun t => su2_label t f) steps -> steps <> [] ->
  construct_operators (chain f steps) ignore (mkC [] st) = (Ok (map (fun op => CObj (OOp op)) ops), s) ->
  (forall adds, plan ignore [f] (fun t => su2_label t f) (fun _ => []) steps adds -> exists op, In op ops /\ state ignore op (f :: map snd steps) (joined (fun _ => []) adds)) /\
  (forall op, In op ops -> exists J, state ignore op (f :: map snd steps) J).
Proof.
  intros Wf Ws Su Co Le Tri Ne E. destruct steps as [|[irrep g] steps]; [congruence|]. clear Ne.
  unfold construct_operators in E. rewrite unload_chain in E. cbn [c_stack c_counters] in E. rewrite app_nil_r in E.
  apply Forall_cons_iff in Ws as [[Li Wg] Ws]. cbn [fst snd] in Li, Wg. destruct Tri as [T1 T2]. cbn [fst snd map] in *. cbn [consume] in E.
  pose proof Wf as (a & b & c & d & e & Fo & Rk). destruct (fresh_object f a b c d e st Fo Rk) as (x & st1 & Ef & Ox & Xf & Mk & Mo & Nx & Cx).
  assert (Gx : good st1 [f] (fun t => su2_label t f) (obj_tensors (OField x))).
  { split.
    - destruct Ox as (O1 & O2 & O3 & _). split; [exact O1|]. split; [exact O2|]. split; [exact O3|]. cbn [obj_tensors indexed_fields flat_map app map]. rewrite Xf.
      split; [reflexivity|]. split; [exact Nx|]. intros up. unfold total_label. cbn. rewrite Nat.add_0_r. apply Cx.
    - cbn [obj_tensors]. unfold op_indices. cbn. rewrite app_nil_r. eapply Forall_impl; [|exact Mk]. intros i (t & n & E' & L). exists t, n. split; [exact E'|lia]. }
  assert (Sx : state ignore (obj_tensors (OField x)) [f] (fun _ => [])).
  { split; [apply Ox|]. split; [apply Ox|]. split; [constructor; [|constructor]; split; [apply Ox|exact Nx]|]. split; [intros s0 []|]. intros t Ht Ig. split; constructor. }
  assert (A1 : forall t, su2_type t -> ignore t = false -> admissible (su2_label t f) (su2_label t g) (su2_label t irrep)) by (intros t Ht Ig; apply triangle_admissible0; auto).
  destruct (contract_step (OField x) [f] (fun t => su2_label t f) g irrep ignore st1 Ox Gx Wg Li A1) as (rs & st2 & E1 & Mo2 & Gr & Ln).
  assert (E0 : contract_all [CField f] (PLeaf g) (f_dynkin irrep) ignore st = (Ok (map (fun op => CObj (OOp op)) rs), st2)).
  { cbn [contract_all]. replace (contract_su2 (CField f) (CField g) (f_dynkin irrep) ignore st) with (Ok (rs, st2) : res (list operator * counters)); [now rewrite app_nil_r|].
    rewrite <- E1. unfold contract_su2. cbn [make_indexed bind fst snd]. rewrite Ef. reflexivity. }
  rewrite E0 in E.
  assert (Le' : forall t, su2_type t -> ignore t = false -> forall h, In h ([f] ++ [g]) -> su2_label t h <= 1).
  { intros t Ht Ig h I. apply Le; auto. cbn [app In] in *. tauto. }
  destruct (step_exact ignore (OField x) [f] (fun t => su2_label t f) g irrep st1 rs st2 (fun _ => []) Ox Gx Sx Wg Li Le' T1 E1) as [F1 F2].
  destruct (consume_in ignore steps ([f] ++ [g]) (next ignore (fun t => su2_label t f) (irrep, g)) rs st2 ops s) as [K1 K2]; auto.
  { apply next_bound; auto. intros t Ht. unfold total_label. cbn. lia. }
  cbn [app] in K1, K2, F1, F2. split.
  - intros adds P. destruct adds as [|add adds]; [destruct P|]. destruct P as [P1 P2]. destruct (F1 add P1) as (op & Io & So). exact (K1 op _ adds Io So P2).
  - apply K2. exact F2.
Qed.

(** ** Pairs in order *)

Section Pairs.
  Variable fs : list field.
  Variable t : itype.
  Variable J : list (nat * nat).
  Hypothesis One : forall f, In f fs -> su2_label t f <= 1.
  Hypothesis Up : pairs_up t fs J.

  Definition lab (i : nat) : nat := match nth_error fs i with Some f => su2_label t f | None => 0 end.
  Definition high (e : nat * nat) : nat := Nat.max (fst e) (snd e).
  Definition sorted (e : nat * nat) : nat * nat := (Nat.min (fst e) (snd e), Nat.max (fst e) (snd e)).
  Definition added (k : nat) : list (nat * nat) := map sorted (filter (fun e => high e =? k) J).
  Definition upto (k : nat) : list (nat * nat) := flat_map added (seq 0 k).
  Definition labs (k : nat) : nat := list_sum (map lab (seq 0 k)).
  Definition open (k : nat) : nat := labs k - 2 * List.length (upto k).

  Lemma upto_S k : upto (S k) = upto k ++ added k.
  Proof using Type. unfold upto. rewrite seq_S, flat_map_app. cbn. now rewrite app_nil_r. Qed.

  Lemma labs_S k : labs (S k) = labs k + lab k.
  Proof using Type. unfold labs. rewrite seq_S, map_app, list_sum_app. cbn. lia. Qed.

  Lemma filter_split k (l : list (nat * nat)) : Permutation (filter (fun e => high e <? S k) l) (filter (fun e => high e <? k) l ++ filter (fun e => high e =? k) l).
  Proof using Type.
    induction l as [|e l IH]; [reflexivity|]. cbn [filter]. destruct (Nat.ltb_spec (high e) (S k)), (Nat.ltb_spec (high e) k), (Nat.eqb_spec (high e) k); try lia; cbn [app].
    - apply perm_skip, IH.
    - etransitivity; [apply perm_skip; exact IH|]. apply Permutation_middle.
    - exact IH.
  Qed.

  Lemma upto_perm k : Permutation (upto k) (map sorted (filter (fun e => high e <? k) J)).
  Proof using Type.
    induction k as [|k IH].
    - replace (filter (fun e => high e <? 0) J) with (@nil (nat * nat)); [reflexivity|]. clear. induction J as [|e l IH]; [reflexivity|]. cbn [filter]. exact IH.
    - rewrite upto_S, IH. unfold added. rewrite <- map_app. apply Permutation_map. symmetry. apply filter_split.
  Qed.

  Lemma flat2_sorted l : Permutation (flat2 (map sorted l)) (flat2 l).
  Proof using Type.
    induction l as [|[a b] l IH]; [reflexivity|]. cbn [map flat2 flat_map sorted fst snd]. apply Permutation_app; [|exact IH].
    destruct (Nat.le_ge_cases a b) as [L|L]; [rewrite Nat.min_l, Nat.max_r by exact L; reflexivity|rewrite Nat.min_r, Nat.max_l by exact L; apply perm_swap].
  Qed.

  Lemma flat2_perm l l' : Permutation l l' -> Permutation (flat2 l) (flat2 l').
  Proof using Type. apply Permutation_flat_map. Qed.

  Lemma nodup_filter (P : nat * nat -> bool) l : NoDup (flat2 l) -> NoDup (flat2 (filter P l)).
  Proof using Type.
    intros N. assert (A : forall x, In x (flat2 (filter P l)) -> In x (flat2 l)).
    { intros x I. apply in_flat_map in I as (e & Ie & I). apply filter_In in Ie as [Ie _]. apply in_flat_map. eauto. }
    clear A. induction l as [|[a b] l IH]; [constructor|]. cbn [flat2 flat_map app fst snd] in N. inversion N as [|? ? N1 N2]; subst. inversion N2 as [|? ? N3 N4]; subst. specialize (IH N4).
    assert (A : forall x, In x (flat2 (filter P l)) -> In x (flat_map (fun e => [fst e; snd e]) l)).
    { intros x I. apply in_flat_map in I as (e & Ie & I). apply filter_In in Ie as [Ie _]. apply in_flat_map. eauto. }
    cbn [filter]. destruct (P (a, b)); [|exact IH]. cbn [flat2 flat_map app fst snd]. constructor; [intros [->|I]; [apply N1; now left|apply N1; right; now apply A]|].
    constructor; [intros I; apply N3; now apply A|exact IH].
  Qed.

  Lemma nodup_upto k : NoDup (flat2 (upto k)).
  Proof using Up.
    destruct Up as [N _]. eapply Permutation_NoDup; [|apply (nodup_filter (fun e => high e <? k)), N]. symmetry.
    etransitivity; [apply flat2_perm, upto_perm|]. apply flat2_sorted.
  Qed.

  Lemma upto_in k n : In n (flat2 (upto k)) <-> exists e, In e J /\ high e < k /\ In n [fst e; snd e].
  Proof using Type.
    assert (P : Permutation (flat2 (upto k)) (flat2 (filter (fun e => high e <? k) J))) by (etransitivity; [apply flat2_perm, upto_perm|apply flat2_sorted]).
    split.
    - intros I. apply (Permutation_in _ P) in I. apply in_flat_map in I as (e & Ie & I). apply filter_In in Ie as [Ie H]. apply Nat.ltb_lt in H. eauto.
    - intros (e & Ie & H & I). apply (Permutation_in _ (Permutation_sym P)). apply in_flat_map. exists e. split; [|exact I]. apply filter_In. split; [exact Ie|now apply Nat.ltb_lt].
  Qed.

  Lemma ends_label n : In n (flat2 J) -> n < List.length fs /\ lab n = 1.
  Proof using Up.
    destruct Up as [_ H]. intros I. apply H in I as (f & E & L). split; [apply nth_error_Some; congruence|]. unfold lab. now rewrite E.
  Qed.

  Lemma lab_one i : lab i <= 1.
  Proof using One. unfold lab. destruct (nth_error fs i) eqn:E; [|lia]. apply One. now apply nth_error_In in E. Qed.

  Lemma labs_count k : labs k = List.length (filter (fun i => lab i =? 1) (seq 0 k)).
  Proof using One.
    induction k as [|k IH]; [reflexivity|]. rewrite labs_S, seq_S, filter_app, app_length, IH. f_equal. cbn. pose proof (lab_one k). destruct (lab k) as [|[|]]; cbn; lia.
  Qed.

  Lemma positions_bound l k : NoDup l -> (forall n, In n l -> n < k /\ lab n = 1) -> List.length l <= labs k.
  Proof using One.
    intros N H. rewrite labs_count. apply NoDup_incl_length; [exact N|]. intros n I. destruct (H n I) as [L E]. apply filter_In. split; [apply in_seq; lia|]. now apply Nat.eqb_eq.
  Qed.

  Lemma flat2_length l : List.length (flat2 l) = 2 * List.length l.
  Proof using Type. induction l as [|e l IH]; [reflexivity|]. unfold flat2 in *. cbn [flat_map app List.length]. lia. Qed.

  Lemma end_in e n : In e J -> In n [fst e; snd e] -> In n (flat2 J).
  Proof using Type. intros I H. apply in_flat_map. eauto. Qed.

  Lemma high_end e : In (high e) [fst e; snd e].
  Proof using Type. unfold high. destruct (Nat.max_spec (fst e) (snd e)) as [[_ ->]|[_ ->]]; cbn; auto. Qed.

  Lemma below e n : In n [fst e; snd e] -> n <= high e.
  Proof using Type. unfold high. intros [<-|[<-|[]]]; lia. Qed.

  Lemma enough k : 2 * List.length (upto k) <= labs k.
  Proof using One Up.
    rewrite <- flat2_length. apply positions_bound; [apply nodup_upto|]. intros n I. apply upto_in in I as (e & Ie & H & I). split; [apply below in I; lia|]. apply ends_label. eapply end_in; eassumption.
  Qed.

  Lemma once e e' n : In e J -> In e' J -> In n [fst e; snd e] -> In n [fst e'; snd e'] -> e = e'.
  Proof using Up.
    destruct Up as [N _]. fold (flat2 J) in N. clear Up. induction J as [|x l IH]; [intros []|]. intros I I' H H'. unfold flat2 in N. cbn [flat_map app] in N. inversion N as [|? ? N1 N2]; subst. inversion N2 as [|? ? N3 N4]; subst.
    assert (K : forall y, In y l -> ~ (In n [fst x; snd x] /\ In n [fst y; snd y])).
    { intros y Iy [A B]. assert (C : In n (flat_map (fun e => [fst e; snd e]) l)) by (apply in_flat_map; eauto). destruct A as [<-|[<-|[]]]; [apply N1; now right|contradiction]. }
    destruct I as [<-|I], I' as [<-|I']; [reflexivity|exfalso; apply (K e' I'); auto|exfalso; apply (K e I); auto|auto].
  Qed.

  (** one more position *)
  Lemma added_cases k : k < List.length fs ->
    added k = [] /\ open (S k) = open k + lab k \/
    exists i, added k = [(i, k)] /\ i < k /\ lab i = 1 /\ lab k = 1 /\ ~ In i (flat2 (upto k)) /\ S (open (S k)) = open k.
  Proof using One Up.
    intros Lk. pose proof (enough k) as En. unfold open. rewrite upto_S, labs_S, app_length. destruct (filter (fun e => high e =? k) J) as [|e l] eqn:F.
    - left. unfold added. rewrite F. cbn. split; [reflexivity|]. lia.
    - right. assert (Ie : In e (filter (fun e => high e =? k) J)) by (rewrite F; now left). apply filter_In in Ie as [Ie H]. apply Nat.eqb_eq in H.
      assert (l = []).
      { destruct l as [|e' l]; [reflexivity|]. exfalso. assert (Ie' : In e' (filter (fun e => high e =? k) J)) by (rewrite F; right; now left). apply filter_In in Ie' as [Ie' H']. apply Nat.eqb_eq in H'.
        destruct Up as [N _]. fold (flat2 J) in N. apply (nodup_filter (fun e => high e =? k)) in N. rewrite F in N. pose proof (high_end e) as A. pose proof (high_end e') as B. rewrite H in A. rewrite H' in B.
        unfold flat2 in N. cbn [flat_map app] in N. inversion N as [|? ? N1 N2]; subst. inversion N2 as [|? ? N3 N4]; subst. destruct A as [A|[A|[]]]; [apply N1|apply N3]; rewrite A; cbn; destruct B as [B|[B|[]]]; rewrite B; tauto. }
      subst l. assert (Ne : fst e <> snd e).
      { destruct Up as [N _]. fold (flat2 J) in N. apply (nodup_filter (fun e => high e =? k)) in N. rewrite F in N. cbn in N. inversion N as [|? ? N1 N2]; subst. intros Q. apply N1. rewrite Q. now left. }
      exists (Nat.min (fst e) (snd e)). unfold high in H. assert (A : added k = [(Nat.min (fst e) (snd e), k)]) by (unfold added; rewrite F; cbn [map]; unfold sorted; now rewrite H). rewrite A.
      assert (Im : In (Nat.min (fst e) (snd e)) [fst e; snd e]) by (destruct (Nat.min_spec (fst e) (snd e)) as [[_ ->]|[_ ->]]; cbn; auto).
      assert (Ik : In k [fst e; snd e]) by (rewrite <- H; apply high_end).
      assert (Ni : ~ In (Nat.min (fst e) (snd e)) (flat2 (upto k))).
      { intros I. apply upto_in in I as (e' & Ie' & H' & I). assert (e = e') by now apply (once e e' (Nat.min (fst e) (snd e))). subst e'. unfold high in H'. lia. }
      split; [reflexivity|]. split; [lia|]. split; [apply ends_label; eapply end_in; eassumption|]. assert (Lb : lab k = 1) by (apply ends_label; eapply end_in; eassumption). split; [exact Lb|]. split; [exact Ni|].
      assert (B : S (2 * List.length (upto k)) <= labs k).
      { rewrite <- flat2_length. change (List.length (Nat.min (fst e) (snd e) :: flat2 (upto k)) <= labs k). apply positions_bound; [constructor; [exact Ni|apply nodup_upto]|].
        intros n [<-|I]; [split; [lia|]; apply ends_label; eapply end_in; eassumption|]. apply upto_in in I as (e' & Ie' & H' & I). split; [apply below in I; lia|]. apply ends_label. eapply end_in; eassumption. }
      rewrite Lb. cbn [List.length]. lia.
  Qed.

  Lemma open_triangle k : k < List.length fs -> triangle (open k) (lab k) (open (S k)).
  Proof using One Up.
    intros L. destruct (added_cases k L) as [[_ ->]|(i & _ & _ & _ & B & _ & C)]; unfold triangle; (split; [lia|]; split; [lia|]; split; [lia|]).
    - exists (open k + lab k). lia.
    - exists (open k). lia.
  Qed.

  Lemma open_end : open (List.length fs) = 0.
  Proof using One Up.
    assert (L : labs (List.length fs) <= 2 * List.length J).
    { rewrite labs_count, <- flat2_length. apply NoDup_incl_length; [apply NoDup_filter, seq_NoDup|]. intros n I. apply filter_In in I as [I E]. apply in_seq in I. apply Nat.eqb_eq in E.
      destruct Up as [_ H]. apply H. destruct (nth_error fs n) as [f|] eqn:Ef; [|apply nth_error_None in Ef; lia]. exists f. split; [reflexivity|]. unfold lab in E. now rewrite Ef in E. }
    assert (U : List.length (upto (List.length fs)) = List.length J).
    { rewrite (Permutation_length (upto_perm _)), map_length. f_equal. assert (A : forall e, In e J -> high e < List.length fs) by (intros e I; apply ends_label; eapply end_in; [exact I|apply high_end]).
      clear -A. induction J as [|e l IH]; [reflexivity|]. cbn [filter]. replace (high e <? List.length fs) with true by (symmetry; apply Nat.ltb_lt, A; now left). f_equal. apply IH. intros x I. apply A. now right. }
    unfold open. lia.
  Qed.

  Lemma upto_end : Permutation (upto (List.length fs)) (map sorted J).
  Proof using Up.
    etransitivity; [apply upto_perm|]. apply Permutation_map. replace (filter (fun e => high e <? List.length fs) J) with J; [reflexivity|].
    assert (A : forall e, In e J -> high e < List.length fs) by (intros e I; apply ends_label; eapply end_in; [exact I|apply high_end]).
    clear -A. induction J as [|e l IH]; [reflexivity|]. cbn [filter]. replace (high e <? List.length fs) with true by (symmetry; apply Nat.ltb_lt, A; now left). f_equal. apply IH. intros x I. apply A. now right.
  Qed.

  Lemma open_first f r : fs = f :: r -> open 1 = su2_label t f.
  Proof using One Up.
    intros E. assert (added 0 = []). { destruct (added_cases 0) as [[H _]|(i & _ & H & _)]; [rewrite E; cbn; lia|exact H|lia]. }
    unfold open, labs, upto. cbn. rewrite H. cbn. unfold lab. rewrite E. cbn. lia.
  Qed.
End Pairs.

Lemma between_sorted op t J l : Forall2 (between op t) (map sorted J) l -> Forall2 (between op t) J l.
Proof.
  revert l. induction J as [|[i n] J IH]; intros l F; inversion F as [|? s ? l' B F']; subst; constructor; [|now apply IH].
  destruct (Nat.le_ge_cases i n) as [L|L]; unfold sorted in B; cbn [fst snd] in B; [now rewrite Nat.min_l, Nat.max_r in B by exact L|]. rewrite Nat.min_r, Nat.max_l in B by exact L.
  destruct B as (a & b & x & y & H1 & H2 & E & H). exists b, a, x, y. cbn [fst snd] in *. split; [exact H2|]. split; [exact H1|]. split; [exact E|]. tauto.
Qed.

Lemma forall2_perm {A B} (R : A -> B -> Prop) l l' : Permutation l l' -> forall m, Forall2 R l m -> exists m', Permutation m' m /\ Forall2 R l' m'.
Proof.
  induction 1 as [|x l l' P IH|x y l|l l' l'' P1 IH1 P2 IH2]; intros m F.
  - inversion F. exists []. split; constructor.
  - inversion F as [|? b ? m0 Rb F']; subst. destruct (IH m0 F') as (m' & P' & F2). exists (b :: m'). split; [now constructor|now constructor].
  - inversion F as [|? b ? m0 Rb F']; subst. inversion F' as [|? c ? m1 Rc F'']; subst. exists (c :: b :: m1). split; [apply perm_swap|]. repeat constructor; assumption.
  - destruct (IH1 m F) as (m1 & Q1 & F1). destruct (IH2 m1 F1) as (m2 & Q2 & F2). exists m2. split; [now transitivity m1|exact F2].
Qed.

(** ** The plan *)

Section Plan.
  Variable ignore : itype -> bool.
  Variable fs : list field.
  Variable J : itype -> list (nat * nat).
  Hypothesis One : forall t, su2_type t -> ignore t = false -> forall f, In f fs -> su2_label t f <= 1.
  Hypothesis Up : forall t, su2_type t -> ignore t = false -> pairs_up t fs (J t).

  Lemma plan_ok steps : forall pre cur Jp, fs = pre ++ map snd steps ->
    (forall t, su2_type t -> ignore t = false -> map (fun s => su2_label t (fst s)) steps = map (open fs t (J t)) (seq (S (List.length pre)) (List.length steps))) ->
    (forall t, su2_type t -> ignore t = false -> cur t = open fs t (J t) (List.length pre)) ->
    (forall t, su2_type t -> ignore t = false -> Jp t = upto (J t) (List.length pre)) ->
    plan ignore pre cur Jp steps (map (fun k t => added (J t) k) (seq (List.length pre) (List.length steps))).
  Proof using One Up.
    induction steps as [|[irrep g] steps IH]; intros pre cur Jp E L C Hp; [exact I|]. cbn [List.length seq map plan]. set (k := List.length pre) in *.
    assert (Eg : nth_error fs k = Some g). { rewrite E. rewrite nth_error_app2 by (unfold k; lia). unfold k. rewrite Nat.sub_diag. reflexivity. }
    assert (Lk : k < List.length fs) by (apply nth_error_Some; congruence).
    assert (L0 : forall t, su2_type t -> ignore t = false -> su2_label t irrep = open fs t (J t) (S k) /\ map (fun s => su2_label t (fst s)) steps = map (open fs t (J t)) (seq (S (S k)) (List.length steps))).
    { intros t Ht Ig. specialize (L t Ht Ig). cbn [map List.length seq fst] in L. injection L as L1 L2. auto. }
    assert (Lg : forall t, lab fs t k = su2_label t g) by (intros t; unfold lab; now rewrite Eg).
    split.
    - intros t Ht Ig. destruct (L0 t Ht Ig) as [L1 _]. rewrite (Hp t Ht Ig), (C t Ht Ig). unfold grows.
      destruct (added_cases fs t (J t) (One t Ht Ig) (Up t Ht Ig) k Lk) as [[A B]|(i & A & Li & A1 & A2 & A3 & A4)]; rewrite L1, A.
      + left. split; [reflexivity|]. now rewrite <- Lg.
      + right. unfold lab in A1. destruct (nth_error fs i) as [h|] eqn:Eh; [|discriminate A1]. exists i, h. split; [reflexivity|]. split; [exact A3|].
        split; [rewrite E, nth_error_app1 in Eh by exact Li; exact Eh|]. split; [exact A1|]. split; [now rewrite <- Lg|exact A4].
    - replace (S k) with (List.length (pre ++ [g])) by (rewrite app_length; cbn; unfold k; lia). assert (Ln : List.length (pre ++ [g]) = S k) by (rewrite app_length; cbn; unfold k; lia). apply IH; rewrite ?Ln.
      + rewrite E, <- app_assoc. reflexivity.
      + intros t Ht Ig. now apply L0.
      + intros t Ht Ig. unfold next. rewrite Ig. cbn [fst]. now apply L0.
      + intros t Ht Ig. rewrite (Hp t Ht Ig), upto_S. reflexivity.
  Qed.
End Plan.

(** ** Ways through the product *)

Inductive trail {A} (mul : A -> A -> A -> Prop) : A -> list A -> list A -> Prop :=
| tr_nil a : trail mul a [] []
| tr_cons a b c l cs : mul a b c -> trail mul c l cs -> trail mul a (b :: l) (c :: cs).

Lemma reaches_trail {A} (mul : A -> A -> A -> Prop) a l z : reaches mul a l z -> exists cs, trail mul a l cs /\ last cs a = z.
Proof.
  induction 1 as [a|a b c l z H R (cs & T & L)]; [exists []; split; [constructor|reflexivity]|]. exists (c :: cs). split; [now apply (tr_cons mul a b c)|].
  rewrite <- L. clear. revert a c. induction cs as [|d cs IH]; intros a c; [reflexivity|]. change (last (d :: cs) a = last (d :: cs) c). destruct cs; [reflexivity|]. apply (IH a c).
Qed.

Definition colours_of (f : field) : nat * nat := (colour_label true f, colour_label false f).

Section Path.
  Variable ip : str -> str -> list (list nat * nat).
  Variable colours : nat * nat -> nat * nat -> nat * nat -> Prop.
  Hypothesis Rule : selection_rule ip.
  Hypothesis Full : full_product ip colours.

  Lemma mul_field_out f g l w m : mul_field ip f g = Ok l -> In (w, m) (ip (f_dynkin f) (f_dynkin g)) ->
    exists x, In x l /\ f_history x = Some (f, g) /\ f_dynkin x = concat (map show_nat w).
  Proof using Type.
    unfold mul_field. cbv zeta. intros E I. apply bind_ok in E as ([] & _ & E). apply bind_ok in E as (ch & _ & E). apply mapM_Forall2 in E.
    induction E as [|[w' m'] y ps l H E IH]; [destruct I|]. destruct I as [Q|I].
    - injection Q as -> ->. unfold mk_field_ints in H. apply bind_ok in H as (tx & _ & H). injection H as <-. eexists. split; [now left|]. split; reflexivity.
    - destruct (IH I) as (x & Ix & H'). exists x. split; [now right|exact H'].
  Qed.

  Lemma one_mul f g l (ct : itype -> nat) rs : mul_field ip f g = Ok l -> labelled f -> labelled g ->
    (forall t, su2_type t -> su2_label t f + su2_label t g < 10) ->
    colour_label true f + colour_label false f + (colour_label true g + colour_label false g) < 10 ->
    (forall t, su2_type t -> triangle (su2_label t f) (su2_label t g) (ct t)) -> colours (colours_of f) (colours_of g) rs ->
    exists x w m, In x l /\ In (w, m) (ip (f_dynkin f) (f_dynkin g)) /\ f_history x = Some (f, g) /\ f_dynkin x = concat (map show_nat w) /\ labelled x /\
      (forall t, su2_type t -> su2_label t x = ct t) /\ colours_of x = rs /\
      colour_label true x + colour_label false x <= colour_label true f + colour_label false f + (colour_label true g + colour_label false g).
  Proof using Rule Full.
    intros E (a & b & c & d & e & Ef & Bf) (a' & b' & c' & d' & e' & Eg & Bg) Su Co Tr Tc. destruct rs as [r s]. unfold colours_of in Tc.
    rewrite (colour_label_five f _ _ _ _ _ true Ef Bf), (colour_label_five f _ _ _ _ _ false Ef Bf), (colour_label_five g _ _ _ _ _ true Eg Bg), (colour_label_five g _ _ _ _ _ false Eg Bg) in Co, Tc |- *.
    assert (SU : su2_type Undotted) by (red; auto). assert (SD : su2_type Dotted) by (red; auto). assert (SI : su2_type Isospin) by (red; auto).
    pose proof (Tr _ SU) as T1. pose proof (Tr _ SD) as T2. pose proof (Tr _ SI) as T3. pose proof (Su _ SU) as S1. pose proof (Su _ SD) as S2. pose proof (Su _ SI) as S3.
    assert (Fl : forall t, su2_label t f = label_at t a b e) by (intros t; exact (su2_label_five f _ _ _ _ _ t Ef Bf)).
    assert (Gl : forall t, su2_label t g = label_at t a' b' e') by (intros t; exact (su2_label_five g _ _ _ _ _ t Eg Bg)).
    rewrite Fl, Gl in T1. rewrite Fl, Gl in T2. rewrite Fl, Gl in T3. rewrite Fl, Gl in S1. rewrite Fl, Gl in S2. rewrite Fl, Gl in S3. cbn [label_at] in T1, T2, T3, S1, S2, S3.
    destruct (Full a b c d e a' b' c' d' e' (ct Undotted) (ct Dotted) r s (ct Isospin) Bf Bg T1 T2 Tc T3) as (m & I).
    pose proof I as I'. rewrite <- Ef, <- Eg in I'. destruct (mul_field_out f g l _ m E I') as (x & Ix & Hx & Dx).
    destruct (Rule a b c d e a' b' c' d' e' Bf Bg _ m I) as (p & q & r' & s' & t0 & W & R1 & R2 & R3 & R4). injection W as <- <- <- <- <-.
    assert (Bx : ct Undotted < 10 /\ ct Dotted < 10 /\ r < 10 /\ s < 10 /\ ct Isospin < 10) by (destruct T1, T2, T3; lia).
    assert (Ex : f_dynkin x = five (ct Undotted) (ct Dotted) r s (ct Isospin)).
    { rewrite Dx. cbn [map concat]. destruct Bx as (B1 & B2 & B3 & B4 & B5). rewrite !show_nat_digit by assumption. reflexivity. }
    exists x, [ct Undotted; ct Dotted; r; s; ct Isospin], m. split; [exact Ix|]. split; [exact I'|]. split; [exact Hx|]. split; [exact Dx|]. split; [do 5 eexists; eauto|].
    rewrite (colour_label_five x _ _ _ _ _ true Ex Bx), (colour_label_five x _ _ _ _ _ false Ex Bx). split; [|split].
    - intros t Ht. rewrite (su2_label_five x _ _ _ _ _ t Ex Bx). destruct Ht as [-> | [-> | ->]]; reflexivity.
    - unfold colours_of. now rewrite (colour_label_five x _ _ _ _ _ true Ex Bx), (colour_label_five x _ _ _ _ _ false Ex Bx).
    - exact R3.
  Qed.

  Lemma last_cons {A} (x : A) l d : last (x :: l) d = last l x.
  Proof using Type. revert x d. induction l as [|y l IH]; intros x d; [reflexivity|]. change (last (y :: l) d = last (y :: l) x). now rewrite !IH. Qed.

  Lemma path_exists rst : forall f g l (cs : itype -> list nat) cc, decompose ip f g rst = Ok l -> labelled f -> Forall made (g :: rst) -> Forall (fun h => f_history h = None) (g :: rst) ->
    (forall t, su2_type t -> su2_label t f + total_label (su2_label t) (g :: rst) < 10) ->
    colour_label true f + colour_label false f + total_label (colour_label true) (g :: rst) + total_label (colour_label false) (g :: rst) < 10 ->
    (forall t, su2_type t -> trail triangle (su2_label t f) (map (su2_label t) (g :: rst)) (cs t)) ->
    trail colours (colours_of f) (map colours_of (g :: rst)) cc ->
    exists r steps, In r l /\ map snd steps = g :: rst /\ levels ip f steps r /\ walked r = grow (walked f) steps /\
      (forall t, su2_type t -> map (fun s => su2_label t (fst s)) steps = cs t) /\ labelled r /\
      (forall t, su2_type t -> su2_label t r = last (cs t) (su2_label t f)) /\ colours_of r = last cc (colours_of f).
  Proof using Rule Full.
    induction rst as [|z rst IH]; intros f g l cs cc E Lf Mg Hh Su Co Tr Tc; cbn [decompose] in E; apply bind_ok in E as (l1 & E1 & E);
      apply Forall_cons_iff in Mg as [Mg Ms]; apply Forall_cons_iff in Hh as [Hg Hh]; unfold total_label in Su, Co; cbn [map list_sum fold_right] in Su, Co; cbn [map] in Tr, Tc.
    all: inversion Tc as [|? ? rs ? cc' Tc1 Tc2]; subst.
    all: destruct (one_mul f g l1 (fun t => hd 0 (cs t)) rs E1 Lf (made_labelled g Mg)) as (x & w & m & Ix & Iw & Hx & Dx & Lx & Sx & Cx & Bx);
      [intros t Ht; specialize (Su t Ht); lia|lia|intros t Ht; pose proof (Tr t Ht) as T; inversion T; cbn [hd]; assumption|exact Tc1|].
    - injection E as <-. inversion Tc2; subst. exists x, [(x, g)]. split; [exact Ix|]. split; [reflexivity|]. split; [exact (lv_cons ip f x g [] x w m Iw Dx (lv_nil ip x))|].
      split; [cbn [grow fold_left fst snd]; now apply walked_product|]. split; [|split; [exact Lx|split; [|reflexivity]]].
      + intros t Ht. cbn [map fst]. rewrite (Sx t Ht). pose proof (Tr t Ht) as T. inversion T as [|? ? ? ? ? _ T2]; subst. inversion T2. reflexivity.
      + intros t Ht. rewrite (Sx t Ht). pose proof (Tr t Ht) as T. inversion T as [|? ? ? ? ? _ T2]; subst. inversion T2. reflexivity.
    - apply bind_ok in E as (ls & Es & E). injection E as <-.
      assert (El : exists lx, decompose ip x z rst = Ok lx /\ incl lx (concat ls)).
      { clear -Es Ix. apply mapM_Forall2 in Es. induction Es as [|y ly l1 ls H F IH]; [destruct Ix|]. destruct Ix as [->|Ix]; [exists ly; split; [exact H|]; cbn; now apply incl_appl|].
        destruct (IH Ix) as (lx & H1 & H2). exists lx. split; [exact H1|]. cbn. now apply incl_appr. }
      destruct El as (lx & El & Inc).
      destruct (IH x z lx (fun t => tl (cs t)) cc' El Lx Ms Hh) as (r & steps & Ir & M & Lv & W & Ls & Lr & Sr & Cr).
      + intros t Ht. rewrite (Sx t Ht). specialize (Su t Ht). pose proof (Tr t Ht) as T. inversion T as [|? ? ? ? ? (T1 & _) T2]; subst. cbn [hd]. unfold total_label. cbn [map list_sum fold_right]. lia.
      + unfold total_label. cbn [map list_sum fold_right]. lia.
      + intros t Ht. rewrite (Sx t Ht). pose proof (Tr t Ht) as T. inversion T; subst. cbn [hd tl]. assumption.
      + rewrite Cx. exact Tc2.
      + exists r, ((x, g) :: steps). split; [now apply Inc|]. cbn [map snd]. rewrite M. split; [reflexivity|]. split; [exact (lv_cons ip f x g steps r w m Iw Dx Lv)|].
        split; [rewrite W; cbn [grow fold_left fst snd]; unfold grow; f_equal; now apply walked_product|]. split; [|split; [exact Lr|split]].
        * intros t Ht. cbn [fst]. rewrite (Sx t Ht), (Ls t Ht). pose proof (Tr t Ht) as T. inversion T. reflexivity.
        * intros t Ht. rewrite (Sr t Ht), (Sx t Ht). pose proof (Tr t Ht) as T. inversion T. cbn [hd tl]. now rewrite last_cons.
        * rewrite Cr, Cx. now rewrite last_cons.
  Qed.
End Path.

Lemma open_trail fs t J : (forall f, In f fs -> su2_label t f <= 1) -> pairs_up t fs J ->
  forall rest k, map (su2_label t) (skipn k fs) = rest -> trail triangle (open fs t J k) rest (map (open fs t J) (seq (S k) (List.length rest))).
Proof.
  intros One Up. induction rest as [|b rest IH]; intros k E; [constructor|]. cbn [List.length seq map].
  destruct (nth_error fs k) as [f|] eqn:Ek.
  - assert (Es : skipn k fs = f :: skipn (S k) fs).
    { clear -Ek. revert k Ek. induction fs as [|x fs IH]; intros k Ek; [destruct k; discriminate Ek|]. destruct k as [|k]; cbn in Ek |- *; [injection Ek as ->; reflexivity|]. now apply IH. }
    rewrite Es in E. cbn [map] in E. injection E as <- E. econstructor; [|apply IH; exact E]. replace (su2_label t f) with (lab fs t k) by (unfold lab; now rewrite Ek). apply open_triangle; auto. apply nth_error_Some. congruence.
  - apply nth_error_None in Ek. rewrite skipn_all2 in E by exact Ek. discriminate E.
Qed.

Lemma levels_triangle ip f steps r : selection_rule ip -> levels ip f steps r -> forall ignore cur, labelled f -> Forall made (map snd steps) ->
  (forall t, su2_type t -> ignore t = false -> cur t = su2_label t f) ->
  (forall t, su2_type t -> su2_label t f + total_label (su2_label t) (map snd steps) < 10) ->
  colour_label true f + colour_label false f + total_label (colour_label true) (map snd steps) + total_label (colour_label false) (map snd steps) < 10 ->
  chain_triangle ignore cur steps.
Proof.
  intros Rule Lv. induction Lv as [f|f x g steps r w m Hw Hd Lv IH]; intros ignore cur Lf Mg Hc Su Co; [exact I|].
  cbn [map snd] in *. apply Forall_cons_iff in Mg as [Mg Ms]. unfold total_label in Su, Co. cbn [map list_sum fold_right] in Su, Co.
  destruct Lf as (a & b & c & d & e & Ef & Bf). destruct (made_labelled g Mg) as (a' & b' & c' & d' & e' & Eg & Bg).
  pose proof Hw as Hw'. rewrite Ef, Eg in Hw'. destruct (Rule a b c d e a' b' c' d' e' Bf Bg w m Hw') as (p & q & rr & s & t0 & -> & T1 & T2 & T3 & T4).
  assert (Lab : forall t, su2_type t -> triangle (su2_label t f) (su2_label t g) (label_at t p q t0)).
  { intros t Ht. rewrite (su2_label_five f _ _ _ _ _ t Ef Bf), (su2_label_five g _ _ _ _ _ t Eg Bg). destruct Ht as [-> | [-> | ->]]; cbn [label_at]; assumption. }
  rewrite (colour_label_five f _ _ _ _ _ true Ef Bf), (colour_label_five f _ _ _ _ _ false Ef Bf) in Co. rewrite (colour_label_five g _ _ _ _ _ true Eg Bg), (colour_label_five g _ _ _ _ _ false Eg Bg) in Co.
  assert (Bx : p < 10 /\ q < 10 /\ rr < 10 /\ s < 10 /\ t0 < 10).
  { pose proof (Lab Undotted (or_introl eq_refl)) as (P1 & _). pose proof (Lab Dotted (or_intror (or_introl eq_refl))) as (P2 & _).
    pose proof (Lab Isospin (or_intror (or_intror eq_refl))) as (P3 & _). cbn [label_at] in P1, P2, P3.
    pose proof (Su Undotted (or_introl eq_refl)). pose proof (Su Dotted (or_intror (or_introl eq_refl))). pose proof (Su Isospin (or_intror (or_intror eq_refl))). lia. }
  assert (Ex : f_dynkin x = five p q rr s t0).
  { rewrite Hd. cbn [map concat]. destruct Bx as (B1 & B2 & B3 & B4 & B5). rewrite !show_nat_digit by assumption. reflexivity. }
  assert (Sx : forall t, su2_label t x = label_at t p q t0) by (intros t; apply (su2_label_five x _ _ _ _ _ t Ex Bx)).
  cbn [chain_triangle fst snd]. split.
  - intros t Ht G. rewrite (Hc t Ht G), Sx. now apply Lab.
  - apply IH.
    + exists p, q, rr, s, t0. auto.
    + exact Ms.
    + intros t Ht G. unfold next. now rewrite G.
    + intros t Ht. specialize (Su t Ht). destruct (Lab t Ht) as (P & _). rewrite Sx. unfold total_label, list_sum. lia.
    + rewrite (colour_label_five x _ _ _ _ _ true Ex Bx), (colour_label_five x _ _ _ _ _ false Ex Bx). unfold total_label, list_sum. lia.
Qed.

(** ** The operators *)

Section Main.
  Variable ip : str -> str -> list (list nat * nat).
  Hypothesis Rule : selection_rule ip.
  Variables (f g : field) (rst : list field).
  Hypothesis M : multiplied (f :: g :: rst).
  Variable ignore : itype -> bool.

  Let fs := f :: g :: rst.
  Let n := all_colours true fs.
  Let m := all_colours false fs.

  Lemma operators_of_from singlets : forall st, Forall (fun r => f_dynkin r = lit "00000" /\ exists l, decompose ip f g rst = Ok l /\ In r l) singlets ->
    exists opss, Forall2 (fun r ops => Forall (realises fs (left_over ignore fs)) ops /\
        exists st0 s, construct_operators (walked r) ignore (mkC [] st0) = (Ok (map (fun op => CObj (OOp op)) ops), s)) singlets opss /\
      (ignore Colour = true -> exists st', operators_of singlets ignore (mkC [] st) = (Ok (concat opss), mkC [] st')) /\
      (ignore Colour = false -> colour_matches n m -> exists rss st', operators_of singlets ignore (mkC [] st) = (Ok (concat rss), mkC [] st') /\
         Forall2 (coloured n m) (concat opss) rss).
  Proof using Rule M.
    induction singlets as [|r singlets IH]; intros st H.
    - exists []. split; [constructor|]. split; [exists st; reflexivity|]. exists [], st; split; [reflexivity|constructor].
    - apply Forall_cons_iff in H as [[S D] H]. destruct (one_singlet ip Rule f g rst M ignore r st S D) as (ops & st1 & E & Mi & Ne & R).
      assert (Cs : Forall (fun op => normal op /\ proper_op op /\ Forall clean (op_indices op) /\ number op Colour true n /\ number op Colour false m) ops).
      { eapply Forall_impl; [|exact R]. intros op (R1 & R2 & R3 & R4 & R5 & R6). repeat (split; [assumption|]). split; apply R6. }
      destruct (colour_list n m ops st1 Cs) as [C1 C2]. destruct (IH st1 H) as (opss & F & I1 & I2). exists (ops :: opss). split; [constructor; [split; [exact R|]; eauto|exact F]|].
      cbn [operators_of]. rewrite E, as_operators_ok. cbn [bind c_counters c_stack concat]. split.
      + intros G. rewrite G. destruct (I1 G) as (st' & E'). rewrite E'. exists st'. reflexivity.
      + intros G Cm. rewrite G. destruct (C1 Cm) as (rss & E1 & F1). rewrite E1. destruct (I2 G Cm) as (rss' & st' & E' & F'). rewrite E'.
        exists (rss ++ rss'), st'. rewrite concat_app. split; [reflexivity|]. now apply Forall2_app.
  Qed.

  Hypothesis One : forall t, su2_type t -> ignore t = false -> Forall (fun h => su2_label t h <= 1) fs.

  Lemma one_in t : su2_type t -> ignore t = false -> forall h, In h fs -> su2_label t h <= 1.
  Proof using One. intros Ht Ig. apply Forall_forall. now apply One. Qed.

  (** any operator of a singlet, and those that are planned *)
  Lemma singlet_ops steps r st0 s ops : levels ip f steps r -> map snd steps = g :: rst -> walked r = grow (walked f) steps ->
    construct_operators (walked r) ignore (mkC [] st0) = (Ok (map (fun op => CObj (OOp op)) ops), s) ->
    (forall adds, plan ignore [f] (fun t => su2_label t f) (fun _ => []) steps adds -> exists op, In op ops /\ state ignore op fs (joined (fun _ => []) adds)) /\
    (forall op, In op ops -> exists J, state ignore op fs J).
  Proof using Rule M One.
    intros Lv Sn W E. destruct M as [Mm Ms Mc Mt Mf Mk]. apply Forall_cons_iff in Ms as [Hf Ms]. apply Forall_cons_iff in Mm as [Wf Mm].
    rewrite (walked_simple f Hf) in W. change (walked r = chain f steps) in W. rewrite W in E.
    assert (B1 : forall t, su2_type t -> su2_label t f + total_label (su2_label t) (map snd steps) < 10) by (intros t Ht; rewrite Sn; exact (Mf t Ht)).
    assert (B2 : colour_label true f + colour_label false f + total_label (colour_label true) (map snd steps) + total_label (colour_label false) (map snd steps) < 10)
      by (rewrite Sn; unfold all_colours, total_label in *; cbn [map list_sum fold_right] in *; lia).
    assert (Ma : Forall made (map snd steps)) by (rewrite Sn; exact Mm).
    destruct (levels_ok ip Rule f steps r Lv ignore (fun t => su2_label t f) (made_labelled f Wf) Ma (fun t _ _ => eq_refl) B1 B2) as (F1 & _).
    pose proof (levels_triangle ip f steps r Rule Lv ignore (fun t => su2_label t f) (made_labelled f Wf) Ma (fun t _ _ => eq_refl) B1 B2) as Tri.
    pose proof (construct_in f steps ignore st0 ops s Wf) as K. rewrite Sn in K. apply K; auto.
    - apply Forall_forall. intros s0 Is. rewrite Forall_forall in F1. split; [now apply F1|]. rewrite <- Sn in Mm. rewrite Forall_forall in Mm. apply (Mm (snd s0)). now apply in_map.
    - intros up. now apply colour_bound.
    - intros t Ht Ig. now apply one_in.
    - intros ->. discriminate Sn.
  Qed.

  Definition only_metrics (op : operator) : Prop := forall s, In s (symbols_in op) -> exists t, su2_type t /\ ignore t = false /\ of_type t s = true.

  Lemma state_contracted op J t : state ignore op fs J -> su2_type t -> ignore t = false -> number op t true 0 -> pairs_up t fs (J t) /\ contracted_as op t (J t).
  Proof using One.
    intros S Ht Ig Nz. pose proof S as (N & P & C & Sy & Sh). destruct (Sh t Ht Ig) as [F Nd]. split.
    - split; [exact Nd|]. intros k. split.
      + intros I. destruct (joined_bound ignore op fs J t k S Ht Ig I) as (a & Ha & _). eapply carried_label; eauto. now apply one_in.
      + intros (h & Eh & L). destruct (carried_index op fs k t h C Ht Eh L) as (a & Ha). destruct (in_dec Nat.eq_dec k (flat2 (J t))) as [I|I]; [exact I|]. exfalso.
        pose proof (open_free ignore op fs J k t a S Ht Ha (fun _ => I)) as Fr. destruct Nz as (l & [_ Hl] & L0). destruct l; [|discriminate L0]. apply (Hl a). split; [exact Fr|]. split; [destruct Ha as (? & _ & _ & T); exact T|].
        eapply carried_up; eassumption.
    - exists (filter (of_type t) (symbols_in op)). split; [reflexivity|exact F].
  Qed.
End Main.

(** ** C105 *)

(** For fields with at most one index of each SU(2) type that is not ignored: every operator [unsimplified_invariants] is made from joins these
    fields in pairs by metrics, for each type all fields with an index and each of them once, and has no other symbols; and every choice of such
    pairs, one for each type, is constructed, provided basisgen's product is complete, the hypercharges add up to zero, and the product of the
    labels of ignored types and of the colours has a singlet.  The operators are returned as they are if colour is ignored, and otherwise
    with the colour indices contracted. *)
Theorem C105_contractions :
  forall irrep_product f g rst ignore st,
    selection_rule irrep_product -> multiplied (f :: g :: rst) ->
    let fs := f :: g :: rst in
    (forall t, su2_type t -> ignore t = false -> Forall (fun h => su2_label t h <= 1) fs) ->
    exists ops st',
      Forall (fun op => realises fs (left_over ignore fs) op /\
                        (forall s, In s (symbols_in op) -> exists t, su2_type t /\ ignore t = false /\ of_type t s = true) /\
                        forall t, su2_type t -> ignore t = false -> exists J, pairs_up t fs J /\ contracted_as op t J) ops /\
      (forall colours J,
         full_product irrep_product colours -> total fs (lit "y") = Q2Qc 0 ->
         (forall t, su2_type t -> ignore t = true -> reaches triangle (su2_label t f) (map (su2_label t) (g :: rst)) 0) ->
         reaches colours (colour_label true f, colour_label false f) (map (fun h => (colour_label true h, colour_label false h)) (g :: rst)) (0, 0) ->
         (forall t, su2_type t -> ignore t = false -> pairs_up t fs (J t)) ->
         exists op, In op ops /\ forall t, su2_type t -> ignore t = false -> contracted_as op t (J t)) /\
      (ignore Colour = true -> unsimplified_invariants irrep_product fs ignore (mkC [] st) = (Ok ops, mkC [] st')) /\
      (ignore Colour = false -> colour_matches (all_colours true fs) (all_colours false fs) -> exists rss,
         unsimplified_invariants irrep_product fs ignore (mkC [] st) = (Ok (concat rss), mkC [] st') /\
         Forall2 (coloured (all_colours true fs) (all_colours false fs)) ops rss).
Proof.
  intros ip f g rst ignore st Rule M fs One. pose proof M as [Mm Ms Mc Mt Mf Mk].
  assert (P : proper (f_charges f)). { apply Forall_inv in Mm. destruct Mm as (a & b & c & d & e & (_ & _ & P & _) & _). exact P. }
  destruct (Forall_inv Mt) as (tex & T).
  assert (Sk : Forall (same_keys f) (g :: rst)). { apply Forall_forall. intros h I. apply Mc; [now left|now right]. }
  destruct (decompose_ok ip rst f g tex P T Sk) as (l & E & H).
  assert (Hy : Forall (fun r => exists y, dget str_eqb (f_charges r) (lit "y") = Some y) l).
  { eapply Forall_impl; [|exact H]. intros r ((y & b & r0 & -> & _) & _). exists y. reflexivity. }
  assert (Em : exists bs, mapM (fun f0 => do b <- is_singlet f0; Ok (f0, b)) l = Ok bs).
  { clear - Hy. induction Hy as [|r l Hr H (bs & E)]; [now exists []|]. destruct (PropsLagrangian6.is_singlet_ok r Hr) as (b & Eb & _). cbn [mapM]. rewrite Eb. cbn [bind]. rewrite E. cbn [bind]. eauto. }
  destruct Em as (bs & Em). pose proof (singlets_selected l bs Em Hy) as Sel. set (singlets := map fst (filter snd bs)) in *.
  assert (Fs : Forall (fun r => f_dynkin r = lit "00000" /\ exists l, decompose ip f g rst = Ok l /\ In r l) singlets).
  { eapply Forall_impl; [|exact (selected_in _ _ _ Sel)]. intros r [[N _] I]. split; [exact N|]. exists l. split; [exact E|exact I]. }
  destruct (operators_of_from ip Rule f g rst M ignore singlets st Fs) as (opss & F & H1 & H2). fold fs in F, H1, H2.
  assert (Un : unsimplified_invariants ip fs ignore (mkC [] st) = operators_of singlets ignore (mkC [] st)).
  { unfold unsimplified_invariants, fs. cbn [decompose_product]. rewrite E. cbn [bind]. rewrite Em. reflexivity. }
  pose proof Mm as Mm'. pose proof Ms as Ms'. apply Forall_cons_iff in Ms' as [Hf Hh]. apply Forall_cons_iff in Mm' as [Wf Mg].
  assert (Sound : Forall (fun op => realises fs (left_over ignore fs) op /\ (forall s, In s (symbols_in op) -> exists t, su2_type t /\ ignore t = false /\ of_type t s = true) /\
                     forall t, su2_type t -> ignore t = false -> exists J, pairs_up t fs J /\ contracted_as op t J) (concat opss)).
  { apply Forall_forall. intros op I. apply in_concat in I as (ops & Io & I).
    assert (X : exists r, In r singlets /\ Forall (realises fs (left_over ignore fs)) ops /\ exists st0 s, construct_operators (walked r) ignore (mkC [] st0) = (Ok (map (fun op => CObj (OOp op)) ops), s)).
    { clear -F Io. induction F as [|r o ss oss Hr F IH]; [destruct Io|]. destruct Io as [->|Io]; [exists r; split; [now left|exact Hr]|]. destruct (IH Io) as (r' & I & H). exists r'. split; [now right|exact H]. }
    destruct X as (r & Ir & R & st0 & s & Ec). rewrite Forall_forall in Fs, R. destruct (Fs r Ir) as (S0 & l' & El & Il).
    destruct (decompose_levels ip rst f g l' r El Il Hh) as (steps & Sn & Lv & W).
    destruct (singlet_ops ip Rule f g rst M ignore One steps r st0 s ops Lv Sn W Ec) as [_ K]. destruct (K op I) as (J & SJ). fold fs in SJ.
    split; [now apply R|]. split; [apply SJ|]. intros t Ht Ig. exists (J t). apply (state_contracted f g rst ignore One op J t); auto.
    destruct (R op I) as (_ & _ & _ & _ & R5 & _). destruct (R5 t Ht) as [R6 _]. unfold left_over in R6. now rewrite Ig in R6. }
  assert (Complete : forall colours J, full_product ip colours -> total fs (lit "y") = Q2Qc 0 ->
         (forall t, su2_type t -> ignore t = true -> reaches triangle (su2_label t f) (map (su2_label t) (g :: rst)) 0) ->
         reaches colours (colour_label true f, colour_label false f) (map (fun h => (colour_label true h, colour_label false h)) (g :: rst)) (0, 0) ->
         (forall t, su2_type t -> ignore t = false -> pairs_up t fs (J t)) ->
         exists op, In op (concat opss) /\ forall t, su2_type t -> ignore t = false -> contracted_as op t (J t)).
  { intros colours J Full Y Ri Rc Up. assert (One' : forall t, su2_type t -> ignore t = false -> forall h, In h fs -> su2_label t h <= 1) by (intros t Ht Ig; apply Forall_forall; now apply One).
    destruct (reaches_trail _ _ _ _ Rc) as (cc & Tc & Lc).
    assert (Tr : exists cs : itype -> list nat, forall t, su2_type t -> trail triangle (su2_label t f) (map (su2_label t) (g :: rst)) (cs t) /\ last (cs t) (su2_label t f) = 0 /\
               (ignore t = false -> cs t = map (open fs t (J t)) (seq 2 (S (List.length rst))))).
    { assert (X : forall t, su2_type t -> exists c, trail triangle (su2_label t f) (map (su2_label t) (g :: rst)) c /\ last c (su2_label t f) = 0 /\ (ignore t = false -> c = map (open fs t (J t)) (seq 2 (S (List.length rst))))).
      { intros t Ht. destruct (ignore t) eqn:Ig; [destruct (reaches_trail _ _ _ _ (Ri t Ht Ig)) as (c & Tt & Lt); exists c; repeat split; auto; discriminate|].
        exists (map (open fs t (J t)) (seq 2 (S (List.length rst)))). pose proof (open_trail fs t (J t) (One' t Ht Ig) (Up t Ht Ig) (map (su2_label t) (g :: rst)) 1 eq_refl) as Ot.
        rewrite map_length in Ot. rewrite (open_first fs t (J t) (One' t Ht Ig) (Up t Ht Ig) f (g :: rst) eq_refl) in Ot. split; [exact Ot|]. split; [|reflexivity].
        rewrite seq_S, map_app. cbn [map]. rewrite last_last. exact (open_end fs t (J t) (One' t Ht Ig) (Up t Ht Ig)). }
      destruct (X Undotted) as (cu & Xu); [red; auto|]. destruct (X Dotted) as (cd & Xd); [red; auto|]. destruct (X Isospin) as (ci & Xi); [red; auto|].
      exists (fun t => match t with Undotted => cu | Dotted => cd | _ => ci end). intros t [-> | [-> | ->]]; assumption. }
    destruct Tr as (cs & Tr).
    destruct (path_exists ip colours Rule Full rst f g l cs cc E (made_labelled f Wf) Mg Hh) as (r & steps & Ir & Sn & Lv & W & Ls & Lr & Sr & Cr).
    - exact Mf.
    - unfold all_colours, total_label in *. cbn [map list_sum fold_right] in *. lia.
    - intros t Ht. now apply Tr.
    - exact Tc.
    - assert (Zr : f_dynkin r = lit "00000").
      { destruct Lr as (a & b & c & d & e & Er & Br). rewrite Er.
        assert (Zt : forall t, su2_type t -> label_at t a b e = 0). { intros t Ht. rewrite <- (su2_label_five r _ _ _ _ _ t Er Br), (Sr t Ht). now apply Tr. }
        pose proof (Zt Undotted (or_introl eq_refl)) as Z1. pose proof (Zt Dotted (or_intror (or_introl eq_refl))) as Z2. pose proof (Zt Isospin (or_intror (or_intror eq_refl))) as Z3. cbn [label_at] in Z1, Z2, Z3.
        fold (colours_of f) in Lc. rewrite Lc in Cr. unfold colours_of in Cr. rewrite (colour_label_five r _ _ _ _ _ true Er Br), (colour_label_five r _ _ _ _ _ false Er Br) in Cr. injection Cr as -> ->. subst a b e. reflexivity. }
      assert (Nr : neutral r). { split; [exact Zr|]. rewrite Forall_forall in H. destruct (H r Ir) as (_ & _ & Hc & _). transitivity (total fs (lit "y")); [apply Hc|exact Y]. }
      assert (Is : In r singlets).
      { clear -Sel Ir Nr. induction Sel as [|x l l' Hx S IH|x l l' Hx S IH]; [destruct Ir| |]; destruct Ir as [->|Ir]; [now left|right; auto|contradiction|auto]. }
      assert (X : exists ops, In ops opss /\ exists st0 s, construct_operators (walked r) ignore (mkC [] st0) = (Ok (map (fun op => CObj (OOp op)) ops), s)).
      { clear -F Is. induction F as [|x o ss oss [_ Hr] F IH]; [destruct Is|]. destruct Is as [->|Is]; [exists o; split; [now left|exact Hr]|]. destruct (IH Is) as (o' & I & H). exists o'. split; [now right|exact H]. }
      destruct X as (ops & Io & st0 & s & Ec). destruct (singlet_ops ip Rule f g rst M ignore One steps r st0 s ops Lv Sn W Ec) as [K _]. fold fs in K.
      assert (Ln : List.length steps = S (List.length rst)) by (rewrite <- (map_length snd), Sn; reflexivity).
      destruct (K (map (fun k t => added (J t) k) (seq 1 (List.length steps)))) as (op & I & SJ).
      { apply (plan_ok ignore fs J One' Up steps [f]).
        - rewrite Sn. reflexivity.
        - intros t Ht Ig. rewrite (Ls t Ht). cbn [List.length]. rewrite Ln. now apply Tr.
        - intros t Ht Ig. cbn [List.length]. symmetry. exact (open_first fs t (J t) (One' t Ht Ig) (Up t Ht Ig) f (g :: rst) eq_refl).
        - intros t Ht Ig. cbn [List.length]. unfold upto. cbn [seq flat_map]. destruct (added_cases fs t (J t) (One' t Ht Ig) (Up t Ht Ig) 0) as [[A _]|(i & _ & A & _)]; [unfold fs; cbn; lia| |lia]. now rewrite A. }
      exists op. split; [apply in_concat; eauto|]. intros t Ht Ig. destruct SJ as (_ & _ & _ & _ & Sh). destruct (Sh t Ht Ig) as [F2 _].
      assert (Ej : Permutation (joined (fun _ => []) (map (fun k t => added (J t) k) (seq 1 (List.length steps))) t) (map sorted (J t))).
      { etransitivity; [|exact (upto_end fs t (J t) (Up t Ht Ig))]. unfold joined, upto. cbn [app]. rewrite Ln. unfold fs. cbn [List.length]. change (seq 0 (S (S (List.length rst)))) with (0 :: seq 1 (S (List.length rst))).
        cbn [flat_map]. destruct (added_cases fs t (J t) (One' t Ht Ig) (Up t Ht Ig) 0) as [[A _]|(i & _ & A & _)]; [unfold fs; cbn; lia| |lia]. rewrite A. cbn [app].
        generalize (seq 1 (S (List.length rst))). clear. induction l as [|k l IH]; [reflexivity|]. cbn [map flat_map]. now apply Permutation_app_head. }
      destruct (forall2_perm _ _ _ Ej _ F2) as (l' & Pl & Fl). exists l'. split; [exact Pl|]. now apply between_sorted. }
  destruct (ignore Colour) eqn:G.
  - destruct (H1 eq_refl) as (st' & E'). exists (concat opss), st'. split; [exact Sound|]. split; [exact Complete|]. split; [intros _; rewrite Un; exact E'|discriminate].
  - assert (Dec : {colour_matches (all_colours true fs) (all_colours false fs)} + {~ colour_matches (all_colours true fs) (all_colours false fs)}).
    { unfold colour_matches. destruct (Nat.eq_dec (all_colours true fs) (all_colours false fs)); [left; tauto|].
      destruct (Nat.eq_dec (all_colours true fs) 3), (Nat.eq_dec (all_colours false fs) 0), (Nat.eq_dec (all_colours true fs) 0), (Nat.eq_dec (all_colours false fs) 3); try (left; tauto); right; tauto. }
    destruct Dec as [Cm|Cm].
    + destruct (H2 eq_refl Cm) as (rss & st' & E' & F'). exists (concat opss), st'. split; [exact Sound|]. split; [exact Complete|]. split; [discriminate|]. intros _ _. exists rss. split; [rewrite Un; exact E'|exact F'].
    + exists (concat opss), st. split; [exact Sound|]. split; [exact Complete|]. split; [discriminate|]. intros _ C. contradiction.
Qed.

(** ** Examples *)

Lemma triangle_spins a b p : triangle a b p -> In p (spins a b).
Proof.
  intros (H1 & H2 & H3 & k & Hk). unfold spins. apply in_map_iff. exists (a + b - k). split; [lia|]. apply in_seq. lia.
Qed.

Example small_full : full_product small_product (fun x y z => In z (su3_product x y)).
Proof.
  intros a b c d e a' b' c' d' e' p q r s t B B' T1 T2 T3 T4. exists 1. unfold small_product, digits_of. rewrite !digits_five by assumption.
  apply in_flat_map. exists p. split; [now apply triangle_spins|]. apply in_flat_map. exists q. split; [now apply triangle_spins|]. apply in_flat_map. exists (r, s). split; [exact T3|].
  apply in_map_iff. exists t. split; [reflexivity|now apply triangle_spins].
Qed.

(** the dimension-five operator: the two spinors are joined; the four isospin doublets in each of the three ways *)
Example C105_weinberg : forall J, In J [[(0, 1); (2, 3)]; [(0, 2); (1, 3)]; [(3, 0); (1, 2)]] ->
  exists ops st' op, unsimplified_invariants small_product [lepton; lepton; doublet; doublet] (fun t => itype_eqb t Colour) (mkC [] (fun _ => 0)) = (Ok ops, st') /\ In op ops /\
    contracted_as op Isospin J /\ contracted_as op Undotted [(0, 1)] /\ contracted_as op Dotted [].
Proof.
  intros J IJ. pose proof (Forall_inv examples_multiplied) as M.
  destruct (C105_contractions small_product lepton lepton [doublet; doublet] (fun t => itype_eqb t Colour) (fun _ => 0) small_rule M) as (ops & st' & _ & C & E & _).
  { intros t [-> | [-> | ->]] _; repeat (constructor; [vm_compute; lia|]); constructor. }
  destruct (C (fun x y z => In z (su3_product x y)) (fun t => match t with Isospin => J | Undotted => [(0, 1)] | _ => [] end) small_full) as (op & I & H).
  - vm_compute. apply Qc_is_canon. reflexivity.
  - intros t [-> | [-> | ->]]; discriminate.
  - repeat (apply re_cons with (c := (0, 0)); [vm_compute; auto|]). apply re_nil.
  - intros t [-> | [-> | ->]] _; (split; [destruct IJ as [<-|[<-|[<-|[]]]]; cbn; repeat (constructor; [cbn; lia|]); constructor|]);
      (intros n; split; [intros I; destruct IJ as [<-|[<-|[<-|[]]]]; cbn in I; repeat (destruct I as [<-|I]; [eexists; split; [reflexivity|reflexivity]|]); destruct I|]);
      intros (h & Eh & L); destruct n as [|[|[|[|n]]]]; cbn in Eh; try (destruct n; discriminate Eh); injection Eh as <-; try (vm_compute in L; discriminate L);
      destruct IJ as [<-|[<-|[<-|[]]]]; cbn; tauto.
  - exists ops, (mkC [] st'), op. split; [apply E; reflexivity|]. split; [exact I|]. split; [apply (H Isospin); unfold su2_type; auto|]. split; [apply (H Undotted)|apply (H Dotted)]; unfold su2_type; auto.
Qed.

(** A contraction need not be constructed once: of six doublets, which can be joined in fifteen ways, more operators are made, among them two
    with the same pairs. *)
Definition between_b (op : operator) (t : itype) (e : nat * nat) (s : symbol) : bool :=
  let of n := match nth_error (fields_in op) n with Some x => filter (fun i => itype_eqb (ix_type i) t) (i_indices x) | None => [] end in
  match s with
  | Metric t' [x; y] => itype_eqb t' t && existsb (fun a => existsb (fun b => opposite a x && opposite b y || opposite b x && opposite a y) (of (snd e))) (of (fst e))
  | _ => false
  end.

Lemma between_b_ok op t e s : between_b op t e s = true -> between op t e s.
Proof.
  unfold between_b. cbv zeta. destruct s as [t' [|x [|y [|]]] | |]; try discriminate. rewrite andb_true_iff. intros [T H]. apply itype_decides in T. subst t'.
  apply existsb_exists in H as (a & Ia & H). apply existsb_exists in H as (b & Ib & H).
  assert (K : forall n i, In i (match nth_error (fields_in op) n with Some x => filter (fun i => itype_eqb (ix_type i) t) (i_indices x) | None => [] end) -> has_index op n t i).
  { intros n i I. destruct (nth_error (fields_in op) n) as [z|] eqn:E; [|destruct I]. apply filter_In in I as [I T]. apply itype_decides in T. exists z. auto. }
  exists a, b, x, y. split; [now apply K|]. split; [now apply K|]. split; [reflexivity|]. rewrite orb_true_iff, !andb_true_iff in H. rewrite <- !opposite_spec. tauto.
Qed.

Fixpoint all_between (op : operator) (t : itype) (J : list (nat * nat)) (l : list symbol) : bool :=
  match J, l with [], [] => true | e :: J, s :: l => between_b op t e s && all_between op t J l | _, _ => false end.

Lemma all_between_ok op t J : all_between op t J (filter (of_type t) (symbols_in op)) = true -> contracted_as op t J.
Proof.
  intros H. exists (filter (of_type t) (symbols_in op)). split; [reflexivity|]. revert H. generalize (filter (of_type t) (symbols_in op)). induction J as [|e J IH]; intros [|s l] H; try discriminate H; constructor.
  - apply between_b_ok. cbn in H. now apply andb_true_iff in H.
  - apply IH. cbn in H. now apply andb_true_iff in H.
Qed.

Definition six : list field := repeat doublet 6.

Theorem C105_once_refuted :
  multiplied six /\ exists ops r r', fst (unsimplified_invariants small_product six (fun _ => false) (mkC [] (fun _ => 0))) = Ok ops /\
    nth_error ops 0 = Some r /\ nth_error ops 2 = Some r' /\
    contracted_as r Isospin [(0, 3); (1, 4); (2, 5)] /\ contracted_as r' Isospin [(0, 3); (1, 4); (2, 5)].
Proof.
  split.
  - destruct (Forall_inv examples_multiplied) as [M1 M2 M3 M4 _ _].
    assert (K : forall Q : field -> Prop, Forall Q [lepton; lepton; doublet; doublet] -> Forall Q six).
    { intros Q H. apply Forall_inv_tail, Forall_inv_tail, Forall_inv in H. unfold six. repeat (constructor; [exact H|]). constructor. }
    constructor; [now apply K|now apply K| |now apply K| |vm_compute; lia].
    + assert (S : forall h, In h six -> h = doublet) by (intros h I; now apply repeat_spec in I). intros a b Ia Ib k. now rewrite (S a Ia), (S b Ib).
    + intros t [-> | [-> | ->]]; vm_compute; lia.
  - set (u := fst (unsimplified_invariants small_product six (fun _ => false) (mkC [] (fun _ => 0)))).
    assert (E : match u with Ok (a :: _ :: c :: _) => all_between a Isospin [(0, 3); (1, 4); (2, 5)] (filter (of_type Isospin) (symbols_in a)) &&
                  all_between c Isospin [(0, 3); (1, 4); (2, 5)] (filter (of_type Isospin) (symbols_in c)) | _ => false end = true) by (vm_compute; reflexivity).
    destruct u as [[|a [|b [|c l]]]|]; try discriminate E. apply andb_true_iff in E as [E1 E2]. exists (a :: b :: c :: l), a, c. split; [reflexivity|]. split; [reflexivity|]. split; [reflexivity|].
    split; now apply all_between_ok.
Qed.

Print Assumptions C105_contractions.
Print Assumptions C105_once_refuted.
