(** * PropsTerms: terms with derivatives (C90) *)

From Coq Require Import Ascii String List Bool Arith ZArith NArith QArith Qcanon Lia Permutation Sorted.
From Verif Require Import Base BaseFacts Show ModelFunctions ProofsFunctions ModelIndex SpecIndex ProofsIndex PropsIndex ModelField SpecField
  ProofsField ProofsField2 PropsField PropsField2 ModelContract SpecContract ProofsContract PropsContract ModelPartition
  ModelExotic SpecExotic ProofsExotic PropsExotic ProofsExotic2 PropsExotic2 PropsExotic3 PropsPartition PropsPartition3 SpecTerms.
From Verif Require ProofsRegistry.
From Verif Require Spec.
Import ListNotations.
Local Open Scope nat_scope.

(** ** Sorting *)

Definition scalarb (x : cfield) : bool := (count_kind Undotted true (indices_of x) =? 0) && (count_kind Dotted true (indices_of x) =? 0).

Lemma scalarb_iff x : scalarb x = true <-> scalar x.
Proof. unfold scalarb, scalar. rewrite andb_true_iff, !Nat.eqb_eq. reflexivity. Qed.

Lemma scalarb_not x : scalarb x = false <-> ~ scalar x.
Proof. rewrite <- scalarb_iff. destruct (scalarb x); split; congruence. Qed.

Lemma scalar_boson x : scalar x -> boson x.
Proof. unfold scalar, boson. intros [-> ->]. now exists 0. Qed.

Lemma is_scalar_ok x : legit x -> is_scalar (i_field (cf_if x)) = Ok (scalarb x).
Proof.
  intros L. unfold is_scalar, lorentz_irrep. rewrite (legit_ints x L). cbn [bind firstn]. unfold scalarb.
  destruct (count_kind Undotted true (indices_of x)), (count_kind Dotted true (indices_of x)); reflexivity.
Qed.

Definition extended (acc : sorted_term) S F X E : sorted_term :=
  mkSorted (so_scalars acc ++ S) (so_fermions acc ++ F) (so_exotic acc ++ X) (so_eps acc ++ E).

Definition halts (x : cfield) (e : exn) : Prop :=
  (0 < derivs x /\ strip_derivs_with_indices (cf_if x) = Err e) \/
  (derivs x = 0 /\ exists b, cf_class x = DiracFermion b /\ (dirac_partner b x = Err e \/ exists y, dirac_partner b x = Ok y /\ conj_typed y = Err e)) \/
  (derivs x = 0 /\ cf_class x = MajoranaFermion /\ conj_typed x = Err e).

Lemma has_derivs_iff x : has_derivs x = true <-> 0 < derivs x.
Proof. unfold has_derivs, cf_derivs, derivs. rewrite negb_true_iff, Nat.eqb_neq. lia. Qed.

Lemma has_derivs_not x : has_derivs x = false <-> derivs x = 0.
Proof. unfold has_derivs, cf_derivs, derivs. rewrite negb_false_iff, Nat.eqb_eq. reflexivity. Qed.

Lemma extended_nil acc : extended acc [] [] [] [] = acc.
Proof. unfold extended. rewrite !app_nil_r. now destruct acc. Qed.

Ltac give S F X E := exists S, F, X, E; split; [intros acc; unfold extended; rewrite ?app_nil_r|intros op S' F' X' E' HS; cbn [app]].

Lemma sort_step t : processable t ->
  (exists S F X E, (forall acc, sort_tensor acc t = Ok (extended acc S F X E)) /\
     forall op S' F' X' E', sorted_as op S' F' X' E' -> sorted_as (t :: op) (S ++ S') (F ++ F') (X ++ X') (E ++ E')) \/
  (exists x e, t = KField x /\ (forall acc, sort_tensor acc t = Err e) /\ halts x e).
Proof.
  destruct t as [x|s]; cbn [processable].
  - intros [L P]. cbn [sort_tensor]. setoid_rewrite (is_boson_ok x L). cbn [bind].
    destruct (has_derivs x) eqn:D.
    + apply has_derivs_iff in D. rewrite (P D). destruct (bosonb x) eqn:B; cbn [andb negb].
      * destruct (strip_derivs_with_indices (cf_if x)) as [y|e] eqn:Y; cbn [bind].
        2:{ right. exists x, e. split; [reflexivity|]. split; [reflexivity|]. left. auto. }
        setoid_rewrite (is_scalar_ok x L). cbn [bind]. left. apply bosonb_spec in B. destruct (scalarb x) eqn:Sc.
        -- give [mkCF Plain y; x] (@nil cfield) (@nil cfield) (@nil symbol).
           ++ cbn [so_scalars so_fermions so_exotic so_eps]. now rewrite <- app_assoc.
           ++ apply scalarb_iff in Sc. now apply sa_box.
        -- give [mkCF Plain y] (@nil cfield) (@nil cfield) (@nil symbol).
           ++ reflexivity.
           ++ apply scalarb_not in Sc. now apply sa_boson.
      * destruct (strip_derivs_with_indices (cf_if x)) as [y|e] eqn:Y; cbn [bind].
        2:{ right. exists x, e. split; [reflexivity|]. split; [reflexivity|]. left. auto. }
        left. apply bosonb_not in B. give (@nil cfield) [mkCF Plain y] (@nil cfield) (@nil symbol); [reflexivity|]. now apply sa_derived.
    + apply has_derivs_not in D. cbn [andb bind].
      assert (Sc : (cf_class x = Plain \/ cf_class x = ComplexScalar \/ cf_class x = RealScalar) ->
        (exists S F X E, (forall acc, (if negb (bosonb x) then Ok (mkSorted (so_scalars acc) (so_fermions acc ++ [x]) (so_exotic acc) (so_eps acc))
             else do s <- is_scalar (i_field (cf_if x));
                  Ok (if s then mkSorted (so_scalars acc ++ [x]) (so_fermions acc) (so_exotic acc) (so_eps acc) else acc)) = Ok (extended acc S F X E)) /\
          forall op S' F' X' E', sorted_as op S' F' X' E' -> sorted_as (KField x :: op) (S ++ S') (F ++ F') (X ++ X') (E ++ E'))).
      { intros K. rewrite (is_scalar_ok x L). destruct (bosonb x) eqn:B; cbn [negb bind].
        - apply bosonb_spec in B. destruct (scalarb x) eqn:Z.
          + give [x] (@nil cfield) (@nil cfield) (@nil symbol); [reflexivity|]. apply scalarb_iff in Z. now apply sa_scalar.
          + give (@nil cfield) (@nil cfield) (@nil cfield) (@nil symbol); [now destruct acc|]. apply scalarb_not in Z. now apply sa_vector.
        - apply bosonb_not in B. give (@nil cfield) [x] (@nil cfield) (@nil symbol); [reflexivity|]. now apply sa_fermion. }
      destruct (cf_class x) as [| | |b|] eqn:K; try (left; apply Sc; solve [auto]).
      * destruct (conj_typed x) as [z|e] eqn:Z; cbn [bind].
        2:{ right. exists x, e. split; [reflexivity|]. split; [reflexivity|]. right. right. auto. }
        left. give (@nil cfield) (@nil cfield) [z] (@nil symbol); [reflexivity|]. now apply (sa_majorana x z).
      * destruct (dirac_partner b x) as [y|e] eqn:Y; cbn [bind].
        2:{ right. exists x, e. split; [reflexivity|]. split; [reflexivity|]. right. left. eauto. }
        destruct (conj_typed y) as [z|e] eqn:Z; cbn [bind].
        2:{ right. exists x, e. split; [reflexivity|]. split; [reflexivity|]. right. left. split; [exact D|]. exists b. eauto. }
        left. give (@nil cfield) (@nil cfield) [z] (@nil symbol); [reflexivity|]. now apply (sa_dirac x b y z).
  - intros N. cbn [sort_tensor]. destruct (symbol_indices s) as [|i r] eqn:Es; [congruence|]. left.
    assert (G : spinor_type (ix_type i) \/ ~ spinor_type (ix_type i)).
    { unfold spinor_type. destruct (ix_type i); intuition discriminate. }
    destruct G as [G|G].
    + give (@nil cfield) (@nil cfield) (@nil cfield) (@nil symbol).
      * destruct G as [-> | ->]; now destruct acc.
      * now apply (sa_lorentz s i r).
    + give (@nil cfield) (@nil cfield) (@nil cfield) [s].
      * unfold spinor_type in G. destruct (ix_type i); try reflexivity; intuition congruence.
      * now apply (sa_gauge s i r).
Qed.

Lemma sort_all op : Forall processable op ->
  (exists S F X E, sorted_as op S F X E /\ forall acc, foldM sort_tensor op acc = Ok (extended acc S F X E)) \/
  (exists e, stuck_at op e /\ forall acc, foldM sort_tensor op acc = Err e).
Proof.
  induction 1 as [|t op P _ IH].
  - left. exists [], [], [], []. split; [constructor|]. intros acc. cbn [foldM]. now rewrite extended_nil.
  - cbn [foldM]. destruct (sort_step t P) as [(S & F & X & E & Et & St)|(x & e & -> & Et & H)].
    + destruct IH as [(S' & F' & X' & E' & St' & IH)|(e & (pre & x & post & S' & F' & X' & E' & -> & St' & H) & IH)].
      * left. exists (S ++ S'), (F ++ F'), (X ++ X'), (E ++ E'). split; [now apply St|]. intros acc. rewrite Et. cbn [bind]. rewrite IH. unfold extended.
        cbn [so_scalars so_fermions so_exotic so_eps]. now rewrite <- !app_assoc.
      * right. exists e. split.
        -- exists (t :: pre), x, post, (S ++ S'), (F ++ F'), (X ++ X'), (E ++ E'). split; [reflexivity|]. split; [now apply St|exact H].
        -- intros acc. rewrite Et. cbn [bind]. apply IH.
    + right. exists e. split.
      * exists [], x, op, [], [], [], []. split; [reflexivity|]. split; [constructor|exact H].
      * intros acc. now rewrite Et.
Qed.

Lemma sorted_fold op S F X E : sorted_as op S F X E -> Forall processable op -> forall acc, foldM sort_tensor op acc = Ok (extended acc S F X E).
Proof.
  induction 1 as [|s i r op S F X E Hs Ht H IH|s i r op S F X E Hs Ht H IH|x y op S F X E Hd Hb Hn Hy H IH|x y op S F X E Hd Hs Hy H IH|x y op S F X E Hd Hf Hy H IH|
    x b y z op S F X E Hd Hc Hy Hz H IH|x z op S F X E Hd Hc Hz H IH|x op S F X E Hd Hc Hf H IH|x op S F X E Hd Hc Hs H IH|x op S F X E Hd Hc Hb Hn H IH];
    intros P acc; cbn [foldM]; [now rewrite extended_nil|..]; pose proof (Forall_inv P) as Px; specialize (IH (Forall_inv_tail P)); cbn [processable] in Px; cbn [sort_tensor].
  - rewrite Hs. destruct Ht as [-> | ->]; cbn [bind]; apply IH.
  - rewrite Hs. assert (Q : (match ix_type i with Undotted | Dotted => acc | _ => mkSorted (so_scalars acc) (so_fermions acc) (so_exotic acc) (so_eps acc ++ [s]) end) =
      mkSorted (so_scalars acc) (so_fermions acc) (so_exotic acc) (so_eps acc ++ [s])) by (unfold spinor_type in Ht; destruct (ix_type i); try reflexivity; destruct Ht; auto).
    rewrite Q. cbn [bind]. rewrite IH. unfold extended. cbn [so_scalars so_fermions so_exotic so_eps]. now rewrite <- app_assoc.
  - destruct Px as [L K]. rewrite (is_boson_ok x L). cbn [bind]. apply has_derivs_iff in Hd as Hd'. rewrite Hd', (K Hd), (proj2 (bosonb_spec x) Hb), Hy. cbn [andb negb bind].
    rewrite (is_scalar_ok x L), (proj2 (scalarb_not x) Hn). cbn [bind]. rewrite IH. unfold extended. cbn [so_scalars so_fermions so_exotic so_eps]. now rewrite <- app_assoc.
  - destruct Px as [L K]. rewrite (is_boson_ok x L). cbn [bind]. apply has_derivs_iff in Hd as Hd'. rewrite Hd', (K Hd), (proj2 (bosonb_spec x) (scalar_boson x Hs)), Hy. cbn [andb negb bind].
    rewrite (is_scalar_ok x L), (proj2 (scalarb_iff x) Hs). cbn [bind]. rewrite IH. unfold extended. cbn [so_scalars so_fermions so_exotic so_eps]. now rewrite <- !app_assoc.
  - destruct Px as [L K]. rewrite (is_boson_ok x L). cbn [bind]. apply has_derivs_iff in Hd as Hd'. rewrite Hd', (proj2 (bosonb_not x) Hf), Hy. cbn [andb negb bind].
    rewrite IH. unfold extended. cbn [so_scalars so_fermions so_exotic so_eps]. now rewrite <- !app_assoc.
  - destruct Px as [L K]. rewrite (is_boson_ok x L). cbn [bind]. rewrite (proj2 (has_derivs_not x) Hd). cbn [andb bind]. rewrite Hc, Hy. cbn [bind]. rewrite Hz. cbn [bind].
    rewrite IH. unfold extended. cbn [so_scalars so_fermions so_exotic so_eps]. now rewrite <- !app_assoc.
  - destruct Px as [L K]. rewrite (is_boson_ok x L). cbn [bind]. rewrite (proj2 (has_derivs_not x) Hd). cbn [andb bind]. rewrite Hc, Hz. cbn [bind].
    rewrite IH. unfold extended. cbn [so_scalars so_fermions so_exotic so_eps]. now rewrite <- !app_assoc.
  - destruct Px as [L K]. rewrite (is_boson_ok x L). cbn [bind]. rewrite (proj2 (has_derivs_not x) Hd). cbn [andb bind]. rewrite (proj2 (bosonb_not x) Hf). cbn [negb].
    destruct Hc as [-> | [-> | ->]]; cbn [bind]; rewrite IH; unfold extended; cbn [so_scalars so_fermions so_exotic so_eps]; now rewrite <- !app_assoc.
  - destruct Px as [L K]. rewrite (is_boson_ok x L). cbn [bind]. rewrite (proj2 (has_derivs_not x) Hd). cbn [andb bind]. rewrite (proj2 (bosonb_spec x) (scalar_boson x Hs)). cbn [negb].
    rewrite (is_scalar_ok x L), (proj2 (scalarb_iff x) Hs). destruct Hc as [-> | [-> | ->]]; cbn [bind]; rewrite IH; unfold extended; cbn [so_scalars so_fermions so_exotic so_eps]; now rewrite <- !app_assoc.
  - destruct Px as [L K]. rewrite (is_boson_ok x L). cbn [bind]. rewrite (proj2 (has_derivs_not x) Hd). cbn [andb bind]. rewrite (proj2 (bosonb_spec x) Hb). cbn [negb].
    rewrite (is_scalar_ok x L), (proj2 (scalarb_not x) Hn). destruct Hc as [-> | [-> | ->]]; cbn [bind]; apply IH.
Qed.

Lemma stuck_fold op e acc : Forall processable op -> stuck_at op e -> foldM sort_tensor op acc = Err e.
Proof.
  intros P (pre & x & post & S & F & X & E & -> & St & H). apply Forall_app in P as [P1 P2]. rewrite ProofsRegistry.foldM_app, (sorted_fold _ _ _ _ _ St P1). cbn [bind foldM sort_tensor].
  pose proof (Forall_inv P2) as [L K]. rewrite (is_boson_ok x L). cbn [bind]. destruct H as [[Hd Hs]|[(Hd & b & Hc & H)|(Hd & Hc & Hz)]].
  - apply has_derivs_iff in Hd as Hd'. rewrite Hd', (K Hd), Hs. destruct (bosonb x); reflexivity.
  - rewrite (proj2 (has_derivs_not x) Hd). cbn [andb bind]. rewrite Hc. destruct H as [->|(y & -> & Z)]; [reflexivity|]. cbn [bind]. now rewrite Z.
  - rewrite (proj2 (has_derivs_not x) Hd). cbn [andb bind]. rewrite Hc, Hz. reflexivity.
Qed.

(** ** Products *)

Lemma product_cnormalise l : product l (cnormalise l).
Proof. unfold product. rewrite cnormalise_eq. assert (E : forall t, factor_position t = class_rank t) by (intros [x|s]; reflexivity).
  pose proof (sort_ordered class_rank l) as [H1 H2]. split.
  - exact H1.
  - exact H2.
Qed.

Lemma spinless_filter t l : spinor_type t -> spinless l -> filter (has_type t) l = [].
Proof.
  intros T F. induction F as [|i l N F IH]; [reflexivity|]. cbn [filter]. destruct (has_type t i) eqn:E; [|exact IH].
  apply has_type_iff in E. congruence.
Qed.

(** one factor with spinor indices *)
Lemma one_carrier {A B} (g : A -> list B) a r l : Permutation (a :: r) l -> (forall x, In x r -> g x = []) -> flat_map g l = g a.
Proof.
  intros P N. destruct (Permutation_vs_cons_inv (Permutation_sym P)) as (l1 & l2 & ->).
  assert (Q : Permutation r (l1 ++ l2)) by (eapply Permutation_cons_app_inv; exact P).
  assert (Z : forall l', incl l' (l1 ++ l2) -> flat_map g l' = []).
  { induction l' as [|x l' IH]; intros I; [reflexivity|]. cbn [flat_map]. rewrite IH by (intros y Y; apply I; now right).
    rewrite N; [reflexivity|]. eapply Permutation_in; [apply Permutation_sym; exact Q|]. apply I. now left. }
  rewrite flat_map_app. cbn [flat_map]. rewrite !Z, app_nil_r; [reflexivity|intros y Y; apply in_app_iff; auto|intros y Y; apply in_app_iff; auto].
Qed.

Lemma filter_flat_map {A B} (p : B -> bool) (f : A -> list B) l : filter p (flat_map f l) = flat_map (fun x => filter p (f x)) l.
Proof. induction l as [|x l IH]; [reflexivity|]. cbn [flat_map]. now rewrite filter_app, IH. Qed.

Lemma right_spinors t r rest : spinor_type t -> raised_spinors r -> (forall k, In k rest -> spinless (tensor_indices (erase k))) ->
  by_type t (c_indices (fold_left c_mul rest [KField r])) = spinors t r.
Proof.
  intros T R N. change [KField r] with (cnormalise [KField r]). rewrite fold_c_mul. cbn [app].
  destruct rest as [|k rest]; [cbn; apply by_type_has|].
  set (op := cnormalise (KField r :: k :: rest)). pose proof (cnormalise_perm (KField r :: k :: rest)) as P. fold op in P.
  assert (X : c_indices op = free_indices (cop_erase op)).
  { clearbody op. unfold c_indices. destruct op as [|[y|s] [|u o]]; try reflexivity. apply Permutation_length in P. discriminate P. }
  rewrite X.
  assert (Y : forall t', spinor_type t' -> filter (has_type t') (op_indices (cop_erase op)) = spinors t' r).
  { intros t' T'. unfold op_indices, cop_erase. rewrite flat_map_concat_map, map_map, <- flat_map_concat_map, filter_flat_map.
    rewrite (one_carrier (fun x => filter (has_type t') (tensor_indices (erase x))) (KField r) (k :: rest) op P); [reflexivity|].
    intros x I. apply spinless_filter; auto. }
  rewrite free_raised; [now apply Y|]. intros i I Ti. apply R; [|rewrite Ti; exact T].
  assert (I' : In i (filter (has_type t) (op_indices (cop_erase op)))) by (apply filter_In; split; [exact I|now apply has_type_iff]).
  rewrite Y in I' by exact T. apply filter_In in I'. tauto.
Qed.

Lemma same_slots_iff a b : indices_eqb a b = true <-> same_slots a b.
Proof.
  unfold indices_eqb, same_slots. revert b. induction a as [|i a IH]; intros [|j b]; cbn [list_eqb map]; try (split; [discriminate|discriminate]); [tauto|].
  rewrite andb_true_iff, ProofsContract.slot_eqb, IH. split; [intros [A B]; now rewrite A, B|intros H; split; [exact (f_equal (hd (slot i)) H)|exact (f_equal (@tl _) H)]].
Qed.

(** ** C90 *)

Lemma show_raised i : clean i -> ix_up i = true -> exists a, neg_index i = Ok a /\ show_index a = lit "-" ++ show_index i.
Proof.
  intros C U. destruct (clean_neg i C) as (a & E & Ca & (N & T & Ua)). exists a. split; [exact E|].
  unfold show_index. rewrite Ua, U, N. reflexivity.
Qed.

Lemma lower_ext x f g : (forall t, f t = g t) -> lower_su2 x f = lower_su2 x g.
Proof.
  intros H. unfold lower_su2. cbv zeta.
  rewrite (filter_ext (fun i => negb (f (ix_type i))) (fun i => negb (g (ix_type i)))); [reflexivity|]. intros i. now rewrite H.
Qed.

Section Terms.
  Context (vanishes : cop -> bool).

  Lemma couple_ok S F X E n : couple n F X (left_right (mkSorted S F X E) n).
  Proof.
    unfold left_right. cbn [so_fermions so_exotic].
    destruct X as [|x [|y [|z X]]].
    - cbn [bind]. destruct F as [|f [|g [|h F]]]; try (apply co_none; cbn [List.length]; lia).
      destruct (Nat.eqb_spec n 2); [apply co_both|apply co_none]; cbn [List.length]; lia || reflexivity || auto.
    - destruct F as [|f [|g F]]; cbn [bind]; [now apply co_mixed_not with x|now apply co_mixed|apply co_mixed_not with x; [reflexivity|cbn [List.length]; lia]].
    - cbn [bind]. now apply co_exotic.
    - cbn [bind]. destruct F as [|f [|g [|h F]]]; try (apply co_none; cbn [List.length]; lia).
      destruct (Nat.eqb_spec n 2); [apply co_both|apply co_none]; cbn [List.length]; lia || reflexivity || auto.
  Qed.

  Definition finish (l r : cfield) (rest : cop) : res (str + cop) :=
    let right_ := fold_left c_mul rest [KField r] in
    let lu := by_type Undotted (i_indices (cf_if l)) in
    let ld := by_type Dotted (i_indices (cf_if l)) in
    let ru := by_type Undotted (c_indices right_) in
    let rd := by_type Dotted (c_indices right_) in
    if indices_eqb lu ru && indices_eqb ld rd then
      do p <- lower_su2 l (fun t => itype_eqb t Isospin);
      match snd p with
      | [e] => Ok (inr (c_mul (c_mul right_ (KField (fst p))) (KSym e)))
      | _ => Err AssertionError
      end
    else
      let '(l', r') := match lu with [] => (ld, rd) | _ => (lu, ru) end in
      if negb ((List.length l' =? 1) && (List.length r' =? 1)) then Ok (inl bad_contraction)
      else
        do ns <- mapM neg_index (l' ++ r');
        do e <- eps (join (lit " ") (map show_index ns));
        Ok (inr (c_mul (c_mul right_ (KField l)) (KSym e))).

  Lemma mul_two r rest a b : c_mul (c_mul (fold_left c_mul rest [KField r]) a) b = cnormalise (KField r :: rest ++ [a; b]).
  Proof.
    change (c_mul (c_mul (fold_left c_mul rest [KField r]) a) b) with (fold_left c_mul [a; b] (fold_left c_mul rest (cnormalise [KField r]))).
    rewrite !fold_c_mul. reflexivity.
  Qed.

  Lemma eps_of t i j : clean i -> clean j -> ix_up i = true -> ix_up j = true -> ix_type i = t -> ix_type j = t -> spinor_type t ->
    exists a b, (do ns <- mapM neg_index [i; j]; eps (join (lit " ") (map show_index ns))) = Ok (Metric t [a; b]) /\ counterpart i a /\ counterpart j b.
  Proof.
    intros Ci Cj Ui Uj Ti Tj T. destruct (show_raised i Ci Ui) as (a & Ea & Sa), (show_raised j Cj Uj) as (b & Eb & Sb).
    destruct (eps_minus t i j Ci Cj Ui Uj Ti Tj) as (a' & b' & E & Na & Nb & _); [destruct T; auto|].
    exists a', b'. split; [|auto]. cbn [mapM]. rewrite Ea, Eb. cbn [bind map join]. rewrite Sa, Sb, <- E. f_equal.
  Qed.

  Lemma one_or {A} (l : list A) : (List.length l =? 1) = true <-> exists x, l = [x].
  Proof. rewrite Nat.eqb_eq. destruct l as [|x [|y l]]; cbn; split; try discriminate; try (intros (z & [=])); eauto. Qed.

  Lemma spinors_in t x i : In i (spinors t x) -> In i (indices_of x) /\ ix_type i = t.
  Proof. unfold spinors. rewrite filter_In, has_type_iff. auto. Qed.

  Lemma finish_ok l r rest : clean_field l -> clean_field r -> raised_spinors l -> raised_spinors r ->
    (forall k, In k rest -> spinless (tensor_indices (erase k))) -> coupled l r rest (finish l r rest).
  Proof.
    intros Cl Cr Rl Rr N. unfold finish. cbv zeta. rewrite !(right_spinors _ r rest) by (auto; red; auto).
    rewrite !by_type_has. fold (indices_of l). fold (spinors Undotted l). fold (spinors Dotted l).
    destruct (indices_eqb (spinors Undotted l) (spinors Undotted r) && indices_eqb (spinors Dotted l) (spinors Dotted r)) eqn:Q.
    - apply andb_true_iff in Q as [Q1 Q2]. apply same_slots_iff in Q1, Q2.
      assert (El : lower_su2 l (fun t => itype_eqb t Isospin) = lower_su2 l (fun t => match t with Isospin => true | _ => false end)).
      { apply lower_ext. now intros []. }
      rewrite El. destruct (lower_su2 l _) as [[l' es]|e] eqn:Lw; cbn [bind fst snd].
      + destruct es as [|e [|e' es]]; [now apply (cp_same_not l r rest l' [])| |now apply (cp_same_not l r rest l' (e :: e' :: es))].
        rewrite mul_two. eapply cp_same; eauto. apply product_cnormalise.
      + now apply cp_same_err.
    - assert (Nq : ~ (same_slots (spinors Undotted l) (spinors Undotted r) /\ same_slots (spinors Dotted l) (spinors Dotted r))).
      { rewrite <- !same_slots_iff, <- andb_true_iff. congruence. }
      assert (Fin : forall t i j, spinor_type t -> spinors t l = [i] -> spinors t r = [j] -> exists a b, counterpart i a /\ counterpart j b /\
        (do ns <- mapM neg_index ([i] ++ [j]); do e <- eps (join (lit " ") (map show_index ns)); Ok (inr (c_mul (c_mul (fold_left c_mul rest [KField r]) (KField l)) (KSym e)))) =
        Ok (@inr str cop (cnormalise (KField r :: rest ++ [KField l; KSym (Metric t [a; b])])))).
      { intros t i j T Ei Ej.
        assert (Ii : In i (spinors t l)) by (rewrite Ei; now left). assert (Ij : In j (spinors t r)) by (rewrite Ej; now left).
        apply spinors_in in Ii as [Ii Ti]. apply spinors_in in Ij as [Ij Tj].
        unfold clean_field in Cl, Cr. rewrite Forall_forall in Cl, Cr.
        destruct (eps_of t i j (Cl i Ii) (Cr j Ij)) as (a & b & E & Na & Nb); auto; [apply Rl; auto; now rewrite Ti|apply Rr; auto; now rewrite Tj|].
        exists a, b. split; [exact Na|]. split; [exact Nb|]. cbn [app]. destruct (mapM neg_index [i; j]) as [ns|e]; [|discriminate E]. cbn [bind] in E |- *.
        rewrite E. cbn [bind]. now rewrite mul_two. }
      assert (M : (spinors Undotted l = [] /\ match spinors Undotted l with [] => (spinors Dotted l, spinors Dotted r) | _ :: _ => (spinors Undotted l, spinors Undotted r) end = (spinors Dotted l, spinors Dotted r)) \/
                  (spinors Undotted l <> [] /\ match spinors Undotted l with [] => (spinors Dotted l, spinors Dotted r) | _ :: _ => (spinors Undotted l, spinors Undotted r) end = (spinors Undotted l, spinors Undotted r))).
      { destruct (spinors Undotted l); [left|right]; split; congruence. }
      destruct M as [[Ne ->]|[Ne ->]].
      + destruct ((List.length (spinors Dotted l) =? 1) && (List.length (spinors Dotted r) =? 1)) eqn:O; cbn [negb].
        * apply andb_true_iff in O as [O1 O2]. apply one_or in O1 as (i & Ei). apply one_or in O2 as (j & Ej).
          destruct (Fin Dotted i j) as (a & b & Na & Nb & E); [now right|exact Ei|exact Ej|]. rewrite Ei, Ej, E.
          apply (cp_dotted l r rest i j a b); auto. apply product_cnormalise.
        * apply cp_refused; [exact Nq|]. right. split; [exact Ne|]. unfold single. intros [H1 H2]. apply Nat.eqb_eq in H1, H2. rewrite H1, H2 in O. discriminate O.
      + destruct ((List.length (spinors Undotted l) =? 1) && (List.length (spinors Undotted r) =? 1)) eqn:O; cbn [negb].
        * apply andb_true_iff in O as [O1 O2]. apply one_or in O1 as (i & Ei). apply one_or in O2 as (j & Ej).
          destruct (Fin Undotted i j) as (a & b & Na & Nb & E); [now left|exact Ei|exact Ej|]. rewrite Ei, Ej, E.
          apply (cp_undotted l r rest i j a b); auto. apply product_cnormalise.
        * apply cp_refused; [exact Nq|]. left. split; [exact Ne|]. unfold single. intros [H1 H2]. apply Nat.eqb_eq in H1, H2. rewrite H1, H2 in O. discriminate O.
  Qed.

  Lemma couple_in n F X l r : couple n F X (Ok (l, r)) -> (In l F \/ In l X) /\ (In r F \/ In r X).
  Proof. intros H. inversion H; subst; cbn [In]; auto 6. Qed.

  Theorem C90_terms : forall op, Forall processable op ->
    (derivs_on (cfields op) = 0 -> process_derivative_term vanishes op = Ok (inr op)) /\
    (0 < derivs_on (cfields op) ->
      (forall e, stuck_at op e -> process_derivative_term vanishes op = Err e) /\
      (forall S F X E, sorted_as op S F X E -> Forall workable (F ++ X) -> Forall (fun x => spinless (indices_of x)) S -> Forall (fun s => spinless (symbol_indices s)) E ->
         term_result vanishes (derivs_on (cfields op)) S F X E (process_derivative_term vanishes op)) /\
      ((exists e, stuck_at op e) \/ (exists S F X E, sorted_as op S F X E))).
  Proof.
    intros op P. unfold process_derivative_term. cbv zeta. change (list_sum (map cf_derivs (cfields op))) with (derivs_on (cfields op)).
    set (n := derivs_on (cfields op)). clearbody n. split; [now intros ->|]. intros N. destruct (Nat.eqb_spec n 0); [lia|].
    split; [intros e St; now rewrite (stuck_fold op e _ P St)|]. split.
    2:{ destruct (sort_all op P) as [(S & F & X & E & St & _)|(e & St & _)]; [right|left]; eauto 6. }
    intros S F X E St W WS WE. rewrite (sorted_fold op S F X E St P). cbn [bind]. unfold extended. cbn [so_scalars so_fermions so_exotic so_eps app].
    destruct (Nat.ltb_spec 2 (List.length S)).
    - rewrite c_reduce_ok by (destruct S; [cbn in *; lia|discriminate]). cbn [bind]. destruct (vanishes _) eqn:V; [eapply tr_vanishing|eapply tr_scalars]; eauto; apply product_cnormalise.
    - destruct ((List.length F =? 2) && (n =? 1)) eqn:Q.
      + apply andb_true_iff in Q as [Q1 Q2]. apply Nat.eqb_eq in Q1, Q2. now apply tr_single.
      + assert (Q' : List.length F <> 2 \/ n <> 1).
        { destruct (Nat.eqb_spec (List.length F) 2), (Nat.eqb_spec n 1); cbn in Q; [discriminate Q|auto|auto|auto]. }
        pose proof (couple_ok S F X E n) as Cp. destruct (left_right (mkSorted S F X E) n) as [[l r]|e]; cbn [bind]; [|now apply tr_error].
        apply (tr_fermions vanishes n S F X E l r); auto.
        destruct (couple_in _ _ _ _ _ Cp) as [Il Ir]. rewrite Forall_forall in W.
        destruct (W l) as [Cl Rl]; [apply in_app_iff; exact Il|]. destruct (W r) as [Cr Rr]; [apply in_app_iff; exact Ir|].
        apply (finish_ok l r (map KField S ++ map KSym E)); auto. rewrite Forall_forall in WS, WE.
        intros k K. apply in_app_iff in K as [K|K]; apply in_map_iff in K as (y & <- & Y); [exact (WS y Y)|exact (WE y Y)].
  Qed.

End Terms.

(** ** Every term is checked *)

Lemma assert_ok b u : assert_ b = Ok u -> b = true.
Proof. now destruct b. Qed.

Lemma foldM_unit {A} (f : A -> res unit) l : foldM (fun _ x => f x) l tt = Ok tt <-> forall x, In x l -> f x = Ok tt.
Proof.
  induction l as [|x l IH]; cbn [foldM]; [split; [intros _ y []|reflexivity]|]. split.
  - intros H. destruct (f x) as [[]|e] eqn:E; [|discriminate H]. cbn [bind] in H. intros y [<-|Y]; [exact E|]. now apply IH.
  - intros H. rewrite (H x) by now left. cbn [bind]. apply IH. intros y Y. apply H. now right.
Qed.

Lemma sum_left l a : fold_left Qcplus l a = Qcplus a (fold_right Qcplus (Q2Qc 0) l).
Proof. revert a. induction l as [|x l IH]; intros a; cbn [fold_left fold_right]; [ring|]. rewrite IH. ring. Qed.

Lemma charges_of q l m : mapM (fun x => dgetM str_eqb (cf_charges x) q) l = Ok m <->
  Forall2 (fun x c => dget str_eqb (f_charges (i_field (cf_if x))) q = Some c) l m.
Proof.
  revert m. induction l as [|x l IH]; intros m; cbn [mapM].
  - split; [intros [= <-]; constructor|intros H; now inversion H].
  - unfold dgetM, cf_charges. destruct (dget str_eqb (f_charges (i_field (cf_if x))) q) as [c|] eqn:E; cbn [bind].
    + split.
      * intros H. destruct (mapM _ l) as [m'|] eqn:M; [|discriminate H]. cbn [bind] in H. injection H as <-. constructor; [exact E|]. apply IH. reflexivity || exact M.
      * intros H. inversion H as [|? c' ? m' Hc Hm]; subst. apply IH in Hm. unfold dgetM, cf_charges in Hm. rewrite Hm. cbn [bind]. congruence.
    + split; [discriminate|]. intros H. inversion H; subst. congruence.
Qed.

(** [check_singlet] passes exactly the terms that are neutral and have generation indices only *)
Theorem C90_check : forall t, check_singlet t = Ok tt <-> checked t.
Proof.
  intros t. unfold check_singlet, checked, check_charges. destruct (cfields t) as [|x r] eqn:E.
  - split; [discriminate|]. intros (y & l & H & _). discriminate H.
  - rewrite <- E.
    assert (Z0 : forall (A B : Prop) (p : res unit) (q : res unit), (p = Ok tt <-> A) -> (q = Ok tt <-> B) -> ((do _ <- p; q) = Ok tt <-> A /\ B)).
    { intros A B p q <- <-. destruct p as [[]|e]; cbn [bind]; split; [tauto|tauto|discriminate|intros [X _]; discriminate X]. }
    assert (G : (forall q, In q (map fst (f_charges (i_field (cf_if x)))) -> q <> lit "3b" -> neutral_in q t) /\ (forall i, is_free (cop_erase t) i -> ix_type i = Generation) <->
      exists x0 r0, cfields t = x0 :: r0 /\ (forall q, In q (map fst (f_charges (i_field (cf_if x0)))) -> q <> lit "3b" -> neutral_in q t) /\ (forall i, is_free (cop_erase t) i -> ix_type i = Generation)).
    { split; [intros [H1 H2]; exists x, r; auto|]. intros (y & l & H & H1 & H2). rewrite E in H. injection H as <- <-. auto. }
    rewrite <- G. apply Z0.
    + rewrite foldM_unit. unfold keys, cf_charges at 1. split.
      * intros H q I Nq. specialize (H q I). destruct (mem_by str_eqb q [lit "3b"]) eqn:M.
        { apply (mem_by_In str_decides) in M as [M|[]]. congruence. }
        destruct (mapM _ (cfields t)) as [l|] eqn:L; [|discriminate H]. cbn [bind] in H. apply charges_of in L. exists l. split; [exact L|].
        apply assert_ok in H. rewrite sum_left in H. destruct (Qc_eq_dec _ 0) as [X|]; [|discriminate H]. rewrite Qcplus_0_l in X. exact X.
      * intros H q I. destruct (mem_by str_eqb q [lit "3b"]) eqn:M; [reflexivity|].
        assert (Nq : q <> lit "3b").
        { intros ->. discriminate M. }
        destruct (H q I Nq) as (l & L & Z). apply charges_of in L. rewrite L. cbn [bind]. rewrite sum_left, Z, Qcplus_0_l. now destruct (Qc_eq_dec _ 0).
    + rewrite foldM_unit. split; intros H i I.
      * apply free_indices_spec in I. specialize (H i I). apply assert_ok in H. unfold is_generation in H. now destruct (ix_type i).
      * apply free_indices_spec in I. specialize (H i I). unfold is_generation. now rewrite H.
Qed.

Section Checked.
  Context (vanishes : cop -> bool).

  Lemma check_ok {A} t (k : res A) r : (do _ <- check_singlet t; k) = Ok r -> checked t /\ k = Ok r.
  Proof. destruct (check_singlet t) as [[]|e] eqn:E; [|discriminate]. cbn [bind]. intros H. split; [now apply C90_check|exact H]. Qed.

  Ltac next H := match type of H with bind ?p _ = Ok _ => let v := fresh "v" in let E := fresh "E" in destruct p as [v|?] eqn:E; [|discriminate H]; cbn [bind] in H end.

  Lemma contract_checked fields gauge st x t sp lor st' :
    contract vanishes fields gauge st = Ok (inr (x, t, sp, lor), st') -> checked t.
  Proof.
    unfold contract. destruct (negb _); [discriminate|]. intros H. next H. destruct (negb (fst v)); [discriminate H|]. next H. next H. next H.
    destruct v2 as [[[ex p] mt] s2]. destruct mt as [reason|term]; [discriminate H|]. next H. next H. destruct v3 as [reason|t']; [discriminate H|].
    apply check_ok in H as [C H]. injection H as <- <- <- <- <-. exact C.
  Qed.

  Lemma vertex_checked fields gauge st x t lor st' : contract_vertex vanishes fields gauge st = Ok (inr (x, t, lor), st') -> checked t.
  Proof.
    unfold contract_vertex. intros H. next H. destruct v as [[reason|[[[a b] c] d]] s]; cbn [fst snd] in H; [discriminate H|].
    apply check_ok in H as [C H]. injection H as <- <- <- <-. exact C.
  Qed.

  Lemma last_checked row gauge t lor : last_vertex vanishes row gauge = Ok (inr (t, lor)) -> checked t.
  Proof.
    unfold last_vertex. destruct row as [|x [|y row]]; [discriminate|discriminate|]. intros H. next H. next H. destruct (negb (fst v0)); [discriminate H|].
    next H. next H. destruct v2 as [reason|t']; [discriminate H|]. apply check_ok in H as [C H]. injection H as <- <-. exact C.
  Qed.
End Checked.

Section Invariant.
  Context {B St : Type} (func : list B -> St -> res (B * St)) (Inv : St -> Prop).
  Hypothesis step : forall l st r, Inv st -> func l st = Ok r -> Inv (snd r).

  Lemma rows_invariant_from l : Forall (fun t => forall st r, Inv st -> reduced_row B St func t st = Ok r -> Inv (snd r)) l ->
    forall st r, Inv st -> reduced_rows B St func l st = Ok r -> Inv (snd r).
  Proof.
    induction 1 as [|t l Ht _ IH]; intros st r I; cbn [reduced_rows]; [intros [= <-]; exact I|].
    destruct (reduced_row B St func t st) as [x|] eqn:E; [|discriminate]. cbn [bind].
    destruct (reduced_rows B St func l (snd x)) as [xs|] eqn:E'; [|discriminate]. cbn [bind]. intros [= <-]. cbn [snd]. eapply IH; [|exact E']. eapply Ht; eauto.
  Qed.

  Lemma row_invariant t : forall st r, Inv st -> reduced_row B St func t st = Ok r -> Inv (snd r).
  Proof.
    induction t as [b|l IH] using ptree_ind'; intros st r I; [cbn [reduced_row]; intros [= <-]; exact I|].
    rewrite reduced_row_eq. destruct (reduced_rows B St func l st) as [x|] eqn:E; [|discriminate]. cbn [bind]. apply step. eapply rows_invariant_from; eauto.
  Qed.

  Lemma rows_invariant l st r : Inv st -> reduced_rows B St func l st = Ok r -> Inv (snd r).
  Proof. apply rows_invariant_from. apply Forall_forall. intros t _. apply row_invariant. Qed.
End Invariant.

(** every term of every completion has been checked, whatever the operator *)
Theorem C90_checked : forall vanishes rows gauge g terms edges lorentz st,
  completion vanishes rows gauge g = Ok (inr (terms, edges, lorentz), st) -> Forall checked terms.
Proof.
  intros vanishes rows gauge g terms edges lorentz st. unfold completion, construct_completion.
  destruct (reduced_rows _ _ _ rows _) as [[leaves s]|] eqn:E; [|discriminate]. cbn [bind fst snd].
  assert (I : Forall checked (r_terms _ _ _ _ s)).
  { change s with (snd (leaves, s)).
    refine (rows_invariant (replace_and_mutate cfield cop symbol sstate cfield_eqb (contract_vertex vanishes) gauge g) (fun s => Forall checked (r_terms _ _ _ _ s)) _ rows _ _ _ E); [|constructor].
    clear. intros l st r I. unfold replace_and_mutate. destruct (unpack cfield l) as [x|[fs ns]]; [intros [= <-]; exact I|].
    assert (G : forall fs ns, (do r <- contract_vertex vanishes fs gauge (r_cs cfield cop symbol sstate st);
        match fst r with
        | inl reason => Ok ((inr reason, None), mkR cfield cop symbol sstate (r_terms _ _ _ _ st) (r_edges _ _ _ _ st) (r_lorentz _ _ _ _ st) (snd r))
        | inr (exotic, term, lorentz) =>
          do e <- get_connecting_edge g ns;
          Ok ((inl exotic, Some (fst e)),
              mkR cfield cop symbol sstate (r_terms _ _ _ _ st ++ [term]) (dset cfield_eqb (r_edges _ _ _ _ st) exotic e) (r_lorentz _ _ _ _ st ++ lorentz) (snd r))
        end) = Ok r -> Forall checked (r_terms _ _ _ _ (snd r))).
    { clear fs ns. intros fs ns. destruct (contract_vertex vanishes fs gauge _) as [[[reason|[[ex t] lor]] cs]|] eqn:C; [| |discriminate]; cbn [bind fst snd].
      - intros [= <-]. exact I.
      - destruct (get_connecting_edge g ns) as [e|]; [|discriminate]. cbn [bind]. intros [= <-]. cbn [snd r_terms]. apply Forall_app. split; [exact I|].
        constructor; [|constructor]. eapply vertex_checked. exact C. }
    destruct fs as [|f [|f' fs]]; [discriminate| |apply G]. destruct ns as [|n ns]; [apply G|]. intros [= <-]. exact I. }
  destruct (first_reason cfield leaves) as [reason|fs]; [discriminate|].
  destruct (last_vertex vanishes fs gauge) as [[reason|[t lor]]|] eqn:L; [discriminate| |discriminate]. cbn [bind]. intros [= <- <- <- <-].
  apply Forall_app. split; [exact I|]. constructor; [|constructor]. eapply last_checked. exact L.
Qed.

(** ** No derivatives are left *)

Lemma mk_derivs a x : mk_ifield a = Ok x -> f_derivs (i_field x) = a_derivs a.
Proof.
  unfold mk_ifield. destruct (arg_indices _) as [l|]; [|discriminate]. cbn [bind]. destruct (assert_ _); [|discriminate]. cbn [bind].
  destruct (get_dynkin l); [|discriminate]. cbn [bind]. destruct (mk_field _ _ _ _ _ _ _ _ _ _ _) as [f|] eqn:E; [|discriminate]. cbn [bind]. intros [= <-]. cbn [i_field].
  unfold mk_field in E. destruct (match a_symmetry a with Some s => _ | None => _ end); [|discriminate E]. cbn [bind] in E.
  destruct (match a_latex a with Some s => _ | None => _ end); [|discriminate E]. cbn [bind] in E. destruct (_ && _); [discriminate E|]. injection E as <-. reflexivity.
Qed.

Lemma typed_derivs k label ind ch lx cj sym x : mk_typed k label ind ch lx cj sym = Ok x -> derivs x = 0.
Proof.
  unfold mk_typed. cbv zeta. destruct (arg_indices _) as [l|]; [|discriminate]. cbn [bind]. destruct (match sym with Some s => _ | None => _ end); [|discriminate]. cbn [bind].
  destruct (mk_ifield _) as [y|] eqn:E; [|discriminate]. apply mk_derivs in E. cbn [a_derivs] in E. cbn [bind].
  match goal with |- bind ?a _ = _ -> _ => destruct a; [|discriminate] end. cbn [bind]. intros [= <-]. unfold derivs. cbn [cf_if]. destruct ind; exact E.
Qed.

Lemma call_derivs f s x : call_field f s = Ok x -> f_derivs (i_field x) = f_derivs f.
Proof.
  unfold call_field. destruct (dynkin_ints f) as [l|]; [|discriminate]. cbn [bind]. destruct l as [|a [|b [|c [|d [|e [|]]]]]]; try discriminate.
  destruct (assert_consistent_indices _ _ _); [|discriminate]. cbn [bind]. intros E. now apply mk_derivs in E.
Qed.

Lemma strip_with_derivs x y : strip_derivs_with_indices x = Ok y -> f_derivs (i_field y) = 0.
Proof.
  unfold strip_derivs_with_indices, strip_derivs. destruct (Nat.eqb_spec (f_derivs (i_field x)) 0) as [Z|_].
  - cbn [bind]. now intros [= <-].
  - destruct (f_stripped (i_field x)) as [s|]; [|discriminate]. destruct (mk_field _ _ _ _ _ _ _ _ _ _ _) as [f|] eqn:E; [|discriminate].
    assert (Df : f_derivs f = 0).
    { unfold mk_field in E. cbn [bind] in E. destruct (_ && _); [discriminate E|]. injection E as <-. reflexivity. }
    cbn [bind]. destruct (is_fermion f); [|discriminate]. cbn [bind]. match goal with |- bind ?a _ = _ -> _ => destruct a; [|discriminate] end. cbn [bind].
    intros H. apply call_derivs in H. congruence.
Qed.

Lemma cons_derivs x u y : cons_completion_field x u = Ok y -> derivs y = 0.
Proof.
  unfold cons_completion_field. destruct (is_fermion _) as [[]|]; [| |discriminate]; cbn [bind].
  - destruct (is_real_sm_irrep _) as [[]|]; [| |discriminate]; apply typed_derivs.
  - destruct (is_scalar _) as [[]|]; [|discriminate|discriminate]. cbn [bind]. destruct (is_real_sm_irrep _) as [[]|]; [| |discriminate]; apply typed_derivs.
Qed.

Lemma lower_derivs x sk y es : lower_su2 x sk = Ok (y, es) -> derivs y = 0.
Proof.
  unfold lower_su2. destruct (cf_class x); try discriminate;
    (match goal with |- context [foldM lower_one ?l ?a] => destruct (foldM lower_one l a) as [r|]; [|discriminate] end; cbn [bind];
     destruct (cons_completion_field _ _) as [p|] eqn:E; [|discriminate]; apply cons_derivs in E; cbn [bind]; intros [= <- _]; exact E).
Qed.

Lemma conj_typed_derivs x y : cf_class x <> Plain -> conj_typed x = Ok y -> derivs y = 0.
Proof.
  intros N. unfold conj_typed. destruct (cf_class x); try congruence; (destruct (conj_indices_text _); [|discriminate]; cbn [bind]; apply typed_derivs).
Qed.

Lemma typed_class k label ind ch lx cj sym x : mk_typed k label ind ch lx cj sym = Ok x -> cf_class x = k.
Proof.
  unfold mk_typed. cbv zeta. destruct (arg_indices _) as [l|]; [|discriminate]. cbn [bind]. destruct (match sym with Some s => _ | None => _ end); [|discriminate]. cbn [bind].
  destruct (mk_ifield _) as [y|] eqn:E; [|discriminate]. cbn [bind].
  match goal with |- bind ?a _ = _ -> _ => destruct a; [|discriminate] end. cbn [bind]. now intros [= <-].
Qed.

Lemma sorted_derivs op S F X E : sorted_as op S F X E -> (forall x, In (KField x) op -> 0 < derivs x -> ~ scalar x) ->
  Forall (fun x => derivs x = 0) (S ++ F ++ X).
Proof.
  induction 1 as [|s i r op S F X E Hs Ht H IH|s i r op S F X E Hs Ht H IH|x y op S F X E Hd Hb Hn Hy H IH|x y op S F X E Hd Hs Hy H IH|x y op S F X E Hd Hf Hy H IH|
    x b y z op S F X E Hd Hc Hy Hz H IH|x z op S F X E Hd Hc Hz H IH|x op S F X E Hd Hc Hf H IH|x op S F X E Hd Hc Hs H IH|x op S F X E Hd Hc Hb Hn H IH];
    intros N; try (assert (IH' : Forall (fun x => derivs x = 0) (S ++ F ++ X)) by (apply IH; intros w W; apply N; now right); clear IH); rewrite ?Forall_app in *; auto.
  - destruct IH' as (I1 & I2 & I3). split; [constructor; [now apply strip_with_derivs in Hy|exact I1]|auto].
  - destruct (N x (or_introl eq_refl) Hd Hs).
  - destruct IH' as (I1 & I2 & I3). split; [exact I1|]. split; [constructor; [now apply strip_with_derivs in Hy|exact I2]|auto].
  - destruct IH' as (I1 & I2 & I3). split; [exact I1|]. split; [exact I2|]. constructor; [|exact I3].
    unfold dirac_partner in Hy. cbv zeta in Hy. destruct (swapped_indices _); [|discriminate Hy]. cbn [bind] in Hy. apply typed_class in Hy. apply conj_typed_derivs in Hz; [exact Hz|]. rewrite Hy. discriminate.
  - destruct IH' as (I1 & I2 & I3). split; [exact I1|]. split; [exact I2|]. constructor; [|exact I3]. apply conj_typed_derivs in Hz; [exact Hz|]. rewrite Hc. discriminate.
  - destruct IH' as (I1 & I2 & I3). split; [exact I1|]. split; [constructor; auto|auto].
  - destruct IH' as (I1 & I2 & I3). split; [constructor; auto|auto].
Qed.

Lemma derivs_on_perm l l' : Permutation l l' -> derivs_on (cfields l) = derivs_on (cfields l').
Proof.
  intros P. unfold derivs_on, cfields. apply (Permutation_flat_map (fun t => match t with KField x => [x] | KSym _ => [] end)) in P.
  apply (Permutation_map (fun x => f_derivs (i_field (cf_if x)))) in P. revert P. generalize (map (fun x => f_derivs (i_field (cf_if x))) (flat_map (fun t => match t with KField x => [x] | KSym _ => [] end) l)).
  generalize (map (fun x => f_derivs (i_field (cf_if x))) (flat_map (fun t => match t with KField x => [x] | KSym _ => [] end) l')). intros a b P. unfold list_sum. induction P; cbn [fold_right]; lia.
Qed.

Lemma derivs_on_zero l : (forall x, In (KField x) l -> derivs x = 0) -> derivs_on (cfields l) = 0.
Proof.
  induction l as [|[x|s] l IH]; intros H; [reflexivity| |]; (assert (H' : forall x, In (KField x) l -> derivs x = 0) by (intros w W; apply H; now right); specialize (IH H')).
  - unfold derivs_on, cfields in *. cbn [flat_map app map]. specialize (H x (or_introl eq_refl)). unfold derivs in H. rewrite H. exact IH.
  - exact IH.
Qed.

(** a processed term has no derivatives unless a spin-0 field had *)
Theorem C90_no_derivs : forall vanishes op t, Forall processable op -> (forall x, In (KField x) op -> 0 < derivs x -> ~ scalar x) ->
  process_derivative_term vanishes op = Ok (inr t) -> derivs_on (cfields t) = 0.
Proof.
  intros vanishes op t P N. unfold process_derivative_term. cbv zeta. change (list_sum (map cf_derivs (cfields op))) with (derivs_on (cfields op)).
  destruct (Nat.eqb_spec (derivs_on (cfields op)) 0) as [Z|_]; [intros [= <-]; exact Z|].
  destruct (sort_all op P) as [(S & F & X & E & St & Es)|(e & St & Es)]; rewrite Es; [|discriminate]. cbn [bind]. unfold extended. cbn [so_scalars so_fermions so_exotic so_eps app].
  apply sorted_derivs in St; [|exact N]. rewrite !Forall_app, !Forall_forall in St. destruct St as (DS & DF & DX).
  assert (Rest : forall x, In (KField x) (map KField S ++ map KSym E) -> derivs x = 0).
  { intros x I. apply in_app_iff in I as [I|I]; apply in_map_iff in I as (y & E' & Y); [injection E' as ->; auto|discriminate E']. }
  destruct (2 <? List.length S) eqn:L.
  - rewrite c_reduce_ok by (destruct S; [discriminate L|discriminate]). cbn [bind]. destruct (vanishes _); [discriminate|]. intros [= <-].
    rewrite <- (derivs_on_perm _ _ (cnormalise_perm _)). now apply derivs_on_zero.
  - destruct (_ && _); [discriminate|]. pose proof (couple_ok S F X E (derivs_on (cfields op))) as Cp.
    destruct (left_right _ _) as [[l r]|]; [|discriminate]. cbn [bind]. destruct (couple_in _ _ _ _ _ Cp) as [Il Ir].
    assert (Dl : derivs l = 0) by (destruct Il; auto). assert (Dr : derivs r = 0) by (destruct Ir; auto).
    assert (Fin : forall y e, derivs y = 0 -> derivs_on (cfields (c_mul (c_mul (fold_left c_mul (map KField S ++ map KSym E) [KField r]) (KField y)) (KSym e))) = 0).
    { intros y e Dy. rewrite mul_two, <- (derivs_on_perm _ _ (cnormalise_perm _)). apply derivs_on_zero. intros x I. destruct I as [I|I]; [congruence|].
      apply in_app_iff in I as [I|[I|[I|[]]]]; [auto|congruence|discriminate I]. }
    destruct (_ && _).
    + destruct (lower_su2 l _) as [[l' es]|] eqn:Lw; [|discriminate]. apply lower_derivs in Lw. cbn [bind fst snd]. destruct es as [|e [|]]; [discriminate| |discriminate].
      intros [= <-]. now apply Fin.
    + match goal with |- match ?p with _ => _ end = _ -> _ => destruct p as [a b] end. destruct (negb _); [discriminate|].
      destruct (mapM neg_index (a ++ b)); [|discriminate]. cbn [bind]. destruct (eps _) as [e|]; [|discriminate]. cbn [bind]. intros [= <-]. now apply Fin.
Qed.

(** ** Examples *)

Definition derived_of (label : string) (dynkin : string) (y : Q) (ds : list string) (idx : string) : res cfield :=
  do f <- mk_field (lit label) (lit dynkin) (Some [(lit "y", Q2Qc y)]) false (lit "fermi") None None 1 None 1 0 None;
  do g <- foldM (fun f d => D f (lit d)) ds f;
  do x <- call_field g (lit idx);
  Ok (mkCF Plain x).

(** what is shown of a factor: label and indices *)
Definition shown_factor (t : ctensor) : str * list str :=
  match t with KField x => (f_label (i_field (cf_if x)), map show_index (indices_of x)) | KSym s => ([], map show_index (symbol_indices s)) end.
Definition shown_term (r : res (str + cop)) : res (str + list (str * list str)) :=
  do x <- r; Ok (match x with inl s => inl s | inr t => inr (map shown_factor t) end).
Definition shown_vertex (r : res ((str + cfield * cop * list symbol * list symbol) * sstate)) : res (str + list (str * list str)) :=
  do x <- r; Ok (match fst x with inl s => inl s | inr (_, t, _, _) => inr (map shown_factor t) end).

(** the scalar with two fields of the operator, both with derivatives; a lepton with derivative, the Higgs and the exotic fermion with
    the indices of their product *)
Definition oDHDH : cop :=
  match fields_of [derived_of "H" "00001" (1#2) ["11"%string] "u0 d0 i0"; derived_of "H" "00001" (1#2) ["11"%string] "u1 d1 i1"; plain "S" "i2" (1#2) 0],
        mapM (fun s => eps (lit s)) ["-u0 -u1"; "-d0 -d1"; "-i0 -i1"]%string with
  | [a; b; c], Ok [d; e; f] => [KField a; KField b; KField c; KSym d; KSym e; KSym f]
  | _, _ => []
  end.

Definition exotic_fermion : res cfield :=
  do x <- mk_ifield (mkIargs (lit "F") (AStr (lit "d2 i2")) (Some [(lit "y", Q2Qc (1#3))]) false None (lit "0") None 1 0 None);
  cons_completion_field x None.

Definition oDLF : cop :=
  match fields_of [derived_of "L" "10001" (-1#2) ["01"%string] "d0 i0"; plain "S" "i1" (1#6) 0; exotic_fermion],
        mapM (fun s => eps (lit s)) ["-d0 -d2"; "-i0 -i2"]%string with
  | [a; b; c], Ok [d; e] => [KField a; KField b; KField c; KSym d; KSym e]
  | _, _ => []
  end.

Definition processableb (t : ctensor) : bool :=
  match t with
  | KField x => legitb x && ((derivs x =? 0) || match cf_class x with Plain => true | _ => false end)
  | KSym s => match symbol_indices s with [] => false | _ => true end
  end.

Lemma processableb_ok op : forallb processableb op = true -> Forall processable op.
Proof.
  rewrite forallb_forall. intros H. apply Forall_forall. intros t I. specialize (H t I). destruct t as [x|s]; cbn [processable processableb] in *.
  - apply andb_true_iff in H as [L H]. split; [now apply legitb_ok|]. intros D. apply orb_true_iff in H as [H|H]; [apply Nat.eqb_eq in H; lia|]. now destruct (cf_class x).
  - now destruct (symbol_indices s).
Qed.

Example C90_ex1 : Forall processable oDHDH /\ derivs_on (cfields oDHDH) = 2 /\
  shown_term (process_derivative_term (fun _ => false) oDHDH) =
  Ok (inr [(lit "H", [lit "i0"]); (lit "H", [lit "i1"]); (lit "S", [lit "i2"]); ([], [lit "-i0"; lit "-i1"])]).
Proof. split; [apply processableb_ok; vm_compute; reflexivity|]. split; vm_compute; reflexivity. Qed.

Example C90_ex2 : Forall processable oDLF /\ derivs_on (cfields oDLF) = 1 /\
  shown_term (process_derivative_term (fun _ => false) oDLF) =
  Ok (inr [(lit "L", [lit "u0" ++ [partial_sign]; lit "i0"]); (lit "S", [lit "i1"]); ([], [lit "-i0"; lit "-i2"]); ([], [lit "-u2"; lit "-u0" ++ [partial_sign]]); (lit "F~" ++ [dagger], [lit "u2"; lit "i2"])]).
Proof. split; [apply processableb_ok; vm_compute; reflexivity|]. split; vm_compute; reflexivity. Qed.

(** the conditions on the sorted fields *)
Definition workableb (x : cfield) : bool := forallb cleanb (indices_of x) && forallb (fun i => negb (has_type Undotted i || has_type Dotted i) || ix_up i) (indices_of x).
Definition spinlessb (l : list index) : bool := forallb (fun i => negb (has_type Undotted i || has_type Dotted i)) l.
Definition sortedb (op : cop) : bool :=
  match foldM sort_tensor op (mkSorted [] [] [] []) with
  | Ok so => forallb workableb (so_fermions so ++ so_exotic so) && forallb (fun x => spinlessb (indices_of x)) (so_scalars so) && forallb (fun s => spinlessb (symbol_indices s)) (so_eps so)
  | Err _ => false
  end.

Lemma spinlessb_ok l : spinlessb l = true -> spinless l.
Proof.
  unfold spinlessb, spinless. rewrite forallb_forall. intros H. apply Forall_forall. intros i I T. specialize (H i I). apply negb_true_iff, orb_false_iff in H as [H1 H2].
  destruct T as [T|T]; apply has_type_iff in T; congruence.
Qed.

Lemma sortedb_ok op : Forall processable op -> sortedb op = true -> exists S F X E, sorted_as op S F X E /\ Forall workable (F ++ X) /\
  Forall (fun x => spinless (indices_of x)) S /\ Forall (fun s => spinless (symbol_indices s)) E.
Proof.
  intros P. unfold sortedb. destruct (sort_all op P) as [(S & F & X & E & St & ->)|(e & St & ->)]; [|discriminate]. cbn [extended so_scalars so_fermions so_exotic so_eps app].
  rewrite !andb_true_iff, !forallb_forall. intros [[H1 H2] H3]. exists S, F, X, E. split; [exact St|]. split; [|split].
  - apply Forall_forall. intros x I. specialize (H1 x I). apply andb_true_iff in H1 as [C R]. rewrite forallb_forall in C, R. split.
    + apply Forall_forall. intros i Ii. apply cleanb_ok, C, Ii.
    + intros i Ii T. specialize (R i Ii). apply orb_true_iff in R as [R|R]; [|exact R]. apply negb_true_iff, orb_false_iff in R as [R1 R2].
      destruct T as [T|T]; apply has_type_iff in T; congruence.
  - apply Forall_forall. intros x I. apply spinlessb_ok, H2, I.
  - apply Forall_forall. intros x I. apply spinlessb_ok, H3, I.
Qed.

Example C90_ex4 : exists S F X E, sorted_as oDLF S F X E /\ Forall workable (F ++ X) /\
  Forall (fun x => spinless (indices_of x)) S /\ Forall (fun s => spinless (symbol_indices s)) E.
Proof. apply sortedb_ok; [apply processableb_ok|]; vm_compute; reflexivity. Qed.

(** two leptons and one derivative *)
Example C90_ex3 : shown_vertex (contract (fun _ => false) (fields_of [derived_of "L" "10001" (-1#2) ["01"%string] "d0 i0"; plain "L" "d1 i1" (-1#2) 0]) [] start_symbols)
  = Ok (inl (lit "Not allowed contraction")).
Proof. vm_compute. reflexivity. Qed.

(** ** Where processing fails *)

(** a field with derivatives and spin zero is kept twice, so that the term is no singlet *)
Theorem C90_box_refuted : exists fs, vertex fs /\ derivs_on fs = 2 /\ contract (fun _ => false) fs [] start_symbols = Err AssertionError.
Proof.
  exists (fields_of [derived_of "H" "00001" (1#2) ["11"%string; "00"%string] "i0"; plain "H" "i1" (1#2) 0]).
  split; [apply vertexb_ok; vm_compute; reflexivity|]. split; vm_compute; reflexivity.
Qed.

(** a vector without derivatives is left out, although its charge stays *)
Theorem C90_vector_refuted : exists op, Forall processable op /\ derivs_on (cfields op) = 2 /\
  shown_term (process_derivative_term (fun _ => false) op) = Ok (inr [(lit "H", [lit "i0"]); (lit "H", [lit "i1"]); (lit "S", [lit "i2"])]) /\
  exists x, In (KField x) op /\ f_label (i_field (cf_if x)) = lit "V".
Proof.
  exists (map KField (fields_of [derived_of "H" "00001" (1#2) ["11"%string] "u0 d0 i0"; derived_of "H" "00001" (1#2) ["11"%string] "u1 d1 i1"; plain "S" "i2" (1#2) 0; plain "V" "u3 d3" (1#2) 0])).
  split; [apply processableb_ok; vm_compute; reflexivity|]. split; [vm_compute; reflexivity|]. split; [vm_compute; reflexivity|].
  match goal with |- context [map KField ?l] => set (fs := l) end. exists (nth 3 fs no_field). split; [|vm_compute; reflexivity].
  apply in_map. apply nth_In. vm_compute. lia.
Qed.

(** an exotic Majorana fermion with colour: its conjugate carries the colour indices at the other height *)
Theorem C90_majorana_refuted : exists fs gauge, vertex fs /\ derivs_on fs = 1 /\ contract (fun _ => false) fs gauge start_symbols = Err AssertionError.
Proof.
  exists (fields_of [derived_of "A" "00111" (1#2) ["11"%string] "u0 d0 c0 -c1 i0"; plain "L" "u1 i1" (-1#2) 0]), (got [] (mapM (fun s => eps (lit s)) ["-i0 -i1"]%string)).
  split; [apply vertexb_ok; vm_compute; reflexivity|]. split; vm_compute; reflexivity.
Qed.

(** a last vertex whose processed term vanishes: the message refers to a name that is not defined *)
Theorem C90_last_refuted : exists fs gauge, vertex fs /\ derivs_on fs = 2 /\
  (exists t, shown_term (do v <- last_vertex (fun _ => false) fs gauge; Ok (match v with inl s => inl s | inr p => inr (fst p) end)) = Ok (inr t)) /\
  last_vertex (fun _ => true) fs gauge = Err NameError.
Proof.
  exists (fields_of [derived_of "L" "10001" (-1#2) ["01"%string] "d0 i0"; derived_of "L" "10001" (1#2) ["01"%string] "d1 i1"]), (got [] (mapM (fun s => eps (lit s)) ["-i0 -i1"]%string)).
  split; [apply vertexb_ok; vm_compute; reflexivity|]. split; [vm_compute; reflexivity|]. split; [eexists; vm_compute; reflexivity|vm_compute; reflexivity].
Qed.

Print Assumptions C90_terms.
Print Assumptions C90_check.
Print Assumptions C90_checked.
Print Assumptions C90_no_derivs.
Print Assumptions C90_box_refuted.
Print Assumptions C90_vector_refuted.
Print Assumptions C90_majorana_refuted.
Print Assumptions C90_last_refuted.
