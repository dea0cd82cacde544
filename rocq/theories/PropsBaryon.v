(** * PropsBaryon: the baryon number of the exchanged fields (C109) *)

From Coq Require Import Ascii String List Bool Arith NArith ZArith QArith Qcanon Lia Permutation.
From Verif Require Import Base BaseFacts Show ModelFunctions ProofsFunctions ModelIndex SpecIndex ProofsIndex PropsIndex ModelField SpecField
  ProofsField ProofsField2 PropsField PropsField2 ModelContract SpecContract ProofsContract PropsContract PropsContract3 ModelPartition SpecPartition
  PropsPartition PropsPartition3 DataTopology PropsTopology ModelExotic SpecExotic ProofsExotic PropsExotic ProofsExotic2 PropsExotic2 PropsExotic3 SpecCompletion PropsCompletion SpecCuts ProofsCuts
  ModelInfo ModelOperators SpecOperators ProofsOperators PropsOperators PropsOperators2 PropsCuts.
From Verif Require Spec.
Import ListNotations.
Local Open Scope nat_scope.

(** ** Lines are made of fields of the operator *)

Lemma beyond_part {B} : forall (t : ptree B) L, In L (beyond t) -> exists O, Permutation (leaves_of t) (L ++ O).
Proof.
  fix IH 1. intros [f|l] L I; [destruct I|]. cbn [beyond] in I. apply in_app_or in I as [I|I].
  - cbn [leaves_of]. revert I. induction l as [|t l IHl]; intros I; [destruct I|]. cbn [flat_map] in I. apply in_app_or in I as [I|I].
    + destruct (IH t L I) as (O & P). exists (O ++ flat_map leaves_of l). cbn [flat_map]. rewrite app_assoc. now apply Permutation_app_tail.
    + destruct (IHl I) as (O & P). exists (leaves_of t ++ O). cbn [flat_map]. rewrite P. rewrite !app_assoc. apply Permutation_app_tail, Permutation_app_comm.
  - exists []. rewrite app_nil_r. cbn [leaves_of]. destruct l as [|t [|u l]]; [destruct I|destruct I|]. destruct I as [<-|[]]. reflexivity.
Qed.

Lemma beyond_all {B} (rows : list (ptree B)) L : In L (flat_map beyond rows) -> exists O, Permutation (flat_map leaves_of rows) (L ++ O).
Proof.
  intros I. induction rows as [|t l IHl]; [destruct I|]. cbn [flat_map] in I. apply in_app_or in I as [I|I].
  - destruct (beyond_part t L I) as (O & P). exists (O ++ flat_map leaves_of l). cbn [flat_map]. rewrite app_assoc. now apply Permutation_app_tail.
  - destruct (IHl I) as (O & P). exists (leaves_of t ++ O). cbn [flat_map]. rewrite P. rewrite !app_assoc. apply Permutation_app_tail, Permutation_app_comm.
Qed.

(** ** All lines *)

(** C109 (1): if no fields of the operator are together neutral but for the baryon number, the field of every inner line has
    as baryon number the sum of the baryon numbers of the fields beyond it, and so has every exotic field; and in every term of
    the Lagrangian the baryon numbers add up to zero. *)
Theorem C109_lines : forall vanishes fs es g rows ns edges terms labelled lor st,
  invariant_operator fs es -> Forall single_indices fs -> Permutation fs (map fst (flat_map leaves_of rows)) ->
  joins_all g (map (tree_map snd) rows) ns edges -> branched_root (cfield * N) fermion_leaf rows -> list_sum (map vertices rows) <= 15 ->
  completion vanishes (map (embed cfield) rows) es g = Ok (inr (terms, labelled, lor), st) -> quiet fs ->
  (forall L, In L (flat_map beyond rows) -> exists x y, In y (map fst labelled) /\ (x = y \/ cfield_eqb x y = true) /\
     hypercharge x = sum_of hypercharge (map fst L) /\ baryon x = sum_of baryon (map fst L)) /\
  (forall y, In y (map fst labelled) -> exists L, In L (flat_map beyond rows) /\
     hypercharge y = sum_of hypercharge (map fst L) /\ baryon y = sum_of baryon (map fst L)) /\
  (forall t, In t terms -> sum_of baryon (cfields t) = Q2Qc 0).
Proof.
  intros vanishes fs es g rows ns edges terms labelled lor st Inv Sing P J B V Ec Q.
  destruct (lines_and_terms vanishes fs es g rows ns edges terms labelled lor st Inv Sing P J B V Ec) as (H1 & H2 & H3).
  assert (Ql : forall L, In L (flat_map beyond rows) -> quiet (map fst L)).
  { intros L I. destruct (beyond_all rows L I) as (O & PO). apply (quiet_part fs (map fst L) (map fst O)); [|exact Q]. rewrite P, <- map_app. now apply Permutation_map. }
  split; [|split; [|now apply H3]].
  - intros L I. destruct (H1 L I) as (x & y & Iy & E & ((C1 & C2) & _)). exists x, y. split; [exact Iy|]. split; [exact E|]. split; [exact C1|]. now apply C2, Ql.
  - intros y Y. destruct (H2 y Y) as (L & I & ((C1 & C2) & _)). exists L. split; [exact I|]. split; [exact C1|]. now apply C2, Ql.
Qed.

(** C109 (2): the operator then conserves the baryon number; fields that carry what flows from the same fields have the same
    baryon number, and what flows the other way is the opposite. *)
Theorem C109_same : forall fs es L L' O x x', invariant_operator fs es -> Permutation fs (L ++ O) -> Permutation L L' -> quiet fs ->
  carries_from es L x -> carries_from es L' x' ->
  sum_of baryon fs = Q2Qc 0 /\ baryon x = baryon x' /\ forall z, carries_from es O z -> baryon z = (- baryon x)%Qc.
Proof.
  intros fs es L L' O x x' Inv Pf P Q ((_ & Hx) & _) ((_ & Hx') & _).
  assert (Z : sum_of baryon fs = Q2Qc 0) by (apply (Q fs []); [now rewrite app_nil_r|exact (io_neutral _ _ Inv)]).
  assert (QL : quiet L) by (eapply quiet_part; eauto). split; [exact Z|]. split.
  - rewrite Hx by exact QL. rewrite Hx' by (apply (quiet_part L L' []); [now rewrite app_nil_r|exact QL]). now apply sum_of_perm.
  - intros z ((_ & Hz) & _). rewrite Hz by (apply (quiet_part fs O L); [rewrite Pf; apply Permutation_app_comm|exact Q]). rewrite Hx by exact QL.
    rewrite (sum_of_perm baryon fs (L ++ O) Pf), sum_of_app in Z.
    assert (E : sum_of baryon O = ((sum_of baryon L + sum_of baryon O) - sum_of baryon L)%Qc) by ring. rewrite E, Z. ring.
Qed.

(** ** The shipped operators *)

Fixpoint part_sums (l : list (Z * Z)) : list (Z * Z) :=
  match l with [] => [(0, 0)%Z] | (a, b) :: r => let s := part_sums r in s ++ map (fun p => (fst p + a, snd p + b)%Z) s end.
Definition six_times (q : Qc) : Z := Qnum (this (Q2Qc 6 * q)%Qc).
Definition sixth (q : Qc) : bool := Pos.eqb (Qden (this (Q2Qc 6 * q)%Qc)) 1.
Definition sixes (x : cfield) : Z * Z := (six_times (hypercharge x), six_times (baryon x)).
Definition quietb (l : list cfield) : bool :=
  forallb (fun x => sixth (hypercharge x) && sixth (baryon x)) l &&
  forallb (fun p => negb (fst p =? 0)%Z || (snd p =? 0)%Z) (part_sums (map sixes l)).

Definition zz_sum (l : list (Z * Z)) : Z * Z := fold_right (fun p s => (fst p + fst s, snd p + snd s)%Z) (0, 0)%Z l.

Lemma zz_sum_perm l l' : Permutation l l' -> zz_sum l = zz_sum l'.
Proof. induction 1 as [|x l l' P IH|x y l|l l' l2 P1 IH1 P2 IH2]; cbn [zz_sum fold_right fst snd]; [reflexivity|unfold zz_sum in *; now rewrite IH|f_equal; lia|congruence]. Qed.

Lemma part_sums_all l : forall M R, Permutation l (M ++ R) -> In (zz_sum M) (part_sums l).
Proof.
  induction l as [|[a b] l IH]; intros M R P.
  - apply Permutation_nil in P. apply app_eq_nil in P as [-> _]. now left.
  - cbn [part_sums]. assert (I : In (a, b) (M ++ R)) by (eapply Permutation_in; [exact P|now left]). apply in_or_app. apply in_app_or in I as [I|I]; apply in_split in I as (u & v & ->).
    + right. apply in_map_iff. exists (zz_sum (u ++ v)). split.
      * rewrite <- (zz_sum_perm _ _ (Permutation_middle u v (a, b))). cbn [zz_sum fold_right fst snd]. fold (zz_sum (u ++ v)). f_equal; lia.
      * apply (IH (u ++ v) R). rewrite <- app_assoc in *. cbn [app] in P. now apply Permutation_cons_app_inv in P.
    + left. apply (IH M (u ++ v)). rewrite app_assoc in *. now apply Permutation_cons_app_inv in P.
Qed.

Lemma sixth_ok q : sixth q = true -> (Q2Qc 6 * q)%Qc = Q2Qc (inject_Z (six_times q)).
Proof.
  unfold sixth, six_times. intros H. apply Pos.eqb_eq in H. apply Qc_is_canon. set (c := (Q2Qc 6 * q)%Qc) in *. change (this (Q2Qc (inject_Z (Qnum c)))) with (Qred (inject_Z (Qnum c))). eapply Qeq_trans; [|apply Qeq_sym, Qred_correct].
  unfold inject_Z, Qeq. cbn [Qnum Qden]. now rewrite H.
Qed.

Lemma inject_add a b : (Q2Qc (inject_Z a) + Q2Qc (inject_Z b))%Qc = Q2Qc (inject_Z (a + b)).
Proof.
  apply Qc_is_canon. unfold Qcplus. change (Qred (Qred (inject_Z a) + Qred (inject_Z b)) == Qred (inject_Z (a + b)))%Q.
  eapply Qeq_trans; [apply Qred_correct|]. eapply Qeq_trans; [apply Qplus_comp; apply Qred_correct|]. apply Qeq_sym. eapply Qeq_trans; [apply Qred_correct|]. rewrite inject_Z_plus. apply Qeq_refl.
Qed.

Lemma sum_six (q : cfield -> Qc) (pick : Z * Z -> Z) M : (forall x, In x M -> sixth (q x) = true /\ pick (sixes x) = six_times (q x)) ->
  (pick (0, 0)%Z = 0%Z) -> (forall p s, pick (fst p + fst s, snd p + snd s)%Z = (pick p + pick s)%Z) ->
  (Q2Qc 6 * sum_of q M)%Qc = Q2Qc (inject_Z (pick (zz_sum (map sixes M)))).
Proof.
  intros H P0 Pa. induction M as [|x M IH].
  - cbn [map zz_sum fold_right]. rewrite P0. apply Qc_is_canon. reflexivity.
  - cbn [map zz_sum fold_right]. fold (zz_sum (map sixes M)). rewrite Pa. cbn [sum_of fold_right]. fold (sum_of q M). rewrite Qcmult_plus_distr_r, IH by (intros y I; apply H; now right).
    destruct (H x (or_introl eq_refl)) as [S ->]. rewrite (sixth_ok _ S). apply inject_add.
Qed.

Lemma inject_zero z : Q2Qc (inject_Z z) = Q2Qc 0 <-> z = 0%Z.
Proof.
  split; [|intros ->; reflexivity]. intros H. assert (E : (inject_Z z == 0)%Q) by (eapply Qeq_trans; [apply Qeq_sym, Qred_correct|]; change (Qred (inject_Z z)) with (this (Q2Qc (inject_Z z))); rewrite H; reflexivity).
  unfold Qeq, inject_Z in E. cbn in E. lia.
Qed.

Lemma quietb_ok l : quietb l = true -> quiet l.
Proof.
  unfold quietb. rewrite andb_true_iff, !forallb_forall. intros [S H] M R P E.
  assert (SM : forall x, In x M -> sixth (hypercharge x) = true /\ sixth (baryon x) = true).
  { intros x I. apply andb_true_iff, S. eapply Permutation_in; [symmetry; exact P|]. apply in_or_app. now left. }
  pose proof (part_sums_all (map sixes l) (map sixes M) (map sixes R)) as I. rewrite <- map_app in I. specialize (I (Permutation_map sixes P)). apply H in I.
  pose proof (sum_six hypercharge fst M (fun x I => conj (proj1 (SM x I)) eq_refl) eq_refl (fun p s => eq_refl)) as E1.
  pose proof (sum_six baryon snd M (fun x I => conj (proj2 (SM x I)) eq_refl) eq_refl (fun p s => eq_refl)) as E2.
  rewrite E in E1. assert (Z1 : fst (zz_sum (map sixes M)) = 0%Z) by (apply inject_zero; rewrite <- E1; apply Qc_is_canon; reflexivity).
  rewrite Z1 in I. cbn [Z.eqb negb orb] in I. apply Z.eqb_eq in I. rewrite I in E2.
  destruct (Qcmult_integral _ _ E2) as [X|X]; [discriminate X|exact X].
Qed.

Lemma shipped_quiet : match eff_operators with Ok ops => forallb (fun kop => quietb (plain_fields (snd kop))) ops | Err _ => false end = true.
Proof. vm_compute. reflexivity. Qed.

(** C109 (3): so it is for all completions of all shipped operators *)
Theorem C109_shipped : forall vanishes, exists ops, eff_operators = Ok ops /\
  forall k op, In (k, op) ops -> quiet (plain_fields op) /\ exists n, n <= 2 /\
    forall st, (n <> 2 \/ st Colour < 209 \/ forall i, In i (op_indices op) -> ix_name i <> fresh_name Colour (st Colour)) ->
      exists nb nf tops cops cs st', shipped nb nf = Ok tops /\ colour_singlets true [op] st = Ok (cops, st') /\ completions_of vanishes shipped op st = Ok (cs, st') /\
        forall c, In c cs -> exists t rows r, In t tops /\ In r cops /\ cm_partition c = Tp (map (tree_map (fun x : ifield * N => (Placed (fst x), snd x))) rows) /\
          made_from vanishes r t (cm_partition c) c /\ Permutation (indexed_fields op) (map fst (flat_map leaves_of rows)) /\
          let sums L x := let l := map (fun y : ifield * N => mkCF Plain (fst y)) L in hypercharge x = sum_of hypercharge l /\ baryon x = sum_of baryon l in
          (forall L, In L (flat_map beyond rows) -> exists x y, In y (cm_exotics c) /\ (x = y \/ cfield_eqb x y = true) /\ sums L x) /\
          (forall y, In y (cm_exotics c) -> exists L, In L (flat_map beyond rows) /\ sums L y) /\
          (forall u, In u (cm_terms c) -> sum_of baryon (cfields u) = Q2Qc 0).
Proof.
  intros vanishes. destruct (C107_shipped vanishes) as (ops & E & H). pose proof shipped_quiet as S. rewrite E in S. exists ops. split; [exact E|]. intros k op I.
  assert (Q : quiet (plain_fields op)) by exact (quietb_ok _ (proj1 (forallb_forall _ _) S _ I)). split; [exact Q|].
  destruct (H k op I) as (n & L & A). exists n. split; [exact L|]. intros st Hs. destruct (A st Hs) as (nb & nf & tops & cops & cs & st' & E1 & E2 & E3 & B).
  exists nb, nf, tops, cops, cs, st'. split; [exact E1|]. split; [exact E2|]. split; [exact E3|]. intros c Ic. destruct (B c Ic) as (t & rows & r & It & Ir & Ep & Mf & P & H1 & H2 & H3).
  exists t, rows, r. split; [exact It|]. split; [exact Ir|]. split; [exact Ep|]. split; [exact Mf|]. split; [exact P|]. cbv zeta.
  assert (Ql : forall L, In L (flat_map beyond rows) -> quiet (map (fun y : ifield * N => mkCF Plain (fst y)) L)).
  { intros M IM. destruct (beyond_all rows M IM) as (O & PO). apply (quiet_part (plain_fields op) _ (map (fun y : ifield * N => mkCF Plain (fst y)) O)); [|exact Q].
    unfold plain_fields. rewrite <- map_app. apply (Permutation_map (mkCF Plain)) in P. rewrite P, map_map. now apply Permutation_map. }
  split; [|split; [|now apply H3]].
  - intros M IM. destruct (H1 M IM) as (x & y & Iy & Exy & ((C1 & C2) & _)). exists x, y. split; [exact Iy|]. split; [exact Exy|]. split; [exact C1|]. now apply C2, Ql.
  - intros y Y. destruct (H2 y Y) as (M & IM & ((C1 & C2) & _)). exists M. split; [exact IM|]. split; [exact C1|]. now apply C2, Ql.
Qed.

(** ** Cases *)

(** a field with hypercharge and three times the baryon number *)
Definition baryonic (label idx : string) (y b : Q) : res cfield :=
  do x <- mk_ifield (mkIargs (lit label) (AStr (lit idx)) (Some [(lit "y", Q2Qc y); (lit "3b", Q2Qc b)]) false None (lit "fermi") None 1 0 None);
  Ok (mkCF Plain x).

(** two conjugate up and four conjugate down quarks: changes the baryon number by two *)
Definition nn_fields := PropsExotic.fields_of [baryonic "uc" "d0 c0" (2#3) 1; baryonic "dc" "d1 c1" (-1#3) 1; baryonic "dc" "d2 c2" (-1#3) 1;
  baryonic "uc" "d3 c3" (2#3) 1; baryonic "dc" "d4 c4" (-1#3) 1; baryonic "dc" "d5 c5" (-1#3) 1].
Definition nn_eps := symbols_from ["-c0 -c1 -c2"%string; "-c3 -c4 -c5"%string].
Definition nn_leaf (k : nat) : ptree (cfield * N) := Lf (nth k nn_fields no_field, N.of_nat (k + 1)).
Definition nn_rows := [Tp [Tp [nn_leaf 0; nn_leaf 1]; nn_leaf 2]; Tp [nn_leaf 3; nn_leaf 4]; nn_leaf 5].
Definition nn_graph : graph := [(1, 7); (2, 7); (7, 8); (3, 8); (8, 10); (4, 9); (5, 9); (9, 10); (6, 10)]%N.
Definition nn_out := completion (fun _ => false) (map (embed cfield) nn_rows) nn_eps nn_graph.

Lemma nn_lines : forallb (fun L => negb (Qc_eq_bool (sum_of hypercharge (map fst L)) (Q2Qc 0)) || Qc_eq_bool (sum_of baryon (map fst L)) (Q2Qc 3)) (flat_map beyond nn_rows) = true.
Proof. vm_compute. reflexivity. Qed.

Ltac join_all := match goal with
  | |- joins_all _ [] _ _ => apply joins_nil
  | |- joins_all _ (_ :: _) _ _ => eapply joins_cons; [join_all|join_all]
  | |- joins _ (Lf _) _ _ => apply joins_leaf
  | |- joins _ (Tp _) _ _ => eapply joins_many; [join_all|cbn [List.length]; lia|apply (proj1 (C37_connecting_edge _ _ _ _)); reflexivity]
  end.

(** C109, limit: two conjugate up and four conjugate down quarks are invariant and joined as one wants, but three of them are
    neutral and have baryon number one. The Majorana fermion between three and three has the opposite of the baryon number
    that flows into it if its spinor index is dotted, its partner has none, and the baryon numbers in a term do not add up to
    zero; construct_completion raises no exception. *)
Theorem C109_sign_refuted : exists fs es g rows ns edges terms labelled lor st x e L t,
  invariant_operator fs es /\ Forall single_indices fs /\ Permutation fs (map fst (flat_map leaves_of rows)) /\
  joins_all g (map (tree_map snd) rows) ns edges /\ branched_root (cfield * N) fermion_leaf rows /\ list_sum (map vertices rows) <= 15 /\
  completion (fun _ => false) (map (embed cfield) rows) es g = Ok (inr (terms, labelled, lor), st) /\ ~ quiet fs /\
  In (x, e) labelled /\ In L (flat_map beyond rows) /\ carries_from es (map fst L) x /\
  sum_of baryon (map fst L) = Q2Qc 3 /\ baryon x = Q2Qc (-3 # 1) /\ In t terms /\ sum_of baryon (cfields t) = Q2Qc 3.
Proof.
  assert (Inv : invariant_operator nn_fields nn_eps) by (apply invariantb_ok; vm_compute; reflexivity).
  assert (Sing : Forall single_indices nn_fields) by (apply Forall_forall; intros f I; apply singleb_ok; revert f I; apply forallb_forall; vm_compute; reflexivity).
  assert (P : Permutation nn_fields (map fst (flat_map leaves_of nn_rows))) .
  { assert (Six : exists a b c d e f, nn_fields = [a; b; c; d; e; f]) by (remember nn_fields as l eqn:E; vm_compute in E; subst l; repeat eexists).
    unfold nn_rows, nn_leaf. destruct Six as (a & b & c & d & e & f & ->). reflexivity. }
  assert (J : exists ns edges, joins_all nn_graph (map (tree_map snd) nn_rows) ns edges).
  { eexists. eexists. unfold nn_rows, nn_leaf. cbn [map tree_map snd].
    join_all. }
  assert (B : branched_root (cfield * N) fermion_leaf nn_rows) by (apply root_check_ok; vm_compute; reflexivity).
  assert (V : list_sum (map vertices nn_rows) <= 15) by (vm_compute; lia).
  destruct J as (ns & edges & J).
  assert (C : exists terms labelled lor st x e t, nn_out = Ok (inr (terms, labelled, lor), st) /\ In (x, e) labelled /\ hypercharge x = Q2Qc 0 /\ baryon x = Q2Qc (-3 # 1) /\ In t terms /\ sum_of baryon (cfields t) = Q2Qc 3).
  { remember nn_out as r eqn:E. vm_compute in E. subst r. eexists. eexists. eexists. eexists. eexists. eexists. eexists. split; [reflexivity|].
    split; [right; left; reflexivity|]. split; [apply Qc_is_canon; reflexivity|]. split; [apply Qc_is_canon; reflexivity|]. split; [right; left; reflexivity|]. apply Qc_is_canon. vm_compute. reflexivity. }
  destruct C as (terms & labelled & lor & st & x & e & t & Ec & Ix & Hx & Bx & It & Bt).
  unfold nn_out in Ec. destruct (C107_lines _ nn_fields nn_eps nn_graph nn_rows ns edges terms labelled lor st Inv Sing P J B V Ec) as [_ H].
  destruct (H x (in_map fst _ _ Ix)) as (L & IL & C). pose proof C as ((Ch & _) & _). rewrite Hx in Ch.
  assert (SL : sum_of baryon (map fst L) = Q2Qc 3).
  { pose proof (proj1 (forallb_forall _ _) nn_lines L IL) as N. cbv beta in N. apply orb_true_iff in N as [N|N]; [|now apply Qc_eq_bool_correct]. rewrite <- Ch in N. discriminate N. }
  exists nn_fields, nn_eps, nn_graph, nn_rows, ns, edges, terms, labelled, lor, st, x, e, L, t. repeat (split; [assumption|]). split; [|repeat (split; [assumption|]); assumption].
  intros Q. destruct (beyond_all nn_rows L IL) as (O & PO). specialize (Q (map fst L) (map fst O)). rewrite SL in Q.
  assert (Z : Q2Qc 3 = Q2Qc 0) by (apply Q; [rewrite P, <- map_app; now apply Permutation_map|now symmetry]). discriminate Z.
Qed.

(** L L Q db H with two leptoquarks, one from a lepton and the conjugate quark, the other from a lepton and the quark doublet *)
Definition lq_fields := PropsExotic.fields_of [baryonic "L" "u0 i0" (-1#2) 0; baryonic "L" "u1 i1" (-1#2) 0; baryonic "Q" "u2 c0 i2" (1#6) 1; baryonic "db" "u3 -c1" (1#3) (-1); baryonic "H" "i3" (1#2) 0].
Definition lq_eps := symbols_from ["-i0 -i1"%string; "-i2 -i3"%string] ++ got [] (do d <- delta (lit "c1 -c0"); Ok [d]).
Definition lq_leaf (k : nat) : ptree (cfield * N) := Lf (nth k lq_fields no_field, N.of_nat (k + 1)).
Definition lq_rows := [Tp [lq_leaf 0; lq_leaf 3]; Tp [lq_leaf 1; lq_leaf 2]; lq_leaf 4].
Definition lq_graph : graph := [(1, 6); (4, 6); (6, 8); (2, 7); (3, 7); (7, 8); (5, 8)]%N.

Example C109_example : invariant_operator lq_fields lq_eps /\ Forall single_indices lq_fields /\ quiet lq_fields /\ branched_root (cfield * N) fermion_leaf lq_rows /\
  exists terms x e y f lor st, completion (fun _ => false) (map (embed cfield) lq_rows) lq_eps lq_graph = Ok (inr (terms, [(x, e); (y, f)], lor), st) /\
    baryon x = Q2Qc (-1 # 1) /\ baryon y = Q2Qc 1 /\ map (fun t => map (fun z => this (baryon z)) (cfields t)) terms = [[1; 0; (-1 # 1)]; [(-1 # 1); 0; 1]; [(-1 # 1); 1; 0]]%Q.
Proof.
  split; [apply invariantb_ok; vm_compute; reflexivity|]. split; [apply Forall_forall; intros f I; apply singleb_ok; revert f I; apply forallb_forall; vm_compute; reflexivity|].
  split; [apply quietb_ok; vm_compute; reflexivity|]. split; [apply root_check_ok; vm_compute; reflexivity|].
  remember (completion (fun _ => false) (map (embed cfield) lq_rows) lq_eps lq_graph) as r eqn:E. vm_compute in E. subst r.
  eexists. eexists. eexists. eexists. eexists. eexists. eexists. split; [reflexivity|]. split; [apply Qc_is_canon; reflexivity|]. split; [apply Qc_is_canon; reflexivity|]. vm_compute. reflexivity.
Qed.

Print Assumptions C109_lines.
Print Assumptions C109_same.
Print Assumptions C109_shipped.
Print Assumptions C109_sign_refuted.
