(** * PropsDerivOps: completions of operators with derivatives (C98) *)

From Coq Require Import Ascii String List Bool Arith ZArith NArith QArith Qcanon Lia Permutation.
From Verif Require Import Base BaseFacts Show Spec ModelFunctions ModelIndex SpecIndex ModelField SpecField ModelContract SpecContract ProofsContract
  ModelPartition SpecPartition ModelExotic SpecExotic ModelInfo DataOperators ModelRegistry ModelPlace SpecPlace PropsPlace ModelOperators SpecTerms PropsTerms
  DataTopology PropsTopology PropsOperators PropsOperators2 ProofsOperators PropsRegistry PropsExotic2 ModelDerivOps SpecDerivOps.
Import ListNotations.
Local Open Scope nat_scope.

(** ** Terms that vanish can only remove completions *)

Section Fewer.
  Variables F T E CS : Type.
  Variable feqb : F -> F -> bool.
  Variables c1 c2 : list F -> list E -> CS -> res ((str + F * T * list E) * CS).
  Variables l1 l2 : list F -> list E -> res (str + T * list E).
  Hypothesis Hc : forall fs g st x st', c1 fs g st = Ok (inr x, st') -> c2 fs g st = Ok (inr x, st').
  Hypothesis Hl : forall fs g x, l1 fs g = Ok (inr x) -> l2 fs g = Ok (inr x).

  Notation leaf := (rleaf F).
  Definition numbered (x : leaf) : Prop := snd x = None -> exists s, fst x = inr s.

  Fixpoint tree_all (P : leaf -> Prop) (t : ptree leaf) : Prop :=
    match t with Lf x => P x | Tp l => fold_right (fun t Q => tree_all P t /\ Q) True l end.

  Lemma unpack_good (xs : list leaf) f ns : Forall numbered xs -> unpack F xs = inr (f, ns) -> Forall (fun x => exists y, fst x = inl y) xs.
  Proof using Type.
    revert f ns. induction xs as [|[[y|s] [n|]] xs IH]; intros f ns N; cbn [unpack]; try discriminate; [constructor|].
    inversion N; subst. destruct (unpack F xs) as [z|[fs ns']] eqn:U; [discriminate|]. intros [= <- <-]. constructor; [exists y; reflexivity|]. now apply (IH fs ns').
  Qed.

  Lemma unpack_bad (xs : list leaf) x : Forall numbered xs -> unpack F xs = inl x -> exists s, fst x = inr s.
  Proof using Type.
    induction xs as [|[[y|s] [n|]] xs IH]; intros N; cbn [unpack]; try discriminate.
    - inversion N; subst. destruct (unpack F xs) as [z|[fs ns']] eqn:U; [|discriminate]. intros [= <-]. now apply IH.
    - inversion N as [|? ? N1 N2]; subst. intros [= <-]. now apply N1.
    - intros [= <-]. exists s. reflexivity.
    - intros [= <-]. exists s. reflexivity.
  Qed.

  Notation R1 g gr := (replace_and_mutate F T E CS feqb c1 g gr).
  Notation R2 g gr := (replace_and_mutate F T E CS feqb c2 g gr).
  Notation state := (rstate F T E CS).

  Lemma vertex_fewer g gr (xs : list leaf) (st : state) y st' : Forall numbered xs -> R1 g gr xs st = Ok (y, st') ->
    numbered y /\ forall f, fst y = inl f -> Forall (fun x => exists y, fst x = inl y) xs /\ R2 g gr xs st = Ok (y, st').
  Proof using Hc.
    intros N. unfold replace_and_mutate. destruct (unpack F xs) as [x|[fs ns]] eqn:U.
    - intros [= <- <-]. destruct (unpack_bad xs x N U) as (s & Es). split; [intros _; eauto|]. intros f Ef. rewrite Es in Ef. discriminate Ef.
    - pose proof (unpack_good xs fs ns N U) as G.
      assert (K : (do r <- c1 fs g (r_cs F T E CS st);
                   match fst r with
                   | inl reason => Ok ((inr reason, None), mkR F T E CS (r_terms _ _ _ _ st) (r_edges _ _ _ _ st) (r_lorentz _ _ _ _ st) (snd r))
                   | inr (exotic, term, lorentz) => do e <- get_connecting_edge gr ns;
                     Ok ((inl exotic, Some (fst e)), mkR F T E CS (r_terms _ _ _ _ st ++ [term]) (dset feqb (r_edges _ _ _ _ st) exotic e) (r_lorentz _ _ _ _ st ++ lorentz) (snd r))
                   end) = Ok (y, st') ->
                  numbered y /\ forall f, fst y = inl f -> Forall (fun x => exists y, fst x = inl y) xs /\
                  (do r <- c2 fs g (r_cs F T E CS st);
                   match fst r with
                   | inl reason => Ok ((inr reason, None), mkR F T E CS (r_terms _ _ _ _ st) (r_edges _ _ _ _ st) (r_lorentz _ _ _ _ st) (snd r))
                   | inr (exotic, term, lorentz) => do e <- get_connecting_edge gr ns;
                     Ok ((inl exotic, Some (fst e)), mkR F T E CS (r_terms _ _ _ _ st ++ [term]) (dset feqb (r_edges _ _ _ _ st) exotic e) (r_lorentz _ _ _ _ st ++ lorentz) (snd r))
                   end) = Ok (y, st')).
      { destruct (c1 fs g (r_cs F T E CS st)) as [[[reason|[[exotic term] lorentz]] cs]|e] eqn:C; cbn [bind fst snd]; [| |discriminate].
        - intros [= <- <-]. split; [intros _; exists reason; reflexivity|]. intros f [=].
        - rewrite (Hc _ _ _ _ _ C). cbn [bind fst snd]. destruct (get_connecting_edge gr ns) as [e|]; cbn [bind]; [|discriminate]. intros H. split; [|intros; split; [exact G|exact H]].
          injection H as <- <-. intros [=]. }
      destruct fs as [|f [|f' fs]]; [discriminate| |exact K]. destruct ns as [|n ns]; [exact K|].
      intros [= <- <-]. split; [intros [=]|]. intros f0 _. split; [exact G|reflexivity].
  Qed.

  Fixpoint row_fewer g gr (t : ptree leaf) {struct t} : tree_all numbered t -> forall (st : state) y st',
    reduced_row leaf state (R1 g gr) t st = Ok (y, st') ->
    numbered y /\ forall f, fst y = inl f -> reduced_row leaf state (R2 g gr) t st = Ok (y, st').
  Proof using Hc.
    destruct t as [x|l]; intros N st y st'; [intros [= <- <-]; split; [exact N|reflexivity]|]. cbn [reduced_row].
    destruct (forallb (is_leaf leaf) l) eqn:L.
    - set (xs := flat_map _ l). assert (Nx : Forall numbered xs).
      { subst xs. clear L. induction l as [|[x|l'] l IH]; cbn; [constructor| |apply IH, N]. constructor; [apply N|apply IH, N]. }
      intros H. destruct (vertex_fewer _ _ _ _ _ _ Nx H) as [A B]. split; [exact A|]. intros f Ef. now apply (B f).
    - clear L.
      set (go1 := fix go (l : list (ptree leaf)) (st : state) : res (list leaf * state) :=
          match l with [] => Ok ([], st) | t :: l => do x <- reduced_row leaf state (R1 g gr) t st; do xs <- go l (snd x); Ok (fst x :: fst xs, snd xs) end).
      set (go2 := fix go (l : list (ptree leaf)) (st : state) : res (list leaf * state) :=
          match l with [] => Ok ([], st) | t :: l => do x <- reduced_row leaf state (R2 g gr) t st; do xs <- go l (snd x); Ok (fst x :: fst xs, snd xs) end).
      assert (G : forall st xs st', go1 l st = Ok (xs, st') -> Forall numbered xs /\ (Forall (fun x => exists y, fst x = inl y) xs -> go2 l st = Ok (xs, st'))).
      { clear y st st'. induction l as [|t l IH]; intros st xs st'; [intros [= <- <-]; split; [constructor|reflexivity]|]. destruct N as [N1 N2].
        cbn [go1 go2]. destruct (reduced_row leaf state (R1 g gr) t st) as [[x s1]|] eqn:E1; cbn [bind fst snd]; [|discriminate].
        destruct (go1 l s1) as [[ys s2]|] eqn:E2; cbn [bind fst snd]; [|discriminate]. intros [= <- <-].
        destruct (row_fewer g gr t N1 _ _ _ E1) as [A B]. destruct (IH N2 _ _ _ E2) as [A' B']. split; [now constructor|].
        intros Fx. inversion Fx as [|? ? (f & Ef) Fx']; subst. rewrite (B f Ef). cbn [bind fst snd]. rewrite (B' Fx'). reflexivity. }
      destruct (go1 l st) as [[xs s1]|] eqn:E1; cbn [bind fst snd]; [|discriminate]. intros H. destruct (G _ _ _ E1) as [A B].
      destruct (vertex_fewer _ _ _ _ _ _ A H) as [A' B']. split; [exact A'|]. intros f Ef. destruct (B' f Ef) as [Fx Hx]. rewrite (B Fx). exact Hx.
  Qed.

  Lemma rows_fewer g gr rows : Forall (tree_all numbered) rows -> forall (st : state) ys st',
    reduced_rows leaf state (R1 g gr) rows st = Ok (ys, st') ->
    Forall numbered ys /\ (Forall (fun x => exists y, fst x = inl y) ys -> reduced_rows leaf state (R2 g gr) rows st = Ok (ys, st')).
  Proof using Hc.
    induction 1 as [|t l N1 N2 IH]; intros st xs st'; [intros [= <- <-]; split; [constructor|reflexivity]|].
    cbn [reduced_rows]. destruct (reduced_row leaf state (R1 g gr) t st) as [[x s1]|] eqn:E1; cbn [bind fst snd]; [|discriminate].
    destruct (reduced_rows leaf state (R1 g gr) l s1) as [[ys s2]|] eqn:E2; cbn [bind fst snd]; [|discriminate]. intros [= <- <-].
    destruct (row_fewer g gr t N1 _ _ _ E1) as [A B]. destruct (IH _ _ _ E2) as [A' B']. split; [now constructor|].
    intros Fx. inversion Fx as [|? ? (f & Ef) Fx']; subst. rewrite (B f Ef). cbn [bind fst snd]. rewrite (B' Fx'). reflexivity.
  Qed.

  Lemma no_reason (ys : list leaf) fs : first_reason F ys = inr fs -> Forall (fun x => exists y, fst x = inl y) ys.
  Proof using Type.
    revert fs. induction ys as [|[[f|s] n] ys IH]; intros fs; [constructor| |discriminate]. unfold first_reason. cbn [fold_right fst].
    change (fold_right _ (inr []) ys) with (first_reason F ys). destruct (first_reason F ys) as [r|fs'] eqn:Er; [discriminate|]. intros _. constructor; [exists f; reflexivity|]. now apply (IH fs').
  Qed.

  Lemma construct_fewer rows g gr cs x cs' : Forall (tree_all numbered) rows ->
    construct_completion F T E CS feqb c1 l1 rows g gr cs = Ok (inr x, cs') -> construct_completion F T E CS feqb c2 l2 rows g gr cs = Ok (inr x, cs').
  Proof using Hc Hl.
    intros N. unfold construct_completion. destruct (reduced_rows _ _ (R1 g gr) rows _) as [[ys s]|] eqn:E1; cbn [bind fst snd]; [|discriminate].
    destruct (rows_fewer g gr rows N _ _ _ E1) as [_ B]. destruct (first_reason F ys) as [r|fs] eqn:Fr; [discriminate|].
    rewrite (B (no_reason ys fs Fr)). cbn [bind fst snd]. rewrite Fr. destruct (l1 fs g) as [[r|[t l]]|] eqn:L; cbn [bind]; try discriminate.
    rewrite (Hl _ _ _ L). cbn [bind]. auto.
  Qed.
End Fewer.

Section Oracles.
  Variables v1 v2 : cop -> bool.
  Hypothesis V : forall t, v2 t = true -> v1 t = true.

  Lemma process_fewer op t : process_derivative_term v1 op = Ok (inr t) -> process_derivative_term v2 op = Ok (inr t).
  Proof using V.
    unfold process_derivative_term. cbv zeta. destruct (_ =? 0); [auto|]. destruct (foldM sort_tensor op _) as [so|]; cbn [bind]; [|discriminate].
    destruct (2 <? _); [|auto]. destruct (c_reduce _) as [term|]; cbn [bind]; [|discriminate].
    destruct (v1 term) eqn:E1; [discriminate|]. destruct (v2 term) eqn:E2; [|auto]. apply V in E2. congruence.
  Qed.

  Lemma exotic_fewer op st x p t st' : exotic_field_and_term v1 op st = Ok ((x, p, inr t), st') -> exotic_field_and_term v2 op st = Ok ((x, p, inr t), st').
  Proof using V.
    unfold exotic_field_and_term. cbv zeta.
    repeat match goal with |- bind ?m _ = _ -> bind ?m _ = _ => destruct m as [?|]; cbn [bind]; [|discriminate] end.
    match goal with |- context [v1 ?t] => destruct (v1 t) eqn:E1; destruct (v2 t) eqn:E2; try (apply V in E2; congruence) end;
    destruct (negb _); cbn [andb]; auto; discriminate.
  Qed.

  Lemma contract_fewer fs g st x st' : contract_vertex v1 fs g st = Ok (inr x, st') -> contract_vertex v2 fs g st = Ok (inr x, st').
  Proof using V.
    unfold contract_vertex. destruct (contract v1 fs g st) as [[[r|[[[exotic term] sp] lo]] s]|] eqn:C; cbn [bind fst snd]; [discriminate| |discriminate].
    assert (C2 : contract v2 fs g st = Ok (inr (exotic, term, sp, lo), s)).
    { revert C. unfold contract. destruct (negb _); [discriminate|]. destruct (get_lorentz_epsilons fs) as [[b l]|]; cbn [bind fst snd]; [|discriminate].
      destruct (negb b); [discriminate|]. destruct (separate_gauge_epsilons fs g) as [sep|]; cbn [bind]; [|discriminate]. destruct (c_reduce _) as [op|]; cbn [bind]; [|discriminate].
      destruct (exotic_field_and_term v1 op st) as [[[[e p] [r|t]] s']|] eqn:Ex; cbn [bind]; [discriminate| |discriminate].
      rewrite (exotic_fewer _ _ _ _ _ _ Ex). cbn [bind]. destruct (check_singlet t) as [[]|]; cbn [bind]; [|discriminate].
      destruct (_ =? 0); cbn [bind]; [auto|]. destruct (process_derivative_term v1 t) as [[r|t']|] eqn:P; cbn [bind]; [discriminate| |discriminate].
      rewrite (process_fewer _ _ P). cbn [bind]. destruct (v1 t') eqn:E1; [discriminate|]. destruct (v2 t') eqn:E2; [apply V in E2; congruence|auto]. }
    rewrite C2. cbn [bind fst snd]. auto.
  Qed.

  Lemma last_fewer row g x : last_vertex v1 row g = Ok (inr x) -> last_vertex v2 row g = Ok (inr x).
  Proof using V.
    unfold last_vertex. destruct row as [|a [|b row]]; [auto|auto|]. destruct (c_reduce _) as [prod|]; cbn [bind]; [|discriminate]. cbv zeta.
    destruct (get_lorentz_epsilons _) as [[ok l]|]; cbn [bind fst snd]; [|discriminate]. destruct (negb ok); [discriminate|].
    destruct (separate_gauge_epsilons _ g) as [sep|]; cbn [bind]; [|discriminate]. destruct (_ =? 0); cbn [bind]; [auto|].
    destruct (process_derivative_term v1 _) as [[r|t']|] eqn:P; cbn [bind]; [discriminate| |discriminate].
    rewrite (process_fewer _ _ P). cbn [bind]. destruct (v1 t') eqn:E1; [discriminate|]. destruct (v2 t') eqn:E2; [apply V in E2; congruence|auto].
  Qed.

  Lemma placed_numbered t : tree_all cfield (numbered cfield) (ModelOperators.placed_tree t).
  Proof using Type.
    revert t. fix IH 1. intros [[[f|c] n]|l]; [intros [=]|intros [=]|]. cbn [ModelOperators.placed_tree tree_all]. induction l as [|t l IHl]; [exact I|]. cbn. split; [apply IH|exact IHl].
  Qed.

  Lemma partition_fewer p c : partition_completion v1 p = Ok (inr c) -> partition_completion v2 p = Ok (inr c).
  Proof using V.
    unfold partition_completion. destruct (pt_partition p) as [x|rows]; [auto|].
    destruct (ModelExotic.completion v1 _ _ _) as [[[r|[[ts es] lo]] s]|] eqn:C; cbn [bind fst]; [discriminate| |discriminate].
    assert (C2 : ModelExotic.completion v2 (map ModelOperators.placed_tree rows) (pt_epsilons p) (pt_graph p) = Ok (inr (ts, es, lo), s)).
    { unfold ModelExotic.completion in *. revert C. apply construct_fewer; [exact contract_fewer|exact last_fewer|]. apply Forall_forall. intros t I. apply in_map_iff in I as (t' & <- & _). apply placed_numbered. }
    rewrite C2. cbn [bind fst]. auto.
  Qed.
End Oracles.

(** C98: what sympy says about terms that vanish can only take completions away; it changes none *)
Theorem C98_fewer : forall (v1 v2 : cop -> bool) topologies op st cs1 st1 cs2 st2,
  (forall t, v2 t = true -> v1 t = true) ->
  completions_of v1 topologies op st = Ok (cs1, st1) -> completions_of v2 topologies op st = Ok (cs2, st2) -> sublist cs1 cs2 /\ st1 = st2.
Proof.
  intros v1 v2 topologies op st cs1 st1 cs2 st2 V. unfold completions_of. destruct (partitions topologies op st) as [[parts s]|]; cbn [bind fst snd]; [|discriminate].
  destruct (mapM (partition_completion v1) parts) as [l1|] eqn:E1; cbn [bind]; [|discriminate]. intros [= <- <-].
  destruct (mapM (partition_completion v2) parts) as [l2|] eqn:E2; cbn [bind]; [|discriminate]. intros [= <- <-]. split; [|reflexivity].
  revert l1 l2 E1 E2. induction parts as [|p parts IH]; intros l1 l2; cbn [mapM]; [intros [= <-] [= <-]; constructor|].
  destruct (partition_completion v1 p) as [x1|] eqn:P1; cbn [bind]; [|discriminate]. destruct (mapM (partition_completion v1) parts) as [m1|]; cbn [bind]; [|discriminate]. intros [= <-].
  destruct (partition_completion v2 p) as [x2|] eqn:P2; cbn [bind]; [|discriminate]. destruct (mapM (partition_completion v2) parts) as [m2|]; cbn [bind]; [|discriminate]. intros [= <-].
  cbn [flat_map]. specialize (IH m1 m2 eq_refl eq_refl). destruct x1 as [r|c].
  - destruct x2 as [r'|c']; [exact IH|now apply sub_skip].
  - rewrite (partition_fewer v1 v2 V _ _ P1) in P2. injection P2 as <-. now apply sub_keep.
Qed.

(** ** What a completion belongs to *)

Lemma mapM_In {A B} (f : A -> res B) l ys y : mapM f l = Ok ys -> In y ys -> exists x, In x l /\ f x = Ok y.
Proof.
  revert ys. induction l as [|x l IH]; intros ys; cbn [mapM]; [intros [= <-] []|]. destruct (f x) as [y0|] eqn:E; cbn [bind]; [|discriminate].
  destruct (mapM f l) as [ys0|]; cbn [bind]; [|discriminate]. intros [= <-] [<- | I]; [exists x; split; [now left|exact E]|]. destruct (IH _ eq_refl I) as (x' & I' & E'). exists x'. split; [now right|exact E'].
Qed.

Definition extends (op r : operator) : Prop := exists ss, r = op ++ map TSymbol ss.

Lemma extends_mul op r ss : normal op -> extends op r -> extends op (op_mul r ss).
Proof. intros N (ts & ->). exists (ts ++ ss). rewrite op_mul_normal by now apply normal_app. now rewrite <- app_assoc, <- map_app. Qed.

Lemma extends_fold op ss : normal op -> forall r, extends op r -> extends op (fold_left (fun prod d => op_mul prod [d]) ss r).
Proof. intros N. induction ss as [|s ss IH]; intros r X; [exact X|]. cbn [fold_left]. apply IH. now apply extends_mul. Qed.

Lemma colour_extends b op st rs st' : normal op -> colour_singlets b [op] st = Ok (rs, st') -> Forall (extends op) rs.
Proof.
  intros N. assert (X : extends op op) by (exists []; now rewrite app_nil_r). cbn [colour_singlets].
  destruct (colour_singlets_one b op st) as [[l s]|] eqn:E; cbn [bind fst snd]; [|discriminate]. intros [= <- <-]. rewrite app_nil_r.
  revert E. unfold colour_singlets_one. cbv zeta.
  match goal with |- bind ?m _ = _ -> _ => assert (Sp : forall sp, m = Ok sp -> Forall (extends op) sp) end.
  { intros sp. repeat match goal with
      | |- (if ?b then _ else _) = _ -> _ => destruct b
      | |- bind ?m _ = _ -> _ => destruct m as [?|]; cbn [bind]; [|discriminate]
      | |- Ok _ = Ok _ -> _ => intros [= <-]
      | |- Err _ = Ok _ -> _ => discriminate
      end; [..|constructor]; (constructor; [|constructor]); auto using extends_mul. }
  match goal with |- bind ?m _ = _ -> _ => destruct m as [sp|]; cbn [bind]; [|discriminate] end. specialize (Sp sp eq_refl).
  destruct (mapM deltas_of _) as [ds|]; cbn [bind]; [|discriminate].
  assert (P : Forall (extends op) (sp ++ map (fun ds => fold_left (fun prod d => op_mul prod [d]) ds op) ds)).
  { apply Forall_app. split; [exact Sp|]. apply Forall_forall. intros r I. apply in_map_iff in I as (d & <- & _). now apply extends_fold. }
  repeat match goal with
    | |- match ?x with _ => _ end = _ -> _ => destruct x
    | |- bind ?m _ = _ -> _ => destruct m as [?|]; cbn [bind]; [|discriminate]
    | |- Ok _ = Ok _ -> _ => intros [= <- <-]
    end; try exact P.
  rewrite app_assoc. apply Forall_app. split; [exact P|]. constructor; [|constructor]. auto using extends_mul.
Qed.

Lemma partition_belongs vanishes p c : partition_completion vanishes p = Ok (inr c) ->
  (exists ss, cm_operator c = fold_left (fun op e => op_mul op [e]) ss (pt_operator p)) /\ cm_graph c = pt_graph p /\ Forall checked (cm_terms c).
Proof.
  unfold partition_completion. destruct (pt_partition p) as [x|rows]; [discriminate|].
  destruct (ModelExotic.completion vanishes _ _ _) as [[[r|[[ts es] lo]] s]|] eqn:C; cbn [bind fst]; [discriminate| |discriminate]. cbv zeta. intros [= <-]. cbn.
  split; [exists lo; reflexivity|]. split; [reflexivity|]. exact (C90_checked _ _ _ _ _ _ _ _ C).
Qed.

Lemma completions_belong vanishes topologies op st cs st' : normal op -> completions_of vanishes topologies op st = Ok (cs, st') ->
  Forall (completes_operator topologies op) cs.
Proof.
  intros N. unfold completions_of, partitions. destruct (topology_type op) as [[nb nf]|]; cbn [bind fst snd]; [|discriminate].
  destruct (topologies nb nf) as [tops|] eqn:Et; cbn [bind]; [|discriminate]. destruct (colour_singlets true [op] st) as [[cops s]|] eqn:Ec; cbn [bind fst snd]; [|discriminate].
  destruct (mapM (topology_partitions op cops) tops) as [pss|] eqn:Ep; cbn [bind fst snd]; [|discriminate].
  destruct (mapM (partition_completion vanishes) (concat pss)) as [l|] eqn:El; cbn [bind]; [|discriminate]. intros [= <- <-].
  apply Forall_forall. intros c I. apply in_flat_map in I as ([r|c0] & I & I0); [destruct I0|]. destruct I0 as [-> | []].
  destruct (mapM_In _ _ _ _ El I) as (p & Ip & E). apply in_concat in Ip as (ps & Ips & Ip). destruct (mapM_In _ _ _ _ Ep Ips) as (t & It & Et').
  destruct (partition_belongs _ _ _ E) as ((ss & Eo) & Eg & Ck).
  assert (B : extends op (pt_operator p) /\ pt_graph p = t_graph t).
  { revert Et'. unfold topology_partitions. destruct (indexed_fields_with_counters op) as [fc|]; cbn [bind]; [|discriminate].
    destruct (mapM _ (map fst fc)) as [bs|]; cbn [bind]; [|discriminate]. cbv zeta.
    destruct (mapM _ cops) as [l0|] eqn:E0; cbn [bind]; [|discriminate]. intros [= <-]. apply in_concat in Ip as (qs & Iqs & Ip).
    destruct (mapM_In _ _ _ _ E0 Iqs) as (r & Ir & E1). destruct (mapM_In _ _ _ _ E1 Ip) as (perm & _ & E2). revert E2.
    destruct (set_external_fields _ _ _ _ _) as [at_|]; cbn [bind]; [|discriminate]. intros [= <-]. cbn. split; [|reflexivity].
    pose proof (colour_extends _ _ _ _ _ N Ec) as Fc. rewrite Forall_forall in Fc. now apply Fc. }
  destruct B as [X G]. constructor.
  - rewrite Eo. now apply extends_fold.
  - exists nb, nf, tops, t. split; [exact Et|]. split; [exact It|]. congruence.
  - exact Ck.
Qed.

(** ** The search *)

Section Search.
  Variables (zero : operator -> res bool) (vanishes : cop -> bool) (topologies : nat -> nat -> res (list (topology ifield))).

  Definition search_step (acc : list completed * counters) (combo : operator) : res (list completed * counters) :=
    do z <- zero combo;
    if z : bool then Ok acc
    else do r <- completions_of vanishes topologies combo (snd acc); Ok (fst acc ++ fst r, snd r).

  Definition segment (o : operator) (cs : list completed) : Prop :=
    (zero o = Ok true /\ cs = []) \/ (zero o = Ok false /\ exists s s', completions_of vanishes topologies o s = Ok (cs, s')).

  Lemma search_fold ops : forall acc r, foldM search_step ops acc = Ok r -> exists segs, Forall2 segment ops segs /\ fst r = fst acc ++ concat segs.
  Proof using Type.
    induction ops as [|o ops IH]; intros acc r; cbn [foldM]; [intros [= <-]; exists []; split; [constructor|now rewrite app_nil_r]|].
    unfold search_step at 1. destruct (zero o) as [[|]|] eqn:Z; cbn [bind]; [| |discriminate].
    - intros H. destruct (IH _ _ H) as (segs & F & E). exists ([] :: segs). split; [constructor; [now left|exact F]|exact E].
    - destruct (completions_of vanishes topologies o (snd acc)) as [[cs s]|] eqn:C; cbn [bind fst snd]; [|discriminate]. intros H. destruct (IH _ _ H) as (segs & F & E).
      exists (cs :: segs). split; [constructor; [right; split; [exact Z|eauto]|exact F]|]. rewrite E. cbn [fst concat]. now rewrite app_assoc.
  Qed.

  Lemma search_error ops : forall acc e, foldM search_step ops acc = Err e ->
    exists o, In o ops /\ (zero o = Err e \/ (zero o = Ok false /\ exists s, completions_of vanishes topologies o s = Err e)).
  Proof using Type.
    induction ops as [|o ops IH]; intros acc e; cbn [foldM]; [discriminate|].
    unfold search_step at 1. destruct (zero o) as [[|]|e'] eqn:Z; cbn [bind].
    - intros H. destruct (IH _ _ H) as (o' & I & X). exists o'. split; [now right|exact X].
    - destruct (completions_of vanishes topologies o (snd acc)) as [[cs s]|e'] eqn:C; cbn [bind fst snd].
      + intros H. destruct (IH _ _ H) as (o' & I & X). exists o'. split; [now right|exact X].
      + intros [= <-]. exists o. split; [now left|]. right. split; [exact Z|eauto].
    - intros [= <-]. exists o. split; [now left|now left].
  Qed.
End Search.

Lemma masks_placed st kept ss masks structs ops : Forall2 (acted kept) masks structs ->
  Forall2 (fun s o => exists st1 st2 xs, (forall ty, st ty <= st1 ty) /\ rebuilt st1 s xs st2 /\ o = map TField xs ++ map TSymbol ss) structs ops ->
  Forall2 (placed st kept ss) masks ops.
Proof.
  intros F. revert ops. induction F as [|m s masks structs A F IH]; intros ops G; inversion G as [|? o ? ops' (st1 & st2 & xs & L & Rb & ->) G']; subst; [constructor|].
  constructor; [exists s, st1, st2, xs; auto|now apply IH].
Qed.

(** C98: the completions of an operator with derivatives.  The derivatives are put in all possible ways on different fields; of
    these operators those are kept that sympy does not find to be zero, and the result is the list of the completions of them, one
    after the other.  If the search raises then so does sympy or the search for one of these operators. *)
Theorem C98_search : forall survives zero vanishes topologies op st so,
  (forall o, exists b, survives o = Ok b) ->
  operator_strip_derivs op = Ok so -> so_fields so <> [] -> Forall (fun ft => plain (fst ft) /\ completes (fst ft) (snd ft)) (so_fields so) ->
  exists masks ops bs,
    NoDup masks /\ (forall m, In m masks <-> choice (so_n_derivs so) (List.length (so_fields so)) m) /\
    Forall2 (placed st (so_fields so) (op_symbols op)) masks ops /\ Forall2 (fun o b => survives o = Ok b) ops bs /\
    let kept := map fst (filter snd (combine ops bs)) in
    match deriv_operator_completions survives zero vanishes topologies op st with
    | Ok (cs, _) => exists segs, Forall2 (segment zero vanishes topologies) kept segs /\ cs = concat segs /\
        Forall2 (fun o seg => Forall (completes_operator topologies o) seg) kept segs
    | Err e => exists o, In o kept /\ (zero o = Err e \/ (zero o = Ok false /\ exists s, completions_of vanishes topologies o s = Err e))
    end.
Proof.
  intros survives zero vanishes topologies op st so Sv Es Ne F.
  destruct (C52_combinations survives op st so Sv Es Ne F) as (masks & structs & ops & bs & out & st' & E & Nd & All & Fa & Fo & Fb & Eo).
  exists masks, ops, bs. split; [exact Nd|]. split; [exact All|]. pose proof (masks_placed _ _ _ _ _ _ Fa Fo) as Fp. split; [exact Fp|]. split; [exact Fb|]. cbv zeta.
  unfold deriv_operator_completions. rewrite E. cbn [bind fst snd].
  set (kept := map (@fst operator bool) _). assert (Ek : kept = out) by (symmetry; exact Eo). rewrite Ek. clearbody kept.
  change (foldM _ out ([], st')) with (foldM (search_step zero vanishes topologies) out ([], st')).
  destruct (foldM (search_step zero vanishes topologies) out ([], st')) as [[cs s]|e] eqn:Ef.
  - destruct (search_fold _ _ _ _ _ _ Ef) as (segs & Fs & Ec). exists segs. split; [exact Fs|]. split; [exact Ec|].
    assert (Nm : Forall normal out).
    { apply Forall_forall. intros o I. rewrite Eo in I. apply in_map_iff in I as ([o' b] & <- & I). apply filter_In in I as [I _]. apply in_combine_l in I.
      cbn [fst]. destruct (ProofsOperators.Forall2_right _ _ _ Fp o' I) as (m & _ & s0 & st1 & st2 & xs & _ & _ & _ & ->). exists xs, (op_symbols op). reflexivity. }
    clear - Fs Nm. induction Fs as [|o seg ops segs S Fs IH]; [constructor|]. inversion Nm; subst. constructor; [|now apply IH].
    destruct S as [[_ ->]|[_ (s & s' & C)]]; [constructor|]. exact (completions_belong _ _ _ _ _ _ H1 C).
  - exact (search_error _ _ _ _ _ _ Ef).
Qed.

(** the same for what vanishes: more vanishing terms, fewer completions *)
Theorem C98_search_fewer : forall survives zero (v1 v2 : cop -> bool) topologies op st cs1 st1 cs2 st2,
  (forall t, v2 t = true -> v1 t = true) ->
  deriv_operator_completions survives zero v1 topologies op st = Ok (cs1, st1) ->
  deriv_operator_completions survives zero v2 topologies op st = Ok (cs2, st2) -> sublist cs1 cs2.
Proof.
  intros survives zero v1 v2 topologies op st cs1 st1 cs2 st2 V. unfold deriv_operator_completions.
  destruct (derivative_combinations survives op st) as [[out s]|]; cbn [bind fst snd]; [|discriminate].
  change (foldM _ out ([], s) = Ok (cs1, st1)) with (foldM (search_step zero v1 topologies) out ([], s) = Ok (cs1, st1)).
  change (foldM _ out ([], s) = Ok (cs2, st2)) with (foldM (search_step zero v2 topologies) out ([], s) = Ok (cs2, st2)).
  assert (G : forall a1 a2, sublist (fst a1) (fst a2) -> snd a1 = snd a2 ->
     foldM (search_step zero v1 topologies) out a1 = Ok (cs1, st1) -> foldM (search_step zero v2 topologies) out a2 = Ok (cs2, st2) -> sublist cs1 cs2).
  { induction out as [|o out IH]; intros [l1 s1] [l2 s2] S Q; cbn [foldM]; cbn in S, Q; [intros [= <- <-] [= <- <-]; exact S|]. subst s2.
    unfold search_step at 1 3. cbn [fst snd]. destruct (zero o) as [[|]|]; cbn [bind]; [| |discriminate]; [now apply IH|].
    destruct (completions_of v1 topologies o s1) as [[d1 r1]|] eqn:C1; cbn [bind fst snd]; [|discriminate].
    destruct (completions_of v2 topologies o s1) as [[d2 r2]|] eqn:C2; cbn [bind fst snd]; [|discriminate].
    destruct (C98_fewer v1 v2 _ _ _ _ _ _ _ V C1 C2) as [Sd Er]. apply IH; [|exact Er]. cbn [fst].
    clear - S Sd. induction S; cbn; [exact Sd|now constructor|now constructor]. }
  apply G; [constructor|reflexivity].
Qed.

(** a plain operator cannot be given, although the signature of [derivative_combinations] allows it; and [completions] never
    returns *)
Theorem C98_bare_refuted : forall survives zero vanishes topologies op st combos st',
  derivative_combinations survives op st = Ok (combos, st') -> combos <> [] ->
  deriv_operator_completions_of survives zero vanishes topologies (Bare op) st = Err AttributeError.
Proof. intros survives zero vanishes topologies op st [|c combos] st' E N; [congruence|]. cbn. rewrite E. reflexivity. Qed.

Theorem C98_dispatch_refuted : forall survives zero vanishes topologies name x st, completions_dispatch survives zero vanishes topologies name x st = Err NameError.
Proof. reflexivity. Qed.

(** ** Terms that vanish *)

Lemma vertex_nonzero vanishes fs g st ex t lo st' : contract_vertex vanishes fs g st = Ok (inr (ex, t, lo), st') -> not_zero vanishes t.
Proof.
  unfold contract_vertex. destruct (contract vanishes fs g st) as [[[r|[[[e t'] sp] lo']] s]|] eqn:C; cbn [bind fst snd]; [discriminate| |discriminate].
  destruct (check_singlet t') as [[]|]; cbn [bind]; [|discriminate]. intros [= <- <- <- <-].
  revert C. unfold contract. destruct (negb _); [discriminate|]. destruct (get_lorentz_epsilons fs) as [[b l]|]; cbn [bind fst snd]; [|discriminate].
  destruct (negb b); [discriminate|]. destruct (separate_gauge_epsilons fs g) as [sep|]; cbn [bind]; [|discriminate]. destruct (c_reduce _) as [op|]; cbn [bind]; [|discriminate].
  destruct (exotic_field_and_term vanishes op st) as [[[[e0 p] [r|t]] s']|] eqn:Ex; cbn [bind]; [discriminate| |discriminate].
  destruct (check_singlet t) as [[]|]; cbn [bind]; [|discriminate]. destruct (_ =? 0); cbn [bind].
  - destruct (check_singlet t) as [[]|]; cbn [bind]; [|discriminate]. intros [= _ <- _ _ _]. revert Ex. unfold exotic_field_and_term. cbv zeta.
    repeat match goal with |- bind ?m _ = _ -> _ => destruct m as [?|] eqn:?; cbn [bind]; [|discriminate] end.
    match goal with |- context [negb (no_repeats (map f_label ?fs)) && vanishes ?u] => rename fs into tfs; destruct (negb (no_repeats (map f_label tfs))) eqn:Nr; destruct (vanishes u) eqn:Vt end; cbn [andb]; try discriminate.
    + destruct (check_singlet _) as [[]|]; cbn [bind]; [|discriminate]. intros [= _ _ <- _]. now left.
    + destruct (check_singlet _) as [[]|]; cbn [bind]; [|discriminate]. intros [= _ _ <- _]. right. exists tfs. split; [assumption|]. apply negb_false_iff in Nr. now apply no_repeats_iff.
    + destruct (check_singlet _) as [[]|]; cbn [bind]; [|discriminate]. intros [= _ _ <- _]. now left.
  - destruct (process_derivative_term vanishes t) as [[r|t1]|]; cbn [bind]; [discriminate| |discriminate].
    destruct (vanishes t1) eqn:Vt; [discriminate|]. destruct (check_singlet t1) as [[]|]; cbn [bind]; [|discriminate]. intros [= _ <- _ _ _]. now left.
Qed.

(** all terms but the last are known not to vanish *)
Theorem C98_nonzero : forall vanishes p c, partition_completion vanishes p = Ok (inr c) ->
  exists ts t, cm_terms c = ts ++ [t] /\ Forall (not_zero vanishes) ts.
Proof.
  intros vanishes p c. unfold partition_completion. destruct (pt_partition p) as [x|rows]; [discriminate|].
  destruct (ModelExotic.completion vanishes _ _ _) as [[[r|[[ts es] lo]] s]|] eqn:C; cbn [bind fst]; [discriminate| |discriminate]. cbv zeta. intros [= <-]. cbn [cm_terms].
  revert C. unfold ModelExotic.completion, construct_completion. generalize (map ModelOperators.placed_tree rows) as trees. intros trees.
  destruct (reduced_rows _ _ _ trees _) as [[leaves s0]|] eqn:E; [|discriminate]. cbn [bind fst snd].
  assert (I : Forall (not_zero vanishes) (r_terms _ _ _ _ s0)).
  { change s0 with (snd (leaves, s0)).
    refine (rows_invariant (replace_and_mutate cfield cop symbol sstate cfield_eqb (contract_vertex vanishes) (pt_epsilons p) (pt_graph p)) (fun s => Forall (not_zero vanishes) (r_terms _ _ _ _ s)) _ trees _ _ _ E); [|constructor].
    generalize (pt_epsilons p) as gauge. generalize (pt_graph p) as g. clear. intros g gauge l st r I. unfold replace_and_mutate. destruct (unpack cfield l) as [x|[fs ns]]; [intros [= <-]; exact I|].
    assert (G : forall fs ns, (do r <- contract_vertex vanishes fs gauge (r_cs cfield cop symbol sstate st);
        match fst r with
        | inl reason => Ok ((inr reason, None), mkR cfield cop symbol sstate (r_terms _ _ _ _ st) (r_edges _ _ _ _ st) (r_lorentz _ _ _ _ st) (snd r))
        | inr (exotic, term, lorentz) =>
          do e <- get_connecting_edge g ns;
          Ok ((inl exotic, Some (fst e)),
              mkR cfield cop symbol sstate (r_terms _ _ _ _ st ++ [term]) (dset cfield_eqb (r_edges _ _ _ _ st) exotic e) (r_lorentz _ _ _ _ st ++ lorentz) (snd r))
        end) = Ok r -> Forall (not_zero vanishes) (r_terms _ _ _ _ (snd r))).
    { clear fs ns. intros fs ns. destruct (contract_vertex vanishes fs gauge _) as [[[reason|[[ex t] lor]] cs]|] eqn:C; [| |discriminate]; cbn [bind fst snd].
      - intros [= <-]. exact I.
      - destruct (get_connecting_edge g ns) as [e|]; [|discriminate]. cbn [bind]. intros [= <-]. cbn [snd r_terms]. apply Forall_app. split; [exact I|].
        constructor; [|constructor]. eapply vertex_nonzero. exact C. }
    destruct fs as [|f [|f' fs]]; [discriminate| |apply G]. destruct ns as [|n ns]; [apply G|]. intros [= <-]. exact I. }
  destruct (first_reason cfield leaves) as [reason|fs]; [discriminate|].
  destruct (last_vertex vanishes fs _) as [[reason|[t lor]]|] eqn:L; [discriminate| |discriminate]. cbn [bind]. intros [= <- <- <- <-].
  exists (r_terms _ _ _ _ s0), t. split; [reflexivity|exact I].
Qed.

(** ** The operators of the package *)

Definition shipped_deriv (k : string) : operator :=
  match deriv_eff_operators with Ok ops => match dget str_eqb ops (lit k) with Some op => op | None => [] end | Err _ => [] end.

Definition placements (k : string) : list operator * counters :=
  match derivative_combinations (fun _ => Ok true) (shipped_deriv k) started with Ok r => r | Err _ => ([], started) end.

(** deciding the hypotheses of [C98_search] *)
Definition digit_of (c : ascii) : nat := nat_of_ascii c - 48.

Definition properb (c : charges) : bool :=
  match c with
  | (k, _) :: (k', _) :: _ => if str_eqb k (lit "y") then if str_eqb k' (lit "3b") then no_repeats (map fst c) else false else false
  | _ => false
  end.

Lemma properb_ok c : properb c = true -> proper c.
Proof.
  destruct c as [|[k y] [|[k' b] r]]; try discriminate. unfold properb. destruct (str_eqb k (lit "y")) eqn:E1; [|discriminate]. destruct (str_eqb k' (lit "3b")) eqn:E2; [|discriminate].
  intros N. apply str_decides in E1, E2. subst k k'. exists y, b, r. split; [reflexivity|]. now apply no_repeats_iff.
Qed.

Definition small (n : nat) : bool := n <? 10.

Definition labels_of (f : field) : option (nat * nat * nat * nat * nat) :=
  match f_dynkin f with
  | [a; b; c; d; e] =>
    let '(a, b, c, d, e) := (digit_of a, digit_of b, digit_of c, digit_of d, digit_of e) in
    if str_eqb (f_dynkin f) (five a b c d e) then
      if forallb small [a; b; c; d; e] then
        if properb (f_charges f) then if (f_nf f =? 1) || (f_nf f =? 3) then Some (a, b, c, d, e) else None else None
      else None
    else None
  | _ => None
  end.

Lemma labels_ok f a b c d e : labels_of f = Some (a, b, c, d, e) -> field_ok f a b c d e.
Proof.
  unfold labels_of. destruct (f_dynkin f) as [|a' [|b' [|c' [|d' [|e' [|]]]]]] eqn:D; try discriminate. rewrite <- D.
  destruct (str_eqb _ _) eqn:E; [|discriminate]. destruct (forallb small _) eqn:S; [|discriminate]. destruct (properb _) eqn:P; [|discriminate]. destruct (_ || _) eqn:N; [|discriminate].
  intros [= <- <- <- <- <-]. apply str_decides in E. split; [exact E|]. cbn [forallb] in S. rewrite !andb_true_iff in S. unfold small in S. rewrite !Nat.ltb_lt in S.
  split; [tauto|]. split; [now apply properb_ok|]. apply orb_true_iff in N as [N|N]; apply Nat.eqb_eq in N; auto.
Qed.

Definition plain_check (f : field) : bool :=
  match labels_of f with
  | Some (a, b, _, _, _) =>
    if a + b <=? 1 then if emptyb (f_latex f) then false else if f_derivs f =? 0 then
      match f_stripped f with Some s => no_repeats (keys (s_charges s)) | None => true end else false else false
  | None => false
  end.

Lemma plain_check_ok f : plain_check f = true -> plain f.
Proof.
  unfold plain_check. destruct (labels_of f) as [[[[[a b] c] d] e]|] eqn:L; [|discriminate]. destruct (a + b <=? 1) eqn:AB; [|discriminate]. apply Nat.leb_le in AB.
  destruct (f_latex f) as [|x l] eqn:X; [discriminate|]. cbn [emptyb]. destruct (f_derivs f =? 0) eqn:Dv; [|discriminate]. apply Nat.eqb_eq in Dv. intros S.
  exists a, b, c, d, e. split; [now apply labels_ok|]. split; [destruct a as [|[|a]]; destruct b as [|[|b]]; cbn in AB; try lia; auto|]. split; [rewrite X; discriminate|]. split; [exact Dv|].
  intros s Es. rewrite Es in S. now apply no_repeats_iff.
Qed.

Definition kind_eqb (a b : itype * bool) : bool := itype_eqb (fst a) (fst b) && Bool.eqb (snd a) (snd b).

Lemma kind_decides : decides kind_eqb.
Proof.
  intros [t u] [t' u']. unfold kind_eqb. cbn [fst snd]. rewrite andb_true_iff. split.
  - intros [A B]. apply Bool.eqb_prop in B. assert (t = t') by (destruct t, t'; try discriminate A; reflexivity). congruence.
  - intros [= <- <-]. split; [destruct t; reflexivity|apply Bool.eqb_reflx].
Qed.

Definition fits_check (c d e : nat) (kinds : list (itype * bool)) : bool :=
  let hs := map snd (filter (fun k => itype_eqb (fst k) Colour) kinds) in
  if count_occ Bool.bool_dec hs true =? c then if count_occ Bool.bool_dec hs false =? d then
    list_eqb kind_eqb kinds (map (pair Colour) hs ++ repeat (Isospin, true) e) else false else false.

Definition completes_check (f : field) (t : str) : bool :=
  match labels_of f with
  | Some (a, b, c, d, e) =>
    if rank (f_symmetry f) =? a + b + c + d + e then
      match mapM new_index (filter (fun i => negb (is_g i)) (split_ws t)) with
      | Ok gs => if fits_check c d e (map kind gs) then List.length (filter is_g (split_ws t)) <=? 1 else false
      | Err _ => false
      end
    else false
  | None => false
  end.

Lemma completes_check_ok f t : completes_check f t = true -> completes f t.
Proof.
  unfold completes_check. destruct (labels_of f) as [[[[[a b] c] d] e]|] eqn:L; [|discriminate]. destruct (rank _ =? _) eqn:R; [|discriminate]. apply Nat.eqb_eq in R.
  destruct (mapM new_index _) as [gs|] eqn:G; [|discriminate]. destruct (fits_check c d e (map kind gs)) eqn:F; [|discriminate]. intros N. apply Nat.leb_le in N.
  exists a, b, c, d, e. split; [now apply labels_ok|]. split; [exact R|]. split; [|exact N]. exists gs. split; [exact G|].
  unfold fits_check in F. cbv zeta in F. set (hs := map snd _) in F. exists hs. destruct (_ =? c) eqn:C; [|discriminate]. destruct (_ =? d) eqn:D; [|discriminate].
  apply Nat.eqb_eq in C, D. split; [exact C|]. split; [exact D|]. cbn [repeat app]. now apply (list_decides kind_decides) in F.
Qed.

Definition strip_check (op : operator) : bool :=
  match operator_strip_derivs op with
  | Ok so => if emptyb (so_fields so) then false else if so_n_derivs so =? 0 then false else forallb (fun ft => plain_check (fst ft) && completes_check (fst ft) (snd ft)) (so_fields so)
  | Err _ => false
  end.

Lemma deriv_operators_check : match deriv_eff_operators with Ok ops => forallb (fun kv => strip_check (snd kv)) ops && (List.length ops =? 51) | Err _ => false end = true.
Proof. vm_compute. reflexivity. Qed.

(** the search is defined for every operator with derivatives that the package ships: what [C98_search] says holds for them *)
Theorem C98_shipped : exists ops, deriv_eff_operators = Ok ops /\ List.length ops = 51 /\
  forall k op, In (k, op) ops -> exists so, operator_strip_derivs op = Ok so /\ so_fields so <> [] /\ 0 < so_n_derivs so /\
    Forall (fun ft => plain (fst ft) /\ completes (fst ft) (snd ft)) (so_fields so).
Proof.
  pose proof deriv_operators_check as H. destruct deriv_eff_operators as [ops|]; [|discriminate H]. exists ops. split; [reflexivity|].
  apply andb_true_iff in H as [H L]. apply Nat.eqb_eq in L. split; [exact L|]. intros k op I. rewrite forallb_forall in H. specialize (H _ I). cbn [snd] in H. clear I L.
  unfold strip_check in H. destruct (operator_strip_derivs op) as [so|]; [|discriminate H]. exists so. split; [reflexivity|].
  destruct (so_fields so) as [|ft fts] eqn:Ef; [discriminate H|]. cbn [emptyb] in H. rewrite <- Ef in *. split; [rewrite Ef; discriminate|].
  destruct (so_n_derivs so =? 0) eqn:N; [discriminate H|]. apply Nat.eqb_neq in N. split; [lia|]. apply Forall_forall. intros x I. rewrite forallb_forall in H. specialize (H _ I).
  apply andb_true_iff in H as [H1 H2]. split; [now apply plain_check_ok|now apply completes_check_ok].
Qed.

(** ** The last term *)

Definition antisymb (label : str) (t : cop) : bool :=
  let xs := filter (fun x => str_eqb (f_label (i_field (cf_if x))) label) (cfields t) in
  let ns := map ix_name (filter (fun i => itype_eqb (ix_type i) Isospin) (flat_map (fun x => i_indices (cf_if x)) xs)) in
  existsb (fun k => match k with
    | KSym s => match symbol_indices s with
      | [i; j] => if str_eqb (ix_name i) (ix_name j) then false else existsb (str_eqb (ix_name i)) ns && existsb (str_eqb (ix_name j)) ns
      | _ => false
      end
    | KField _ => false
    end) t.

Lemma cfields_In x t : In x (cfields t) <-> In (KField x) t.
Proof.
  unfold cfields. rewrite in_flat_map. split.
  - intros (k & I & J). destruct k as [y|s]; [destruct J as [<- | []]; exact I|destruct J].
  - intros I. exists (KField x). split; [exact I|now left].
Qed.

Lemma antisymb_iff label t : antisymb label t = true <-> antisymmetric label t.
Proof.
  unfold antisymb. cbv zeta. set (ns := map ix_name _).
  assert (N : forall n, existsb (str_eqb n) ns = true <-> exists x i, In (KField x) t /\ f_label (i_field (cf_if x)) = label /\ In i (i_indices (cf_if x)) /\ ix_type i = Isospin /\ ix_name i = n).
  { intros n. rewrite existsb_exists. split.
    - intros (m & I & E). apply str_decides in E. subst m. apply in_map_iff in I as (i & En & I). apply filter_In in I as [I Ty]. apply in_flat_map in I as (x & Ix & I). apply filter_In in Ix as [Ix Lb].
      apply str_decides in Lb. apply cfields_In in Ix. exists x, i. repeat split; auto. destruct (ix_type i); try discriminate Ty; reflexivity.
    - intros (x & i & Ix & Lb & I & Ty & En). exists n. split; [|now apply str_decides]. apply in_map_iff. exists i. split; [exact En|]. apply filter_In. rewrite Ty. split; [|reflexivity].
      apply in_flat_map. exists x. split; [|exact I]. apply filter_In. split; [now apply cfields_In|now apply str_decides]. }
  rewrite existsb_exists. split.
  - intros ([y|s] & Is & H); [discriminate H|]. destruct (symbol_indices s) as [|i' [|j' [|]]] eqn:Es; try discriminate H. destruct (str_eqb (ix_name i') (ix_name j')) eqn:Q; [discriminate H|].
    apply andb_true_iff in H as [H1 H2]. apply N in H1 as (x & i & A1 & A2 & A3 & A4 & A5), H2 as (y & j & B1 & B2 & B3 & B4 & B5). apply (decides_false str_decides) in Q.
    exists x, y, i, j, s, i', j'. rewrite A5, B5. repeat split; auto.
  - intros (x & y & i & j & s & i' & j' & A1 & B1 & A2 & B2 & A3 & B3 & A4 & B4 & Q & Is & Es & A5 & B5). exists (KSym s). split; [exact Is|]. rewrite Es.
    destruct (str_eqb (ix_name i') (ix_name j')) eqn:Q'; [apply str_decides in Q'; congruence|]. apply andb_true_iff. split; apply N; eauto 10.
Qed.

(** A completion may have a last term that vanishes: with a test that finds exactly the terms H^i H^j eps_ij to vanish, the operator
    D2a with derivatives on both leptons has a completion that ends in one. *)
Theorem C98_last_term_refuted : exists vanishes o st cs st' c ts t,
  (forall u, vanishes u = true <-> antisymmetric (lit "H") u) /\ In o (fst (placements "D2a")) /\
  completions_of vanishes shipped o st = Ok (cs, st') /\ In c cs /\ cm_terms c = ts ++ [t] /\ antisymmetric (lit "H") t /\ vanishes t = true.
Proof.
  set (o := nth 4 (fst (placements "D2a")) []).
  assert (H : match completions_of (antisymb (lit "H")) shipped o (snd (placements "D2a")) with
              | Ok (c :: _, _) => match rev (cm_terms c) with t :: _ => antisymb (lit "H") t | [] => false end
              | _ => false end = true) by (vm_compute; reflexivity).
  destruct (completions_of (antisymb (lit "H")) shipped o (snd (placements "D2a"))) as [[[|c cs] st']|] eqn:E; try discriminate H.
  destruct (rev (cm_terms c)) as [|t ts] eqn:Er; [discriminate H|].
  exists (antisymb (lit "H")), o, (snd (placements "D2a")), (c :: cs), st', c, (rev ts), t. split; [apply antisymb_iff|]. split; [apply nth_In; vm_compute; lia|]. split; [exact E|]. split; [now left|].
  split; [rewrite <- (rev_involutive (cm_terms c)), Er; reflexivity|]. split; [now apply antisymb_iff|exact H].
Qed.

(** If the processed last term vanishes the search does not go on to the next diagram. *)
Definition with_index (n : string) (t : cop) : bool := existsb (fun x => existsb (fun i => str_eqb (ix_name i) (lit n)) (i_indices (cf_if x))) (cfields t).

Theorem C98_name_refuted : exists vanishes o st, In o (fst (placements "D2a")) /\
  (exists cs st', completions_of (fun _ => false) shipped o st = Ok (cs, st') /\ cs <> []) /\ completions_of vanishes shipped o st = Err NameError.
Proof.
  set (o := nth 0 (fst (placements "D2a")) []). exists (with_index "i38_"), o, (snd (placements "D2a")). split; [apply nth_In; vm_compute; lia|]. split; [|vm_compute; reflexivity].
  assert (H : match completions_of (fun _ => false) shipped o (snd (placements "D2a")) with Ok (_ :: _, _) => true | _ => false end = true) by (vm_compute; reflexivity).
  destruct (completions_of (fun _ => false) shipped o (snd (placements "D2a"))) as [[[|c cs] st']|]; try discriminate H. exists (c :: cs), st'. split; [reflexivity|discriminate].
Qed.

(** ** Grouping *)

(** [collect_models] makes one object for every value of the dictionary of [collect_completions] (C14), in its order *)
Theorem C98_models : forall (C V : Type) (key : C -> list V) veqb vleb cs, decides veqb ->
  map (md_completions C) (collect_models key veqb vleb cs) = map snd (collect_completions key veqb vleb cs) /\
  (forall m c, In m (collect_models key veqb vleb cs) -> In c (md_completions C m) -> In c cs).
Proof.
  intros C V key veqb vleb cs Hv. split; [unfold collect_models; rewrite map_map; reflexivity|].
  intros m c Im Ic. apply in_map_iff in Im as ([k g] & <- & I). cbn [md_completions snd] in Ic. exact (proj1 (proj1 (C14_collect_completions_sound C V key veqb vleb cs Hv) k g c I Ic)).
Qed.

(** D2a: six ways to act with the derivatives, 24 completions *)
Example C98_example :
  match deriv_operator_completions (fun _ => Ok true) (fun _ => Ok false) (fun _ => false) shipped (shipped_deriv "D2a") started with
  | Ok (cs, _) => map (fun c => (cm_topology c, List.length (cm_terms c))) cs
  | Err _ => []
  end = let a := (lit "2s2f_1", 2) in let b := (lit "2s2f_2", 2) in
  [b; b] ++ [a; a; a; a] ++ [b; b; b; b; b; b; b; b] ++ [a; a; a; a] ++ [b; b; b; b; b; b].
Proof. vm_compute. reflexivity. Qed.

Print Assumptions C98_fewer.
Print Assumptions C98_search.
Print Assumptions C98_search_fewer.
Print Assumptions C98_nonzero.
Print Assumptions C98_shipped.
Print Assumptions C98_last_term_refuted.
Print Assumptions C98_name_refuted.
Print Assumptions C98_models.
Print Assumptions C98_bare_refuted.
Print Assumptions C98_dispatch_refuted.
