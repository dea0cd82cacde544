(** * PropsContract4: properties C34, C74: operators from products of fields *)

From Coq Require Import Ascii String List Bool Arith ZArith Lia Permutation QArith Qcanon.
From Verif Require Import Base BaseFacts Show ModelFunctions ProofsFunctions ModelIndex SpecIndex ProofsIndex PropsIndex
  ModelField SpecField ProofsField ProofsField2 PropsField PropsField2 ModelContract SpecContract ProofsContract PropsContract
  PropsContract2 PropsContract3.
From Verif Require Spec.
Import ListNotations.
Local Open Scope nat_scope.

(** ** C34: the stack that calls share *)

(** the tree [t] as the left branch under the entries of a stack *)
Fixpoint plug (t : prod_tree) (stack : list (prod_tree * field)) : prod_tree :=
  match stack with [] => t | (r, irrep) :: stack => plug (PNode irrep t r) stack end.

Lemma unload_plug stack : forall t s, unload (plug t stack) s = unload t (stack ++ s).
Proof.
  induction stack as [|[r i] stack IH]; intros t s; [reflexivity|]. cbn [plug]. rewrite IH. reflexivity.
Qed.

Lemma unload_stack t : forall s, exists p, snd (unload t s) = p ++ s.
Proof.
  induction t as [f|i l IHl r IHr]; intros s; [now exists []|]. cbn [unload]. destruct (IHl ((r, i) :: s)) as (p & E).
  exists (p ++ [(r, i)]). rewrite E, <- app_assoc. reflexivity.
Qed.

Lemma consume_stack stack : forall results ignore st,
  match consume stack results ignore st with
  | (Ok _, s) => c_stack s = []
  | (Err _, s) => exists popped, popped <> [] /\ stack = popped ++ c_stack s
  end.
Proof.
  induction stack as [|[r i] stack IH]; intros results ignore st; cbn [consume]; [reflexivity|].
  destruct (contract_all results r (f_dynkin i) ignore st) as [[l|e] st'].
  - specialize (IH l ignore st'). destruct (consume stack l ignore st') as [[l'|e] s]; [exact IH|].
    destruct IH as (p & _ & E). exists ((r, i) :: p). split; [discriminate|]. now rewrite E.
  - exists [(r, i)]. split; [discriminate|reflexivity].
Qed.

(** A call that returns leaves the shared list empty; a call that raises leaves part of what it and earlier calls put
    there, and at least one level less.  A call that finds entries there computes the operators of a larger product, with
    the given one as its innermost left branch; so after a call that returned, results do not depend on earlier calls
    except through the counters of fresh names. *)
Theorem C34_shared_stack :
  forall t ignore s,
    (forall rs s', construct_operators t ignore s = (Ok rs, s') -> c_stack s' = []) /\
    (forall e s', construct_operators t ignore s = (Err e, s') ->
       exists popped, popped <> [] /\ snd (unload t (c_stack s)) = popped ++ c_stack s') /\
    construct_operators t ignore s = construct_operators (plug t (c_stack s)) ignore (mkC [] (c_counters s)).
Proof.
  intros t ignore s. unfold construct_operators. cbn [c_stack c_counters]. rewrite unload_plug, app_nil_r.
  destruct (unload t (c_stack s)) as [f stack]. cbn [snd]. pose proof (consume_stack stack [CField f] ignore (c_counters s)) as H.
  split; [|split; [|reflexivity]].
  - intros rs s' E. rewrite E in H. exact H.
  - intros e s' E. rewrite E in H. exact H.
Qed.

(** a product at whose inner level the contraction is impossible, and a single field *)
Definition doublet : field :=
  mkField (lit "H") (lit "00001") default_charges false (lit "bose") [[1]] None 1 [] 1 0 None.
Definition triplet : field :=
  mkField (lit "T") (lit "00002") default_charges false (lit "bose") [[1; 1]] None 1 [] 1 0 None.

(** A call after one that raised is wrong: a single field no longer gives itself, and a product of two doublets into a
    triplet gives operators with three fields. *)
Theorem C34_after_error_refuted :
  exists t u s,
    fst (construct_operators t (fun _ => false) (mkC [] (fun _ => 0))) = Err AssertionError /\
    s = snd (construct_operators t (fun _ => false) (mkC [] (fun _ => 0))) /\
    fst (construct_operators (PLeaf doublet) (fun _ => false) (mkC [] (c_counters s))) = Ok [CField doublet] /\
    fst (construct_operators (PLeaf doublet) (fun _ => false) s) = Err AssertionError /\
    (exists op, fst (construct_operators u (fun _ => false) (mkC [] (c_counters s))) = Ok [CObj (OOp op)] /\ List.length (indexed_fields op) = 2) /\
    (exists ops, fst (construct_operators u (fun _ => false) s) = Ok (map (fun op => CObj (OOp op)) ops) /\ ops <> [] /\
                 Forall (fun op => List.length (indexed_fields op) = 3) ops).
Proof.
  exists (PNode triplet (PNode doublet (PLeaf doublet) (PLeaf doublet)) (PLeaf triplet)), (PNode triplet (PLeaf doublet) (PLeaf doublet)).
  eexists. split; [vm_compute; reflexivity|]. split; [reflexivity|]. split; [vm_compute; reflexivity|]. split; [vm_compute; reflexivity|]. split.
  - eexists. split; [vm_compute; reflexivity|reflexivity].
  - match goal with |- exists ops, ?a = _ /\ _ => let v := eval vm_compute in a in
      match v with Ok [CObj (OOp ?x); CObj (OOp ?y)] => exists [x; y] end end.
    split; [vm_compute; reflexivity|]. split; [discriminate|]. repeat constructor.
Qed.

(** ** C74: the operators of a product *)

Lemma digits_five a b c d e : a < 10 /\ b < 10 /\ c < 10 /\ d < 10 /\ e < 10 ->
  map (fun c => nat_of_ascii c - 48) (five a b c d e) = [a; b; c; d; e].
Proof. intros B. unfold five, digit. cbn [map]. rewrite !nat_ascii_embedding by lia. repeat (f_equal; try lia). Qed.

Lemma su2_label_five f a b c d e t : f_dynkin f = five a b c d e -> a < 10 /\ b < 10 /\ c < 10 /\ d < 10 /\ e < 10 ->
  su2_label t f = label_at t a b e.
Proof. intros E B. unfold su2_label. rewrite E, digits_five by exact B. reflexivity. Qed.

Lemma colour_label_five f a b c d e up : f_dynkin f = five a b c d e -> a < 10 /\ b < 10 /\ c < 10 /\ d < 10 /\ e < 10 ->
  colour_label up f = if up then c else d.
Proof. intros E B. unfold colour_label. rewrite E, digits_five by exact B. now destruct up. Qed.

Lemma count_kind_and t up l : count_kind t up l = List.length (filter (fun i => itype_eqb (ix_type i) t && Bool.eqb (ix_up i) up) l).
Proof.
  induction l as [|i l IH]; [reflexivity|]. rewrite count_kind_cons, IH. cbn [filter]. now destruct (itype_eqb (ix_type i) t && Bool.eqb (ix_up i) up).
Qed.

Lemma fresh_object f a b c d e st :
  field_ok f a b c d e -> rank (f_symmetry f) = a + b + c + d + e ->
  exists x st', fresh_ifield f st = Ok (x, st') /\ object_ok (OField x) /\ i_field x = dressed f /\ Forall (made st st') (i_indices x) /\
    (forall t, st t <= st' t) /\ (forall t, su2_type t -> number [TField x] t true (su2_label t f) /\ number [TField x] t false 0) /\
    (forall up, number [TField x] Colour up (colour_label up f)).
Proof.
  intros Fo Rk. destruct (C73_fresh_indices f a b c d e st Fo Rk) as (idx & lab & st' & E & K & Cl & Nd & Mk & Mono).
  pose proof Fo as (Ed & Lt & _).
  eexists. exists st'. split; [exact E|].
  assert (Fr : forall i, In i idx -> forall j, In j idx -> ~ counterpart i j).
  { clear - Nd. intros i I j J (C1 & _ & C3). assert (i = j).
    { clear C3. induction idx as [|k idx IH]; [destruct I|]. cbn [map] in Nd. inversion Nd as [|? ? N1 N2]; subst. cbn in I, J.
      destruct I as [<-|I], J as [<-|J]; auto.
      - destruct N1. rewrite <- C1. now apply in_map.
      - destruct N1. rewrite C1. now apply in_map. }
    subst. destruct (ix_up j); discriminate. }
  assert (Ix : forall x, i_indices x = idx -> op_indices [TField x] = idx) by (intros x <-; unfold op_indices; cbn; apply app_nil_r).
  assert (Nm : forall x, i_indices x = idx -> forall t up, number [TField x] t up (count_kind t up idx)).
  { intros x Hx t up. exists (filter (fun i => itype_eqb (ix_type i) t && Bool.eqb (ix_up i) up) idx). split; [|symmetry; apply count_kind_and]. split.
    - clear - Nd. induction idx as [|i idx IH]; [constructor|]. cbn [map] in Nd. inversion Nd as [|? ? N1 N2]; subst. cbn [filter].
      destruct (_ && _); [|auto]. cbn [map]. constructor; [|auto]. intros I. apply N1. apply in_map_iff in I as (j & S & J). apply filter_In in J as [J _].
      unfold slot in S. injection S as S _ _. rewrite <- S. now apply in_map.
    - intros i. rewrite filter_In, andb_true_iff, Bool.eqb_true_iff. unfold is_free. rewrite Ix by exact Hx. split.
      + intros (I & T & U). apply itype_decides in T. split; [|auto]. split; [exact I|]. intros j J. now apply Fr.
      + intros ((I & _) & T & U). repeat split; auto. now apply itype_decides. }
  assert (Ck : forall t up, count_kind t up idx =
              List.length (filter (fun p => itype_eqb (fst p) t && Bool.eqb (snd p) up) (canonical a b c d e ++ (if 1 <? f_nf f then [(Generation, true)] else [])))).
  { intros t up. rewrite <- K. clear. induction idx as [|i l IH]; [reflexivity|].
    rewrite count_kind_cons, IH. cbn [map filter fst snd kind]. now destruct (itype_eqb (ix_type i) t && Bool.eqb (ix_up i) up). }
  assert (Rp : forall (p : itype * bool) n (P : itype * bool -> bool), List.length (filter P (repeat p n)) = if P p then n else 0).
  { intros p n P. induction n as [|n IH]; cbn; [now destruct (P p)|]. destruct (P p); cbn; rewrite IH; reflexivity. }
  assert (Cv : forall t up, t <> Generation -> count_kind t up idx =
             match t, up with Undotted, true => a | Dotted, true => b | Colour, true => c | Colour, false => d | Isospin, true => e | _, _ => 0 end).
  { intros t up Ng. rewrite Ck. unfold canonical. rewrite !filter_app, !app_length, !Rp. cbn [fst snd].
    assert (G : List.length (filter (fun p : itype * bool => itype_eqb (fst p) t && Bool.eqb (snd p) up) (if 1 <? f_nf f then [(Generation, true)] else [])) = 0).
    { destruct (1 <? f_nf f); [|reflexivity]. cbn [filter fst]. destruct t; try reflexivity. congruence. }
    rewrite G. destruct t, up; cbn [itype_eqb Bool.eqb andb]; try lia; congruence. }
  split; [|split; [|split; [|split; [|split]]]].
  - split; [|split; [|split; [|split; [|split; [|split]]]]]; cbn [obj_tensors].
    + eexists [_], []. reflexivity.
    + unfold proper_op. rewrite Ix by reflexivity. clear - Nd. induction idx as [|i idx IH]; [constructor|]. cbn [map] in *. inversion Nd as [|? ? N1 N2]; subst.
      constructor; [|auto]. intros I. apply N1. apply in_map_iff in I as (j & S & J). unfold slot in S. injection S as S _ _. rewrite <- S. now apply in_map.
    + rewrite Ix by reflexivity. exact Cl.
    + intros i [I _] Ht. rewrite Ix in I by reflexivity. destruct (ix_up i) eqn:U; [reflexivity|]. exfalso.
      assert (Z : count_kind (ix_type i) false idx = 0).
      { rewrite Cv; [|destruct Ht as [-> | [-> | ->]]; discriminate]. now destruct Ht as [-> | [-> | ->]]. }
      rewrite count_kind_and in Z. apply length_zero_iff_nil in Z. assert (In i []) by (rewrite <- Z; apply filter_In; split; [exact I|]; rewrite U; cbn; rewrite andb_true_r; now apply itype_decides). contradiction.
    + intros t up Ng. exists (count_kind t up idx). split; [|now apply Nm]. rewrite Cv by exact Ng. destruct t, up; lia.
    + cbn [i_indices i_field f_dynkin]. rewrite Ed, get_dynkin_ok.
      { rewrite !Cv by discriminate. rewrite !show_nat_digit by apply Lt. reflexivity. }
      rewrite kinds_ok_map, K, forallb_app. apply andb_true_iff. split; [|now destruct (1 <? f_nf f)].
      assert (Rf : forall (p : itype * bool) n (P : itype * bool -> bool), P p = true -> forallb P (repeat p n) = true).
      { intros p n P Hp. induction n as [|n IH]; [reflexivity|]. cbn. now rewrite Hp, IH. }
      unfold canonical. rewrite !forallb_app, !andb_true_iff. repeat split; now apply Rf.
    + intros i I. split; [rewrite Ix by reflexivity; exact I|]. intros j J. rewrite Ix in J by reflexivity. apply Fr; [exact I|exact J].
  - unfold dressed. cbn [i_field]. reflexivity.
  - cbn [i_indices]. exact Mk.
  - exact Mono.
  - intros t Ht. rewrite (su2_label_five f a b c d e t Ed Lt). split.
    + replace (label_at t a b e) with (count_kind t true idx); [now apply Nm|]. rewrite Cv; [|destruct Ht as [-> | [-> | ->]]; discriminate]. now destruct Ht as [-> | [-> | ->]].
    + replace 0 with (count_kind t false idx); [now apply Nm|]. rewrite Cv; [|destruct Ht as [-> | [-> | ->]]; discriminate]. now destruct Ht as [-> | [-> | ->]].
  - intros up. rewrite (colour_label_five f a b c d e up Ed Lt). replace (if up then c else d) with (count_kind Colour up idx); [now apply Nm|].
    rewrite Cv by discriminate. now destruct up.
Qed.

Definition older (st : counters) (i : index) : Prop := exists t n, ix_name i = fresh_name t n /\ n < st t.

Definition well_made (f : field) : Prop := exists a b c d e, field_ok f a b c d e /\ rank (f_symmetry f) = a + b + c + d + e.

Definition labelled (f : field) : Prop := exists a b c d e, f_dynkin f = five a b c d e /\ (a < 10 /\ b < 10 /\ c < 10 /\ d < 10 /\ e < 10).

Definition good (st : counters) (fs : list field) (cur : itype -> nat) (op : operator) : Prop :=
  realises fs cur op /\ Forall (older st) (op_indices op).

Lemma older_mono st st' i : (forall t, st t <= st' t) -> older st i -> older st' i.
Proof. intros M (t & n & E & L). exists t, n. split; [exact E|]. specialize (M t). lia. Qed.

Lemma good_mono st st' fs cur op : (forall t, st t <= st' t) -> good st fs cur op -> good st' fs cur op.
Proof. intros M [R O]. split; [exact R|]. eapply Forall_impl; [|exact O]. intros i. now apply older_mono. Qed.

Lemma number_iff op op' t up n : (forall i, ix_type i = t -> (is_free op i <-> is_free op' i)) -> number op t up n -> number op' t up n.
Proof.
  intros H (l & [N I] & L). exists l. split; [|exact L]. split; [exact N|]. intros i. rewrite I. split; intros (F & T & U); (split; [|auto]); now apply H.
Qed.

Lemma number_sum l r op t up n m : apart l r -> (forall i, ix_type i = t -> (is_free op i <-> is_free l i \/ is_free r i)) ->
  number l t up n -> number r t up m -> number op t up (n + m).
Proof.
  intros Ap H (a & La & <-) (b & Lb & <-). exists (a ++ b). split; [eapply lists_app; eauto|]. apply app_length.
Qed.

Lemma total_snoc g fs f : total_label g (fs ++ [f]) = total_label g fs + g f.
Proof. unfold total_label. rewrite map_app. unfold list_sum. rewrite fold_right_app. cbn. rewrite Nat.add_0_r. induction (map g fs); cbn; lia. Qed.

Lemma contract_step o fs cur g irrep ignore st :
  object_ok o -> good st fs cur (obj_tensors o) -> well_made g -> labelled irrep ->
  (forall t, su2_type t -> ignore t = false -> admissible (cur t) (su2_label t g) (su2_label t irrep)) ->
  exists ops st', contract_su2 (CObj o) (CField g) (f_dynkin irrep) ignore st = Ok (ops, st') /\ (forall t, st t <= st' t) /\
    Forall (good st' (fs ++ [g]) (next ignore cur (irrep, g))) ops /\
    List.length ops = step_ways ignore cur (irrep, g) Undotted * step_ways ignore cur (irrep, g) Dotted * step_ways ignore cur (irrep, g) Isospin.
Proof.
  intros Oo ((Nm & Pr & Cl & Fs & Nu & Nc) & Old) (a & b & c & d & e & Fo & Rk) (p & q & r & s & t0 & Ed & Lt) Ad.
  destruct (fresh_object g a b c d e st Fo Rk) as (x & st' & Ef & Ox & Xf & Mk & Mono & Nx & Cx).
  assert (Ap : apart (obj_tensors o) [TField x]).
  { intros i j I J E. rewrite Forall_forall in Old, Mk. destruct (Old i I) as (t1 & n1 & E1 & L1). unfold op_indices in J. cbn in J. rewrite app_nil_r in J.
    destruct (Mk j J) as (t2 & n2 & E2 & L2). rewrite E1, E2 in E. apply fresh_name_inj in E as [-> ->]. lia. }
  assert (Lab : forall t, su2_label t irrep = label_at t p q t0) by (intros t; apply (su2_label_five _ _ _ r s _ _ Ed Lt)).
  destruct (C33_contract_su2 o (OField x) p q r s t0 ignore st' cur (fun t => su2_label t g) Oo Ox Ap) as [H _]; try tauto.
  { intros t Ht. split; [apply Nu, Ht|apply Nx, Ht]. }
  destruct H as (rs & E & Ln & Hr).
  { intros t Ht Ig. rewrite <- Lab. now apply Ad. }
  exists rs, st'. split; [|split; [exact Mono|split]].
  - rewrite Ed. unfold contract_su2 in E |- *. cbn [make_indexed bind fst snd] in E |- *. rewrite Ef. cbn [bind fst snd]. exact E.
  - eapply Forall_impl; [|exact Hr]. cbv beta. clear - Ap Nu Nx Nc Cx Fs Xf Lab Old Mk Mono Oo Ox. intros op (R1 & R2 & R3 & R4 & R5 & R6 & R7 & R8). split.
    + split; [exact R1|]. split; [exact R2|]. split; [exact R3|]. split.
      { rewrite R4, !map_app, Fs. cbn [obj_tensors indexed_fields flat_map app map]. now rewrite Xf. }
      assert (Cu : forall i, ~ su2_type (ix_type i) \/ ignore (ix_type i) = true -> (is_free op i <-> is_free (obj_tensors o) i \/ is_free [TField x] i)) by exact R6.
      split.
      * intros t Ht. split.
        -- unfold next. cbn [fst snd]. destruct (ignore t) eqn:Ig.
           ++ apply (number_sum (obj_tensors o) [TField x]); [exact Ap| |apply Nu, Ht|apply Nx, Ht]. intros i Ti. apply Cu. right. now rewrite Ti.
           ++ rewrite Lab. now apply R5.
        -- exists []. split; [|reflexivity]. split; [constructor|]. intros i. split; [intros []|]. intros (F & T & U). apply R7 in F.
           assert (U' : ix_up i = true); [|congruence]. destruct F as [F|F].
           ++ destruct Oo as (_ & _ & _ & Up & _). apply Up; [exact F|]. now rewrite T.
           ++ destruct Ox as (_ & _ & _ & Up & _). apply Up; [exact F|]. now rewrite T.
      * intros up. rewrite total_snoc. apply (number_sum (obj_tensors o) [TField x]); [exact Ap| |apply Nc|apply Cx]. intros i Ti. apply Cu. left. rewrite Ti. intros [H|[H|H]]; discriminate.
    + apply Forall_forall. intros i I. apply (in_map ix_name), R8 in I. rewrite map_app in I. apply in_app_iff in I as [I|I]; apply in_map_iff in I as (j & Ej & I).
      * rewrite Forall_forall in Old. destruct (Old j I) as (t & n & En & L). exists t, n. split; [congruence|]. specialize (Mono t). lia.
      * cbn [obj_tensors] in I. unfold op_indices in I. cbn in I. rewrite app_nil_r in I. rewrite Forall_forall in Mk. destruct (Mk j I) as (t & n & En & L). exists t, n. split; [congruence|lia].
  - rewrite Ln. unfold step_ways. cbn [fst snd]. now rewrite !Lab.
Qed.

Lemma good_object st fs cur op : good st fs cur op -> (forall t, su2_type t -> cur t < 10) -> (forall up, total_label (colour_label up) fs < 10) -> object_ok (OOp op).
Proof.
  intros ((Nm & Pr & Cl & Fs & Nu & Nc) & _) Cu Cc. split; [exact Nm|]. split; [exact Pr|]. split; [exact Cl|]. cbn [obj_tensors]. split; [|split; [|exact I]].
  - intros i F Ht. destruct (ix_up i) eqn:U; [reflexivity|]. exfalso. destruct (Nu _ Ht) as [_ (l & [_ Hl] & L)]. destruct l; [|discriminate]. apply (Hl i). auto.
  - intros t up Ng. assert (H : su2_type t \/ t = Colour) by (destruct t; try (left; red; auto; fail); [now right|congruence]). destruct H as [Ht| ->].
    + destruct up; [exists (cur t)|exists 0]; (split; [auto; lia|now apply Nu]).
    + exists (total_label (colour_label up) fs). auto.
Qed.

Lemma contract_all_ok fs cur g irrep ignore ops : forall st,
  Forall (good st fs cur) ops -> (forall t, su2_type t -> cur t < 10) -> (forall up, total_label (colour_label up) fs < 10) ->
  well_made g -> labelled irrep -> (forall t, su2_type t -> ignore t = false -> admissible (cur t) (su2_label t g) (su2_label t irrep)) ->
  exists ops' st', contract_all (map (fun op => CObj (OOp op)) ops) (PLeaf g) (f_dynkin irrep) ignore st = (Ok (map (fun op => CObj (OOp op)) ops'), st') /\
    (forall t, st t <= st' t) /\ Forall (good st' (fs ++ [g]) (next ignore cur (irrep, g))) ops' /\
    List.length ops' = List.length ops * (step_ways ignore cur (irrep, g) Undotted * step_ways ignore cur (irrep, g) Dotted * step_ways ignore cur (irrep, g) Isospin).
Proof.
  induction ops as [|op ops IH]; intros st G Cu Cc Wg Li Ad; [exists [], st; cbn; auto|]. apply Forall_cons_iff in G as [G0 G].
  cbn [map contract_all].
  destruct (contract_step (OOp op) fs cur g irrep ignore st (good_object _ _ _ _ G0 Cu Cc) G0 Wg Li Ad) as (rs & st' & E & Mo & Gr & Ln). rewrite E.
  destruct (IH st') as (rs' & st'' & E' & Mo' & Gr' & Ln'); auto.
  { eapply Forall_impl; [|exact G]. intros o. now apply good_mono. }
  rewrite E'. exists (rs ++ rs'), st''. rewrite map_app. split; [reflexivity|]. split; [intros t; specialize (Mo t); specialize (Mo' t); lia|]. split.
  - apply Forall_app. split; [|exact Gr']. eapply Forall_impl; [|exact Gr]. intros o. now apply good_mono.
  - rewrite app_length, Ln, Ln'. cbn [List.length]. lia.
Qed.

Lemma next_bound ignore cur irrep g fs : (forall t, su2_type t -> cur t <= total_label (su2_label t) fs) ->
  (forall t, su2_type t -> ignore t = false -> admissible (cur t) (su2_label t g) (su2_label t irrep)) ->
  forall t, su2_type t -> next ignore cur (irrep, g) t <= total_label (su2_label t) (fs ++ [g]).
Proof.
  intros B Ad t Ht. rewrite total_snoc. specialize (B t Ht). unfold next. cbn [fst snd]. destruct (ignore t) eqn:Ig; [lia|]. destruct (Ad t Ht Ig). lia.
Qed.

Lemma total_prefix g fs rest : total_label g fs <= total_label g (fs ++ rest).
Proof. unfold total_label. rewrite map_app, list_sum_app. lia. Qed.

Lemma consume_ok steps : forall fs cur ignore ops st,
  Forall (good st fs cur) ops -> (forall t, su2_type t -> cur t <= total_label (su2_label t) fs) ->
  Forall (fun s => labelled (fst s) /\ well_made (snd s)) steps ->
  (forall t, su2_type t -> total_label (su2_label t) (fs ++ map snd steps) < 10) -> (forall up, total_label (colour_label up) (fs ++ map snd steps) < 10) ->
  chain_admissible ignore cur steps ->
  exists ops' st', consume (map (fun s => (PLeaf (snd s), fst s)) steps) (map (fun op => CObj (OOp op)) ops) ignore st =
      (Ok (map (fun op => CObj (OOp op)) ops'), mkC [] st') /\
    Forall (good st' (fs ++ map snd steps) (final ignore cur steps)) ops' /\ List.length ops' = List.length ops * chain_ways ignore cur steps.
Proof.
  induction steps as [|[irrep g] steps IH]; intros fs cur ignore ops st G B Ws Su Co Ad.
  - exists ops, st. cbn. rewrite app_nil_r, Nat.mul_1_r. auto.
  - apply Forall_cons_iff in Ws as [[Li Wg] Ws]. cbn [fst snd] in Li, Wg. destruct Ad as [A1 A2]. cbn [fst snd] in A1.
    cbn [map snd fst consume] in *.
    destruct (contract_all_ok fs cur g irrep ignore ops st) as (rs & st' & E & Mo & Gr & Ln); auto.
    { intros t Ht. specialize (Su t Ht). specialize (B t Ht). pose proof (total_prefix (su2_label t) fs (g :: map snd steps)). lia. }
    { intros up. specialize (Co up). pose proof (total_prefix (colour_label up) fs (g :: map snd steps)). lia. }
    rewrite E. destruct (IH (fs ++ [g]) (next ignore cur (irrep, g)) ignore rs st') as (rs' & st'' & E' & Gr' & Ln'); auto.
    { now apply next_bound. }
    { intros t Ht. rewrite <- app_assoc. now apply Su. }
    { intros up. rewrite <- app_assoc. apply Co. }
    rewrite <- app_assoc in Gr'. exists rs', st''. split; [exact E'|]. split; [exact Gr'|]. rewrite Ln', Ln. cbn [chain_ways]. lia.
Qed.

Lemma unload_chain f steps : forall s, unload (chain f steps) s = (f, map (fun s => (PLeaf (snd s), fst s)) steps ++ s).
Proof.
  unfold chain. induction steps as [|x steps IH] using rev_ind; intros s; [reflexivity|]. rewrite fold_left_app. cbn [fold_left unload]. rewrite IH, map_app, <- app_assoc. reflexivity.
Qed.

(** For a product built from the left, whose irreps are possible at every level, the operators are constructed: they hold
    the fields in order, as many free indices of each SU(2) type as the last irrep has (those of an ignored type all stay),
    every colour index, and no index twice; one field alone is returned as it is. *)
Theorem C74_construct_operators :
  forall f steps ignore st,
    well_made f -> Forall (fun s => labelled (fst s) /\ well_made (snd s)) steps ->
    (forall t, su2_type t -> total_label (su2_label t) (f :: map snd steps) < 10) ->
    (forall up, total_label (colour_label up) (f :: map snd steps) < 10) ->
    chain_admissible ignore (fun t => su2_label t f) steps ->
    (steps = [] -> construct_operators (chain f steps) ignore (mkC [] st) = (Ok [CField f], mkC [] st)) /\
    (steps <> [] -> exists ops st',
       construct_operators (chain f steps) ignore (mkC [] st) = (Ok (map (fun op => CObj (OOp op)) ops), mkC [] st') /\
       Forall (realises (f :: map snd steps) (final ignore (fun t => su2_label t f) steps)) ops /\
       List.length ops = chain_ways ignore (fun t => su2_label t f) steps).
Proof.
  intros f steps ignore st Wf Ws Su Co Ad. split; [now intros ->|]. intros Ne. destruct steps as [|[irrep g] steps]; [congruence|]. clear Ne.
  unfold construct_operators. rewrite unload_chain. cbn [c_stack c_counters]. rewrite app_nil_r.
  apply Forall_cons_iff in Ws as [[Li Wg] Ws]. cbn [fst snd] in Li, Wg. destruct Ad as [A1 A2]. cbn [fst snd map] in *. cbn [consume].
  destruct Wf as (a & b & c & d & e & Fo & Rk). destruct (fresh_object f a b c d e st Fo Rk) as (x & st1 & Ef & Ox & Xf & Mk & Mo & Nx & Cx).
  assert (Gx : good st1 [f] (fun t => su2_label t f) (obj_tensors (OField x))).
  { split.
    - destruct Ox as (O1 & O2 & O3 & _). split; [exact O1|]. split; [exact O2|]. split; [exact O3|]. cbn [obj_tensors indexed_fields flat_map app map]. rewrite Xf.
      split; [reflexivity|]. split; [exact Nx|]. intros up. unfold total_label. cbn. rewrite Nat.add_0_r. apply Cx.
    - cbn [obj_tensors]. unfold op_indices. cbn. rewrite app_nil_r. eapply Forall_impl; [|exact Mk]. intros i (t & n & E & L). exists t, n. split; [exact E|lia]. }
  destruct (contract_step (OField x) [f] (fun t => su2_label t f) g irrep ignore st1 Ox Gx Wg Li A1) as (rs & st2 & E & Mo2 & Gr & Ln).
  assert (E0 : contract_all [CField f] (PLeaf g) (f_dynkin irrep) ignore st = (Ok (map (fun op => CObj (OOp op)) rs), st2)).
  { cbn [contract_all]. replace (contract_su2 (CField f) (CField g) (f_dynkin irrep) ignore st) with (Ok (rs, st2) : res (list operator * counters)); [now rewrite app_nil_r|].
    rewrite <- E. unfold contract_su2. cbn [make_indexed bind fst snd]. rewrite Ef. reflexivity. }
  rewrite E0. destruct (consume_ok steps ([f] ++ [g]) (next ignore (fun t => su2_label t f) (irrep, g)) ignore rs st2) as (rs' & st3 & E' & Gr' & Ln'); auto.
  { apply next_bound; auto. intros t Ht. unfold total_label. cbn. lia. }
  exists rs', st3. split; [exact E'|]. split; [eapply Forall_impl; [|exact Gr']; intros o Go; apply Go|]. rewrite Ln', Ln. cbn [chain_ways]. reflexivity.
Qed.

(** the hypotheses at work: two lepton doublets and two Higgs doublets, undotted indices contracted at once, isospin into a
    triplet and then down to a singlet; three isospin indices stay when isospin is ignored *)
Definition lepton : field := mkField (lit "L") (lit "10001") default_charges false (lit "fermi") [[1]; [1]] None 1 [] 3 0 None.
Definition irrep_of (dyn : string) : field := mkField [] (lit dyn) [] false (lit "bose") [] None 1 [] 1 0 None.

Lemma examples_made : well_made lepton /\ well_made doublet /\ well_made triplet.
Proof.
  assert (P : proper default_charges).
  { unfold proper, default_charges. do 3 eexists. split; [reflexivity|]. repeat constructor; cbn; intuition discriminate. }
  repeat split; [exists 1, 0, 0, 0, 1|exists 0, 0, 0, 0, 1|exists 0, 0, 0, 0, 2];
    (split; [split; [reflexivity|]; split; [lia|]; split; [exact P|cbn; auto]|reflexivity]).
Qed.

Definition llhh : list (field * field) := [(irrep_of "00002", lepton); (irrep_of "00001", doublet); (irrep_of "00000", doublet)].

Example C74_example :
  Forall (fun s => labelled (fst s) /\ well_made (snd s)) llhh /\
  (forall t, su2_type t -> total_label (su2_label t) (lepton :: map snd llhh) < 10) /\
  (forall up, total_label (colour_label up) (lepton :: map snd llhh) < 10) /\
  chain_admissible (fun _ => false) (fun t => su2_label t lepton) llhh /\
  chain_ways (fun _ => false) (fun t => su2_label t lepton) llhh = 2 /\
  map (fun t => final (fun _ => false) (fun t => su2_label t lepton) llhh t) [Undotted; Dotted; Isospin] = [0; 0; 0] /\
  map (fun t => final (fun t => itype_eqb t Isospin) (fun t => su2_label t lepton) llhh t) [Undotted; Dotted; Isospin] = [0; 0; 4] /\
  (do ops <- fst (construct_operators (chain lepton llhh) (fun _ => false) (mkC [] (fun _ => 0)));
   Ok (map (fun c => match c with CObj (OOp op) => skipn 4 (op_text op) | _ => [] end) ops)) =
  Ok [[[lit "-u1_"; lit "-u0_"]; [lit "-i0_"; lit "-i2_"]; [lit "-i3_"; lit "-i1_"]];
      [[lit "-u1_"; lit "-u0_"]; [lit "-i1_"; lit "-i2_"]; [lit "-i4_"; lit "-i0_"]]].
Proof.
  destruct examples_made as (H1 & H2 & H3).
  assert (L : forall s, In s ["00000"; "00001"; "00002"]%string -> labelled (irrep_of s)).
  { intros s I. cbn in I. destruct I as [<-|[<-|[<-|[]]]]; [exists 0, 0, 0, 0, 0|exists 0, 0, 0, 0, 1|exists 0, 0, 0, 0, 2]; (split; [reflexivity|lia]). }
  split. { repeat (constructor; [split; [apply L; cbn; auto|assumption]|]). constructor. }
  split. { intros t [-> | [-> | ->]]; vm_compute; lia. }
  split. { intros []; vm_compute; lia. }
  split.
  { unfold llhh. cbn [chain_admissible fst snd].
    assert (Ev : forall n m k, n + m - k = 2 * ((n + m - k) / 2) -> k <= n + m -> admissible n m k) by (intros n m k E K; split; [exact K|eexists; exact E]).
    repeat split; try (apply Ev; destruct H as [-> | [-> | ->]]; vm_compute; lia).
    all: intros t Ht _; apply Ev; destruct Ht as [-> | [-> | ->]]; vm_compute; lia. }
  vm_compute. auto 10.
Qed.

(** The results are not all contractions that are possible: with two indices on either side and two to stay, the second index
    of the left object stays free in every result. *)
Theorem C33_every_way_refuted :
  exists l r i j st rs,
    object_ok l /\ object_ok r /\ apart (obj_tensors l) (obj_tensors r) /\
    is_free (obj_tensors l) i /\ is_free (obj_tensors r) j /\ ix_type i = Isospin /\ ix_type j = Isospin /\ admissible 2 2 2 /\
    contract_su2 (CObj l) (CObj r) (lit "00002") (fun _ => false) st = Ok (rs, st) /\ rs <> [] /\
    forall op, In op rs -> is_free op i.
Proof.
  destruct examples_made as (_ & _ & (a & b & c & d & e & Fo & Rk)).
  destruct (fresh_object triplet a b c d e (fun _ => 0) Fo Rk) as (x & st & E1 & Ox & _ & Mx & _).
  destruct (fresh_object triplet a b c d e st Fo Rk) as (y & st' & E2 & Oy & _ & My & _).
  assert (Ap : apart [TField x] [TField y]).
  { intros i j I J E. unfold op_indices in I, J. cbn in I, J. rewrite app_nil_r in I, J. rewrite Forall_forall in Mx, My.
    destruct (Mx i I) as (t1 & n1 & E1' & L1), (My j J) as (t2 & n2 & E2' & L2). rewrite E1', E2' in E. apply fresh_name_inj in E as [-> ->]. lia. }
  vm_compute in E1. injection E1 as E1 Est. vm_compute in Est. subst st. vm_compute in E2. injection E2 as E2 _.
  exists (OField x), (OField y). subst x y.
  match goal with Ox : object_ok (OField {| i_field := _; i_indices := [_; ?i]; i_index_labels := _ |}) |- context [OField {| i_field := _; i_indices := [_; ?i]; i_index_labels := _ |}] => exists i end.
  match goal with Oy : object_ok (OField {| i_field := _; i_indices := [_; ?i]; i_index_labels := _ |}) |- exists j st rs, object_ok _ /\ object_ok (OField {| i_field := _; i_indices := [_; ?i]; i_index_labels := _ |}) /\ _ => exists i end.
  exists (fun _ => 0). eexists.
  split; [exact Ox|]. split; [exact Oy|]. split; [exact Ap|].
  split; [apply free_indices_spec; vm_compute; auto|]. split; [apply free_indices_spec; vm_compute; auto|]. split; [reflexivity|]. split; [reflexivity|].
  split; [split; [lia|exists 1; reflexivity]|]. split; [vm_compute; reflexivity|]. split; [discriminate|].
  intros op [<-|[<-|[]]]; apply free_indices_spec; vm_compute; auto.
Qed.

Print Assumptions C34_shared_stack.
Print Assumptions C34_after_error_refuted.
Print Assumptions C74_construct_operators.
Print Assumptions C33_every_way_refuted.
