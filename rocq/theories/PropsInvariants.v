(** * PropsInvariants: C93, the operators of a product of fields *)

From Coq Require Import Ascii String List Bool Arith ZArith QArith Qcanon Lia Permutation Sorted.
From Verif Require Import Base BaseFacts Show ModelFunctions ModelIndex SpecIndex ProofsIndex ModelField SpecField ProofsField ProofsField2 PropsField2
  ModelContract SpecContract ProofsContract PropsContract PropsContract2 PropsContract3 PropsContract4 ModelPartition ModelLagrangian ModelInvariants SpecInvariants.
From Verif Require Spec PropsLagrangian6.
Import ListNotations.
Local Open Scope nat_scope.

Section Levels.
  Variable ip : str -> str -> list (list nat * nat).

  (** the irreps on the way *)
  Inductive levels : field -> list (field * field) -> field -> Prop :=
  | lv_nil f : levels f [] f
  | lv_cons f x g steps r w m : In (w, m) (ip (f_dynkin f) (f_dynkin g)) -> f_dynkin x = concat (map show_nat w) -> levels x steps r ->
      levels f ((x, g) :: steps) r.

  Definition grow (t : prod_tree) (steps : list (field * field)) : prod_tree := fold_left (fun t s => PNode (fst s) t (PLeaf (snd s))) steps t.

  Lemma walked_simple f : f_history f = None -> walked f = PLeaf f.
  Proof. intros H. destruct f. simpl in H |- *. now subst. Qed.

  Lemma mul_field_in f g l x : mul_field ip f g = Ok l -> In x l ->
    f_history x = Some (f, g) /\ exists w m, In (w, m) (ip (f_dynkin f) (f_dynkin g)) /\ f_dynkin x = concat (map show_nat w).
  Proof.
    unfold mul_field. cbv zeta. intros E I. apply bind_ok in E as ([] & _ & E). apply bind_ok in E as (ch & _ & E). apply mapM_Forall2 in E.
    induction E as [|[w m] y ps l H E IH]; [destruct I|]. destruct I as [<-|I].
    - unfold mk_field_ints in H. apply bind_ok in H as (tx & _ & H). injection H as <-. cbn [f_history f_dynkin fst].
      split; [reflexivity|]. exists w, m. split; [now left|reflexivity].
    - destruct (IH I) as (H1 & w' & m' & H2 & H3). split; [exact H1|]. exists w', m'. split; [now right|exact H3].
  Qed.

  Lemma walked_product x f g : f_history x = Some (f, g) -> f_history g = None -> walked x = PNode x (walked f) (PLeaf g).
  Proof. intros H Hg. rewrite <- (walked_simple g Hg). destruct x. simpl in H |- *. now subst. Qed.

  Lemma decompose_levels rst : forall f g l r, decompose ip f g rst = Ok l -> In r l -> Forall (fun h => f_history h = None) (g :: rst) ->
    exists steps, map snd steps = g :: rst /\ levels f steps r /\ walked r = grow (walked f) steps.
  Proof.
    induction rst as [|z rst IH]; intros f g l r E I H; cbn [decompose] in E; apply bind_ok in E as (m & Em & E); apply Forall_cons_iff in H as [Hg H].
    - injection E as <-. destruct (mul_field_in _ _ _ _ Em I) as (Hh & w & k & Hw & Hd). exists [(r, g)]. split; [reflexivity|]. split.
      + exact (lv_cons f r g [] r w k Hw Hd (lv_nil r)).
      + cbn [grow fold_left fst snd]. now apply walked_product.
    - apply bind_ok in E as (ls & Es & E). injection E as <-. destruct (mapM_concat_In _ _ _ _ Es I) as (x & lx & Ix & El & Ir).
      destruct (mul_field_in _ _ _ _ Em Ix) as (Hh & w & k & Hw & Hd). destruct (IH _ _ _ _ El Ir H) as (steps & M & Lv & W).
      exists ((x, g) :: steps). cbn [map snd]. rewrite M. split; [reflexivity|]. split; [exact (lv_cons f x g steps r w k Hw Hd Lv)|].
      rewrite W. cbn [grow fold_left fst snd]. unfold grow. f_equal. now apply walked_product.
  Qed.

  Hypothesis Rule : selection_rule ip.

  Definition made (f : field) : Prop := exists a b c d e, field_ok f a b c d e /\ rank (f_symmetry f) = a + b + c + d + e.

  Lemma made_labelled f : made f -> labelled f.
  Proof. intros (a & b & c & d & e & (E & L & _) & _). now exists a, b, c, d, e. Qed.

  Lemma triangle_admissible a b p : triangle a b p -> admissible a b p.
  Proof. intros (H1 & _ & _ & k & Hk). split; [exact H1|]. exists (k - p). lia. Qed.

  Lemma colour_label_five f a b c d e up : f_dynkin f = five a b c d e -> a < 10 /\ b < 10 /\ c < 10 /\ d < 10 /\ e < 10 ->
    colour_label up f = if up then c else d.
  Proof. intros E B. unfold colour_label. rewrite E, digits_five by exact B. destruct up; reflexivity. Qed.

  Lemma triangle_ways a b p : triangle a b p -> 0 < ways a b p.
  Proof.
    intros (H1 & H2 & H3 & k & Hk). unfold ways. destruct (p =? a + b); [lia|]. replace ((a + b - p) / 2 <=? Nat.min a b) with true; [apply lt_O_fact|].
    symmetry. apply Nat.leb_le. replace (a + b - p) with ((k - p) * 2) by lia. rewrite Nat.div_mul by lia. lia.
  Qed.

  (** everything that the contraction needs *)
  Lemma levels_ok f steps r : levels f steps r -> forall ignore cur, labelled f -> Forall made (map snd steps) ->
    (forall t, su2_type t -> ignore t = false -> cur t = su2_label t f) ->
    (forall t, su2_type t -> su2_label t f + total_label (su2_label t) (map snd steps) < 10) ->
    colour_label true f + colour_label false f + total_label (colour_label true) (map snd steps) + total_label (colour_label false) (map snd steps) < 10 ->
    Forall (fun s => labelled (fst s)) steps /\ (chain_admissible ignore cur steps /\ 0 < chain_ways ignore cur steps) /\
    (labelled r /\ forall t, su2_type t -> Nat.Even (su2_label t f + total_label (su2_label t) (map snd steps) + su2_label t r)) /\
    (forall t, su2_type t -> final ignore cur steps t = if ignore t then cur t + total_label (su2_label t) (map snd steps) else su2_label t r).
  Proof.
    induction 1 as [f|f x g steps r w m Hw Hd Lv IH]; intros ignore cur Lf Mg Hc Su Co.
    - split; [constructor|]. split; [split; [exact I|cbn; lia]|]. split; [split; [exact Lf|]; intros t Ht; exists (su2_label t f); cbn; lia|]. intros t Ht. cbn [final fold_left map total_label list_sum fold_right].
      unfold total_label. cbn. destruct (ignore t) eqn:G; [now rewrite Nat.add_0_r|now apply Hc].
    - cbn [map snd] in *. apply Forall_cons_iff in Mg as [Mg Ms]. unfold total_label in Su, Co. cbn [map] in Su, Co.
      destruct Lf as (a & b & c & d & e & Ef & Bf). destruct (made_labelled g Mg) as (a' & b' & c' & d' & e' & Eg & Bg).
      pose proof Hw as Hw'. rewrite Ef, Eg in Hw'.
      destruct (Rule a b c d e a' b' c' d' e' Bf Bg w m Hw') as (p & q & rr & s & t0 & -> & T1 & T2 & T3 & T4).
      assert (Lab : forall t, su2_type t -> triangle (su2_label t f) (su2_label t g) (label_at t p q t0)).
      { intros t Ht. rewrite (su2_label_five f _ _ _ _ _ t Ef Bf), (su2_label_five g _ _ _ _ _ t Eg Bg).
        destruct Ht as [-> | [-> | ->]]; cbn [label_at]; assumption. }
      rewrite (colour_label_five f _ _ _ _ _ true Ef Bf), (colour_label_five f _ _ _ _ _ false Ef Bf) in Co. cbn [list_sum fold_right] in Co, Su.
      rewrite (colour_label_five g _ _ _ _ _ true Eg Bg), (colour_label_five g _ _ _ _ _ false Eg Bg) in Co.
      assert (Bx : p < 10 /\ q < 10 /\ rr < 10 /\ s < 10 /\ t0 < 10).
      { pose proof (Lab Undotted (or_introl eq_refl)) as (P1 & _). pose proof (Lab Dotted (or_intror (or_introl eq_refl))) as (P2 & _).
        pose proof (Lab Isospin (or_intror (or_intror eq_refl))) as (P3 & _). cbn [label_at] in P1, P2, P3.
        pose proof (Su Undotted (or_introl eq_refl)). pose proof (Su Dotted (or_intror (or_introl eq_refl))). pose proof (Su Isospin (or_intror (or_intror eq_refl))). lia. }
      assert (Ex : f_dynkin x = five p q rr s t0).
      { rewrite Hd. cbn [map concat]. destruct Bx as (B1 & B2 & B3 & B4 & B5). rewrite !show_nat_digit by assumption. reflexivity. }
      assert (Lx : labelled x) by (exists p, q, rr, s, t0; auto).
      assert (Sx : forall t, su2_label t x = label_at t p q t0) by (intros t; apply (su2_label_five x _ _ _ _ _ t Ex Bx)).
      destruct (IH ignore (next ignore cur (x, g)) Lx Ms) as (F1 & (F2 & F5) & (F3 & F6) & F4).
      + intros t Ht G. unfold next. rewrite G. reflexivity.
      + intros t Ht. specialize (Su t Ht). destruct (Lab t Ht) as (P & _). rewrite Sx. unfold total_label, list_sum. lia.
      + rewrite (colour_label_five x _ _ _ _ _ true Ex Bx), (colour_label_five x _ _ _ _ _ false Ex Bx). unfold total_label, list_sum. lia.
      + split; [now constructor|]. split; [|split; [split; [exact F3|]|]].
        * split.
          -- cbn [chain_admissible fst snd]. split; [|exact F2]. intros t Ht G. rewrite (Hc t Ht G), Sx. apply triangle_admissible, Lab, Ht.
          -- assert (W : forall t, su2_type t -> 0 < step_ways ignore cur (x, g) t).
             { intros t Ht. unfold step_ways. destruct (ignore t) eqn:G; [lia|]. cbn [fst snd]. rewrite (Hc t Ht G), Sx. apply triangle_ways, Lab, Ht. }
             cbn [chain_ways]. repeat apply Nat.mul_pos_pos; try apply W; unfold su2_type; auto.
        * intros t Ht. destruct (Lab t Ht) as (_ & _ & _ & k & Hk). destruct (F6 t Ht) as (k' & Hk'). rewrite Sx in Hk'. exists (k + k' - label_at t p q t0).
          unfold total_label, list_sum in *. cbn [map fold_right]. lia.
        * intros t Ht. change (final ignore cur ((x, g) :: steps) t) with (final ignore (next ignore cur (x, g)) steps t). rewrite (F4 t Ht).
          destruct (ignore t) eqn:G; [|reflexivity]. unfold next. cbn [fst snd]. rewrite G. unfold total_label, list_sum. cbn [map fold_right]. lia.
  Qed.
End Levels.

Lemma colour_one op st n m : normal op -> proper_op op -> Forall clean (op_indices op) -> number op Colour true n -> number op Colour false m ->
  (colour_matches n m -> exists rs, colour_singlets_one false op st = Ok (rs, st) /\ coloured n m op rs) /\
  (~ colour_matches n m -> colour_singlets_one false op st = Err ValueError).
Proof.
  intros N P C Hn Hm. destruct (C31_colour_singlets op st n m N P C Hn Hm) as (ups & downs & Lu & Ld & H1 & H2 & H3 & H4). split.
  - intros [E|[[E1 E2]|[E1 E2]]].
    + destruct (H1 E) as (perms & sp & rs & E0 & Nd & Pm & F & Ct & Ln). eexists. split; [exact E0|]. left. split; [exact E|].
      exists ups, downs, perms, sp, rs. repeat (split; [assumption || reflexivity|]). assumption.
    + destruct (H2 E1 E2) as (r & E0 & Ct). eexists. split; [exact E0|]. right. left. eauto.
    + destruct (H3 E1 E2) as (r & E0 & Ct). eexists. split; [exact E0|]. right. right. eauto.
  - intros Nm. apply H4; intros E; apply Nm; unfold colour_matches; tauto.
Qed.

Lemma colour_list n m ops st : Forall (fun op => normal op /\ proper_op op /\ Forall clean (op_indices op) /\ number op Colour true n /\ number op Colour false m) ops ->
  (colour_matches n m -> exists rss, colour_singlets false ops st = Ok (concat rss, st) /\ Forall2 (coloured n m) ops rss) /\
  (~ colour_matches n m -> colour_singlets false ops st = if match ops with [] => true | _ => false end then Ok ([], st) else Err ValueError).
Proof.
  intros H. split; intros C.
  - induction H as [|op ops (N & P & Cl & Hn & Hm) H (rss & E & F)]; [exists []; split; [reflexivity|constructor]|].
    destruct (proj1 (colour_one op st n m N P Cl Hn Hm) C) as (rs & E1 & C1). exists (rs :: rss). cbn [colour_singlets]. rewrite E1. cbn [bind fst snd].
    rewrite E. split; [reflexivity|now constructor].
  - destruct H as [|op ops (N & P & Cl & Hn & Hm) H]; [reflexivity|]. cbn [colour_singlets]. now rewrite (proj2 (colour_one op st n m N P Cl Hn Hm) C).
Qed.

Lemma as_operators_ok ops : as_operators (map (fun op => CObj (OOp op)) ops) = Ok ops.
Proof. unfold as_operators. induction ops as [|op ops IH]; [reflexivity|]. cbn [map mapM bind]. rewrite IH. reflexivity. Qed.

Lemma colour_bound fs up : all_colours true fs + all_colours false fs < 10 -> total_label (colour_label up) fs < 10.
Proof. unfold all_colours. destruct up; lia. Qed.

Section Main.
  Variable ip : str -> str -> list (list nat * nat).
  Hypothesis Rule : selection_rule ip.
  Variables (f g : field) (rst : list field).
  Hypothesis M : multiplied (f :: g :: rst).
  Variable ignore : itype -> bool.

  Let fs := f :: g :: rst.
  Let n := all_colours true fs.
  Let m := all_colours false fs.

  Lemma one_singlet r st : f_dynkin r = lit "00000" -> (exists l, decompose ip f g rst = Ok l /\ In r l) ->
    exists ops st', construct_operators (walked r) ignore (mkC [] st) = (Ok (map (fun op => CObj (OOp op)) ops), mkC [] st') /\
      made_in ignore f (g :: rst) r (List.length ops) /\ ops <> [] /\ Forall (realises fs (left_over ignore fs)) ops.
  Proof using Rule M.
    intros S (l & E & I). destruct M as [Mm Ms Mc Mt Mf Mk]. apply Forall_cons_iff in Ms as [Hf Ms]. apply Forall_cons_iff in Mm as [Wf Mm].
    destruct (decompose_levels ip rst f g l r E I Ms) as (steps & Sn & Lv & W). rewrite (walked_simple f Hf) in W. change (walked r = chain f steps) in W.
    destruct (levels_ok ip Rule f steps r Lv ignore (fun t => su2_label t f) (made_labelled f Wf)) as (F1 & (F2 & F5) & (F3 & F6) & F4).
    - rewrite Sn. exact Mm.
    - reflexivity.
    - intros t Ht. rewrite Sn. exact (Mf t Ht).
    - rewrite Sn. unfold all_colours, total_label in *. cbn [map list_sum fold_right] in *. lia.
    - destruct (C74_construct_operators f steps ignore st) as [_ H]; try assumption.
      + apply Forall_forall. intros s Is. rewrite Forall_forall in F1. split; [now apply F1|]. rewrite <- Sn in Mm. rewrite Forall_forall in Mm. apply (Mm (snd s)). now apply in_map.
      + rewrite Sn. exact Mf.
      + rewrite Sn. intros up. now apply colour_bound.
      + destruct H as (ops & st' & E' & R & Ln). { intros ->. discriminate Sn. } exists ops, st'. rewrite W. split; [exact E'|]. split.
        * exists steps. split; [exact W|]. split; [exact Sn|exact Ln].
        * split; [intros ->; cbn [List.length] in Ln; lia|]. rewrite Sn in R. eapply Forall_impl; [|exact R]. intros op (R1 & R2 & R3 & R4 & R5 & R6). repeat (split; [assumption|]). split; [|exact R6].
          intros t Ht. destruct (R5 t Ht) as [R7 R8]. split; [|exact R8]. rewrite (F4 t Ht), Sn in R7. unfold left_over, all_labels. fold fs.
          destruct (ignore t); [exact R7|]. replace (su2_label t r) with 0 in R7; [exact R7|]. unfold su2_label. rewrite S. destruct Ht as [-> | [-> | ->]]; reflexivity.
  Qed.

  Lemma singlet_parity r l t : f_dynkin r = lit "00000" -> decompose ip f g rst = Ok l -> In r l -> su2_type t -> Nat.Even (all_labels t fs).
  Proof using Rule M ignore.
    intros S E I Ht. destruct M as [Mm Ms Mc Mt Mf Mk]. apply Forall_cons_iff in Ms as [Hf Ms]. apply Forall_cons_iff in Mm as [Wf Mm].
    destruct (decompose_levels ip rst f g l r E I Ms) as (steps & Sn & Lv & _).
    destruct (levels_ok ip Rule f steps r Lv ignore (fun t => su2_label t f) (made_labelled f Wf)) as (_ & _ & (_ & F6) & _).
    - rewrite Sn. exact Mm.
    - reflexivity.
    - intros t' Ht'. rewrite Sn. exact (Mf t' Ht').
    - rewrite Sn. unfold all_colours, total_label in *. cbn [map list_sum fold_right] in *. lia.
    - specialize (F6 t Ht). rewrite Sn in F6. replace (su2_label t r) with 0 in F6 by (unfold su2_label; rewrite S; destruct Ht as [-> | [-> | ->]]; reflexivity).
      rewrite Nat.add_0_r in F6. exact F6.
  Qed.

  Lemma operators_of_ok singlets : forall st, Forall (fun r => f_dynkin r = lit "00000" /\ exists l, decompose ip f g rst = Ok l /\ In r l) singlets ->
    exists opss, Forall2 (fun r ops => made_in ignore f (g :: rst) r (List.length ops) /\ ops <> [] /\ Forall (realises fs (left_over ignore fs)) ops) singlets opss /\
      (ignore Colour = true -> exists st', operators_of singlets ignore (mkC [] st) = (Ok (concat opss), mkC [] st')) /\
      (ignore Colour = false -> colour_matches n m -> exists rss st', operators_of singlets ignore (mkC [] st) = (Ok (concat rss), mkC [] st') /\
         Forall2 (coloured n m) (concat opss) rss) /\
      (ignore Colour = false -> ~ colour_matches n m -> exists st', operators_of singlets ignore (mkC [] st) =
         (if match concat opss with [] => true | _ => false end then Ok [] else Err ValueError, mkC [] st')).
  Proof using Rule M.
    induction singlets as [|r singlets IH]; intros st H.
    - exists []. split; [constructor|]. split; [exists st; reflexivity|]. split; [exists [], st; split; [reflexivity|constructor]|exists st; reflexivity].
    - apply Forall_cons_iff in H as [[S D] H]. destruct (one_singlet r st S D) as (ops & st1 & E & Mi & Ne & R).
      assert (Cs : Forall (fun op => normal op /\ proper_op op /\ Forall clean (op_indices op) /\ number op Colour true n /\ number op Colour false m) ops).
      { eapply Forall_impl; [|exact R]. intros op (R1 & R2 & R3 & R4 & R5 & R6). repeat (split; [assumption|]). split; apply R6. }
      destruct (colour_list n m ops st1 Cs) as [C1 C2]. destruct (IH st1 H) as (opss & F & I1 & I2 & I3). exists (ops :: opss). split; [now constructor|].
      cbn [operators_of]. rewrite E, as_operators_ok. cbn [bind c_counters c_stack concat]. split; [|split].
      + intros G. rewrite G. destruct (I1 G) as (st' & E'). rewrite E'. exists st'. reflexivity.
      + intros G Cm. rewrite G. destruct (C1 Cm) as (rss & E1 & F1). rewrite E1. destruct (I2 G Cm) as (rss' & st' & E' & F'). rewrite E'.
        exists (rss ++ rss'), st'. rewrite concat_app. split; [reflexivity|]. now apply Forall2_app.
      + intros G Cm. rewrite G, (C2 Cm). destruct (I3 G Cm) as (st' & E'). destruct ops as [|op ops]; [|exists st1; reflexivity]. rewrite E'. exists st'. cbn [app].
        destruct (concat opss); reflexivity.
  Qed.

  Lemma singlets_selected l bs : mapM (fun f0 => do b <- is_singlet f0; Ok (f0, b)) l = Ok bs -> Forall (fun r => exists y, dget str_eqb (f_charges r) (lit "y") = Some y) l ->
    selected neutral l (map fst (filter snd bs)).
  Proof using Type.
    intros E H. revert bs E. induction H as [|r l Hr H IH]; intros bs E; cbn [mapM] in E; [injection E as <-; constructor|].
    destruct (PropsLagrangian6.is_singlet_ok r Hr) as (b & Eb & Hb). rewrite Eb in E. cbn [bind] in E. apply bind_ok in E as (bs' & E' & E). injection E as <-.
    cbn [filter snd]. destruct b; cbn [map fst].
    - apply sel_take; [now apply Hb|now apply IH].
    - apply sel_skip; [|now apply IH]. intros Nr. apply Hb in Nr. discriminate.
  Qed.

  Lemma selected_in {A} (P : A -> Prop) l l' : selected P l l' -> Forall (fun x => P x /\ In x l) l'.
  Proof using Type.
    induction 1 as [|x l l' Hx S IH|x l l' Hx S IH].
    - constructor.
    - constructor; [split; [exact Hx|now left]|]. eapply Forall_impl; [|exact IH]. cbn [In]. tauto.
    - eapply Forall_impl; [|exact IH]. cbn [In]. tauto.
  Qed.

  Lemma selected_none {A} (P : A -> Prop) l l' : selected P l l' -> Forall (fun x => ~ P x) l -> l' = [].
  Proof using Type. induction 1 as [|x l l' Hx S IH|x l l' Hx S IH]; intros H; [reflexivity| |]; apply Forall_cons_iff in H as [H1 H2]; [contradiction|auto]. Qed.

End Main.

(** ** C93 *)

(** [unsimplified_invariants] of two or more fields: the neutral singlets of their product, in order; for each of them the
    operators its way through the irreps admits, at least one, each made of exactly these fields and with no SU(2) index left unless the
    type is ignored; and colour indices contracted in every possible way.  Without neutral singlet there is no operator; there is none
    when the hypercharges do not add up to zero or a type of SU(2) indices is odd in number.  When
    there is one and colour indices do not match, a ValueError is raised.  The shared stack is empty afterwards in any case. *)
Theorem C93_invariants :
  forall irrep_product f g rst ignore st,
    selection_rule irrep_product -> multiplied (f :: g :: rst) ->
    let fs := f :: g :: rst in
    let n := all_colours true fs in
    let m := all_colours false fs in
    exists products singlets opss st',
      decompose_product irrep_product fs = Ok (inr products) /\ selected neutral products singlets /\
      (total fs (lit "y") <> Q2Qc 0 -> singlets = []) /\ (forall t, su2_type t -> Nat.Odd (all_labels t fs) -> singlets = []) /\
      Forall2 (fun r ops => made_in ignore f (g :: rst) r (List.length ops) /\ ops <> [] /\ Forall (realises fs (left_over ignore fs)) ops) singlets opss /\
      (ignore Colour = true -> unsimplified_invariants irrep_product fs ignore (mkC [] st) = (Ok (concat opss), mkC [] st')) /\
      (ignore Colour = false -> colour_matches n m -> exists rss,
         unsimplified_invariants irrep_product fs ignore (mkC [] st) = (Ok (concat rss), mkC [] st') /\ Forall2 (coloured n m) (concat opss) rss) /\
      (ignore Colour = false -> ~ colour_matches n m ->
         (singlets = [] -> unsimplified_invariants irrep_product fs ignore (mkC [] st) = (Ok [], mkC [] st')) /\
         (singlets <> [] -> unsimplified_invariants irrep_product fs ignore (mkC [] st) = (Err ValueError, mkC [] st'))).
Proof.
  intros ip f g rst ignore st Rule M fs n m. pose proof M as [Mm Ms Mc Mt Mf Mk].
  assert (P : proper (f_charges f)). { apply Forall_inv in Mm. destruct Mm as (a & b & c & d & e & (_ & _ & P & _) & _). exact P. }
  destruct (Forall_inv Mt) as (tex & T).
  assert (Sk : Forall (same_keys f) (g :: rst)). { apply Forall_forall. intros h I. apply Mc; [now left|now right]. }
  destruct (decompose_ok ip rst f g tex P T Sk) as (l & E & H). unfold fs, unsimplified_invariants. cbn [decompose_product]. rewrite E. cbn [bind].
  assert (Hy : Forall (fun r => exists y, dget str_eqb (f_charges r) (lit "y") = Some y) l).
  { eapply Forall_impl; [|exact H]. intros r ((y & b & r0 & -> & _) & _). exists y. reflexivity. }
  assert (Em : exists bs, mapM (fun f0 => do b <- is_singlet f0; Ok (f0, b)) l = Ok bs).
  { clear - Hy. induction Hy as [|r l Hr H (bs & E)]; [now exists []|]. destruct (PropsLagrangian6.is_singlet_ok r Hr) as (b & Eb & _). cbn [mapM]. rewrite Eb. cbn [bind]. rewrite E. cbn [bind]. eauto. }
  destruct Em as (bs & Em). rewrite Em. pose proof (singlets_selected l bs Em Hy) as Sel. set (singlets := map fst (filter snd bs)) in *.
  assert (Fs : Forall (fun r => f_dynkin r = lit "00000" /\ exists l, decompose ip f g rst = Ok l /\ In r l) singlets).
  { eapply Forall_impl; [|exact (selected_in _ _ _ Sel)]. intros r [[N _] I]. split; [exact N|]. exists l. split; [exact E|exact I]. }
  destruct (operators_of_ok ip Rule f g rst M ignore singlets st Fs) as (opss & F & H1 & H2 & H3). fold fs n m in F, H1, H2, H3.
  assert (Z : total fs (lit "y") <> Q2Qc 0 -> singlets = []).
  { intros Ny. apply (selected_none _ _ _ Sel). eapply Forall_impl; [|exact H]. intros r (_ & _ & Hc & _) [_ N]. apply Ny. transitivity (charge_of r (lit "y")); [symmetry; apply Hc|exact N]. }
  assert (Od : forall t, su2_type t -> Nat.Odd (all_labels t fs) -> singlets = []).
  { intros t Ht O. destruct singlets as [|r ss] eqn:Es; [reflexivity|]. exfalso. apply Forall_inv in Fs as [Sr (l' & El & Ir)].
    apply (Nat.Even_Odd_False (all_labels t fs)); [|exact O]. exact (singlet_parity ip Rule f g rst M ignore r l' t Sr El Ir Ht). }
  assert (Dec : {colour_matches n m} + {~ colour_matches n m}).
  { unfold colour_matches. destruct (Nat.eq_dec n m); [left; tauto|]. destruct (Nat.eq_dec n 3), (Nat.eq_dec m 0), (Nat.eq_dec n 0), (Nat.eq_dec m 3); try (left; tauto); right; tauto. }
  destruct (ignore Colour) eqn:G; [|destruct Dec as [Cm|Cm]].
  - destruct (H1 eq_refl) as (st' & E'). exists l, singlets, opss, st'. repeat (split; [assumption || reflexivity|]). split; [intros _; exact E'|]. split; discriminate.
  - destruct (H2 eq_refl Cm) as (rss & st' & E' & F'). exists l, singlets, opss, st'. repeat (split; [assumption || reflexivity|]). split; [discriminate|].
    split; [intros _ _; exists rss; split; assumption|]. intros _ N. contradiction.
  - destruct (H3 eq_refl Cm) as (st' & E'). exists l, singlets, opss, st'. repeat (split; [assumption || reflexivity|]). split; [discriminate|].
    split; [intros _ N; contradiction|]. intros _ _. rewrite E'. split; intros Hs.
    + rewrite Hs in F. inversion F. reflexivity.
    + destruct F as [|r ops ss opss (_ & Ne & _) F]; [now destruct Hs|]. destruct ops as [|op ops]; [now destruct Ne|]. reflexivity.
Qed.

(** One field is not a product and no field is none: both are errors, and the shared state is left alone. *)
Theorem C93_edge_cases :
  forall irrep_product ignore s,
    (forall f, unsimplified_invariants irrep_product [f] ignore s = (Err TypeError, s)) /\
    unsimplified_invariants irrep_product [] ignore s = (Err ValueError, s) /\
    (forall f g rst, ~ same_keys f g -> unsimplified_invariants irrep_product (f :: g :: rst) ignore s = (Err AssertionError, s)).
Proof.
  intros ip ignore s. split; [reflexivity|]. split; [reflexivity|]. intros f g rst N. unfold unsimplified_invariants.
  destruct (C30_edge_cases ip) as (_ & _ & H). now rewrite (H f g rst N).
Qed.

(** ** Examples *)

(** a product for labels of which at most one is coloured, or both are triplets or antitriplets *)
Definition digits_of (s : str) : list nat := map (fun c => nat_of_ascii c - 48) s.
Definition spins (a b : nat) : list nat := map (fun k => a + b - 2 * k) (seq 0 (1 + Nat.min a b)).
Definition su3_product (x y : nat * nat) : list (nat * nat) :=
  match x, y with
  | (0, 0), _ => [y]
  | _, (0, 0) => [x]
  | (1, 0), (1, 0) => [(2, 0); (0, 1)]
  | (0, 1), (0, 1) => [(0, 2); (1, 0)]
  | (1, 0), (0, 1) | (0, 1), (1, 0) => [(1, 1); (0, 0)]
  | _, _ => []
  end.
Definition small_product (x y : str) : list (list nat * nat) :=
  match digits_of x, digits_of y with
  | [a; b; c; d; e], [a'; b'; c'; d'; e'] =>
    flat_map (fun p => flat_map (fun q => flat_map (fun rs => map (fun t => ([p; q; fst rs; snd rs; t], 1)) (spins e e'))
      (su3_product (c, d) (c', d'))) (spins b b')) (spins a a')
  | _, _ => []
  end.
Definition quark : field := mkField (lit "Q") (lit "10101") default_charges false (lit "fermi") [[1];[1];[1]] None 1 [] 1 0 None.
Definition antiquark : field := mkField (lit "d") (lit "10010") default_charges false (lit "fermi") [[1];[1]] None 1 [] 1 0 None.
Definition scalar3 : field := mkField (lit "S") (lit "00100") default_charges false (lit "bose") [[1]] None 1 [] 1 0 None.
Definition scalar3bar : field := mkField (lit "R") (lit "00010") default_charges false (lit "bose") [[1]] None 1 [] 1 0 None.

Lemma spins_triangle a b p : In p (spins a b) -> triangle a b p.
Proof.
  unfold spins. intros I. apply in_map_iff in I as (k & <- & I). apply in_seq in I. unfold triangle. split; [lia|]. split; [lia|]. split; [lia|]. exists (a + b - k). lia.
Qed.

Lemma su3_bound x y z : In z (su3_product x y) -> fst z + snd z <= fst x + snd x + (fst y + snd y).
Proof.
  destruct x as [[|[|x1]] [|[|x2]]], y as [[|[|y1]] [|[|y2]]]; cbn [su3_product In fst snd]; intros H;
    repeat (destruct H as [<-|H]; [cbn [fst snd]; lia|]); contradiction.
Qed.

Example small_rule : selection_rule small_product.
Proof.
  intros a b c d e a' b' c' d' e' B B' w m I. unfold small_product, digits_of in I. rewrite !digits_five in I by assumption.
  apply in_flat_map in I as (p & Ip & I). apply in_flat_map in I as (q & Iq & I). apply in_flat_map in I as ([r s] & Irs & I). apply in_map_iff in I as (t & E & It).
  injection E as <- <-. exists p, q, r, s, t. split; [reflexivity|]. split; [now apply spins_triangle|]. split; [now apply spins_triangle|].
  split; [exact (su3_bound _ _ _ Irs)|now apply spins_triangle].
Qed.

Lemma more_made : Forall made [quark; antiquark; lepton; doublet; scalar3; scalar3bar].
Proof.
  destruct examples_made as (H1 & H2 & H3).
  assert (P : proper default_charges).
  { unfold proper, default_charges. do 3 eexists. split; [reflexivity|]. repeat constructor; cbn; intuition discriminate. }
  repeat apply Forall_cons; try apply Forall_nil; try assumption; [exists 1, 0, 1, 0, 1|exists 1, 0, 0, 1, 0|exists 0, 0, 1, 0, 0|exists 0, 0, 0, 1, 0];
    (split; [split; [reflexivity|]; split; [lia|]; split; [exact P|cbn; auto]|reflexivity]).
Qed.

Definition example_products : list (list field) :=
  [[lepton; lepton; doublet; doublet]; [quark; antiquark; doublet]; [quark; quark; quark; lepton]; [scalar3; scalar3; scalar3; scalar3; scalar3bar]].

Lemma examples_multiplied : Forall multiplied example_products.
Proof.
  assert (H : forall fs, incl fs [quark; antiquark; lepton; doublet; scalar3; scalar3bar] -> forallb (fun t => all_labels t fs <? 10) [Undotted; Dotted; Isospin] = true ->
    (all_colours true fs + all_colours false fs <? 10) = true -> multiplied fs).
  { intros fs In1 L C. pose proof more_made as Mm. rewrite Forall_forall in Mm.
    assert (Six : forall (Q : field -> Prop), Q quark -> Q antiquark -> Q lepton -> Q doublet -> Q scalar3 -> Q scalar3bar -> Forall Q fs).
    { intros Q Q1 Q2 Q3 Q4 Q5 Q6. apply Forall_forall. intros f I. apply In1 in I. cbn [In] in I. destruct I as [<-|[<-|[<-|[<-|[<-|[<-|[]]]]]]]; assumption. }
    constructor.
    - apply Forall_forall. intros f I. apply Mm, In1, I.
    - now apply Six.
    - assert (S : Forall (fun f => f_charges f = default_charges) fs) by (now apply Six). rewrite Forall_forall in S. intros f g If Ig k. now rewrite (S f If), (S g Ig).
    - apply Six; eexists; vm_compute; reflexivity.
    - cbn [forallb] in L. repeat rewrite andb_true_iff in L. destruct L as (L1 & L2 & L3 & _). intros t [-> | [-> | ->]]; now apply Nat.ltb_lt.
    - now apply Nat.ltb_lt. }
  unfold example_products. repeat apply Forall_cons; try apply Forall_nil; apply H; try (vm_compute; reflexivity); intros x I; cbn [In] in *; intuition.
Qed.

Definition free_colour (op : operator) : bool := match free_of_type Colour op with [] => false | _ => true end.
Definition counted (fs : list field) (ignore : itype -> bool) : res (nat * nat) :=
  do l <- fst (unsimplified_invariants small_product fs ignore (mkC [] (fun _ => 0))); Ok (List.length l, List.length (filter free_colour l)).

(** the dimension-five operator: three, two through an isospin triplet and one through a singlet; a Yukawa term: one, or one
    whose isospin is open *)
Example C93_example :
  counted [lepton; lepton; doublet; doublet] (fun _ => false) = Ok (3, 0) /\
  counted [quark; antiquark; doublet] (fun _ => false) = Ok (1, 0) /\
  counted [quark; antiquark; doublet] (fun t => itype_eqb t Isospin) = Ok (1, 0) /\
  counted [quark; antiquark; doublet] (fun t => itype_eqb t Colour) = Ok (1, 1) /\
  counted [quark; doublet] (fun _ => false) = Ok (0, 0).
Proof. vm_compute. auto. Qed.

(** Not every operator returned is invariant: of the 63 made for three quarks and a lepton, 54 have their colour indices
    uncontracted.  And four triplets with an antitriplet, which have an invariant, give an error. *)
Theorem C93_invariant_refuted :
  multiplied [quark; quark; quark; lepton] /\ counted [quark; quark; quark; lepton] (fun _ => false) = Ok (63, 54) /\
  multiplied [scalar3; scalar3; scalar3; scalar3; scalar3bar] /\
  (exists l r, decompose_product small_product [scalar3; scalar3; scalar3; scalar3; scalar3bar] = Ok (inr l) /\ In r l /\ neutral r) /\
  fst (unsimplified_invariants small_product [scalar3; scalar3; scalar3; scalar3; scalar3bar] (fun _ => false) (mkC [] (fun _ => 0))) = Err ValueError.
Proof.
  pose proof examples_multiplied as H. unfold example_products in H. rewrite !Forall_cons_iff in H. destruct H as (_ & _ & H3 & H4 & _).
  split; [exact H3|]. split; [vm_compute; reflexivity|]. split; [exact H4|]. split; [|vm_compute; reflexivity].
  assert (E : match decompose_product small_product [scalar3; scalar3; scalar3; scalar3; scalar3bar] with
              | Ok (inr l) => existsb (fun r => str_eqb (f_dynkin r) (lit "00000") && (if Qc_eq_dec (charge_of r (lit "y")) (Q2Qc 0) then true else false)) l | _ => false end = true)
    by (vm_compute; reflexivity).
  destruct (decompose_product small_product [scalar3; scalar3; scalar3; scalar3; scalar3bar]) as [[x|l]|e]; try discriminate E.
  apply existsb_exists in E as (r & I & E). apply andb_true_iff in E as [E1 E2]. exists l, r. split; [reflexivity|]. split; [exact I|]. split; [now apply str_decides|].
  destruct (Qc_eq_dec (charge_of r (lit "y")) (Q2Qc 0)); [assumption|discriminate].
Qed.

Print Assumptions C93_invariants.
Print Assumptions C93_edge_cases.
Print Assumptions C93_invariant_refuted.
