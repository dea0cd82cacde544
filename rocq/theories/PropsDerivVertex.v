(** * PropsDerivVertex: vertices with derivatives *)

From Coq Require Import Ascii String List Bool Arith ZArith QArith Qcanon Lia Permutation Sorted.
From Verif Require Import Base BaseFacts Show ModelFunctions ProofsFunctions ModelIndex SpecIndex ProofsIndex PropsIndex ModelField SpecField
  ProofsField ProofsField2 PropsField PropsField2 ModelContract SpecContract ProofsContract PropsContract PropsContract3 ModelPartition
  ModelExotic SpecExotic ProofsExotic PropsExotic ProofsExotic2 PropsExotic2 PropsExotic3 SpecTerms PropsTerms SpecDerivVertex ProofsDerivVertex ProofsDerivVertex2 ProofsDerivVertex3.
From Verif Require PropsLagrangian2 PropsInfo4 Spec ProofsOperators.
Import ListNotations.
Local Open Scope nat_scope.




(** ** The processed term *)

Lemma replace_one {A} (R : A -> A -> Prop) (T : forall x y w, R x y -> R y w -> R x w) l l0 x y m :
  Forall2 R l l0 -> Permutation l0 (x :: m) -> R x y -> exists l1, Forall2 R l l1 /\ Permutation l1 (y :: m).
Proof.
  intros F P Rxy. assert (I : In x l0) by (eapply Permutation_in; [apply Permutation_sym, P|now left]). apply in_split in I as (a & b & ->).
  apply Forall2_app_inv_r in F as (la & lb & Fa & Fb & ->). inversion Fb as [|x0 ? lb' ? R0 Fb']; subst. exists (a ++ y :: b). split.
  - apply Forall2_app; [exact Fa|]. constructor; [|exact Fb']. exact (T _ _ _ R0 Rxy).
  - rewrite <- Permutation_middle. constructor. apply (Permutation_cons_inv (a := x)). rewrite <- P. apply Permutation_middle.
Qed.

Lemma product_parts l t : product l t -> Permutation (cfields t) (cfields l) /\ forall e, In e (csymbols t) <-> In e (csymbols l).
Proof.
  intros P. apply ordered_perm in P. split; [apply Permutation_sym, cop_perm_fields, P|]. intros e. pose proof (cop_perm_symbols _ _ P) as Q.
  split; apply Permutation_in; [apply Permutation_sym|]; exact Q.
Qed.

Lemma cfields_parts S E : cfields (map KField S ++ map KSym E) = S.
Proof. unfold cfields. rewrite flat_map_app. fold (cfields (map KSym E)). rewrite cfields_syms, app_nil_r. induction S as [|x S IH]; [reflexivity|]. cbn. now rewrite IH. Qed.

Lemma csymbols_parts S E : csymbols (map KField S ++ map KSym E) = E.
Proof. unfold csymbols. rewrite flat_map_app. fold (csymbols (map KSym E)). rewrite csymbols_syms. assert (Z : flat_map (fun t => match t with KField _ => [] | KSym s => [s] end) (map KField S) = []) by (induction S; [reflexivity|assumption]). now rewrite Z. Qed.

Lemma cfields_term r S E l e : Permutation (cfields (KField r :: (map KField S ++ map KSym E) ++ [KField l; KSym e])) (l :: r :: S).
Proof.
  change (cfields (KField r :: (map KField S ++ map KSym E) ++ [KField l; KSym e])) with (r :: cfields ((map KField S ++ map KSym E) ++ [KField l; KSym e])).
  unfold cfields at 1. rewrite flat_map_app. fold (cfields (map KField S ++ map KSym E)). rewrite cfields_parts. cbn [flat_map app].
  transitivity (r :: l :: S); [constructor; apply Permutation_sym, Permutation_cons_append|apply perm_swap].
Qed.

Lemma csymbols_term r S E l e e' : In e' (csymbols (KField r :: (map KField S ++ map KSym E) ++ [KField l; KSym e])) <-> In e' E \/ In e' [e].
Proof.
  change (csymbols (KField r :: (map KField S ++ map KSym E) ++ [KField l; KSym e])) with (csymbols ((map KField S ++ map KSym E) ++ [KField l; KSym e])).
  unfold csymbols at 1. rewrite flat_map_app. fold (csymbols (map KField S ++ map KSym E)). rewrite csymbols_parts. cbn [flat_map app]. apply in_app_iff.
Qed.

Section Processed.
  Variables (vanishes : cop -> bool) (op : cop) (n : nat) (S F X : list cfield) (E : list symbol).
  Hypothesis Si : singlet op.
  Hypothesis Sh : Forall shaped (csymbols op).
  Hypothesis So : sorting op S F X E.
  Hypothesis Num : (List.length F + List.length X = 0 /\ 2 < List.length S) \/ (List.length F + List.length X = 2 /\ List.length S <= 2).
  Hypothesis Nn : n = 1 \/ n = 2.
  Hypothesis Apart : forall l r, F = [l; r] -> ~ (same_slots (spinors Undotted l) (spinors Undotted r) /\ same_slots (spinors Dotted l) (spinors Dotted r)).

  Lemma no_spin_in_S x i : In x S -> In i (indices_of x) -> ~ spinor_type (ix_type i).
  Proof. intros Ix I. pose proof (so_spinless _ _ _ _ _ So) as H. rewrite Forall_forall in H. specialize (H x Ix). red in H. rewrite Forall_forall in H. auto. Qed.

  (** the fermions [l'] and [r], contracted by [e] *)
  Lemma settle_two l l' r e t : Permutation (F ++ X) [l; r] -> (l' = l \/ replaces l l') ->
    product (KField r :: (map KField S ++ map KSym E) ++ [KField l'; KSym e]) t ->
    (forall x i, x = l' \/ x = r -> In i (indices_of x) -> spinor_type (ix_type i) -> exists j, In j (symbol_indices e) /\ counterpart i j) ->
    (forall i, In i (symbol_indices e) -> exists x j, (x = l' \/ x = r) /\ In j (indices_of x) /\ counterpart i j) ->
    settled op t.
  Proof.
    intros Pm Rl Pr H1 H2. destruct (product_parts _ _ Pr) as [Pf Ps]. destruct (so_fields _ _ _ _ _ So) as (l0 & Fl & Pl).
    assert (P0 : Permutation l0 (l :: r :: S)) by (rewrite Pl, Pm; apply (Permutation_app_comm S [l; r])).
    assert (Q : exists l1, Forall2 replaces (cfields op) l1 /\ Permutation l1 (l' :: r :: S)).
    { destruct Rl as [->|Rl]; [eauto|]. exact (replace_one replaces replaces_trans _ _ _ _ _ Fl P0 Rl). }
    destruct Q as (l1 & Fl1 & Pl1). assert (Pt : Permutation (cfields t) (l' :: r :: S)) by (rewrite Pf; apply cfields_term).
    assert (Pt1 : Permutation (cfields t) l1) by now rewrite Pt, Pl1.
    split; [|exists l1; auto].
    apply (replaced_singlet op S F X E t [e] l1 Si Sh So Fl1 Pt1).
    - intros e'. rewrite Ps. apply csymbols_term.
    - intros x i Ix I T. apply (Permutation_in _ Pt) in Ix. destruct Ix as [Ex|[Ex|Ix]].
      + destruct (H1 x i) as (j & J & C); auto. exists e, j. split; [now left|auto].
      + destruct (H1 x i) as (j & J & C); auto. exists e, j. split; [now left|auto].
      + exfalso. exact (no_spin_in_S x i Ix I T).
    - intros e' i [<-|[]] I. destruct (H2 i I) as (x & j & Hx & J & C). exists x, j. split; [|auto]. eapply Permutation_in; [apply Permutation_sym, Pt|].
      destruct Hx as [-> | ->]; [now left|right; now left].
  Qed.

  Lemma spin_unique x i d : spinors Undotted x ++ spinors Dotted x = [d] -> In i (indices_of x) -> spinor_type (ix_type i) -> i = d.
  Proof.
    intros Ed I T. assert (J : In i (spinors Undotted x ++ spinors Dotted x)) by (apply in_app_iff; rewrite !in_spinors; destruct T as [T|T]; auto).
    rewrite Ed in J. now destruct J as [J|[]].
  Qed.

  Lemma spin_member x d : spinors Undotted x ++ spinors Dotted x = [d] -> In d (indices_of x).
  Proof.
    intros Ed. assert (J : In d (spinors Undotted x ++ spinors Dotted x)) by (rewrite Ed; now left). apply in_app_iff in J. rewrite !in_spinors in J. tauto.
  Qed.

  Lemma processed_ok r : term_result vanishes n S F X E r -> exists w, r = Ok w /\ forall t, w = inr t -> settled op t.
  Proof.
    intros R. pose proof no_spin_in_S as NS. pose proof settle_two as ST. assert (Os : Forall one_spinor (F ++ X)) by exact (so_spinors _ _ _ _ _ So). rewrite Forall_forall in Os.
    assert (Ty : Forall typed X) by exact (so_typed _ _ _ _ _ So). rewrite Forall_forall in Ty.
    destruct R as [t L P V|t L P V|L LF N1|l r t L HN Cp Cd|e L HN Cp].
    - eexists. split; [reflexivity|]. discriminate.
    - eexists. split; [reflexivity|]. intros t' [= <-]. destruct (product_parts _ _ P) as [Pf Ps]. rewrite cfields_parts in Pf. rewrite csymbols_parts in Ps.
      destruct (so_fields _ _ _ _ _ So) as (l0 & Fl & Pl). assert (F = [] /\ X = []) as [-> ->].
      { destruct Num as [[Z _]|[_ Z]]; [|lia]. split; apply length_zero_iff_nil; lia. }
      cbn [app] in Pl. rewrite app_nil_r in Pl. assert (Pt : Permutation (cfields t) l0) by now rewrite Pf, Pl. split; [|exists l0; auto].
      apply (replaced_singlet op S [] [] E t [] l0 Si Sh So Fl Pt).
      + intros e. rewrite Ps. split; [now left|intros [I|[]]; exact I].
      + intros x i Ix I T. exfalso. apply (Permutation_in _ Pf) in Ix. exact (NS x i Ix I T).
      + intros e i [].
    - eexists. split; [reflexivity|]. discriminate.
    - assert (Two : List.length F + List.length X = 2) by (destruct Num as [[_ Z]|[Z _]]; [lia|exact Z]).
      assert (Pm : Permutation (F ++ X) [l; r]).
      { inversion Cp as [x y EX|x f EX EF| |l1 r1 N1 N2 EF _|]; subst.
        - cbn [List.length] in Two. assert (F = []) as -> by (apply length_zero_iff_nil; lia). reflexivity.
        - apply (Permutation_app_comm [r] [l]).
        - cbn [List.length] in Two. assert (X = []) as -> by (apply length_zero_iff_nil; lia). reflexivity. }
      assert (Ol : one_spinor l) by (apply Os; eapply Permutation_in; [apply Permutation_sym, Pm|now left]).
      assert (Or : one_spinor r) by (apply Os; eapply Permutation_in; [apply Permutation_sym, Pm|right; now left]).
      assert (Tl : typed l \/ F = [l; r]).
      { inversion Cp as [x y EX|x f EX EF| |l1 r1 N1 N2 EF _|]; subst; [left; apply Ty; now left|left; apply Ty; now left|right; reflexivity]. }
      assert (Low : same_slots (spinors Undotted l) (spinors Undotted r) -> same_slots (spinors Dotted l) (spinors Dotted r) -> exists l' d e a b,
         lower_su2 l (fun t => match t with Isospin => true | _ => false end) = Ok (l', [e]) /\ replaces l l' /\
         spinors Undotted l ++ spinors Dotted l = [d] /\ spinors Undotted l' ++ spinors Dotted l' = [hat d] /\ symbol_indices e = [a; b] /\ counterpart (hat d) a /\ counterpart d b).
      { intros Q1 Q2. destruct Tl as [Tl|EF]; [|exfalso; apply (Apart l r EF); auto]. apply lower_spinor; [exact Tl|]. apply one_spinor_is; [exact Ol|]. apply (typed_replaces l Tl). }
      inversion Cd as [l' e t' Q1 Q2 Lo P|l' es Q1 Q2 Lo Nl|e Q1 Q2 Lo|i j a b t' Ei Ej Nq Ca Cb P|i j a b t' E0 Ei Ej Nq Ca Cb P|]; subst.
      + destruct (Low Q1 Q2) as (l2 & d & e2 & a & b & Lo2 & Rl & Sl & Sl' & Se & Ca & Cb). rewrite Lo in Lo2. injection Lo2 as <- <-.
        eexists. split; [reflexivity|]. intros t [= <-]. apply (ST l l' r e t' Pm (or_intror Rl) P).
        * destruct Or as (dr & Edr & _).
          assert (Sd : slot dr = slot d).
          { red in Q1, Q2. assert (M : map slot (spinors Undotted l ++ spinors Dotted l) = map slot (spinors Undotted r ++ spinors Dotted r)) by (rewrite !map_app; congruence).
            rewrite Sl, Edr in M. cbn [map] in M. congruence. }
          intros x i [-> | ->] I T; rewrite Se.
          -- rewrite (spin_unique _ _ _ Sl' I T). exists a. split; [now left|exact Ca].
          -- rewrite (spin_unique _ _ _ Edr I T). exists b. split; [right; now left|]. apply counterpart_other. rewrite Sd. now apply counterpart_other.
        * destruct Or as (dr & Edr & _).
          assert (Sd : slot dr = slot d).
          { red in Q1, Q2. assert (M : map slot (spinors Undotted l ++ spinors Dotted l) = map slot (spinors Undotted r ++ spinors Dotted r)) by (rewrite !map_app; congruence).
            rewrite Sl, Edr in M. cbn [map] in M. congruence. }
          intros i I. rewrite Se in I. destruct I as [<-|[<-|[]]].
          -- exists l', (hat d). split; [now left|]. split; [now apply spin_member|]. now apply counterpart_sym.
          -- exists r, dr. split; [now right|]. split; [now apply spin_member|]. apply counterpart_sym in Cb. apply counterpart_other. rewrite Sd. now apply counterpart_other.
      + destruct (Low Q1 Q2) as (l2 & d & e2 & a & b & Lo2 & _). rewrite Lo in Lo2. injection Lo2 as _ ->. exfalso. now apply Nl.
      + destruct (Low Q1 Q2) as (l2 & d & e2 & a & b & Lo2 & _). rewrite Lo in Lo2. discriminate Lo2.
      + eexists. split; [reflexivity|]. intros t [= <-]. apply (ST l l r (Metric Undotted [a; b]) t' Pm (or_introl eq_refl) P).
        * destruct Ol as (dl & Edl & _), Or as (dr & Edr & _).
          assert (dl = i) as -> by (rewrite Ei in Edl; cbn [app] in Edl; congruence). assert (dr = j) as -> by (rewrite Ej in Edr; cbn [app] in Edr; congruence).
          intros x k [-> | ->] I T; cbn [symbol_indices].
          -- rewrite (spin_unique _ _ _ Edl I T). exists a. split; [now left|exact Ca].
          -- rewrite (spin_unique _ _ _ Edr I T). exists b. split; [right; now left|exact Cb].
        * destruct Ol as (dl & Edl & _), Or as (dr & Edr & _).
          assert (dl = i) as -> by (rewrite Ei in Edl; cbn [app] in Edl; congruence). assert (dr = j) as -> by (rewrite Ej in Edr; cbn [app] in Edr; congruence).
          intros k [<-|[<-|[]]].
          -- exists l, i. split; [now left|]. split; [now apply spin_member|now apply counterpart_sym].
          -- exists r, j. split; [now right|]. split; [now apply spin_member|now apply counterpart_sym].
      + eexists. split; [reflexivity|]. intros t [= <-]. apply (ST l l r (Metric Dotted [a; b]) t' Pm (or_introl eq_refl) P).
        * destruct Ol as (dl & Edl & _), Or as (dr & Edr & _).
          assert (dl = i) as -> by (rewrite E0, Ei in Edl; cbn [app] in Edl; congruence).
          assert (dr = j) as -> by (rewrite Ej in Edr; destruct (spinors Undotted r) as [|q [|q' m]]; cbn [app] in Edr; congruence).
          intros x k [-> | ->] I T; cbn [symbol_indices].
          -- rewrite (spin_unique _ _ _ Edl I T). exists a. split; [now left|exact Ca].
          -- rewrite (spin_unique _ _ _ Edr I T). exists b. split; [right; now left|exact Cb].
        * destruct Ol as (dl & Edl & _), Or as (dr & Edr & _).
          assert (dl = i) as -> by (rewrite E0, Ei in Edl; cbn [app] in Edl; congruence).
          assert (dr = j) as -> by (rewrite Ej in Edr; destruct (spinors Undotted r) as [|q [|q' m]]; cbn [app] in Edr; congruence).
          intros k [<-|[<-|[]]].
          -- exists l, i. split; [now left|]. split; [now apply spin_member|now apply counterpart_sym].
          -- exists r, j. split; [now right|]. split; [now apply spin_member|now apply counterpart_sym].
      + eexists. split; [reflexivity|]. discriminate.
    - exfalso. assert (Two : List.length F + List.length X = 2) by (destruct Num as [[_ Z]|[Z _]]; [lia|exact Z]).
      inversion Cp as [| |x EX NF| |NX1 NX2 NF]; subst; [cbn [List.length] in Two; lia|]. assert (List.length X = 0) by lia. assert (List.length F = 2) by lia. destruct Nn; lia.
  Qed.
End Processed.

(** ** Vertices *)

Lemma derivs_perm l l' : Permutation l l' -> derivs_on l = derivs_on l'.
Proof. intros P. unfold derivs_on. induction P as [|x l l' P IH|x y l|l l' l'' P IH P' IH']; [reflexivity| | |congruence]; cbn [map]; change (list_sum (?a :: ?m)) with (a + list_sum m); [lia|]. change (list_sum (?a :: ?m)) with (a + list_sum m). lia. Qed.

Lemma in_cfields op x : In (KField x) op <-> In x (cfields op).
Proof. unfold cfields. rewrite in_flat_map. split; [intros I; exists (KField x); split; [exact I|now left]|]. intros ([y|s] & I & J); [destruct J as [<-|[]]; exact I|destruct J]. Qed.

Lemma in_csymbols op e : In (KSym e) op <-> In e (csymbols op).
Proof. unfold csymbols. rewrite in_flat_map. split; [intros I; exists (KSym e); split; [exact I|now left]|]. intros ([y|s] & I & J); [destruct J|destruct J as [<-|[]]; exact I]. Qed.

(** contract before the derivatives are dealt with *)
Section Contract.
  Variables (vanishes : cop -> bool) (fs : list cfield) (gauge : list symbol) (st : sstate).
  Hypothesis C : derivative_vertex fs gauge.
  Hypothesis N : List.length fs = 2 \/ List.length fs = 3.
  Hypothesis Su : supplied st.

  (** what the vertex leads to when the table allows it *)
  Lemma contract_start : exists r, lorentz_table fs r /\
    match r with
    | Err e => contract vanishes fs gauge st = Err e
    | Ok (false, _) => contract vanishes fs gauge st = Ok (inl bad_lorentz, st)
    | Ok (true, lor) => exists sp c op x p term st', vertex_product fs gauge lor sp c op /\ stands_for op x p /\ interaction op p term /\ (exists sym, named x sym /\ spends x sym st st') /\
        ((vanishes term = true /\ ~ NoDup (map bare_label (cfields term)) /\ exists reason, contract vanishes fs gauge st = Ok (inl reason, st')) \/
         ((NoDup (map bare_label (cfields term)) \/ vanishes term = false) /\ typed x /\ typed p /\ Forall shaped (csymbols term) /\
          contract vanishes fs gauge st =
            (do final <- (if derivs_on fs =? 0 then Ok (inr term) else
                do t <- process_derivative_term vanishes term;
                match t with inl reason => Ok (inl reason) | inr t => Ok (if vanishes t then inl (lit "Vanishing coupling at ") else inr t) end);
             match final with inl reason => Ok (inl reason, st') | inr t => do _ <- check_singlet t; Ok (inr (x, t, sp, lor), st') end)))
    end.
  Proof.
    assert (N0 : fs <> []) by (intros E; rewrite E in N; cbn in N; lia).
    pose proof (dp_vertex fs gauge C) as V. exists (get_lorentz_epsilons fs). pose proof (C38_lorentz fs V N0) as T. split; [exact T|].
    unfold contract. assert (E0 : negb ((List.length fs =? 2) || (List.length fs =? 3)) = false) by (destruct N as [->| ->]; reflexivity). rewrite E0.
    destruct (get_lorentz_epsilons fs) as [[[|] lor]|e] eqn:E; cbn [bind fst snd negb]; [|reflexivity|reflexivity].
    destruct (C39_split fs gauge N0 (dp_symbols fs gauge C)) as (sp & c & l & Es & Hl & Sl). rewrite Es. cbn [bind fst snd].
    rewrite c_reduce_ok by (destruct fs; [congruence|discriminate]). cbn [bind].
    assert (R := derivative_ready fs gauge lor sp c C ltac:(lia) E Es ltac:(lia)). 
    pose proof (dp_cfields fs lor c) as Pf. pose proof (dp_csymbols fs lor c) as Ps. set (op := cnormalise _) in *.
    assert (Vp : vertex_product fs gauge lor sp c op).
    { split; [exact T|]. split; [now apply split_interleaved in Sl|]. split; [exists l; auto|]. split; [exact Pf|exact Ps]. }
    destruct (C40_exotic vanishes op st R Su) as (x & p & t & st' & Ex & Sf & Sy & Ht). rewrite Ex. cbn [bind].
    destruct (exotic_shape vanishes op st x p t st' R Su Ex) as (Tx & Tp & He).
    destruct t as [reason|term].
    - destruct Ht as (term & Ht1 & Ht2 & Ht3). exists sp, c, op, x, p, term, st'. repeat (split; [assumption|]). left. split; [exact Ht2|]. split; [exact Ht3|]. eexists. reflexivity.
    - destruct Ht as [Ht1 Ht2]. exists sp, c, op, x, p, term, st'. repeat (split; [assumption|]). right. split; [exact Ht2|]. split; [exact Tx|]. split; [exact Tp|]. split.
      { destruct (He term eq_refl) as (es & Pe & Le). eapply Permutation_Forall; [apply Permutation_sym, Pe|]. apply Forall_app. split.
        - eapply Permutation_Forall; [apply Permutation_sym, Ps|]. apply Forall_app. split; [apply (table_shaped fs lor (dv_legit _ _ C) T)|].
          apply Forall_forall. intros e I. apply gauge_shaped. pose proof (dv_gauge _ _ C) as G. rewrite Forall_forall in G. apply G.
          eapply Permutation_in; [apply Permutation_sym, (C39_partition fs gauge sp c N0 (dp_symbols fs gauge C) Es)|]. apply in_app_iff. now right.
        - eapply Forall_impl; [exact lowers_shaped|exact Le]. }
      assert (Ck : check_singlet term = Ok tt).
      { destruct Ht1 as (P & _ & Si & _). apply singlet_ok; [intros X; rewrite X in P; apply Permutation_nil in P; discriminate P| |exact Si].
        eapply Permutation_Forall; [apply Permutation_sym, P|]. constructor; [|exact (rd_charges _ R)]. apply Sf. }
      rewrite Ck. cbn [bind]. change (list_sum (map cf_derivs (cfields term))) with (derivs_on (cfields term)).
      assert (Dz : derivs_on (cfields term) = derivs_on fs).
      { destruct Ht1 as (P & _). rewrite (derivs_perm _ _ P). assert (Bp : derivs p = 0) by apply Sf. change (derivs p + derivs_on (cfields op) = derivs_on fs). rewrite Bp. now apply derivs_perm. }
      rewrite Dz. reflexivity.
  Qed.
End Contract.

(** A vertex with derivatives: the table decides first, the exotic field and its interaction are those of the product; then the
    derivatives are dealt with as in C90, and the result is checked. *)
Theorem C102_contract : forall vanishes fs gauge st, derivative_vertex fs gauge -> (List.length fs = 2 \/ List.length fs = 3) -> supplied st ->
  exists r, lorentz_table fs r /\
    match r with
    | Err e => contract vanishes fs gauge st = Err e
    | Ok (false, _) => contract vanishes fs gauge st = Ok (inl (lit "Bad Lorentz contraction."), st)
    | Ok (true, lor) => exists sp c op x p term st', vertex_product fs gauge lor sp c op /\ stands_for op x p /\ interaction op p term /\
        (exists sym, named x sym /\ spends x sym st st') /\
        ((vanishes term = true /\ ~ NoDup (map bare_label (cfields term)) /\ exists reason, contract vanishes fs gauge st = Ok (inl reason, st')) \/
         ((NoDup (map bare_label (cfields term)) \/ vanishes term = false) /\
          (derivs_on fs = 0 -> contract vanishes fs gauge st = Ok (inr (x, term, sp, lor), st')) /\
          (0 < derivs_on fs ->
             (exists e, stuck_at term e /\ contract vanishes fs gauge st = Err e) \/
             exists S F X E, sorted_as term S F X E /\
               (Forall workable (F ++ X) -> Forall (fun x => spinless (indices_of x)) S ->
                exists w, term_result vanishes (derivs_on fs) S F X E w /\ processed vanishes x sp lor st' w (contract vanishes fs gauge st)))))
    end.
Proof.
  intros vanishes fs gauge st C N Su. destruct (contract_start vanishes fs gauge st C N Su) as (r & T & H). exists r. split; [exact T|].
  destruct r as [[[|] lor]|e]; [|exact H|exact H].
  destruct H as (sp & c & op & x & p & term & st' & Vp & Sf & It & Sy & H). exists sp, c, op, x, p, term, st'. repeat (split; [assumption|]).
  destruct H as [H|(Nv & Tx & Tp & Sh & Ec)]; [left; exact H|right]. split; [exact Nv|].
  assert (Pf : Permutation (cfields term) (p :: fs)).
  { destruct It as (P & _). rewrite P. constructor. apply Vp. }
  split.
  - intros D. rewrite Ec, D. cbn [Nat.eqb bind].
    assert (Ck : check_singlet term = Ok tt).
    { destruct It as (P & _ & Si & _). apply singlet_ok; [intros X; rewrite X in P; apply Permutation_nil in P; discriminate P| |exact Si].
      eapply Permutation_Forall; [apply Permutation_sym, Pf|]. constructor; [apply Sf|exact (dv_charges _ _ C)]. }
    rewrite Ck. reflexivity.
  - intros D. assert (Pr : Forall processable term).
    { apply Forall_forall. intros [y|e] I; cbn [processable].
      - apply in_cfields in I. apply (Permutation_in _ Pf) in I as [<-|I].
        + split; [apply Sf|]. intros Dp. assert (Z : derivs p = 0) by apply Sf. lia.
        + pose proof (dv_legit _ _ C) as L. rewrite Forall_forall in L. split; [auto|]. apply (dv_plain _ _ C y I).
      - apply in_csymbols in I. rewrite Forall_forall in Sh. apply (Sh e I). }
    assert (Dt : derivs_on (cfields term) = derivs_on fs).
    { rewrite (derivs_perm _ _ Pf). assert (Bp : derivs p = 0) by apply Sf. change (derivs p + derivs_on fs = derivs_on fs). now rewrite Bp. }
    destruct (C90_terms vanishes term Pr) as [_ H]. rewrite Dt in H. destruct (H D) as (H1 & H2 & H3). clear H.
    assert (D0 : (derivs_on fs =? 0) = false) by (apply Nat.eqb_neq; lia). rewrite D0 in Ec.
    destruct H3 as [(e & St)|(S & F & X & E & So)]; [left; exists e; split; [exact St|]; rewrite Ec, (H1 e St); reflexivity|].
    right. exists S, F, X, E. split; [exact So|]. intros W Sp.
    assert (Se : Forall (fun s => spinless (symbol_indices s)) E).
    { clear - So Sh. induction So; try exact (IHSo Sh); [constructor|inversion Sh; subst; auto|]. inversion Sh as [|? ? She Sh']; subst. constructor; [|exact (IHSo Sh')].
      destruct She as [_ [G|(a & b & E1 & T1 & _)]]; [|rewrite E1 in H; injection H as <- _; contradiction].
      apply Forall_forall. intros k K Tk. specialize (G k K). destruct Tk as [Tk|Tk], G as [G|G]; congruence. }
    exists (process_derivative_term vanishes term). split; [exact (H2 S F X E So W Sp Se)|].
    rewrite Ec. clear. destruct (process_derivative_term vanishes term) as [[reason|t]|e]; cbn [bind processed]; [reflexivity| |reflexivity].
    destruct (vanishes t); [left; auto|right]. destruct (check_singlet t) as [[]|e] eqn:Ck; cbn [bind].
    + left. split; [reflexivity|]. split; [now apply C90_check|reflexivity].
    + right. split; [reflexivity|]. split; [intros K; apply C90_check in K; congruence|eauto].
Qed.

(** fields whose derivatives can be taken off, fields without derivatives of spin 0 or 1/2, exotic fields; fermions of the real
    classes without colour *)
Inductive manageable (x : cfield) : Prop :=
| mn_derived f : 0 < derivs x -> cf_class x = Plain -> ~ scalar x -> strip_derivs_with_indices (cf_if x) = Ok f -> replaces x (mkCF Plain f) -> manageable x
| mn_plain : derivs x = 0 -> cf_class x = Plain -> manageable x
| mn_exotic z c s : exotic_field x z c s -> (cf_class x = MajoranaFermion -> colourless x) -> manageable x.

(** no exotic Majorana fermion with colour couples to the fields *)
Definition no_coloured_majorana (fs : list cfield) (gauge : list symbol) : Prop :=
  forall lor sp c op x p, vertex_product fs gauge lor sp c op -> stands_for op x p -> right_class p -> cf_class p = MajoranaFermion -> colourless p.

(** [contract] raises nothing but what the table raises, and the interaction it returns is a singlet of the same fields without
    derivatives. *)
Theorem C102_safe : forall vanishes fs gauge st, derivative_vertex fs gauge -> (List.length fs = 2 \/ List.length fs = 3) -> supplied st ->
  0 < derivs_on fs -> Forall manageable fs -> no_coloured_majorana fs gauge -> spinors_apart fs -> ~ (List.length fs = 3 /\ Forall fermion fs) ->
  (exists e, lorentz_table fs (Err e) /\ contract vanishes fs gauge st = Err e) \/
  exists r st', contract vanishes fs gauge st = Ok (r, st') /\
    forall x t sp lor, r = inr (x, t, sp, lor) ->
      exists c op p term, vertex_product fs gauge lor sp c op /\ stands_for op x p /\ interaction op p term /\ settled term t /\ derivs_on (cfields t) = 0 /\
        vanishes t = false.
Proof.
  intros vanishes fs gauge st C N Su D M NM Ap N3. destruct (contract_start vanishes fs gauge st C N Su) as (r & T & H).
  destruct r as [[[|] lor]|e]; [|right; do 2 eexists; split; [exact H|]; discriminate|left; exists e; auto].
  right. destruct H as (sp & c & op & x & p & term & st' & Vp & Sf & It & Sy & [(_ & _ & reason & H)|(Nv & Tx & Tp & Sh & Ec)]).
  { do 2 eexists. split; [exact H|]. discriminate. }
  assert (Pf : Permutation (cfields term) (p :: fs)) by (destruct It as (P & _); rewrite P; constructor; apply Vp).
  assert (Dt : derivs_on (cfields term) = derivs_on fs).
  { rewrite (derivs_perm _ _ Pf). assert (Bp : derivs p = 0) by apply Sf. change (derivs p + derivs_on fs = derivs_on fs). now rewrite Bp. }
  assert (D2 : derivs_on fs <= 2) by (inversion T; subst; lia).
  assert (D0 : (derivs_on fs =? 0) = false) by (apply Nat.eqb_neq; lia). rewrite D0 in Ec.
  rewrite Forall_forall in M. pose proof (dv_legit _ _ C) as L. rewrite Forall_forall in L. pose proof (dv_charges _ _ C) as Sc. rewrite Forall_forall in Sc.
  assert (Mf : forall y, In (KField y) term -> manageable_field y).
  { intros y I. apply in_cfields in I. apply (Permutation_in _ Pf) in I as [<-|I].
    - apply mf_exotic; [exact Tp|]. destruct (typed_ef p Tp) as (zp & cp & sp' & Hp). exact (NM lor sp c op x p Vp Sf (ef_class _ _ _ _ Hp)).
    - destruct (M y I) as [f Dy Ky Ny Ey Ry|Dy Ky|z c0 s Hy Cl]; [eapply mf_derived; eauto|apply mf_plain; auto; apply (dv_spin _ _ C y I Dy)|].
      apply mf_exotic; [exact (ef_typed _ _ _ _ Hy)|exact Cl]. }
  destruct (sorting_exists term Mf Sh) as (S & F & X & E & So).
  assert (Lt : Forall legit (cfields term)).
  { eapply Permutation_Forall; [apply Permutation_sym, Pf|]. constructor; [apply Sf|exact (dv_legit _ _ C)]. }
  pose proof It as (P & _ & Si & Pr & _).
  assert (Ev : Nat.Even (List.length (filter (fun y => negb (bosonb y)) (cfields term)))) by (apply even_fermions; auto; apply Si).
  assert (Lf : List.length (filter bosonb (cfields term)) + List.length (filter (fun y => negb (bosonb y)) (cfields term)) = List.length fs + 1).
  { transitivity (List.length (cfields term)); [|rewrite (Permutation_length Pf); cbn; lia]. clear. induction (cfields term) as [|y l IH]; [reflexivity|]. cbn [filter]. destruct (bosonb y); cbn [negb List.length]; lia. }
  assert (Ls : List.length S + (List.length F + List.length X) = List.length fs + 1).
  { destruct (so_fields _ _ _ _ _ So) as (l & Fl & Pl). apply Permutation_length in Pl. rewrite !app_length in Pl. rewrite <- Pl.
    assert (Le : List.length l = List.length (cfields term)) by (clear - Fl; induction Fl; cbn; congruence). rewrite Le, (Permutation_length Pf). cbn. lia. }
  pose proof (so_scalars _ _ _ _ _ So) as Lb.
  assert (Num : (List.length F + List.length X = 0 /\ 2 < List.length S) \/ (List.length F + List.length X = 2 /\ List.length S <= 2)).
  { destruct Ev as (k & Hk). destruct (Nat.eq_dec k 2) as [->|Nk]; [|lia]. exfalso. apply N3. split; [lia|].
    assert (Z : List.length (filter bosonb (cfields term)) = 0) by lia. apply length_zero_iff_nil in Z. apply Forall_forall. intros y I.
    assert (Iy : In y (cfields term)) by (eapply Permutation_in; [apply Permutation_sym, Pf|now right]). apply bosonb_not.
    destruct (bosonb y) eqn:B; [|reflexivity]. assert (Q : In y (filter bosonb (cfields term))) by (apply filter_In; auto). rewrite Z in Q. destruct Q. }
  assert (Apart : forall l r, F = [l; r] -> ~ (same_slots (spinors Undotted l) (spinors Undotted r) /\ same_slots (spinors Dotted l) (spinors Dotted r))).
  { intros l r EF. destruct (so_origin _ _ _ _ _ So) as (G & H & Fg & Pg & Ff). rewrite EF in Fg. inversion Fg as [|g ? G' ? Bg Fg']; subst. inversion Fg' as [|g' ? G'' ? Bg' Fg'']; subst. inversion Fg''; subst.
    inversion Ff as [|? ? Fg1 Ff']; subst. inversion Ff' as [|? ? Fg2 _]; subst.
    assert (Np : cf_class p <> Plain) by apply (typed_standard p Tp).
    assert (Pp : Permutation (p :: fs) (g :: g' :: H)) by now rewrite <- Pf.
    assert (Hp : In p H).
    { assert (Ip : In p (g :: g' :: H)) by (eapply Permutation_in; [exact Pp|now left]). destruct Ip as [<-|[<-|Ip]]; [destruct Bg as [Bg _]; contradiction|destruct Bg' as [Bg' _]; contradiction|exact Ip]. }
    apply in_split in Hp as (h1 & h2 & ->).
    assert (Pq : Permutation fs (g :: g' :: h1 ++ h2)).
    { apply (Permutation_cons_inv (a := p)). rewrite Pp. change (Permutation ((g :: g' :: h1) ++ p :: h2) (p :: (g :: g' :: h1) ++ h2)). apply Permutation_sym, Permutation_middle. }
    assert (I1 : In g fs) by (eapply Permutation_in; [apply Permutation_sym, Pq|now left]). apply in_split in I1 as (a & b & Eab). rewrite Eab in Pq. rewrite <- Permutation_middle in Pq. apply Permutation_cons_inv in Pq.
    assert (I2 : In g' (a ++ b)) by (eapply Permutation_in; [apply Permutation_sym, Pq|now left]). apply in_app_iff in I2 as [I2|I2]; apply in_split in I2 as (u & v & Euv).
    - intros [Q1 Q2]. apply (Ap u g' v g b r l); auto; [rewrite Eab, Euv, <- app_assoc; reflexivity|]. split; symmetry; assumption.
    - apply (Ap a g u g' v l r); auto. now rewrite Eab, Euv. }
  assert (Res : term_result vanishes (derivs_on fs) S F X E (process_derivative_term vanishes term)).
  { assert (Prc : Forall processable term).
    { apply Forall_forall. intros [y|e] I; cbn [processable].
      - apply in_cfields in I. apply (Permutation_in _ Pf) in I as [<-|I].
        + split; [apply Sf|]. intros Dp. assert (Z : derivs p = 0) by apply Sf. lia.
        + split; [auto|]. apply (dv_plain _ _ C y I).
      - apply in_csymbols in I. rewrite Forall_forall in Sh. apply (Sh e I). }
    destruct (C90_terms vanishes term Prc) as [_ H]. rewrite Dt in H. destruct (H D) as (_ & H2 & _). apply H2; [exact (so_as _ _ _ _ _ So)| |exact (so_spinless _ _ _ _ _ So)|].
    - apply Forall_forall. intros y I. pose proof (so_spinors _ _ _ _ _ So) as Os. rewrite Forall_forall in Os. split; [|apply one_spinor_raised; auto].
      destruct (so_fields _ _ _ _ _ So) as (l & Fl & Pl). assert (Iy : In y l) by (eapply Permutation_in; [apply Permutation_sym, Pl|]; apply in_app_iff; now right).
      destruct (Forall2_inr _ _ _ _ Fl Iy) as (y0 & _ & Ry). apply Ry.
    - apply Forall_forall. intros e I. apply (so_symbols _ _ _ _ _ So) in I as [I (i & r & Ei & Ni)]. rewrite Forall_forall in Sh.
      destruct (Sh e I) as [_ [G|(a & b & E1 & T1 & _)]]; [|rewrite E1 in Ei; injection Ei as <- _; contradiction].
      apply Forall_forall. intros k K Tk. specialize (G k K). destruct Tk as [Tk|Tk], G as [G|G]; congruence. }
  destruct (processed_ok vanishes term (derivs_on fs) S F X E Si Sh So Num ltac:(lia) Apart _ Res) as (w & Ew & Hw).
  rewrite Ew in Ec. cbn [bind] in Ec. destruct w as [reason|t]; [do 2 eexists; split; [exact Ec|]; discriminate|]. specialize (Hw t eq_refl).
  destruct (vanishes t) eqn:Vt; cbn [bind] in Ec; [do 2 eexists; split; [exact Ec|]; discriminate|].
  destruct Hw as [Sit (l & Fl & Pl)].
  assert (Ck : check_singlet t = Ok tt).
  { apply singlet_ok; [| |exact Sit].
    - intros Z. rewrite Z in Pl. apply Permutation_nil in Pl. subst l. inversion Fl as [Z'|]; subst. symmetry in Z'. rewrite Z' in Pf. apply Permutation_nil in Pf. discriminate Pf.
    - eapply Permutation_Forall; [apply Permutation_sym, Pl|]. clear - Fl. induction Fl as [|a b l l' R Fl IH]; constructor; [apply R|exact IH]. }
  rewrite Ck in Ec. cbn [bind] in Ec. do 2 eexists. split; [exact Ec|]. intros x0 t0 sp0 lor0 [= <- <- <- <-]. exists c, op, p, term. split; [exact Vp|]. split; [exact Sf|].
  split; [exact It|]. split; [split; [exact Sit|exists l; auto]|]. split; [|exact Vt].
  rewrite (derivs_perm _ _ Pl). clear - Fl. unfold derivs_on. induction Fl as [|a b l l' R Fl IH]; [reflexivity|]. cbn [map]. change (derivs b + list_sum (map derivs l') = 0). change (list_sum (map derivs l') = 0) in IH.
  rewrite IH. assert (Z : derivs b = 0) by apply R. now rewrite Z.
Qed.

(** ** Examples *)

Definition cleanb_field (x : cfield) : bool := forallb cleanb (indices_of x).
Definition slot_inb (q : str * itype * bool) (l : list (str * itype * bool)) : bool :=
  existsb (fun p => str_eqb (fst (fst p)) (fst (fst q)) && itype_eqb (snd (fst p)) (snd (fst q)) && Bool.eqb (snd p) (snd q)) l.
Definition gaugeb (i : index) : bool := has_type Colour i || has_type Isospin i.

Lemma slot_inb_ok q l : slot_inb q l = true -> In q l.
Proof.
  unfold slot_inb. rewrite existsb_exists. intros (p & I & E). rewrite !andb_true_iff in E. destruct E as [[E1 E2] E3]. apply str_decides in E1. apply itype_decides in E2. apply Bool.eqb_prop in E3.
  destruct p as [[a b] c], q as [[a' b'] c']. cbn in *. subst. exact I.
Qed.

Definition same_gaugeb (x y : cfield) : bool :=
  forallb (fun i => slot_inb (slot i) (map slot (indices_of y))) (filter gaugeb (indices_of x)) && forallb (fun i => slot_inb (slot i) (map slot (indices_of x))) (filter gaugeb (indices_of y)).

Lemma gaugeb_iff i : gaugeb i = true <-> gauge_type (ix_type i).
Proof. unfold gaugeb, gauge_type, has_type. destruct (ix_type i); cbn; intuition discriminate. Qed.

Lemma same_gaugeb_ok x y : same_gaugeb x y = true -> same_gauge x y.
Proof.
  unfold same_gaugeb. rewrite andb_true_iff, !forallb_forall. intros [H1 H2] q G. split; intros I; apply in_map_iff in I as (i & <- & I); apply slot_inb_ok; [apply H1|apply H2]; apply filter_In; (split; [exact I|now apply gaugeb_iff]).
Qed.

Lemma standardb_ok x : standardb x = true -> standard_charges x.
Proof.
  unfold standardb, standard_charges, hypercharge, baryon, charge_of. destruct (f_charges _) as [|[a u] [|[b v] [|]]]; try discriminate. rewrite andb_true_iff. intros [A B].
  apply str_decides in A, B. subst. reflexivity.
Qed.

Definition replacesb (x y : cfield) : bool :=
  standardb y && (if Qc_eq_dec (hypercharge y) (hypercharge x) then true else false) && (derivs y =? 0) && same_gaugeb x y && cleanb_field y &&
  (if bosonb x then spinlessb (indices_of y) else match spinors Undotted y ++ spinors Dotted y with [i] => ix_up i | _ => false end).

Lemma replacesb_ok x y : replacesb x y = true -> replaces x y.
Proof.
  unfold replacesb. rewrite !andb_true_iff. intros [[[[[H1 H2] H3] H4] H5] H6]. split; [now apply standardb_ok|]. split; [now destruct (Qc_eq_dec _ _)|]. split; [now apply Nat.eqb_eq|].
  split; [now apply same_gaugeb_ok|]. split; [unfold cleanb_field in H5; rewrite forallb_forall in H5; apply Forall_forall; intros i I; apply cleanb_ok, H5, I|]. split.
  - intros B. apply bosonb_spec in B. rewrite B in H6. now apply spinlessb_ok.
  - intros B. apply bosonb_not in B. rewrite B in H6. destruct (spinors Undotted y ++ spinors Dotted y) as [|i [|]] eqn:E; try discriminate H6. exists i. auto.
Qed.

Lemma count_none t up l : count_kind t up l = 0 -> forall i, In i l -> ix_type i = t -> ix_up i <> up.
Proof.
  rewrite count_kind_filter'. intros Z i I T U. apply length_zero_iff_nil in Z. assert (J : In i []) by (rewrite <- Z; rewrite !filter_In; split; [split; [exact I|now apply itype_decides]|rewrite U; apply Bool.eqb_reflx]). destruct J.
Qed.

(** the fields have a hypercharge altogether, or nothing has a colour *)
Lemma majorana_free fs gauge : (sum_of hypercharge fs <> Q2Qc 0 \/ forall i, In i (vertex_indices fs gauge) -> ix_type i <> Colour) -> no_coloured_majorana fs gauge.
Proof.
  intros H lor sp c op x p Vp Sf Rp Kp. destruct Sf as (_ & _ & (_ & Ca) & _ & _ & Hx & _ & _ & _ & _ & _ & (Hp & _) & (_ & Mc)).
  destruct H as [H|H].
  - exfalso. apply H. red in Rp. rewrite Kp in Rp. destruct Rp as (_ & _ & _ & Z). rewrite Hp, Hx in Z. destruct Vp as (_ & _ & _ & Pf & _). rewrite (sum_of_perm _ _ _ Pf) in Z.
    rewrite <- (Qcopp_involutive (sum_of hypercharge fs)), Z. apply Qc_is_canon. reflexivity.
  - intros i I T. assert (Nx : forall j, In j (indices_of x) -> ix_type j <> Colour).
    { intros j J Tj. destruct (proj1 (Ca (slot j)) (in_map slot _ _ J)) as (k & [Ik _] & _ & Q). apply in_cop in Ik. destruct Vp as (Tb & Il & _ & Pf & Ps).
      assert (Tk : ix_type k = Colour) by (apply (f_equal (fun q => snd (fst q))) in Q; cbn in Q; congruence). destruct Ik as [(y & Iy & Ik)|(e & Ie & Ik)].
      - apply (H k); [|exact Tk]. unfold vertex_indices. apply in_app_iff. left. apply in_flat_map. exists y. split; [eapply Permutation_in; eauto|exact Ik].
      - apply (Permutation_in _ Ps) in Ie. apply in_app_iff in Ie as [Ie|Ie].
        + assert (Sh : forall fs' , lorentz_pairing fs' (Ok (true, lor)) -> forall i0, In i0 (symbol_indices e) -> spinor_type (ix_type i0)).
          { intros fs' P i0 I0. destruct P as [(_ & _ & P)|[(_ & _ & P)|(_ & eu & ev & Pu & Pv & P)]]; try discriminate P. injection P as ->.
            assert (J2 : forall t U es, paired t U es -> In e es -> spinor_type t -> (forall q, In q U -> ix_type q = t) -> spinor_type (ix_type i0)).
            { intros t U es [[_ ->]|(m & Cn & Jn)] Ie' Ht HU; [destruct Ie'|]. clear - Cn Jn Ie' I0 Ht HU. assert (Hm : Forall (fun p => ix_type (fst p) = t /\ ix_type (snd p) = t) m).
              { clear Jn Ie'. induction Cn as [|a b l m Cn IH]; [constructor|]. constructor; [split; apply HU; cbn; auto|apply IH; intros q Q; apply HU; now right; right]. }
              clear Cn. induction Jn as [|p0 e0 m es (a & b & -> & (_ & Ta & _) & (_ & Tb & _)) Jn IH]; [destruct Ie'|]. inversion Hm as [|? ? [T1 T2] Hm']; subst. destruct Ie' as [<-|Ie']; [|auto].
              destruct I0 as [<-|[<-|[]]]; [now rewrite Ta, T1 in * || (rewrite Ta; exact Ht)|rewrite Tb, T2; exact Ht]. }
            assert (On : forall t q, In q (indices_on t fs') -> ix_type q = t).
            { intros t q Iq. apply filter_In in Iq as [_ Hq]. unfold has_type in Hq. destruct (ix_type q), t; try discriminate Hq; reflexivity. }
            apply in_app_iff in Ie as [Ie|Ie]; [apply (J2 Undotted _ _ Pu Ie (or_introl eq_refl) (On Undotted))|apply (J2 Dotted _ _ Pv Ie (or_intror eq_refl) (On Dotted))]. }
          assert (Tk' : spinor_type (ix_type k)).
          { inversion Tb as [| | | |s a b a' b' r D P Bs Fa Fb O X Pr| |fs' fs'' r D Le O1 O2 Pr|fs' r D D0 D2 O Pr]; subst; try (destruct Ie; fail); eapply Sh; eauto. }
          rewrite Tk in Tk'. destruct Tk' as [Tk'|Tk']; discriminate Tk'.
        + apply (H k); [|exact Tk]. unfold vertex_indices. apply in_app_iff. right. apply in_flat_map. exists e. split; [|exact Ik]. clear - Il Ie. induction Il; auto.
          * right. auto.
          * destruct Ie as [<-|Ie]; [now left|right; auto]. }
    assert (Z : forall up, count_kind Colour up (indices_of x) = 0).
    { intros up. rewrite count_kind_filter', filter_filter. rewrite filter_none; [reflexivity|]. intros j J. destruct (itype_eqb (ix_type j) Colour) eqn:Q; [|now rewrite andb_false_r]. apply itype_decides in Q. exfalso. exact (Nx j J Q). }
    apply (count_none Colour (ix_up i) (indices_of p)) with (i := i); auto. rewrite Mc. apply Z.
Qed.

Definition derivative_vertexb (fs : list cfield) (gauge : list symbol) : bool :=
  let l := vertex_indices fs gauge in
  vertexb fs && forallb (fun x => negb (derivs x =? 0) || low_spinb x) fs && forallb standardb fs &&
  forallb (fun x => (f_nf (i_field (cf_if x)) =? 1) || (f_nf (i_field (cf_if x)) =? 3)) fs &&
  forallb (fun x => (derivs x =? 0) || match cf_class x with Plain => true | _ => false end) fs && forallb gauge_symbolb gauge &&
  nodup_slots l && forallb (fun t => (count_kind t true l <? 10) && (count_kind t false l <? 10)) [Undotted; Dotted; Colour; Isospin] &&
  forallb (fun i => forallb (fun j => negb (str_eqb (ix_name j) (ix_name i ++ lit "^"))) l) l &&
  forallb (fun i => negb (itype_eqb (ix_type i) Dotted) || negb (existsb (Ascii.eqb "u") (ix_name i))) l.

Lemma derivative_vertexb_ok fs gauge : derivative_vertexb fs gauge = true -> derivative_vertex fs gauge.
Proof.
  unfold derivative_vertexb. rewrite !andb_true_iff, !forallb_forall. intros (((((((((V & Ls) & St) & Nf) & Dv) & Gs) & N) & Lt) & Fr) & Dt).
  constructor; try (apply Forall_forall; intros x I).
  - apply vertexb_ok in V as [L _]. rewrite Forall_forall in L. auto.
  - intros x I D. specialize (Ls x I). rewrite D in Ls. now apply Nat.leb_le in Ls.
  - intros x I D. specialize (Dv x I). apply orb_true_iff in Dv as [Q|Q]; [apply Nat.eqb_eq in Q; lia|]. now destruct (cf_class x).
  - apply standardb_ok. auto.
  - specialize (Nf x I). apply orb_true_iff in Nf as [H|H]; apply Nat.eqb_eq in H; [now left|now right].
  - specialize (Gs x I). unfold gauge_symbolb in Gs. apply andb_true_iff in Gs as [S Gs]. split.
    + assert (F : Forall symbol_ok [x]) by (apply symbol_okb_ok; cbn; now rewrite S). now inversion F.
    + apply orb_true_iff in Gs as [H|H]; [left|right].
      * intros i Ii. rewrite forallb_forall in H. apply itype_decides, H, Ii.
      * apply andb_true_iff in H as [H1 H2]. apply Nat.eqb_eq in H1. split; [exact H1|]. intros i Ii. rewrite forallb_forall in H2. specialize (H2 i Ii).
        apply andb_true_iff in H2 as [H2 H3]. apply itype_decides in H2. apply negb_true_iff in H3. auto.
  - now apply nodup_slots_ok.
  - intros t up Ng. assert (X : In t [Undotted; Dotted; Colour; Isospin]) by (destruct t; cbn; tauto). specialize (Lt t X). apply andb_true_iff in Lt as [L1 L2].
    apply Nat.ltb_lt in L1, L2. destruct up; assumption.
  - intros i j I J E. specialize (Fr i I). rewrite forallb_forall in Fr. specialize (Fr j J). rewrite E, (decides_refl str_decides) in Fr. discriminate Fr.
  - intros i I T U. specialize (Dt i I). rewrite T in Dt. cbn [itype_eqb negb orb] in Dt. apply negb_true_iff in Dt.
    assert (X : existsb (Ascii.eqb "u") (ix_name i) = true) by (apply existsb_exists; exists "u"%char; split; [exact U|reflexivity]). congruence.
Qed.


Definition manageableb (x : cfield) : bool :=
  match cf_class x with Plain => true | _ => false end &&
  ((derivs x =? 0) || negb ((count_kind Undotted true (indices_of x) =? 0) && (count_kind Dotted true (indices_of x) =? 0)) &&
     match strip_derivs_with_indices (cf_if x) with Ok f => replacesb x (mkCF Plain f) | Err _ => false end).

Lemma manageableb_ok fs : forallb manageableb fs = true -> Forall manageable fs.
Proof.
  rewrite forallb_forall. intros H. apply Forall_forall. intros x I. specialize (H x I). unfold manageableb in H. apply andb_true_iff in H as [K H].
  assert (Kx : cf_class x = Plain) by now destruct (cf_class x). destruct (derivs x =? 0) eqn:D.
  - apply Nat.eqb_eq in D. now apply mn_plain.
  - apply Nat.eqb_neq in D. cbn [orb] in H. apply andb_true_iff in H as [Ns H]. destruct (strip_derivs_with_indices (cf_if x)) as [f|] eqn:E; [|discriminate H].
    apply (mn_derived x f); auto; [lia| |now apply replacesb_ok]. intros [S1 S2]. rewrite S1, S2 in Ns. discriminate Ns.
Qed.

Definition bare_of (x : cfield) : option cfield :=
  match cf_class x with
  | Plain => if derivs x =? 0 then Some x else match strip_derivs_with_indices (cf_if x) with Ok f => Some (mkCF Plain f) | Err _ => None end
  | _ => None
  end.

Lemma bare_of_ok x w : bared x w -> bare_of x = Some w.
Proof.
  intros [K H]. unfold bare_of. rewrite K. destruct H as [[D ->]|(D & f & E & ->)]; [now rewrite D|]. assert (Z : (derivs x =? 0) = false) by (apply Nat.eqb_neq; lia). now rewrite Z, E.
Qed.

Definition spinor_names (x : cfield) : list str := map ix_name (spinors Undotted x ++ spinors Dotted x).
Definition two_apart (x y : cfield) : bool :=
  match bare_of x, bare_of y with
  | Some w, Some v => bosonb x || bosonb y || negb (list_eqb str_eqb (spinor_names w) (spinor_names v))
  | _, _ => true
  end.
Fixpoint apartb (fs : list cfield) : bool := match fs with [] => true | x :: r => forallb (two_apart x) r && apartb r end.

Lemma apartb_ok fs : apartb fs = true -> spinors_apart fs.
Proof.
  intros H a x b y c w v E Fx Fy Bw Bv [Q1 Q2]. subst fs. revert H. induction a as [|q a IH]; cbn [app apartb]; rewrite andb_true_iff; [|intros [_ H]; exact (IH H)]. intros [H _].
  rewrite forallb_forall in H. specialize (H y). assert (I : In y (b ++ y :: c)) by (apply in_app_iff; right; now left). specialize (H I). unfold two_apart in H.
  rewrite (bare_of_ok _ _ Bw), (bare_of_ok _ _ Bv) in H. apply bosonb_not in Fx, Fy. rewrite Fx, Fy in H. cbn [orb] in H. apply negb_true_iff in H.
  assert (Nm : spinor_names w = spinor_names v).
  { unfold spinor_names. assert (G : forall l, map ix_name l = map (fun q => fst (fst q)) (map slot l)) by (intros l; rewrite map_map; reflexivity). rewrite !G, !map_app. red in Q1, Q2. now rewrite Q1, Q2. }
  rewrite Nm in H. rewrite (decides_refl (list_decides str_decides)) in H. discriminate H.
Qed.

Definition colour_freeb (fs : list cfield) (gauge : list symbol) : bool := forallb (fun i => negb (itype_eqb (ix_type i) Colour)) (vertex_indices fs gauge).

Definition safeb (fs : list cfield) (gauge : list symbol) : bool :=
  derivative_vertexb fs gauge && ((List.length fs =? 2) || (List.length fs =? 3)) && (0 <? derivs_on fs) && forallb manageableb fs && apartb fs &&
  ((if Qc_eq_dec (sum_of hypercharge fs) (Q2Qc 0) then false else true) || colour_freeb fs gauge) && existsb bosonb fs.

Lemma safeb_ok fs gauge : safeb fs gauge = true -> derivative_vertex fs gauge /\ (List.length fs = 2 \/ List.length fs = 3) /\ 0 < derivs_on fs /\ Forall manageable fs /\
  no_coloured_majorana fs gauge /\ spinors_apart fs /\ ~ (List.length fs = 3 /\ Forall fermion fs).
Proof.
  unfold safeb. rewrite !andb_true_iff. intros ((((((H1 & H2) & H3) & H4) & H5) & H6) & H7). split; [now apply derivative_vertexb_ok|]. split; [|split; [now apply Nat.ltb_lt|]].
  - apply orb_true_iff in H2 as [H2|H2]; apply Nat.eqb_eq in H2; auto.
  - split; [now apply manageableb_ok|]. split; [|split; [now apply apartb_ok|]].
    + apply majorana_free. apply orb_true_iff in H6 as [H6|H6]; [left; now destruct (Qc_eq_dec _ _)|right]. unfold colour_freeb in H6. rewrite forallb_forall in H6. intros i I T. specialize (H6 i I). rewrite T in H6. discriminate H6.
    + intros [_ F]. rewrite existsb_exists in H7. destruct H7 as (x & I & B). rewrite Forall_forall in F. apply (F x I). now apply bosonb_spec.
Qed.

Definition epsilons_of (l : list string) : list symbol := got [] (mapM (fun s => eps (lit s)) l).

(** the derivative of a lepton and the Higgs; with another Higgs; the derivatives of two Higgs; a quark *)
Definition vDLH := fields_of [derived_of "L" "10001" (-1#2) ["01"%string] "d0 i0"; plain "H" "i1" (1#2) 0].
Definition vDLHH := fields_of [derived_of "L" "10001" (-1#2) ["01"%string] "d0 i0"; plain "H" "i1" (1#2) 0; plain "H" "i2" (1#2) 0].
Definition vDHDH := fields_of [derived_of "H" "00001" (1#2) ["11"%string] "u0 d0 i0"; derived_of "H" "00001" (1#2) ["11"%string] "u1 d1 i1"].
Definition vDQH := fields_of [derived_of "Q" "10101" (1#6) ["01"%string] "d0 c0 i0"; plain "H" "i1" (1#2) 0].

Example C102_ex1 : Forall (fun v => safeb (fst v) (snd v) = true) [(vDLH, epsilons_of ["-i0 -i1"]); (vDLHH, epsilons_of ["-i0 -i1"]); (vDHDH, epsilons_of []); (vDQH, epsilons_of ["-i0 -i1"])]%string.
Proof. repeat (constructor; [vm_compute; reflexivity|]). constructor. Qed.


(** the fields of the term that is returned *)
Definition field_names (r : res ((str + cfield * cop * list symbol * list symbol) * sstate)) : option (list str) :=
  match r with Ok (inr (_, t, _, _), _) => Some (map (fun x => f_label (i_field (cf_if x))) (cfields t)) | _ => None end.

Example C102_ex2 : map (fun v => field_names (contract (fun _ => false) (fst v) (snd v) start_symbols))
    [(vDLH, epsilons_of ["-i0 -i1"%string]); (vDLHH, epsilons_of ["-i0 -i1"%string]); (vDHDH, epsilons_of []); (vDQH, epsilons_of ["-i0 -i1"%string])] =
  [Some [lit "L"; lit "H"; [ascii_of_nat 181]]; Some [lit "L"; lit "H"; lit "H"; [ascii_of_nat 181]];
   Some [[ascii_of_nat 179; ascii_of_nat 200]; lit "H"; lit "H"]; Some [lit "Q"; lit "H"; [ascii_of_nat 181]]].
Proof. vm_compute. reflexivity. Qed.

(** The derivative of a lepton and two leptons: three fermions, where the function raises. *)
Definition vDLLL := fields_of [derived_of "L" "10001" (-1#2) ["01"%string] "d0 i0"; plain "L" "u1 i1" (-1#2) 0; plain "L" "u2 i2" (-1#2) 0].

Theorem C102_three_refuted : exists fs gauge st, derivative_vertex fs gauge /\ List.length fs = 3 /\ supplied st /\ 0 < derivs_on fs /\ Forall manageable fs /\
  no_coloured_majorana fs gauge /\ spinors_apart fs /\ contract (fun _ => false) fs gauge st = Err AssertionError /\ exists lor, lorentz_table fs (Ok (true, lor)).
Proof.
  exists vDLLL, (epsilons_of ["-i0 -i1"%string]), start_symbols.
  assert (Dv : derivative_vertex vDLLL (epsilons_of ["-i0 -i1"%string])) by (apply derivative_vertexb_ok; vm_compute; reflexivity).
  assert (Er : contract (fun _ => false) vDLLL (epsilons_of ["-i0 -i1"%string]) start_symbols = Err AssertionError) by (vm_compute; reflexivity).
  split; [exact Dv|]. split; [reflexivity|]. split; [apply start_supplied|]. split; [vm_compute; lia|]. split; [apply manageableb_ok; vm_compute; reflexivity|].
  split; [apply majorana_free; left; vm_compute; discriminate|]. split; [apply apartb_ok; vm_compute; reflexivity|]. split; [exact Er|].
  destruct (C102_contract (fun _ => false) vDLLL (epsilons_of ["-i0 -i1"%string]) start_symbols Dv (or_intror eq_refl) start_supplied) as (r & T & H).
  destruct r as [[[|] lor]|e]; [exists lor; exact T|rewrite Er in H; discriminate H|].
  exfalso. rewrite Er in H. injection H as <-. assert (Np : forall l, ~ lorentz_pairing l (Err AssertionError)).
  { intros l [(_ & _ & Q)|[(_ & _ & Q)|(_ & eu & ev & _ & _ & Q)]]; discriminate Q. }
  inversion T as [| | | |s a b a' b' r D P Bs Fa Fb O X Pr|s s' a D|fs' fs'' r D Le O1 O2 Pr|fs' r D D0 D2 O Pr]; subst; [exact (Np _ Pr)|vm_compute in D; discriminate D|exact (Np _ Pr)|exact (Np _ Pr)].
Qed.

Print Assumptions C102_contract.
Print Assumptions C102_safe.
Print Assumptions C102_three_refuted.
