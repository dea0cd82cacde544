(** * ProofsCuts: the indices of the exotic fields *)

From Coq Require Import Ascii String List Bool Arith ZArith NArith QArith Qcanon Lia Permutation Sorted.
From Verif Require Import Base BaseFacts Show ModelFunctions ProofsFunctions ModelIndex SpecIndex ProofsIndex PropsIndex ModelField SpecField
  ProofsField ProofsField2 PropsField PropsField2 ModelContract SpecContract ProofsContract PropsContract PropsContract3 ModelPartition SpecPartition
  PropsPartition PropsPartition3 DataTopology PropsTopology ModelExotic SpecExotic ProofsExotic PropsExotic ProofsExotic2 PropsExotic2 PropsExotic3 SpecCompletion PropsCompletion SpecCuts.
From Verif Require Spec.
Import ListNotations.
Local Open Scope nat_scope.

Lemma split_takes l0 l es s c : split_symbols l es s c -> (forall i, In i l0 -> In i l) -> forall e, In e es -> contracted_with l0 e -> In e c.
Proof.
  induction 1 as [l|l e i j es s c E Mi Mj S IH|l e i j es s c E NM S IH|l e i j k es s c E Mi Mj Mk S IH|l e i j k es s c P Mi Mj NMk S IH|l e i j k es s c P NMi NMj S IH]; intros Hl e' I W.
  - destruct I.
  - destruct I as [<-|I]; [now left|]. right. now apply IH.
  - destruct I as [<-|I]; [|now apply IH]. exfalso. assert (We : contracted_with l e) by (eapply contracted_mono; [|exact W]; intros x _; now apply met_incl).
    destruct We as [We|(a & b & d & P & _)]; [apply NM; rewrite E in We; split; apply We; [now left|right; now left]|rewrite E in P; exact (two_three _ _ _ _ _ P)].
  - destruct I as [<-|I]; [now left|]. right. now apply IH.
  - destruct I as [<-|I]; [now left|]. right. apply IH; auto. intros x X. apply in_app_iff. left. auto.
  - destruct I as [<-|I]; [|now apply IH]. exfalso. assert (We : contracted_with l e) by (eapply contracted_mono; [|exact W]; intros x _; now apply met_incl).
    destruct We as [We|(a & b & d & P' & Ma & Mb)]; [apply NMi, We; eapply Permutation_in; [apply Permutation_sym, P|now left]|].
    assert (PP : Permutation [i; j; k] [a; b; d]) by (now rewrite <- P, <- P'). exact (three_not (met l) i j k a b d PP NMi NMj Ma Mb).
Qed.

(** two sets of indices that contract an epsilon have one of its indices in common *)
Lemma contracted_common l l' e : symbol_ok e -> contracted_with l e -> contracted_with l' e -> exists i, In i (symbol_indices e) /\ met l i /\ met l' i.
Proof.
  intros [_ Len] [W|(i & j & k & P & Mi & Mj)] W'.
  - destruct W' as [W'|(i & j & k & P & Mi & Mj)].
    + destruct (symbol_indices e) as [|i r]; [cbn in Len; lia|]. exists i. split; [now left|]. split; [apply W|apply W']; now left.
    + assert (I : In i (symbol_indices e)) by (eapply Permutation_in; [apply Permutation_sym, P|now left]). exists i. auto.
  - assert (Ii : In i (symbol_indices e)) by (eapply Permutation_in; [apply Permutation_sym, P|now left]).
    assert (Ij : In j (symbol_indices e)) by (eapply Permutation_in; [apply Permutation_sym, P|right; now left]).
    destruct W' as [W'|(a & b & d & P' & Ma & Mb)]; [exists i; auto|].
    destruct (met_dec l' i) as [M|Ni]; [exists i; auto|]. destruct (met_dec l' j) as [M|Nj]; [exists j; auto|]. exfalso.
    assert (PP : Permutation [i; j; k] [a; b; d]) by (now rewrite <- P, <- P'). exact (three_not (met l') i j k a b d PP Ni Nj Ma Mb).
Qed.

Lemma contracted_dec q e : symbol_ok e -> contracted_with q e \/ ~ contracted_with q e.
Proof.
  intros [_ Len]. destruct (symbol_indices e) as [|a [|b [|d [|]]]] eqn:E; try (cbn in Len; lia).
  - destruct (met_dec q a) as [Ma|Ma], (met_dec q b) as [Mb|Mb]; [left; left; rewrite E; intros y [<-|[<-|[]]]; assumption| | |];
      right; (intros [W'|(u & v & w & P & _)]; [|rewrite E in P; exact (two_three _ _ _ _ _ P)]); [apply Mb|apply Ma|apply Ma]; apply W'; rewrite E; cbn; auto.
  - destruct (met_dec q a) as [Ma|Ma], (met_dec q b) as [Mb|Mb], (met_dec q d) as [Md|Md];
      try (left; right; rewrite E; first [exists a, b, d; split; [reflexivity|now split]|exists a, d, b; split; [apply perm_skip, perm_swap|now split]|
        exists b, d, a; split; [apply (Permutation_cons_append [b; d] a)|now split]]; fail);
      right; (intros [W'|(u & v & w & P & Mu & Mv)];
      [rewrite E in W'; first [exact (Ma (W' a (or_introl eq_refl)))|exact (Mb (W' b (or_intror (or_introl eq_refl))))|exact (Md (W' d (or_intror (or_intror (or_introl eq_refl)))))]
      |rewrite E in P; first [exact (three_not (met q) a b d u v w P Ma Mb Mu Mv)
        |exact (three_not (met q) a d b u v w (Permutation_trans (perm_skip a (perm_swap b d [])) P) Ma Md Mu Mv)
        |exact (three_not (met q) b d a u v w (Permutation_trans (Permutation_sym (Permutation_cons_append [b; d] a)) P) Mb Md Mu Mv)]]).
Qed.

Lemma counterpart_not_self i j : slot i = slot j -> ~ counterpart i j.
Proof. intros E (_ & _ & U). assert (E3 : ix_up i = ix_up j) by exact (f_equal snd E). rewrite E3 in U. now destruct (ix_up j). Qed.

Lemma slot_counterpart i j k : slot i = slot j -> counterpart i k -> counterpart j k.
Proof. intros E C. apply counterpart_sym. eapply counterpart_slot; [apply counterpart_sym, C|exact E]. Qed.

Lemma met_slot l i j : met l i -> slot i = slot j -> met l j.
Proof. intros (k & K & C) E. exists k. split; [exact K|]. exact (slot_counterpart i j k E C). Qed.

Lemma slot_tp i p : slot i = p -> ix_type i = snd (fst p).
Proof. now intros <-. Qed.

Section Cuts.
  Variables (F0 : list cfield) (G : list symbol).
  Hypothesis Inv : invariant_operator F0 G.

  Lemma gauge_once : NoDup (map slot (flat_map indices_of F0 ++ flat_map symbol_indices G)).
  Proof. exact (cn_once _ _ (io_contractible _ _ Inv)). Qed.

  Lemma symbols_ok e : In e G -> symbol_ok e /\ gauge_symbol e.
  Proof. intros I. pose proof (cn_gauge _ _ (io_contractible _ _ Inv)) as H. rewrite Forall_forall in H. pose proof (H e I) as X. split; [apply X|exact X]. Qed.

  Lemma symbol_type e i j : In e G -> In i (symbol_indices e) -> In j (symbol_indices e) -> ix_type i = ix_type j.
  Proof.
    intros Ie I J. destruct (symbols_ok e Ie) as [_ [_ [H|[_ H]]]]; [now rewrite (H i I), (H j J)|]. now rewrite (proj1 (H i I)), (proj1 (H j J)).
  Qed.

  Lemma symbol_gauge e i : In e G -> In i (symbol_indices e) -> gauge_type (ix_type i).
  Proof. intros Ie I. destruct (symbols_ok e Ie) as [_ [_ [H|[_ H]]]]; [left; auto|right; now apply H]. Qed.

  Lemma symbol_one e e' i j : In e G -> In e' G -> In i (symbol_indices e) -> In j (symbol_indices e') -> slot i = slot j -> e = e'.
  Proof.
    intros Ie Ie' I J E. pose proof gauge_once as N. rewrite map_app in N. apply NoDup_split in N as (_ & N & _). revert N Ie Ie'. clear - I J E.
    induction G as [|a l IH]; intros N Ie Ie'; [destruct Ie|]. cbn [flat_map] in N. rewrite map_app in N. apply NoDup_split in N as (N1 & N2 & N3).
    destruct Ie as [<-|Ie], Ie' as [<-|Ie']; auto; exfalso.
    - apply (N3 (slot i)); [now apply in_map|]. rewrite E. apply in_map, in_flat_map. eauto.
    - apply (N3 (slot j)); [now apply in_map|]. rewrite <- E. apply in_map, in_flat_map. eauto.
  Qed.

  Lemma field_symbol i e j : In i (flat_map indices_of F0) -> In e G -> In j (symbol_indices e) -> slot i <> slot j.
  Proof.
    intros I Ie J E. pose proof gauge_once as N. rewrite map_app in N. apply NoDup_split in N as (_ & _ & N). apply (N (slot i)); [now apply in_map|]. rewrite E. apply in_map, in_flat_map. eauto.
  Qed.

  Lemma inside_mono L L' i : (forall j, In j (flat_map indices_of L) -> In j (flat_map indices_of L')) -> inside G L i -> inside G L' i.
  Proof.
    intros H [I|(e & Ie & W & I)]; [left; auto|right]. exists e. split; [exact Ie|]. split; [|exact I]. eapply contracted_mono; [|exact W]. intros x _. now apply met_incl.
  Qed.

  Variable t : itype.
  Hypothesis Tg : gauge_type t.
  Hypothesis Un : unchained_at t G.

  Definition shows (L : list cfield) (x : cfield) : Prop :=
    forall p, snd (fst p) = t -> (In p (map slot (indices_of x)) <-> exists i, crossing G L i /\ slot i = p).

  Lemma shows_in L x i : shows L x -> In i (indices_of x) -> ix_type i = t -> exists k, crossing G L k /\ slot k = slot i.
  Proof. intros S I T. apply (S (slot i) T). now apply in_map. Qed.

  Lemma shows_out L x k : shows L x -> crossing G L k -> ix_type k = t -> exists i, In i (indices_of x) /\ slot i = slot k.
  Proof. intros S C T. assert (H : In (slot k) (map slot (indices_of x))) by (apply (S (slot k) T); eauto). apply in_map_iff in H as (i & E & I). eauto. Qed.

  (** a field of the operator *)
  Lemma shows_leaf f : In f F0 -> single_indices f -> shows [f] f.
  Proof.
    intros If S p Tp. assert (E1 : flat_map indices_of [f] = indices_of f) by (cbn [flat_map]; apply app_nil_r).
    assert (None : forall e, In e G -> contracted_with (indices_of f) e -> False).
    { intros e Ie W. destruct (symbols_ok e Ie) as [Ok _].
      assert (Two : exists a b, In a (symbol_indices e) /\ In b (symbol_indices e) /\ slot a <> slot b /\ met (indices_of f) a /\ met (indices_of f) b).
      { assert (Nd : NoDup (map slot (symbol_indices e))).
        { pose proof gauge_once as N. rewrite map_app in N. apply NoDup_split in N as (_ & N & _). clear - N Ie. induction G as [|y r IH]; [destruct Ie|].
          cbn [flat_map] in N. rewrite map_app in N. apply NoDup_split in N as (N1 & N2 & _). destruct Ie as [->|H]; auto. }
        destruct W as [W|(a & b & d & P & Ma & Mb)].
        - destruct Ok as [_ Len]. destruct (symbol_indices e) as [|a [|b r]]; try (cbn in Len; lia). exists a, b. split; [now left|]. split; [right; now left|].
          split; [|split; apply W; [now left|right; now left]]. cbn [map] in Nd. inversion Nd as [|? ? X _]; subst. intros E. apply X. left. now symmetry.
        - exists a, b. split; [eapply Permutation_in; [apply Permutation_sym, P|now left]|]. split; [eapply Permutation_in; [apply Permutation_sym, P|right; now left]|].
          split; [|now split]. apply (Permutation_NoDup (Permutation_map slot P)) in Nd. cbn [map] in Nd. inversion Nd as [|? ? X _]; subst. intros E. apply X. left. now symmetry. }
      destruct Two as (a & b & Ia & Ib & Ne & (ja & Ja & Ca) & (jb & Jb & Cb)).
      assert (Ga := symbol_gauge e a Ie Ia). assert (Tab := symbol_type e a b Ie Ia Ib).
      assert (Ea : ix_type ja = ix_type a) by apply Ca. assert (Eb : ix_type jb = ix_type b) by apply Cb. assert (ja = jb) by (apply S; auto; congruence).
      subst jb. apply Ne. exact (counterpart_inj a b ja Ca Cb). }
    rewrite in_map_iff. split.
    - intros (i & E & I). exists i. split; [|exact E]. split; [left; now rewrite E1|]. intros (j & [J|(e & Ie & W & J)] & C); rewrite E1 in *; [|exact (None e Ie W)].
      pose proof C as (_ & Tj & _). assert (Gi : gauge_type (ix_type i)) by (rewrite (slot_tp i p E), Tp; exact Tg). rewrite (S i j I J Gi ltac:(now symmetry)) in C. exact (counterpart_not_self j j eq_refl C).
    - intros (i & [[I|(e & Ie & W & I)] _] & E); rewrite E1 in *; [eauto|]. exfalso. exact (None e Ie W).
  Qed.

  Section Step.
    Variables (Ls : list (list cfield)) (O : list cfield).
    Variables (fs Rest : list cfield) (Lv sp c lor : list symbol) (l : list index) (x p : cfield).
    Let T := cnormalise (map KField fs ++ map KSym lor ++ map KSym c).
    Hypothesis Part : Permutation F0 (concat Ls ++ O).
    Hypothesis All1 : forall f, In f fs -> exists L, In L Ls /\ shows L f.
    Hypothesis All2 : forall L, In L Ls -> exists f, In f fs /\ shows L f.
    Hypothesis Cfg : config F0 G (fs ++ Rest) Lv.
    Hypothesis Two : 2 <= List.length fs.
    Hypothesis Four : List.length fs = 4 -> Forall boson fs.
    Hypothesis El : get_lorentz_epsilons fs = Ok (true, lor).
    Hypothesis Es : separate_gauge_epsilons fs Lv = Ok (sp, c).
    Hypothesis Hl : forall i, In i l <-> is_free (product_of fs) i.
    Hypothesis Sl : split_symbols l Lv sp c.
    Hypothesis Sf : stands_for T x p.
    Let If := flat_map indices_of fs.
    Let Ic := flat_map symbol_indices c.
    Let Lall := concat Ls.

    Lemma leaf_all L j : In L Ls -> In j (flat_map indices_of L) -> In j (flat_map indices_of Lall).
    Proof. intros IL J. apply in_flat_map in J as (f & Hf & J). apply in_flat_map. exists f. split; [|exact J]. apply in_concat. eauto. Qed.

    Lemma leaf_split j : In j (flat_map indices_of Lall) -> exists L, In L Ls /\ In j (flat_map indices_of L).
    Proof. intros J. apply in_flat_map in J as (f & Hf & J). apply in_concat in Hf as (L & IL & Hf). exists L. split; [exact IL|]. apply in_flat_map. eauto. Qed.

    Lemma leaf_F0 j : In j (flat_map indices_of Lall) -> In j (flat_map indices_of F0).
    Proof.
      intros J. apply in_flat_map in J as (f & Hf & J). apply in_flat_map. exists f. split; [|exact J]. eapply Permutation_in; [apply Permutation_sym, Part|]. apply in_app_iff. now left.
    Qed.

    Lemma leaf_one L L' i j : In L Ls -> In L' Ls -> In i (flat_map indices_of L) -> In j (flat_map indices_of L') -> slot i = slot j -> L = L'.
    Proof.
      intros IL IL' I J E.
      assert (N : NoDup (map slot (flat_map indices_of Lall))).
      { pose proof gauge_once as N. rewrite map_app in N. apply NoDup_split in N as (N & _ & _).
        apply (Permutation_NoDup (Permutation_map slot (Permutation_flat_map indices_of Part))) in N. rewrite flat_map_app, map_app in N. now apply NoDup_split in N. }
      unfold Lall in N. revert N IL IL'. clear - I J E. induction Ls as [|a q IH]; intros N IL IL'; [destruct IL|]. cbn [concat] in N. rewrite flat_map_app, map_app in N. apply NoDup_split in N as (N1 & N2 & N3).
      assert (Up : forall M k, In M q -> In k (flat_map indices_of M) -> In (slot k) (map slot (flat_map indices_of (concat q)))).
      { intros M k IM K. apply in_map. apply in_flat_map in K as (f & Hf & K). apply in_flat_map. exists f. split; [|exact K]. apply in_concat. eauto. }
      destruct IL as [<-|IL], IL' as [<-|IL']; auto; exfalso.
      - apply (N3 (slot i)); [now apply in_map|]. rewrite E. eapply Up; eauto.
      - apply (N3 (slot j)); [now apply in_map|]. rewrite <- E. eapply Up; eauto.
    Qed.

    Lemma live_G e : In e c -> In e G.
    Proof. intros I. apply (live_in F0 G _ _ e Cfg). exact (st_c_in Lv sp c l Sl e I). Qed.

    (** indices of fields, where they come from *)
    Lemma field_from j : In j If -> ix_type j = t -> exists L k, In L Ls /\ crossing G L k /\ slot k = slot j.
    Proof.
      intros J Tj. apply in_flat_map in J as (f & Hf & J). destruct (All1 f Hf) as (L & IL & S). destruct (shows_in L f j S J Tj) as (k & K & E). eauto.
    Qed.

    Lemma field_to L k : In L Ls -> crossing G L k -> ix_type k = t -> exists j, In j If /\ slot j = slot k.
    Proof.
      intros IL K Tk. destruct (All2 L IL) as (f & Hf & S). destruct (shows_out L f k S K Tk) as (j & J & E). exists j. split; [|exact E]. apply in_flat_map. eauto.
    Qed.

    (** a symbol meets the fields through the leaves *)
    Lemma meets e i : In e G -> In i (symbol_indices e) -> ix_type i = t -> met If i ->
      exists L k, In L Ls /\ In k (flat_map indices_of L) /\ crossing G L k /\ counterpart i k.
    Proof.
      intros Ie I Ti (j & J & C). assert (Tj : ix_type j = t) by (destruct C as (_ & -> & _); exact Ti). destruct (field_from j J Tj) as (L & k & IL & K & E).
      assert (Ck : counterpart i k) by (apply (counterpart_slot i j k C); now symmetry).
      exists L, k. split; [exact IL|]. split; [|now split]. destruct K as [[K|(e' & Ie' & _ & K)] _]; [exact K|]. exfalso. apply (Un e i Ie I Ti). exists k. split; [apply in_flat_map; eauto|exact Ck].
    Qed.

    Lemma contracted_c e : In e c -> (forall i, In i (symbol_indices e) -> ix_type i = t) -> contracted_with If e.
    Proof.
      intros Ie Te. destruct (split_contracted _ _ _ _ Sl e Ie) as [_ W]. eapply contracted_mono; [|exact W]. intros i I (j & J & C). apply in_app_iff in J as [J|J].
      - exists j. split; [|exact C]. apply Hl in J as [J _]. now rewrite product_of_indices in J.
      - exfalso. apply (Un e i (live_G e Ie) I (Te i I)). exists j. split; [|exact C]. apply in_flat_map in J as (e' & Ie' & J). apply in_flat_map. exists e'. split; [now apply live_G|exact J].
    Qed.

    Lemma types e i : In e G -> In i (symbol_indices e) -> ix_type i = t -> forall j, In j (symbol_indices e) -> ix_type j = t.
    Proof. intros Ie I Ti j J. rewrite <- Ti. now apply (symbol_type e). Qed.

    Lemma c_inside e i : In e c -> In i (symbol_indices e) -> ix_type i = t -> inside G Lall i.
    Proof.
      intros Ie I Ti. right. exists e. split; [now apply live_G|]. split; [|exact I]. assert (Te := types e i (live_G e Ie) I Ti).
      eapply contracted_mono; [|exact (contracted_c e Ie Te)]. intros a A M. destruct (meets e a (live_G e Ie) A (Te a A) M) as (L & k & IL & K & _ & C). exists k. split; [now apply (leaf_all L)|exact C].
    Qed.

    Lemma inside_part L i : In L Ls -> inside G L i -> inside G Lall i.
    Proof. intros IL. apply inside_mono. intros j. now apply leaf_all. Qed.

    (** an index contracted with the other side of a part is contracted at the vertex or leaves it *)
    Lemma inside_cases i : inside G Lall i -> ix_type i = t -> (exists L, In L Ls /\ inside G L i) \/ exists e, In e c /\ In i (symbol_indices e).
    Proof.
      intros [I|(e & Ie & W & I)] Ti.
      - apply leaf_split in I as (L & IL & I). left. exists L. split; [exact IL|now left].
      - assert (Te := types e i Ie I Ti).
        assert (Dec : (exists L, In L Ls /\ contracted_with (flat_map indices_of L) e) \/ ~ exists L, In L Ls /\ contracted_with (flat_map indices_of L) e).
        { assert (D : forall L, contracted_with (flat_map indices_of L) e \/ ~ contracted_with (flat_map indices_of L) e) by (intros L; apply contracted_dec; now apply symbols_ok).
          clear - D. induction Ls as [|a q [(L & IL & H)|H]]; [right; intros (L & [] & _)|left; exists L; split; [now right|exact H]|].
          destruct (D a) as [Da|Da]; [left; exists a; split; [now left|exact Da]|right]. intros (L & [<-|IL] & X); [exact (Da X)|apply H; eauto]. }
        destruct Dec as [(L & IL & WL)|No]; [left; exists L; split; [exact IL|right; eauto]|right]. exists e. split; [|exact I].
        assert (WI : contracted_with If e).
        { eapply contracted_mono; [|exact W]. intros a A (j & J & C). destruct (leaf_split j J) as (L & IL & JL).
          assert (Tj : ix_type j = t) by (destruct C as (_ & -> & _); exact (Te a A)).
          assert (K : crossing G L j).
          { split; [now left|]. intros (k & [Kk|(e' & Ie' & W' & Kk)] & Ck); assert (Ek := counterparts_slot j k a Ck (counterpart_sym _ _ C)).
            - exact (field_symbol k e a (leaf_F0 k (leaf_all L k IL Kk)) Ie A Ek).
            - apply No. exists L. split; [exact IL|]. rewrite (symbol_one e e' a k Ie Ie' A Kk (eq_sym Ek)). exact W'. }
          destruct (field_to L j IL K Tj) as (j' & J' & E'). exists j'. split; [exact J'|]. apply (counterpart_slot a j j' C). now symmetry. }
        destruct (cg_dead _ _ _ _ Cfg) as (D & ID & HD). apply (interleaved_in _ _ _ ID) in Ie as Q. destruct Q as [Q|Q].
        + exfalso. apply (HD e Q). eapply contracted_mono; [|exact WI]. intros a _. apply met_incl. intros j J. apply vertex_in. left. rewrite flat_map_app. apply in_app_iff. now left.
        + apply (split_takes l l Lv sp c Sl (fun i H => H) e Q). eapply contracted_mono; [|exact WI]. intros a A. apply (met_free fs Lv l e a); auto. exact (config_contractible F0 G Inv fs Rest Lv Cfg).
    Qed.

    Lemma step_op i : In i (op_indices (cop_erase T)) -> ix_type i = t -> In i If \/ In i Ic.
    Proof. intros I Ti. apply (st_gauge_op F0 G Inv fs Rest Lv sp c lor Cfg Two Four El Es i I). rewrite Ti. exact Tg. Qed.

    Lemma crossing_dec L j : inside G L j -> crossing G L j \/ exists k, inside G L k /\ counterpart j k.
    Proof.
      intros J.
      destruct (met_dec (flat_map indices_of L) j) as [(k & K & C)|N1]; [right; exists k; split; [now left|exact C]|].
      destruct (met_dec (flat_map symbol_indices G) j) as [(k & K & C)|N2].
      - apply in_flat_map in K as (e & Ie & K).
        destruct (contracted_dec (flat_map indices_of L) e (proj1 (symbols_ok e Ie))) as [W|W]; [right; exists k; split; [right; eauto|exact C]|left].
        split; [exact J|]. intros (k' & [K'|(e' & Ie' & W' & K')] & C'); [apply N1; exists k'; auto|].
        apply W. rewrite (symbol_one e e' k k' Ie Ie' K K' (counterparts_slot j k k' C C')). exact W'.
      - left. split; [exact J|]. intros (k & [K|(e & Ie & _ & K)] & C); [apply N1; exists k; auto|]. apply N2. exists k. split; [apply in_flat_map; eauto|exact C].
    Qed.

    (** parts have no index in common *)
    Lemma part_one L L' i j : In L Ls -> In L' Ls -> inside G L i -> inside G L' j -> slot i = slot j -> L = L'.
    Proof.
      intros IL IL' [I|(e & Ie & W & I)] [J|(e' & Ie' & W' & J)] E.
      - exact (leaf_one L L' i j IL IL' I J E).
      - exfalso. exact (field_symbol i e' j (leaf_F0 i (leaf_all L i IL I)) Ie' J E).
      - exfalso. exact (field_symbol j e i (leaf_F0 j (leaf_all L' j IL' J)) Ie I (eq_sym E)).
      - rewrite <- (symbol_one e e' i j Ie Ie' I J E) in W'. destruct (contracted_common _ _ e (proj1 (symbols_ok e Ie)) W W') as (a & A & (u & U & Cu) & (v & V & Cv)).
        exact (leaf_one L L' u v IL IL' U V (counterparts_slot a u v Cu Cv)).
    Qed.

    (** an epsilon contracted at this vertex belongs to no part *)
    Lemma c_apart e i L j : In e c -> In i (symbol_indices e) -> ix_type i = t -> In L Ls -> inside G L j -> slot i <> slot j.
    Proof.
      intros Ie I Ti IL [J|(e' & Ie' & W' & J)] E; [exact (field_symbol j e i (leaf_F0 j (leaf_all L j IL J)) (live_G e Ie) I (eq_sym E))|].
      assert (Te := types e i (live_G e Ie) I Ti). rewrite <- (symbol_one e e' i j (live_G e Ie) Ie' I J E) in W'.
      destruct (contracted_common _ _ e (proj1 (symbols_ok e (live_G e Ie))) W' (contracted_c e Ie Te)) as (a & A & (u & U & Cu) & Ma).
      destruct (meets e a (live_G e Ie) A (Te a A) Ma) as (L' & k & IL' & K & Ck & Cak).
      assert (EL := leaf_one L L' u k IL IL' U K (counterparts_slot a u k Cu Cak)). subst L'.
      destruct Ck as [_ No]. apply No. exists a. split; [right; exists e; split; [now apply live_G|now split]|now apply counterpart_sym].
    Qed.

    Lemma x_slots q : snd (fst q) = t -> (In q (map slot (indices_of x)) <-> exists i, is_free (cop_erase T) i /\ slot i = q).
    Proof.
      intros Tq. destruct Sf as (_ & _ & [_ Cx] & _). rewrite Cx. split; intros (i & Fi & R); exists i; [tauto|]. split; [exact Fi|]. split; [|exact R].
      rewrite (slot_tp i q R), Tq. destruct Tg as [-> | ->]; discriminate.
    Qed.

    Lemma in_T i : In i (op_indices (cop_erase T)) <-> In i If \/ In i (flat_map symbol_indices lor) \/ In i Ic.
    Proof. exact (st_op fs c lor i). Qed.

    Lemma step_shows : shows Lall x.
    Proof.
      intros q Tq. rewrite (x_slots q Tq). split.
      - intros (i' & [I' F'] & E'). assert (Ti' : ix_type i' = t) by (rewrite (slot_tp i' q E'); exact Tq).
        destruct (step_op i' I' Ti') as [I|I].
        + destruct (field_from i' I Ti') as (L & i & IL & [Ki Ni] & E). exists i. split; [|congruence]. split; [exact (inside_part L i IL Ki)|]. intros (j & J & C).
          assert (Tj : ix_type j = t) by (destruct C as (_ & -> & _); rewrite (slot_type i i' E); exact Ti').
          assert (C2 : counterpart i' j) by (exact (slot_counterpart i i' j E C)).
          destruct (inside_cases j J Tj) as [(M & IM & JM)|(e & Ie & Je)].
          * destruct (crossing_dec M j JM) as [Cj|(k & Kk & Ck)].
            -- destruct (field_to M j IM Cj Tj) as (j' & J' & Ej). apply (F' j'); [apply in_T; now left|]. apply (counterpart_slot i' j j' C2). now symmetry.
            -- assert (Ek : slot i = slot k) by exact (counterparts_slot j i k (counterpart_sym _ _ C) Ck).
               assert (EL := part_one L M i k IL IM Ki Kk Ek). subst M. apply Ni. exists j. split; [exact JM|exact C].
          * apply (F' j); [|exact C2]. apply in_T. right. right. apply in_flat_map. eauto.
        + apply in_flat_map in I as (e & Ie & Ii). exists i'. split; [|exact E']. split; [exact (c_inside e i' Ie Ii Ti')|]. intros (j & J & C).
          assert (Tj : ix_type j = t) by (destruct C as (_ & -> & _); exact Ti').
          destruct (inside_cases j J Tj) as [(M & IM & JM)|(e' & Ie' & Je)].
          * destruct (crossing_dec M j JM) as [Cj|(k & Kk & Ck)].
            -- destruct (field_to M j IM Cj Tj) as (j' & J' & Ej). apply (F' j'); [apply in_T; now left|]. apply (counterpart_slot i' j j' C). now symmetry.
            -- exact (c_apart e i' M k Ie Ii Ti' IM Kk (counterparts_slot j i' k (counterpart_sym _ _ C) Ck)).
          * apply (F' j); [|exact C]. apply in_T. right. right. apply in_flat_map. eauto.
      - intros (i & [Ki Ni] & E). assert (Ti : ix_type i = t) by (rewrite (slot_tp i q E); exact Tq).
        assert (Vin : forall j, In j (op_indices (cop_erase T)) -> ix_type j = t -> exists k, inside G Lall k /\ slot k = slot j).
        { intros j J Tj. destruct (step_op j J Tj) as [J1|J1].
          - destruct (field_from j J1 Tj) as (M & k & IM & [Kk _] & Ek). exists k. split; [exact (inside_part M k IM Kk)|exact Ek].
          - apply in_flat_map in J1 as (e & Ie & Je). exists j. split; [exact (c_inside e j Ie Je Tj)|reflexivity]. }
        assert (Free : forall i', slot i' = slot i -> forall j, In j (op_indices (cop_erase T)) -> ~ counterpart i' j).
        { intros i' Ei j J C. assert (Tj : ix_type j = t) by (destruct C as (_ & -> & _); rewrite (slot_type i' i Ei); exact Ti). destruct (Vin j J Tj) as (k & Kk & Ek).
          apply Ni. exists k. split; [exact Kk|]. apply (slot_counterpart i' i k Ei). apply (counterpart_slot i' j k C). now symmetry. }
        destruct (inside_cases i Ki Ti) as [(L & IL & IiL)|(e & Ie & Ii)].
        + assert (Ci : crossing G L i) by (split; [exact IiL|]; intros (j & J & C); apply Ni; exists j; split; [exact (inside_part L j IL J)|exact C]).
          destruct (field_to L i IL Ci Ti) as (i' & I' & E'). exists i'. split; [|congruence]. split; [apply in_T; now left|]. intros j J. now apply Free.
        + exists i. split; [|exact E]. split; [apply in_T; right; right; apply in_flat_map; eauto|]. intros j J. now apply Free.
    Qed.
  End Step.
End Cuts.
