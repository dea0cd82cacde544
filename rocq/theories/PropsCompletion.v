(** * PropsCompletion: completions of operators without derivatives never raise (C76) *)

From Coq Require Import Ascii String List Bool Arith ZArith NArith QArith Qcanon Lia Permutation Sorted.
From Verif Require Import Base BaseFacts Show ModelFunctions ProofsFunctions ModelIndex SpecIndex ProofsIndex PropsIndex ModelField SpecField
  ProofsField ProofsField2 PropsField PropsField2 ModelContract SpecContract ProofsContract PropsContract PropsContract3 ModelPartition SpecPartition
  PropsPartition PropsPartition3 DataTopology PropsTopology ModelExotic SpecExotic ProofsExotic PropsExotic ProofsExotic2 PropsExotic2 PropsExotic3 SpecCompletion.
From Verif Require Spec.
Import ListNotations.
Local Open Scope nat_scope.

(** ** Contraction with more epsilons than are left *)

Lemma contract_full vanishes fs live all lor sp sp' c st :
  contractible fs live -> 2 <= List.length fs <= 3 -> get_lorentz_epsilons fs = Ok (true, lor) ->
  separate_gauge_epsilons fs live = Ok (sp, c) -> separate_gauge_epsilons fs all = Ok (sp', c) -> supplied st ->
  let op := cnormalise (map KField fs ++ map KSym lor ++ map KSym c) in
  exists x p st', stands_for op x p /\ (exists sym, named x sym /\ spends x sym st st') /\
    ((exists r, contract_vertex vanishes fs all st = Ok (inl r, st')) \/
     exists term, contract_vertex vanishes fs all st = Ok (inr (x, term, lor), st') /\ interaction op p term).
Proof.
  intros C N El Es Ea Su op. assert (N0 : fs <> []) by (intros ->; cbn in N; lia).
  assert (R := product_ready fs live lor sp c C ltac:(lia) El Es ltac:(lia)). fold op in R.
  destruct (C40_exotic vanishes op st R Su) as (x & p & t & st' & Ex & Sf & Sy & Ht). exists x, p, st'. split; [exact Sf|]. split; [exact Sy|].
  assert (E0 : negb ((List.length fs =? 2) || (List.length fs =? 3)) = false).
  { destruct fs as [|a [|b [|d [|]]]]; cbn in N |- *; try reflexivity; lia. }
  unfold contract_vertex, contract. rewrite E0, El. cbn [bind fst snd negb]. rewrite Ea. cbn [bind fst snd].
  rewrite c_reduce_ok by (destruct fs; [congruence|discriminate]). cbn [bind]. fold op. rewrite Ex. cbn [bind].
  destruct t as [reason|term]; [left; eexists; reflexivity|right; exists term]. destruct Ht as [Ht1 Ht2].
  assert (Ck : check_singlet term = Ok tt).
  { destruct Ht1 as (P & _ & Si & _). apply singlet_ok; [intros X; rewrite X in P; apply Permutation_nil in P; discriminate P| |exact Si].
    eapply Permutation_Forall; [apply Permutation_sym, P|]. constructor; [|exact (rd_charges _ R)]. apply Sf. }
  rewrite Ck. cbn [bind].
  assert (Dz : list_sum (map cf_derivs (cfields term)) = 0).
  { apply no_derivs. destruct Ht1 as (P & _). eapply Permutation_Forall; [apply Permutation_sym, P|]. constructor; [apply Sf|].
    eapply Permutation_Forall; [apply Permutation_sym, pr_cfields|exact (cn_derivs _ _ C)]. }
  rewrite Dz. cbn [Nat.eqb bind]. rewrite Ck. cbn [bind fst snd]. rewrite Ck. auto.
Qed.

(** ** Slots *)

Lemma NoDup_split {A} (l l' : list A) : NoDup (l ++ l') -> NoDup l /\ NoDup l' /\ forall x, In x l -> ~ In x l'.
Proof.
  induction l as [|a l IH]; intros N; [split; [constructor|split; [exact N|intros x []]]|]. inversion N as [|? ? Na Nd]; subst. destruct (IH Nd) as (N1 & N2 & N3).
  split; [constructor; [intros I; apply Na, in_app_iff; now left|exact N1]|]. split; [exact N2|]. intros x [->|I]; [intros J; apply Na, in_app_iff; now right|now apply N3].
Qed.

Lemma same_slot l i j : NoDup (map slot l) -> In i l -> In j l -> slot i = slot j -> i = j.
Proof.
  induction l as [|k l IH]; intros N I J E; [destruct I|]. cbn [map] in N. inversion N as [|? ? Nk Nd]; subst.
  destruct I as [->|I], J as [->|J]; auto; exfalso; apply Nk; [rewrite E|rewrite <- E]; now apply in_map.
Qed.

Lemma counterpart_slot i j k : counterpart i j -> slot j = slot k -> counterpart i k.
Proof.
  intros (N & T & U) E. assert (E1 : ix_name j = ix_name k) by exact (f_equal (fun q => fst (fst q)) E). assert (E2 : ix_type j = ix_type k) by exact (f_equal (fun q => snd (fst q)) E).
  assert (E3 : ix_up j = ix_up k) by exact (f_equal snd E). repeat split; congruence.
Qed.

Lemma counterparts_slot i j k : counterpart i j -> counterpart i k -> slot j = slot k.
Proof. intros (N & T & U) (N' & T' & U'). unfold slot. rewrite N, T, U, N', T', U'. reflexivity. Qed.

Lemma slot_type i j : slot i = slot j -> ix_type i = ix_type j.
Proof. intros E. exact (f_equal (fun q => snd (fst q)) E). Qed.

Lemma slot_name i j : slot i = slot j -> ix_name i = ix_name j.
Proof. intros E. exact (f_equal (fun q => fst (fst q)) E). Qed.

Lemma vertex_in fs es i : In i (vertex_indices fs es) <-> In i (flat_map indices_of fs) \/ In i (flat_map symbol_indices es).
Proof. unfold vertex_indices. apply in_app_iff. Qed.

Lemma interleaved_in {A} (l a b : list A) : interleaved l a b -> forall x, In x l <-> In x a \/ In x b.
Proof. induction 1 as [|y l a b I IH|y l a b I IH]; intros x; cbn [In]; [tauto|rewrite IH; tauto|rewrite IH; tauto]. Qed.

Lemma interleaved_again {A} (l d a : list A) : interleaved l d a -> forall s c, interleaved a s c ->
  exists d', interleaved l d' s /\ forall x, In x d' -> In x d \/ In x c.
Proof.
  induction 1 as [|y l d a I IH|y l d a I IH]; intros s c J.
  - inversion J; subst. exists []. split; [constructor|intros x []].
  - destruct (IH s c J) as (d' & I' & H). exists (y :: d'). split; [now constructor|]. intros x [->|X]; [left; now left|]. destruct (H x X); [left; now right|now right].
  - inversion J as [|? ? s' ? J'|? ? ? c' J']; subst.
    + destruct (IH s' c J') as (d' & I' & H). exists d'. split; [now constructor|exact H].
    + destruct (IH s c' J') as (d' & I' & H). exists (y :: d'). split; [now constructor|]. intros x [->|X]; [right; now left|]. destruct (H x X); [now left|right; now right].
Qed.

Lemma interleaved_kept {A} (P : A -> Prop) (l d a : list A) : interleaved l d a -> (forall x, In x d -> ~ P x) -> forall c c', kept P l c -> kept P a c' -> c = c'.
Proof.
  induction 1 as [|y l d a I IH|y l d a I IH]; intros H c c' K K'.
  - inversion K; inversion K'; reflexivity.
  - inversion K as [|? ? ? Py K1|? ? ? Py K1]; subst; [exfalso; apply (H y); [now left|exact Py]|]. apply IH; auto. intros x X. apply H. now right.
  - inversion K as [|? ? ? Py K1|? ? ? Py K1]; subst; inversion K' as [|? ? ? Py' K2|? ? ? Py' K2]; subst; try contradiction; [f_equal|]; eapply IH; eauto.
Qed.

Lemma contracted_mono l l' e : (forall i, In i (symbol_indices e) -> met l i -> met l' i) -> contracted_with l e -> contracted_with l' e.
Proof.
  intros H [W|(i & j & k & P & Mi & Mj)]; [left; auto|right]. exists i, j, k. split; [exact P|].
  split; apply H; auto; eapply Permutation_in; [apply Permutation_sym, P| |apply Permutation_sym, P|]; [now left|right; now left].
Qed.

Lemma met_incl l l' i : (forall j, In j l -> In j l') -> met l i -> met l' i.
Proof. intros H (j & J & C). exists j. auto. Qed.

(** ** Lorentz epsilons have two indices *)

Lemma joins_two t m es e : SpecContract.joins t m es -> In e es -> List.length (symbol_indices e) = 2.
Proof. intros J. red in J. induction J as [|p e0 m es Q J IH]; [intros []|]. destruct Q as (a & b & -> & _). intros [<-|I]; [reflexivity|auto]. Qed.

Lemma paired_two t l es e : paired t l es -> In e es -> List.length (symbol_indices e) = 2.
Proof. intros [[_ ->]|(m & _ & J)]; [intros []|]. now apply (joins_two _ _ _ _ J). Qed.

Lemma lorentz_two fs lor e : vertex fs -> fs <> [] -> get_lorentz_epsilons fs = Ok (true, lor) -> In e lor -> List.length (symbol_indices e) = 2.
Proof.
  intros V N E I. pose proof (C38_lorentz fs V N) as T. rewrite E in T.
  assert (P : forall fs', lorentz_pairing fs' (Ok (true, lor)) -> List.length (symbol_indices e) = 2).
  { intros fs' [(_ & _ & X)|[(_ & _ & X)|(_ & eu & ev & Pu & Pv & X)]]; try discriminate X. assert (Y : lor = eu ++ ev) by congruence. rewrite Y in I.
    apply in_app_iff in I as [I|I]; [exact (paired_two _ _ _ _ Pu I)|exact (paired_two _ _ _ _ Pv I)]. }
  inversion T; subst; try (destruct I); eauto.
Qed.

Lemma lorentz_even fs lor : vertex fs -> fs <> [] -> get_lorentz_epsilons fs = Ok (true, lor) -> List.length (flat_map symbol_indices lor) = 2 * List.length lor.
Proof.
  intros V N E. pose proof (fun e => lorentz_two fs lor e V N E) as H. clear E. induction lor as [|e es IH]; [reflexivity|].
  cbn [flat_map]. rewrite app_length, (H e (or_introl eq_refl)), IH by (intros x X; apply H; now right). cbn [List.length]. lia.
Qed.

Definition lorentzb (i : index) : bool := itype_eqb (ix_type i) Undotted || itype_eqb (ix_type i) Dotted.

Lemma lorentzb_iff i : lorentzb i = true <-> lorentz_type (ix_type i).
Proof. unfold lorentzb, lorentz_type. rewrite orb_true_iff. split; intros [H|H]; [left|right|left|right]; now apply itype_decides. Qed.

Lemma spin_length x : legit x -> spin x = List.length (filter lorentzb (indices_of x)).
Proof.
  intros L. unfold spin. rewrite <- (count_has Undotted x L (or_introl eq_refl)), <- (count_has Dotted x L (or_intror eq_refl)).
  induction (indices_of x) as [|i l IH]; [reflexivity|]. assert (H : lorentzb i = has_type Undotted i || has_type Dotted i /\ has_type Undotted i && has_type Dotted i = false)
    by (unfold lorentzb, has_type; destruct (ix_type i); split; reflexivity).
  cbn [filter]. destruct H as [-> H]. destruct (has_type Undotted i), (has_type Dotted i); try discriminate H; cbn [orb List.length]; lia.
Qed.

Lemma spins_length fs : Forall legit fs -> list_sum (map spin fs) = List.length (filter lorentzb (flat_map indices_of fs)).
Proof.
  induction 1 as [|x l Lx L IH]; [reflexivity|]. cbn [flat_map]. rewrite filter_app, app_length, <- IH, <- spin_length by exact Lx. reflexivity.
Qed.

Lemma slot_in_dec i l : {In (slot i) (map slot l)} + {~ In (slot i) (map slot l)}.
Proof.
  destruct (existsb (fun j => index_eqb i j) l) eqn:E.
  - left. apply existsb_exists in E as (j & J & Q). apply ProofsContract.slot_eqb in Q. rewrite Q. now apply in_map.
  - right. intros I. apply in_map_iff in I as (j & Q & J). assert (X : existsb (fun j => index_eqb i j) l = true) by (apply existsb_exists; exists j; split; [exact J|now apply ProofsContract.slot_eqb]). congruence.
Qed.

(** the spin of the product: every Lorentz epsilon takes two *)
Lemma product_free_lorentz fs live lor sp c X : contractible fs live -> 2 <= List.length fs -> (List.length fs = 4 -> Forall boson fs) ->
  get_lorentz_epsilons fs = Ok (true, lor) -> separate_gauge_epsilons fs live = Ok (sp, c) ->
  let T := cnormalise (map KField fs ++ map KSym lor ++ map KSym c) in
  NoDup (map slot X) -> (forall p, In p (map slot X) <-> exists i, is_free (cop_erase T) i /\ lorentz_type (ix_type i) /\ slot i = p) ->
  List.length X + 2 * List.length lor = list_sum (map spin fs).
Proof.
  intros C Two Four El Es T Nx Cx. assert (N0 := pr_nonempty fs live lor sp c C Two El Es Four). assert (V := pr_vertex fs live C).
  rewrite (spins_length fs (cn_legit _ _ C)), <- (lorentz_even fs lor V N0 El).
  destruct (lorentz_counterparts fs lor V N0 El) as (l & F2 & Nl & Hl). rewrite <- (Spec.Forall2_len F2).
  rewrite <- (map_length slot (filter lorentzb (flat_map _ _))), <- (map_length slot l), <- (map_length slot X), Nat.add_comm, <- app_length.
  assert (Con : forall i, In i l -> exists j, In j (flat_map symbol_indices lor) /\ counterpart i j).
  { clear - F2. induction F2 as [|a b l m Cab F IH]; intros i I; [destruct I|]. destruct I as [->|I]; [exists b; split; [now left|exact Cab]|].
    destruct (IH i I) as (j & J & Cj). exists j. split; [now right|exact Cj]. }
  assert (Con' : forall j, In j (flat_map symbol_indices lor) -> exists i, In i l /\ counterpart i j).
  { clear - F2. induction F2 as [|a b l m Cab F IH]; intros j J; [destruct J|]. destruct J as [->|J]; [exists a; split; [now left|exact Cab]|].
    destruct (IH j J) as (i & I & Ci). exists i. split; [now right|exact Ci]. }
  pose proof (pr_in fs lor c) as Pin. fold T in Pin.
  apply Permutation_length, NoDup_Permutation.
  - apply NoDup_app_intro; [exact Nl|exact Nx|]. intros q I J. apply in_map_iff in I as (i & <- & I).
    apply Cx in J as (k & [_ Fk] & _ & Ek). destruct (Con i I) as (m & M & Cm). apply (Fk m); [apply Pin; auto|].
    apply counterpart_sym. eapply counterpart_slot; [apply counterpart_sym, Cm|congruence].
  - apply NoDup_filter_map. destruct (pr_nodup fs live C) as [Y _]. exact Y.
  - intros q. rewrite in_app_iff. split.
    + intros [I|I].
      * apply in_map_iff in I as (i & <- & I). apply in_map, filter_In. destruct (Hl i I) as [H1 H2]. split; [exact H1|now apply lorentzb_iff].
      * apply Cx in I as (k & Fk & Tk & Ek).
        destruct (pr_free fs live lor sp c C Two El Es Four k Fk) as [Ik|[_ Y]]; [|rewrite Y in Tk; destruct Tk; discriminate].
        rewrite <- Ek. apply in_map, filter_In. split; [exact Ik|now apply lorentzb_iff].
    + intros I. apply in_map_iff in I as (i & <- & I). apply filter_In in I as [I T']. apply lorentzb_iff in T'.
      destruct (slot_in_dec i l) as [Y|Y]; [now left|right].
      apply Cx. exists i. split; [|split; [exact T'|reflexivity]].
      split; [apply Pin; auto|]. intros j J Cj. apply Pin in J as [J|[J|J]].
      * pose proof (cn_legit _ _ C) as L. rewrite Forall_forall in L. apply in_flat_map in I as (x1 & X1 & I). apply in_flat_map in J as (x2 & X2 & J).
        destruct Cj as (_ & Tj & Uj). rewrite (lorentz_raised x1 i (L x1 X1) I T'), (lorentz_raised x2 j (L x2 X2) J) in Uj; [discriminate Uj|]. now rewrite Tj.
      * destruct (Con' j J) as (k & K & Ck). apply Y. apply counterpart_sym in Ck, Cj. rewrite (counterparts_slot j i k Cj Ck). now apply in_map.
      * destruct Cj as (_ & Tj & _). destruct (pr_Ic_type fs live lor sp c C Two El Es Four j J) as [Z|[Z _]]; rewrite Z in Tj; rewrite <- Tj in T'; destruct T'; discriminate.
Qed.

Lemma product_spin fs live lor sp c x : contractible fs live -> 2 <= List.length fs -> (List.length fs = 4 -> Forall boson fs) ->
  get_lorentz_epsilons fs = Ok (true, lor) -> separate_gauge_epsilons fs live = Ok (sp, c) ->
  legit x -> carries x (cnormalise (map KField fs ++ map KSym lor ++ map KSym c)) -> spin x + 2 * List.length lor = list_sum (map spin fs).
Proof.
  intros C Two Four El Es Lx [Nx Cx]. rewrite (spin_length x Lx). apply (product_free_lorentz fs live lor sp c); auto; [now apply NoDup_filter_map|].
  intros p. split.
  - intros I. apply in_map_iff in I as (i & <- & I). apply filter_In in I as [I T]. apply lorentzb_iff in T. apply (in_map slot) in I. apply Cx in I as (k & Fk & _ & Ek).
    exists k. split; [exact Fk|]. split; [now rewrite (slot_type _ _ Ek)|exact Ek].
  - intros (i & Fi & Ti & <-). assert (I : In (slot i) (map slot (indices_of x))).
    { apply Cx. exists i. split; [exact Fi|]. split; [destruct Ti as [Y|Y]; rewrite Y; discriminate|reflexivity]. }
    apply in_map_iff in I as (j & Ej & I). rewrite <- Ej. apply in_map, filter_In. split; [exact I|]. apply lorentzb_iff. now rewrite (slot_type _ _ Ej).
Qed.

(** ** What is left of the operator after some contractions *)

Lemma kept_all {A} (P : A -> Prop) l c : kept P l c -> forall x, In x c -> P x /\ In x l.
Proof. induction 1 as [|x l c Px K IH|x l c Px K IH]; intros y I; [destruct I| |]. - destruct I as [->|I]; [split; [exact Px|now left]|]. destruct (IH y I). split; [auto|now right]. - destruct (IH y I). split; [auto|now right]. Qed.

Lemma kept_mem {A} (P : A -> Prop) l c : kept P l c -> forall x, In x l -> P x -> In x c.
Proof. induction 1 as [|y l c Py K IH|y l c Py K IH]; intros x I Px; [destruct I| |]; destruct I as [->|I]; [now left|right; auto|contradiction|auto]. Qed.

Lemma count_kind_incl t up l l' : NoDup (map slot l) -> (forall i, In i l -> In (slot i) (map slot l')) -> count_kind t up l <= count_kind t up l'.
Proof.
  intros N H. rewrite !count_kind_filter', !filter_filter. set (P := fun i => _).
  rewrite <- (map_length slot (filter P l)), <- (map_length slot (filter P l')). apply NoDup_incl_length; [now apply NoDup_filter_map|].
  intros q I. apply in_map_iff in I as (i & <- & I). apply filter_In in I as [I Pi]. apply H in I. apply in_map_iff in I as (j & Ej & J). rewrite <- Ej.
  apply in_map, filter_In. split; [exact J|]. revert Pi. unfold P. rewrite (slot_type _ _ Ej). assert (U : ix_up j = ix_up i) by exact (f_equal snd Ej). now rewrite U.
Qed.

(** ** Which epsilons are contracted *)

Lemma met_dec l i : met l i \/ ~ met l i.
Proof.
  destruct (existsb (opposite i) l) eqn:E.
  - left. apply existsb_exists in E as (j & J & O). exists j. split; [exact J|now apply opposite_spec].
  - right. intros (j & J & C). assert (X : existsb (opposite i) l = true) by (apply existsb_exists; exists j; split; [exact J|now apply opposite_spec]). congruence.
Qed.

Lemma three_not (P : index -> Prop) i j k i' j' k' : Permutation [i; j; k] [i'; j'; k'] -> ~ P i -> ~ P j -> P i' -> P j' -> False.
Proof.
  intros Pe Ni Nj Pi Pj.
  assert (Ei : i' = k).
  { assert (I : In i' [i; j; k]) by (eapply Permutation_in; [apply Permutation_sym, Pe|now left]). destruct I as [<-|[<-|[<-|[]]]]; [contradiction|contradiction|reflexivity]. }
  assert (Ej : j' = k).
  { assert (I : In j' [i; j; k]) by (eapply Permutation_in; [apply Permutation_sym, Pe|right; now left]). destruct I as [<-|[<-|[<-|[]]]]; [contradiction|contradiction|reflexivity]. }
  subst i' j'. assert (P2 : Permutation [i; j] [k; k']).
  { apply (Permutation_cons_inv (a := k)). rewrite <- Pe. exact (Permutation_cons_append [i; j] k). }
  assert (I : In k [i; j]) by (eapply Permutation_in; [apply Permutation_sym, P2|now left]). destruct I as [<-|[<-|[]]]; contradiction.
Qed.

Lemma three_same (P : index -> Prop) i j k i' j' k' : Permutation [i; j; k] [i'; j'; k'] -> P i -> P j -> ~ P k -> ~ P k' -> k = k'.
Proof.
  intros Pe Pi Pj Nk Nk'. assert (I : In k' [i; j; k]) by (eapply Permutation_in; [apply Permutation_sym, Pe|right; right; now left]). destruct I as [<-|[<-|[<-|[]]]]; [contradiction|contradiction|reflexivity].
Qed.

Lemma two_three {A} (a b i j k : A) : Permutation [a; b] [i; j; k] -> False.
Proof. intros P. apply Permutation_length in P. discriminate P. Qed.

(** the splitting is a function of the indices met *)
Lemma split_det l es s c : split_symbols l es s c -> forall l' s' c', (forall i, met l i <-> met l' i) -> split_symbols l' es s' c' -> s = s' /\ c = c'.
Proof.
  induction 1 as [l|l e i j es s c E Mi Mj S IH|l e i j es s c E NM S IH|l e i j k es s c E Mi Mj Mk S IH|l e i j k es s c P Mi Mj NMk S IH|l e i j k es s c P NMi NMj S IH];
    intros l' s' c' HM S'; inversion S' as [?|? ? i' j' ? s2 c2 E' Mi' Mj' S2|? ? i' j' ? s2 c2 E' NM' S2|? ? i' j' k' ? s2 c2 E' Mi' Mj' Mk' S2|? ? i' j' k' ? s2 c2 P' Mi' Mj' NMk' S2|? ? i' j' k' ? s2 c2 P' NMi' NMj' S2]; subst;
    repeat match goal with
    | A : symbol_indices ?e = _, B : symbol_indices ?e = _ |- _ => rewrite A in B; (discriminate B || (injection B as <- <- <-) || (injection B as <- <-))
    | A : symbol_indices ?e = _, B : Permutation (symbol_indices ?e) _ |- _ => rewrite A in B; try (exfalso; exact (two_three _ _ _ _ _ B))
    end.
  - auto.
  - destruct (IH _ _ _ HM S2) as [-> ->]. auto.
  - exfalso. apply NM'. split; now apply HM.
  - exfalso. apply NM. split; now apply HM.
  - destruct (IH _ _ _ HM S2) as [-> ->]. auto.
  - destruct (IH _ _ _ HM S2) as [-> ->]. auto.
  - exfalso. assert (I : In k' [i; j; k]) by (eapply Permutation_in; [apply Permutation_sym, P'|right; right; now left]).
    destruct I as [<-|[<-|[<-|[]]]]; apply NMk'; now apply HM.
  - exfalso. apply (three_not (met l') i' j' k' i j k); try assumption; [now apply Permutation_sym|now apply HM|now apply HM].
  - exfalso. assert (I : In k [i'; j'; k']) by (eapply Permutation_in; [apply Permutation_sym, P|right; right; now left]).
    destruct I as [<-|[<-|[<-|[]]]]; apply NMk; now apply HM.
  - assert (PP : Permutation [i; j; k] [i'; j'; k']) by (now rewrite <- P, <- P').
    assert (k = k') as <- by (apply (three_same (met l) i j k i' j' k' PP Mi Mj NMk); intros M; apply NMk'; now apply HM).
    refine ((fun H => match IH (l' ++ [k]) _ _ H S2 with conj A B => _ end) _); [rewrite A, B; auto|]. intros q. unfold met. setoid_rewrite in_app_iff. specialize (HM q). unfold met in HM. firstorder.
  - exfalso. assert (PP : Permutation [i'; j'; k'] [i; j; k]) by (now rewrite <- P, <- P'). apply (three_not (met l') i' j' k' i j k); try assumption; now apply HM.
  - exfalso. apply (three_not (met l) i j k i' j' k'); try assumption; solve [now apply Permutation_sym|now apply HM].
  - exfalso. assert (PP : Permutation [i; j; k] [i'; j'; k']) by (now rewrite <- P, <- P'). apply (three_not (met l) i j k i' j' k'); try assumption; now apply HM.
  - destruct (IH _ _ _ HM S2) as [-> ->]. auto.
Qed.

Lemma not_contracted l e es s c : symbol_ok e -> ~ contracted_with l e -> split_symbols l es s c -> split_symbols l (e :: es) (e :: s) c.
Proof.
  intros [_ Len] N S. destruct (symbol_indices e) as [|i [|j [|k [|]]]] eqn:E; try (cbn in Len; lia).
  - eapply ss_two_not; [exact E| |exact S]. intros [Mi Mj]. apply N. left. rewrite E. intros x [<-|[<-|[]]]; assumption.
  - assert (Two : forall a b d, Permutation (symbol_indices e) [a; b; d] -> ~ met l a -> ~ met l b -> split_symbols l (e :: es) (e :: s) c) by (intros a b d P Na Nb; eapply ss_three_not; eauto).
    assert (Bad : forall a b d, Permutation (symbol_indices e) [a; b; d] -> met l a -> met l b -> False) by (intros a b d P Ma Mb; apply N; right; exists a, b, d; auto).
    rewrite E in Two, Bad. destruct (met_dec l i) as [Mi|Ni], (met_dec l j) as [Mj|Nj], (met_dec l k) as [Mk|Nk].
    + exfalso. exact (Bad i j k (Permutation_refl _) Mi Mj). + exfalso. exact (Bad i j k (Permutation_refl _) Mi Mj).
    + exfalso. apply (Bad i k j); auto. constructor. constructor.
    + apply (Two j k i); auto. exact (Permutation_cons_append [j; k] i).
    + exfalso. apply (Bad j k i); auto. exact (Permutation_cons_append [j; k] i).
    + apply (Two i k j); auto. constructor. constructor.
    + exact (Two i j k (Permutation_refl _) Ni Nj). + exact (Two i j k (Permutation_refl _) Ni Nj).
Qed.

(** epsilons that meet none of the indices in question can be left out *)
Lemma split_skip V all dead live : interleaved all dead live -> forall l sp c, split_symbols l live sp c ->
  (forall e, In e dead -> symbol_ok e /\ ~ contracted_with V e) -> (forall i, In i l -> In i V) -> (forall e i, In e live -> In i (symbol_indices e) -> In i V) ->
  exists sp', split_symbols l all sp' c.
Proof.
  induction 1 as [|e all dead live I IH|e all dead live I IH]; intros l sp c S HD HL HV.
  - inversion S; subst. exists []. constructor.
  - destruct (IH l sp c S) as (sp' & S'); [intros; apply HD; now right|exact HL|exact HV|]. exists (e :: sp'). destruct (HD e (or_introl eq_refl)) as [Ok N].
    apply not_contracted; auto. intros W. apply N. eapply contracted_mono; [|exact W]. intros i _. now apply met_incl.
  - inversion S as [?|? ? i' j' ? s2 c2 E' Mi' Mj' S2|? ? i' j' ? s2 c2 E' NM' S2|? ? i' j' k' ? s2 c2 E' Mi' Mj' Mk' S2|? ? i' j' k' ? s2 c2 P' Mi' Mj' NMk' S2|? ? i' j' k' ? s2 c2 P' NMi' NMj' S2]; subst;
      match type of S2 with split_symbols ?l2 _ ?sp2 ?c2 => assert (Hs : exists sp', split_symbols l2 all sp' c2) end;
      try (apply (IH _ _ _ S2); [exact HD|exact HL|intros e0 i0 H0; apply HV; now right]).
    + destruct Hs as (sp' & S'). exists sp'. eapply ss_two; eauto.
    + destruct Hs as (sp' & S'). exists (e :: sp'). eapply ss_two_not; eauto.
    + destruct Hs as (sp' & S'). exists sp'. eapply ss_three; eauto.
    + apply (IH _ _ _ S2); [exact HD| |intros e0 i0 H0; apply HV; now right].
      intros x X. apply in_app_iff in X as [X|[<-|[]]]; [auto|]. apply (HV e); [now left|]. eapply Permutation_in; [apply Permutation_sym, P'|right; right; now left].
    + destruct Hs as (sp' & S'). exists sp'. eapply ss_three_two; eauto.
    + destruct Hs as (sp' & S'). exists (e :: sp'). eapply ss_three_not; eauto.
Qed.

Lemma split_contracted l es s c : split_symbols l es s c -> forall e, In e c -> In e es /\ contracted_with (l ++ flat_map symbol_indices c) e.
Proof.
  assert (Up : forall l c e e', contracted_with (l ++ flat_map symbol_indices c) e' -> contracted_with (l ++ flat_map symbol_indices (e :: c)) e').
  { intros l0 c0 e e' W. eapply contracted_mono; [|exact W]. intros i _. apply met_incl. intros j. cbn [flat_map]. rewrite !in_app_iff. tauto. }
  assert (Lf : forall l m i, met l i -> met (l ++ m) i) by (intros l0 m i; apply met_incl; intros j; rewrite in_app_iff; tauto).
  induction 1 as [l|l e i j es s c E Mi Mj S IH|l e i j es s c E NM S IH|l e i j k es s c E Mi Mj Mk S IH|l e i j k es s c P Mi Mj NMk S IH|l e i j k es s c P NMi NMj S IH]; intros e' I.
  - destruct I.
  - destruct I as [<-|I]; [|destruct (IH e' I); split; [now right|now apply Up]]. split; [now left|]. left. rewrite E. intros x [<-|[<-|[]]]; now apply Lf.
  - destruct (IH e' I). split; [now right|assumption].
  - destruct I as [<-|I]; [|destruct (IH e' I); split; [now right|now apply Up]]. split; [now left|]. left. rewrite E. intros x [<-|[<-|[<-|[]]]]; now apply Lf.
  - destruct I as [<-|I]; [split; [now left|]; right; exists i, j, k; split; [exact P|]; split; now apply Lf|]. destruct (IH e' I) as [IH1 IH2]. split; [now right|].
    eapply contracted_mono; [|exact IH2]. intros x _. apply met_incl. intros y. cbn [flat_map]. rewrite !in_app_iff. cbn [In]. intros [[Y|[<-|[]]]|Y]; auto. right. left.
    eapply Permutation_in; [apply Permutation_sym, P|right; right; now left].
  - destruct (IH e' I). split; [now right|assumption].
Qed.

Lemma split_all l0 l es s c : split_symbols l es s c -> (forall i, In i l0 -> In i l) -> (forall e, In e es -> contracted_with l0 e) -> s = [].
Proof.
  induction 1 as [l|l e i j es s c E Mi Mj S IH|l e i j es s c E NM S IH|l e i j k es s c E Mi Mj Mk S IH|l e i j k es s c P Mi Mj NMk S IH|l e i j k es s c P NMi NMj S IH]; intros Hl W.
  - reflexivity.
  - apply IH; auto. intros; apply W; now right.
  - exfalso. assert (We : contracted_with l e) by (eapply contracted_mono; [|apply W; now left]; intros x _; now apply met_incl).
    destruct We as [We|(a & b & d & P & _)]; [apply NM; rewrite E in We; split; apply We; [now left|right; now left]|rewrite E in P; exact (two_three _ _ _ _ _ P)].
  - apply IH; auto. intros; apply W; now right.
  - apply IH; [intros x X; apply in_app_iff; left; auto|]. intros; apply W; now right.
  - exfalso. assert (We : contracted_with l e) by (eapply contracted_mono; [|apply W; now left]; intros x _; now apply met_incl).
    destruct We as [We|(a & b & d & P' & Ma & Mb)]; [apply NMi, We; eapply Permutation_in; [apply Permutation_sym, P|now left]|].
    assert (PP : Permutation [i; j; k] [a; b; d]) by (now rewrite <- P, <- P'). exact (three_not (met l) i j k a b d PP NMi NMj Ma Mb).
Qed.

Section Operator.
  Variables (F0 : list cfield) (G : list symbol).
  Hypothesis Inv : invariant_operator F0 G.

  (** fields [R] and epsilons [Lv] that are left; the others are contracted with the fields on the way *)
  Record config (R : list cfield) (Lv : list symbol) : Prop := mkConfig
    { cg_legit : Forall legit R;
      cg_spin : Forall low_spin R;
      cg_charges : Forall standard_charges R;
      cg_nf : Forall one_or_three R;
      cg_derivs : Forall (fun x => f_derivs (i_field (cf_if x)) = 0) R;
      cg_once : NoDup (map slot (vertex_indices R Lv));
      cg_from : forall i, In i (vertex_indices R Lv) -> In (slot i) (map slot (vertex_indices F0 G));
      cg_matched : forall i, In i (vertex_indices R Lv) -> gauge_type (ix_type i) -> met (vertex_indices R Lv) i;
      cg_neutral : sum_of hypercharge R = Q2Qc 0;
      cg_dead : exists D, interleaved G D Lv /\ forall e, In e D -> ~ contracted_with (vertex_indices R Lv) e }.

  Lemma config_start : config F0 G.
  Proof.
    pose proof (io_contractible _ _ Inv) as C.
    constructor; try apply C; try apply Inv; [intros i I; now apply in_map|]. exists []. split; [|intros e []]. clear. induction G; constructor; auto.
  Qed.

  Lemma vertex_perm R R' Lv : Permutation R R' -> Permutation (vertex_indices R Lv) (vertex_indices R' Lv).
  Proof. intros P. unfold vertex_indices. apply Permutation_app_tail. now apply Permutation_flat_map. Qed.

  Lemma config_perm R R' Lv : Permutation R R' -> config R Lv -> config R' Lv.
  Proof.
    intros P C. pose proof (vertex_perm R R' Lv P) as PV.
    assert (PI : forall i, In i (vertex_indices R' Lv) <-> In i (vertex_indices R Lv)) by (intros i; split; apply Permutation_in; [apply Permutation_sym|]; exact PV).
    destruct C as [C1 C2 C3 C4 C5 C6 C7 C8 C9 (D & ID & HD)]. constructor; try (eapply Permutation_Forall; [exact P|assumption]).
    - eapply Permutation_NoDup; [apply Permutation_map, PV|exact C6].
    - intros i I. apply C7. now apply PI.
    - intros i I T. apply PI in I. destruct (C8 i I T) as (j & J & Cj). exists j. split; [now apply PI|exact Cj].
    - now rewrite <- (sum_of_perm hypercharge R R' P).
    - exists D. split; [exact ID|]. intros e E W. apply (HD e E). eapply contracted_mono; [|exact W]. intros i _. apply met_incl.
      intros j. apply PI.
  Qed.

  Lemma live_in R Lv e : config R Lv -> In e Lv -> In e G.
  Proof. intros C I. destruct (cg_dead _ _ C) as (D & ID & _). apply (interleaved_in _ _ _ ID). now right. Qed.

  Lemma config_contractible fs Rest Lv : config (fs ++ Rest) Lv -> contractible fs Lv.
  Proof.
    intros C. pose proof (io_contractible _ _ Inv) as K.
    assert (Sub : forall i, In i (vertex_indices fs Lv) -> In i (vertex_indices (fs ++ Rest) Lv)).
    { intros i. rewrite !vertex_in, flat_map_app, in_app_iff. tauto. }
    assert (Nd : NoDup (map slot (vertex_indices fs Lv))).
    { assert (P : Permutation (vertex_indices (fs ++ Rest) Lv) (vertex_indices fs Lv ++ flat_map indices_of Rest)).
      { unfold vertex_indices. rewrite flat_map_app, <- !app_assoc. apply Permutation_app_head, Permutation_app_comm. }
      assert (N := Permutation_NoDup (Permutation_map slot P) (cg_once _ _ C)). rewrite map_app in N. apply NoDup_split in N. apply N. }
    assert (Fs : forall P : cfield -> Prop, Forall P (fs ++ Rest) -> Forall P fs) by (intros P H; apply Forall_app in H; apply H).
    assert (From : forall i, In i (vertex_indices fs Lv) -> exists j, In j (vertex_indices F0 G) /\ slot j = slot i).
    { intros i I. apply Sub in I. apply (cg_from _ _ C) in I. apply in_map_iff in I as (j & Ej & J). eauto. }
    constructor.
    - apply Fs, C. - apply Fs, C. - apply Fs, C. - apply Fs, C. - apply Fs, C.
    - apply Forall_forall. intros e He. pose proof (cn_gauge _ _ K) as Gg. rewrite Forall_forall in Gg. apply Gg. eapply live_in; eauto.
    - exact Nd.
    - intros t up T. eapply Nat.le_lt_trans; [|exact (cn_few _ _ K t up T)]. apply count_kind_incl; [exact Nd|]. intros i I. apply (cg_from _ _ C). auto.
    - intros i j I J. destruct (From i I) as (i' & I' & Ei), (From j J) as (j' & J' & Ej). rewrite <- (slot_name _ _ Ei), <- (slot_name _ _ Ej). now apply (cn_fresh _ _ K).
    - intros i I T. destruct (From i I) as (i' & I' & Ei). rewrite <- (slot_name _ _ Ei). apply (cn_dotted _ _ K i' I'). now rewrite (slot_type _ _ Ei).
  Qed.

  (** the epsilons contracted at a vertex are among those that are left *)
  Lemma separate_live fs Rest Lv : config (fs ++ Rest) Lv -> fs <> [] ->
    exists sp sp' c l, separate_gauge_epsilons fs Lv = Ok (sp, c) /\ separate_gauge_epsilons fs G = Ok (sp', c) /\
      (forall i, In i l <-> is_free (product_of fs) i) /\ split_symbols l Lv sp c.
  Proof.
    intros C N. pose proof (config_contractible fs Rest Lv C) as K. assert (S := pr_symbols fs Lv K). assert (SG := pr_symbols F0 G (io_contractible _ _ Inv)).
    destruct (C39_split fs Lv N S) as (sp & c & l & E & Hl & Sl). destruct (C39_split fs G N SG) as (sp' & c' & l' & E' & Hl' & Sl').
    assert (LL : forall i, met l i <-> met l' i) by (apply met_ext; intros i; now rewrite Hl, Hl').
    destruct (cg_dead _ _ C) as (D & ID & HD).
    destruct (split_skip (vertex_indices (fs ++ Rest) Lv) G D Lv ID l sp c Sl) as (sp2 & S2).
    - intros e He. split; [|auto]. rewrite Forall_forall in SG. apply SG, (interleaved_in _ _ _ ID). now left.
    - intros i I. apply Hl in I as [I _]. rewrite product_of_indices in I. apply vertex_in. left. rewrite flat_map_app. apply in_app_iff. now left.
    - intros e i He I. apply vertex_in. right. apply in_flat_map. eauto.
    - destruct (split_det _ _ _ _ S2 l' sp' c' LL Sl') as [_ <-]. exists sp, sp', c, l. auto.
  Qed.

  (** an index of an epsilon that meets the fields meets a free index of their product *)
  Lemma met_free fs Lv l e i : contractible fs Lv -> In e Lv -> In i (symbol_indices e) -> (forall i, In i l <-> is_free (product_of fs) i) ->
    (met l i <-> met (flat_map indices_of fs) i).
  Proof.
    intros K He I Hl. split.
    - apply met_incl. intros j J. apply Hl in J as [J _]. now rewrite product_of_indices in J.
    - intros (j & J & Cj). exists j. split; [|exact Cj]. apply Hl. split; [now rewrite product_of_indices|]. rewrite product_of_indices. intros k Kk Ck.
      destruct (pr_nodup fs Lv K) as (_ & _ & D). apply (D k i Kk); [apply in_flat_map; eauto|]. apply (counterparts_slot j k i Ck). now apply counterpart_sym.
  Qed.

  Section Step.
    Variables (fs Rest : list cfield) (Lv sp c lor : list symbol) (l : list index) (x p : cfield).
    Let T := cnormalise (map KField fs ++ map KSym lor ++ map KSym c).
    Hypothesis Cfg : config (fs ++ Rest) Lv.
    Hypothesis Two : 2 <= List.length fs.
    Hypothesis Four : List.length fs = 4 -> Forall boson fs.
    Hypothesis El : get_lorentz_epsilons fs = Ok (true, lor).
    Hypothesis Es : separate_gauge_epsilons fs Lv = Ok (sp, c).
    Hypothesis Hl : forall i, In i l <-> is_free (product_of fs) i.
    Hypothesis Sl : split_symbols l Lv sp c.
    Let If := flat_map indices_of fs.
    Let Ir := flat_map indices_of Rest.
    Let Ic := flat_map symbol_indices c.
    Let Is := flat_map symbol_indices sp.

    Lemma st_contractible : contractible fs Lv.
    Proof. exact (config_contractible fs Rest Lv Cfg). Qed.

    Lemma st_split : interleaved Lv sp c.
    Proof. exact (split_interleaved _ _ _ _ Sl). Qed.

    Lemma st_perm : Permutation (vertex_indices (fs ++ Rest) Lv) ((If ++ Ic) ++ (Ir ++ Is)).
    Proof.
      unfold vertex_indices. rewrite flat_map_app. fold If Ir. rewrite (Permutation_flat_map symbol_indices (interleaved_perm _ _ _ st_split)), flat_map_app. fold Is Ic.
      rewrite <- !app_assoc. apply Permutation_app_head. rewrite (Permutation_app_comm Is Ic), !app_assoc. apply Permutation_app_tail, Permutation_app_comm.
    Qed.

    Lemma st_in i : In i (vertex_indices (fs ++ Rest) Lv) <-> (In i If \/ In i Ic) \/ (In i Ir \/ In i Is).
    Proof. rewrite <- !in_app_iff. split; apply Permutation_in; [|apply Permutation_sym]; exact st_perm. Qed.

    Lemma st_apart i j : In i If \/ In i Ic -> In j Ir \/ In j Is -> slot i <> slot j.
    Proof.
      intros I J E. pose proof (Permutation_NoDup (Permutation_map slot st_perm) (cg_once _ _ Cfg)) as N. rewrite map_app in N. apply NoDup_split in N as (_ & _ & N).
      apply in_app_iff, (in_map slot) in I, J. apply (N (slot i)); [exact I|]. now rewrite E.
    Qed.

    Lemma st_op i : In i (op_indices (cop_erase T)) <-> In i If \/ In i (flat_map symbol_indices lor) \/ In i Ic.
    Proof. apply pr_in. Qed.

    Lemma st_gauge_op i : In i (op_indices (cop_erase T)) -> gauge_type (ix_type i) -> In i If \/ In i Ic.
    Proof.
      intros I Ti. apply st_op in I as [I|[I|I]]; auto. exfalso. destruct (pr_Il_low fs Lv lor sp c st_contractible Two El Es Four i I) as [[Y|Y] _]; rewrite Y in Ti; destruct Ti; discriminate.
    Qed.

    Lemma st_c_in e : In e c -> In e Lv.
    Proof. intros I. apply (interleaved_in _ _ _ st_split). now right. Qed.

    Hypothesis Sf : stands_for T x p.

    Lemma st_x_free i : In i (indices_of x) -> exists k, is_free (cop_erase T) k /\ slot k = slot i /\ (In k If \/ In k Ic).
    Proof.
      intros I. destruct Sf as (_ & _ & [_ Cx] & _). apply (in_map slot) in I. apply Cx in I as (k & Fk & _ & Ek). exists k. split; [exact Fk|]. split; [exact Ek|].
      destruct (pr_free fs Lv lor sp c st_contractible Two El Es Four k Fk) as [A|[A _]]; auto.
    Qed.

    Lemma step_config : config (x :: Rest) sp.
    Proof.
      pose proof st_contractible as K.
      assert (Old : forall P : cfield -> Prop, Forall P (fs ++ Rest) -> P x -> Forall P (x :: Rest)) by (intros P H Hx; apply Forall_app in H as [_ H]; now constructor).
      destruct Sf as (Lx & Sx & [Nx Cx] & _ & Chx & Hy & _ & (Nf & Dv & _) & _).
      assert (New : forall i, In i (vertex_indices (x :: Rest) sp) <-> In i (indices_of x) \/ (In i Ir \/ In i Is)).
      { intros i. rewrite vertex_in. cbn [flat_map]. rewrite in_app_iff. unfold Ir, Is. tauto. }
      constructor; try (apply Old; [apply Cfg|]; auto; fail).
      - apply Old; [apply Cfg|]. left. exact Nf.
      - unfold vertex_indices. cbn [flat_map]. rewrite <- app_assoc, map_app. fold Ir Is. apply NoDup_app_intro; [exact Nx| |].
        + pose proof (Permutation_NoDup (Permutation_map slot st_perm) (cg_once _ _ Cfg)) as N. rewrite map_app in N. apply NoDup_split in N. apply N.
        + intros q I J. apply in_map_iff in I as (i & <- & I), J as (j & Ej & J). destruct (st_x_free i I) as (k & _ & Ek & Hk). apply in_app_iff in J.
          apply (st_apart k j Hk J). congruence.
      - intros i I. apply New in I as [I|I].
        + destruct (st_x_free i I) as (k & _ & Ek & Hk). rewrite <- Ek. apply (cg_from _ _ Cfg). apply st_in. now left.
        + apply (cg_from _ _ Cfg). apply st_in. now right.
      - intros i I Ti. apply New in I as [I|I].
        + destruct (st_x_free i I) as (k & [Ik Fk] & Ek & Hk).
          assert (Tk : gauge_type (ix_type k)) by (now rewrite (slot_type _ _ Ek)).
          destruct (cg_matched _ _ Cfg k) as (j & J & Cj); [apply st_in; now left|exact Tk|]. apply st_in in J as [J|J].
          * exfalso. apply (Fk j); [|exact Cj]. apply st_op. tauto.
          * exists j. split; [apply New; now right|]. apply counterpart_sym. eapply counterpart_slot; [apply counterpart_sym, Cj|exact Ek].
        + destruct (cg_matched _ _ Cfg i) as (j & J & Cj); [apply st_in; now right|exact Ti|]. apply st_in in J as [J|J].
          * assert (Fj : is_free (cop_erase T) j).
            { split; [apply st_op; tauto|]. intros k Kk Ck. assert (Tk : gauge_type (ix_type k)) by (destruct Ck as (_ & -> & _), Cj as (_ & -> & _); exact Ti).
              apply st_gauge_op in Kk; [|exact Tk]. apply (st_apart k i Kk I). apply (counterparts_slot j); [exact Ck|now apply counterpart_sym]. }
            assert (S : In (slot j) (map slot (indices_of x))).
            { apply Cx. exists j. split; [exact Fj|]. split; [|reflexivity]. destruct Cj as (_ & -> & _), Ti as [Y|Y]; rewrite Y; discriminate. }
            apply in_map_iff in S as (j' & Ej & J'). exists j'. split; [apply New; now left|]. apply (counterpart_slot i j j' Cj). now symmetry.
          * exists j. split; [apply New; now right|exact Cj].
      - rewrite <- (cg_neutral _ _ Cfg). cbn [sum_of fold_right]. fold (sum_of hypercharge Rest). rewrite Hy, (sum_of_perm hypercharge (cfields T) fs) by apply pr_cfields.
        clear. induction fs as [|y r IH]; cbn [app sum_of fold_right] in *; [unfold sum_of; ring|]. fold (sum_of hypercharge r) (sum_of hypercharge (r ++ Rest)) in *. rewrite <- IH. ring.
      - destruct (cg_dead _ _ Cfg) as (D & ID & HD). destruct (interleaved_again G D Lv ID sp c st_split) as (D' & ID' & HD'). exists D'. split; [exact ID'|].
        intros e He W. destruct (HD' e He) as [Hd|Hc].
        + apply (HD e Hd). eapply contracted_mono; [|exact W]. intros i I (j & J & Cj). apply New in J as [J|J].
          * destruct (st_x_free j J) as (k & _ & Ek & Hk). exists k. split; [apply st_in; now left|]. apply (counterpart_slot i j k Cj). now symmetry.
          * exists j. split; [apply st_in; now right|exact Cj].
        + destruct (split_contracted _ _ _ _ Sl e Hc) as [Hlive We0].
          assert (We : contracted_with (If ++ Ic) e).
          { eapply contracted_mono; [|exact We0]. intros i _. apply met_incl. intros j. rewrite !in_app_iff. intros [J|J]; [left|now right]. apply Hl in J as [J _]. now rewrite product_of_indices in J. }
          assert (Gone : forall i, In i (symbol_indices e) -> met (If ++ Ic) i -> ~ met (vertex_indices (x :: Rest) sp) i).
          { intros i I (m & Hm & Cm) (j & J & Cj). apply in_app_iff in Hm. assert (Iic : In i Ic) by (apply in_flat_map; eauto).
            apply New in J as [J|J].
            - destruct (st_x_free j J) as (k & [_ Fk] & Ek & Hk). apply (Fk i); [apply st_op; auto|]. apply counterpart_sym. apply (counterpart_slot i j k Cj). now symmetry.
            - apply (st_apart m j Hm J). exact (counterparts_slot i m j Cm Cj). }
          assert (Nd : NoDup (map slot (symbol_indices e))).
          { pose proof (cn_once _ _ K) as N. unfold vertex_indices in N. rewrite map_app in N. apply NoDup_split in N as (_ & N & _).
            clear - N Hlive. induction Lv as [|y r IH]; [destruct Hlive|]. cbn [flat_map] in N. rewrite map_app in N. apply NoDup_split in N as (N1 & N2 & _). destruct Hlive as [->|H]; auto. }
          assert (Len : symbol_ok e) by (pose proof (pr_symbols fs Lv K) as S; rewrite Forall_forall in S; auto).
          destruct We as [We|(i & j & k & Pe & Mi & Mj)].
          * destruct W as [W|(i & j & k & Pe & Mi & Mj)].
            -- destruct (symbol_indices e) as [|i r] eqn:E; [destruct Len as [_ [Z|Z]]; rewrite E in Z; discriminate Z|]. apply (Gone i); [now left|apply We; now left|apply W; now left].
            -- assert (I : In i (symbol_indices e)) by (eapply Permutation_in; [apply Permutation_sym, Pe|now left]). apply (Gone i I); auto.
          * assert (Ii : In i (symbol_indices e)) by (eapply Permutation_in; [apply Permutation_sym, Pe|now left]).
            assert (Ij : In j (symbol_indices e)) by (eapply Permutation_in; [apply Permutation_sym, Pe|right; now left]).
            destruct W as [W|(i' & j' & k' & Pe' & Mi' & Mj')]; [exact (Gone i Ii Mi (W i Ii))|].
            assert (Only : forall y, In y (symbol_indices e) -> met (vertex_indices (x :: Rest) sp) y -> y = k).
            { intros y Y M. apply (Permutation_in _ Pe) in Y. destruct Y as [<-|[<-|[<-|[]]]]; [exfalso; exact (Gone i Ii Mi M)|exfalso; exact (Gone j Ij Mj M)|reflexivity]. }
            assert (i' = k) by (apply Only; [eapply Permutation_in; [apply Permutation_sym, Pe'|now left]|exact Mi']).
            assert (j' = k) by (apply Only; [eapply Permutation_in; [apply Permutation_sym, Pe'|right; now left]|exact Mj']). subst i' j'.
            apply (Permutation_NoDup (Permutation_map slot Pe')) in Nd. cbn [map] in Nd. inversion Nd as [|? ? Q _]. apply Q. now left.
    Qed.
  End Step.

  (** *** What has been used up *)

  (** fields [R] are left, [L] are the Lorentz epsilons so far *)
  Record spent (R : list cfield) (L : list symbol) : Prop := mkSpent
    { sp_once : NoDup (map slot (flat_map symbol_indices L));
      sp_low : forall i, In i (flat_map symbol_indices L) -> lorentz_type (ix_type i) /\ ix_up i = false /\ clean i /\ met (flat_map indices_of F0) i;
      sp_apart : forall i j, In i (flat_map symbol_indices L) -> In j (flat_map indices_of R) -> ~ counterpart j i;
      sp_all : forall i, In i (flat_map indices_of F0) -> lorentz_type (ix_type i) ->
                 In (slot i) (map slot (flat_map indices_of R)) \/ met (flat_map symbol_indices L) i }.

  Lemma spent_start : spent F0 [].
  Proof. constructor; cbn [flat_map map]; [constructor|intros i []|intros i j []|]. intros i I _. left. now apply in_map. Qed.

  Lemma spent_perm R R' L : Permutation R R' -> spent R L -> spent R' L.
  Proof.
    intros P [S1 S2 S3 S4]. pose proof (Permutation_flat_map indices_of P) as PI. constructor; auto.
    - intros i j I J. apply S3; auto. eapply Permutation_in; [apply Permutation_sym, PI|exact J].
    - intros i I T. destruct (S4 i I T) as [H|H]; [left|now right]. eapply Permutation_in; [apply Permutation_map, PI|exact H].
  Qed.

  Lemma spent_step fs Rest Lv lor sp c X L : config (fs ++ Rest) Lv -> 2 <= List.length fs -> (List.length fs = 4 -> Forall boson fs) ->
    get_lorentz_epsilons fs = Ok (true, lor) -> separate_gauge_epsilons fs Lv = Ok (sp, c) ->
    let T := cnormalise (map KField fs ++ map KSym lor ++ map KSym c) in
    (forall j, In j (flat_map indices_of X) -> lorentz_type (ix_type j) -> exists k, is_free (cop_erase T) k /\ slot k = slot j) ->
    (forall k, is_free (cop_erase T) k -> lorentz_type (ix_type k) -> In (slot k) (map slot (flat_map indices_of X))) ->
    spent (fs ++ Rest) L -> spent (X ++ Rest) (L ++ lor).
  Proof.
    intros C Two Four El Es T HX HF [S1 S2 S3 S4]. pose proof (config_contractible fs Rest Lv C) as K.
    assert (Low : forall i, In i (flat_map symbol_indices lor) -> lorentz_type (ix_type i) /\ ix_up i = false) by (intros i; apply (pr_Il_low fs Lv lor sp c K Two El Es Four)).
    assert (Met : forall i, In i (flat_map symbol_indices lor) -> exists j, In j (flat_map indices_of fs) /\ lorentz_type (ix_type j) /\ counterpart j i) by (intros i; apply (pr_Il fs Lv lor sp c K Two El Es Four)).
    assert (Tin : forall i, In i (op_indices (cop_erase T)) <-> In i (flat_map indices_of fs) \/ In i (flat_map symbol_indices lor) \/ In i (flat_map symbol_indices c)) by (intros i; apply pr_in).
    assert (Gc : forall i, In i (flat_map symbol_indices c) -> ~ lorentz_type (ix_type i)).
    { intros i I. destruct (pr_Ic_type fs Lv lor sp c K Two El Es Four i I) as [Y|[Y _]]; rewrite Y; intros [H|H]; discriminate H. }
    assert (Nf : NoDup (map slot (flat_map indices_of (fs ++ Rest)))).
    { pose proof (cg_once _ _ C) as N. unfold vertex_indices in N. rewrite map_app in N. apply NoDup_split in N. apply N. }
    rewrite flat_map_app, map_app in Nf. apply NoDup_split in Nf as (_ & _ & Nf).
    constructor.
    - rewrite flat_map_app, map_app. apply NoDup_app_intro; [exact S1| |].
      + pose proof (pr_proper fs Lv lor sp c K Two El Es Four) as Pr. red in Pr. pose proof (Permutation_NoDup (Permutation_map slot (pr_indices fs lor c)) Pr) as N.
        rewrite map_app in N. apply NoDup_split in N as (_ & N & _). rewrite map_app in N. apply NoDup_split in N. apply N.
      + intros q I J. apply in_map_iff in I as (i & <- & I), J as (i' & E & J). destruct (Met i' J) as (j & Jf & _ & Cj).
        apply (S3 i j I); [rewrite flat_map_app; apply in_app_iff; now left|]. exact (counterpart_slot j i' i Cj E).
    - intros i. rewrite flat_map_app, in_app_iff. intros [I|I]; [auto|]. destruct (Low i I) as [A B]. split; [exact A|]. split; [exact B|]. split.
      + pose proof (pr_clean fs Lv lor sp c K Two El Es Four) as Cl. rewrite Forall_forall in Cl. apply Cl. apply Tin. tauto.
      + destruct (Met i I) as (j & J & Tj & Cj). assert (V : In j (vertex_indices (fs ++ Rest) Lv)) by (apply vertex_in; left; rewrite flat_map_app; apply in_app_iff; now left).
        apply (cg_from _ _ C) in V. apply in_map_iff in V as (j' & Ej & V). apply vertex_in in V as [V|V].
        * exists j'. split; [exact V|]. apply (counterpart_slot i j j'); [now apply counterpart_sym|now symmetry].
        * exfalso. apply in_flat_map in V as (e & He & V). pose proof (cn_gauge _ _ (io_contractible _ _ Inv)) as Gg. rewrite Forall_forall in Gg. destruct (Gg e He) as [_ H].
          assert (Tj' : lorentz_type (ix_type j')) by (now rewrite (slot_type _ _ Ej)). destruct H as [H|[_ H]]; [rewrite (H j' V) in Tj'|rewrite (proj1 (H j' V)) in Tj']; destruct Tj'; discriminate.
    - intros i j I J Cj. rewrite flat_map_app, in_app_iff in I, J. destruct I as [I|I], J as [J|J].
      + assert (Tj : lorentz_type (ix_type j)) by (destruct Cj as (_ & <- & _); apply S2, I). destruct (HX j J Tj) as (k & [Ik Fk] & Ek). apply Tin in Ik as [Ik|[Ik|Ik]].
        * apply (S3 i k I); [rewrite flat_map_app; apply in_app_iff; now left|]. apply counterpart_sym, (counterpart_slot i j k); [now apply counterpart_sym|now symmetry].
        * destruct (Met k Ik) as (m & Im & _ & Cm). apply (Fk m); [apply Tin; now left|now apply counterpart_sym].
        * apply (Gc k Ik). now rewrite (slot_type _ _ Ek).
      + apply (S3 i j I); [rewrite flat_map_app; apply in_app_iff; now right|exact Cj].
      + assert (Tj : lorentz_type (ix_type j)) by (destruct Cj as (_ & <- & _); apply Low, I). destruct (HX j J Tj) as (k & [Ik Fk] & Ek).
        apply (Fk i); [apply Tin; tauto|]. apply counterpart_sym, (counterpart_slot i j k); [now apply counterpart_sym|now symmetry].
      + destruct (Met i I) as (m & Im & _ & Cm). apply (Nf (slot m)); [now apply in_map|].
        rewrite (counterparts_slot i m j); [now apply in_map|now apply counterpart_sym|now apply counterpart_sym].
    - intros i I Ti. destruct (S4 i I Ti) as [H|H].
      + rewrite flat_map_app, map_app, in_app_iff in H. destruct H as [H|H].
        * apply in_map_iff in H as (j & Ej & J). assert (Tj : lorentz_type (ix_type j)) by (now rewrite (slot_type _ _ Ej)).
          destruct (existsb (opposite j) (op_indices (cop_erase T))) eqn:Ex.
          -- right. apply existsb_exists in Ex as (k & Ik & O). apply opposite_spec in O. apply Tin in Ik as [Ik|[Ik|Ik]].
             ++ exfalso. assert (Uj : ix_up j = true) by (apply (pr_If_raised fs Lv K j J); red; red in Tj; tauto).
                assert (Uk : ix_up k = true) by (apply (pr_If_raised fs Lv K k Ik); destruct O as (_ & -> & _); red; red in Tj; tauto).
                destruct O as (_ & _ & O). rewrite Uj, Uk in O. discriminate O.
             ++ exists k. split; [rewrite flat_map_app; apply in_app_iff; now right|]. apply counterpart_sym, (counterpart_slot k j i); [now apply counterpart_sym|exact Ej].
             ++ exfalso. apply (Gc k Ik). destruct O as (_ & -> & _). exact Tj.
          -- left. rewrite flat_map_app, map_app, in_app_iff. left. rewrite <- Ej. apply HF; [|exact Tj]. split; [apply Tin; now left|].
             intros k Ik Ck. assert (existsb (opposite j) (op_indices (cop_erase T)) = true); [|congruence]. apply existsb_exists. exists k. split; [exact Ik|now apply opposite_spec].
        * left. rewrite flat_map_app, map_app, in_app_iff. now right.
      + right. destruct H as (k & Kk & Ck). exists k. split; [rewrite flat_map_app; apply in_app_iff; now left|exact Ck].
  Qed.

  (** *** Where the fields have gone *)

  (** fields [R] are left, [terms] and [keys] of the edges are what has been built *)
  Definition placed (R : list cfield) (terms : list cop) (keys : list cfield) : Prop :=
    exists lines : list (cfield * cfield),
      Permutation (flat_map cfields terms ++ R) (F0 ++ flat_map (fun xp => [fst xp; snd xp]) lines) /\
      List.length terms = List.length lines /\
      Forall (fun xp => exists op term, In term terms /\ interaction op (snd xp) term /\ stands_for op (fst xp) (snd xp)) lines /\
      (forall x, In x keys -> In x (map fst lines)) /\
      (forall x, In x (map fst lines) -> exists y, In y keys /\ (x = y \/ cfield_eqb x y = true)).

  Lemma placed_start : placed F0 [] [].
  Proof. exists []. cbn. split; [now rewrite app_nil_r|]. repeat split; auto; intros x []. Qed.

  Lemma placed_perm R R' terms keys : Permutation R R' -> placed R terms keys -> placed R' terms keys.
  Proof. intros P (lines & Q & H). exists lines. split; [|exact H]. rewrite <- Q. now apply Permutation_app_head, Permutation_sym. Qed.

  Lemma dset_keys {V} (d : list (cfield * V)) x v : 
    (forall y, In y (map fst (dset cfield_eqb d x v)) -> In y (map fst d) \/ y = x) /\
    (forall y, In y (map fst d) -> In y (map fst (dset cfield_eqb d x v))) /\
    (exists y, In y (map fst (dset cfield_eqb d x v)) /\ (x = y \/ cfield_eqb x y = true)).
  Proof.
    induction d as [|[k w] d (I1 & I2 & y & I3 & I4)]; cbn [dset map fst In].
    - split; [intros y [<-|[]]; now right|]. split; [intros y []|]. exists x. auto.
    - destruct (cfield_eqb x k) eqn:E; cbn [map fst In].
      + split; [intros z H; now left|]. split; [auto|]. exists k. auto.
      + split; [intros z [<-|H]; [auto|]; destruct (I1 z H); auto|]. split; [intros z [<-|H]; auto|]. exists y. auto.
  Qed.

  Lemma placed_step {V} fs Rest op x p term terms (d : list (cfield * V)) v : Permutation (cfields op) fs -> interaction op p term -> stands_for op x p ->
    placed (fs ++ Rest) terms (map fst d) -> placed (x :: Rest) (terms ++ [term]) (map fst (dset cfield_eqb d x v)).
  Proof.
    intros Pf It Sf (lines & Q & Le & Fl & K1 & K2). destruct (dset_keys d x v) as (D1 & D2 & y & D3 & D4). exists (lines ++ [(x, p)]).
    split; [|split; [|split; [|split]]].
    - rewrite !flat_map_app. cbn [flat_map app fst snd]. rewrite app_nil_r. destruct It as (Pt & _). rewrite Pt, Pf.
      rewrite (app_assoc F0), <- Q. rewrite <- !app_assoc. apply Permutation_app_head. cbn [app].
      transitivity (p :: x :: fs ++ Rest); [constructor; rewrite Permutation_middle; reflexivity|].
      transitivity (x :: p :: fs ++ Rest); [constructor|]. rewrite app_assoc. change (x :: p :: fs ++ Rest) with ([x; p] ++ (fs ++ Rest)). apply Permutation_app_comm.
    - rewrite !app_length. cbn. lia.
    - apply Forall_app. split.
      + eapply Forall_impl; [|exact Fl]. intros xp (o & t & I & H). exists o, t. split; [apply in_app_iff; now left|exact H].
      + constructor; [|constructor]. exists op, term. cbn [fst snd]. split; [apply in_app_iff; right; now left|]. split; assumption.
    - intros z Z. rewrite map_app, in_app_iff. destruct (D1 z Z) as [H| ->]; [left; auto|right; now left].
    - intros z Z. rewrite map_app, in_app_iff in Z. destruct Z as [Z|[<-|[]]]; [|exists y; auto]. destruct (K2 z Z) as (w & W & H). exists w. auto.
  Qed.

  (** ** Running through a partition *)

  Variable vanishes : cop -> bool.
  Variable g : graph.

  Notation func := (replace_and_mutate cfield cop symbol sstate cfield_eqb (contract_vertex vanishes) G g).
  Notation row := (reduced_row (rleaf cfield) (rstate cfield cop symbol sstate) func).
  Notation rows := (reduced_rows (rleaf cfield) (rstate cfield cop symbol sstate) func).
  Notation odd := (odd_tree (cfield * N) fermion_leaf).
  Notation rc := (r_cs cfield cop symbol sstate).
  Notation rt := (r_terms cfield cop symbol sstate).
  Notation rl := (r_lorentz cfield cop symbol sstate).
  Notation rk := (fun st => map fst (r_edges cfield cop symbol sstate st)).

  (** what is passed from step to step *)
  Definition passes (R R' : list cfield) (st st' : rstate cfield cop symbol sstate) : Prop :=
    (spent R (rl st) -> spent R' (rl st')) /\ (placed R (rt st) (rk st) -> placed R' (rt st') (rk st')).

  Lemma passes_perm R1 R2 R1' R2' st st' : Permutation R1 R2 -> Permutation R1' R2' -> passes R1 R1' st st' -> passes R2 R2' st st'.
  Proof.
    intros P Q [H1 H2]. split; intros H.
    - apply (spent_perm R1' R2' _ Q), H1, (spent_perm R2 R1); [now apply Permutation_sym|exact H].
    - apply (placed_perm R1' R2' _ _ Q), H2, (placed_perm R2 R1); [now apply Permutation_sym|exact H].
  Qed.

  Lemma passes_shuffle a b c R' st st' : passes (a ++ b ++ c) R' st st' -> passes (b ++ a ++ c) R' st st'.
  Proof. apply passes_perm; [|reflexivity]. rewrite !app_assoc. apply Permutation_app_tail, Permutation_app_comm. Qed.

  Lemma passes_trans R1 R2 R3 st1 st2 st3 : passes R1 R2 st1 st2 -> passes R2 R3 st2 st3 -> passes R1 R3 st1 st3.
  Proof. intros [A B] [A' B']. split; auto. Qed.

  Lemma passes_refl R st : passes R R st st.
  Proof. split; auto. Qed.

  Definition oddf (f : cfield) : bool := Nat.odd (spin f).

  Lemma enough_supplied k st : enough (S k) st -> supplied st.
  Proof. intros (A & B & F). split; [intros E; rewrite E in A; cbn in A; lia|]. split; [intros E; rewrite E in B; cbn in B; lia|exact F]. Qed.

  Lemma enough_less k st : enough (S k) st -> enough k st.
  Proof. intros (A & B & F). split; [lia|]. split; [lia|exact F]. Qed.

  Lemma enough_spends k st st' x s : enough (S k) st -> spends x s st st' -> enough k st'.
  Proof.
    intros (A & B & F) [[-> _]|((ps & Ed) & H)]; [split; [lia|]; split; [lia|exact F]|].
    assert (M : forall s', In s' (st_fermion st' ++ st_boson st' ++ map snd (st_dict st')) -> In s' (st_fermion st ++ st_boson st ++ map snd (st_dict st))).
    { intros s'. rewrite Ed, map_app, !in_app_iff. cbn [map In snd]. destruct H as [(_ & -> & ->)|(_ & -> & ->)]; cbn [In]; tauto. }
    split; [|split].
    - destruct H as [(_ & E & _)|(_ & _ & ->)]; [rewrite E in A; cbn [List.length] in A|]; lia.
    - destruct H as [(_ & _ & ->)|(_ & E & _)]; [|rewrite E in B; cbn [List.length] in B]; lia.
    - rewrite Forall_forall in F |- *. auto.
  Qed.

  Lemma boson_odd x : boson x <-> oddf x = false.
  Proof. unfold boson, oddf. fold (spin x). rewrite <- Nat.even_spec, <- Nat.negb_even. destruct (Nat.even (spin x)); cbn; intuition congruence. Qed.

  Lemma fermion_odd x : fermion x <-> oddf x = true.
  Proof. unfold fermion. rewrite boson_odd. destruct (oddf x); intuition congruence. Qed.

  Lemma odd_plus a b : Nat.odd (a + b) = xorb (Nat.odd a) (Nat.odd b).
  Proof. apply Nat.odd_add. Qed.

  Lemma odd_spins fs : Nat.odd (list_sum (map spin fs)) = Nat.odd (List.length (filter oddf fs)).
  Proof.
    induction fs as [|x l IH]; [reflexivity|]. change (list_sum (map spin (x :: l))) with (spin x + list_sum (map spin l)). rewrite odd_plus, IH. cbn [filter].
    change (Nat.odd (spin x)) with (oddf x). destruct (oddf x); cbn [List.length]; [|apply xorb_false_l]. rewrite Nat.odd_succ, <- Nat.negb_odd. apply xorb_true_l.
  Qed.

  Lemma odd_trees l : Nat.odd (List.length (filter fermion_leaf (flat_map leaves_of l))) = Nat.odd (List.length (filter odd l)).
  Proof.
    induction l as [|t l IH]; [reflexivity|]. cbn [flat_map filter]. rewrite filter_app, app_length, odd_plus, IH.
    change (Nat.odd (List.length (filter fermion_leaf (leaves_of t)))) with (odd t). destruct (odd t); cbn [List.length]; [|apply xorb_false_l].
    rewrite Nat.odd_succ, <- Nat.negb_odd. apply xorb_true_l.
  Qed.

  Lemma same_odd fs l : Forall2 (fun f t => oddf f = odd t) fs l -> List.length (filter oddf fs) = List.length (filter odd l).
  Proof. induction 1 as [|f t fs l E F IH]; [reflexivity|]. cbn [filter]. rewrite E. destruct (odd t); cbn [List.length]; lia. Qed.

  Lemma odd_fermion_count fs : odd_fermion fs -> List.length fs = 3 /\ List.length (filter oddf fs) = 1.
  Proof.
    intros (s & s' & a & P & B & B' & F). apply boson_odd in B, B'. apply fermion_odd in F. split; [now rewrite (Permutation_length P)|].
    assert (Pf : Permutation (filter oddf fs) (filter oddf [s; s'; a])).
    { clear - P. induction P as [|y m n P IH|y z m|m n o P IH P' IH']; cbn [filter].
      - constructor. - destruct (oddf y); auto. - destruct (oddf y), (oddf z); auto; constructor. - etransitivity; eauto. }
    rewrite (Permutation_length Pf). cbn [filter]. now rewrite B, B', F.
  Qed.

  Lemma renormal_ok t l : Permutation (cfields t) l -> Forall (fun x => f_derivs (i_field (cf_if x)) = 0) l -> Forall low_spin l ->
    (List.length (filter oddf l) = 0 /\ 3 <= List.length l <= 4) \/ (List.length (filter oddf l) = 2 /\ List.length l = 3) -> renormalisable t.
  Proof.
    intros P D S H. assert (F : Forall (fun x => f_derivs (i_field (cf_if x)) = 0 /\ spin x <= 1) l) by (rewrite Forall_forall in *; intros x I; split; [now apply D|apply (S x I)]).
    split; [exact (Permutation_Forall (Permutation_sym P) F)|]. cbv zeta. rewrite (Permutation_length P).
    replace (List.length (filter (fun x => negb (spin x =? 0)) (cfields t))) with (List.length (filter oddf l)); [exact H|].
    rewrite (Permutation_length (permutation_filter _ (fun x => negb (spin x =? 0)) _ _ P)). f_equal. apply filter_ext_in. intros x I. rewrite Forall_forall in F. destruct (F x I) as [_ L].
    unfold oddf. destruct (spin x) as [|[|]]; [reflexivity|reflexivity|lia].
  Qed.

  (** one vertex *)
  Lemma run_vertex fs Rest Lv ns c o st k : config (fs ++ Rest) Lv -> 2 <= List.length fs <= 3 -> (List.length fs = 3 -> List.length (filter oddf fs) = 0) ->
    joined_at g ns c o -> List.length ns = List.length fs -> enough (S k) (rc st) -> Forall good_term (rt st) ->
    exists x st', func (map (PropsPartition3.good cfield) (combine fs ns)) st = Ok (x, st') /\ enough k (rc st') /\ Forall good_term (rt st') /\
      ((exists r, x = (inr r, None)) \/
       exists f Lv', x = (inl f, Some c) /\ config (f :: Rest) Lv' /\ oddf f = Nat.odd (List.length (filter oddf fs)) /\ passes (fs ++ Rest) (f :: Rest) st st').
  Proof.
    intros C N O J L En Gd. assert (N0 : fs <> []) by (intros ->; cbn in N; lia). pose proof (config_contractible fs Rest Lv C) as K.
    assert (Uf : forall R, func (map (PropsPartition3.good cfield) (combine fs ns)) st = R <-> (do r <- contract_vertex vanishes fs G (rc st);
      match fst r with
      | inl reason => Ok ((inr reason, None), mkR cfield cop symbol sstate (rt st) (r_edges _ _ _ _ st) (r_lorentz _ _ _ _ st) (snd r))
      | inr (exotic, term, lorentz) =>
        do e <- get_connecting_edge g ns;
        Ok ((inl exotic, Some (fst e)),
            mkR cfield cop symbol sstate (rt st ++ [term]) (dset cfield_eqb (r_edges _ _ _ _ st) exotic e) (r_lorentz _ _ _ _ st ++ lorentz) (snd r))
      end) = R).
    { intros R. unfold replace_and_mutate. rewrite unpack_good by lia. destruct fs as [|f1 [|f2 fs']]; cbn in N; try lia. destruct ns as [|n1 ns']; [cbn in L; lia|]. reflexivity. }
    assert (NO : ~ odd_fermion fs) by (intros Y; apply odd_fermion_count in Y as [Y1 Y2]; rewrite O in Y2 by exact Y1; discriminate Y2).
    destruct (lorentz_ok fs (pr_vertex fs Lv K) (cn_spin _ _ K) (pr_derivs fs Lv K) ltac:(lia) NO) as [(El & _)|(lor & El & _)].
    - exists (inr bad_lorentz, None). eexists. split; [|split; [|split; [|left; eexists; reflexivity]]].
      + apply Uf. assert (E0 : negb ((List.length fs =? 2) || (List.length fs =? 3)) = false).
        { destruct fs as [|a [|b [|d [|]]]]; cbn in N |- *; try reflexivity; lia. }
        unfold contract_vertex, contract. rewrite E0, El. cbn [bind fst snd negb]. reflexivity.
      + cbn [r_cs]. now apply enough_less.
      + exact Gd.
    - destruct (separate_live fs Rest Lv C N0) as (sp & sp' & cc & l & Es & Es' & Hl & Sl).
      destruct (contract_full vanishes fs Lv G lor sp sp' cc (rc st) K N El Es Es' (enough_supplied k _ En)) as (x & p & st' & Sf & (sym & _ & Sp) & Out).
      destruct Out as [(r & Eo)|(term & Eo & In)].
      + exists (inr r, None). eexists. split; [apply Uf; rewrite Eo; cbn [bind fst snd]; reflexivity|]. split; [cbn [r_cs]; eapply enough_spends; eauto|]. split; [exact Gd|]. left. eexists; reflexivity.
      + exists (inl x, Some c). eexists. split; [apply Uf; rewrite Eo; cbn [bind fst snd]; rewrite (proj2 (C37_connecting_edge g ns c o) J); cbn [bind fst]; reflexivity|].
        assert (Sx : spin x + 2 * List.length lor = list_sum (map spin fs)).
        { apply (product_spin fs Lv lor sp cc x); auto; try lia; apply Sf. }
        assert (Ox : oddf x = Nat.odd (List.length (filter oddf fs))).
        { unfold oddf at 1. rewrite <- odd_spins, <- Sx, odd_plus, Nat.odd_mul. cbn [Nat.odd Nat.even negb andb]. now destruct (Nat.odd (spin x)). }
        split; [cbn [r_cs]; eapply enough_spends; eauto|]. split.
        * cbn [r_terms]. apply Forall_app. split; [exact Gd|]. constructor; [|constructor]. pose proof In as (Pt & _ & Si & Pr & _). split; [assumption|]. split; [assumption|].
          destruct Sf as (_ & Lx & _ & _ & _ & _ & _ & _ & _ & _ & (_ & Dp & _) & _ & (Mi & _)).
          assert (Sp' : spin p = spin x) by (unfold spin; now rewrite !Mi by (red; auto)).
          assert (Po : oddf p = oddf x) by (unfold oddf; now rewrite Sp').
          apply (renormal_ok term (p :: fs)).
          -- rewrite Pt. constructor. apply pr_cfields.
          -- constructor; [exact Dp|exact (cn_derivs _ _ K)].
          -- constructor; [red; fold (spin p); rewrite Sp'; exact Lx|exact (cn_spin _ _ K)].
          -- cbn [filter List.length]. rewrite Po, Ox. destruct fs as [|a [|b [|d [|]]]]; cbn [List.length] in N; try lia.
             ++ cbn [filter]. destruct (oddf a), (oddf b); cbn; lia.
             ++ rewrite O by reflexivity. cbn [Nat.odd Nat.even negb]. rewrite O by reflexivity. cbn; lia.
        * right. exists x, sp. split; [reflexivity|]. split; [apply (step_config fs Rest Lv sp cc lor l x p); auto; lia|].
          split; [exact Ox|]. split; cbn [r_lorentz r_terms r_edges].
            -- apply (spent_step fs Rest Lv lor sp cc [x] (rl st) C ltac:(lia) ltac:(lia) El Es).
              ++ intros j Hj Tj. cbn [flat_map] in Hj. rewrite app_nil_r in Hj. destruct Sf as (_ & _ & [_ Cx] & _). apply (in_map slot) in Hj. apply Cx in Hj as (i & Fi & _ & Ei). eauto.
              ++ intros i Fi Ti. cbn [flat_map]. rewrite app_nil_r. destruct Sf as (_ & _ & [_ Cx] & _). apply Cx. exists i. split; [exact Fi|]. split; [|reflexivity]. intros H. rewrite H in Ti. destruct Ti; discriminate.
            -- apply (placed_step fs Rest (cnormalise (map KField fs ++ map KSym lor ++ map KSym cc)) x p term); auto. apply pr_cfields.
  Qed.

  Notation emb := (embed cfield).
  Notation brt := (branched (cfield * N) fermion_leaf).
  Notation bra := (branched_all (cfield * N) fermion_leaf).
  Notation fields_in := (fun t => map fst (leaves_of t)).

  Lemma config_shuffle a b c Lv : config (a ++ b ++ c) Lv -> config (b ++ a ++ c) Lv.
  Proof. apply config_perm. rewrite !app_assoc. apply Permutation_app_tail, Permutation_app_comm. Qed.

  Lemma leaf_odd f n : low_spin f -> oddf f = odd (Lf (f, n)).
  Proof.
    unfold low_spin. fold (spin f). intros L. unfold odd_tree, oddf. cbn [leaves_of filter]. unfold fermion_leaf. cbn [fst].
    destruct (spin f) as [|[|m]]; [reflexivity|reflexivity|lia].
  Qed.

  Lemma run_both :
    (forall t n es, joins g t n es -> forall t', tree_map snd t' = t -> brt t' -> forall Rest Lv st k,
       config (fields_in t' ++ Rest) Lv -> enough (vertices t' + k) (rc st) -> Forall good_term (rt st) ->
       exists x st', row (emb t') st = Ok (x, st') /\ enough k (rc st') /\ Forall good_term (rt st') /\
         ((exists r, x = (inr r, None)) \/ exists f Lv', x = (inl f, Some n) /\ config (f :: Rest) Lv' /\ oddf f = odd t' /\ passes (fields_in t' ++ Rest) (f :: Rest) st st')) /\
    (forall l ns ess, joins_all g l ns ess -> forall l', map (tree_map snd) l' = l -> bra l' -> forall Rest Lv st k,
       config (map fst (flat_map leaves_of l') ++ Rest) Lv -> enough (list_sum (map vertices l') + k) (rc st) -> Forall good_term (rt st) ->
       exists xs st', rows (map emb l') st = Ok (xs, st') /\ enough k (rc st') /\ Forall good_term (rt st') /\
         ((exists r, unpack cfield xs = inl (inr r, None) /\ first_reason cfield xs = inl r) \/
          exists fs Lv', xs = map (PropsPartition3.good cfield) (combine fs ns) /\ List.length fs = List.length ns /\ config (fs ++ Rest) Lv' /\
            Forall2 (fun f t => oddf f = odd t) fs l' /\ passes (map fst (flat_map leaves_of l') ++ Rest) (fs ++ Rest) st st')).
  Proof.
    apply joins_both.
    - intros n [[f m]|l] E B Rest Lv st k C En Gd; [|discriminate E]. cbn [tree_map snd] in E. injection E as ->.
      exists (inl f, Some n), st. split; [reflexivity|]. split; [exact En|]. split; [exact Gd|]. right. exists f, Lv. split; [reflexivity|]. split; [exact C|].
      split; [|apply passes_refl]. apply leaf_odd. pose proof (cg_spin _ _ C) as S. inversion S; assumption.
    - intros t n es J IH [x|l] E B Rest Lv st k C En Gd; [discriminate E|]. cbn [tree_map] in E. injection E as E. destruct l as [|t' [|]]; try discriminate E. cbn [map] in E. injection E as E.
      assert (Bt : brt t') by (inversion B as [|? B'|? ? [H|[H _]]]; subst; [exact B'|discriminate H|discriminate H]).
      cbn [leaves_of flat_map] in C. rewrite app_nil_r in C. cbn [vertices map list_sum fold_right] in En. rewrite !Nat.add_0_r in En.
      destruct (IH t' E Bt Rest Lv st k C En Gd) as (x & st' & Er & En' & Gd' & Out).
      assert (Ot : odd (Tp [t']) = odd t') by (unfold odd_tree; cbn [leaves_of flat_map]; now rewrite app_nil_r).
      exists x, st'. split; [|rewrite Ot; cbn [leaves_of flat_map]; rewrite app_nil_r; auto]. cbn [embed tree_map map]. rewrite reduced_row_eq. cbn [reduced_rows]. change (tree_map (PropsPartition3.good cfield) t') with (emb t'). rewrite Er. cbn [bind fst snd].
      destruct Out as [(r & ->)|(f & Lv' & -> & _)]; reflexivity.
    - intros l ns ess c o J IH N Jd [x|l'] E B Rest Lv st k C En Gd; [discriminate E|]. cbn [tree_map] in E. injection E as E.
      assert (Len : List.length l' = List.length l) by (rewrite <- E; now rewrite map_length).
      inversion B as [|t B'|? B' Hlen]; subst; [cbn in N; lia|]. cbn [leaves_of] in C. cbn [vertices] in En.
      assert (En2 : enough (list_sum (map vertices l') + (S k)) (rc st)).
      { destruct l' as [|a [|b r]]; cbn in Len, N; try lia. replace (list_sum (map vertices (a :: b :: r)) + S k) with (list_sum (map vertices (a :: b :: r)) + 1 + k) by lia. exact En. }
      destruct (IH l' eq_refl B' Rest Lv st (S k) C En2 Gd) as (xs & st' & Er & En' & Gd' & Out).
      cbn [embed tree_map]. rewrite reduced_row_eq. change (map (tree_map (PropsPartition3.good cfield)) l') with (map emb l'). rewrite Er. cbn [bind fst snd].
      destruct Out as [(r & Eu & _)|(fs & Lv' & -> & Lfs & C' & O2 & Ps)].
      + exists (inr r, None), st'. split; [unfold replace_and_mutate; now rewrite Eu|]. split; [now apply enough_less|]. split; [exact Gd'|]. left. eauto.
      + assert (L2 := Spec.Forall2_len O2). pose proof (same_odd fs l' O2) as So.
        destruct (run_vertex fs Rest Lv' ns c o st' k C' ltac:(lia) ltac:(destruct Hlen as [H|[H H']]; intros H3; [lia|rewrite So, H'; reflexivity]) Jd ltac:(lia) En' Gd') as (x & st2 & Ef & En2' & Gd2 & Out).
        exists x, st2. split; [exact Ef|]. split; [exact En2'|]. split; [exact Gd2|]. destruct Out as [R|(f & Lv2 & -> & C2 & Of & Ps2)]; [now left|right].
        exists f, Lv2. split; [reflexivity|]. split; [exact C2|]. split; [|exact (passes_trans _ _ _ _ _ _ Ps Ps2)]. rewrite Of, So. unfold odd_tree at 2. cbn [leaves_of]. symmetry. apply odd_trees.
    - intros [|] E B Rest Lv st k C En Gd; [|discriminate E]. exists [], st. split; [reflexivity|]. split; [exact En|]. split; [exact Gd|]. right. exists [], Lv.
      split; [reflexivity|]. split; [reflexivity|]. split; [exact C|]. split; [constructor|apply passes_refl].
    - intros t l n ns es ess Jt IHt Jl IHl [|t' l'] E B Rest Lv st k C En Gd; [discriminate E|]. cbn [map] in E. injection E as E1 E2.
      inversion B as [|? ? Bt Bl]; subst. cbn [flat_map] in C. rewrite map_app, <- app_assoc in C. change (list_sum (map vertices (t' :: l'))) with (vertices t' + list_sum (map vertices l')) in En.
      rewrite <- Nat.add_assoc in En. destruct (IHt t' eq_refl Bt _ Lv st _ C En Gd) as (x & st1 & Er & En1 & Gd1 & Out).
      cbn [map]. cbn [reduced_rows]. rewrite Er. cbn [bind fst snd].
      destruct Out as [(r & ->)|(f & Lv1 & -> & C1 & Of & Ps1)].
      + apply config_shuffle in C. destruct (IHl l' eq_refl Bl _ Lv st1 k C En1 Gd1) as (xs & st2 & Er2 & En2 & Gd2 & _). rewrite Er2. cbn [bind fst snd].
        eexists. eexists. split; [reflexivity|]. split; [exact En2|]. split; [exact Gd2|]. left. exists r. split; reflexivity.
      + apply (config_shuffle [f]) in C1. destruct (IHl l' eq_refl Bl _ Lv1 st1 k C1 En1 Gd1) as (xs & st2 & Er2 & En2 & Gd2 & Out2). rewrite Er2. cbn [bind fst snd].
        eexists. eexists. split; [reflexivity|]. split; [exact En2|]. split; [exact Gd2|]. destruct Out2 as [(r & U & Fr)|(fs & Lv2 & -> & Lfs & C2 & O2 & Ps2)].
        * left. exists r. split; [cbn [unpack]; now rewrite U|]. cbn [first_reason fold_right fst]. fold (first_reason cfield xs). now rewrite Fr.
        * right. exists (f :: fs), Lv2. split; [reflexivity|]. split; [cbn; lia|]. split; [apply (config_shuffle fs [f]) in C2; exact C2|]. split; [now constructor|].
          cbn [flat_map]. rewrite map_app, <- app_assoc. apply (passes_trans _ ([f] ++ map fst (flat_map leaves_of l') ++ Rest) _ _ st1); [exact Ps1|].
          refine (passes_perm _ _ _ _ _ _ _ _ Ps2); rewrite !app_assoc; apply Permutation_app_tail, Permutation_app_comm.
  Qed.

  (** ** The last vertex *)

  Lemma filter_perm {A} (P : A -> bool) l l' : Permutation l l' -> Permutation (filter P l) (filter P l').
  Proof.
    induction 1 as [|y m n Pm IH|y z m|m n o Pm IH Pm' IH']; cbn [filter].
    - constructor. - destruct (P y); auto. - destruct (P y), (P z); auto; constructor. - etransitivity; eauto.
  Qed.

  Lemma no_spin fs : Forall low_spin fs -> filter oddf fs = [] -> list_sum (map spin fs) = 0.
  Proof.
    induction 1 as [|x l Sx S IH]; [reflexivity|]. cbn [filter map]. change (list_sum (spin x :: map spin l)) with (spin x + list_sum (map spin l)).
    unfold low_spin in Sx. fold (spin x) in Sx. destruct (oddf x) eqn:O; [discriminate|]. intros E. rewrite (IH E). unfold oddf in O. destruct (spin x) as [|[|m]]; [reflexivity|discriminate O|lia].
  Qed.

  (** the product of all fields that are left is a singlet *)
  Lemma last_product fs Lv lor sp c l : config fs Lv -> 2 <= List.length fs -> (List.length fs = 4 -> filter oddf fs = []) ->
    Nat.even (List.length (filter oddf fs)) = true -> get_lorentz_epsilons fs = Ok (true, lor) -> separate_gauge_epsilons fs Lv = Ok (sp, c) ->
    (forall i, In i l <-> is_free (product_of fs) i) -> split_symbols l Lv sp c ->
    forall i, is_free (cop_erase (cnormalise (map KField fs ++ map KSym lor ++ map KSym c))) i -> ix_type i = Generation.
  Proof.
    intros C Two Four Ev El Es Hl Sl i Fi. assert (C0 : config (fs ++ []) Lv) by now rewrite app_nil_r. pose proof (config_contractible fs [] Lv C0) as K.
    assert (Fb : List.length fs = 4 -> Forall boson fs).
    { intros H. apply Four in H. apply Forall_forall. intros x X. apply boson_odd. destruct (oddf x) eqn:O; [|reflexivity]. assert (Y : In x (filter oddf fs)) by (now apply filter_In). rewrite H in Y. destruct Y. }
    set (T := cnormalise _) in *.
    assert (All : forall e, In e Lv -> In e c).
    { assert (sp = []) as ->.
      { apply (split_all l l Lv sp c Sl); [auto|]. intros e He. pose proof (cn_gauge _ _ K) as Gg. rewrite Forall_forall in Gg. specialize (Gg e He).
        assert (Mk : forall k, In k (symbol_indices e) -> met l k \/ met (flat_map symbol_indices G) k).
        { intros k Hk. assert (Tk : gauge_type (ix_type k)) by (destruct Gg as [_ [H|[_ H]]]; [left; auto|right; apply H; exact Hk]).
          assert (Ke : In k (flat_map symbol_indices Lv)) by (apply in_flat_map; eauto).
          destruct (cg_matched _ _ C k) as (j & J & Cj); [apply vertex_in; now right|exact Tk|]. apply vertex_in in J as [J|J]; [left; apply (met_free fs Lv l e k K He Hk Hl); exists j; auto|right].
          exists j. split; [|exact Cj]. apply in_flat_map in J as (e' & He' & J). apply in_flat_map. exists e'. split; [exact (live_in _ _ e' C He')|exact J]. }
        pose proof (live_in _ _ e C He) as HG. pose proof (io_chains _ _ Inv e) as Ch.
        assert (Nd : NoDup (map slot (symbol_indices e))).
        { pose proof (cn_once _ _ K) as N. unfold vertex_indices in N. rewrite map_app in N. apply NoDup_split in N as (_ & N & _).
          clear - N He. induction Lv as [|y r IH]; [destruct He|]. cbn [flat_map] in N. rewrite map_app in N. apply NoDup_split in N as (N1 & N2 & _). destruct He as [->|H]; auto. }
        destruct (existsb (fun k => existsb (opposite k) (flat_map symbol_indices G)) (symbol_indices e)) eqn:Ex.
        - apply existsb_exists in Ex as (k & Hk & O). apply existsb_exists in O as (j & J & O). apply opposite_spec in O. destruct (Ch k HG Hk) as [L3 Only]; [exists j; auto|].
          assert (Rest3 : exists a b, Permutation (symbol_indices e) [a; b; k]).
          { destruct (in_split _ _ Hk) as (p & q & E). rewrite E in L3 |- *. destruct p as [|p1 [|p2 [|]]], q as [|q1 [|q2 [|]]]; try (cbn in L3; repeat rewrite app_length in L3; cbn in L3; lia).
            - exists q1, q2. exact (Permutation_cons_append [q1; q2] k). - exists p1, q1. constructor. constructor. - exists p1, p2. reflexivity. }
          destruct Rest3 as (a & b & P3). right. exists a, b, k. split; [exact P3|]. apply (Permutation_NoDup (Permutation_map slot P3)) in Nd. cbn [map] in Nd.
          inversion Nd as [|? ? N1 Nd1]; subst. inversion Nd1 as [|? ? N2 _]; subst.
          assert (Ia : In a (symbol_indices e)) by (eapply Permutation_in; [apply Permutation_sym, P3|now left]). assert (Ib : In b (symbol_indices e)) by (eapply Permutation_in; [apply Permutation_sym, P3|right; now left]).
          split; [destruct (Mk a Ia) as [M|M]; [exact M|]|destruct (Mk b Ib) as [M|M]; [exact M|]]; exfalso.
          + apply N1. right. left. symmetry. exact (Only a Ia M). + apply N2. left. symmetry. exact (Only b Ib M).
        - left. intros k Hk. destruct (Mk k Hk) as [M|(j & J & Cj)]; [exact M|]. exfalso.
          assert (X : existsb (fun k => existsb (opposite k) (flat_map symbol_indices G)) (symbol_indices e) = true); [|congruence].
          apply existsb_exists. exists k. split; [exact Hk|]. apply existsb_exists. exists j. split; [exact J|now apply opposite_spec]. }
      intros e He. apply split_interleaved in Sl. apply (interleaved_in _ _ _ Sl) in He as [[]|He]. exact He. }
    assert (NG : ~ gauge_type (ix_type i)).
    { intros Ti. assert (Iv : In i (vertex_indices fs Lv)) by exact (pr_free_vertex fs Lv lor sp c K Two El Es Fb i Fi).
      destruct (cg_matched _ _ C i Iv Ti) as (j & J & Cj). destruct Fi as [_ Fi]. apply (Fi j); [|exact Cj]. apply (pr_in fs lor c).
      apply vertex_in in J as [J|J]; [now left|]. right. right. apply in_flat_map in J as (e & He & J). apply in_flat_map. eauto. }
    assert (NL : ~ lorentz_type (ix_type i)).
    { intros Ti. pose proof (product_ready fs Lv lor sp c K Two El Es Fb) as R. fold T in R.
      set (X := filter lorentzb (free_indices (cop_erase T))).
      assert (Xin : forall k, In k X <-> is_free (cop_erase T) k /\ lorentz_type (ix_type k)).
      { intros k. unfold X. rewrite filter_In, lorentzb_iff, free_indices_spec. reflexivity. }
      assert (Nx : NoDup (map slot X)).
      { apply NoDup_filter_map. unfold free_indices. apply NoDup_filter_map. exact (rd_proper _ R). }
      assert (Lx : List.length X + 2 * List.length lor = list_sum (map spin fs)).
      { apply (product_free_lorentz fs Lv lor sp c X K Two Fb El Es Nx). fold T. intros p. split.
        - intros I. apply in_map_iff in I as (k & <- & I). apply Xin in I as [A B]. exists k. auto.
        - intros (k & Fk & Tk & <-). apply in_map, Xin. auto. }
      assert (Ix : In i X) by (now apply Xin).
      assert (One : List.length X <= 1).
      { destruct X as [|a [|b X']]; cbn; try lia. exfalso. assert (Ia : In a (a :: b :: X')) by now left. assert (Ib : In b (a :: b :: X')) by (right; now left).
        apply Xin in Ia as [Fa Ta], Ib as [Fb' Tb]. cbn [map] in Nx. inversion Nx as [|? ? Q _]. apply Q. left. symmetry. exact (rd_lorentz _ R a b Fa Fb' Ta Tb). }
      assert (Hx : List.length X = 1) by (destruct X as [|a [|]]; cbn in One |- *; [destruct Ix|reflexivity|lia]).
      assert (Od : Nat.odd (list_sum (map spin fs)) = true) by (rewrite <- Lx, Hx, odd_plus, Nat.odd_mul; reflexivity).
      rewrite odd_spins, <- Nat.negb_even, Ev in Od. discriminate Od. }
    destruct (ix_type i); [exfalso; apply NL; now left|exfalso; apply NL; now right|exfalso; apply NG; now left|exfalso; apply NG; now right|reflexivity].
  Qed.

  Lemma last_ok fs Lv : config fs Lv -> 3 <= List.length fs <= 4 -> (List.length fs = 4 -> filter oddf fs = []) ->
    Nat.even (List.length (filter oddf fs)) = true ->
    exists r, last_vertex vanishes fs G = Ok r /\ forall t lor, r = inr (t, lor) ->
      good_term t /\ Permutation (cfields t) fs /\ forall L, spent fs L -> spent [] (L ++ lor).
  Proof.
    intros C N Four Ev. set (fs' := classed fs). assert (P : Permutation fs fs') by apply classed_perm. pose proof (Permutation_length P) as PL. pose proof (filter_perm oddf _ _ P) as PO.
    assert (C' : config fs' Lv) by (eapply config_perm; eauto). assert (C0 : config (fs' ++ []) Lv) by now rewrite app_nil_r.
    assert (Four' : List.length fs' = 4 -> filter oddf fs' = []) by (intros H; apply Permutation_nil; rewrite Four in PO by lia; exact PO).
    assert (Ev' : Nat.even (List.length (filter oddf fs')) = true) by (rewrite <- (Permutation_length PO); exact Ev).
    pose proof (config_contractible fs' [] Lv C0) as K. assert (N0 : fs' <> []) by (intros E; rewrite E in PL; cbn in PL; lia).
    assert (Fb : List.length fs' = 4 -> Forall boson fs').
    { intros H. apply Four' in H. apply Forall_forall. intros x X. apply boson_odd. destruct (oddf x) eqn:O; [|reflexivity]. assert (Y : In x (filter oddf fs')) by (now apply filter_In). rewrite H in Y. destruct Y. }
    assert (Lk : get_lorentz_epsilons fs' = Ok (false, []) \/ exists lor, get_lorentz_epsilons fs' = Ok (true, lor)).
    { destruct (Nat.eq_dec (List.length fs') 4) as [E4|E4].
      - right. exists []. pose proof (C38_lorentz fs' (pr_vertex fs' Lv K) N0) as T. pose proof (pr_derivs fs' Lv K) as D0.
        inversion T as [Q|Q1 Q2|Q1 Q2|Q1 Q2|s a b a' b' r Q1 Q2|s s' a Q1 Q2|f1 f2 r Q1 Q2|f1 r Q1 Q2]; try lia; try (apply Permutation_length in Q2; cbn in Q2; lia); try reflexivity.
      - assert (NO : ~ odd_fermion fs') by (intros Y; apply odd_fermion_count in Y as [_ Y]; rewrite Y in Ev'; discriminate Ev').
        destruct (lorentz_ok fs' (pr_vertex fs' Lv K) (cn_spin _ _ K) (pr_derivs fs' Lv K) ltac:(lia) NO) as [(E & _)|(lor & E & _)]; eauto. }
    assert (U : last_vertex vanishes fs G = (do lor <- get_lorentz_epsilons fs';
       if negb (fst lor) then Ok (inl bad_lorentz)
       else do sep <- separate_gauge_epsilons fs' G;
        let prod := fold_left c_mul (map KSym (snd lor) ++ map KSym (snd sep)) (cnormalise (map KField fs)) in
        do final <-
          (if list_sum (map cf_derivs (cfields prod)) =? 0 then Ok (inr prod)
           else do t <- process_derivative_term vanishes prod;
                match t with
                | inl reason => Ok (inl reason)
                | inr t => if vanishes t then Err NameError else Ok (inr t)
                end);
        match final with
        | inl reason => Ok (inl reason)
        | inr t => do _ <- check_singlet t; Ok (inr (t, snd lor))
        end)).
    { unfold last_vertex. destruct fs as [|a [|b fs0]] eqn:Ef; [cbn in N; lia|cbn in N; lia|]. rewrite <- Ef. rewrite c_reduce_ok by (rewrite Ef; discriminate). cbn [bind].
      assert (Ec : cfields (cnormalise (map KField fs)) = fs').
      { rewrite cnormalise_fields. unfold fs'. rewrite <- Ef. generalize (classed fs). clear. induction l as [|y l IH]; [reflexivity|]. cbn. f_equal. exact IH. }
      rewrite Ec. reflexivity. }
    rewrite U. destruct Lk as [El|(lor & El)]; rewrite El; cbn [bind fst snd negb].
    - eexists. split; [reflexivity|]. intros t lor E. discriminate E.
    - destruct (separate_live fs' [] Lv C0 N0) as (sp & sp' & c & l & Es & Es' & Hl & Sl). rewrite Es'. cbn [bind fst snd]. rewrite fold_c_mul.
      pose proof (last_product fs' Lv lor sp c l C' ltac:(lia) Four' Ev' El Es Hl Sl) as Fr.
      pose proof (pr_proper fs' Lv lor sp c K ltac:(lia) El Es Fb) as Pr. pose proof (pr_cfields fs' lor c) as Pc.
      set (T' := cnormalise (map KField fs' ++ _)) in *. set (T := cnormalise (map KField fs ++ _)).
      assert (PT : Permutation T T').
      { unfold T, T'. rewrite <- !cnormalise_perm. apply Permutation_app_tail, Permutation_map, P. }
      assert (PTi : Permutation (op_indices (cop_erase T)) (op_indices (cop_erase T'))) by now apply cop_perm_indices.
      assert (PTf : Permutation (cfields T) fs') by (rewrite (cop_perm_fields _ _ PT); exact Pc).
      assert (Si : singlet T).
      { split; [rewrite (sum_of_perm hypercharge _ _ PTf); exact (cg_neutral _ _ C')|]. intros i Fi. apply Fr. apply (is_free_perm _ _ i PTi). exact Fi. }
      assert (Gt : good_term T).
      { split; [exact Si|]. split; [red; eapply Permutation_NoDup; [apply Permutation_map, Permutation_sym, PTi|exact Pr]|].
        apply (renormal_ok T fs' PTf (cn_derivs _ _ K) (cn_spin _ _ K)). destruct (Nat.eq_dec (List.length fs') 4) as [E4|E4].
        - left. rewrite Four' by exact E4. cbn [List.length]. lia.
        - assert (L3 : List.length fs' = 3) by lia. clear - Ev' L3. destruct fs' as [|a [|b [|d [|]]]]; try discriminate L3. cbn [filter] in *. destruct (oddf a), (oddf b), (oddf d); cbn in *; try discriminate Ev'; lia. }
      assert (Dz : list_sum (map cf_derivs (cfields T)) = 0).
      { apply no_derivs. eapply Permutation_Forall; [apply Permutation_sym, PTf|exact (cn_derivs _ _ K)]. }
      rewrite Dz. cbn [Nat.eqb bind].
      rewrite (singlet_ok T); [|intros E; rewrite E in PTf; apply Permutation_nil in PTf; auto| |exact Si].
      + cbn [bind]. eexists. split; [reflexivity|]. intros t lo E. assert (t = T) as -> by congruence. assert (lo = lor) as -> by congruence. split; [exact Gt|]. split; [rewrite PTf; now apply Permutation_sym|].
        intros L Sp. apply (spent_perm fs fs' L P) in Sp. apply (spent_step fs' [] Lv lor sp c [] L C0 ltac:(lia) Fb El Es); [intros j []| |now rewrite app_nil_r].
        intros k Fk Tk. fold T' in Fk. rewrite (Fr k Fk) in Tk. destruct Tk; discriminate.
      + eapply Permutation_Forall; [apply Permutation_sym, PTf|exact (cn_charges _ _ K)].
  Qed.
End Operator.

(** ** C76: a completion of an invariant operator *)

Lemma start_enough : enough 15 start_symbols.
Proof.
  split; [vm_compute; lia|]. split; [vm_compute; lia|]. destruct start_supplied as (_ & _ & F). exact F.
Qed.

(** C76 (1): the construction raises no exception, and every term of a completion is a renormalisable singlet without
    repeated indices. *)
Theorem C76_completion : forall vanishes fs es g rows ns edges,
  invariant_operator fs es -> Permutation fs (map fst (flat_map leaves_of rows)) ->
  joins_all g (map (tree_map snd) rows) ns edges -> branched_root (cfield * N) fermion_leaf rows -> list_sum (map vertices rows) <= 15 ->
  exists r st, completion vanishes (map (embed cfield) rows) es g = Ok (r, st) /\
    forall terms labelled lor, r = inr (terms, labelled, lor) -> Forall good_term terms /\ List.length terms = list_sum (map vertices rows) + 1 /\
      lorentz_contracted fs lor /\ accounts_for fs terms (map fst labelled).
Proof.
  intros vanishes fs es g rows ns edges Inv P J (Ba & Len & Ev & Four) V.
  assert (C : config fs es (map fst (flat_map leaves_of rows) ++ []) es) by (rewrite app_nil_r; eapply config_perm; [exact P|now apply config_start]).
  assert (En : enough (list_sum (map vertices rows) + (15 - list_sum (map vertices rows))) start_symbols) by (replace (_ + _) with 15 by lia; exact start_enough).
  destruct (proj2 (run_both fs es Inv vanishes g) _ ns edges J rows eq_refl Ba [] es (mkR cfield cop symbol sstate [] [] [] start_symbols) _ C En (Forall_nil _)) as (xs & st & Er & _ & Gd & Out).
  assert (H : exists r st, completion vanishes (map (embed cfield) rows) es g = Ok (r, st) /\ forall terms labelled lor, r = inr (terms, labelled, lor) -> Forall good_term terms /\
      lorentz_contracted fs lor /\ accounts_for fs terms (map fst labelled)).
  { unfold completion, construct_completion. rewrite Er. cbn [bind fst snd]. destruct Out as [(r & _ & Fr)|(fs' & Lv & -> & Lf & C' & O2 & Ps1 & Ps2)].
    - rewrite Fr. eexists. eexists. split; [reflexivity|]. intros; discriminate.
    - assert (Fr : first_reason cfield (map (PropsPartition3.good cfield) (combine fs' ns)) = inr fs').
      { clear - Lf. revert ns Lf. induction fs' as [|f l IH]; intros [|n ns] L; try discriminate L; [reflexivity|]. cbn [combine map first_reason fold_right fst PropsPartition3.good].
        fold (first_reason cfield (map (PropsPartition3.good cfield) (combine l ns))). rewrite IH by (cbn in L; lia). reflexivity. }
      rewrite Fr. rewrite app_nil_r in C'. pose proof (same_odd fs' rows O2) as So. pose proof (Spec.Forall2_len O2) as L2.
      destruct (last_ok fs es Inv vanishes fs' Lv C' ltac:(lia)) as (r & El & Hr).
      + intros H4. apply length_zero_iff_nil. rewrite So, Four by lia. reflexivity.
      + rewrite So. exact Ev.
      + rewrite El. cbn [bind]. destruct r as [reason|[term lor]].
        * eexists. eexists. split; [reflexivity|]. intros; discriminate.
        * eexists. eexists. split; [reflexivity|]. intros terms labelled lor' E. assert (Et : terms = r_terms _ _ _ _ st ++ [term]) by congruence. rewrite Et.
          destruct (Hr term lor eq_refl) as (Gt & Pt & Sp). split; [apply Forall_app; split; [exact Gd|]; constructor; [exact Gt|constructor]|].
          rewrite !app_nil_r in Ps1, Ps2. cbn [r_lorentz r_terms r_edges map] in Ps1, Ps2. split.
          -- assert (El' : lor' = r_lorentz _ _ _ _ st ++ lor) by congruence. rewrite El'. destruct (Sp _ (Ps1 (spent_perm fs _ _ _ P (spent_start fs)))) as [S1 S2 S3 S4].
             split; [exact S1|]. split; [exact S2|]. intros i I Ti. destruct (S4 i I Ti) as [[]|H]. exact H.
          -- assert (Ek : labelled = r_edges _ _ _ _ st) by congruence. rewrite Ek. destruct (Ps2 (placed_perm fs _ _ _ _ P (placed_start fs))) as (lines & Q & Le & Fl & K1 & K2).
             exists lines. split; [rewrite flat_map_app; cbn [flat_map]; rewrite app_nil_r, Pt; exact Q|]. split; [rewrite app_length; cbn; lia|]. split; [|split; [exact K1|exact K2]].
             eapply Forall_impl; [|exact Fl]. intros xp (o & t & I & H). exists o, t. split; [apply in_app_iff; now left|exact H]. }
  destruct H as (r & st' & E & H). exists r, st'. split; [exact E|]. intros terms labelled lor Er'. destruct (H terms labelled lor Er') as (H1 & H2). split; [exact H1|]. split; [|exact H2].
  rewrite Er' in E. exact (C41_terms _ _ _ _ _ _ _ _ _ _ _ _ _ _ _ E).
Qed.

(** ** The topologies of the package *)

Section Check.
  Variable B : Type.
  Variable fm : B -> bool.

  Fixpoint branch_check (t : ptree B) : bool :=
    match t with
    | Lf _ => true
    | Tp l => forallb branch_check l &&
      ((List.length l =? 1) || (List.length l =? 2) || ((List.length l =? 3) && (List.length (filter (odd_tree B fm) l) =? 0)))
    end.

  Definition root_check (l : list (ptree B)) : bool :=
    forallb branch_check l && (3 <=? List.length l) && (List.length l <=? 4) && Nat.even (List.length (filter (odd_tree B fm) l)) &&
    (negb (List.length l =? 4) || (List.length (filter (odd_tree B fm) l) =? 0)).

  Lemma branched_forall l : Forall (branched B fm) l -> branched_all B fm l.
  Proof. induction 1; constructor; auto. Qed.

  Lemma branch_check_ok t : branch_check t = true -> branched B fm t.
  Proof.
    induction t as [x|l IH] using ptree_ind'; intros H; [constructor|]. cbn [branch_check] in H. apply andb_true_iff in H as [F H].
    assert (A : Forall (branched B fm) l) by (rewrite forallb_forall in F; rewrite Forall_forall in IH |- *; auto).
    apply orb_true_iff in H as [H|H]; [apply orb_true_iff in H as [H|H]|].
    - apply Nat.eqb_eq in H. destruct l as [|t [|]]; try discriminate H. inversion A; subst. now constructor.
    - apply Nat.eqb_eq in H. apply br_many; [now apply branched_forall|now left].
    - apply andb_true_iff in H as [H H']. apply Nat.eqb_eq in H. apply Nat.eqb_eq, length_zero_iff_nil in H'. apply br_many; [now apply branched_forall|now right].
  Qed.

  Lemma root_check_ok l : root_check l = true -> branched_root B fm l.
  Proof.
    unfold root_check. rewrite !andb_true_iff. intros ((((F & A) & A') & E) & H). apply Nat.leb_le in A, A'. rewrite forallb_forall in F.
    split; [apply branched_forall, Forall_forall; intros t I; apply branch_check_ok, F, I|]. split; [lia|]. split; [exact E|]. intros L4. rewrite L4 in H. cbn [Nat.eqb negb orb] in H.
    apply length_zero_iff_nil. now apply Nat.eqb_eq.
  Qed.
End Check.

Lemma leaves_map {B C} (f : B -> C) t : leaves_of (tree_map f t) = map f (leaves_of t).
Proof. induction t as [x|l IH] using ptree_ind'; [reflexivity|]. cbn [tree_map leaves_of]. induction IH as [|t l Ht IH IHl]; [reflexivity|]. cbn [map flat_map]. now rewrite map_app, Ht, IHl. Qed.

Lemma odd_tree_map {B C} (f : B -> C) h t : odd_tree C h (tree_map f t) = odd_tree B (fun x => h (f x)) t.
Proof. unfold odd_tree. rewrite leaves_map. f_equal. induction (leaves_of t) as [|x l IH]; [reflexivity|]. cbn [map filter]. destruct (h (f x)); cbn [List.length]; lia. Qed.

Lemma odd_filter_map {B C} (f : B -> C) h l : List.length (filter (odd_tree C h) (map (tree_map f) l)) = List.length (filter (odd_tree B (fun x => h (f x))) l).
Proof. induction l as [|t l IH]; [reflexivity|]. cbn [map filter]. rewrite odd_tree_map. destruct (odd_tree B _ t); cbn [List.length]; lia. Qed.

Lemma branch_map {B C} (f : B -> C) h t : branch_check C h (tree_map f t) = branch_check B (fun x => h (f x)) t.
Proof.
  induction t as [x|l IH] using ptree_ind'; [reflexivity|]. cbn [tree_map branch_check]. rewrite map_length, odd_filter_map. f_equal.
  induction IH as [|t l Ht IH IHl]; [reflexivity|]. cbn [map forallb]. now rewrite Ht, IHl.
Qed.

Lemma root_map {B C} (f : B -> C) h l : root_check C h (map (tree_map f) l) = root_check B (fun x => h (f x)) l.
Proof.
  unfold root_check. rewrite map_length, odd_filter_map. do 4 f_equal. induction l as [|t l IH]; [reflexivity|]. cbn [map forallb]. now rewrite branch_map, IH.
Qed.

Lemma vertices_map {B C} (f : B -> C) t : vertices (tree_map f t) = vertices t.
Proof.
  induction t as [x|l IH] using ptree_ind'; [reflexivity|]. cbn [tree_map vertices]. f_equal.
  - induction IH as [|t l Ht IH IHl]; [reflexivity|]. cbn [map]. change (list_sum (?a :: ?b)) with (a + list_sum b). rewrite Ht. change (list_sum (vertices t :: map vertices l)) with (vertices t + list_sum (map vertices l)). now rewrite IHl.
  - destruct l as [|a [|]]; reflexivity.
Qed.

Lemma vertices_maps {B C} (f : B -> C) l : list_sum (map vertices (map (tree_map f) l)) = list_sum (map vertices l).
Proof. f_equal. rewrite map_map. apply map_ext. apply vertices_map. Qed.

(** trees of the same shape whose leaves agree *)
Lemma tree_map_agree {B C D E} (p : B -> E) (q : C -> E) (f : B -> D) (h : C -> D) t : forall t',
  tree_map p t = tree_map q t' -> Forall2 (fun x y => f x = h y) (leaves_of t) (leaves_of t') -> tree_map f t = tree_map h t'.
Proof.
  assert (Len : forall (t : ptree B) (t' : ptree C), tree_map p t = tree_map q t' -> List.length (leaves_of t) = List.length (leaves_of t')).
  { intros t0 t0' E0. rewrite <- (map_length p), <- leaves_map, E0, leaves_map. apply map_length. }
  induction t as [x|l IH] using ptree_ind'; intros [y|l'] E0 F; try discriminate E0; cbn [leaves_of] in F.
  - cbn [tree_map]. inversion F; subst. congruence.
  - cbn [tree_map] in *. injection E0 as E0. f_equal. revert l' E0 F. induction IH as [|t l Ht IH IHl]; intros [|t' l'] E0 F; try discriminate E0; [reflexivity|]. cbn [map] in *. injection E0 as E1 E2.
    cbn [flat_map] in F. apply Forall2_app_inv_l in F as (l1 & l2 & F1 & F2 & Eq).
    assert (L1 : List.length l1 = List.length (leaves_of t')) by (rewrite <- (Len t t' E1); symmetry; exact (Spec.Forall2_len F1)).
    assert (A : l1 = leaves_of t' /\ l2 = flat_map leaves_of l').
    { clear - Eq L1. revert l1 Eq L1. generalize (leaves_of t'). induction l as [|z r IHr]; intros [|z' r'] Eq L1; try discriminate L1; [auto|]. cbn [app] in Eq. injection Eq as -> Eq. destruct (IHr r' Eq) as [-> ->]; [cbn in L1; lia|]. auto. }
    destruct A as [-> ->]. f_equal; auto.
Qed.

Definition open_fermion (x : slot_of ifield * N) : bool := match fst x with Open false => true | _ => false end.

Lemma shipped_branched n m k : In (n, m, k) kinds -> forall tops t, shipped n m = Ok tops -> In t tops ->
  exists rows, t_partition t = Tp rows /\ root_check _ open_fermion rows = true /\ list_sum (map vertices rows) <= 15.
Proof.
  assert (C : forallb (fun x => match shipped (fst (fst x)) (snd (fst x)) with
                                | Ok tops => forallb (fun t => match t_partition t with Tp rows => root_check _ open_fermion rows && (list_sum (map vertices rows) <=? 15) | Lf _ => false end) tops
                                | Err _ => false end) kinds = true) by (vm_compute; reflexivity).
  intros I tops t Es It. rewrite forallb_forall in C. specialize (C _ I). cbn [fst snd] in C. rewrite Es in C. rewrite forallb_forall in C. specialize (C t It).
  destruct (t_partition t) as [|rows]; [discriminate C|]. apply andb_true_iff in C as [C1 C2]. apply Nat.leb_le in C2. eauto.
Qed.

(** fields of the operator are plain indexed fields *)
Definition as_plain (x : ifield * N) : cfield * N := (mkCF Plain (fst x), snd x).

Lemma distributed {A} (isb : A -> bool) feqb fields t t' :
  slots A t (List.length (filter isb fields)) (List.length (filter (fun f => negb (isb f)) fields)) ->
  In t' (distribute_fields A isb feqb fields t) -> arrangement A isb fields t t'.
Proof.
  intros S I. assert (G : forall l x, In x (nodup_by (ptree_eqb A feqb) l) -> In x l).
  { induction l as [|y l IH]; intros x H; [exact H|]. cbn [nodup_by] in H. destruct H as [<- | H]; [now left|]. apply filter_In in H. right. apply IH, H. }
  unfold distribute_fields in I. apply G, in_map_iff in I as (q & <- & Iq). apply (distribute_arrangements A isb fields t S). eauto.
Qed.

(** C76 (2): every arrangement of the fields of an invariant operator on a topology of the package *)
Theorem C76_shipped : forall n m k tops t fields isb feqb t' vanishes es,
  In (n, m, k) kinds -> shipped n m = Ok tops -> In t tops ->
  invariant_operator (map (mkCF Plain) fields) es ->
  (forall f, In f fields -> is_boson (i_field f) = Ok (isb f)) ->
  List.length (filter isb fields) = n -> List.length (filter (fun f => negb (isb f)) fields) = m ->
  In t' (distribute_fields ifield isb feqb fields (t_partition t)) ->
  exists rows, t' = Tp (map (tree_map place) rows) /\
  exists r st, completion vanishes (map (embed cfield) (map (tree_map as_plain) rows)) es (t_graph t) = Ok (r, st) /\
    forall terms labelled lor, r = inr (terms, labelled, lor) -> Forall good_term terms /\ List.length terms = list_sum (map vertices rows) + 1 /\
      lorentz_contracted (map (mkCF Plain) fields) lor /\ accounts_for (map (mkCF Plain) fields) terms (map fst labelled).
Proof.
  intros n m k tops t fields isb feqb t' vanishes es Ik Es It Inv Hb Hn Hm I'.
  destruct (shipped_branched n m k Ik tops t Es It) as (rows0 & Er0 & Bc & V0).
  destruct (C37_shipped n m k Ik) as (tops' & Es' & _ & W). rewrite Es in Es'. injection Es' as <-.
  destruct (W t It) as (rows & ns & es' & Er & Len & Sl & J & _). rewrite Er0 in Er. injection Er as ->. rename Er0 into Er.
  destruct (distributed isb feqb fields (t_partition t) t') as (M & F & P); [now rewrite Hn, Hm|exact I'|].
  destruct (placed_tree t') as (u & ->).
  { clear - F. induction F as [|x y l l' (f & _ & ->) F IH]; constructor; [exists f; reflexivity|exact IH]. }
  rewrite tree_map_map in M. rewrite (tree_map_ext _ snd) in M by reflexivity. rewrite Er in M, F. destruct u as [x|us]; [discriminate|].
  exists us. split; [reflexivity|].
  assert (Pf : Permutation fields (map fst (flat_map leaves_of us))).
  { etransitivity; [exact P|]. unfold fields_on. rewrite leaves_map. cbn [leaves_of]. generalize (flat_map leaves_of us). clear. intros l. induction l as [|x l IH]; [constructor|]. cbn. now constructor. }
  assert (Lt : flat_map leaves_of (map (tree_map as_plain) us) = map as_plain (flat_map leaves_of us)) by exact (leaves_map as_plain (Tp us)).
  assert (Ag : Forall2 (fun x y => open_fermion x = fermion_leaf (as_plain y)) (leaves_of (Tp rows)) (leaves_of (Tp us))).
  { rewrite leaves_map in F. cbn [leaves_of] in F |- *.
    assert (Hf : forall x, In x (flat_map leaves_of us) -> In (fst x) fields) by (intros x I; eapply Permutation_in; [apply Permutation_sym, Pf|now apply in_map]).
    revert Hf F. generalize (flat_map leaves_of us). generalize (flat_map leaves_of rows). intros l l'. revert l. induction l' as [|y l' IH]; intros l Hf F; inversion F as [|a b l1 l2 (f & Ef & Eb) F']; subst; constructor.
    - assert (f = fst y) as -> by (unfold place in Eb; congruence). unfold open_fermion, fermion_leaf, as_plain. rewrite Ef. cbn [fst].
      pose proof (io_contractible _ _ Inv) as K. assert (Iy : In (mkCF Plain (fst y)) (map (mkCF Plain) fields)) by (apply in_map, Hf; now left).
      pose proof (cn_legit _ _ K) as L. rewrite Forall_forall in L. pose proof (is_boson_ok _ (L _ Iy)) as Eo. cbn [cf_if] in Eo. rewrite (Hb (fst y)) in Eo by (apply Hf; now left).
      assert (Ei : isb (fst y) = bosonb (mkCF Plain (fst y))) by congruence. pose proof (cn_spin _ _ K) as S. rewrite Forall_forall in S. specialize (S _ Iy). unfold low_spin in S. fold (spin (mkCF Plain (fst y))) in S.
      rewrite Ei. unfold bosonb. fold (spin (mkCF Plain (fst y))). destruct (spin (mkCF Plain (fst y))) as [|[|q]]; [reflexivity|reflexivity|lia].
    - apply IH; [intros z Z; apply Hf; now right|exact F']. }
  assert (Sh : tree_map open_fermion (Tp rows) = tree_map (fun y => fermion_leaf (as_plain y)) (Tp us)) by (apply (tree_map_agree snd snd); [now symmetry|exact Ag]).
  cbn [tree_map] in M, Sh. injection M as M. injection Sh as Sh.
  rewrite <- (vertices_maps as_plain us). apply (C76_completion vanishes (map (mkCF Plain) fields) es (t_graph t) _ ns es').
  - exact Inv.
  - rewrite Lt. rewrite map_map. cbn [as_plain fst]. rewrite <- (map_map fst (mkCF Plain)). apply Permutation_map, Pf.
  - rewrite map_map. rewrite (map_ext _ (tree_map snd)) by (intros v; rewrite tree_map_map; now apply tree_map_ext). rewrite M. exact J.
  - apply root_check_ok. rewrite root_map. rewrite <- (root_map (fun y => fermion_leaf (as_plain y)) (fun b => b) us), <- Sh, root_map. exact Bc.
  - rewrite vertices_maps, <- (vertices_maps snd us), M, vertices_maps. exact V0.
Qed.

(** ** Cases *)

Definition looselyb (es : list symbol) : bool :=
  let all := flat_map symbol_indices es in
  forallb (fun e => forallb (fun i => negb (existsb (opposite i) all) ||
    ((List.length (symbol_indices e) =? 3) && forallb (fun j => negb (existsb (opposite j) all) || index_eqb j i) (symbol_indices e))) (symbol_indices e)) es.

Lemma looselyb_ok es : looselyb es = true -> loosely_chained es.
Proof.
  unfold looselyb. cbv zeta. rewrite forallb_forall. intros H e i He Hi M. specialize (H e He). rewrite forallb_forall in H. specialize (H i Hi).
  assert (Ex : forall j, met (flat_map symbol_indices es) j -> existsb (opposite j) (flat_map symbol_indices es) = true).
  { intros j (k & K & C). apply existsb_exists. exists k. split; [exact K|now apply opposite_spec]. }
  rewrite (Ex i M) in H. cbn [negb orb] in H. apply andb_true_iff in H as [L H]. apply Nat.eqb_eq in L. split; [exact L|]. intros j Hj Mj.
  rewrite forallb_forall in H. specialize (H j Hj). rewrite (Ex j Mj) in H. cbn [negb orb] in H. now apply ProofsContract.slot_eqb.
Qed.

Definition gauge_typeb (t : itype) : bool := match t with Colour | Isospin => true | _ => false end.

Definition invariantb (fs : list cfield) (es : list symbol) : bool :=
  contractibleb fs es && looselyb es &&
  forallb (fun i => negb (gauge_typeb (ix_type i)) || existsb (opposite i) (vertex_indices fs es)) (vertex_indices fs es) &&
  Qeq_bool (this (sum_of hypercharge fs)) 0.

Lemma invariantb_ok fs es : invariantb fs es = true -> invariant_operator fs es.
Proof.
  unfold invariantb. rewrite !andb_true_iff. intros (((C & L) & M) & Y). constructor.
  - now apply contractibleb_ok.
  - now apply looselyb_ok.
  - intros i I T. rewrite forallb_forall in M. specialize (M i I).
    assert (E : gauge_typeb (ix_type i) = true) by (destruct T as [-> | ->]; reflexivity). rewrite E in M. cbn [negb orb] in M.
    apply existsb_exists in M as (j & J & O). exists j. split; [exact J|now apply opposite_spec].
  - apply Qeq_bool_iff in Y. apply Qc_is_canon. exact Y.
Qed.

(** all arrangements of plain fields on the shipped topologies, run to the end: how many, and the numbers of terms met *)
Definition unplace (x : slot_of ifield * N) : ifield * N := (match fst x with Placed f => f | _ => cf_if no_field end, snd x).

Definition run_all (fs : list cfield) (es : list symbol) (n m : nat) : list (option nat) :=
  match shipped n m with
  | Ok tops => flat_map (fun t => map (fun t' => match tree_map unplace t' with
      | Tp rows => match completion (fun _ => false) (map (embed cfield) (map (tree_map as_plain) rows)) es (t_graph t) with
                   | Ok (inr (l, _, _), _) => Some (List.length l) | _ => None end
      | _ => None end) (distribute_fields ifield (fun f => got false (is_boson (i_field f))) ifield_eqb (map cf_if fs) (t_partition t))) tops
  | Err _ => [] end.

(** the Weinberg operator: eight arrangements, each completed with two terms *)
Definition weinberg := fields_of [plain "L" "u0 i0" (-1#2) 0; plain "L" "u1 i1" (-1#2) 0; plain "H" "i2" (1#2) 0; plain "H" "i3" (1#2) 0].
Definition weinberg_eps := symbols_from ["-i0 -i2"%string; "-i1 -i3"%string].

Example C76_ex1 : invariant_operator weinberg weinberg_eps /\ run_all weinberg weinberg_eps 2 2 = repeat (Some 2) 8.
Proof. split; [apply invariantb_ok; vm_compute; reflexivity|vm_compute; reflexivity]. Qed.

(** Q Q ub db with the two colour epsilons that colour_singlets with overcomplete adds: they share an index *)
Definition four_quarks := fields_of [plain "Q" "u0 c0 i0" (1#6) 0; plain "Q" "u1 c1 i1" (1#6) 0; plain "ub" "u2 -c2" (-2#3) 0; plain "db" "u3 -c3" (1#3) 0].
Definition four_quarks_eps := symbols_from ["-c0 -c1 -c9"%string; "c2 c3 c9"%string; "-i0 -i1"%string].

Example C76_ex2 : invariant_operator four_quarks four_quarks_eps /\ ~ unchained four_quarks_eps /\
  List.length (run_all four_quarks four_quarks_eps 0 4) = 24 /\ Forall (fun x => x = Some 2) (run_all four_quarks four_quarks_eps 0 4).
Proof.
  split; [apply invariantb_ok; vm_compute; reflexivity|]. split.
  - intros U. remember four_quarks_eps as es eqn:E. vm_compute in E. subst es.
    match type of U with unchained (?a :: ?b :: _) => set (ea := a) in *; set (eb := b) in * end.
    destruct (symbol_indices ea) as [|i1 [|i2 [|i3 [|]]]] eqn:E1; try discriminate E1. destruct (symbol_indices eb) as [|j1 [|j2 [|j3 [|]]]] eqn:E2; try discriminate E2.
    apply (U ea eb i3 j3); [now left|right; now left|rewrite E1; right; right; now left|rewrite E2; right; right; now left|].
    injection E1 as <- <- <-. injection E2 as <- <- <-. apply opposite_spec. vm_compute. reflexivity.
  - split; [vm_compute; reflexivity|]. remember (run_all four_quarks four_quarks_eps 0 4) as r eqn:E. vm_compute in E. subst r. repeat constructor.
Qed.

Print Assumptions C76_completion.
Print Assumptions C76_shipped.
