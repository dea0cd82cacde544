(** * ProofsLatex: lemmas about the LaTeX of an operator *)

From Coq Require Import Ascii String List Bool Arith ZArith Lia Sorted Permutation QArith Qcanon.
From Verif Require Import Base BaseFacts Show ModelIndex SpecIndex ProofsIndex PropsIndex ModelField ProofsField ModelContract SpecContract ProofsContract
  ProofsRegistry ModelLatex SpecLatex.
Import ListNotations.
Local Open Scope nat_scope.

(** ** different names *)

Lemma firsts_In x l : In x (firsts l) <-> In x l.
Proof.
  induction l as [|y l IH]; [reflexivity|]. cbn. rewrite filter_In, IH. split.
  - intros [E|[I _]]; auto.
  - intros [E|I]; auto. destruct (str_eqb y x) eqn:E; [left; now apply str_decides|right; auto].
Qed.

Lemma firsts_NoDup l : NoDup (firsts l).
Proof.
  induction l as [|x l IH]; [constructor|]. cbn. constructor; [|now apply NoDup_filter].
  rewrite filter_In. intros [_ E]. rewrite (decides_refl str_decides) in E. discriminate.
Qed.

Lemma firsts_snoc l x : firsts (l ++ [x]) = firsts l ++ (if mem_by str_eqb x l then [] else [x]).
Proof.
  induction l as [|y l IH]; [reflexivity|]. cbn [app firsts]. rewrite IH, filter_app. cbn [app]. do 2 f_equal. cbn [mem_by existsb].
  unfold mem_by in *. cbn [existsb]. destruct (str_eqb x y) eqn:E; cbn.
  - apply str_decides in E. subst y. destruct (existsb (str_eqb x) l); cbn; [reflexivity|]. now rewrite (decides_refl str_decides).
  - destruct (existsb (str_eqb x) l); cbn; [reflexivity|].
    assert (E' : str_eqb y x = false). { destruct (str_eqb y x) eqn:E'; [|reflexivity]. apply str_decides in E'. subst. now rewrite (decides_refl str_decides) in E. }
    now rewrite E'.
Qed.

Lemma names_In t n l : In n (names t l) <-> exists i, In i l /\ ix_type i = t /\ ix_name i = n.
Proof.
  unfold names. rewrite firsts_In, in_map_iff. split.
  - intros (i & N & I). apply filter_In in I as [I T]. apply itype_decides in T. eauto.
  - intros (i & I & T & N). exists i. split; [exact N|]. apply filter_In. split; [exact I|]. now apply itype_decides.
Qed.

Lemma names_NoDup t l : NoDup (names t l).
Proof. apply firsts_NoDup. Qed.

Lemma names_other t l i : ix_type i <> t -> names t (l ++ [i]) = names t l.
Proof.
  intros N. unfold names. rewrite filter_app, map_app. cbn.
  assert (E : itype_eqb t (ix_type i) = false). { destruct (itype_eqb t (ix_type i)) eqn:E; [|reflexivity]. apply itype_decides in E. congruence. }
  rewrite E. cbn. now rewrite app_nil_r.
Qed.

Lemma names_known t l i : In (ix_name i) (names (ix_type i) l) -> names t (l ++ [i]) = names t l.
Proof.
  intros I. destruct (itype_eqb t (ix_type i)) eqn:E; [|apply names_other; intros <-; rewrite (decides_refl itype_decides) in E; discriminate].
  apply itype_decides in E. subst t. unfold names in *. rewrite filter_app, map_app. cbn. rewrite (decides_refl itype_decides). cbn. rewrite firsts_snoc.
  rewrite firsts_In in I. apply (mem_by_In str_decides) in I. rewrite I. apply app_nil_r.
Qed.

Lemma names_new l i : ~ In (ix_name i) (names (ix_type i) l) -> names (ix_type i) (l ++ [i]) = names (ix_type i) l ++ [ix_name i].
Proof.
  intros N. unfold names in *. rewrite filter_app, map_app. cbn. rewrite (decides_refl itype_decides). cbn. rewrite firsts_snoc.
  rewrite firsts_In in N. destruct (mem_by str_eqb _ _) eqn:E; [|reflexivity]. apply (mem_by_In str_decides) in E. contradiction.
Qed.

Lemma names_prefix t l l' : exists r, names t (l ++ l') = names t l ++ r.
Proof.
  revert l. induction l' as [|i l' IH]; intros l; [exists []; now rewrite !app_nil_r|].
  replace (l ++ i :: l') with ((l ++ [i]) ++ l') by now rewrite <- app_assoc. destruct (IH (l ++ [i])) as (r & ->).
  destruct (itype_eqb t (ix_type i)) eqn:E.
  - apply itype_decides in E. subst t. destruct (in_dec (list_eq_dec ascii_dec) (ix_name i) (names (ix_type i) l)) as [I|N].
    + rewrite names_known by exact I. eauto.
    + rewrite names_new by exact N. rewrite <- app_assoc. eauto.
  - rewrite names_other; [eauto|]. intros <-. rewrite (decides_refl itype_decides) in E. discriminate.
Qed.

Lemma names_length_perm t l l' : Permutation l l' -> List.length (names t l) = List.length (names t l').
Proof.
  intros P. apply Permutation_length, NoDup_Permutation; [apply names_NoDup|apply names_NoDup|]. intros n. rewrite !names_In.
  split; intros (i & I & H); exists i; (split; [|exact H]).
  - now apply (Permutation_in _ P).
  - apply (Permutation_in _ (Permutation_sym P)). exact I.
Qed.

Lemma names_length_mono t l l' : List.length (names t l) <= List.length (names t (l ++ l')).
Proof. destruct (names_prefix t l l') as (r & ->). rewrite app_length. lia. Qed.

Lemma NoDup_app_left {A} (a b : list A) : NoDup (a ++ b) -> NoDup a.
Proof. induction a as [|x a IH]; [constructor|]. cbn. intros N. inversion N as [|? ? N1 N2]; subst. constructor; [|auto]. intros I. apply N1, in_app_iff. auto. Qed.

(** ** styles *)

Lemma index_letter_inj t t' : index_letter t = index_letter t' -> t = t'.
Proof. destruct t, t'; cbn; congruence. Qed.

Lemma existsb_dget {V} (s : list (ascii * V)) c : existsb (fun kv => Ascii.eqb c (fst kv)) s = match dget Ascii.eqb s c with Some _ => true | None => false end.
Proof. induction s as [|[k v] s IH]; [reflexivity|]. cbn. destruct (Ascii.eqb c k); [reflexivity|exact IH]. Qed.

Lemma ascii_decides : decides Ascii.eqb.
Proof. intros x y. apply Ascii.eqb_eq. Qed.

Lemma dget_without {V} (s : list (ascii * V)) c c' :
  dget Ascii.eqb (filter (fun kv => negb (Ascii.eqb c (fst kv))) s) c' = if Ascii.eqb c' c then None else dget Ascii.eqb s c'.
Proof.
  induction s as [|[k v] s IH]; cbn; [now destruct (Ascii.eqb c' c)|].
  destruct (Ascii.eqb c k) eqn:E; cbn.
  - rewrite IH. apply Ascii.eqb_eq in E. subst k. destruct (Ascii.eqb c' c); reflexivity.
  - rewrite IH. destruct (Ascii.eqb c' k) eqn:E'; [|reflexivity]. apply Ascii.eqb_eq in E'. subst k.
    rewrite (Ascii.eqb_sym c' c), E. reflexivity.
Qed.

Lemma ignoring_dget ignore : forall s s', ignoring ignore s = Ok s' ->
  forall c, dget Ascii.eqb s' c = if existsb (Ascii.eqb c) ignore then None else dget Ascii.eqb s c.
Proof.
  unfold ignoring. induction ignore as [|k ignore IH]; intros s s' E c; cbn in E; [now injection E as <-|].
  destruct (existsb _ s) eqn:X; cbn in E; [|discriminate]. rewrite (IH _ _ E). cbn. rewrite dget_without.
  destruct (Ascii.eqb c k); cbn; [now destruct (existsb (Ascii.eqb c) ignore)|reflexivity].
Qed.

Lemma ignoring_ok ignore : forall s, NoDup ignore -> (forall c, In c ignore -> dget Ascii.eqb s c <> None) -> exists s', ignoring ignore s = Ok s'.
Proof.
  unfold ignoring. induction ignore as [|k ignore IH]; intros s N H; [now exists s|]. cbn. rewrite existsb_dget. inversion N as [|? ? N1 N2]; subst.
  destruct (dget Ascii.eqb s k) eqn:E; [|exfalso; apply (H k); cbn; auto]. cbn. apply IH; [exact N2|].
  intros c I. rewrite dget_without. destruct (Ascii.eqb c k) eqn:X; [apply Ascii.eqb_eq in X; subst; contradiction|]. apply H. now right.
Qed.

Lemma full_style_dget t : dget Ascii.eqb full_style (index_letter t) = match t with Generation => None | _ => Some (alphabet t) end.
Proof. destruct t; reflexivity. Qed.

Section Printing.
  Context (ignore : list ascii).
  Notation vis := (fun i => shown ignore (ix_type i)).

  Definition styled (l : list index) (s : style) : Prop :=
    forall t, dget Ascii.eqb s (index_letter t) = if shown ignore t then Some (skipn (List.length (names t l)) (alphabet t)) else None.

  Definition bounded (l : list index) : Prop := forall t, shown ignore t = true -> List.length (names t l) <= List.length (alphabet t).

  Definition lettered_as (l : list index) (i : index) (x : str) : Prop :=
    exists k, nth_error (names (ix_type i) l) k = Some (ix_name i) /\ nth_error (alphabet (ix_type i)) k = Some x.

  Lemma lettered_as_mono l l' i x : lettered_as l i x -> lettered_as (l ++ l') i x.
  Proof using.
    intros (k & N & A). exists k. split; [|exact A]. destruct (names_prefix (ix_type i) l l') as (r & ->).
    rewrite nth_error_app1; [exact N|]. apply nth_error_Some. congruence.
  Qed.

  Lemma lettered_all_mono l l' a b : Forall2 (lettered_as l) a b -> Forall2 (lettered_as (l ++ l')) a b.
  Proof using. induction 1; constructor; auto. now apply lettered_as_mono. Qed.

  Lemma bounded_prefix l l' : bounded (l ++ l') -> bounded l.
  Proof using. intros B t V. specialize (B t V). pose proof (names_length_mono t l l'). lia. Qed.

  Lemma styled_start s : ignoring ignore full_style = Ok s -> styled [] s.
  Proof using.
    intros E t. rewrite (ignoring_dget _ _ _ E), full_style_dget. unfold shown.
    destruct t; cbn; destruct (existsb _ ignore); reflexivity.
  Qed.

  (** taking the next letter *)
  Lemma pop_fresh l s i : styled l s -> ~ In (ix_name i) (names (ix_type i) l) ->
    (bounded (l ++ [i]) -> shown ignore (ix_type i) = true ->
       exists x s', pop_style s (index_letter (ix_type i)) = Ok (x, s') /\ styled (l ++ [i]) s' /\ lettered_as (l ++ [i]) i x) /\
    (forall r, pop_style s (index_letter (ix_type i)) = Ok r -> bounded l -> bounded (l ++ [i]) /\ shown ignore (ix_type i) = true).
  Proof using.
    intros S N. unfold pop_style. rewrite (S (ix_type i)). split.
    - intros B V. rewrite V. specialize (B _ V). rewrite (names_new _ _ N), app_length in B. cbn in B.
      destruct (skipn (List.length (names (ix_type i) l)) (alphabet (ix_type i))) as [|x r] eqn:Es.
      { apply (f_equal (@List.length str)) in Es. rewrite skipn_length in Es. cbn in Es. lia. }
      assert (Nx : nth_error (alphabet (ix_type i)) (List.length (names (ix_type i) l)) = Some x).
      { rewrite <- (firstn_skipn (List.length (names (ix_type i) l)) (alphabet (ix_type i))), Es.
        rewrite nth_error_app2; rewrite firstn_length_le by lia; [|lia]. now rewrite Nat.sub_diag. }
      exists x. eexists. split; [reflexivity|]. split.
      + intros t. rewrite (dget_dset ascii_decides). destruct (Ascii.eqb (index_letter t) (index_letter (ix_type i))) eqn:E.
        * apply Ascii.eqb_eq, index_letter_inj in E. subst t. rewrite V, (names_new _ _ N), app_length. cbn. f_equal.
          change (skipn 1 (x :: r) = skipn (List.length (names (ix_type i) l) + 1) (alphabet (ix_type i))). rewrite <- Es. clear - l i.
          generalize (alphabet (ix_type i)) as a. generalize (List.length (names (ix_type i) l)) as n. induction n as [|n IH]; intros a; [reflexivity|].
          destruct a as [|y a]; [reflexivity|]. exact (IH a).
        * rewrite (S t), names_other; [reflexivity|]. intros <-. rewrite Ascii.eqb_refl in E. discriminate.
      + exists (List.length (names (ix_type i) l)). split; [|exact Nx]. rewrite (names_new _ _ N), nth_error_app2 by lia. now rewrite Nat.sub_diag.
    - intros r E B. destruct (shown ignore (ix_type i)) eqn:V; [|discriminate]. split; [|reflexivity].
      destruct (skipn _ _) as [|x q] eqn:Es; [discriminate|]. intros t V'. destruct (itype_eqb t (ix_type i)) eqn:T.
      + apply itype_decides in T. subst t. rewrite (names_new _ _ N), app_length. apply (f_equal (@List.length str)) in Es.
        rewrite skipn_length in Es. cbn in Es |- *. lia.
      + rewrite names_other; [now apply B|]. intros <-. rewrite (decides_refl itype_decides) in T. discriminate.
  Qed.

  (** names given so far *)
  Definition given (l : list index) (d : index_names) : Prop := forall j x, dget index_eqb d j = Some x -> lettered_as l j x /\ shown ignore (ix_type j) = true.

  Lemma dget_set_index (d : index_names) i j x : dget index_eqb (dset index_eqb d i x) j = if index_eqb j i then Some x else dget index_eqb d j.
  Proof using.
    induction d as [|[k v] d IH]; cbn; [reflexivity|]. destruct (index_eqb i k) eqn:E; cbn.
    - destruct (index_eqb j k) eqn:J; destruct (index_eqb j i) eqn:JI; try reflexivity; exfalso;
      rewrite slot_eqb in E; [apply not_true_iff_false in JI; apply JI|apply not_true_iff_false in J; apply J]; rewrite slot_eqb in *; congruence.
    - destruct (index_eqb j k) eqn:J; [|exact IH]. destruct (index_eqb j i) eqn:JI; [|reflexivity].
      exfalso. apply not_true_iff_false in E. apply E. rewrite slot_eqb in *. congruence.
  Qed.

  Lemma lettered_as_slot l i j x : ix_name i = ix_name j -> ix_type i = ix_type j -> lettered_as l i x -> lettered_as l j x.
  Proof using. intros N T (k & H). exists k. rewrite <- N, <- T. exact H. Qed.

  Lemma given_mono l l' d : given l d -> given (l ++ l') d.
  Proof using. intros G j x E. destruct (G j x E). split; [now apply lettered_as_mono|assumption]. Qed.

  Lemma given_set l d i x : given l d -> lettered_as l i x -> shown ignore (ix_type i) = true -> given l (dset index_eqb d i x).
  Proof using.
    intros G L V j y. rewrite dget_set_index. destruct (index_eqb j i) eqn:E; [|apply G]. intros [= <-].
    apply slot_eqb in E. injection E as E1 E2 E3. split; [now apply (lettered_as_slot l i)|now rewrite E2].
  Qed.

  Lemma styled_known l s i : styled l s -> (shown ignore (ix_type i) = false \/ In (ix_name i) (names (ix_type i) l)) -> styled (l ++ [i]) s.
  Proof using.
    intros S [V|I] t; rewrite (S t); [|now rewrite names_known].
    destruct (shown ignore t) eqn:V'; [|reflexivity]. rewrite names_other; [reflexivity|]. intros E. congruence.
  Qed.

  Lemma bounded_known l i : bounded l -> (shown ignore (ix_type i) = false \/ In (ix_name i) (names (ix_type i) l)) -> bounded (l ++ [i]).
  Proof using.
    intros B [V|I] t V'; [|rewrite names_known by exact I; now apply B]. rewrite names_other; [now apply B|]. intros E. congruence.
  Qed.

  Definition key (i : index) : str * itype := (ix_name i, ix_type i).

  (** what a run over the indices of fields does *)
  Record field_run (l is : list index) (d d' : index_names) (s' : style) (out out' : list str) : Prop := {
    fr_styled : styled (l ++ is) s';
    fr_given : given (l ++ is) d';
    fr_keys : forall j, dget index_eqb d' j <> None <-> dget index_eqb d j <> None \/ exists i, In i is /\ vis i = true /\ slot i = slot j;
    fr_out : exists new, out' = out ++ new /\ Forall2 (lettered_as (l ++ is)) (filter vis is) new }.

  Lemma name_indices is : forall l d s out, styled l s -> bounded l -> given l d -> NoDup (map key (filter vis (l ++ is))) ->
    (bounded (l ++ is) -> exists d' s' out', foldM name_index is (d, s, out) = Ok (d', s', out') /\ field_run l is d d' s' out out') /\
    (forall r, foldM name_index is (d, s, out) = Ok r -> bounded (l ++ is)).
  Proof using.
    induction is as [|i is IH]; intros l d s out S B G N.
    - split.
      + intros _. exists d, s, out. split; [reflexivity|]. constructor; rewrite ?app_nil_r; auto.
        * intros j. split; [auto|]. intros [H|(i & [] & _)]. exact H.
        * exists []. split; [now rewrite app_nil_r|constructor].
      + intros r _. now rewrite app_nil_r.
    - cbn [foldM]. unfold name_index at 1 3. rewrite existsb_dget, (S (ix_type i)).
      assert (Eq : l ++ i :: is = (l ++ [i]) ++ is) by now rewrite <- app_assoc.
      assert (N' : NoDup (map key (filter vis ((l ++ [i]) ++ is)))) by now rewrite <- Eq.
      destruct (shown ignore (ix_type i)) eqn:V.
      + assert (F : ~ In (ix_name i) (names (ix_type i) l)).
        { rewrite names_In. intros (j & I & T & Nm). rewrite filter_app, map_app in N. cbn [filter] in N. rewrite V in N. cbn [map] in N.
          apply NoDup_remove_2 in N. apply N, in_app_iff. left. apply in_map_iff. exists j. split; [unfold key; congruence|].
          apply filter_In. split; [exact I|]. now rewrite T. }
        destruct (pop_fresh l s i S F) as [P1 P2]. split.
        * intros Bf. rewrite Eq in Bf. destruct (P1 (bounded_prefix _ _ Bf) V) as (x & s1 & Ep & S1 & L1). rewrite Ep. cbn [bind fst snd].
          assert (G1 : given (l ++ [i]) (dset index_eqb d i x)) by (apply given_set; [now apply given_mono|exact L1|exact V]).
          destruct (IH (l ++ [i]) _ s1 (out ++ [x]) S1 (bounded_prefix _ _ Bf) G1 N') as [R1 _].
          destruct (R1 Bf) as (d' & s' & out' & Ef & FR). exists d', s', out'. split; [exact Ef|].
          destruct FR as [A1 A2 A3 (new & A4 & A5)]. constructor; rewrite ?Eq; auto.
          -- intros j. rewrite A3, dget_set_index. destruct (index_eqb j i) eqn:X.
             ++ apply slot_eqb in X. split; [|left; discriminate]. intros _. right. exists i. cbn. auto.
             ++ split.
                ** intros [H|(k & I & H)]; [auto|]. right. exists k. cbn. auto.
                ** intros [H|(k & [->|I] & Vk & H)]; [auto| |right; eauto].
                   exfalso. apply not_true_iff_false in X. apply X. apply slot_eqb. auto.
          -- exists (x :: new). split; [rewrite A4, <- app_assoc; reflexivity|]. cbn [filter]. rewrite V. constructor; [|exact A5].
             now apply lettered_as_mono.
        * intros r E. apply bind_ok in E as (r1 & E1 & E). apply bind_ok in E1 as ([x s1] & Ep & E1). injection E1 as <-.
          destruct (P2 _ Ep B) as [B1 _]. destruct (P1 B1 V) as (x' & s1' & Ep' & S1 & L1). rewrite Ep in Ep'. injection Ep' as <- <-. cbn [fst snd] in E.
          rewrite Eq. refine (proj2 (IH (l ++ [i]) _ _ _ S1 B1 _ N') _ E). apply given_set; [now apply given_mono|exact L1|exact V].
      + cbn [bind]. assert (S1 : styled (l ++ [i]) s) by (apply styled_known; auto). assert (B1 : bounded (l ++ [i])) by (apply bounded_known; auto).
        destruct (IH (l ++ [i]) d s out S1 B1 (given_mono _ _ _ G) N') as [R1 R2]. rewrite Eq. split; [|exact R2].
        intros Bf. destruct (R1 Bf) as (d' & s' & out' & Ef & FR). exists d', s', out'. split; [exact Ef|].
        destruct FR as [A1 A2 A3 (new & A4 & A5)]. constructor; rewrite ?Eq; auto.
        * intros j. rewrite A3. split; (intros [H|(k & I & Vk & H)]; [auto|right; exists k]).
          -- cbn. auto.
          -- destruct I as [->|I]; [congruence|]. auto.
        * exists new. split; [exact A4|]. cbn [filter]. now rewrite V.
  Qed.

  (** the fields in turn *)
  Record fields_run (l : list index) (xs : list ifield) (d d' : index_names) (s' : style) (out out' : list str) : Prop := {
    xr_styled : styled (l ++ flat_map i_indices xs) s';
    xr_given : given (l ++ flat_map i_indices xs) d';
    xr_keys : forall j, dget index_eqb d' j <> None <->
                dget index_eqb d j <> None \/ exists i, In i (flat_map i_indices xs) /\ vis i = true /\ slot i = slot j;
    xr_out : exists new, out' = out ++ new /\
      Forall2 (fun x t => exists ls, Forall2 (lettered_as (l ++ flat_map i_indices xs)) (filter vis (i_indices x)) ls /\
                 t = latex_name (i_field x) ++ match ls with [] => [] | _ => lit "^{" ++ join (lit " ") ls ++ lit "}" end) xs new }.

  Definition step_field := fun (acc : list str * index_names * style) x => let '(out, d, s) := acc in do r <- latex_and_pop x d s; let '(t, d, s) := r in Ok (out ++ [t], d, s).

  Lemma get_latex_name f t : get_latex f = Ok t -> t = latex_name f.
  Proof using.
    unfold get_latex, latex_name. destruct (f_is_conj f); [|now intros [= <-]]. intros E. apply bind_ok in E as (i & Ei & E).
    assert (X : nats_eqb i [0] = str_eqb (skipn 4 (f_dynkin f)) (lit "0")).
    { unfold isospin_irrep, sm_irrep, dynkin_ints in Ei. apply bind_ok in Ei as (a & Ea & Ei). apply bind_ok in Ea as (b & Eb & Ea).
      injection Ea as <-. injection Ei as <-. generalize dependent b. generalize (f_dynkin f) as w. intros w b Eb.
      destruct w as [|w0 [|w1 [|w2 [|w3 w]]]]; cbn in Eb;
        repeat match goal with H : bind _ _ = Ok _ |- _ => apply bind_ok in H as (? & ? & H) | H : Ok _ = Ok _ |- _ => injection H as <- end;
        [reflexivity|reflexivity|reflexivity|reflexivity|]. cbn [skipn].
      match goal with H : mapM digit_of w = Ok ?y |- _ => rename H into Em; rename y into ys end. clear - Em.
      destruct w as [|c [|c' w]]; cbn in Em.
      - injection Em as <-. reflexivity.
      - apply bind_ok in Em as (n & En & Em). injection Em as <-. apply digit_of_ok in En as [Ln ->]. cbn. rewrite !andb_true_r.
        do 10 (destruct n as [|n]; [reflexivity|]). lia.
      - apply bind_ok in Em as (n & En & Em). apply bind_ok in Em as (m & Em & E). apply bind_ok in Em as (k & Ek & Em). apply bind_ok in Em as (r & Er & Em).
        injection Em as <-. injection E as <-. cbn. now rewrite !andb_false_r. }
    rewrite X in E. destruct (str_eqb _ _), (f_derivs f =? 0); cbn in E; injection E as <-; reflexivity.
  Qed.

  Lemma field_texts xs : forall l d s out, styled l s -> bounded l -> given l d -> NoDup (map key (filter vis (l ++ flat_map i_indices xs))) ->
    (bounded (l ++ flat_map i_indices xs) -> (forall x, In x xs -> exists t, get_latex (i_field x) = Ok t) ->
       exists d' s' out', foldM step_field xs (out, d, s) = Ok (out', d', s') /\ fields_run l xs d d' s' out out') /\
    (forall r, foldM step_field xs (out, d, s) = Ok r -> bounded (l ++ flat_map i_indices xs) /\ (forall x, In x xs -> exists t, get_latex (i_field x) = Ok t)).
  Proof using.
    induction xs as [|x xs IH]; intros l d s out S B G N.
    - split.
      + intros _ _. exists d, s, out. split; [reflexivity|]. constructor; cbn [flat_map]; rewrite ?app_nil_r; auto.
        * intros j. split; [auto|]. intros [H|(i & [] & _)]. exact H.
        * exists []. split; [now rewrite app_nil_r|constructor].
      + intros r _. cbn [flat_map]. rewrite app_nil_r. split; [exact B|]. intros x [].
    - cbn [foldM flat_map] in *. unfold step_field at 1 3. unfold latex_and_pop.
      rewrite app_assoc in N. rewrite app_assoc.
      assert (N1 : NoDup (map key (filter vis (l ++ i_indices x)))).
      { rewrite filter_app, map_app in N. exact (NoDup_app_left _ _ N). }
      destruct (name_indices (i_indices x) l d s [] S B G N1) as [P1 P2]. split.
      + intros Bf Hl. destruct (P1 (bounded_prefix _ _ Bf)) as (d1 & s1 & o1 & E1 & [A1 A2 A3 (new1 & A4 & A5)]). rewrite E1. cbn [bind].
        destruct (Hl x) as (tx & Ex); [now left|]. rewrite Ex. cbn [bind].
        destruct (IH (l ++ i_indices x) d1 s1 (out ++ [match o1 with [] => tx | _ => tx ++ lit "^{" ++ join (lit " ") o1 ++ lit "}" end]) A1 (bounded_prefix _ _ Bf) A2 N) as [R1 _].
        destruct (R1 Bf (fun y I => Hl y (or_intror I))) as (d' & s' & out' & Ef & [C1 C2 C3 (new & C4 & C5)]). exists d', s', out'.
        split; [exact Ef|]. constructor; cbn [flat_map]; rewrite ?(app_assoc l); auto.
        * intros j. rewrite C3, A3. setoid_rewrite in_app_iff. split.
          -- intros [[H|(i & I & H)]|(i & I & H)]; eauto 6.
          -- intros [H|(i & [I|I] & H)]; eauto 6.
        * eexists. split; [rewrite C4, <- app_assoc; reflexivity|]. cbn [app] in A4. subst o1. constructor; [|exact C5].
          exists new1. split.
          -- now apply lettered_all_mono.
          -- rewrite (get_latex_name _ _ Ex). destruct new1; [now rewrite app_nil_r|reflexivity].
      + intros r E. apply bind_ok in E as (r1 & E1 & E). apply bind_ok in E1 as (r2 & E2 & E1). apply bind_ok in E2 as ([[d1 s1] o1] & E3 & E2).
        apply bind_ok in E2 as (tx & Ex & E2). injection E2 as <-. injection E1 as <-.
        pose proof (P2 _ E3) as B1. destruct (P1 B1) as (d1' & s1' & o1' & E1 & [A1 A2 A3 _]). rewrite E3 in E1. injection E1 as <- <- <-.
        destruct (proj2 (IH (l ++ i_indices x) d1 s1 _ A1 B1 A2 N) _ E) as [Bf Hl]. split; [exact Bf|]. intros y [<-|I]; [eauto|auto].
  Qed.

  (** symbols: what is named stays named, and the counterpart of an index of a symbol is named as soon as its name has a letter *)
  Definition answered (all l : list index) (d : index_names) : Prop :=
    forall i n, In i all -> In (ix_name i) (names (ix_type i) l) -> shown ignore (ix_type i) = true -> counterpart i n -> dget index_eqb d n <> None.

  Record symbol_run (all l is : list index) (d' : index_names) (s' : style) (out out' : list str) : Prop := {
    sr_styled : styled (l ++ is) s';
    sr_given : given (l ++ is) d';
    sr_answered : answered all (l ++ is) d';
    sr_out : exists new, out' = out ++ new /\ Forall2 (lettered_as (l ++ is)) is new }.

  Lemma symbol_indices_run all is : incl is all -> Forall clean all -> forall l d s out, styled l s -> bounded l -> given l d -> answered all l d ->
    (bounded (l ++ is) -> (forall i, In i is -> vis i = true) -> exists d' s' out', foldM symbol_index is (d, s, out) = Ok (d', s', out') /\ symbol_run all l is d' s' out out') /\
    (forall r, foldM symbol_index is (d, s, out) = Ok r -> bounded (l ++ is) /\ (forall i, In i is -> vis i = true)).
  Proof using.
    intros Inc Cl. induction is as [|i is IH]; intros l d s out S B G A.
    - split.
      + intros _ _. exists d, s, out. split; [reflexivity|]. constructor; rewrite ?app_nil_r; auto. exists []. split; [now rewrite app_nil_r|constructor].
      + intros r _. rewrite app_nil_r. split; [exact B|]. intros i [].
    - assert (Ia : In i all) by (apply Inc; now left). assert (Inc' : incl is all) by (intros j I; apply Inc; now right). specialize (IH Inc').
      pose proof (proj1 (Forall_forall _ _) Cl i Ia) as Ci. destruct (clean_neg _ Ci) as (n & En & Cn & Cp).
      pose proof Cp as (Nn & Nt & Nu).
      assert (Eq : l ++ i :: is = (l ++ [i]) ++ is) by now rewrite <- app_assoc. rewrite Eq.
      cbn [foldM]. unfold symbol_index at 1 3. rewrite En. cbn [bind].
      destruct (dget index_eqb d n) as [x|] eqn:Ed.
      + cbn [bind fst snd]. unfold dgetM. rewrite Ed. cbn [bind]. destruct (G _ _ Ed) as [Lx V]. rewrite Nt in V.
        assert (K : In (ix_name i) (names (ix_type i) l)). { destruct Lx as (k & Hk & _). rewrite <- Nn, <- Nt. now apply nth_error_In in Hk. }
        assert (S1 : styled (l ++ [i]) s) by (apply styled_known; auto). assert (B1 : bounded (l ++ [i])) by (apply bounded_known; auto).
        assert (A1 : answered all (l ++ [i]) d). { intros j m Ij Nj. rewrite names_known in Nj by exact K. now apply A. }
        destruct (IH (l ++ [i]) d s (out ++ [x]) S1 B1 (given_mono _ _ _ G) A1) as [R1 R2]. split.
        * intros Bf Hv. destruct (R1 Bf (fun j I => Hv j (or_intror I))) as (d' & s' & out' & Ef & [D1 D2 D3 (new & D4 & D5)]).
          exists d', s', out'. split; [exact Ef|]. constructor; rewrite ?Eq; auto. exists (x :: new). split; [rewrite D4, <- app_assoc; reflexivity|].
          constructor; [|exact D5]. do 2 apply lettered_as_mono. now apply (lettered_as_slot l n).
        * intros r E. destruct (R2 _ E) as [Bf Hv]. split; [exact Bf|]. intros j [<-|I]; auto.
      + destruct (shown ignore (ix_type i)) eqn:V.
        * assert (F : ~ In (ix_name i) (names (ix_type i) l)). { intros K. apply (A i n Ia K V Cp). exact Ed. }
          destruct (pop_fresh l s i S F) as [P1 P2].
          assert (Step : forall x, lettered_as (l ++ [i]) i x ->
                    given (l ++ [i]) (dset index_eqb (dset index_eqb d n x) i x) /\ answered all (l ++ [i]) (dset index_eqb (dset index_eqb d n x) i x) /\
                    dget index_eqb (dset index_eqb (dset index_eqb d n x) i x) n = Some x).
          { intros x Lx. split; [|split].
            - apply given_set; [|exact Lx|exact V]. apply given_set; [now apply given_mono| |now rewrite Nt]. now apply (lettered_as_slot _ i).
            - intros j m Ij Nj Vj Cj. rewrite !dget_set_index. destruct (index_eqb m i) eqn:X1; [discriminate|]. destruct (index_eqb m n) eqn:X2; [discriminate|].
              apply (A j m Ij); auto. destruct (itype_eqb (ix_type j) (ix_type i)) eqn:T.
              + apply itype_decides in T. rewrite T in *. rewrite (names_new _ _ F) in Nj. apply in_app_iff in Nj as [Nj|[Nj|[]]]; [exact Nj|]. exfalso.
                destruct Cj as (Mn & Mt & Mu). apply not_true_iff_false in X1, X2. rewrite slot_eqb in X1, X2. unfold slot in X1, X2.
                rewrite Mn, Mt, <- Nj, T in X1, X2. rewrite Nn, Nt, Nu in X2. destruct (ix_up m), (ix_up i); cbn in *; tauto.
              + rewrite names_other in Nj; [exact Nj|]. intros T'. rewrite T' in T. rewrite (decides_refl itype_decides) in T. discriminate.
            - rewrite !dget_set_index. destruct (index_eqb n i); [reflexivity|]. assert (X : index_eqb n n = true) by now apply slot_eqb. now rewrite X. }
          split.
          -- intros Bf Hv. destruct (P1 (bounded_prefix _ _ Bf) V) as (x & s1 & Ep & S1 & L1). rewrite Ep. cbn [bind fst snd]. destruct (Step x L1) as (G1 & A1 & Dx).
             unfold dgetM. rewrite Dx. cbn [bind].
             destruct (IH (l ++ [i]) _ s1 (out ++ [x]) S1 (bounded_prefix _ _ Bf) G1 A1) as [R1 _].
             destruct (R1 Bf (fun j I => Hv j (or_intror I))) as (d' & s' & out' & Ef & [D1 D2 D3 (new & D4 & D5)]).
             exists d', s', out'. split; [exact Ef|]. constructor; rewrite ?Eq; auto. exists (x :: new). split; [rewrite D4, <- app_assoc; reflexivity|].
             constructor; [|exact D5]. now apply lettered_as_mono.
          -- intros r E. apply bind_ok in E as (r1 & E1 & E). apply bind_ok in E1 as (r2 & E2 & E1). apply bind_ok in E2 as ([x s1] & Ep & E2). injection E2 as <-.
             cbn [fst snd] in E1. destruct (P2 _ Ep B) as [B1 _]. destruct (P1 B1 V) as (x' & s1' & Ep' & S1 & L1). rewrite Ep in Ep'. injection Ep' as <- <-.
             destruct (Step x L1) as (G1 & A1 & Dx). unfold dgetM in E1. rewrite Dx in E1. cbn [bind] in E1. injection E1 as <-.
             destruct (proj2 (IH (l ++ [i]) _ s1 _ S1 B1 G1 A1) _ E) as [Bf Hv]. split; [exact Bf|]. intros j [<-|I]; auto.
        * unfold pop_style. rewrite (S (ix_type i)), V. cbn [bind]. split; [|discriminate].
          intros _ Hv. exfalso. specialize (Hv i (or_introl eq_refl)). cbn in Hv. congruence.
  Qed.

  Record symbols_run (all l : list index) (es : list symbol) (d' : index_names) (s' : style) (out out' : list str) : Prop := {
    yr_styled : styled (l ++ flat_map symbol_indices es) s';
    yr_given : given (l ++ flat_map symbol_indices es) d';
    yr_answered : answered all (l ++ flat_map symbol_indices es) d';
    yr_out : exists new, out' = out ++ new /\
      Forall2 (fun e t => exists ls, Forall2 (lettered_as (l ++ flat_map symbol_indices es)) (symbol_indices e) ls /\
                 t = (match e with DeltaC _ => lit "\delta" | _ => lit "\epsilon" end) ++ lit "_{" ++ join (lit " ") (sort str_leb ls) ++ lit "}") es new }.

  Definition step_symbol := fun (acc : list str * index_names * style) x => let '(out, d, s) := acc in do r <- symbol_latex x d s; let '(t, d, s) := r in Ok (out ++ [t], d, s).

  Lemma symbol_texts all es : incl (flat_map symbol_indices es) all -> Forall clean all ->
    forall l d s out, styled l s -> bounded l -> given l d -> answered all l d ->
    (bounded (l ++ flat_map symbol_indices es) -> (forall i, In i (flat_map symbol_indices es) -> vis i = true) ->
       exists d' s' out', foldM step_symbol es (out, d, s) = Ok (out', d', s') /\ symbols_run all l es d' s' out out') /\
    (forall r, foldM step_symbol es (out, d, s) = Ok r -> bounded (l ++ flat_map symbol_indices es) /\ (forall i, In i (flat_map symbol_indices es) -> vis i = true)).
  Proof using.
    intros Inc Cl. induction es as [|x es IH]; intros l d s out S B G A.
    - split.
      + intros _ _. exists d, s, out. split; [reflexivity|]. constructor; cbn [flat_map]; rewrite ?app_nil_r; auto.
        exists []. split; [now rewrite app_nil_r|constructor].
      + intros r _. cbn [flat_map]. rewrite app_nil_r. split; [exact B|]. intros i [].
    - cbn [foldM flat_map] in *. assert (Inc1 : incl (symbol_indices x) all) by (intros j I; apply Inc, in_app_iff; auto).
      assert (Inc2 : incl (flat_map symbol_indices es) all) by (intros j I; apply Inc, in_app_iff; auto). specialize (IH Inc2).
      unfold step_symbol at 1 3. unfold symbol_latex. rewrite app_assoc.
      destruct (symbol_indices_run all (symbol_indices x) Inc1 Cl l d s [] S B G A) as [P1 P2]. split.
      + intros Bf Hv. destruct (P1 (bounded_prefix _ _ Bf)) as (d1 & s1 & o1 & E1 & [A1 A2 A3 (new1 & A4 & A5)]); [intros i I; apply Hv, in_app_iff; auto|].
        rewrite E1. cbn [bind]. cbn [app] in A4. subst o1.
        match goal with |- context [foldM step_symbol es (out ++ [?t], _, _)] => set (tx := t) end.
        destruct (IH (l ++ symbol_indices x) d1 s1 (out ++ [tx]) A1 (bounded_prefix _ _ Bf) A2 A3) as [R1 _].
        destruct (R1 Bf) as (d' & s' & out' & Ef & [C1 C2 C3 (new & C4 & C5)]); [intros i I; apply Hv, in_app_iff; auto|]. exists d', s', out'.
        split; [exact Ef|]. constructor; cbn [flat_map]; rewrite ?(app_assoc l); auto.
        exists (tx :: new). split; [rewrite C4, <- app_assoc; reflexivity|]. constructor; [|exact C5].
        exists new1. split; [|reflexivity]. now apply lettered_all_mono.
      + intros r E. apply bind_ok in E as (r1 & E1 & E). apply bind_ok in E1 as (r2 & E2 & E1). apply bind_ok in E2 as ([[d1 s1] o1] & E3 & E2).
        injection E2 as <-. injection E1 as <-.
        destruct (P2 _ E3) as [B1 V1]. destruct (P1 B1 V1) as (d1' & s1' & o1' & E1 & [A1 A2 A3 _]). rewrite E3 in E1. injection E1 as <- <- <-.
        destruct (proj2 (IH (l ++ symbol_indices x) d1 s1 _ A1 B1 A2 A3) _ E) as [Bf Hv]. split; [exact Bf|].
        intros i I. apply in_app_iff in I as [I|I]; auto.
  Qed.
End Printing.
