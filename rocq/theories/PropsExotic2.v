(** * PropsExotic2: exotic fields carry the right quantum numbers (C40) *)

From Coq Require Import Ascii String List Bool Arith ZArith QArith Qcanon Lia Permutation Sorted.
From Verif Require Import Base BaseFacts Show ModelFunctions ProofsFunctions ModelIndex SpecIndex ProofsIndex PropsIndex ModelField SpecField
  ProofsField ProofsField2 PropsField PropsField2 ModelContract SpecContract ProofsContract PropsContract PropsContract3 ModelPartition
  ModelExotic SpecExotic ProofsExotic PropsExotic ProofsExotic2.
From Verif Require Spec.
Import ListNotations.
Local Open Scope nat_scope.

(** ** The free indices of the product, arranged *)

Lemma free_in_op op i : is_free op i -> In i (op_indices op).
Proof. now intros []. Qed.

Lemma free_slot_inj op i j : is_free op i -> is_free op j -> proper_op op -> slot i = slot j -> i = j.
Proof.
  intros [I _] [J _] P E. red in P. clear - I J P E. induction (op_indices op) as [|k l IH]; [destruct I|]. cbn [map] in P. inversion P as [|? ? N P']; subst.
  destruct I as [->|I], J as [->|J]; auto.
  - exfalso. apply N. rewrite E. now apply in_map.
  - exfalso. apply N. rewrite <- E. now apply in_map.
Qed.

Section Ready.
  Variable op : cop.
  Hypothesis R : ready op.

  Let fr := free_indices (cop_erase op).
  Let col t := sort index_leb (by_type t fr).

  Lemma ready_list : exotic_index_list op = col Undotted ++ col Dotted ++ col Colour ++ col Isospin.
  Proof.
    unfold exotic_index_list. pose proof (rd_many _ R) as M. assert (E : c_indices op = fr).
    { unfold c_indices. destruct op as [|[x|s] [|t l]]; try reflexivity. cbn in M. lia. }
    rewrite E. cbn [flat_map]. now rewrite app_nil_r.
  Qed.

  Lemma in_col t i : In i (col t) <-> is_free (cop_erase op) i /\ ix_type i = t.
  Proof.
    assert (P := sort_perm index_leb (by_type t fr)). transitivity (In i (by_type t fr)).
    { split; apply Permutation_in; [now apply Permutation_sym|exact P]. }
    rewrite by_type_has, filter_In, has_type_iff. unfold fr. now rewrite free_indices_spec.
  Qed.

  Lemma nodup_col t : NoDup (map slot (col t)).
  Proof.
    eapply Permutation_NoDup; [apply Permutation_map, sort_perm|]. rewrite by_type_has. apply NoDup_filter_map. apply NoDup_filter_map. exact (rd_proper _ R).
  Qed.

  Definition zs := map reindex (col Undotted ++ col Dotted).
  Definition cs := map reindex (col Colour).
  Definition ss := map reindex (col Isospin).

  Lemma ready_map : map reindex (exotic_index_list op) = zs ++ cs ++ ss.
  Proof. rewrite ready_list. unfold zs, cs, ss. now rewrite !map_app, <- !app_assoc. Qed.

  Lemma free_ok i : is_free (cop_erase op) i -> clean i.
  Proof. intros F. pose proof (rd_clean _ R) as C. rewrite Forall_forall in C. apply C, F. Qed.

  (** an arranged index comes from a free one *)
  Lemma in_zcs j : In j (zs ++ cs ++ ss) <-> exists i, is_free (cop_erase op) i /\ ix_type i <> Generation /\ reindex i = j.
  Proof.
    rewrite <- ready_map, in_map_iff. split.
    - intros (i & E & I). exists i. rewrite ready_list, !in_app_iff, !in_col in I. split; [tauto|]. split; [|exact E].
      intros G. rewrite G in I. destruct I as [[_ I]|[[_ I]|[[_ I]|[_ I]]]]; discriminate I.
    - intros (i & F & N & E). exists i. split; [exact E|]. rewrite ready_list, !in_app_iff, !in_col. destruct (ix_type i); tauto.
  Qed.

  Lemma slots_zcs : map slot (zs ++ cs ++ ss) = map slot (exotic_index_list op).
  Proof. rewrite <- ready_map, map_map. apply map_ext. intros i. apply reindex_slot. Qed.

  Lemma NoDup_slots_app (l l' : list index) : NoDup (map slot l) -> NoDup (map slot l') -> (forall i j, In i l -> In j l' -> ix_type i <> ix_type j) ->
    NoDup (map slot (l ++ l')).
  Proof.
    intros N N' D. rewrite map_app. apply NoDup_app_intro; auto. intros p I I'. apply in_map_iff in I as (i & E & I), I' as (j & E' & J).
    apply (D i j I J). rewrite <- E' in E. injection E as _ E _. exact E.
  Qed.

  Lemma nodup_zcs : NoDup (map slot (zs ++ cs ++ ss)).
  Proof.
    rewrite slots_zcs, ready_list.
    repeat (apply NoDup_slots_app; [apply nodup_col| |]); try apply nodup_col; intros i j I J; rewrite ?in_app_iff, ?in_col in *; intuition congruence.
  Qed.

  Lemma count_map t up l : count_kind t up (map reindex l) = count_kind t up l.
  Proof. apply count_kind_slots. rewrite map_map. apply map_ext. intros i. apply reindex_slot. Qed.

  Lemma ready_arranged : arranged zs cs ss.
  Proof.
    constructor.
    - apply Forall_forall. intros j J. apply in_zcs in J as (i & F & _ & <-). apply reindex_printed, free_ok, F.
    - unfold zs. assert (H : forall i, In i (col Undotted ++ col Dotted) -> is_free (cop_erase op) i /\ lorentz_type (ix_type i)).
      { intros i I. rewrite in_app_iff, !in_col in I. unfold lorentz_type. tauto. }
      assert (N : NoDup (map slot (col Undotted ++ col Dotted))).
      { apply NoDup_slots_app; try apply nodup_col. intros i j I J. rewrite in_col in I, J. intuition congruence. }
      destruct (col Undotted ++ col Dotted) as [|i [|j l]]; [now left| |].
      + right. exists (reindex i). destruct (H i (or_introl eq_refl)) as [F T]. assert (Et : ix_type (reindex i) = ix_type i) by reflexivity. assert (Eu : ix_up (reindex i) = ix_up i) by reflexivity.
        split; [reflexivity|]. rewrite Et, Eu. split; [exact T|]. apply (rd_raised _ R i F). red. red in T. tauto.
      + exfalso. destruct (H i) as [Fi Ti]; [now left|]. destruct (H j) as [Fj Tj]; [right; now left|].
        cbn [map] in N. inversion N as [|? ? N1 _]; subst. apply N1. left. symmetry. now apply (rd_lorentz _ R).
    - intros j J. apply in_map_iff in J as (i & <- & I). apply in_col in I as [_ <-]. reflexivity.
    - intros j J. apply in_map_iff in J as (i & <- & I). apply in_col in I as [F T]. assert (Et : ix_type (reindex i) = ix_type i) by reflexivity. assert (Eu : ix_up (reindex i) = ix_up i) by reflexivity.
      rewrite Et, Eu. split; [exact T|]. apply (rd_raised _ R i F). red. tauto.
    - intros t up N. rewrite <- ready_map, count_map, count_kind_filter'. destruct (rd_few _ R t up N) as (n & Ln & Hn).
      rewrite (number_length _ _ _ _ _ Hn); [exact Ln|]. split.
      + apply NoDup_filter_map, NoDup_filter_map. rewrite <- slots_zcs. apply nodup_zcs.
      + intros i. rewrite !filter_In, Bool.eqb_true_iff. split.
        * intros [[I T] U]. apply itype_decides in T. split; [|split; auto]. rewrite ready_list, !in_app_iff, !in_col in I. tauto.
        * intros (F & T & U). split; [|exact U]. split; [|now apply itype_decides]. rewrite ready_list, !in_app_iff, !in_col. destruct (ix_type i); subst t; tauto.
  Qed.

  Lemma ready_fresh i j : In i (zs ++ ss) -> In j (zs ++ ss) -> slot (hat i) <> slot j.
  Proof.
    intros I J E.
    assert (X : forall k, In k (zs ++ ss) -> exists k', is_free (cop_erase op) k' /\ reindex k' = k).
    { intros k K. destruct (proj1 (in_zcs k)) as (k' & F & _ & Ek); [rewrite !in_app_iff in *; tauto|]. eauto. }
    destruct (X i I) as (i' & Fi & <-), (X j J) as (j' & Fj & <-). rewrite reindex_slot in E. injection E as E _ _.
    apply (rd_fresh _ R i' j' Fi (free_in_op _ _ Fj)).
    destruct (clean_at_iff i' (free_ok i' Fi)) as (r & G & Nm & Er). change (letter (ix_type i') :: tl (ix_name i') ++ lit "^" = ix_name j') in E. rewrite Nm in E. rewrite <- E, Nm. reflexivity.
  Qed.

  Lemma ready_text : join (lit " ") (map show_index (exotic_index_list op)) = join (lit " ") (map show_index (zs ++ cs ++ ss)).
  Proof. now rewrite <- ready_map, map_map. Qed.
End Ready.

(** ** The exotic field *)

Definition dotted (z : list index) : bool := match z with i :: _ => itype_eqb (ix_type i) Dotted | [] => false end.

Lemma text_head z c s : arranged z c s ->
  match join (lit " ") (map show_index (z ++ c ++ s)) with a :: _ => Ascii.eqb a "d" | [] => false end = dotted z.
Proof.
  intros A.
  assert (H : forall i l, match join (lit " ") (map show_index (i :: l)) with a :: _ => Ascii.eqb a "d" | [] => false end =
                          match show_index i with a :: _ => Ascii.eqb a "d" | [] => match l with [] => false | _ => false end end \/ show_index i = []).
  { intros i l. cbn [map join]. destruct (show_index i) as [|a r]; [now right|left]. destruct l; reflexivity. }
  assert (Hd : forall i, printed i -> exists a r, show_index i = a :: r /\ Ascii.eqb a "d" = (ix_up i && itype_eqb (ix_type i) Dotted)).
  { intros i (r & G & E). rewrite E, show_index_at. cbn [index_at ix_label ix_up ix_type]. destruct (ix_up i); cbn [app andb].
    - do 2 eexists. split; [reflexivity|]. now destruct (ix_type i).
    - do 2 eexists. split; [reflexivity|]. reflexivity. }
  destruct (arr_split _ _ _ A) as (Fz & Fc & Fs).
  destruct (ar_lorentz _ _ _ A) as [-> | (i & -> & T & U)].
  - cbn [app dotted]. destruct (c ++ s) as [|i l] eqn:E; [reflexivity|].
    assert (I : In i (c ++ s)) by (rewrite E; now left).
    assert (P : printed i) by (apply in_app_iff in I as [I|I]; [rewrite Forall_forall in Fc|rewrite Forall_forall in Fs]; auto).
    assert (Ty : ix_type i <> Dotted) by (apply in_app_iff in I as [I|I]; [rewrite (ar_colour _ _ _ A i I)|destruct (ar_isospin _ _ _ A i I) as [-> _]]; discriminate).
    destruct (Hd i P) as (a & r & Ea & Eq). destruct (H i l) as [X|X]; rewrite Ea in X; [|discriminate X]. rewrite X, Eq.
    destruct (itype_eqb (ix_type i) Dotted) eqn:Q; [apply itype_decides in Q; congruence|now rewrite andb_false_r].
  - cbn [app dotted]. inversion Fz as [|? ? P _]; subst. destruct (Hd i P) as (a & r & Ea & Eq).
    destruct (H i (c ++ s)) as [X|X]; rewrite Ea in X; [|discriminate X]. rewrite X, Eq, U. reflexivity.
Qed.

Lemma real_rep_ext l l' y : (forall up, count_kind Colour up l' = count_kind Colour (negb up) l) -> count_kind Isospin true l' = count_kind Isospin true l ->
  real_rep l' y = real_rep l y.
Proof.
  intros C I. unfold real_rep. rewrite !C, I. cbn [negb]. f_equal. f_equal. apply eq_true_iff_eq. split; intros H; apply nats_decides in H; apply nats_decides; injection H; congruence.
Qed.

Lemma isospin_only z c s : arranged z c s -> count_kind Isospin true (z ++ c ++ s) = List.length s.
Proof.
  intros A. rewrite <- (arr_by_isospin _ _ _ A) at 2. rewrite by_type_has. unfold count_kind. f_equal. apply filter_ext_in. intros i I.
  pose proof (arr_kinds _ _ _ A) as K. rewrite forallb_forall in K. specialize (K i I). unfold kinds_ok in K. unfold has_type.
  destruct (ix_type i) eqn:T; cbn in K |- *; try reflexivity. destruct (ix_up i); [reflexivity|discriminate K].
Qed.

Lemma arranged_lorentz i j c s : arranged [i] c s -> printed j -> lorentz_type (ix_type j) -> ix_up j = true -> arranged [j] c s.
Proof.
  intros A P T U. destruct (arr_split _ _ _ A) as (_ & Fc & Fs). constructor.
  - constructor; [exact P|]. apply Forall_app. auto.
  - right. eauto.
  - exact (ar_colour _ _ _ A).
  - exact (ar_isospin _ _ _ A).
  - intros t up N. pose proof (ar_few _ _ _ A t up N) as B. rewrite count_kind_app in B |- *.
    assert (L1 : forall k, count_kind t up [k] <= 1) by (intros k; rewrite count_kind_cons; cbn; destruct (_ && _); lia). specialize (L1 j).
    destruct (Nat.eq_dec (count_kind t up [j]) 0) as [E|E]; [lia|].
    assert (Tj : ix_type j = t).
    { rewrite count_kind_cons in E. cbn in E. destruct (itype_eqb (ix_type j) t) eqn:Q; [now apply itype_decides in Q|]. cbn in E. lia. }
    assert (Z : count_kind t up (c ++ s) = 0); [|lia]. clear - A T Tj.
    assert (H : forall k, In k (c ++ s) -> ix_type k <> t).
    { intros k K. apply in_app_iff in K as [K|K]; [rewrite (ar_colour _ _ _ A k K)|destruct (ar_isospin _ _ _ A k K) as [-> _]]; destruct T; congruence. }
    induction (c ++ s) as [|k l IH]; [reflexivity|]. rewrite count_kind_cons, IH by (intros; apply H; now right).
    destruct (itype_eqb (ix_type k) t) eqn:Q; [apply itype_decides in Q; destruct (H k); auto; now left|reflexivity].
Qed.

Lemma replace_back r : ~ In "u"%char r -> replace_char "u" "d" (replace_char "d" "u" r) = r.
Proof.
  intros N. unfold replace_char. rewrite map_map. rewrite <- (map_id r) at 2. apply map_ext_in. intros a Ia.
  destruct (Ascii.eqb_spec a "d") as [->|Nd]; [reflexivity|]. destruct (Ascii.eqb_spec a "u") as [->|]; [contradiction|reflexivity].
Qed.

Lemma map_flip_flip l : Forall printed l -> map flip (map flip l) = l.
Proof. intros F. rewrite map_map. rewrite <- (map_id l) at 2. apply map_ext_in. intros i I. rewrite Forall_forall in F. apply flip_flip; auto. Qed.

Lemma flip_types l : (forall i, In i l -> ix_type i = Colour) -> forall i, In i (map flip l) -> ix_type i = Colour.
Proof. intros H i I. apply in_map_iff in I as (j & <- & J). exact (H j J). Qed.

Lemma no_space i : printed i -> ~ In " "%char (show_index i).
Proof. intros P. rewrite <- printed_show by exact P. apply printed_clean in P. apply P. Qed.

Lemma mapM_shown l : Forall printed l -> mapM (fun s0 => do i <- new_index s0; conj_index i) (map show_index l) = mapM conj_index l.
Proof. induction 1 as [|i l Pi F IH]; [reflexivity|]. cbn [map mapM]. rewrite (printed_new i Pi), IH. reflexivity. Qed.

Definition exotic_class (z : list index) (l : list index) (y : Qc) : cls := class_for z (real_rep l y) None.

Lemma exotic_ok z c s y b label tex : arranged z c s -> to_tex label = Ok tex ->
  (forall i, In i z -> ix_type i = Dotted -> ~ In "u"%char (ix_name i)) ->
  exists ind x e0 label' b' conj lx lab,
    let text := join (lit " ") (map show_index (z ++ c ++ s)) in
    let k := exotic_class z (z ++ c ++ s) y in
    let e := mkCF k (made label' (z ++ c ++ s) (two y b') conj (class_comm k) lx (sym_of (z ++ c ++ s)) lab) in
    (if dotted z then conj_index_string text else Ok text) = Ok ind /\
    mk_ifield (mkIargs label (AStr ind) (Some (two y b)) false None (lit "0") None 1 0 None) = Ok x /\
    cons_completion_field x None = Ok e0 /\
    (if dotted z then conj_indices e0 else Ok e0) = Ok e /\
    b' = (if dotted z && real_rep (z ++ c ++ s) y then - b else b)%Qc /\ label' = label ++ (if dotted z then [dagger] else []).
Proof.
  intros A Tx Du. destruct (arr_split _ _ _ A) as (Fz & Fc & Fs). cbv zeta. destruct (dotted z) eqn:D.
  - destruct (ar_lorentz _ _ _ A) as [-> | (d & -> & T & U)]; [discriminate D|]. cbn [dotted] in D. apply itype_decides in D.
    inversion Fz as [|? ? P _]; subst. destruct P as (r & G & Ed). rewrite D, U in Ed.
    specialize (Du d (or_introl eq_refl) D).
    set (u := index_at Undotted (replace_char "d" "u" r) true).
    assert (Gu : good (replace_char "d" "u" r)) by (apply replace_good; [reflexivity|discriminate|exact G]).
    assert (Pu : printed u) by (exists (replace_char "d" "u" r); split; [exact Gu|reflexivity]).
    assert (Nu : ~ In "u"%char r) by (rewrite Ed in Du; intros I; apply Du; now right).
    assert (Cd : conj_index d = Ok u) by (rewrite Ed; apply (conj_lorentz_at Dotted); [red; auto|exact G]).
    assert (Cu : conj_index u = Ok d).
    { unfold u. rewrite (conj_lorentz_at Undotted) by (try exact Gu; red; auto). cbn [letter conj_type]. rewrite (replace_back r Nu), Ed. reflexivity. }
    pose proof (arranged_flip _ _ _ (arranged_lorentz d u c s A Pu (or_introl eq_refl) eq_refl)) as A1.
    assert (Sp : split_on " "%char (join (lit " ") (map show_index ([d] ++ c ++ s))) = map show_index ([d] ++ c ++ s)).
    { apply (split_join " "%char); [discriminate|]. apply Forall_map. eapply Forall_impl; [|exact (ar_printed _ _ _ A)]. exact no_space. }
    assert (M1 : mapM conj_index ([d] ++ c ++ s) = Ok ([u] ++ map flip c ++ s)).
    { apply mapM_app_ok; [cbn [mapM]; now rewrite Cd|]. apply mapM_app_ok; [apply conj_colours; [exact Fc|exact (ar_colour _ _ _ A)]|].
      apply conj_isospins. intros i I. apply (ar_isospin _ _ _ A i I). }
    assert (M2 : mapM conj_index ([u] ++ map flip c ++ s) = Ok ([d] ++ c ++ s)).
    { apply mapM_app_ok; [cbn [mapM]; now rewrite Cu|]. apply mapM_app_ok.
      - rewrite conj_colours; [now rewrite map_flip_flip| |apply flip_types, (ar_colour _ _ _ A)].
        apply Forall_map. eapply Forall_impl; [|exact Fc]. exact flip_printed.
      - apply conj_isospins. intros i I. apply (ar_isospin _ _ _ A i I). }
    assert (Ci : conj_index_string (join (lit " ") (map show_index ([d] ++ c ++ s))) = Ok (join (lit " ") (map show_index ([u] ++ map flip c ++ s)))).
    { unfold conj_index_string. rewrite Sp.
      assert (X : mapM (fun s0 => do i <- new_index s0; conj_index i) (map show_index ([d] ++ c ++ s)) = mapM conj_index ([d] ++ c ++ s)).
      { apply mapM_shown, (ar_printed _ _ _ A). }
      rewrite X, M1. reflexivity. }
    assert (Rr : real_rep ([u] ++ map flip c ++ s) y = real_rep ([d] ++ c ++ s) y).
    { apply real_rep_ext.
      - intros up. rewrite (colour_none_z _ _ _ _ A1), (colour_none_z _ _ _ _ A). apply count_flip, (ar_colour _ _ _ A).
      - now rewrite (isospin_only _ _ _ A1), (isospin_only _ _ _ A). }
    pose proof (mk_made label (AStr (join (lit " ") (map show_index ([u] ++ map flip c ++ s)))) (Some (two y b)) false None (lit "0") None tex [u] (map flip c) s A1
                  (printed_tokens _ (ar_printed _ _ _ A1)) Tx ltac:(discriminate)) as Mk. rewrite two_or in Mk.
    destruct (cons_ok label [u] (map flip c) s y b false (lit "0") tex (sym_of ([u] ++ map flip c ++ s))
                (arg_after (AStr (join (lit " ") (map show_index ([u] ++ map flip c ++ s))))) None A1) as (conj & lab & Co & Hc).
    rewrite Rr in Co, Hc.
    assert (Cj : conj = false). { apply Hc. unfold class_for. intros X. destruct (real_rep ([d] ++ c ++ s) y); discriminate X. } subst conj. clear Hc.
    assert (Tj : forall ch cj cm lx m lb, conj_indices_text (made label ([u] ++ map flip c ++ s) ch cj cm lx m lb) = Ok (join (lit " ") (map ix_label ([d] ++ c ++ s)))).
    { intros. unfold conj_indices_text. cbn [i_indices made]. now rewrite M2. }
    assert (At : arg_indices (arg_of (TStr (join (lit " ") (map ix_label ([d] ++ c ++ s))))) = Ok ([d] ++ c ++ s)).
    { cbn [arg_of arg_indices]. apply clean_tokens. eapply Forall_impl; [exact printed_clean|]. apply (ar_printed _ _ _ A). }
    assert (Rk : forall m, Some (sym_of ([u] ++ map flip c ++ s)) = Some m -> rank m = List.length ([d] ++ c ++ s)).
    { intros m Em. assert (X : m = sym_of ([u] ++ map flip c ++ s)) by congruence. rewrite X, (arr_rank _ _ _ A1), !app_length, map_length. reflexivity. }
    destruct (to_tex_app label [dagger] tex Tx) as (tex' & Tx').
    unfold exotic_class, class_for. destruct (real_rep ([d] ++ c ++ s) y) eqn:R; cbn [andb].
    + do 8 eexists. split; [exact Ci|]. split; [exact Mk|]. split; [exact Co|]. split; [|split; reflexivity].
      unfold conj_indices. cbn [class_for cf_class]. unfold conj_typed. cbn [cf_class cf_if]. rewrite Tj.
      cbn [bind f_charges f_label f_latex f_is_conj f_symmetry i_field made conj_label]. rewrite two_neg.
      apply real_colour in R as [Rc ->].
      rewrite (mk_typed_ok _ _ _ _ (Some tex) tex _ _ [d] c s A At eq_refl); [|discriminate|exact Rk|].
      * rewrite two_or. replace (- 0)%Qc with 0%Qc by (apply Qc_is_canon; reflexivity). reflexivity.
      * intros _. split; [exact Rc|]. intros cc [= <-] y0 Y. cbn in Y. injection Y as <-. apply Qc_is_canon. reflexivity.
    + do 8 eexists. split; [exact Ci|]. split; [exact Mk|]. split; [exact Co|]. split; [|split; reflexivity].
      unfold conj_indices. cbn [class_for cf_class cf_if]. rewrite Tj.
      cbn [bind f_charges f_label f_latex f_is_conj f_symmetry i_field made conj_label].
      rewrite (mk_typed_ok _ _ _ _ None tex' _ _ [d] c s A At Tx'); [|discriminate|exact Rk|intros [K|K]; discriminate K].
      rewrite two_or. reflexivity.
  - pose proof (mk_made label (AStr (join (lit " ") (map show_index (z ++ c ++ s)))) (Some (two y b)) false None (lit "0") None tex z c s A
                  (printed_tokens _ (ar_printed _ _ _ A)) Tx ltac:(discriminate)) as Mk. rewrite two_or in Mk.
    destruct (cons_ok label z c s y b false (lit "0") tex (sym_of (z ++ c ++ s))
                (arg_after (AStr (join (lit " ") (map show_index (z ++ c ++ s))))) None A) as (conj & lab & Co & Hc).
    do 8 eexists. split; [reflexivity|]. split; [exact Mk|]. split; [exact Co|]. split; [reflexivity|]. rewrite app_nil_r. auto.
Qed.

(** ** Charges and symbols *)

Lemma standard_two x : standard_charges x -> cf_charges x = two (hypercharge x) (baryon x).
Proof. intros H. exact H. Qed.

Lemma fold_pair fs : forall y b, Forall standard_charges fs ->
  fold_left (fun acc d => combine (keys acc) (map (fun p : (str * Qc) * (str * Qc) => (snd (fst p) + snd (snd p))%Qc) (combine acc d))) (map cf_charges fs) (two y b) =
  two (y + sum_of hypercharge fs)%Qc (b + sum_of baryon fs)%Qc.
Proof.
  induction fs as [|x fs IH]; intros y b F; cbn [map fold_left sum_of fold_right].
  - unfold two. f_equal; [|f_equal]; f_equal; ring.
  - inversion F as [|? ? Hx F']; subst. rewrite (standard_two x Hx).
    change (combine (keys (two y b)) _) with (two (y + hypercharge x)%Qc (b + baryon x)%Qc). rewrite IH by exact F'.
    unfold two. f_equal; [|f_equal]; f_equal; fold (sum_of hypercharge fs) (sum_of baryon fs); ring.
Qed.

Lemma sum_charges_ok fs : fs <> [] -> Forall standard_charges fs -> sum_charges fs = Ok (two (sum_of hypercharge fs) (sum_of baryon fs)).
Proof.
  intros N F. destruct fs as [|x fs]; [congruence|]. inversion F as [|? ? Hx F']; subst. unfold sum_charges. cbn [map].
  assert (M : exists u, mapM (fun d => assert_ (List.length d =? List.length (cf_charges x))) (map cf_charges fs) = Ok u).
  { rewrite (standard_two x Hx). clear - F'. induction F' as [|y fs Hy F IH]; [eexists; reflexivity|]. destruct IH as (u & E). cbn [map mapM].
    rewrite (standard_two y Hy). cbn [two List.length Nat.eqb assert_ bind]. unfold two in E. cbn [List.length] in E. rewrite E. eexists. reflexivity. }
  destruct M as (u & ->). cbn [bind]. rewrite (standard_two x Hx) at 1. rewrite (fold_pair fs _ _ F'). reflexivity.
Qed.

Lemma sum_of_perm q fs fs' : Permutation fs fs' -> sum_of q fs = sum_of q fs'.
Proof.
  induction 1 as [|x l l' P IH|x y l|l l' l'' P IH P' IH']; cbn [sum_of fold_right] in *; auto.
  - unfold sum_of in IH. now rewrite IH.
  - ring.
  - congruence.
Qed.

Lemma field_of_ok x : one_or_three x -> exists g, field_of (cf_if x) = Ok g.
Proof.
  intros [H|H]; unfold field_of, mk_field; cbn [bind]; rewrite H; cbn [negb andb Nat.eqb]; eexists; reflexivity.
Qed.

Lemma fields_of_ok fs : Forall one_or_three fs -> exists gs, mapM (fun x => field_of (cf_if x)) fs = Ok gs.
Proof.
  induction 1 as [|x fs Hx F (gs & E)]; [eexists; reflexivity|]. destruct (field_of_ok x Hx) as (g & Eg). cbn [mapM]. rewrite Eg, E. eexists. reflexivity.
Qed.

Lemma dset_new {K V} (eqb : K -> K -> bool) (d : list (K * V)) k v : dget eqb d k = None -> dset eqb d k v = d ++ [(k, v)].
Proof.
  induction d as [|[k' v'] d IH]; [reflexivity|]. cbn [dget dset app]. destruct (eqb k k'); [discriminate|]. intros E. now rewrite (IH E).
Qed.

Lemma dget_member {K V} (eqb : K -> K -> bool) (d : list (K * V)) k v : dget eqb d k = Some v -> In v (map snd d).
Proof.
  induction d as [|[k' v'] d IH]; [discriminate|]. cbn [dget map snd]. destruct (eqb k k'); [intros [= ->]; now left|right; auto].
Qed.

Lemma pick_ok fermion parents st : supplied st -> exists s st' tex, pick_symbol fermion parents st = Ok (s, st') /\ to_tex s = Ok tex /\
  ((st' = st /\ In s (map snd (st_dict st))) \/
   (st_dict st' = st_dict st ++ [(parents, s)] /\
    if fermion then st_fermion st = s :: st_fermion st' /\ st_boson st' = st_boson st
    else st_boson st = s :: st_boson st' /\ st_fermion st' = st_fermion st)).
Proof.
  intros (Nf & Nb & F). rewrite Forall_forall in F. unfold pick_symbol. destruct (dget _ (st_dict st) parents) as [s|] eqn:D.
  - apply dget_member in D. destruct (F s) as (tex & T); [rewrite !in_app_iff; auto|]. do 3 eexists. split; [reflexivity|]. split; [exact T|]. left. auto.
  - destruct fermion.
    + destruct (st_fermion st) as [|s r] eqn:E; [congruence|]. destruct (F s) as (tex & T); [rewrite in_app_iff; left; now left|].
      do 3 eexists. split; [reflexivity|]. split; [exact T|]. right. cbn [st_dict st_fermion st_boson]. split; [now apply dset_new|auto].
    + destruct (st_boson st) as [|s r] eqn:E; [congruence|]. destruct (F s) as (tex & T); [rewrite !in_app_iff; right; left; now left|].
      do 3 eexists. split; [reflexivity|]. split; [exact T|]. right. cbn [st_dict st_fermion st_boson]. split; [now apply dset_new|auto].
Qed.

(** ** The interaction term *)

Lemma cop_perm_fields l l' : Permutation l l' -> Permutation (cfields l) (cfields l').
Proof. apply Permutation_flat_map. Qed.

Lemma cop_perm_symbols l l' : Permutation l l' -> Permutation (csymbols l) (csymbols l').
Proof. apply Permutation_flat_map. Qed.

Lemma cop_perm_indices l l' : Permutation l l' -> Permutation (op_indices (cop_erase l)) (op_indices (cop_erase l')).
Proof. intros P. apply op_indices_perm. now apply Permutation_map. Qed.

Lemma cfields_syms es : cfields (map KSym es) = [].
Proof. induction es as [|e es IH]; [reflexivity|exact IH]. Qed.

Lemma csymbols_syms es : csymbols (map KSym es) = es.
Proof. induction es as [|e es IH]; [reflexivity|]. cbn. f_equal. exact IH. Qed.

Lemma op_indices_app a b : op_indices (cop_erase (a ++ b)) = op_indices (cop_erase a) ++ op_indices (cop_erase b).
Proof. unfold cop_erase, op_indices. now rewrite map_app, flat_map_app. Qed.

Lemma op_indices_syms es : op_indices (cop_erase (map KSym es)) = flat_map symbol_indices es.
Proof. induction es as [|e es IH]; [reflexivity|]. cbn. f_equal. exact IH. Qed.

Lemma term_eq op p es : fold_left c_mul (KField p :: map KSym es) op = cnormalise (op ++ KField p :: map KSym es).
Proof. cbn [fold_left]. unfold c_mul at 2. rewrite fold_c_mul, <- app_assoc. reflexivity. Qed.

Lemma in_syms z s j : In j (flat_map symbol_indices (map hat_eps (z ++ s))) <-> exists i, In i (z ++ s) /\ (j = flip (hat i) \/ j = flip i).
Proof.
  rewrite in_flat_map. split.
  - intros (e & He & J). apply in_map_iff in He as (i & <- & I). exists i. split; [exact I|]. cbn in J. intuition.
  - intros (i & I & J). exists (hat_eps i). split; [now apply in_map|]. cbn. intuition.
Qed.

Lemma hat_inj i j : printed i -> printed j -> slot (hat i) = slot (hat j) -> slot i = slot j \/ ix_up i <> ix_up j.
Proof.
  intros (r & G & Ei) (r' & G' & Ej) E. destruct (Bool.bool_dec (ix_up i) (ix_up j)) as [U|U]; [|now right]. left.
  rewrite Ei, Ej in E |- *. unfold slot, hat in E |- *. cbn [index_at ix_name ix_type ix_up tl] in E |- *. injection E as _ E T. rewrite T, U in *.
  apply app_inv_tail in E. now subst.
Qed.

Lemma flip_inj i j : printed i -> printed j -> slot (flip i) = slot (flip j) -> i = j.
Proof.
  intros Pi Pj E. assert (X : flip i = flip j) by (apply printed_eq; auto using flip_printed). rewrite <- (flip_flip i Pi), X. now apply flip_flip.
Qed.

Lemma NoDup_map_inj {A B} (f g : A -> B) l : (forall x y, In x l -> In y l -> g x = g y -> f x = f y) -> NoDup (map f l) -> NoDup (map g l).
Proof.
  intros H N. induction l as [|x l IH]; [constructor|]. cbn [map] in *. inversion N as [|? ? Nx N']; subst. constructor.
  - intros I. apply in_map_iff in I as (y & E & Y). apply Nx. rewrite (H x y); [now apply in_map|now left|now right|now symmetry].
  - apply IH; [|exact N']. intros a b Ia Ib. apply H; now right.
Qed.

Lemma name_of_slot i j : slot i = slot j -> ix_name i = ix_name j.
Proof. intros E. exact (f_equal (fun q => fst (fst q)) E). Qed.

Section Term.
  Variable op : cop.
  Hypothesis R : ready op.
  Variable p : cfield.
  Let z := zs op.
  Let c := cs op.
  Let s := ss op.
  Hypothesis Hp : indices_of p = map hat z ++ map flip c ++ map hat s.
  Let es := map hat_eps (z ++ s).
  Let T := op ++ KField p :: map KSym es.

  Lemma term_indices : op_indices (cop_erase T) = op_indices (cop_erase op) ++ indices_of p ++ flat_map symbol_indices es.
  Proof.
    unfold T. rewrite op_indices_app. f_equal. change (KField p :: map KSym es) with ([KField p] ++ map KSym es). rewrite op_indices_app, op_indices_syms.
    cbn. now rewrite app_nil_r.
  Qed.

  Lemma zcs_printed i : In i (z ++ c ++ s) -> printed i.
  Proof. pose proof (ar_printed _ _ _ (ready_arranged op R)) as F. rewrite Forall_forall in F. apply F. Qed.

  Lemma zs_printed i : In i (z ++ s) -> printed i /\ ix_up i = true /\ su2_type (ix_type i).
  Proof. apply (su2_of _ _ _ (ready_arranged op R)). Qed.

  Lemma zs_in i : In i (z ++ s) -> In i (z ++ c ++ s).
  Proof. rewrite !in_app_iff. tauto. Qed.

  Lemma zcs_free i : In i (z ++ c ++ s) -> exists i', is_free (cop_erase op) i' /\ ix_type i' <> Generation /\ slot i' = slot i.
  Proof. intros I. apply (in_zcs op R) in I as (i' & F & N & <-). exists i'. auto. Qed.

  (** the new indices of the term: the lowered ones, their counterparts, and the counterparts of the free indices *)
  Definition new_indices : list index := map hat (z ++ s) ++ map flip (map hat (z ++ s)) ++ map flip (z ++ c ++ s).

  Lemma new_perm : Permutation (indices_of p ++ flat_map symbol_indices es) new_indices.
  Proof.
    rewrite Hp. unfold new_indices, es. assert (S : Permutation (flat_map symbol_indices (map hat_eps (z ++ s))) (map flip (map hat (z ++ s)) ++ map flip (z ++ s))).
    { clear. induction (z ++ s) as [|i l IH]; [constructor|]. cbn [map flat_map hat_eps symbol_indices app]. constructor.
      rewrite IH. apply Permutation_middle. }
    rewrite S. rewrite !map_app, <- !app_assoc.
    apply Permutation_app_head. do 4 (rewrite Permutation_app_swap_app; apply Permutation_app_head). reflexivity.
  Qed.

  Lemma term_perm : Permutation (op_indices (cop_erase T)) (op_indices (cop_erase op) ++ new_indices).
  Proof. rewrite term_indices. apply Permutation_app_head, new_perm. Qed.

  Lemma in_new j : In j new_indices <-> (exists i, In i (z ++ s) /\ (j = hat i \/ j = flip (hat i))) \/ exists i, In i (z ++ c ++ s) /\ j = flip i.
  Proof.
    unfold new_indices. rewrite map_map, !in_app_iff, !in_map_iff. split.
    - intros [(i & E & I)|[(i & E & I)|(i & E & I)]]; [left; exists i; auto|left; exists i; auto|right; exists i; auto].
    - intros [(i & I & [E|E])|(i & I & E)]; [left|right; left|right; right]; exists i; auto.
  Qed.

  Lemma hat_name i : In i (z ++ s) -> forall j, In j (op_indices (cop_erase op)) -> ix_name j <> ix_name (hat i).
  Proof.
    intros I j J. destruct (zcs_free i (zs_in i I)) as (i' & F & _ & E). destruct (zs_printed i I) as ((r & G & Ei) & _).
    assert (X : ix_name (hat i) = ix_name i' ++ lit "^"); [|rewrite X; now apply (rd_fresh _ R)].
    injection E as E _ _. rewrite E, Ei. reflexivity.
  Qed.

  Lemma term_free i : is_free (cop_erase T) i <-> is_free (cop_erase op) i /\ ix_type i = Generation.
  Proof.
    assert (In_T : forall j, In j (op_indices (cop_erase T)) <-> In j (op_indices (cop_erase op)) \/ In j new_indices).
    { intros j. rewrite <- in_app_iff. split; apply Permutation_in; [|apply Permutation_sym]; apply term_perm. }
    assert (Cp : forall a b, counterpart a b -> counterpart b a) by (intros a b (H1 & H2 & H3); red; rewrite H1, H2, H3, negb_involutive; auto).
    split.
    - intros [I F]. apply In_T in I as [I|I].
      + assert (Fo : is_free (cop_erase op) i) by (split; [exact I|intros j J; apply F, In_T; now left]). split; [exact Fo|].
        destruct (itype_eqb (ix_type i) Generation) eqn:Q; [now apply itype_decides in Q|]. exfalso.
        assert (Ng : ix_type i <> Generation) by (intros X; rewrite X in Q; discriminate Q).
        assert (Iz : In (reindex i) (z ++ c ++ s)) by (apply (in_zcs op R); exists i; auto).
        apply (F (flip (reindex i))); [apply In_T; right; apply in_new; right; eauto|].
        destruct (flip_counterpart _ (zcs_printed _ Iz)) as (H1 & H2 & H3). repeat split; assumption.
      + exfalso. apply in_new in I as [(k & K & [-> | ->])|(k & K & ->)].
        * destruct (zs_printed k K) as (P & _). apply (F (flip (hat k))); [apply In_T; right; apply in_new; left; eauto|apply flip_counterpart, hat_printed, P].
        * destruct (zs_printed k K) as (P & _). apply (F (hat k)); [apply In_T; right; apply in_new; left; eauto|apply Cp, flip_counterpart, hat_printed, P].
        * destruct (zcs_free k K) as (k' & Fk & _ & E). apply (F k'); [apply In_T; left; apply Fk|].
          apply Cp. destruct (flip_counterpart k (zcs_printed k K)) as (H1 & H2 & H3). injection E as E1 E2 E3. red. rewrite E1, E2, E3. auto.
    - intros [[I F] G]. split; [apply In_T; now left|]. intros j J C. apply In_T in J as [J|J]; [now apply (F j J)|].
      destruct C as (_ & Tj & _). rewrite G in Tj. apply in_new in J as [(k & K & J)|(k & K & ->)].
      + destruct (zs_printed k K) as (_ & _ & S). destruct J as [-> | ->]; cbn in Tj; rewrite Tj in S; destruct S as [S|[S|S]]; discriminate S.
      + cbn in Tj. destruct (zcs_free k K) as (k' & _ & N & E). injection E as _ E _. congruence.
  Qed.

  Lemma zcs_nodup : NoDup (map slot (z ++ c ++ s)).
  Proof. exact (nodup_zcs op R). Qed.

  Lemma zs_nodup : NoDup (map slot (z ++ s)).
  Proof.
    pose proof zcs_nodup as N. rewrite !map_app in *.
    assert (P : Permutation (map slot z ++ map slot c ++ map slot s) (map slot c ++ map slot z ++ map slot s)) by apply Permutation_app_swap_app.
    apply (Permutation_NoDup P) in N. clear P. induction (map slot c) as [|q l IH]; [exact N|]. apply IH. now inversion N.
  Qed.

  Lemma term_proper : proper_op (cop_erase T).
  Proof.
    red. eapply Permutation_NoDup; [apply Permutation_sym, Permutation_map, term_perm|]. rewrite map_app. apply NoDup_app_intro; [exact (rd_proper _ R)| |].
    - unfold new_indices. rewrite map_app. apply NoDup_app_intro; [| |].
      + rewrite map_map. eapply (NoDup_map_inj slot); [|exact zs_nodup]. intros i j I J E.
        destruct (zs_printed i I) as (Pi & Ui & _), (zs_printed j J) as (Pj & Uj & _). destruct (hat_inj i j Pi Pj E) as [X|X]; [exact X|congruence].
      + rewrite map_app. apply NoDup_app_intro.
        * rewrite !map_map. eapply (NoDup_map_inj slot); [|exact zs_nodup]. intros i j I J E.
          destruct (zs_printed i I) as (Pi & Ui & _), (zs_printed j J) as (Pj & Uj & _).
          apply flip_inj in E; auto using hat_printed. assert (E' : slot (hat i) = slot (hat j)) by congruence. destruct (hat_inj i j Pi Pj E') as [X|X]; [exact X|congruence].
        * rewrite map_map. eapply (NoDup_map_inj slot); [|exact zcs_nodup]. intros i j I J E. f_equal. apply flip_inj; auto using zcs_printed.
        * intros q I J. rewrite !map_map in I. apply in_map_iff in I as (i & <- & I). apply in_map_iff in J as (j' & E & J). apply in_map_iff in J as (j & <- & J).
          destruct (zcs_free j J) as (k & Fk & _ & Ek). apply (hat_name i I k (free_in_op _ _ Fk)). injection Ek as -> _ _.
          destruct (flip_counterpart j (zcs_printed j J)) as (N1 & _). rewrite <- N1. apply name_of_slot in E. rewrite E. reflexivity.
      + intros q I J. rewrite map_map in I. apply in_map_iff in I as (i & <- & I). apply in_map_iff in J as (j' & E & J). apply in_app_iff in J as [J|J].
        * rewrite map_map in J. apply in_map_iff in J as (j & <- & J). apply (f_equal snd) in E. discriminate E.
        * apply in_map_iff in J as (j & <- & J). destruct (zcs_free j J) as (k & Fk & _ & Ek). apply (hat_name i I k (free_in_op _ _ Fk)). injection Ek as -> _ _.
          destruct (flip_counterpart j (zcs_printed j J)) as (N1 & _). rewrite <- N1. apply name_of_slot in E. rewrite E. reflexivity.
    - intros q I J. apply in_map_iff in I as (i & <- & I). apply in_map_iff in J as (j & E & J). apply in_new in J as [(k & K & [-> | ->])|(k & K & ->)].
      + apply (hat_name k K i I). apply name_of_slot in E. rewrite <- E. reflexivity.
      + apply (hat_name k K i I). apply name_of_slot in E. rewrite <- E. reflexivity.
      + destruct (zcs_free k K) as (k' & Fk & _ & Ek). destruct Fk as [_ Fk]. apply (Fk i I). destruct (flip_counterpart k (zcs_printed k K)) as (H1 & H2 & H3).
        injection Ek as E1 E2 E3. injection E as F1 F2 F3. red. rewrite E1, E2, E3, <- F1, <- F2, <- F3. auto.
  Qed.
End Term.

Lemma singlet_ok t : cfields t <> [] -> Forall standard_charges (cfields t) -> singlet t -> check_singlet t = Ok tt.
Proof.
  intros N F [Y G]. unfold check_singlet.
  assert (C : check_charges t [lit "3b"] = Ok tt).
  { unfold check_charges. destruct (cfields t) as [|x fs] eqn:E; [congruence|]. rewrite <- E in F |- *.
    assert (Hx : standard_charges x) by (rewrite E in F; now inversion F). rewrite (standard_two x Hx). cbn [keys two map fst foldM].
    change (mem_by str_eqb (lit "y") [lit "3b"]) with false. change (mem_by str_eqb (lit "3b") [lit "3b"]) with true. cbv iota.
    assert (M : mapM (fun y => dgetM str_eqb (cf_charges y) (lit "y")) (cfields t) = Ok (map hypercharge (cfields t))).
    { clear - F. induction F as [|y fs Hy F IH]; [reflexivity|]. cbn [mapM map]. rewrite IH. rewrite (standard_two y Hy). reflexivity. }
    rewrite M. cbn [bind]. rewrite <- E in Y.
    assert (S : forall l a, fold_left Qcplus (map hypercharge l) a = (a + sum_of hypercharge l)%Qc).
    { clear. induction l as [|y l IH]; intros a; cbn [map fold_left sum_of fold_right]; [ring|]. rewrite IH. unfold sum_of. ring. }
    rewrite S, Y. destruct (Qc_eq_dec _ 0) as [_|X]; [reflexivity|]. destruct X. apply Qc_is_canon. reflexivity. }
  rewrite C. cbn [bind].
  assert (H : forall i, In i (free_indices (cop_erase t)) -> is_generation i = true).
  { intros i I. apply free_indices_spec in I. apply G in I. unfold is_generation. now rewrite I. }
  induction (free_indices (cop_erase t)) as [|i l IH]; [reflexivity|]. cbn [foldM]. rewrite H by now left. cbn [assert_ bind]. apply IH. intros j J. apply H. now right.
Qed.

Lemma made_standard k label l y b conj cm lx m lab : standard_charges (mkCF k (made label l (two y b) conj cm lx m lab)) /\
  hypercharge (mkCF k (made label l (two y b) conj cm lx m lab)) = y /\ baryon (mkCF k (made label l (two y b) conj cm lx m lab)) = b.
Proof. repeat split. Qed.

Lemma made_legit k label z c s ch conj cm lx m lab : arranged z c s -> legit (mkCF k (made label (z ++ c ++ s) ch conj cm lx m lab)).
Proof.
  intros A. unfold legit, indices_of. cbn [cf_if i_indices i_field f_dynkin made]. split; [|split; [|split]].
  - eapply Forall_impl; [exact printed_clean|]. apply (ar_printed _ _ _ A).
  - intros i I S. pose proof (arr_kinds _ _ _ A) as K. rewrite forallb_forall in K. specialize (K i I). unfold kinds_ok in K.
    destruct (ix_up i); [reflexivity|]. destruct S as [S|[S|S]]; rewrite S in K; discriminate K.
  - exact (ar_few _ _ _ A).
  - apply (arr_dynkin _ _ _ A).
Qed.

Lemma real_rep_iff x y l : indices_of x = l -> hypercharge x = y -> real_rep l y = true <-> real_irrep x.
Proof.
  intros <- <-. unfold real_rep, real_irrep. rewrite !andb_true_iff, Nat.eqb_eq. split.
  - intros [[C I] Y]. apply nats_decides in C. split; [congruence|]. split; [|now destruct (Qc_eq_dec (hypercharge x) 0)].
    set (n := count_kind Isospin true (indices_of x)) in *. exists (n / 2). pose proof (Nat.div_mod n 2 ltac:(lia)). lia.
  - intros (C & I & ->). split; [split|].
    + apply nats_decides. now rewrite C.
    + destruct I as (n & ->). rewrite Nat.mul_comm. now apply Nat.mod_mul.
    + destruct (Qc_eq_dec 0 0) as [_|X]; [reflexivity|now destruct X].
Qed.

Lemma right_class_ok z c s x : arranged z c s -> indices_of x = z ++ c ++ s -> cf_class x = exotic_class z (z ++ c ++ s) (hypercharge x) -> right_class x.
Proof.
  intros A I K. unfold right_class. pose proof (real_rep_iff x _ _ I eq_refl) as Re. pose proof (arr_lorentz_counts _ _ _ A) as L.
  unfold fermion, boson, scalar. rewrite I in *. rewrite L. unfold exotic_class, class_for in K.
  destruct (ar_lorentz _ _ _ A) as [Z|(i & Z & _)]; rewrite Z in *; cbn [List.length] in L |- *;
    destruct (real_rep _ (hypercharge x)) eqn:Rr; rewrite K; (split; [|try (apply Re; reflexivity); intros X; apply Re in X; discriminate X]); try lia; intros (n & Hn); lia.
Qed.

Lemma labels_ok fs : forall gs, mapM (fun y => field_of (cf_if y)) fs = Ok gs -> map f_label gs = map bare_label fs.
Proof.
  induction fs as [|x fs IH]; intros gs E; [injection E as <-; reflexivity|]. cbn [mapM] in E. apply bind_ok in E as (g & Eg & E). apply bind_ok in E as (gs' & Egs & E).
  injection E as <-. cbn [map]. rewrite (IH _ Egs). f_equal. unfold field_of, mk_field in Eg. cbn [bind] in Eg.
  destruct (_ && _) in Eg; [discriminate Eg|]. injection Eg as <-. reflexivity.
Qed.

Lemma no_repeats_iff l : no_repeats l = true <-> NoDup l.
Proof.
  unfold no_repeats. rewrite Nat.eqb_eq. split.
  - intros E. assert (N : NoDup (nodup_by str_eqb l)) by apply (nodup_by_NoDup str_decides).
    eapply NoDup_incl_NoDup; [exact N|lia|]. intros x X. exact (proj1 (nodup_by_In str_decides x l) X).
  - intros N. apply Nat.le_antisymm; apply NoDup_incl_length; auto; try apply (nodup_by_NoDup str_decides); intros x X; [exact (proj1 (nodup_by_In str_decides x l) X)|exact (proj2 (nodup_by_In str_decides x l) X)].
Qed.

Lemma no_repeats_not l : no_repeats l = false <-> ~ NoDup l.
Proof. rewrite <- no_repeats_iff. destruct (no_repeats l); split; congruence. Qed.

Lemma mirror_counts z c s : arranged z c s ->
  (forall t up, su2_type t -> count_kind t up (map hat z ++ map flip c ++ map hat s) = count_kind t up (z ++ c ++ s)) /\
  (forall up, count_kind Colour up (map hat z ++ map flip c ++ map hat s) = count_kind Colour (negb up) (z ++ c ++ s)).
Proof.
  intros A.
  assert (Hz : forall l t up, (forall i, In i l -> ix_up i = true) -> count_kind t up (map hat l) = count_kind t up l).
  { intros l t up. induction l as [|i l IH]; intros U; [reflexivity|]. cbn [map]. rewrite !count_kind_cons, IH by (intros j J; apply U; now right).
    change (ix_type (hat i)) with (ix_type i). change (ix_up (hat i)) with true. now rewrite (U i (or_introl eq_refl)). }
  assert (Hc : forall l up, count_kind Colour up (map flip l) = count_kind Colour (negb up) l).
  { intros l up. induction l as [|i l IH]; [reflexivity|]. cbn [map]. rewrite !count_kind_cons, IH. change (ix_type (flip i)) with (ix_type i). change (ix_up (flip i)) with (negb (ix_up i)).
    destruct (ix_type i), (ix_up i), up; reflexivity. }
  assert (Nc : forall t up l, (forall i, In i l -> ix_type i <> t) -> count_kind t up l = 0) by (intros; now apply ProofsField.count_kind_none).
  assert (Uz : forall i, In i z -> ix_up i = true /\ ix_type i <> Colour).
  { intros i I. destruct (ar_lorentz _ _ _ A) as [Z|(j & Z & T & U)]; rewrite Z in I; [destruct I|]. destruct I as [<-|[]]. split; [exact U|]. destruct T as [-> | ->]; discriminate. }
  assert (Us : forall i, In i s -> ix_up i = true /\ ix_type i <> Colour) by (intros i I; destruct (ar_isospin _ _ _ A i I) as [-> U]; split; [exact U|discriminate]).
  split.
  - intros t up T. rewrite !ProofsField.count_kind_app, (Hz z) by (intros i I; now apply Uz). rewrite (Hz s) by (intros i I; now apply Us). f_equal. f_equal.
    rewrite (Nc t up c), (Nc t up (map flip c)); [reflexivity| |].
    + intros i I. apply in_map_iff in I as (j & <- & J). change (ix_type (flip j)) with (ix_type j). rewrite (ar_colour _ _ _ A j J). destruct T as [-> |[-> | ->]]; discriminate.
    + intros i I. rewrite (ar_colour _ _ _ A i I). destruct T as [-> |[-> | ->]]; discriminate.
  - intros up. rewrite !ProofsField.count_kind_app, Hc. rewrite (Nc Colour up (map hat z)), (Nc Colour up (map hat s)), (Nc Colour (negb up) z), (Nc Colour (negb up) s); [reflexivity| | | |];
      intros i I; try (apply in_map_iff in I as (j & <- & J); change (ix_type (hat j)) with (ix_type j)); (now apply Uz) || (now apply Us).
Qed.

Lemma exotic_full : forall vanishes op st, ready op -> supplied st ->
  exists x p t st', exotic_field_and_term vanishes op st = Ok ((x, p, t), st') /\
    stands_for op x p /\ (exists sym, (named x sym /\ spends x sym st st') /\ exists fl gs, mapM (fun x => field_of (cf_if x)) (cfields op) = Ok gs /\
       pick_symbol fl (sort (fun a b => str_leb (label_with_dagger a) (label_with_dagger b)) gs) st = Ok (sym, st')) /\
    match t with
    | inl _ => exists term, interaction op p term /\ vanishes term = true /\ ~ NoDup (map bare_label (cfields term))
    | inr term => interaction op p term /\ (NoDup (map bare_label (cfields term)) \/ vanishes term = false)
    end.
Proof.
  intros vanishes op st R Su. pose proof (ready_arranged op R) as A.
  unfold exotic_field_and_term. rewrite (sum_charges_ok _ (rd_fields _ R) (rd_charges _ R)). cbn [bind]. rewrite (ready_text op R).
  set (z := zs op) in *. set (c := cs op) in *. set (s := ss op) in *. set (y := sum_of hypercharge (cfields op)). set (b := sum_of baryon (cfields op)).
  rewrite (printed_tokens _ (ar_printed _ _ _ A)). cbn [bind]. rewrite (arr_dynkin _ _ _ A). cbn [bind].
  destruct (fields_of_ok _ (rd_nf _ R)) as (gs & Egs). rewrite Egs. cbn [bind].
  match goal with |- context [pick_symbol ?f ?ps st] => destruct (pick_ok f ps st Su) as (sym & st' & tex & Ep & Tx & Sp); rewrite Ep; set (fl := f) in Sp end. cbn [bind fst snd].
  rewrite (text_head _ _ _ A).
  assert (Du : forall i, In i z -> ix_type i = Dotted -> ~ In "u"%char (ix_name i)).
  { intros i I T. destruct (proj1 (in_zcs op R i)) as (i' & F & _ & <-); [apply in_app_iff; now left|]. exact (rd_dotted _ R i' F T). }
  destruct (exotic_ok z c s y b sym tex A Tx Du) as (ind & x0 & e0 & label & b' & conj & lx & lab & E1 & E2 & E3 & E4 & Eb & El). cbv zeta in E1, E4.
  rewrite E1. cbn [bind]. rewrite E2. cbn [bind]. rewrite E3. cbn [bind]. rewrite E4. cbn [bind].
  set (k := exotic_class z (z ++ c ++ s) y) in *. set (x := mkCF k _) in *.
  destruct (partner_ok label z c s y b' conj lx lab None k A eq_refl) as (k1 & l1 & b1 & cj1 & lx1 & lab1 & (Nk1 & Eb1) & Ep1).
  fold x in Ep1. rewrite Ep1. cbn [bind]. pose proof (arranged_flip _ _ _ A) as A'.
  destruct (lower_ok z (map flip c) s (- y)%Qc b1 l1 (class_comm k1) lx1 cj1 (sym_of (z ++ map flip c ++ s)) A' (arr_rank _ _ _ A') (ready_fresh op R) k1 lab1 Nk1)
    as (k2 & cj2 & lab2 & El2). rewrite El2. cbn [bind fst snd]. rewrite term_eq.
  set (p := mkCF k2 _). set (es := map hat_eps (z ++ s)). set (T := op ++ KField p :: map KSym es).
  assert (Hp : indices_of p = map hat z ++ map flip c ++ map hat s) by reflexivity.
  assert (PT : Permutation T (cnormalise T)) by apply cnormalise_perm.
  assert (CT : cfields T = cfields op ++ [p]).
  { unfold T, cfields. rewrite flat_map_app. f_equal. cbn [flat_map app]. f_equal. apply cfields_syms. }
  assert (ST : csymbols T = csymbols op ++ es).
  { unfold T, csymbols. rewrite flat_map_app. f_equal. cbn [flat_map app]. apply csymbols_syms. }
  assert (Pf : Permutation (cfields (cnormalise T)) (p :: cfields op)).
  { rewrite <- (cop_perm_fields _ _ PT), CT. apply Permutation_sym, Permutation_cons_append. }
  assert (Fp : standard_charges p /\ one_or_three p) by (split; [repeat split|left; reflexivity]).
  assert (Fst : Forall standard_charges (cfields (cnormalise T))).
  { eapply Permutation_Forall; [apply Permutation_sym, Pf|]. constructor; [apply Fp|exact (rd_charges _ R)]. }
  assert (Fnf : Forall one_or_three (cfields (cnormalise T))).
  { eapply Permutation_Forall; [apply Permutation_sym, Pf|]. constructor; [apply Fp|exact (rd_nf _ R)]. }
  assert (Fr : forall i, is_free (cop_erase (cnormalise T)) i <-> is_free (cop_erase op) i /\ ix_type i = Generation).
  { intros i. rewrite <- (is_free_perm (cop_erase T) _ i) by now apply cop_perm_indices. apply (term_free op R p Hp). }
  assert (Int : interaction op p (cnormalise T)).
  { split; [exact Pf|]. split; [exists es; rewrite <- ST; apply Permutation_sym, cop_perm_symbols, PT|].
    split; [|split; [|exact Fr]].
    - split; [|intros i I; now apply Fr]. rewrite (sum_of_perm _ _ _ Pf). cbn [sum_of fold_right]. fold (sum_of hypercharge (cfields op)). fold y.
      change (hypercharge p) with (- y)%Qc. rewrite Qcplus_comm. apply Qcplus_opp_r.
    - red. eapply Permutation_NoDup; [apply Permutation_map, cop_perm_indices, PT|]. apply (term_proper op R p Hp). }
  destruct (fields_of_ok _ Fnf) as (ts & Ets). rewrite Ets. cbn [bind].
  assert (Ix : indices_of x = z ++ c ++ s) by reflexivity.
  assert (Nc : cfields (cnormalise T) <> []) by (intros X; rewrite X in Pf; apply Permutation_nil in Pf; discriminate Pf).
  assert (Ck : check_singlet (cnormalise T) = Ok tt) by (apply singlet_ok; [exact Nc|exact Fst|apply Int]).
  assert (Lp : legit p) by (apply made_legit; pose proof (arranged_hats (z ++ s) _ _ _ A') as A2; rewrite (hats_all (z ++ s) z), (hats_all (z ++ s) s) in A2 by (intros i I; apply in_app_iff; auto); exact A2).
  assert (Mi : mirrors x p) by (red; rewrite Ix, Hp; apply mirror_counts; exact A).
  assert (Rh : right_handed x <-> dotted z = true).
  { unfold right_handed. rewrite Ix. split.
    - intros (i & I & D). rewrite !in_app_iff in I. destruct I as [I|[I|I]].
      + unfold dotted. destruct (ar_lorentz _ _ _ A) as [Z|(j & Z & _)]; rewrite Z in I |- *; [destruct I|]. destruct I as [->|[]]. now apply itype_decides.
      + rewrite (ar_colour _ _ _ A i I) in D. discriminate D.
      + destruct (ar_isospin _ _ _ A i I) as [E _]. rewrite E in D. discriminate D.
    - unfold dotted. destruct z as [|i z0]; [discriminate|]. intros D. apply itype_decides in D. exists i. split; [now left|exact D]. }
  assert (Main : legit x /\ low_spin x /\ carries x op /\ right_class x /\ standard_charges x /\ hypercharge x = y /\
    ((right_handed x /\ cf_class x = MajoranaFermion -> baryon x = - b) /\ (~ right_handed x \/ cf_class x <> MajoranaFermion -> baryon x = b))%Qc /\
    bare x /\ (exists sym, (named x sym /\ spends x sym st st') /\ exists fl gs, mapM (fun x => field_of (cf_if x)) (cfields op) = Ok gs /\
       pick_symbol fl (sort (fun a b => str_leb (label_with_dagger a) (label_with_dagger b)) gs) st = Ok (sym, st')) /\ legit p /\ standard_charges p /\ bare p /\
    (hypercharge p = - hypercharge x /\ (real_irrep x -> baryon p = Q2Qc 0) /\ (~ real_irrep x -> baryon p = - baryon x))%Qc /\ mirrors x p).
  { split; [now apply made_legit|]. split; [red; rewrite Ix, (arr_lorentz_counts _ _ _ A); destruct (ar_lorentz _ _ _ A) as [Z|(i & Z & _)]; rewrite Z; cbn; lia|]. split.
    { split; [exact (nodup_zcs op R)|]. intros q. rewrite Ix, in_map_iff. split.
      - intros (j & <- & J). apply (in_zcs op R) in J as (i & F & N & <-). exists i. auto.
      - intros (i & F & N & <-). exists (reindex i). split; [apply reindex_slot|]. apply (in_zcs op R). eauto. }
    split; [now apply (right_class_ok z c s)|]. split; [repeat split|]. split; [reflexivity|].
    split; [|split; [repeat split|split; [|split; [exact Lp|split; [apply Fp|split; [repeat split|split; [split; [reflexivity|]|exact Mi]]]]]]].
    3:{ pose proof (real_rep_iff x y (z ++ c ++ s) Ix eq_refl) as Rr. change (baryon p) with b1. change (baryon x) with b'. rewrite Eb1. split; intros H.
        - now rewrite (proj2 Rr H).
        - destruct (real_rep (z ++ c ++ s) y); [exfalso; apply H; now apply Rr|reflexivity]. }
    2:{ exists sym. split; [|exists fl, gs; split; [exact Egs|exact Ep]]. split; [unfold named; rewrite Rh; change (f_label (i_field (cf_if x))) with label; rewrite El; destruct (dotted z); split; try reflexivity; intros H; try discriminate H; [now contradiction H|apply app_nil_r]|].
      assert (Fl : fl = match z with [] => false | _ => true end).
      { unfold fl, dyn, five. cbn [firstn]. pose proof (arr_lorentz_counts _ _ _ A) as Lc. clear - Lc A.
        destruct (ar_lorentz _ _ _ A) as [Z|(i & Z & _)]; rewrite Z in *; cbn [List.length] in Lc.
        - destruct (count_kind Undotted true _), (count_kind Dotted true _); try discriminate Lc. reflexivity.
        - destruct (count_kind Undotted true _) as [|[|]], (count_kind Dotted true _) as [|[|]]; try discriminate Lc; reflexivity. }
      destruct Sp as [Sp|[Sp1 Sp2]]; [left; exact Sp|right]. split; [eexists; exact Sp1|]. pose proof (right_class_ok z c s x A Ix eq_refl) as Rc.
      unfold right_class in Rc. change (cf_class x) with k in Rc. unfold k, exotic_class, class_for in Rc. rewrite Fl in Sp2. destruct z; [right|left]; destruct (real_rep _ y) in Rc; tauto. }
    change (baryon x) with b'. change (cf_class x) with k. rewrite Eb, Rh. unfold k, exotic_class, class_for, dotted.
    destruct z as [|i z0].
    - split; [intros [D _]; discriminate D|]. intros _. reflexivity.
    - destruct (itype_eqb (ix_type i) Dotted) eqn:D; cbn [andb]; (destruct (real_rep ((i :: z0) ++ c ++ s) y) eqn:Rr; (split; [intros [H1 H2]; try discriminate H1; try discriminate H2; reflexivity|intros [H|H]; try reflexivity; exfalso; apply H; reflexivity])). }
  destruct (negb (no_repeats (map f_label ts)) && vanishes (cnormalise T)) eqn:V.
  - do 4 eexists. split; [reflexivity|]. apply andb_true_iff in V as [V1 V]. apply negb_true_iff, no_repeats_not in V1. rewrite (labels_ok _ _ Ets) in V1.
    destruct Main as (M1 & M1' & M2 & M3 & M4 & M5 & M6 & M7 & M8 & M9 & M10 & M11 & M12 & M13). split; [do 12 (split; [assumption|]); assumption|]. split; [rewrite <- Egs; exact M8|]. exists (cnormalise T). auto.
  - rewrite Ck. cbn [bind]. do 4 eexists. split; [reflexivity|].
    destruct Main as (M1 & M1' & M2 & M3 & M4 & M5 & M6 & M7 & M8 & M9 & M10 & M11 & M12 & M13). split; [do 12 (split; [assumption|]); assumption|]. split; [rewrite <- Egs; exact M8|]. split; [exact Int|]. rewrite <- (labels_ok _ _ Ets). apply andb_false_iff in V as [V|V]; [left|now right].
    apply negb_false_iff in V. now apply no_repeats_iff.
Qed.

Theorem C40_exotic : forall vanishes op st, ready op -> supplied st ->
  exists x p t st', exotic_field_and_term vanishes op st = Ok ((x, p, t), st') /\
    stands_for op x p /\ (exists sym, named x sym /\ spends x sym st st') /\
    match t with
    | inl _ => exists term, interaction op p term /\ vanishes term = true /\ ~ NoDup (map bare_label (cfields term))
    | inr term => interaction op p term /\ (NoDup (map bare_label (cfields term)) \/ vanishes term = false)
    end.
Proof.
  intros vanishes op st R Su. destruct (exotic_full vanishes op st R Su) as (x & p & t & st' & E & Sf & (sym & Sy & _) & H).
  exists x, p, t, st'. split; [exact E|]. split; [exact Sf|]. split; [exists sym; exact Sy|exact H].
Qed.

