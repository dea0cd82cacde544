(** * PropsLatex: C99, the LaTeX of an operator *)

From Coq Require Import Ascii String List Bool Arith ZArith Lia Sorted Permutation QArith Qcanon.
From Verif Require Import Base BaseFacts Show ModelIndex SpecIndex ProofsIndex PropsIndex ModelField ProofsField ModelContract SpecContract ProofsContract
  ProofsRegistry ProofsExotic DataOperators ModelOperators ModelPartition ModelExotic ModelInfo ModelLatex SpecLatex ProofsLatex.
Import ListNotations.
Local Open Scope nat_scope.

(** ** the order of the fields *)

Lemma ordering_prefix fields : forall o, foldM (fun l x => do y <- conj_ifield x;
    Ok (if mem_by str_eqb (f_label (i_field x)) l then l else l ++ [strip_tilde (f_label (i_field x)); strip_tilde (f_label (i_field y))])) fields field_order = Ok o ->
  exists r, o = field_order ++ r.
Proof.
  enough (H : forall a o, foldM (fun l x => do y <- conj_ifield x;
    Ok (if mem_by str_eqb (f_label (i_field x)) l then l else l ++ [strip_tilde (f_label (i_field x)); strip_tilde (f_label (i_field y))])) fields a = Ok o ->
    exists r, o = a ++ r) by exact (H field_order).
  induction fields as [|x fields IH]; intros a o E; cbn [foldM] in E; [injection E as <-; exists []; now rewrite app_nil_r|].
  apply bind_ok in E as (a' & E1 & E). apply bind_ok in E1 as (y & Ey & E1). injection E1 as <-. destruct (IH _ _ E) as (r & ->).
  destruct (mem_by _ _ _); [eauto|]. rewrite <- app_assoc. eauto.
Qed.

Lemma ordering_ok fields a : (forall x, In x fields -> exists y, conj_ifield x = Ok y) -> exists o, foldM (fun l x => do y <- conj_ifield x;
    Ok (if mem_by str_eqb (f_label (i_field x)) l then l else l ++ [strip_tilde (f_label (i_field x)); strip_tilde (f_label (i_field y))])) fields a = Ok o.
Proof.
  revert a. induction fields as [|x fields IH]; intros a H; [now exists a|]. cbn [foldM]. destruct (H x (or_introl eq_refl)) as (y & ->). cbn [bind].
  apply IH. intros z I. apply H. now right.
Qed.

Lemma position_first x l r : forall k, nth_error l k = Some x -> NoDup l -> position x (l ++ r) = Ok k.
Proof.
  induction l as [|y l IH]; intros [|k] E N; try discriminate; cbn [position app].
  - injection E as ->. now rewrite (decides_refl str_decides).
  - inversion N as [|? ? N1 N2]; subst. cbn in E. destruct (str_eqb x y) eqn:X.
    + apply str_decides in X. subst y. exfalso. apply N1. now apply nth_error_In in E.
    + now rewrite (IH _ E N2).
Qed.

Lemma field_order_NoDup : NoDup field_order.
Proof. repeat (constructor; [intros I; vm_compute in I; intuition discriminate|]). constructor. Qed.

Lemma lower_no_D s : ~ In "D"%char (lower s).
Proof.
  unfold lower. rewrite in_map_iff. intros (c & E & _). revert E. destruct c as [[] [] [] [] [] [] [] []]; vm_compute; discriminate.
Qed.

Lemma clean_no_D i : clean i -> ~ In "D"%char (show_index i).
Proof.
  intros (E & _ & _). unfold new_index in E. pose proof (lower_no_D (ix_label i)) as L. destruct (lower (ix_label i)) as [|c r]; [discriminate|].
  cbv zeta in E. unfold show_index. intros I. apply in_app_iff in I as [I|I].
  { destruct (ix_up i); [exact I|]. destruct I as [I|[]]. discriminate. }
  assert (K : incl (ix_name i) ("_"%char :: c :: r)); [|apply K in I as [I|I]; [discriminate|contradiction]].
  destruct (if negb (Ascii.eqb c "-") then c :: r else r) as [|c1 r1] eqn:El; [discriminate|].
  assert (K1 : incl (c1 :: r1) (c :: r)). { destruct (Ascii.eqb c "-"); cbn in El; [rewrite El; apply incl_tl, incl_refl|rewrite El; apply incl_refl]. }
  apply bind_ok in E as (t & Et & E). injection E as E. rewrite <- E. cbn [ix_name]. destruct (Ascii.eqb c1 "_").
  - intros x X. apply in_app_iff in X as [X|[X|[]]]; [right; apply K1; now right|now left].
  - intros x X. right. now apply K1.
Qed.

Lemma last_split c s a b : s = a ++ b -> (a = [] \/ exists a', a = a' ++ [c]) -> ~ In c b -> last (split_on c s) [] = b.
Proof.
  intros -> [->|(a' & ->)] N; [cbn [app]; rewrite split_on_no_sep by exact N; reflexivity|].
  rewrite <- app_assoc. cbn [app]. induction a' as [|x a' IH]; cbn.
  - rewrite Ascii.eqb_refl, split_on_no_sep by exact N. reflexivity.
  - destruct (Ascii.eqb x c).
    + destruct (split_on c (a' ++ c :: b)) eqn:E; [now apply split_on_nonnil in E|]. exact IH.
    + destruct (split_on c (a' ++ c :: b)) as [|p [|q ps]] eqn:E; [now apply split_on_nonnil in E| |exact IH].
      exfalso. assert (J : join [c] (split_on c (a' ++ c :: b)) = a' ++ c :: b) by apply join_split. rewrite E in J. cbn in J.
      assert (F := split_on_Forall c (a' ++ c :: b)). rewrite E in F. apply Forall_inv in F. apply F. rewrite J. apply in_app_iff. cbn. auto.
Qed.

Lemma join_In c (l : list str) sep : In c (join sep l) -> In c sep \/ exists s, In s l /\ In c s.
Proof.
  induction l as [|x [|y l] IH]; cbn [join]; [intros []|intros I; right; exists x; cbn; auto|].
  intros I. apply in_app_iff in I as [I|I]; [right; exists x; cbn; auto|]. apply in_app_iff in I as [I|I]; [auto|].
  destruct (IH I) as [H|(s & H & H')]; [auto|right; exists s; cbn in *; auto].
Qed.

Lemma leads_first x c : Forall clean (i_indices x) -> leads x c -> first_non_deriv x = Ok [c].
Proof.
  intros Cl (ds & rest & El & Hd & N). unfold first_non_deriv, show_ifield.
  set (tail := match i_indices x with [] => [] | l => lit "(" ++ join (lit ", ") (map show_index l) ++ lit ")" end).
  assert (T : ~ In "D"%char tail).
  { subst tail. destruct (i_indices x) as [|i l]; [intros []|]. intros I. apply in_app_iff in I as [I|I]; [destruct I as [I|[]]; discriminate|].
    apply in_app_iff in I as [I|I]; [|destruct I as [I|[]]; discriminate]. apply join_In in I as [I|(s & Is & I)]; [destruct I as [I|[I|[]]]; discriminate|].
    apply in_map_iff in Is as (j & <- & Ij). rewrite Forall_forall in Cl. exact (clean_no_D _ (Cl j Ij) I). }
  rewrite (last_split "D" _ ds ((c :: rest) ++ tail)); [reflexivity| |exact Hd|].
  - now rewrite El, <- app_assoc.
  - intros I. apply in_app_iff in I as [I|I]; contradiction.
Qed.

(** ** the letters *)

Definition letters_by (l : list index) (t : itype) (n : str) : str :=
  match position n (names t l) with Ok k => nth k (alphabet t) [] | Err _ => [] end.

Lemma nth_error_position x l : forall k, nth_error l k = Some x -> NoDup l -> position x l = Ok k.
Proof. intros k E N. rewrite <- (app_nil_r l). now apply position_first. Qed.

Lemma letters_by_as l i x : lettered_as l i x -> letter_of (letters_by l) i = x.
Proof.
  intros (k & N & A). unfold letter_of, letters_by. rewrite (nth_error_position _ _ _ N (names_NoDup _ _)). now apply nth_error_nth.
Qed.

Lemma letters_by_all l is xs : Forall2 (lettered_as l) is xs -> xs = map (letter_of (letters_by l)) is.
Proof. induction 1 as [|i x is xs H _ IH]; [reflexivity|]. cbn. now rewrite (letters_by_as _ _ _ H), IH. Qed.

Lemma lettered_by ignore l : bounded ignore l -> lettered ignore l (letters_by l).
Proof.
  intros B t V k n E. unfold letters_by. rewrite (nth_error_position _ _ _ E (names_NoDup _ _)). apply nth_error_nth'.
  specialize (B t V). assert (k < List.length (names t l)) by (apply nth_error_Some; congruence). lia.
Qed.

Lemma bounded_perm ignore l l' : Permutation l l' -> bounded ignore l -> bounded ignore l'.
Proof. intros P B t V. rewrite <- (names_length_perm t _ _ P). now apply B. Qed.

Lemma perm_flat_map {A B} (f : A -> list B) l l' : Permutation l l' -> Permutation (flat_map f l) (flat_map f l').
Proof.
  induction 1; cbn; auto; [now apply Permutation_app_head|rewrite !app_assoc; apply Permutation_app_tail, Permutation_app_comm|eauto using Permutation_trans].
Qed.

Lemma filter_permutation {A} (P : A -> bool) l l' : Permutation l l' -> Permutation (filter P l) (filter P l').
Proof.
  induction 1 as [|x l l' _ IH|x y l|l1 l2 l3 _ IH1 _ IH2]; cbn; [constructor| | |eauto using Permutation_trans].
  - destruct (P x); auto.
  - destruct (P x), (P y); auto using perm_swap.
Qed.

Lemma op_indices_perm op : Permutation (op_indices op) (flat_map i_indices (indexed_fields op) ++ flat_map symbol_indices (epsilons op)).
Proof.
  induction op as [|[x|e] op IH]; cbn in *; [constructor| |].
  - rewrite <- app_assoc. now apply Permutation_app_head.
  - etransitivity; [apply Permutation_app_head, IH|]. rewrite !app_assoc. apply Permutation_app_tail, Permutation_app_comm.
Qed.

Section Operator.
  Context (op : operator) (ignore : list ascii) (L : legible ignore op).

  Lemma L_clean i : In i (op_indices op) -> clean i.
  Proof using L. destruct L as (C & _). rewrite Forall_forall in C. apply C. Qed.

  Lemma run sorted s : Permutation (indexed_fields op) sorted -> ignoring ignore full_style = Ok s ->
    (bounded ignore (printed_indices sorted op) -> (forall x, In x sorted -> exists t, get_latex (i_field x) = Ok t) ->
     (forall i, In i (flat_map symbol_indices (epsilons op)) -> shown ignore (ix_type i) = true) ->
     exists fs d1 s1 es d2 s2, each latex_and_pop sorted [] s = Ok (fs, d1, s1) /\ each symbol_latex (epsilons op) d1 s1 = Ok (es, d2, s2) /\
       fs = map (field_text ignore (letters_by (printed_indices sorted op))) sorted /\
       Forall2 (symbol_text (letters_by (printed_indices sorted op))) (epsilons op) es) /\
    (forall fs d1 s1 r, each latex_and_pop sorted [] s = Ok (fs, d1, s1) -> each symbol_latex (epsilons op) d1 s1 = Ok r ->
       bounded ignore (printed_indices sorted op) /\ (forall x, In x sorted -> exists t, get_latex (i_field x) = Ok t) /\
       (forall i, In i (flat_map symbol_indices (epsilons op)) -> shown ignore (ix_type i) = true)).
  Proof using L.
    intros P Es. pose proof (styled_start _ _ Es) as S0. destruct L as (Cl & Nd & Hh).
    assert (B0 : bounded ignore []) by (intros t _; cbn; lia). assert (G0 : given ignore [] []) by (intros j x E; discriminate E).
    assert (N0 : NoDup (map key (filter (fun i => shown ignore (ix_type i)) ([] ++ flat_map i_indices sorted)))).
    { cbn [app]. eapply Permutation_NoDup; [|exact Nd]. apply Permutation_map, filter_permutation, perm_flat_map. exact P. }
    destruct (field_texts ignore sorted [] [] s [] S0 B0 G0 N0) as [P1 P2]. cbn [app] in P1, P2.
    set (all := flat_map symbol_indices (epsilons op)).
    assert (Ca : Forall clean all).
    { apply Forall_forall. intros i I. apply L_clean. apply (Permutation_in _ (Permutation_sym (op_indices_perm op))), in_app_iff. auto. }
    assert (An : forall d' s' out', fields_run ignore [] sorted [] d' s' [] out' -> answered ignore all (flat_map i_indices sorted) d').
    { intros d' s' out' [A1 A2 A3 _] i n Ii Nm V (Nn & Nt & Nu). rewrite A3. right. apply names_In in Nm as (j & Ij & Tj & Nj).
      exists j. cbn. split; [exact Ij|]. split; [now rewrite Tj|]. unfold slot.
      assert (X : ix_up j <> ix_up i).
      { apply Hh; auto. apply (Permutation_in _ (Permutation_sym (perm_flat_map i_indices _ _ P)) Ij). }
      rewrite Nn, Nt, Nu, Tj, Nj. f_equal. destruct (ix_up j), (ix_up i); cbn; congruence. }
    split.
    - intros B Hl Hv. unfold printed_indices in B. destruct (P1 (bounded_prefix _ _ _ B) Hl) as (d1 & s1 & fs & E1 & R1).
      pose proof (An _ _ _ R1) as A1. destruct R1 as [F1 F2 F3 (new & F4 & F5)]. cbn [app] in F1, F2, F4, F5. subst fs.
      destruct (symbol_texts ignore all (epsilons op) (incl_refl _) Ca (flat_map i_indices sorted) d1 s1 [] F1 (bounded_prefix _ _ _ B) F2 A1) as [Q1 _].
      destruct (Q1 B Hv) as (d2 & s2 & es & E2 & [Y1 Y2 Y3 (new2 & Y4 & Y5)]). cbn [app] in Y4. subst es.
      exists new, d1, s1, new2, d2, s2. split; [exact E1|]. split; [exact E2|]. split.
      + clear - F5. unfold printed_indices. set (l' := flat_map symbol_indices (epsilons op)). clearbody l'.
        revert F5. generalize (flat_map i_indices sorted) as l. intros l F5. induction F5 as [|x t xs ts (ls & Hs & ->) _ IH]; [reflexivity|].
        cbn. f_equal; [|exact IH]. unfold field_text. f_equal. apply (lettered_all_mono l l') in Hs. rewrite (letters_by_all _ _ _ Hs).
        destruct (filter _ (i_indices x)); reflexivity.
      + unfold printed_indices. fold all in Y5. fold all. revert Y5. clear. generalize (flat_map i_indices sorted ++ all) as l. intros l F.
        induction F as [|e t es ts (ls & Hs & ->) _ IH]; constructor; [|exact IH]. exists (sort str_leb ls).
        rewrite (letters_by_all _ _ _ Hs). split; [apply sort_perm|]. split; [|reflexivity].
        apply sort_sorted; [apply str_leb_total|apply str_leb_trans].
    - intros fs d1 s1 r E1 E2. destruct (P2 _ E1) as [B1 Hl]. destruct (P1 B1 Hl) as (d1' & s1' & fs' & E1' & R1).
      assert (X : (fs', d1', s1') = (fs, d1, s1)) by (change (each latex_and_pop sorted [] s = Ok (fs', d1', s1')) in E1'; congruence). injection X as -> -> ->.
      pose proof (An _ _ _ R1) as A1. destruct R1 as [F1 F2 F3 _]. cbn [app] in F1, F2.
      destruct (proj2 (symbol_texts ignore all (epsilons op) (incl_refl _) Ca (flat_map i_indices sorted) d1 s1 [] F1 B1 F2 A1) _ E2) as [B Hv].
      split; [exact B|]. split; [exact Hl|exact Hv].
  Qed.

  Lemma printed_perm sorted : Permutation (indexed_fields op) sorted -> Permutation (op_indices op) (printed_indices sorted op).
  Proof using. intros P. etransitivity; [apply op_indices_perm|]. unfold printed_indices. apply Permutation_app_tail, perm_flat_map. exact P. Qed.

  Definition rank_in (o : list str) (x : ifield) : nat := match order_of o x with Ok n => n | Err _ => 0 end.

  Lemma keyed_sorted o keyed : field_ordering (indexed_fields op) = Ok o ->
    mapM (fun x => do n <- order_of o x; Ok (n, x)) (indexed_fields op) = Ok keyed ->
    arranged (indexed_fields op) (map snd (sort (fun a b => fst a <=? fst b) keyed)) (rank_in o).
  Proof using L.
    intros Eo Ek.
    assert (K : keyed = map (fun x => (rank_in o x, x)) (indexed_fields op)).
    { clear Eo. revert keyed Ek. induction (indexed_fields op) as [|x l IH]; intros keyed E; cbn in E; [now injection E as <-|].
      apply bind_ok in E as (p & E1 & E). apply bind_ok in E1 as (n & En & E1). injection E1 as <-. apply bind_ok in E as (q & Eq & E). injection E as <-.
      cbn [map]. rewrite (IH _ Eq). f_equal. unfold rank_in. now rewrite En. }
    assert (Sn : forall l, map snd (map (fun x => (rank_in o x, x)) l) = l) by (intros l; rewrite map_map; apply map_id).
    assert (Ms : forall l, map (fun p => (rank_in o (snd p), snd p)) l = l -> forall n, filter (fun x => rank_in o x =? n) (map snd l) = map snd (filter (fun p => fst p =? n) l)).
    { intros l El n. induction l as [|[a x] l IH]; [reflexivity|]. cbn in El. injection El as Ea El. cbn. rewrite Ea. destruct (a =? n); cbn; [now rewrite IH|now apply IH]. }
    assert (Kp : forall p, In p keyed -> fst p = rank_in o (snd p)). { intros p I. rewrite K in I. apply in_map_iff in I as (x & <- & _). reflexivity. }
    set (leb := fun a b : nat * ifield => fst a <=? fst b).
    assert (Ps : Permutation keyed (sort leb keyed)) by apply sort_perm.
    assert (Kid : forall l, (forall p, In p l -> fst p = rank_in o (snd p)) -> map (fun p => (rank_in o (snd p), snd p)) l = l).
    { intros l Hl. rewrite <- (map_id l) at 2. apply map_ext_in. intros [a x] I. specialize (Hl _ I). cbn in *. now rewrite Hl. }
    assert (Kp' : forall p, In p (sort leb keyed) -> fst p = rank_in o (snd p)) by (intros p I; apply Kp, (Permutation_in _ (Permutation_sym Ps) I)).
    split; [|split; [|split]].
    - rewrite <- (Sn (indexed_fields op)), <- K. now apply Permutation_map.
    - assert (S : StronglySorted (fun a b => leb a b = true) (sort leb keyed)).
      { apply sort_sorted; unfold leb; [intros a b; rewrite !Nat.leb_le; lia|intros a b c; rewrite !Nat.leb_le; lia]. }
      revert S Kp'. generalize (sort leb keyed) as l. induction l as [|p l IH]; intros S H; cbn; constructor; inversion S as [|? ? S1 S2]; subst.
      + apply IH; [exact S1|]. intros q I. apply H. now right.
      + apply Forall_forall. intros y I. apply in_map_iff in I as (q & <- & I). rewrite Forall_forall in S2. specialize (S2 q I).
        unfold leb in S2. apply Nat.leb_le in S2. rewrite <- (H p (or_introl eq_refl)), <- (H q (or_intror I)). exact S2.
    - intros n. rewrite (Ms _ (Kid _ Kp') n). rewrite sort_stable.
      + rewrite <- (Ms _ (Kid _ Kp) n), K, Sn. reflexivity.
      + intros a b A B. apply Nat.eqb_eq in A, B. unfold leb. apply Nat.leb_le. lia.
    - intros x c k Ix Lx Ec. unfold rank_in, order_of. rewrite (leads_first x c); [|apply Forall_forall; intros i Ii; apply L_clean|exact Lx].
      + cbn [bind]. destruct (ordering_prefix _ _ Eo) as (r & ->). rewrite (position_first _ _ r _ Ec field_order_NoDup). reflexivity.
      + apply (Permutation_in _ (Permutation_sym (op_indices_perm op))), in_app_iff. left. apply in_flat_map. eauto.
  Qed.

  Theorem C99_text text : latex op ignore = Ok text ->
    exists sorted rank letters, arranged (indexed_fields op) sorted rank /\ printed ignore op sorted letters text /\ enough ignore op.
  Proof using L.
    unfold latex. intros E. apply bind_ok in E as (o & Eo & E). apply bind_ok in E as (s & Es & E). apply bind_ok in E as (keyed & Ek & E). cbv zeta in E.
    pose proof (keyed_sorted _ _ Eo Ek) as Ar. set (sorted := map snd _) in *. pose proof Ar as (P & _).
    apply bind_ok in E as ([[fs d1] s1] & E1 & E). apply bind_ok in E as ([[es d2] s2] & E2 & E). injection E as <-. cbn [fst].
    destruct (run sorted s P Es) as [R1 R2]. destruct (R2 _ _ _ _ E1 E2) as (B & Hl & Hv). destruct (R1 B Hl Hv) as (fs' & d1' & s1' & es' & d2' & s2' & X1 & X2 & -> & F).
    rewrite E1 in X1. injection X1 as -> <- <-. rewrite E2 in X2. injection X2 as <- <- <-.
    exists sorted, (rank_in o), (letters_by (printed_indices sorted op)). split; [exact Ar|]. split.
    - split; [now apply lettered_by|]. exists es, (sort str_leb es). split; [exact F|]. split; [apply sort_perm|]. split; [apply sort_sorted; [apply str_leb_total|apply str_leb_trans]|].
      f_equal. f_equal. destruct es as [|e es]; [reflexivity|]. destruct (sort str_leb (e :: es)) eqn:S; [|reflexivity].
      pose proof (sort_perm str_leb (e :: es)) as Q. rewrite S in Q. now apply Permutation_sym, Permutation_nil in Q.
    - intros t V. rewrite (names_length_perm t _ _ (printed_perm sorted P)). now apply B.
  Qed.

  Theorem C99_prints : readable ignore op -> (forall x, In x (indexed_fields op) -> exists y t, conj_ifield x = Ok y /\ get_latex (i_field x) = Ok t) ->
    (exists text, latex op ignore = Ok text) <-> enough ignore op.
  Proof using L.
    intros (Ni & Hi & Hf & Hv) Hx. split.
    - intros (text & E). destruct (C99_text _ E) as (_ & _ & _ & _ & _ & H). exact H.
    - intros B. unfold latex, field_ordering. destruct (ordering_ok (indexed_fields op) field_order) as (o & Eo); [intros x I; destruct (Hx x I) as (y & t & H & _); eauto|].
      change (map lit _) with field_order. rewrite Eo. cbn [bind].
      destruct (ignoring_ok ignore full_style Ni) as (s & Es).
      { intros c I. destruct (Hi c I) as (t & T & ->). change (letter t) with (index_letter t). rewrite full_style_dget. destruct t; congruence. }
      rewrite Es. cbn [bind].
      assert (K : exists keyed, mapM (fun x => do n <- order_of o x; Ok (n, x)) (indexed_fields op) = Ok keyed).
      { assert (H : forall x, In x (indexed_fields op) -> exists n, order_of o x = Ok n).
        { intros x I. destruct (Hf x I) as (c & Lx & Ic). apply In_nth_error in Ic as (k & Ek). exists k. unfold order_of.
          rewrite (leads_first x c); [|apply Forall_forall; intros i Ii; apply L_clean|exact Lx].
          - cbn [bind]. destruct (ordering_prefix _ _ Eo) as (r & ->). exact (position_first _ _ r _ Ek field_order_NoDup).
          - apply (Permutation_in _ (Permutation_sym (op_indices_perm op))), in_app_iff. left. apply in_flat_map. eauto. }
        revert H. generalize (indexed_fields op) as l. induction l as [|x l IH]; intros H; [now exists []|]. cbn.
        destruct (H x (or_introl eq_refl)) as (n & ->). destruct IH as (q & Eq); [intros y I; apply H; now right|]. cbn [bind]. rewrite Eq. cbn [bind]. eauto. }
      destruct K as (keyed & Ek). rewrite Ek. cbn [bind]. cbv zeta. pose proof (keyed_sorted _ _ Eo Ek) as (P & _). set (sorted := map snd _) in *.
      destruct (run sorted s P Es) as [R1 _]. destruct R1 as (fs & d1 & s1 & es & d2 & s2 & X1 & X2 & _); [| |exact Hv|].
      + apply (bounded_perm ignore (op_indices op)); [now apply printed_perm|exact B].
      + intros x I. apply (Permutation_in _ (Permutation_sym P)) in I. destruct (Hx x I) as (y & t & _ & H). eauto.
      + rewrite X1. cbn [bind]. rewrite X2. cbn [bind]. eauto.
  Qed.
End Operator.

(** ** Letters tell indices apart *)

Definition code (t : itype) (k : nat) : nat := match t with Undotted => k | Dotted => 23 + k | Colour => 46 + k | Isospin => 54 + k | Generation => 71 end.

Lemma alphabets : NoDup (alphabet Undotted ++ alphabet Dotted ++ alphabet Colour ++ alphabet Isospin).
Proof.
  assert (H : nodup_by str_eqb (alphabet Undotted ++ alphabet Dotted ++ alphabet Colour ++ alphabet Isospin) = alphabet Undotted ++ alphabet Dotted ++ alphabet Colour ++ alphabet Isospin)
    by (vm_compute; reflexivity).
  rewrite <- H. apply nodup_by_NoDup, str_decides.
Qed.

Lemma alphabet_code t k x : nth_error (alphabet t) k = Some x ->
  nth_error (alphabet Undotted ++ alphabet Dotted ++ alphabet Colour ++ alphabet Isospin) (code t k) = Some x.
Proof.
  intros E. assert (k < List.length (alphabet t)) by (apply nth_error_Some; congruence). destruct t; cbn [code].
  - rewrite nth_error_app1 by assumption. exact E.
  - rewrite nth_error_app2 by (cbn; lia). replace (23 + k - List.length (alphabet Undotted)) with k by (cbn; lia). rewrite nth_error_app1 by assumption. exact E.
  - rewrite app_assoc, nth_error_app2 by (cbn; lia). replace (46 + k - List.length (alphabet Undotted ++ alphabet Dotted)) with k by (cbn; lia).
    rewrite nth_error_app1 by assumption. exact E.
  - rewrite !app_assoc, nth_error_app2 by (cbn; lia).
    replace (54 + k - List.length ((alphabet Undotted ++ alphabet Dotted) ++ alphabet Colour)) with k by (cbn; lia). exact E.
  - destruct k; discriminate E.
Qed.

Lemma code_inj t t' k k' : k < List.length (alphabet t) -> k' < List.length (alphabet t') -> code t k = code t' k' -> t = t' /\ k = k'.
Proof. destruct t, t'; cbn; intros; (split; [reflexivity || lia|lia]). Qed.

Theorem C99_letters : forall ignore l letters, lettered ignore l letters -> forall i j, In i l -> In j l -> shown ignore (ix_type i) = true -> shown ignore (ix_type j) = true ->
  (letter_of letters i = letter_of letters j <-> ix_name i = ix_name j /\ ix_type i = ix_type j).
Proof.
  intros ignore l letters H i j Ii Ij Vi Vj. split; [|intros [N T]; unfold letter_of; congruence]. intros E.
  assert (Ni : In (ix_name i) (names (ix_type i) l)) by (apply names_In; eauto). assert (Nj : In (ix_name j) (names (ix_type j) l)) by (apply names_In; eauto).
  apply In_nth_error in Ni as (k & Ek). apply In_nth_error in Nj as (k' & Ek'). pose proof (H _ Vi _ _ Ek) as A. pose proof (H _ Vj _ _ Ek') as A'.
  unfold letter_of in E. rewrite <- E in A'. pose proof (alphabet_code _ _ _ A) as C. pose proof (alphabet_code _ _ _ A') as C'.
  assert (X : code (ix_type i) k = code (ix_type j) k').
  { apply (proj1 (NoDup_nth_error _) alphabets); [apply nth_error_Some; congruence|congruence]. }
  apply code_inj in X as [T ->]; [|apply nth_error_Some; congruence|apply nth_error_Some; congruence].
  split; [|exact T]. rewrite T in Ek. congruence.
Qed.

(** ** The shipped operators *)

Definition key_eqb (a b : str * itype) : bool := if str_eqb (fst a) (fst b) then itype_eqb (snd a) (snd b) else false.

Lemma key_decides : decides key_eqb.
Proof.
  intros [a b] [a' b']. unfold key_eqb. cbn. destruct (str_eqb a a') eqn:E.
  - apply str_decides in E. subst. rewrite (itype_decides b b'). split; [intros ->; reflexivity|now intros [= ->]].
  - split; [discriminate|]. intros [= -> ->]. rewrite (decides_refl str_decides) in E. discriminate.
Qed.

Fixpoint distinctb {A} (eqb : A -> A -> bool) (l : list A) : bool :=
  match l with [] => true | x :: r => if existsb (eqb x) r then false else distinctb eqb r end.

Lemma distinctb_NoDup {A} (eqb : A -> A -> bool) (D : decides eqb) l : distinctb eqb l = true -> NoDup l.
Proof.
  induction l as [|x l IH]; cbn; [constructor|]. destruct (existsb (eqb x) l) eqn:E; [discriminate|]. intros H. constructor; [|auto].
  intros I. apply not_true_iff_false in E. apply E, existsb_exists. exists x. split; [exact I|]. now apply D.
Qed.

Definition legibleb (op : operator) : bool :=
  let fi := flat_map i_indices (indexed_fields op) in
  let si := flat_map symbol_indices (epsilons op) in
  forallb cleanb (op_indices op) && distinctb key_eqb (map key (filter (fun i => shown [] (ix_type i)) fi)) &&
  forallb (fun i => forallb (fun j => if key_eqb (key i) (key j) then negb (Bool.eqb (ix_up i) (ix_up j)) else true) si) fi.

Lemma legibleb_ok op : legibleb op = true -> legible [] op.
Proof.
  unfold legibleb. cbv zeta. rewrite !andb_true_iff, !forallb_forall. intros [[C N] H]. split; [|split].
  - apply Forall_forall. intros i I. apply cleanb_ok, C, I.
  - apply (distinctb_NoDup _ key_decides) in N. exact N.
  - intros i j Ii Ij En Et. specialize (H i Ii). rewrite forallb_forall in H. specialize (H j Ij).
    assert (X : key_eqb (key i) (key j) = true) by (apply key_decides; unfold key; congruence). rewrite X in H.
    apply negb_true_iff, eqb_false_iff in H. exact H.
Qed.

Definition texts_of (ra rb : res (list (str * operator))) : res (list (str * str)) :=
  do a <- ra; do b <- rb;
  mapM (fun kv => do t <- latex (snd kv) []; if legibleb (snd kv) then Ok (fst kv, t) else Err AssertionError) (a ++ b).

Definition texts_ok (n : nat) (r : res (list (str * str))) : bool :=
  match r with Ok l => if List.length l =? n then distinctb str_eqb (map snd l) else false | Err _ => false end.

Lemma texts_ok_spec n ra rb : texts_ok n (texts_of ra rb) = true -> exists a b texts, ra = Ok a /\ rb = Ok b /\ List.length (a ++ b) = n /\
  Forall2 (fun kv t => legible [] (snd kv) /\ latex (snd kv) [] = Ok t) (a ++ b) texts /\ NoDup texts.
Proof.
  intros H. unfold texts_ok, texts_of in H. destruct ra as [a|]; [|discriminate H]. destruct rb as [b|]; [|discriminate H].
  cbn [bind] in H. destruct (mapM _ (a ++ b)) as [l|] eqn:E; [|discriminate H]. destruct (List.length l =? n) eqn:N; [|discriminate H].
  apply Nat.eqb_eq in N. exists a, b, (map snd l). split; [reflexivity|]. split; [reflexivity|]. split; [|split; [|exact (distinctb_NoDup _ str_decides _ H)]].
  - rewrite <- N. symmetry. exact (mapM_length _ _ _ E).
  - clear H N. revert l E. generalize (a ++ b) as ops. induction ops as [|kv ops IH]; intros l E; cbn [mapM] in E; [injection E as <-; constructor|].
    apply bind_ok in E as (p & E1 & E). apply bind_ok in E1 as (t & Et & E1). destruct (legibleb (snd kv)) eqn:Lg; [|discriminate E1]. injection E1 as <-.
    apply bind_ok in E as (q & Eq & E). injection E as <-. cbn [map snd]. constructor; [|now apply IH]. split; [now apply legibleb_ok|exact Et].
Qed.

Lemma texts_checked : texts_ok 243 (texts_of eff_operators deriv_eff_operators) = true.
Proof. vm_compute. reflexivity. Qed.

(** every shipped operator is printed as specified, and no two are printed alike *)
Theorem C99_shipped : exists a b texts, eff_operators = Ok a /\ deriv_eff_operators = Ok b /\ List.length (a ++ b) = 243 /\
  Forall2 (fun kv t => legible [] (snd kv) /\ latex (snd kv) [] = Ok t) (a ++ b) texts /\ NoDup texts.
Proof. exact (texts_ok_spec _ _ _ texts_checked). Qed.

(** ** Examples *)

Definition a_field (label tex idx : string) : res ifield :=
  mk_ifield (mkIargs (lit label) (AStr (lit idx)) None false None (lit "fermi") (Some (lit tex)) 1 0 None).

Definition a_symbol (idx : string) : res tensor := do e <- eps (lit idx); Ok (TSymbol e).

(** the Weinberg operator, its fields in another order, with a contracted pair of symbols and with generation indices *)
Definition weinberg (a b c d : string) : res operator :=
  do h <- a_field "H" "H" "i2"; do l <- a_field "L" "L" a; do h' <- a_field "H" "H" "i3"; do l' <- a_field "L" "L" b; do e <- a_symbol c; do e' <- a_symbol d;
  Ok [TField h; TField l; TField h'; TField l'; e; e'].

Definition weinberg_ex : operator := match weinberg "u0 i0" "u1 i1" "-i2 -i0" "-i1 -i3" with Ok op => op | Err _ => [] end.


Definition readableb (op : operator) : bool :=
  forallb (fun x => match f_label (i_field x) with c :: rest => if forallb (fun c => negb (Ascii.eqb c "D")) (c :: rest) then mem_by str_eqb [c] field_order else false | [] => false end)
    (indexed_fields op) &&
  forallb (fun i => shown [] (ix_type i)) (flat_map symbol_indices (epsilons op)) &&
  forallb (fun t => List.length (names t (op_indices op)) <=? List.length (alphabet t)) [Undotted; Dotted; Colour; Isospin].

Lemma readableb_ok op : readableb op = true -> readable [] op /\ enough [] op.
Proof.
  unfold readableb. rewrite !andb_true_iff, !forallb_forall. intros [[H1 H2] H3]. split.
  - split; [constructor|]. split; [intros c []|]. split; [|exact H2]. intros x I. specialize (H1 x I).
    destruct (f_label (i_field x)) as [|c rest] eqn:El; [discriminate|]. exists c. destruct (forallb _ (c :: rest)) eqn:D; [|discriminate].
    split; [|now apply (mem_by_In str_decides)]. exists [], rest. split; [exact El|]. split; [auto|]. rewrite forallb_forall in D. intros J. apply D in J. discriminate.
  - intros t V. apply Nat.leb_le, H3. destruct t; cbn; auto. discriminate V.
Qed.

Example C99_example : legible [] weinberg_ex /\ readable [] weinberg_ex /\ enough [] weinberg_ex /\
  latex weinberg_ex [] = Ok (lit "L^{\alpha i} L^{\beta j} H^{k} H^{l}  \cdot  \epsilon_{i k} \epsilon_{j l}") /\
  latex weinberg_ex ["u"%char] = Ok (lit "L^{i} L^{j} H^{k} H^{l}  \cdot  \epsilon_{i k} \epsilon_{j l}").
Proof.
  assert (L : legible [] weinberg_ex) by (apply legibleb_ok; vm_compute; reflexivity).
  assert (R : readable [] weinberg_ex /\ enough [] weinberg_ex) by (apply readableb_ok; vm_compute; reflexivity).
  split; [exact L|]. split; [apply R|]. split; [apply R|]. split; vm_compute; reflexivity.
Qed.

(** ** What fails *)

(** the order of the indices of a symbol, so the sign of the operator, is not printed *)
Theorem C99_sign_refuted : exists a b, weinberg "u0 i0" "u1 i1" "-i2 -i0" "-i1 -i3" = Ok a /\ weinberg "u0 i0" "u1 i1" "-i0 -i2" "-i1 -i3" = Ok b /\ a <> b /\
  exists t, latex a [] = Ok t /\ latex b [] = Ok t.
Proof.
  eexists. eexists. split; [vm_compute; reflexivity|]. split; [vm_compute; reflexivity|]. split; [|eexists; split; vm_compute; reflexivity].
  intros E. apply (f_equal (fun op => match epsilons op with e :: _ => map ix_name (symbol_indices e) | [] => [] end)) in E. vm_compute in E. discriminate E.
Qed.

(** nor are generation indices: contracted and free ones look alike *)
Theorem C99_generation_refuted : exists a b, weinberg "u0 i0 g0" "u1 i1 g0" "-i2 -i0" "-i1 -i3" = Ok a /\ weinberg "u0 i0 g0" "u1 i1 g1" "-i2 -i0" "-i1 -i3" = Ok b /\ a <> b /\
  exists t, latex a [] = Ok t /\ latex b [] = Ok t.
Proof.
  eexists. eexists. split; [vm_compute; reflexivity|]. split; [vm_compute; reflexivity|]. split; [|eexists; split; vm_compute; reflexivity].
  intros E. apply (f_equal (fun op => map ix_name (op_indices op))) in E. vm_compute in E. discriminate E.
Qed.

(** a field whose label has two characters, as exotic fields have, raises *)
Theorem C99_label_refuted : exists x op, a_field "S1" "S" "i0" = Ok x /\ op = [TField x] /\ legible [] op /\ enough [] op /\ latex op [] = Err ValueError.
Proof.
  eexists. eexists. split; [vm_compute; reflexivity|]. split; [reflexivity|]. split; [apply legibleb_ok; vm_compute; reflexivity|]. split; [|vm_compute; reflexivity].
  intros t V. destruct t; try discriminate V; vm_compute; lia.
Qed.

(** ignoring a type that symbols have, ignoring generation indices and ignoring a type twice raise *)
Theorem C99_ignore_refuted : latex weinberg_ex ["i"%char] = Err KeyError /\ latex weinberg_ex ["g"%char] = Err KeyError /\ latex weinberg_ex ["u"%char; "u"%char] = Err KeyError.
Proof. repeat split; vm_compute; reflexivity. Qed.

(** there are eight letters for colour *)
Definition coloured (n : nat) : res operator :=
  mapM (fun k => do x <- mk_ifield (mkIargs (lit "d") (AStr (lit "c" ++ [ascii_of_nat (48 + k)])) None false None (lit "fermi") (Some (lit "d")) 1 0 None); Ok (TField x)) (seq 0 n).

Theorem C99_letters_refuted : exists a b, coloured 8 = Ok a /\ coloured 9 = Ok b /\ legible [] b /\ readable [] b /\ ~ enough [] b /\
  latex a [] = Ok (lit "d^{a} d^{b} d^{c} d^{d} d^{e} d^{f} d^{g} d^{h}") /\ latex b [] = Err IndexError.
Proof.
  eexists. eexists. split; [vm_compute; reflexivity|]. split; [vm_compute; reflexivity|]. split; [apply legibleb_ok; vm_compute; reflexivity|]. split.
  - split; [constructor|]. split; [intros c []|]. split; [|intros i []]. intros x I. exists "d"%char. split.
    + exists [], []. assert (H : f_label (i_field x) = lit "d"); [|split; [exact H|split; [auto|intros [H'|[]]; discriminate H']]].
      cbn in I. repeat destruct I as [<-|I]; try reflexivity. destruct I.
    + vm_compute. intuition.
  - split; [|split; vm_compute; reflexivity]. intros E. specialize (E Colour eq_refl). vm_compute in E. lia.
Qed.

Print Assumptions C99_text.
Print Assumptions C99_prints.
Print Assumptions C99_letters.
Print Assumptions C99_shipped.
Print Assumptions C99_sign_refuted.
Print Assumptions C99_generation_refuted.
Print Assumptions C99_label_refuted.
Print Assumptions C99_ignore_refuted.
Print Assumptions C99_letters_refuted.
