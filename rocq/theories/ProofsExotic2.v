(** * ProofsExotic2: printed indices and the fields made of them *)

From Coq Require Import Ascii String List Bool Arith ZArith QArith Qcanon Lia Permutation Sorted.
From Verif Require Import Base BaseFacts Show ModelFunctions ProofsFunctions ModelIndex SpecIndex ProofsIndex PropsIndex ModelField SpecField
  ProofsField ProofsField2 PropsField PropsField2 ModelContract SpecContract ProofsContract ModelPartition ModelExotic SpecExotic ProofsExotic PropsExotic.
From Verif Require Spec.
Import ListNotations.
Local Open Scope nat_scope.

(** ** Indices as they are printed *)

Definition good (r : str) : Prop := lower r = r /\ ~ In " "%char r.

Definition index_at (t : itype) (r : str) (up : bool) : index :=
  mkIndex ((if up then [] else lit "-") ++ letter t :: r) (letter t :: r) t up.

Lemma lower_char_idem c : lower_char (lower_char c) = lower_char c.
Proof. destruct c as [[] [] [] [] [] [] [] []]; reflexivity. Qed.

Lemma lower_idem s : lower (lower s) = lower s.
Proof. unfold lower. rewrite map_map. apply map_ext. exact lower_char_idem. Qed.

Lemma lower_app a b : lower (a ++ b) = lower a ++ lower b.
Proof. apply map_app. Qed.

Lemma lower_space s : In " "%char (lower s) -> In " "%char s.
Proof.
  unfold lower. intros I. apply in_map_iff in I as (c & E & I). assert (c = " "%char); [|now subst].
  destruct c as [[] [] [] [] [] [] [] []]; try discriminate E; reflexivity.
Qed.

Lemma letter_low t : lower_char (letter t) = letter t.
Proof. now destruct t. Qed.

Lemma new_index_at t r up : good r -> new_index (show_index (index_at t r up)) = Ok (index_at t r up).
Proof.
  intros [L _]. unfold show_index. cbn [ix_up ix_name index_at].
  rewrite (new_index_spelled _ (negb up) false t r).
  - unfold index_at. rewrite app_nil_r, negb_involutive. reflexivity.
  - unfold spelled, lower in *. destruct up; cbn; now rewrite letter_low, L.
Qed.

Lemma show_index_at t r up : show_index (index_at t r up) = ix_label (index_at t r up).
Proof. reflexivity. Qed.

Lemma clean_at t r up : good r -> clean (index_at t r up).
Proof.
  intros G. pose proof (new_index_at t r up G) as E. rewrite show_index_at in E. destruct G as [L N]. split; [exact E|]. split.
  - cbn [ix_label index_at]. intros I. destruct up; cbn in I; [|destruct I as [I|I]; [discriminate I|]]; (destruct I as [I|I]; [destruct t; discriminate I|auto]).
  - exists (negb up), false, t, r. cbn [ix_label index_at]. unfold spelled, lower in *. destruct up; cbn; now rewrite letter_low, L.
Qed.

Lemma clean_at_iff i : clean i -> exists r, good r /\ ix_name i = letter (ix_type i) :: r /\ reindex i = index_at (ix_type i) r (ix_up i).
Proof.
  intros (E & Ns & low & auto & t & rest & El). pose proof (new_index_spelled _ _ _ _ _ El) as Ei. rewrite E in Ei. injection Ei as Ei.
  exists (rest ++ (if auto then lit "_" else [])).
  assert (G : good (rest ++ (if auto then lit "_" else []))).
  { assert (Lr : lower rest = rest).
    { assert (X : lower (spelled low auto t rest) = spelled low auto t rest) by (rewrite <- El; apply lower_idem).
      rewrite lower_spelled in X. unfold spelled in X. destruct low, auto; cbn in X; congruence. }
    split; [rewrite lower_app, Lr; now destruct auto|]. intros I. apply in_app_iff in I as [I|I].
    - apply Ns. apply lower_space. rewrite El. unfold spelled. rewrite !in_app_iff. right. right. now right.
    - destruct auto; [destruct I as [I|[]]; discriminate I|destruct I]. }
  split; [exact G|]. unfold reindex, index_at, show_index. rewrite Ei. cbn [ix_name ix_type ix_up ix_label]. auto.
Qed.

(** the printed form of an index *)
Definition printed (i : index) : Prop := exists r, good r /\ i = index_at (ix_type i) r (ix_up i).

Lemma printed_clean i : printed i -> clean i.
Proof. intros (r & G & ->). now apply clean_at. Qed.

Lemma printed_show i : printed i -> ix_label i = show_index i.
Proof. intros (r & G & ->). reflexivity. Qed.

Lemma printed_new i : printed i -> new_index (show_index i) = Ok i.
Proof. intros (r & G & ->). now apply new_index_at. Qed.

Lemma printed_reindex i : printed i -> reindex i = i.
Proof. intros (r & G & ->). reflexivity. Qed.

Lemma reindex_printed i : clean i -> printed (reindex i).
Proof. intros C. destruct (clean_at_iff i C) as (r & G & N & E). exists r. split; [exact G|]. rewrite E. reflexivity. Qed.

Lemma reindex_slot i : slot (reindex i) = slot i.
Proof. reflexivity. Qed.

Lemma printed_eq i j : printed i -> printed j -> slot i = slot j -> i = j.
Proof. intros (r & G & E) (s & H & F) S. injection S as S1 S2 S3. rewrite E, F, S2, S3. rewrite E, F in S1. cbn in S1. injection S1 as S0 S1. now rewrite S1. Qed.

Lemma map_reindex_printed l : Forall printed l -> map reindex l = l.
Proof. induction 1 as [|i l P F IH]; [reflexivity|]. cbn [map]. now rewrite printed_reindex, IH. Qed.

Lemma printed_tokens l : Forall printed l -> mapM new_index (split_ws (join (lit " ") (map show_index l))) = Ok l.
Proof.
  intros F. rewrite <- (clean_tokens l); [|eapply Forall_impl; [|exact F]; exact printed_clean]. 
  assert (E : map show_index l = map ix_label l) by (apply map_ext_in; intros i I; rewrite Forall_forall in F; symmetry; apply printed_show, F, I).
  now rewrite E.
Qed.

(** ** Colour negated, isospin unchanged, Lorentz exchanged *)

Lemma neg_at t r up : good r -> neg_index (index_at t r up) = Ok (index_at t r (negb up)).
Proof.
  intros G. unfold neg_index. cbn [ix_up ix_label index_at]. destruct up; cbn [app tl].
  - exact (new_index_at t r false G).
  - exact (new_index_at t r true G).
Qed.

Lemma replace_good a b r : lower_char b = b -> b <> " "%char -> good r -> good (replace_char a b r).
Proof.
  intros Lb Nb [L N]. split.
  - unfold lower, replace_char in *. rewrite map_map. rewrite <- L at 2. rewrite map_map. clear N.
    revert L. induction r as [|c r IH]; intros L; [reflexivity|]. cbn [map] in *. injection L as Lc L. rewrite IH by exact L. f_equal.
    rewrite Lc. destruct (Ascii.eqb c a); [exact Lb|exact Lc].
  - unfold replace_char. intros I. apply in_map_iff in I as (c & E & I). destruct (Ascii.eqb c a); [auto|subst; auto].
Qed.

Lemma conj_lorentz_at t r : lorentz_type t -> good r ->
  conj_index (index_at t r true) = Ok (index_at (conj_type t) (replace_char (letter t) (letter (conj_type t)) r) true).
Proof.
  intros Ht G.
  assert (G' : good (replace_char (letter t) (letter (conj_type t)) r)) by (apply replace_good; [apply letter_low|now destruct t|exact G]).
  destruct Ht as [-> | ->]; unfold conj_index; cbn [ix_type ix_label index_at app]; rewrite <- (new_index_at _ _ true G'); reflexivity.
Qed.

Definition flip (i : index) : index := index_at (ix_type i) (tl (ix_name i)) (negb (ix_up i)).

Lemma flip_printed i : printed i -> printed (flip i).
Proof. intros (r & G & ->). exists r. split; [exact G|reflexivity]. Qed.

Lemma flip_counterpart i : printed i -> counterpart i (flip i).
Proof. intros (r & G & ->). repeat split. Qed.

Lemma flip_flip i : printed i -> flip (flip i) = i.
Proof. intros (r & G & E). rewrite E. unfold flip. cbn. now rewrite negb_involutive. Qed.

Lemma flip_neg i : printed i -> neg_index i = Ok (flip i).
Proof. intros (r & G & ->). now apply neg_at. Qed.

Lemma conj_colours l : Forall printed l -> (forall i, In i l -> ix_type i = Colour) -> mapM conj_index l = Ok (map flip l).
Proof.
  induction 1 as [|i l P F IH]; intros H; [reflexivity|]. cbn [mapM map]. unfold conj_index at 1. rewrite (H i) by now left.
  rewrite flip_neg by exact P. cbn [bind]. rewrite IH by (intros; apply H; now right). reflexivity.
Qed.

Lemma conj_isospins l : (forall i, In i l -> ix_type i = Isospin) -> mapM conj_index l = Ok l.
Proof.
  induction l as [|i l IH]; intros H; [reflexivity|]. cbn [mapM]. unfold conj_index at 1. rewrite (H i) by now left. cbn [bind].
  now rewrite IH by (intros; apply H; now right).
Qed.

Lemma mapM_app_ok {A B} (f : A -> res B) l l' r r' : mapM f l = Ok r -> mapM f l' = Ok r' -> mapM f (l ++ l') = Ok (r ++ r').
Proof.
  revert r. induction l as [|x l IH]; intros r E E'; [injection E as <-; exact E'|]. cbn [mapM app] in *.
  apply bind_ok in E as (y & Ey & E). apply bind_ok in E as (ys & Eys & E). injection E as <-. rewrite Ey. cbn [bind]. now rewrite (IH _ Eys E').
Qed.

(** ** Gauge and Lorentz indices in the order of a field: at most one Lorentz index, colour, isospin *)

Record arranged (z c s : list index) : Prop := mkArr
  { ar_printed : Forall printed (z ++ c ++ s);
    ar_lorentz : z = [] \/ exists i, z = [i] /\ lorentz_type (ix_type i) /\ ix_up i = true;
    ar_colour : forall i, In i c -> ix_type i = Colour;
    ar_isospin : forall i, In i s -> ix_type i = Isospin /\ ix_up i = true;
    ar_few : forall t up, t <> Generation -> count_kind t up (z ++ c ++ s) < 10 }.

Lemma by_type_app t a b : by_type t (a ++ b) = by_type t a ++ by_type t b.
Proof. rewrite !by_type_has. apply filter_app. Qed.

Lemma by_type_all t l : (forall i, In i l -> ix_type i = t) -> by_type t l = l.
Proof. intros H. rewrite by_type_has. apply filter_all. intros i I. apply has_type_iff. auto. Qed.

Lemma by_type_none t l : (forall i, In i l -> ix_type i <> t) -> by_type t l = [].
Proof. intros H. rewrite by_type_has. apply filter_none. intros i I. destruct (has_type t i) eqn:E; [|reflexivity]. apply has_type_iff in E. destruct (H i I E). Qed.

Section Arranged.
  Variables z c s : list index.
  Hypothesis A : arranged z c s.

  Lemma arr_z_type i : In i z -> lorentz_type (ix_type i) /\ ix_up i = true.
  Proof. destruct (ar_lorentz _ _ _ A) as [-> | (j & -> & T & U)]; intros []; [subst; auto|destruct H]. Qed.

  Lemma arr_by_lorentz : by_type Undotted (z ++ c ++ s) ++ by_type Dotted (z ++ c ++ s) = z.
  Proof.
    rewrite !by_type_app.
    rewrite (by_type_none Undotted c), (by_type_none Dotted c) by (intros i I; rewrite (ar_colour _ _ _ A i I); discriminate).
    rewrite (by_type_none Undotted s), (by_type_none Dotted s) by (intros i I; destruct (ar_isospin _ _ _ A i I) as [-> _]; discriminate).
    rewrite !app_nil_r. destruct (ar_lorentz _ _ _ A) as [-> | (j & -> & [T|T] & U)]; [reflexivity| |];
      rewrite !by_type_has; cbn [filter]; unfold has_type; rewrite T; reflexivity.
  Qed.

  Lemma arr_by_colour : by_type Colour (z ++ c ++ s) = c.
  Proof.
    rewrite !by_type_app, (by_type_all Colour c) by exact (ar_colour _ _ _ A).
    rewrite (by_type_none Colour z), (by_type_none Colour s); [now rewrite app_nil_r| |].
    - intros i I. destruct (ar_isospin _ _ _ A i I) as [-> _]; discriminate.
    - intros i I. destruct (arr_z_type i I) as [[-> | ->] _]; discriminate.
  Qed.

  Lemma arr_by_isospin : by_type Isospin (z ++ c ++ s) = s.
  Proof.
    rewrite !by_type_app, (by_type_all Isospin s) by (intros i I; apply (ar_isospin _ _ _ A i I)).
    rewrite (by_type_none Isospin z), (by_type_none Isospin c); [reflexivity| |].
    - intros i I. rewrite (ar_colour _ _ _ A i I); discriminate.
    - intros i I. destruct (arr_z_type i I) as [[-> | ->] _]; discriminate.
  Qed.

  Lemma arr_kinds : forallb kinds_ok (z ++ c ++ s) = true.
  Proof.
    apply forallb_forall. intros i I. unfold kinds_ok. rewrite !in_app_iff in I. destruct I as [I|[I|I]].
    - destruct (arr_z_type i I) as [_ ->]. reflexivity.
    - rewrite (ar_colour _ _ _ A i I). cbn. now rewrite orb_true_r.
    - destruct (ar_isospin _ _ _ A i I) as [_ ->]. reflexivity.
  Qed.

  Lemma arr_no_gen : filter is_generation (z ++ c ++ s) = [].
  Proof.
    apply filter_none. intros i I. unfold is_generation. rewrite !in_app_iff in I. destruct I as [I|[I|I]].
    - destruct (arr_z_type i I) as [[-> | ->] _]; reflexivity.
    - now rewrite (ar_colour _ _ _ A i I).
    - destruct (ar_isospin _ _ _ A i I) as [-> _]. reflexivity.
  Qed.

  Lemma arr_split : Forall printed z /\ Forall printed c /\ Forall printed s.
  Proof. pose proof (ar_printed _ _ _ A) as F. apply Forall_app in F as [Fz F]. apply Forall_app in F as [Fc Fs]. auto. Qed.
End Arranged.

Lemma count_kind_app t up a b : count_kind t up (a ++ b) = count_kind t up a + count_kind t up b.
Proof. unfold count_kind. now rewrite filter_app, app_length. Qed.

Lemma count_flip t up l : (forall i, In i l -> ix_type i = Colour) ->
  count_kind t up (map flip l) = count_kind t (negb up) l.
Proof.
  induction l as [|i l IH]; intros H; [reflexivity|]. cbn [map]. rewrite !count_kind_cons, IH by (intros; apply H; now right). f_equal.
  unfold flip. cbn [ix_type ix_up index_at]. destruct (itype_eqb (ix_type i) t); [|reflexivity]. cbn [andb]. now destruct (ix_up i), up.
Qed.

Lemma arranged_flip z c s : arranged z c s -> arranged z (map flip c) s.
Proof.
  intros A. destruct (arr_split _ _ _ A) as (Fz & Fc & Fs). constructor.
  - apply Forall_app. split; [exact Fz|]. apply Forall_app. split; [|exact Fs]. apply Forall_map. eapply Forall_impl; [|exact Fc]. exact flip_printed.
  - exact (ar_lorentz _ _ _ A).
  - intros i I. apply in_map_iff in I as (j & <- & J). exact (ar_colour _ _ _ A j J).
  - exact (ar_isospin _ _ _ A).
  - intros t up N. pose proof (ar_few _ _ _ A) as B. rewrite !count_kind_app, count_flip by exact (ar_colour _ _ _ A).
    assert (Z : forall l t', (forall i, In i l -> ix_type i <> t') -> forall up, count_kind t' up l = 0).
    { clear. induction l as [|i l IH]; intros t' H up; [reflexivity|]. rewrite count_kind_cons, IH by (intros; apply H; now right).
      destruct (itype_eqb (ix_type i) t') eqn:E; [apply itype_decides in E; destruct (H i); auto; now left|reflexivity]. }
    destruct (itype_eqb t Colour) eqn:E.
    + apply itype_decides in E. subst t. specialize (B Colour (negb up) ltac:(discriminate)). rewrite !count_kind_app in B.
      rewrite (Z z), (Z s) in *; [lia| | | |]; intros i I; try (destruct (ar_isospin _ _ _ A i I) as [-> _]; discriminate);
        destruct (arr_z_type _ _ _ A i I) as [[-> | ->] _]; discriminate.
    + specialize (B t up N). rewrite !count_kind_app in B. rewrite (Z c t) by (intros i I X; rewrite (ar_colour _ _ _ A i I) in X; subst t; discriminate E). lia.
Qed.

(** ** Making fields *)

Definition dyn (l : list index) : str :=
  five (count_kind Undotted true l) (count_kind Dotted true l) (count_kind Colour true l) (count_kind Colour false l) (count_kind Isospin true l).

Definition sym_of (l : list index) : list (list nat) :=
  symmetry_of [count_kind Undotted true l; count_kind Dotted true l; count_kind Colour true l; count_kind Colour false l; count_kind Isospin true l].

Lemma count_total l : forallb kinds_ok l = true -> filter is_generation l = [] ->
  count_kind Undotted true l + (count_kind Dotted true l + (count_kind Colour true l + (count_kind Colour false l + count_kind Isospin true l))) = List.length l.
Proof.
  induction l as [|i l IH]; intros K G; [reflexivity|]. cbn [forallb filter] in *. apply andb_true_iff in K as [Ki K].
  unfold is_generation in G at 1. unfold kinds_ok in Ki. rewrite !count_kind_cons. cbn [List.length].
  destruct (ix_type i), (ix_up i); try discriminate Ki; cbn [itype_eqb] in G; try discriminate G; cbn [itype_eqb Bool.eqb andb]; rewrite <- IH by assumption; lia.
Qed.

Definition charges_or (ch : option charges) : charges := match ch with None => default_charges | Some c => dupdate str_eqb default_charges c end.
Definition latex_or (latex : option str) (label : str) : res str := match latex with Some x => Ok x | None => to_tex label end.

Lemma arr_dynkin z c s : arranged z c s -> get_dynkin (z ++ c ++ s) = Ok (dyn (z ++ c ++ s)).
Proof.
  intros A. pose proof (ar_few _ _ _ A) as B. rewrite (get_dynkin_ok _ (arr_kinds _ _ _ A)). rewrite !show_nat_digit by (apply B; discriminate). unfold dyn, five. cbn [app]. reflexivity.
Qed.

Lemma arr_digits z c s : arranged z c s -> mapM digit_of (dyn (z ++ c ++ s)) =
  Ok [count_kind Undotted true (z ++ c ++ s); count_kind Dotted true (z ++ c ++ s); count_kind Colour true (z ++ c ++ s);
      count_kind Colour false (z ++ c ++ s); count_kind Isospin true (z ++ c ++ s)].
Proof. intros A. pose proof (ar_few _ _ _ A) as B. unfold dyn. rewrite digits_five by (apply B; discriminate). reflexivity. Qed.

Lemma arr_rank z c s : arranged z c s -> rank (sym_of (z ++ c ++ s)) = List.length (z ++ c ++ s).
Proof.
  intros A. unfold sym_of. rewrite rank_symmetry_of. cbn [list_sum fold_right]. rewrite Nat.add_0_r.
  apply count_total; [exact (arr_kinds _ _ _ A)|exact (arr_no_gen _ _ _ A)].
Qed.

Lemma arr_no_gen' z c s : arranged z c s -> existsb is_generation (z ++ c ++ s) = false.
Proof.
  intros A. destruct (existsb is_generation (z ++ c ++ s)) eqn:E; [|reflexivity]. apply existsb_exists in E as (i & I & G).
  assert (X : In i (filter is_generation (z ++ c ++ s))) by (apply filter_In; auto). rewrite (arr_no_gen _ _ _ A) in X. destruct X.
Qed.

Definition made (label : str) (l : list index) (ch : charges) (conj : bool) (comm latex : str) (sym : list (list nat)) (lab : idx_arg) : ifield :=
  mkIField (mkField label (dyn l) ch conj comm sym None 1 latex 1 0 None) l lab.

Lemma sum_ones n : list_sum (repeat 1 n) = n.
Proof. induction n as [|n IH]; [reflexivity|]. change (1 + list_sum (repeat 1 n) = S n). now rewrite IH. Qed.

Lemma mk_made label a ch conj sym comm latex lx z c s :
  arranged z c s -> arg_indices a = Ok (z ++ c ++ s) -> latex_or latex label = Ok lx ->
  (forall m, sym = Some m -> rank m = List.length (z ++ c ++ s)) ->
  mk_ifield (mkIargs label a ch conj sym comm latex 1 0 None) =
  Ok (made label (z ++ c ++ s) (charges_or ch) conj comm lx (match sym with Some m => m | None => sym_of (z ++ c ++ s) end) (arg_after a)).
Proof.
  intros A E L R. unfold mk_ifield. cbn [a_indices a_symmetry a_label a_charges a_is_conj a_comm a_latex a_nf a_derivs a_stripped].
  rewrite E. cbn [bind]. rewrite (arr_no_gen' _ _ _ A). rewrite Nat.sub_0_r, app_nil_r.
  assert (S : list_sum (map list_sum (match sym with Some m => m | None => match z ++ c ++ s with [] => [] | _ => [repeat 1 (List.length (z ++ c ++ s))] end end)) =? List.length (z ++ c ++ s) = true).
  { apply Nat.eqb_eq. destruct sym as [m|]; [exact (R m eq_refl)|]. clear. destruct (z ++ c ++ s) as [|i l]; [reflexivity|].
    change (list_sum (repeat 1 (List.length (i :: l))) + 0 = List.length (i :: l)). now rewrite Nat.add_0_r, sum_ones. }
  rewrite S. cbn [assert_ bind]. rewrite (arr_dynkin _ _ _ A). cbn [bind]. unfold mk_field. unfold latex_or in L.
  destruct sym as [m|].
  - cbn [bind]. rewrite L. reflexivity.
  - rewrite (arr_digits _ _ _ A). cbn [bind]. rewrite L. reflexivity.
Qed.

Lemma made_ints label z c s ch conj comm lx m lab : arranged z c s ->
  dynkin_ints (i_field (made label (z ++ c ++ s) ch conj comm lx m lab)) =
  Ok [count_kind Undotted true (z ++ c ++ s); count_kind Dotted true (z ++ c ++ s); count_kind Colour true (z ++ c ++ s);
      count_kind Colour false (z ++ c ++ s); count_kind Isospin true (z ++ c ++ s)].
Proof. intros A. exact (arr_digits _ _ _ A). Qed.

Lemma arr_lorentz_counts z c s : arranged z c s ->
  count_kind Undotted true (z ++ c ++ s) + count_kind Dotted true (z ++ c ++ s) = List.length z.
Proof.
  intros A. rewrite <- (arr_by_lorentz _ _ _ A) at 3. rewrite app_length.
  assert (H : forall t, lorentz_type t -> count_kind t true (z ++ c ++ s) = List.length (by_type t (z ++ c ++ s))).
  { intros t Ht. rewrite by_type_has. unfold count_kind. f_equal. apply filter_ext_in. intros i I.
    assert (U : ix_type i = t -> ix_up i = true).
    { intros T. pose proof (arr_kinds _ _ _ A) as K. rewrite forallb_forall in K. specialize (K i I). unfold kinds_ok in K.
      rewrite T in K. destruct Ht as [-> | ->]; cbn in K; destruct (ix_up i); auto. }
    destruct (has_type t i) eqn:E.
    - apply has_type_iff in E. rewrite (U E), E. now destruct t.
    - unfold has_type in E. destruct (ix_type i), t; try reflexivity; discriminate E. }
  rewrite !H by (red; auto). reflexivity.
Qed.

Lemma made_fermion label z c s ch conj comm lx m lab : arranged z c s ->
  is_fermion (i_field (made label (z ++ c ++ s) ch conj comm lx m lab)) = Ok (match z with [] => false | _ => true end).
Proof.
  intros A. unfold is_fermion, is_boson, lorentz_irrep. rewrite (made_ints _ _ _ _ _ _ _ _ _ _ A). cbn [bind firstn list_sum fold_right].
  rewrite Nat.add_0_r, (arr_lorentz_counts _ _ _ A). destruct (ar_lorentz _ _ _ A) as [-> | (i & -> & _)]; reflexivity.
Qed.

Lemma made_scalar label z c s ch conj comm lx m lab : arranged z c s ->
  is_scalar (i_field (made label (z ++ c ++ s) ch conj comm lx m lab)) = Ok (match z with [] => true | _ => false end).
Proof.
  intros A. unfold is_scalar, lorentz_irrep. rewrite (made_ints _ _ _ _ _ _ _ _ _ _ A). cbn [bind firstn].
  pose proof (arr_lorentz_counts _ _ _ A) as L. destruct (ar_lorentz _ _ _ A) as [-> | (i & -> & _)]; cbn [List.length] in L.
  - destruct (count_kind Undotted true _), (count_kind Dotted true _); try discriminate L. reflexivity.
  - destruct (count_kind Undotted true _) as [|[|]], (count_kind Dotted true _) as [|[|]]; try discriminate L; reflexivity.
Qed.

(** colour real, integer isospin, no hypercharge *)
Definition real_rep (l : list index) (y : Qc) : bool :=
  nats_eqb [count_kind Colour true l; count_kind Colour false l] [count_kind Colour false l; count_kind Colour true l] &&
  (count_kind Isospin true l mod 2 =? 0) && (if Qc_eq_dec y 0 then true else false).

Lemma made_real label z c s ch conj comm lx m lab y : arranged z c s -> dget str_eqb ch (lit "y") = Some y ->
  is_real_sm_irrep (i_field (made label (z ++ c ++ s) ch conj comm lx m lab)) = Ok (real_rep (z ++ c ++ s) y).
Proof.
  intros A Y. unfold is_real_sm_irrep, colour_irrep, isospin_irrep, sm_irrep. rewrite (made_ints _ _ _ _ _ _ _ _ _ _ A). cbn [bind firstn skipn].
  unfold field_y, dgetM. cbn [f_charges made i_field]. rewrite Y. reflexivity.
Qed.

Lemma real_colour l y : real_rep l y = true -> count_kind Colour true l = count_kind Colour false l /\ y = 0%Qc.
Proof.
  unfold real_rep. rewrite !andb_true_iff. intros [[H _] Y]. apply nats_decides in H. split; [congruence|]. now destruct (Qc_eq_dec y 0).
Qed.

Definition class_comm (k : cls) : str :=
  match k with ComplexScalar | RealScalar => lit "bose" | MajoranaFermion | DiracFermion _ => lit "fermi" | Plain => lit "0" end.

Definition class_fits (k : cls) (z : list index) : Prop :=
  match k with ComplexScalar | RealScalar => z = [] | MajoranaFermion | DiracFermion _ => z <> [] | Plain => True end.

Definition arg_of (ind : tindices) : idx_arg := match ind with TStr s => AStr s | TList l | TTuple l => AIdxs l end.
Definition lab_of (ind : tindices) : idx_arg :=
  match ind with TStr s => AStr s | TList l => AStr (join (lit " ") (map show_index l)) | TTuple l => AIdxs (map reindex l) end.

Definition real_class (k : cls) : Prop := k = RealScalar \/ k = MajoranaFermion.

Lemma str_app_cons (a b : ascii) (r : str) : [a; b] ++ r = a :: b :: r. Proof. reflexivity. Qed.

Lemma real_rep_assert a b p e ch : (forall cc, ch = Some cc -> forall y, dget str_eqb cc (lit "y") = Some y -> y = 0%Qc) ->
  assert_real_rep (five a b p p e) ch = Ok tt.
Proof.
  intros Y. unfold assert_real_rep.
  assert (F : assert_ (str_eqb (firstn 2 (skipn 2 (five a b p p e))) (rev (firstn 2 (skipn 2 (five a b p p e))))) = Ok tt).
  { unfold five. cbn [skipn firstn rev app]. now rewrite (decides_refl str_decides). }
  destruct ch as [[|q cc]|]; cbn [bind]; try exact F.
  destruct (dget str_eqb (q :: cc) (lit "y")) as [y|] eqn:D; [|exact F]. rewrite (Y _ eq_refl y D).
  destruct (Qc_eq_dec 0 0) as [_|N]; [exact F|now destruct N].
Qed.

Lemma mk_typed_ok k label ind ch latex lx conj sym z c s :
  arranged z c s -> arg_indices (arg_of ind) = Ok (z ++ c ++ s) -> latex_or latex label = Ok lx -> class_fits k z ->
  (forall m, sym = Some m -> rank m = List.length (z ++ c ++ s)) ->
  (real_class k -> count_kind Colour true (z ++ c ++ s) = count_kind Colour false (z ++ c ++ s) /\
                   forall cc, ch = Some cc -> forall y, dget str_eqb cc (lit "y") = Some y -> y = 0%Qc) ->
  mk_typed k label ind ch latex conj sym =
  Ok (mkCF k (made label (z ++ c ++ s) (charges_or ch) conj (class_comm k) lx (sym_of (z ++ c ++ s)) (lab_of ind))).
Proof.
  intros A E L K R Re. unfold mk_typed. fold (arg_of ind). rewrite E. cbn [bind]. rewrite (arr_no_gen' _ _ _ A).
  assert (S : forall m, sym = Some m -> assert_ (list_sum (map list_sum (m ++ (if false then [[1]] else []))) =? List.length (z ++ c ++ s)) = Ok tt).
  { intros m Hm. rewrite app_nil_r. pose proof (R m Hm) as Rm. unfold rank in Rm. rewrite Rm, Nat.eqb_refl. reflexivity. }
  destruct sym as [m|]; [rewrite (S m eq_refl)|]; cbn [bind]; clear S.
  all: fold (class_comm k).
  all: rewrite (mk_made label (arg_of ind) ch conj None (class_comm k) latex lx z c s A E L) by discriminate; cbn [bind].
  all: set (x := match ind with TStr _ => _ | TList _ => _ | TTuple _ => _ end).
  all: assert (X : x = made label (z ++ c ++ s) (charges_or ch) conj (class_comm k) lx (sym_of (z ++ c ++ s)) (lab_of ind)) by (subst x; destruct ind; reflexivity).
  all: rewrite X; clear x X.
  all: rewrite (made_fermion _ _ _ _ _ _ _ _ _ _ A), (made_scalar _ _ _ _ _ _ _ _ _ _ A).
  all: assert (AR : real_class k -> assert_real_rep (f_dynkin (i_field (made label (z ++ c ++ s) (charges_or ch) conj (class_comm k) lx (sym_of (z ++ c ++ s)) (lab_of ind)))) ch = Ok tt).
  1,3: intros RC; destruct (Re RC) as [Rc Ry]; cbn [f_dynkin made i_field]; unfold dyn; rewrite Rc; apply real_rep_assert, Ry.
  all: destruct k; cbn [class_fits] in K; try subst z; cbn [bind assert_]; try reflexivity.
  all: try (rewrite AR by (red; auto); reflexivity).
  all: destruct z as [|z0 z]; [congruence|]; cbn [bind assert_]; try reflexivity; rewrite AR by (red; auto); reflexivity.
Qed.

(** ** Classes *)

(** dictionaries with hypercharge and baryon number only *)
Definition two (y b : Qc) : charges := [(lit "y", y); (lit "3b", b)].

Lemma two_proper y b : proper (two y b).
Proof.
  exists y, b, []. split; [reflexivity|]. cbn. constructor; [|constructor; [|constructor]]; [|intros []]. intros [E|[]]. discriminate E.
Qed.

Lemma two_or y b : charges_or (Some (two y b)) = two y b.
Proof. apply proper_update, two_proper. Qed.

Lemma two_y y b : dget str_eqb (two y b) (lit "y") = Some y.
Proof. reflexivity. Qed.

Lemma two_neg y b : neg_charges (two y b) = two (- y)%Qc (- b)%Qc.
Proof. reflexivity. Qed.

Definition class_for (z : list index) (real : bool) (u : option bool) : cls :=
  match z with
  | [] => if real then RealScalar else ComplexScalar
  | _ => if real then MajoranaFermion else DiracFermion (match u with Some b => b | None => true end)
  end.

Lemma printed_arg l : Forall printed l -> arg_indices (AIdxs l) = Ok l.
Proof. intros F. cbn [arg_indices]. now rewrite map_reindex_printed. Qed.

Lemma cons_ok label z c s y b conj cm lx m lab u : arranged z c s ->
  exists conj' lab', cons_completion_field (made label (z ++ c ++ s) (two y b) conj cm lx m lab) u =
    Ok (mkCF (class_for z (real_rep (z ++ c ++ s) y) u)
          (made label (z ++ c ++ s) (two y b) conj' (class_comm (class_for z (real_rep (z ++ c ++ s) y) u)) lx (sym_of (z ++ c ++ s)) lab')) /\
    (class_for z (real_rep (z ++ c ++ s) y) u <> RealScalar -> conj' = conj).
Proof.
  intros A. unfold cons_completion_field.
  rewrite (made_fermion _ _ _ _ _ _ _ _ _ _ A), (made_scalar _ _ _ _ _ _ _ _ _ _ A), (made_real _ _ _ _ _ _ _ _ _ _ _ A (two_y y b)).
  cbn [bind f_label f_charges f_latex f_is_conj i_indices i_field made].
  assert (Ar : arg_indices (arg_of (TList (z ++ c ++ s))) = Ok (z ++ c ++ s)) by (apply printed_arg, (ar_printed _ _ _ A)).
  assert (Rk : forall k, real_class k -> real_rep (z ++ c ++ s) y = true ->
     count_kind Colour true (z ++ c ++ s) = count_kind Colour false (z ++ c ++ s) /\
     forall cc, Some (two y b) = Some cc -> forall y0, dget str_eqb cc (lit "y") = Some y0 -> y0 = 0%Qc).
  { intros k _ R. apply real_colour in R as [R ->]. split; [exact R|]. intros cc [= <-] y0 [= <-]. reflexivity. }
  destruct (ar_lorentz _ _ _ A) as [-> | (i & -> & T & U)]; cbn [class_for].
  - destruct (real_rep ([] ++ c ++ s) y) eqn:R; cbn [bind].
    + rewrite (mk_typed_ok _ _ _ _ (Some lx) lx _ _ [] c s A Ar eq_refl); [rewrite two_or; eexists; eexists; split; [reflexivity|congruence]|reflexivity|discriminate|].
      intros K. now apply (Rk _ K).
    + rewrite (mk_typed_ok _ _ _ _ (Some lx) lx _ _ [] c s A Ar eq_refl); [rewrite two_or; eexists; eexists; split; reflexivity|reflexivity|discriminate|].
      intros [K|K]; discriminate K.
  - destruct (real_rep ([i] ++ c ++ s) y) eqn:R; cbn [bind].
    + rewrite (mk_typed_ok _ _ _ _ (Some lx) lx _ _ [i] c s A Ar eq_refl); [rewrite two_or; eexists; eexists; split; reflexivity|discriminate|discriminate|].
      intros K. now apply (Rk _ K).
    + rewrite (mk_typed_ok _ _ _ _ (Some lx) lx _ _ [i] c s A Ar eq_refl); [rewrite two_or; eexists; eexists; split; reflexivity|discriminate|discriminate|].
      intros [K|K]; discriminate K.
Qed.

Lemma swapped_ok label z c s ch conj cm lx m lab : arranged z c s ->
  swapped_indices (made label (z ++ c ++ s) ch conj cm lx m lab) = Ok (z ++ map flip c ++ s).
Proof.
  intros A. destruct (arr_split _ _ _ A) as (Fz & Fc & Fs). unfold swapped_indices. cbn [i_indices made].
  rewrite (arr_by_colour _ _ _ A), (arr_by_isospin _ _ _ A), (conj_colours c Fc (ar_colour _ _ _ A)). cbn [bind].
  rewrite app_assoc, (arr_by_lorentz _ _ _ A). reflexivity.
Qed.

Lemma length_flip z c s : List.length (z ++ map flip c ++ s) = List.length (z ++ c ++ s).
Proof. now rewrite !app_length, map_length. Qed.

Lemma flip_rank z c s : arranged z c s -> forall m, Some (sym_of (z ++ c ++ s)) = Some m -> rank m = List.length (z ++ map flip c ++ s).
Proof. intros A m [= <-]. rewrite length_flip. apply arr_rank, A. Qed.

Lemma colour_none_z z c s up : arranged z c s -> count_kind Colour up (z ++ c ++ s) = count_kind Colour up c.
Proof.
  intros A. rewrite !count_kind_app.
  assert (N : forall l, (forall i, In i l -> ix_type i <> Colour) -> count_kind Colour up l = 0).
  { clear. induction l as [|i l IH]; intros H; [reflexivity|]. rewrite count_kind_cons, IH by (intros; apply H; now right).
    destruct (itype_eqb (ix_type i) Colour) eqn:E; [apply itype_decides in E; destruct (H i); auto; now left|reflexivity]. }
  rewrite (N z), (N s); [lia| |]; intros i I; [destruct (ar_isospin _ _ _ A i I) as [-> _]; discriminate|].
  destruct (arr_z_type _ _ _ A i I) as [[-> | ->] _]; discriminate.
Qed.

Lemma flip_colours z c s up : arranged z c s -> count_kind Colour up (z ++ map flip c ++ s) = count_kind Colour (negb up) (z ++ c ++ s).
Proof.
  intros A. rewrite (colour_none_z _ _ _ _ (arranged_flip _ _ _ A)), (colour_none_z _ _ _ _ A). apply count_flip, (ar_colour _ _ _ A).
Qed.

(** indices of an arranged field, conjugated, when there is no Lorentz index *)
Lemma conj_text_gauge label c s ch conj cm lx m lab : arranged [] c s ->
  exists t, conj_indices_text (made label ([] ++ c ++ s) ch conj cm lx m lab) = Ok t /\ arg_indices (arg_of (TStr t)) = Ok ([] ++ map flip c ++ s).
Proof.
  intros A. destruct (arr_split _ _ _ A) as (_ & Fc & Fs). unfold conj_indices_text. cbn [i_indices made app].
  rewrite (mapM_app_ok conj_index c s _ _ (conj_colours c Fc (ar_colour _ _ _ A)) (conj_isospins s (fun i I => proj1 (ar_isospin _ _ _ A i I)))).
  cbn [bind]. eexists. split; [reflexivity|]. cbn [arg_of arg_indices]. apply clean_tokens.
  eapply Forall_impl; [exact printed_clean|]. apply (ar_printed _ _ _ (arranged_flip _ _ _ A)).
Qed.

Lemma partner_ok label z c s y b conj lx lab u k :
  arranged z c s -> k = class_for z (real_rep (z ++ c ++ s) y) u ->
  exists k' label' b' conj' lx' lab', (k' <> Plain /\ b' = if real_rep (z ++ c ++ s) y then Q2Qc 0 else (- b)%Qc) /\
    partner_of (mkCF k (made label (z ++ c ++ s) (two y b) conj (class_comm k) lx (sym_of (z ++ c ++ s)) lab)) =
    Ok (mkCF k' (made label' (z ++ map flip c ++ s) (two (- y)%Qc b') conj' (class_comm k') lx' (sym_of (z ++ map flip c ++ s)) lab')).
Proof.
  intros A Hk. pose proof (arranged_flip _ _ _ A) as A'.
  assert (Ar : arg_indices (arg_of (TTuple (z ++ map flip c ++ s))) = Ok (z ++ map flip c ++ s)) by (apply printed_arg, (ar_printed _ _ _ A')).
  assert (Z : real_rep (z ++ c ++ s) y = true -> charges_or None = two (- y)%Qc (Q2Qc 0)).
  { intros R. apply real_colour in R as [_ ->]. reflexivity. }
  assert (Re : forall k, real_class k -> real_rep (z ++ c ++ s) y = true ->
     count_kind Colour true (z ++ map flip c ++ s) = count_kind Colour false (z ++ map flip c ++ s) /\
     forall cc : charges, None = Some cc -> forall y0, dget str_eqb cc (lit "y") = Some y0 -> y0 = 0%Qc).
  { intros k0 _ R. apply real_colour in R as [R _]. split; [|discriminate]. rewrite !(flip_colours _ _ _ _ A). cbn [negb]. auto. }
  assert (L : forall lx' label', latex_or (Some lx') label' = Ok lx') by reflexivity.
  unfold class_for in Hk. destruct (ar_lorentz _ _ _ A) as [E | (i & E & T & U)].
  - destruct z; [|discriminate E]. clear E. destruct (real_rep ([] ++ c ++ s) y) eqn:R; subst k; unfold partner_of; cbn [cf_class].
    + unfold swap_colour_indices. cbn [cf_if]. rewrite (swapped_ok _ _ _ _ _ _ _ _ _ _ A). cbn [bind f_label f_latex f_is_conj f_symmetry i_field made].
      rewrite (mk_typed_ok _ _ _ _ (Some lx) lx _ _ [] (map flip c) s A' Ar (L _ _)); [|reflexivity|exact (flip_rank _ _ _ A)|intros K; now apply (Re _ K)].
      rewrite Z by reflexivity. do 6 eexists. split; [|reflexivity]. split; [discriminate|reflexivity].
    + unfold conj_typed. cbn [cf_class cf_if]. destruct (conj_text_gauge label c s (two y b) conj (class_comm ComplexScalar) lx (sym_of ([] ++ c ++ s)) lab A) as (t & Et & At).
      rewrite Et. cbn [bind]. cbn [f_label f_latex f_is_conj f_symmetry f_charges i_field made]. rewrite two_neg.
      rewrite (mk_typed_ok _ _ _ _ (Some lx) lx _ _ [] (map flip c) s A' At (L _ _)); [|reflexivity|exact (flip_rank _ _ _ A)|intros [K|K]; discriminate K].
      rewrite two_or. do 6 eexists. split; [|reflexivity]. split; [discriminate|reflexivity].
  - assert (Ne : z <> []) by (rewrite E; discriminate). 
    assert (Hk' : k = if real_rep (z ++ c ++ s) y then MajoranaFermion else DiracFermion (match u with Some b0 => b0 | None => true end)).
    { rewrite E in Hk |- *. exact Hk. } clear Hk E T U i.
    destruct (real_rep (z ++ c ++ s) y) eqn:R; subst k; unfold partner_of; cbn [cf_class].
    + unfold swap_colour_indices. cbn [cf_if]. rewrite (swapped_ok _ _ _ _ _ _ _ _ _ _ A). cbn [bind f_label f_latex f_is_conj f_symmetry i_field made].
      rewrite (mk_typed_ok _ _ _ _ (Some lx) lx _ _ z (map flip c) s A' Ar (L _ _)); [|exact Ne|exact (flip_rank _ _ _ A)|intros K; now apply (Re _ K)].
      rewrite Z by reflexivity. do 6 eexists. split; [|reflexivity]. split; [discriminate|reflexivity].
    + set (u0 := match u with Some _ => _ | None => _ end). unfold dirac_partner. cbn [cf_if]. rewrite (swapped_ok _ _ _ _ _ _ _ _ _ _ A).
      cbn [bind f_label f_latex f_is_conj f_symmetry f_charges i_field made]. rewrite two_neg.
      rewrite (mk_typed_ok _ _ _ _ (Some lx) lx _ _ z (map flip c) s A' Ar (L _ _)); [|exact Ne|exact (flip_rank _ _ _ A)|intros [K|K]; discriminate K].
      rewrite two_or. do 6 eexists. split; [|reflexivity]. split; [discriminate|reflexivity].
Qed.

(** ** Lowering *)

Definition hat (i : index) : index := index_at (ix_type i) (tl (ix_name i) ++ lit "^") true.
Definition hat_eps (i : index) : symbol := Metric (ix_type i) [flip (hat i); flip i].

Lemma good_hat r : good r -> good (r ++ lit "^").
Proof. intros [L N]. split; [rewrite lower_app, L; reflexivity|]. intros I. apply in_app_iff in I as [I|[I|[]]]; [auto|discriminate I]. Qed.

Lemma hat_printed i : printed i -> printed (hat i).
Proof. intros (r & G & ->). exists (r ++ lit "^"). split; [now apply good_hat|reflexivity]. Qed.

Lemma hat_new i : printed i -> ix_up i = true -> new_index (show_index i ++ lit "^") = Ok (hat i) /\ show_index i ++ lit "^" = show_index (hat i).
Proof.
  intros P U. pose proof (printed_new _ (hat_printed i P)) as E.
  assert (S : show_index i ++ lit "^" = show_index (hat i)).
  { destruct P as (r & G & X). unfold show_index. rewrite U. cbn [ix_up hat ix_name index_at app]. rewrite X. reflexivity. }
  split; [now rewrite S|exact S].
Qed.

Lemma hat_eps_ok i : printed i -> ix_up i = true -> su2_type (ix_type i) ->
  eps (lit "-" ++ (show_index i ++ lit "^") ++ lit " -" ++ show_index i) = Ok (hat_eps i).
Proof.
  intros P U T. destruct (hat_new i P U) as [_ S]. rewrite S. unfold eps.
  assert (E : forall j, printed j -> ix_up j = true -> ix_label (flip j) = lit "-" ++ show_index j).
  { intros j (r & G & ->) Uj. cbn in Uj. cbn [flip ix_label index_at ix_type ix_name ix_up tl]. rewrite Uj. reflexivity. }
  assert (X : lit "-" ++ show_index (hat i) ++ lit " -" ++ show_index i = join (lit " ") (map ix_label [flip (hat i); flip i])).
  { cbn [map join]. rewrite !E by (auto using hat_printed); rewrite <- ?app_assoc; reflexivity. }
  rewrite X, clean_tokens by (repeat constructor; apply printed_clean, flip_printed; auto using hat_printed). cbn [bind].
  cbn [List.length forallb ix_up flip hat index_at ix_type negb]. rewrite U. cbn [negb]. unfold hat_eps.
  destruct T as [T|[T|T]]; rewrite T; reflexivity.
Qed.

Definition among (i : index) (l : list index) : bool := existsb (index_eqb i) l.
Definition hats (S l : list index) : list index := map (fun j => if among j S then hat j else j) l.

Lemma hats_nil l : hats [] l = l.
Proof. unfold hats. rewrite <- (map_id l) at 2. apply map_ext. reflexivity. Qed.

Lemma hats_none S l : (forall j, In j l -> among j S = false) -> hats S l = l.
Proof. intros H. unfold hats. rewrite <- (map_id l) at 2. apply map_ext_in. intros j J. now rewrite H. Qed.

Lemma hats_all S l : incl l S -> hats S l = map hat l.
Proof.
  intros H. unfold hats. apply map_ext_in. intros j J. assert (X : among j S = true); [|now rewrite X].
  apply existsb_exists. exists j. split; [now apply H|]. now apply ProofsContract.slot_eqb.
Qed.

Lemma arranged_hats S z c s : arranged z c s -> arranged (hats S z) c (hats S s).
Proof.
  intros A. destruct (arr_split _ _ _ A) as (Fz & Fc & Fs).
  assert (P : forall l, Forall printed l -> Forall printed (hats S l)).
  { intros l F. apply Forall_map. eapply Forall_impl; [|exact F]. intros j J. destruct (among j S); [now apply hat_printed|exact J]. }
  assert (K : forall l, (forall i, In i l -> ix_up i = true) -> forall t up, count_kind t up (hats S l) = count_kind t up l).
  { induction l as [|i l IH]; intros H t up; [reflexivity|]. cbn [hats map]. fold (hats S l). rewrite !count_kind_cons, IH by (intros; apply H; now right).
    destruct (among i S); [|reflexivity]. cbn [hat ix_type ix_up index_at]. now rewrite (H i) by now left. }
  constructor.
  - apply Forall_app. split; [auto|]. apply Forall_app. split; auto.
  - destruct (ar_lorentz _ _ _ A) as [-> | (i & -> & T & U)]; [now left|]. right. cbn [hats map]. eexists. split; [reflexivity|]. destruct (among i S); auto.
  - exact (ar_colour _ _ _ A).
  - intros i I. apply in_map_iff in I as (j & <- & J). destruct (ar_isospin _ _ _ A j J) as [T U]. destruct (among j S); auto.
  - intros t up N. rewrite !count_kind_app, !K; [rewrite <- !count_kind_app; exact (ar_few _ _ _ A t up N)| |].
    + intros i I. apply (ar_isospin _ _ _ A i I).
    + intros i I. apply (arr_z_type _ _ _ A i I).
Qed.

Lemma length_hats S l : List.length (hats S l) = List.length l.
Proof. apply map_length. Qed.

Lemma among_ext i j S : slot i = slot j -> among i S = among j S.
Proof. intros E. unfold among. induction S as [|k S IH]; [reflexivity|]. cbn [existsb]. rewrite IH. f_equal. apply eq_true_iff_eq. rewrite !ProofsContract.slot_eqb, E. reflexivity. Qed.

Section Lowering.
  Variables (z c s : list index) (y b : Qc) (label cm lx : str) (conj : bool) (m : list (list nat)).
  Hypothesis A : arranged z c s.
  Hypothesis Rm : rank m = List.length (z ++ c ++ s).
  (** no index is named like the lowered form of another one *)
  Hypothesis Fr : forall i j, In i (z ++ s) -> In j (z ++ s) -> slot (hat i) <> slot j.

  Lemma su2_of i : In i (z ++ s) -> printed i /\ ix_up i = true /\ su2_type (ix_type i).
  Proof.
    intros I. destruct (arr_split _ _ _ A) as (Fz & Fc & Fs). rewrite Forall_forall in Fz, Fs. apply in_app_iff in I as [I|I].
    - destruct (arr_z_type _ _ _ A i I) as [T U]. split; [auto|]. split; [exact U|]. red in T |- *. tauto.
    - destruct (ar_isospin _ _ _ A i I) as [T U]. split; [auto|]. split; [exact U|]. red. tauto.
  Qed.

  Lemma lower_fold todo : incl todo (z ++ s) -> forall S es lab, incl S (z ++ s) ->
    exists lab', foldM lower_one todo (made label (hats S z ++ c ++ hats S s) (two y b) conj cm lx m lab, es) =
      Ok (made label (hats (S ++ todo) z ++ c ++ hats (S ++ todo) s) (two y b) conj cm lx m lab', es ++ map hat_eps todo).
  Proof.
    induction todo as [|i todo IH]; intros Ht S es lab HS; [exists lab; cbn [foldM map]; now rewrite !app_nil_r|].
    destruct (su2_of i (Ht i (or_introl eq_refl))) as (P & U & T). destruct (hat_new i P U) as [En Es].
    cbn [foldM]. unfold lower_one at 1. cbn [fst snd]. rewrite En. cbn [bind]. unfold substituted_indices. cbn [i_indices made fold_left fst snd].
    set (new := map (fun k => if index_eqb i k then hat i else k) (hats S z ++ c ++ hats S s)).
    assert (Ei : forall k, printed k -> index_eqb i k = true -> k = i).
    { intros k Pk Q. apply ProofsContract.slot_eqb in Q. symmetry. now apply printed_eq. }
    destruct (arr_split _ _ _ A) as (Fz & Fc & Fs).
    assert (Hat : forall l, Forall printed l -> incl l (z ++ s) -> map (fun k => if index_eqb i k then hat i else k) (hats S l) = hats (S ++ [i]) l).
    { intros l Fl Il. unfold hats. rewrite map_map. apply map_ext_in. intros k K. rewrite Forall_forall in Fl.
      unfold among. rewrite existsb_app. cbn [existsb]. rewrite orb_false_r. fold (among k S). destruct (among k S); cbn [orb].
      - destruct (index_eqb i (hat k)) eqn:Q; [|reflexivity]. apply ProofsContract.slot_eqb in Q. exfalso. apply (Fr k i (Il k K) (Ht i (or_introl eq_refl))). auto.
      - destruct (index_eqb i k) eqn:Q.
        + pose proof (Ei k (Fl k K) Q) as ->. now rewrite Q.
        + destruct (index_eqb k i) eqn:Q'; [|reflexivity]. apply ProofsContract.slot_eqb in Q'. assert (Y : index_eqb i k = true) by now apply ProofsContract.slot_eqb. congruence. }
    assert (New : new = hats (S ++ [i]) z ++ c ++ hats (S ++ [i]) s).
    { subst new. rewrite !map_app, !Hat; auto; [|intros k K; apply in_app_iff; auto|intros k K; apply in_app_iff; auto]. do 2 f_equal.
      rewrite <- (map_id c) at 2. apply map_ext_in. intros k K. rewrite Forall_forall in Fc. destruct (index_eqb i k) eqn:Q; [|reflexivity].
      pose proof (Ei k (Fc k K) Q) as ->. pose proof (ar_colour _ _ _ A i K) as C. rewrite C in T. destruct T as [T|[T|T]]; discriminate T. }
    rewrite New. clear New new. cbn [made i_field f_label f_charges f_is_conj f_symmetry f_comm f_latex f_nf f_derivs f_stripped].
    pose proof (arranged_hats (S ++ [i]) _ _ _ A) as A2.
    rewrite (mk_made label (AIdxs _) (Some (two y b)) conj (Some m) cm (Some lx) lx _ _ _ A2 (printed_arg _ (ar_printed _ _ _ A2)) eq_refl).
    2:{ intros m' [= <-]. rewrite Rm, !app_length, !length_hats. reflexivity. }
    rewrite two_or. cbn [bind]. rewrite (hat_eps_ok i P U T). cbn [bind].
    assert (HS' : incl (S ++ [i]) (z ++ s)).
    { intros k K. apply in_app_iff in K as [K|[<-|[]]]; [now apply HS|]. apply Ht. now left. }
    destruct (IH (fun k K => Ht k (or_intror K)) (S ++ [i]) (es ++ [hat_eps i]) (arg_after (AIdxs (hats (S ++ [i]) z ++ c ++ hats (S ++ [i]) s))) HS') as (lab' & E').
    exists lab'. rewrite E'. rewrite <- !app_assoc. reflexivity.
  Qed.

  Lemma lower_ok k lab : k <> Plain -> exists k' conj' lab',
    lower_su2 (mkCF k (made label (z ++ c ++ s) (two y b) conj cm lx m lab)) (fun _ => false) =
    Ok (mkCF k' (made label (map hat z ++ c ++ map hat s) (two y b) conj' (class_comm k') lx (sym_of (map hat z ++ c ++ map hat s)) lab'),
        map hat_eps (z ++ s)).
  Proof.
    intros Nk. unfold lower_su2. cbn [cf_class cf_if i_indices made].
    rewrite (app_assoc (by_type Undotted _)), (arr_by_lorentz _ _ _ A), (arr_by_isospin _ _ _ A).
    rewrite filter_all by reflexivity.
    destruct (lower_fold (z ++ s) (incl_refl _) [] [] lab) as (lab' & E); [intros i []|].
    rewrite !hats_nil in E. cbn [app] in E.
    rewrite (hats_all (z ++ s) z), (hats_all (z ++ s) s) in E by (intros i I; apply in_app_iff; auto).
    pose proof (arranged_hats (z ++ s) _ _ _ A) as A2. rewrite (hats_all (z ++ s) z), (hats_all (z ++ s) s) in A2 by (intros i I; apply in_app_iff; auto).
    destruct k; try congruence; unfold made in E |- *; rewrite E; cbn [bind fst snd];
      match goal with |- context [cons_completion_field _ ?u] => destruct (cons_ok label _ _ _ y b conj cm lx m lab' u A2) as (conj' & lab'' & E' & _) end;
      unfold made in E'; rewrite E'; cbn [bind]; do 3 eexists; reflexivity.
  Qed.
End Lowering.
