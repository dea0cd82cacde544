(** * PropsParse: the components of an operator and its estimates (C46, C78) *)

From Coq Require Import Ascii String List Bool Arith ZArith Lia Permutation.
From Verif Require Import Base BaseFacts Spec Show ModelIndex ModelField ModelContract ModelClosures SpecClosures SpecParse ProofsText ProofsParse PropsClosures PropsClosures2.
From Verif Require ProofsContract ProofsIndex.
Import ListNotations.
Local Open Scope nat_scope.

(** ** Assembling *)

Definition ranges (k : nat) : list nat := repeat 2 (2 * k) ++ repeat 1 (8 - 2 * k).

Fixpoint take_pairs (k : nat) (vals : list nat) : list (nat * nat) :=
  match k, vals with
  | S k, a :: b :: vals => (a, b) :: take_pairs k vals
  | _, _ => []
  end.

Definition expand (ch : list bool) : list nat := flat_map (fun c : bool => if c then [0; 1] else [1; 0]) ch ++ repeat 0 (8 - 2 * List.length ch).

Definition leftover (vs : list (nat * nat)) : list (nat * nat) :=
  filter (fun ab => negb ((fst ab =? 1) && (snd ab =? 0))) (filter (fun ab => negb ((fst ab =? 0) && (snd ab =? 1))) vs).

Definition no_left (vs : list (nat * nat)) : bool := match leftover vs with [] => true | _ => false end.

Lemma select_choices k : k <= 4 -> filter (fun vals => no_left (take_pairs k vals)) (tuples (ranges k)) = map expand (choices k).
Proof. intros K. do 5 (destruct k as [|k]; [vm_compute; reflexivity|]). lia. Qed.

Lemma check_eps k : k <= 4 -> forallb (fun vals =>
   str_eqb (render (map_words (subst loop_names vals) (flat_map eps_toks (firstn k placeholders)))) (flat_map eps_text (take_pairs k vals)) &&
   forallb (fun ab => existsb (fun xy => (fst ab =? fst xy) && (snd ab =? snd xy)) [(0, 0); (0, 1); (1, 0); (1, 1)]) (take_pairs k vals) &&
   forallb (fun w => existsb (str_eqb (subst loop_names vals w)) [lit "0"; lit "1"]) loop_names) (tuples (ranges k)) = true.
Proof. intros K. do 5 (destruct k as [|k]; [vm_compute; reflexivity|]). lia. Qed.

Lemma eps_facts k vals : k <= 4 -> In vals (tuples (ranges k)) ->
  render (map_words (subst loop_names vals) (flat_map eps_toks (firstn k placeholders))) = flat_map eps_text (take_pairs k vals) /\
  Forall bits (take_pairs k vals) /\ forall w, is_placeholder w -> subst loop_names vals w = lit "0" \/ subst loop_names vals w = lit "1".
Proof.
  intros K I. pose proof (check_eps k K) as C. rewrite forallb_forall in C. specialize (C vals I). apply andb_true_iff in C as [C C3]. apply andb_true_iff in C as [C1 C2].
  apply str_decides in C1. split; [exact C1|]. rewrite forallb_forall in C2, C3. split.
  - apply Forall_forall. intros [a b] J. specialize (C2 _ J). apply existsb_exists in C2 as ([x y] & Ixy & E). apply andb_true_iff in E as [E1 E2].
    apply Nat.eqb_eq in E1, E2. cbn [fst snd] in E1, E2. subst a b. exact Ixy.
  - intros w P. specialize (C3 w P). apply existsb_exists in C3 as (t & It & E). apply str_decides in E. rewrite E. destruct It as [<-|[<-|[]]]; auto.
Qed.

Lemma subst_keyword vals w : ~ In "_"%char w -> subst loop_names vals w = w.
Proof.
  intros N. assert (G : forall names, (forall s, In s names -> is_placeholder s) -> forall vals, subst names vals w = w).
  { induction names as [|s names IH]; intros P [|v vs]; cbn [subst]; try reflexivity.
    replace (str_eqb w s) with false; [apply IH; intros t I; apply P; now right|]. symmetry. apply (decides_neq str_decides). intros ->.
    destruct (placeholder_shape s (P s (or_introl eq_refl))) as (c & -> & _). apply N. now left. }
  apply G. auto.
Qed.

(** the text of the factors once every name has a value *)
Lemma parts_text f value parts : (forall w, keyword w -> f w = w) -> (forall n, In n (part_names parts) -> f n = value_text (value n)) ->
  render (map_words f (toks parts)) = join (lit "*") (map (factor_text value) parts).
Proof.
  intros K. assert (One : forall p, (forall n, In n (part_names [p]) -> f n = value_text (value n)) -> render (map_words f (part_toks p)) = factor_text value p).
  { intros p H. destruct p as [d [|] n|s [|]]; cbn [part_toks map_words map render flat_map show_tok factor_text]; rewrite ?(H n) by now left.
    - rewrite (K (lit "c")) by (cbn; tauto). rewrite (K (low_doublet d ++ lit "c")) by (destruct d; cbn; tauto). rewrite <- !app_assoc. reflexivity.
    - rewrite (K (low_doublet d)) by (destruct d; cbn; tauto). reflexivity.
    - rewrite (K (lit "c")) by (cbn; tauto). rewrite (K (singlet_label s)) by (destruct s; cbn; tauto). reflexivity.
    - rewrite (K (singlet_label s)) by (destruct s; cbn; tauto). now rewrite app_nil_r. }
  induction parts as [|p parts IH]; intros H; [reflexivity|].
  assert (Hp : forall n, In n (part_names [p]) -> f n = value_text (value n)).
  { intros n I. apply H. unfold part_names in *. cbn [flat_map] in *. rewrite app_nil_r in I. apply in_app_iff. now left. }
  assert (Hr : forall n, In n (part_names parts) -> f n = value_text (value n)) by (intros n I; apply H; unfold part_names in *; cbn [flat_map]; apply in_app_iff; now right).
  destruct parts as [|q parts]; [exact (One p Hp)|].
  change (toks (p :: q :: parts)) with (part_toks p ++ Sep "*" :: toks (q :: parts)). rewrite map_words_app, render_app, (One p Hp).
  change (map_words f (Sep "*" :: toks (q :: parts))) with (Sep "*" :: map_words f (toks (q :: parts))).
  change (render (Sep "*" :: map_words f (toks (q :: parts)))) with ("*"%char :: render (map_words f (toks (q :: parts)))). now rewrite (IH Hr).
Qed.

Lemma renames_placeholder pairs phs n : List.length pairs <= List.length phs -> In n (names_of pairs) ->
  exists p, In p phs /\ (renames pairs phs n = fst p \/ renames pairs phs n = snd p).
Proof.
  revert phs. induction pairs as [|[a b] pairs IH]; intros phs L I; [destruct I|]. destruct phs as [|[x y] phs]; [cbn in L; lia|]. cbn [renames].
  destruct (str_eqb n a) eqn:Ea; [exists (x, y); split; [now left|now left]|]. destruct (str_eqb n b) eqn:Eb; [exists (x, y); split; [now left|now right]|].
  cbn [names_of flat_map fst snd app In] in I. destruct I as [<-|[<-|I]]; [rewrite str_eqb_refl in Ea; discriminate|rewrite str_eqb_refl in Eb; discriminate|].
  destruct (IH phs) as (p & Ip & E); [cbn in L; lia|exact I|]. exists p. split; [now right|exact E].
Qed.

Lemma phs_placeholders p : In p placeholders -> is_placeholder (fst p) /\ is_placeholder (snd p).
Proof. unfold is_placeholder, loop_names. intros I. split; apply in_flat_map; exists p; split; auto; cbn; tauto. Qed.

Lemma combine_snd {A B} (l : list A) (r : list B) : List.length l <= List.length r -> map snd (combine l r) = firstn (List.length l) r.
Proof. revert r. induction l as [|a l IH]; intros [|b r] L; cbn in *; try reflexivity; try lia. f_equal. apply IH. lia. Qed.

Lemma choice_length k ch : In ch (choices k) -> List.length ch = k.
Proof.
  revert ch. induction k as [|k IH]; intros ch I; cbn [choices] in I; [destruct I as [<-|[]]; reflexivity|].
  apply in_app_iff in I as [I|I]; apply in_map_iff in I as (c & <- & I); cbn [List.length]; now rewrite (IH c I).
Qed.

(** the value of a name in the text is the one of the choice *)
Lemma value_choice pairs ch n : List.length pairs <= 4 -> List.length ch = List.length pairs -> In n (names_of pairs) ->
  subst loop_names (expand ch) (renames pairs placeholders n) = value_text (is_upper pairs ch n).
Proof.
  intros L4 L I.
  destruct pairs as [|[a1 b1] pairs]; [destruct I|]. destruct ch as [|c1 ch]; [discriminate L|].
  destruct pairs as [|[a2 b2] pairs]; (destruct ch as [|c2 ch]; [|try discriminate L]); [|discriminate L|].
  { cbn [names_of flat_map fst snd app In] in I. cbn [renames placeholders is_upper].
    destruct (str_eqb n a1) eqn:E1; [destruct c1; vm_compute; reflexivity|]. destruct (str_eqb n b1) eqn:E2; [destruct c1; vm_compute; reflexivity|].
    exfalso. destruct I as [<-|[<-|[]]]; rewrite str_eqb_refl in *; discriminate. }
  destruct pairs as [|[a3 b3] pairs]; (destruct ch as [|c3 ch]; [|try discriminate L]); [|discriminate L|].
  { cbn [names_of flat_map fst snd app In] in I. cbn [renames placeholders is_upper].
    do 4 (match goal with |- context [str_eqb n ?a] => destruct (str_eqb n a) eqn:?; [destruct c1, c2; vm_compute; reflexivity|] end).
    exfalso. repeat (destruct I as [<-|I]; [rewrite str_eqb_refl in *; discriminate|]). destruct I. }
  destruct pairs as [|[a4 b4] pairs]; (destruct ch as [|c4 ch]; [|try discriminate L]); [|discriminate L|].
  { cbn [names_of flat_map fst snd app In] in I. cbn [renames placeholders is_upper].
    do 6 (match goal with |- context [str_eqb n ?a] => destruct (str_eqb n a) eqn:?; [destruct c1, c2, c3; vm_compute; reflexivity|] end).
    exfalso. repeat (destruct I as [<-|I]; [rewrite str_eqb_refl in *; discriminate|]). destruct I. }
  destruct pairs as [|? pairs]; [|cbn in L4; lia]. destruct ch as [|? ch]; [|discriminate L].
  cbn [names_of flat_map fst snd app In] in I. cbn [renames placeholders is_upper].
  do 8 (match goal with |- context [str_eqb n ?a] => destruct (str_eqb n a) eqn:?; [destruct c1, c2, c3, c4; vm_compute; reflexivity|] end).
  exfalso. repeat (destruct I as [<-|I]; [rewrite str_eqb_refl in *; discriminate|]). destruct I.
Qed.

Lemma mapM_fields op parts : Forall2 is_part (indexed_fields op) parts -> mapM field_text (indexed_fields op) = Ok (map (fun p => render (part_toks p)) parts).
Proof. induction 1 as [|x p xs ps H _ IH]; [reflexivity|]. cbn [mapM map]. rewrite (field_text_part _ _ H). cbn [bind]. now rewrite IH. Qed.

Lemma filter_map {A B} (f : A -> B) (P : B -> bool) l : filter P (map f l) = map f (filter (fun x => P (f x)) l).
Proof. induction l as [|x l IH]; [reflexivity|]. cbn [map filter]. destruct (P (f x)); cbn [map]; now rewrite IH. Qed.

(** ** C46 *)

(** Up to four epsilons: one product of components for every way of giving the indices of each epsilon the values (0,1) or
    (1,0), in lexicographic order, every factor being the component that its index selects. *)
Theorem C46_parse : forall op parts pairs,
  Forall2 is_part (indexed_fields op) parts -> Forall2 lowers (epsilons op) pairs -> List.length pairs <= 4 ->
  readable (names_of pairs) -> incl (part_names parts) (names_of pairs) ->
  parse_operator op = Ok (map (fun ch => map (component (is_upper pairs ch)) parts) (choices (List.length pairs))).
Proof.
  intros op parts pairs Fp Fe L4 R Inc. unfold parse_operator. rewrite (mapM_fields _ _ Fp). cbn [bind]. rewrite join_toks.
  pose proof (Spec.Forall2_len Fe) as Le. set (k := List.length pairs) in *.
  assert (Wf : forall w, In (Word w) (toks parts) -> fine (names_of pairs) w).
  { intros w I. apply toks_words in I as [I|I]; [now apply keyword_fine|left; now apply Inc]. }
  rewrite (put_all _ _ placeholders _ Fe R (fun p I => phs_placeholders p I) (toks_spaced parts) (fun c I => toks_seps parts c I) Wf). cbn [bind].
  rewrite combine_snd by exact L4. fold k. rewrite map_length, Le.
  unfold loop_ranges. replace (8 <? 2 * k) with false by (symmetry; apply Nat.ltb_ge; lia). cbn [bind]. fold (ranges k).
  set (T := map_words (renames pairs placeholders) (toks parts)). set (E := flat_map eps_toks (firstn k placeholders)).
  assert (Kn : forall n, In n (names_of pairs) -> is_placeholder (renames pairs placeholders n)).
  { intros n I. destruct (renames_placeholder pairs placeholders n L4 I) as (p & Ip & [-> | ->]); now apply phs_placeholders. }
  assert (Kk : forall w, keyword w -> renames pairs placeholders w = w).
  { intros w K. apply renames_other. intros I. destruct R as (_ & Sh & _). destruct (Sh w I) as (c & r & ->). apply (keyword_no_i _ K). now left. }
  rewrite nested_render.
  2: { unfold ranges. rewrite app_length, !repeat_length. cbn [loop_names placeholders flat_map app List.length fst snd]. lia. }
  2: { auto. }
  2: { subst E. destruct k as [|k']; [cbn [firstn flat_map]; rewrite app_nil_r; apply map_words_spaced, toks_spaced|].
       clear -L4. subst T. assert (H : spaced (flat_map eps_toks (firstn (S k') placeholders))) by (do 4 (destruct k' as [|k']; [exact I|]); exact I).
       revert H. set (l := flat_map _ _). assert (exists r, l = Sep "*" :: r) as (r & ->) by (eexists; reflexivity).
       intros H. apply spaced_app; [apply map_words_spaced, toks_spaced|exact H]. }
  2: { intros c I. apply in_app_iff in I as [I|I]; [subst T; apply map_words_seps in I; now apply toks_seps in I|].
       subst E. apply in_flat_map in I as (p & _ & I). cbn in I. repeat (destruct I as [I|I]; [(discriminate I || (injection I as <-; cbn; tauto))|]). destruct I. }
  2: { intros w I. apply in_app_iff in I as [I|I].
       - subst T. apply map_words_in in I as (v & -> & I). apply toks_words in I as [I|I]; [right; rewrite (Kk v I); now apply keyword_no_under|left; now apply Kn, Inc].
       - subst E. apply in_flat_map in I as (p & Ip & I). assert (Ip' : In p placeholders) by (rewrite <- (firstn_skipn k placeholders); apply in_app_iff; now left).
         destruct (phs_placeholders p Ip') as [P1 P2]. cbn [eps_toks In] in I.
         repeat (destruct I as [I|I]; [first [discriminate I|injection I as <-; first [now left|right; cbn; intros J; repeat (destruct J as [J|J]; [discriminate J|]); exact J]]|]). destruct I. }
  rewrite !map_map, filter_map.
  set (val := fun vals n => str_eqb (subst loop_names vals (renames pairs placeholders n)) (lit "0")).
  assert (Txt : forall vals, In vals (tuples (ranges k)) ->
     replace_text (lit "*eps[1][0]") [] (replace_text (lit "*eps[0][1]") [] (render (map_words (subst loop_names vals) (T ++ E)))) =
     join (lit "*") (map (factor_text (val vals)) parts) ++ flat_map eps_text (leftover (take_pairs k vals))).
  { intros vals Iv. destruct (eps_facts k vals L4 Iv) as (E1 & B & Dg). rewrite map_words_app, render_app. subst E. rewrite E1.
    subst T. rewrite map_words_map, (parts_text _ (val vals)).
    - change (lit "*eps[0][1]") with (eps_text (0, 1)). change (lit "*eps[1][0]") with (eps_text (1, 0)).
      rewrite (replace_safe 0 1) by apply join_safe. rewrite eps_blocks by (cbn; auto). rewrite (replace_safe 1 0) by apply join_safe.
      rewrite eps_blocks; [reflexivity|cbn; auto|]. apply Forall_forall. intros ab I. apply filter_In in I as [I _]. now rewrite Forall_forall in B; apply B.
    - intros w K. rewrite (Kk w K). apply subst_keyword. now apply keyword_no_under.
    - intros n I. unfold val. destruct (Dg _ (Kn n (Inc n I))) as [-> | ->]; reflexivity. }
  rewrite (filter_ext_in _ (fun vals => no_left (take_pairs k vals))).
  2: { intros vals Iv. rewrite (Txt vals Iv), contains_eps by apply join_safe. unfold no_left. now destruct (leftover (take_pairs k vals)). }
  rewrite (map_ext_in _ (fun vals => join (lit "*") (map (factor_text (val vals)) parts))).
  2: { intros vals Iv. apply filter_In in Iv as [Iv N]. rewrite (Txt vals Iv). unfold no_left in N. destruct (leftover _); [|discriminate N]. cbn [flat_map]. apply app_nil_r. }
  rewrite select_choices by exact L4. rewrite map_map.
  assert (G : forall l, (forall ch, In ch l -> List.length ch = k) ->
     mapM (fun t => eval_op (replace_text (lit "*") (lit ",") t)) (map (fun ch => join (lit "*") (map (factor_text (val (expand ch))) parts)) l) =
     Ok (map (fun ch => map (component (is_upper pairs ch)) parts) l)).
  { induction l as [|ch l IH]; intros H; [reflexivity|]. cbn [map mapM].
    replace (map (factor_text (val (expand ch))) parts) with (map (factor_text (is_upper pairs ch)) parts).
    - rewrite eval_join. cbn [bind]. rewrite IH by (intros c I; apply H; now right). reflexivity.
    - apply map_ext_in. intros p Ip. destruct p as [d c n|s c]; [|reflexivity].
      assert (In n (names_of pairs)) as In1 by (apply Inc, in_flat_map; exists (PD d c n); split; [exact Ip|now left]).
      assert (V : val (expand ch) n = is_upper pairs ch n) by (unfold val; rewrite value_choice by (auto; apply H; now left); now destruct (is_upper pairs ch n)).
      cbn [factor_text]. now rewrite V. }
  apply G. intros ch I. now apply choice_length in I.
Qed.

Lemma choices_length k : List.length (choices k) = 2 ^ k.
Proof. induction k as [|k IH]; [reflexivity|]. cbn [choices]. rewrite app_length, !map_length, IH. cbn. lia. Qed.

Lemma choices_all k ch : In ch (choices k) <-> List.length ch = k.
Proof.
  split; [apply choice_length|]. revert ch. induction k as [|k IH]; intros ch L; [destruct ch; [now left|discriminate]|].
  destruct ch as [|c ch]; [discriminate|]. injection L as L. cbn [choices]. apply in_app_iff. destruct c; [left|right]; now apply in_map, IH.
Qed.

Lemma choices_nodup k : NoDup (choices k).
Proof.
  induction k as [|k IH]; [repeat constructor; intros []|]. cbn [choices].
  assert (M : forall b, NoDup (map (cons b) (choices k))) by (intros b; apply FinFun.Injective_map_NoDup; [intros x y [= E]; exact E|exact IH]).
  apply ProofsContract.NoDup_app_intro; [apply M|apply M|]. intros x I J. apply in_map_iff in I as (u & <- & _). apply in_map_iff in J as (v & [= ] & _).
Qed.

(** Every choice for the epsilons is there once. *)
Theorem C46_choices : forall k, NoDup (choices k) /\ List.length (choices k) = 2 ^ k /\ forall ch, In ch (choices k) <-> List.length ch = k.
Proof. intros k. split; [apply choices_nodup|]. split; [apply choices_length|apply choices_all]. Qed.

Lemma put_ok es pairs : Forall2 lowers es pairs -> forall phs text, exists t, foldM put_placeholders (combine (map symbol_indices es) phs) text = Ok t.
Proof.
  induction 1 as [|e ab es pairs L _ IH]; intros phs text; [now exists text|]. destruct phs as [|[x y] phs]; [now exists text|]. cbn [map combine foldM].
  destruct L as (i & j & i' & j' & Ei & Ni & Nj & _). rewrite Ei. unfold put_placeholders at 1. rewrite Ni, Nj. cbn [bind]. apply IH.
Qed.

(** Five or more epsilons: there are not enough loops. *)
Theorem C46_five_epsilons : forall op parts pairs,
  Forall2 is_part (indexed_fields op) parts -> Forall2 lowers (epsilons op) pairs -> 4 < List.length pairs -> parse_operator op = Err IndexError.
Proof.
  intros op parts pairs Fp Fe L. unfold parse_operator. rewrite (mapM_fields _ _ Fp). cbn [bind]. destruct (put_ok _ _ Fe placeholders (join (lit "*") (map (fun p => render (part_toks p)) parts))) as (t & ->).
  cbn [bind]. rewrite map_length, (Forall2_len Fe). unfold loop_ranges. replace (8 <? 2 * List.length pairs) with true by (symmetry; apply Nat.ltb_lt; lia). reflexivity.
Qed.

(** A tensor with another number of indices, for instance an epsilon of colour, cannot be unpacked. *)
Theorem C46_other_epsilons : forall op parts pairs before e after,
  Forall2 is_part (indexed_fields op) parts -> epsilons op = before ++ e :: after -> Forall2 lowers before pairs -> List.length before < 4 ->
  List.length (symbol_indices e) <> 2 -> parse_operator op = Err ValueError.
Proof.
  intros op parts pairs before e after Fp Ee Fb L Ne. unfold parse_operator. rewrite (mapM_fields _ _ Fp). cbn [bind]. rewrite Ee. clear Ee Fp.
  generalize (join (lit "*") (map (fun p => render (part_toks p)) parts)). intros text.
  enough (G : forall phs, List.length before < List.length phs -> forall text, foldM put_placeholders (combine (map symbol_indices (before ++ e :: after)) phs) text = Err ValueError)
    by (rewrite (G placeholders L); reflexivity).
  clear text. clear L. induction Fb as [|b ab before pairs Lo _ IH]; intros phs L text; (destruct phs as [|[x y] phs]; [cbn in L; lia|]); cbn [app map combine foldM].
  - unfold put_placeholders at 1. destruct (symbol_indices e) as [|i [|j [|l r]]]; cbn [List.length] in Ne; try lia; reflexivity.
  - destruct Lo as (i & j & i' & j' & Ei & Ni & Nj & _). rewrite Ei. unfold put_placeholders at 1. rewrite Ni, Nj. cbn [bind]. apply IH. cbn in L. lia.
Qed.

(** ** Quantum numbers of the components *)

Lemma total_map {A} (f : atom -> Z) (g : A -> atom) l : total f (map g l) = sum_over (fun x => f (g x)) l.
Proof. unfold total, sum_over. induction l as [|x l IH]; [reflexivity|]. cbn [map fold_right]. now rewrite <- IH. Qed.

Definition pm (b : bool) : Z := if b then 1%Z else (-1)%Z.

Lemma isospin_parts value parts : twice_isospin (map (component value) parts) = sum_over (fun n => pm (value n)) (part_names parts).
Proof.
  unfold twice_isospin. rewrite total_map. unfold part_names. induction parts as [|p parts IH]; [reflexivity|]. cbn [flat_map].
  destruct p as [d c n|s c]; cbn [app sum_over fold_right]; fold (sum_over (fun n => pm (value n))) in *; unfold sum_over in *; cbn [fold_right]; rewrite IH.
  - destruct c, d; cbn; destruct (value n); reflexivity.
  - destruct c, s; reflexivity.
Qed.

Lemma sum_perm {A} (f : A -> Z) l l' : Permutation l l' -> sum_over f l = sum_over f l'.
Proof. unfold sum_over. induction 1; cbn; lia. Qed.

Lemma sum_ext {A} (f g : A -> Z) l : (forall x, In x l -> f x = g x) -> sum_over f l = sum_over g l.
Proof. unfold sum_over. induction l as [|x l IH]; intros H; [reflexivity|]. cbn. rewrite (H x (or_introl eq_refl)), IH; [reflexivity|]. intros y I. apply H. now right. Qed.

Lemma names_isospin pairs : forall ch, List.length ch = List.length pairs -> NoDup (names_of pairs) -> sum_over (fun n => pm (is_upper pairs ch n)) (names_of pairs) = 0%Z.
Proof.
  induction pairs as [|[a b] pairs IH]; intros ch L ND; [reflexivity|]. destruct ch as [|c ch]; [discriminate|]. injection L as L.
  cbn [names_of flat_map fst snd app] in *. fold (names_of pairs) in *. inversion ND as [|? ? Na ND1]; subst. inversion ND1 as [|? ? Nb ND2]; subst.
  unfold sum_over. cbn [fold_right]. fold (sum_over (fun n => pm (is_upper ((a, b) :: pairs) (c :: ch) n)) (names_of pairs)).
  rewrite (sum_ext _ (fun n => pm (is_upper pairs ch n))).
  - rewrite IH by auto. cbn [is_upper]. rewrite str_eqb_refl. replace (str_eqb b a) with false; [rewrite str_eqb_refl; destruct c; reflexivity|].
    symmetry. apply (decides_neq str_decides). intros ->. apply Na. now left.
  - intros n I. cbn [is_upper]. rewrite (decides_neq str_decides (x := n) (y := a)), (decides_neq str_decides (x := n) (y := b)); [reflexivity| |]; intros ->; [contradiction|]. apply Na. now right.
Qed.

Lemma charge_parts value parts :
  (2 * thrice_charge (map (component value) parts) = 3 * twice_isospin (map (component value) parts) + sum_over six_hypercharge parts)%Z.
Proof.
  unfold thrice_charge, twice_isospin. rewrite !total_map. unfold sum_over. induction parts as [|p parts IH]; [reflexivity|]. cbn [fold_right].
  destruct p as [d c n|s c]; [destruct c, d; cbn [component of_atom six_hypercharge signed]; destruct (value n); cbn [upper under thrice_charge_of twice_isospin_of]; lia|
    destruct c, s; cbn [component of_atom six_hypercharge signed singlet_symbol thrice_charge_of twice_isospin_of]; lia].
Qed.

Lemma lepton_parts value parts : lepton (map (component value) parts) = sum_over lepton_number parts.
Proof.
  unfold lepton. rewrite total_map. apply sum_ext. intros p _. destruct p as [d c n|s c]; [destruct c, d; cbn; now destruct (value n)|destruct c, s; reflexivity].
Qed.

(** an operator without free isospin index, of hypercharge zero, that breaks lepton number by two units *)
Definition breaks_lepton_number (op : operator) (parts : list part) (pairs : list (str * str)) : Prop :=
  Forall2 is_part (indexed_fields op) parts /\ Forall2 lowers (epsilons op) pairs /\ List.length pairs <= 4 /\
  readable (names_of pairs) /\ Permutation (part_names parts) (names_of pairs) /\
  sum_over six_hypercharge parts = 0%Z /\ sum_over lepton_number parts = 2%Z.

Lemma estimates_from op parts pairs :
  let structures := map (fun ch => map (component (is_upper pairs ch)) parts) (choices (List.length pairs)) in
  parse_operator op = Ok structures -> NoDup (names_of pairs) -> Permutation (part_names parts) (names_of pairs) ->
  sum_over six_hypercharge parts = 0%Z -> sum_over lepton_number parts = 2%Z ->
  (forall s, In s structures -> admissible s /\ components s /\ List.length s = List.length parts) /\
  exists es, operator_estimate op = Ok es /\
    Forall2 (fun s e => estimates (fixed_point s 10) e) (filter (fun s => forallb is_const (fixed_point s 10)) structures) es.
Proof.
  cbv zeta. intros Pa ND P Y L2.
  assert (A : forall s, In s (map (fun ch => map (component (is_upper pairs ch)) parts) (choices (List.length pairs))) -> admissible s /\ components s /\ List.length s = List.length parts).
  { intros s I. apply in_map_iff in I as (ch & <- & I). apply choice_length in I.
    assert (T : twice_isospin (map (component (is_upper pairs ch)) parts) = 0%Z) by (rewrite isospin_parts, (sum_perm _ _ _ P); now apply names_isospin).
    split; [|split; [|apply map_length]].
    - split; [now rewrite lepton_parts|]. split; [|exact T]. pose proof (charge_parts (is_upper pairs ch) parts). lia.
    - intros a J. apply in_map_iff in J as (p & <- & _). destruct p as [d c n|s c]; [destruct c, d; cbn; destruct (is_upper pairs ch n)|destruct c, s; cbn]; repeat split; discriminate. }
  split; [exact A|].
  destruct (C44_estimates (map (fun ch => map (component (is_upper pairs ch)) parts) (choices (List.length pairs)))) as (es & E & good & -> & F).
  - intros s I. destruct (A s I) as (A1 & A2 & _). split; [exact A1|]. exact (components_no Kv s A2).
  - exists es. split; [|exact F]. unfold operator_estimate. rewrite Pa. exact E.
Qed.

(** All components of a singlet are neutral and have isospin zero, so that the estimate raises nothing; each structure that
    is reduced to constants has its estimate, in order. *)
Theorem C46_estimates : forall op parts pairs, breaks_lepton_number op parts pairs ->
  let structures := map (fun ch => map (component (is_upper pairs ch)) parts) (choices (List.length pairs)) in
  parse_operator op = Ok structures /\
  (forall s, In s structures -> admissible s /\ components s /\ List.length s = List.length parts) /\
  exists es, operator_estimate op = Ok es /\
    Forall2 (fun s e => estimates (fixed_point s 10) e) (filter (fun s => forallb is_const (fixed_point s 10)) structures) es.
Proof.
  intros op parts pairs (Fp & Fe & L4 & R & P & Y & L2). cbv zeta.
  assert (Pa : parse_operator op = Ok (map (fun ch => map (component (is_upper pairs ch)) parts) (choices (List.length pairs))))
    by (apply C46_parse; auto; intros n I; eapply Permutation_in; eauto).
  split; [exact Pa|]. apply estimates_from; auto. apply R.
Qed.

(** ** Names that Index.fresh makes *)

Lemma after_i n m u v : ProofsIndex.fresh_name Isospin m = u ++ ProofsIndex.fresh_name Isospin n ++ v -> m = n.
Proof.
  unfold ProofsIndex.fresh_name. cbn [SpecIndex.letter]. intros E. pose proof (ProofsIndex.show_digits m) as Dm. pose proof (ProofsIndex.show_digits n) as Dn.
  rewrite Forall_forall in Dm, Dn.
  assert (Nd : forall c, is_digit c -> c <> "i"%char /\ c <> "_"%char) by (intros c D; unfold is_digit in D; cbn in D; repeat (destruct D as [<-|D]; [split; discriminate|]); destruct D).
  destruct u as [|c u].
  - cbn [app] in E. injection E as E. rewrite <- app_assoc in E. cbn [lit String.list_ascii_of_string app] in E. apply ProofsIndex.show_nat_inj.
    revert E Dm Dn. generalize (show_nat m) (show_nat n). induction s as [|c s IH]; intros [|d t] E Dm Dn; cbn [app] in E.
    + reflexivity.
    + injection E as E _. exfalso. destruct (Nd d (Dn d (or_introl eq_refl))). congruence.
    + injection E as E _. exfalso. destruct (Nd c (Dm c (or_introl eq_refl))). congruence.
    + injection E as -> E. f_equal. apply IH; auto; intros x I; [apply Dm|apply Dn]; now right.
  - exfalso. cbn [app] in E. injection E as _ E. assert (I : In "i"%char (show_nat m ++ ["_"%char])) by (rewrite E; apply in_app_iff; right; now left).
    apply in_app_iff in I as [I|[I|[]]]; [|discriminate I]. destruct (Nd _ (Dm _ I)). congruence.
Qed.

(** Textual replacement does not confuse the names of fresh indices, however many there are; and an epsilon made from such a
    name has an index whose negative is printed as the name. *)
Theorem C46_fresh_names : forall ns, NoDup ns ->
  readable (map (ProofsIndex.fresh_name Isospin) ns) /\
  forall n, exists i i', new_index (lit "-" ++ ProofsIndex.fresh_name Isospin n) = Ok i /\ ix_up i = false /\ ix_type i = Isospin /\
    neg_index i = Ok i' /\ show_index i' = ProofsIndex.fresh_name Isospin n.
Proof.
  intros ns ND. split.
  - split; [apply FinFun.Injective_map_NoDup; [|exact ND]; intros a b E; apply (after_i b a [] []); now rewrite app_nil_r|]. split; [|split].
    + intros s I. apply in_map_iff in I as (n & <- & _). unfold ProofsIndex.fresh_name. cbn [SpecIndex.letter]. destruct (show_nat n) as [|c t]; eexists; eexists; reflexivity.
    + intros s c I C J. apply in_map_iff in I as (n & <- & _). unfold ProofsIndex.fresh_name in J. cbn [SpecIndex.letter In] in J. destruct J as [<-|J].
      * cbn in C. repeat (destruct C as [C|C]; [discriminate C|]). exact C.
      * apply in_app_iff in J as [J|[<-|[]]].
        -- pose proof (ProofsIndex.show_digits n) as D. rewrite Forall_forall in D. apply D in J. unfold is_digit in J. cbn in J, C.
           repeat (destruct J as [<-|J]; [repeat (destruct C as [C|C]; [discriminate C|]); exact C|]). exact J.
        -- cbn in C. repeat (destruct C as [C|C]; [discriminate C|]). exact C.
    + intros s t I J N (u & v & E). apply in_map_iff in I as (n & <- & _). apply in_map_iff in J as (m & <- & _). apply N. f_equal. symmetry. eapply after_i. exact E.
  - intros n. assert (Lo : lower (ProofsIndex.fresh_name Isospin n) = ProofsIndex.fresh_name Isospin n).
    { unfold ProofsIndex.fresh_name. cbn [lower map SpecIndex.letter]. change (lower_char "i") with "i"%char. f_equal. rewrite map_app. fold (lower (show_nat n)).
      rewrite ProofsIndex.digits_lower by apply ProofsIndex.show_digits. reflexivity. }
    assert (N1 : new_index (lit "-" ++ ProofsIndex.fresh_name Isospin n) = Ok (mkIndex (lit "-" ++ ProofsIndex.fresh_name Isospin n) (ProofsIndex.fresh_name Isospin n) Isospin false)).
    { unfold new_index. cbn [lit String.list_ascii_of_string app]. unfold lower. cbn [map]. fold (lower (ProofsIndex.fresh_name Isospin n)). rewrite Lo. reflexivity. }
    assert (N2 : new_index (ProofsIndex.fresh_name Isospin n) = Ok (mkIndex (ProofsIndex.fresh_name Isospin n) (ProofsIndex.fresh_name Isospin n) Isospin true)).
    { unfold new_index. rewrite Lo. reflexivity. }
    eexists. eexists. split; [exact N1|]. split; [reflexivity|]. split; [reflexivity|]. split; [unfold neg_index; cbn [ix_up ix_label lit String.list_ascii_of_string app tl]; exact N2|reflexivity].
Qed.
