(** * ProofsParse: the text of an operator and its expansion *)

From Coq Require Import Ascii String List Bool Arith ZArith Lia Permutation.
From Verif Require Import Base BaseFacts Show ModelIndex ModelField ModelContract ModelClosures SpecClosures SpecParse ProofsText PropsField2.
Import ListNotations.
Local Open Scope nat_scope.

Lemma str_eqb_refl s : str_eqb s s = true. Proof. now apply str_decides. Qed.

(** ** Text of a factor *)

Definition low_doublet (d : doublet) : str := match d with LeptonD => lit "l" | QuarkD => lit "q" | HiggsD => lit "h" end.

Definition part_toks (p : part) : list tok :=
  match p with
  | PD d false n => [Word (low_doublet d); Sep "["; Word n; Sep "]"]
  | PD d true n => [Word (lit "c"); Sep "("; Word (low_doublet d ++ lit "c"); Sep "["; Word n; Sep "]"; Sep ")"]
  | PS s false => [Word (singlet_label s)]
  | PS s true => [Word (lit "c"); Sep "("; Word (singlet_label s); Sep ")"]
  end.

Lemma field_text_part x p : is_part x p -> field_text x = Ok (render (part_toks p)).
Proof.
  intros (y & B & H). unfold field_text.
  assert (E : (if f_derivs (i_field x) =? 0 then Ok x else strip_derivs_with_indices x) = Ok y).
  { destruct B as [[B ->]|[B E]]; [now rewrite B|]. apply Nat.eqb_neq in B. now rewrite B. }
  rewrite E. cbn [bind]. clear E B. rewrite by_type_filter. destruct p as [d c n|s c].
  - destruct H as ([L C] & i & I & S). unfold isospin_indices in I. rewrite I, L, C, S. destruct d, c; cbn; rewrite ?app_nil_r, <- ?app_assoc; reflexivity.
  - destruct H as ([L C] & I). unfold isospin_indices in I. rewrite I, L, C. destruct s, c; cbn; reflexivity.
Qed.

Fixpoint toks (l : list part) : list tok :=
  match l with
  | [] => []
  | [p] => part_toks p
  | p :: r => part_toks p ++ Sep "*" :: toks r
  end.

Lemma join_toks l : join (lit "*") (map (fun p => render (part_toks p)) l) = render (toks l).
Proof.
  induction l as [|p l IH]; [reflexivity|]. destruct l as [|q l]; [reflexivity|].
  cbn [map join toks] in *. rewrite render_app, IH. reflexivity.
Qed.

Lemma spaced_app a c b : spaced a -> spaced b -> spaced (a ++ Sep c :: b).
Proof.
  intros A B. induction a as [|[w|d] l IH]; [exact B| |exact (IH A)].
  destruct l as [|[w'|d] l]; [exact B|destruct A|exact (IH A)].
Qed.

Lemma part_spaced p : spaced (part_toks p).
Proof. destruct p as [d [|] n|s [|]]; exact I. Qed.

Lemma toks_spaced l : spaced (toks l).
Proof.
  induction l as [|p l IH]; [exact I|]. destruct l as [|q l]; [apply part_spaced|]. change (spaced (part_toks p ++ Sep "*" :: toks (q :: l))).
  now apply spaced_app; [apply part_spaced|].
Qed.

Lemma part_seps p c : In (Sep c) (part_toks p) -> In c (lit "*[](),").
Proof. intros H. destruct p as [d [|] n|s [|]]; cbn in H; repeat (destruct H as [H|H]; [(discriminate H || (injection H as <-; cbn; tauto))|]); destruct H. Qed.

Lemma toks_seps l c : In (Sep c) (toks l) -> In c (lit "*[](),").
Proof.
  induction l as [|p l IH]; [intros []|]. destruct l as [|q l]; [apply part_seps|]. change (toks (p :: q :: l)) with (part_toks p ++ Sep "*" :: toks (q :: l)).
  intros H. apply in_app_iff in H as [H|[H|H]]; [now apply part_seps in H|injection H as <-; cbn; tauto|auto].
Qed.

(** words that are not names *)
Definition keyword (w : str) : Prop := In w [lit "c"; lit "l"; lit "q"; lit "h"; lit "lc"; lit "qc"; lit "hc"; lit "eb"; lit "ub"; lit "db"; lit "eps"].

Lemma part_words p w : In (Word w) (part_toks p) -> keyword w \/ In w (part_names [p]).
Proof.
  intros H. unfold keyword. destruct p as [d [|] n|s [|]]; cbn in H;
    repeat (destruct H as [H|H]; [(discriminate H || (injection H as <-; first [right; now left|left; (destruct d || destruct s || idtac); cbn; tauto]))|]); destruct H.
Qed.

Lemma toks_words l w : In (Word w) (toks l) -> keyword w \/ In w (part_names l).
Proof.
  induction l as [|p l IH]; [intros []|]. destruct l as [|q l].
  - cbn [toks]. apply part_words.
  - change (toks (p :: q :: l)) with (part_toks p ++ Sep "*" :: toks (q :: l)). intros H. change (part_names (p :: q :: l)) with (part_names ([p] ++ (q :: l))).
    unfold part_names. rewrite flat_map_app, in_app_iff. apply in_app_iff in H as [H|[H|H]]; [|discriminate|].
    + apply part_words in H as [H|H]; auto.
    + apply IH in H as [H|H]; auto.
Qed.

(** ** Placeholders *)

Definition eps_toks (ab : str * str) : list tok :=
  [Sep "*"; Word (lit "eps"); Sep "["; Word (fst ab); Sep "]"; Sep "["; Word (snd ab); Sep "]"].

Definition is_placeholder (w : str) : Prop := In w loop_names.

Definition rename (a x w : str) : str := if str_eqb w a then x else w.

Fixpoint renames (pairs phs : list (str * str)) (w : str) : str :=
  match pairs, phs with
  | (a, b) :: pairs, (x, y) :: phs => if str_eqb w a then x else if str_eqb w b then y else renames pairs phs w
  | _, _ => w
  end.

(** a word that is one of the names or contains none of them *)
Definition fine (names : list str) (w : str) : Prop := In w names \/ forall n, In n names -> ~ inside n w.

Lemma sub_inside p s : substring p s <-> inside p s. Proof. reflexivity. Qed.

Lemma replace_fine names a x w : readable names -> In a names -> fine names w -> replace_text a x w = rename a x w.
Proof.
  intros (ND & Sh & Ch & Su) I F. unfold rename. destruct (str_eqb w a) eqn:E.
  - apply str_decides in E as ->. apply replace_self. destruct (Sh a I) as (c & r & ->). discriminate.
  - apply replace_absent. destruct F as [F|F]; [|now apply F]. apply Su; [exact I|exact F|]. intros ->. now rewrite str_eqb_refl in E.
Qed.

Lemma fine_incl names names' w : incl names' names -> fine names w -> (In w names -> In w names' \/ ~ In w names' /\ readable names) -> fine names' w.
Proof.
  intros In1 [F|F] H.
  - destruct (H F) as [G|(G & _ & _ & _ & Su)]; [now left|]. right. intros n I. apply Su; auto. intros ->. contradiction.
  - right. intros n I. apply F. now apply In1.
Qed.

Lemma inside_chars p s c : inside p s -> In c p -> In c s.
Proof. intros (u & v & ->) I. apply in_app_iff. right. apply in_app_iff. now left. Qed.

Lemma inside_length p s : inside p s -> List.length p <= List.length s.
Proof. intros (u & v & ->). rewrite !app_length. lia. Qed.

Lemma keyword_no_i w : keyword w -> ~ In "i"%char w.
Proof. intros K. unfold keyword in K. cbn in K. repeat (destruct K as [<-|K]; [cbn; intros I; repeat (destruct I as [I|I]; [discriminate I|]); exact I|]). destruct K. Qed.

Lemma keyword_no_under w : keyword w -> ~ In "_"%char w.
Proof. intros K. unfold keyword in K. cbn in K. repeat (destruct K as [<-|K]; [cbn; intros I; repeat (destruct I as [I|I]; [discriminate I|]); exact I|]). destruct K. Qed.

Lemma keyword_fine names w : readable names -> keyword w -> fine names w.
Proof.
  intros (_ & Sh & _) K. right. intros n I J. destruct (Sh n I) as (c & r & ->). apply (keyword_no_i w K). eapply inside_chars; [exact J|now left].
Qed.

Lemma placeholder_name names w n : readable names -> is_placeholder w -> In n names -> ~ inside n w.
Proof.
  intros (_ & Sh & _) P I J. destruct (Sh n I) as (c & r & ->). destruct J as (u & v & E). unfold is_placeholder, loop_names, placeholders in P. cbn in P.
  repeat (destruct P as [<-|P]; [destruct u as [|u0 [|u1 u]]; cbn in E; [discriminate E|destruct r; discriminate E|destruct u; discriminate E]|]). destruct P.
Qed.

Lemma placeholder_fine names w : readable names -> is_placeholder w -> fine names w.
Proof. intros R P. right. intros n I. now apply (placeholder_name names w n). Qed.

Lemma name_not_placeholder names n : readable names -> In n names -> ~ is_placeholder n.
Proof. intros R I P. apply (placeholder_name names n n R P I). exists [], []. now rewrite app_nil_r. Qed.

Lemma readable_incl names names' : readable names -> incl names' names -> NoDup names' -> readable names'.
Proof. intros (ND & Sh & Ch & Su) I N. repeat split; auto. Qed.

Lemma rename_fine names a x w : readable names -> is_placeholder x -> fine names w -> fine names (rename a x w).
Proof. intros R P F. unfold rename. destruct (str_eqb w a); [now apply placeholder_fine|exact F]. Qed.

Lemma renames_other pairs phs w : ~ In w (names_of pairs) -> renames pairs phs w = w.
Proof.
  revert phs. induction pairs as [|[a b] pairs IH]; intros [|[x y] phs] N; cbn [renames]; try reflexivity. cbn [names_of flat_map fst snd app In] in N.
  destruct (str_eqb w a) eqn:E; [apply str_decides in E as ->; tauto|]. destruct (str_eqb w b) eqn:E'; [apply str_decides in E' as ->; tauto|]. apply IH. tauto.
Qed.

Lemma put_all : forall es pairs phs T, Forall2 lowers es pairs -> readable (names_of pairs) ->
  (forall p, In p phs -> is_placeholder (fst p) /\ is_placeholder (snd p)) ->
  spaced T -> (forall c, In (Sep c) T -> In c (lit "*[](),")) -> (forall w, In (Word w) T -> fine (names_of pairs) w) ->
  foldM put_placeholders (combine (map symbol_indices es) phs) (render T) =
  Ok (render (map_words (renames pairs phs) T ++ flat_map eps_toks (map snd (combine pairs phs)))).
Proof.
  intros es pairs phs T F. revert phs T. induction F as [|e [a b] es pairs L F IH]; intros phs T R Ph Sp Se W.
  { cbn [map combine foldM flat_map]. rewrite app_nil_r. f_equal. f_equal. symmetry. unfold map_words. rewrite <- (map_id T) at 2. apply map_ext. now intros [w|c]. }
  destruct phs as [|[x y] phs].
  { cbn [map combine foldM flat_map]. rewrite app_nil_r. f_equal. f_equal. symmetry. unfold map_words. rewrite <- (map_id T) at 2. apply map_ext. now intros [w|c]. }
  destruct L as (i & j & i' & j' & Ei & Ni & Nj & Si & Sj). cbn [map combine foldM]. rewrite Ei. unfold put_placeholders at 1.
  rewrite Ni, Nj. cbn [bind]. cbn [fst snd] in Si, Sj. rewrite Si, Sj. cbn [names_of flat_map fst snd] in *. fold (names_of pairs) in *.
  assert (Ia : In a ([a; b] ++ names_of pairs)) by now left. assert (Ib : In b ([a; b] ++ names_of pairs)) by (right; now left).
  destruct (Ph (x, y) (or_introl eq_refl)) as [Px Py]. cbn [fst snd] in Px, Py.
  pose proof R as (ND & Sh & Ch & Su).
  assert (Na : a <> []) by (destruct (Sh a Ia) as (c & r & ->); discriminate).
  assert (Nb : b <> []) by (destruct (Sh b Ib) as (c & r & ->); discriminate).
  assert (Nph : forall v, is_placeholder v -> ~ In v ([a; b] ++ names_of pairs)) by (intros v P I; exact (name_not_placeholder _ v R I P)).
  rewrite replace_render; [|exact Na|exact Sp|intros c I; apply Ch; auto].
  rewrite (map_words_ext (replace_text a x) (rename a x)) by (intros w I; apply (replace_fine ([a; b] ++ names_of pairs)); auto).
  rewrite replace_render; [|exact Nb|now apply map_words_spaced|intros c I; apply map_words_seps in I; apply Ch; auto].
  rewrite (map_words_ext (replace_text b y) (rename b y))
    by (intros w I; apply map_words_in in I as (v & -> & I); apply (replace_fine ([a; b] ++ names_of pairs)); auto; apply rename_fine; auto).
  rewrite map_words_map.
  cbn [foldM bind].
  match goal with |- foldM _ _ ?t = _ => replace t with (render (map_words (fun w => rename b y (rename a x w)) T ++ eps_toks (x, y))) by (rewrite render_app; cbn; rewrite ?app_nil_r, <- ?app_assoc; reflexivity) end.
  rewrite IH.
  - rewrite !map_words_app. rewrite map_words_map. cbn [map snd flat_map]. rewrite <- app_assoc. f_equal. f_equal. f_equal; [|f_equal].
    + apply map_words_ext. intros w I. unfold rename. cbn [renames]. destruct (str_eqb w a) eqn:E.
      * replace (str_eqb x b) with false; [apply renames_other; exact (fun I => Nph x Px (or_intror (or_intror I)))|]. symmetry.
        destruct (str_eqb x b) eqn:E'; [|reflexivity]. apply str_decides in E' as ->. exfalso. exact (Nph b Px Ib).
      * destruct (str_eqb w b); [|reflexivity]. apply renames_other. exact (fun I => Nph y Py (or_intror (or_intror I))).
    + unfold eps_toks, map_words. cbn [map fst snd]. rewrite (renames_other _ _ (lit "eps")), (renames_other _ _ x), (renames_other _ _ y); [reflexivity| | |].
      * exact (fun I => Nph y Py (or_intror (or_intror I))).
      * exact (fun I => Nph x Px (or_intror (or_intror I))).
      * intros I. destruct (Sh (lit "eps")) as (c & r & E); [now do 2 right|discriminate E].
  - eapply readable_incl; [exact R|intros n I; now do 2 right|]. now inversion ND as [|? ? _ ND']; inversion ND'.
  - intros p I. apply Ph. now right.
  - unfold eps_toks. apply spaced_app; [now apply map_words_spaced|exact I].
  - intros c I. apply in_app_iff in I as [I|I]; [apply map_words_seps in I; auto|]. cbn in I. repeat (destruct I as [I|I]; [(discriminate I || (injection I as <-; cbn; tauto))|]). destruct I.
  - assert (Sub : forall v, fine ([a; b] ++ names_of pairs) v -> v <> a -> v <> b -> fine (names_of pairs) v).
    { intros v [[G|[G|G]]|G] V1 V2; [congruence|congruence|now left|]. right. intros n J. apply G. now do 2 right. }
    assert (Pf : forall v, is_placeholder v -> fine (names_of pairs) v) by (intros v P; apply Sub; [now apply placeholder_fine|intros ->; exact (Nph _ P Ia)|intros ->; exact (Nph _ P Ib)]).
    intros w I. apply in_app_iff in I as [I|I].
    + apply map_words_in in I as (v & -> & I). apply W in I. unfold rename. destruct (str_eqb v a) eqn:E.
      * destruct (str_eqb x b); now apply Pf.
      * destruct (str_eqb v b) eqn:E'; [now apply Pf|]. apply Sub; [exact I| |]; intros ->; rewrite str_eqb_refl in *; discriminate.
    + cbn in I. repeat (destruct I as [I|I]; [first [discriminate I|injection I as <-; first [now apply Pf|
        apply Sub; [apply keyword_fine; [exact R|unfold keyword; cbn; tauto]| |]; intros E; [destruct (Sh a Ia) as (c & r & Ea)|destruct (Sh b Ib) as (c & r & Ea)]; rewrite <- E in Ea; discriminate Ea]]|]).
      destruct I.
Qed.

(** ** The loops *)

Fixpoint tuples (ranges : list nat) : list (list nat) :=
  match ranges with
  | [] => [[]]
  | n :: ranges => flat_map (fun k => map (cons k) (tuples ranges)) (seq 0 n)
  end.

Fixpoint subst (names : list str) (vals : list nat) (w : str) : str :=
  match names, vals with
  | s :: names, v :: vals => subst names vals (if str_eqb w s then show_nat v else w)
  | _, _ => w
  end.

Definition known (w : str) : Prop := is_placeholder w \/ ~ In "_"%char w.

Lemma show_no_under n : ~ In "_"%char (show_nat n).
Proof. intros I. pose proof (uint_digits (Nat.to_uint n)) as D. rewrite Forall_forall in D. apply D in I. unfold is_digit in I. cbn in I. repeat (destruct I as [I|I]; [discriminate I|]). exact I. Qed.

Lemma placeholder_shape w : is_placeholder w -> exists c, w = ["_"%char; c] /\ c <> "_"%char.
Proof. unfold is_placeholder, loop_names, placeholders. cbn. intros P. repeat (destruct P as [<-|P]; [eexists; split; [reflexivity|discriminate]|]). destruct P. Qed.

Lemma replace_known s r w : is_placeholder s -> known w -> replace_text s r w = if str_eqb w s then r else w.
Proof.
  intros P K. destruct (str_eqb w s) eqn:E.
  - apply str_decides in E as ->. apply replace_self. destruct (placeholder_shape s P) as (c & -> & _). discriminate.
  - apply replace_absent. intros I. destruct (placeholder_shape s P) as (c & -> & Nc). destruct K as [K|K].
    + destruct (placeholder_shape w K) as (d & -> & Nd). destruct I as (u & v & I). destruct u as [|u0 [|u1 u]]; cbn in I.
      * injection I as <- _. rewrite str_eqb_refl in E. discriminate.
      * injection I as _ I _. congruence.
      * destruct u; discriminate I.
    + apply K. eapply inside_chars; [exact I|now left].
Qed.

Lemma nested_render names : forall ranges T, List.length names = List.length ranges -> (forall s, In s names -> is_placeholder s) ->
  spaced T -> (forall c, In (Sep c) T -> In c (lit "*[](),")) -> (forall w, In (Word w) T -> known w) ->
  nested names ranges (render T) = map (fun vals => render (map_words (subst names vals) T)) (tuples ranges).
Proof.
  induction names as [|s names IH]; intros [|n ranges] T Len Ph Sp Se W; try discriminate Len.
  - cbn. f_equal. f_equal. unfold map_words. symmetry. rewrite <- (map_id T) at 2. apply map_ext. now intros [w|c].
  - cbn [nested tuples]. injection Len as Len. assert (Ps : is_placeholder s) by (apply Ph; now left).
    rewrite flat_map_concat_map, (flat_map_concat_map _ (seq 0 n)), concat_map, map_map. f_equal. apply map_ext. intros k.
    destruct (placeholder_shape s Ps) as (c & Es & Nc).
    rewrite replace_render; [|rewrite Es; discriminate|exact Sp|].
    + rewrite (map_words_ext _ (fun w => if str_eqb w s then show_nat k else w)) by (intros w I; apply replace_known; auto).
      rewrite IH; [|exact Len|intros s' I; apply Ph; now right|now apply map_words_spaced|intros d I; apply map_words_seps in I; auto|].
      * rewrite map_map. apply map_ext. intros vals. now rewrite map_words_map.
      * intros w I. apply map_words_in in I as (v & -> & I). destruct (str_eqb v s); [right; apply show_no_under|auto].
    + intros d I J. apply Se in I. clear -I J Ps. unfold is_placeholder, loop_names, placeholders in Ps. cbn in Ps, I.
      repeat (destruct Ps as [<-|Ps]; [cbn in J; repeat (destruct J as [<-|J]; [repeat (destruct I as [I|I]; [discriminate I|]); exact I|]); exact J|]). exact Ps.
Qed.

(** ** Removing the epsilons *)

Definition eps_text (ab : nat * nat) : str := lit "*eps[" ++ show_nat (fst ab) ++ lit "][" ++ show_nat (snd ab) ++ lit "]".
Definition bits (ab : nat * nat) : Prop := In ab [(0, 0); (0, 1); (1, 0); (1, 1)].

Lemma eps_blocks x y : bits (x, y) -> forall vs, Forall bits vs ->
  replace_text (eps_text (x, y)) [] (flat_map eps_text vs) = flat_map eps_text (filter (fun ab => negb ((fst ab =? x) && (snd ab =? y))) vs).
Proof.
  intros B. induction 1 as [|ab vs Bb _ IH]; [destruct B as [[= <- <-]|[[= <- <-]|[[= <- <-]|[[= <- <-]|[]]]]]; reflexivity|].
  unfold replace_text in *. cbn [flat_map]. set (t := flat_map eps_text vs) in *. clearbody t.
  destruct B as [[= <- <-]|[[= <- <-]|[[= <- <-]|[[= <- <-]|[]]]]];
    destruct Bb as [<-|[<-|[<-|[<-|[]]]]]; cbn [filter fst snd Nat.eqb andb negb flat_map]; rewrite <- IH; reflexivity.
Qed.

(** text before the epsilons: no p, and at least two characters after each star *)
Definition safe (s : str) : Prop := ~ In "p"%char s /\ forall u v, s = u ++ "*"%char :: v -> 2 <= List.length v.

Lemma safe_tail c s : safe (c :: s) -> safe s.
Proof. intros [P S]. split; [intros I; apply P; now right|]. intros u v ->. exact (S (c :: u) v eq_refl). Qed.

Lemma replace_safe x y s e : safe s -> replace_text (eps_text (x, y)) [] (s ++ e) = s ++ replace_text (eps_text (x, y)) [] e.
Proof.
  unfold replace_text. induction s as [|c s IH]; intros S; [reflexivity|]. cbn [app replace_from].
  replace (startswith (eps_text (x, y)) (c :: s ++ e)) with false; [now rewrite (IH (safe_tail _ _ S))|]. symmetry.
  unfold eps_text. cbn [lit String.list_ascii_of_string app startswith fst snd].
  destruct (Ascii.eqb "*" c) eqn:E; [|reflexivity]. apply Ascii.eqb_eq in E as <-. destruct S as [P S]. specialize (S [] s eq_refl).
  destruct s as [|c1 [|c2 s]]; cbn [List.length] in S; [lia|lia|]. cbn [app].
  replace (Ascii.eqb "p" c2) with false; [now rewrite andb_false_r|]. symmetry. apply Ascii.eqb_neq. intros <-. apply P. now do 2 right; left.
Qed.

Lemma contains_eps s vs : safe s -> contains_text (lit "eps") (s ++ flat_map eps_text vs) = match vs with [] => false | _ => true end.
Proof.
  intros [P _]. destruct vs as [|[a b] vs].
  - cbn [flat_map]. rewrite app_nil_r. apply contains_text_not. intros I. apply P. eapply inside_chars; [exact I|right; now left].
  - apply contains_text_iff. exists (s ++ lit "*"), (lit "[" ++ show_nat a ++ lit "][" ++ show_nat b ++ lit "]" ++ flat_map eps_text vs).
    cbn [flat_map]. unfold eps_text at 1. cbn [fst snd]. rewrite <- !app_assoc. reflexivity.
Qed.

(** ** Evaluation *)

(** the text of a factor with a value for its index *)
Definition value_text (u : bool) : str := if u then lit "0" else lit "1".

Definition factor_text (value : str -> bool) (p : part) : str :=
  match p with
  | PD d false n => low_doublet d ++ lit "[" ++ value_text (value n) ++ lit "]"
  | PD d true n => lit "c(" ++ low_doublet d ++ lit "c[" ++ value_text (value n) ++ lit "])"
  | PS s false => singlet_label s
  | PS s true => lit "c(" ++ singlet_label s ++ lit ")"
  end.

Lemma eval_factor_text value p : eval_factor (factor_text value p) = Ok (component value p).
Proof. destruct p as [d [|] n|s [|]]; cbn [factor_text component]; [destruct (value n), d|destruct (value n), d|destruct s|destruct s]; vm_compute; reflexivity. Qed.

Lemma factor_text_chars value p c : In c (lit "*,p") -> ~ In c (factor_text value p).
Proof.
  intros H I. assert (E : forallb (fun c => negb (existsb (Ascii.eqb c) (factor_text value p))) (lit "*,p") = true).
  { destruct p as [d [|] n|s [|]]; cbn [factor_text]; [destruct (value n), d|destruct (value n), d|destruct s|destruct s]; vm_compute; reflexivity. }
  rewrite forallb_forall in E. specialize (E c H). apply negb_true_iff in E.
  assert (X : existsb (Ascii.eqb c) (factor_text value p) = true) by (apply existsb_exists; exists c; split; [exact I|apply Ascii.eqb_refl]). congruence.
Qed.

Lemma factor_text_two value p : 2 <= List.length (factor_text value p).
Proof. destruct p as [d [|] n|s [|]]; cbn [factor_text]; [destruct (value n), d|destruct (value n), d|destruct s|destruct s]; vm_compute; lia. Qed.

Lemma replace_one a b s : replace_text [a] [b] s = map (fun c => if Ascii.eqb a c then b else c) s.
Proof.
  unfold replace_text. induction s as [|c s IH]; [reflexivity|]. cbn [replace_from startswith map]. destruct (Ascii.eqb a c); cbn [andb app List.length]; [|now rewrite IH].
  cbn [Nat.sub]. now rewrite IH.
Qed.

Lemma replace_star l : Forall (fun s => ~ In "*"%char s) l -> replace_text (lit "*") (lit ",") (join (lit "*") l) = join (lit ",") l.
Proof.
  intros F. change (lit "*") with ["*"%char]. change (lit ",") with [","%char]. rewrite replace_one.
  assert (Id : forall s, ~ In "*"%char s -> map (fun c => if Ascii.eqb "*" c then ","%char else c) s = s).
  { induction s as [|c s IH]; intros N; [reflexivity|]. cbn [map]. rewrite IH by (intros I; apply N; now right).
    destruct (Ascii.eqb_spec "*" c) as [<-|]; [exfalso; apply N; now left|reflexivity]. }
  induction F as [|s l N F IH]; [reflexivity|]. destruct l as [|t l]; [now apply Id|]. cbn [join] in *. rewrite !map_app, Id, IH by exact N. reflexivity.
Qed.

Lemma eval_join value l : eval_op (replace_text (lit "*") (lit ",") (join (lit "*") (map (factor_text value) l))) = Ok (map (component value) l).
Proof.
  rewrite replace_star by (apply Forall_map, Forall_forall; intros p _; apply factor_text_chars; now left).
  destruct l as [|p l]; [reflexivity|]. unfold eval_op.
  destruct (join (lit ",") (map (factor_text value) (p :: l))) as [|c s] eqn:E.
  - exfalso. pose proof (factor_text_two value p) as H. apply (f_equal (@List.length ascii)) in E. cbn [map] in E.
    destruct (map (factor_text value) l); cbn [join] in E; rewrite ?app_length in E; cbn [List.length] in E; lia.
  - rewrite <- E. clear E c s. change (lit ",") with [","%char]. rewrite split_join.
    + generalize (p :: l). induction l0 as [|q l0 IH]; [reflexivity|]. cbn [map mapM]. rewrite eval_factor_text. cbn [bind]. now rewrite IH.
    + discriminate.
    + apply Forall_map, Forall_forall. intros q _. apply factor_text_chars. cbn. tauto.
Qed.

Lemma join_safe value l : safe (join (lit "*") (map (factor_text value) l)).
Proof.
  induction l as [|p l IH].
  - split; [intros []|]. intros [|? ?] v E; discriminate E.
  - assert (S1 : ~ In "*"%char (factor_text value p)) by (apply factor_text_chars; now left).
    assert (S2 : ~ In "p"%char (factor_text value p)) by (apply factor_text_chars; cbn; tauto).
    destruct l as [|q l].
    + split; [exact S2|]. intros u v E. exfalso. apply S1. cbn [map join] in E. rewrite E. apply in_app_iff. right. now left.
    + change (join (lit "*") (map (factor_text value) (p :: q :: l))) with (factor_text value p ++ "*"%char :: join (lit "*") (map (factor_text value) (q :: l))).
      set (r := join (lit "*") (map (factor_text value) (q :: l))) in *. destruct IH as [IH1 IH2]. split.
      * intros I. apply in_app_iff in I as [I|[I|I]]; [auto|discriminate|auto].
      * intros u v E. enough (G : forall w u, ~ In "*"%char w -> w ++ "*"%char :: r = u ++ "*"%char :: v -> 2 <= List.length v) by exact (G _ _ S1 E).
        clear u E. induction w as [|c w IHw]; intros u N E.
        -- destruct u as [|c u]; cbn in E; injection E as E.
           ++ rewrite <- E. subst r. pose proof (factor_text_two value q) as H. cbn [map]. destruct (map (factor_text value) l); cbn [join]; rewrite ?app_length; lia.
           ++ eapply IH2. eassumption.
        -- destruct u as [|d u]; cbn in E; injection E as E1 E2.
           ++ exfalso. apply N. left. exact E1.
           ++ apply (IHw u (fun I => N (or_intror I)) E2).
Qed.
