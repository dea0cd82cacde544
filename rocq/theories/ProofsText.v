(** * ProofsText: facts about [str.replace] *)

From Coq Require Import Ascii String List Bool Arith Lia.
From Verif Require Import Base BaseFacts ModelClosures.
Import ListNotations.
Local Open Scope nat_scope.

Definition inside (p s : str) : Prop := exists u v, s = u ++ p ++ v.

Lemma startswith_iff p s : startswith p s = true <-> exists v, s = p ++ v.
Proof.
  revert s. induction p as [|a p IH]; intros s; cbn [startswith].
  - split; [now exists s|reflexivity].
  - destruct s as [|b s]; [split; [discriminate|intros (v & [=])]|]. rewrite andb_true_iff, IH. split.
    + intros (E & v & ->). apply Ascii.eqb_eq in E as ->. now exists v.
    + intros (v & [= -> ->]). split; [apply Ascii.eqb_refl|now exists v].
Qed.

Lemma startswith_not p s : ~ inside p s -> startswith p s = false.
Proof. intros N. destruct (startswith p s) eqn:E; [|reflexivity]. exfalso. apply startswith_iff in E as (v & ->). apply N. now exists [], v. Qed.

Lemma inside_cons p c s : inside p s -> inside p (c :: s).
Proof. intros (u & v & ->). now exists (c :: u), v. Qed.

Lemma contains_text_iff p s : contains_text p s = true <-> inside p s.
Proof.
  unfold contains_text. rewrite existsb_exists. split.
  - intros (n & _ & E). apply startswith_iff in E as (v & E). exists (firstn n s), v. rewrite <- E. symmetry. apply firstn_skipn.
  - intros (u & v & ->). exists (List.length u). split.
    + apply in_seq. rewrite app_length. lia.
    + apply startswith_iff. exists v. rewrite skipn_app, Nat.sub_diag, skipn_all. reflexivity.
Qed.

Lemma contains_text_not p s : contains_text p s = false <-> ~ inside p s.
Proof. rewrite <- contains_text_iff. now destruct (contains_text p s). Qed.

(** text that does not contain the pattern stays *)
Lemma replace_absent p r s : ~ inside p s -> replace_text p r s = s.
Proof.
  unfold replace_text. induction s as [|c s IH]; intros N; cbn [replace_from]; [reflexivity|].
  rewrite (startswith_not _ _ N). rewrite IH; [reflexivity|]. intros I. apply N. now apply inside_cons.
Qed.

Lemma replace_skip p r s k : k = List.length s -> replace_from p r s k = [].
Proof. revert k. induction s as [|c s IH]; intros k ->; cbn [replace_from List.length]; auto. Qed.

(** the pattern itself *)
Lemma replace_self p r : p <> [] -> replace_text p r p = r.
Proof.
  intros N. unfold replace_text. destruct p as [|c p]; [contradiction|]. cbn [replace_from].
  replace (startswith (c :: p) (c :: p)) with true.
  - rewrite replace_skip; [apply app_nil_r|]. cbn [List.length]. lia.
  - symmetry. apply startswith_iff. exists []. now rewrite app_nil_r.
Qed.

(** a character that does not occur in the pattern separates *)
Lemma startswith_sep p w c y : ~ In c p -> startswith p (w ++ c :: y) = startswith p w.
Proof.
  revert w. induction p as [|a p IH]; intros w N; cbn [startswith]; [now destruct w|]. destruct w as [|b w]; cbn [app].
  - destruct (Ascii.eqb_spec a c) as [->|]; [exfalso; apply N; now left|reflexivity].
  - now rewrite IH by (intros I; apply N; now right).
Qed.

Lemma startswith_len p w : startswith p w = true -> List.length p <= List.length w.
Proof. intros H. apply startswith_iff in H as (v & ->). rewrite app_length. lia. Qed.

Lemma replace_from_sep p r c y : p <> [] -> ~ In c p -> forall w k, k <= List.length w ->
  replace_from p r (w ++ c :: y) k = replace_from p r w k ++ c :: replace_text p r y.
Proof.
  intros Ne N. induction w as [|b w IH]; intros k K; cbn [app replace_from].
  - cbn [List.length] in K. assert (k = 0) as -> by lia. pose proof (startswith_sep p [] c y N) as E. cbn [app] in E. rewrite E.
    destruct p; [contradiction|]. reflexivity.
  - cbn [List.length] in K. destruct k as [|k]; [|apply IH; lia]. pose proof (startswith_sep p (b :: w) c y N) as E. cbn [app] in E. rewrite E.
    destruct (startswith p (b :: w)) eqn:S.
    + apply startswith_len in S. cbn [List.length] in S. rewrite IH by lia. now rewrite app_assoc.
    + rewrite IH by lia. reflexivity.
Qed.

Lemma replace_sep p r w c y : p <> [] -> ~ In c p -> replace_text p r (w ++ c :: y) = replace_text p r w ++ c :: replace_text p r y.
Proof. intros Ne N. unfold replace_text. rewrite replace_from_sep; auto. lia. Qed.

(** ** Text as words and separators *)

Inductive tok := Word (w : str) | Sep (c : ascii).

Definition show_tok (t : tok) : str := match t with Word w => w | Sep c => [c] end.
Definition render (l : list tok) : str := flat_map show_tok l.

(** no word next to another *)
Fixpoint spaced (l : list tok) : Prop :=
  match l with
  | Word _ :: ((Word _ :: _) as r) => False
  | _ :: r => spaced r
  | [] => True
  end.

Definition map_words (f : str -> str) (l : list tok) : list tok := map (fun t => match t with Word w => Word (f w) | Sep c => Sep c end) l.

Definition seps_in (ok : ascii -> bool) (l : list tok) : Prop := forall c, In (Sep c) l -> ok c = true.

Lemma render_app a b : render (a ++ b) = render a ++ render b. Proof. apply flat_map_app. Qed.

Lemma replace_render p r : p <> [] -> forall l, spaced l -> (forall c, In (Sep c) l -> ~ In c p) ->
  replace_text p r (render l) = render (map_words (replace_text p r) l).
Proof.
  intros Ne. assert (Nil : replace_text p r [] = []) by reflexivity.
  fix F 1. intros l Sp N. destruct l as [|[w|c] l]; [reflexivity| |].
  - destruct l as [|[w'|c] l]; [cbn; now rewrite !app_nil_r|destruct Sp|]. cbn [render flat_map show_tok map_words map app] in *.
    rewrite replace_sep; [|exact Ne|apply N; right; now left]. f_equal. f_equal. apply F; [exact Sp|]. intros x I. apply N. now do 2 right.
  - cbn [render flat_map show_tok map_words map app] in *. pose proof (replace_sep p r [] c (render l) Ne) as E. cbn [app] in E. rewrite Nil in E. cbn [app] in E.
    fold (render l). rewrite E by (apply N; now left). f_equal. apply F; [|intros x I; apply N; now right]. destruct l; exact Sp.
Qed.

Lemma map_words_spaced f l : spaced (map_words f l) <-> spaced l.
Proof.
  revert l. fix F 1. intros [|[w|c] l]; [tauto| |].
  - destruct l as [|[w'|c] l]; [tauto|tauto|]. exact (F l).
  - cbn [map_words map]. specialize (F l). unfold map_words in F. destruct l as [|[w'|c'] l]; exact F.
Qed.

Lemma map_words_seps f l c : In (Sep c) (map_words f l) <-> In (Sep c) l.
Proof.
  unfold map_words. rewrite in_map_iff. split.
  - intros ([w|d] & E & I); [discriminate|]. now injection E as ->.
  - intros I. now exists (Sep c).
Qed.

Lemma map_words_map f g l : map_words f (map_words g l) = map_words (fun w => f (g w)) l.
Proof. unfold map_words. rewrite map_map. apply map_ext. now intros [w|c]. Qed.

Lemma map_words_ext f g l : (forall w, In (Word w) l -> f w = g w) -> map_words f l = map_words g l.
Proof. intros H. unfold map_words. apply map_ext_in. intros [w|c] I; [now rewrite H|reflexivity]. Qed.

Lemma map_words_app f a b : map_words f (a ++ b) = map_words f a ++ map_words f b. Proof. apply map_app. Qed.

Lemma map_words_in f l w : In (Word w) (map_words f l) <-> exists v, w = f v /\ In (Word v) l.
Proof.
  unfold map_words. rewrite in_map_iff. split.
  - intros ([v|d] & E & I); [|discriminate]. injection E as <-. now exists v.
  - intros (v & -> & I). now exists (Word v).
Qed.
