(** * ProofsIndex: lemmas about tensor indices *)

From Coq Require Import Ascii String List Bool Arith ZArith Lia Permutation.
From Verif Require Import Base BaseFacts Show ModelIndex SpecIndex.
Import ListNotations.
Local Open Scope nat_scope.

Lemma itype_decides : decides itype_eqb.
Proof. intros [] []; cbn; split; intros H; try reflexivity; discriminate. Qed.

Lemma index_eqb_spec i j :
  index_eqb i j = true <-> ix_name i = ix_name j /\ ix_type i = ix_type j /\ ix_up i = ix_up j.
Proof.
  unfold index_eqb. rewrite !andb_true_iff, (str_decides _ _), (itype_decides _ _), (bool_decides _ _). tauto.
Qed.

Lemma letter_index_letter t : index_letter t = letter t. Proof. now destruct t. Qed.

Lemma type_of_letter t : type_of_char (letter t) = Ok t. Proof. now destruct t. Qed.

Lemma type_of_char_ok c t : type_of_char c = Ok t <-> c = letter t.
Proof.
  split.
  - unfold type_of_char.
    destruct (Ascii.eqb_spec c "u"); [intros [= <-]; assumption|].
    destruct (Ascii.eqb_spec c "d"); [intros [= <-]; assumption|].
    destruct (Ascii.eqb_spec c "c"); [intros [= <-]; assumption|].
    destruct (Ascii.eqb_spec c "i"); [intros [= <-]; assumption|].
    destruct (Ascii.eqb_spec c "g"); [intros [= <-]; assumption|]. discriminate.
  - intros ->. apply type_of_letter.
Qed.

Lemma lower_char_spec c : lower_char c = c \/ 65 <= nat_of_ascii c <= 90.
Proof.
  unfold lower_char. destruct ((65 <=? nat_of_ascii c) && (nat_of_ascii c <=? 90)) eqn:E; [right|now left].
  apply andb_true_iff in E as [E1 E2]. apply Nat.leb_le in E1, E2. lia.
Qed.

(** a character that is not an upper-case letter only comes from itself or, if a lower-case letter, from its
    capital *)
Lemma lower_char_inv c d : lower_char c = d -> ~ 97 <= nat_of_ascii d <= 122 -> c = d.
Proof.
  unfold lower_char. destruct ((65 <=? nat_of_ascii c) && (nat_of_ascii c <=? 90)) eqn:E; [|auto].
  apply andb_true_iff in E as [E1 E2]. apply Nat.leb_le in E1, E2. intros <- H. exfalso. apply H.
  rewrite nat_ascii_embedding; lia.
Qed.

Lemma lower_char_dash c : lower_char c = "-"%char -> c = "-"%char.
Proof. intros H. apply lower_char_inv in H; auto. cbn. lia. Qed.

Lemma lower_char_idem c : lower_char (lower_char c) = lower_char c.
Proof.
  unfold lower_char at 2 3. destruct ((65 <=? nat_of_ascii c) && (nat_of_ascii c <=? 90)) eqn:E.
  - apply andb_true_iff in E as [E1 E2]. apply Nat.leb_le in E1, E2. unfold lower_char.
    rewrite nat_ascii_embedding by lia.
    replace ((65 <=? nat_of_ascii c + 32) && (nat_of_ascii c + 32 <=? 90)) with false; [reflexivity|].
    symmetry. apply andb_false_iff. right. apply Nat.leb_gt. lia.
  - unfold lower_char. now rewrite E.
Qed.

Lemma lower_idem x : lower (lower x) = lower x.
Proof. unfold lower. rewrite map_map. apply map_ext. apply lower_char_idem. Qed.

Lemma lower_letter t : lower_char (letter t) = letter t. Proof. now destruct t. Qed.

Lemma lower_spelled low auto t rest : lower (spelled low auto t rest) = spelled low auto t (lower rest).
Proof. destruct low, auto; unfold spelled; cbn; now rewrite lower_letter. Qed.

(** [Index] on the documented labels, whatever their case *)
Lemma new_index_spelled l low auto t rest :
  lower l = spelled low auto t rest ->
  new_index l = Ok (mkIndex l (letter t :: rest ++ (if auto then lit "_" else [])) t (negb low)).
Proof.
  intros E. unfold new_index. rewrite E. unfold spelled.
  assert (Hd : Ascii.eqb (letter t) "-" = false) by now destruct t.
  assert (Hu : Ascii.eqb (letter t) "_" = false) by now destruct t.
  destruct low, auto; cbn [app]; rewrite ?Hd; cbn [negb Ascii.eqb Bool.eqb]; rewrite ?Hu;
    cbn [app classify_index]; rewrite ?Hd, type_of_letter; cbn [bind]; rewrite ?app_nil_r; reflexivity.
Qed.

Lemma new_index_label l i : new_index l = Ok i -> ix_label i = l.
Proof.
  unfold new_index. destruct (lower l) as [|c r]; [discriminate|].
  destruct (if negb (Ascii.eqb c "-") then c :: r else r) as [|c' r']; [discriminate|].
  intros H. apply bind_ok in H as (t & _ & H); cbv beta in H; injection H as <-. reflexivity.
Qed.

Lemma new_index_height l i : new_index l = Ok i -> ix_up i = match l with c :: _ => negb (Ascii.eqb c "-") | [] => true end.
Proof.
  unfold new_index. destruct l as [|c0 l]; [discriminate|].
  change (lower (c0 :: l)) with (lower_char c0 :: lower l). cbv zeta iota.
  destruct (if negb (Ascii.eqb (lower_char c0) "-") then lower_char c0 :: lower l else lower l) as [|c' r'];
    [discriminate|].
  intros H. apply bind_ok in H as (t & _ & H); cbv beta in H; injection H as <-. cbn. f_equal.
  destruct (Ascii.eqb_spec (lower_char c0) "-") as [E|E].
  - apply lower_char_dash in E. now subst.
  - symmetry. apply Ascii.eqb_neq. intros ->. apply E. reflexivity.
Qed.

Lemma replace_char_app a b x y : replace_char a b (x ++ y) = replace_char a b x ++ replace_char a b y.
Proof. apply map_app. Qed.

Lemma replace_replace a b x : a <> b -> (replace_char b a (replace_char a b x) = x <-> ~ In b x).
Proof.
  intros N. induction x as [|c x IH]; cbn; [tauto|].
  destruct (Ascii.eqb_spec c a) as [->|Na].
  - rewrite Ascii.eqb_refl. split.
    + intros [= H]. intros [E|I]; [now apply N|]. now apply IH in H.
    + intros H. f_equal. apply IH. intros I. apply H. now right.
  - destruct (Ascii.eqb_spec c b) as [->|Nb].
    + split; [intros [= H _]; now destruct N|]. intros H. exfalso. apply H. now left.
    + split.
      * intros [= H]. intros [E|I]; [now apply Nb|]. now apply IH in H.
      * intros H. f_equal. apply IH. intros I. apply H. now right.
Qed.

Lemma replace_spelled a b t t' low auto rest :
  a = letter t -> b = letter t' -> replace_char a b (spelled low auto t rest) = spelled low auto t' (replace_char a b rest).
Proof.
  intros -> ->.
  assert (Hd : Ascii.eqb "-" (letter t) = false) by now destruct t.
  assert (Hu : Ascii.eqb "_" (letter t) = false) by now destruct t.
  destruct low, auto; unfold spelled; cbn [app replace_char map]; now rewrite ?Hd, ?Hu, Ascii.eqb_refl.
Qed.

(** acceptance *)
Lemma classify_ok x t : classify_index x = Ok t <-> (exists r, x = letter t :: r) \/ (exists r, x = "-"%char :: letter t :: r).
Proof.
  split.
  - destruct x as [|c r]; [discriminate|]. cbn. destruct (Ascii.eqb_spec c "-") as [->|N].
    + destruct r as [|c' r]; [discriminate|]. rewrite type_of_char_ok. intros ->. right. eauto.
    + rewrite type_of_char_ok. intros ->. left. eauto.
  - intros [(r & ->)|(r & ->)].
    + cbn. replace (Ascii.eqb (letter t) "-") with false by now destruct t. apply type_of_letter.
    + cbn. apply type_of_letter.
Qed.

Lemma show_digits n : Forall is_digit (show_nat n).
Proof. unfold show_nat. apply uint_digits. Qed.

Lemma show_nat_inj a b : show_nat a = show_nat b -> a = b.
Proof.
  unfold show_nat. intros H. apply lit_inj in H.
  apply (f_equal DecimalString.NilEmpty.uint_of_string) in H.
  rewrite !DecimalString.NilEmpty.usu in H. injection H as H.
  apply (f_equal Nat.of_uint) in H. now rewrite !DecimalNat.Unsigned.of_to in H.
Qed.

Lemma digit_char c : is_digit c -> 48 <= nat_of_ascii c <= 57.
Proof.
  unfold is_digit. intros H.
  repeat (destruct H as [<-|H]; [cbn; lia|]). destruct H.
Qed.

Lemma digits_lower x : Forall is_digit x -> lower x = x.
Proof.
  intros H. unfold lower. rewrite <- (map_id x) at 2. apply map_ext_in. intros c I.
  rewrite Forall_forall in H. specialize (H c I). apply digit_char in H.
  destruct (lower_char_spec c) as [E|E]; [exact E|lia].
Qed.

Lemma replace_digits a b x : Forall is_digit x -> ~ (48 <= nat_of_ascii a <= 57) -> replace_char a b x = x.
Proof.
  intros H N. unfold replace_char. rewrite <- (map_id x) at 2. apply map_ext_in. intros c I.
  rewrite Forall_forall in H. specialize (H c I). apply digit_char in H.
  destruct (Ascii.eqb_spec c a) as [->|_]; [lia|reflexivity].
Qed.

(** ** Fresh indices *)

Definition fresh_name (t : itype) (n : nat) : str := letter t :: show_nat n ++ lit "_".
Definition fresh_index (t : itype) (n : nat) : index :=
  mkIndex (lit "_" ++ letter t :: show_nat n) (fresh_name t n) t true.

Lemma fresh_ok t st : fresh (letter t) st = Ok (fresh_index t (st t), bump t st).
Proof.
  unfold fresh. rewrite type_of_letter. cbn [bind].
  pose proof (show_digits (st t)) as D.
  rewrite (new_index_spelled (lit "_i" ++ show_nat (st t)) false true Isospin (show_nat (st t))).
  2:{ unfold spelled. cbn. f_equal. f_equal. now apply digits_lower. }
  cbn [bind ix_label].
  rewrite (new_index_spelled (replace_char "i" (letter t) (lit "_i" ++ show_nat (st t))) false true t (show_nat (st t))).
  2:{ unfold spelled. cbn. rewrite lower_letter. f_equal. f_equal.
      change (map (fun c => if Ascii.eqb c "i" then letter t else c) (show_nat (st t)))
        with (replace_char "i" (letter t) (show_nat (st t))).
      rewrite replace_digits; [now apply digits_lower|exact D|cbn; lia]. }
  cbn [bind negb]. unfold fresh_index, fresh_name. repeat f_equal.
  cbn. f_equal. f_equal. change (map (fun c => if Ascii.eqb c "i" then letter t else c) (show_nat (st t)))
        with (replace_char "i" (letter t) (show_nat (st t))).
  apply replace_digits; [exact D|cbn; lia].
Qed.

Definition lowered (i : index) : index := mkIndex (lit "-" ++ ix_label i) (ix_name i) (ix_type i) false.

Lemma neg_fresh t n : neg_index (fresh_index t n) = Ok (lowered (fresh_index t n)).
Proof.
  unfold neg_index, lowered, fresh_index. cbn [ix_up ix_label].
  rewrite (new_index_spelled _ true true t (show_nat n)); [reflexivity|].
  unfold spelled. cbn. rewrite lower_letter. do 3 f_equal. apply digits_lower, show_digits.
Qed.

Lemma letter_inj t t' : letter t = letter t' -> t = t'.
Proof. destruct t, t'; intros H; try reflexivity; discriminate H. Qed.

Lemma fresh_name_inj t n t' n' : fresh_name t n = fresh_name t' n' -> t = t' /\ n = n'.
Proof.
  unfold fresh_name. intros [= E H]. apply letter_inj in E. split; [exact E|].
  apply app_inj_tail in H as [H _]. now apply show_nat_inj.
Qed.

(** the list produced for one Dynkin label *)
Definition fresh_block (raised : bool) (t : itype) (n k : nat) : list index :=
  map (fun j => if raised then fresh_index t j else lowered (fresh_index t j)) (seq k n).

Definition bump_by (t : itype) (n : nat) (st : counters) : counters :=
  fun t' => if itype_eqb t' t then n + st t' else st t'.

Lemma fresh_many_ok raised t n : forall st,
  exists st', fresh_many raised (letter t) n st = Ok (fresh_block raised t n (st t), st') /\
              (forall t', st' t' = bump_by t n st t').
Proof.
  induction n as [|n IH]; intros st.
  - exists st. split; [reflexivity|]. intros t'. unfold bump_by. now destruct (itype_eqb t' t).
  - cbn [fresh_many]. rewrite fresh_ok. cbn [bind fst snd].
    destruct (IH (bump t st)) as (st' & E & H). exists st'. rewrite E.
    assert (R : (if raised then Ok (fresh_index t (st t)) else neg_index (fresh_index t (st t))) =
                Ok (if raised then fresh_index t (st t) else lowered (fresh_index t (st t)))).
    { destruct raised; [reflexivity|]. apply neg_fresh. }
    rewrite R. cbn [bind fst snd]. split.
    + unfold fresh_block. cbn [seq map]. unfold bump at 1. rewrite (decides_refl itype_decides). reflexivity.
    + intros t'. rewrite H. unfold bump_by, bump. destruct (itype_eqb t' t); lia.
Qed.

Lemma digit_of_digit n : n < 10 -> digit_of (digit n) = Ok n.
Proof.
  intros H. unfold digit_of, digit. rewrite nat_ascii_embedding by lia.
  replace ((48 <=? 48 + n) && (48 + n <=? 57)) with true.
  - f_equal. lia.
  - symmetry. apply andb_true_iff. split; apply Nat.leb_le; lia.
Qed.

Lemma digit_of_ok c n : digit_of c = Ok n <-> n < 10 /\ c = digit n.
Proof.
  split.
  - unfold digit_of. destruct ((48 <=? nat_of_ascii c) && (nat_of_ascii c <=? 57)) eqn:E; [|discriminate].
    apply andb_true_iff in E as [E1 E2]. apply Nat.leb_le in E1, E2. intros [= <-]. split; [lia|].
    unfold digit. replace (48 + (nat_of_ascii c - 48)) with (nat_of_ascii c) by lia.
    now rewrite ascii_nat_embedding.
  - intros [H ->]. now apply digit_of_digit.
Qed.

Lemma show_nat_digit n : n < 10 -> show_nat n = [digit n].
Proof. intros H. do 10 (destruct n as [|n]; [reflexivity|]). lia. Qed.

Lemma map_kind_block raised t n k :
  map (fun i => (ix_type i, ix_up i)) (fresh_block raised t n k) = repeat (t, raised) n.
Proof.
  unfold fresh_block. rewrite map_map. revert k.
  induction n as [|n IH]; intros k; [reflexivity|]. cbn. rewrite IH. now destruct raised.
Qed.

Lemma map_name_block raised t n k : map ix_name (fresh_block raised t n k) = map (fresh_name t) (seq k n).
Proof. unfold fresh_block. rewrite map_map. apply map_ext. now destruct raised. Qed.

(** what one call of [fresh_indices] yields *)
Lemma fresh_list_ok a b c d e st :
  a < 10 -> b < 10 -> c < 10 -> d < 10 -> e < 10 ->
  exists st',
    fresh_index_list [digit a; digit b; digit c; digit d; digit e] st =
      Ok (fresh_block true Undotted a (st Undotted) ++ fresh_block true Dotted b (st Dotted) ++
          fresh_block true Colour c (st Colour) ++ fresh_block false Colour d (c + st Colour) ++
          fresh_block true Isospin e (st Isospin), st') /\
    st' Undotted = a + st Undotted /\ st' Dotted = b + st Dotted /\ st' Colour = d + (c + st Colour) /\
    st' Isospin = e + st Isospin /\ st' Generation = st Generation.
Proof.
  intros Ha Hb Hc Hd He. unfold fresh_index_list. cbn [combine dynkin_labels foldM fst snd].
  rewrite !digit_of_digit by assumption. cbn [bind].
  change "u"%char with (letter Undotted). change "d"%char with (letter Dotted).
  change "c"%char with (letter Colour). change "i"%char with (letter Isospin).
  destruct (fresh_many_ok true Undotted a st) as (s1 & E1 & H1). rewrite E1. cbn [bind fst snd].
  destruct (fresh_many_ok true Dotted b s1) as (s2 & E2 & H2). rewrite E2. cbn [bind fst snd].
  destruct (fresh_many_ok true Colour c s2) as (s3 & E3 & H3). rewrite E3. cbn [bind fst snd].
  destruct (fresh_many_ok false Colour d s3) as (s4 & E4 & H4). rewrite E4. cbn [bind fst snd].
  destruct (fresh_many_ok true Isospin e s4) as (s5 & E5 & H5). rewrite E5. cbn [bind fst snd].
  exists s5. split.
  - cbn [app]. rewrite <- !app_assoc. rewrite H4, H3, H2, H1. unfold bump_by. cbn [itype_eqb].
    rewrite H3, H2, H1. unfold bump_by. cbn [itype_eqb]. rewrite H2, H1. unfold bump_by. cbn [itype_eqb].
    rewrite H1. unfold bump_by. cbn [itype_eqb]. reflexivity.
  - rewrite !H5. unfold bump_by. cbn [itype_eqb]. rewrite !H4. unfold bump_by. cbn [itype_eqb].
    rewrite !H3. unfold bump_by. cbn [itype_eqb]. rewrite !H2. unfold bump_by. cbn [itype_eqb].
    rewrite !H1. unfold bump_by. cbn [itype_eqb]. repeat split; reflexivity.
Qed.

(** ** get_dynkin and assert_consistent_indices *)

Definition kinds_ok (i : index) : bool := ix_up i || itype_eqb (ix_type i) Colour || itype_eqb (ix_type i) Generation.

Lemma count_kind_cons t up i l :
  count_kind t up (i :: l) = (if itype_eqb (ix_type i) t && Bool.eqb (ix_up i) up then 1 else 0) + count_kind t up l.
Proof.
  unfold count_kind. cbn [filter].
  destruct (ix_type i), t; cbn [itype_eqb andb]; try reflexivity; now destruct (Bool.eqb (ix_up i) up).
Qed.

Lemma dynkin_fold l : forall a b c d e,
  forallb kinds_ok l = true ->
  foldM dynkin_step l (a, b, c, d, e) =
    Ok (a + count_kind Undotted true l, b + count_kind Dotted true l, c + count_kind Colour true l,
        d + count_kind Colour false l, e + count_kind Isospin true l).
Proof.
  induction l as [|i l IH]; intros a b c d e H; cbn [foldM].
  - unfold count_kind. cbn. now rewrite !Nat.add_0_r.
  - cbn [forallb] in H. apply andb_true_iff in H as [Hi H]. unfold kinds_ok in Hi.
    destruct i as [lab nm t up]. rewrite !count_kind_cons.
    destruct t, up; try discriminate Hi; cbn [dynkin_step ix_type ix_up bind]; rewrite IH by exact H;
      cbn [itype_eqb Bool.eqb andb]; apply (f_equal Ok); repeat apply (f_equal2 pair); lia.
Qed.

Lemma dynkin_fold_err l : forall d, forallb kinds_ok l = false -> foldM dynkin_step l d = Err KeyError.
Proof.
  induction l as [|i l IH]; intros d H; [discriminate|].
  cbn [forallb] in H. apply andb_false_iff in H.
  destruct i as [lab nm t up], d as [[[[a b] c] dd] e]. cbn [foldM].
  destruct H as [H|H].
  - unfold kinds_ok in H. cbn in H. destruct t, up; try discriminate H; reflexivity.
  - destruct t, up; cbn [dynkin_step ix_type ix_up bind]; auto.
Qed.

Lemma get_dynkin_ok l :
  forallb kinds_ok l = true ->
  get_dynkin l = Ok (show_nat (count_kind Undotted true l) ++ show_nat (count_kind Dotted true l) ++
                     show_nat (count_kind Colour true l) ++ show_nat (count_kind Colour false l) ++
                     show_nat (count_kind Isospin true l)).
Proof.
  intros H. unfold get_dynkin. rewrite dynkin_fold by exact H. cbn [bind Nat.add map concat].
  now rewrite app_nil_r.
Qed.

Lemma split_ws_join l :
  Forall (fun p => p <> [] /\ ~ In " "%char p) l -> split_ws (join (lit " ") l) = l.
Proof.
  intros H. unfold split_ws. destruct l as [|x l]; [reflexivity|].
  change (lit " ") with [" "%char]. rewrite split_join.
  - assert (G : forall l : list str, Forall (fun p => p <> [] /\ ~ In " "%char p) l ->
              filter (fun p => match p with [] => false | _ => true end) l = l).
    { clear. induction l as [|y l IH]; intros H; [reflexivity|]. inversion H as [|? ? [Hy _] Hl]; subst. cbn.
      destruct y; [congruence|]. now rewrite IH. }
    now apply G.
  - discriminate.
  - apply Forall_forall. intros p Ip. rewrite Forall_forall in H. now apply H.
Qed.
