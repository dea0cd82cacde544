(** * PropsHeavy: C57, looking fields up by the beginning of their text, and C82, the one-loop models *)

From Coq Require Import Ascii String List Bool Arith ZArith QArith Qcanon Lia Permutation.
From Verif Require Import Base BaseFacts Show Spec SpecFunctions ProofsIndex ProofsDatabase3 PropsInfo3 ModelHeavy SpecHeavy.
Import ListNotations.
Local Open Scope nat_scope.

(** ** Tables *)

Lemma boxes l : In l tbl_2_su2_reps <-> exists a b c d, l = [a; b; c; d] /\ box a b c d.
Proof.
  unfold box, dim_ok, near. split.
  - intros I. unfold tbl_2_su2_reps, tbl_2_su2_reps_func in I. cbn [app Nat.add In] in I.
    repeat (destruct I as [<-|I]; [do 4 eexists; split; [reflexivity|lia]|]). destruct I.
  - intros (a & b & c & d & -> & A & B & C & D & N1 & N2 & N3 & N4).
    assert (E : a = 1 \/ a = 2 \/ a = 3 \/ a = 4 \/ a = 5 \/ a = 6 \/ a = 7) by lia.
    unfold tbl_2_su2_reps, tbl_2_su2_reps_func. cbn [app Nat.add In].
    repeat (destruct E as [-> |E]); try subst a; clear A;
      (destruct N1 as [N1|N1]; [injection N1 as <- || discriminate N1|subst b]); 
      (destruct N2 as [N2|N2]; [injection N2 as <- || discriminate N2|subst c]);
      (destruct N4 as [N4|N4]; [subst d|injection N4 as <- || discriminate N4]); try (exfalso; lia); clear; tauto.
Qed.

Lemma triangles l : In l tbl_3_su2_reps <-> exists a b c, l = [a; b; c] /\ triangle a b c.
Proof.
  unfold triangle, dim_ok, near, triplet_coupling. split.
  - intros I. unfold tbl_3_su2_reps, tbl_3_su2_reps_func in I. cbn [app Nat.add In] in I.
    repeat (destruct I as [<-|I]; [do 3 eexists; split; [reflexivity|lia]|]). destruct I.
  - intros (a & b & c & -> & A & B & C & N1 & N2 & T).
    assert (E : c = 1 \/ c = 2 \/ c = 3 \/ c = 4 \/ c = 5 \/ c = 6 \/ c = 7) by lia.
    unfold tbl_3_su2_reps, tbl_3_su2_reps_func. cbn [app Nat.add In].
    repeat (destruct E as [-> |E]); try subst c; clear C;
      (destruct N1 as [N1|N1]; [subst b|injection N1 as <- || discriminate N1]);
      (destruct N2 as [N2|N2]; [injection N2 as <- || discriminate N2|subst a]); try (exfalso; lia); clear; tauto.
Qed.

Lemma this_inj (p q : Qc) : this p = this q -> p = q.
Proof. intros E. apply Qc_is_canon. now rewrite E. Qed.

Definition sixths : list Qc := map (fun k => Q2Qc (k # 6)) (map (fun n => Z.of_nat n - 18)%Z (seq 0 37)).

Lemma range_sixths : y_range = sixths.
Proof.
  assert (M : map this y_range = map this sixths) by (vm_compute; reflexivity). revert M. generalize sixths. generalize y_range.
  induction l as [|q l IH]; intros [|q' l'] M; try discriminate M; [reflexivity|]. cbn [map] in M. injection M as M1 M2. f_equal; [now apply this_inj|now apply IH].
Qed.

Lemma in_range y : In y y_range <-> sixth y.
Proof.
  rewrite range_sixths. unfold sixths, sixth. rewrite map_map, in_map_iff. split.
  - intros (n & <- & I). apply in_seq in I. exists (Z.of_nat n - 18)%Z. split; [lia|reflexivity].
  - intros (k & K & ->). exists (Z.to_nat (k + 18)). split; [f_equal; f_equal; lia|apply in_seq; lia].
Qed.

Definition colour_text (p : nat * nat) : str := show_nat (fst p) ++ show_nat (snd p).

Lemma colours pq : In pq colour_pairs -> exists p q, small_colour p q /\ lit (fst pq) = colour_text p /\ lit (snd pq) = colour_text q.
Proof.
  cbn. intros [<-|[<-|[<-|[<-|[<-|[<-|[]]]]]]];
    [exists (0, 0), (0, 0)|exists (1, 0), (0, 1)|exists (0, 1), (1, 0)|exists (0, 2), (2, 0)|exists (2, 0), (0, 2)|exists (1, 1), (1, 1)];
    (split; [constructor|split; reflexivity]).
Qed.

Lemma colours_in p q : small_colour p q -> exists pq, In pq colour_pairs /\ lit (fst pq) = colour_text p /\ lit (snd pq) = colour_text q.
Proof.
  intros []; [exists ("00", "00")%string|exists ("10", "01")%string|exists ("01", "10")%string|exists ("20", "02")%string|exists ("02", "20")%string|exists ("11", "11")%string];
    (split; [cbn; tauto|split; reflexivity]).
Qed.

Lemma text_S (colour : string) p i k y : lit colour = colour_text p -> field_text "S" colour i k y = print_hfield (mkHF false p (nth k i 0) y).
Proof. intros E. unfold field_text, print_hfield. cbn [h_fermion h_colour h_dim h_hyper]. rewrite E. unfold colour_text. now rewrite <- !app_assoc. Qed.

Lemma text_F (colour : string) p i k y : lit colour = colour_text p -> field_text "F" colour i k y = print_hfield (mkHF true p (nth k i 0) y).
Proof. intros E. unfold field_text, print_hfield. cbn [h_fermion h_colour h_dim h_hyper]. rewrite E. unfold colour_text. now rewrite <- !app_assoc. Qed.

(** C82: exactly the loops described by [one_loop] are generated. *)
Theorem C82_models : forall m, In m generate_models <-> exists fs, one_loop fs /\ m = map print_hfield fs.
Proof.
  intros m. unfold generate_models. rewrite in_flat_map. split.
  - intros (y & Y & I). apply in_range in Y. rewrite !in_app_iff, !in_flat_map in I.
    destruct I as [(l & L & I)|[(l & L & I)|[(l & L & I)|(l & L & I)]]].
    + apply boxes in L as (a & b & c & d & -> & B). unfold tbl_2_1 in I. apply in_map_iff in I as (pq & <- & P). apply colours in P as (p & q & S & E1 & E2).
      eexists. split; [exact (ol_box1 a b c d p q y B S Y)|]. cbn [map].
      rewrite ?(text_S _ p _ _ _ E1), ?(text_S _ q _ _ _ E2), ?(text_F _ p _ _ _ E1), ?(text_F _ q _ _ _ E2). cbn [nth].
      now rewrite ?(Qcplus_comm half), ?(Qcplus_comm 1), ?(Qcplus_comm (- half)).
    + apply boxes in L as (a & b & c & d & -> & B). unfold tbl_2_2 in I. apply in_map_iff in I as (pq & <- & P). apply colours in P as (p & q & S & E1 & E2).
      eexists. split; [exact (ol_box2 a b c d p q y B S Y)|]. cbn [map].
      rewrite ?(text_S _ p _ _ _ E1), ?(text_S _ q _ _ _ E2), ?(text_F _ p _ _ _ E1), ?(text_F _ q _ _ _ E2). cbn [nth].
      now rewrite ?(Qcplus_comm half), ?(Qcplus_comm 1), ?(Qcplus_comm (- half)).
    + apply boxes in L as (a & b & c & d & -> & B). unfold tbl_2_3 in I. apply in_map_iff in I as (pq & <- & P). apply colours in P as (p & q & S & E1 & E2).
      eexists. split; [exact (ol_box3 a b c d p q y B S Y)|]. cbn [map].
      rewrite ?(text_S _ p _ _ _ E1), ?(text_S _ q _ _ _ E2), ?(text_F _ p _ _ _ E1), ?(text_F _ q _ _ _ E2). cbn [nth].
      now rewrite ?(Qcplus_comm half), ?(Qcplus_comm 1), ?(Qcplus_comm (- half)).
    + apply triangles in L as (a & b & c & -> & B). unfold tbl_3_1 in I. apply in_map_iff in I as (pq & <- & P). apply colours in P as (p & q & S & E1 & E2).
      eexists. split; [exact (ol_triangle a b c p q y B S Y)|]. cbn [map].
      rewrite ?(text_S _ p _ _ _ E1), ?(text_S _ q _ _ _ E2), ?(text_F _ p _ _ _ E1), ?(text_F _ q _ _ _ E2). cbn [nth].
      now rewrite ?(Qcplus_comm half), ?(Qcplus_comm 1), ?(Qcplus_comm (- half)).
  - intros (fs & O & ->).
    assert (Y : exists y, sixth y /\ In (map print_hfield fs) (flat_map (fun struct => tbl_2_1 struct y) tbl_2_su2_reps ++ flat_map (fun struct => tbl_2_2 struct y) tbl_2_su2_reps ++
                     flat_map (fun struct => tbl_2_3 struct y) tbl_2_su2_reps ++ flat_map (fun struct => tbl_3_1 struct y) tbl_3_su2_reps)).
    { destruct O as [a b c d p q y B S Y|a b c d p q y B S Y|a b c d p q y B S Y|a b c p q y B S Y]; exists y; (split; [exact Y|]);
        rewrite !in_app_iff, !in_flat_map; apply colours_in in S as (pq & P & E1 & E2).
      - left. exists [a; b; c; d]. split; [apply boxes; exists a, b, c, d; auto|]. apply in_map_iff. exists pq. split; [|exact P]. cbn [map].
        rewrite ?(text_S _ p _ _ _ E1), ?(text_S _ q _ _ _ E2), ?(text_F _ p _ _ _ E1), ?(text_F _ q _ _ _ E2). cbn [nth].
      now rewrite ?(Qcplus_comm half), ?(Qcplus_comm 1), ?(Qcplus_comm (- half)).
      - right. left. exists [a; b; c; d]. split; [apply boxes; exists a, b, c, d; auto|]. apply in_map_iff. exists pq. split; [|exact P]. cbn [map].
        rewrite ?(text_S _ p _ _ _ E1), ?(text_S _ q _ _ _ E2), ?(text_F _ p _ _ _ E1), ?(text_F _ q _ _ _ E2). cbn [nth].
      now rewrite ?(Qcplus_comm half), ?(Qcplus_comm 1), ?(Qcplus_comm (- half)).
      - right. right. left. exists [a; b; c; d]. split; [apply boxes; exists a, b, c, d; auto|]. apply in_map_iff. exists pq. split; [|exact P]. cbn [map].
        rewrite ?(text_S _ p _ _ _ E1), ?(text_S _ q _ _ _ E2), ?(text_F _ p _ _ _ E1), ?(text_F _ q _ _ _ E2). cbn [nth].
      now rewrite ?(Qcplus_comm half), ?(Qcplus_comm 1), ?(Qcplus_comm (- half)).
      - right. right. right. exists [a; b; c]. split; [apply triangles; exists a, b, c; auto|]. apply in_map_iff. exists pq. split; [|exact P]. cbn [map].
        rewrite ?(text_S _ p _ _ _ E1), ?(text_S _ q _ _ _ E2), ?(text_F _ p _ _ _ E1), ?(text_F _ q _ _ _ E2). cbn [nth].
      now rewrite ?(Qcplus_comm half), ?(Qcplus_comm 1), ?(Qcplus_comm (- half)). }
    destruct Y as (y & Y & I). exists y. split; [now apply in_range|exact I].
Qed.

(** ** Couplings *)

Definition signs : list Z := [1; -1]%Z.
Definition couple_b (f g : hfield) : bool :=
  existsb (fun s => existsb (fun t => existsb (fun e =>
    Qc_eq_bool (Q2Qc (inject_Z s) * h_hyper f + Q2Qc (inject_Z t) * h_hyper g + Q2Qc (e # 2)) 0 &&
    ((s * triality f + t * triality g) mod 3 =? 0)%Z) signs) signs) signs.

Lemma in_signs s : In s signs <-> sign s.
Proof. unfold signs, sign. cbn. intuition. Qed.

Lemma couple_iff f g : couple_b f g = true <-> couple f g.
Proof.
  unfold couple_b, couple. rewrite existsb_exists. split.
  - intros (s & S & H). apply existsb_exists in H as (t & T & H). apply existsb_exists in H as (e & E & H). apply andb_true_iff in H as [H1 H2].
    exists s, t, e. rewrite <- !in_signs. split; [exact S|]. split; [exact T|]. split; [exact E|]. split; [now apply Qc_eq_bool_correct|].
    apply Z.mod_divide; [discriminate|]. now apply Z.eqb_eq.
  - intros (s & t & e & S & T & E & H1 & H2). exists s. rewrite in_signs. split; [exact S|]. apply existsb_exists. exists t. rewrite in_signs. split; [exact T|].
    apply existsb_exists. exists e. rewrite in_signs. split; [exact E|]. apply andb_true_iff. split.
    + unfold Qc_eq_bool. destruct (Qc_eq_dec _ _) as [_|N]; [reflexivity|contradiction].
    + apply Z.eqb_eq, Z.mod_divide; [discriminate|exact H2].
Qed.

Definition all_sixths : list Z := map (fun n => Z.of_nat n - 18)%Z (seq 0 37).
Definition all_colours : list ((nat * nat) * (nat * nat)) :=
  [((0, 0), (0, 0)); ((1, 0), (0, 1)); ((0, 1), (1, 0)); ((2, 0), (0, 2)); ((0, 2), (2, 0)); ((1, 1), (1, 1))].

Lemma sixth_in y : sixth y -> exists k, In k all_sixths /\ y = Q2Qc (k # 6).
Proof. intros (k & K & ->). exists k. split; [|reflexivity]. apply in_map_iff. exists (Z.to_nat (k + 18)). split; [lia|apply in_seq; lia]. Qed.

Lemma colour_in p q : small_colour p q -> In (p, q) all_colours.
Proof. intros []; cbn; tauto. Qed.

(** neighbours in the loop couple to a doublet *)
Definition chain (fs : list hfield) : Prop :=
  match fs with
  | [f1; f2; f3; f4] => couple f1 f2 /\ couple f2 f3 /\ couple f3 f4 /\ couple f4 f1
  | [f1; f2; f3] => couple f2 f3 /\ couple f3 f1
  | _ => False
  end.

Definition at_colour (p : nat * nat) (y : Qc) : hfield := mkHF false p 0 y.
Definition self_conj (pq : (nat * nat) * (nat * nat)) : bool := fst (fst pq) =? snd (fst pq).

Lemma couple_at f g : couple f g <-> couple_b (at_colour (h_colour f) (h_hyper f)) (at_colour (h_colour g) (h_hyper g)) = true.
Proof. rewrite <- couple_iff. reflexivity. Qed.

Definition shifts_same : list Q := [1 # 2; - (1 # 2)]%Q.

Lemma neutral_check : forallb (fun k => forallb (fun pq : (nat * nat) * (nat * nat) => if self_conj pq then
    let y := Q2Qc (k # 6) in
    forallb (fun d => couple_b (at_colour (fst pq) y) (at_colour (snd pq) (y + Q2Qc d)) && couple_b (at_colour (snd pq) (y + Q2Qc d)) (at_colour (fst pq) y)) shifts_same &&
    forallb (fun d => couple_b (at_colour (fst pq) y) (at_colour (snd pq) (y - Q2Qc d)) && couple_b (at_colour (snd pq) (y - Q2Qc d)) (at_colour (fst pq) y)) shifts_same &&
    couple_b (at_colour (fst pq) (y + Q2Qc 1)) (at_colour (snd pq) (y + Q2Qc (1 # 2)))
    else true) all_colours) all_sixths = true.
Proof. vm_compute. reflexivity. Qed.

(** For colour singlets and octets the fields of every generated model couple as the loop demands; *)
Theorem C82_neutral : forall fs, one_loop fs -> Forall (fun f => fst (h_colour f) = snd (h_colour f)) fs ->
  In (map print_hfield fs) generate_models /\ chain fs.
Proof.
  intros fs O F. split; [apply C82_models; eauto|]. pose proof neutral_check as C. rewrite forallb_forall in C.
  destruct O as [a b c d p q y B S Y|a b c d p q y B S Y|a b c d p q y B S Y|a b c p q y B S Y]; inversion F as [|? ? F1 _]; subst; cbn [h_colour] in F1;
    apply sixth_in in Y as (k & K & ->); apply colour_in in S; specialize (C k K); rewrite forallb_forall in C; specialize (C (p, q) S);
    unfold self_conj in C; cbn [fst snd] in C; apply Nat.eqb_eq in F1; rewrite F1 in C; cbv zeta in C; cbn [forallb shifts_same] in C;
    rewrite !andb_true_iff in C; cbn [chain]; rewrite !couple_at; cbn [h_colour h_hyper]; tauto.
Qed.

Lemma coloured_check : forallb (fun k => forallb (fun pq : (nat * nat) * (nat * nat) => if self_conj pq then true else if (k <=? 3)%Z then true else
    let y := Q2Qc (k # 6) in let h := Q2Qc (1 # 2) in let f := at_colour (fst pq) in let g := at_colour (snd pq) in
    negb (couple_b (f y) (g (y - h)%Qc) || couple_b (f y) (f y) || couple_b (f y) (g (y + h)%Qc) || couple_b (g (y - h)%Qc) (f y) || couple_b (g (y + h)%Qc) (f y) || couple_b (g (y - h)%Qc) (g (y + h)%Qc) ||
          couple_b (g (y + h)%Qc) (g (y + h)%Qc) || couple_b (g (y + h)%Qc) (g (y - h)%Qc) || couple_b (f y) (f (y + Q2Qc 1)%Qc) || couple_b (f (y + Q2Qc 1)%Qc) (g (y + h)%Qc))) all_colours) all_sixths = true.
Proof. vm_compute. reflexivity. Qed.

(** for triplets and sextets, if the hypercharge of the first field is above 1/2, no two fields of the model couple to a
    colour singlet of hypercharge 1/2 or -1/2 at all. *)
Theorem C82_coloured : forall fs f rest, one_loop fs -> fs = f :: rest -> Forall (fun f => fst (h_colour f) <> snd (h_colour f)) fs ->
  (Q2Qc (1 # 2) < h_hyper f)%Qc -> ForallOrdPairs (fun f g => ~ couple f g) fs.
Proof.
  intros fs f rest O E F H. pose proof coloured_check as C. rewrite forallb_forall in C.
  assert (Hk : forall k, (Q2Qc (1 # 2) < Q2Qc (k # 6))%Qc -> (k <=? 3)%Z = false).
  { intros k L. unfold Qclt, Q2Qc in L. cbn [this] in L. rewrite !Qred_correct in L. unfold Qlt in L. cbn in L. apply Z.leb_gt. lia. }
  destruct O as [a b c d p q y B S Y|a b c d p q y B S Y|a b c d p q y B S Y|a b c p q y B S Y]; inversion F as [|? ? F1 _]; subst; cbn [h_colour] in F1;
    injection E as <- <-; cbn [h_hyper] in H; apply sixth_in in Y as (k & K & ->); apply colour_in in S; specialize (C k K); rewrite forallb_forall in C; specialize (C (p, q) S);
    unfold self_conj in C; cbn [fst snd] in C; apply Nat.eqb_neq in F1; rewrite F1, (Hk k H) in C; cbv zeta in C; rewrite !negb_orb, !andb_true_iff, !negb_true_iff in C;
    repeat constructor; rewrite couple_at; cbn [h_colour h_hyper]; apply not_true_iff_false; tauto.
Qed.

Theorem C82_refuted : exists fs, In (map print_hfield fs) generate_models /\ List.length fs = 4 /\ ForallOrdPairs (fun f g => ~ couple f g) fs.
Proof.
  set (y := Q2Qc (6 # 6)).
  set (fs := [mkHF false (1, 0) 1 y; mkHF false (0, 1) 2 (y - Q2Qc (1 # 2))%Qc; mkHF true (1, 0) 1 y; mkHF false (0, 1) 2 (y + Q2Qc (1 # 2))%Qc]).
  assert (O : one_loop fs) by (apply ol_box1; [unfold box, dim_ok, near; lia|constructor|exists 6%Z; split; [lia|reflexivity]]).
  exists fs. split; [apply C82_models; eauto|]. split; [reflexivity|]. apply (C82_coloured fs _ _ O eq_refl).
  - repeat constructor; cbn; discriminate.
  - reflexivity.
Qed.

(** ** C57: lookup by the beginning of the text *)

Lemma begins_iff f k : startswith f k = true <-> begins f k.
Proof. apply startswith_iff. Qed.

Lemma prefix_comma (a a' b b' : str) : ~ In ","%char a -> ~ In ","%char a' -> (exists r, a' ++ ","%char :: b' = (a ++ ","%char :: b) ++ r) <-> a = a' /\ exists r, b' = b ++ r.
Proof.
  intros N N'. split.
  - intros (r & E). rewrite <- app_assoc in E. cbn [app] in E. symmetry in E. apply app_comma_inj in E as [-> <-]; [|exact N|exact N']. eauto.
  - intros (-> & r & ->). exists r. rewrite <- app_assoc. reflexivity.
Qed.

Lemma prefix_last (a a' b : str) : ~ In ","%char a -> (exists r, a' ++ ","%char :: b = a ++ r) <-> exists r, a' = a ++ r.
Proof.
  intros N. split.
  - intros (r & E). revert a' E. induction a as [|x a IH]; intros a' E; [exists a'; reflexivity|].
    destruct a' as [|x' a']; cbn in E.
    + exfalso. injection E as E _. apply N. now left.
    + injection E as -> E. destruct (IH (fun I => N (or_intror I)) a' E) as (r' & ->). exists r'. reflexivity.
  - intros (r & ->). exists (r ++ ","%char :: b). now rewrite app_assoc.
Qed.

(** The fields found are those with the same Lorentz letter, colour and isospin whose hypercharge begins with the text of
    the hypercharge asked for, whatever their baryon number. *)
Theorem C57_lookup : forall primes f e, exotic_ok e ->
  In (print_exotic e) (field_options primes (print_hfield f)) <->
  In (print_exotic e) (map fst primes) /\ e_lor e = (if h_fermion f then lit "F" else lit "S") /\
  e_col e = show_nat (fst (h_colour f)) ++ show_nat (snd (h_colour f)) /\ e_iso e = show_nat (h_dim f - 1) /\
  begins (show_Q (h_hyper f)) (show_Q (e_hyp e)).
Proof.
  intros primes f e (O1 & O2 & O3). unfold field_options. rewrite filter_In, begins_iff. apply and_iff_compat_l. unfold begins. rewrite print_exotic_parts.
  assert (Nn : forall n, ~ In ","%char (show_nat n)).
  { intros n I. pose proof (show_digits n) as D. rewrite Forall_forall in D. specialize (D _ I). unfold is_digit in D. cbn in D. intuition discriminate. }
  assert (P : print_hfield f = (if h_fermion f then lit "F" else lit "S") ++ ","%char :: (show_nat (fst (h_colour f)) ++ show_nat (snd (h_colour f))) ++ ","%char :: show_nat (h_dim f - 1) ++ ","%char :: show_Q (h_hyper f)).
  { unfold print_hfield. rewrite <- !app_assoc. reflexivity. }
  rewrite P.
  rewrite prefix_comma; [|destruct (h_fermion f); cbn; intuition discriminate|exact O1].
  rewrite prefix_comma; [|rewrite in_app_iff; intros [I|I]; now apply Nn in I|exact O2].
  rewrite prefix_comma; [|apply Nn|exact O3].
  rewrite prefix_last by apply show_Q_no_comma. intuition.
Qed.

Lemma pos_digit p : (p < 10)%positive -> exists c, show_Z (Zpos p) = [c].
Proof.
  intros H. assert (E : (p = 1 \/ p = 2 \/ p = 3 \/ p = 4 \/ p = 5 \/ p = 6 \/ p = 7 \/ p = 8 \/ p = 9)%positive) by lia.
  repeat (destruct E as [-> |E]; [eexists; reflexivity|]). subst. eexists. reflexivity.
Qed.

(** So the hypercharge is the one asked for if that is zero or not an integer, and the denominators have one digit; *)
Lemma begins_exact (y y' : Qc) : y = 0%Qc \/ Qden y <> 1%positive -> (Qden y' < 10)%positive ->
  begins (show_Q y) (show_Q y') <-> y' = y.
Proof.
  intros H D. split; [|intros ->; exists []; now rewrite app_nil_r]. intros (r & E). destruct H as [-> |H].
  - rewrite show_Q_0 in E. apply show_Q_zero_prefix in E. apply E.
  - unfold show_Q in E. destruct (Pos.eqb_spec (Qden y) 1) as [X|_]; [contradiction|]. rewrite <- app_assoc in E. cbn [lit list_ascii_of_string app] in E.
    destruct (Pos.eqb_spec (Qden y') 1) as [X|_].
    + exfalso. apply (show_Z_no_slash (Qnum y')). rewrite app_nil_r in E. rewrite E. apply in_or_app. right. now left.
    + assert (S : show_Z (Qnum y') = show_Z (Qnum y) /\ show_Z (Z.pos (Qden y')) = show_Z (Z.pos (Qden y)) ++ r).
      { apply split_at in E; [exact E|apply show_Z_no_slash|apply show_Z_no_slash]. }
      destruct S as [S1 S2]. apply show_Z_inj in S1. destruct (pos_digit _ D) as (c & Ec). rewrite Ec in S2.
      pose proof (show_Z_pos_nonnil (Qden y)) as Nn. destruct (show_Z (Z.pos (Qden y))) as [|x l] eqn:Ed; [congruence|]. cbn in S2. injection S2 as -> S2.
      symmetry in S2. apply app_eq_nil in S2 as [-> ->]. rewrite <- Ec in Ed. apply show_Z_inj in Ed. injection Ed as Ed.
      apply Qc_is_canon. unfold Qeq. now rewrite S1, Ed.
Qed.

Theorem C57_exact : forall primes f e, exotic_ok e -> h_hyper f = 0%Qc \/ Qden (h_hyper f) <> 1%positive -> (Qden (e_hyp e) < 10)%positive ->
  In (print_exotic e) (field_options primes (print_hfield f)) <->
  In (print_exotic e) (map fst primes) /\ e_lor e = (if h_fermion f then lit "F" else lit "S") /\
  e_col e = show_nat (fst (h_colour f)) ++ show_nat (snd (h_colour f)) /\ e_iso e = show_nat (h_dim f - 1) /\ e_hyp e = h_hyper f.
Proof. intros primes f e O H D. rewrite (C57_lookup primes f e O), (begins_exact _ _ H D). reflexivity. Qed.

(** if it is another integer, fields with other hypercharges are found: asking for 1 finds 1/2 and 11/6. *)
Theorem C57_refuted : exists f e e', exotic_ok e /\ exotic_ok e' /\ e_hyp e <> h_hyper f /\ e_hyp e' <> h_hyper f /\
  field_options [(print_exotic e, 2%Z); (print_exotic e', 3%Z)] (print_hfield f) = [print_exotic e; print_exotic e'].
Proof.
  exists (mkHF false (0, 0) 2 (Q2Qc 1)), (mkExotic (lit "S") (lit "00") (lit "1") (Q2Qc (1 # 2)) (Q2Qc 0)), (mkExotic (lit "S") (lit "00") (lit "1") (Q2Qc (11 # 6)) (Q2Qc 0)).
  split; [repeat split; cbn; intuition discriminate|]. split; [repeat split; cbn; intuition discriminate|].
  split; [intros E; apply (f_equal (fun q : Qc => Qden q)) in E; discriminate E|]. split; [intros E; apply (f_equal (fun q : Qc => Qden q)) in E; discriminate E|].
  vm_compute. reflexivity.
Qed.

(** ** The numbers of the one-loop models *)

Definition no_match (primes : list (str * Z)) (f : str) : Prop := forall k p, In (k, p) primes -> ~ begins f k.
Definition only_match (primes : list (str * Z)) (f : str) (p : Z) : Prop :=
  exists k, In (k, p) primes /\ begins f k /\ forall k' p', In (k', p') primes -> begins f k' -> k' = k.
Definition two_matches (primes : list (str * Z)) (f : str) : Prop :=
  exists k p k' p', In (k, p) primes /\ In (k', p') primes /\ begins f k /\ begins f k' /\ k <> k'.

Lemma options_in primes f k : In k (field_options primes f) <-> exists p, In (k, p) primes /\ begins f k.
Proof.
  unfold field_options. rewrite filter_In, begins_iff. unfold keys. rewrite in_map_iff. split.
  - intros (([k' p] & <- & I) & B). eauto.
  - intros (p & I & B). split; [exists (k, p); auto|exact B].
Qed.

Lemma options_nodup primes f : NoDup (map fst primes) -> NoDup (field_options primes f).
Proof. intros N. unfold field_options. now apply NoDup_filter. Qed.

Lemma options_cases primes f : NoDup (map fst primes) ->
  (field_options primes f = [] /\ no_match primes f) \/
  (exists k p, field_options primes f = [k] /\ dget str_eqb primes k = Some p /\ only_match primes f p) \/
  (exists k k' l, field_options primes f = k :: k' :: l /\ two_matches primes f).
Proof.
  intros N. pose proof (options_nodup primes f N) as Nd. pose proof (options_in primes f) as I. destruct (field_options primes f) as [|k [|k' l]].
  - left. split; [reflexivity|]. intros k p J B. apply (proj2 (I k)). eauto.
  - right. left. destruct (proj1 (I k) (or_introl eq_refl)) as (p & J & B). exists k, p. split; [reflexivity|]. split; [exact (In_dget str_decides _ _ _ N J)|].
    exists k. split; [exact J|]. split; [exact B|]. intros k' p' J' B'. destruct (proj2 (I k') (ex_intro _ p' (conj J' B'))) as [E|[]]. now symmetry.
  - right. right. exists k, k', l. split; [reflexivity|]. destruct (proj1 (I k) (or_introl eq_refl)) as (p & J & B). destruct (proj1 (I k') (or_intror (or_introl eq_refl))) as (p' & J' & B').
    exists k, p, k', p'. split; [exact J|]. split; [exact J'|]. split; [exact B|]. split; [exact B'|]. intros ->. inversion Nd as [|? ? X _]. apply X. now left.
Qed.

Lemma product_from primes model : NoDup (map fst primes) -> forall ps n,
  Forall2 (only_match primes) model ps ->
  foldM (fun num opt => match opt with [k] => do p <- dgetM str_eqb primes k; Ok (num * p)%Z | _ => Err AssertionError end) (map (field_options primes) model) n = Ok (fold_left Z.mul ps n).
Proof.
  intros N. induction model as [|f model IH]; intros ps n F; inversion F as [|? p ? ps' P F']; subst; [reflexivity|]. cbn [map foldM fold_left].
  destruct (options_cases primes f N) as [(_ & Nm)|[(k & p' & -> & G & (k1 & I1 & B1 & U1))|(k & k' & l & _ & (k1 & p1 & k2 & p2 & I1 & I2 & B1 & B2 & D))]].
  - destruct P as (k & I & B & _). destruct (Nm k p I B).
  - unfold dgetM. rewrite G. cbn [bind]. destruct P as (k2 & I2 & B2 & U2).
    assert (p' = p) as ->.
    { pose proof (U2 _ _ I1 B1) as Ek. subst k1. pose proof (In_dget str_decides _ _ _ N I1) as G1. pose proof (In_dget str_decides _ _ _ N I2) as G2. congruence. }
    now apply IH.
  - destruct P as (k3 & _ & _ & U). exfalso. apply D. now rewrite (U _ _ I1 B1), (U _ _ I2 B2).
Qed.

Lemma product_fails primes model : NoDup (map fst primes) -> forall n, Exists (two_matches primes) model -> Forall (fun f => ~ no_match primes f) model ->
  foldM (fun num opt => match opt with [k] => do p <- dgetM str_eqb primes k; Ok (num * p)%Z | _ => Err AssertionError end) (map (field_options primes) model) n = Err AssertionError.
Proof.
  intros N. induction model as [|f model IH]; intros n E F; [inversion E|]. inversion F as [|? ? Nf F']; subst. cbn [map foldM].
  destruct (options_cases primes f N) as [(_ & Nm)|[(k & p' & -> & G & (k1 & I1 & B1 & U1))|(k & k' & l & -> & _)]]; [contradiction| |reflexivity].
  unfold dgetM. rewrite G. cbn [bind]. apply IH; [|exact F']. inversion E as [? ? T|? ? T]; subst; [|exact T]. exfalso.
  destruct T as (k2 & p2 & k3 & p3 & I2 & I3 & B2 & B3 & D). apply D. now rewrite (U1 _ _ I2 B2), (U1 _ _ I3 B3).
Qed.

Lemma empty_option primes model : NoDup (map fst primes) ->
  existsb (fun o : list str => match o with [] => true | _ => false end) (map (field_options primes) model) = true <-> Exists (no_match primes) model.
Proof.
  intros N. induction model as [|f model IH]; [split; [discriminate|intros E; inversion E]|]. cbn [map existsb]. rewrite orb_true_iff, IH, Exists_cons.
  apply or_iff_compat_r. destruct (options_cases primes f N) as [(-> & Nm)|[(k & p' & -> & G & (k1 & I1 & B1 & U1))|(k & k' & l & -> & (k1 & p1 & k2 & p2 & I1 & I2 & B1 & B2 & D))]].
  - tauto.
  - split; [discriminate|]. intros Nm. destruct (Nm _ _ I1 B1).
  - split; [discriminate|]. intros Nm. destruct (Nm _ _ I1 B1).
Qed.

Lemma model_cases primes model : NoDup (map fst primes) ->
  Exists (no_match primes) model \/
  Forall (fun f => ~ no_match primes f) model /\ ((exists ps, Forall2 (only_match primes) model ps) \/ Exists (two_matches primes) model).
Proof.
  intros N. induction model as [|f model IH]; [right; split; [constructor|left; exists []; constructor]|].
  destruct (options_cases primes f N) as [(_ & Nm)|[(k & p & _ & _ & P)|(k & k' & l & _ & T)]].
  - left. now left.
  - destruct IH as [IH|[IH1 IH2]]; [left; now right|]. right. split.
    + constructor; [|exact IH1]. intros Nm. destruct P as (k1 & I1 & B1 & _). exact (Nm _ _ I1 B1).
    + destruct IH2 as [(ps & F)|E]; [left; exists (p :: ps); now constructor|right; now right].
  - destruct IH as [IH|[IH1 IH2]]; [left; now right|]. right. split; [|right; now left].
    constructor; [|exact IH1]. intros Nm. destruct T as (k1 & p1 & _ & _ & I1 & _ & B1 & _). exact (Nm _ _ I1 B1).
Qed.

(** The numbers are the products of the primes of the models all of whose fields are found, unless a field of such a model is
    found twice. *)
Theorem C57_numbers : forall primes models, NoDup (map fst primes) ->
  (Exists (fun m => Forall (fun f => ~ no_match primes f) m /\ Exists (two_matches primes) m) models -> one_loop_democratic_nums primes models = Err AssertionError) /\
  (~ Exists (fun m => Forall (fun f => ~ no_match primes f) m /\ Exists (two_matches primes) m) models ->
     exists nums, one_loop_democratic_nums primes models = Ok nums /\
       forall n, In n nums <-> exists m ps, In m models /\ Forall2 (only_match primes) m ps /\ n = fold_right Z.mul 1%Z ps).
Proof.
  intros primes models N. unfold one_loop_democratic_nums.
  set (step := fun (nums : list Z) (model : list str) => _).
  assert (St : forall nums m,
     (Exists (no_match primes) m -> step nums m = Ok nums) /\
     (forall ps, Forall2 (only_match primes) m ps -> step nums m = Ok (nums ++ [fold_left Z.mul ps 1%Z])) /\
     (Forall (fun f => ~ no_match primes f) m -> Exists (two_matches primes) m -> step nums m = Err AssertionError)).
  { intros nums m. unfold step. destruct (existsb _ _) eqn:X.
    - apply (empty_option primes m N) in X. split; [reflexivity|]. split.
      + intros ps F. exfalso. clear -X F. induction F as [|f p m ps (k & I & B & _) F IH]; [inversion X|]. inversion X as [? ? Y|? ? Y]; subst; [exact (Y _ _ I B)|auto].
      + intros F. exfalso. rewrite Exists_exists in X. destruct X as (f & I & Nm). rewrite Forall_forall in F. exact (F f I Nm).
    - split; [intros E; apply (empty_option primes m N) in E; congruence|]. split.
      + intros ps F. rewrite (product_from primes m N ps 1%Z F). reflexivity.
      + intros F E. rewrite (product_fails primes m N 1%Z E F). reflexivity. }
  assert (Fl : forall ps n, fold_left Z.mul ps n = (n * fold_right Z.mul 1 ps)%Z).
  { induction ps as [|p ps IH]; intros n; cbn [fold_left fold_right]; [lia|]. rewrite IH. lia. }
  clearbody step. split.
  - generalize (@nil Z) as nums. induction models as [|m models IH]; intros nums E; [inversion E|]. cbn [foldM]. destruct (St nums m) as (S1 & S2 & S3).
    inversion E as [? ? [F T]|? ? T]; subst; [now rewrite (S3 F T)|].
    destruct (model_cases primes m N) as [C|[C1 [(ps & C)|C2]]]; [rewrite (S1 C)|rewrite (S2 ps C)|rewrite (S3 C1 C2); reflexivity]; cbn [bind]; now apply IH.
  - assert (G : forall models nums, ~ Exists (fun m => Forall (fun f => ~ no_match primes f) m /\ Exists (two_matches primes) m) models ->
       exists out, foldM step models nums = Ok out /\ forall n, In n out <-> In n nums \/ exists m ps, In m models /\ Forall2 (only_match primes) m ps /\ n = fold_right Z.mul 1%Z ps).
    { clear models. induction models as [|m models IH]; intros nums E.
      - exists nums. split; [reflexivity|]. intros n. split; [auto|]. intros [I|(m & _ & [] & _)]. exact I.
      - cbn [foldM]. destruct (St nums m) as (S1 & S2 & S3). rewrite Exists_cons in E.
        destruct (model_cases primes m N) as [C|[C1 [(ps & C)|C2]]]; [| |exfalso; tauto].
        + rewrite (S1 C). cbn [bind]. destruct (IH nums) as (out & -> & O); [tauto|]. exists out. split; [reflexivity|]. intros n. rewrite O. split.
          * intros [I|(m' & ps & I & F & ->)]; [auto|]. right. exists m', ps. split; [now right|auto].
          * intros [I|(m' & ps & [<-|I] & F & ->)]; [auto| |right; eauto]. exfalso.
            clear -C F. induction F as [|f p m ps (k & I & B & _) F IH]; [inversion C|]. inversion C as [? ? Y|? ? Y]; subst; [exact (Y _ _ I B)|auto].
        + rewrite (S2 ps C). cbn [bind]. destruct (IH (nums ++ [fold_left Z.mul ps 1%Z])) as (out & -> & O); [tauto|]. exists out. split; [reflexivity|]. intros n. rewrite O, in_app_iff.
          assert (Ep : fold_left Z.mul ps 1%Z = fold_right Z.mul 1%Z ps) by (rewrite Fl; lia). split.
          * intros [[I|[<-|[]]]|(m' & ps' & I & F & ->)]; [auto| |right; exists m', ps'; split; [now right|auto]]. right. exists m, ps. split; [now left|auto].
          * intros [I|(m' & ps' & [<-|I] & F & ->)]; [auto| |right; eauto]. left. right. left. rewrite Ep. f_equal.
            clear -C F N. revert ps' F. induction C as [|f p m ps P C IH]; intros ps' F; inversion F as [|? p' ? ps'' P' F']; subst; [reflexivity|]. f_equal; [|now apply IH].
            destruct P as (k & I & B & U), P' as (k' & I' & B' & U'). pose proof (U _ _ I' B') as Ek. subst k'.
            pose proof (In_dget str_decides _ _ _ N I) as G1. pose proof (In_dget str_decides _ _ _ N I') as G2. congruence. }
    intros E. destruct (G models [] E) as (out & H & O). exists out. split; [exact H|]. intros n. rewrite O. cbn. tauto.
Qed.

(** The first model of the tables; a database with two fields, and one where a field asked for is found twice. *)
Example C57_example :
  let f := mkHF false (1, 0) 1 (Q2Qc (1 # 3)) in let g := mkHF true (0, 0) 2 (Q2Qc 1) in
  let e := mkExotic (lit "S") (lit "10") (lit "0") (Q2Qc (1 # 3)) (Q2Qc 1) in
  let e' := mkExotic (lit "F") (lit "00") (lit "1") (Q2Qc 1) (Q2Qc 0) in let e'' := mkExotic (lit "F") (lit "00") (lit "1") (Q2Qc (3 # 2)) (Q2Qc 0) in
  let e3 := mkExotic (lit "F") (lit "00") (lit "1") (Q2Qc (1 # 2)) (Q2Qc 0) in
  one_loop_democratic_nums [(print_exotic e, 2%Z); (print_exotic e', 3%Z); (print_exotic e'', 5%Z)] [map print_hfield [f; g]; [lit "F,11,0,0"]] = Ok [6%Z] /\
  one_loop_democratic_nums [(print_exotic e, 2%Z); (print_exotic e', 3%Z); (print_exotic e3, 5%Z)] [map print_hfield [f; g]] = Err AssertionError /\
  exotic_ok e /\ (h_hyper f = 0%Qc \/ Qden (h_hyper f) <> 1%positive) /\
  nth 0 generate_models [] = map lit ["S,00,0,-3"; "S,00,1,-7/2"; "F,00,0,-3"; "S,00,1,-5/2"]%string.
Proof.
  cbv zeta. split; [vm_compute; reflexivity|]. split; [vm_compute; reflexivity|]. split; [repeat split; cbn; intuition discriminate|].
  split; [right; discriminate|]. vm_compute. reflexivity.
Qed.

Print Assumptions C57_lookup.
Print Assumptions C57_exact.
Print Assumptions C57_numbers.
Print Assumptions C82_models.
Print Assumptions C82_neutral.
Print Assumptions C82_coloured.
