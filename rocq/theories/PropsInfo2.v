(** * PropsInfo2: C54, classification of operators by field content *)

From Coq Require Import Ascii String List Bool Arith ZArith QArith Qcanon Lia Permutation.
From Verif Require Import Base BaseFacts Spec Show SpecFunctions ProofsFunctions ModelIndex SpecIndex ProofsIndex ModelField SpecField ProofsField ModelContract SpecContract ProofsContract
  ModelPartition ModelExotic SpecExotic ModelInfo SpecInfo PropsInfo.
Import ListNotations.
Local Open Scope nat_scope.

Definition keys_eqb : list str -> list str -> bool := list_eqb str_eqb.

Lemma keys_decides : decides keys_eqb.
Proof. apply list_decides, str_decides. Qed.

Lemma table_eq : BL_LIST = map (fun kv => (sorted_str (map lit (fst kv)), snd kv)) bl_list.
Proof. vm_compute. reflexivity. Qed.

Fixpoint nodup_b (l : list (list str)) : bool := match l with [] => true | x :: l => negb (existsb (keys_eqb x) l) && nodup_b l end.

Lemma nodup_b_ok l : nodup_b l = true -> NoDup l.
Proof.
  induction l as [|x l IH]; intros H; [constructor|]. cbn [nodup_b] in H. apply andb_true_iff in H as [H1 H2]. constructor; [|auto].
  intros I. apply negb_true_iff in H1. assert (X : existsb (keys_eqb x) l = true); [|congruence]. apply existsb_exists. exists x. split; [exact I|]. now apply keys_decides.
Qed.

Lemma table_nodup : NoDup (keys BL_LIST).
Proof. apply nodup_b_ok. vm_compute. reflexivity. Qed.

Fixpoint nodup_z (l : list Z) : bool := match l with [] => true | x :: l => negb (existsb (Z.eqb x) l) && nodup_z l end.

Lemma nodup_z_ok l : nodup_z l = true -> NoDup l.
Proof.
  induction l as [|x l IH]; intros H; [constructor|]. cbn [nodup_z] in H. apply andb_true_iff in H as [H1 H2]. constructor; [|auto].
  intros I. apply negb_true_iff in H1. assert (X : existsb (Z.eqb x) l = true); [|congruence]. apply existsb_exists. exists x. split; [exact I|]. apply Z.eqb_refl.
Qed.

Lemma numbers_nodup : NoDup (map snd bl_list).
Proof. apply nodup_z_ok. vm_compute. reflexivity. Qed.

Lemma spell_plain l : ~ In dagger l -> spell_conj l = l.
Proof.
  induction l as [|c l IH]; intros N; [reflexivity|]. cbn [spell_conj flat_map]. destruct (Ascii.eqb c dagger) eqn:E.
  - apply Ascii.eqb_eq in E. exfalso. apply N. now left.
  - cbn [app]. f_equal. apply IH. intros I. apply N. now right.
Qed.

Lemma spell_name f : ~ In dagger (f_label f) -> spell_conj (label_with_dagger f) = spelled_name f.
Proof.
  intros N. unfold label_with_dagger, spelled_name. unfold spell_conj. rewrite flat_map_app. fold (spell_conj (f_label f)). rewrite (spell_plain _ N).
  destruct (f_is_conj f); reflexivity.
Qed.

Lemma starts_char c s : startswith [c] s = true <-> exists r, s = c :: r.
Proof.
  destruct s as [|d s]; cbn [startswith]; [split; [discriminate|intros (r & X); discriminate X]|].
  rewrite andb_true_iff. split.
  - intros [E _]. apply Ascii.eqb_eq in E. subst. eauto.
  - intros (r & [= -> ->]). split; [apply Ascii.eqb_refl|]. destruct r; reflexivity.
Qed.

Lemma contains_iff op : contains_derivative op = true <-> exists x, In x (indexed_fields op) /\ reserved (f_label (i_field x)).
Proof.
  unfold contains_derivative. rewrite existsb_exists. split.
  - intros (t & I & H). apply existsb_exists in H as (p & P & H).
    destruct t as [x|[t l|l|l]]; cbn [tensor_head] in H; [|exfalso; destruct P as [<- | [<- | [<- | [<- | []]]]]; discriminate H..].
    exists x. split; [apply in_flat_map; exists (TField x); split; [exact I|now left]|].
    destruct P as [<- | [<- | [<- | [<- | []]]]]; apply starts_char in H as (r & H); eexists; exists r; (split; [exact H|cbn; tauto]).
  - intros (x & I & c & r & E & C). apply in_flat_map in I as ([y|s] & I & J); [|destruct J]. destruct J as [-> | []].
    exists (TField x). split; [exact I|]. apply existsb_exists. exists [c]. split; [cbn in C |- *; intuition congruence|].
    cbn [tensor_head]. apply starts_char. eauto.
Qed.

Theorem C54_derivative : forall op, (exists x, In x (indexed_fields op) /\ reserved (f_label (i_field x))) -> BL_classification op = Ok (-1)%Z.
Proof. intros op H. unfold BL_classification. apply contains_iff in H. now rewrite H. Qed.

Theorem C54_table : forall op fs,
  op_fields op = Ok fs -> (forall f, In f fs -> ~ In dagger (f_label f)) ->
  (forall x, In x (indexed_fields op) -> ~ reserved (f_label (i_field x))) ->
  (forall k n, In (k, n) bl_list -> (BL_classification op = Ok n <-> Permutation (map spelled_name fs) (map lit k))) /\
  ((forall k n, In (k, n) bl_list -> ~ Permutation (map spelled_name fs) (map lit k)) -> BL_classification op = Ok (-1)%Z).
Proof.
  intros op fs E Nd Nr.
  assert (C : contains_derivative op = false).
  { apply not_true_is_false. intros H. apply contains_iff in H as (x & I & R). exact (Nr x I R). }
  assert (B : BL_classification op = Ok (match dget keys_eqb BL_LIST (sorted_str (map spelled_name fs)) with None => -1 | Some n => n end)%Z).
  { unfold BL_classification. rewrite C, E. cbn [bind]. do 2 f_equal. rewrite (map_ext_in _ spelled_name); [reflexivity|]. intros f I. apply spell_name. auto. }
  rewrite B. clear B C. split.
  - intros k n I.
    assert (Ib : In (sorted_str (map lit k), n) BL_LIST) by (rewrite table_eq; apply in_map_iff; exists (k, n); auto).
    split.
    + intros H. destruct (dget keys_eqb BL_LIST (sorted_str (map spelled_name fs))) as [m|] eqn:G.
      * injection H as ->. apply (dget_In keys_decides) in G. rewrite table_eq in G. apply in_map_iff in G as ((k' & n') & G & I'). cbn [fst snd] in G. injection G as G1 ->.
        assert (Q : (k', n) = (k, n)).
        { pose proof numbers_nodup as ND. clear -ND I I'. induction bl_list as [|[a b] l IH]; [destruct I|]. cbn [map snd] in ND. inversion ND as [|? ? N1 N2]; subst.
          destruct I as [I|I], I' as [I'|I']; try congruence; [| |auto].
          - injection I as -> ->. exfalso. apply N1. apply in_map_iff. exists (k', n). auto.
          - injection I' as -> ->. exfalso. apply N1. apply in_map_iff. exists (k, n). auto. }
        injection Q as ->. symmetry. now apply sorted_str_eq_iff.
      * injection H as H. exfalso. pose proof (in_map snd _ _ I) as J. cbn [snd] in J. rewrite <- H in J. vm_compute in J. repeat (destruct J as [J|J]; [discriminate J|]). exact J.
    + intros P. assert (S : sorted_str (map spelled_name fs) = sorted_str (map lit k)) by now apply sorted_str_eq_iff.
      rewrite S, (In_dget keys_decides _ _ _ table_nodup Ib). reflexivity.
  - intros N. destruct (dget keys_eqb BL_LIST (sorted_str (map spelled_name fs))) as [m|] eqn:G; [|reflexivity].
    exfalso. apply (dget_In keys_decides) in G. rewrite table_eq in G. apply in_map_iff in G as ((k & n) & G & I). cbn [fst snd] in G. injection G as G1 G2.
    apply (N k n I). symmetry. now apply sorted_str_eq_iff.
Qed.

(** equal contents, equal classification *)
Theorem C54_content : forall op op' fs fs',
  op_fields op = Ok fs -> op_fields op' = Ok fs' ->
  Permutation (map (fun x : ifield => (f_label (i_field x), f_is_conj (i_field x))) (indexed_fields op))
              (map (fun x : ifield => (f_label (i_field x), f_is_conj (i_field x))) (indexed_fields op')) ->
  BL_classification op = BL_classification op'.
Proof.
  intros op op' fs fs' E E' P.
  assert (G : forall op op', Permutation (map (fun x : ifield => (f_label (i_field x), f_is_conj (i_field x))) (indexed_fields op))
              (map (fun x : ifield => (f_label (i_field x), f_is_conj (i_field x))) (indexed_fields op')) -> contains_derivative op = true -> contains_derivative op' = true).
  { clear. intros op op' P H. apply contains_iff in H as (x & I & R). apply contains_iff. 
    assert (J : In (f_label (i_field x), f_is_conj (i_field x)) (map (fun x : ifield => (f_label (i_field x), f_is_conj (i_field x))) (indexed_fields op'))) by (eapply Permutation_in; [exact P|now apply (in_map (fun x : ifield => (f_label (i_field x), f_is_conj (i_field x))))]).
    apply in_map_iff in J as (y & Ey & J). exists y. split; [exact J|]. injection Ey as -> _. exact R. }
  assert (C : contains_derivative op = contains_derivative op').
  { destruct (contains_derivative op) eqn:A, (contains_derivative op') eqn:B; try reflexivity; exfalso.
    - rewrite (G op op' P A) in B. discriminate B.
    - rewrite (G op' op (Permutation_sym P) B) in A. discriminate A. }
  unfold BL_classification. rewrite C, E, E'. cbn [bind]. destruct (contains_derivative op'); [reflexivity|].
  assert (M : forall (op : operator) (fs : list field), op_fields op = Ok fs -> map (fun f => spell_conj (label_with_dagger f)) fs =
     map (fun lc : str * bool => spell_conj ((if snd lc then removelast (fst lc) else fst lc) ++ (if snd lc then [dagger] else []))) (map (fun x : ifield => (f_label (i_field x), f_is_conj (i_field x))) (indexed_fields op))).
  { clear. intros op fs E. unfold op_fields in E. apply mapM_Forall2 in E. rewrite map_map. induction E as [|x f l l' H _ IH]; [reflexivity|]. cbn [map]. rewrite IH. f_equal.
    unfold field_of, mk_field in H. cbn [bind] in H. destruct (negb (f_nf (i_field x) =? 1) && negb (f_nf (i_field x) =? 3)); [discriminate H|]. injection H as <-. reflexivity. }
  rewrite (M op fs E), (M op' fs' E').
  assert (S : forall (g : str * bool -> str) l l', Permutation l l' -> sorted_str (map g l) = sorted_str (map g l')) by (intros; apply sorted_str_eq_iff; now apply Permutation_map).
  now rewrite (S _ _ _ P).
Qed.

(** ** The table *)

Fixpoint numbers_of (k : list string) : option (Z * Z * Z * Z) :=
  match k with
  | [] => Some (0, 0, 0, 0)%Z
  | s :: k => match find (fun e => String.eqb (fst e) s) sm_table, numbers_of k with
              | Some (_, (y, b, l, d)), Some (y', b', l', d') => Some (y + y', b + b', l + l', d + d')%Z
              | _, _ => None
              end
  end.

Lemma numbers_of_ok k : forall v, numbers_of k = Some v -> product_numbers k v.
Proof.
  induction k as [|s k IH]; intros v H; cbn [numbers_of] in H; [injection H as <-; constructor|].
  destruct (find (fun e => String.eqb (fst e) s) sm_table) as [[s' [[[y b] l] d]]|] eqn:F; [|discriminate H].
  destruct (numbers_of k) as [[[[y' b'] l'] d']|]; [|discriminate H]. injection H as <-. apply find_some in F as [F1 F2]. cbn [fst] in F2. apply String.eqb_eq in F2. subst s'.
  constructor; auto.
Qed.

Theorem C54_listed :
  (forall k n, In (k, n) bl_list -> exists d, product_numbers k (0, 0, 2, 2 * d)%Z /\ In d [5; 7; 9; 11]%Z) /\
  (forall k n k' n', In (k, n) bl_list -> In (k', n') bl_list -> n = n' \/ Permutation k k' -> (k, n) = (k', n')) /\
  (forall k n, In (k, n) bl_list -> (0 < n)%Z).
Proof.
  split; [|split].
  - intros k n I.
    assert (X : forallb (fun kn => match numbers_of (fst kn) with
                                   | Some (y, b, l, d) => Z.eqb y 0 && Z.eqb b 0 && Z.eqb l 2 && existsb (Z.eqb d) [10; 14; 18; 22]%Z
                                   | None => false end) bl_list = true) by (vm_compute; reflexivity).
    rewrite forallb_forall in X. specialize (X _ I). cbn [fst] in X. destruct (numbers_of k) as [[[[y b] l] d]|] eqn:N; [|discriminate X].
    apply andb_true_iff in X as [X X4]. apply andb_true_iff in X as [X X3]. apply andb_true_iff in X as [X1 X2]. apply Z.eqb_eq in X1, X2, X3. subst.
    apply numbers_of_ok in N. cbn [existsb] in X4. rewrite !orb_true_iff, !Z.eqb_eq in X4.
    destruct X4 as [-> | [-> | [-> | [-> | X]]]]; [exists 5%Z|exists 7%Z|exists 9%Z|exists 11%Z|discriminate X]; (split; [exact N|cbn; tauto]).
  - intros k n k' n' I I' [-> | P].
    + pose proof numbers_nodup as ND. clear -ND I I'. induction bl_list as [|[a b] l IH]; [destruct I|]. cbn [map snd] in ND. inversion ND as [|? ? N1 N2]; subst.
      destruct I as [I|I], I' as [I'|I']; try congruence; [| |auto].
      * injection I as -> ->. exfalso. apply N1. apply in_map_iff. exists (k', n'). auto.
      * injection I' as -> ->. exfalso. apply N1. apply in_map_iff. exists (k, n'). auto.
    + assert (S : sorted_str (map lit k) = sorted_str (map lit k')) by (apply sorted_str_eq_iff; now apply Permutation_map).
      pose proof table_nodup as ND. unfold keys in ND. rewrite table_eq, map_map in ND. cbn [fst] in ND. revert ND I I'. generalize bl_list. clear -S.
      induction l as [|[a b] l IH]; intros ND I I'; [destruct I|]. cbn [map fst] in ND. inversion ND as [|? ? N1 N2]; subst.
      destruct I as [I|I], I' as [I'|I']; try congruence; [| |auto].
      * injection I as -> ->. exfalso. apply N1. rewrite S. apply (in_map (fun x : list string * Z => sorted_str (map lit (fst x))) _ _ I').
      * injection I' as -> ->. exfalso. apply N1. rewrite <- S. apply (in_map (fun x : list string * Z => sorted_str (map lit (fst x))) _ _ I).
  - intros k n I. assert (X : forallb (fun kn => (0 <? snd kn)%Z) bl_list = true) by (vm_compute; reflexivity). rewrite forallb_forall in X. apply Z.ltb_lt. exact (X _ I).
Qed.

Definition ex_conj (f : res field) : res field := do f <- f; conj_field f.
Definition ex_ub := ex_field "ub" "10010" (-2 # 3) 3.
Definition ex_db := ex_field "db" "10010" (1 # 3) 3.
Definition ex_Q := ex_field "Q" "10101" (1 # 6) 3.
Definition op_four : res operator :=
  ex_tensors [ex_indexed ex_L "u0 i0 g0"; ex_indexed ex_L "u1 i1 g1"; ex_indexed (ex_conj ex_Q) "d0 -c0 i2 g2"; ex_indexed (ex_conj ex_ub) "d1 c1 g3"; ex_indexed ex_H "i3";
              ex_eps "-u0 -u1"; ex_eps "-d0 -d1"; ex_eps "-i0 -i2"; ex_eps "-i1 -i3"].
Definition op_reserved : res operator :=
  ex_tensors [ex_indexed (ex_field "Beta" "10001" (-1 # 2) 3) "u0 i0 g0"; ex_indexed ex_L "u1 i1 g1"].

Example C54_example :
  (do op <- weinberg; BL_classification op) = Ok 1%Z /\
  (do op <- op_four; BL_classification op) = Ok 4%Z /\
  (do op <- ex_tensors [ex_indexed ex_H "i3"; ex_indexed ex_H "i2"]; BL_classification op) = Ok (-1)%Z /\
  (do op <- op_reserved; BL_classification op) = Ok (-1)%Z /\
  (forall f, In f (get [] (op_fields (get [] op_four))) -> ~ In dagger (f_label f)) /\
  Permutation (map spelled_name (get [] (op_fields (get [] op_four)))) (map lit ["L"; "L"; "Q.conj"; "ub.conj"; "H"]%string).
Proof.
  split; [vm_compute; reflexivity|]. split; [vm_compute; reflexivity|]. split; [vm_compute; reflexivity|]. split; [vm_compute; reflexivity|]. split.
  - vm_compute. intros f H. repeat (destruct H as [<- | H]; [cbn; intuition discriminate|]). destruct H.
  - vm_compute. apply Permutation_refl.
Qed.

Print Assumptions C54_derivative.
Print Assumptions C54_table.
Print Assumptions C54_content.
Print Assumptions C54_listed.
