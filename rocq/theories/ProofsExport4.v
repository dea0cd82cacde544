(** * ProofsExport4: exotic fields written and read *)

From Coq Require Import Ascii String List Bool Arith ZArith NArith QArith Qcanon Lia.
From Verif Require Import Base BaseFacts Show ShowRead ModelFunctions ModelIndex SpecIndex ProofsIndex ModelField SpecField ProofsField
  PropsField PropsField2 ModelContract SpecContract ProofsContract ModelPartition ModelExotic SpecExotic ProofsExotic ProofsExotic2
  ModelInfo ModelLagrangian ModelDatabase ModelExport ProofsExport SpecExport ProofsExport2 ProofsExport3.
Import ListNotations.
Local Open Scope nat_scope.

Definition counts (l : list index) : list nat :=
  [count_kind Undotted true l; count_kind Dotted true l; count_kind Colour true l; count_kind Colour false l; count_kind Isospin true l].

(** what the constructors leave *)
Record typed_form (x : cfield) : Prop := mkTyped
  { tf_dynkin : get_dynkin (indices_of x) = Ok (f_dynkin (i_field (cf_if x)));
    tf_kinds : forallb kinds_ok (indices_of x) = true;
    tf_comm : f_comm (i_field (cf_if x)) = class_comm (cf_class x);
    tf_nf : f_nf (i_field (cf_if x)) = 1;
    tf_symmetry : exists ds, mapM digit_of (f_dynkin (i_field (cf_if x))) = Ok ds /\ f_symmetry (i_field (cf_if x)) = symmetry_of ds }.

Lemma get_dynkin_kinds l d : get_dynkin l = Ok d -> forallb kinds_ok l = true.
Proof.
  unfold get_dynkin. intros E. destruct (forallb kinds_ok l) eqn:K; [reflexivity|]. rewrite (dynkin_fold_err _ _ K) in E. discriminate.
Qed.

Lemma typed_inv x : typed x -> typed_form x.
Proof.
  intros (_ & label & ind & ch & lx & cj & sym & E). unfold mk_typed in E. fold (arg_of ind) in E.
  apply bind_ok in E as (l & El & E). apply bind_ok in E as ([] & _ & E). cbv zeta in E. apply bind_ok in E as (x0 & E0 & E).
  apply bind_ok in E as ([] & _ & E). injection E as E.
  assert (Q : i_field (cf_if x) = i_field x0 /\ indices_of x = i_indices x0).
  { rewrite <- E. unfold indices_of. cbn [cf_if]. destruct ind; auto. }
  destruct Q as [Q1 Q2]. clear E. unfold mk_ifield in E0. cbn [a_indices a_symmetry a_label a_charges a_is_conj a_comm a_latex a_nf a_derivs a_stripped] in E0.
  apply bind_ok in E0 as (l' & _ & E0). cbv zeta in E0. apply bind_ok in E0 as ([] & _ & E0). apply bind_ok in E0 as (dk & Ed & E0).
  apply bind_ok in E0 as (g & Eg & E0). injection E0 as <-. cbn [i_field i_indices] in *.
  unfold mk_field in Eg. apply bind_ok in Eg as (ss & Es & Eg). apply bind_ok in Es as (ds & Eds & Es). injection Es as <-.
  apply bind_ok in Eg as (tx & _ & Eg). cbn [Nat.eqb negb andb] in Eg. injection Eg as <-. rewrite <- Q2 in Ed.
  constructor; try rewrite Q1; cbn; auto; [eapply get_dynkin_kinds; exact Ed|eauto].
Qed.

Lemma dyn_five l : forallb kinds_ok l = true -> (forall t up, t <> Generation -> count_kind t up l < 10) ->
  get_dynkin l = Ok (five (count_kind Undotted true l) (count_kind Dotted true l) (count_kind Colour true l) (count_kind Colour false l) (count_kind Isospin true l)).
Proof.
  intros K C. rewrite get_dynkin_ok by exact K. rewrite !show_nat_digit by (apply C; discriminate). reflexivity.
Qed.

Lemma count_reindex t up l : count_kind t up (map reindex l) = count_kind t up l.
Proof. induction l as [|i l IH]; [reflexivity|]. cbn [map]. rewrite !count_kind_cons, IH. reflexivity. Qed.

Lemma kinds_ok_reindex l : forallb kinds_ok (map reindex l) = forallb kinds_ok l.
Proof. induction l as [|i l IH]; [reflexivity|]. cbn [map forallb]. now rewrite IH. Qed.

Lemma no_generation l : (forall i, In i l -> ix_type i <> Generation) -> filter is_generation l = [] /\ existsb is_generation l = false.
Proof.
  intros H. assert (G : forall i, In i l -> is_generation i = false).
  { intros i I. unfold is_generation. destruct (itype_eqb (ix_type i) Generation) eqn:E; [|reflexivity]. apply itype_decides in E. destruct (H i I E). }
  clear H. induction l as [|i l IH]; [auto|]. cbn [filter existsb]. rewrite (G i) by now left. apply IH. intros j J. apply G. now right.
Qed.

Section Exotic.
  Variable x : cfield.
  Hypothesis Ex : exportable x.

  Let f := i_field (cf_if x).
  Let l := indices_of x.
  Let n t up := count_kind t up l.
  Let dk := five (n Undotted true) (n Dotted true) (n Colour true) (n Colour false) (n Isospin true).

  Lemma ex_dynkin : f_dynkin f = dk.
  Proof.
    pose proof (typed_inv x (xp_typed x Ex)) as T. pose proof (tf_dynkin x T) as D. rewrite (dyn_five _ (tf_kinds x T) (xp_few x Ex)) in D.
    now injection D.
  Qed.

  Lemma ex_digits : mapM digit_of dk = Ok (counts l).
  Proof. apply digits_five; apply (xp_few x Ex); discriminate. Qed.

  Lemma ex_symmetry : f_symmetry f = symmetry_of (counts l).
  Proof.
    destruct (tf_symmetry x (typed_inv x (xp_typed x Ex))) as (ds & E & S). fold f in E, S. rewrite ex_dynkin, ex_digits in E. injection E as <-. exact S.
  Qed.

  Lemma ex_charges : exists y b, f_charges f = two y b /\ hypercharge x = y.
  Proof. exists (hypercharge x), (baryon x). split; [exact (xp_charges x Ex)|reflexivity]. Qed.

  Lemma ex_rank : rank (f_symmetry f) = List.length l.
  Proof.
    rewrite ex_symmetry, rank_symmetry_of. cbn [list_sum counts fold_right]. rewrite Nat.add_0_r.
    apply count_total; [exact (tf_kinds x (typed_inv x (xp_typed x Ex)))|]. apply no_generation. exact (xp_gauge x Ex).
  Qed.

  (** the field that IndexedField makes of the text *)
  Lemma indexed_reread cj lx :
    mk_ifield (mkIargs (f_label f) (AStr (index_text l)) (Some (f_charges f)) cj (Some (f_symmetry f)) (f_comm f) (Some lx) (f_nf f) 0 None) =
    Ok (mkIField (mkField (f_label f) dk (f_charges f) cj (f_comm f) (f_symmetry f) None 1 lx 1 0 None) (map reindex l) (AStr (index_text l))).
  Proof.
    pose proof (typed_inv x (xp_typed x Ex)) as T. pose proof (tf_nf x T) as Nf. fold f in Nf. rewrite Nf.
    destruct ex_charges as (y & b & Ec & _).
    destruct (no_generation l (xp_gauge x Ex)) as [G1 G2].
    assert (G : filter is_generation (map reindex l) = []).
    { apply no_generation. intros i I. apply in_map_iff in I as (j & <- & J). exact (xp_gauge x Ex j J). }
    rewrite (mk_ifield_ok _ _ (map reindex l) _ _ _ _ _ _ _ _ (n Undotted true) (n Dotted true) (n Colour true) (n Colour false) (n Isospin true)); try reflexivity.
    - apply text_reread. exact (proj1 (xp_indices x Ex)).
    - rewrite Ec. apply two_proper.
    - now left.
    - rewrite G, ex_rank, map_length. cbn. lia.
    - rewrite G. cbn. lia.
    - rewrite kinds_ok_reindex. exact (tf_kinds x T).
    - apply count_reindex.
    - apply count_reindex.
    - apply count_reindex.
    - apply count_reindex.
    - apply count_reindex.
    - apply (xp_few x Ex); discriminate.
    - apply (xp_few x Ex); discriminate.
    - apply (xp_few x Ex); discriminate.
    - apply (xp_few x Ex); discriminate.
    - apply (xp_few x Ex); discriminate.
  Qed.

  (** the constructors, given the indices as a list *)
  Lemma typed_reread k cj lx : class_comm k = f_comm f ->
    (match k with ComplexScalar => scalar x | RealScalar => scalar x /\ real_irrep x | MajoranaFermion => fermion x /\ real_irrep x | DiracFermion _ => fermion x | Plain => True end) ->
    mk_typed k (f_label f) (TList (map reindex l)) (Some (f_charges f)) (Some lx) cj None =
    Ok (mkCF k (mkIField (mkField (f_label f) dk (f_charges f) cj (f_comm f) (f_symmetry f) None 1 lx 1 0 None) (map reindex l) (AStr (index_text l)))).
  Proof.
    intros Ck Hk. pose proof (typed_inv x (xp_typed x Ex)) as T. destruct ex_charges as (y & b & Ec & Ey).
    unfold mk_typed. cbn [arg_indices bind]. fold (class_comm k). rewrite Ck.
    assert (Rr : map reindex (map reindex l) = map reindex l) by (apply map_reindex_printed, map_printed; exact (proj1 (xp_indices x Ex))).
    try rewrite Rr.
    assert (M : mk_ifield (mkIargs (f_label f) (AIdxs (map reindex l)) (Some (f_charges f)) cj None (f_comm f) (Some lx) 1 0 None) =
      Ok (mkIField (mkField (f_label f) dk (f_charges f) cj (f_comm f) (f_symmetry f) None 1 lx 1 0 None) (map reindex l) (AIdxs (map reindex l)))).
    { unfold mk_ifield. cbn [a_indices a_symmetry a_label a_charges a_is_conj a_comm a_latex a_nf a_derivs a_stripped arg_indices bind]. rewrite Rr.
      assert (G : existsb is_generation (map reindex l) = false).
      { apply no_generation. intros i I. apply in_map_iff in I as (j & <- & J). exact (xp_gauge x Ex j J). }
      rewrite G. cbv zeta. rewrite app_nil_r.
      assert (S : list_sum (map list_sum (match map reindex l with [] => [] | _ :: _ => [repeat 1 (List.length (map reindex l) - 0)] end)) =? List.length (map reindex l) = true).
      { apply Nat.eqb_eq. rewrite Nat.sub_0_r. destruct (map reindex l) as [|i m] eqn:Em; [reflexivity|]. rewrite <- Em.
        cbn [map list_sum fold_right]. rewrite Nat.add_0_r. generalize (List.length (map reindex l)) as k0.
        induction k0 as [|k0 IH]; [reflexivity|]. change (S (list_sum (repeat 1 k0)) = S k0). f_equal. exact IH. }
      rewrite S. cbn [assert_ bind].
      rewrite dyn_five; [|rewrite kinds_ok_reindex; exact (tf_kinds x T)|intros t up Ht; rewrite count_reindex; now apply (xp_few x Ex)].
      cbn [bind]. rewrite !count_reindex. fold (n Undotted true) (n Dotted true) (n Colour true) (n Colour false) (n Isospin true). fold dk.
      unfold mk_field. rewrite ex_digits. cbn [bind]. rewrite <- ex_symmetry. rewrite Ec. rewrite (proper_update (two y b)) by apply two_proper.
      cbn [Nat.eqb negb andb bind]. cbn [arg_after]. now rewrite Rr. }
    rewrite M. cbn [bind i_field i_indices]. 
    assert (Tx : join (lit " ") (map show_index (map reindex l)) = index_text l) by (rewrite map_map; reflexivity). rewrite Tx.
    match goal with |- (do _ <- ?c; _) = _ => assert (Ch : c = Ok tt) end; [|rewrite Ch; reflexivity].
    assert (Sc : scalar x -> is_scalar (mkField (f_label f) dk (f_charges f) cj (f_comm f) (f_symmetry f) None 1 lx 1 0 None) = Ok true).
    { intros [S1 S2]. unfold is_scalar, lorentz_irrep, dynkin_ints. cbn [f_dynkin]. rewrite ex_digits. cbn [bind counts firstn]. fold l in S1, S2. now rewrite S1, S2. }
    assert (Fe : fermion x -> is_fermion (mkField (f_label f) dk (f_charges f) cj (f_comm f) (f_symmetry f) None 1 lx 1 0 None) = Ok true).
    { intros Hf. unfold is_fermion, is_boson, lorentz_irrep, dynkin_ints. cbn [f_dynkin]. rewrite ex_digits. cbn [bind counts firstn list_sum fold_right]. rewrite Nat.add_0_r.
      destruct (_ mod 2 =? 0) eqn:Em; [|reflexivity]. exfalso. apply Hf. unfold boson. fold l. apply Nat.eqb_eq in Em. apply Nat.mod_divides in Em as (m & Em); [|lia]. exists m. exact Em. }
    assert (Re : real_irrep x -> assert_real_rep dk (Some (f_charges f)) = Ok tt).
    { intros (R1 & R2 & R3). rewrite Ec. unfold dk, n. fold l in R1. rewrite R1. apply real_rep_assert. intros cc [= <-] y0 [= <-]. now rewrite <- Ey. }
    destruct k; [rewrite (Sc Hk)|destruct Hk as [Hs Hr]; rewrite (Sc Hs)|destruct Hk as [Hs Hr]; rewrite (Fe Hs)|rewrite (Fe Hk)|]; cbn [bind assert_]; try reflexivity.
    - cbn [f_dynkin]. now rewrite Re.
    - cbn [f_dynkin]. now rewrite Re.
  Qed.

  Lemma class_comm_ok : f_comm f = class_comm (cf_class x).
  Proof. exact (tf_comm x (typed_inv x (xp_typed x Ex))). Qed.

  (** [cons_completion_field] of the field that IndexedField makes *)
  Lemma cons_reread lx :
    cons_completion_field (mkIField (mkField (f_label f) dk (f_charges f) (f_is_conj f) (f_comm f) (f_symmetry f) None 1 lx 1 0 None) (map reindex l) (AStr (index_text l))) None =
    Ok (reread lx x).
  Proof.
    destruct ex_charges as (y & b & Ec & Ey). pose proof (xp_class x Ex) as K.
    unfold cons_completion_field. cbn [i_field i_indices f_label f_charges f_latex f_is_conj].
    set (g := mkField (f_label f) dk (f_charges f) (f_is_conj f) (f_comm f) (f_symmetry f) None 1 lx 1 0 None).
    assert (Dg : dynkin_ints g = Ok (counts l)) by exact ex_digits.
    assert (Fe : is_fermion g = Ok (negb ((n Undotted true + n Dotted true) mod 2 =? 0))).
    { unfold is_fermion, is_boson, lorentz_irrep. rewrite Dg. cbn [bind counts firstn list_sum fold_right]. now rewrite Nat.add_0_r. }
    assert (Sc : is_scalar g = Ok (nats_eqb [n Undotted true; n Dotted true] [0; 0])).
    { unfold is_scalar, lorentz_irrep. now rewrite Dg. }
    assert (Re : is_real_sm_irrep g = Ok (real_rep l y)).
    { unfold is_real_sm_irrep, colour_irrep, isospin_irrep, sm_irrep. rewrite Dg. cbn [bind counts firstn skipn].
      unfold field_y, dgetM. cbn [f_charges g]. rewrite Ec. reflexivity. }
    assert (Rr : real_rep l y = true <-> real_irrep x).
    { unfold real_rep, real_irrep. fold l. rewrite Ey. rewrite !andb_true_iff. split.
      - intros [[A B] C]. apply nats_decides in A. split; [congruence|]. split.
        + apply Nat.eqb_eq in B. apply Nat.mod_divides in B as (m & B); [|lia]. exists m. exact B.
        + now destruct (Qc_eq_dec y 0).
      - intros (A & (m & B) & C). rewrite A. split; [split; [apply (decides_refl nats_decides)|]|].
        + apply Nat.eqb_eq. rewrite B, Nat.mul_comm. apply Nat.mod_mul. lia.
        + destruct (Qc_eq_dec y 0) as [_|N0]; [reflexivity|]. now destruct N0. }
    assert (Bo : (n Undotted true + n Dotted true) mod 2 =? 0 = true <-> boson x).
    { unfold boson. fold l. rewrite Nat.eqb_eq. split.
      - intros E. apply Nat.mod_divides in E as (m & E); [|lia]. exists m. exact E.
      - intros (m & E). unfold n. rewrite E, Nat.mul_comm. apply Nat.mod_mul. lia. }
    assert (Sb : scalar x -> boson x) by (intros [S1 S2]; unfold boson; rewrite S1, S2; exists 0; reflexivity).
    assert (Ss : scalar x -> nats_eqb [n Undotted true; n Dotted true] [0; 0] = true).
    { intros [S1 S2]. unfold n. fold l in S1, S2. now rewrite S1, S2. }
    rewrite Fe, Sc, Re. cbn [bind]. unfold reread. fold f l. rewrite ex_dynkin.
    pose proof class_comm_ok as Cc. unfold right_class in K. destruct (cf_class x) as [| | |u|] eqn:Ek.
    - destruct K as [Ks Kr]. rewrite (proj2 Bo (Sb Ks)). cbn [negb bind]. rewrite (Ss Ks).
      destruct (real_rep l y) eqn:Er; [destruct Kr; now apply Rr|]. apply typed_reread; [now rewrite Cc|exact Ks].
    - destruct K as [Ks Kr]. rewrite (proj2 Bo (Sb Ks)). cbn [negb bind]. rewrite (Ss Ks).
      rewrite (proj2 Rr Kr). apply typed_reread; [now rewrite Cc|auto].
    - destruct K as [Ks Kr]. destruct (_ =? 0) eqn:Eb; [destruct (Ks (proj1 Bo eq_refl))|]. cbn [negb].
      rewrite (proj2 Rr Kr). apply typed_reread; [now rewrite Cc|auto].
    - destruct K as [Ks Kr]. destruct (_ =? 0) eqn:Eb; [destruct (Ks (proj1 Bo eq_refl))|]. cbn [negb].
      destruct (real_rep l y) eqn:Er; [destruct Kr; now apply Rr|]. apply typed_reread; [now rewrite Cc|auto].
    - destruct K.
  Qed.
End Exotic.

(** ** Texts of exotic fields *)

(** the text with [raw] between the quotes of the latex form *)
Definition exotic_text (raw : str) (x : cfield) : str :=
  let f := i_field (cf_if x) in
  let unbarred := match cf_class x with DiracFermion b => show_bool b | _ => lit "None" end in
  lit "ExoticField(IndexedField(" ++
  show_items [kwarg "label" (quoted (f_label f)); kwarg "indices" (quoted (index_text (i_indices (cf_if x))));
              kwarg "symmetry" (show_symmetry (f_symmetry f)); kwarg "charges" (show_charges (f_charges f));
              kwarg "nf" (show_nat (f_nf f)); kwarg "dynkin" (quoted (f_dynkin f)); kwarg "comm" (quoted (f_comm f));
              kwarg "latex" (quoted raw); kwarg "is_conj" (show_bool (f_is_conj f));
              kwarg "is_unbarred" unbarred] ++ lit "))".

Lemma export_exotic_text x : export_exotic x = exotic_text (f_latex (i_field (cf_if x))) x.
Proof. reflexivity. Qed.

Lemma mem_plain q s : plain s -> q = squote \/ q = dquote -> mem_char q s = false.
Proof.
  intros P Q. unfold mem_char. induction P as [|c s C P IH]; [reflexivity|]. cbn [existsb]. rewrite IH, orb_false_r. apply Ascii.eqb_neq.
  destruct (plain_codes c C) as (A & B & _). destruct Q as [-> | ->]; auto.
Qed.

Lemma repr_char_plain q c : plain_char c -> q = squote \/ q = dquote -> repr_char q c = [c].
Proof.
  intros P Q. destruct (plain_codes c P) as (A & B & C & _). unfold repr_char.
  assert (E : Ascii.eqb c backslash || Ascii.eqb c q = false).
  { apply orb_false_iff. split; apply Ascii.eqb_neq; [exact C|]. destruct Q as [-> | ->]; auto. }
  rewrite E. cbv zeta. destruct P as (P1 & P2 & _).
  replace (nat_of_ascii c =? 10) with false by (symmetry; apply Nat.eqb_neq; lia).
  replace (nat_of_ascii c =? 13) with false by (symmetry; apply Nat.eqb_neq; lia).
  replace (nat_of_ascii c =? 9) with false by (symmetry; apply Nat.eqb_neq; lia).
  replace (nat_of_ascii c <? 32) with false by (symmetry; apply Nat.ltb_ge; lia).
  replace (nat_of_ascii c =? 127) with false by (symmetry; apply Nat.eqb_neq; lia). reflexivity.
Qed.

Lemma repr_plain s : plain s -> py_repr s = quoted s.
Proof.
  intros P. unfold py_repr. rewrite (mem_plain squote s P) by auto. cbn [andb]. unfold quoted.
  assert (E : flat_map (repr_char squote) s = s).
  { induction P as [|c s C P IH]; [reflexivity|]. cbn [flat_map]. now rewrite (repr_char_plain squote c C) by auto; rewrite IH. }
  now rewrite E.
Qed.

Lemma digit_plain c : is_digit c -> plain_char c.
Proof. intros H. apply is_digit_char in H. unfold digit_char in H. cbv zeta in H. apply andb_true_iff in H as [A B]. apply Nat.leb_le in A, B. red. lia. Qed.

Lemma show_Q_plain q : plain (show_Q q).
Proof.
  apply Forall_forall. intros c I. destruct (show_Q_chars q c I) as [H|[-> | ->]]; [now apply digit_plain| |]; red; cbn; lia.
Qed.

Lemma show_nat_small n : n < 10 -> show_nat n = show_N (N.of_nat n).
Proof. intros H. do 10 (destruct n as [|n]; [reflexivity|]). lia. Qed.

Definition nat_val (n : nat) : val := VInt (N.of_nat n).

Lemma nats_read b : Forall (fun n => n < 10) b -> reads 0 (show_list (map show_nat b)) (VList (map nat_val b)).
Proof.
  intros F. apply reads_list. induction F as [|n b H F IH]; [constructor|]. cbn [map]. constructor; [|exact IH].
  rewrite (show_nat_small n H). apply reads_up, reads_int.
Qed.

Definition symmetry_val (l : list (list nat)) : val := VList (map (fun b => VList (map nat_val b)) l).

Lemma symmetry_reads l : Forall (Forall (fun n => n < 10)) l -> reads 0 (show_symmetry l) (symmetry_val l).
Proof.
  intros F. unfold show_symmetry, symmetry_val. apply reads_list. induction F as [|b l H F IH]; [constructor|]. cbn [map].
  constructor; [apply reads_up, nats_read, H|exact IH].
Qed.

Lemma symmetry_back l : as_symmetry (Some (symmetry_val l)) = Ok l.
Proof.
  unfold as_symmetry, symmetry_val. cbn [as_list bind]. induction l as [|b l IH]; [reflexivity|]. cbn [map mapM]. cbn [as_list bind].
  assert (E : mapM as_nat (map nat_val b) = Ok b).
  { induction b as [|n b IHb]; [reflexivity|]. cbn [map mapM as_nat nat_val bind]. rewrite Nat2N.id. now rewrite IHb. }
  rewrite E. cbn [bind]. now rewrite IH.
Qed.

Lemma ones l : Forall (Forall (fun n => n < 10)) (symmetry_of l).
Proof.
  unfold symmetry_of. induction l as [|n l IH]; [constructor|]. cbn [flat_map]. apply Forall_app. split; [|exact IH].
  destruct (n =? 0); [constructor|]. constructor; [|constructor]. apply Forall_forall. intros k K. apply repeat_spec in K as ->. lia.
Qed.

Definition charges_val (y b : Qc) : val := VDict [(VStr (lit "y"), VStr (show_Q y)); (VStr (lit "3b"), VStr (show_Q b))].

Lemma charges_reads y b : reads 0 (show_charges (two y b)) (charges_val y b).
Proof.
  unfold show_charges, two. cbn [map fst snd]. apply reads_dict; [|reflexivity].
  rewrite !(repr_plain (show_Q _)) by apply show_Q_plain. rewrite !repr_plain by plain_lit.
  repeat constructor; cbn [fst snd]; apply reads_up, reads_str, plain_denotes; try apply show_Q_plain; plain_lit.
Qed.

Lemma charges_back y b : as_charges (Some (charges_val y b)) = Ok (two y b).
Proof. unfold as_charges, charges_val. cbn [as_dict bind mapM as_str fst snd]. now rewrite !read_show_Q. Qed.

Lemma bool_reads b : reads 0 (show_bool b) (VBool b).
Proof. destruct b; apply reads_name; (reflexivity || is_name). Qed.

Lemma class_comm_plain k : plain (class_comm k).
Proof. destruct k; plain_lit. Qed.

Lemma small_digit n : n < 10 -> plain_char (digit n).
Proof.
  intros H. assert (P : forallb (fun n => let k := nat_of_ascii (digit n) in (48 <=? k) && (k <=? 57)) (seq 0 10) = true) by reflexivity.
  rewrite forallb_forall in P. specialize (P n ltac:(apply in_seq; lia)). cbv zeta in P. apply andb_true_iff in P as [P1 P2]. apply Nat.leb_le in P1, P2. red. lia.
Qed.

Lemma five_plain a b c d e : a < 10 -> b < 10 -> c < 10 -> d < 10 -> e < 10 -> plain (five a b c d e).
Proof. intros. unfold five. do 5 (constructor; [now apply small_digit|]). constructor. Qed.

Lemma kw_reads k v w : name (lit k) -> reads 0 v w -> ireads (kwarg k v) (IKw (lit k) w).
Proof. intros N R. apply reads_kw; [exact (proj1 N)|now apply reads_up]. Qed.

Lemma unbarred_reads k : exists w, reads 0 (match k with DiracFermion b => show_bool b | _ => lit "None" end) w.
Proof. destruct k; try (exists VNone; apply reads_name; (reflexivity || is_name)). exists (VBool is_unbarred). apply bool_reads. Qed.

Lemma exotic_reads x raw lx : exportable x -> denotes squote raw lx -> reads 0 (exotic_text raw x) (VTensor (KField (reread lx x))).
Proof.
  intros Ex Dn. set (f := i_field (cf_if x)). destruct (ex_charges x Ex) as (y & b & Ec & _).
  destruct (unbarred_reads (cf_class x)) as (w & Rw).
  pose proof (tf_nf x (typed_inv x (xp_typed x Ex))) as Nf.
  set (args := [(Some (lit "label"), VStr (f_label f)); (Some (lit "indices"), VStr (index_text (indices_of x)));
                (Some (lit "symmetry"), symmetry_val (f_symmetry f)); (Some (lit "charges"), charges_val y b); (Some (lit "nf"), nat_val 1);
                (Some (lit "dynkin"), VStr (f_dynkin f)); (Some (lit "comm"), VStr (f_comm f)); (Some (lit "latex"), VStr lx);
                (Some (lit "is_conj"), VBool (f_is_conj f)); (Some (lit "is_unbarred"), w)]).
  assert (Call : call_indexed_field args = do z <- mk_ifield (mkIargs (f_label f) (AStr (index_text (indices_of x))) (Some (two y b)) (f_is_conj f) (Some (f_symmetry f)) (f_comm f) (Some lx) 1 0 None);
                 Ok (VTensor (KField (mkCF Plain z)))).
  { unfold call_indexed_field.
    change (arg "label" args) with (Some (VStr (f_label f))). change (arg "indices" args) with (Some (VStr (index_text (indices_of x)))).
    change (arg "symmetry" args) with (Some (symmetry_val (f_symmetry f))). change (arg "charges" args) with (Some (charges_val y b)).
    change (arg "nf" args) with (Some (nat_val 1)). change (arg "comm" args) with (Some (VStr (f_comm f))).
    change (arg "latex" args) with (Some (VStr lx)). change (arg "is_conj" args) with (Some (VBool (f_is_conj f))).
    rewrite symmetry_back, charges_back. reflexivity. }
  assert (R1 : reads 0 (lit "IndexedField" ++ lit "(" ++ show_items [kwarg "label" (quoted (f_label f)); kwarg "indices" (quoted (index_text (i_indices (cf_if x))));
              kwarg "symmetry" (show_symmetry (f_symmetry f)); kwarg "charges" (show_charges (f_charges f));
              kwarg "nf" (show_nat (f_nf f)); kwarg "dynkin" (quoted (f_dynkin f)); kwarg "comm" (quoted (f_comm f));
              kwarg "latex" (quoted raw); kwarg "is_conj" (show_bool (f_is_conj f));
              kwarg "is_unbarred" (match cf_class x with DiracFermion b => show_bool b | _ => lit "None" end)] ++ lit ")")
            (VTensor (KField (mkCF Plain (mkIField (mkField (f_label f) (f_dynkin f) (f_charges f) (f_is_conj f) (f_comm f) (f_symmetry f) None 1 lx 1 0 None)
                                            (map reindex (indices_of x)) (AStr (index_text (indices_of x)))))))).
  { apply (reads_call (lit "IndexedField") (VFun (lit "IndexedField")) _ (map (fun kv => match fst kv with Some k => IKw k (snd kv) | None => IPos (snd kv) end) args) args);
      [apply reads_name; [is_name|reflexivity]| |reflexivity|].
    - cbn [map args fst snd].
      constructor; [apply kw_reads; [is_name|]; apply reads_str, plain_denotes, (xp_label x Ex)|].
      constructor; [apply kw_reads; [is_name|]; apply reads_text, (xp_indices x Ex)|].
      constructor; [apply kw_reads; [is_name|]; apply symmetry_reads; unfold f; rewrite (ex_symmetry x Ex); apply ones|].
      constructor; [apply kw_reads; [is_name|]; unfold f; rewrite Ec; apply charges_reads|].
      constructor; [apply kw_reads; [is_name|]; unfold f; rewrite Nf, (show_nat_small 1) by lia; apply reads_int|].
      constructor; [apply kw_reads; [is_name|]; unfold f; rewrite (ex_dynkin x Ex); apply reads_str, plain_denotes, five_plain; apply (xp_few x Ex); discriminate|].
      constructor; [apply kw_reads; [is_name|]; unfold f; rewrite (class_comm_ok x Ex); apply reads_str, plain_denotes, class_comm_plain|].
      constructor; [apply kw_reads; [is_name|]; apply reads_str, Dn|].
      constructor; [apply kw_reads; [is_name|]; apply bool_reads|].
      constructor; [apply kw_reads; [is_name|]; exact Rw|constructor].
    - change (apply (VFun (lit "IndexedField")) args) with (call_indexed_field args). rewrite Call.
      pose proof (indexed_reread x Ex (f_is_conj f) lx) as M. rewrite Ec, Nf in M. fold f in M. rewrite M. cbn [bind].
      unfold f at 8. rewrite <- Ec. pose proof (ex_dynkin x Ex) as Ed. fold f in Ed |- *. rewrite Ed. reflexivity. }
  assert (Tx : exotic_text raw x = lit "ExoticField" ++ lit "(" ++ join (lit ", ") [lit "IndexedField" ++ lit "(" ++ show_items [kwarg "label" (quoted (f_label f)); kwarg "indices" (quoted (index_text (i_indices (cf_if x))));
              kwarg "symmetry" (show_symmetry (f_symmetry f)); kwarg "charges" (show_charges (f_charges f));
              kwarg "nf" (show_nat (f_nf f)); kwarg "dynkin" (quoted (f_dynkin f)); kwarg "comm" (quoted (f_comm f));
              kwarg "latex" (quoted raw); kwarg "is_conj" (show_bool (f_is_conj f));
              kwarg "is_unbarred" (match cf_class x with DiracFermion b => show_bool b | _ => lit "None" end)] ++ lit ")"] ++ lit ")").
  { unfold exotic_text. fold f. generalize (show_items [kwarg "label" (quoted (f_label f)); kwarg "indices" (quoted (index_text (i_indices (cf_if x))));
              kwarg "symmetry" (show_symmetry (f_symmetry f)); kwarg "charges" (show_charges (f_charges f));
              kwarg "nf" (show_nat (f_nf f)); kwarg "dynkin" (quoted (f_dynkin f)); kwarg "comm" (quoted (f_comm f));
              kwarg "latex" (quoted raw); kwarg "is_conj" (show_bool (f_is_conj f));
              kwarg "is_unbarred" (match cf_class x with DiracFermion b => show_bool b | _ => lit "None" end)]) as t.
    intros t. cbn [join]. rewrite <- !app_assoc. reflexivity. }
  rewrite Tx. clear Tx.
  eapply (reads_call (lit "ExoticField") (VFun (lit "ExoticField"))); [apply reads_name; [is_name|reflexivity]|apply one_item; exact R1|reflexivity|].
  match goal with |- apply _ [(_, VTensor (KField (mkCF Plain ?z)))] = _ =>
    change (apply (VFun (lit "ExoticField")) [(None, VTensor (KField (mkCF Plain z)))]) with (do y <- cons_completion_field z None; Ok (VTensor (KField y))) end.
  pose proof (cons_reread x Ex lx) as M. pose proof (ex_dynkin x Ex) as Ed. cbv zeta beta in M, Ed. fold f in M, Ed. rewrite <- Ed in M. rewrite M. reflexivity.
Qed.
