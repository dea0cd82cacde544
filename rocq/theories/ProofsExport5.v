(** * ProofsExport5: tensors, operators, partitions and sets of fields written and read *)

From Coq Require Import Ascii String List Bool Arith ZArith NArith QArith Qcanon Lia Sorted.
From Verif Require Import Base BaseFacts Show ShowRead ModelFunctions ModelIndex SpecIndex ProofsIndex ModelField SpecField ProofsField
  PropsField PropsField2 ModelContract SpecContract ProofsContract ModelPartition ModelExotic SpecExotic ProofsExotic ProofsExotic2
  ModelInfo ModelLagrangian ModelDatabase ModelExport ProofsExport SpecExport ProofsExport2 ProofsExport3 ProofsExport4 PropsPartition.
Import ListNotations.
Local Open Scope nat_scope.

(** ** Text with single quotes only *)

Definition quiet_char (c : ascii) : Prop := plain_char c \/ c = squote.
Definition quiet (s : str) : Prop := Forall quiet_char s.

Definition plainb (c : ascii) : bool :=
  let n := nat_of_ascii c in (32 <=? n) && negb (n =? 127) && negb (n =? 39) && negb (n =? 34) && negb (n =? 92).

Lemma plainb_ok c : plainb c = true -> plain_char c.
Proof.
  unfold plainb, plain_char. cbv zeta. rewrite !andb_true_iff, !negb_true_iff, Nat.leb_le, !Nat.eqb_neq. intros [[[[A B] C] E] F].
  repeat (split; [assumption|]). assumption.
Qed.

Lemma quiet_lit s : forallb (fun c => plainb c || Ascii.eqb c squote) (lit s) = true -> quiet (lit s).
Proof.
  intros H. rewrite forallb_forall in H. apply Forall_forall. intros c I. specialize (H c I). apply orb_true_iff in H as [H|H];
    [left; now apply plainb_ok|right; now apply Ascii.eqb_eq].
Qed.

Lemma plain_of s : forallb plainb (lit s) = true -> plain (lit s).
Proof. intros H. rewrite forallb_forall in H. apply Forall_forall. intros c I. apply plainb_ok, H, I. Qed.

Lemma plain_quiet s : plain s -> quiet s.
Proof. intros P. eapply Forall_impl; [|exact P]. intros c H. now left. Qed.

Lemma quiet_app a b : quiet a -> quiet b -> quiet (a ++ b).
Proof. intros A B. apply Forall_app. auto. Qed.

Lemma quiet_quoted s : quiet s -> quiet (quoted s).
Proof. intros P. constructor; [now right|]. apply quiet_app; [exact P|]. constructor; [now right|constructor]. Qed.

Lemma quiet_join sep l : quiet sep -> Forall quiet l -> quiet (join sep l).
Proof.
  intros P. induction 1 as [|s l H F IH]; [constructor|]. destruct l as [|s' l]; [exact H|].
  change (join sep (s :: s' :: l)) with (s ++ sep ++ join sep (s' :: l)). apply quiet_app; [exact H|]. apply quiet_app; auto.
Qed.

Ltac q_lit := apply quiet_lit; reflexivity.

Lemma quiet_list l : Forall quiet l -> quiet (show_list l).
Proof. intros F. unfold show_list. repeat apply quiet_app; [q_lit| |q_lit]. apply quiet_join; [q_lit|exact F]. Qed.

Lemma quiet_tuple l : Forall quiet l -> quiet (show_tuple l).
Proof.
  intros F. unfold show_tuple. apply quiet_app; [q_lit|]. apply quiet_app; [apply quiet_join; [q_lit|exact F]|].
  apply quiet_app; [|q_lit]. destruct l as [|s [|s' l]]; [constructor|q_lit|constructor].
Qed.

Lemma quiet_dict l : Forall (fun kv => quiet (fst kv) /\ quiet (snd kv)) l -> quiet (show_dict l).
Proof.
  intros F. unfold show_dict. repeat apply quiet_app; [q_lit| |q_lit]. apply quiet_join; [q_lit|]. apply Forall_map.
  eapply Forall_impl; [|exact F]. intros kv [A B]. apply quiet_app; [exact A|]. apply quiet_app; [q_lit|exact B].
Qed.

Lemma quiet_codes c : quiet_char c -> c <> dquote /\ c <> backslash.
Proof. intros [P| ->]; [destruct (plain_codes c P) as (_ & A & B & _); auto|split; discriminate]. Qed.

Lemma quiet_denotes s : quiet s -> denotes dquote s s.
Proof. induction 1 as [|c s C F IH]; [constructor|]. apply dn_char; [|exact IH]. destruct C as [C|C]; [now left|right; auto]. Qed.

Lemma without_app a b : without_dquotes (a ++ b) = without_dquotes a ++ without_dquotes b.
Proof. apply filter_app. Qed.

Lemma without_quiet s : quiet s -> without_dquotes s = s.
Proof.
  induction 1 as [|c s C F IH]; [reflexivity|]. unfold without_dquotes in *. cbn [filter]. destruct (quiet_codes c C) as [N _].
  apply Ascii.eqb_neq in N. rewrite N. cbn [negb]. now rewrite IH.
Qed.

Lemma double_quiet s : quiet s -> double s = s.
Proof.
  induction 1 as [|c s C F IH]; [reflexivity|]. cbn [double flat_map]. fold (double s). rewrite IH.
  destruct (Ascii.eqb_spec c backslash) as [E|N]; [|reflexivity]. destruct (quiet_codes c C) as [_ X]. destruct (X E).
Qed.

Lemma without_backslashed s : backslashed s -> without_dquotes s = s.
Proof.
  induction 1 as [|c s C F IH]; [reflexivity|]. unfold without_dquotes in *. cbn [filter].
  assert (N : Ascii.eqb c dquote = false).
  { apply Ascii.eqb_neq. destruct C as [C| ->]; [now apply plain_codes|discriminate]. }
  rewrite N. cbn [negb]. now rewrite IH.
Qed.

Lemma double_backslashed s : backslashed s -> backslashed (double s).
Proof.
  induction 1 as [|c s C F IH]; [constructor|]. cbn [double flat_map]. fold (double s). apply Forall_app. split; [|exact IH].
  destruct (Ascii.eqb_spec c backslash) as [E|N]; [subst c; constructor; [now right|constructor; [now right|constructor]]|constructor; [exact C|constructor]].
Qed.

(** ** The representation of a text with single quotes is in double quotes *)

Definition tame_char (c : ascii) : Prop := quiet_char c \/ c = backslash.

Lemma repr_tame s : Forall tame_char s -> In squote s -> py_repr s = dquote :: double s ++ [dquote].
Proof.
  intros F I. unfold py_repr. assert (Q1 : mem_char squote s = true) by (apply existsb_exists; exists squote; auto).
  assert (Q2 : mem_char dquote s = false).
  { clear I Q1. unfold mem_char. induction F as [|c s C F IH]; [reflexivity|]. cbn [existsb]. rewrite IH, orb_false_r.
    apply Ascii.eqb_neq. destruct C as [C| ->]; [intros E; symmetry in E; revert E; now apply quiet_codes|discriminate]. }
  rewrite Q1, Q2. cbn [andb negb]. f_equal. f_equal. clear Q1 Q2 I. revert F. induction s as [|c s IH]; intros F; [reflexivity|]. cbn [flat_map double]. fold (double s).
  rewrite (IH (Forall_inv_tail F)). f_equal. destruct (Forall_inv F) as [[P| ->]| ->]; [|reflexivity|reflexivity].
  rewrite repr_char_plain by auto. destruct (plain_codes c P) as (_ & _ & N & _). apply Ascii.eqb_neq in N. now rewrite N.
Qed.

Lemma repr_quiet s : quiet s -> In squote s -> py_repr s = dquote :: s ++ [dquote].
Proof. intros Q I. rewrite repr_tame; [now rewrite double_quiet|eapply Forall_impl; [|exact Q]; now left|exact I]. Qed.

(** ** Tensors *)

Lemma show_nat_plain n : n < 10 -> plain (show_nat n).
Proof. intros H. rewrite show_nat_digit by exact H. constructor; [now apply small_digit|constructor]. Qed.

Lemma repr_quiet_plain s : plain s -> quiet (py_repr s).
Proof. intros P. rewrite repr_plain by exact P. apply quiet_quoted, plain_quiet, P. Qed.

Lemma bool_quiet b : quiet (show_bool b).
Proof. destruct b; q_lit. Qed.

Lemma exotic_split x : exportable x -> exists A B, quiet A /\ quiet B /\ In squote A /\ forall raw, exotic_text raw x = A ++ raw ++ B.
Proof.
  intros Ex. set (f := i_field (cf_if x)).
  set (A := lit "ExoticField(IndexedField(" ++
    join (lit ", ") [kwarg "label" (quoted (f_label f)); kwarg "indices" (quoted (index_text (i_indices (cf_if x))));
              kwarg "symmetry" (show_symmetry (f_symmetry f)); kwarg "charges" (show_charges (f_charges f));
              kwarg "nf" (show_nat (f_nf f)); kwarg "dynkin" (quoted (f_dynkin f)); kwarg "comm" (quoted (f_comm f))] ++ lit ", latex='").
  set (B := lit "', " ++ join (lit ", ") [kwarg "is_conj" (show_bool (f_is_conj f));
              kwarg "is_unbarred" (match cf_class x with DiracFermion b => show_bool b | _ => lit "None" end)] ++ lit "))").
  assert (Kq : forall k v, quiet (lit k) -> quiet v -> quiet (kwarg k v)).
  { intros k v K V. unfold kwarg. apply quiet_app; [exact K|]. apply quiet_app; [q_lit|exact V]. }
  exists A, B. split; [|split; [|split]].
  - unfold A. apply quiet_app; [q_lit|]. apply quiet_app; [|q_lit]. apply quiet_join; [q_lit|].
    pose proof (typed_inv x (xp_typed x Ex)) as T. destruct (ex_charges x Ex) as (y & b & Ec & _). cbv zeta in Ec. fold f in Ec.
    constructor; [apply Kq; [q_lit|apply quiet_quoted, plain_quiet, (xp_label x Ex)]|].
    constructor; [apply Kq; [q_lit|apply quiet_quoted, plain_quiet, text_plain, (xp_indices x Ex)]|].
    constructor; [apply Kq; [q_lit|]|].
    { destruct (tf_symmetry x T) as (ds & _ & Sd). fold f in Sd. rewrite Sd. pose proof (ones ds) as O. revert O. generalize (symmetry_of ds).
      intros l O. apply quiet_list, Forall_map. eapply Forall_impl; [|exact O]. intros a Fa. apply quiet_list, Forall_map. eapply Forall_impl; [|exact Fa].
      intros n H. apply plain_quiet, show_nat_plain, H. }
    constructor; [apply Kq; [q_lit|]|].
    { rewrite Ec. unfold show_charges, two. cbn [map fst snd]. apply quiet_dict.
      constructor; [cbn [fst snd]; split; apply repr_quiet_plain; [plain_lit|apply show_Q_plain]|].
      constructor; [cbn [fst snd]; split; apply repr_quiet_plain; [plain_lit|apply show_Q_plain]|constructor]. }
    constructor; [apply Kq; [q_lit|]|].
    { pose proof (tf_nf x T) as Nf. fold f in Nf. rewrite Nf. apply plain_quiet, show_nat_plain. lia. }
    constructor; [apply Kq; [q_lit|]|].
    { pose proof (ex_dynkin x Ex) as Ed. cbv zeta beta in Ed. fold f in Ed. rewrite Ed. apply quiet_quoted, plain_quiet, five_plain; apply (xp_few x Ex); discriminate. }
    constructor; [apply Kq; [q_lit|]|constructor].
    { pose proof (tf_comm x T) as Cm. fold f in Cm. rewrite Cm. apply quiet_quoted, plain_quiet, class_comm_plain. }
  - unfold B. apply quiet_app; [q_lit|]. apply quiet_app; [|q_lit]. apply quiet_join; [q_lit|].
    constructor; [apply Kq; [q_lit|apply bool_quiet]|]. constructor; [|constructor]. apply Kq; [q_lit|].
    destruct (cf_class x); try q_lit. apply bool_quiet.
  - unfold A. rewrite !in_app_iff. right. right. cbn. tauto.
  - intros raw. unfold exotic_text, A, B, show_items, kwarg, quoted. fold f. cbn [join]. repeat rewrite <- app_assoc. cbn [app]. repeat rewrite <- app_assoc. reflexivity.
Qed.

(** the text, its value, and itself between double quotes *)
Lemma tensor_reads t u : read_back t u -> exists s, export_tensor t = Ok s /\ reads 0 s (VTensor u) /\ denotes dquote s s.
Proof.
  intros [f s x y Sf E L W|f dyn g s y Sf Eg Ld E W|x Ex In|s M W].
  - destruct (field_reads f s x y Sf E L W) as [E1 R]. eexists. split; [exact E1|]. split; [exact R|].
    destruct (standard_ok f Sf) as (_ & _ & _ & _ & _ & _ & _ & _ & _ & _ & _ & _ & _ & Pl). apply quiet_denotes.
    apply quiet_app; [apply quiet_app; [now apply plain_quiet|destruct (f_is_conj f); [q_lit|constructor]]|].
    apply quiet_app; [q_lit|]. apply quiet_app; [|q_lit]. apply quiet_quoted, plain_quiet, text_plain, W.
  - destruct (derivative_reads f dyn g s y Sf Eg Ld E W) as (E1 & Pd & R). eexists. split; [exact E1|]. split; [exact R|].
    destruct (standard_ok f Sf) as (_ & _ & _ & _ & _ & _ & _ & _ & _ & _ & _ & _ & _ & Pl). apply quiet_denotes.
    apply quiet_app; [q_lit|]. apply quiet_app; [apply quiet_app; [now apply plain_quiet|destruct (f_is_conj f); [q_lit|constructor]]|].
    apply quiet_app; [q_lit|]. apply quiet_app; [apply quiet_quoted, plain_quiet, Pd|]. apply quiet_app; [q_lit|].
    apply quiet_app; [|q_lit]. apply quiet_quoted, plain_quiet, text_plain, W.
  - exists (exotic_text (f_latex (i_field (cf_if x))) x). split; [|split].
    + cbn [export_tensor]. destruct (xp_typed x Ex) as [N _]. rewrite <- export_exotic_text. destruct (cf_class x); try reflexivity. congruence.
    + apply exotic_reads; [exact Ex|]. now apply inert_denotes.
    + destruct (exotic_split x Ex) as (A & B & QA & QB & _ & Eq). rewrite Eq. apply denotes_app; [now apply quiet_denotes|].
      apply denotes_app; [now apply inert_denotes|now apply quiet_denotes].
  - exists (export_symbol s). split; [reflexivity|]. split; [now apply symbol_reads|]. apply quiet_denotes.
    pose proof (quiet_quoted _ (plain_quiet _ (text_plain _ W))) as Q.
    destruct s as [ty l|l|l]; cbn [export_symbol symbol_indices] in *; (apply quiet_app; [q_lit|]; apply quiet_app; [exact Q|q_lit]).
Qed.

Lemma ok_inj {A} (a b : A) : Ok a = Ok b -> a = b.
Proof. congruence. Qed.

(** a field of the Standard Model has no backslash in its text *)
Lemma plain_tensor_quiet x u s : read_back (KField (mkCF Plain x)) u -> export_tensor (KField (mkCF Plain x)) = Ok s -> quiet s /\ In squote s.
Proof.
  intros R E. inversion R as [f t x0 y Sf Ec L W Q1 Q2|f dyn g t y Sf Eg Ld Ec W Q1 Q2|x0 Ex In Q1 Q2|]; subst.
  - destruct (field_reads f t x y Sf Ec L W) as [E1 _]. cbn [export_tensor cf_class cf_if] in E. rewrite E1 in E. apply ok_inj in E. subst s.
    destruct (standard_ok f Sf) as (_ & _ & _ & _ & _ & _ & _ & _ & _ & _ & _ & _ & _ & Pl). split.
    + apply quiet_app; [apply quiet_app; [now apply plain_quiet|destruct (f_is_conj f); [q_lit|constructor]]|].
      apply quiet_app; [q_lit|]. apply quiet_app; [|q_lit]. apply quiet_quoted, plain_quiet, text_plain, W.
    + rewrite !in_app_iff. right. right. left. now left.
  - destruct (derivative_reads f dyn g t x Sf Eg Ld Ec W) as (E1 & Pd & _). cbn [export_tensor cf_class cf_if] in E. rewrite E1 in E. apply ok_inj in E. subst s.
    destruct (standard_ok f Sf) as (_ & _ & _ & _ & _ & _ & _ & _ & _ & _ & _ & _ & _ & Pl). split.
    + apply quiet_app; [q_lit|]. apply quiet_app; [apply quiet_app; [now apply plain_quiet|destruct (f_is_conj f); [q_lit|constructor]]|].
      apply quiet_app; [q_lit|]. apply quiet_app; [apply quiet_quoted, plain_quiet, Pd|]. apply quiet_app; [q_lit|].
      apply quiet_app; [|q_lit]. apply quiet_quoted, plain_quiet, text_plain, W.
    + rewrite !in_app_iff. right. right. right. left. now left.
  - destruct (xp_typed _ Ex) as [N _]. now destruct N.
Qed.

(** ** Operators *)

Lemma place_rank t : factor_place t = class_rank t.
Proof. now destruct t. Qed.

Lemma place_back t u : read_back t u -> factor_place u = factor_place t.
Proof. intros []; try reflexivity. cbn [factor_place reread cf_class]. now destruct (cf_class x). Qed.

Lemma ordered_normal op : ordered_factors op -> cnormalise op = op.
Proof.
  intros O. unfold cnormalise. apply sort_sorted_id.
  induction O as [|t l H O IH]; [constructor|]. constructor; [exact IH|]. apply Forall_forall. intros u I.
  apply Nat.leb_le. rewrite <- !place_rank. auto.
Qed.

Lemma ordered_back op op' : Forall2 read_back op op' -> ordered_factors op -> ordered_factors op'.
Proof.
  induction 1 as [|t u op op' R F IH]; intros O; [constructor|]. inversion O as [|? ? H O']; subst. constructor; [|now apply IH].
  intros v I. rewrite (place_back _ _ R). clear - F H I.
  induction F as [|a b op op' R F IH]; [destruct I|]. destruct I as [<-|I]; [rewrite (place_back _ _ R); apply H; now left|].
  apply IH; [|exact I]. intros w Iw. apply H. now right.
Qed.

Lemma mapM_all {A B} (f : A -> res B) l m : Forall2 (fun a b => f a = Ok b) l m -> mapM f l = Ok m.
Proof. induction 1 as [|a b l m E F IH]; [reflexivity|]. cbn [mapM]. rewrite E. cbn [bind]. now rewrite IH. Qed.

Lemma times_fold ts : forall op, foldM times (map VTensor ts) (VOp op) = Ok (VOp (fold_left c_mul ts op)).
Proof. induction ts as [|t ts IH]; intros op; [reflexivity|]. cbn [map foldM times bind fold_left]. apply IH. Qed.

Lemma join_cons2 sep a b l : join sep (a :: b :: l) = a ++ sep ++ join sep (b :: l).
Proof. reflexivity. Qed.

Lemma denotes_join q sep l l' : denotes q sep sep -> Forall2 (denotes q) l l' -> denotes q (join sep l) (join sep l').
Proof.
  intros S. induction 1 as [|a b l l' H F IH]; [constructor|]. destruct F as [|a' b' l l' H' F]; [exact H|].
  rewrite !join_cons2. apply denotes_app; [exact H|]. apply denotes_app; [exact S|exact IH].
Qed.

Lemma operator_reads op op' : operator_back op op' ->
  exists s, export_operator op = Ok s /\ reads 1 s (VOp op') /\ denotes dquote s s.
Proof.
  intros (Fa & O & F). unfold export_operator.
  assert (X : exists ss, Forall2 (fun t s => export_tensor t = Ok s) op ss /\ Forall2 (reads 0) ss (map VTensor op') /\ Forall2 (denotes dquote) ss ss).
  { clear Fa O. induction F as [|t u op op' R F (ss & A & B & C)]; [exists []; repeat split; constructor|].
    destruct (tensor_reads t u R) as (s & E & Rd & Dn). exists (s :: ss). split; [now constructor|]. split; [now constructor|now constructor]. }
  destruct X as (ss & Es & Rs & Ds). rewrite (mapM_all _ _ _ Es). cbn [bind].
  exists (join (lit "*") ss). split; [reflexivity|]. split; [|apply denotes_join; [apply quiet_denotes; q_lit|exact Ds]].
  destruct op as [|[x|] [|t2 op]]; try destruct Fa. inversion F as [|? u1 ? op1 R1 F1]; subst. inversion F1 as [|? u2 ? op2 R2 F2]; subst.
  assert (U : exists y, u1 = KField y) by (inversion R1; subst; eauto). destruct U as (y & ->).
  cbn [map] in Rs. inversion Rs as [|s1 ? ss1 ? Rs1 Rs2]; subst. inversion Rs2 as [|s2 ? ss2 ? Rs3 Rs4]; subst.
  eapply reads_prod; [discriminate|exact Rs1|exact Rs2|]. cbn [foldM times bind]. rewrite times_fold. f_equal. f_equal.
  change (c_mul [KField y] u2) with (c_mul (cnormalise [KField y]) u2).
  change (fold_left c_mul op2 (c_mul (cnormalise [KField y]) u2)) with (fold_left c_mul (u2 :: op2) (cnormalise [KField y])).
  rewrite fold_c_mul. apply ordered_normal. exact (ordered_back _ _ F O).
Qed.

Lemma terms_read ts ts' : Forall2 operator_back ts ts' ->
  exists s, export_terms ts = Ok s /\ reads 0 s (VList (map VOp ts')) /\ denotes dquote s s.
Proof.
  intros F. unfold export_terms.
  assert (X : exists ss, Forall2 (fun t s => export_operator t = Ok s) ts ss /\ Forall2 (reads 1) ss (map VOp ts') /\ Forall2 (denotes dquote) ss ss).
  { induction F as [|t u op op' R F (ss & A & B & C)]; [exists []; repeat split; constructor|].
    destruct (operator_reads t u R) as (s & E & Rd & Dn). exists (s :: ss). split; [now constructor|]. split; [now constructor|now constructor]. }
  destruct X as (ss & Es & Rs & Ds). rewrite (mapM_all _ _ _ Es). cbn [bind]. exists (show_list ss). split; [reflexivity|].
  split; [now apply reads_list|]. unfold show_list. apply denotes_app; [apply quiet_denotes; q_lit|]. apply denotes_app; [|apply quiet_denotes; q_lit].
  apply denotes_join; [apply quiet_denotes; q_lit|exact Ds].
Qed.

(** ** Partitions *)

Fixpoint tree_val (p : ptree (cfield * N)) : val :=
  match p with Lf (x, n) => VLeaf x n | Tp l => VTuple (map tree_val l) end.

Lemma tree_back_ind (P : ptree (cfield * N) -> ptree (cfield * N) -> Prop) :
  (forall x y n, read_back (KField (mkCF Plain x)) (KField y) -> P (Lf (mkCF Plain x, n)) (Lf (y, n))) ->
  (forall l l', Forall2 P l l' -> P (Tp l) (Tp l')) -> forall p q, tree_back p q -> P p q.
Proof.
  intros HL HT. fix IH 3. intros p q [x y n R|l l' F]; [now apply HL|]. apply HT.
  revert l l' F. fix IHl 3. intros l l' [|a b l0 l1 H F]; constructor; [now apply IH|now apply IHl].
Qed.

Lemma without_dq s : without_dquotes (dquote :: s ++ [dquote]) = without_dquotes s.
Proof.
  unfold without_dquotes. cbn [filter]. rewrite Ascii.eqb_refl. cbn [negb]. rewrite filter_app. cbn [filter]. rewrite Ascii.eqb_refl. cbn [negb]. apply app_nil_r.
Qed.

Lemma without_join sep l : without_dquotes sep = sep -> without_dquotes (join sep l) = join sep (map without_dquotes l).
Proof.
  intros S. induction l as [|a l IH]; [reflexivity|]. destruct l as [|b l]; [reflexivity|].
  cbn [map]. rewrite !join_cons2, !without_app, S. cbn [map] in IH. now rewrite IH.
Qed.

Lemma without_tuple l : without_dquotes (show_tuple l) = show_tuple (map without_dquotes l).
Proof.
  unfold show_tuple, show_items. rewrite !without_app, without_join by reflexivity. f_equal. f_equal.
  destruct l as [|a [|b l]]; reflexivity.
Qed.

Lemma show_partition_node l : show_partition (Tp l) = do r <- mapM show_partition l; Ok (show_tuple r).
Proof.
  cbn [show_partition]. assert (E : (fix go (l : list (ptree (cfield * N))) : res (list str) :=
    match l with [] => Ok [] | p :: l => do s <- show_partition p; do r <- go l; Ok (s :: r) end) l = mapM show_partition l).
  { induction l as [|p l IH]; [reflexivity|]. cbn [mapM]. destruct (show_partition p); [|reflexivity]. cbn [bind]. now rewrite IH. }
  now rewrite E.
Qed.

Lemma show_N_quiet n : quiet (show_N n).
Proof. apply plain_quiet. apply Forall_forall. intros c I. apply digit_plain. exact (proj1 (Forall_forall _ _) (show_N_digits n) c I). Qed.

Lemma partition_reads p q : tree_back p q ->
  exists s, show_partition p = Ok s /\ reads 0 (without_dquotes s) (tree_val q) /\ quiet (without_dquotes s).
Proof.
  intros T. induction T as [x y n R|l l' F] using tree_back_ind.
  - destruct (tensor_reads _ _ R) as (s & E & Rd & _). destruct (plain_tensor_quiet _ _ _ R E) as [Q I].
    cbn [show_partition]. rewrite E. cbn [bind]. eexists. split; [reflexivity|].
    rewrite (repr_quiet s Q I).
    assert (Ew : without_dquotes (lit "Leaf(field=" ++ (dquote :: s ++ [dquote]) ++ lit ", node=" ++ show_N n ++ lit ")") =
                 lit "Leaf" ++ lit "(" ++ join (lit ", ") [kwarg "field" s; kwarg "node" (show_N n)] ++ lit ")").
    { rewrite !without_app, without_dq, (without_quiet s Q), (without_quiet _ (show_N_quiet n)). unfold kwarg. cbn [join]. rewrite <- !app_assoc. reflexivity. }
    rewrite Ew. split.
    + apply (reads_call (lit "Leaf") (VFun (lit "Leaf")) _ [IKw (lit "field") (VTensor (KField y)); IKw (lit "node") (VInt n)]
               [(Some (lit "field"), VTensor (KField y)); (Some (lit "node"), VInt n)]); [apply reads_name; [is_name|reflexivity]| |reflexivity|reflexivity].
      constructor; [apply kw_reads; [is_name|exact Rd]|]. constructor; [apply kw_reads; [is_name|apply reads_int]|constructor].
    + apply quiet_app; [q_lit|]. apply quiet_app; [q_lit|]. apply quiet_app; [|q_lit]. apply quiet_join; [q_lit|].
      constructor; [unfold kwarg; apply quiet_app; [q_lit|apply quiet_app; [q_lit|exact Q]]|].
      constructor; [unfold kwarg; apply quiet_app; [q_lit|apply quiet_app; [q_lit|apply show_N_quiet]]|constructor].
  - rewrite show_partition_node.
    assert (X : exists ss, Forall2 (fun p s => show_partition p = Ok s) l ss /\ Forall2 (reads 1) (map without_dquotes ss) (map tree_val l') /\
                           Forall quiet (map without_dquotes ss)).
    { induction F as [|a b l l' (s & E & R & Q) F (ss & A & B & C)]; [exists []; repeat split; constructor|].
      exists (s :: ss). split; [now constructor|]. cbn [map]. split; [constructor; [now apply reads_up|exact B]|now constructor]. }
    destruct X as (ss & Es & Rs & Qs). rewrite (mapM_all _ _ _ Es). cbn [bind]. eexists. split; [reflexivity|]. rewrite without_tuple. split.
    + cbn [tree_val]. now apply reads_tuple.
    + now apply quiet_tuple.
Qed.

Lemma as_partition_val p : as_partition (tree_val p) = Ok p.
Proof.
  induction p as [[x n]|l F] using PropsPartition.ptree_ind'; [reflexivity|]. cbn [tree_val as_partition].
  match goal with |- bind (?g _) _ = _ => assert (E : g (map tree_val l) = Ok l) end.
  { induction F as [|p l H F IH]; [reflexivity|]. cbn [map]. rewrite H. cbn [bind]. now rewrite IH. }
  now rewrite E.
Qed.

Lemma export_partition_reads l q : tree_back (Tp l) q ->
  exists s, export_partition (Tp l) = Ok s /\ reads 0 s (tree_val q) /\ quiet s.
Proof.
  intros T. unfold export_partition. rewrite show_partition_node. inversion T as [|? l' F]; subst.
  assert (X : exists ss, Forall2 (fun p s => show_partition p = Ok s) l ss /\ Forall2 (reads 1) (map without_dquotes ss) (map tree_val l') /\
                         Forall quiet (map without_dquotes ss)).
  { clear T. induction F as [|a b l l' H F (ss & A & B & C)]; [exists []; repeat split; constructor|].
    destruct (partition_reads a b H) as (s & E & R & Q). exists (s :: ss). split; [now constructor|]. cbn [map].
    split; [constructor; [now apply reads_up|exact B]|now constructor]. }
  destruct X as (ss & Es & Rs & Qs). rewrite (mapM_all _ _ _ Es). cbn [bind]. eexists. split; [reflexivity|]. rewrite without_tuple.
  split; [|apply quiet_app; [q_lit|now apply quiet_tuple]].
  destruct (items_values _ _ Rs) as [It _].
  assert (Ar : mapM item_arg (map IPos (map tree_val l')) = Ok (map (fun v => (None, v)) (map tree_val l'))).
  { clear. generalize (map tree_val l'). intros vs. induction vs as [|v vs IH]; [reflexivity|]. cbn [map mapM item_arg bind]. now rewrite IH. }
  assert (Ap : apply (VFun (lit "Partition")) (map (fun v => (None, v)) (map tree_val l')) = Ok (tree_val (Tp l'))).
  { change (apply (VFun (lit "Partition")) (map (fun v => (None, v)) (map tree_val l'))) with (do a <- positional (map (fun v => (@None str, v)) (map tree_val l')); Ok (VTuple a)).
    assert (P : positional (map (fun v => (@None str, v)) (map tree_val l')) = Ok (map tree_val l')).
    { unfold positional. clear. generalize (map tree_val l'). intros vs. induction vs as [|v vs IH]; [reflexivity|]. cbn [map mapM bind]. now rewrite IH. }
    rewrite P. reflexivity. }
  assert (Nm : reads 0 (lit "Partition") (VFun (lit "Partition"))) by (apply reads_name; [is_name|reflexivity]).
  remember (map without_dquotes ss) as ts. pose proof (fun tc => reads_call_tc tc (lit "Partition") (VFun (lit "Partition")) ts _ _ _
    Nm It Ar Ap) as Call.
  unfold show_tuple, show_items. destruct ts as [|a [|b ts]].
  - apply (Call false). discriminate.
  - apply (Call true). discriminate.
  - apply (Call false). discriminate.
Qed.

(** ** Sets of exotic fields *)

Definition latex_of (x : cfield) : str := f_latex (i_field (cf_if x)).

Lemma exotic_repr x : exportable x -> backslashed (latex_of x) ->
  export_tensor (KField x) = Ok (exotic_text (latex_of x) x) /\
  without_dquotes (py_repr (exotic_text (latex_of x) x)) = exotic_text (double (latex_of x)) x.
Proof.
  intros Ex Bs. split.
  - cbn [export_tensor]. destruct (xp_typed x Ex) as [N _]. unfold latex_of. rewrite <- export_exotic_text. destruct (cf_class x); try reflexivity. congruence.
  - destruct (exotic_split x Ex) as (A & B & QA & QB & I & Eq). rewrite !Eq. rewrite repr_tame.
    + rewrite without_dq, !double_app, (double_quiet A QA), (double_quiet B QB), !without_app, (without_quiet A QA), (without_quiet B QB).
      rewrite without_backslashed; [reflexivity|now apply double_backslashed].
    + apply Forall_app. split; [eapply Forall_impl; [|exact QA]; now left|]. apply Forall_app.
      split; [eapply Forall_impl; [|exact Bs]; intros c [C|C]; [left; now left|now right]|eapply Forall_impl; [|exact QB]; now left].
    + apply in_app_iff. now left.
Qed.

(** one of every text *)
Definition same_text (x y : cfield) : bool := str_eqb (exotic_text (latex_of x) x) (exotic_text (latex_of y) y).

Lemma nodup_map {A B} (f : A -> B) (eqb : B -> B -> bool) l : nodup_by eqb (map f l) = map f (nodup_by (fun x y => eqb (f x) (f y)) l).
Proof.
  induction l as [|a l IH]; [reflexivity|]. cbn [map nodup_by]. f_equal. rewrite IH. generalize (nodup_by (fun x y => eqb (f x) (f y)) l).
  intros m. induction m as [|b m IHm]; [reflexivity|]. cbn [map filter]. destruct (eqb (f a) (f b)); cbn [negb]; [exact IHm|]. cbn [map]. now rewrite IHm.
Qed.

Lemma nodup_incl {A} (eqb : A -> A -> bool) l : incl (nodup_by eqb l) l.
Proof. induction l as [|a l IH]; [intros x []|]. cbn [nodup_by]. intros x [->|I]; [now left|]. apply filter_In in I as [I _]. right. auto. Qed.

Lemma nodup_on {A} (eqb : A -> A -> bool) l : (forall a b, In a l -> In b l -> (eqb a b = true <-> a = b)) -> as_set l (nodup_by eqb l).
Proof.
  unfold as_set. induction l as [|a l IH]; intros H; [split; [constructor|reflexivity]|].
  destruct IH as [N M]; [intros x y Ix Iy; apply H; now right|]. cbn [nodup_by]. split.
  - constructor.
    + intros I. apply filter_In in I as [_ E]. rewrite (proj2 (H a a ltac:(now left) ltac:(now left)) eq_refl) in E. discriminate.
    + now apply NoDup_filter.
  - intros x. cbn [In]. rewrite filter_In, M. split; [tauto|]. intros [->|I]; [now left|].
    destruct (eqb a x) eqn:E; [left; apply (H a x); [now left|now right|exact E]|right; auto].
Qed.

Lemma two_eqb y b y' b' : charges_eqb (two y b) (two y' b') = true <-> two y b = two y' b'.
Proof.
  rewrite charges_eqb_spec by (repeat constructor; cbn; intuition discriminate). split.
  - intros S. pose proof (S (lit "y")) as Y. pose proof (S (lit "3b")) as B. cbn in Y, B. unfold two. congruence.
  - intros -> k. reflexivity.
Qed.

Lemma reread_eqb x y lx ly : exportable x -> exportable y -> (cfield_eqb (reread lx x) (reread ly y) = true <-> reread lx x = reread ly y).
Proof.
  intros Ex Ey. unfold cfield_eqb, reread. cbn [cf_class cf_if]. unfold ifield_eqb. cbn [i_field f_label i_index_labels f_charges f_is_conj f_symmetry f_comm f_latex f_nf f_derivs f_stripped idx_arg_eqb stripped_eqb].
  destruct (ex_charges x Ex) as (y1 & b1 & E1 & _). destruct (ex_charges y Ey) as (y2 & b2 & E2 & _). cbv zeta in E1, E2. rewrite E1, E2.
  rewrite !Nat.eqb_refl, !andb_true_r, !andb_true_iff, two_eqb, Bool.eqb_true_iff, (str_decides (f_label _)), (str_decides (join _ _)), (str_decides (f_comm _)), (str_decides lx), (symmetry_decides (f_symmetry _)).
  split.
  - intros (C & ((((((L & T) & Q) & J) & S) & Cm) & La)).
    assert (I : map reindex (indices_of x) = map reindex (indices_of y)).
    { pose proof (text_reread _ (proj1 (xp_indices x Ex))) as A. pose proof (text_reread _ (proj1 (xp_indices y Ey))) as B. unfold index_text in A, B. rewrite T, B in A. now injection A. }
    assert (D : f_dynkin (i_field (cf_if x)) = f_dynkin (i_field (cf_if y))).
    { pose proof (ex_dynkin x Ex) as A. pose proof (ex_dynkin y Ey) as B. cbv zeta beta in A, B. rewrite A, B.
      rewrite <- !(count_reindex _ _ (indices_of x)), I, !count_reindex. reflexivity. }
    assert (K : (match cf_class x with DiracFermion _ => DiracFermion true | k => k end) = (match cf_class y with DiracFermion _ => DiracFermion true | k => k end)).
    { pose proof (proj1 (xp_typed x Ex)) as Nx. pose proof (proj1 (xp_typed y Ey)) as Ny. destruct (cf_class x), (cf_class y); try reflexivity; try discriminate C; congruence. }
    rewrite L, D, Q, J, Cm, S, La, I, T, K. reflexivity.
  - intros E.
    pose proof (f_equal (fun z => cf_class z) E) as K. pose proof (f_equal (fun z => f_label (i_field (cf_if z))) E) as L.
    pose proof (f_equal (fun z => i_index_labels (cf_if z)) E) as T. pose proof (f_equal (fun z => f_charges (i_field (cf_if z))) E) as Q.
    pose proof (f_equal (fun z => f_is_conj (i_field (cf_if z))) E) as J. pose proof (f_equal (fun z => f_symmetry (i_field (cf_if z))) E) as S.
    pose proof (f_equal (fun z => f_comm (i_field (cf_if z))) E) as Cm. pose proof (f_equal (fun z => f_latex (i_field (cf_if z))) E) as La.
    cbn [cf_class cf_if i_field i_index_labels f_label f_charges f_is_conj f_symmetry f_comm f_latex] in K, L, T, Q, J, S, Cm, La. injection T as T.
    split; [rewrite K; destruct (cf_class y); reflexivity|]. repeat split; assumption.
Qed.

Definition exotics_text (raw : cfield -> str) (l : list cfield) : str := show_set (map (fun x => exotic_text (raw x) x) l).

Lemma exotics_denotes raw raw' l : Forall exportable l -> (forall x, In x l -> denotes dquote (raw x) (raw' x)) ->
  denotes dquote (exotics_text raw l) (exotics_text raw' l).
Proof.
  intros F H. unfold exotics_text, show_set, show_items.
  assert (X : Forall2 (denotes dquote) (map (fun x => exotic_text (raw x) x) l) (map (fun x => exotic_text (raw' x) x) l)).
  { induction F as [|x l Ex F IH]; [constructor|]. cbn [map]. constructor; [|apply IH; intros y I; apply H; now right].
    destruct (exotic_split x Ex) as (A & B & QA & QB & _ & Eq). rewrite !Eq.
    apply denotes_app; [now apply quiet_denotes|]. apply denotes_app; [apply H; now left|now apply quiet_denotes]. }
  destruct l as [|x l]; [cbn [map]; apply quiet_denotes; q_lit|]. cbn [map] in *.
  apply denotes_app; [apply quiet_denotes; q_lit|]. apply denotes_app; [|apply quiet_denotes; q_lit]. apply denotes_join; [apply quiet_denotes; q_lit|exact X].
Qed.

Lemma exotics_reads raw lx l : Forall exportable l -> (forall x, In x l -> denotes squote (raw x) (lx x)) ->
  reads 0 (exotics_text raw l) (VSet (nodup_by cfield_eqb (map (fun x => reread (lx x) x) l))).
Proof.
  intros F H. unfold exotics_text, show_set, show_items. destruct l as [|x l].
  - cbn [map nodup_by]. apply (reads_call (lit "set") (VFun (lit "set")) [] [] [] (VSet [])); [apply reads_name; [is_name|reflexivity]|constructor|reflexivity|reflexivity].
  - remember (x :: l) as l'. destruct (map (fun x => exotic_text (raw x) x) l') as [|a m] eqn:Em; [subst; discriminate|]. rewrite <- Em.
    apply reads_set; [rewrite Em; discriminate|]. clear Em Heql'. rewrite map_map.
    induction F as [|y l0 Ey F IH]; [constructor|]. cbn [map]. constructor; [|apply IH; intros z I; apply H; now right].
    apply reads_up, exotic_reads; [exact Ey|apply H; now left].
Qed.

Lemma without_set l : without_dquotes (show_set l) = show_set (map without_dquotes l).
Proof.
  unfold show_set. destruct l as [|a l]; [reflexivity|]. cbn [map]. unfold show_items. rewrite !without_app.
  rewrite without_join by reflexivity. reflexivity.
Qed.

Lemma exotics_ok l : Forall (fun x => exportable x /\ backslashed (latex_of x)) l ->
  exists m, export_exotics l = Ok (exotics_text (fun x => double (latex_of x)) m) /\ incl m l /\
    as_set (map (fun x => reread (latex_of x) x) l) (nodup_by cfield_eqb (map (fun x => reread (latex_of x) x) m)).
Proof.
  intros F. exists (nodup_by same_text l).
  assert (I : incl (nodup_by same_text l) l) by apply nodup_incl.
  split; [|split; [exact I|]].
  - unfold export_exotics. rewrite (mapM_all _ l (map (fun x => exotic_text (latex_of x) x) l)).
    + cbn [bind]. f_equal. rewrite without_set, (nodup_map (fun x => exotic_text (latex_of x) x) str_eqb l). fold same_text.
      change (fun x y : cfield => str_eqb (exotic_text (latex_of x) x) (exotic_text (latex_of y) y)) with same_text.
      rewrite !map_map. unfold exotics_text. f_equal. apply map_ext_in. intros x Ix. rewrite Forall_forall in F. now apply exotic_repr; apply F, I.
    + clear I. induction F as [|x l [Ex Bx] F IH]; [constructor|]. cbn [map]. constructor; [now apply exotic_repr|exact IH].
  - rewrite Forall_forall in F.
    assert (S : forall x y, In x l -> In y l -> exotic_text (latex_of x) x = exotic_text (latex_of y) y -> reread (latex_of x) x = reread (latex_of y) y).
    { intros x y Ix Iy E. destruct (F x Ix) as [Ex Bx]. destruct (F y Iy) as [Ey By].
      destruct (exotic_repr x Ex Bx) as [_ Rx]. destruct (exotic_repr y Ey By) as [_ Ry]. rewrite E, Ry in Rx.
      pose proof (exotic_reads x _ _ Ex (double_denotes squote _ Bx)) as X. pose proof (exotic_reads y _ _ Ey (double_denotes squote _ By)) as Y.
      rewrite <- Rx in X. pose proof (reads_fun 0 _ _ _ ltac:(lia) X Y) as V. congruence. }
    destruct (nodup_on cfield_eqb (map (fun x => reread (latex_of x) x) (nodup_by same_text l))) as [N M].
    { intros a b Ia Ib. apply in_map_iff in Ia as (x & <- & Ix). apply in_map_iff in Ib as (y & <- & Iy). apply reread_eqb; apply F, I; assumption. }
    split; [exact N|]. intros z. rewrite M, !in_map_iff. split.
    + intros (x & <- & Ix). exists x. split; [reflexivity|apply I, Ix].
    + intros (x & <- & Ix).
      assert (T : In (exotic_text (latex_of x) x) (map (fun x => exotic_text (latex_of x) x) (nodup_by same_text l))).
      { unfold same_text. rewrite <- (nodup_map (fun x => exotic_text (latex_of x) x) str_eqb l). apply (nodup_by_In str_decides). apply in_map_iff. eauto. }
      apply in_map_iff in T as (y & Ty & Iy). exists y. split; [|exact Iy]. apply S; [apply I, Iy|exact Ix|exact Ty].
Qed.
