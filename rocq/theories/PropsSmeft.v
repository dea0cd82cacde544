(** * PropsSmeft: C101, the operators of the Standard Model up to a mass dimension *)

From Coq Require Import Ascii String List Bool Arith ZArith QArith Qcanon Lia Permutation Sorted.
From Verif Require Import Base BaseFacts Show ModelFunctions ModelIndex SpecIndex ProofsIndex ModelField SpecField ProofsField ProofsField2 PropsField2
  ModelContract ModelPartition ModelExotic ModelLagrangian SpecLagrangian PropsLagrangian6 SpecInvariants ModelSmeft.
From Verif Require PropsGenerate2.
Import ListNotations.
Local Open Scope nat_scope.

(** ** One combination *)

(** [o] are the neutral singlets among the irreps of the product of [combo], in order, if the fields have together at most the
    mass dimension [limit] *)
Definition operators_of (irrep_product : str -> str -> list (list nat * nat)) (limit : Qc) (combo o : list field) : Prop :=
  exists products, decompose_product irrep_product combo = Ok (inr products) /\
    selected (fun r => neutral r /\ (masses combo <= limit)%Qc) products o /\
    Forall (fun r => product_of combo r /\ leaves (walked r) = combo) o.

Lemma selected_in {A} (P : A -> Prop) l o : selected P l o -> forall x, In x o <-> In x l /\ P x.
Proof.
  induction 1 as [|x l o Px S IH|x l o Px S IH]; intros y; cbn [In]; rewrite ?IH.
  - tauto.
  - split; [intros [<-|[H1 H2]]; auto|]. intros [[<-|H1] H2]; auto.
  - split; [tauto|]. intros [[<-|H1] H2]; [contradiction|auto].
Qed.

Lemma leaves_simple combo : Forall simple combo -> concat (map (fun f => leaves (walked f)) combo) = combo.
Proof.
  induction 1 as [|f l Sf Sc IH]; [reflexivity|]. cbn [map concat]. rewrite IH.
  destruct Sf as [Hf _]. destruct f as [?lb ?dy ?ch ?cj ?cm ?sy ?hi ?mu ?lx ?nf ?dv ?st]. cbn [f_history] in Hf. subst. reflexivity.
Qed.

Lemma combo_ok ip max_dim f0 combo : 2 <= List.length combo -> Forall (factor f0) combo -> Forall simple combo ->
  exists o, combo_operators ip max_dim combo = Ok o /\ operators_of ip (Q2Qc (inject_Z (Z.of_nat max_dim))) combo o.
Proof.
  intros L F Sc. destruct combo as [|f [|g rst]]; cbn [List.length] in L; [lia|lia|].
  inversion F as [|? ? (P & (tex & T) & S) F']; subst.
  assert (Sk : Forall (same_keys f) (g :: rst)).
  { eapply Forall_impl; [|exact F']. intros h (_ & _ & Sh) k. rewrite <- (S k). apply Sh. }
  destruct (decompose_ok ip rst f g tex P T Sk) as (l & E & H).
  assert (D : tree_dim (walked f) = Ok (mass f)).
  { inversion Sc as [|? ? Sf Sr]; subst. pose proof Sf as [Hf _].
    replace (walked f) with (PLeaf f) by (destruct f as [?lb ?dy ?ch ?cj ?cm ?sy ?hi ?mu ?lx ?nf ?dv ?st]; cbn [f_history] in Hf; subst; reflexivity). now apply mass_ok. }
  assert (R : Forall (fun r => leaves_dim (walked r) = Ok (masses (f :: g :: rst))) l).
  { inversion Sc; subst. exact (decompose_masses ip rst f g l _ E ltac:(assumption) D). }
  unfold combo_operators, operators_of. cbn [decompose_product]. rewrite E. cbn [bind].
  pose proof (leaves_simple _ Sc) as Lv. revert H R Lv. generalize (f :: g :: rst) as combo. intros combo H R Lv. clear - H R Lv.
  assert (X : exists keep, mapM (fun r => do b <- is_singlet r;
                                if b : bool then
                                  do d <- prod_mass_dim (walked r);
                                  Ok (if Qclt_le_dec (Q2Qc (inject_Z (Z.of_nat max_dim))) d then [] else [r])
                                else Ok []) l = Ok keep /\
                   selected (fun r => neutral r /\ (masses combo <= Q2Qc (inject_Z (Z.of_nat max_dim)))%Qc) l (concat keep)).
  { clear Lv. induction H as [|r l Hr H IH]; [exists []; split; [reflexivity|constructor]|]. inversion R as [|? ? Rr R']; subst. destruct (IH R') as (keep & Ek & Sk).
    destruct (is_singlet_ok r) as (b & Eb & Hb). { destruct Hr as (Hr & _). destruct Hr as (y & b' & r0 & -> & _). exists y. reflexivity. }
    cbn [mapM]. rewrite Eb. cbn [bind]. destruct b.
    - unfold prod_mass_dim at 1. rewrite Rr. cbn [bind]. rewrite Ek. cbn [bind]. eexists. split; [reflexivity|]. cbn [concat]. destruct (Qclt_le_dec _ _) as [Lt|Le]; cbn [app].
      + apply sel_skip; [|exact Sk]. intros [_ Le]. exact (Qclt_not_le _ _ Lt Le).
      + apply sel_take; [|exact Sk]. split; [now apply Hb|exact Le].
    - rewrite Ek. cbn [bind]. eexists. split; [reflexivity|]. cbn [concat app]. apply sel_skip; [|exact Sk]. intros [N _]. apply Hb in N. discriminate N. }
  destruct X as (keep & Ek & Sk). rewrite Ek. cbn [bind]. exists (concat keep). split; [reflexivity|]. exists l. split; [reflexivity|]. split; [exact Sk|].
  apply Forall_forall. intros r I. apply (selected_in _ _ _ Sk) in I as [I _]. rewrite Forall_forall in H. destruct (H r I) as (_ & _ & H1 & H2 & H3 & H4).
  split; [repeat split; assumption|]. rewrite H2. exact Lv.
Qed.

(** ** All combinations *)

Lemma combo_in n (fields : list field) combo : In combo (combos_with n field fields) -> List.length combo = n /\ Forall (fun f => In f fields) combo.
Proof.
  intros I. destruct fields as [|x fields].
  { destruct n; cbn in I; [|destruct I]. destruct I as [<-|[]]. split; constructor. }
  destruct (C49_combinations n field (x :: fields) x) as (Em & Ip & _). rewrite Em in I. apply in_map_iff in I as (is & <- & I). apply Ip in I as (L & _ & F).
  split; [now rewrite map_length|]. apply Forall_map. eapply Forall_impl; [|exact F]. cbn beta. intros i Hi. now apply nth_In.
Qed.

Lemma sorted_exists (l : list nat) : exists l', Permutation l l' /\ StronglySorted le l'.
Proof.
  induction l as [|x l (l' & P & S)]; [exists []; repeat constructor|].
  assert (X : exists l2, Permutation (x :: l') l2 /\ StronglySorted le l2).
  { clear P. induction S as [|y m S IH F]; [exists [x]; repeat constructor|]. destruct (le_lt_dec x y) as [Le|Lt].
    - exists (x :: y :: m). split; [reflexivity|]. constructor; [now constructor|]. constructor; [exact Le|]. eapply Forall_impl; [|exact F]. cbn. lia.
    - destruct IH as (m2 & P2 & S2). exists (y :: m2). split; [rewrite perm_swap; now constructor|]. constructor; [exact S2|].
      apply (Permutation_Forall P2). constructor; [lia|exact F]. }
  destruct X as (l2 & P2 & S2). exists l2. split; [|exact S2]. rewrite <- P2. now constructor.
Qed.

(** whatever fields are chosen, in any order, they are one of the combinations *)
Lemma combo_exists (fields fs : list field) : Forall (fun f => In f fields) fs -> exists combo, Permutation fs combo /\ In combo (combos_with (List.length fs) field fields).
Proof.
  intros F. destruct fields as [|x fields].
  { destruct fs as [|f fs]; [exists []; split; [constructor|now left]|]. inversion F as [|? ? [] _]. }
  assert (X : exists is, fs = map (fun i => nth i (x :: fields) x) is /\ Forall (fun i => i < List.length (x :: fields)) is).
  { induction F as [|f fs If F (is & -> & Fi)]; [exists []; split; constructor|]. destruct (In_nth _ _ x If) as (i & Li & <-). exists (i :: is). split; [reflexivity|now constructor]. }
  destruct X as (is & -> & Fi). destruct (sorted_exists is) as (js & P & S). exists (map (fun i => nth i (x :: fields) x) js). split; [now apply Permutation_map|].
  rewrite map_length. destruct (C49_combinations (List.length is) field (x :: fields) x) as (Em & Ip & _). rewrite Em. apply in_map. apply Ip. split; [symmetry; now apply Permutation_length|].
  split; [exact S|]. now apply (Permutation_Forall P).
Qed.

Lemma masses_perm a b : Permutation a b -> masses a = masses b.
Proof. induction 1; unfold masses in *; cbn [fold_right]; [reflexivity|congruence|ring|congruence]. Qed.

Lemma all_ok {A B} (f : A -> res B) (R : A -> B -> Prop) l : (forall a, In a l -> exists b, f a = Ok b /\ R a b) -> exists bs, mapM f l = Ok bs /\ Forall2 R l bs.
Proof.
  induction l as [|a l IH]; intros H; [exists []; split; constructor|]. destruct (H a (or_introl eq_refl)) as (b & E & Rb). destruct IH as (bs & Ebs & Rbs); [intros; apply H; now right|].
  exists (b :: bs). cbn [mapM]. rewrite E. cbn [bind]. rewrite Ebs. split; [reflexivity|now constructor].
Qed.

Lemma Forall2_left {A B} (R : A -> B -> Prop) l bs : Forall2 R l bs -> forall a, In a l -> exists b, In b bs /\ R a b.
Proof. induction 1 as [|a b l bs H F IH]; intros x; [intros []|]. intros [<-|I]; [exists b; split; [now left|exact H]|]. destruct (IH x I) as (c & I' & H'). exists c. split; [now right|exact H']. Qed.

Lemma Forall2_right {A B} (R : A -> B -> Prop) l bs : Forall2 R l bs -> forall b, In b bs -> exists a, In a l /\ R a b.
Proof. induction 1 as [|a b l bs H F IH]; intros x; [intros []|]. intros [<-|I]; [exists a; split; [now left|exact H]|]. destruct (IH x I) as (c & I' & H'). exists c. split; [now right|exact H']. Qed.

(** For fields with the same charges that are scalars, vectors or fermions and not products nothing raises.  The result lists, for
    two fields, for three, and so on, combination by combination, the neutral singlets of mass dimension at most [max_dim].
    Whatever two or more fields of at most that dimension are taken, in whatever order, the neutral singlets of one arrangement of
    them are in the result; and nothing else is. *)
Theorem C101_operators : forall irrep_product max_dim fields f0,
  let limit := Q2Qc (inject_Z (Z.of_nat max_dim)) in
  Forall (factor f0) fields -> Forall simple fields ->
  exists out lss, generate_operators irrep_product max_dim fields = Ok out /\ out = concat (concat lss) /\
    Forall2 (fun n ls => Forall2 (operators_of irrep_product limit) (combos_with n field fields) ls) (seq 2 (max_dim - 1)) lss /\
    (forall fs, 2 <= List.length fs -> Forall (fun f => In f fields) fs -> (masses fs <= limit)%Qc ->
       exists combo products, Permutation fs combo /\ In combo (combos_with (List.length fs) field fields) /\
         decompose_product irrep_product combo = Ok (inr products) /\ forall r, In r products -> neutral r -> In r out) /\
    (forall r, In r out -> neutral r /\ f_is_conj r = false /\
       let fs := leaves (walked r) in
       2 <= List.length fs /\ Forall (fun f => In f fields) fs /\ (masses fs <= limit)%Qc /\
       (forall k, charge_of r k = SpecField.total fs k) /\ exists products, decompose_product irrep_product fs = Ok (inr products) /\ In r products).
Proof.
  intros ip max_dim fields f0 limit F S.
  assert (Co : forall n combo, 2 <= n -> In combo (combos_with n field fields) -> exists o, combo_operators ip max_dim combo = Ok o /\ operators_of ip limit combo o).
  { intros n combo Ln I. apply combo_in in I as [L I]. rewrite Forall_forall in F, S, I. apply (combo_ok ip max_dim f0); [lia| |]; apply Forall_forall; auto. }
  destruct (all_ok (fun n => do l <- mapM (combo_operators ip max_dim) (combos_with n field fields); Ok (concat l))
              (fun n l => exists ls, l = concat ls /\ Forall2 (operators_of ip limit) (combos_with n field fields) ls) (seq 2 (max_dim - 1))) as (ls & E & R).
  { intros n I. apply in_seq in I. destruct (all_ok (combo_operators ip max_dim) (operators_of ip limit) (combos_with n field fields)) as (l & El & Rl).
    { intros combo Ic. apply (Co n); [lia|exact Ic]. }
    exists (concat l). rewrite El. split; [reflexivity|]. exists l. auto. }
  assert (X : exists lss, ls = map (@concat field) lss /\ Forall2 (fun n l => Forall2 (operators_of ip limit) (combos_with n field fields) l) (seq 2 (max_dim - 1)) lss).
  { clear E. induction R as [|n l ns ls (l0 & -> & H) R (lss & -> & IH)]; [exists []; split; constructor|]. exists (l0 :: lss). split; [reflexivity|now constructor]. }
  destruct X as (lss & -> & R2). clear R.
  assert (Out : forall r, In r (concat (concat lss)) <-> exists n combo o, 2 <= n <= max_dim /\ In combo (combos_with n field fields) /\ operators_of ip limit combo o /\ In o (concat lss) /\ In r o).
  { intros r. rewrite in_concat. split.
    - intros (o & Io & Ir). pose proof Io as Io'. apply in_concat in Io as (l & Il & Io). destruct (Forall2_right _ _ _ R2 l Il) as (n & In_ & H). apply in_seq in In_.
      destruct (Forall2_right _ _ _ H o Io) as (combo & Ic & Ho). exists n, combo, o. repeat split; auto; lia.
    - intros (n & combo & o & _ & _ & _ & Io & Ir). exists o. auto. }
  exists (concat (concat lss)), lss. split; [|split; [reflexivity|split; [exact R2|split]]].
  - unfold generate_operators. rewrite E. cbn [bind]. f_equal. clear. induction lss as [|l lss IH]; [reflexivity|]. cbn [map concat]. now rewrite IH, concat_app.
  - intros fs L Fi Le. destruct (combo_exists fields fs Fi) as (combo & P & I).
    assert (Ln : List.length fs <= max_dim).
    { assert (Sf : Forall simple fs) by (rewrite Forall_forall in Fi, S; apply Forall_forall; auto). pose proof (masses_count _ Sf) as C.
      assert (Y : (Q2Qc (inject_Z (Z.of_nat (List.length fs))) <= limit)%Qc) by exact (Qcle_trans _ _ _ C Le).
      unfold limit, Qcle in Y. cbn [this Q2Qc] in Y. rewrite !Qred_correct in Y. rewrite <- Zle_Qle in Y. lia. }
    destruct (Forall2_left _ _ _ R2 (List.length fs)) as (l & Il & H); [apply in_seq; lia|]. destruct (Forall2_left _ _ _ H combo I) as (o & Io & (products & Ep & Se & Fo)).
    exists combo, products. split; [exact P|]. split; [exact I|]. split; [exact Ep|]. intros r Ir N. apply Out. exists (List.length fs), combo, o.
    split; [lia|]. split; [exact I|]. split; [exists products; auto|]. split; [apply in_concat; exists l; auto|]. apply (selected_in _ _ _ Se). split; [exact Ir|]. split; [exact N|].
    now rewrite <- (masses_perm _ _ P).
  - intros r Ir. apply Out in Ir as (n & combo & o & Ln & Ic & (products & Ep & Se & Fo) & _ & Ir). rewrite Forall_forall in Fo. destruct (Fo r Ir) as ((Hc & _ & _ & Hj) & Lv).
    apply (selected_in _ _ _ Se) in Ir as (Ir & N & Le). split; [exact N|]. split; [exact Hj|]. cbv zeta. rewrite Lv. apply combo_in in Ic as [Lc Ic]. split; [lia|]. split; [exact Ic|].
    split; [exact Le|]. split; [exact Hc|]. exists products. auto.
Qed.

(** ** The fields of the module *)

(** importing the module, the state it leaves *)
Definition imported : list field * list field := match import_smeft sm_matter with Ok s => s | Err _ => ([], []) end.

(** The import succeeds.  [FIELDS] are the six Standard Model fields and their conjugates, with lepton number 1 for L and -1 for eb,
    and the global fields have this charge from then on. *)
Theorem C101_fields : import_smeft sm_matter = Ok imported /\
  map f_label (smeft_FIELDS imported) = map lit ["L"; "Q"; "H"; "eb"; "ub"; "db"; "L"; "Q"; "H"; "eb"; "ub"; "db"]%string /\
  map f_is_conj (smeft_FIELDS imported) = repeat false 6 ++ repeat true 6 /\
  map (fun f => dget str_eqb (f_charges f) (lit "L")) (smeft_FIELDS imported) = map (fun z => Some (int z)) [1; 0; 0; -1; 0; 0; -1; 0; 0; 1; 0; 0]%Z /\
  Forall2 (fun f g => but_charges f g /\ forall k, k <> lit "L" -> dget str_eqb (f_charges g) k = dget str_eqb (f_charges f) k) sm_matter (fst imported) /\
  Forall (factor (nth 0 (smeft_FIELDS imported) sm_H)) (smeft_FIELDS imported) /\ Forall simple (smeft_FIELDS imported).
Proof.
  split; [reflexivity|]. split; [reflexivity|]. split; [reflexivity|]. split; [reflexivity|]. split; [|split].
  - unfold imported. cbn [import_smeft with_smeft_number sm_matter combine map fst snd]. 
    repeat constructor; try (intros k Hk; cbn [set_charge f_charges]; rewrite dget_dset; destruct (str_eqb k (lit "L")) eqn:E; [apply str_decides in E; contradiction|reflexivity]).
  - assert (N : NoDup [lit "y"; lit "3b"; lit "L"]) by (repeat constructor; cbn; intuition discriminate).
    assert (K : map (fun f => keys (f_charges f)) (smeft_FIELDS imported) = repeat [lit "y"; lit "3b"; lit "L"] 12) by (vm_compute; reflexivity).
    assert (T : Forall (fun f => exists tex, to_tex (f_label f) = Ok tex) (smeft_FIELDS imported)) by (repeat (apply Forall_cons; [eexists; reflexivity|]); apply Forall_nil).
    assert (Y : Forall (fun f => exists y b r, f_charges f = (lit "y", y) :: (lit "3b", b) :: r) (smeft_FIELDS imported)) by (repeat (apply Forall_cons; [do 3 eexists; reflexivity|]); apply Forall_nil).
    assert (K' : Forall (fun f => keys (f_charges f) = [lit "y"; lit "3b"; lit "L"]) (smeft_FIELDS imported)).
    { apply Forall_forall. intros f I. apply (in_map (fun f => keys (f_charges f))) in I. rewrite K in I. now apply repeat_spec in I. }
    apply Forall_forall. intros f I. rewrite Forall_forall in T, Y, K'. split; [|split; [now apply T|]].
    + destruct (Y f I) as (y & b & r & E). exists y, b, r. split; [exact E|]. pose proof (K' f I) as E'. unfold keys in E'. rewrite E'. exact N.
    + intros k. rewrite (K' f I). reflexivity.
  - repeat (apply Forall_cons; [split; [reflexivity|]; do 3 eexists; split; [reflexivity|]; cbn; auto|]). apply Forall_nil.
Qed.

Lemma proper_keys c ks : (exists y b r, c = (lit "y", y) :: (lit "3b", b) :: r) -> keys c = ks -> NoDup ks -> proper c.
Proof. intros (y & b & r & E) K N. exists y, b, r. split; [exact E|]. unfold keys in K. now rewrite K. Qed.

(** the state after npoint_fieldstrings of lagrangian.py was called, with any arguments *)
Definition after_call (irrep_product : str -> str -> list (list nat * nat)) n pick derivs func (state : list field * list field) : list field * list field :=
  (snd (npoint_fieldstrings irrep_product n pick derivs func (fst state)), snd state).

(** With the fields of the module it always succeeds, right after the import; but from the first call of npoint_fieldstrings on, it
    is an AssertionError: the six fields then have one more charge, their conjugates in [FIELDS] have not. *)
Theorem C101_again_refuted : forall irrep_product max_dim n pick derivs func, 2 <= max_dim ->
  (exists out, generate_operators irrep_product max_dim (smeft_FIELDS imported) = Ok out) /\
  generate_operators irrep_product max_dim (smeft_FIELDS (after_call irrep_product n pick derivs func imported)) = Err AssertionError.
Proof.
  intros ip max_dim n pick derivs func L. split.
  { destruct C101_fields as (_ & _ & _ & _ & _ & F & S). destruct (C101_operators ip max_dim _ _ F S) as (out & lss & E & _). exists out. exact E. }
  set (after := smeft_FIELDS (after_call ip n pick derivs func imported)).
  assert (Ea : after = smeft_SM (with_lepton_number (fst imported)) ++ snd imported) by reflexivity.
  assert (Fa : exists l q h e u d c r, after = [l; q; h; e; u; d] ++ c :: r /\ Forall (factor l) [l; q; h; e; u; d] /\ Forall simple [l; q; h; e; u; d] /\ ~ same_keys l c).
  { assert (N4 : NoDup [lit "y"; lit "3b"; lit "L"; lit "l"]) by (repeat constructor; cbn; intuition discriminate).
    rewrite Ea. do 8 eexists. split; [reflexivity|]. split; [|split].
    - repeat (apply Forall_cons; [split; [apply (proper_keys _ [lit "y"; lit "3b"; lit "L"; lit "l"]); [do 3 eexists; reflexivity|vm_compute; reflexivity|exact N4]|split; [eexists; reflexivity|intros k; vm_compute; split; exact (fun x => x)]]|]). apply Forall_nil.
    - repeat (apply Forall_cons; [split; [reflexivity|]; do 3 eexists; split; [reflexivity|]; cbn; auto|]). apply Forall_nil.
    - intros K. specialize (K (lit "l")). assert (X : In (lit "l") [lit "y"; lit "3b"; lit "L"]) by (apply K; vm_compute; auto). cbn in X. intuition discriminate. }
  clearbody after. destruct Fa as (l & q & h & e & u & d & c & r & -> & F & S & N).
  unfold generate_operators. destruct (max_dim - 1) as [|m] eqn:Em; [lia|]. cbn [seq mapM].
  assert (E : mapM (combo_operators ip max_dim) (combos_with 2 field ([l; q; h; e; u; d] ++ c :: r)) = Err AssertionError).
  { change (combos_with 2 field ([l; q; h; e; u; d] ++ c :: r)) with
      (map (cons l) (combos_with 1 field ([l; q; h; e; u; d] ++ c :: r)) ++ combos_with 2 field ([q; h; e; u; d] ++ c :: r)).
    generalize (combos_with 2 field ([q; h; e; u; d] ++ c :: r)) as more. intros more.
    replace (combos_with 1 field ([l; q; h; e; u; d] ++ c :: r)) with (map (fun x => [x]) ([l; q; h; e; u; d] ++ c :: r))
      by (clear; induction ([l; q; h; e; u; d] ++ c :: r) as [|x xs IH]; [reflexivity|]; cbn [map]; rewrite IH; reflexivity).
    rewrite map_map, map_app, <- app_assoc. cbn [map app].
    change (mapM (combo_operators ip max_dim) (map (fun x => [l; x]) [l; q; h; e; u; d] ++ [l; c] :: map (fun x => [l; x]) r ++ more) = Err AssertionError).
    assert (Fl : factor l l /\ simple l) by (inversion F; inversion S; auto). destruct Fl as [Fl Sl].
    generalize (map (fun x => [l; x]) r ++ more) as tail. intros tail. revert F S. generalize [l; q; h; e; u; d] as xs. clear - N Fl Sl. induction xs as [|x xs IH]; intros F S.
    - cbn [map app mapM]. unfold combo_operators at 1. rewrite (proj2 (proj2 (C30_edge_cases ip)) l c [] N). reflexivity.
    - inversion F; subst. inversion S; subst. cbn [map app mapM].
      destruct (combo_ok ip max_dim l [l; x]) as (o & Eo & _); [cbn; lia|repeat (apply Forall_cons; [assumption|]); apply Forall_nil|repeat (apply Forall_cons; [assumption|]); apply Forall_nil|]. rewrite Eo. cbn [bind]. rewrite IH by assumption. reflexivity. }
  rewrite E. reflexivity.
Qed.

(** The operators are not only those that violate lepton number by two units: H H† is always among them. *)
Theorem C101_lepton_refuted : forall irrep_product max_dim m, 2 <= max_dim -> In ([0; 0; 0; 0; 0], m) (irrep_product (lit "00001") (lit "00001")) ->
  exists out r, generate_operators irrep_product max_dim (smeft_FIELDS imported) = Ok out /\ In r out /\ charge_of r (lit "L") = 0%Qc /\
    leaves (walked r) = [nth 2 (smeft_FIELDS imported) sm_L; nth 8 (smeft_FIELDS imported) sm_L].
Proof.
  intros ip max_dim m L I. destruct C101_fields as (_ & _ & _ & _ & _ & F & S). destruct (C101_operators ip max_dim _ _ F S) as (out & lss & E & El & R & _ & Snd).
  set (h := nth 2 (smeft_FIELDS imported) sm_L). set (hc := nth 8 (smeft_FIELDS imported) sm_L).
  assert (Ic : In [h; hc] (combos_with 2 field (smeft_FIELDS imported))).
  { destruct (C49_combinations 2 field (smeft_FIELDS imported) sm_L) as (Em & Ip & _). rewrite Em. apply in_map_iff. exists [2; 8]. split; [reflexivity|]. apply Ip.
    split; [reflexivity|]. split; [repeat constructor|]. repeat constructor; vm_compute; lia. }
  destruct (Forall2_left _ _ _ R 2) as (ls & Ils & H); [apply in_seq; lia|]. destruct (Forall2_left _ _ _ H _ Ic) as (o & Io & (products & Ep & Se & Fo)).
  assert (Sk : same_keys h hc) by (intros k; vm_compute; split; exact (fun x => x)).
  assert (Ph : proper (f_charges h)) by (apply (proper_keys _ [lit "y"; lit "3b"; lit "L"]); [do 3 eexists; reflexivity|vm_compute; reflexivity|repeat constructor; cbn; intuition discriminate]).
  destruct (mul_field_ok ip h hc (lit "H") Ph Sk eq_refl) as (t & Em & _).
  assert (Epr : products = map (fun wm => product_field h hc wm t) (ip (lit "00001") (lit "00001"))).
  { cbn [decompose_product decompose] in Ep. rewrite Em in Ep. cbn [bind] in Ep. injection Ep as <-. reflexivity. }
  set (r := product_field h hc ([0; 0; 0; 0; 0], m) t).
  assert (Ir : In r products) by (rewrite Epr; apply in_map_iff; exists ([0; 0; 0; 0; 0], m); split; [reflexivity|exact I]).
  assert (Chs : charge_of r (lit "y") = 0%Qc /\ charge_of r (lit "L") = 0%Qc).
  { split; unfold r, charge_of, product_field; cbn [f_charges]; vm_compute; apply Qc_is_canon; reflexivity. }
  assert (Iro : In r o).
  { apply (selected_in _ _ _ Se). split; [exact Ir|]. split; [split; [reflexivity|apply Chs]|].
    replace (masses [h; hc]) with (Q2Qc (inject_Z 2)) by (apply Qc_is_canon; reflexivity). unfold Qcle. cbn [this Q2Qc]. rewrite !Qred_correct, <- Zle_Qle. lia. }
  assert (Iout : In r out). { rewrite El. apply in_concat. exists o. split; [|exact Iro]. apply in_concat. exists ls. auto. }
  exists out, r. split; [exact E|]. split; [exact Iout|]. split; [apply Chs|].
  rewrite Forall_forall in Fo. apply (Fo r Iro).
Qed.

(** with the true product: the operators of L, H and their conjugates of dimension at most three, and the Weinberg operator *)
Definition leptons : list field := map (fun i => nth i (smeft_FIELDS imported) sm_H) [0; 2; 6; 8].

Example C101_example :
  (do l <- generate_operators PropsGenerate2.table_product 3 leptons; Ok (map f_label l)) = Ok [lit "HH" ++ [dagger]] /\
  (do l <- generate_operators PropsGenerate2.table_product 5 (firstn 2 leptons); Ok (map (fun r => (f_label r, charge_of r (lit "L"))) l)) =
    Ok [(lit "LLHH", int 2); (lit "LLHH", int 2)].
Proof. split; vm_compute; reflexivity. Qed.

Print Assumptions C101_operators.
Print Assumptions C101_fields.
Print Assumptions C101_again_refuted.
Print Assumptions C101_lepton_refuted.
