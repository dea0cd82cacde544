(** * PropsRegistry: theorems about prime labels and cleaning in completions/completions.py (C10-C14) *)

From Coq Require Import Ascii String List Bool Arith ZArith Znumtheory Lia Permutation Sorted QArith Qcanon.
From Verif Require Import Base BaseFacts Spec Show Primes ModelFunctions SpecFunctions ProofsFunctions
  ModelMatch ProofsMatch ModelRegistry SpecRegistry ProofsRegistry.
Import ListNotations.
Local Open Scope nat_scope.

(** ** C10: prime_registry *)

(** The registry lists the distinct fields of the keys in order of first appearance; the i-th gets the i-th
    prime. *)
Theorem C10_registry_enumerates :
  forall (F C : Type) (feqb : F -> F -> bool) (sieve : list (list F * list C)),
    decides feqb ->
    exists fs : list F,
      NoDup fs /\ (forall f, In f fs <-> exists key, In key (keys sieve) /\ In f key) /\
      fs = keep_first feqb [] (concat (keys sieve)) /\
      prime_registry feqb sieve = combine fs (map prime_ (seq 1 (List.length fs))).
Proof.
  intros F C feqb sieve Hf. destruct (prime_registry_spec feqb Hf sieve) as ((_ & ND & Hp) & Ek).
  exists (keys (prime_registry feqb sieve)). split; [exact ND|]. split; [|split; [exact Ek|]].
  - intros f. rewrite <- (dmem_In Hf). now apply prime_registry_dom.
  - clear ND Ek. revert Hp. generalize (prime_registry feqb sieve) as reg. intros reg.
    unfold keys. rewrite map_length.
    assert (G : forall reg n, (forall i (k : F) p, nth_error reg i = Some (k, p) -> p = prime_ (n + i)) ->
                reg = combine (map fst reg) (map prime_ (seq n (List.length reg)))).
    { clear reg. induction reg as [|[k p] reg IH]; intros n Hp; [reflexivity|]. cbn.
      rewrite (Hp 0 k p) by reflexivity. rewrite Nat.add_0_r. f_equal. apply IH.
      intros i k' p' E. specialize (Hp (S i) k' p' E). rewrite Hp. f_equal. lia. }
    intros Hp. apply G. exact Hp.
Qed.

Theorem C10_registry_primes :
  forall (F C : Type) (feqb : F -> F -> bool) (sieve : list (list F * list C)),
    decides feqb ->
    (forall f, (exists key, In key (keys sieve) /\ In f key) <->
               (exists p, dget feqb (prime_registry feqb sieve) f = Some p)) /\
    (forall f p, dget feqb (prime_registry feqb sieve) f = Some p -> prime p) /\
    (forall f g p, dget feqb (prime_registry feqb sieve) f = Some p ->
                   dget feqb (prime_registry feqb sieve) g = Some p -> f = g).
Proof.
  intros F C feqb sieve Hf. destruct (prime_registry_spec feqb Hf sieve) as (HI & _). split; [|split].
  - intros f. rewrite <- (prime_registry_dom feqb Hf). unfold dmem.
    destruct (dget feqb (prime_registry feqb sieve) f) as [p|]; split; try discriminate; eauto.
    intros (p & E). discriminate E.
  - intros f p E. destruct (reg_inv_prime feqb Hf _ _ _ HI E) as (n & _ & ->). apply prime_prime.
  - intros f g p. now apply reg_inv_inj.
Qed.

Example C10_example :
  prime_registry Nat.eqb [([7; 8], [tt]); ([8; 9; 7], [tt])] = [(7, 2%Z); (8, 3%Z); (9, 5%Z)].
Proof. vm_compute. reflexivity. Qed.

(** ** C11: filter_completions *)

(** [root] is int(n ** 0.5); exact square roots satisfy the hypothesis, and so does any over-estimate.  The
    result is the input dictionary, in order, with the entries that contain a sieve model removed. *)
Theorem C11_filter_completions :
  forall (F C : Type) (feqb : F -> F -> bool) (root : Z -> Z) (completions sieve : list (list F * list C)),
    decides feqb -> NoDup (keys completions) -> NoDup (keys sieve) ->
    (forall n, (1 <= n)%Z -> (1 <= root n)%Z /\ (n < (root n + 1) * (root n + 1))%Z) ->
    exists out, filter_completions feqb root completions sieve = Ok out /\
      sublist out completions /\
      forall k v, In (k, v) out <->
                  In (k, v) completions /\ forall s, In s (keys sieve) -> ~ contains k s.
Proof.
  intros F C feqb root cs sieve Hf N1 N2 Hr.
  destruct (filter_completions_ok feqb Hf root cs sieve N1 N2 Hr) as (keep & E & K).
  exists (filter keep cs). split; [exact E|]. split; [apply sublist_filter|]. intros k v. rewrite filter_In.
  split; intros (I & H); (split; [exact I|]); apply (K (k, v)); auto.
Qed.

Example C11_example :
  filter_completions Nat.eqb Z.sqrt [([1; 1], [10]); ([1; 2], [20; 21]); ([3], [30])] [([1; 1], [5]); ([2; 2], [])]
  = Ok [([1; 2], [20; 21]); ([3], [30])].
Proof. vm_compute. reflexivity. Qed.

Lemma C11_sqrt_ok n : (1 <= n)%Z -> (1 <= Z.sqrt n)%Z /\ (n < (Z.sqrt n + 1) * (Z.sqrt n + 1))%Z.
Proof.
  intros H. pose proof (Z.sqrt_spec n ltac:(lia)) as (_ & S). split; [|unfold Z.succ in S; exact S].
  change 1%Z with (Z.sqrt 1). apply Z.sqrt_le_mono. exact H.
Qed.

(** An estimate of the root that is too small loses models from the sieve, as happens with a
    floating-point root of a large product. *)
Theorem C11_small_root_refuted :
  filter_completions Nat.eqb (fun _ => 1%Z) [([1; 2], [10])] [([1], [5]); ([2], [5])] = Ok [([1; 2], [10])].
Proof. vm_compute. reflexivity. Qed.

(** ** C12: characteristic numbers *)

Theorem C12_characteristic_number :
  forall (Top : Type) (cs : list (completion Top)),
    Forall comp_ok cs ->
    exists d, cons_term_prime_dict cs = Ok d /\
      forall a b, In a cs -> In b cs ->
        exists na nb, completion_characteristic_number a d = Ok na /\
                      completion_characteristic_number b d = Ok nb /\
                      (na = nb <-> same_interactions a b).
Proof.
  intros Top cs F. destruct (dict_ok cs F) as (d & E & G). exists d. split; [exact E|]. intros a b Ia Ib.
  exists (Zprod (map (label_of term_eqb d) (comp_keys a))), (Zprod (map (label_of term_eqb d) (comp_keys b))).
  split; [now apply (number_ok cs)|]. split; [now apply (number_ok cs)|]. now apply (numbers_equal cs).
Qed.

(** ** C13: clean_completions *)

Theorem C13_clean_completions :
  forall (Top : Type) (top_eqb top_leb : Top -> Top -> bool) (cs : list (completion Top)),
    decides top_eqb ->
    (forall a b, top_leb a b = true \/ top_leb b a = true) ->
    (forall a b c, top_leb a b = true -> top_leb b c = true -> top_leb a c = true) ->
    Forall comp_ok cs ->
    exists out, clean_completions top_eqb top_leb cs = Ok out /\
      StronglySorted (fun x y => top_leb (c_topology x) (c_topology y) = true) out /\
      (forall x, In x out <-> exists before after, cs = before ++ x :: after /\
                                forall y, In y after -> ~ equivalent x y) /\
      (forall c, In c cs -> exists x, In x out /\ equivalent c x) /\
      (forall a x b y c, out = a ++ x :: b ++ y :: c -> ~ equivalent x y).
Proof.
  intros Top top_eqb top_leb cs Ht Htot Htr F. destruct (dict_ok cs F) as (d & E & G).
  set (num := fun c : completion Top => Zprod (map (label_of term_eqb d) (comp_keys c))).
  set (h := fun c : completion Top => (num c, c_topology c)).
  assert (Hk : decides (prod_eqb Z.eqb top_eqb)) by (apply prod_decides; [apply Z_decides|exact Ht]).
  assert (Heq : forall a b, In a cs -> In b cs -> (h a = h b <-> equivalent a b)).
  { intros a b Ia Ib. unfold h, equivalent.
    pose proof (numbers_equal cs a b d F Ia Ib G) as N. fold (num a) (num b) in N.
    split; [intros Q; inversion Q; split; [auto|now apply N]|].
    intros (T & S). apply N in S. congruence. }
  set (dict := last_writes (prod_eqb Z.eqb top_eqb) h cs).
  exists (sort (fun a b => top_leb (c_topology a) (c_topology b)) (values dict)).
  split.
  { unfold clean_completions. rewrite E. cbn [bind].
    rewrite (foldM_ext_in _ (fun d0 v => do k <- (do n <- completion_characteristic_number v d; Ok (n, c_topology v));
                                        Ok (dset (prod_eqb Z.eqb top_eqb) d0 k v))).
    2:{ intros s x _. destruct (completion_characteristic_number x d); reflexivity. }
    rewrite (fold_dset_ok (prod_eqb Z.eqb top_eqb)
               (fun v => do n <- completion_characteristic_number v d; Ok (n, c_topology v)) h).
    - reflexivity.
    - intros v Iv. rewrite (number_ok cs) by auto. reflexivity. }
  assert (Members : forall x, In x (values dict) <-> dget (prod_eqb Z.eqb top_eqb) dict (h x) = Some x).
  { intros x. split.
    - intros I. apply in_map_iff in I as ([k v] & E2 & I). cbn in E2. subst v.
      pose proof (last_writes_key _ Hk h cs _ _ I) as ->.
      apply (In_dget Hk); [apply last_writes_NoDup, Hk|exact I].
    - intros E2. apply (dget_In Hk) in E2. apply in_map_iff. exists (h x, x). auto. }
  split; [|split; [|split]].
  - apply sort_sorted.
    + intros a b. apply Htot.
    + intros a b c. apply Htr.
  - intros x. rewrite sort_In, Members. unfold dict. rewrite (last_writes_get _ Hk h). split.
    + intros (a & b & El & _ & Hb). exists a, b. split; [exact El|]. intros y Iy Q. apply (Hb y Iy).
      symmetry. apply Heq; auto; rewrite El; apply in_or_app; right; simpl; auto.
    + intros (a & b & El & Hb). exists a, b. split; [exact El|]. split; [reflexivity|]. intros y Iy Q.
      apply (Hb y Iy). apply Heq; auto; rewrite El; apply in_or_app; right; simpl; auto.
  - intros c Ic. destruct (last_writes_dom _ Hk h cs c Ic) as (w & Ew & Eh). exists w.
    assert (Iw : In w cs).
    { apply (last_writes_get _ Hk h) in Ew as (a & b & -> & _). apply in_or_app. right. left. reflexivity. }
    split.
    + rewrite sort_In, Members. unfold dict. rewrite Eh. exact Ew.
    + apply Heq; auto.
  - intros a x b y c El Q.
    assert (ND : NoDup (map h (sort (fun a b => top_leb (c_topology a) (c_topology b)) (values dict)))).
    { apply Permutation_NoDup with (map h (values dict)).
      - apply Permutation_map, sort_perm.
      - replace (map h (values dict)) with (keys dict); [apply last_writes_NoDup, Hk|].
        unfold values, keys. rewrite map_map. apply map_ext_in. intros [k v] I. cbn.
        apply (last_writes_key _ Hk h cs). exact I. }
    assert (In_cs : forall z, In z (a ++ x :: b ++ y :: c) -> In z cs).
    { intros z Iz. rewrite <- El in Iz. apply sort_In, Members in Iz.
      apply (last_writes_get _ Hk h) in Iz as (a' & b' & -> & _). apply in_or_app. right. left. reflexivity. }
    rewrite El, map_app in ND. cbn in ND. rewrite map_app in ND. cbn in ND. apply NoDup_remove_2 in ND. apply ND.
    apply in_or_app. right. apply in_or_app. right. left. symmetry. apply Heq; auto.
    + apply In_cs, in_or_app. right. left. reflexivity.
    + apply In_cs, in_or_app. right. right. apply in_or_app. right. left. reflexivity.
Qed.

Definition ex_L := mkTField (lit "L") false (lit "10001") (Q2Qc (-1#2)) (Q2Qc 0) false.
Definition ex_Lc := mkTField (lit "L") false (lit "01001") (Q2Qc (1#2)) (Q2Qc 0) true.
Definition ex_S := mkTField (lit "φ") true (lit "00001") (Q2Qc (1#2)) (Q2Qc 0) false.
Definition ex_Sc := mkTField (lit "φ") true (lit "00001") (Q2Qc (-1#2)) (Q2Qc 0) true.
Definition ex_a : completion nat := mkCompletion 0 [[ex_L; ex_S]; [ex_L; ex_L]] 2.
Definition ex_b : completion nat := mkCompletion 1 [[ex_L; ex_L]; [ex_Sc; ex_Lc]] 2.
Definition ex_c : completion nat := mkCompletion 2 [[ex_L; ex_S]] 1.

Example C12_hypotheses : Forall comp_ok [ex_a; ex_b; ex_c].
Proof.
  assert (H : forall f, In f [ex_L; ex_Lc; ex_S; ex_Sc] -> tfield_ok f).
  { intros f H. repeat destruct H as [<-|H]; try destruct H;
      (split; [reflexivity|]); intros I; simpl in I; repeat destruct I as [I|I]; try discriminate; auto. }
  repeat constructor; cbn; auto; intros I; simpl in I; repeat destruct I as [I|I]; try discriminate; auto.
Qed.

Example C12_example :
  same_interactions ex_a ex_b /\
  (do d <- cons_term_prime_dict [ex_a; ex_b; ex_c];
   mapM (fun c => completion_characteristic_number c d) [ex_a; ex_b; ex_c]) = Ok [6; 6; 2]%Z.
Proof.
  split; [|vm_compute; reflexivity].
  exists [map content [ex_Sc; ex_Lc]; map content [ex_L; ex_L]]. split; [|apply perm_swap].
  constructor; [|constructor; [left; apply Permutation_refl|constructor]].
  right. replace (map conj_qfield (map content [ex_L; ex_S])) with (map content [ex_Lc; ex_Sc]); [apply perm_swap|].
  cbn. unfold conj_exotic. cbn. repeat f_equal; apply Qc_is_canon; reflexivity.
Qed.

Example C13_example :
  clean_completions Nat.eqb Nat.leb [ex_a; ex_b; ex_c] = Ok [ex_c; ex_b].
Proof. vm_compute. reflexivity. Qed.

(** ** C14: collect_completions *)

(** Completions of one model that are separated by another model are lost, and so are those of a model whose
    content differs only by multiplicity.  (Completions are numbers, their field information is given.) *)
Definition C14_info (c : nat) : list nat := if c =? 5 then [2; 2] else [c mod 3].

Theorem C14_collect_completions_refuted :
  collect_completions C14_info Nat.eqb Nat.leb [3; 1; 6] = [([0], [6]); ([1], [1])] /\
  collect_completions C14_info Nat.eqb Nat.leb [5; 2] = [([2], [2])].
Proof. split; vm_compute; reflexivity. Qed.

(** What holds: nothing is listed under a wrong key (the key holds exactly the field information of each of its
    completions), every group is a run of the input, and every completion's content appears as a key. *)
Theorem C14_collect_completions_sound :
  forall (C V : Type) (key : C -> list V) (veqb vleb : V -> V -> bool) (cs : list C),
    decides veqb ->
    (forall k g c, In (k, g) (collect_completions key veqb vleb cs) -> In c g ->
        In c cs /\ NoDup k /\ (forall v, In v k <-> In v (key c)) /\ exists a b, cs = a ++ g ++ b) /\
    (forall c, In c cs -> exists k g, In (k, g) (collect_completions key veqb vleb cs) /\
                                      forall v, In v k <-> In v (key c)).
Proof.
  intros C V key veqb vleb cs Hv. rewrite collect_as_dict.
  pose proof (list_decides Hv) as Hk.
  set (h := fun kg : list V * list C => set_key veqb vleb (fst kg)).
  assert (Set_key : forall c g k, Forall (fun x => func_key key vleb x = k) g -> In c g ->
            NoDup (set_key veqb vleb k) /\ forall v, In v (set_key veqb vleb k) <-> In v (key c)).
  { intros c g k Fg Ic. rewrite Forall_forall in Fg. rewrite <- (Fg c Ic). unfold set_key, func_key. split.
    - eapply Permutation_NoDup; [apply sort_perm|]. now apply nodup_by_NoDup.
    - intros v. rewrite sort_In, (nodup_by_In Hv), sort_In. reflexivity. }
  split.
  - intros k g c I Ic. apply in_map_iff in I as ([k1 [k2 g2]] & E & I). cbn in E. inversion E; subst k1 g2.
    pose proof (last_writes_key _ Hk h _ _ _ I) as Ek. unfold h in Ek. cbn in Ek. subst k.
    apply (In_dget Hk) in I; [|apply last_writes_NoDup, Hk].
    apply (last_writes_get _ Hk h) in I as (a & b & El & _).
    assert (Ig : In (k2, g) (groupby key veqb vleb cs)) by (rewrite El; apply in_or_app; right; left; reflexivity).
    destruct (groupby_keys key veqb vleb Hv cs k2 g Ig) as (_ & Fg).
    destruct (Set_key c g k2 Fg Ic) as (N & S).
    pose proof (groupby_concat key veqb vleb cs) as Ec. rewrite El, map_app, concat_app in Ec. cbn in Ec.
    split; [|split; [exact N|split; [exact S|]]].
    + rewrite <- Ec. apply in_or_app. right. apply in_or_app. auto.
    + exists (concat (map snd a)), (concat (map snd b)). now symmetry.
  - intros c Ic. pose proof (groupby_concat key veqb vleb cs) as Ec. rewrite <- Ec in Ic.
    apply in_concat in Ic as (g & Ig & Ic). apply in_map_iff in Ig as ([k g'] & E & Ig). cbn in E. subst g'.
    destruct (last_writes_dom _ Hk h _ _ Ig) as ([k2 g2] & Ew & _). unfold h at 2 in Ew. cbn in Ew.
    destruct (groupby_keys key veqb vleb Hv cs k g Ig) as (_ & Fg).
    destruct (Set_key c g k Fg Ic) as (N & S).
    exists (set_key veqb vleb k), g2. split; [|exact S].
    apply (dget_In Hk) in Ew. apply in_map_iff. eexists. split; [|exact Ew]. reflexivity.
Qed.

(** If the completions of each model are adjacent in the input, and models with the same distinct fields have
    the same multiplicities, nothing is lost. *)
Theorem C14_collect_completions_grouped :
  forall (C V : Type) (key : C -> list V) (veqb vleb : V -> V -> bool) (cs : list C),
    decides veqb ->
    (forall a b, vleb a b = true \/ vleb b a = true) ->
    (forall a b c, vleb a b = true -> vleb b c = true -> vleb a c = true) ->
    (forall a b, vleb a b = true -> vleb b a = true -> a = b) ->
    (forall a x b y c, cs = a ++ x :: b ++ y :: c -> (forall v, In v (key x) <-> In v (key y)) ->
        forall z, In z (b ++ [y]) -> Permutation (key x) (key z)) ->
    forall c, In c cs -> exists k g, In (k, g) (collect_completions key veqb vleb cs) /\ In c g.
Proof.
  intros C V key veqb vleb cs Hv Htot Htr Hanti Hadj c Ic. rewrite collect_as_dict.
  pose proof (list_decides Hv) as Hk.
  set (h := fun kg : list V * list C => set_key veqb vleb (fst kg)).
  pose proof (groupby_concat key veqb vleb cs) as Ec. rewrite <- Ec in Ic.
  apply in_concat in Ic as (g & Ig & Ic). apply in_map_iff in Ig as ([k g'] & E & Ig). cbn in E. subst g'.
  exists (set_key veqb vleb k), g. split; [|exact Ic].
  apply in_map_iff. exists (set_key veqb vleb k, (k, g)). split; [reflexivity|]. apply (dget_In Hk).
  apply (last_writes_get _ Hk h). apply in_split in Ig as (A & B & El). exists A, B. split; [exact El|].
  split; [reflexivity|]. intros [k2 g2] I2 Eh. unfold h in Eh. cbn in Eh.
  (* the group after (k, g) *)
  assert (Gk : forall k' g', In (k', g') (A ++ (k, g) :: B) ->
             g' <> [] /\ Forall (fun x => func_key key vleb x = k') g')
    by (intros k' g' I'; apply (groupby_keys key veqb vleb Hv cs); rewrite El; exact I').
  destruct B as [|[k3 g3] B]; [destruct I2|].
  pose proof (groupby_adjacent key veqb vleb Hv cs A k g k3 g3 B El) as Nk.
  destruct (Gk k3 g3) as (N3 & F3); [apply in_or_app; right; right; left; reflexivity|].
  destruct (Gk k g) as (_ & Fg); [apply in_or_app; right; left; reflexivity|].
  destruct (Gk k2 g2) as (N2 & F2); [apply in_or_app; right; right; exact I2|].
  destruct g3 as [|z g3]; [congruence|]. destruct g2 as [|y g2]; [congruence|].
  rewrite Forall_forall in Fg. pose proof (Fg c Ic) as Ekc.
  apply Forall_inv in F3. apply Forall_inv in F2.
  assert (Same : forall v, In v (key c) <-> In v (key y)).
  { intros v. transitivity (In v (set_key veqb vleb k)).
    - unfold set_key. rewrite sort_In, (nodup_by_In Hv), <- Ekc. unfold func_key. now rewrite sort_In.
    - rewrite <- Eh. unfold set_key. rewrite sort_In, (nodup_by_In Hv), <- F2. unfold func_key. now rewrite sort_In. }
  apply in_split in Ic as (g1' & g2' & ->).
  rewrite El, map_app, concat_app in Ec. cbn in Ec.
  assert (Pz : Permutation (key c) (key z)).
  { destruct I2 as [E|I2].
    - inversion E; subst y g2. apply (Hadj (concat (map snd A) ++ g1') c g2' z (g3 ++ concat (map snd B))).
      + rewrite <- Ec. rewrite <- !app_assoc. reflexivity.
      + exact Same.
      + apply in_or_app. right. left. reflexivity.
    - apply in_split in I2 as (B1 & B2 & ->). rewrite map_app, concat_app in Ec. cbn in Ec.
      apply (Hadj (concat (map snd A) ++ g1') c (g2' ++ z :: g3 ++ concat (map snd B1)) y
                  (g2 ++ concat (map snd B2))).
      + rewrite <- Ec. repeat (rewrite <- app_assoc; cbn [app]). reflexivity.
      + exact Same.
      + apply in_or_app. left. apply in_or_app. right. left. reflexivity. }
  apply Nk. rewrite <- Ekc, <- F3. unfold func_key. apply sort_perm_eq; auto.
Qed.

Example C14_example :
  collect_completions C14_info Nat.eqb Nat.leb [3; 6; 1; 2] = [([0], [3; 6]); ([1], [1]); ([2], [2])].
Proof. vm_compute. reflexivity. Qed.

Print Assumptions C10_registry_enumerates.
Print Assumptions C10_registry_primes.
Print Assumptions C11_filter_completions.
Print Assumptions C11_small_root_refuted.
Print Assumptions C12_characteristic_number.
Print Assumptions C13_clean_completions.
Print Assumptions C14_collect_completions_refuted.
Print Assumptions C14_collect_completions_sound.
Print Assumptions C14_collect_completions_grouped.
