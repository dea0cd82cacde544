(** * PropsDeriv3: C59, C83, C86, the operators with derivatives *)

From Coq Require Import Ascii String List Bool Arith ZArith QArith Qcanon Lia Permutation Sorted.
From Verif Require Import Base BaseFacts Show Spec ProofsRegistry ModelIndex SpecIndex ProofsIndex ModelField SpecField ProofsField ProofsField2 PropsField ModelContract SpecInfo ModelInfo PropsInfo2 ProofsContract ModelLagrangian PropsLagrangian4 ModelDeriv SpecDeriv PropsDeriv PropsDeriv2.
Import ListNotations.
Local Open Scope nat_scope.

(** ** C59: keep_longest_invariants *)

Section Longest.
  Context {O : Type} (invariants : list field -> res (list O)).

  (** The invariants of the last product that has any are returned, *)
  Theorem C59_last : forall fieldstrings invs, mapM invariants fieldstrings = Ok invs ->
    (forall pre l post, invs = pre ++ l :: post -> l <> [] -> Forall (eq []) post -> keep_longest_invariants invariants fieldstrings = Ok l) /\
    (Forall (eq []) invs -> keep_longest_invariants invariants fieldstrings = Ok []).
  Proof.
    intros fieldstrings invs M.
    set (step := fun (longest : option (list O)) l => match l with [] => longest | _ => Some l end).
    assert (E : keep_longest_invariants invariants fieldstrings = Ok (match fold_left step invs None with None => [] | Some l => l end)).
    { unfold keep_longest_invariants. generalize (@None (list O)) as s. revert invs M. induction fieldstrings as [|f fs IH]; intros invs M s.
      - cbn in M. injection M as <-. reflexivity.
      - cbn [mapM] in M. destruct (invariants f) as [l|] eqn:I; [|discriminate M]. cbn [bind] in M. destruct (mapM invariants fs) as [ls|]; [|discriminate M]. cbn [bind] in M. injection M as <-.
        cbn [foldM]. rewrite I. cbn [bind fold_left]. rewrite <- (IH ls eq_refl). f_equal. now destruct l. }
    assert (N : forall post s, Forall (eq []) post -> fold_left step post s = s).
    { intros post. induction post as [|l post IH]; intros s F; [reflexivity|]. inversion F as [|? ? E1 F']; subst. cbn [fold_left step]. now apply IH. }
    split.
    - intros pre l post -> Nl F. rewrite E, fold_left_app. cbn [fold_left]. rewrite N by exact F. cbn [step]. destruct l; [congruence|reflexivity].
    - intros F. rewrite E, N by exact F. reflexivity.
  Qed.

  (** so some invariants are returned exactly if there are any, *)
  Theorem C59_any : forall fieldstrings invs, mapM invariants fieldstrings = Ok invs ->
    exists l, keep_longest_invariants invariants fieldstrings = Ok l /\ (l = [] \/ In l invs) /\ (l = [] <-> Forall (eq []) invs).
  Proof.
    intros fieldstrings invs M. destruct (C59_last fieldstrings invs M) as [H1 H2].
    assert (X : Forall (eq []) invs \/ exists pre l post, invs = pre ++ l :: post /\ l <> [] /\ Forall (eq []) post).
    { clear. induction invs as [|l invs IH]; [left; constructor|]. destruct IH as [F|(pre & l' & post & -> & N & F)].
      - destruct l as [|x l]; [left; now constructor|]. right. exists [], (x :: l), invs. repeat split; [discriminate|exact F].
      - right. exists (l :: pre), l', post. auto. }
    destruct X as [F|(pre & l & post & E & N & F)].
    - exists []. split; [now apply H2|]. split; [auto|tauto].
    - exists l. split; [now apply (H1 pre l post)|]. split; [right; rewrite E; apply in_elt|]. split; [congruence|]. intros Fa. rewrite E in Fa. apply Forall_app in Fa as [_ Fa]. inversion Fa; congruence.
  Qed.

  (** and an exception of [invariants] is passed on. *)
  Theorem C59_error : forall fieldstrings e, mapM invariants fieldstrings = Err e -> keep_longest_invariants invariants fieldstrings = Err e.
  Proof.
    intros fieldstrings e. unfold keep_longest_invariants. generalize (@None (list O)) as s. induction fieldstrings as [|f fs IH]; intros s M; [discriminate M|].
    cbn [mapM] in M. cbn [foldM]. destruct (invariants f) as [l|e']; cbn [bind] in *; [|injection M as ->; reflexivity]. destruct (mapM invariants fs) as [ls|e']; [discriminate M|]. cbn [bind] in M. injection M as <-. now apply IH.
  Qed.
End Longest.

(** It need not be the longest: the length to beat stays 0. *)
Theorem C59_refuted : exists (invariants : list field -> res (list nat)) fss l l' f,
  keep_longest_invariants invariants fss = Ok l /\ In f fss /\ invariants f = Ok l' /\ List.length l < List.length l'.
Proof.
  set (f := mkField [] [] [] false [] [] None 1 [] 1 0 None).
  exists (fun fs => Ok (match fs with [] => [1; 2] | _ => [1] end)), [[]; [f]], [1], [1; 2], []. cbn. repeat split; auto.
Qed.

(** ** C83: unwanted structures and labels *)

(** a field without derivatives, or with any number other than two and Lorentz labels (1,1), (0,1) or (1,0) *)
Definition kept (f : field) : Prop :=
  f_derivs f = 0 \/ (f_derivs f <> 2 /\ (lorentz_labels f 1 1 \/ lorentz_labels f 0 1 \/ lorentz_labels f 1 0)).

Lemma wanted_ok fs : Forall (fun f => exists u d, lorentz_labels f u d) fs -> exists b, wanted fs = Ok b /\ (b = true <-> Forall kept fs).
Proof.
  induction 1 as [|f fs (u & d & L) F (b & E & H)].
  - exists true. split; [reflexivity|]. split; [constructor|reflexivity].
  - cbn [wanted]. destruct L as (c1 & c2 & s & Fo). assert (Uq : forall u' d', lorentz_labels f u' d' -> u' = u /\ d' = d).
    { intros u' d' (c1' & c2' & s' & Fo'). pose proof (field_ok_ints _ _ _ _ _ _ Fo) as I1. pose proof (field_ok_ints _ _ _ _ _ _ Fo') as I2. rewrite I1 in I2. injection I2 as <- <- _ _ _. auto. }
    assert (Lu : lorentz_labels f u d) by (exists c1, c2, s; exact Fo).
    destruct (Nat.eqb_spec (f_derivs f) 0) as [Z0|Z0]; cbn [bind].
    + rewrite Z0. cbn. exists b. split; [exact E|]. rewrite H. split; [constructor; [now left|assumption]|]. intros X. now inversion X.
    + destruct (fermion_ok f u d c1 c2 s Fo) as [_ Lo]. rewrite Lo. cbn [bind].
      assert (Xb : existsb (list_eqb Nat.eqb [u; d]) [[1; 1]; [0; 1]; [1; 0]] = true <-> lorentz_labels f 1 1 \/ lorentz_labels f 0 1 \/ lorentz_labels f 1 0).
      { cbn [existsb list_eqb]. rewrite !andb_true_r, orb_false_r, !orb_true_iff, !andb_true_iff, !Nat.eqb_eq. split.
        - intros [[-> ->]|[[-> ->]|[-> ->]]]; auto.
        - intros [X|[X|X]]; apply Uq in X as [<- <-]; auto. }
      destruct (existsb _ _); cbn [negb].
      * destruct (Nat.eqb_spec (f_derivs f) 2) as [T|T].
        -- exists false. split; [reflexivity|]. split; [discriminate|]. intros X. inversion X as [|? ? [K|[K _]] _]; subst; congruence.
        -- exists b. split; [exact E|]. rewrite H. split; [constructor; [right; split; [exact T|now apply Xb]|assumption]|]. intros X. now inversion X.
      * exists false. split; [reflexivity|]. split; [discriminate|]. intros X. inversion X as [|? ? [K|[_ K]] _]; subst; [congruence|]. apply Xb in K. discriminate K.
Qed.

(** [remove_unwanted_deriv_structures] keeps exactly the products all of whose fields are kept, in order. *)
Theorem C83_unwanted : forall fieldstrings, Forall (Forall (fun f => exists u d, lorentz_labels f u d)) fieldstrings ->
  exists (keep : list field -> bool), (forall fs, In fs fieldstrings -> keep fs = true <-> Forall kept fs) /\
    remove_unwanted_deriv_structures fieldstrings = Ok (filter keep fieldstrings).
Proof.
  intros fieldstrings F. exists (fun fs => match wanted fs with Ok b => b | Err _ => false end). split.
  - intros fs I. rewrite Forall_forall in F. destruct (wanted_ok fs (F fs I)) as (b & E & H). now rewrite E.
  - unfold remove_unwanted_deriv_structures.
    assert (X : forall out, foldM (fun out fieldstring => do b <- wanted fieldstring; Ok (if b then out ++ [fieldstring] else out)) fieldstrings out =
                 Ok (out ++ filter (fun fs => match wanted fs with Ok b => b | Err _ => false end) fieldstrings)).
    { induction F as [|fs fss F1 F IH]; intros out; [now rewrite app_nil_r|]. cbn [foldM filter]. destruct (wanted_ok fs F1) as (b & E & _). rewrite E. cbn [bind]. rewrite IH. destruct b; [now rewrite <- app_assoc|reflexivity]. }
    apply (X []).
Qed.

Lemma nodup_map_on {A B} (f : A -> B) l : NoDup l -> (forall x y, In x l -> In y l -> f x = f y -> x = y) -> NoDup (map f l).
Proof.
  induction 1 as [|x l N _ IH]; intros H; [constructor|]. cbn [map]. constructor.
  - intros I. apply in_map_iff in I as (y & E & I). apply N. rewrite <- (H y x); auto; [now right|now left].
  - apply IH. intros y z I J. apply H; now right.
Qed.

Section Labels.
  Context {O : Type}.

  (** the letters a to z *)
  Definition letter (i : nat) : ascii := ascii_of_nat (97 + i).

  (** a single operator keeps the key, several are told apart by letters *)
  Definition labelled (kv : str * list O) : list (str * O) :=
    match snd kv with
    | [op] => [(fst kv, op)]
    | ops => combine (map (fun i => fst kv ++ [letter i]) (seq 0 (List.length ops))) ops
    end.

  Lemma nth_letter i : i < 26 -> nth_error ascii_lowercase i = Some (letter i).
  Proof. intros H. do 26 (destruct i as [|i]; [reflexivity|]). lia. Qed.

  Lemma nth_letter_none i : 26 <= i -> nth_error ascii_lowercase i = None.
  Proof. intros H. apply nth_error_None. exact H. Qed.

  Definition label_step (kv : str * list O) (out : list (str * O)) (iop : nat * O) : res (list (str * O)) :=
    do label <- (if 1 <? List.length (snd kv) then match nth_error ascii_lowercase (fst iop) with Some c => Ok (fst kv ++ [c]) | None => Err IndexError end else Ok (fst kv));
    Ok (dset str_eqb out label (snd iop)).

  Lemma in_labelled k ops x op : In (x, op) (labelled (k, ops)) -> x = k \/ exists i, x = k ++ [letter i] /\ i < List.length ops.
  Proof.
    unfold labelled. cbn [fst snd]. destruct ops as [|o [|o' ops]]; [intros []|intros [[= <- _]|[]]; auto|]. intros I. apply in_combine_l in I. apply in_map_iff in I as (i & <- & I). apply in_seq in I. right. exists i. split; [reflexivity|lia].
  Qed.

  Lemma label_one k ops : List.length ops <= 26 -> forall out, (forall x op, In (x, op) (labelled (k, ops)) -> ~ In x (map fst out)) ->
    foldM (label_step (k, ops)) (combine (seq 0 (List.length ops)) ops) out = Ok (out ++ labelled (k, ops)).
  Proof.
    intros L out N. unfold labelled in *. cbn [fst snd] in *.
    assert (Snew : forall out x (v : O), ~ In x (map fst out) -> dset str_eqb out x v = out ++ [(x, v)]).
    { intros o x v. induction o as [|[k' v'] o IH]; intros H; [reflexivity|]. cbn [dset app]. destruct (str_eqb x k') eqn:E; [apply str_decides in E; subst; cbn in H; tauto|]. rewrite IH; [reflexivity|]. cbn in H. tauto. }
    destruct ops as [|o [|o' ops]].
    - cbn. now rewrite app_nil_r.
    - cbn. rewrite Snew; [reflexivity|]. apply (N k o). now left.
    - set (l := o :: o' :: ops) in *. set (len := List.length l) in *. unfold label_step. cbn [fst snd]. fold len.
      assert (Lt : 1 <? len = true) by (apply Nat.ltb_lt; cbn; lia). rewrite Lt. clear Lt.
      assert (G : forall rest s out, s + List.length rest = len -> (forall i, s <= i < len -> ~ In (k ++ [letter i]) (map fst out)) ->
        foldM (fun out (iop : nat * O) => do label <- match nth_error ascii_lowercase (fst iop) with Some c => Ok (k ++ [c]) | None => Err IndexError end; Ok (dset str_eqb out label (snd iop)))
          (combine (seq s (List.length rest)) rest) out = Ok (out ++ combine (map (fun i => k ++ [letter i]) (seq s (List.length rest))) rest)).
      { clear N. intros rest. induction rest as [|v rest IH]; intros s out' E N; [now rewrite app_nil_r|]. cbn [List.length seq combine map foldM fst snd]. cbn [List.length] in E.
        rewrite nth_letter by lia. cbn [bind]. rewrite Snew by (apply N; lia). rewrite IH; [now rewrite <- app_assoc|lia|].
        intros i Hi. rewrite map_app, in_app_iff. intros [I|[I|[]]]; [apply (N i ltac:(lia) I)|]. cbn [map fst] in I. apply app_inj_tail in I as [_ I].
        assert (Ei : nat_of_ascii (letter s) = nat_of_ascii (letter i)) by now rewrite I. unfold letter in Ei. rewrite !nat_ascii_embedding in Ei by lia. lia. }
      apply (G l 0); [reflexivity|]. intros i Hi. assert (Iv : exists v, In (k ++ [letter i], v) (combine (map (fun i => k ++ [letter i]) (seq 0 len)) l)).
      { destruct (nth_error l i) as [v|] eqn:V; [|apply nth_error_None in V; fold len in V; lia]. exists v. apply nth_error_In with i.
        assert (X : forall (l' : list O) (s i : nat) (v : O), nth_error l' i = Some v -> nth_error (combine (map (fun i => k ++ [letter i]) (seq s (List.length l'))) l') i = Some (k ++ [letter (s + i)], v)).
        { clear. intros l'. induction l' as [|w l' IH]; intros s i v0 V; [destruct i; discriminate V|]. destruct i as [|i]; cbn in *; [injection V as ->; now rewrite Nat.add_0_r|]. rewrite (IH (S s) i v0 V). now rewrite Nat.add_succ_comm. }
        pose proof (X l 0 _ _ V) as XX. exact XX. }
      destruct Iv as (v & Iv). exact (N _ v Iv).
  Qed.

  (** If the keys are distinct and do not end in a letter, every operator gets a label of its own. *)
  Theorem C83_labels : forall operator_dict : list (str * list O),
    NoDup (map fst operator_dict) -> (forall k ops, In (k, ops) operator_dict -> List.length ops <= 26 /\ forall k' i, i < 26 -> k <> k' ++ [letter i]) ->
    label_operators operator_dict = Ok (flat_map labelled operator_dict) /\ NoDup (map fst (flat_map labelled operator_dict)).
  Proof.
    intros d N W.
    assert (Only : forall k ops k' ops' x op op', In (k, ops) d -> In (k', ops') d -> In (x, op) (labelled (k, ops)) -> In (x, op') (labelled (k', ops')) -> k = k').
    { intros k ops k' ops' x op op' I I' J J'. destruct (W k ops I) as [L1 W1]. destruct (W k' ops' I') as [L2 W2].
      apply in_labelled in J as [-> |(i & -> & Hi)]; apply in_labelled in J' as [J'|(i' & J' & Hi')]; auto.
      - exfalso. apply (W1 k' i'); [lia|exact J'].
      - exfalso. apply (W2 k i); [lia|now rewrite J'].
      - now apply app_inj_tail in J' as [-> _]. }
    assert (G : forall post pre, d = pre ++ post -> foldM (fun out kv => foldM (label_step kv) (combine (seq 0 (List.length (snd kv))) (snd kv)) out) post (flat_map labelled pre) = Ok (flat_map labelled (pre ++ post))).
    { intros post. induction post as [|[k ops] post IH]; intros pre E; [now rewrite app_nil_r|]. cbn [foldM snd]. rewrite label_one.
      - cbn [bind]. replace (flat_map labelled pre ++ labelled (k, ops)) with (flat_map labelled (pre ++ [(k, ops)])) by (rewrite flat_map_app; cbn [flat_map]; now rewrite app_nil_r).
        rewrite IH by (rewrite E, <- app_assoc; reflexivity). now rewrite <- app_assoc.
      - apply (W k ops). rewrite E. apply in_elt.
      - intros x op J I. apply in_map_iff in I as ([x' op'] & E' & I). cbn [fst] in E'. subst x'. apply in_flat_map in I as ([k' ops'] & I & J').
        assert (k = k') as <-.
        { apply (Only k ops k' ops' x op op'); auto; rewrite E; [apply in_elt|apply in_or_app; now left]. }
        rewrite E, map_app in N. cbn [map fst] in N. apply NoDup_remove_2 in N. apply N. apply in_or_app. left. apply in_map_iff. exists (k, ops'). auto. }
    split; [exact (G d [] eq_refl)|]. clear G. revert N W Only. clear. induction d as [|[k ops] d IH]; intros N W Only; [constructor|]. cbn [flat_map map fst] in *. inversion N as [|? ? N1 N2]; subst.
    rewrite map_app. apply NoDup_app_intro.
    - unfold labelled. cbn [fst snd]. destruct ops as [|o [|o' ops]]; [constructor|repeat constructor; intros []|].
      assert (X : forall s (l : list O), map fst (combine (map (fun i => k ++ [letter i]) (seq s (List.length l))) l) = map (fun i => k ++ [letter i]) (seq s (List.length l))).
      { intros s l. revert s. induction l as [|v l IHl]; intros s; [reflexivity|]. cbn. now rewrite IHl. }
      rewrite X. destruct (W k (o :: o' :: ops) (or_introl eq_refl)) as [Le _].
      apply nodup_map_on; [apply seq_NoDup|]. intros i j I J E. apply in_seq in I, J. apply app_inj_tail in E as [_ E].
      assert (Ei : nat_of_ascii (letter i) = nat_of_ascii (letter j)) by now rewrite E. unfold letter in Ei. rewrite !nat_ascii_embedding in Ei by lia. lia.
    - apply IH; [exact N2|intros k' ops' I; apply (W k' ops'); now right|]. intros k1 ops1 k2 ops2 x op op' I1 I2. apply Only; now right.
    - intros x I I'. apply in_map_iff in I as ([x1 op1] & E1 & I). apply in_map_iff in I' as ([x2 op2] & E2 & I'). cbn [fst] in *. subst x1 x2. apply in_flat_map in I' as ([k' ops'] & I' & J').
      apply N1. rewrite (Only k ops k' ops' x op1 op2); auto; [|now left|now right]. apply in_map_iff. exists (k', ops'). auto.
  Qed.

  (** More than 26 operators for one key are too many. *)
  Theorem C83_too_many : forall operator_dict : list (str * list O), Exists (fun kv => 26 < List.length (snd kv)) operator_dict -> label_operators operator_dict = Err IndexError.
  Proof.
    intros d X. unfold label_operators. fold (label_step). 
    assert (G : forall d out, (exists out', foldM (fun out kv => foldM (label_step kv) (combine (seq 0 (List.length (snd kv))) (snd kv)) out) d out = Ok out' /\ ~ Exists (fun kv : str * list O => 26 < List.length (snd kv)) d) \/
                     foldM (fun out kv => foldM (label_step kv) (combine (seq 0 (List.length (snd kv))) (snd kv)) out) d out = Err IndexError).
    { clear. intros d. induction d as [|[k ops] d IH]; intros out; [left; exists out; split; [reflexivity|intros X; inversion X]|]. cbn [foldM snd].
      assert (H : forall (rest : list O) s out, s + List.length rest = List.length ops -> (exists out', foldM (label_step (k, ops)) (combine (seq s (List.length rest)) rest) out = Ok out' /\ (rest <> [] -> List.length ops <= 26)) \/
                 foldM (label_step (k, ops)) (combine (seq s (List.length rest)) rest) out = Err IndexError).
      { intros rest. induction rest as [|v rest IHr]; intros s out' E; [left; exists out'; split; [reflexivity|congruence]|]. cbn [List.length seq combine foldM]. cbn [List.length] in E.
        unfold label_step at 1 3. cbn [fst snd]. destruct (Nat.ltb_spec 1 (List.length ops)) as [L1|L1].
        - destruct (Nat.lt_ge_cases s 26) as [Hs|Hs]; [|rewrite nth_letter_none by exact Hs; now right]. rewrite nth_letter by exact Hs. cbn [bind].
          destruct (IHr (S s) (dset str_eqb out' (k ++ [letter s]) v) ltac:(lia)) as [(o & Eo & Ho)|Ee]; [left|now right]. exists o. split; [exact Eo|]. intros _. destruct rest; [cbn in E; lia|apply Ho; discriminate].
        - cbn [bind]. destruct (IHr (S s) (dset str_eqb out' k v) ltac:(lia)) as [(o & Eo & Ho)|Ee]; [left|now right]. exists o. split; [exact Eo|]. intros _. lia. }
      destruct (H ops 0 out eq_refl) as [(o & Eo & Ho)|Ee]; [|right; now rewrite Ee]. rewrite Eo. cbn [bind]. destruct (IH o) as [(o' & Eo' & Ho')|Ee]; [left|now right].
      exists o'. split; [exact Eo'|]. intros X. inversion X as [? ? B|]; subst; [|now apply Ho']. cbn [snd] in B. destruct ops; [cbn in B; lia|]. specialize (Ho ltac:(discriminate)). lia. }
    destruct (G d []) as [(o & _ & No)|E]; [contradiction|exact E].
  Qed.
End Labels.

(** Keys that end in a letter may collide: an operator is lost. *)
Theorem C83_refuted : exists d : list (str * list nat), NoDup (map fst d) /\ Forall (fun kv => List.length (snd kv) <= 26) d /\
  exists out, label_operators d = Ok out /\ List.length out < List.length (flat_map snd d).
Proof.
  exists [(lit "1", [10; 11]); (lit "1a", [12])]. split; [repeat constructor; cbn; intuition discriminate|]. split; [repeat constructor|].
  eexists. split; [vm_compute; reflexivity|]. cbn. lia.
Qed.

(** ** C86: the table of operators with derivatives *)

(** the names of [sm_table] *)
Definition spelled (s : string) : string :=
  match rev (lit s) with "d"%char :: r => if mem_by str_eqb (rev r) (map lit ["L"; "Q"; "eb"; "ub"; "db"; "H"]%string) then string_of_list_ascii (rev r ++ lit ".conj") else s | _ => s end.

Definition factors (fs : list (string * nat)) : list string := flat_map (fun sn => repeat (spelled (fst sn)) (snd sn)) fs.

Theorem C86_table :
  (forall k n fs, In (k, (n, fs)) deriv_operator_names -> 0 < n /\ exists d, product_numbers (factors fs) (0, 0, 2, 2 * d)%Z /\ In (d + Z.of_nat n)%Z [7; 9]%Z) /\
  (forall k n fs k' n' fs', In (k, (n, fs)) deriv_operator_names -> In (k', (n', fs')) deriv_operator_names ->
     k = k' \/ (n = n' /\ Permutation (factors fs) (factors fs')) -> (k, (n, fs)) = (k', (n', fs'))).
Proof.
  split.
  - intros k n fs I.
    assert (X : forallb (fun e : string * (nat * list (string * nat)) => (0 <? fst (snd e)) && match numbers_of (factors (snd (snd e))) with
                                   | Some (y, b, l, d) => Z.eqb y 0 && Z.eqb b 0 && Z.eqb l 2 && Z.eqb d (2 * (d / 2)) && existsb (Z.eqb (d / 2 + Z.of_nat (fst (snd e)))) [7; 9]%Z
                                   | None => false end) deriv_operator_names = true) by (vm_compute; reflexivity).
    rewrite forallb_forall in X. specialize (X _ I). cbn [fst snd] in X. apply andb_true_iff in X as [X0 X]. apply Nat.ltb_lt in X0. split; [exact X0|].
    destruct (numbers_of (factors fs)) as [[[[y b] l] d]|] eqn:N; [|discriminate X]. rewrite !andb_true_iff, !Z.eqb_eq in X. destruct X as ((((-> & ->) & ->) & E) & X4).
    exists (d / 2)%Z. apply numbers_of_ok in N. rewrite E in N at 1. split; [exact N|]. cbn [existsb] in X4. rewrite !orb_true_iff, !Z.eqb_eq in X4. cbn [In]. intuition congruence.
  - intros k n fs k' n' fs' I I' H.
    assert (X : forallb (fun e : string * (nat * list (string * nat)) => forallb (fun e' : string * (nat * list (string * nat)) =>
        (if String.eqb (fst e) (fst e') then true else negb ((fst (snd e) =? fst (snd e')) && list_eqb str_eqb (sorted_str (map lit (factors (snd (snd e))))) (sorted_str (map lit (factors (snd (snd e'))))))))
        deriv_operator_names) deriv_operator_names = true) by (vm_compute; reflexivity).
    rewrite forallb_forall in X. specialize (X _ I). rewrite forallb_forall in X. specialize (X _ I'). cbn [fst snd] in X.
    assert (K : k = k').
    { destruct H as [H|[-> P]]; [exact H|]. destruct (String.eqb_spec k k') as [E|E]; [exact E|]. exfalso. rewrite Nat.eqb_refl in X. cbn [andb] in X. apply negb_true_iff in X.
      assert (S : sorted_str (map lit (factors fs)) = sorted_str (map lit (factors fs'))) by (apply sorted_str_eq_iff; now apply Permutation_map).
      rewrite S in X. assert (Y : list_eqb str_eqb (sorted_str (map lit (factors fs'))) (sorted_str (map lit (factors fs'))) = true) by now apply (list_decides str_decides). congruence. }
    subst k'. clear X H.
    assert (ND : NoDup (map fst deriv_operator_names)) by (cbn; repeat constructor; cbn; intuition discriminate).
    clear - ND I I'. induction deriv_operator_names as [|[a b] l IH]; [destruct I|]. cbn [map fst] in ND. inversion ND as [|? ? N1 N2]; subst.
    destruct I as [I|I], I' as [I'|I']; try congruence; [| |auto].
    + injection I as -> ->. exfalso. apply N1. apply in_map_iff. exists (k, (n', fs')). auto.
    + injection I' as -> ->. exfalso. apply N1. apply in_map_iff. exists (k, (n, fs)). auto.
Qed.

Print Assumptions C59_last.
Print Assumptions C83_labels.
Print Assumptions C86_table.

Example C83_example : label_operators [(lit "1", [10; 11]); (lit "2", [12])] = Ok [(lit "1a", 10); (lit "1b", 11); (lit "2", 12)].
Proof. vm_compute. reflexivity. Qed.
