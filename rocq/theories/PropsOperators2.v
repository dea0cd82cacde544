(** * PropsOperators2: the operators that the package ships (C87, C88, C89) *)

From Coq Require Import Ascii String List Bool Arith ZArith NArith QArith Qcanon Lia Permutation.
From Verif Require Import Base BaseFacts Show ModelFunctions ModelIndex SpecIndex ProofsIndex ModelField SpecField ProofsField
  ModelClosures SpecClosures SpecParse PropsClosures PropsParse PropsParse2 ModelContract SpecContract ProofsContract PropsContract
  ModelPartition SpecPartition PropsPartition DataTopology PropsTopology
  ModelExotic SpecExotic ProofsExotic PropsExotic PropsExotic2 PropsExotic3 SpecCompletion PropsCompletion ModelInfo DataOperators ModelOperators SpecOperators ProofsOperators PropsOperators.
Import ListNotations.
Local Open Scope nat_scope.

(** ** Deciding colour_open *)

Fixpoint normalb (fields : bool) (op : operator) : bool :=
  match op with [] => true | TField _ :: op => fields && normalb true op | TSymbol _ :: op => normalb false op end.

Lemma normalb_ok op : (normalb false op = true -> exists ss, op = map TSymbol ss) /\ (normalb true op = true -> normal op).
Proof.
  induction op as [|[x|e] op [IH1 IH2]]; split; intros H.
  - exists []. reflexivity.
  - exists [], []. reflexivity.
  - discriminate H.
  - destruct (IH2 H) as (fs & ss & ->). exists (x :: fs), ss. reflexivity.
  - destruct (IH1 H) as (ss & ->). exists (e :: ss). reflexivity.
  - destruct (IH1 H) as (ss & ->). exists [], (e :: ss). reflexivity.
Qed.

Fixpoint pairwise {A} (f : A -> A -> bool) (l : list A) : bool := match l with [] => true | x :: l => forallb (f x) l && pairwise f l end.

Lemma pairwise_ok {A} (f : A -> A -> bool) l : pairwise f l = true -> ForallOrdPairs (fun x y => f x y = true) l.
Proof.
  induction l as [|x l IH]; intros H; [constructor|]. cbn [pairwise] in H. apply andb_true_iff in H as [H1 H2]. constructor; [|now apply IH].
  apply Forall_forall. now apply forallb_forall.
Qed.

Lemma pairs_impl {A} (R R' : A -> A -> Prop) l : (forall x y, R x y -> R' x y) -> ForallOrdPairs R l -> ForallOrdPairs R' l.
Proof. intros H F. induction F as [|x l F _ IH]; constructor; [|exact IH]. revert F. apply Forall_impl. auto. Qed.

Definition emptyb {A} (l : list A) : bool := match l with [] => true | _ => false end.

Definition openb (n : nat) (op : operator) : bool :=
  let l := op_indices op in let fs := indexed_fields op in let cs := plain_fields op in
  normalb true op && nodup_slots l && forallb cleanb l &&
  (forallb (fun x => ifield_eqb x x) fs && pairwise (fun x y => negb (ifield_eqb x y) && negb (ifield_eqb y x)) fs) &&
  negb (emptyb fs) &&
  forallb (fun v => forallb (fun w => negb (str_eqb (f_label (i_field v)) (f_label (i_field w))) || negb (emptyb (SpecPartition.isospin_indices v)) || emptyb (SpecPartition.isospin_indices w)) fs) fs &&
  forallb legitb cs && forallb low_spinb cs && forallb standardb cs &&
  forallb (fun x => (f_nf (i_field (cf_if x)) =? 1) || (f_nf (i_field (cf_if x)) =? 3)) cs &&
  forallb (fun x => f_derivs (i_field x) =? 0) fs &&
  forallb (fun e => symbol_okb e && (List.length (symbol_indices e) =? 2) && forallb (fun i => itype_eqb (ix_type i) Isospin && negb (ix_up i)) (symbol_indices e)) (epsilons op) &&
  forallb (fun i => negb (itype_eqb (ix_type i) Isospin) || existsb (opposite i) l) l &&
  Qc_eq_bool (sum_of hypercharge cs) (Q2Qc 0) &&
  (List.length (filter (fun i => Bool.eqb (ix_up i) true) (free_of_type Colour op)) =? n) && (List.length (filter (fun i => Bool.eqb (ix_up i) false) (free_of_type Colour op)) =? n) &&
  forallb (fun t => (count_kind t true l <? 10) && (count_kind t false l <? 10)) [Undotted; Dotted; Isospin] &&
  ((count_kind Colour true l <? 5) && (count_kind Colour false l <? 5)) &&
  forallb (fun i => negb (existsb (Ascii.eqb "^") (ix_name i))) l &&
  forallb (fun i => negb (itype_eqb (ix_type i) Dotted) || negb (existsb (Ascii.eqb "u") (ix_name i))) l.

Lemma existsb_char c (s : str) : existsb (Ascii.eqb c) s = false -> ~ In c s.
Proof. intros H I. assert (X : existsb (Ascii.eqb c) s = true) by (apply existsb_exists; exists c; split; [exact I|now apply Ascii.eqb_eq]). congruence. Qed.

Lemma openb_ok n op : openb n op = true -> colour_open n op.
Proof.
  unfold openb. cbv zeta. rewrite !andb_true_iff.
  intros (((((((((((((((((((H1 & H2) & H3) & (H4 & H4')) & H5) & H6) & H7) & H8) & H9) & H10) & H11) & H12) & H13) & H14) & H15) & H16) & H17) & (H18 & H18')) & H19) & H20).
  assert (N : normal op) by now apply normalb_ok. assert (P : proper_op op) by now apply nodup_slots_ok.
  assert (C : Forall clean (op_indices op)) by (apply Forall_forall; intros i I; apply cleanb_ok; revert i I; now apply forallb_forall).
  constructor; auto.
  - split; [apply Forall_forall; now apply forallb_forall|]. eapply pairs_impl; [|apply pairwise_ok; exact H4'].
    cbv beta. intros x y H. apply andb_true_iff in H as [A B]. apply negb_true_iff in A, B. auto.
  - intros E. rewrite E in H5. discriminate H5.
  - intros v w Iv Iw El Ev. rewrite forallb_forall in H6. specialize (H6 v Iv). rewrite forallb_forall in H6. specialize (H6 w Iw).
    rewrite El, (decides_refl str_decides), Ev in H6. cbn [negb emptyb orb] in H6. now destruct (SpecPartition.isospin_indices w).
  - apply Forall_forall. intros x I. apply legitb_ok. revert x I. now apply forallb_forall.
  - apply Forall_forall. intros x I. rewrite forallb_forall in H8. specialize (H8 x I). now apply Nat.leb_le in H8.
  - apply Forall_forall. intros x I. rewrite forallb_forall in H9. specialize (H9 x I). unfold standardb in H9. unfold standard_charges, hypercharge, baryon, charge_of.
    destruct (f_charges _) as [|[k v] [|[k' v'] [|]]]; try discriminate H9. apply andb_true_iff in H9 as [A B]. apply str_decides in A, B. subst k k'. reflexivity.
  - apply Forall_forall. intros x I. rewrite forallb_forall in H10. specialize (H10 x I). apply orb_true_iff in H10 as [H|H]; apply Nat.eqb_eq in H; [now left|now right].
  - apply Forall_forall. intros x I. rewrite forallb_forall in H11. now apply Nat.eqb_eq, H11.
  - intros e I. rewrite forallb_forall in H12. specialize (H12 e I). apply andb_true_iff in H12 as [A B]. apply andb_true_iff in A as [A L]. apply Nat.eqb_eq in L.
    split; [|split; [exact L|]].
    + assert (F : Forall symbol_ok [e]) by (apply symbol_okb_ok; cbn; now rewrite A). now inversion F.
    + intros i Ii. rewrite forallb_forall in B. specialize (B i Ii). apply andb_true_iff in B as [B1 B2]. apply itype_decides in B1. apply negb_true_iff in B2. auto.
  - intros i I T. rewrite forallb_forall in H13. specialize (H13 i I). rewrite T in H13. cbn [itype_eqb negb orb] in H13.
    apply existsb_exists in H13 as (j & J & O). exists j. split; [exact J|]. now apply opposite_spec.
  - apply Qc_eq_bool_correct. exact H14.
  - eexists. split; [exact (free_lists op Colour true P)|now apply Nat.eqb_eq].
  - eexists. split; [exact (free_lists op Colour false P)|now apply Nat.eqb_eq].
  - intros t up Ng Nc. rewrite forallb_forall in H17. assert (X : In t [Undotted; Dotted; Isospin]) by (destruct t; cbn; tauto). specialize (H17 t X). apply andb_true_iff in H17 as [A B].
    apply Nat.ltb_lt in A, B. destruct up; assumption.
  - intros up. apply Nat.ltb_lt in H18, H18'. destruct up; assumption.
  - intros i I. rewrite forallb_forall in H19. specialize (H19 i I). apply negb_true_iff in H19. now apply existsb_char.
  - intros i I T. rewrite forallb_forall in H20. specialize (H20 i I). rewrite T in H20. cbn [itype_eqb negb orb] in H20. apply negb_true_iff in H20. now apply existsb_char.
Qed.

(** ** Deciding lepton_violating *)

Definition of_label (s : str) : option (doublet + SpecParse.singlet) :=
  if str_eqb s (lit "L") then Some (inl LeptonD) else if str_eqb s (lit "Q") then Some (inl QuarkD) else if str_eqb s (lit "H") then Some (inl HiggsD)
  else if str_eqb s (lit "eb") then Some (inr ElectronS) else if str_eqb s (lit "ub") then Some (inr UpS) else if str_eqb s (lit "db") then Some (inr DownS) else None.

Lemma of_label_ok s x : of_label s = Some x -> s = match x with inl d => doublet_label d | inr p => singlet_label p end.
Proof.
  unfold of_label. destruct (str_eqb s (lit "L")) eqn:E1; [apply str_decides in E1; intros [= <-]; exact E1|]. destruct (str_eqb s (lit "Q")) eqn:E2; [apply str_decides in E2; intros [= <-]; exact E2|].
  destruct (str_eqb s (lit "H")) eqn:E3; [apply str_decides in E3; intros [= <-]; exact E3|]. destruct (str_eqb s (lit "eb")) eqn:E4; [apply str_decides in E4; intros [= <-]; exact E4|].
  destruct (str_eqb s (lit "ub")) eqn:E5; [apply str_decides in E5; intros [= <-]; exact E5|]. destruct (str_eqb s (lit "db")) eqn:E6; [apply str_decides in E6; intros [= <-]; exact E6|]. discriminate.
Qed.

Definition part_of (x : ifield) : option part :=
  match (if f_derivs (i_field x) =? 0 then Ok x else strip_derivs_with_indices x) with
  | Err _ => None
  | Ok y =>
    let c := f_is_conj (i_field y) in
    let base := if c then removelast (f_label (i_field y)) else f_label (i_field y) in
    if str_eqb (f_label (i_field y)) (base ++ if c then [dagger] else []) then
      match of_label base, SpecParse.isospin_indices y with
      | Some (inl d), [i] => Some (PD d c (show_index i))
      | Some (inr s), [] => Some (PS s c)
      | _, _ => None
      end
    else None
  end.

Lemma part_of_ok x p : part_of x = Some p -> is_part x p.
Proof.
  unfold part_of. intros H. assert (B : exists y, (if f_derivs (i_field x) =? 0 then Ok x else strip_derivs_with_indices x) = Ok y /\ SpecParse.bare x y).
  { destruct (f_derivs (i_field x) =? 0) eqn:E; [apply Nat.eqb_eq in E; exists x; split; [reflexivity|left; auto]|]. apply Nat.eqb_neq in E.
    destruct (strip_derivs_with_indices x) as [y|] eqn:Es; [exists y; split; [reflexivity|right; auto]|discriminate H]. }
  destruct B as (y & Ey & B). rewrite Ey in H. exists y. split; [exact B|]. clear Ey B. cbv zeta in H.
  set (base := if f_is_conj (i_field y) then removelast (f_label (i_field y)) else f_label (i_field y)) in *.
  destruct (str_eqb (f_label (i_field y)) (base ++ (if f_is_conj (i_field y) then [dagger] else []))) eqn:El; [|discriminate H]. apply str_decides in El.
  destruct (of_label base) as [[d|s]|] eqn:Eb; [| |discriminate H]; apply of_label_ok in Eb; destruct (SpecParse.isospin_indices y) as [|i [|j l]] eqn:Ei; try discriminate H; injection H as <-;
    (split; [split; [rewrite <- Eb; exact El|reflexivity]|]); [exists i; auto|reflexivity].
Qed.

Definition pair_of (e : symbol) : option (str * str) :=
  match symbol_indices e with
  | [i; j] => match neg_index i, neg_index j with Ok i, Ok j => Some (show_index i, show_index j) | _, _ => None end
  | _ => None end.

Lemma pair_of_ok e ab : pair_of e = Some ab -> lowers e ab.
Proof.
  unfold pair_of, lowers. destruct (symbol_indices e) as [|i [|j [|k l]]]; try discriminate. destruct (neg_index i) as [i'|] eqn:Ei; [|discriminate]. destruct (neg_index j) as [j'|] eqn:Ej; [|discriminate].
  intros [= <-]. exists i, j, i', j'. cbn [fst snd]. auto.
Qed.

Fixpoint optmap {A B} (f : A -> option B) (l : list A) : option (list B) :=
  match l with [] => Some [] | a :: l => match f a, optmap f l with Some b, Some l => Some (b :: l) | _, _ => None end end.

Lemma optmap_ok {A B} (f : A -> option B) (R : A -> B -> Prop) l : (forall a b, f a = Some b -> R a b) -> forall l', optmap f l = Some l' -> Forall2 R l l'.
Proof.
  intros H. induction l as [|a l IH]; intros l' E; cbn [optmap] in E; [injection E as <-; constructor|].
  destruct (f a) as [b|] eqn:Ea; [|discriminate E]. destruct (optmap f l) as [bs|]; [|discriminate E]. injection E as <-. constructor; auto.
Qed.

Definition sorts (op : operator) : option (list part * list (str * str)) :=
  match optmap part_of (indexed_fields op), optmap pair_of (epsilons op) with
  | Some parts, Some pairs =>
    let names := names_of pairs in
    if no_repeats names && (List.length (part_names parts) =? List.length names) && forallb (fun n => existsb (str_eqb n) (part_names parts)) names &&
       Z.eqb (sum_over six_hypercharge parts) 0 && Z.eqb (sum_over lepton_number parts) 2
    then Some (parts, pairs) else None
  | _, _ => None
  end.

Lemma sorts_ok op parts pairs : sorts op = Some (parts, pairs) -> lepton_violating op parts pairs.
Proof.
  unfold sorts. destruct (optmap part_of (indexed_fields op)) as [ps|] eqn:Ep; [|discriminate]. destruct (optmap pair_of (epsilons op)) as [es|] eqn:Ee; [|discriminate]. cbv zeta.
  destruct (_ && _) eqn:E; [|discriminate]. intros [= <- <-]. rewrite !andb_true_iff in E. destruct E as ((((E1 & E2) & E3) & E4) & E5).
  apply no_repeats_iff in E1. apply Nat.eqb_eq in E2. apply Z.eqb_eq in E4, E5. constructor; auto.
  - exact (optmap_ok _ _ _ part_of_ok _ Ep).
  - exact (optmap_ok _ _ _ pair_of_ok _ Ee).
  - apply Permutation_sym, NoDup_Permutation_bis; [exact E1|lia|]. intros n I. rewrite forallb_forall in E3. specialize (E3 n I). apply existsb_exists in E3 as (m & Im & Em). apply str_decides in Em. now subst m.
Qed.

(** ** What is computed of every operator *)

Definition parsedb (op : operator) (parts : list part) (pairs : list (str * str)) : bool :=
  match parse_operator op with
  | Ok structures => list_eqb (list_eqb atom_eqb) structures (map (fun ch => map (component (is_upper pairs ch)) parts) (choices (List.length pairs)))
  | Err _ => false
  end.

Lemma atom_decides : decides atom_eqb. Proof. intros a b. apply atom_eqb_iff. Qed.

Lemma parsedb_ok op parts pairs : parsedb op parts pairs = true ->
  parse_operator op = Ok (map (fun ch => map (component (is_upper pairs ch)) parts) (choices (List.length pairs))).
Proof. unfold parsedb. destruct (parse_operator op) as [l|]; [|discriminate]. intros H. apply (list_decides (list_decides atom_decides)) in H. now subst l. Qed.

Definition commonb (dims : list Z) (op : operator) : bool :=
  match sorts op with Some (parts, pairs) => parsedb op parts pairs | None => false end &&
  match mass_dimension op with Ok d => existsb (Z.eqb d) dims | Err _ => false end &&
  match operator_estimate op with Ok (_ :: _) => true | _ => false end.

Definition plain_checkb (op : operator) : bool :=
  let n := List.length (filter (fun i => Bool.eqb (ix_up i) true) (free_of_type Colour op)) in
  (n <=? 2) && openb n op &&
  match topology_type op with
  | Ok (nb, nf) => existsb (fun k => (fst (fst k) =? nb) && (snd (fst k) =? nf)) kinds &&
      (List.length (filter boson_field (indexed_fields op)) =? nb) && (List.length (filter (fun f => negb (boson_field f)) (indexed_fields op)) =? nf)
  | Err _ => false end &&
  match indexed_fields_with_counters op with Ok _ => true | Err _ => false end &&
  (negb (n =? 2) || forallb (fun m => forallb (fun i => negb (str_eqb (ix_name i) (fresh_name Colour m))) (op_indices op)) (seq 0 209)).

Definition deriv_checkb (op : operator) : bool :=
  nodup_slots (op_indices op) && forallb (fun x => f_derivs (i_field x) <=? 1) (indexed_fields op) &&
  (let k := list_sum (map (fun x => f_derivs (i_field x)) (indexed_fields op)) in (1 <=? k) && (k <=? 3)).

Lemma eff_checked : match eff_operators with
  | Ok ops => (List.length ops =? 192) && no_repeats (map fst ops) && forallb (fun kv => commonb [5; 7; 9; 11]%Z (snd kv) && plain_checkb (snd kv)) ops | Err _ => false end = true.
Proof. vm_compute. reflexivity. Qed.

Lemma deriv_checked : match deriv_eff_operators with
  | Ok ops => (List.length ops =? 51) && no_repeats (map fst ops) && forallb (fun kv => commonb [7; 9]%Z (snd kv) && deriv_checkb (snd kv)) ops | Err _ => false end = true.
Proof. vm_compute. reflexivity. Qed.

(** ** C87: the operators *)

(** The package ships 192 operators of mass dimensions 5, 7, 9 and 11 under different names.  Each of them is made of
    Standard-Model fields without derivatives; its isospin indices are contracted, at most two raised and two lowered colour
    indices are open; hypercharge is zero and lepton number two.  The numbers of its scalars and fermions are those of a
    kind of topology that is shipped, and its fields can be numbered. *)
Theorem C87_operators : exists ops, eff_operators = Ok ops /\ List.length ops = 192 /\ NoDup (map fst ops) /\
  forall k op, In (k, op) ops ->
    (exists parts pairs, lepton_violating op parts pairs) /\
    (exists d, mass_dimension op = Ok d /\ In d [5; 7; 9; 11]%Z) /\
    exists n nb nf m fc, n <= 2 /\ colour_open n op /\ In (nb, nf, m) kinds /\ topology_type op = Ok (nb, nf) /\
      List.length (filter boson_field (indexed_fields op)) = nb /\ List.length (filter (fun f => negb (boson_field f)) (indexed_fields op)) = nf /\
      indexed_fields_with_counters op = Ok fc /\
      (n = 2 -> forall c i, c < 209 -> In i (op_indices op) -> ix_name i <> fresh_name Colour c).
Proof.
  pose proof eff_checked as H. destruct eff_operators as [ops|]; [|discriminate H]. exists ops. apply andb_true_iff in H as [H1 H2]. apply andb_true_iff in H1 as [H0 H1].
  split; [reflexivity|]. split; [now apply Nat.eqb_eq|]. split; [now apply no_repeats_iff|]. intros k op I.
  rewrite forallb_forall in H2. specialize (H2 _ I). cbn [snd] in H2. clear H0 H1 I ops. apply andb_true_iff in H2 as [C P].
  unfold commonb in C. apply andb_true_iff in C as [C _]. apply andb_true_iff in C as [C D]. split; [|split].
  - destruct (sorts op) as [[parts pairs]|] eqn:E; [|discriminate C]. exists parts, pairs. now apply sorts_ok.
  - destruct (mass_dimension op) as [d|]; [|discriminate D]. exists d. split; [reflexivity|]. apply existsb_exists in D as (d' & I & E). apply Z.eqb_eq in E. now subst d'.
  - unfold plain_checkb in P. cbv zeta in P. set (n := List.length _) in *. clearbody n. rewrite !andb_true_iff in P. destruct P as ((((P1 & P2) & P3) & P4) & P5).
    destruct (topology_type op) as [[nb nf]|]; [|discriminate P3]. rewrite !andb_true_iff in P3. destruct P3 as ((K & B) & F). apply existsb_exists in K as ([[nb' nf'] m] & K & E). cbn [fst snd] in E.
    apply andb_true_iff in E as [E1 E2]. apply Nat.eqb_eq in E1, E2, B, F. subst nb' nf'. destruct (indexed_fields_with_counters op) as [fc|]; [|discriminate P4].
    exists n, nb, nf, m, fc. apply Nat.leb_le in P1. apply openb_ok in P2. repeat (split; [assumption || reflexivity|]). intros En c i L Ii E.
    subst n. cbn [Nat.eqb negb orb] in P5. rewrite forallb_forall in P5. assert (Ic : In c (seq 0 209)) by (apply in_seq; lia). specialize (P5 c Ic).
    rewrite forallb_forall in P5. specialize (P5 i Ii). rewrite E, (decides_refl str_decides) in P5. discriminate P5.
Qed.

(** The 51 operators with derivatives: no index occurs twice at the same height, a field has at most one derivative, and an
    operator one to three. *)
Theorem C87_deriv : exists ops, deriv_eff_operators = Ok ops /\ List.length ops = 51 /\ NoDup (map fst ops) /\
  forall k op, In (k, op) ops ->
    (exists parts pairs, lepton_violating op parts pairs) /\
    (exists d, mass_dimension op = Ok d /\ In d [7; 9]%Z) /\
    proper_op op /\ (forall x, In x (indexed_fields op) -> f_derivs (i_field x) <= 1) /\
    1 <= list_sum (map (fun x => f_derivs (i_field x)) (indexed_fields op)) <= 3.
Proof.
  pose proof deriv_checked as H. destruct deriv_eff_operators as [ops|]; [|discriminate H]. exists ops. apply andb_true_iff in H as [H1 H2]. apply andb_true_iff in H1 as [H0 H1].
  split; [reflexivity|]. split; [now apply Nat.eqb_eq|]. split; [now apply no_repeats_iff|]. intros k op I.
  rewrite forallb_forall in H2. specialize (H2 _ I). cbn [snd] in H2. clear H0 H1 I ops. apply andb_true_iff in H2 as [C P].
  unfold commonb in C. apply andb_true_iff in C as [C _]. apply andb_true_iff in C as [C D]. split; [|split].
  - destruct (sorts op) as [[parts pairs]|] eqn:E; [|discriminate C]. exists parts, pairs. now apply sorts_ok.
  - destruct (mass_dimension op) as [d|]; [|discriminate D]. exists d. split; [reflexivity|]. apply existsb_exists in D as (d' & I & E). apply Z.eqb_eq in E. now subst d'.
  - unfold deriv_checkb in P. cbv zeta in P. apply andb_true_iff in P as [P P3]. apply andb_true_iff in P as [P1 P2]. apply andb_true_iff in P3 as [P3 P4]. apply Nat.leb_le in P3, P4.
    split; [now apply nodup_slots_ok|]. split; [|split; assumption]. intros x I. rewrite forallb_forall in P2. now apply Nat.leb_le, P2.
Qed.

(** ** C88: their completions *)

(** Every shipped operator has its completions, with nothing raised, from every state of the counters in which fewer than 209
    colour indices were made; a later state will do for all operators but those with two open pairs of colour indices, and
    also for these if the next name is not in use. *)
Theorem C88_shipped : forall vanishes, exists ops, eff_operators = Ok ops /\
  forall k op, In (k, op) ops -> exists n nb nf m fc, n <= 2 /\ colour_open n op /\ In (nb, nf, m) kinds /\ topology_type op = Ok (nb, nf) /\ indexed_fields_with_counters op = Ok fc /\
    forall st, (n <> 2 \/ st Colour < 209 \/ forall i, In i (op_indices op) -> ix_name i <> fresh_name Colour (st Colour)) ->
      exists tops cops cs st', shipped nb nf = Ok tops /\ List.length tops = m /\
        colour_singlets true [op] st = Ok (cops, st') /\ List.length cops = fact n + (if n =? 2 then 1 else 0) /\ Forall (contracted_type Colour op) cops /\
        completions_of vanishes shipped op st = Ok (cs, st') /\ completions_are vanishes op fc tops cops cs.
Proof.
  intros vanishes. destruct C87_operators as (ops & E & _ & _ & H). exists ops. split; [exact E|]. intros k op I. destruct (H k op I) as (_ & _ & n & nb & nf & m & fc & L & O & K & T & B & F & C & Fr).
  exists n, nb, nf, m, fc. repeat (split; [assumption|]). intros st S.
  assert (L5 : n <= 5) by lia. assert (N3 : n <> 3) by lia. apply (C88_completions vanishes n op st nb nf m fc O); auto. intros E2 i Ii. destruct S as [S|[S|S]]; [contradiction|now apply (Fr E2)|now apply S].
Qed.

(** ** C89: their neutrino masses *)

Lemma checked_masses dims op : commonb dims op = true ->
  exists parts pairs, lepton_violating op parts pairs /\
    let structures := map (fun ch => map (component (is_upper pairs ch)) parts) (choices (List.length pairs)) in
    parse_operator op = Ok structures /\ (forall s, In s structures -> SpecClosures.admissible s) /\
    exists e es, operator_estimate op = Ok (e :: es) /\
      Forall2 (fun s e => estimates (fixed_point s 10) e) (filter (fun s => forallb is_const (fixed_point s 10)) structures) (e :: es) /\
      forall V (value : estimate -> V) gtb, ordered V gtb ->
        (exists m, get_leading_mv V value gtb op = Ok m /\ first_largest V value gtb (e :: es) m) /\
        exists m, table_data V value gtb op = Ok (loops_text (loop_data m), m) /\ last_largest V value gtb (e :: es) m.
Proof.
  unfold commonb. intros C. apply andb_true_iff in C as [C N]. apply andb_true_iff in C as [C _]. destruct (sorts op) as [[parts pairs]|] eqn:E; [|discriminate C].
  exists parts, pairs. apply sorts_ok in E. split; [exact E|]. cbv zeta. apply parsedb_ok in C.
  destruct (estimates_from op parts pairs C (lv_names _ _ _ E) (lv_contracted _ _ _ E) (lv_neutral _ _ _ E) (lv_lepton _ _ _ E)) as (A & es & Ee & F).
  split; [exact C|]. split; [intros s I; now apply A|]. rewrite Ee in N. destruct es as [|e es]; [discriminate N|]. exists e, es. split; [exact Ee|]. split; [exact F|].
  intros V value gtb O. exact (C78_leading V value gtb O op (e :: es) Ee).
Qed.

(** The components of every shipped operator, with and without derivatives, are found, at least one of them is reduced to
    constants, and so there is a leading estimate of the neutrino mass. *)
Theorem C89_masses : exists ops dops, eff_operators = Ok ops /\ deriv_eff_operators = Ok dops /\
  forall k op, In (k, op) (ops ++ dops) ->
    exists parts pairs, lepton_violating op parts pairs /\
      let structures := map (fun ch => map (component (is_upper pairs ch)) parts) (choices (List.length pairs)) in
      parse_operator op = Ok structures /\ (forall s, In s structures -> SpecClosures.admissible s) /\
      exists e es, operator_estimate op = Ok (e :: es) /\
        Forall2 (fun s e => estimates (fixed_point s 10) e) (filter (fun s => forallb is_const (fixed_point s 10)) structures) (e :: es) /\
        forall V (value : estimate -> V) gtb, ordered V gtb ->
          (exists m, get_leading_mv V value gtb op = Ok m /\ first_largest V value gtb (e :: es) m) /\
          exists m, table_data V value gtb op = Ok (loops_text (loop_data m), m) /\ last_largest V value gtb (e :: es) m.
Proof.
  pose proof eff_checked as H. pose proof deriv_checked as D. destruct eff_operators as [ops|]; [|discriminate H]. destruct deriv_eff_operators as [dops|]; [|discriminate D].
  exists ops, dops. split; [reflexivity|]. split; [reflexivity|]. intros k op I. apply andb_true_iff in H as [_ H]. apply andb_true_iff in D as [_ D]. rewrite forallb_forall in H, D.
  apply in_app_iff in I as [I|I]; [specialize (H _ I); cbn [snd] in H; apply andb_true_iff in H as [H _]|specialize (D _ I); cbn [snd] in D; apply andb_true_iff in D as [D _]]; [now apply (checked_masses _ op H)|now apply (checked_masses _ op D)].
Qed.

(** ** Counters that have run on *)

(** With 251 colour indices made before, the additional contraction of operator 11a uses an index of the operator once more:
    the result is no longer well formed. *)
Theorem C88_later_refuted : exists ops op st cops st', eff_operators = Ok ops /\ In (lit "11a", op) ops /\ colour_open 2 op /\
  st Colour = 251 /\ colour_singlets true [op] st = Ok (cops, st') /\ exists r, In r cops /\ ~ proper_op r.
Proof.
  assert (H : match eff_operators with
    | Ok ops => match dget str_eqb ops (lit "11a") with
      | Some op => openb 2 op && match colour_singlets true [op] (fun _ => 251) with Ok (cops, _) => existsb (fun r => negb (nodup_slots (op_indices r))) cops | Err _ => false end
      | None => false end
    | Err _ => false end = true) by (vm_compute; reflexivity).
  destruct eff_operators as [ops|]; [|discriminate H]. destruct (dget str_eqb ops (lit "11a")) as [op|] eqn:Eo; [|discriminate H]. apply andb_true_iff in H as [O H].
  destruct (colour_singlets true [op] (fun _ => 251)) as [[cops st']|] eqn:Ec; [|discriminate H]. exists ops, op, (fun _ => 251), cops, st'. split; [reflexivity|].
  split; [now apply (dget_In str_decides)|]. split; [now apply openb_ok|]. split; [reflexivity|]. split; [exact Ec|].
  apply existsb_exists in H as (r & I & N). exists r. split; [exact I|]. intros P. apply negb_true_iff in N.
  enough (nodup_slots (op_indices r) = true) by congruence. clear N. unfold proper_op in P. induction (op_indices r) as [|i l IH]; [reflexivity|]. cbn [map] in P. apply NoDup_cons_iff in P as [N1 N2].
  cbn [nodup_slots]. rewrite IH by exact N2. rewrite andb_true_r, negb_true_iff. destruct (existsb (index_eqb i) l) eqn:E; [|reflexivity].
  exfalso. apply existsb_exists in E as (j & J & E). apply N1. apply ProofsContract.slot_eqb in E. rewrite E. now apply in_map.
Qed.

(** ** An example *)

Definition named (k : string) : operator := match eff_operators with Ok ops => match dget str_eqb ops (lit k) with Some op => op | None => [] end | Err _ => [] end.
Definition started : counters := fun _ => 0.


(** the Weinberg operator has the three seesaw models: a scalar triplet, or a fermion that is a singlet or a triplet; every
    one of them is found more than once *)
Definition seesaws :=
  match completions_of (fun _ => false) shipped (named "1") started with
  | Ok (cs, _) => map (fun c => (cm_topology c, map (fun x => f_dynkin (i_field (cf_if x))) (cm_exotics c), map (fun x => Qnum (hypercharge x)) (cm_exotics c), List.length (cm_terms c))) cs
  | Err _ => []
  end.

Example C88_example1 : seesaws =
  let a := (lit "2s2f_1", [lit "00002"], [(-1)%Z], 2) in let b := (lit "2s2f_2", [lit "10000"], [0%Z], 2) in let c := (lit "2s2f_2", [lit "10002"], [0%Z], 2) in
  [a; a; a; a; b; c; c; b].
Proof. vm_compute. reflexivity. Qed.

Example C88_example2 : colour_open 0 (named "1") /\ colour_open 1 (named "3a") /\ colour_open 2 (named "11b").
Proof. split; [|split]; apply openb_ok; vm_compute; reflexivity. Qed.

(** an operator of dimension nine with two contractions of colour and an overcomplete one *)
Example C88_example3 : match colour_singlets true [named "11b"] started with Ok (cops, _) => Some (List.length cops) | Err _ => None end = Some 3.
Proof. vm_compute. reflexivity. Qed.

Example C89_example : match operator_estimate (named "1"), operator_estimate (named "2") with Ok l, Ok l' => Some (List.length l, List.length l') | _, _ => None end = Some (3, 4).
Proof. vm_compute. reflexivity. Qed.

Print Assumptions C87_operators.
Print Assumptions C87_deriv.
Print Assumptions C88_shipped.
Print Assumptions C88_later_refuted.
Print Assumptions C89_masses.
