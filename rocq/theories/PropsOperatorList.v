(** * PropsOperatorList: the operators of the package are all contractions of the isospin of their fields, each once (C104) *)

From Coq Require Import Ascii String List Bool Arith ZArith Permutation Lia.
From Verif Require Import Base Show ModelFunctions ModelIndex ModelField ModelContract ModelInfo ModelOperators ModelPaper SpecPaper SpecOperatorList BaseFacts ProofsIndex ProofsOperatorList PropsOperators2 PropsPaper.
Import ListNotations.
Local Open Scope nat_scope.

(** ** Deciding that two lists have the same elements *)

Section Perm.
  Context {A : Type} (eqb : A -> A -> bool) (D : decides eqb).

  Fixpoint take_out (x : A) (l : list A) : option (list A) :=
    match l with [] => None | y :: r => if eqb x y then Some r else match take_out x r with Some r => Some (y :: r) | None => None end end.

  Fixpoint permb (l l' : list A) : bool :=
    match l with [] => match l' with [] => true | _ => false end | x :: r => match take_out x l' with Some r' => permb r r' | None => false end end.

  Lemma take_out_some x l r : take_out x l = Some r -> Permutation l (x :: r).
  Proof using D.
    revert r. induction l as [|y l IH]; intros r E; [discriminate E|]. cbn in E. destruct (eqb x y) eqn:Q.
    - apply D in Q. injection E as <-. now subst.
    - destruct (take_out x l) as [k|]; [|discriminate E]. injection E as <-. rewrite (IH k eq_refl). apply perm_swap.
  Qed.

  Lemma take_out_none x l : take_out x l = None -> ~ In x l.
  Proof using D.
    induction l as [|y l IH]; intros E; [intros []|]. cbn in E. destruct (eqb x y) eqn:Q; [discriminate E|]. destruct (take_out x l); [discriminate E|]. intros [->|I].
    - rewrite (decides_refl D) in Q. discriminate Q.
    - now apply IH.
  Qed.

  Lemma permb_ok l : forall l', permb l l' = true <-> Permutation l l'.
  Proof using D.
    induction l as [|x l IH]; intros l'; cbn.
    - destruct l'; [split; [constructor|reflexivity]|]. split; [discriminate|]. intros P. apply Permutation_nil in P. discriminate P.
    - destruct (take_out x l') as [r|] eqn:E.
      + rewrite IH. apply take_out_some in E. rewrite E. split; [now constructor|apply Permutation_cons_inv].
      + split; [discriminate|]. intros P. exfalso. apply (take_out_none _ _ E). eapply Permutation_in; [exact P|now left].
  Qed.
End Perm.

Definition pair_eqb (a b : str * str) : bool := str_eqb (fst a) (fst b) && str_eqb (snd a) (snd b).
Lemma pair_decides : decides pair_eqb.
Proof.
  intros [a b] [c d]. unfold pair_eqb. cbn [fst snd]. rewrite andb_true_iff, (str_decides a c), (str_decides b d). split; [intros [-> ->]; reflexivity|intros Q; now injection Q].
Qed.

(** ** Checking a list of operators *)

(** label, names, kinds of factors that are joined *)
Definition entry : Type := str * (list str * list (str * str)).

Definition natsb (l l' : list nat) : bool := permb Nat.eqb l l'.
Lemma nat_decides : decides Nat.eqb.
Proof. intros a b. apply Nat.eqb_eq. Qed.

Definition pairingb (p : picture) : bool :=
  natsb (ends p) (filter (fun i => doubletb (nm p i)) (seq 0 (List.length (pc_names p)))).

Lemma pairingb_ok p : pairingb p = true -> isospin_pairing p.
Proof.
  intros H. apply (permb_ok _ nat_decides) in H. split.
  - eapply Permutation_NoDup; [symmetry; exact H|apply NoDup_filter, seq_NoDup].
  - intros i. rewrite <- doubletb_ok. fold (nm p i). split; intros I.
    + apply (Permutation_in _ H) in I. apply filter_In in I as [I J]. apply in_seq in I. split; [lia|exact J].
    + apply (Permutation_in _ (Permutation_sym H)). apply filter_In. rewrite in_seq. destruct I. split; [lia|assumption].
Qed.

Definition zerob (l : list (str * str)) : bool := existsb (fun e => existsb (fun a => str_eqb (fst e) a && str_eqb (snd e) a) [lit "H"; lit "H" ++ [dagger]]) l.

Lemma norm_equal a e : norm e = (a, a) <-> e = (a, a).
Proof. destruct e as [x y]. unfold norm. cbn [fst snd]. destruct (str_leb x y); split; intros Q; try (injection Q as -> ->); congruence. Qed.

Lemma zerob_ok p : isospin_pairing p -> (zerob (labels p) = false <-> nonzero p).
Proof.
  intros _. assert (K : forall a, In (a, a) (labels p) <-> joins_two p a).
  { intros a. unfold labels, kinds. rewrite map_map, in_map_iff. split.
    - intros ([i j] & E & I). apply (proj1 (norm_equal _ _)) in E. cbn [fst snd] in E. injection E as E1 E2. exists i, j. split; [now left|]. auto.
    - intros (i & j & [I|I] & E1 & E2); eexists; (split; [|exact I]); apply norm_equal; cbn [fst snd]; unfold nm; now rewrite E1, E2. }
  assert (Z : zerob (labels p) = true <-> exists a, In a [lit "H"; lit "H" ++ [dagger]] /\ In (a, a) (labels p)).
  { unfold zerob. rewrite existsb_exists. split.
    - intros ([x y] & I & H). apply existsb_exists in H as (a & Ia & H). apply andb_true_iff in H as [H1 H2]. apply str_decides in H1, H2. cbn in H1, H2. subst. exists a. auto.
    - intros (a & Ia & I). exists (a, a). split; [exact I|]. apply existsb_exists. exists a. split; [exact Ia|]. cbn [fst snd]. now rewrite !(decides_refl str_decides). }
  unfold nonzero. rewrite <- !K. split.
  - intros H. split; intros I; assert (X : zerob (labels p) = true) by (apply Z; eexists; split; [|exact I]; solve [now left|right; now left]); congruence.
  - intros [H1 H2]. destruct (zerob (labels p)) eqn:E; [|reflexivity]. exfalso. destruct (proj1 Z eq_refl) as (a & [<-|[<-|[]]] & I); auto.
Qed.

(** [x] and [y] are the same contraction *)
Definition sameb (x y : list str * list (str * str)) : bool := permb str_eqb (fst x) (fst y) && permb pair_eqb (snd x) (snd y).

Fixpoint summary (d : list (str * operator)) : option (list entry) :=
  match d with
  | [] => Some []
  | (k, op) :: r =>
    match picture_of op with
    | Some q => if pairingb q && negb (zerob (labels q)) then match summary r with Some l => Some ((k, (pc_names q, labels q)) :: l) | None => None end else None
    | None => None
    end
  end.

Lemma summary_ok d l : summary d = Some l ->
  (forall k op, In (k, op) d -> exists q, pictures op q /\ isospin_pairing q /\ nonzero q /\ In (k, (pc_names q, labels q)) l) /\
  (forall k ns ls, In (k, (ns, ls)) l -> exists op q, In (k, op) d /\ pictures op q /\ isospin_pairing q /\ ns = pc_names q /\ ls = labels q).
Proof.
  revert l. induction d as [|[k op] d IH]; intros l E; cbn in E; [injection E as <-; split; intros; contradiction|].
  destruct (picture_of op) as [q|] eqn:Eq; [|discriminate E]. destruct (pairingb q && negb (zerob (labels q))) eqn:C; [|discriminate E]. destruct (summary d) as [l'|]; [|discriminate E]. injection E as <-.
  apply andb_true_iff in C as [C1 C2]. apply pairingb_ok in C1. apply negb_true_iff in C2. apply (zerob_ok q C1) in C2.
  assert (Pq : pictures op q) by now apply (picture_of_ok op q Eq). destruct (IH l' eq_refl) as [I1 I2]. split.
  - intros k0 op0 [Q|I]; [injection Q as <- <-; exists q; repeat (split; [assumption|]); now left|]. destruct (I1 k0 op0 I) as (q0 & A & B & C & D0). exists q0. repeat (split; [assumption|]). now right.
  - intros k0 ns ls [Q|I]; [injection Q as <- <- <-; exists op, q; repeat (split; [(now left) || assumption|]); auto|]. destruct (I2 k0 ns ls I) as (op0 & q0 & A & B). exists op0, q0. split; [now right|exact B].
Qed.

(** every pairing that is not zero is found; no two entries are the same *)
Definition completeb (l : list entry) : bool :=
  forallb (fun x => let here := filter (fun y => permb str_eqb (fst (snd x)) (fst (snd y))) l in
    forallb (fun J => let J := map norm J in zerob J || existsb (fun y => permb pair_eqb J (snd (snd y))) here)
      (let ds := filter doubletb (fst (snd x)) in pairings (List.length ds) ds)) l.

Fixpoint distinctb (l : list entry) : bool :=
  match l with [] => true | x :: r => forallb (fun y => str_eqb (fst x) (fst y) || negb (sameb (snd x) (snd y))) r && distinctb r end.

Lemma distinctb_ok l : distinctb l = true -> forall x y, In x l -> In y l -> sameb (snd x) (snd y) = true -> fst x = fst y.
Proof.
  assert (Sy : forall x y, sameb x y = sameb y x).
  { intros x y. unfold sameb. f_equal; apply eq_true_iff_eq; rewrite ?(permb_ok _ str_decides), ?(permb_ok _ pair_decides); split; apply Permutation_sym. }
  induction l as [|z l IH]; intros H x y Ix Iy S; [destruct Ix|]. cbn in H. apply andb_true_iff in H as [H1 H2]. rewrite forallb_forall in H1.
  assert (W : forall v, In v l -> sameb (snd z) (snd v) = true -> fst z = fst v).
  { intros v Iv Sv. specialize (H1 v Iv). rewrite Sv, orb_false_r in H1. now apply str_decides. }
  destruct Ix as [<-|Ix], Iy as [<-|Iy]; auto. symmetry. apply W; [exact Ix|]. now rewrite Sy.
Qed.

Definition checkb (d : list (str * operator)) : bool := match summary d with Some l => completeb l && distinctb l | None => false end.

Lemma checkb_ok d : checkb d = true ->
  (forall k op, In (k, op) d -> exists q, pictures op q /\ isospin_pairing q /\ nonzero q /\ all_once d (pc_names q)) /\
  (forall k op q k' op' q', In (k, op) d -> pictures op q -> In (k', op') d -> pictures op' q' -> same_picture q q' -> k = k').
Proof.
  unfold checkb. destruct (summary d) as [l|] eqn:E; [|discriminate]. intros H. apply andb_true_iff in H as [H1 H2]. destruct (summary_ok d l E) as [S1 S2].
  assert (U : forall op q q', pictures op q -> (exists q0, pictures op q0 /\ q0 = q') -> True) by auto. clear U.
  assert (F : forall k op q, In (k, op) d -> pictures op q -> isospin_pairing q /\ In (k, (pc_names q, labels q)) l).
  { intros k op q I P. clear -E I P. revert l E. induction d as [|[k0 op0] d IH]; intros l E; cbn in E; [destruct I|].
    destruct (picture_of op0) as [q0|] eqn:Eq; [|discriminate E]. destruct (pairingb q0 && negb (zerob (labels q0))) eqn:C; [|discriminate E]. destruct (summary d) as [l'|]; [|discriminate E]. injection E as <-.
    apply andb_true_iff in C as [C1 _]. apply pairingb_ok in C1. destruct I as [Q|I].
    - injection Q as <- <-. apply (picture_of_ok op0 q0 Eq) in P. subst q. split; [exact C1|now left].
    - destruct (IH I l' eq_refl) as [A B]. split; [exact A|now right]. }
  assert (Same : forall p k op q k' op' q', isospin_pairing p -> In (k, op) d -> pictures op q -> same_picture p q -> In (k', op') d -> pictures op' q' -> same_picture p q' -> k = k').
  { intros p k op q k' op' q' Pp I P S I' P' S'. destruct (F k op q I P) as [A B], (F k' op' q' I' P') as [A' B'].
    apply (distinctb_ok l H2 (k, (pc_names q, labels q)) (k', (pc_names q', labels q')) B B'). unfold sameb. cbn [fst snd]. apply andb_true_iff. rewrite (permb_ok _ str_decides), (permb_ok _ pair_decides). split.
    - rewrite <- (same_names p q S). now apply same_names.
    - rewrite <- (same_labels p q Pp A S). now apply same_labels. }
  split.
  - intros k op I. destruct (S1 k op I) as (q & Pq & Iq & Nq & Il). exists q. repeat (split; [assumption|]).
    intros p Pn Pp Np. unfold completeb in H1. rewrite forallb_forall in H1. specialize (H1 _ Il). cbv zeta in H1. cbn [fst snd] in H1. rewrite forallb_forall in H1.
    pose proof (kinds_doublets p Pp) as Kd. pose proof (filter_perm doubletb _ _ Pn) as Fd.
    destruct (pairings_all (List.length (filter doubletb (pc_names q))) (filter doubletb (pc_names q)) (kinds p)) as (J & IJ & PJ).
    { now rewrite Kd. }
    { rewrite <- (Permutation_length Fd), <- (Permutation_length Kd). generalize (kinds p). intros J. induction J as [|[a b] J IH]; cbn in *; [lia|]. unfold flat in *. lia. }
    specialize (H1 J IJ). apply orb_true_iff in H1 as [Z|X].
    + exfalso. apply (zerob_ok p Pp) in Np. unfold zerob in Z, Np. apply existsb_exists in Z as (e & Ie & Z). assert (X : zerob (labels p) = true); [|unfold zerob in X; congruence].
      apply existsb_exists. exists e. split; [|exact Z]. eapply Permutation_in; [symmetry; exact PJ|exact Ie].
    + apply existsb_exists in X as ([k' [ns ls]] & Iy & X). apply filter_In in Iy as [Iy Y]. cbn [fst snd] in X, Y. apply (permb_ok _ str_decides) in Y. apply (permb_ok _ pair_decides) in X.
      destruct (S2 k' ns ls Iy) as (op' & q' & Id & Pq' & Iq' & -> & ->).
      assert (SP : same_picture p q').
      { apply kinds_same; [exact Pp|exact Iq'|now rewrite Pn|]. unfold labels at 1. now rewrite PJ. }
      exists k'. split; [exists op', q'; auto|]. intros k'' op'' q'' I'' P'' S''. exact (Same p k'' op'' q'' k' op' q' Pp I'' P'' S'' Id Pq' SP).
  - intros k op q k' op' q' I P I' P' S. destruct (F k op q I P) as [A B].
    assert (R : same_picture q q).
    { split; [reflexivity|]. split; [reflexivity|]. exists (fun i => i). split; [auto|]. split; [auto|]. intros; reflexivity. }
    exact (Same q k op q k' op' q' A I P R I' P' S).
Qed.

(** ** The numbers *)

Definition spelled (s : string) : str := if endswith (lit ".conj") (lit s) then drop_last 5 (lit s) ++ [dagger] else lit s.

Lemma spelled_ok s x : written s x <-> x = spelled s.
Proof.
  unfold written, spelled. destruct (endswith (lit ".conj") (lit s)) eqn:E.
  - apply endswith_spec in E as [b Q]. rewrite Q. replace (drop_last 5 (b ++ lit ".conj")) with b by (symmetry; exact (drop_last_app b (lit ".conj"))). split.
    + intros [(b' & Q' & ->)|[N _]]; [|destruct (N b eq_refl)]. apply app_inv_tail in Q'. now subst.
    + intros ->. left. exists b. auto.
  - pose proof (endswith_not _ _ E) as N. split; [intros [(b & Q & _)|[_ ->]]; [destruct (N b Q)|reflexivity]|]. intros ->. right. auto.
Qed.

Lemma content_ok k ns : has_content k ns <-> permb str_eqb (map spelled k) ns = true.
Proof.
  rewrite (permb_ok _ str_decides). unfold has_content. split.
  - intros (l & F & P). assert (l = map spelled k); [|now subst]. clear P. induction F as [|x y k l W F IH]; [reflexivity|]. cbn. apply spelled_ok in W. now subst.
  - intros P. exists (map spelled k). split; [|exact P]. clear P. induction k; constructor; [now apply spelled_ok|assumption].
Qed.

Definition numberedb (n : Z) (label : str) : bool :=
  startswith (show_Z n) label && match skipn (List.length (show_Z n)) label with [] => true | [c] => letter c && negb (Ascii.eqb c "p") | _ => false end.

Lemma numberedb_ok n label : numberedb n label = true <-> numbered n label.
Proof.
  unfold numberedb, numbered. rewrite andb_true_iff, startswith_spec.
  assert (K : forall r : str, skipn (List.length (show_Z n)) (show_Z n ++ r) = r) by (intros r; rewrite skipn_app, skipn_all, Nat.sub_diag; reflexivity). split.
  - intros [[r ->] H]. rewrite K in H. destruct r as [|c [|]]; [left; apply app_nil_r| |discriminate H]. right. apply andb_true_iff in H as [H1 H2]. exists c. split; [exact H1|]. split; [|reflexivity]. intros ->. discriminate H2.
  - intros [->|(c & Lc & N & ->)].
    + split; [exists []; symmetry; apply app_nil_r|]. specialize (K []). rewrite app_nil_r in K. now rewrite K.
    + split; [now exists [c]|]. rewrite K, Lc. apply negb_true_iff, Ascii.eqb_neq. exact N.
Qed.

Definition numbersb (d : list (str * operator)) : bool :=
  forallb (fun kn => existsb (fun x => permb str_eqb (map spelled (fst kn)) (map (fun f => f_label (i_field f)) (fields_in (snd x)))) d &&
                     forallb (fun x => Bool.eqb (permb str_eqb (map spelled (fst kn)) (map (fun f => f_label (i_field f)) (fields_in (snd x)))) (numberedb (snd kn) (fst x))) d) bl_list.

(** ** The operators of the package *)

Lemma lists_checked : with_operators (fun a b => checkb a && checkb b && numbersb a) = true.
Proof. vm_compute. reflexivity. Qed.

Lemma lists_found : exists a b, eff_operators = Ok a /\ deriv_eff_operators = Ok b /\ checkb a = true /\ checkb b = true /\ numbersb a = true.
Proof.
  destruct C87_operators as (a & Ea & _). destruct C87_deriv as (b & Eb & _). exists a, b. split; [exact Ea|]. split; [exact Eb|].
  pose proof (with_operators_ok _ a b lists_checked Ea Eb) as H. cbv beta in H. apply andb_true_iff in H as [H H3]. apply andb_true_iff in H as [H1 H2]. auto.
Qed.

(** Every operator of [EFF_OPERATORS] is a product in which epsilons join the isospin doublets in pairs, and never two H or two H†.
    For its fields, every such product is in the dictionary, under one label. *)
Theorem C104_complete : exists a, eff_operators = Ok a /\
  forall label op, In (label, op) a -> exists q, pictures op q /\ isospin_pairing q /\ nonzero q /\ all_once a (pc_names q).
Proof. destruct lists_found as (a & b & Ea & _ & H & _). exists a. split; [exact Ea|]. apply (checkb_ok a H). Qed.

(** The same for [DERIV_EFF_OPERATORS]. *)
Theorem C104_complete_deriv : exists b, deriv_eff_operators = Ok b /\
  forall label op, In (label, op) b -> exists q, pictures op q /\ isospin_pairing q /\ nonzero q /\ all_once b (pc_names q).
Proof. destruct lists_found as (a & b & _ & Eb & _ & H & _). exists b. split; [exact Eb|]. apply (checkb_ok b H). Qed.

(** No operator is in the dictionaries under two labels. *)
Theorem C104_distinct : exists a b, eff_operators = Ok a /\ deriv_eff_operators = Ok b /\
  forall d, d = a \/ d = b -> forall k op q k' op' q', In (k, op) d -> pictures op q -> In (k', op') d -> pictures op' q' -> same_picture q q' -> k = k'.
Proof.
  destruct lists_found as (a & b & Ea & Eb & Ha & Hb & _). exists a, b. split; [exact Ea|]. split; [exact Eb|]. intros d [-> | ->]; [apply (checkb_ok a Ha)|apply (checkb_ok b Hb)].
Qed.

(** The fields of the list in lnv.py all have operators: those with their number in the label. *)
Theorem C104_numbers : exists a, eff_operators = Ok a /\ forall k n, In (k, n) bl_list ->
  (exists label op q, In (label, op) a /\ pictures op q /\ has_content k (pc_names q)) /\
  forall label op q, In (label, op) a -> pictures op q -> (has_content k (pc_names q) <-> numbered n label).
Proof.
  destruct lists_found as (a & b & Ea & _ & Ha & _ & H). exists a. split; [exact Ea|]. intros k n I. unfold numbersb in H. rewrite forallb_forall in H. specialize (H (k, n) I). cbn [fst snd] in H.
  apply andb_true_iff in H as [H1 H2]. destruct (checkb_ok a Ha) as [C _]. split.
  - apply existsb_exists in H1 as ([label op] & Io & H1). cbn [fst snd] in H1. destruct (C label op Io) as (q & P & _). exists label, op, q. split; [exact Io|]. split; [exact P|]. apply content_ok.
    destruct P as (P & _). rewrite P. exact H1.
  - intros label op q Io P. rewrite forallb_forall in H2. specialize (H2 (label, op) Io). cbn [fst snd] in H2. apply eqb_prop in H2. rewrite content_ok, <- numberedb_ok, <- H2. destruct P as (P & _). rewrite P. reflexivity.
Qed.

(** ** Examples *)

(** the doublets of L L L eb H can be paired in one way, up to the order of the L *)
Definition picture_2 : picture := mkPicture (map lit ["L"; "H"; "L"; "L"; "eb"]%string) [(1, 0); (2, 3)].

Example picture_2_pairing : isospin_pairing picture_2 /\ nonzero picture_2.
Proof. assert (P : isospin_pairing picture_2) by (apply pairingb_ok; vm_compute; reflexivity). split; [exact P|]. apply (zerob_ok _ P). vm_compute. reflexivity. Qed.

Example picture_2_content : has_content ["L"; "L"; "L"; "eb"; "H"]%string (pc_names picture_2).
Proof. apply content_ok. vm_compute. reflexivity. Qed.

(** the product of L L H H with an epsilon between the H is not listed *)
Example picture_1_zero : let p := mkPicture (map lit ["L"; "L"; "H"; "H"]%string) [(0, 1); (2, 3)] in isospin_pairing p /\ ~ nonzero p.
Proof.
  intros p. assert (P : isospin_pairing p) by (apply pairingb_ok; vm_compute; reflexivity). split; [exact P|]. intros N. apply (zerob_ok _ P) in N. vm_compute in N. discriminate N.
Qed.

(** the label of [picture_2] *)
Example picture_2_label : exists a op q, eff_operators = Ok a /\ In (lit "2", op) a /\ pictures op q /\ same_picture picture_2 q.
Proof.
  destruct C87_operators as (a & Ea & _). destruct C87_deriv as (b & Eb & _).
  assert (X : with_operators (fun a b => existsb (fun x => str_eqb (fst x) (lit "2") && match picture_of (snd x) with Some q => same_pictureb picture_2 q | None => false end) a) = true) by (vm_compute; reflexivity).
  apply (with_operators_ok _ a b) in X; [|exact Ea|exact Eb]. cbv beta in X. apply existsb_exists in X as ([k op] & I & X). cbn [fst snd] in X. apply andb_true_iff in X as [K X]. apply str_decides in K. subst k.
  destruct (picture_of op) as [q|] eqn:E; [|discriminate X]. exists a, op, q. split; [exact Ea|]. split; [exact I|]. split; [now apply (picture_of_ok op q E)|now apply same_pictureb_ok].
Qed.

Print Assumptions C104_complete.
Print Assumptions C104_complete_deriv.
Print Assumptions C104_distinct.
Print Assumptions C104_numbers.
