(** * ProofsOperators: colour singlets of operators whose isospin is contracted are invariant operators *)

From Coq Require Import Ascii String List Bool Arith ZArith NArith QArith Qcanon Lia Permutation.
From Verif Require Import Base BaseFacts Show ModelFunctions ModelIndex SpecIndex ProofsIndex ModelField SpecField ProofsField ModelContract SpecContract ProofsContract PropsContract
  ModelPartition SpecPartition ModelExotic SpecExotic ProofsExotic PropsExotic SpecCompletion PropsCompletion ModelOperators SpecOperators.
Import ListNotations.
Local Open Scope nat_scope.

(** ** Operators in two halves *)

Lemma normal_halves op : normal op -> op = map TField (indexed_fields op) ++ map TSymbol (epsilons op).
Proof.
  intros (fs & ss & ->). f_equal.
  - f_equal. unfold indexed_fields. rewrite flat_map_app. assert (H : flat_map (fun t => match t with TField f => [f] | TSymbol _ => [] end) (map TSymbol ss) = []) by (induction ss; auto).
    rewrite H, app_nil_r. clear. induction fs as [|f fs IH]; [reflexivity|]. cbn. now f_equal.
  - f_equal. unfold epsilons. rewrite flat_map_app. assert (H : flat_map (fun t => match t with TField _ => [] | TSymbol s => [s] end) (map TField fs) = []) by (induction fs; auto).
    rewrite H. cbn [app]. clear. induction ss as [|f fs IH]; [reflexivity|]. cbn. now f_equal.
Qed.

Lemma flat_map_map {A B C} (f : A -> B) (g : B -> list C) l : flat_map g (map f l) = flat_map (fun x => g (f x)) l.
Proof. induction l as [|x l IH]; [reflexivity|]. cbn. now rewrite IH. Qed.

Lemma indices_halves op : normal op -> op_indices op = flat_map indices_of (plain_fields op) ++ flat_map symbol_indices (epsilons op).
Proof.
  intros Nm. rewrite (normal_halves op Nm) at 1. unfold op_indices. rewrite flat_map_app, !flat_map_map. unfold plain_fields. rewrite flat_map_map. reflexivity.
Qed.

Lemma fields_symbols op ss : indexed_fields (op ++ map TSymbol ss) = indexed_fields op.
Proof. unfold indexed_fields. rewrite flat_map_app. assert (H : flat_map (fun t => match t with TField f => [f] | TSymbol _ => [] end) (map TSymbol ss) = []) by (induction ss; auto). rewrite H. apply app_nil_r. Qed.

Lemma epsilons_symbols op ss : epsilons (op ++ map TSymbol ss) = epsilons op ++ ss.
Proof. rewrite epsilons_app. f_equal. induction ss as [|s ss IH]; [reflexivity|]. cbn. now f_equal. Qed.

Lemma indices_symbols op ss : op_indices (op ++ map TSymbol ss) = op_indices op ++ flat_map symbol_indices ss.
Proof. rewrite ProofsContract.op_indices_app. f_equal. unfold op_indices. now rewrite flat_map_map. Qed.

Lemma count_le t up l : count_kind t up l <= List.length l.
Proof.
  induction l as [|i l IH]; [cbn; lia|]. rewrite count_kind_cons. cbn [List.length]. destruct (itype_eqb (ix_type i) t && Bool.eqb (ix_up i) up); lia.
Qed.

Lemma count_none t up l : (forall i, In i l -> ix_type i <> t) -> count_kind t up l = 0.
Proof.
  induction l as [|i l IH]; intros H; [reflexivity|]. rewrite count_kind_cons. destruct (itype_eqb (ix_type i) t) eqn:E.
  - apply itype_decides in E. exfalso. apply (H i); [now left|exact E].
  - cbn. apply IH. intros j J. apply H. now right.
Qed.

Lemma free_or_met op i : In i (op_indices op) -> is_free op i \/ met (op_indices op) i.
Proof.
  intros I. destruct (existsb (opposite i) (op_indices op)) eqn:E.
  - right. apply existsb_exists in E as (j & J & O). exists j. split; [exact J|]. now apply ProofsContract.opposite_spec.
  - left. split; [exact I|]. intros j J C. apply ProofsContract.opposite_spec in C. assert (existsb (opposite i) (op_indices op) = true) by (apply existsb_exists; eauto). congruence.
Qed.

Lemma Forall2_right {A B} (R : A -> B -> Prop) l l' : Forall2 R l l' -> forall y, In y l' -> exists x, In x l /\ R x y.
Proof. induction 1 as [|a b l l' H F IH]; intros y I; [destruct I|]. destruct I as [<- | I]; [exists a; split; [now left|exact H]|]. destruct (IH y I) as (x & Ix & Hx). exists x. split; [now right|exact Hx]. Qed.

(** ** Colour symbols *)

Definition colour_symbols (ss : list symbol) : Prop :=
  Forall (fun e => symbol_ok e /\ forall i, In i (symbol_indices e) -> ix_type i = Colour) ss.

Lemma colour_symbols_type ss i : colour_symbols ss -> In i (flat_map symbol_indices ss) -> ix_type i = Colour.
Proof. intros C I. apply in_flat_map in I as (e & Ie & I). unfold colour_symbols in C. rewrite Forall_forall in C. now apply (C e Ie). Qed.

Lemma invariant_with n op ss :
  colour_open n op -> contracted_type Colour op (op ++ map TSymbol ss) -> colour_symbols ss ->
  (forall up, count_kind Colour up (flat_map symbol_indices ss) <= 5) -> loosely_chained ss ->
  (forall i, In i (flat_map symbol_indices ss) -> ~ In "^"%char (ix_name i)) ->
  invariant_operator (plain_fields op) (epsilons op ++ ss).
Proof.
  intros O (Fr & Pr & _) Cs Few Ch Nc.
  assert (V : vertex_indices (plain_fields op) (epsilons op ++ ss) = op_indices op ++ flat_map symbol_indices ss).
  { unfold vertex_indices. rewrite flat_map_app, app_assoc. f_equal. symmetry. apply indices_halves, O. }
  pose proof (indices_symbols op ss) as Ei.
  assert (Ty : forall i, In i (flat_map symbol_indices ss) -> ix_type i = Colour) by (intros i; now apply colour_symbols_type).
  assert (Nn : forall i, In i (op_indices op ++ flat_map symbol_indices ss) -> ~ In "^"%char (ix_name i)) by (intros i I; apply in_app_iff in I as [I|I]; [now apply O|now apply Nc]).
  constructor; [constructor|..].
  - apply O.
  - apply O.
  - apply O.
  - apply O.
  - unfold plain_fields. apply Forall_map. exact (oo_derivs n op O).
  - apply Forall_app. split.
    + apply Forall_forall. intros e I. destruct (oo_symbols n op O e I) as (S1 & S2 & S3). split; [exact S1|]. right. auto.
    + eapply Forall_impl; [|exact Cs]. intros e (S1 & S2). split; [exact S1|]. now left.
  - rewrite V, <- Ei. exact Pr.
  - intros t up Ng. rewrite V, ProofsField.count_kind_app. destruct (itype_decides t Colour) as [_ D]. destruct (itype_eqb t Colour) eqn:E.
    + apply itype_decides in E. subst t. pose proof (oo_few_colours n op O up). pose proof (Few up). lia.
    + rewrite (count_none t up (flat_map symbol_indices ss)).
      * rewrite Nat.add_0_r. apply (oo_few n op O); [exact Ng|]. intros H. apply D in H. discriminate.
      * intros i I H. apply Ty in I. rewrite H in I. apply D in I. discriminate.
  - rewrite V. intros i j Ii Ij E. apply (Nn j Ij). rewrite E. apply in_app_iff. right. now left.
  - rewrite V. intros i I T. apply in_app_iff in I as [I|I]; [now apply (oo_dotted n op O)|]. apply Ty in I. congruence.
  - intros e i Ie Ii (j & Ij & C). rewrite flat_map_app in Ij. apply in_app_iff in Ie as [Ie|Ie].
    + exfalso. destruct (oo_symbols n op O e Ie) as (_ & _ & S3). destruct (S3 i Ii) as [T U]. destruct C as (_ & Ct & Cu). rewrite T in Ct. rewrite U in Cu. cbn in Cu.
      apply in_app_iff in Ij as [Ij|Ij].
      * apply in_flat_map in Ij as (e' & Ie' & Ij). destruct (oo_symbols n op O e' Ie') as (_ & _ & S3'). destruct (S3' j Ij). congruence.
      * apply Ty in Ij. congruence.
    + assert (Old : forall k, In k (flat_map symbol_indices (epsilons op)) -> ix_type k = Isospin) by (intros k K; apply in_flat_map in K as (e' & Ie' & K); now apply (oo_symbols n op O e' Ie')).
      assert (New : forall k, In k (symbol_indices e) -> met (flat_map symbol_indices (epsilons op ++ ss)) k -> met (flat_map symbol_indices ss) k).
      { intros k K (k' & K' & Ck). rewrite flat_map_app in K'. apply in_app_iff in K' as [K'|K']; [|exists k'; auto]. exfalso. apply Old in K'. destruct Ck as (_ & Ck & _).
        assert (Tk : ix_type k = Colour) by (apply Ty, in_flat_map; eauto). congruence. }
      destruct (Ch e i Ie Ii) as [H1 H2].
      * apply New; [exact Ii|]. exists j. rewrite flat_map_app. auto.
      * split; [exact H1|]. intros k K M. apply H2; [exact K|]. now apply New.
  - rewrite V. intros i I G. destruct (free_or_met (op ++ map TSymbol ss) i) as [F|M].
    + now rewrite Ei.
    + exfalso. apply Fr in F as [F N]. destruct G as [G|G]; [contradiction|]. destruct (oo_isospin n op O i) as (j & J & C); [apply F|exact G|]. destruct F as [_ F]. now apply (F j).
    + now rewrite <- Ei.
  - apply O.
Qed.

(** ** The deltas *)

Definition delta_set (op : operator) (n : nat) (ds : list symbol) : Prop :=
  contracted_type Colour op (op ++ map TSymbol ds) /\ List.length ds = n /\
  Forall (fun d => exists a b, d = DeltaC [a; b] /\ clean a /\ clean b /\ ix_type a = Colour /\ ix_type b = Colour /\ ix_up a = true /\ ix_up b = false) ds /\
  (forall i, In i (flat_map symbol_indices ds) -> met (op_indices op) i) /\
  forall i j, In i (flat_map symbol_indices ds) -> In j (flat_map symbol_indices ds) -> ~ counterpart i j.

Lemma deltas n op st : colour_open n op -> n <> 3 ->
  exists dss, colour_singlets_one false op st = Ok (map (fun ds => op ++ map TSymbol ds) dss, st) /\ Forall (delta_set op n) dss /\ List.length dss = fact n.
Proof.
  intros O N3. pose proof (oo_normal n op O) as Nm. pose proof (oo_proper n op O) as Pr. pose proof (oo_clean n op O) as Cl.
  remember (filter ix_up (free_of_type Colour op)) as ups eqn:Eu.
  remember (filter (fun i => negb (ix_up i)) (free_of_type Colour op)) as downs eqn:Ed.
  destruct (colour_setting op Nm Pr Cl ups downs Eu Ed) as (Lu & Ld & Cu & Cd & Un & dss & Es & Hs).
  pose proof (number_length _ _ _ _ _ (oo_ups n op O) Lu) as En. pose proof (number_length _ _ _ _ _ (oo_downs n op O) Ld) as Em.
  exists dss. split; [|split].
  - unfold colour_singlets_one. cbv zeta. rewrite <- Eu, <- Ed, En, Em. destruct (Nat.eqb_spec n 3); [contradiction|]. rewrite Nat.eqb_refl. cbn [andb negb bind]. rewrite Es. cbn [bind].
    assert (Ep : map (fun ds => fold_left (fun prod d => op_mul prod [d]) ds op) dss = map (fun ds => op ++ map TSymbol ds) dss) by (apply map_ext; intros ds; now apply fold_op_mul).
    rewrite Ep. destruct (last dss []) as [|[| |[|? [|? [|? ?]]]] [|[| |[|? [|? [|? ?]]]] [|? ?]]]; reflexivity.
  - apply Forall_forall. intros ds I. destruct (Forall2_right _ _ _ Hs ds I) as (p & Ip & Pp & _ & Cds & F).
    destruct (Un (p ++ downs)) as [U1 U2]; [now apply Permutation_app_tail|].
    assert (Ct : contracts ds (p ++ downs)) by (apply pairing_contracts; [rewrite <- (Permutation_length Pp); congruence|exact F]).
    assert (Up : forall i, In i p -> ix_type i = Colour /\ ix_up i = true) by (intros i Ii; apply (Permutation_in _ (Permutation_sym Pp)) in Ii; apply Lu in Ii; tauto).
    assert (Dn : forall i, In i downs -> ix_type i = Colour /\ ix_up i = false) by (intros i Ii; apply Ld in Ii; tauto).
    assert (Mt : forall i, In i (flat_map symbol_indices ds) -> exists j, is_free op j /\ counterpart i j).
    { destruct Ct as (l' & Pl & Fl). intros i Ii. destruct (Forall2_right _ _ _ Fl i Ii) as (j & Ij & C). exists j. split; [|now apply ProofsContract.counterpart_sym].
      apply (U2 j). eapply Permutation_in; [exact Pl|exact Ij]. }
    split; [now apply contracted_all with (l := p ++ downs)|]. split; [|split; [|split]].
    + apply Spec.Forall2_len in F. rewrite <- F, combine_length, <- (Permutation_length Pp). rewrite En, Em. apply Nat.min_id.
    + apply Forall_forall. intros d Id. destruct (Forall2_right _ _ _ F d Id) as ([x y] & Ixy & a & b & -> & (_ & Ta & Ua) & (_ & Tb & Ub)). cbn [fst snd] in *.
      rewrite Forall_forall in Cds. specialize (Cds _ Id). cbn [symbol_indices] in Cds. exists a, b. split; [reflexivity|].
      destruct (Up x) as [Tx Ux]; [now apply in_combine_l in Ixy|]. destruct (Dn y) as [Ty Uy]; [now apply in_combine_r in Ixy|].
      split; [now apply (Forall_inv Cds)|]. split; [now apply (Forall_inv (Forall_inv_tail Cds))|]. rewrite Ta, Tb, Ua, Ub, Tx, Ty, Ux, Uy. auto.
    + intros i Ii. destruct (Mt i Ii) as (j & [Fj _] & C). exists j. auto.
    + intros i j Ii Ij C. destruct (Mt i Ii) as (i' & Fi & Ci). destruct (Mt j Ij) as (j' & Fj & Cj). destruct Fi as [_ Fi]. apply (Fi j'); [apply Fj|].
      destruct C as (C1 & C2 & C3), Ci as (D1 & D2 & D3), Cj as (E1 & E2 & E3). split; [congruence|]. split; [congruence|]. rewrite E3, D3, C3. reflexivity.
  - apply Spec.Forall2_len in Hs. rewrite <- Hs, permutations_count. now rewrite En.
Qed.

Lemma delta_count n ds : List.length ds = n ->
  Forall (fun d => exists a b, d = DeltaC [a; b] /\ clean a /\ clean b /\ ix_type a = Colour /\ ix_type b = Colour /\ ix_up a = true /\ ix_up b = false) ds ->
  forall up, count_kind Colour up (flat_map symbol_indices ds) = n.
Proof.
  intros <- F up. induction F as [|d ds (a & b & -> & _ & _ & Ta & Tb & Ua & Ub) F IH]; [reflexivity|].
  cbn [flat_map symbol_indices app List.length]. rewrite !count_kind_cons, Ta, Tb, Ua, Ub, IH. now destruct up.
Qed.

Lemma met_name op i : met (op_indices op) i -> exists j, In j (op_indices op) /\ ix_name i = ix_name j.
Proof. intros (j & J & C & _). exists j. auto. Qed.

Lemma invariant_deltas n op ds : colour_open n op -> n <= 5 -> delta_set op n ds -> invariant_operator (plain_fields op) (epsilons op ++ ds).
Proof.
  intros O L (C & Len & F & M & U). apply (invariant_with n); auto.
  - eapply Forall_impl; [|exact F]. intros d (a & b & -> & Ca & Cb & Ta & Tb & _). split.
    + split; [cbn [symbol_indices]; auto|now left].
    + cbn [symbol_indices]. intros i [<-|[<-|[]]]; assumption.
  - intros up. now rewrite (delta_count n ds Len F).
  - intros e i Ie Ii (j & Ij & Cij). exfalso. apply (U i j); auto. apply in_flat_map. eauto.
  - intros i I. destruct (met_name op i (M i I)) as (j & J & ->). now apply (oo_names n op O).
Qed.

Lemma fresh_no_caret t k : ~ In "^"%char (fresh_name t k).
Proof.
  unfold fresh_name. cbn [In]. intros [E|I].
  - destruct t; discriminate.
  - apply in_app_iff in I as [I|I].
    + pose proof (show_digits k) as D. rewrite Forall_forall in D. specialize (D _ I). apply digit_char in D. cbn in D. lia.
    + cbn in I. destruct I as [E|[]]. discriminate.
Qed.

Lemma symbols_inj l l' : map TSymbol l = map TSymbol l' -> l = l'.
Proof. revert l'. induction l as [|x l IH]; intros [|y l'] E; try discriminate; [reflexivity|]. cbn in E. injection E as -> E. f_equal. auto. Qed.

(** ** All colour singlets *)

Theorem colour_results n op st : colour_open n op -> n <= 5 -> n <> 3 -> (n = 2 -> forall i, In i (op_indices op) -> ix_name i <> fresh_name Colour (st Colour)) ->
  exists cops st', colour_singlets true [op] st = Ok (cops, st') /\ List.length cops = fact n + (if n =? 2 then 1 else 0) /\
    forall r, In r cops -> exists ss, r = op ++ map TSymbol ss /\ contracted_type Colour op r /\ invariant_operator (plain_fields op) (epsilons op ++ ss).
Proof.
  intros O L5 N3 Fr. destruct (deltas n op st O N3) as (dss & E1 & Fd & Ld). rewrite Forall_forall in Fd.
  destruct (C31_overcomplete op st n n (oo_normal n op O) (oo_proper n op O) (oo_clean n op O) (oo_ups n op O) (oo_downs n op O)) as (Same & Two).
  cbn [colour_singlets].
  assert (Base : forall r, In r (map (fun ds => op ++ map TSymbol ds) dss) -> exists ss, r = op ++ map TSymbol ss /\ contracted_type Colour op r /\ invariant_operator (plain_fields op) (epsilons op ++ ss)).
  { intros r I. apply in_map_iff in I as (ds & <- & I). exists ds. split; [reflexivity|]. pose proof (Fd ds I) as D. split; [apply D|]. now apply (invariant_deltas n). }
  destruct (Nat.eqb_spec n 2) as [E2|E2].
  - specialize (Fr E2). destruct (Two E2 E2 Fr) as (rs & a & b & d & a' & b' & d' & st' & R1 & R2 & Cd & Ct & Nd & Td & Ud & Cl & w & x & w' & x' & Iw & Sl & Fu & Fdn).
    rewrite R1 in E1. injection E1 as ->. rewrite R2. cbn [bind fst snd]. rewrite app_nil_r. do 2 eexists. split; [reflexivity|]. split; [rewrite app_length, map_length, Ld; reflexivity|].
    intros r I. apply in_app_iff in I as [I|[<-|[]]]; [now apply Base|]. exists [EpsC [a; b; d]; EpsC [a'; b'; d']]. split; [reflexivity|]. split; [exact Ct|].
    apply in_map_iff in Iw as (ds & Ew & Ids). apply app_inv_head, symbols_inj in Ew. subst ds. destruct (Fd _ Ids) as (_ & _ & _ & Mt & Un). cbn [flat_map symbol_indices app] in Mt, Un.
    cbn [map] in Sl. injection Sl as N1 T1 U1 N2 T2 U2 N3' T3 U3 N4 T4 U4.
    pose proof (Forall_inv Fu) as [Tw Uw]. pose proof (Forall_inv (Forall_inv_tail Fu)) as [Tx Ux]. pose proof (Forall_inv Fdn) as [Tw' Uw']. pose proof (Forall_inv (Forall_inv_tail Fdn)) as [Tx' Ux'].
    destruct Cd as (Cd1 & Cd2 & Cd3). rewrite Ud in Cd3. cbn in Cd3.
    assert (Old : forall i, In i [w; w'; x; x'] -> exists j, In j (op_indices op) /\ ix_name i = ix_name j) by (intros i I; apply met_name, Mt, I).
    assert (Nf : forall i, In i [w; w'; x; x'] -> ix_name i <> fresh_name Colour (st Colour)) by (intros i I E; destruct (Old i I) as (j & J & Ej); apply (Fr j J); congruence).
    assert (Un' : forall i j i' j', In i [w; w'; x; x'] -> In j [w; w'; x; x'] -> slot i' = slot i -> slot j' = slot j -> ~ counterpart i' j').
    { intros i j i' j' Ii Ij Si Sj (C1 & C2 & C3). apply (Un i j Ii Ij). unfold slot in Si, Sj. injection Si as A1 A2 A3. injection Sj as B1 B2 B3. split; [congruence|]. split; [congruence|]. congruence. }
    apply (invariant_with n); auto.
    + assert (K : forall p q s, clean p -> clean q -> clean s -> ix_type p = Colour -> ix_type q = Colour -> ix_type s = Colour ->
          symbol_ok (EpsC [p; q; s]) /\ (forall i, In i (symbol_indices (EpsC [p; q; s])) -> ix_type i = Colour)).
      { intros p q s C1 C2 C3 X1 X2 X3. split; [split; [cbn [symbol_indices]; auto|now right]|]. cbn [symbol_indices]. intros i [<-|[<-|[<-|[]]]]; assumption. }
      inversion Cl as [|? ? Ca Cl1]; subst. inversion Cl1 as [|? ? Cb Cl2]; subst. inversion Cl2 as [|? ? Cd0 Cl3]; subst. inversion Cl3 as [|? ? Ca' Cl4]; subst. inversion Cl4 as [|? ? Cb' Cl5]; subst. inversion Cl5 as [|? ? Cd' _]; subst.
      constructor; [apply K; congruence|]. constructor; [apply K; congruence|constructor].
    + intros up. cbn [flat_map symbol_indices app]. rewrite !count_kind_cons. rewrite U1, U2, U3, U4, Ud, Cd3, Uw, Ux, Uw', Ux'. destruct up; cbn [Bool.eqb]; rewrite ?andb_false_r; cbn [count_kind filter List.length];
      repeat match goal with |- context[if ?c then _ else _] => destruct c end; cbn; lia.
    + intros e i Ie Ii (j & Ij & Cij). cbn [flat_map symbol_indices app] in Ij.
      assert (Six : forall k, In k [a; b; d; a'; b'; d'] -> met [a; b; d; a'; b'; d'] k -> ix_name k = fresh_name Colour (st Colour)).
      { clear e i j Ie Ii Ij Cij. intros k K (m & M & C).
        assert (Cases : forall y, In y [a; b; d; a'; b'; d'] -> (exists z, In z [w; w'; x; x'] /\ slot y = slot z) \/ ix_name y = fresh_name Colour (st Colour)).
        { intros y [<-|[<-|[<-|[<-|[<-|[<-|[]]]]]]].
          - left. exists w. split; [now left|unfold slot; congruence].
          - left. exists x. split; [right; right; now left|unfold slot; congruence].
          - now right.
          - left. exists w'. split; [right; now left|unfold slot; congruence].
          - left. exists x'. split; [right; right; right; now left|unfold slot; congruence].
          - right. congruence. }
        destruct (Cases k K) as [(z & Iz & Sz)|E]; [|exact E]. destruct (Cases m M) as [(z' & Iz' & Sz')|E'].
        - exfalso. now apply (Un' z z' k m).
        - exfalso. apply (Nf z Iz). destruct C as (C & _). unfold slot in Sz. injection Sz as Sz _ _. congruence. }
      assert (Ne : forall y z, In z [w; w'; x; x'] -> slot y = slot z -> ix_name y <> fresh_name Colour (st Colour)).
      { intros y z Iz Sz E. apply (Nf z Iz). unfold slot in Sz. injection Sz as Sz _ _. congruence. }
      assert (All : forall k, In k (symbol_indices (EpsC [a; b; d])) \/ In k (symbol_indices (EpsC [a'; b'; d'])) -> In k [a; b; d; a'; b'; d']).
      { cbn [symbol_indices]. intros k [K|K]; [change [a; b; d; a'; b'; d'] with ([a; b; d] ++ [a'; b'; d'])|change [a; b; d; a'; b'; d'] with ([a; b; d] ++ [a'; b'; d'])]; apply in_app_iff; auto. }
      assert (Na : ix_name a <> fresh_name Colour (st Colour)) by (apply (Ne a w); [now left|unfold slot; congruence]).
      assert (Nb : ix_name b <> fresh_name Colour (st Colour)) by (apply (Ne b x); [right; right; now left|unfold slot; congruence]).
      assert (Na' : ix_name a' <> fresh_name Colour (st Colour)) by (apply (Ne a' w'); [right; now left|unfold slot; congruence]).
      assert (Nb' : ix_name b' <> fresh_name Colour (st Colour)) by (apply (Ne b' x'); [right; right; right; now left|unfold slot; congruence]).
      assert (Only : forall e, In e [EpsC [a; b; d]; EpsC [a'; b'; d']] -> List.length (symbol_indices e) = 3 /\
                exists z, forall k, In k (symbol_indices e) -> met (flat_map symbol_indices [EpsC [a; b; d]; EpsC [a'; b'; d']]) k -> k = z).
      { intros e0 [<-|[<-|[]]]; (split; [reflexivity|]).
        - exists d. intros k K M. cbn [flat_map symbol_indices app] in M. assert (H : ix_name k = fresh_name Colour (st Colour)) by (apply Six; [apply All; now left|exact M]).
          cbn [symbol_indices] in K. destruct K as [<-|[<-|[<-|[]]]]; [contradiction|contradiction|reflexivity].
        - exists d'. intros k K M. cbn [flat_map symbol_indices app] in M. assert (H : ix_name k = fresh_name Colour (st Colour)) by (apply Six; [apply All; now right|exact M]).
          cbn [symbol_indices] in K. destruct K as [<-|[<-|[<-|[]]]]; [contradiction|contradiction|reflexivity]. }
      destruct (Only e Ie) as (L3 & z & Hz). split; [exact L3|]. intros k K M. rewrite (Hz k K M). rewrite (Hz i Ii); [reflexivity|]. exists j. auto.
    + cbn [flat_map symbol_indices app]. intros i I. assert (Nc : forall z y, In z [w; w'; x; x'] -> ix_name y = ix_name z -> ~ In "^"%char (ix_name y)).
      { intros z y Iz ->. destruct (Old z Iz) as (j & J & ->). now apply (oo_names n op O). }
      destruct I as [<-|[<-|[<-|[<-|[<-|[<-|[]]]]]]].
      * apply (Nc w); [now left|congruence].
      * apply (Nc x); [right; right; now left|congruence].
      * rewrite Nd. apply fresh_no_caret.
      * apply (Nc w'); [right; now left|congruence].
      * apply (Nc x'); [right; right; right; now left|congruence].
      * rewrite Cd1, Nd. apply fresh_no_caret.
  - rewrite Same by tauto. rewrite E1. cbn [bind fst snd]. rewrite app_nil_r. do 2 eexists. split; [reflexivity|]. split; [rewrite map_length, Ld; lia|exact Base].
Qed.
