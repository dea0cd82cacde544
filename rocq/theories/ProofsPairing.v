(** * ProofsPairing: every contraction of fields with at most one index is constructed *)

From Coq Require Import Ascii String List Bool Arith ZArith QArith Qcanon Lia Permutation.
From Verif Require Import Base BaseFacts Show ModelFunctions ModelIndex SpecIndex ProofsIndex ModelField SpecField ProofsField ProofsField2 PropsField2
  ModelContract SpecContract ProofsContract PropsContract PropsContract2 PropsContract3 PropsContract4 SpecInvariants SpecPaper SpecPairing.
Import ListNotations.
Local Open Scope nat_scope.

Lemma fields_in_eq op : fields_in op = indexed_fields op. Proof. reflexivity. Qed.
Lemma symbols_in_eq op : symbols_in op = epsilons op. Proof. reflexivity. Qed.

(** ** One step: the metrics of one type *)

(** what the metrics of one type are when the right factor has at most one index *)
Lemma helper_one l r t nl nr n :
  object_ok l -> object_ok r -> su2_type t -> number (obj_tensors l) t true nl -> number (obj_tensors r) t true nr -> nr <= 1 ->
  (n = nl + nr -> contract_helper l r n t = Ok [[]]) /\
  (S n = nl -> nr = 1 -> exists ess, contract_helper l r n t = Ok ess /\
     (forall a b, is_free (obj_tensors l) a -> ix_type a = t -> ix_up a = true -> is_free (obj_tensors r) b -> ix_type b = t -> ix_up b = true ->
        exists x y, In [Metric t [x; y]] ess /\ (counterpart a x /\ counterpart b y \/ counterpart b x /\ counterpart a y)) /\
     (forall es, In es ess -> exists a b x y, is_free (obj_tensors l) a /\ ix_type a = t /\ ix_up a = true /\ is_free (obj_tensors r) b /\ ix_type b = t /\ ix_up b = true /\
        es = [Metric t [x; y]] /\ (counterpart a x /\ counterpart b y \/ counterpart b x /\ counterpart a y))).
Proof.
  intros Ol Or Ht Nl Nr Le. destruct (C33_helper l r t nl nr n Ol Or Ht Nl Nr) as (_ & _ & H0 & H1). split; [exact H0|].
  intros En ->. destruct (H1 1) as (longer & shorter & perms & ess & Ls & E & _ & Hm); [lia|lia|]. destruct Hm as (_ & Hp & F); [lia|]. exists ess. split; [exact E|].
  assert (One : forall k l', lists (obj_tensors k) t true l' -> number (obj_tensors k) t true 1 -> forall b, is_free (obj_tensors k) b -> ix_type b = t -> ix_up b = true -> l' = [b]).
  { intros k l' L N b Fb Tb Ub. pose proof (number_length _ _ _ _ _ N L) as Ln. destruct l' as [|b' [|]]; try discriminate Ln. destruct L as [_ L].
    assert (I : In b [b']) by (apply L; auto). destruct I as [->|[]]. reflexivity. }
  assert (Jn : forall p q es, joins t [(p, q)] es -> exists x y, es = [Metric t [x; y]] /\ counterpart p x /\ counterpart q y).
  { intros p q es J. inversion J as [|? ? ? ? (x & y & -> & C1 & C2) J2]; subst. inversion J2; subst. exists x, y. auto. }
  destruct (1 <? nl) eqn:C; destruct Ls as [L1 L2].
  - split.
    + intros a b Fa Ta Ua Fb Tb Ub. rewrite (One r shorter L2 Nr b Fb Tb Ub) in F. assert (Ia : In a longer) by (apply L1; auto). apply in_split in Ia as (u & v & Eu).
      assert (Ip : In (a :: u ++ v) perms) by (apply Hp; rewrite Eu; symmetry; apply Permutation_middle).
      clear -F Ip Jn. induction F as [|p es perms ess [J _] F IH]; [destruct Ip|]. destruct Ip as [->|Ip].
      * cbn [firstn combine] in J. destruct (Jn _ _ _ J) as (x & y & -> & C1 & C2). exists x, y. split; [now left|]. now left.
      * destruct (IH Ip) as (x & y & I & H). exists x, y. split; [now right|exact H].
    + intros es I. assert (X : exists p, In p perms /\ joins t (combine (firstn 1 p) (firstn 1 shorter)) es).
      { clear -F I. induction F as [|p e perms ess [J _] F IH]; [destruct I|]. destruct I as [->|I]; [exists p; split; [now left|exact J]|]. destruct (IH I) as (p' & I' & J'). exists p'. split; [now right|exact J']. }
      destruct X as (p & Ip & J). apply Hp in Ip. pose proof (number_length _ _ _ _ _ Nr L2) as Ln. destruct shorter as [|b [|]]; try discriminate Ln.
      pose proof (number_length _ _ _ _ _ Nl L1) as Ll. apply Nat.ltb_lt in C. destruct p as [|a p]; [apply Permutation_sym, Permutation_nil in Ip; subst longer; cbn in Ll; lia|].
      cbn [firstn combine] in J. destruct (Jn _ _ _ J) as (x & y & -> & C1 & C2).
      destruct L1 as [_ L1], L2 as [_ L2]. assert (Ia : In a longer) by (eapply Permutation_in; [symmetry; exact Ip|now left]). apply L1 in Ia as (A1 & A2 & A3). destruct (proj1 (L2 b) (or_introl eq_refl)) as (B1 & B2 & B3).
      exists a, b, x, y. repeat (split; [assumption|]). split; [reflexivity|]. now left.
  - apply Nat.ltb_ge in C. assert (E1 : nl = 1) by lia. rewrite E1 in Nl. split.
    + intros a b Fa Ta Ua Fb Tb Ub. rewrite (One r longer L1 Nr b Fb Tb Ub) in *. rewrite (One l shorter L2 Nl a Fa Ta Ua) in F.
      assert (Ip : In [b] perms) by (apply Hp; reflexivity).
      clear -F Ip Jn. induction F as [|p es perms ess [J _] F IH]; [destruct Ip|]. destruct Ip as [->|Ip].
      * cbn [firstn combine] in J. destruct (Jn _ _ _ J) as (x & y & -> & C1 & C2). exists x, y. split; [now left|]. now right.
      * destruct (IH Ip) as (x & y & I & H). exists x, y. split; [now right|exact H].
    + intros es I. assert (X : exists p, In p perms /\ joins t (combine (firstn 1 p) (firstn 1 shorter)) es).
      { clear -F I. induction F as [|p e perms ess [J _] F IH]; [destruct I|]. destruct I as [->|I]; [exists p; split; [now left|exact J]|]. destruct (IH I) as (p' & I' & J'). exists p'. split; [now right|exact J']. }
      destruct X as (p & Ip & J). apply Hp in Ip. pose proof (number_length _ _ _ _ _ Nl L2) as Ln. destruct shorter as [|a [|]]; try discriminate Ln.
      pose proof (number_length _ _ _ _ _ Nr L1) as Ll. destruct longer as [|b [|]]; try discriminate Ll. apply Permutation_length_1_inv in Ip. subst p.
      cbn [firstn combine] in J. destruct (Jn _ _ _ J) as (x & y & -> & C1 & C2).
      destruct L1 as [_ L1], L2 as [_ L2]. destruct (proj1 (L1 b) (or_introl eq_refl)) as (B1 & B2 & B3). destruct (proj1 (L2 a) (or_introl eq_refl)) as (A1 & A2 & A3).
      exists a, b, x, y. repeat (split; [assumption|]). split; [reflexivity|]. now right.
Qed.

(** the results of a contraction, by the metrics chosen *)
Lemma contract_exact l r p q c d e ignore st rs st' : p < 10 -> q < 10 -> e < 10 ->
  contract_su2 (CObj l) (CObj r) (five p q c d e) ignore st = Ok (rs, st') ->
  exists ess : itype -> list (list symbol),
    (forall t, su2_type t -> if ignore t then ess t = [[]] else contract_helper l r (label_at t p q e) t = Ok (ess t)) /\
    forall op, In op rs <-> exists es : itype -> list symbol, (forall t, su2_type t -> In (es t) (ess t)) /\
      op = op_mul (op_mul (op_mul (obj_mul l r) (es Undotted)) (es Dotted)) (es Isospin).
Proof.
  intros Hp Hq He E. unfold contract_su2 in E. cbn [make_indexed bind fst snd] in E.
  assert (SU : su2_type Undotted) by (red; auto). assert (SD : su2_type Dotted) by (red; auto). assert (SI : su2_type Isospin) by (red; auto).
  set (h := fun t => if ignore t then Ok [[]] else contract_su2_helper l r (five p q c d e) t) in E.
  cbn [mapM] in E. destruct (h Undotted) as [us|] eqn:Eu; [|discriminate E]. destruct (h Dotted) as [ds|] eqn:Ed; [|discriminate E]. destruct (h Isospin) as [is|] eqn:Ei; [|discriminate E].
  cbn [bind] in E. injection E as E _.
  exists (fun t => match t with Undotted => us | Dotted => ds | _ => is end). split.
  - intros t Ht. assert (G : h t = Ok (match t with Undotted => us | Dotted => ds | _ => is end)) by (destruct Ht as [-> | [-> | ->]]; assumption).
    unfold h in G. destruct (ignore t); [congruence|]. now rewrite su2_helper_five in G by assumption.
  - intros op. rewrite <- E. split.
    + intros I. apply in_flat_map in I as (u & Iu & I). apply in_flat_map in I as (d' & Id & I). apply in_map_iff in I as (i' & <- & Ii).
      exists (fun t => match t with Undotted => u | Dotted => d' | _ => i' end). split; [|reflexivity]. intros t [-> | [-> | ->]]; assumption.
    + intros (es & H & ->). apply in_flat_map. exists (es Undotted). split; [exact (H _ SU)|]. apply in_flat_map. exists (es Dotted). split; [exact (H _ SD)|]. apply in_map_iff. exists (es Isospin). split; [reflexivity|exact (H _ SI)].
Qed.

(** ** Operators and the pairs they join *)

Definition flat2 (J : list (nat * nat)) : list nat := flat_map (fun e => [fst e; snd e]) J.

Section State.
  Variable ignore : itype -> bool.

  (** the indices of the factors are raised, as many as the labels say *)
  Definition carried (op : operator) (fs : list field) : Prop :=
    Forall2 (fun x f => (forall i, In i (i_indices x) -> is_free [TField x] i) /\
                        forall t, su2_type t -> number [TField x] t true (su2_label t f) /\ number [TField x] t false 0) (fields_in op) fs.

  Definition state (op : operator) (fs : list field) (J : itype -> list (nat * nat)) : Prop :=
    normal op /\ proper_op op /\ carried op fs /\
    (forall s, In s (symbols_in op) -> exists t, su2_type t /\ ignore t = false /\ of_type t s = true) /\
    (forall t, su2_type t -> ignore t = false -> Forall2 (between op t) (J t) (filter (of_type t) (symbols_in op)) /\ NoDup (flat2 (J t))).

  Lemma op_indices_normal op : normal op -> op_indices op = flat_map i_indices (fields_in op) ++ flat_map symbol_indices (symbols_in op).
  Proof.
    intros (fs & ss & ->). unfold op_indices, fields_in, symbols_in. rewrite !flat_map_app.
    assert (F1 : forall fs, flat_map tensor_indices (map TField fs) = flat_map i_indices fs) by (induction fs0; cbn; congruence).
    assert (F2 : forall ss, flat_map tensor_indices (map TSymbol ss) = flat_map symbol_indices ss) by (induction ss0; cbn; congruence).
    assert (F3 : forall fs, flat_map (fun t : tensor => match t with TField f => [f] | TSymbol _ => [] end) (map TField fs) = fs) by (induction fs0; cbn; congruence).
    assert (F4 : forall ss, flat_map (fun t : tensor => match t with TField f => [f] | TSymbol _ => [] end) (map TSymbol ss) = []) by (induction ss0; cbn; congruence).
    assert (F5 : forall fs, flat_map (fun t : tensor => match t with TField _ => [] | TSymbol s => [s] end) (map TField fs) = []) by (induction fs0; cbn; congruence).
    assert (F6 : forall ss, flat_map (fun t : tensor => match t with TField _ => [] | TSymbol s => [s] end) (map TSymbol ss) = ss) by (induction ss0; cbn; congruence).
    now rewrite F1, F2, F3, F4, F5, F6, app_nil_r, app_nil_l.
  Qed.

  Lemma positions_inj (l : list ifield) : NoDup (map slot (flat_map i_indices l)) -> forall n n' x x' i i',
    nth_error l n = Some x -> nth_error l n' = Some x' -> In i (i_indices x) -> In i' (i_indices x') -> slot i = slot i' -> n = n'.
  Proof.
    induction l as [|y l IH]; intros N n n' x x' i i' E E' I I' S; [destruct n; discriminate E|].
    cbn [flat_map] in N. rewrite map_app in N.
    assert (D : forall a b, In a (i_indices y) -> In b (flat_map i_indices l) -> slot a <> slot b).
    { clear -N. induction (i_indices y) as [|c l' IH]; intros a b Ia Ib; [destruct Ia|]. cbn in N. inversion N as [|? ? N1 N2]; subst. destruct Ia as [<-|Ia]; [|now apply IH].
      intros Q. apply N1. apply in_or_app. right. rewrite Q. now apply in_map. }
    assert (N' : NoDup (map slot (flat_map i_indices l))).
    { clear -N. induction (map slot (i_indices y)) as [|c l' IH]; [exact N|]. cbn in N. inversion N; subst. auto. }
    destruct n as [|n], n' as [|n']; cbn in E, E'; [reflexivity| | |f_equal; eapply IH; eassumption].
    - injection E as ->. exfalso. apply (D i i' I); [|exact S]. apply in_flat_map. exists x'. split; [now apply nth_error_In in E'|exact I'].
    - injection E' as ->. exfalso. apply (D i' i I'); [|now symmetry]. apply in_flat_map. exists x. split; [now apply nth_error_In in E|exact I].
  Qed.

  Lemma has_index_inj op n n' t a a' : normal op -> proper_op op -> has_index op n t a -> has_index op n' t a' -> slot a = slot a' -> n = n'.
  Proof.
    intros N P (x & E & I & _) (x' & E' & I' & _) S. unfold proper_op in P. rewrite (op_indices_normal op N), map_app in P.
    assert (P' : NoDup (map slot (flat_map i_indices (fields_in op)))).
    { clear -P. induction (map slot (flat_map i_indices (fields_in op))) as [|c l IH]; [constructor|]. cbn in P. inversion P as [|? ? P1 P2]; subst. constructor; [|auto]. intros I. apply P1. apply in_or_app. now left. }
    eapply positions_inj; eassumption.
  Qed.

  Lemma carried_up op fs n t a : carried op fs -> su2_type t -> has_index op n t a -> ix_up a = true.
  Proof.
    intros C Ht (x & E & I & T). unfold carried in C. revert n E. induction C as [|y f l fs [Fr H] C IH]; intros n E; [destruct n; discriminate E|]. destruct n as [|n]; cbn in E; [|eauto].
    injection E as ->. destruct (ix_up a) eqn:U; [reflexivity|]. exfalso. destruct (H t Ht) as [_ (l' & [_ L] & Ln)]. destruct l'; [|discriminate Ln]. apply (L a). auto.
  Qed.

  Lemma carried_index op fs n t f : carried op fs -> su2_type t -> nth_error fs n = Some f -> su2_label t f = 1 -> exists a, has_index op n t a.
  Proof.
    intros C Ht E Lb. unfold carried in C. assert (X : exists x a, nth_error (fields_in op) n = Some x /\ In a (i_indices x) /\ ix_type a = t).
    { revert n E. induction C as [|y g l fs [Fr H] C IH]; intros n E; [destruct n; discriminate E|]. destruct n as [|n]; cbn in E; [|apply (IH n E)].
      injection E as ->. destruct (H t Ht) as [(l' & [_ L] & Ln) _]. rewrite Lb in Ln. destruct l' as [|a l']; [discriminate Ln|]. destruct (proj1 (L a) (or_introl eq_refl)) as ([I _] & T & _). exists y, a. split; [reflexivity|]. split; [|exact T].
      unfold op_indices in I. cbn in I. now rewrite app_nil_r in I. }
    destruct X as (x & a & X). exists a, x. exact X.
  Qed.

  Lemma carried_label op fs n t a : carried op fs -> su2_type t -> has_index op n t a -> (forall f, In f fs -> su2_label t f <= 1) ->
    exists f, nth_error fs n = Some f /\ su2_label t f = 1.
  Proof.
    intros C Ht H Le. pose proof (carried_up _ _ _ _ _ C Ht H) as U. destruct H as (x & E & I & T). unfold carried in C. revert n E. induction C as [|y g l fs [Fr H] C IH]; intros n E; [destruct n; discriminate E|].
    destruct n as [|n]; cbn in E.
    - injection E as ->. exists g. split; [reflexivity|]. destruct (H t Ht) as [(l' & [_ L] & Ln) _]. assert (Ia : In a l') by (apply L; auto). specialize (Le g (or_introl eq_refl)). destruct l'; [destruct Ia|]. cbn in Ln. lia.
    - apply IH; [|exact E]. intros f If. apply Le. now right.
  Qed.

  (** an index that is not joined is free *)
  Lemma open_free op fs J n t a : state op fs J -> su2_type t -> has_index op n t a -> (ignore t = false -> ~ In n (flat2 (J t))) -> is_free op a.
  Proof.
    intros (N & P & C & Sy & Sh) Ht H Nn. pose proof (carried_up _ _ _ _ _ C Ht H) as U. assert (Ha : In a (op_indices op)).
    { destruct H as (x & E & I & T). rewrite (op_indices_normal op N). apply in_or_app. left. apply in_flat_map. exists x. split; [now apply nth_error_In in E|exact I]. }
    split; [exact Ha|]. intros j Ij (C1 & C2 & C3). rewrite U in C3. cbn in C3. assert (T : ix_type a = t) by (destruct H as (x & E & I & T); exact T).
    rewrite (op_indices_normal op N) in Ij. apply in_app_iff in Ij as [Ij|Ij]; apply in_flat_map in Ij as (y & Iy & Ij).
    - apply In_nth_error in Iy as (m & Em). assert (Hj : has_index op m t j) by (exists y; split; [exact Em|]; split; [exact Ij|congruence]). pose proof (carried_up _ _ _ _ _ C Ht Hj). congruence.
    - destruct (Sy y Iy) as (t' & Ht' & Ig & O). destruct (Sh t' Ht' Ig) as [F _].
      assert (If : In y (filter (of_type t') (symbols_in op))) by (apply filter_In; auto).
      assert (X : exists e, In e (J t') /\ between op t' e y).
      { clear -F If. induction F as [|e s J0 l B F IH]; [destruct If|]. destruct If as [->|If]; [exists e; split; [now left|exact B]|]. destruct (IH If) as (e' & I & B'). exists e'. split; [now right|exact B']. }
      destruct X as ([m m'] & Ie & (b & b' & z & z' & Hb & Hb' & -> & Cs)). cbn [fst snd] in Hb, Hb'. cbn [symbol_indices] in Ij.
      assert (K : forall n' c w, has_index op n' t' c -> counterpart c w -> w = j -> t' = t /\ (n = n')).
      { intros n' c w Hc (K1 & K2 & K3) ->. assert (Tc : ix_type c = t') by (destruct Hc as (? & _ & _ & Tc); exact Tc). assert (Tt : t' = t) by congruence. split; [exact Tt|]. rewrite Tt in Hc.
        apply (has_index_inj op n n' t a c N P H Hc). unfold slot. pose proof (carried_up _ _ _ _ _ C Ht Hc). congruence. }
      assert (In m (flat2 (J t')) /\ In m' (flat2 (J t'))) as [Im Im'].
      { split; apply in_flat_map; exists (m, m'); (split; [exact Ie|]); [now left|right; now left]. }
      destruct Cs as [[D1 D2]|[D1 D2]]; destruct Ij as [Q|[Q|[]]];
        match goal with
        | D1 : counterpart ?c ?w, Q : ?w = j, Hc : has_index op ?n' t' ?c |- _ => destruct (K n' c w Hc D1 Q) as [-> ->]; now apply Nn
        end.
  Qed.

  Lemma carried_length op fs : carried op fs -> List.length (fields_in op) = List.length fs.
  Proof. unfold carried. induction 1; cbn; congruence. Qed.

  Lemma has_index_lt op fs n t a : carried op fs -> has_index op n t a -> n < List.length fs.
  Proof. intros C (x & E & _). rewrite <- (carried_length _ _ C). apply nth_error_Some. congruence. Qed.

  Lemma carried_unique op fs n t a a' : carried op fs -> su2_type t -> has_index op n t a -> has_index op n t a' -> (forall f, In f fs -> su2_label t f <= 1) -> a = a'.
  Proof.
    intros C Ht H H' Le. pose proof (carried_up _ _ _ _ _ C Ht H) as U. pose proof (carried_up _ _ _ _ _ C Ht H') as U'.
    destruct H as (x & E & I & T), H' as (x' & E' & I' & T'). rewrite E in E'. injection E' as <-. unfold carried in C. revert n E. induction C as [|y g l fs [Fr H] C IH]; intros n E; [destruct n; discriminate E|].
    destruct n as [|n]; cbn in E; [|apply (IH (fun f If => Le f (or_intror If)) n E)]. injection E as ->. destruct (H t Ht) as [(l' & [_ L] & Ln) _]. specialize (Le g (or_introl eq_refl)).
    assert (In a l') by (apply L; auto). assert (In a' l') by (apply L; auto). destruct l' as [|b [|]]; cbn in *; [tauto| |lia]. intuition congruence.
  Qed.

  Lemma joined_bound op fs J t n : state op fs J -> su2_type t -> ignore t = false -> In n (flat2 (J t)) -> exists a, has_index op n t a /\
    exists w, In w (op_indices op) /\ counterpart a w.
  Proof.
    intros (N & P & C & Sy & Sh) Ht Ig I. destruct (Sh t Ht Ig) as [F _]. apply in_flat_map in I as (e & Ie & I).
    assert (X : exists s, In s (symbols_in op) /\ between op t e s).
    { assert (X : exists s, In s (filter (of_type t) (symbols_in op)) /\ between op t e s).
      { clear -F Ie. induction F as [|e' s J0 l B F IH]; [destruct Ie|]. destruct Ie as [->|Ie]; [exists s; split; [now left|exact B]|]. destruct (IH Ie) as (s' & I & B'). exists s'. split; [now right|exact B']. }
      destruct X as (s & Is & B). apply filter_In in Is as [Is _]. eauto. }
    destruct X as (s & Is & (a & b & x & y & Ha & Hb & -> & Cs)).
    assert (Ix : In x (op_indices op) /\ In y (op_indices op)).
    { rewrite (op_indices_normal op N). split; apply in_or_app; right; apply in_flat_map; exists (Metric t [x; y]); (split; [exact Is|]); [now left|right; now left]. }
    destruct I as [<-|[<-|[]]]; [exists a|exists b]; (split; [assumption|]); destruct Cs as [[C1 C2]|[C1 C2]]; (exists x; split; [apply Ix|assumption]) || (exists y; split; [apply Ix|assumption]).
  Qed.

  Lemma open_position op fs J t a : state op fs J -> su2_type t -> ignore t = false -> (forall f, In f fs -> su2_label t f <= 1) ->
    is_free op a -> ix_type a = t -> ix_up a = true -> exists n, has_index op n t a /\ ~ In n (flat2 (J t)).
  Proof.
    intros S Ht Ig Le [Ia Fa] Ta Ua. pose proof S as (N & P & C & Sy & Sh). rewrite (op_indices_normal op N) in Ia. apply in_app_iff in Ia as [Ia|Ia]; apply in_flat_map in Ia as (z & Iz & Ia).
    - apply In_nth_error in Iz as (n & En). assert (H : has_index op n t a) by (exists z; auto). exists n. split; [exact H|]. intros I.
      destruct (joined_bound op fs J t n S Ht Ig I) as (c & Hc & w & Iw & Cw). assert (a = c) by (eapply carried_unique; eassumption). subst c. now apply (Fa w).
    - exfalso. destruct (Sy z Iz) as (t' & Ht' & Ig' & O). destruct (Sh t' Ht' Ig') as [F _].
      assert (If : In z (filter (of_type t') (symbols_in op))) by (apply filter_In; auto).
      assert (X : exists e, between op t' e z).
      { clear -F If. induction F as [|e s J0 l B F IH]; [destruct If|]. destruct If as [->|If]; [now exists e|auto]. }
      destruct X as (e & (c & c' & x & y & Hc & Hc' & -> & Cs)). cbn [symbol_indices] in Ia. pose proof (carried_up _ _ _ _ _ C Ht' Hc). pose proof (carried_up _ _ _ _ _ C Ht' Hc').
      destruct Cs as [[(_ & _ & D1) (_ & _ & D2)]|[(_ & _ & D1) (_ & _ & D2)]]; destruct Ia as [<-|[<-|[]]]; rewrite ?H, ?H0 in *; cbn in *; congruence.
  Qed.

  (** ** A step *)

  Definition fits (op : operator) (x : ifield) (k : nat) (t : itype) (J : list (nat * nat)) (add : list (nat * nat)) (es : list symbol) : Prop :=
    add = [] /\ es = [] \/
    exists i a b y z, add = [(i, k)] /\ has_index op i t a /\ In b (i_indices x) /\ ix_type b = t /\ es = [Metric t [y; z]] /\
      (counterpart a y /\ counterpart b z \/ counterpart b y /\ counterpart a z) /\ ~ In i (flat2 J).

  Lemma fields_in_app a b : fields_in (a ++ b) = fields_in a ++ fields_in b. Proof. apply flat_map_app. Qed.
  Lemma symbols_in_app a b : symbols_in (a ++ b) = symbols_in a ++ symbols_in b. Proof. apply flat_map_app. Qed.
  Lemma fields_in_symbols ss : fields_in (map TSymbol ss) = []. Proof. induction ss; [reflexivity|assumption]. Qed.
  Lemma symbols_in_symbols ss : symbols_in (map TSymbol ss) = ss. Proof. induction ss as [|s ss IH]; [reflexivity|]. cbn [map symbols_in flat_map app]. f_equal. exact IH. Qed.

  Lemma flat2_app a b : flat2 (a ++ b) = flat2 a ++ flat2 b. Proof. apply flat_map_app. Qed.

  Lemma assemble o x fs g J add (es : itype -> list symbol) :
    state (obj_tensors o) fs J -> object_ok o -> object_ok (OField x) -> apart (obj_tensors o) [TField x] ->
    (forall t, su2_type t -> number [TField x] t true (su2_label t g) /\ number [TField x] t false 0) ->
    let op' := op_mul (op_mul (op_mul (obj_mul o (OField x)) (es Undotted)) (es Dotted)) (es Isospin) in
    proper_op op' ->
    (forall t, su2_type t -> if ignore t then es t = [] else fits (obj_tensors o) x (List.length fs) t (J t) (add t) (es t)) ->
    state op' (fs ++ [g]) (fun t => J t ++ add t).
  Proof.
    intros S Oo Ox Ap Nx op' Pr Fit. pose proof S as (N & P & C & Sy & Sh).
    destruct (obj_mul_facts o (OField x)) as (M1 & _ & _ & M2 & M3 & _); [apply Oo|apply Ox|apply Oo|apply Ox|exact Ap|]. set (m := obj_mul o (OField x)) in *.
    assert (E' : op' = m ++ map TSymbol (es Undotted ++ es Dotted ++ es Isospin)).
    { unfold op'. rewrite (op_mul_normal m) by exact M1. rewrite (op_mul_normal (m ++ _)) by now apply normal_app. rewrite op_mul_normal by (repeat apply normal_app; exact M1). rewrite !map_app, <- !app_assoc. reflexivity. }
    assert (Ef : fields_in op' = fields_in (obj_tensors o) ++ [x]).
    { rewrite E', fields_in_app, fields_in_symbols, app_nil_r. exact M2. }
    assert (Es : symbols_in op' = symbols_in (obj_tensors o) ++ es Undotted ++ es Dotted ++ es Isospin).
    { rewrite E', symbols_in_app, symbols_in_symbols. f_equal. transitivity (symbols_in (obj_tensors o) ++ []); [exact M3|apply app_nil_r]. }
    assert (Hm : forall n t a, has_index (obj_tensors o) n t a -> has_index op' n t a).
    { intros n t a (y & Ey & H). exists y. split; [|exact H]. rewrite Ef, nth_error_app1; [exact Ey|]. apply nth_error_Some. congruence. }
    assert (Hk : forall t b, In b (i_indices x) -> ix_type b = t -> has_index op' (List.length fs) t b).
    { intros t b I T. exists x. split; [|auto]. rewrite Ef, nth_error_app2; rewrite (carried_length _ _ C); [|lia]. now rewrite Nat.sub_diag. }
    assert (Et : forall t s, su2_type t -> In s (es t) -> ignore t = false /\ forall t', of_type t' s = itype_eqb t t').
    { intros t s Ht I. specialize (Fit t Ht). destruct (ignore t); [rewrite Fit in I; destruct I|]. split; [reflexivity|].
      destruct Fit as [[_ Z]|(i & a & b & y & z & _ & (w & _ & _ & Ta) & _ & Tb & Z & Cs & _)]; rewrite Z in I; [destruct I|]. destruct I as [<-|[]]. intros t'. unfold of_type. cbn [symbol_indices].
      replace (ix_type y) with t; [reflexivity|]. destruct Cs as [[(_ & D & _) _]|[(_ & D & _) _]]; congruence. }
    split; [rewrite E'; now apply normal_app|]. split; [exact Pr|]. split; [|split].
    - unfold carried. rewrite Ef. apply Forall2_app; [exact C|]. constructor; [|constructor]. split; [apply Ox|exact Nx].
    - intros s I. rewrite Es in I. apply in_app_iff in I as [I|I]; [now apply Sy|].
      assert (X : exists t, su2_type t /\ In s (es t)).
      { rewrite !in_app_iff in I. destruct I as [I|[I|I]]; [exists Undotted|exists Dotted|exists Isospin]; (split; [red; auto|exact I]). }
      destruct X as (t & Ht & I'). destruct (Et t s Ht I') as [Ig O]. exists t. split; [exact Ht|]. split; [exact Ig|]. rewrite O. now apply itype_decides.
    - intros t Ht Ig. destruct (Sh t Ht Ig) as [F Nd]. specialize (Fit t Ht). rewrite Ig in Fit. split.
      + rewrite Es, filter_app. apply Forall2_app.
        * clear -F Hm. induction F as [|e s J0 l B F IH]; constructor; [|exact IH]. destruct B as (a & b & y & z & H1 & H2 & H). exists a, b, y, z. split; [now apply Hm|]. split; [now apply Hm|exact H].
        * assert (Z : filter (of_type t) (es Undotted ++ es Dotted ++ es Isospin) = es t).
          { assert (Q : forall t', su2_type t' -> filter (of_type t) (es t') = if itype_eqb t' t then es t' else []).
            { intros t' Ht'. assert (A : forall s, In s (es t') -> of_type t s = itype_eqb t' t) by (intros s I; now apply (Et t' s Ht' I)). destruct (itype_eqb t' t).
              - clear -A. induction (es t') as [|s l IH]; [reflexivity|]. cbn [filter]. rewrite (A s (or_introl eq_refl)). f_equal. apply IH. intros s' I. apply A. now right.
              - clear -A. induction (es t') as [|s l IH]; [reflexivity|]. cbn [filter]. rewrite (A s (or_introl eq_refl)). apply IH. intros s' I. apply A. now right. }
            rewrite !filter_app, !Q by (red; auto). destruct Ht as [-> | [-> | ->]]; cbn [itype_eqb app]; now rewrite ?app_nil_r. }
          rewrite Z. destruct Fit as [[-> ->]|(i & a & b & y & z & -> & Ha & Ib & Tb & -> & Cs & _)]; constructor; [|constructor].
          exists a, b, y, z. cbn [fst snd]. split; [now apply Hm|]. split; [now apply Hk|]. split; [reflexivity|exact Cs].
      + rewrite flat2_app. destruct Fit as [[-> _]|(i & a & b & y & z & -> & Ha & _ & _ & _ & _ & Ni)]; [now rewrite app_nil_r|].
        assert (Lt : forall n, In n (flat2 (J t)) -> n < List.length fs).
        { intros n I. destruct (joined_bound _ fs J t n S Ht Ig I) as (c & Hc & _). eapply has_index_lt; eassumption. }
        pose proof (has_index_lt _ _ _ _ _ C Ha) as Li. cbn. apply (Permutation_NoDup (l := i :: List.length fs :: flat2 (J t))); [apply (Permutation_app_comm [i; List.length fs])|].
        constructor; [intros [I|I]; [lia|contradiction]|]. constructor; [|exact Nd]. intros I. apply Lt in I. lia.
  Qed.

  Definition grows (J : list (nat * nat)) (fs : list field) (t : itype) (cur : nat) (g irrep : field) (add : list (nat * nat)) : Prop :=
    add = [] /\ su2_label t irrep = cur + su2_label t g \/
    exists i f, add = [(i, List.length fs)] /\ ~ In i (flat2 J) /\ nth_error fs i = Some f /\ su2_label t f = 1 /\ su2_label t g = 1 /\ S (su2_label t irrep) = cur.

  Lemma step_exact o fs cur g irrep st ops st' J :
    object_ok o -> good st fs cur (obj_tensors o) -> state (obj_tensors o) fs J -> well_made g -> labelled irrep ->
    (forall t, su2_type t -> ignore t = false -> forall f, In f (fs ++ [g]) -> su2_label t f <= 1) ->
    (forall t, su2_type t -> ignore t = false -> triangle (cur t) (su2_label t g) (su2_label t irrep)) ->
    contract_su2 (CObj o) (CField g) (f_dynkin irrep) ignore st = Ok (ops, st') ->
    (forall add, (forall t, su2_type t -> ignore t = false -> grows (J t) fs t (cur t) g irrep (add t)) ->
       exists op', In op' ops /\ state op' (fs ++ [g]) (fun t => J t ++ add t)) /\
    (forall op', In op' ops -> exists J', state op' (fs ++ [g]) J').
  Proof.
    intros Oo G S Wg Li Le Tri E. pose proof Wg as (a & b & c & d & e & Fo & Rk).
    destruct (contract_step o fs cur g irrep ignore st Oo G Wg Li) as (ops0 & st0 & E0 & _ & Good & _).
    { intros t Ht Ig. destruct (Tri t Ht Ig) as (H1 & _ & _ & k & Hk). split; [exact H1|]. exists (k - su2_label t irrep). lia. }
    rewrite E in E0. injection E0 as <- <-. destruct Li as (p & q & r & s & t0 & Ed & Lt).
    destruct (fresh_object g a b c d e st Fo Rk) as (x & st1 & Ef & Ox & Xf & Mk & Mono & Nx & Cx).
    pose proof G as ((_ & _ & _ & _ & Nu & _) & Old).
    assert (Ap : apart (obj_tensors o) [TField x]).
    { intros i j I Jj Ej. rewrite Forall_forall in Old, Mk. destruct (Old i I) as (t1 & n1 & E1 & L1). unfold op_indices in Jj. cbn in Jj. rewrite app_nil_r in Jj.
      destruct (Mk j Jj) as (t2 & n2 & E2 & L2). rewrite E1, E2 in Ej. apply fresh_name_inj in Ej as [-> ->]. lia. }
    assert (Lab : forall t, su2_label t irrep = label_at t p q t0) by (intros t; apply (su2_label_five _ _ _ r s _ _ Ed Lt)).
    assert (E' : contract_su2 (CObj o) (CObj (OField x)) (five p q r s t0) ignore st1 = Ok (ops, st')).
    { rewrite <- Ed, <- E. unfold contract_su2. cbn [make_indexed bind fst snd]. rewrite Ef. reflexivity. }
    destruct (contract_exact o (OField x) p q r s t0 ignore st1 ops st') as (ess & He & Ho); try tauto. clear E'.
    assert (Bf : forall t bb, su2_type t -> In bb (i_indices x) -> ix_type bb = t -> is_free [TField x] bb /\ ix_up bb = true).
    { intros t bb Ht I T. destruct Ox as (_ & _ & _ & Up & _ & _ & Fr). pose proof (Fr bb I) as F. split; [exact F|]. apply Up; [exact F|]. now rewrite T. }
    assert (Gop : forall op, In op ops -> proper_op op) by (intros op I; rewrite Forall_forall in Good; apply (Good op I)).
    assert (Hone : forall t, su2_type t -> ignore t = false -> (forall f, In f fs -> su2_label t f <= 1) /\ su2_label t g <= 1).
    { intros t Ht Ig. split; [intros f I|]; apply Le; auto; apply in_or_app; [now left|right; now left]. }
    split.
    - intros add Ha.
      assert (X : forall t, su2_type t -> exists es, In es (ess t) /\ if ignore t then es = [] else fits (obj_tensors o) x (List.length fs) t (J t) (add t) es).
      { intros t Ht. specialize (He t Ht). destruct (ignore t) eqn:Ig; [rewrite He; exists []; split; [now left|reflexivity]|]. destruct (Hone t Ht Ig) as [L1 L2].
        destruct (helper_one o (OField x) t (cur t) (su2_label t g) (label_at t p q t0) Oo Ox Ht (proj1 (Nu t Ht)) (proj1 (Nx t Ht)) L2) as [H1 H2].
        rewrite <- Lab in H1, H2, He. destruct (Ha t Ht Ig) as [[A1 A2]|(i & f & A1 & A2 & A3 & A4 & A5 & A6)].
        - rewrite (H1 A2) in He. injection He as <-. exists []. split; [now left|]. left. auto.
        - destruct (H2 A6 A5) as (ess' & E1 & E2 & _). rewrite E1 in He. injection He as <-. pose proof S as (_ & _ & C & _).
          destruct (carried_index _ _ _ _ _ C Ht A3 A4) as (ai & Hai).
          assert (Fa : is_free (obj_tensors o) ai) by (eapply open_free; [exact S|exact Ht|exact Hai|auto]).
          destruct (Nx t Ht) as [(lx & [_ Lx] & Ln) _]. rewrite A5 in Ln. destruct lx as [|bb lx]; [discriminate Ln|]. destruct (proj1 (Lx bb) (or_introl eq_refl)) as (Fb & Tb & Ub).
          destruct (E2 ai bb Fa) as (y & z & I & Cs); auto. { destruct Hai as (? & _ & _ & T); exact T. } { eapply carried_up; eassumption. }
          exists [Metric t [y; z]]. split; [exact I|]. right. exists i, ai, bb, y, z. repeat (split; [assumption|]). split; [|auto].
          destruct Fb as [Ib _]. unfold op_indices in Ib. cbn in Ib. now rewrite app_nil_r in Ib. }
      destruct (X Undotted) as (eu & Iu & Fu); [red; auto|]. destruct (X Dotted) as (ed & Id & Fd); [red; auto|]. destruct (X Isospin) as (ei & Ii & Fi); [red; auto|].
      set (es := fun t => match t with Undotted => eu | Dotted => ed | _ => ei end).
      set (op' := op_mul (op_mul (op_mul (obj_mul o (OField x)) (es Undotted)) (es Dotted)) (es Isospin)).
      assert (Io : In op' ops). { apply Ho. exists es. split; [|reflexivity]. intros t [-> | [-> | ->]]; assumption. }
      exists op'. split; [exact Io|]. apply (assemble o x fs g J add es); auto. intros t [-> | [-> | ->]]; assumption.
    - intros op' Io. pose proof (Gop op' Io) as Pr. apply Ho in Io as (es & Ie & ->).
      assert (X : forall t, su2_type t -> exists add, if ignore t then es t = [] else fits (obj_tensors o) x (List.length fs) t (J t) add (es t)).
      { intros t Ht. specialize (He t Ht). specialize (Ie t Ht). destruct (ignore t) eqn:Ig. { rewrite He in Ie. destruct Ie as [<-|[]]. now exists []. }
        destruct (Hone t Ht Ig) as [L1 L2].
        destruct (helper_one o (OField x) t (cur t) (su2_label t g) (label_at t p q t0) Oo Ox Ht (proj1 (Nu t Ht)) (proj1 (Nx t Ht)) L2) as [H1 H2].
        rewrite <- Lab in H1, H2, He. destruct (Tri t Ht Ig) as (T1 & T2 & T3 & k & Hk).
        destruct (Nat.eq_dec (su2_label t irrep) (cur t + su2_label t g)) as [Q|Q].
        - rewrite (H1 Q) in He. injection He as He. rewrite <- He in Ie. destruct Ie as [<-|[]]. exists []. left. auto.
        - destruct H2 as (ess' & E1 & _ & E2); [lia|lia|]. rewrite E1 in He. injection He as He. rewrite <- He in Ie. destruct (E2 (es t) Ie) as (ai & bb & y & z & Fa & Ta & Ua & Fb & Tb & Ub & -> & Cs).
          destruct (open_position _ fs J t ai S Ht Ig L1 Fa Ta Ua) as (n & Hn & Nn). exists [(n, List.length fs)]. right. exists n, ai, bb, y, z. split; [reflexivity|]. split; [exact Hn|].
          split; [|split; [exact Tb|]; split; [reflexivity|]; split; assumption]. destruct Fb as [Ib _]. unfold op_indices in Ib. cbn in Ib. now rewrite app_nil_r in Ib. }
      destruct (X Undotted) as (au & Fu); [red; auto|]. destruct (X Dotted) as (ad & Fd); [red; auto|]. destruct (X Isospin) as (ai & Fi); [red; auto|].
      exists (fun t => J t ++ match t with Undotted => au | Dotted => ad | _ => ai end).
      apply (assemble o x fs g J (fun t => match t with Undotted => au | Dotted => ad | _ => ai end) es); auto. intros t [-> | [-> | ->]]; assumption.
  Qed.

  (** ** All steps *)

  Lemma contract_all_in fs cur g irrep ops : forall st rs st',
    Forall (good st fs cur) ops -> (forall t, su2_type t -> cur t < 10) -> (forall up, total_label (colour_label up) fs < 10) ->
    well_made g -> labelled irrep -> (forall t, su2_type t -> ignore t = false -> admissible (cur t) (su2_label t g) (su2_label t irrep)) ->
    contract_all (map (fun op => CObj (OOp op)) ops) (PLeaf g) (f_dynkin irrep) ignore st = (Ok (map (fun op => CObj (OOp op)) rs), st') ->
    (forall op, In op ops -> exists st1 l st2, good st1 fs cur op /\ contract_su2 (CObj (OOp op)) (CField g) (f_dynkin irrep) ignore st1 = Ok (l, st2) /\ incl l rs) /\
    (forall r, In r rs -> exists op st1 l st2, In op ops /\ good st1 fs cur op /\ contract_su2 (CObj (OOp op)) (CField g) (f_dynkin irrep) ignore st1 = Ok (l, st2) /\ In r l).
  Proof.
    induction ops as [|op ops IH]; intros st rs st' G Cu Cc Wg Li Ad E.
    - cbn in E. injection E as E _. destruct rs; [|discriminate E]. split; intros ? [].
    - apply Forall_cons_iff in G as [G0 G]. cbn [map contract_all] in E.
      destruct (contract_step (OOp op) fs cur g irrep ignore st (good_object _ _ _ _ G0 Cu Cc) G0 Wg Li Ad) as (l & st1 & E1 & Mo & Gr & _). rewrite E1 in E.
      assert (G' : Forall (good st1 fs cur) ops) by (eapply Forall_impl; [|exact G]; intros o; now apply good_mono).
      destruct (contract_all_ok fs cur g irrep ignore ops st1 G' Cu Cc Wg Li Ad) as (l' & st2 & E2 & _). rewrite E2 in E. rewrite <- map_app in E. injection E as E _.
      assert (Er : rs = l ++ l').
      { clear -E. revert E. generalize (l ++ l'). induction rs as [|r rs IH]; intros [|y l0] E; try discriminate E; [reflexivity|]. cbn in E. injection E as -> E. f_equal. now apply IH. }
      subst rs. destruct (IH st1 l' st2 G' Cu Cc Wg Li Ad E2) as [H1 H2]. split.
      + intros o [<-|I]; [exists st, l, st1; split; [exact G0|]; split; [exact E1|]; now apply incl_appl|].
        destruct (H1 o I) as (s1 & l1 & s2 & A1 & A2 & A3). exists s1, l1, s2. split; [exact A1|]. split; [exact A2|]. now apply incl_appr.
      + intros r I. apply in_app_iff in I as [I|I]; [exists op, st, l, st1; split; [now left|]; auto|].
        destruct (H2 r I) as (o & s1 & l1 & s2 & A1 & A2). exists o, s1, l1, s2. split; [now right|exact A2].
  Qed.

  (** the fields that are added, with the irreps and the pairs they are joined in *)
  Fixpoint plan (fs : list field) (cur : itype -> nat) (J : itype -> list (nat * nat)) (steps : list (field * field)) (adds : list (itype -> list (nat * nat))) : Prop :=
    match steps, adds with
    | [], [] => True
    | (irrep, g) :: steps, add :: adds =>
      (forall t, su2_type t -> ignore t = false -> grows (J t) fs t (cur t) g irrep (add t)) /\
      plan (fs ++ [g]) (next ignore cur (irrep, g)) (fun t => J t ++ add t) steps adds
    | _, _ => False
    end.

  Fixpoint chain_triangle (cur : itype -> nat) (steps : list (field * field)) : Prop :=
    match steps with
    | [] => True
    | s :: r => (forall t, su2_type t -> ignore t = false -> triangle (cur t) (su2_label t (snd s)) (su2_label t (fst s))) /\ chain_triangle (next ignore cur s) r
    end.

  Lemma triangle_admissible0 a b p : triangle a b p -> admissible a b p.
  Proof. intros (H1 & _ & _ & k & Hk). split; [exact H1|]. exists (k - p). lia. Qed.

  Definition joined (J : itype -> list (nat * nat)) (adds : list (itype -> list (nat * nat))) : itype -> list (nat * nat) :=
    fun t => J t ++ flat_map (fun add => add t) adds.

  Lemma state_ext op fs J J' : (forall t, J t = J' t) -> state op fs J -> state op fs J'.
  Proof. intros E (N & P & C & Sy & Sh). split; [exact N|]. split; [exact P|]. split; [exact C|]. split; [exact Sy|]. intros t Ht Ig. rewrite <- E. now apply Sh. Qed.

  Lemma consume_in steps : forall fs cur ops st rs s,
    Forall (good st fs cur) ops -> (forall t, su2_type t -> cur t <= total_label (su2_label t) fs) ->
    Forall (fun s => labelled (fst s) /\ well_made (snd s)) steps ->
    (forall t, su2_type t -> total_label (su2_label t) (fs ++ map snd steps) < 10) -> (forall up, total_label (colour_label up) (fs ++ map snd steps) < 10) ->
    (forall t, su2_type t -> ignore t = false -> forall f, In f (fs ++ map snd steps) -> su2_label t f <= 1) ->
    chain_triangle cur steps ->
    consume (map (fun s => (PLeaf (snd s), fst s)) steps) (map (fun op => CObj (OOp op)) ops) ignore st = (Ok (map (fun op => CObj (OOp op)) rs), s) ->
    (forall op J adds, In op ops -> state op fs J -> plan fs cur J steps adds -> exists r, In r rs /\ state r (fs ++ map snd steps) (joined J adds)) /\
    ((forall op, In op ops -> exists J, state op fs J) -> forall r, In r rs -> exists J, state r (fs ++ map snd steps) J).
  Proof.
    induction steps as [|[irrep g] steps IH]; intros fs cur ops st rs s G B Ws Su Co Le Tri E.
    - cbn in E. injection E as E _. assert (ops = rs). { clear -E. revert rs E. induction ops as [|o ops IH]; intros [|r rs] E; try discriminate E; [reflexivity|]. cbn in E. injection E as -> E. f_equal. now apply IH. }
      subst rs. cbn [map]. rewrite app_nil_r. split; [|auto]. intros op J adds I S P. destruct adds; [|destruct P]. exists op. split; [exact I|]. eapply state_ext; [|exact S]. intros t. unfold joined. cbn. now rewrite app_nil_r.
    - apply Forall_cons_iff in Ws as [[Li Wg] Ws]. destruct Tri as [T1 T2]. cbn [fst snd map consume] in *.
      assert (Cu : forall t, su2_type t -> cur t < 10).
      { intros t Ht. specialize (Su t Ht). specialize (B t Ht). pose proof (total_prefix (su2_label t) fs (g :: map snd steps)). lia. }
      assert (Cc : forall up, total_label (colour_label up) fs < 10).
      { intros up. specialize (Co up). pose proof (total_prefix (colour_label up) fs (g :: map snd steps)). lia. }
      assert (Ad : forall t, su2_type t -> ignore t = false -> admissible (cur t) (su2_label t g) (su2_label t irrep)) by (intros t Ht Ig; apply triangle_admissible0; auto).
      destruct (contract_all_ok fs cur g irrep ignore ops st G Cu Cc Wg Li Ad) as (mid & st1 & E1 & Mo & Gr & _). rewrite E1 in E.
      destruct (contract_all_in fs cur g irrep ops st mid st1 G Cu Cc Wg Li Ad E1) as [H1 H2].
      assert (Le' : forall t, su2_type t -> ignore t = false -> forall f, In f (fs ++ [g]) -> su2_label t f <= 1).
      { intros t Ht Ig f I. apply Le; auto. rewrite !in_app_iff in *. cbn [In] in *. tauto. }
      destruct (IH (fs ++ [g]) (next ignore cur (irrep, g)) mid st1 rs s) as [K1 K2]; auto.
      { now apply next_bound. }
      { intros t Ht. rewrite <- app_assoc. now apply Su. }
      { intros up. rewrite <- app_assoc. apply Co. }
      { intros t Ht Ig f I. apply Le; auto. now rewrite <- app_assoc in I. }
      rewrite <- app_assoc in K1, K2. cbn [app] in K1, K2. split.
      + intros op J adds I S P. destruct adds as [|add adds]; [destruct P|]. destruct P as [P1 P2]. destruct (H1 op I) as (s1 & l & s2 & G1 & E2 & Inc).
        destruct (step_exact (OOp op) fs cur g irrep s1 l s2 J (good_object _ _ _ _ G1 Cu Cc) G1 S Wg Li Le' T1 E2) as [F _].
        destruct (F add P1) as (op' & Io & So). destruct (K1 op' _ adds (Inc _ Io) So P2) as (r & Ir & Sr). exists r. split; [exact Ir|].
        eapply state_ext; [|exact Sr]. intros t. unfold joined. cbn [flat_map]. now rewrite app_assoc.
      + intros Hs r Ir. apply K2; [|exact Ir]. intros op' Io. destruct (H2 op' Io) as (op & s1 & l & s2 & I & G1 & E2 & Il). destruct (Hs op I) as (J & S).
        destruct (step_exact (OOp op) fs cur g irrep s1 l s2 J (good_object _ _ _ _ G1 Cu Cc) G1 S Wg Li Le' T1 E2) as [_ F]. exact (F op' Il).
  Qed.
End State.
