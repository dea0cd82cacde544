(** * PropsLagrangian6: C49, strings of fields *)

From Coq Require Import Ascii String List Bool Arith ZArith QArith Qcanon Lia Permutation Sorted.
From Verif Require Import Base BaseFacts Spec SpecFunctions ProofsFunctions PropsFunctions Show ModelFunctions ProofsDatabase3 ModelIndex SpecIndex ProofsIndex ModelField SpecField ProofsField ProofsField2 PropsField2 ModelContract
  ModelPartition ModelExotic ModelLagrangian SpecLagrangian ProofsLagrangian PropsLagrangian.
Import ListNotations.
Local Open Scope nat_scope.

(** ** What changes *)

(** the same field but for its charges *)
Definition but_charges (f g : field) : Prop := g = mkField (f_label f) (f_dynkin f) (f_charges g) (f_is_conj f) (f_comm f) (f_symmetry f) (f_history f)
  (f_multiplicity f) (f_latex f) (f_nf f) (f_derivs f) (f_stripped f).

Lemma dget_dset (c : charges) k v k' : dget str_eqb (dset str_eqb c k v) k' = if str_eqb k' k then Some v else dget str_eqb c k'.
Proof.
  induction c as [|[k0 v0] c IH]; cbn [dset dget].
  - destruct (str_eqb k' k); reflexivity.
  - destruct (str_eqb k k0) eqn:E; cbn [dget].
    + apply str_decides in E. subst k0. destruct (str_eqb k' k); reflexivity.
    + destruct (str_eqb k' k0) eqn:E'; [|exact IH]. apply str_decides in E'. subst k0. destruct (str_eqb k' k) eqn:E2; [|reflexivity].
      apply str_decides in E2. subst k'. rewrite (proj2 (str_decides k k) eq_refl) in E. discriminate E.
Qed.

Lemma dset_again (c : charges) k v : dset str_eqb (dset str_eqb c k v) k v = dset str_eqb c k v.
Proof.
  induction c as [|[k0 v0] c IH]; cbn [dset].
  - now rewrite (proj2 (str_decides k k) eq_refl).
  - destruct (str_eqb k k0) eqn:E; cbn [dset]; rewrite E; [reflexivity|]. now rewrite IH.
Qed.

(** Whatever the arguments and the outcome, the six global fields are left with a charge "l" (0 for H, Q, ub and db, 1 for L, -1
    for eb) and are otherwise as before.  A second call changes nothing more. *)
Theorem C49_state : forall irrep_product n pick derivs func h q u d l e,
  let sm := [h; q; u; d; l; e] in
  let sm' := snd (npoint_fieldstrings irrep_product n pick derivs func sm) in
  Forall2 (fun f g => but_charges f g /\ forall k, k <> lit "l" -> dget str_eqb (f_charges g) k = dget str_eqb (f_charges f) k) sm sm' /\
  map (fun g => dget str_eqb (f_charges g) (lit "l")) sm' = map (fun z => Some (int z)) [0; 0; 0; 0; 1; -1]%Z /\
  forall n' pick' derivs' func', snd (npoint_fieldstrings irrep_product n' pick' derivs' func' sm') = sm' /\
    npoint_fieldstrings irrep_product n pick derivs func sm' = npoint_fieldstrings irrep_product n pick derivs func sm.
Proof.
  intros ip n pick derivs func h q u d l e. cbv zeta. unfold npoint_fieldstrings. cbn [snd].
  assert (Ag : forall f k v, set_charge k v (set_charge k v f) = set_charge k v f) by (intros; unfold set_charge; cbn; now rewrite dset_again).
  assert (Id : with_lepton_number (with_lepton_number [h; q; u; d; l; e]) = with_lepton_number [h; q; u; d; l; e]) by (unfold with_lepton_number; cbn [combine map fst snd]; now rewrite !Ag).
  split; [|split].
  - unfold with_lepton_number. cbn [combine map fst snd].
    repeat constructor; try (intros k Hk; cbn [set_charge f_charges]; rewrite dget_dset; destruct (str_eqb k (lit "l")) eqn:E; [apply str_decides in E; contradiction|reflexivity]).
  - unfold with_lepton_number. cbn [combine map fst snd set_charge f_charges]. now rewrite !dget_dset.
  - intros n' pick' derivs' func'. cbn [snd]. rewrite Id. split; reflexivity.
Qed.

(** ** Combinations with replacement *)

(** positions in order, repetitions allowed *)
Definition positions (n m : nat) (is : list nat) : Prop := List.length is = n /\ StronglySorted le is /\ Forall (fun i => i < m) is.

(** lexicographic order *)
Inductive lexlt : list nat -> list nat -> Prop :=
| lex_here i j a b : i < j -> lexlt (i :: a) (j :: b)
| lex_next i a b : lexlt a b -> lexlt (i :: a) (i :: b).

Lemma combos_map n : forall A B (f : A -> B) l, combos_with n B (map f l) = map (map f) (combos_with n A l).
Proof.
  induction n as [|n IH]; intros A B f l; [reflexivity|]. induction l as [|x l IHl]; [reflexivity|].
  change (map (cons (f x)) (combos_with n B (map f (x :: l))) ++ combos_with (S n) B (map f l) = map (map f) (map (cons x) (combos_with n A (x :: l)) ++ combos_with (S n) A l)).
  rewrite IHl, IH, map_app, !map_map. reflexivity.
Qed.

Lemma combos_seq n : forall a m,
  (forall is, In is (combos_with n nat (seq a m)) <-> List.length is = n /\ StronglySorted le is /\ Forall (fun i => a <= i < a + m) is) /\
  StronglySorted lexlt (combos_with n nat (seq a m)).
Proof.
  induction n as [|n IH]; intros a m.
  - cbn [combos_with]. split; [|repeat constructor]. intros is. split.
    + intros [<-|[]]. repeat constructor.
    + intros (L & _). destruct is; [now left|discriminate L].
  - revert a. induction m as [|m IHm]; intros a.
    + cbn. split; [|constructor]. intros is. split; [intros []|]. intros (L & _ & F). destruct is as [|i is]; [discriminate L|]. inversion F; lia.
    + change (combos_with (S n) nat (seq a (S m))) with (map (cons a) (combos_with n nat (seq a (S m))) ++ combos_with (S n) nat (seq (S a) m)).
      destruct (IHm (S a)) as [I1 S1]. destruct (IH a (S m)) as [I2 S2]. split.
      * intros is. rewrite in_app_iff, in_map_iff, I1. split.
        -- intros [(js & <- & J)|(L & S & F)].
           ++ apply I2 in J as (L & S & F). split; [cbn; congruence|]. split; [constructor; [exact S|]|].
              ** eapply Forall_impl; [|exact F]. cbn. lia.
              ** constructor; [lia|exact F].
           ++ split; [exact L|]. split; [exact S|]. eapply Forall_impl; [|exact F]. cbn. lia.
        -- intros (L & S & F). destruct is as [|i is]; [discriminate L|]. inversion S as [|? ? S' Le]; subst. inversion F as [|? ? Hi F']; subst.
           destruct (Nat.eq_dec i a) as [->|N].
           ++ left. exists is. split; [reflexivity|]. apply I2. split; [cbn in L; congruence|]. split; assumption.
           ++ right. split; [exact L|]. split; [exact S|]. constructor; [lia|]. apply Forall_forall. intros j J. rewrite Forall_forall in Le, F'. specialize (Le j J). specialize (F' j J). cbn in F'. lia.
      * assert (P1 : StronglySorted lexlt (map (cons a) (combos_with n nat (seq a (S m))))).
        { clear - S2. induction S2 as [|x l S IH F]; cbn [map]; constructor; [exact IH|]. apply Forall_map. eapply Forall_impl; [|exact F]. intros y Y. now constructor. }
        assert (P2 : forall x y, In x (map (cons a) (combos_with n nat (seq a (S m)))) -> In y (combos_with (S n) nat (seq (S a) m)) -> lexlt x y).
        { intros x y Ix Iy. apply in_map_iff in Ix as (js & <- & _). apply I1 in Iy as (L & _ & F). destruct y as [|j y]; [discriminate L|]. inversion F; subst. constructor. lia. }
        revert P1 P2. generalize (map (cons a) (combos_with n nat (seq a (S m)))) as l1. intros l1 P1 P2. induction P1 as [|x l1 P1 IH1 F]; [exact S1|].
        cbn [app]. constructor; [apply IH1; intros; apply P2; [now right|assumption]|]. apply Forall_app. split; [exact F|]. apply Forall_forall. intros y Iy. apply P2; [now left|exact Iy].
Qed.

(** The combinations are the choices of positions in order, each once, in lexicographic order. *)
Theorem C49_combinations : forall n A (l : list A) (x : A),
  combos_with n A l = map (map (fun i => nth i l x)) (combos_with n nat (seq 0 (List.length l))) /\
  (forall is, In is (combos_with n nat (seq 0 (List.length l))) <-> positions n (List.length l) is) /\
  StronglySorted lexlt (combos_with n nat (seq 0 (List.length l))).
Proof.
  intros n A l x. destruct (combos_seq n 0 (List.length l)) as [I S]. split; [|split; [|exact S]].
  - rewrite <- combos_map. f_equal. clear. induction l as [|y l IH]; [reflexivity|]. cbn [List.length seq map]. f_equal.
    rewrite <- seq_shift, map_map. exact IH.
  - intros is. rewrite I. unfold positions. split; intros (L & St & F); (split; [exact L|split; [exact St|]]); (eapply Forall_impl; [|exact F]); cbn; lia.
Qed.

(** ** The terms *)

(** a field on which products are defined like on [f0] *)
Definition factor (f0 f : field) : Prop := proper (f_charges f) /\ (exists tex, to_tex (f_label f) = Ok tex) /\ same_keys f0 f.

(** [o] holds the first element of [l] that is neutral and a singlet, if there is one *)
Definition neutral_singlet (f : field) : Prop := f_dynkin f = lit "00000" /\ charge_of f (lit "y") = Q2Qc 0.

Definition first_of (P : field -> Prop) (l : list field) (o : list field) : Prop :=
  (o = [] /\ Forall (fun f => ~ P f) l) \/ exists a f b, l = a ++ f :: b /\ o = [f] /\ P f /\ Forall (fun f => ~ P f) a.

Lemma is_singlet_ok f : (exists y, dget str_eqb (f_charges f) (lit "y") = Some y) -> exists b, is_singlet f = Ok b /\ (b = true <-> neutral_singlet f).
Proof.
  intros (y & Y). unfold is_singlet, neutral_singlet, field_y, dgetM, charge_of. rewrite Y. destruct (str_eqb (f_dynkin f) (lit "00000")) eqn:E.
  - cbn [bind]. eexists. split; [reflexivity|]. apply str_decides in E. destruct (Qc_eq_dec y 0); split; auto; try discriminate; intros [_ H]; contradiction.
  - exists false. split; [reflexivity|]. split; [discriminate|]. intros [H _]. apply str_decides in H. congruence.
Qed.

(** charges, history and label of a product *)
Definition product_of (combo : list field) (r : field) : Prop :=
  (forall k, charge_of r k = SpecField.total combo k) /\ leaves (walked r) = concat (map (fun f => leaves (walked f)) combo) /\
  f_label r = concat (map (fun h => f_label h ++ (if f_is_conj h then [dagger] else [])) combo) /\ f_is_conj r = false.

Lemma first_singlet_ok ip f0 combo : 2 <= List.length combo -> Forall (factor f0) combo ->
  exists l o, decompose_product ip combo = Ok (inr l) /\ first_singlet ip combo = Ok o /\ first_of neutral_singlet l o /\
    Forall (product_of combo) o.
Proof.
  intros L F. destruct combo as [|f [|g rst]]; cbn [List.length] in L; [lia|lia|].
  inversion F as [|? ? (P & (tex & T) & S) F']; subst.
  assert (Sk : Forall (same_keys f) (g :: rst)).
  { eapply Forall_impl; [|exact F']. intros h (_ & _ & Sh) k. rewrite <- (S k). apply Sh. }
  destruct (decompose_ok ip rst f g tex P T Sk) as (l & E & H). exists l. unfold first_singlet. cbn [decompose_product]. rewrite E. cbn [bind].
  assert (Ms : exists bs, mapM (fun f1 => do b <- is_singlet f1; Ok (f1, b)) l = Ok bs /\ map fst bs = l /\ Forall (fun p => snd p = true <-> neutral_singlet (fst p)) bs).
  { clear - H. induction H as [|r l Hr H (bs & E & M & B)]; [exists []; repeat split; constructor|].
    destruct (is_singlet_ok r) as (b & Eb & Hb). { destruct Hr as (Hr & _). destruct Hr as (y & b' & r0 & -> & _). exists y. reflexivity. }
    exists ((r, b) :: bs). cbn [mapM]. rewrite Eb. cbn [bind]. rewrite E. cbn [map fst]. rewrite M. repeat split; try reflexivity. constructor; assumption. }
  destruct Ms as (bs & Em & M & B). rewrite Em. cbn [bind]. exists (firstn 1 (map fst (filter snd bs))). split; [reflexivity|]. split; [reflexivity|]. split.
  - clear - M B. subst l. induction B as [|[f b] bs Hb B IH]; [left; repeat split; constructor|]. cbn [filter map fst snd] in *. destruct b.
    + right. exists [], f, (map fst bs). split; [reflexivity|]. split; [reflexivity|]. split; [now apply Hb|constructor].
    + assert (N : ~ neutral_singlet f) by (intros X; apply Hb in X; discriminate X). destruct IH as [[E F]|(a & f1 & b1 & E & O & P & F)].
      * left. split; [exact E|]. constructor; assumption.
      * right. exists (f :: a), f1, b1. rewrite E. split; [reflexivity|]. split; [exact O|]. split; [exact P|]. constructor; assumption.
  - apply Forall_forall. intros r I. assert (Ir : In r l).
    { rewrite <- M. assert (I' : In r (map fst (filter snd bs))) by (revert I; destruct (map fst (filter snd bs)); [intros []|intros [<-|[]]; now left]).
      apply in_map_iff in I' as (p & <- & I'). apply filter_In in I' as [I' _]. now apply in_map. }
    rewrite Forall_forall in H. destruct (H r Ir) as (_ & _ & H1 & H2 & H3 & H4). repeat split; assumption.
Qed.

Definition accepts (func : option (list field -> bool)) (combo : list field) : bool := match func with Some p => p combo | None => true end.

Definition neutral_first (irrep_product : str -> str -> list (list nat * nat)) (func : option (list field -> bool)) (combo o : list field) : Prop :=
  if accepts func combo then
    exists prods, decompose_product irrep_product combo = Ok (inr prods) /\ first_of neutral_singlet prods o /\ Forall (product_of combo) o
  else o = [].

(** For two or more fields with the same charges, nothing raises, and the terms are, in the order of the combinations that are
    accepted, the first neutral singlet in the product of each, if there is one. *)
Theorem C49_terms : forall irrep_product n fields derivs func f0 conjs,
  2 <= n -> mapM conj_field fields = Ok conjs ->
  (derivs = true -> forall k, In k (keys (f_charges f0)) <-> k = lit "y" \/ k = lit "3b" \/ k = lit "l") ->
  Forall (factor f0) (fields ++ conjs) ->
  exists t ls, derivative_field = Ok t /\ (f_dynkin t = lit "11000" /\ f_charges t = [(lit "y", 0); (lit "3b", 0); (lit "l", 0)]%Qc) /\
    let all := fields ++ (if derivs then [t] else []) ++ conjs in
    fieldstrings irrep_product n fields derivs func = Ok (concat ls) /\
    Forall2 (neutral_first irrep_product func)
            (combos_with n field all) ls.
Proof.
  intros ip n fields derivs func f0 conjs Ln Ec Kd F.
  assert (Fa : forall t, derivative_field = Ok t -> Forall (factor f0) (fields ++ (if derivs then [t] else []) ++ conjs)).
  { intros t Et. apply Forall_app in F as [F1 F2]. apply Forall_app. split; [exact F1|]. apply Forall_app. split; [|exact F2]. destruct derivs; [|constructor].
    constructor; [|constructor]. injection Et as <-. split; [|split; [eexists; reflexivity|]].
    - do 3 eexists. split; [reflexivity|]. repeat constructor; cbn; intuition discriminate.
    - intros k. rewrite (Kd eq_refl k). cbn. intuition auto. }
  assert (Et : derivative_field = Ok (match derivative_field with Ok t => t | Err _ => sm_H end)) by reflexivity.
  set (t := match derivative_field with Ok t => t | Err _ => sm_H end) in *. specialize (Fa t Et).
  assert (Dt : f_dynkin t = lit "11000" /\ f_charges t = [(lit "y", 0); (lit "3b", 0); (lit "l", 0)]%Qc) by (split; reflexivity). clearbody t.
  set (all := fields ++ (if derivs then [t] else []) ++ conjs) in *.
  assert (Each : Forall (fun combo => exists o, (if accepts func combo then first_singlet ip combo else Ok []) = Ok o /\
    neutral_first ip func combo o) (combos_with n field all)).
  { apply Forall_forall. intros combo I. unfold neutral_first. destruct (accepts func combo); [|exists []; auto].
    destruct (C49_combinations n field all f0) as (Em & Ip & _). rewrite Em in I. apply in_map_iff in I as (is & <- & I). apply Ip in I as (Li & _ & Fi).
    destruct (first_singlet_ok ip f0 (map (fun i => nth i all f0) is)) as (l & o & D & E & Fo & Ho).
    - rewrite map_length, Li. exact Ln.
    - apply Forall_map. eapply Forall_impl; [|exact Fi]. cbn beta. intros i Hi. rewrite Forall_forall in Fa. apply Fa, nth_In, Hi.
    - exists o. split; [exact E|]. exists l. auto. }
  assert (Ls : exists ls, mapM (fun combo => if accepts func combo then first_singlet ip combo else Ok []) (combos_with n field all) = Ok ls /\
    Forall2 (neutral_first ip func) (combos_with n field all) ls).
  { clear - Each. induction Each as [|c l (o & E & H) _ (ls & El & Fl)]; [exists []; split; [reflexivity|constructor]|]. exists (o :: ls). cbn [mapM]. rewrite E, El. split; [reflexivity|]. now constructor. }
  destruct Ls as (ls & El & Fl). exists t, ls. split; [exact Et|]. split; [exact Dt|]. split; [|exact Fl].
  unfold fieldstrings. rewrite Ec. cbn [bind]. replace (if derivs then do t0 <- derivative_field; Ok (fields ++ [t0]) else Ok fields) with (@Ok (list field) (fields ++ (if derivs then [t] else []))).
  2:{ destruct derivs; [rewrite Et; reflexivity|now rewrite app_nil_r]. }
  cbn [bind]. rewrite <- app_assoc. fold all. unfold accepts in El. rewrite El. reflexivity.
Qed.

(** One field cannot be decomposed. *)
Theorem C49_one : forall irrep_product fields derivs conjs f, mapM conj_field (f :: fields) = Ok conjs ->
  fieldstrings irrep_product 1 (f :: fields) derivs None = Err TypeError.
Proof.
  intros ip fields derivs conjs f E. unfold fieldstrings. rewrite E. cbn [bind]. destruct derivs; reflexivity.
Qed.

(** The default fields qualify: with them nothing raises. *)
Theorem C49_default : forall irrep_product n derivs func, 2 <= n ->
  exists conjs t ls, mapM conj_field (default_fields (with_lepton_number sm_matter)) = Ok conjs /\ derivative_field = Ok t /\
    fst (npoint_fieldstrings irrep_product n default_fields derivs func sm_matter) = Ok (concat ls) /\
    Forall2 (neutral_first irrep_product func)
      (combos_with n field (default_fields (with_lepton_number sm_matter) ++ (if derivs then [t] else []) ++ conjs)) ls.
Proof.
  intros ip n derivs func Ln.
  assert (Ec : exists conjs, mapM conj_field (default_fields (with_lepton_number sm_matter)) = Ok conjs /\
    Forall (factor (set_charge (lit "l") 1%Qc sm_L)) (default_fields (with_lepton_number sm_matter) ++ conjs)).
  { eexists. split; [reflexivity|]. cbn [default_fields with_lepton_number sm_matter combine map app fst snd].
    repeat (apply Forall_cons; [split; [|split; [eexists; reflexivity|intros k; cbn; intuition auto]]; do 3 eexists; split; [reflexivity|]; repeat constructor; cbn; intuition discriminate|]). apply Forall_nil. }
  destruct Ec as (conjs & Ec & F). destruct (C49_terms ip n _ derivs func (set_charge (lit "l") 1%Qc sm_L) conjs Ln Ec) with (2 := F) as (t & ls & Et & _ & E & Fl).
  { intros _ k. cbn. intuition auto. }
  exists conjs, t, ls. auto.
Qed.

(** ** Later calls *)

(** "No side effects" is false: before a call the product of L with any field that has charges y and 3b exists; after any call,
    whatever its outcome, it is an AssertionError, as for any of the six fields and any field without the charge "l". *)
Theorem C49_product_refuted : forall irrep_product n pick derivs func,
  let sm' := snd (npoint_fieldstrings irrep_product n pick derivs func sm_matter) in
  (forall f g, In f sm_matter -> (forall k, In k (keys (f_charges g)) <-> k = lit "y" \/ k = lit "3b") -> exists l, decompose_product irrep_product [f; g] = Ok (inr l)) /\
  (forall f g, In f sm' -> ~ In (lit "l") (keys (f_charges g)) -> decompose_product irrep_product [f; g] = Err AssertionError).
Proof.
  intros ip n pick derivs func. cbv zeta. split.
  - intros f g I K. assert (X : exists tex, proper (f_charges f) /\ to_tex (f_label f) = Ok tex /\ forall k, In k (keys (f_charges f)) <-> k = lit "y" \/ k = lit "3b").
    { cbn [sm_matter In] in I. destruct I as [<-|[<-|[<-|[<-|[<-|[<-|[]]]]]]]; eexists; (split; [do 3 eexists; split; [reflexivity|]; repeat constructor; cbn; intuition discriminate|split; [reflexivity|intros k; cbn; intuition auto]]). }
    destruct X as (tex & P & T & Kf). destruct (C30_product ip f g [] tex P T) as (l & E & _); [|eauto].
    constructor; [|constructor]. intros k. rewrite Kf, K. reflexivity.
  - intros f g I N. apply C30_edge_cases. intros S. apply N, S. unfold npoint_fieldstrings in I. cbn [snd with_lepton_number sm_matter combine map In] in I.
    destruct I as [<-|[<-|[<-|[<-|[<-|[<-|[]]]]]]]; cbn; auto.
Qed.

(** And a coupling made before the call can no longer be read: its fields are not the global ones any more. *)
Theorem C49_row_refuted : forall irrep_product n pick derivs func,
  let sm' := snd (npoint_fieldstrings irrep_product n pick derivs func sm_matter) in
  exists c row, conj_field leptoquark = Ok c /\
    term_to_row sm_matter [sm_Q; sm_L; leptoquark] [leptoquark] (index_dict [leptoquark] [c]) = Ok row /\
    term_to_row sm' [sm_Q; sm_L; leptoquark] [leptoquark] (index_dict [leptoquark] [c]) = Err KeyError.
Proof. intros. do 2 eexists. split; [reflexivity|]. split; vm_compute; reflexivity. Qed.

(** ** Strings up to a mass dimension *)

(** 3/2 for half-integer spin, 1 otherwise *)
Definition mass (f : field) : Qc :=
  match labels_of f with a :: b :: _ => if Nat.odd (a + b) then Q2Qc (3 # 2) else 1%Qc | _ => 0%Qc end.
Definition masses (l : list field) : Qc := fold_right (fun f s => (mass f + s)%Qc) 0%Qc l.

(** a field that is not a product, a scalar, vector or fermion *)
Definition simple (f : field) : Prop :=
  f_history f = None /\ exists a b r, mapM digit_of (f_dynkin f) = Ok (a :: b :: r) /\ (Nat.odd (a + b) = true \/ a = b /\ a <= 1).

Lemma mass_ok f : simple f -> mass_dim f = Ok (mass f).
Proof.
  intros (_ & a & b & r & E & O).
  assert (El : labels_of f = a :: b :: r).
  { unfold labels_of. revert E. generalize (f_dynkin f) as s, (a :: b :: r) as l. clear. induction s as [|c s IH]; intros l E; [injection E as <-; reflexivity|].
    cbn [mapM] in E. apply bind_ok in E as (d & Ed & E). apply bind_ok in E as (ds & Eds & E). injection E as <-. cbn [map]. f_equal; [|now apply IH].
    unfold digit_of in Ed. destruct (_ && _) in Ed; [|discriminate Ed]. now injection Ed. }
  unfold mass_dim, is_fermion, is_boson, is_scalar, is_vector, lorentz_irrep, dynkin_ints, mass. rewrite El, E. cbn [bind firstn list_sum fold_right]. rewrite Nat.add_0_r.
  destruct O as [O|[-> L]].
  - rewrite O. apply Nat.odd_spec in O as (n & O). rewrite O. replace ((2 * n + 1) mod 2) with 1; [reflexivity|]. rewrite Nat.add_comm, Nat.mul_comm, Nat.mod_add by lia. reflexivity.
  - destruct b as [|[|b]]; [reflexivity|reflexivity|lia].
Qed.

Lemma mass_pos f : simple f -> (1 <= mass f)%Qc.
Proof.
  intros S. pose proof (mass_ok f S) as E. unfold mass_dim in E. apply bind_ok in E as (b & _ & E). destruct b; [injection E as <-; now vm_compute|].
  apply bind_ok in E as (s & _ & E). apply bind_ok in E as (v & _ & E). destruct (s || v); [|discriminate E]. injection E as <-. now vm_compute.
Qed.

(** the dimension of a tree that may be a leaf *)
Definition tree_dim (t : prod_tree) : res Qc := match t with PLeaf f => mass_dim f | PNode _ _ _ => leaves_dim t end.

Lemma decompose_masses ip rst : forall f g l d, decompose ip f g rst = Ok l -> Forall simple (g :: rst) -> tree_dim (walked f) = Ok d ->
  Forall (fun r => leaves_dim (walked r) = Ok (d + masses (g :: rst))%Qc) l.
Proof.
  induction rst as [|z rst IH]; intros f g l d E S D; cbn [decompose] in E; apply bind_ok in E as (m & Em & E).
  all: assert (Hm : Forall (fun r => f_history r = Some (f, g)) m).
  1,3: unfold mul_field in Em; apply bind_ok in Em as (x & _ & Em); apply bind_ok in Em as (c & _ & Em); apply mapM_Forall2 in Em; clear - Em;
       induction Em as [|k r ks m E _ IH]; constructor; [|exact IH]; unfold mk_field_ints in E; apply bind_ok in E as (t & _ & E); injection E as <-; reflexivity.
  all: inversion S as [|? ? Sg Sr]; subst.
  all: assert (Dm : Forall (fun r => leaves_dim (walked r) = Ok (d + mass g)%Qc) m).
  1,3: eapply Forall_impl; [|exact Hm]; intros r Hr; destruct r as [?lb ?dy ?ch ?cj ?cm ?sy ?hi ?mu ?lx ?nf ?dv ?st]; cbn [f_history] in Hr; subst; cbn [walked f_history];
       replace (walked g) with (PLeaf g) by (destruct Sg as [Hg _]; destruct g as [?lb ?dy ?ch ?cj ?cm ?sy ?hi ?mu ?lx ?nf ?dv ?st]; cbn [f_history] in Hg; subst; reflexivity);
       destruct (walked f) as [f'|i l' r'] eqn:W; cbn [tree_dim] in D;
       [cbn [leaves_dim]; rewrite (mass_ok g Sg), D; cbn [bind]; f_equal; ring
       |change (leaves_dim (PNode i l' r')) with (leaves_dim (PNode i l' r')) in D; 
        match goal with |- leaves_dim (PNode ?x ?a ?b) = _ => change (leaves_dim (PNode x a b)) with (do b0 <- mass_dim g; do a0 <- leaves_dim a; Ok (b0 + a0)%Qc) end;
        rewrite (mass_ok g Sg), D; cbn [bind]; f_equal; ring].
  - injection E as <-. eapply Forall_impl; [|exact Dm]. cbn beta. intros r ->. unfold masses. cbn [fold_right]. f_equal. ring.
  - apply bind_ok in E as (ls & Els & E). injection E as <-. apply mapM_Forall2 in Els.
    assert (Hall : Forall (Forall (fun r => leaves_dim (walked r) = Ok (d + masses (g :: z :: rst))%Qc)) ls).
    { clear Em. revert Hm Dm. induction Els as [|x lx m ls Ex _ IHl]; intros Hm Dm; [constructor|]. inversion Hm; subst. inversion Dm; subst. constructor; [|auto].
      assert (T : tree_dim (walked x) = Ok (d + mass g)%Qc).
      { match goal with H : f_history x = Some _ |- _ => destruct x as [?lb ?dy ?ch ?cj ?cm ?sy ?hi ?mu ?lx ?nf ?dv ?st]; cbn [f_history] in H; subst end. cbn [walked f_history tree_dim] in *. assumption. }
      pose proof (IH x z lx _ Ex Sr T) as R. eapply Forall_impl; [|exact R]. cbn beta. intros r ->. f_equal. unfold masses. cbn [fold_right]. ring. }
    clear - Hall. induction Hall as [|l ls F _ IH]; [constructor|]. cbn [concat]. apply Forall_app. auto.
Qed.

Lemma lepton_twice sm : List.length sm = 6 -> with_lepton_number (with_lepton_number sm) = with_lepton_number sm.
Proof.
  intros L. do 6 (destruct sm as [|? sm]; [discriminate L|]). destruct sm; [|discriminate L].
  assert (Ag : forall f k v, set_charge k v (set_charge k v f) = set_charge k v f) by (intros; unfold set_charge; cbn; now rewrite dset_again).
  unfold with_lepton_number. cbn [combine map fst snd]. now rewrite !Ag.
Qed.

Lemma masses_count l : Forall simple l -> (Q2Qc (inject_Z (Z.of_nat (List.length l))) <= masses l)%Qc.
Proof.
  induction 1 as [|f l Sf F IH]; [apply Qcle_refl|]. cbn [List.length masses fold_right].
  replace (Q2Qc (inject_Z (Z.of_nat (S (List.length l))))) with (1 + Q2Qc (inject_Z (Z.of_nat (List.length l))))%Qc.
  - apply Qcplus_le_compat; [now apply mass_pos|exact IH].
  - rewrite Nat2Z.inj_succ, <- Z.add_1_l. fold (int (1 + Z.of_nat (List.length l))). rewrite int_plus, int_1. reflexivity.
Qed.

(** Strings of two or more fields of mass dimension at most [max_dim], in the order of the number of fields.  No string of the
    terms of longer products is missed: each field has at least dimension one. *)
Theorem C79_strings : forall irrep_product max_dim pick derivs sm f0 conjs,
  let fields := pick (with_lepton_number sm) in
  let limit := Q2Qc (inject_Z (Z.of_nat max_dim)) in
  List.length sm = 6 -> mapM conj_field fields = Ok conjs ->
  (derivs = true -> forall k, In k (keys (f_charges f0)) <-> k = lit "y" \/ k = lit "3b" \/ k = lit "l") ->
  Forall (factor f0) (fields ++ conjs) -> Forall simple (fields ++ conjs) ->
  exists t terms, derivative_field = Ok t /\
    (forall n, 2 <= n -> exists ls, fst (npoint_fieldstrings irrep_product n pick derivs None sm) = Ok (terms n) /\ terms n = concat ls /\
       Forall2 (neutral_first irrep_product None) (combos_with n field (fields ++ (if derivs then [t] else []) ++ conjs)) ls) /\
    exists out, generate_fieldstrings irrep_product max_dim pick derivs sm = (Ok out, if max_dim <? 2 then sm else with_lepton_number sm) /\
      out = concat (map (fun n => filter (fun r => if Qclt_le_dec limit (masses (leaves (walked r))) then false else true) (terms n)) (seq 2 (max_dim - 1))) /\
      forall n r, 2 <= n -> In r (terms n) -> (In r out <-> (masses (leaves (walked r)) <= limit)%Qc).
Proof.
  intros ip max_dim pick derivs sm f0 conjs fields limit L6 Ec Kd F S.
  assert (Et : derivative_field = Ok (match derivative_field with Ok t => t | Err _ => sm_H end)) by reflexivity.
  set (t := match derivative_field with Ok t => t | Err _ => sm_H end) in *.
  assert (St : simple t) by (split; [reflexivity|do 3 eexists; split; [reflexivity|right; auto]]). clearbody t.
  set (all := fields ++ (if derivs then [t] else []) ++ conjs).
  assert (Sa : Forall simple all).
  { apply Forall_app in S as [S1 S2]. apply Forall_app. split; [exact S1|]. apply Forall_app. split; [|exact S2]. destruct derivs; repeat constructor; apply St. }
  set (terms := fun n => match fst (npoint_fieldstrings ip n pick derivs None sm) with Ok l => l | Err _ => [] end).
  assert (Tn : forall n, 2 <= n -> exists ls, fst (npoint_fieldstrings ip n pick derivs None sm) = Ok (terms n) /\ terms n = concat ls /\ Forall2 (neutral_first ip None) (combos_with n field all) ls).
  { intros n Ln. destruct (C49_terms ip n fields derivs None f0 conjs Ln Ec Kd F) as (t' & ls & Et' & _ & E & Fl).
    assert (t' = t) by congruence. subst t'. exists ls. unfold terms, npoint_fieldstrings. cbn [fst]. fold fields. rewrite E. auto. }
  exists t, terms. split; [exact Et|]. split; [exact Tn|].
  (* the mass dimension of a term *)
  assert (Dim : forall n r, 2 <= n -> In r (terms n) -> leaves_dim (walked r) = Ok (masses (leaves (walked r))) /\ List.length (leaves (walked r)) = n /\ Forall simple (leaves (walked r))).
  { intros n r Ln I. destruct (Tn n Ln) as (ls & _ & E & Fl). rewrite E in I. apply in_concat in I as (o & Io & Ir).
    assert (X : exists combo, In combo (combos_with n field all) /\ neutral_first ip None combo o).
    { clear - Fl Io. induction Fl as [|c o' cs ls H Fl IH]; [destruct Io|]. destruct Io as [<-|Io]; [exists c; split; [now left|exact H]|]. destruct (IH Io) as (c' & I' & H'). exists c'. split; [now right|exact H']. }
    destruct X as (combo & Ic & prods & Ep & Fo & Po). 
    destruct (C49_combinations n field all f0) as (Em & Ip & _). rewrite Em in Ic. apply in_map_iff in Ic as (is & Ec' & Ic). apply Ip in Ic as (Li & _ & Fi).
    assert (Sc : Forall simple combo).
    { subst combo. apply Forall_map. eapply Forall_impl; [|exact Fi]. cbn beta. intros i Hi. rewrite Forall_forall in Sa. apply Sa, nth_In, Hi. }
    assert (Lc : List.length combo = n) by (subst combo; now rewrite map_length).
    assert (Irp : In r prods).
    { destruct Fo as [[-> _]|(a & f & b & -> & -> & _)]; [destruct Ir|]. destruct Ir as [<-|[]]. apply in_elt. }
    rewrite Forall_forall in Po. destruct (Po r Ir) as (_ & Lv & _).
    assert (Lv' : leaves (walked r) = combo).
    { rewrite Lv. clear - Sc. induction Sc as [|f l Sf Sc IH]; [reflexivity|]. cbn [map concat]. rewrite IH.
      destruct Sf as [Hf _]. destruct f as [?lb ?dy ?ch ?cj ?cm ?sy ?hi ?mu ?lx ?nf ?dv ?st]. cbn [f_history] in Hf. subst. reflexivity. }
    rewrite Lv'. split; [|split; [exact Lc|exact Sc]].
    destruct combo as [|f [|g rst]]; cbn [List.length] in Lc; [lia|lia|]. cbn [decompose_product] in Ep. apply bind_ok in Ep as (l & El & Ep). injection Ep as <-.
    inversion Sc as [|? ? Sf Sr]; subst.
    assert (D : tree_dim (walked f) = Ok (mass f)).
    { pose proof Sf as [Hf _]. replace (walked f) with (PLeaf f) by (destruct f as [?lb ?dy ?ch ?cj ?cm ?sy ?hi ?mu ?lx ?nf ?dv ?st]; cbn [f_history] in Hf; subst; reflexivity). now apply mass_ok. }
    pose proof (decompose_masses ip rst f g l _ El Sr D) as R. rewrite Forall_forall in R. rewrite (R r Irp). reflexivity. }
  set (keep := fun r => if Qclt_le_dec limit (masses (leaves (walked r))) then false else true).
  (* the loop *)
  assert (Step : forall ns out st, Forall (fun n => 2 <= n) ns -> (st = sm \/ st = with_lepton_number sm) ->
    fold_left (fun acc n =>
                 match fst acc with
                 | Err e => acc
                 | Ok out =>
                   let r := npoint_fieldstrings ip n pick derivs None (snd acc) in
                   (do fs <- fst r;
                    do keep <- mapM (fun f => do d <- leaves_dim (walked f);
                                              Ok (if Qclt_le_dec (Q2Qc (inject_Z (Z.of_nat max_dim))) d then [] else [f])) fs;
                    Ok (out ++ concat keep), snd r)
                 end) ns (Ok out, st) =
    (Ok (out ++ concat (map (fun n => filter keep (terms n)) ns)), match ns with [] => st | _ => with_lepton_number sm end)).
  { induction ns as [|n ns IH]; intros out st Fn Hs; [cbn; now rewrite app_nil_r|]. inversion Fn as [|? ? Ln Fn']; subst.
    cbn [fold_left fst snd]. assert (En : npoint_fieldstrings ip n pick derivs None st = (Ok (terms n), with_lepton_number sm)).
    { destruct (Tn n Ln) as (ls & E & _). destruct Hs as [-> | ->]; unfold npoint_fieldstrings in *; cbn [fst] in E; rewrite ?(lepton_twice sm L6); now rewrite E. }
    rewrite En. cbn [fst snd bind].
    assert (Mk : mapM (fun f => do d <- leaves_dim (walked f); Ok (if Qclt_le_dec (Q2Qc (inject_Z (Z.of_nat max_dim))) d then [] else [f])) (terms n) = Ok (map (fun f => if keep f then [f] else []) (terms n))).
    { assert (H : forall r, In r (terms n) -> leaves_dim (walked r) = Ok (masses (leaves (walked r)))) by (intros r I; now apply (Dim n r Ln I)).
      clear - H. revert H. generalize (terms n) as l. induction l as [|r l IH]; intros H; [reflexivity|]. cbn [mapM map]. rewrite (H r (or_introl eq_refl)). cbn [bind].
      rewrite IH by (intros; apply H; now right). cbn [bind]. do 2 f_equal. unfold keep, limit. destruct (Qclt_le_dec _ _); reflexivity. }
    rewrite Mk. cbn [bind]. rewrite IH; [|exact Fn'|now right]. cbn [map concat]. f_equal; [|destruct ns; reflexivity]. f_equal. rewrite <- app_assoc. do 2 f_equal.
    generalize (terms n) as l. induction l as [|r l IHl]; [reflexivity|]. cbn [map concat filter]. rewrite IHl. destruct (keep r); reflexivity. }
  assert (Fs : Forall (fun n => 2 <= n) (seq 2 (max_dim - 1))) by (apply Forall_forall; intros n I; apply in_seq in I; lia).
  eexists. split; [|split].
  - unfold generate_fieldstrings. etransitivity; [exact (Step _ [] sm Fs (or_introl eq_refl))|]. cbn [app]. f_equal.
    destruct (max_dim <? 2) eqn:E; [apply Nat.ltb_lt in E; replace (max_dim - 1) with 0 by lia; reflexivity|]. apply Nat.ltb_ge in E.
    destruct (max_dim - 1) as [|m] eqn:E'; [lia|reflexivity].
  - reflexivity.
  - intros n r Ln I. fold keep. split.
    + intros O. apply in_concat in O as (l & Il & Ir). apply in_map_iff in Il as (m & <- & _). apply filter_In in Ir as [_ K]. unfold keep in K. destruct (Qclt_le_dec _ _); [discriminate K|assumption].
    + intros Le. apply in_concat. exists (filter keep (terms n)). split; [|apply filter_In; split; [exact I|]].
      * apply in_map_iff. exists n. split; [reflexivity|]. apply in_seq. destruct (Dim n r Ln I) as (_ & Lr & Sr). pose proof (masses_count _ Sr) as C. rewrite Lr in C.
        assert (X : (Q2Qc (inject_Z (Z.of_nat n)) <= limit)%Qc) by exact (Qcle_trans _ _ _ C Le).
        unfold limit, Qcle in X. cbn [this Q2Qc] in X. rewrite !Qred_correct in X. rewrite <- Zle_Qle in X. lia.
      * unfold keep. destruct (Qclt_le_dec _ _) as [H|H]; [|reflexivity]. exfalso. exact (Qclt_not_le _ _ H Le).
Qed.

(** ** Examples *)

(** the default fields meet the hypotheses of [C79_strings] *)
Example C79_default : exists conjs, mapM conj_field (default_fields (with_lepton_number sm_matter)) = Ok conjs /\
  Forall (factor (set_charge (lit "l") 1%Qc sm_L)) (default_fields (with_lepton_number sm_matter) ++ conjs) /\
  Forall simple (default_fields (with_lepton_number sm_matter) ++ conjs).
Proof.
  eexists. split; [reflexivity|]. cbn [default_fields with_lepton_number sm_matter combine map app fst snd]. split.
  - repeat (apply Forall_cons; [split; [|split; [eexists; reflexivity|intros k; cbn; intuition auto]]; do 3 eexists; split; [reflexivity|]; repeat constructor; cbn; intuition discriminate|]). apply Forall_nil.
  - repeat (apply Forall_cons; [split; [reflexivity|]; do 3 eexists; split; [reflexivity|]; cbn; auto|]). apply Forall_nil.
Qed.

(** with a product in which everything is a singlet, only hypercharge selects *)
Definition all_singlets (a b : str) : list (list nat * nat) := [([0; 0; 1; 1; 0], 1); ([0; 0; 0; 0; 0], 1)].
Definition lepton_higgs (sm : list field) : list field := match sm with [h; _; _; _; l; _] => [l; h] | _ => [] end.

Example C49_example :
  (do l <- fst (npoint_fieldstrings all_singlets 2 lepton_higgs true None sm_matter); Ok (map f_label l)) =
    Ok [lit "LH"; lit "L" ++ lit "L" ++ [dagger]; lit "HH" ++ [dagger]; lit "DD"; lit "L" ++ [dagger] ++ lit "H" ++ [dagger]] /\
  (do l <- fst (generate_fieldstrings all_singlets 3 lepton_higgs false sm_matter); Ok (map f_label l)) =
    Ok [lit "LH"; lit "L" ++ lit "L" ++ [dagger]; lit "HH" ++ [dagger]; lit "L" ++ [dagger] ++ lit "H" ++ [dagger]] /\
  (do l <- fst (generate_fieldstrings all_singlets 2 lepton_higgs false sm_matter); Ok (map f_label l)) = Ok [lit "HH" ++ [dagger]].
Proof. vm_compute. repeat split. Qed.

Print Assumptions C49_state.
Print Assumptions C49_combinations.
Print Assumptions C49_terms.
Print Assumptions C49_one.
Print Assumptions C49_default.
Print Assumptions C49_product_refuted.
Print Assumptions C49_row_refuted.
Print Assumptions C79_strings.
Print Assumptions C79_default.
Print Assumptions C49_example.
