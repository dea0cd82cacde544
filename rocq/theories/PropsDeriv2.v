(** * PropsDeriv2: C84, C85, distributing derivatives *)

From Coq Require Import Ascii String List Bool Arith ZArith QArith Qcanon Lia Permutation Sorted.
From Verif Require Import Base BaseFacts Show Spec ProofsRegistry ModelIndex SpecIndex ProofsIndex ModelField SpecField ProofsField ProofsField2 PropsField ModelLagrangian PropsLagrangian4 ModelDeriv SpecDeriv PropsDeriv.
Import ListNotations.
Local Open Scope nat_scope.

(** ** C84: products of fields with derivatives *)

(** the choices for one factor: none for a number, one for a field *)
Definition item_choices (i : item) (o : list (list field)) : Prop :=
  match i with
  | INumber => o = [[]]
  | IField f => o = [[f]]
  | IDeriv n f => exists gs, deriv_possibilities f n = Ok gs /\ o = map (fun g => [g]) gs
  end.

Definition term_step (new_terms : list (list item)) (i : item) : res (list (list item)) :=
  match i with
  | IDeriv order f => do possible <- deriv_possibilities f order;
                      Ok (flat_map (fun old => map (fun g => old ++ [IField g]) possible) new_terms)
  | i => Ok (map (fun t => t ++ [i]) new_terms)
  end.

Lemma no_numbers_app l l' : no_numbers (l ++ l') = no_numbers l ++ no_numbers l'.
Proof. unfold no_numbers. now rewrite flat_map_app. Qed.

Lemma term_fold items opts : Forall2 item_choices items opts -> forall ts, exists ts',
  foldM term_step items ts = Ok ts' /\ map no_numbers ts' = flat_map (fun t => map (fun u => t ++ List.concat u) (products opts)) (map no_numbers ts).
Proof.
  induction 1 as [|i o items opts C F IH]; intros ts.
  - exists ts. split; [reflexivity|]. cbn [products]. induction ts as [|t ts IH]; [reflexivity|]. cbn [map flat_map List.concat]. rewrite app_nil_r. cbn [app]. f_equal. exact IH.
  - assert (St : exists ts1, term_step ts i = Ok ts1 /\ map no_numbers ts1 = flat_map (fun t => map (fun u => t ++ u) o) (map no_numbers ts)).
    { destruct i as [|f|n f]; cbn [item_choices term_step] in *.
      - subst o. eexists. split; [reflexivity|]. rewrite map_map. clear. induction ts as [|t ts IH]; [reflexivity|]. cbn [map flat_map app]. rewrite IH, no_numbers_app. change (no_numbers [INumber]) with (@nil field). now rewrite !app_nil_r.
      - subst o. eexists. split; [reflexivity|]. rewrite map_map. clear. induction ts as [|t ts IH]; [reflexivity|]. cbn [map flat_map app]. now rewrite IH, no_numbers_app.
      - destruct C as (gs & E & ->). rewrite E. cbn [bind]. eexists. split; [reflexivity|]. clear. induction ts as [|t ts IH]; [reflexivity|].
        cbn [map flat_map]. rewrite map_app, IH. f_equal. rewrite !map_map. apply map_ext. intros g. now rewrite no_numbers_app. }
    destruct St as (ts1 & E1 & M1). destruct (IH ts1) as (ts' & E2 & M2). exists ts'. cbn [foldM]. rewrite E1. cbn [bind]. split; [exact E2|].
    rewrite M2, M1. clear. induction (map no_numbers ts) as [|t l IH]; [reflexivity|]. cbn [flat_map products]. rewrite flat_map_app. f_equal; [|exact IH]. clear.
    induction o as [|u o IH]; [reflexivity|]. cbn [map flat_map]. rewrite map_app, IH. f_equal. rewrite map_map. apply map_ext. intros v. cbn [List.concat]. now rewrite app_assoc.
Qed.

(** Every choice for each of the factors is returned, in lexicographic order; numbers are dropped. *)
Theorem C84_product : forall items opts, Forall2 item_choices items opts -> proc_term items = Ok (map (@List.concat field) (products opts)).
Proof.
  intros items opts F. unfold proc_term. destruct (existsb is_symbolic_deriv items) eqn:X; cbn [negb].
  - fold term_step. destruct (term_fold items opts F [[]]) as (ts & E & M). rewrite E. cbn [bind]. f_equal. rewrite M. cbn [map flat_map no_numbers app]. now rewrite app_nil_r.
  - f_equal. induction F as [|i o items opts C F IH]; [reflexivity|]. cbn [existsb] in X. apply orb_false_iff in X as [X1 X2]. specialize (IH X2).
    destruct i as [|f|n f]; [| |discriminate X1]; cbn [item_choices] in C; subst o; cbn [products flat_map map]; rewrite app_nil_r.
    + rewrite map_map. exact IH.
    + rewrite map_map. cbn [List.concat]. destruct (products opts) as [|p [|]]; try discriminate IH. cbn [map] in *. injection IH as IH. unfold no_numbers in *. cbn [flat_map]. now rewrite IH.
Qed.

(** An error of the first derivative that has one is raised. *)
Theorem C84_error : forall pre opts n f rest e, Forall2 item_choices pre opts -> deriv_possibilities f n = Err e ->
  proc_term (pre ++ IDeriv n f :: rest) = Err e.
Proof.
  intros pre opts n f rest e F E. unfold proc_term. replace (existsb _ _) with true by (symmetry; rewrite existsb_app; cbn; now rewrite orb_true_r). cbn [negb].
  fold term_step. rewrite foldM_app. destruct (term_fold pre opts F [[]]) as (ts & E' & _). rewrite E'. cbn [bind foldM term_step]. rewrite E. reflexivity.
Qed.

(** The fields of a factor and how many derivatives act on it. *)
Definition factor_of (i : item) : option (nat * field) :=
  match i with INumber => None | IField f => Some (0, f) | IDeriv n f => Some (n, f) end.

Definition differentiable (n : nat) (f : field) : Prop :=
  exists a b c d e, field_ok f a b c d e /\ f_latex f <> [] /\ a + n < 10 /\ b + n < 10.

Theorem C84_expands : forall items, (forall n f, In (IDeriv n f) items -> differentiable n f) ->
  exists ts, proc_term items = Ok ts /\ forall t, In t ts <-> expands (map factor_of items) t.
Proof.
  intros items W.
  assert (X : exists opts, Forall2 item_choices items opts /\ forall t, In t (map (@List.concat field) (products opts)) <-> expands (map factor_of items) t).
  { induction items as [|i items IH].
    - exists []. split; [constructor|]. intros t. cbn. split; [intros [<-|[]]; constructor|]. intros H. inversion H; subst. now left.
    - destruct IH as (opts & F & H); [intros n f I; apply W; now right|].
      assert (C : exists o, item_choices i o /\ forall u t, In u o -> expands (map factor_of items) t -> expands (map factor_of (i :: items)) (u ++ t)).
      { destruct i as [|f|n f]; cbn [item_choices map factor_of].
        - exists [[]]. split; [reflexivity|]. intros u t [<-|[]] E. now constructor.
        - exists [[f]]. split; [reflexivity|]. intros u t [<-|[]] E. cbn [app]. constructor; [constructor|exact E].
        - destruct (W n f (or_introl eq_refl)) as (a & b & c & d & e & Fo & T & A & B). destruct (C51_possibilities n f a b c d e Fo T A B) as (gs & E & G).
          exists (map (fun g => [g]) gs). split; [eauto|]. intros u t I Ex. apply in_map_iff in I as (g & <- & I). cbn [app]. constructor; [now apply G|exact Ex]. }
      destruct C as (o & C & C2). exists (o :: opts). split; [now constructor|]. intros t. cbn [products]. rewrite in_map_iff. split.
      + intros (u & <- & I). apply in_flat_map in I as (v & I & J). apply in_map_iff in J as (w & <- & J). cbn [List.concat]. apply C2; [exact I|]. apply H. now apply in_map.
      + intros Ex. assert (S' : exists u v, In u o /\ t = u ++ v /\ expands (map factor_of items) v).
        { destruct i as [|f|n f]; cbn [item_choices map factor_of] in *; inversion Ex as [|l' t' E' |n' f' g l' t' D' E']; subst.
          - exists [], t. split; [now left|auto].
          - inversion D'; subst. exists [g], t'. split; [now left|auto].
          - destruct C as (gs & E & ->). destruct (W n f (or_introl eq_refl)) as (a & b & c & d & e & Fo & T & A & B). destruct (C51_possibilities n f a b c d e Fo T A B) as (gs' & Eg & G).
            rewrite E in Eg. injection Eg as <-. exists [g], t'. split; [|auto]. apply in_map_iff. exists g. split; [reflexivity|now apply G]. }
        destruct S' as (u & v & I & -> & E'). apply H in E'. apply in_map_iff in E' as (w & <- & J). exists (u :: w). split; [reflexivity|]. apply in_flat_map. exists u. split; [exact I|now apply in_map]. }
  destruct X as (opts & F & H). exists (map (@List.concat field) (products opts)). split; [now apply C84_product|exact H].
Qed.

(** ** C85: the product rule *)

Lemma pair_decides : decides pair_eqb.
Proof. intros [f n] [g m]. unfold pair_eqb. cbn [fst snd]. rewrite andb_true_iff, (str_decides f g), Nat.eqb_eq. split; [intros [-> ->]; reflexivity|intros [= -> ->]; auto]. Qed.

Lemma pair_leb_eq x y : pair_leb x y = true <-> (fst x = fst y /\ snd x <= snd y) \/ (fst x <> fst y /\ str_leb (fst x) (fst y) = true).
Proof.
  unfold pair_leb. destruct (str_eqb (fst x) (fst y)) eqn:E.
  - apply str_decides in E. rewrite Nat.leb_le. split; [auto|]. intros [[_ H]|[H _]]; [exact H|congruence].
  - assert (fst x <> fst y) by (intros H; apply str_decides in H; congruence). split; [auto|]. intros [[H' _]|[_ H']]; [congruence|exact H'].
Qed.

Lemma pair_total x y : pair_leb x y = true \/ pair_leb y x = true.
Proof.
  rewrite !pair_leb_eq. destruct (str_eqb (fst x) (fst y)) eqn:E.
  - apply str_decides in E. destruct (Nat.le_ge_cases (snd x) (snd y)); [left|right]; left; auto.
  - assert (fst x <> fst y) by (intros H; apply str_decides in H; congruence). destruct (str_leb_total (fst x) (fst y)); [left|right]; right; auto.
Qed.

Lemma pair_antisym x y : pair_leb x y = true -> pair_leb y x = true -> x = y.
Proof.
  rewrite !pair_leb_eq. destruct x as [a n], y as [b m]; cbn [fst snd]. intros [[E L]|[E L]] [[E' L']|[E' L']]; subst; try congruence.
  - f_equal. lia.
  - now rewrite (str_leb_antisym a b L L') in E.
Qed.

Lemma pair_trans x y z : pair_leb x y = true -> pair_leb y z = true -> pair_leb x z = true.
Proof.
  rewrite !pair_leb_eq. destruct x as [a n], y as [b m], z as [c k]; cbn [fst snd]. intros [[E L]|[E L]] [[E' L']|[E' L']]; subst.
  - left. split; [reflexivity|lia].
  - right. auto.
  - right. auto.
  - right. split; [|now apply (str_leb_trans a b c)]. intros ->. now rewrite (str_leb_antisym c b L L') in E.
Qed.

Definition place (m : list (str * nat)) (k : list nat) : list (str * nat) := map (fun fk => (fst (fst fk), snd (fst fk) + snd fk)) (combine m k).

Lemma summands_place m : forall t, In t (summands m) <-> exists k, List.length k = List.length m /\ list_sum k = 1 /\ t = place m k.
Proof.
  induction m as [|[f n] m IH]; intros t; cbn [summands].
  - split; [intros []|]. intros ([|] & L & S & _); [discriminate S|discriminate L].
  - cbn [In]. rewrite in_map_iff. split.
    + intros [<-|(u & <- & I)].
      * exists (1 :: repeat 0 (List.length m)). cbn [List.length]. rewrite repeat_length. split; [reflexivity|]. split.
        { cbn [list_sum fold_right]. clear. induction (List.length m) as [|l IH]; [reflexivity|exact IH]. }
        unfold place. cbn [combine map fst snd]. rewrite Nat.add_1_r. f_equal. clear. induction m as [|[g p] m IH]; [reflexivity|]. cbn [List.length repeat combine map fst snd]. rewrite Nat.add_0_r, <- IH. reflexivity.
      * apply IH in I as (k & L & S & ->). exists (0 :: k). cbn [List.length]. split; [now rewrite L|]. split; [exact S|]. unfold place. cbn [combine map fst snd]. now rewrite Nat.add_0_r.
    + intros ([|k0 k] & L & S & ->); [discriminate L|]. injection L as L. cbn [list_sum fold_right] in S. unfold place. cbn [combine map fst snd].
      destruct k0 as [|[|k0]]; [| |lia].
      * right. exists (place m k). rewrite Nat.add_0_r. split; [reflexivity|]. apply IH. exists k. auto.
      * left. rewrite Nat.add_1_r. f_equal. assert (S' : list_sum k = 0) by (unfold list_sum in *; lia). clear - L S'. revert k L S'.
        induction m as [|[g p] m IH]; intros [|k0 k] L S'; try discriminate L; [reflexivity|]. cbn [combine map fst snd]. cbn [list_sum fold_right] in S'. injection L as L.
        assert (k0 = 0) as -> by lia. rewrite Nat.add_0_r. f_equal. apply IH; [exact L|]. unfold list_sum in *. lia.
Qed.

Lemma place_place m : forall k k', List.length k = List.length m -> List.length k' = List.length m ->
  place (place m k) k' = place m (map (fun p => fst p + snd p) (combine k k')).
Proof.
  unfold place. induction m as [|[f n] m IH]; intros [|a k] [|b k'] L L'; try discriminate; [reflexivity|]. injection L as L. injection L' as L'.
  cbn [combine map fst snd]. now rewrite Nat.add_assoc, (IH k k' L L').
Qed.

Lemma place_length m k : List.length k = List.length m -> List.length (place m k) = List.length m.
Proof. intros L. unfold place. rewrite map_length, combine_length. lia. Qed.

Lemma sum_combine : forall k k', List.length k = List.length k' -> list_sum (map (fun p => fst p + snd p) (combine k k')) = list_sum k + list_sum k'.
Proof.
  unfold list_sum. induction k as [|a k IH]; intros [|b k'] L; try discriminate; [reflexivity|]. injection L as L. cbn [combine map fold_right fst snd]. rewrite (IH k' L). lia.
Qed.

(** one derivative less *)
Lemma split_sum n : forall k, list_sum k = S n -> exists k1 k2, List.length k1 = List.length k /\ List.length k2 = List.length k /\ list_sum k1 = n /\ list_sum k2 = 1 /\
  k = map (fun p => fst p + snd p) (combine k1 k2).
Proof.
  unfold list_sum. intros k; revert n. induction k as [|a k IH]; intros n H; [discriminate H|]. cbn [fold_right] in H. destruct a as [|a].
  - destruct (IH n H) as (k1 & k2 & L1 & L2 & S1 & S2 & E). exists (0 :: k1), (0 :: k2). cbn [List.length fold_right combine map fst snd]. split; [congruence|]. split; [congruence|]. split; [lia|]. split; [lia|]. cbn [Nat.add]. now rewrite <- E.
  - exists (a :: k), (1 :: repeat 0 (List.length k)). cbn [List.length fold_right combine map fst snd]. rewrite repeat_length.
    assert (Z1 : fold_right Nat.add 0 (repeat 0 (List.length k)) = 0) by (clear; induction (List.length k) as [|l IH]; [reflexivity|exact IH]).
    split; [reflexivity|]. split; [reflexivity|]. split; [lia|]. split; [lia|]. rewrite Nat.add_1_r. f_equal. clear. induction k as [|a k IH]; [reflexivity|]. cbn [List.length repeat combine map fst snd]. now rewrite Nat.add_0_r, <- IH.
Qed.

Lemma diffs_place n m : forall t, In t (diffs n m) <-> exists k, List.length k = List.length m /\ list_sum k = n /\ t = place m k.
Proof.
  induction n as [|n IH]; intros t; cbn [diffs].
  - split.
    + intros [<-|[]]. exists (repeat 0 (List.length m)). rewrite repeat_length. split; [reflexivity|]. split; [clear; induction (List.length m) as [|l IH]; [reflexivity|exact IH]|].
      unfold place. clear. induction m as [|[f n] m IH]; [reflexivity|]. cbn [List.length repeat combine map fst snd]. now rewrite Nat.add_0_r, <- IH.
    + intros (k & L & S & ->). left. unfold place. revert k L S. induction m as [|[f n] m IH]; intros [|a k] L S; try discriminate L; [reflexivity|]. injection L as L. cbn [list_sum fold_right] in S.
      assert (a = 0) as -> by lia. cbn [combine map fst snd]. rewrite Nat.add_0_r. f_equal. apply IH; [exact L|]. unfold list_sum. lia.
  - rewrite in_flat_map. split.
    + intros (u & I & J). apply IH in I as (k & L & S & ->). apply summands_place in J as (k' & L' & S' & ->). rewrite (place_length m k L) in L'.
      exists (map (fun p => fst p + snd p) (combine k k')). rewrite map_length, combine_length. split; [lia|]. split; [rewrite sum_combine; lia|]. now apply place_place.
    + intros (k & L & S & ->). destruct (split_sum n k S) as (k1 & k2 & L1 & L2 & S1 & S2 & E). exists (place m k1). split.
      * apply IH. exists k1. split; [congruence|auto].
      * apply summands_place. exists k2. rewrite place_length by congruence. split; [congruence|]. split; [exact S2|]. rewrite place_place by congruence. now rewrite <- E.
Qed.

(** [distribute_derivatives] of D^n times a product has one term for each way to distribute the n derivatives over the factors;
    ways that differ only by exchanging equal factors count once. *)
Theorem C85_distribute : forall n m,
  (forall t, In t (distribute_derivatives n m) -> placed n m t) /\
  (forall t, placed n m t -> exists t', In t' (distribute_derivatives n m) /\ Permutation t t') /\
  NoDup (distribute_derivatives n m) /\
  (forall t t', In t (distribute_derivatives n m) -> In t' (distribute_derivatives n m) -> Permutation t t' -> t = t').
Proof.
  intros n m. assert (De : decides (list_eqb pair_eqb)) by (apply list_decides, pair_decides). unfold distribute_derivatives.
  assert (Sp : forall t, In t (nodup_by (list_eqb pair_eqb) (map normal (diffs n m))) <-> exists k, List.length k = List.length m /\ list_sum k = n /\ t = normal (place m k)).
  { intros t. rewrite (nodup_by_In De), in_map_iff. split.
    - intros (u & <- & I). apply diffs_place in I as (k & L & S & ->). eauto.
    - intros (k & L & S & ->). exists (place m k). split; [reflexivity|]. apply diffs_place. eauto. }
  split; [|split; [|split]].
  - intros t I. apply Sp in I as (k & L & S & ->). exists k. split; [exact L|]. split; [exact S|]. symmetry. apply sort_perm.
  - intros t (k & L & S & P). exists (normal (place m k)). split; [apply Sp; eauto|]. rewrite P. apply sort_perm.
  - now apply nodup_by_NoDup.
  - intros t t' I I' P. apply Sp in I as (k & L & S & ->). apply Sp in I' as (k' & L' & S' & ->). apply (sort_eq_iff pair_leb pair_total pair_trans pair_antisym).
    rewrite (sort_perm pair_leb (place m k)), (sort_perm pair_leb (place m k')). exact P.
Qed.

(** [parse] of D^n times a product of fields: each distribution of the derivatives, with each choice of Lorentz labels. *)
Theorem C85_parse : forall lookup n m, (forall x k, In (x, k) m -> k = 0 /\ exists f, lookup x = Ok f /\ differentiable n f) ->
  exists ss, parse lookup n m = Ok ss /\
    forall s, In s ss <-> exists t fs, In t (distribute_derivatives n m) /\ mapM (fun x => lookup (fst x)) t = Ok fs /\
                                       expands (map Some (combine (map snd t) fs)) s.
Proof.
  intros lookup n m W. unfold parse.
  assert (T : forall t, In t (distribute_derivatives n m) -> forall x k, In (x, k) t -> k <= n /\ exists f, lookup x = Ok f /\ differentiable n f).
  { intros t I x k J. apply (proj1 (C85_distribute n m)) in I as (ks & L & S & P). apply (Permutation_in _ P) in J. apply in_map_iff in J as ([[y j] i] & [= <- <-] & J).
    pose proof (in_combine_l _ _ _ _ J) as Jl. pose proof (in_combine_r _ _ _ _ J) as Jr. destruct (W y j Jl) as (-> & f & Lf & Df). cbn [fst snd]. split; [|eauto].
    cbn [Nat.add]. clear - Jr S. subst n. induction ks as [|b ks IH]; [destruct Jr|]. unfold list_sum. cbn [fold_right]. destruct Jr as [-> |Jr]; [lia|]. specialize (IH Jr). unfold list_sum in IH. lia. }
  assert (St : forall t, In t (distribute_derivatives n m) -> exists fs ss, mapM (fun x => lookup (fst x)) t = Ok fs /\
     (do items <- mapM (factor_item lookup) t; proc_term items) = Ok ss /\ forall s, In s ss <-> expands (map Some (combine (map snd t) fs)) s).
  { intros t I. specialize (T t I). clear I.
    assert (M : exists fs items, mapM (fun x => lookup (fst x)) t = Ok fs /\ mapM (factor_item lookup) t = Ok items /\ map factor_of items = map Some (combine (map snd t) fs) /\
              forall k f, In (IDeriv k f) items -> differentiable k f).
    { induction t as [|[x k] t IH].
      - exists [], []. split; [reflexivity|]. split; [reflexivity|]. split; [reflexivity|]. intros k f [].
      - destruct IH as (fs & items & E1 & E2 & E3 & E4); [intros y j J; apply (T y j); now right|]. destruct (T x k (or_introl eq_refl)) as (Lk & f & Lf & Df).
        exists (f :: fs), ((match k with O => IField f | k => IDeriv k f end) :: items). cbn [mapM fst]. rewrite Lf. cbn [bind]. rewrite E1. cbn [bind].
        unfold factor_item at 1. cbn [fst snd]. rewrite Lf. cbn [bind]. rewrite E2. cbn [bind]. split; [reflexivity|]. split; [now destruct k|]. split.
        + cbn [map snd combine]. rewrite E3. f_equal. now destruct k.
        + intros j g [J|J]; [|now apply E4]. destruct k as [|k]; [discriminate J|]. injection J as <- <-. destruct Df as (a & b & c & d & e & Fo & Tx & A & B). exists a, b, c, d, e. repeat split; auto; try apply Fo; lia. }
    destruct M as (fs & items & E1 & E2 & E3 & E4). destruct (C84_expands items E4) as (ss & E5 & E6). exists fs, ss. split; [exact E1|]. rewrite E2. cbn [bind]. split; [exact E5|]. intros s. now rewrite E6, E3. }
  destruct (mapM_some (fun t => do items <- mapM (factor_item lookup) t; proc_term items) (distribute_derivatives n m)) as (l & E & F).
  { intros t I. destruct (St t I) as (fs & ss & _ & X & _). eauto. }
  rewrite E. cbn [bind]. exists (List.concat l). split; [reflexivity|]. intros s. rewrite in_concat. split.
  - intros (ss & I & J). apply (Forall2_in_r _ _ _ F) in I as (t & It & X). destruct (St t It) as (fs & ss' & E1 & E2 & E3). cbn beta in X. rewrite X in E2. injection E2 as <-. exists t, fs. split; [exact It|]. split; [exact E1|now apply E3].
  - intros (t & fs & It & E1 & Ex). destruct (St t It) as (fs' & ss & E1' & E2 & E3). rewrite E1 in E1'. injection E1' as <-. apply (Forall2_in_l _ _ _ F) in It as (ss' & I & X). cbn beta in X. rewrite X in E2. injection E2 as ->.
    exists ss. split; [exact I|now apply E3].
Qed.

(** two derivatives and L L H: four distributions *)
Example C85_example : distribute_derivatives 2 [(lit "L", 0); (lit "L", 0); (lit "H", 0)] =
  [[(lit "H", 0); (lit "L", 0); (lit "L", 2)]; [(lit "H", 0); (lit "L", 1); (lit "L", 1)]; [(lit "H", 1); (lit "L", 0); (lit "L", 1)]; [(lit "H", 2); (lit "L", 0); (lit "L", 0)]].
Proof. vm_compute. reflexivity. Qed.

Print Assumptions C84_expands.
Print Assumptions C85_parse.
