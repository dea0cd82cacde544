(** * ProofsDatabase *)

From Coq Require Import Ascii String List Bool Arith ZArith Znumtheory Lia Permutation Sorted QArith Qcanon.
From Verif Require Import Base BaseFacts Spec Show Primes ModelFunctions SpecFunctions ProofsFunctions
  ModelMatch ProofsMatch ModelRegistry SpecRegistry ProofsRegistry ModelDatabase SpecDatabase.
Import ListNotations.
Local Open Scope nat_scope.

(** ** Loops that update a dictionary at the current key *)

Lemma filter_filter {A} (P Q : A -> bool) l : filter Q (filter P l) = filter (fun x => P x && Q x) l.
Proof.
  induction l as [|x l IH]; [reflexivity|]. cbn. destruct (P x); cbn; [destruct (Q x)|]; now rewrite IH.
Qed.

Section Update.
  Context {K V : Type} (keqb : K -> K -> bool) (Hk : decides keqb).

  Lemma dset_middle (a b : list (K * V)) k v w :
    ~ In k (keys a) -> dset keqb (a ++ (k, v) :: b) k w = a ++ (k, w) :: b.
  Proof using Hk.
    induction a as [|[k1 v1] a IH]; intros N; cbn.
    - now rewrite (decides_refl Hk).
    - cbn in N. rewrite (decides_neq Hk) by (intros E; apply N; auto). rewrite IH by tauto. reflexivity.
  Qed.

  Lemma fold_update (step : list (K * V) -> K * V -> res (list (K * V))) (h : K * V -> V) (data : list (K * V)) :
    NoDup (keys data) ->
    (forall out kv, In kv data -> step out kv = Ok (dset keqb out (fst kv) (h kv)) \/
                                  (step out kv = Ok out /\ h kv = snd kv)) ->
    foldM step data data = Ok (map (fun kv => (fst kv, h kv)) data).
  Proof using Hk.
    intros ND Hs.
    assert (G : forall l a, NoDup (keys (a ++ l)) -> (forall kv, In kv l -> In kv data) ->
                foldM step l (map (fun kv => (fst kv, h kv)) a ++ l) = Ok (map (fun kv => (fst kv, h kv)) (a ++ l))).
    { induction l as [|[k v] l IH]; intros a N Hl; cbn [foldM].
      - rewrite !app_nil_r. reflexivity.
      - assert (E : step (map (fun kv => (fst kv, h kv)) a ++ (k, v) :: l) (k, v)
                    = Ok (map (fun kv => (fst kv, h kv)) (a ++ [(k, v)]) ++ l)).
        { rewrite map_app. cbn [map fst]. rewrite <- app_assoc. cbn [app].
          destruct (Hs (map (fun kv => (fst kv, h kv)) a ++ (k, v) :: l) (k, v)) as [->|[-> E]];
            [apply Hl; left; reflexivity| |].
          - cbn [fst]. f_equal. apply dset_middle. intros I. unfold keys in *. rewrite map_map in I. cbn in I.
            rewrite map_app in N. cbn in N. apply NoDup_remove_2 in N. apply N, in_or_app. auto.
          - cbn [snd] in E. now rewrite E. }
        rewrite E. cbn [bind]. rewrite IH.
        + now rewrite <- app_assoc.
        + now rewrite <- app_assoc.
        + intros kv I. apply Hl. now right. }
    apply (G data []); auto.
  Qed.
End Update.

(** ** The sieve *)

Section Sieve.
  Context (data0 : list (str * list lazy)) (ND : NoDup (keys data0)).
  Context (numR : lazy -> res Z) (num : lazy -> Z)
    (Hnum : forall k m, model_of data0 k m -> numR m = Ok (num m) /\ (1 <= num m)%Z).
  (** [hi op k]: operator [op] filters operator [k] *)
  Context (hi : str -> str -> bool)
    (hi_irrefl : forall k, In k (keys data0) -> hi k k = false)
    (hi_trans : forall a b c, In a (keys data0) -> In b (keys data0) -> In c (keys data0) ->
                              hi a b = true -> hi b c = true -> hi a c = true).

  Definition restrict (P : str -> lazy -> bool) : list (str * list lazy) :=
    map (fun kv => (fst kv, filter (P (fst kv)) (snd kv))) data0.

  Definition stepP (op : str) (m0 : lazy) (P : str -> lazy -> bool) : str -> lazy -> bool :=
    fun k m => P k m && negb (hi op k && (num m mod num m0 =? 0)%Z).

  Lemma restrict_keys P : keys (restrict P) = keys data0.
  Proof using Type. unfold restrict, keys. now rewrite map_map. Qed.

  Lemma model_of_restrict P k m : model_of (restrict P) k m <-> model_of data0 k m /\ P k m = true.
  Proof using Type.
    unfold model_of, restrict. split.
    - intros (v & I & Im). apply in_map_iff in I as ([k1 v1] & E & I). cbn in E. inversion E; subst.
      apply filter_In in Im as (Im & Pm). split; auto. exists v1. auto.
    - intros ((v & I & Im) & Pm). exists (filter (P k) v). split.
      + apply in_map_iff. exists (k, v). auto.
      + apply filter_In. auto.
  Qed.

  Lemma keep_models_ok s v : (forall m, In m v -> numR m = Ok (num m)) -> (1 <= s)%Z ->
    keep_models numR s v = Ok (filter (fun m => negb (num m mod s =? 0)%Z) v).
  Proof using Type.
    intros Hv Hs. unfold keep_models.
    assert (G : forall l acc, (forall m, In m l -> numR m = Ok (num m)) ->
      foldM (fun new_v test_model => do n <- numR test_model; do keep <- not_multiple n s;
               Ok (if keep : bool then new_v ++ [test_model] else new_v)) l acc
      = Ok (acc ++ filter (fun m => negb (num m mod s =? 0)%Z) l)).
    { induction l as [|m l IH]; intros acc Hl; cbn [foldM filter].
      - now rewrite app_nil_r.
      - rewrite Hl by (left; reflexivity). cbn [bind].
        assert (Es : not_multiple (num m) s = Ok (negb (num m mod s =? 0)%Z)).
        { unfold not_multiple. replace (s =? 0)%Z with false; [reflexivity|]. symmetry. apply Z.eqb_neq. lia. }
        rewrite Es. cbn [bind].
        rewrite IH by (intros; apply Hl; now right).
        destruct (negb (num m mod s =? 0)%Z); [now rewrite <- app_assoc|reflexivity]. }
    apply (G v []). exact Hv.
  Qed.

  Lemma sieve_data_ok P op m0 skip :
    model_of data0 op m0 -> (forall k, In k (keys data0) -> skip k = Ok (negb (hi op k))) ->
    sieve_data numR skip (num m0) (restrict P) = Ok (restrict (stepP op m0 P)).
  Proof using Hnum ND.
    intros Hm Hskip. unfold sieve_data.
    rewrite (fold_update str_eqb str_decides _
      (fun kv => if hi op (fst kv) then filter (fun m => negb (num m mod num m0 =? 0)%Z) (snd kv) else snd kv)).
    - f_equal. unfold restrict. rewrite map_map. apply map_ext. intros [k v]. cbn [fst snd]. f_equal.
      unfold stepP. destruct (hi op k).
      + rewrite filter_filter. apply filter_ext. intros m. reflexivity.
      + apply filter_ext. intros m. cbn. now rewrite andb_true_r.
    - now rewrite restrict_keys.
    - intros out [k v] I. cbn [fst snd].
      assert (Ik : In k (keys data0)) by (rewrite <- (restrict_keys P); apply in_map_iff; exists (k, v); auto).
      rewrite (Hskip k Ik). cbn [bind]. destruct (hi op k); cbn [negb].
      + left. rewrite keep_models_ok; [reflexivity| |now apply (Hnum op)].
        intros m Im. apply (Hnum k). apply (model_of_restrict P). exists v. auto.
      + right. auto.
  Qed.

  (** what one operator does *)
  Definition opP (P : str -> lazy -> bool) (op : str) : str -> lazy -> bool :=
    fold_left (fun P m0 => stepP op m0 P)
              (match dget str_eqb (restrict P) op with Some v => v | None => [] end) P.

  Definition allP (ops : list str) (P : str -> lazy -> bool) : str -> lazy -> bool := fold_left opP ops P.

  Lemma steps_spec op l P k m :
    fold_left (fun P m0 => stepP op m0 P) l P k m = true <->
    P k m = true /\ forall m0, In m0 l -> ~ (hi op k = true /\ (num m mod num m0 = 0)%Z).
  Proof using Type.
    revert P. induction l as [|x l IH]; intros P; cbn [fold_left].
    - simpl. firstorder.
    - rewrite IH. unfold stepP. rewrite andb_true_iff, negb_true_iff, andb_false_iff, Z.eqb_neq. split.
      + intros ((Pm & Hx) & Hl). split; auto. intros m0 [->|I]; [|auto]. intros (A & B).
        destruct Hx as [Hx|Hx]; [congruence|contradiction].
      + intros (Pm & Hl). split; [|intros; apply Hl; now right]. split; auto.
        destruct (hi op k) eqn:E; auto. right. intros B. apply (Hl x); auto. now left.
  Qed.

  Lemma opP_spec P op k m : In op (keys data0) ->
    opP P op k m = true <->
    P k m = true /\ forall m0, model_of data0 op m0 -> P op m0 = true ->
                               ~ (hi op k = true /\ (num m mod num m0 = 0)%Z).
  Proof using ND.
    intros Iop. unfold opP.
    assert (M : dmem str_eqb (restrict P) op = true) by (apply (dmem_In str_decides); now rewrite restrict_keys).
    unfold dmem in M. destruct (dget str_eqb (restrict P) op) as [v|] eqn:E; [|discriminate].
    rewrite steps_spec. apply (dget_In str_decides) in E.
    split; intros (Pm & Hl); (split; [exact Pm|]).
    - intros m0 Hm P0. apply Hl. assert (Q : model_of (restrict P) op m0) by (apply model_of_restrict; auto).
      destruct Q as (v' & I' & Im). replace v with v'; auto.
      assert (NR : NoDup (keys (restrict P))) by now rewrite restrict_keys.
      pose proof (In_dget str_decides _ _ _ NR E). pose proof (In_dget str_decides _ _ _ NR I'). congruence.
    - intros m0 I0. assert (Q : model_of (restrict P) op m0) by (exists v; auto).
      apply model_of_restrict in Q as (Q1 & Q2). auto.
  Qed.

  Lemma opP_le P op k m : In op (keys data0) -> opP P op k m = true -> P k m = true.
  Proof using ND. intros Iop. rewrite opP_spec by auto. tauto. Qed.

  Lemma allP_le ops P k m : (forall o, In o ops -> In o (keys data0)) -> allP ops P k m = true -> P k m = true.
  Proof using ND.
    revert P. induction ops as [|o ops IH]; intros P Ho; cbn; auto. intros H.
    apply IH in H; [|intros; apply Ho; now right]. apply opP_le in H; auto. apply Ho. now left.
  Qed.

  (** some original model at a higher operator divides [m] *)
  Definition dominated (k : str) (m : lazy) : Prop :=
    exists op m0, model_of data0 op m0 /\ hi op k = true /\ (num m mod num m0 = 0)%Z.

  Lemma opP_sound P op :
    In op (keys data0) -> (forall k m, P k m = false -> dominated k m) ->
    forall k m, opP P op k m = false -> dominated k m.
  Proof using ND.
    intros Iop HP k m E. destruct (P k m) eqn:EP; [|auto].
    unfold opP in E.
    assert (NE : ~ (P k m = true /\ forall m0, In m0 (match dget str_eqb (restrict P) op with Some v => v | None => [] end)
                         -> ~ (hi op k = true /\ (num m mod num m0 = 0)%Z))).
    { intros H. apply steps_spec in H. congruence. }
    set (l := match dget str_eqb (restrict P) op with Some v => v | None => [] end) in *.
    assert (X : exists m0, In m0 l /\ (hi op k && (num m mod num m0 =? 0)%Z) = true).
    { destruct (existsb (fun m0 => hi op k && (num m mod num m0 =? 0)%Z) l) eqn:Ex.
      - apply existsb_exists in Ex as (m0 & A & B). eauto.
      - exfalso. apply NE. split; auto. intros m0 I0 (A & B).
        assert (existsb (fun m0 => hi op k && (num m mod num m0 =? 0)%Z) l = true); [|congruence].
        apply existsb_exists. exists m0. split; auto. rewrite A. now apply Z.eqb_eq in B. }
    destruct X as (m0 & I0 & B). apply andb_true_iff in B as (B1 & B2). apply Z.eqb_eq in B2.
    exists op, m0. split; auto. unfold l in I0. destruct (dget str_eqb (restrict P) op) as [v|] eqn:Ev; [|destruct I0].
    apply (dget_In str_decides) in Ev.
    assert (Q : model_of (restrict P) op m0) by (exists v; auto). now apply model_of_restrict in Q.
  Qed.

  Lemma allP_sound ops P :
    (forall o, In o ops -> In o (keys data0)) -> (forall k m, P k m = false -> dominated k m) ->
    forall k m, allP ops P k m = false -> dominated k m.
  Proof using ND.
    revert P. induction ops as [|o ops IH]; intros P Ho HP; cbn; auto.
    apply IH; [intros; apply Ho; now right|]. apply opP_sound; auto. apply Ho. now left.
  Qed.

  Lemma allP_kills ops P op m0 k m :
    (forall o, In o ops -> In o (keys data0)) -> In op ops -> model_of data0 op m0 ->
    allP ops P op m0 = true -> hi op k = true -> (num m mod num m0 = 0)%Z -> allP ops P k m = false.
  Proof using ND.
    intros Ho. revert P. induction ops as [|o ops IH]; intros P Iop Hm Hs Hh Hd; [destruct Iop|].
    cbn [allP fold_left] in *. destruct Iop as [->|Iop].
    - apply not_true_is_false. intros E.
      apply (allP_le ops) in E; [|intros; apply Ho; now right].
      apply opP_spec in E as (_ & E); [|apply Ho; now left].
      apply (E m0); auto. apply (allP_le ops) in Hs; [|intros; apply Ho; now right].
      apply (opP_le P op); auto. apply Ho. now left.
    - apply IH; auto. intros; apply Ho; now right.
  Qed.

  (** number of operators above *)
  Definition above (op : str) : nat := List.length (filter (fun o => hi o op) (keys data0)).

  Lemma above_lt a b : In a (keys data0) -> In b (keys data0) -> hi a b = true -> above a < above b.
  Proof using hi_irrefl hi_trans.
    intros Ia Ib Hab. unfold above.
    assert (G : forall l x, In x l -> (forall y, In y l -> In y (keys data0)) -> hi x a = false -> hi x b = true ->
              List.length (filter (fun o => hi o a) l) < List.length (filter (fun o => hi o b) l)).
    { assert (L : forall l, (forall y, In y l -> In y (keys data0)) ->
               List.length (filter (fun o => hi o a) l) <= List.length (filter (fun o => hi o b) l)).
      { induction l as [|y l IH]; intros Hl; cbn; [lia|].
        assert (Iy : In y (keys data0)) by (apply Hl; left; reflexivity).
        specialize (IH (fun z H => Hl z (or_intror H))).
        destruct (hi y a) eqn:E1; [rewrite (hi_trans y a b) by auto; cbn; lia|]. destruct (hi y b); cbn; lia. }
      induction l as [|y l IH]; intros x I Hl E1 E2; [destruct I|]. destruct I as [->|I].
      - cbn. rewrite E1, E2. cbn. specialize (L l (fun z H => Hl z (or_intror H))). lia.
      - specialize (IH x I (fun z H => Hl z (or_intror H)) E1 E2). cbn.
        assert (Iy : In y (keys data0)) by (apply Hl; left; reflexivity).
        destruct (hi y a) eqn:Ea; [rewrite (hi_trans y a b) by auto; cbn; lia|]. destruct (hi y b); cbn; lia. }
    apply (G (keys data0) a); auto.
  Qed.

  Lemma model_of_key k m : model_of data0 k m -> In k (keys data0).
  Proof using Type. intros (v & I & _). apply in_map_iff. exists (k, v). auto. Qed.

  Theorem allP_exact ops k m :
    (forall o, In o ops <-> In o (keys data0)) -> model_of data0 k m ->
    allP ops (fun _ _ => true) k m = true <-> ~ dominated k m.
  Proof using ND Hnum hi_irrefl hi_trans.
    intros Ho Hm. assert (Ho' : forall o, In o ops -> In o (keys data0)) by (intros; now apply Ho).
    split.
    - intros E D.
      assert (G : forall n op m0 k m, above op <= n -> model_of data0 op m0 -> model_of data0 k m -> hi op k = true ->
                   (num m mod num m0 = 0)%Z -> allP ops (fun _ _ => true) k m = false).
      { induction n as [n IH] using lt_wf_ind. intros op m0 k' m' Hn H0 H1 Hh Hd.
        destruct (allP ops (fun _ _ => true) op m0) eqn:E0.
        - apply (allP_kills ops _ op m0); auto. apply Ho. eapply model_of_key; eauto.
        - apply allP_sound in E0 as (op2 & m2 & H2 & Hh2 & Hd2); [|auto|discriminate].
          pose proof (model_of_key _ _ H0) as K0. pose proof (model_of_key _ _ H1) as K1.
          pose proof (model_of_key _ _ H2) as K2.
          pose proof (above_lt op2 op K2 K0 Hh2) as L.
          apply (IH (above op2)) with op2 m2; auto; [lia| |].
          + apply hi_trans with op; auto.
          + apply Z.mod_divide; [destruct (Hnum _ _ H2); lia|].
            apply Z.mod_divide in Hd; [|destruct (Hnum _ _ H0); lia].
            apply Z.mod_divide in Hd2; [|destruct (Hnum _ _ H2); lia].
            eapply Z.divide_trans; eauto. }
      destruct D as (op & m0 & H0 & Hh & Hd). rewrite (G (above op) op m0 k m) in E by auto. discriminate.
    - intros D. destruct (allP ops (fun _ _ => true) k m) eqn:E; auto. exfalso. apply D.
      eapply (allP_sound ops); eauto. discriminate.
  Qed.

  Lemma restrict_all : restrict (fun _ _ => true) = data0.
  Proof using Type.
    unfold restrict. rewrite <- (map_id data0) at 2. apply map_ext. intros [k v]. cbn. f_equal.
    induction v; cbn; congruence.
  Qed.

  Lemma restrict_get P op : In op (keys data0) -> exists v, dget str_eqb (restrict P) op = Some v /\
    forall m, In m v -> model_of data0 op m /\ P op m = true.
  Proof using ND.
    intros I. assert (M : dmem str_eqb (restrict P) op = true) by (apply (dmem_In str_decides); now rewrite restrict_keys).
    unfold dmem in M. destruct (dget str_eqb (restrict P) op) as [v|] eqn:E; [|discriminate]. exists v. split; auto.
    intros m Im. apply model_of_restrict. apply (dget_In str_decides) in E. exists v. auto.
  Qed.
End Sieve.

(** ** filter_by_mass *)

Definition num_of (numR : lazy -> res Z) (m : lazy) : Z := match numR m with Ok n => n | Err _ => 1%Z end.

Lemma Qc_geb_iff a b : Qc_geb a b = true <-> (b <= a)%Qc.
Proof. unfold Qc_geb, Qcle. apply Qle_bool_iff. Qed.

Lemma Qc_geb_false a b : Qc_geb a b = false <-> (a < b)%Qc.
Proof.
  split.
  - intros E. apply Qcnot_le_lt. intros L. apply Qc_geb_iff in L. congruence.
  - intros L. apply not_true_is_false. intros E. apply Qc_geb_iff in E. apply Qclt_not_le in L. contradiction.
Qed.

Section Mass.
  Context (enum : list str -> list str) (d : db) (sc : list (str * Qc)).
  Notation data0 := (d_data d).
  Notation numR := (db_model_number enum d).
  Notation num := (num_of numR).
  Context (ND : NoDup (keys data0)) (Hsc : d_scales d = Some sc)
    (Hall : forall k, In k (keys data0) -> dmem str_eqb sc k = true)
    (Hpos : forall k m, model_of data0 k m -> exists n, numR m = Ok n /\ (1 <= n)%Z).

  Definition scale (sc : list (str * Qc)) (k : str) : Qc := match dget str_eqb sc k with Some s => s | None => Q2Qc 0 end.
  Definition hi_mass (op k : str) : bool := negb (Qc_geb (scale sc k) (scale sc op)).

  Lemma hi_mass_iff op k : hi_mass op k = true <-> (scale sc k < scale sc op)%Qc.
  Proof using Type. unfold hi_mass. now rewrite negb_true_iff, Qc_geb_false. Qed.

  Lemma num_ok k m : model_of data0 k m -> numR m = Ok (num m) /\ (1 <= num m)%Z.
  Proof using Hpos. intros H. destruct (Hpos k m H) as (n & E & L). unfold num_of. rewrite E. auto. Qed.

  Lemma scale_ok k : In k (keys data0) -> scale_of (d_scales d) k = Ok (scale sc k).
  Proof using Hsc Hall.
    intros I. rewrite Hsc. cbn. specialize (Hall k I). unfold dgetM, dmem, scale in *.
    destruct (dget str_eqb sc k); [reflexivity|discriminate].
  Qed.

  Notation R P := (set_data d (restrict data0 P)).

  Lemma filter_model_by_mass_ok P op m0 : model_of data0 op m0 ->
    filter_model_by_mass enum (R P) op m0 = Ok (R (stepP num hi_mass op m0 P)).
  Proof using Hpos Hsc Hall ND.
    intros Hm. unfold filter_model_by_mass. cbn [d_scales set_data d_data].
    rewrite scale_ok by (eapply model_of_key; eauto). cbn [bind].
    change (db_model_number enum (R P)) with numR.
    rewrite (proj1 (num_ok op m0 Hm)). cbn [bind].
    rewrite (sieve_data_ok data0 ND numR num num_ok hi_mass P op m0); auto.
    intros k Ik. rewrite scale_ok by auto. cbn [bind]. unfold hi_mass. now rewrite negb_involutive.
  Qed.

  Lemma mass_models op l P : (forall m, In m l -> model_of data0 op m) ->
    foldM (fun d model => filter_model_by_mass enum d op model) l (R P)
    = Ok (R (fold_left (fun P m0 => stepP num hi_mass op m0 P) l P)).
  Proof using Hpos Hsc Hall ND.
    revert P. induction l as [|m l IH]; intros P Hl; cbn [foldM fold_left]; [reflexivity|].
    rewrite filter_model_by_mass_ok by (apply Hl; left; reflexivity). cbn [bind]. apply IH.
    intros; apply Hl; now right.
  Qed.

  Lemma mass_ops ops P : (forall o, In o ops -> In o (keys data0)) ->
    foldM (filter_models_by_mass enum) ops (R P) = Ok (R (allP data0 num hi_mass ops P)).
  Proof using Hpos Hsc Hall ND.
    revert P. induction ops as [|o ops IH]; intros P Ho; cbn [foldM allP fold_left]; [reflexivity|].
    unfold filter_models_by_mass at 1. cbn [d_data set_data].
    destruct (restrict_get data0 ND P o) as (v & Ev & Hv); [apply Ho; left; reflexivity|].
    unfold dgetM. rewrite Ev. cbn [bind]. rewrite mass_models by (intros m Im; now apply Hv). cbn [bind].
    rewrite IH by (intros; apply Ho; now right). unfold allP. cbn [fold_left]. unfold opP at 3. now rewrite Ev.
  Qed.

  Lemma hi_mass_irrefl k : hi_mass k k = false.
  Proof using Type.
    unfold hi_mass. apply negb_false_iff, Qc_geb_iff, Qcle_refl.
  Qed.

  Lemma hi_mass_trans a b c : hi_mass a b = true -> hi_mass b c = true -> hi_mass a c = true.
  Proof using Type. rewrite !hi_mass_iff. intros H1 H2. eapply Qclt_trans; eauto. Qed.

  Lemma filter_by_mass_ok :
    exists keep : str -> lazy -> bool,
      filter_by_mass enum d = Ok (R keep) /\
      forall k m, model_of data0 k m -> (keep k m = true <-> ~ dominated data0 num hi_mass k m).
  Proof using Hpos Hsc Hall ND.
    exists (allP data0 num hi_mass (keys data0) (fun _ _ => true)). split.
    - unfold filter_by_mass. replace d with (R (fun _ _ => true)) at 2.
      + apply mass_ops. auto.
      + rewrite restrict_all. unfold set_data. destruct d; reflexivity.
    - intros k m Hm. apply (allP_exact data0 ND numR num num_ok hi_mass); auto.
      + intros; apply hi_mass_irrefl.
      + intros a b c _ _ _. apply hi_mass_trans.
      + tauto.
  Qed.
End Mass.

(** ** filter_by_dimension *)

Definition column (j : nat) (notes : list (nat * nat * nat)) : nat :=
  List.length (filter (fun n => snd (fst n) =? j) notes).

Lemma column_app j a b : column j (a ++ b) = column j a + column j b.
Proof. unfold column. now rewrite filter_app, app_length. Qed.

Lemma index_of_ok k l : In k l -> exists i, index_of k l = Ok i /\ nth_error l i = Some k.
Proof.
  induction l as [|x l IH]; [intros []|]. intros I. cbn. destruct (str_eqb k x) eqn:E.
  - apply str_decides in E. subst. exists 0. auto.
  - destruct I as [->|I]; [rewrite (decides_refl str_decides) in E; discriminate|].
    destruct (IH I) as (i & -> & H). exists (S i). auto.
Qed.

Lemma filter_split_length {A} (f : A -> bool) l :
  List.length (filter f l) + List.length (filter (fun x => negb (f x)) l) = List.length l.
Proof. induction l as [|x l IH]; [reflexivity|]. cbn. destruct (f x); cbn; lia. Qed.

Section Notes.
  Context (data : list (str * list lazy)) (ND : NoDup (keys data)).
  Context (numR : lazy -> res Z) (num : lazy -> Z) (Hnum : forall k m, model_of data k m -> numR m = Ok (num m)).
  Context (hi : str -> str -> bool) (op : str) (Iop : In op (keys data)) (s : Z) (Hs : (1 <= s)%Z)
    (skip : str -> res bool) (Hskip : forall k, In k (keys data) -> skip k = Ok (negb (hi op k))).

  Definition kept_at (k : str) (v : list lazy) : list lazy :=
    if hi op k then filter (fun m => negb (num m mod s =? 0)%Z) v else v.

  Lemma sieve_notes_ok :
    exists notes, sieve_notes numR skip s op data = Ok notes /\
      (forall j k v, nth_error data j = Some (k, v) -> column j notes + List.length (kept_at k v) = List.length v) /\
      (forall n, In n notes -> nth_error (keys data) (fst (fst n)) = Some op).
  Proof using ND Hnum Iop Hs Hskip.
    destruct (index_of_ok op (keys data) Iop) as (i & Ei & Ni).
    (* inner loop *)
    assert (Inner : forall k j v0 v notes, (forall m, In m v -> numR m = Ok (num m)) ->
      index_of k (keys data) = Ok j ->
      foldM (fun notes test_model =>
               do n <- numR test_model; do keep <- not_multiple n s;
               if keep : bool then Ok notes
               else do i <- index_of op (keys data); do j <- index_of k (keys data);
                    Ok (notes ++ [(i, j, List.length (v0 : list lazy))])) v notes
      = Ok (notes ++ map (fun _ => (i, j, List.length v0)) (filter (fun m => (num m mod s =? 0)%Z) v))).
    { intros k j v0. induction v as [|m v IH]; intros notes Hv Ej; cbn [foldM filter].
      - now rewrite app_nil_r.
      - rewrite Ei, Ej in *. rewrite Hv by (left; reflexivity). cbn [bind].
        assert (Es : not_multiple (num m) s = Ok (negb (num m mod s =? 0)%Z)).
        { unfold not_multiple. replace (s =? 0)%Z with false; [reflexivity|]. symmetry. apply Z.eqb_neq. lia. }
        rewrite Es. cbn [bind]. destruct (num m mod s =? 0)%Z; cbn [negb bind].
        + rewrite IH by (auto; intros; apply Hv; now right).
          cbn [map]. now rewrite <- app_assoc.
        + apply IH; auto. intros; apply Hv; now right. }
    assert (G : forall l a, data = a ++ l -> forall acc, exists notes,
      foldM (fun notes kv =>
               do s0 <- skip (fst kv);
               if s0 : bool then Ok notes
               else foldM (fun notes test_model =>
                        do n <- numR test_model; do keep <- not_multiple n s;
                        if keep : bool then Ok notes
                        else do i <- index_of op (keys data); do j <- index_of (fst kv) (keys data);
                             Ok (notes ++ [(i, j, List.length (snd kv))])) (snd kv) notes) l acc
      = Ok (acc ++ notes) /\
      (forall j, j < List.length a -> column j notes = 0) /\
      (forall j k v, nth_error l j = Some (k, v) ->
         column (List.length a + j) notes + List.length (kept_at k v) = List.length v) /\
      (forall n, In n notes -> nth_error (keys data) (fst (fst n)) = Some op)).
    { induction l as [|[k v] l IH]; intros a Ea acc; cbn [foldM].
      - exists []. rewrite app_nil_r. split; [reflexivity|]. split; [reflexivity|].
        split; [intros j k v E; destruct j; discriminate|intros n []].
      - assert (Ik : In k (keys data)).
        { rewrite Ea. unfold keys. rewrite map_app. apply in_or_app. right. left. reflexivity. }
        cbn [fst snd]. rewrite (Hskip k Ik). cbn [bind].
        destruct (index_of_ok k (keys data) Ik) as (j & Ej & Nj).
        assert (Lj : j = List.length a).
        { assert (Na : nth_error (keys data) (List.length a) = Some k).
          { rewrite Ea. unfold keys. rewrite map_app, nth_error_app2 by (rewrite map_length; lia).
            rewrite map_length, Nat.sub_diag. reflexivity. }
          apply (proj1 (NoDup_nth_error (keys data)) ND); [|congruence].
          apply nth_error_Some. congruence. }
        assert (Len : List.length (a ++ [(k, v)]) = S (List.length a)) by (rewrite app_length; cbn; lia).
        destruct (hi op k) eqn:Eh; cbn [negb].
        + rewrite (Inner k j v v acc) ; [|intros m Im; apply (Hnum k); exists v; split; auto;
             rewrite Ea; apply in_or_app; right; left; reflexivity|exact Ej].
          cbn [bind].
          set (new := map (fun _ : lazy => (i, j, List.length v)) (filter (fun m => (num m mod s =? 0)%Z) v)).
          destruct (IH (a ++ [(k, v)])) with (acc := acc ++ new) as (notes & E & C0 & C1 & C2);
            [rewrite <- app_assoc; exact Ea|]. rewrite Len in *.
          assert (Cn : forall j', column j' new = if j =? j' then List.length (filter (fun m => (num m mod s =? 0)%Z) v) else 0).
          { intros j'. unfold new, column. clear.
            induction (filter (fun m => (num m mod s =? 0)%Z) v) as [|m w IHw]; cbn; [now destruct (j =? j')|].
            destruct (j =? j'); cbn; [now rewrite IHw|exact IHw]. }
          exists (new ++ notes). split; [rewrite E, <- app_assoc; reflexivity|]. split; [|split].
          * intros j' Lj'. rewrite column_app, C0, Cn by lia. replace (j =? j') with false; [reflexivity|].
            symmetry. apply Nat.eqb_neq. lia.
          * intros [|j'] k' v' En; cbn in En.
            -- inversion En; subst k' v'. rewrite Nat.add_0_r, column_app, C0, Cn by lia.
               rewrite Lj, Nat.eqb_refl. unfold kept_at. rewrite Eh.
               pose proof (filter_split_length (fun m => (num m mod s =? 0)%Z) v). lia.
            -- rewrite column_app, Cn. replace (j =? List.length a + S j') with false by (symmetry; apply Nat.eqb_neq; lia).
               rewrite Nat.add_succ_r. rewrite <- Nat.add_succ_l. apply (C1 j' k' v' En).
          * intros n In_. apply in_app_iff in In_ as [In_|In_]; [|auto].
            unfold new in In_. apply in_map_iff in In_ as (m & <- & _). exact Ni.
        + destruct (IH (a ++ [(k, v)])) with (acc := acc) as (notes & E & C0 & C1 & C2);
            [rewrite <- app_assoc; exact Ea|]. rewrite Len in *.
          exists notes. split; [exact E|]. split; [|split; [|exact C2]].
          * intros j' Lj'. apply C0. lia.
          * intros [|j'] k' v' En; cbn in En.
            -- inversion En; subst k' v'. rewrite Nat.add_0_r, C0 by lia. unfold kept_at. rewrite Eh. lia.
            -- rewrite Nat.add_succ_r. rewrite <- Nat.add_succ_l. apply (C1 j' k' v' En). }
    destruct (G data [] eq_refl []) as (notes & E & _ & C1 & C2). exists notes. split; [exact E|]. split; auto.
  Qed.
End Notes.

Definition with_data (d : db) (x : list (str * list lazy)) (fd : list (nat * nat * nat)) : db :=
  mkDb (d_philosophy d) (d_criterion d) x (d_is_ordered d) (d_exotics d) (d_term_primes d) (d_scales d) fd.

Section Dimension.
  Context (enum : list str -> list str) (dims : list (str * Z)) (d : db).
  Notation data0 := (d_data d).
  Notation numR := (db_model_number enum d).
  Notation num := (num_of numR).
  Context (ND : NoDup (keys data0))
    (Hall : forall k, In k (keys data0) -> dmem str_eqb dims k = true)
    (Hpos : forall k m, model_of data0 k m -> exists n, numR m = Ok n /\ (1 <= n)%Z).

  Definition dim (k : str) : Z := match dget str_eqb dims k with Some s => s | None => 0%Z end.
  Definition hi_dim (op k : str) : bool := negb (dim k <=? dim op)%Z.

  Lemma hi_dim_iff op k : hi_dim op k = true <-> (dim op < dim k)%Z.
  Proof using Type. unfold hi_dim. rewrite negb_true_iff, Z.leb_gt. reflexivity. Qed.

  Lemma dim_ok k : In k (keys data0) -> dgetM str_eqb dims k = Ok (dim k).
  Proof using Hall.
    intros I. specialize (Hall k I). unfold dgetM, dmem, dim in *.
    destruct (dget str_eqb dims k); [reflexivity|discriminate].
  Qed.

  Lemma num_ok_dim k m : model_of data0 k m -> numR m = Ok (num m) /\ (1 <= num m)%Z.
  Proof using Hpos. intros H. destruct (Hpos k m H) as (n & E & L). unfold num_of. rewrite E. auto. Qed.

  Notation R P fd := (with_data d (restrict data0 P) fd).

  (** the columns of filter_data account for the models that are gone *)
  Definition accounted (P : str -> lazy -> bool) (fd : list (nat * nat * nat)) : Prop :=
    forall j k v, nth_error data0 j = Some (k, v) ->
      column j fd + List.length (filter (P k) v) = column j (d_filter_data d) + List.length v.

  Lemma filter_model_by_dimension_ok P fd op m0 : model_of data0 op m0 -> accounted P fd ->
    exists fd', filter_model_by_dimension enum dims (R P fd) op m0 = Ok (R (stepP num hi_dim op m0 P) fd') /\
                accounted (stepP num hi_dim op m0 P) fd'.
  Proof using Hpos Hall ND.
    intros Hm Hacc. unfold filter_model_by_dimension. cbn [d_data with_data].
    pose proof (model_of_key _ _ _ Hm) as Iop.
    rewrite dim_ok by exact Iop. cbn [bind].
    change (db_model_number enum (R P fd)) with numR.
    rewrite (proj1 (num_ok_dim op m0 Hm)). cbn [bind].
    assert (Hskip : forall k, In k (keys data0) ->
               (do m <- dgetM str_eqb dims k; Ok (m <=? dim op)%Z) = Ok (negb (hi_dim op k))).
    { intros k Ik. rewrite dim_ok by auto. cbn [bind]. unfold hi_dim. now rewrite negb_involutive. }
    rewrite (sieve_data_ok data0 ND numR num num_ok_dim hi_dim P op m0) by auto. cbn [bind].
    destruct (sieve_notes_ok (restrict data0 P)) with (numR := numR) (num := num) (hi := hi_dim) (op := op)
      (s := num m0) (skip := fun k => do m <- dgetM str_eqb dims k; Ok (m <=? dim op)%Z) as (notes & E & C & _).
    - now rewrite restrict_keys.
    - intros k m Hkm. apply model_of_restrict in Hkm as (Hkm & _). now apply (num_ok_dim k).
    - now rewrite restrict_keys.
    - now apply (num_ok_dim op).
    - intros k Ik. apply Hskip. now rewrite restrict_keys in Ik.
    - rewrite E. cbn [bind]. eexists. split; [reflexivity|]. cbn [d_filter_data with_data].
      intros j k v Ej. rewrite column_app. specialize (Hacc j k v Ej).
      assert (Er : nth_error (restrict data0 P) j = Some (k, filter (P k) v)).
      { unfold restrict. rewrite nth_error_map, Ej. reflexivity. }
      specialize (C j k _ Er).
      replace (filter (stepP num hi_dim op m0 P k) v) with (kept_at num hi_dim op (num m0) k (filter (P k) v)); [lia|].
      unfold kept_at, stepP. destruct (hi_dim op k).
      + rewrite filter_filter. reflexivity.
      + apply filter_ext. intros m. cbn. now rewrite andb_true_r.
  Qed.

  Lemma dimension_models op l : forall P fd, (forall m, In m l -> model_of data0 op m) -> accounted P fd ->
    exists fd', foldM (fun d model => filter_model_by_dimension enum dims d op model) l (R P fd)
    = Ok (R (fold_left (fun P m0 => stepP num hi_dim op m0 P) l P) fd') /\
    accounted (fold_left (fun P m0 => stepP num hi_dim op m0 P) l P) fd'.
  Proof using Hpos Hall ND.
    induction l as [|m l IH]; intros P fd Hl Hacc; cbn [foldM fold_left]; [eauto|].
    destruct (filter_model_by_dimension_ok P fd op m) as (fd1 & E & A1); [apply Hl; left; reflexivity|auto|].
    rewrite E. cbn [bind]. apply IH; auto. intros; apply Hl; now right.
  Qed.

  Lemma dimension_ops ops : forall P fd, (forall o, In o ops -> In o (keys data0)) -> accounted P fd ->
    exists fd', foldM (filter_models_by_dimension enum dims) ops (R P fd) = Ok (R (allP data0 num hi_dim ops P) fd') /\
                accounted (allP data0 num hi_dim ops P) fd'.
  Proof using Hpos Hall ND.
    induction ops as [|o ops IH]; intros P fd Ho Hacc; cbn [foldM]; [exists fd; auto|].
    unfold filter_models_by_dimension at 1. cbn [d_data with_data].
    destruct (restrict_get data0 ND P o) as (v & Ev & Hv); [apply Ho; left; reflexivity|].
    unfold dgetM. rewrite Ev. cbn [bind].
    destruct (dimension_models o v P fd) as (fd1 & E & A1); [intros m Im; now apply Hv|auto|].
    rewrite E. cbn [bind]. unfold allP. cbn [fold_left].
    assert (Eo : opP data0 num hi_dim P o = fold_left (fun P m0 => stepP num hi_dim o m0 P) v P)
      by (unfold opP; now rewrite Ev).
    rewrite <- Eo in *. apply IH; auto. intros; apply Ho; now right.
  Qed.

  Lemma filter_by_dimension_ok :
    exists keep fd',
      filter_by_dimension enum dims d = Ok (R keep fd') /\ accounted keep fd' /\
      forall k m, model_of data0 k m -> (keep k m = true <-> ~ dominated data0 num hi_dim k m).
  Proof using Hpos Hall ND.
    destruct (dimension_ops (keys data0) (fun _ _ => true) (d_filter_data d)) as (fd' & E & A); [auto| |].
    { intros j k v _. f_equal. f_equal. clear. induction v; cbn; congruence. }
    exists (allP data0 num hi_dim (keys data0) (fun _ _ => true)), fd'. split; [|split; [exact A|]].
    - unfold filter_by_dimension. rewrite <- E. f_equal. rewrite restrict_all. destruct d; reflexivity.
    - intros k m Hm. apply (allP_exact data0 ND numR num num_ok_dim hi_dim); auto.
      + intros k' _. unfold hi_dim. now rewrite Z.leb_refl.
      + intros a b c _ _ _. rewrite !hi_dim_iff. lia.
      + tauto.
  Qed.
End Dimension.
