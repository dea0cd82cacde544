(** * ProofsRegistry *)

From Coq Require Import Ascii String List Bool Arith ZArith Znumtheory Lia Permutation Sorted QArith Qcanon.
From Verif Require Import Base BaseFacts Spec Show Primes ModelFunctions SpecFunctions ProofsFunctions
  ModelMatch ProofsMatch ModelRegistry SpecRegistry.
Import ListNotations.
Local Open Scope nat_scope.

Lemma foldM_app {A S} (f : S -> A -> res S) a b s :
  foldM f (a ++ b) s = bind (foldM f a s) (fun s' => foldM f b s').
Proof.
  revert s. induction a as [|x a IH]; intros s; cbn; [reflexivity|].
  destruct (f s x); cbn; auto.
Qed.

Lemma foldM_flat_map {A B S} (f : S -> B -> res S) (g : A -> list B) l s :
  foldM (fun s a => foldM f (g a) s) l s = foldM f (flat_map g l) s.
Proof.
  revert s. induction l as [|x l IH]; intros s; cbn; [reflexivity|]. rewrite foldM_app.
  destruct (foldM f (g x) s); cbn; auto.
Qed.

Lemma foldM_pure {A S} (f : S -> A -> S) l s : foldM (fun s a => Ok (f s a)) l s = Ok (fold_left f l s).
Proof. revert s. induction l; intros s; cbn; auto. Qed.

Lemma foldM_ext_in {A S} (f g : S -> A -> res S) l s :
  (forall s x, In x l -> f s x = g s x) -> foldM f l s = foldM g l s.
Proof.
  revert s. induction l as [|x l IH]; intros s H; cbn; [reflexivity|].
  rewrite (H s x) by (left; reflexivity). destruct (g s x); cbn; auto. apply IH. intros. apply H. now right.
Qed.

(** ** prime_registry *)

Section Registry.
  Context {F C : Type} (feqb : F -> F -> bool) (Hf : decides feqb).

  Notation step := (registry_step feqb).

  Definition reg_inv (st : list (F * Z) * nat) : Prop :=
    let (reg, c) := st in
    c = S (List.length reg) /\ NoDup (keys reg) /\
    forall i k p, nth_error reg i = Some (k, p) -> p = prime_ (S i).

  Lemma dset_new {V} (d : list (F * V)) k v : dmem feqb d k = false -> dset feqb d k v = d ++ [(k, v)].
  Proof using Hf.
    unfold dmem. induction d as [|[k1 v1] d IH]; cbn; [reflexivity|].
    destruct (feqb k k1); [discriminate|]. intros H. now rewrite IH.
  Qed.

  Lemma registry_step_inv st f :
    reg_inv st -> reg_inv (step st f) /\
    keys (fst (step st f)) = (if mem_by feqb f (keys (fst st)) then keys (fst st) else keys (fst st) ++ [f]).
  Proof using Hf.
    destruct st as [reg c]. intros (Hc & ND & Hp). unfold step.
    assert (Em : dmem feqb reg f = mem_by feqb f (keys reg)).
    { apply eq_true_iff_eq. now rewrite (dmem_In Hf), (mem_by_In Hf). }
    rewrite Em. cbn [fst]. destruct (mem_by feqb f (keys reg)) eqn:E.
    - split; [|reflexivity]. repeat split; auto.
    - rewrite dset_new by exact Em. cbn [fst]. split.
      + split; [rewrite app_length; cbn; lia|]. split.
        * unfold keys. rewrite map_app. cbn. apply Permutation_NoDup with (f :: map fst reg).
          { apply Permutation_cons_append. }
          constructor; auto. intros I. apply (mem_by_In Hf) in I. unfold keys in E. congruence.
        * intros i k p Hi. destruct (Nat.lt_ge_cases i (List.length reg)) as [L|L].
          -- rewrite nth_error_app1 in Hi by exact L. eauto.
          -- rewrite nth_error_app2 in Hi by exact L.
             destruct (i - List.length reg) as [|j] eqn:Ej; [|destruct j; discriminate].
             cbn in Hi. inversion Hi; subst. f_equal. lia.
      + unfold keys. now rewrite map_app.
  Qed.

  (** fields in order of first appearance *)
  Definition first_seen (l : list F) : list F := keep_first feqb [] l.

  Lemma registry_fold l st :
    reg_inv st -> reg_inv (fold_left step l st) /\
    keys (fst (fold_left step l st)) = keys (fst st) ++ keep_first feqb (keys (fst st)) l.
  Proof using Hf.
    revert st. induction l as [|x l IH]; intros st HI; cbn [fold_left keep_first].
    - split; auto. now rewrite app_nil_r.
    - destruct (registry_step_inv st x HI) as (HI' & Ek). destruct (IH _ HI') as (HI2 & Ek2).
      split; auto. rewrite Ek2, Ek.
      assert (Em : mem_by feqb x (keys (fst st)) = existsb (fun y => feqb y x) (keys (fst st))).
      { unfold mem_by. generalize (keys (fst st)) as q. induction q as [|y q IHq]; cbn; auto.
        rewrite IHq. f_equal. apply eq_true_iff_eq. rewrite (Hf x y), (Hf y x). split; congruence. }
      rewrite Em. destruct (existsb (fun y => feqb y x) (keys (fst st))) eqn:E; [reflexivity|].
      rewrite <- app_assoc. reflexivity.
  Qed.

  Lemma fold_left_flat_map {A B S} (f : S -> B -> S) (g : A -> list B) l s :
    fold_left (fun s a => fold_left f (g a) s) l s = fold_left f (flat_map g l) s.
  Proof using Type.
    revert s. induction l as [|x l IH]; intros s; cbn; [reflexivity|]. now rewrite fold_left_app, IH.
  Qed.

  Lemma prime_registry_spec (sieve : list (list F * list C)) :
    reg_inv (prime_registry feqb sieve, S (List.length (prime_registry feqb sieve))) /\
    keys (prime_registry feqb sieve) = first_seen (concat (keys sieve)).
  Proof using Hf.
    unfold prime_registry. rewrite fold_left_flat_map.
    destruct (registry_fold (flat_map fst sieve) ([], 1)) as (HI & Ek).
    { split; [reflexivity|]. split; [constructor|]. intros i k p H. destruct i; discriminate. }
    destruct (fold_left step (flat_map fst sieve) ([], 1)) as [reg c] eqn:E. cbn [fst keys] in *.
    split.
    - destruct HI as (A & B & D). split; [reflexivity|]. split; auto.
    - rewrite Ek. cbn [fst map]. unfold first_seen. f_equal.
      unfold keys. now rewrite flat_map_concat_map.
  Qed.

  Lemma reg_inv_prime reg f p :
    reg_inv (reg, S (List.length reg)) -> dget feqb reg f = Some p ->
    exists n, 1 <= n /\ p = prime_ n.
  Proof using Hf.
    intros (_ & ND & H) E. apply (dget_In Hf) in E. apply In_nth_error in E as (i & E).
    exists (S i). split; [lia|]. eauto.
  Qed.

  Lemma reg_inv_inj reg f g p :
    reg_inv (reg, S (List.length reg)) -> dget feqb reg f = Some p -> dget feqb reg g = Some p -> f = g.
  Proof using Hf.
    intros (_ & ND & H) E1 E2. apply (dget_In Hf) in E1. apply (dget_In Hf) in E2.
    apply In_nth_error in E1 as (i & E1). apply In_nth_error in E2 as (j & E2).
    pose proof (H _ _ _ E1) as P1. pose proof (H _ _ _ E2) as P2. rewrite P1 in P2.
    apply prime_inj in P2; [|lia|lia]. inversion P2; subst. congruence.
  Qed.

  Lemma keep_first_In kept l x :
    In x (keep_first feqb kept l) <-> In x l /\ ~ In x kept.
  Proof using Hf.
    revert kept. induction l as [|y l IH]; intros kept; cbn [keep_first]; [simpl; tauto|].
    destruct (existsb (fun z => feqb z y) kept) eqn:E.
    - apply existsb_exists in E as (z & Iz & Ez). apply Hf in Ez. subst z. rewrite IH. simpl.
      split; [tauto|]. intros [[->|I] N]; [contradiction|auto].
    - assert (N : ~ In y kept).
      { intros I. assert (existsb (fun z => feqb z y) kept = true)
          by (apply existsb_exists; exists y; split; auto; apply (decides_refl Hf)). congruence. }
      simpl. rewrite IH, in_app_iff. simpl. destruct (decides_dec Hf y x) as [->|Ny]; [tauto|].
      split; [intros [->|(A & B)]; [contradiction|tauto]|tauto].
  Qed.

  Lemma prime_registry_dom (sieve : list (list F * list C)) f :
    dmem feqb (prime_registry feqb sieve) f = true <-> exists k, In k (keys sieve) /\ In f k.
  Proof using Hf.
    rewrite (dmem_In Hf). destruct (prime_registry_spec sieve) as (_ & ->). unfold first_seen.
    rewrite keep_first_In, in_concat. simpl. split; [intros ((k & A) & _); exists k; auto|].
    intros (k & A & B). split; [exists k; auto|tauto].
  Qed.

  (** *** model numbers *)

  Definition label_of {K} (eqb : K -> K -> bool) (d : list (K * Z)) (k : K) : Z :=
    match dget eqb d k with Some p => p | None => 0%Z end.

  Lemma product_fold {K T} (eqb : K -> K -> bool) (d : list (K * Z)) (tk : T -> res K) (kf : T -> K) l acc :
    (forall t, In t l -> tk t = Ok (kf t)) ->
    (forall t, In t l -> dmem eqb d (kf t) = true) ->
    foldM (fun prod t => do k <- tk t; do p <- dgetM eqb d k; Ok (prod * p)%Z) l acc
    = Ok (acc * Zprod (map (fun t => label_of eqb d (kf t)) l))%Z.
  Proof using Type.
    revert acc. induction l as [|t l IH]; intros acc H1 H2; cbn [foldM map Zprod].
    - f_equal. ring.
    - rewrite H1 by (left; reflexivity). cbn [bind].
      assert (M : dmem eqb d (kf t) = true) by (apply H2; left; reflexivity).
      unfold dgetM, dmem in *. destruct (dget eqb d (kf t)) as [p|] eqn:E; [|discriminate]. cbn [bind].
      rewrite IH; [|intros; apply H1; right; assumption|intros; apply H2; right; assumption]. f_equal.
      unfold label_of at 2. rewrite E. ring.
  Qed.

  Lemma model_number_ok reg k :
    (forall f, In f k -> dmem feqb reg f = true) ->
    model_number feqb reg k = Ok (Zprod (map (label_of feqb reg) k)).
  Proof using Type.
    intros H. unfold model_number.
    rewrite (foldM_ext_in _ (fun prod t => do k <- Ok t; do p <- dgetM feqb reg k; Ok (prod * p)%Z))
      by reflexivity.
    rewrite (product_fold feqb reg (fun t => Ok t) (fun t => t)) by auto. f_equal. apply Z.mul_1_l.
  Qed.

  Notation TE := (teqb feqb).
  Lemma teqb_decides : decides TE.
  Proof using Hf. now apply list_decides. Qed.

  Lemma dset_new_T {V} (d : list (list F * V)) k v : dmem TE d k = false -> dset TE d k v = d ++ [(k, v)].
  Proof using Type.
    unfold dmem. induction d as [|[k1 v1] d IH]; cbn; [reflexivity|].
    destruct (TE k k1); [discriminate|]. intros H. now rewrite IH.
  Qed.

  (** folding dset over fresh keys is mapping *)
  Lemma fold_dset_fresh {V W} (g : list F * V -> res W) (h : list F * V -> W) l (acc : list (list F * W)) :
    (forall kv, In kv l -> g kv = Ok (h kv)) ->
    NoDup (keys acc ++ keys l) ->
    foldM (fun reg kv => do w <- g kv; Ok (dset TE reg (fst kv) w)) l acc
    = Ok (acc ++ map (fun kv => (fst kv, h kv)) l).
  Proof using Hf.
    revert acc. induction l as [|[k v] l IH]; intros acc Hg ND; cbn [foldM map].
    - now rewrite app_nil_r.
    - rewrite Hg by (left; reflexivity). cbn [bind fst].
      assert (Nk : ~ In k (keys acc)).
      { intros I. apply NoDup_remove_2 in ND. apply ND. apply in_or_app. auto. }
      rewrite dset_new_T.
      + rewrite IH.
        * now rewrite <- app_assoc.
        * intros kv I. apply Hg. now right.
        * unfold keys in *. rewrite map_app. cbn. rewrite <- app_assoc. exact ND.
      + apply not_true_is_false. intros M. apply (dmem_In teqb_decides) in M. contradiction.
  Qed.

  Lemma model_registry_ok (cs : list (list F * list C)) reg :
    NoDup (keys cs) -> (forall k f, In k (keys cs) -> In f k -> dmem feqb reg f = true) ->
    model_registry feqb cs reg = Ok (map (fun kv => (fst kv, Zprod (map (label_of feqb reg) (fst kv)))) cs).
  Proof using Hf.
    intros ND H. unfold model_registry.
    rewrite (fold_dset_fresh (fun kv => model_number feqb reg (fst kv))
               (fun kv => Zprod (map (label_of feqb reg) (fst kv)))); auto.
    intros [k v] I. apply model_number_ok. intros f If. apply (H k); auto. apply in_map_iff.
    exists (k, v). auto.
  Qed.

  Lemma registry_numbers_divide (reg : list (F * Z)) a b :
    reg_inv (reg, S (List.length reg)) ->
    (forall f, In f a \/ In f b -> dmem feqb reg f = true) ->
    ((Zprod (map (label_of feqb reg) a) | Zprod (map (label_of feqb reg) b))%Z <-> contains b a) /\
    (1 <= Zprod (map (label_of feqb reg) a))%Z.
  Proof using Hf.
    intros HI Hin.
    assert (P : forall l, (forall f, In f l -> In f a \/ In f b) -> Forall prime (map (label_of feqb reg) l)).
    { intros l Hl. rewrite Forall_map, Forall_forall. intros f If. specialize (Hin f (Hl f If)).
      unfold label_of, dmem in *. destruct (dget feqb reg f) as [p|] eqn:E; [|discriminate].
      destruct (reg_inv_prime _ _ _ HI E) as (n & _ & ->). apply prime_prime. }
    assert (Pa : Forall prime (map (label_of feqb reg) a)) by (apply P; auto).
    assert (Pb : Forall prime (map (label_of feqb reg) b)) by (apply P; auto).
    split; [|pose proof (Zprod_pos _ Pa); lia].
    rewrite Zprod_divides_iff by assumption.
    assert (R : forall x y, In x a -> In y b -> (label_of feqb reg x = label_of feqb reg y <-> x = y)).
    { intros x y Ix Iy. split; [|congruence]. pose proof (Hin x (or_introl Ix)) as Mx.
      pose proof (Hin y (or_intror Iy)) as My. unfold label_of, dmem in *.
      destruct (dget feqb reg x) as [p|] eqn:Ex; [|discriminate].
      destruct (dget feqb reg y) as [q|] eqn:Ey; [|discriminate]. intros ->.
      eapply reg_inv_inj; eauto. }
    rewrite (contains_map_R (label_of feqb reg) (fun x y => x = y) a b R).
    split.
    - intros (a' & F2 & (r & Pm)). exists r. replace a with a'; auto.
      clear -F2. induction F2; congruence.
    - intros H. exists a. split; auto. clear. induction a; constructor; auto.
  Qed.

  Lemma filter_fold (P : list F * Z -> res bool) (pb : list F * Z -> bool) cs :
    forall l (acc : list (list F * list C)),
    NoDup (keys cs) -> NoDup (keys acc ++ keys l) -> (forall kn, In kn l -> P kn = Ok (pb kn)) ->
    (forall kn, In kn l -> dmem TE cs (fst kn) = true) ->
    foldM (fun unique kn =>
             do b <- P kn;
             if b : bool then Ok unique
             else do c <- dgetM TE cs (fst kn); Ok (dset TE unique (fst kn) c)) l acc
    = Ok (acc ++ flat_map (fun kn => if pb kn then [] else
                             match dget TE cs (fst kn) with Some c => [(fst kn, c)] | None => [] end) l).
  Proof using Hf.
    induction l as [|[k n] l IH]; intros acc NDc ND HP Hm; cbn [foldM flat_map].
    - now rewrite app_nil_r.
    - rewrite HP by (left; reflexivity). cbn [bind].
      destruct (pb (k, n)).
      + cbn [app]. apply IH; auto.
        * apply NoDup_remove_1 in ND. exact ND.
        * intros kn I. apply HP. now right.
        * intros kn I. apply Hm. now right.
      + assert (M : dmem TE cs k = true) by (apply (Hm (k, n)); left; reflexivity).
        cbn [fst]. unfold dgetM, dmem in *. destruct (dget TE cs k) as [c|]; [|discriminate]. cbn [bind].
        assert (Nk : ~ In k (keys acc)).
        { intros I. apply NoDup_remove_2 in ND. apply ND. apply in_or_app. auto. }
        rewrite dset_new_T.
        * rewrite IH; auto.
          -- now rewrite <- app_assoc.
          -- unfold keys in *. rewrite map_app. cbn. rewrite <- app_assoc. exact ND.
          -- intros kn I. apply HP. now right.
          -- intros kn I. apply Hm. now right.
        * apply not_true_is_false. intros Q. apply (dmem_In teqb_decides) in Q. contradiction.
  Qed.

  Theorem filter_completions_ok (root : Z -> Z) (cs sieve : list (list F * list C)) :
    NoDup (keys cs) -> NoDup (keys sieve) ->
    (forall n, (1 <= n)%Z -> (1 <= root n /\ n < (root n + 1) * (root n + 1))%Z) ->
    exists keep : list F * list C -> bool,
      filter_completions feqb root cs sieve = Ok (filter keep cs) /\
      forall kv, In kv cs -> (keep kv = true <-> forall s, In s (keys sieve) -> ~ contains (fst kv) s).
  Proof using Hf.
    intros NDc NDs Hroot. unfold filter_completions.
    set (reg := prime_registry feqb (dupdate TE sieve cs)).
    destruct (prime_registry_spec (dupdate TE sieve cs)) as (HI & _). fold reg in HI.
    assert (Dom : forall k f, In k (keys cs) \/ In k (keys sieve) -> In f k -> dmem feqb reg f = true).
    { intros k f Hk If. apply prime_registry_dom. exists k. split; auto.
      apply (keys_dupdate_In teqb_decides). tauto. }
    rewrite (model_registry_ok cs) by (auto; intros k f H; apply Dom; auto). cbn [bind].
    rewrite (model_registry_ok sieve) by (auto; intros k f H; apply Dom; auto). cbn [bind].
    set (num := fun k => Zprod (map (label_of feqb reg) k)).
    set (vals := values (map (fun kv : list F * list C => (fst kv, num (fst kv))) sieve)).
    set (pb := fun kn : list F * Z => existsb (fun rv => (snd kn mod rv =? 0)%Z) vals).
    assert (Num_div : forall k s, In k (keys cs) -> In s (keys sieve) ->
              ((num s | num k)%Z <-> contains k s) /\ (1 <= num s)%Z /\ (1 <= num k)%Z).
    { intros k s Hk Hs. unfold num.
      destruct (registry_numbers_divide reg s k HI) as (A & B).
      { intros f [I|I]; [apply (Dom s); auto|apply (Dom k); auto]. }
      destruct (registry_numbers_divide reg k s HI) as (_ & D).
      { intros f [I|I]; [apply (Dom k); auto|apply (Dom s); auto]. }
      auto. }
    assert (Num_pos : forall k, In k (keys cs) -> (1 <= num k)%Z).
    { intros k Hk. destruct (registry_numbers_divide reg k k HI) as (_ & D); auto.
      intros f [I|I]; apply (Dom k); auto. }
    erewrite foldM_ext_in with
      (g := fun unique kn =>
              do b <- (do factors_ <- factors (snd kn) (root (snd kn));
                       Ok (existsb (fun ref_val => mem_by Z.eqb ref_val factors_) vals));
              if b : bool then Ok unique
              else do c <- dgetM TE cs (fst kn); Ok (dset TE unique (fst kn) c)).
    2:{ intros s kn _. unfold vals. destruct (factors (snd kn) (root (snd kn))); reflexivity. }
    rewrite (filter_fold _ pb).
    - exists (fun kv => negb (pb (fst kv, num (fst kv)))). split.
      + cbn [app]. f_equal.
        assert (G : forall l, (forall kv, In kv l -> In kv cs) ->
                    flat_map (fun kn : list F * Z => if pb kn then [] else
                       match dget TE cs (fst kn) with Some c => [(fst kn, c)] | None => [] end)
                       (map (fun kv : list F * list C => (fst kv, num (fst kv))) l)
                    = filter (fun kv => negb (pb (fst kv, num (fst kv)))) l).
        { induction l as [|[k c] l IHl]; intros Hl; [reflexivity|]. cbn [map flat_map filter fst].
          rewrite IHl by (intros; apply Hl; now right).
          destruct (pb (k, num k)); cbn [negb app]; [reflexivity|].
          rewrite (In_dget teqb_decides cs k c NDc) by (apply Hl; left; reflexivity). reflexivity. }
        apply G. auto.
      + intros [k c] I. cbn [fst]. assert (Hk : In k (keys cs)) by (apply in_map_iff; exists (k, c); auto).
        rewrite negb_true_iff. unfold pb. cbn [snd]. split.
        * intros E s Hs Hc. assert (existsb (fun rv => (num k mod rv =? 0)%Z) vals = true); [|congruence].
          apply existsb_exists. exists (num s). split.
          -- unfold vals, values. rewrite map_map. cbn [snd]. apply in_map_iff in Hs as ([s' v'] & <- & Hs).
             apply in_map_iff. exists (s', v'). auto.
          -- destruct (Num_div k s Hk Hs) as (D & B & _). apply Z.eqb_eq. apply Z.mod_divide; [lia|]. now apply D.
        * intros H. apply not_true_is_false. intros E. apply existsb_exists in E as (rv & Iv & E).
          unfold vals, values in Iv. rewrite map_map in Iv. cbn [snd] in Iv.
          apply in_map_iff in Iv as ([s v] & <- & Is). cbn [fst] in *.
          assert (Hs : In s (keys sieve)) by (apply in_map_iff; exists (s, v); auto).
          destruct (Num_div k s Hk Hs) as (D & B & _). apply (H s Hs), D. apply Z.eqb_eq in E.
          apply Z.mod_divide; [lia|exact E].
    - exact NDc.
    - cbn [keys map app]. unfold keys. rewrite map_map. exact NDc.
    - intros [k n] I. apply in_map_iff in I as ([k' c] & E & I). inversion E; subst. cbn [fst snd] in *.
      assert (Hk : In k (keys cs)) by (apply in_map_iff; exists (k, c); auto).
      specialize (Num_pos k Hk). destruct (Hroot (num k) Num_pos) as (R1 & R2).
      rewrite factors_list by (auto). cbn [bind]. f_equal.
      assert (X : forall l, (forall rv, In rv l -> (1 <= rv)%Z) ->
                  existsb (fun rv => mem_by Z.eqb rv
                     (concat (map (fun i => [i; num k / i]%Z)
                       (filter (fun i => (num k mod i =? 0)%Z) (map Z.of_nat (seq 1 (Z.to_nat (root (num k))))))))) l
                  = existsb (fun rv => (num k mod rv =? 0)%Z) l).
      { induction l as [|rv l IHl]; intros Hl; [reflexivity|]. cbn [existsb].
        rewrite IHl by (intros; apply Hl; now right). f_equal. apply eq_true_iff_eq.
        assert (1 <= rv)%Z by (apply Hl; left; reflexivity).
        rewrite (mem_by_In Z_decides), factors_members, divisor_pairing, Z.eqb_eq, Z.mod_divide by (auto; lia).
        tauto. }
      unfold pb. cbn [snd]. apply X. intros rv Irv. unfold vals, values in Irv. rewrite map_map in Irv.
      cbn [snd] in Irv. apply in_map_iff in Irv as ([s v] & <- & Is). cbn [fst].
      apply (Num_div k s Hk). apply in_map_iff. exists (s, v). auto.
    - intros kn I. apply in_map_iff in I as ([k c] & <- & I). cbn [fst].
      apply (dmem_In teqb_decides). apply in_map_iff. exists (k, c). auto.
  Qed.
End Registry.

(** ** prime labels of classes under an involution *)

Section Classes.
  Context {K : Type} (eqb : K -> K -> bool) (H : decides eqb) (conj : K -> res K) (valid : K -> Prop)
    (Hconj : forall k, valid k -> exists k', conj k = Ok k' /\ valid k' /\ conj k' = Ok k).

  (** the same up to conjugation *)
  Definition same_class (a b : K) : Prop := a = b \/ conj a = Ok b.

  Lemma same_class_sym a b : valid a -> same_class a b -> same_class b a.
  Proof using Hconj.
    intros V [->|E]; [left; reflexivity|]. destruct (Hconj a V) as (a' & E1 & _ & E2). right. congruence.
  Qed.

  Lemma same_class_trans a b c : valid a -> same_class a b -> same_class b c -> same_class a c.
  Proof using Hconj.
    intros V [->|E1] [->|E2]; [left; reflexivity|right; auto|right; auto|].
    destruct (Hconj a V) as (a' & E & _ & E3). left. congruence.
  Qed.

  Definition class_inv (seen : list K) (st : list (K * Z) * nat) : Prop :=
    let (d, c) := st in
    1 <= c /\
    (forall k, In k (keys d) -> valid k) /\
    (forall k, valid k -> (In k (keys d) <-> exists s, In s seen /\ same_class s k)) /\
    (forall k p, dget eqb d k = Some p -> exists n, 1 <= n < c /\ p = prime_ n) /\
    (forall k1 k2 p1 p2, dget eqb d k1 = Some p1 -> dget eqb d k2 = Some p2 -> (p1 = p2 <-> same_class k1 k2)).

  Lemma class_step_inv seen st k :
    (forall s, In s seen -> valid s) -> valid k -> class_inv seen st ->
    exists st', class_step eqb conj st k = Ok st' /\ class_inv (seen ++ [k]) st'.
  Proof using H Hconj.
    intros Vs Vk. destruct st as [d c]. intros (Hc & Vd & Dom & Pr & Cl).
    unfold class_step. destruct (dmem eqb d k) eqn:M.
    - eexists. split; [reflexivity|]. split; [exact Hc|]. split; [exact Vd|]. split; [|split; [exact Pr|exact Cl]].
      intros x Vx. rewrite (Dom x Vx). split; [intros (s & I & R); exists s; rewrite in_app_iff; auto|].
      intros (s & I & R). apply in_app_iff in I as [I|[<-|[]]]; [exists s; auto|].
      apply (dmem_In H) in M. apply Dom in M as (s & I & R1); auto. exists s. split; auto.
      apply same_class_trans with k; auto.
    - destruct (Hconj k Vk) as (k' & Ek & Vk' & Ek'). rewrite Ek. cbn [bind]. eexists. split; [reflexivity|].
      assert (Nk : ~ In k (keys d)) by (intros I; apply (dmem_In H) in I; congruence).
      assert (Nk' : ~ In k' (keys d)).
      { intros I. apply Nk. apply Dom; auto. apply Dom in I as (s & I & R); auto. exists s. split; auto.
        apply same_class_trans with k'; auto. right. exact Ek'. }
      assert (G : forall x, dget eqb (dset eqb (dset eqb d k' (prime_ c)) k (prime_ c)) x
                  = if eqb x k || eqb x k' then Some (prime_ c) else dget eqb d x).
      { intros x. rewrite !(dget_dset H). destruct (eqb x k); [reflexivity|]. cbn. destruct (eqb x k'); reflexivity. }
      split; [lia|]. split; [|split; [|split]].
      + intros x I. apply (keys_dset_In H) in I as [->|I]; auto.
        apply (keys_dset_In H) in I as [->|I]; auto.
      + intros x Vx. rewrite (keys_dset_In H), (keys_dset_In H), (Dom x Vx). split.
        * intros [->|[->|(s & I & R)]].
          -- exists k. rewrite in_app_iff. simpl. split; auto. left. reflexivity.
          -- exists k. rewrite in_app_iff. simpl. split; auto. right. exact Ek.
          -- exists s. rewrite in_app_iff. auto.
        * intros (s & I & R). apply in_app_iff in I as [I|[<-|[]]].
          -- right. right. exists s. auto.
          -- destruct R as [->|R]; [auto|]. right. left. congruence.
      + intros x p. rewrite G. destruct (eqb x k || eqb x k').
        * intros E. inversion E. exists c. split; [lia|reflexivity].
        * intros E. destruct (Pr _ _ E) as (n & Hn & ->). exists n. split; [lia|reflexivity].
      + intros x1 x2 p1 p2. rewrite !G.
        assert (Cls : forall x, eqb x k || eqb x k' = true <-> same_class k x).
        { intros x. rewrite orb_true_iff, (H x k), (H x k'). unfold same_class. rewrite Ek. split.
          - intros [->| ->]; auto.
          - intros [->|E]; [auto|]. inversion E; auto. }
        assert (Old : forall x p, dget eqb d x = Some p -> In x (keys d)).
        { intros x p E. apply (dget_In H) in E. apply in_map_iff. exists (x, p). auto. }
        assert (NewOld : forall x1 x2 p2, same_class k x1 -> dget eqb d x2 = Some p2 -> prime_ c <> p2 /\ ~ same_class x1 x2).
        { intros y1 y2 q S1 E2. split.
          - intros E. destruct (Pr _ _ E2) as (n & Hn & E3). rewrite E3 in E. apply prime_inj in E; lia.
          - intros S2. assert (same_class k y2) by (apply same_class_trans with y1; auto).
            pose proof (Old _ _ E2) as I2. destruct H0 as [->|E]; [auto|]. apply Nk'. congruence. }
        destruct (eqb x1 k || eqb x1 k') eqn:B1, (eqb x2 k || eqb x2 k') eqn:B2.
        * apply Cls in B1, B2. intros E1 E2. inversion E1; inversion E2; subst. split; auto. intros _.
          apply same_class_trans with k; [|apply same_class_sym; auto|exact B2].
          destruct B1 as [<-|E]; [exact Vk|]. replace x1 with k' by congruence. exact Vk'.
        * apply Cls in B1. intros E1 E2. inversion E1; subst p1.
          destruct (NewOld x1 x2 p2 B1 E2) as (A & B). tauto.
        * apply Cls in B2. intros E1 E2. inversion E2; subst p2.
          destruct (NewOld x2 x1 p1 B2 E1) as (A & B). split; [congruence|]. intros R. exfalso. apply B.
          apply same_class_sym; [|exact R]. apply Vd. eapply Old; eauto.
        * intros E1 E2. eapply Cl; eauto.
  Qed.

  Lemma class_fold_inv ks : forall seen st,
    Forall valid ks -> (forall s, In s seen -> valid s) -> class_inv seen st ->
    exists st', foldM (class_step eqb conj) ks st = Ok st' /\ class_inv (seen ++ ks) st'.
  Proof using H Hconj.
    induction ks as [|k ks IH]; intros seen st V Vs I; cbn [foldM].
    - exists st. rewrite app_nil_r. auto.
    - inversion V; subst. destruct (class_step_inv seen st k Vs H2 I) as (st1 & E1 & I1).
      rewrite E1. cbn [bind]. destruct (IH (seen ++ [k]) st1 H3) as (st2 & E2 & I2); auto.
      + intros s Is. apply in_app_iff in Is as [Is|[<-|[]]]; auto.
      + exists st2. rewrite <- app_assoc in I2. auto.
  Qed.

  (** The labels given to a list of keys: every key and its conjugate has one, labels are primes, and two
      labels agree exactly for keys of the same class. *)
  Definition good_labels (ks : list K) (d : list (K * Z)) : Prop :=
    (forall k, valid k -> (dmem eqb d k = true <-> exists s, In s ks /\ same_class s k)) /\
    (forall k p, dget eqb d k = Some p -> prime p /\ valid k) /\
    (forall k1 k2 p1 p2, dget eqb d k1 = Some p1 -> dget eqb d k2 = Some p2 -> (p1 = p2 <-> same_class k1 k2)).

  Lemma class_labels ks :
    Forall valid ks -> exists d c, foldM (class_step eqb conj) ks ([], 1) = Ok (d, c) /\ good_labels ks d.
  Proof using H Hconj.
    intros V. destruct (class_fold_inv ks [] ([], 1) V) as ([d c] & E & (Hc & Vd & Dom & Pr & Cl)).
    - intros s [].
    - split; [lia|]. split; [intros k []|]. split; [|split; [intros k p E; discriminate E|intros k1 k2 p1 p2 E; discriminate E]].
      intros k _. split; [intros []|intros (s & [] & _)].
    - exists d, c. split; auto. split; [|split; auto].
      + intros k Vk. rewrite (dmem_In H). exact (Dom k Vk).
      + intros k p Ek. split.
        * destruct (Pr _ _ Ek) as (n & _ & ->). apply prime_prime.
        * apply Vd. apply (dget_In H) in Ek. apply in_map_iff. exists (k, p). auto.
  Qed.

  Lemma labels_numbers ks d a b :
    good_labels ks d -> (forall k, In k a \/ In k b -> In k ks) -> Forall valid ks ->
    let n l := Zprod (map (label_of eqb d) l) in
    (n a = n b <-> same_upto same_class a b) /\ ((n a | n b)%Z <-> contains_upto same_class b a).
  Proof using Type.
    intros (Dom & Pr & Cl) Hin V n. rewrite Forall_forall in V.
    assert (M : forall k, In k a \/ In k b -> exists p, dget eqb d k = Some p).
    { intros k Ik. assert (dmem eqb d k = true).
      { apply Dom; [apply V, Hin, Ik|]. exists k. split; [apply Hin, Ik|]. left. reflexivity. }
      unfold dmem in *. destruct (dget eqb d k) as [p|]; [eauto|discriminate]. }
    assert (P : forall l, (forall k, In k l -> In k a \/ In k b) -> Forall prime (map (label_of eqb d) l)).
    { intros l Hl. rewrite Forall_map, Forall_forall. intros k Ik. destruct (M k (Hl k Ik)) as (p & E).
      unfold label_of. rewrite E. now apply (Pr k). }
    assert (R : forall x y, In x a -> In y b -> (label_of eqb d x = label_of eqb d y <-> same_class x y)).
    { intros x y Ix Iy. destruct (M x (or_introl Ix)) as (p & E1). destruct (M y (or_intror Iy)) as (q & E2).
      unfold label_of. rewrite E1, E2. eapply Cl; eauto. }
    split; unfold n.
    - rewrite Zprod_eq_iff by (apply P; auto). now apply same_map_R.
    - rewrite Zprod_divides_iff by (apply P; auto). now apply contains_map_R.
  Qed.
End Classes.

(** ** terms *)

Lemma sm_of_label_spec l :
  match sm_of_label l with
  | Some s => l = sm_name s
  | None => mem_by str_eqb l (map lit ["L"; "Q"; "ub"; "db"; "eb"; "H"]%string) = false
  end.
Proof.
  unfold sm_of_label.
  repeat match goal with
  | |- context [if str_eqb ?a ?b then _ else _] =>
      let E := fresh "E" in destruct (str_eqb a b) eqn:E; [apply str_decides in E; exact E|]
  end.
  unfold mem_by. cbn [map existsb]. rewrite E, E0, E1, E2, E3, E4. reflexivity.
Qed.

Lemma stringify_content f : tfield_ok f -> stringify f = Ok (print_field (content f)) /\ qfield_ok (content f).
Proof.
  intros (L & N). unfold stringify, stringify_qns, content.
  pose proof (sm_of_label_spec (t_label f)) as S. destruct (sm_of_label (t_label f)) as [s|].
  - rewrite S. destruct s; cbn [negb]; (split; [|exact I]); destruct (t_is_conj f); reflexivity.
  - rewrite S. cbn [negb].
    destruct (t_dynkin f) as [|a [|b [|cu [|cd [|i [|]]]]]]; cbn in L; try lia.
    split.
    + cbn [skipn firstn print_field]. unfold print_exotic. cbn [e_lor e_col e_iso e_hyp e_bar join app].
      destruct (t_is_scalar f); reflexivity.
    + cbn. split; [|split]; intros I; [|apply N|apply N].
      * destruct (t_is_scalar f); simpl in I; repeat destruct I as [I|I]; try discriminate; auto.
      * simpl in I. simpl. tauto.
      * simpl in I. simpl. tauto.
Qed.

Lemma print_field_inj f g : qfield_ok f -> qfield_ok g -> print_field f = print_field g -> f = g.
Proof.
  destruct f as [f c|e], g as [g c'|e']; intros Of Og E.
  - destruct f, c, g, c'; try discriminate E; reflexivity.
  - exfalso. pose proof (print_exotic_comma e') as C. cbn [print_field] in E. rewrite <- E in C.
    destruct f, c; cbn in C; repeat destruct C as [C|C]; try discriminate; auto.
  - exfalso. pose proof (print_exotic_comma e) as C. cbn [print_field] in E. rewrite E in C.
    destruct g, c'; cbn in C; repeat destruct C as [C|C]; try discriminate; auto.
  - cbn [print_field] in E. cbn in Of, Og. pose proof (print_exotic_split e Of) as S. pose proof (print_exotic_split e' Og) as S'.
    rewrite E, S' in S. inversion S as [[H1 H2 H3 H4 H5]]. apply show_Q_inj in H4. apply show_Q_inj in H5.
    destruct e, e'; cbn in *; subst. reflexivity.
Qed.

Lemma map_inj_in {A B} (f : A -> B) (P : A -> Prop) :
  (forall x y, P x -> P y -> f x = f y -> x = y) ->
  forall a b, Forall P a -> Forall P b -> map f a = map f b -> a = b.
Proof.
  intros Hi. induction a as [|x a IH]; intros [|y b] Fa Fb E; try discriminate; auto.
  inversion Fa; inversion Fb; subst. cbn in E. inversion E. f_equal; auto.
Qed.

Lemma Permutation_map_inj {A B} (f : A -> B) (P : A -> Prop) a b :
  (forall x y, P x -> P y -> f x = f y -> x = y) -> Forall P a -> Forall P b ->
  (Permutation (map f a) (map f b) <-> Permutation a b).
Proof.
  intros Hi Fa Fb. split; [|apply Permutation_map]. intros Pm.
  apply Permutation_map_inv in Pm as (c & E & Pc).
  assert (a = c).
  { eapply (map_inj_in f P); eauto. eapply Permutation_Forall; [|exact Fb]. exact Pc. }
  subst. now symmetry.
Qed.

(** the canonical key of a list of quantum numbers *)
Definition qkey (fs : list qfield) : list str := sorted_str (map print_field fs).

Lemma term_key_ok t : Forall tfield_ok t ->
  term_key t = Ok (qkey (map content t)) /\ Forall qfield_ok (map content t).
Proof.
  intros F. split.
  - unfold term_key, qkey. replace (mapM stringify t) with (Ok (map print_field (map content t))); [reflexivity|].
    induction F as [|f t Hf F IH]; [reflexivity|]. cbn. rewrite (proj1 (stringify_content f Hf)). cbn.
    rewrite <- IH. reflexivity.
  - rewrite Forall_map. eapply Forall_impl; [|exact F]. intros f Hf. now apply stringify_content.
Qed.

Lemma conjugate_qkey fs : Forall qfield_ok fs -> conjugate_term (qkey fs) = Ok (qkey (map conj_qfield fs)).
Proof.
  intros F. apply conjugate_term_perm with (map print_field fs); [apply sorted_str_perm|].
  unfold conjugate_term, qkey.
  replace (mapM conjugate_field (map print_field fs)) with (Ok (map print_field (map conj_qfield fs)));
    [reflexivity|].
  induction F as [|f fs Hf F IH]; [reflexivity|]. simpl. rewrite conjugate_print by auto. now rewrite <- IH.
Qed.

Definition valid_key (k : list str) : Prop := exists fs, Forall qfield_ok fs /\ k = qkey fs.

Lemma conj_qfields_ok fs : Forall qfield_ok fs -> Forall qfield_ok (map conj_qfield fs).
Proof. rewrite Forall_map. apply Forall_impl. apply conj_qfield_ok. Qed.

Lemma valid_key_conj k : valid_key k ->
  exists k', conjugate_term k = Ok k' /\ valid_key k' /\ conjugate_term k' = Ok k.
Proof.
  intros (fs & F & ->). exists (qkey (map conj_qfield fs)). split; [now apply conjugate_qkey|]. split.
  - exists (map conj_qfield fs). split; auto. now apply conj_qfields_ok.
  - rewrite conjugate_qkey by now apply conj_qfields_ok. f_equal. f_equal.
    rewrite map_map. rewrite <- (map_id fs) at 2. apply map_ext. apply conj_qfield_involutive.
Qed.

Lemma qkey_eq fs gs : Forall qfield_ok fs -> Forall qfield_ok gs -> (qkey fs = qkey gs <-> Permutation fs gs).
Proof.
  intros Ff Fg. unfold qkey. rewrite sorted_str_eq_iff.
  apply (Permutation_map_inj print_field qfield_ok); auto. apply print_field_inj.
Qed.

Lemma same_class_interaction fs gs : Forall qfield_ok fs -> Forall qfield_ok gs ->
  (same_class conjugate_term (qkey fs) (qkey gs) <-> same_interaction fs gs).
Proof.
  intros Ff Fg. unfold same_class, same_interaction. rewrite (qkey_eq fs gs) by auto.
  rewrite conjugate_qkey by auto. rewrite <- (qkey_eq (map conj_qfield fs) gs) by (auto using conj_qfields_ok).
  split; intros [A|A]; auto; right; congruence.
Qed.

Lemma term_eqb_decides : decides term_eqb.
Proof. apply list_decides, str_decides. Qed.

Lemma Forall2_map_both {A B} (f : A -> B) (R : B -> B -> Prop) a b :
  Forall2 R (map f a) (map f b) <-> Forall2 (fun x y => R (f x) (f y)) a b.
Proof.
  revert b. induction a as [|x a IH]; intros [|y b]; cbn; split; intros H; inversion H; subst; constructor; auto;
    now apply IH.
Qed.

Lemma same_upto_map {A B} (f : A -> B) (R : B -> B -> Prop) a b :
  same_upto R (map f a) (map f b) <-> same_upto (fun x y => R (f x) (f y)) a b.
Proof.
  unfold same_upto. split.
  - intros (a' & F2 & P). apply Permutation_map_inv in P as (c & -> & P).
    rewrite Forall2_map_both in F2. exists c. split; [exact F2|now symmetry].
  - intros (a' & F2 & P). exists (map f a'). split; [now apply Forall2_map_both|now apply Permutation_map].
Qed.

Lemma same_upto_impl {A} (R1 R2 : A -> A -> Prop) a b :
  (forall x y, In x a -> In y b -> R1 x y -> R2 x y) -> same_upto R1 a b -> same_upto R2 a b.
Proof.
  intros Hi (a' & F2 & P). exists a'. split; auto.
  assert (Hb : forall y, In y a' -> In y b) by (intros y Iy; eapply Permutation_in; eauto).
  clear P. induction F2 as [|x y a a' Hxy F2 IH]; constructor.
  - apply Hi; auto; [left; reflexivity|apply Hb; left; reflexivity].
  - apply IH; intros; [apply Hi; auto; right; auto|apply Hb; right; auto].
Qed.

Section Clean.
  Context {Top : Type} (top_eqb top_leb : Top -> Top -> bool) (Htop : decides top_eqb)
    (Htotal : forall a b, top_leb a b = true \/ top_leb b a = true)
    (Htrans : forall a b c, top_leb a b = true -> top_leb b c = true -> top_leb a c = true).
  Implicit Types cs : list (completion Top).

  Definition comp_keys (c : completion Top) : list (list str) := map (fun t => qkey (map content t)) (c_terms c).

  Lemma comp_keys_valid c : comp_ok c -> Forall valid_key (comp_keys c).
  Proof using Type.
    unfold comp_ok, comp_keys. rewrite Forall_map. apply Forall_impl. intros t Ht.
    exists (map content t). split; auto. now apply term_key_ok.
  Qed.

  Lemma dict_ok cs : Forall comp_ok cs ->
    exists d, cons_term_prime_dict cs = Ok d /\
              good_labels term_eqb conjugate_term valid_key (flat_map comp_keys cs) d.
  Proof using Type.
    intros F. unfold cons_term_prime_dict.
    assert (E : foldM (fun st comp => foldM (fun st term => do new_term <- term_key term;
                          class_step term_eqb conjugate_term st new_term) (c_terms comp) st) cs ([], 1)
                = foldM (class_step term_eqb conjugate_term) (flat_map comp_keys cs) ([], 1)).
    { rewrite <- foldM_flat_map. apply foldM_ext_in. intros st c Ic. unfold comp_keys.
      rewrite Forall_forall in F. specialize (F c Ic). unfold comp_ok in F. revert st.
      induction F as [|t ts Ht F IH]; intros st; [reflexivity|]. cbn [foldM map].
      rewrite (proj1 (term_key_ok t Ht)). cbn [bind].
      destruct (class_step term_eqb conjugate_term st (qkey (map content t))); cbn; auto. }
    rewrite E. destruct (class_labels term_eqb term_eqb_decides conjugate_term valid_key valid_key_conj
                           (flat_map comp_keys cs)) as (d & c & E2 & G).
    - rewrite Forall_forall in *. intros k Ik. apply in_flat_map in Ik as (c & Ic & Ik).
      pose proof (comp_keys_valid c (F c Ic)) as V. rewrite Forall_forall in V. auto.
    - rewrite E2. exists d. auto.
  Qed.

  Lemma number_ok cs c d :
    Forall comp_ok cs -> In c cs -> good_labels term_eqb conjugate_term valid_key (flat_map comp_keys cs) d ->
    completion_characteristic_number c d = Ok (Zprod (map (label_of term_eqb d) (comp_keys c))).
  Proof using Type.
    intros F Ic (Dom & _). rewrite Forall_forall in F. specialize (F c Ic).
    unfold completion_characteristic_number.
    rewrite (product_fold term_eqb d term_key (fun t => qkey (map content t))).
    - f_equal. rewrite Z.mul_1_l. unfold comp_keys. now rewrite map_map.
    - intros t It. apply term_key_ok. unfold comp_ok in F. rewrite Forall_forall in F. auto.
    - intros t It. apply Dom.
      + pose proof (comp_keys_valid c F) as V. rewrite Forall_forall in V. apply V. apply in_map_iff. eauto.
      + exists (qkey (map content t)). split; [|left; reflexivity]. apply in_flat_map. exists c. split; auto.
        apply in_map_iff. eauto.
  Qed.

  Lemma numbers_equal cs a b d :
    Forall comp_ok cs -> In a cs -> In b cs ->
    good_labels term_eqb conjugate_term valid_key (flat_map comp_keys cs) d ->
    (Zprod (map (label_of term_eqb d) (comp_keys a)) = Zprod (map (label_of term_eqb d) (comp_keys b))
     <-> same_interactions a b).
  Proof using Type.
    intros F Ia Ib G.
    assert (V : Forall valid_key (flat_map comp_keys cs)).
    { rewrite Forall_forall in *. intros k Ik. apply in_flat_map in Ik as (c & Ic & Ik).
      pose proof (comp_keys_valid c (F c Ic)) as V. rewrite Forall_forall in V. auto. }
    destruct (labels_numbers term_eqb conjugate_term valid_key (flat_map comp_keys cs) d
                (comp_keys a) (comp_keys b) G) as (N & _); auto.
    { intros k [Ik|Ik]; apply in_flat_map; eauto. }
    rewrite N. unfold same_interactions, comp_keys. rewrite !same_upto_map.
    rewrite Forall_forall in F. pose proof (F a Ia) as Fa. pose proof (F b Ib) as Fb.
    unfold comp_ok in Fa, Fb. rewrite Forall_forall in Fa, Fb.
    split; apply same_upto_impl; intros x y Ix Iy R.
    - apply same_class_interaction in R; auto; apply term_key_ok; auto.
    - apply same_class_interaction; auto; apply term_key_ok; auto.
  Qed.

  (** *** last-write dictionary *)

  Lemma fold_dset_ok {K V} (keqb : K -> K -> bool) (g : V -> res K) (h : V -> K) l (acc : list (K * V)) :
    (forall v, In v l -> g v = Ok (h v)) ->
    foldM (fun d v => do k <- g v; Ok (dset keqb d k v)) l acc
    = Ok (fold_left (fun d v => dset keqb d (h v) v) l acc).
  Proof using Type.
    revert acc. induction l as [|v l IH]; intros acc Hg; [reflexivity|]. cbn [foldM fold_left].
    rewrite Hg by (left; reflexivity). cbn [bind]. apply IH. intros x Ix. apply Hg. now right.
  Qed.
End Clean.

Section LastWrite.
  Context {K V : Type} (keqb : K -> K -> bool) (Hk : decides keqb) (h : V -> K).

  Definition last_writes (l : list V) : list (K * V) := fold_left (fun d v => dset keqb d (h v) v) l [].

  Lemma last_writes_snoc l v : last_writes (l ++ [v]) = dset keqb (last_writes l) (h v) v.
  Proof using Type. unfold last_writes. now rewrite fold_left_app. Qed.

  Lemma last_writes_NoDup l : NoDup (keys (last_writes l)).
  Proof using Hk.
    induction l as [|v l IH] using rev_ind; [constructor|]. rewrite last_writes_snoc.
    now apply (NoDup_keys_dset Hk).
  Qed.

  Lemma last_writes_key l k v : In (k, v) (last_writes l) -> k = h v.
  Proof using Hk.
    induction l as [|w l IH] using rev_ind; [intros []|]. rewrite last_writes_snoc. intros I.
    apply (In_dget Hk) in I; [|apply (NoDup_keys_dset Hk), last_writes_NoDup].
    rewrite (dget_dset Hk) in I. destruct (keqb k (h w)) eqn:E.
    - apply Hk in E. inversion I; subst. reflexivity.
    - apply (dget_In Hk) in I. auto.
  Qed.

  (** the entry under a key is the last element with that key *)
  Lemma last_writes_get l k v :
    dget keqb (last_writes l) k = Some v <->
    exists a b, l = a ++ v :: b /\ h v = k /\ forall w, In w b -> h w <> k.
  Proof using Hk.
    revert v. induction l as [|w l IH] using rev_ind; intros v.
    - cbn. split; [discriminate|]. intros (a & b & E & _). destruct a; discriminate.
    - rewrite last_writes_snoc, (dget_dset Hk). destruct (keqb k (h w)) eqn:E.
      + apply Hk in E. split.
        * intros E2. inversion E2; subst. exists l, []. split; [reflexivity|]. split; [reflexivity|intros x []].
        * intros (a & b & E2 & Ev & Hb). destruct b as [|y b] using rev_ind.
          -- apply app_inj_tail in E2 as (_ & ->). reflexivity.
          -- clear IHb. exfalso. apply (Hb w); auto.
             change (a ++ v :: b ++ [y]) with (a ++ (v :: b) ++ [y]) in E2. rewrite app_assoc in E2.
             apply app_inj_tail in E2 as (_ & ->). apply in_or_app. right. left. reflexivity.
      + apply (decides_false Hk) in E. rewrite IH. split.
        * intros (a & b & -> & Ev & Hb). exists a, (b ++ [w]). rewrite <- app_assoc. split; [reflexivity|].
          split; auto. intros x Ix. apply in_app_iff in Ix as [Ix|[<-|[]]]; auto.
        * intros (a & b & E2 & Ev & Hb). destruct b as [|y b] using rev_ind.
          -- apply app_inj_tail in E2 as (_ & ->). congruence.
          -- clear IHb. change (a ++ v :: b ++ [y]) with (a ++ (v :: b) ++ [y]) in E2. rewrite app_assoc in E2.
             apply app_inj_tail in E2 as (-> & ->). exists a, b. split; [reflexivity|]. split; auto.
             intros x Ix. apply Hb. apply in_or_app. auto.
  Qed.

  Lemma last_writes_dom l v : In v l -> exists w, dget keqb (last_writes l) (h v) = Some w /\ h w = h v.
  Proof using Hk.
    intros I. assert (M : In (h v) (keys (last_writes l))).
    { clear -I Hk. induction l as [|w l IH] using rev_ind; [destruct I|]. rewrite last_writes_snoc.
      apply (keys_dset_In Hk). apply in_app_iff in I as [I|[->|[]]]; auto. }
    apply (dmem_In Hk) in M. unfold dmem in M. destruct (dget keqb (last_writes l) (h v)) as [w|] eqn:E; [|discriminate].
    exists w. split; auto. apply (dget_In Hk) in E. apply last_writes_key in E. congruence.
  Qed.
End LastWrite.

(** ** collect_completions *)

Section Collect.
  Context {C V : Type} (key : C -> list V) (veqb vleb : V -> V -> bool) (Hv : decides veqb).
  Notation fk := (func_key key vleb).
  Notation gb := (groupby key veqb vleb).

  Lemma groupby_concat l : concat (map snd (gb l)) = l.
  Proof using Type.
    induction l as [|c l IH]; [reflexivity|]. cbn [groupby]. destruct (gb l) as [|[k g] gs].
    - cbn in *. congruence.
    - destruct (list_eqb veqb (fk c) k); cbn in *; congruence.
  Qed.

  Lemma groupby_keys l k g : In (k, g) (gb l) -> g <> [] /\ Forall (fun c => fk c = k) g.
  Proof using Hv.
    revert k g. induction l as [|c l IH]; intros k g; [intros []|]. cbn [groupby].
    destruct (gb l) as [|[k1 g1] gs].
    - intros [E|[]]. inversion E; subst. split; [discriminate|]. constructor; auto.
    - destruct (list_eqb veqb (fk c) k1) eqn:Ek.
      + intros [E|I]; [|apply IH; now right]. inversion E; subst. apply (list_decides Hv) in Ek.
        destruct (IH k g1 (or_introl eq_refl)) as (_ & F). split; [discriminate|]. constructor; auto.
      + intros [E|I]; [|apply IH; exact I]. inversion E; subst. split; [discriminate|]. constructor; auto.
  Qed.

  Lemma groupby_adjacent l a k1 g1 k2 g2 b : gb l = a ++ (k1, g1) :: (k2, g2) :: b -> k1 <> k2.
  Proof using Hv.
    revert a g1. induction l as [|c l IH]; intros a g1 E; [destruct a; discriminate|]. cbn [groupby] in E.
    destruct (gb l) as [|[k g] gs].
    - destruct a as [|x [|]]; discriminate.
    - destruct (list_eqb veqb (fk c) k) eqn:Ek.
      + destruct a as [|x a].
        * inversion E; subst. eapply (IH [] g). reflexivity.
        * cbn in E. inversion E; subst. eapply (IH ((k, g) :: a) g1). reflexivity.
      + destruct a as [|x a].
        * apply (decides_false (list_decides Hv)) in Ek. inversion E; subst. exact Ek.
        * cbn in E. inversion E as [[E1 E2]]. rewrite E2 in IH. eapply (IH a g1). reflexivity.
  Qed.

  Lemma collect_as_dict l :
    collect_completions key veqb vleb l
    = map (fun kv => (fst kv, snd (snd kv)))
          (last_writes (list_eqb veqb) (fun kg : list V * list C => set_key veqb vleb (fst kg)) (gb l)).
  Proof using Type.
    unfold collect_completions, last_writes.
    assert (G : forall gs (acc : list (list V * (list V * list C))),
      fold_left (fun out kg => dset (list_eqb veqb) out (set_key veqb vleb (fst kg)) (snd kg)) gs
                (map (fun kv => (fst kv, snd (snd kv))) acc)
      = map (fun kv => (fst kv, snd (snd kv)))
            (fold_left (fun d v => dset (list_eqb veqb) d (set_key veqb vleb (fst v)) v) gs acc)).
    { induction gs as [|[k g] gs IH]; intros acc; [reflexivity|]. cbn [fold_left fst snd].
      rewrite <- IH. f_equal. generalize (set_key veqb vleb k) as q. intros q.
      induction acc as [|[k1 [k2 g2]] acc IHa]; [reflexivity|]. cbn [map dset fst snd].
      destruct (list_eqb veqb q k1); cbn; [reflexivity|]. now rewrite IHa. }
    exact (G (gb l) []).
  Qed.
End Collect.
