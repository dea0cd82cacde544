(** * PropsMatch: properties C03 (flatten), C06, C07, C08, C09 and the folds of completions/utils.py (C63) *)

From Coq Require Import Ascii String List Bool Arith ZArith Lia Permutation.
From Verif Require Import Base BaseFacts Spec ModelMatch SpecMatch ProofsMatch.
Import ListNotations.
Local Open Scope nat_scope.

(** ** C03, flatten *)

Theorem C03_flatten_leaves_in_order :
  forall l : list pyval, flatten l = leaves_of (flat_map tokens l).
Proof. exact flatten_tokens. Qed.

Example C03_example_flatten :
  flatten [PInt 1; PList [PTuple [PStr (lit "a"); PInt 2]; PList []]; PInt 3]
  = [PInt 1; PStr (lit "a"); PInt 2; PInt 3].
Proof. reflexivity. Qed.

(** ** C06 *)

(** [fuel] is Python's recursion limit: the claim holds whatever it is. *)
Theorem C06_match_sound :
  forall fuel p d fr fr',
    ground d -> ground_frame fr ->
    pattern_match fuel p d (Some fr) = Ok (Some fr') ->
    extends fr fr' /\ inst (binds fr') p d /\ ground_frame fr' /\
    (forall x, bound fr' x -> bound fr x \/ var_of p x).
Proof.
  intros fuel p d fr fr' G GF E. destruct (pattern_match_sound fuel p d fr fr' G GF E) as (A & B & C & D). auto.
Qed.

Theorem C06_pmatch_sound :
  forall fuel p d fr, ground d -> pmatch fuel p d = Ok (Some fr) ->
    inst (binds fr) p d /\ (forall x, bound fr x -> var_of p x).
Proof.
  intros fuel p d fr G E. apply C06_match_sound in E as (_ & I & _ & B); auto; [|intros x v H; discriminate H].
  split; auto. intros x Hx. destruct (B x Hx) as [(v & H)|H]; [discriminate H|exact H].
Qed.

Definition C06_p : pyval := PList [PStr (lit "?x"); PTuple [PStr (lit "?y"); PStr (lit "?x")]; PInt 7].
Definition C06_d : pyval := PList [PInt 1; PTuple [PList [PStr (lit "a")]; PInt 1]; PInt 7].

Example C06_example :
  ground C06_d /\
  pmatch 20 C06_p C06_d = Ok (Some [(lit "?x", PInt 1); (lit "?y", PList [PStr (lit "a")])]).
Proof.
  split; [|reflexivity]. apply ground_b_ok. reflexivity.
Qed.

(** Without groundness of the data the claim fails: the pattern [?x, ?x] is reported to match ["?y", 1] with
    ?x bound to "?y", although x cannot be both. *)
Theorem C06_nonground_refuted :
  exists fuel p d fr, pmatch fuel p d = Ok (Some fr) /\ ~ inst (binds fr) p d.
Proof.
  exists 20, (PList [PStr (lit "?x"); PStr (lit "?x")]), (PList [PStr (lit "?y"); PInt 1]).
  eexists. split; [reflexivity|]. intros I. inversion I as [| | |l1 l2 F|]; subst.
  inversion F as [|? ? ? ? _ F']; subst. inversion F' as [|? ? ? ? I2 _]; subst. inversion I2; subst.
  - match goal with H : binds _ _ _ |- _ => discriminate H end.
Qed.

(** ** C07 *)

Theorem C07_match_complete :
  forall fuel p d fr (sigma : str -> pyval),
    no_empty p -> ground d -> no_empty d ->
    (forall x v, binds fr x v -> v = sigma x /\ ground v /\ no_empty v) ->
    inst (fun x v => v = sigma x) p d ->
    size d < fuel ->
    exists fr', pattern_match fuel p d (Some fr) = Ok (Some fr') /\
                forall x v, binds fr' x v -> v = sigma x.
Proof.
  intros fuel p d fr sigma Np Gd Nd Hfr I Hf.
  destruct (pattern_match_complete fuel (fun x v => v = sigma x /\ ground v /\ no_empty v)) with (p := p) (d := d) (fr := fr)
    as (fr' & E & A); auto.
  - intros x v w (-> & _) (-> & _). reflexivity.
  - intros x v (_ & H). exact H.
  - now apply inst_restrict.
  - exists fr'. split; auto. intros x v B. now apply A in B.
Qed.

(** on ground data the matcher decides matchability *)
Theorem C07_is_match_decides :
  forall fuel p d,
    no_empty p -> ground d -> no_empty d -> size d < fuel ->
    (is_match fuel p d = Ok true <-> exists sigma : str -> pyval, inst (fun x v => v = sigma x) p d).
Proof.
  intros fuel p d Np Gd Nd Hf. unfold is_match. split.
  - intros E. apply bind_ok in E as ([fr|] & E1 & E2); [|discriminate].
    apply C06_pmatch_sound in E1 as (I & _); auto.
    exists (fun x => match dget str_eqb fr x with Some v => v | None => PInt 0 end).
    eapply inst_mono; [|exact I]. intros x v B. cbn. unfold binds in B. now rewrite B.
  - intros (sigma & I). assert (B0 : forall x v, binds [] x v -> v = sigma x /\ ground v /\ no_empty v)
      by (intros x v B; discriminate B).
    destruct (C07_match_complete fuel p d [] sigma Np Gd Nd B0 I Hf) as (fr' & E & _).
    unfold frame in *. rewrite E. reflexivity.
Qed.

Example C07_example : is_match 20 C06_p C06_d = Ok true /\ is_match 20 C06_p (PList [PInt 1]) = Ok false.
Proof. split; reflexivity. Qed.

(** An empty string in a collection pattern makes the matcher miss a match, whatever the recursion limit. *)
Theorem C07_empty_string_refuted :
  exists p d, ground d /\ (exists sigma : str -> pyval, inst (fun x v => v = sigma x) p d) /\
    forall fuel, pmatch (S fuel) p d = Ok None.
Proof.
  exists (PList [PStr []; PStr (lit "?x")]), (PList [PStr []; PInt 1]). split; [|split].
  - apply ground_b_ok. reflexivity.
  - exists (fun _ => PInt 1). constructor. constructor; [apply i_str; intros (r & E); discriminate E|].
    constructor; [|constructor]. apply i_var; [now exists (lit "x")|reflexivity].
  - intros [|fuel]; reflexivity.
Qed.

(** Data that itself contains a variable: the bound variable is looked up for ever.  At top level this is a
    RecursionError at every recursion limit; inside a collection it is swallowed and reported as "no match". *)
Theorem C07_variable_data_refuted :
  (forall fuel, pattern_match fuel (PStr (lit "?x")) (PInt 1) (Some [(lit "?x", PStr (lit "?x"))])
                = Err RecursionError) /\
  (exists p d, (exists sigma : str -> pyval, inst (fun x v => v = sigma x) p d) /\
               forall fuel, pmatch (S fuel) p d = Ok None).
Proof.
  split.
  - induction fuel as [|f IH]; [reflexivity|exact IH].
  - exists (PList [PStr (lit "?x"); PStr (lit "?x"); PStr (lit "?z")]), (PList [PStr (lit "?x"); PStr (lit "?x"); PInt 1]).
    split.
    + exists (fun x => if str_eqb x (lit "?x") then PStr (lit "?x") else PInt 1).
      constructor. repeat constructor; try (now exists (lit "x")); now exists (lit "z").
    + assert (L : forall fuel, pattern_match fuel (PStr (lit "?x")) (PStr (lit "?x"))
                     (Some [(lit "?x", PStr (lit "?x"))]) = Err RecursionError).
      { induction fuel as [|f IH]; [reflexivity|exact IH]. }
      intros [|[|f]]; [reflexivity|reflexivity|].
      unfold pmatch. cbn [pattern_match is_pattern_var bind Ascii.eqb]. cbn. 
      change [("?"%char); ("x"%char)] with (lit "?x"). rewrite L. reflexivity.
Qed.

(** ** C08 *)

Theorem C08_factors_are_the_divisors :
  forall n root : Z,
    (1 <= n)%Z -> (1 <= root)%Z -> (n < (root + 1) * (root + 1))%Z ->
    exists l, factors n root = Ok l /\ forall x, In x l <-> (1 <= x)%Z /\ (x | n)%Z.
Proof.
  intros n root Hn Hr Hs. eexists. split; [apply factors_list; assumption|].
  intros x. rewrite factors_members by assumption. now apply divisor_pairing.
Qed.

(** whatever the root estimate, nothing but divisors is returned *)
Theorem C08_factors_sound :
  forall n root l x, (1 <= n)%Z -> factors n root = Ok l -> In x l -> (1 <= x)%Z /\ (x | n)%Z.
Proof.
  intros n root l x Hn E I. destruct (Z_le_gt_dec 1 root) as [L|L].
  - rewrite factors_list in E by assumption. inversion E; subst.
    apply factors_members in I as (i & Hi & (q & Hq) & [->| ->]); auto.
    + split; [lia|]. exists q. exact Hq.
    + rewrite Hq, Z.div_mul by lia. split; [nia|]. exists i. lia.
  - exfalso. unfold factors in E. replace (Z.to_nat root) with 0 in E by lia. discriminate.
Qed.

(** a root estimate one too small loses a divisor; zero raises *)
Theorem C08_small_root_refuted :
  factors 9 2 = Ok [1; 9]%Z /\ factors 0 0 = Err TypeError.
Proof. split; reflexivity. Qed.

Example C08_example : factors 12 3 = Ok [1; 12; 2; 6; 3; 4]%Z.
Proof. reflexivity. Qed.

(** ** C09 *)

Theorem C09_multiple_replace_scans :
  forall (mapping : list (str * str)) (text : str),
    mapping <> [] -> (forall k, In k (map fst mapping) -> k <> []) -> NoDup (map fst mapping) ->
    exists out, multiple_replace mapping text = Ok out /\
                forall out', scanned mapping text out' <-> out' = out.
Proof.
  intros m t Hm Hne ND. exists (mreplace (List.length t) m t). split.
  - destruct m; [congruence|reflexivity].
  - intros o. split.
    + intros S. eapply scanned_functional; eauto. now apply mreplace_scanned.
    + intros ->. now apply mreplace_scanned.
Qed.

Theorem C09_multiple_replace_labelwise :
  forall (mapping : list (str * str)) ps,
    mapping <> [] -> (forall k, In k (keys mapping) -> k <> []) -> prefix_free (keys mapping) ->
    pieces_ok mapping ps ->
    multiple_replace mapping (text_of ps) = Ok (concat (map (rename mapping) ps)).
Proof.
  intros m ps Hm Hne Hpf Hok. unfold multiple_replace. destruct m as [|kv m]; [congruence|].
  f_equal. now apply mreplace_pieces.
Qed.

(** a mapping that is an involution on its labels undoes itself *)
Theorem C09_swap_twice :
  forall (mapping : list (str * str)) ps,
    mapping <> [] -> (forall k, In k (keys mapping) -> k <> []) -> prefix_free (keys mapping) ->
    (forall k, In k (keys mapping) -> exists v, dget str_eqb mapping k = Some v /\ In v (keys mapping) /\
                                               dget str_eqb mapping v = Some k) ->
    pieces_ok mapping ps ->
    exists t, multiple_replace mapping (text_of ps) = Ok t /\ multiple_replace mapping t = Ok (text_of ps).
Proof.
  intros m ps Hm Hne Hpf Hinv Hok.
  exists (concat (map (rename m) ps)). split; [now apply C09_multiple_replace_labelwise|].
  pose (ren := fun p => match p with Label x => Label (rename m (Label x)) | Char c => Char c end).
  assert (E : concat (map (rename m) ps) = text_of (map ren ps)).
  { unfold text_of. rewrite map_map. f_equal. apply map_ext. intros [x|c]; reflexivity. }
  rewrite E, C09_multiple_replace_labelwise; auto.
  - f_equal. unfold text_of. rewrite map_map. f_equal. apply map_ext_in. intros [x|c] I; [|reflexivity].
    unfold pieces_ok in Hok. rewrite Forall_forall in Hok. specialize (Hok _ I). cbn in Hok.
    destruct (Hinv x Hok) as (v & E1 & _ & E2). change (rename m (Label (rename m (Label x))) = x). unfold rename. rewrite E1, E2. reflexivity.
  - unfold pieces_ok in *. rewrite Forall_map. eapply Forall_impl; [|exact Hok].
    intros [x|c] H; cbn [ren rename] in *; auto. destruct (Hinv x H) as (v & E1 & I & _). now rewrite E1.
Qed.

Definition C09_m : list (str * str) := [(lit "S0", lit "S1"); (lit "S1", lit "S0")].
Example C09_example :
  multiple_replace C09_m (lit "L(u0)*S0(i1)*S1(i2)") = Ok (lit "L(u0)*S1(i1)*S0(i2)").
Proof. reflexivity. Qed.

Example C09_hypotheses :
  (forall k, In k (keys C09_m) -> k <> []) /\ prefix_free (keys C09_m) /\
  (forall k, In k (keys C09_m) -> exists v, dget str_eqb C09_m k = Some v /\ In v (keys C09_m) /\
                                           dget str_eqb C09_m v = Some k) /\
  pieces_ok C09_m (map Char (lit "L(u0)*") ++ [Label (lit "S0")] ++ map Char (lit "(i1)")).
Proof.
  split; [|split; [|split]].
  - intros k [<-|[<-|[]]] E; discriminate E.
  - intros a r [<-|[<-|[]]] [E|[E|[]]]; cbn in E; inversion E; auto.
  - intros k [<-|[<-|[]]]; [exists (lit "S1")|exists (lit "S0")]; repeat split; cbn; auto.
  - unfold pieces_ok, inert. repeat constructor; cbn; try tauto;
      intros r H; repeat destruct H as [H|H]; try discriminate H; auto.
Qed.

(** An earlier key that is a prefix of a later one shadows it; a key occurring inside another word is
    replaced there too; an empty mapping raises. *)
Theorem C09_prefix_keys_refuted :
  multiple_replace [(lit "f", lit "g"); (lit "f0", lit "f1")] (lit "f0") = Ok (lit "g0") /\
  multiple_replace [(lit "s", lit "t")] (lit "Eps") = Ok (lit "Ept") /\
  multiple_replace [] (lit "L") = Err KeyError.
Proof. repeat split. Qed.

(** ** C63: the folds *)

Theorem C63_foldr_is_right_fold :
  forall (A : Type) (f : A -> A -> A) (xs : list A) (a : A),
    foldr f xs (Some a) = Ok (fold_right f a xs) /\
    foldr f (xs ++ [a]) None = Ok (fold_right f a xs) /\
    foldr f [] None = Err TypeError.
Proof.
  intros. repeat split; unfold foldr.
  - now rewrite fold_left_rev_fold_right.
  - rewrite rev_app_distr. cbn. now rewrite fold_left_rev_fold_right.
Qed.

(** [fixedpoint] and [multiset_equality] cannot return: both read a name that is not defined *)
Theorem C63_fixedpoint_never_returns_refuted :
  (forall (A : Type) (f : A -> res A) (x : A), is_ok (fixedpoint f x) = false) /\
  (forall (A : Type) (x y : list A), multiset_equality x y = Err NameError).
Proof.
  split; [|reflexivity]. intros A f x. unfold fixedpoint. destruct (f x); reflexivity.
Qed.

Example C63_example : foldr Nat.sub [10; 3; 1] None = Ok 8.
Proof. reflexivity. Qed.

Print Assumptions C03_flatten_leaves_in_order.
Print Assumptions C06_match_sound.
Print Assumptions C06_nonground_refuted.
Print Assumptions C07_match_complete.
Print Assumptions C07_is_match_decides.
Print Assumptions C07_empty_string_refuted.
Print Assumptions C07_variable_data_refuted.
Print Assumptions C08_factors_are_the_divisors.
Print Assumptions C08_factors_sound.
Print Assumptions C09_multiple_replace_scans.
Print Assumptions C09_multiple_replace_labelwise.
Print Assumptions C09_swap_twice.
Print Assumptions C63_foldr_is_right_fold.
