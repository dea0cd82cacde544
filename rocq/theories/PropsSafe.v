(** * PropsSafe: C116, vanishing terms with fields without indices *)

From Coq Require Import Ascii String List Bool Arith QArith.
From Verif Require Import Base BaseFacts ModelIndex ModelField ModelContract ModelLagrangian ModelOperators ModelSafe SpecSafe.
Import ListNotations.
Local Open Scope nat_scope.

Lemma unindexed_free t : unindexed t = true <-> free_of_indices t.
Proof. unfold unindexed, free_of_indices. destruct (tensor_indices t); split; congruence. Qed.

Lemma times_all_some o l : times_all (Some o) l = Some (o ++ l).
Proof. revert o. induction l as [|t l IH]; intros o; cbn [times_all fold_left]; [now rewrite app_nil_r|]. unfold times_all in IH. rewrite IH, <- app_assoc. reflexivity. Qed.

Lemma times_all_none l : times_all None l = None.
Proof. induction l as [|t l IH]; [reflexivity|exact IH]. Qed.

Section Meaning.
  Variable M : meaning.

  (** the factors without indices can be moved to the end *)
  Lemma value_congr l : Forall free_of_indices l -> forall a b, value M a = value M b -> value M (a ++ l) = value M (b ++ l).
  Proof.
    induction l as [|t l IH]; intros F a b E; [now rewrite !app_nil_r|]. inversion F as [|? ? Ft Fl]; subst.
    rewrite !(take_out_factor M _ t l Ft). now rewrite (IH Fl a b E).
  Qed.

  Lemma value_swap a t b : free_of_indices t -> value M (a ++ t :: b) = value M ((a ++ b) ++ [t]).
  Proof. intros F. rewrite (take_out_factor M a t b F), (take_out_factor M (a ++ b) t [] F). now rewrite app_nil_r. Qed.

  Lemma value_split op : forall pre, value M (pre ++ op) = value M ((pre ++ filter (fun t => negb (unindexed t)) op) ++ filter unindexed op).
  Proof.
    induction op as [|t op IH]; intros pre; [cbn; now rewrite !app_nil_r|]. cbn [filter]. destruct (unindexed t) eqn:U; cbn [negb].
    - apply unindexed_free in U. rewrite (take_out_factor M pre t op U). rewrite (take_out_factor M (pre ++ filter (fun t => negb (unindexed t)) op) t (filter unindexed op) U). now rewrite (IH pre).
    - specialize (IH (pre ++ [t])). rewrite <- !app_assoc in IH. cbn [app] in IH. rewrite <- app_assoc. exact IH.
  Qed.

  Lemma free_filter op : Forall free_of_indices (filter unindexed op).
  Proof. apply Forall_forall. intros t I. apply filter_In in I as [_ I]. now apply unindexed_free. Qed.

  Lemma value_zero l : Forall free_of_indices l -> forall a, value M (a ++ l) = zero M <-> value M a = zero M.
  Proof.
    induction l as [|t l IH]; intros F a; [now rewrite app_nil_r|]. inversion F as [|? ? Ft Fl]; subst. rewrite (take_out_factor M a t l Ft). split; intros H.
    - apply product_zero in H as [H|H]; [now apply (IH Fl)|destruct (factor_not_zero M t Ft H)].
    - apply (IH Fl a) in H. rewrite H. apply zero_product.
  Qed.

  (** C116: if the answers of sympy are right, so are those of safe_simplify; and where sympy raises IndexError for the operator it
      fails only if sympy also fails for the factors that have indices *)
  Theorem C116_safe : forall simplify simplify_one,
    (forall o s, simplify o = Ok s -> right_answer M o s) -> (forall t s, simplify_one t = Ok s -> right_answer M [t] s) ->
    forall op,
      (forall s, safe_simplify simplify simplify_one op = Ok s -> right_answer M op s) /\
      (forall e, safe_simplify simplify simplify_one op = Err e ->
        (simplify op = Err e /\ e <> IndexError) \/
        (simplify op = Err IndexError /\ exists l, Forall (fun t => ~ free_of_indices t) l /\ (forall t, In t l <-> In t op /\ ~ free_of_indices t) /\ l <> [] /\
          ((exists t, l = [t] /\ simplify_one t = Err e) \/ simplify l = Err e))).
  Proof.
    intros simplify simplify_one H H1 op. set (l := filter (fun t => negb (unindexed t)) op). set (u := filter unindexed op).
    assert (V : value M op = value M (l ++ u)) by exact (value_split op []).
    assert (Fu : Forall free_of_indices u) by apply free_filter.
    assert (Good : forall s, right_answer M l s -> right_answer M op (times_all s u)).
    { intros [r|] R.
      - destruct R as (R1 & R2). rewrite times_all_some. split; [rewrite V; now apply value_congr|]. rewrite V. intros Z. apply R2. now apply (value_zero u Fu).
      - rewrite times_all_none. cbn in *. rewrite V. now apply (value_zero u Fu). }
    assert (Ll : forall t, In t l <-> In t op /\ ~ free_of_indices t).
    { intros t. unfold l. rewrite filter_In. rewrite negb_true_iff. rewrite <- unindexed_free. destruct (unindexed t); intuition congruence. }
    assert (Fl : Forall (fun t => ~ free_of_indices t) l) by (apply Forall_forall; intros t I; now apply Ll in I).
    unfold safe_simplify. fold l u. destruct (simplify op) as [s0|e0] eqn:E.
    - split; [intros s X; injection X as <-; now apply H|intros e X; discriminate X].
    - destruct e0; try (split; [intros s X; discriminate X|intros e X; injection X as <-; left; split; [reflexivity|discriminate]]).
      destruct l as [|t [|t' l']] eqn:El.
      + split; [|intros e X; discriminate X]. intros s X. injection X as <-. split; [reflexivity|]. rewrite V. intros Z. apply (value_zero u Fu []) in Z. now apply (empty_not_zero M).
      + destruct (simplify_one t) as [s1|e1] eqn:E1; cbn [bind].
        * split; [|intros e X; discriminate X]. intros s X. injection X as <-. apply Good. now apply H1.
        * split; [intros s X; discriminate X|]. intros e X. injection X as <-. right. split; [reflexivity|]. exists [t]. repeat (split; [assumption || discriminate|]). left. now exists t.
      + destruct (simplify (t :: t' :: l')) as [s1|e1] eqn:E1; cbn [bind].
        * split; [|intros e X; discriminate X]. intros s X. injection X as <-. apply Good. now apply H.
        * split; [intros s X; discriminate X|]. intros e X. injection X as <-. right. split; [reflexivity|]. exists (t :: t' :: l'). repeat (split; [assumption || discriminate|]). now right.
  Qed.
End Meaning.

(** ** Cases *)

(** a meaning: an operator is zero if a field with indices occurs twice in it, as for the contraction of H H to a singlet *)
Definition names (op : operator) : list str := flat_map (fun t => match t with TField x => [f_label (i_field x)] | TSymbol _ => [] end) (filter (fun t => negb (unindexed t)) op).

Fixpoint differ (l : list str) : bool := match l with [] => true | x :: r => negb (existsb (str_eqb x) r) && differ r end.

Definition differing (op : operator) : bool := differ (names op).

Lemma differing_out a t b : free_of_indices t -> differing (a ++ t :: b) = differing (a ++ b) && differing [t].
Proof.
  intros F. apply unindexed_free in F. unfold differing, names. rewrite !filter_app. cbn [filter]. rewrite F. cbn [negb flat_map differ]. now rewrite andb_true_r.
Qed.

Definition by_names : meaning := mkMeaning bool andb false differing differing_out
  (fun x y H => match x as b return b && y = false -> b = false \/ y = false with true => fun H => or_intror H | false => fun _ => or_introl eq_refl end H)
  (fun _ => eq_refl)
  (fun t F => ltac:(intros H; apply unindexed_free in F; unfold differing, names in H; cbn [filter] in H; rewrite F in H; discriminate H))
  (fun H => ltac:(discriminate H)).

(** sympy fails on fields without indices *)
Definition toy (o : operator) : res (option operator) := if existsb unindexed o then Err IndexError else Ok (if differing o then Some o else None).
Definition toy_one (t : tensor) : res (option operator) := Ok (if differing [t] then Some [t] else None).

Definition singlet : tensor := TField (mkIField (sm_field (lit "S") (lit "00000") (lit "S") 0%Q 0%Q (lit "bose") [] 1) [] (AStr [])).

Example C116_example : (forall o s, toy o = Ok s -> right_answer by_names o s) /\ (forall t s, toy_one t = Ok s -> right_answer by_names [t] s) /\
  exists h h' l e, called sm_H "i0" = Ok h /\ called sm_H "i1" = Ok h' /\ called sm_L "u0 i1" = Ok l /\ called_eps "-i0 -i1" = Ok e /\
    safe_simplify toy toy_one [h; singlet; h'; e] = Ok None /\ safe_simplify toy toy_one [singlet; h; l; e] = Ok (Some [h; l; e; singlet]) /\ safe_simplify toy toy_one [singlet; singlet] = Ok (Some [singlet; singlet]).
Proof.
  split; [|split].
  - intros o s H. unfold toy in H. destruct (existsb unindexed o); [discriminate H|]. destruct (differing o) eqn:E; injection H as <-; [split; [reflexivity|]; change (differing o <> false); rewrite E; discriminate|exact E].
  - intros t s H. unfold toy_one in H. destruct (differing [t]) eqn:E; injection H as <-; [split; [reflexivity|]; change (differing [t] <> false); rewrite E; discriminate|exact E].
  - repeat eexists; vm_compute; reflexivity.
Qed.

Print Assumptions C116_safe.
