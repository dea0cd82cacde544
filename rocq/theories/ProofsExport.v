(** * ProofsExport: what the parser of ModelExport reads *)

From Coq Require Import Ascii String List Bool Arith ZArith NArith QArith Qcanon Lia.
From Verif Require Import Base BaseFacts Show ShowRead ModelFunctions ModelIndex ModelField ModelContract ModelPartition ModelExotic
  ModelInfo ModelLagrangian ModelDatabase ModelExport.
Import ListNotations.
Local Open Scope nat_scope.

Section Induction.
  Variable P : pexp -> Prop.
  Hypothesis Hname : forall s, P (EName s).
  Hypothesis Hint : forall n, P (EInt n).
  Hypothesis Hstr : forall q raw, P (EStr q raw).
  Hypothesis Hattr : forall e a, P e -> P (EAttr e a).
  Hypothesis Hcall : forall f l tc, P f -> Forall P l -> P (ECall f l tc).
  Hypothesis Hseq : forall b l tc, Forall P l -> P (ESeq b l tc).
  Hypothesis Hprod : forall l, Forall P l -> P (EProd l).
  Hypothesis Hkw : forall k e, P e -> P (EKw k e).
  Hypothesis Hpair : forall k v, P k -> P v -> P (EPair k v).

  Fixpoint pexp_ind' (e : pexp) : P e :=
    let fix all (l : list pexp) : Forall P l :=
      match l with [] => Forall_nil P | e :: l => Forall_cons e (pexp_ind' e) (all l) end in
    match e with
    | EName s => Hname s
    | EInt n => Hint n
    | EStr q raw => Hstr q raw
    | EAttr e a => Hattr e a (pexp_ind' e)
    | ECall f l tc => Hcall f l tc (pexp_ind' f) (all l)
    | ESeq b l tc => Hseq b l tc (all l)
    | EProd l => Hprod l (all l)
    | EKw k e => Hkw k e (pexp_ind' e)
    | EPair k v => Hpair k v (pexp_ind' k) (pexp_ind' v)
    end.
End Induction.

Definition opens (b : bracket) : ascii := match b with Square => "["%char | Round => "("%char | Curly => "{"%char end.
Definition closes (b : bracket) : ascii := match b with Square => "]"%char | Round => ")"%char | Curly => "}"%char end.

Definition comma_if (tc : bool) : str := if tc then lit "," else [].

(** the text of an expression *)
Fixpoint show_exp (e : pexp) : str :=
  match e with
  | EName s => s
  | EInt n => show_N n
  | EStr q raw => q :: raw ++ [q]
  | EAttr e a => show_exp e ++ "."%char :: a
  | ECall f l tc => show_exp f ++ "("%char :: join (lit ", ") (map show_exp l) ++ comma_if tc ++ [")"%char]
  | ESeq b l tc => opens b :: join (lit ", ") (map show_exp l) ++ comma_if tc ++ [closes b]
  | EProd l => join (lit "*") (map show_exp l)
  | EKw k e => k ++ "="%char :: show_exp e
  | EPair k v => show_exp k ++ ":"%char :: " "%char :: show_exp v
  end.

Definition word (s : str) : Prop := s <> [] /\ Forall (fun c => ident_char c = true) s.
Definition name (s : str) : Prop := word s /\ match s with c :: _ => digit_char c = false | [] => True end.
Definition literal (q : ascii) (raw : str) : Prop := forall r, read_literal q (raw ++ q :: r) = Some (raw, r).

(** 0: factors, 1: expressions, 2: items of brackets *)
Inductive wf : nat -> pexp -> Prop :=
| W_name lv s : name s -> wf lv (EName s)
| W_int lv n : wf lv (EInt n)
| W_str lv q raw : q = squote \/ q = dquote -> literal q raw -> wf lv (EStr q raw)
| W_attr lv e a : wf 0 e -> word a -> wf lv (EAttr e a)
| W_call lv f l tc : wf 0 f -> Forall (wf 2) l -> (tc = true -> l <> []) -> wf lv (ECall f l tc)
| W_seq lv b l tc : Forall (wf 2) l -> (tc = true -> l <> []) -> wf lv (ESeq b l tc)
| W_prod lv l : 1 <= lv -> 2 <= List.length l -> Forall (wf 0) l -> wf lv (EProd l)
| W_kw k e : word k -> wf 1 e -> wf 2 (EKw k e)
| W_pair k v : wf 1 k -> wf 1 v -> wf 2 (EPair k v).

(** ** Single pieces *)

Lemma span_all p a r : Forall (fun c => p c = true) a -> match r with c :: _ => p c = false | [] => True end ->
  span p (a ++ r) = (a, r).
Proof.
  induction 1 as [|c a H F IH]; intros R; cbn.
  - destruct r as [|c r]; cbn; [reflexivity|now rewrite R].
  - rewrite H, IH; auto.
Qed.

Definition outside (r : str) : Prop := match r with c :: _ => ident_char c = false | [] => True end.
Definition not_in (bad : list ascii) (r : str) : Prop := match r with c :: _ => ~ In c bad | [] => True end.

Lemma digit_ident c : digit_char c = true -> ident_char c = true.
Proof. unfold digit_char, ident_char. intros ->. reflexivity. Qed.

Lemma is_digit_char c : is_digit c -> digit_char c = true.
Proof. unfold is_digit. cbn. intros H. repeat (destruct H as [<-|H]; [reflexivity|]). destruct H. Qed.

Lemma ident_cases c : ident_char c = true -> c <> squote /\ c <> dquote /\ opening c = None /\ c <> " "%char.
Proof. destruct c as [[] [] [] [] [] [] [] []]; vm_compute; intros H; try discriminate H; repeat split; discriminate. Qed.

(** the first character of an expression *)
Definition starts (c : ascii) : Prop :=
  ident_char c = true \/ c = squote \/ c = dquote \/ c = "["%char \/ c = "("%char \/ c = "{"%char.

Lemma starts_not c b : starts c -> c <> closes b /\ c <> " "%char /\ c <> ","%char.
Proof.
  intros [H | [-> | [-> | [-> | [-> | ->]]]]]; destruct b; vm_compute; repeat split; try discriminate.
  all: intros ->; vm_compute in H; discriminate H.
Qed.

Lemma app_cons_tail (a b : str) c : (a ++ c :: b) = (a ++ [c]) ++ b.
Proof. now rewrite <- app_assoc. Qed.

Lemma show_starts lv e : wf lv e -> exists c s, show_exp e = c :: s /\ starts c.
Proof.
  revert lv. induction e as [s|n|q raw|e a IH|f l tc IH IHl|b l tc IHl|l IHl|k e IH|k v IHk IHv] using pexp_ind';
    intros lv W; inversion W; subst; cbn.
  - match goal with N : name s |- _ => destruct N as [[N F] _] end. destruct s as [|c s]; [congruence|].
    exists c, s. split; [reflexivity|]. left. now apply Forall_inv in F.
  - pose proof (show_N_digits n) as F. pose proof (show_N_nonnil n) as N. destruct (show_N n) as [|c s]; [congruence|].
    exists c, s. split; [reflexivity|]. left. apply digit_ident, is_digit_char. now apply Forall_inv in F.
  - exists q, (raw ++ [q]). split; [reflexivity|]. unfold starts. tauto.
  - destruct (IH _ H2) as (c & s & E & C). rewrite E. cbn. eauto.
  - destruct (IH _ H3) as (c & s & E & C). rewrite E. cbn. eauto.
  - eexists _, _. split; [reflexivity|]. destruct b; unfold starts; cbn; tauto.
  - destruct l as [|x l]; [cbn in *; lia|]. destruct (Forall_inv IHl _ (Forall_inv H3)) as (c & s & E & C). cbn [map].
    destruct l as [|y l]; cbn [join map]; rewrite E; cbn; eauto.
  - match goal with N : word k |- _ => destruct N as [N F] end. destruct k as [|c k]; [congruence|]. exists c, (k ++ "="%char :: show_exp e). split; [reflexivity|].
    left. now apply Forall_inv in F.
  - match goal with Wk : wf 1 k |- _ => destruct (IHk _ Wk) as (c & s & E & C) end. rewrite E. cbn. eauto.
Qed.

Lemma show_pos lv e : wf lv e -> 1 <= List.length (show_exp e).
Proof. intros W. destruct (show_starts lv e W) as (c & s & -> & _). cbn. lia. Qed.

Fixpoint depth (e : pexp) : nat :=
  match e with EAttr e _ => S (depth e) | ECall f _ _ => S (depth f) | _ => 0 end.

Lemma depth_le lv e : wf lv e -> depth e <= List.length (show_exp e).
Proof.
  revert lv. induction e using pexp_ind'; intros lv W; cbn; try lia; inversion W; subst; rewrite app_length; cbn.
  all: match goal with W0 : wf 0 _ |- _ => specialize (IHe _ W0) end; lia.
Qed.

(** ** Reading back *)

Definition PF (e : pexp) : Prop := forall k r, 4 * List.length (show_exp e) + 3 <= k -> outside r ->
  p_factor k (show_exp e ++ r) = p_trailers (k - 1 - depth e) e r.
Definition PE (e : pexp) : Prop := forall k r, 4 * List.length (show_exp e) + 4 <= k -> outside r ->
  not_in (lit ".(*") r -> p_exp k (show_exp e ++ r) = Some (e, r).
Definition PI (e : pexp) : Prop := forall k r, 4 * List.length (show_exp e) + 5 <= k -> outside r ->
  not_in (lit ".(*:= ") r -> p_item k (show_exp e ++ r) = Some (e, r).

Lemma skip_spaces_starts c s : starts c -> skip_spaces (c :: s) = c :: s.
Proof.
  intros C. unfold skip_spaces. cbn [span]. destruct (Ascii.eqb " " c) eqn:E; [|reflexivity].
  apply Ascii.eqb_eq in E. subst c. destruct (starts_not _ Square C) as (_ & N & _). congruence.
Qed.

Lemma skip_space s : skip_spaces (" "%char :: s) = skip_spaces s.
Proof. unfold skip_spaces. cbn. destruct (span (Ascii.eqb " ") s). reflexivity. Qed.

Lemma not_in_sub a b r : incl a b -> not_in b r -> not_in a r.
Proof. destruct r; cbn; auto. Qed.

Lemma trailers_stop k e r : 1 <= k -> not_in (lit ".(") r -> p_trailers k e r = Some (e, r).
Proof.
  intros K N. destruct k as [|k]; [lia|]. destruct r as [|c r]; [reflexivity|]. cbn [p_trailers]. cbn in N.
  destruct (Ascii.eqb_spec c "."); [subst; exfalso; apply N; auto|]. destruct (Ascii.eqb_spec c "("); [subst; exfalso; apply N; auto|]. reflexivity.
Qed.

Lemma factors_stop k r : 1 <= k -> not_in (lit "*") r -> p_factors k r = Some ([], r).
Proof.
  intros K N. destruct k as [|k]; [lia|]. destruct r as [|c r]; [reflexivity|]. cbn [p_factors]. cbn in N.
  destruct (Ascii.eqb_spec c "*"); [subst; exfalso; apply N; auto|]. reflexivity.
Qed.

Lemma factor_done e k r : PF e -> wf 0 e -> 4 * List.length (show_exp e) + 3 <= k -> outside r -> not_in (lit ".(") r ->
  p_factor k (show_exp e ++ r) = Some (e, r).
Proof.
  intros H W K O N. rewrite H by auto. apply trailers_stop; auto. pose proof (depth_le _ _ W). pose proof (show_pos _ _ W). lia.
Qed.

(** the items of a pair of brackets *)
Lemma items_ok b l tc : Forall PI l -> Forall (wf 2) l -> (tc = true -> l <> []) -> forall k r,
  4 * List.length (join (lit ", ") (map show_exp l)) + 6 <= k ->
  p_items k (closes b) (join (lit ", ") (map show_exp l) ++ comma_if tc ++ closes b :: r) = Some (l, tc, r).
Proof.
  intros HP HW. assert (Sc : forall r, skip_spaces (closes b :: r) = closes b :: r) by (intros r; destruct b; reflexivity).
  assert (Oc : forall r, outside (closes b :: r)) by (intros r; destruct b; reflexivity).
  assert (Nc : forall r, not_in (lit ".(*:= ") (closes b :: r))
    by (intros r; destruct b; vm_compute; intros H; repeat (destruct H as [H|H]; [discriminate H|]); exact H).
  assert (Nv : forall r, not_in (lit ".(*:= ") (","%char :: r))
    by (intros r; vm_compute; intros H; repeat (destruct H as [H|H]; [discriminate H|]); exact H).
  induction l as [|x l IH]; intros T k r K; (destruct k as [|k]; [lia|]).
  - destruct tc; [destruct (T eq_refl eq_refl)|]. cbn [map join app comma_if]. cbn [p_items]. rewrite Sc, Ascii.eqb_refl. reflexivity.
  - pose proof (Forall_inv HP) as Px. pose proof (Forall_inv HW) as Wx. apply Forall_inv_tail in HP, HW.
    destruct (show_starts _ _ Wx) as (c & s & E & C). destruct (starts_not c b C) as (N1 & _ & _).
    apply Ascii.eqb_neq in N1.
    destruct l as [|y l].
    + cbn [map join] in *. destruct tc; cbn [comma_if app].
      * cbn [p_items]. rewrite E. cbn [app]. rewrite (skip_spaces_starts c _ C), N1.
        change (c :: s ++ lit "," ++ closes b :: r) with ((c :: s) ++ ","%char :: closes b :: r). rewrite <- E.
        rewrite Px; [|lia|reflexivity|apply Nv].
        replace (Ascii.eqb "," (closes b)) with false by (destruct b; reflexivity). cbn [Ascii.eqb Bool.eqb].
        destruct k as [|k]; [lia|]. cbn [p_items]. rewrite Sc, Ascii.eqb_refl. reflexivity.
      * cbn [p_items]. rewrite E. cbn [app]. rewrite (skip_spaces_starts c _ C), N1.
        change (c :: s ++ closes b :: r) with ((c :: s) ++ closes b :: r). rewrite <- E.
        rewrite Px; [|lia|apply Oc|apply Nc]. now rewrite Ascii.eqb_refl.
    + change (join (lit ", ") (map show_exp (x :: y :: l))) with (show_exp x ++ lit ", " ++ join (lit ", ") (map show_exp (y :: l))) in *.
      rewrite !app_length in K. change (List.length (lit ", ")) with 2 in K.
      rewrite <- !app_assoc. cbn [p_items]. rewrite E. cbn [app]. rewrite (skip_spaces_starts c _ C), N1.
      match goal with |- context[p_item k (c :: s ++ ?t)] => change (c :: s ++ t) with ((c :: s) ++ t) end. rewrite <- E.
      cbn [lit list_ascii_of_string app].
      rewrite Px; [|lia|reflexivity|apply Nv].
      replace (Ascii.eqb "," (closes b)) with false by (destruct b; reflexivity). cbn [Ascii.eqb Bool.eqb].
      assert (Sk : forall k s, p_items k (closes b) (" "%char :: s) = p_items k (closes b) s).
      { intros k0 s0. destruct k0; [reflexivity|]. cbn [p_items]. now rewrite skip_space. }
      rewrite Sk. rewrite IH; [reflexivity|exact HP|exact HW|intros _ X; discriminate X|lia].
Qed.

Lemma item_exp e : (wf 1 e -> PE e) -> (forall r, outside r -> not_in (lit "=") r ->
    let (a, t) := span ident_char (show_exp e ++ r) in is_keyword a t = false) -> wf 1 e -> PI e.
Proof.
  intros HE HS W k r K O N. destruct k as [|k]; [lia|]. cbn [p_item].
  specialize (HS r O (not_in_sub (lit "=") (lit ".(*:= ") r ltac:(intros ?; cbn; tauto) N)).
  assert (E : p_exp k (show_exp e ++ r) = Some (e, r)).
  { apply HE; auto; [lia|]. revert N. apply not_in_sub. intros ?; cbn; tauto. }
  rewrite E.
  destruct (span ident_char (show_exp e ++ r)) as [a t]. rewrite HS.
  destruct r as [|x r]; [reflexivity|]. cbn in N. destruct (Ascii.eqb_spec x ":"); [subst; exfalso; apply N; tauto|]. reflexivity.
Qed.

Lemma span_name s r : word s -> outside r -> span ident_char (s ++ r) = (s, r).
Proof. intros [_ F] O. apply span_all; auto. Qed.

Lemma outside_c c r : ident_char c = false -> outside (c :: r). Proof. auto. Qed.

(** an expression that starts with a word goes on with something else than an equality sign *)
Lemma no_keyword lv e r : wf lv e -> lv <= 1 -> outside r -> not_in (lit "=") r ->
  let (a, t) := span ident_char (show_exp e ++ r) in is_keyword a t = false.
Proof.
  assert (Q : forall (a b : str), match b with c :: _ => c <> "="%char | [] => True end ->
                is_keyword a b = false).
  { intros a b H. destruct a; [reflexivity|]. destruct b as [|c b]; [reflexivity|]. now apply Ascii.eqb_neq. }
  revert lv r. induction e as [s|n|q raw|e a IH|f l tc IH IHl|b l tc IHl|l IHl|k e IH|k v IHk IHv] using pexp_ind';
    intros lv r W L O N; inversion W; subst; cbn [show_exp]; try lia.
  - match goal with N : name s |- _ => destruct N as [N' _] end. rewrite span_name by auto. apply Q.
    destruct r; [exact I|]. intros ->. apply N. now left.
  - rewrite span_all; [|eapply Forall_impl; [|apply show_N_digits]; intros; now apply digit_ident, is_digit_char|exact O].
    apply Q. destruct r; [exact I|]. intros ->. apply N. now left.
  - replace (span ident_char ((q :: raw ++ [q]) ++ r)) with (@nil ascii, (q :: raw ++ [q]) ++ r); [reflexivity|].
    cbn. destruct H2 as [-> | ->]; reflexivity.
  - rewrite <- app_assoc. apply (IH 0); auto; [reflexivity|intros [H|[]]; discriminate H].
  - rewrite <- app_assoc. apply (IH 0); auto; [reflexivity|intros [H|[]]; discriminate H].
  - match goal with |- context[span ident_char ?x] => replace (span ident_char x) with (@nil ascii, x) end; [reflexivity|]. destruct b; reflexivity.
  - destruct l as [|x l]; [cbn in *; lia|]. destruct l as [|y l]; [cbn in *; lia|].
    change (join (lit "*") (map show_exp (x :: y :: l))) with (show_exp x ++ "*"%char :: join (lit "*") (map show_exp (y :: l))).
    rewrite <- app_assoc. apply (Forall_inv IHl 0); auto; [now apply Forall_inv in H3|reflexivity|intros [H|[]]; discriminate H].
Qed.

Lemma factor_exp e : PF e -> wf 0 e -> PE e.
Proof.
  intros H W k r K O N. destruct k as [|k]; [lia|]. cbn [p_exp].
  rewrite factor_done; auto; [|lia|revert N; apply not_in_sub; intros ?; cbn; tauto].
  rewrite factors_stop; [reflexivity|lia|revert N; apply not_in_sub; intros ?; cbn; tauto].
Qed.


Lemma wf_01 e : wf 0 e -> wf 1 e.
Proof. intros W. inversion W; subst; try lia; constructor; auto. Qed.

Lemma wf_12 e : wf 1 e -> wf 2 e.
Proof. intros W. inversion W; subst; constructor; auto. Qed.

Lemma prod_or e : wf 1 e -> wf 0 e \/ exists l, e = EProd l /\ 2 <= List.length l /\ Forall (wf 0) l.
Proof. intros W. inversion W; subst; try (left; constructor; auto; fail). right. eauto. Qed.

Lemma item_or e : wf 2 e -> wf 1 e \/ (exists k v, e = EKw k v /\ word k /\ wf 1 v) \/ (exists k v, e = EPair k v /\ wf 1 k /\ wf 1 v).
Proof. intros W. inversion W; subst; try (left; constructor; auto; fail); right; eauto 8. Qed.

Lemma factors_ok l : Forall PF l -> Forall (wf 0) l -> l <> [] -> forall k r,
  4 * List.length (join (lit "*") (map show_exp l)) + 6 <= k -> outside r -> not_in (lit ".(*") r ->
  p_factors k ("*"%char :: join (lit "*") (map show_exp l) ++ r) = Some (l, r).
Proof.
  intros HP HW. induction l as [|x l IH]; intros Ne k r K O N; [congruence|].
  pose proof (Forall_inv HP) as Px. pose proof (Forall_inv HW) as Wx. apply Forall_inv_tail in HP, HW.
  destruct k as [|k]; [lia|]. cbn [p_factors].
  destruct l as [|y l].
  - cbn [map join] in *. rewrite factor_done; auto; [|lia|revert N; apply not_in_sub; intros ?; cbn; tauto].
    rewrite factors_stop; [reflexivity|lia|revert N; apply not_in_sub; intros ?; cbn; tauto].
  - change (join (lit "*") (map show_exp (x :: y :: l))) with (show_exp x ++ "*"%char :: join (lit "*") (map show_exp (y :: l))) in *.
    rewrite app_length in K. cbn [List.length] in K. rewrite <- app_assoc. cbn [app].
    rewrite factor_done; auto; [|lia|reflexivity|cbn; intuition discriminate].
    rewrite IH; auto; [discriminate|lia].
Qed.

Lemma item_kw k0 e : word k0 -> wf 1 e -> PE e -> PI (EKw k0 e).
Proof.
  intros Wk We He k r K O N. destruct k as [|k]; [lia|]. cbn [show_exp] in *. rewrite app_length in K. cbn [List.length] in K.
  cbn [p_item]. rewrite <- app_assoc. rewrite span_name; [|auto|reflexivity].
  replace (is_keyword k0 (("="%char :: show_exp e) ++ r)) with true by (destruct k0; [destruct Wk; congruence|reflexivity]).
  cbn [app tl]. destruct (show_starts _ _ We) as (d & s & E & C). rewrite E. cbn [app]. rewrite skip_spaces_starts by auto.
  change (d :: s ++ r) with ((d :: s) ++ r). rewrite <- E. rewrite He; auto; [lia|].
  revert N. apply not_in_sub. intros ?; cbn; tauto.
Qed.

Lemma item_pair_ok e v : wf 1 e -> PE e -> wf 1 v -> PE v -> PI (EPair e v).
Proof.
  intros We He Wv Hv k r K O N. destruct k as [|k]; [lia|]. cbn [show_exp] in *. rewrite app_length in K. cbn [List.length] in K.
  cbn [p_item]. rewrite <- app_assoc. cbn [app].
  pose proof (no_keyword 1 e (":"%char :: " "%char :: show_exp v ++ r) We (le_n _) eq_refl ltac:(cbn; intuition discriminate)) as NK.
  assert (X : p_exp k (show_exp e ++ ":"%char :: " "%char :: show_exp v ++ r) = Some (e, ":"%char :: " "%char :: show_exp v ++ r)).
  { apply He; [lia|reflexivity|cbn; intuition discriminate]. }
  assert (Y : p_exp k (skip_spaces (" "%char :: show_exp v ++ r)) = Some (v, r)).
  { rewrite skip_space. destruct (show_starts _ _ Wv) as (d & s & E & C). rewrite E. cbn [app]. rewrite skip_spaces_starts by auto.
    change (d :: s ++ r) with ((d :: s) ++ r). rewrite <- E. apply Hv; auto; [lia|]. revert N. apply not_in_sub. intros ?; cbn; tauto. }
  destruct (span ident_char (show_exp e ++ ":"%char :: " "%char :: show_exp v ++ r)) as [a b]. rewrite NK, X.
  cbn [Ascii.eqb Bool.eqb]. now rewrite Y.
Qed.

Lemma reads_back e : (wf 0 e -> PF e) /\ (wf 1 e -> PE e) /\ (wf 2 e -> PI e).
Proof.
  assert (Up : forall e, (wf 0 e -> PF e) -> (forall l, e <> EProd l) -> (wf 0 e -> PF e) /\ (wf 1 e -> PE e)).
  { intros e0 H0 Np. split; [exact H0|]. intros W. destruct (prod_or _ W) as [W0|(l & -> & _)]; [|destruct (Np l eq_refl)].
    apply factor_exp; auto. }
  assert (Up2 : forall e, (wf 1 e -> PE e) -> (forall k v, e <> EKw k v) -> (forall k v, e <> EPair k v) -> wf 2 e -> PI e).
  { intros e0 H0 N1 N2 W. destruct (item_or _ W) as [W1|[(k & v & -> & _)|(k & v & -> & _)]];
      [|destruct (N1 k v eq_refl)|destruct (N2 k v eq_refl)].
    apply item_exp; auto. intros r O N. now apply (no_keyword 1). }
  assert (Full : forall e, (wf 0 e -> PF e) -> (forall l, e <> EProd l) -> (forall k v, e <> EKw k v) -> (forall k v, e <> EPair k v) ->
            (wf 0 e -> PF e) /\ (wf 1 e -> PE e) /\ (wf 2 e -> PI e)).
  { intros e0 H0 Np N1 N2. destruct (Up e0 H0 Np) as [A B]. split; [exact A|]. split; [exact B|]. apply Up2; auto. }
  induction e as [s|n|q raw|e a IH|f l tc IH IHl|b l tc IHl|l IHl|k e IH|k v IHk IHv] using pexp_ind'.
  - apply Full; try discriminate. intros W k r K O. inversion W; subst. cbn [show_exp depth] in *.
    destruct k as [|[|k]]; [lia|lia|]. cbn [p_factor p_atom]. match goal with Hn : name s |- _ => destruct Hn as [Nw D] end.
    destruct s as [|c s]; [destruct Nw; congruence|]. cbn [app]. destruct Nw as [Ne F].
    destruct (ident_cases c (Forall_inv F)) as (N1 & N2 & N3 & N4). apply Ascii.eqb_neq in N1, N2. rewrite N1, N2, N3. cbn [orb].
    rewrite D. change (c :: s ++ r) with ((c :: s) ++ r). rewrite span_name by (auto; split; auto). now rewrite Nat.sub_0_r.
  - apply Full; try discriminate. intros W k r K O. inversion W; subst. cbn [show_exp depth] in *.
    pose proof (show_N_digits n) as F. pose proof (read_show_N n) as R. pose proof (show_N_nonnil n) as Ne.
    destruct k as [|[|k]]; [lia|lia|]. cbn [p_factor p_atom]. destruct (show_N n) as [|c s] eqn:E; [congruence|]. cbn [app].
    assert (F' : Forall (fun c => digit_char c = true) (c :: s)) by (eapply Forall_impl; [|exact F]; intros; now apply is_digit_char).
    pose proof (Forall_inv F') as D.
    destruct (ident_cases c (digit_ident _ D)) as (N1 & N2 & N3 & N4). apply Ascii.eqb_neq in N1, N2. rewrite N1, N2, N3. cbn [orb].
    rewrite D. change (c :: s ++ r) with ((c :: s) ++ r). rewrite span_all; [|exact F'|].
    + rewrite R. now rewrite Nat.sub_0_r.
    + destruct r as [|d r]; [exact I|]. cbn in O. destruct (digit_char d) eqn:Dd; [|reflexivity]. apply digit_ident in Dd. congruence.
  - apply Full; try discriminate. intros W k r K O. inversion W; subst. cbn [show_exp depth] in *.
    destruct k as [|[|k]]; [lia|lia|]. cbn [p_factor p_atom app].
    replace (Ascii.eqb q squote || Ascii.eqb q dquote) with true by (destruct H2 as [-> | ->]; reflexivity).
    rewrite <- app_assoc. cbn [app]. rewrite H3. now rewrite Nat.sub_0_r.
  - apply Full; try discriminate. intros W k r K O. inversion W; subst. cbn [show_exp depth] in *. rewrite app_length in K. cbn [List.length] in K.
    rewrite <- app_assoc. rewrite (proj1 IH); auto; [|lia|reflexivity]. pose proof (depth_le _ _ H2) as Dl.
    replace (k - 1 - depth e) with (S (k - 1 - S (depth e))) by lia. cbn [p_trailers app].
    rewrite span_name by auto. destruct a; [destruct H3; congruence|]. reflexivity.
  - apply Full; try discriminate. intros W k r K O. inversion W; subst. cbn [show_exp depth] in *.
    rewrite app_length in K. cbn [List.length] in K. rewrite !app_length in K. cbn [List.length] in K.
    rewrite <- app_assoc. rewrite (proj1 IH); auto; [|lia|reflexivity]. pose proof (depth_le _ _ H3) as Dl.
    replace (k - 1 - depth f) with (S (k - 1 - S (depth f))) by lia. cbn [p_trailers app].
    rewrite <- !app_assoc. cbn [app Ascii.eqb Bool.eqb].
    assert (I : p_items (k - 1 - S (depth f)) ")" (join (lit ", ") (map show_exp l) ++ comma_if tc ++ ")"%char :: r) = Some (l, tc, r)).
    { apply (items_ok Round); auto; [|lia]. rewrite Forall_forall in *. intros x Hx. apply IHl; auto. }
    rewrite I. reflexivity.
  - apply Full; try discriminate. intros W k r K O. inversion W; subst. cbn [show_exp depth] in *.
    cbn [List.length] in K. rewrite !app_length in K. cbn [List.length] in K.
    destruct k as [|[|k]]; [lia|lia|]. cbn [p_factor p_atom app].
    replace (Ascii.eqb (opens b) squote || Ascii.eqb (opens b) dquote) with false by (destruct b; reflexivity).
    replace (opening (opens b)) with (Some (b, closes b)) by (destruct b; reflexivity).
    rewrite <- !app_assoc. cbn [app].
    assert (I : p_items k (closes b) (join (lit ", ") (map show_exp l) ++ comma_if tc ++ closes b :: r) = Some (l, tc, r)).
    { apply items_ok; auto; [|lia]. rewrite Forall_forall in *. intros x Hx. apply IHl; auto. }
    rewrite I. now rewrite Nat.sub_0_r.
  - assert (E1 : wf 1 (EProd l) -> PE (EProd l)).
    { intros W k r K O N. inversion W; subst. cbn [show_exp] in *. destruct l as [|x [|y l]]; [cbn in *; lia|cbn in *; lia|].
      change (join (lit "*") (map show_exp (x :: y :: l))) with (show_exp x ++ "*"%char :: join (lit "*") (map show_exp (y :: l))) in *.
      rewrite app_length in K. cbn [List.length] in K. destruct k as [|k]; [lia|]. cbn [p_exp]. rewrite <- app_assoc. cbn [app].
      pose proof (Forall_inv IHl) as Ix. apply Forall_inv_tail in IHl. pose proof (Forall_inv H3) as Wx. apply Forall_inv_tail in H3.
      rewrite factor_done; [|apply Ix; auto|exact Wx|lia|reflexivity|cbn; intuition discriminate].
      rewrite factors_ok; [reflexivity| |exact H3|discriminate|lia|exact O|exact N].
      rewrite Forall_forall in *. intros z Hz. apply IHl; auto. }
    split; [intros W; inversion W; subst; lia|]. split; [exact E1|]. apply Up2; auto; discriminate.
  - split; [intros W; inversion W|]. split; [intros W; inversion W|]. intros W. inversion W; subst. apply item_kw; auto. now apply IH.
  - split; [intros W; inversion W|]. split; [intros W; inversion W|]. intros W. inversion W; subst. apply item_pair_ok; auto; [now apply IHk|now apply IHv].
Qed.

Theorem parse_show e : wf 1 e -> py_parse (show_exp e) = Ok e.
Proof.
  intros W. unfold py_parse. destruct (show_starts _ _ W) as (c & s & E & C).
  assert (K : skip_spaces (show_exp e) = show_exp e) by (rewrite E; now apply skip_spaces_starts).
  rewrite K. pose proof (proj1 (proj2 (reads_back e)) W (12 * List.length (show_exp e) + 12) [] ltac:(lia) I I) as X.
  rewrite app_nil_r in X. now rewrite X.
Qed.
