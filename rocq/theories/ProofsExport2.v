(** * ProofsExport2: texts and the values they are read as *)

From Coq Require Import Ascii String List Bool Arith ZArith NArith QArith Qcanon Lia.
From Verif Require Import Base BaseFacts Show ShowRead ModelFunctions ModelIndex ModelField ModelContract ModelPartition ModelExotic
  ModelInfo ModelLagrangian ModelDatabase ModelExport ProofsExport SpecContract SpecExotic SpecExport.
Import ListNotations.
Local Open Scope nat_scope.

(** ** Evaluation *)

Lemma eval_go l : (fix go (l : list pexp) : res (list item) :=
   match l with [] => Ok [] | e :: l => do v <- eval_item e; do r <- go l; Ok (v :: r) end) l = mapM eval_item l.
Proof. induction l as [|e l IH]; [reflexivity|]. cbn [mapM]. now rewrite IH. Qed.

Lemma eval_call f l tc : eval_item (ECall f l tc) =
  do i <- eval_item f; do f <- item_value i; do l <- mapM eval_item l; do l <- mapM item_arg l; do v <- apply f l; Ok (IPos v).
Proof. cbn [eval_item]. now rewrite eval_go. Qed.

Lemma eval_seq b l tc : eval_item (ESeq b l tc) = do l <- mapM eval_item l; do v <- bracketed b l tc; Ok (IPos v).
Proof. cbn [eval_item]. now rewrite eval_go. Qed.

Lemma eval_prod l : eval_item (EProd l) =
  do l <- mapM eval_item l; do l <- mapM item_value l;
  match l with [] => Err SyntaxError | v :: l => do v <- foldM times l v; Ok (IPos v) end.
Proof. cbn [eval_item]. now rewrite eval_go. Qed.

(** ** Reading *)

Definition ireads (s : str) (i : item) : Prop := exists e, show_exp e = s /\ wf 2 e /\ eval_item e = Ok i.
Definition reads (lv : nat) (s : str) (v : val) : Prop := exists e, show_exp e = s /\ wf lv e /\ eval_item e = Ok (IPos v).

Lemma reads_eval s v : reads 1 s v -> py_eval s = Ok v.
Proof. intros (e & <- & W & E). unfold py_eval. rewrite (parse_show _ W). cbn [bind]. now rewrite E. Qed.

Lemma reads_fun lv s v w : lv <= 1 -> reads lv s v -> reads lv s w -> v = w.
Proof.
  intros L (e & <- & W & E) (e' & Q & W' & E').
  assert (U : forall e, wf lv e -> wf 1 e) by (destruct lv as [|[|]]; [intros; now apply wf_01|auto|lia]).
  pose proof (parse_show _ (U _ W)) as P. pose proof (parse_show _ (U _ W')) as P'. rewrite Q in P'. congruence.
Qed.

Lemma reads_up s v : reads 0 s v -> reads 1 s v.
Proof. intros (e & S & W & E). exists e. split; [exact S|]. split; [now apply wf_01|exact E]. Qed.

Lemma reads_item s v : reads 1 s v -> ireads s (IPos v).
Proof. intros (e & S & W & E). exists e. split; [exact S|]. split; [now apply wf_12|exact E]. Qed.

Lemma reads_name s v : name s -> name_value s = Ok v -> reads 0 s v.
Proof. intros N E. exists (EName s). split; [reflexivity|]. split; [now constructor|]. cbn [eval_item]. now rewrite E. Qed.

Lemma reads_int n : reads 0 (show_N n) (VInt n).
Proof. exists (EInt n). split; [reflexivity|]. split; [constructor|reflexivity]. Qed.

Lemma reads_quoted q raw t : q = squote \/ q = dquote -> literal q raw -> unescape raw = Ok t -> reads 0 (q :: raw ++ [q]) (VStr t).
Proof. intros Q L E. exists (EStr q raw). split; [reflexivity|]. split; [now constructor|]. cbn [eval_item]. now rewrite E. Qed.

Lemma reads_attr s v a w : reads 0 s v -> word a -> attribute v a = Ok w -> reads 0 (s ++ lit "." ++ a) w.
Proof.
  intros (e & <- & W & E) A H. exists (EAttr e a). split; [reflexivity|]. split; [now constructor|]. cbn [eval_item].
  rewrite E. cbn [bind item_value]. now rewrite H.
Qed.

Lemma items_read ls is : Forall2 ireads ls is -> exists es, map show_exp es = ls /\ Forall (wf 2) es /\ mapM eval_item es = Ok is.
Proof.
  induction 1 as [|s i ls is (e & <- & W & E) F (es & <- & Ws & Es)]; [exists []; auto|].
  exists (e :: es). split; [reflexivity|]. split; [now constructor|]. cbn [mapM]. now rewrite E, Es.
Qed.

Lemma items_cons ls (es : list pexp) : map show_exp es = ls -> ls <> [] -> es <> [].
Proof. intros <- H ->. now apply H. Qed.

Lemma reads_call_tc tc f vf ls is args v : reads 0 f vf -> Forall2 ireads ls is -> mapM item_arg is = Ok args -> apply vf args = Ok v ->
  (tc = true -> ls <> []) -> reads 0 (f ++ lit "(" ++ join (lit ", ") ls ++ (if tc then lit "," else []) ++ lit ")") v.
Proof.
  intros (e & <- & W & E) F A H T. destruct (items_read _ _ F) as (es & Se & We & Ee). exists (ECall e es tc).
  split; [cbn [show_exp]; now rewrite Se|]. split; [constructor; auto; intros Ht; eapply items_cons; eauto|].
  rewrite eval_call, E. cbn [bind item_value]. rewrite Ee. cbn [bind]. rewrite A. cbn [bind]. now rewrite H.
Qed.

Lemma reads_call f vf ls is args v : reads 0 f vf -> Forall2 ireads ls is -> mapM item_arg is = Ok args -> apply vf args = Ok v ->
  reads 0 (f ++ lit "(" ++ join (lit ", ") ls ++ lit ")") v.
Proof. intros R F A H. exact (reads_call_tc false f vf ls is args v R F A H ltac:(discriminate)). Qed.

Lemma reads_seq b tc ls is v : Forall2 ireads ls is -> bracketed b is tc = Ok v -> (tc = true -> ls <> []) ->
  reads 0 ([opens b] ++ join (lit ", ") ls ++ (if tc then lit "," else []) ++ [closes b]) v.
Proof.
  intros F H T. destruct (items_read _ _ F) as (es & Se & We & Ee). exists (ESeq b es tc).
  split; [cbn [show_exp]; now rewrite Se|]. split; [constructor; auto; intros Ht; eapply items_cons; eauto|].
  rewrite eval_seq, Ee. cbn [bind]. now rewrite H.
Qed.

Lemma items_values ls vs : Forall2 (reads 1) ls vs -> Forall2 ireads ls (map IPos vs) /\ mapM item_value (map IPos vs) = Ok vs.
Proof.
  induction 1 as [|s v ls vs R F [I M]]; [split; [constructor|reflexivity]|]. split.
  - cbn [map]. constructor; [now apply reads_item|exact I].
  - cbn [map mapM]. cbn [item_value bind]. now rewrite M.
Qed.

Lemma reads_list ls vs : Forall2 (reads 1) ls vs -> reads 0 (show_list ls) (VList vs).
Proof.
  intros F. destruct (items_values _ _ F) as [I M]. apply (reads_seq Square false ls _ (VList vs) I); [|discriminate].
  cbn [bracketed]. now rewrite M.
Qed.

Lemma reads_tuple ls vs : Forall2 (reads 1) ls vs -> reads 0 (show_tuple ls) (VTuple vs).
Proof.
  intros F. destruct (items_values _ _ F) as [I M].
  destruct ls as [|s [|s' ls]].
  - inversion F; subst. apply (reads_seq Round false [] [] (VTuple [])); [constructor|reflexivity|discriminate].
  - inversion F as [|? v ? vs' R F']; subst. inversion F'; subst. apply (reads_seq Round true [s] _ (VTuple [v]) I); [reflexivity|discriminate].
  - destruct vs as [|v [|v' vs]]; [inversion F|inversion F as [|? ? ? ? ? F']; inversion F'|].
    apply (reads_seq Round false (s :: s' :: ls) _ (VTuple (v :: v' :: vs)) I); [|discriminate]. cbn [bracketed]. rewrite M. reflexivity.
Qed.

Lemma reads_set ls xs : ls <> [] -> Forall2 (reads 1) ls (map (fun x => VTensor (KField x)) xs) ->
  reads 0 (lit "{" ++ join (lit ", ") ls ++ lit "}") (VSet (nodup_by cfield_eqb xs)).
Proof.
  intros Ne F. destruct (items_values _ _ F) as [I M]. apply (reads_seq Curly false ls _ _ I); [|discriminate].
  destruct ls as [|s ls]; [congruence|]. destruct xs as [|x xs]; [inversion F|]. cbn [map bracketed] in *. rewrite M. cbn [bind].
  assert (A : mapM as_cfield (VTensor (KField x) :: map (fun x => VTensor (KField x)) xs) = Ok (x :: xs)).
  { cbn [mapM as_cfield bind]. clear. induction xs as [|y xs IH]; [reflexivity|]. cbn [map mapM as_cfield bind].
    destruct (mapM as_cfield (map _ xs)) as [l|]; [|discriminate]. cbn [bind] in *. injection IH as <-. reflexivity. }
  now rewrite A.
Qed.

Lemma reads_kw k s v : word k -> reads 1 s v -> ireads (k ++ lit "=" ++ s) (IKw k v).
Proof. intros K (e & <- & W & E). exists (EKw k e). split; [reflexivity|]. split; [now constructor|]. cbn [eval_item]. now rewrite E. Qed.

Lemma reads_pair s t v w : reads 1 s v -> reads 1 t w -> ireads (s ++ lit ": " ++ t) (IPair v w).
Proof.
  intros (e & <- & W & E) (e' & <- & W' & E'). exists (EPair e e'). split; [reflexivity|]. split; [now constructor|].
  cbn [eval_item]. rewrite E. cbn [bind item_value]. now rewrite E'.
Qed.

(** dictionaries whose keys are all different *)
Lemma reads_dict kvs vs : Forall2 (fun kv vw => reads 1 (fst kv) (fst vw) /\ reads 1 (snd kv) (snd vw)) kvs vs ->
  dict_of key_eqb vs = vs -> reads 0 (show_dict kvs) (VDict vs).
Proof.
  intros F D. assert (I : Forall2 ireads (map (fun kv => fst kv ++ lit ": " ++ snd kv) kvs) (map (fun vw => IPair (fst vw) (snd vw)) vs)).
  { clear D. induction F as [|kv vw kvs vs [R1 R2] F IH]; [constructor|]. cbn [map]. constructor; [now apply reads_pair|exact IH]. }
  apply (reads_seq Curly false _ _ (VDict vs) I); [|discriminate].
  assert (M : mapM item_pair (map (fun vw => IPair (fst vw) (snd vw)) vs) = Ok vs).
  { clear. induction vs as [|[a b] vs IH]; [reflexivity|]. cbn [map mapM item_pair bind fst snd]. now rewrite IH. }
  destruct vs as [|[a b] vs]; [reflexivity|]. cbn [map bracketed fst snd] in *. rewrite M. cbn [bind]. now rewrite D.
Qed.

Lemma reads_prod s ls v vs w : ls <> [] -> reads 0 s v -> Forall2 (reads 0) ls vs -> foldM times vs v = Ok w ->
  reads 1 (join (lit "*") (s :: ls)) w.
Proof.
  intros Ne (e & <- & W & E) F H.
  assert (X : exists es, map show_exp es = ls /\ Forall (wf 0) es /\ mapM eval_item es = Ok (map IPos vs)).
  { clear - F. induction F as [|s v ls vs (e & <- & W & E) F (es & <- & Ws & Es)]; [exists []; auto|].
    exists (e :: es). split; [reflexivity|]. split; [now constructor|]. cbn [mapM map]. now rewrite E, Es. }
  destruct X as (es & <- & We & Ee). exists (EProd (e :: es)). split; [reflexivity|]. split.
  - constructor; [lia| |now constructor]. destruct es; [now destruct Ne|cbn; lia].
  - rewrite eval_prod. cbn [mapM]. rewrite E. cbn [bind]. rewrite Ee. cbn [bind mapM item_value].
    assert (M : mapM item_value (map IPos vs) = Ok vs) by (clear; induction vs as [|a vs IH]; [reflexivity|]; cbn [map mapM item_value bind]; now rewrite IH).
    rewrite M. cbn [bind]. now rewrite H.
Qed.

(** ** String literals *)

(** between the quotes [q], [raw] is written for [t] *)
Inductive denotes (q : ascii) : str -> str -> Prop :=
| dn_nil : denotes q [] []
| dn_char c r t : (plain_char c \/ (c = squote /\ q = dquote)) -> denotes q r t -> denotes q (c :: r) (c :: t)
| dn_ordinary c r t : ordinary c -> denotes q r t -> denotes q (backslash :: c :: r) (backslash :: c :: t)
| dn_double r t : denotes q r t -> denotes q (backslash :: backslash :: r) (backslash :: t).

Lemma plain_codes c : plain_char c -> c <> squote /\ c <> dquote /\ c <> backslash /\ c <> newline.
Proof. intros (A & B & C & D & E). repeat split; intros ->; cbn in *; lia. Qed.

Lemma ordinary_escape c : ordinary c -> simple_escape c = None /\ Ascii.eqb c newline = false /\ Ascii.eqb c "x" = false /\
  mem_char c (lit "NuU") = false /\ octal_char c = None.
Proof.
  intros [P N]. destruct (plain_codes c P) as (P1 & P2 & P3 & P4).
  assert (Q : forall d, In d (lit "abfnrtvxNuU01234567") -> Ascii.eqb c d = false).
  { intros d I. apply Ascii.eqb_neq. intros ->. contradiction. }
  split; [|split; [|split; [|split]]].
  - unfold simple_escape. cbn [dget].
    apply Ascii.eqb_neq in P1, P2, P3. rewrite P1, P2, P3.
    rewrite !Q by (cbn; tauto). reflexivity.
  - now apply Ascii.eqb_neq.
  - apply Q. cbn. tauto.
  - cbn [mem_char existsb lit list_ascii_of_string]. rewrite !Q by (cbn; tauto). reflexivity.
  - unfold octal_char. destruct ((48 <=? nat_of_ascii c) && (nat_of_ascii c <=? 55)) eqn:E; [|reflexivity]. exfalso. apply N.
    apply andb_true_iff in E as [E1 E2]. apply Nat.leb_le in E1, E2. rewrite <- (ascii_nat_embedding c).
    remember (nat_of_ascii c) as n. assert (D : n = 48 \/ n = 49 \/ n = 50 \/ n = 51 \/ n = 52 \/ n = 53 \/ n = 54 \/ n = 55) by lia.
    clear - D. cbn [lit list_ascii_of_string]. decompose [or] D; subst; vm_compute; tauto.
Qed.

Lemma denotes_literal q raw t : q = squote \/ q = dquote -> denotes q raw t -> literal q raw.
Proof.
  intros Q D r. induction D as [|c raw t C D IH|c raw t C D IH|raw t D IH]; cbn [app read_literal].
  - now rewrite Ascii.eqb_refl.
  - assert (N : Ascii.eqb c q = false /\ Ascii.eqb c newline = false /\ Ascii.eqb c backslash = false).
    { destruct C as [C|[-> ->]]; [|repeat split; reflexivity]. destruct (plain_codes c C) as (P1 & P2 & P3 & P4).
      repeat split; apply Ascii.eqb_neq; auto. destruct Q as [-> | ->]; auto. }
    destruct N as (-> & -> & ->). now rewrite IH.
  - replace (Ascii.eqb backslash q) with false by (destruct Q as [-> | ->]; reflexivity).
    replace (Ascii.eqb backslash newline) with false by reflexivity. rewrite Ascii.eqb_refl. now rewrite IH.
  - replace (Ascii.eqb backslash q) with false by (destruct Q as [-> | ->]; reflexivity).
    replace (Ascii.eqb backslash newline) with false by reflexivity. rewrite Ascii.eqb_refl. now rewrite IH.
Qed.

Lemma denotes_value q raw t : denotes q raw t -> unescape raw = Ok t.
Proof.
  induction 1 as [|c raw t C D IH|c raw t C D IH|raw t D IH]; cbn [unescape].
  - reflexivity.
  - assert (N : Ascii.eqb c backslash = false).
    { destruct C as [C|[-> ->]]; [|reflexivity]. apply Ascii.eqb_neq. now apply plain_codes. }
    now rewrite N, IH.
  - rewrite Ascii.eqb_refl. destruct (ordinary_escape c C) as (-> & -> & -> & -> & ->). now rewrite IH.
  - rewrite Ascii.eqb_refl. replace (simple_escape backslash) with (Some backslash) by reflexivity. now rewrite IH.
Qed.

Lemma reads_str raw t : denotes squote raw t -> reads 0 (quoted raw) (VStr t).
Proof. intros D. apply (reads_quoted squote); [auto|eapply denotes_literal; eauto|eapply denotes_value; eauto]. Qed.

Lemma reads_dstr raw t : denotes dquote raw t -> reads 0 (dquote :: raw ++ [dquote]) (VStr t).
Proof. intros D. apply (reads_quoted dquote); [auto|eapply denotes_literal; eauto|eapply denotes_value; eauto]. Qed.

Lemma denotes_app q a b s t : denotes q a s -> denotes q b t -> denotes q (a ++ b) (s ++ t).
Proof. intros D E. induction D; cbn [app]; [exact E|apply dn_char|apply dn_ordinary|apply dn_double]; auto. Qed.

Lemma plain_denotes q s : plain s -> denotes q s s.
Proof. induction 1; constructor; auto. Qed.

Lemma inert_denotes q s : inert s -> denotes q s s.
Proof. induction 1; [constructor| |]; [apply dn_char|apply (dn_ordinary q c)]; auto. Qed.

(** backslashes doubled *)
Definition double (s : str) : str := flat_map (fun c => if Ascii.eqb c backslash then [backslash; backslash] else [c]) s.

Lemma double_app a b : double (a ++ b) = double a ++ double b.
Proof. apply flat_map_app. Qed.

Lemma plain_double s : plain s -> double s = s.
Proof.
  induction 1 as [|c s P F IH]; [reflexivity|]. cbn [double flat_map]. fold (double s). rewrite IH.
  destruct (Ascii.eqb_spec c backslash) as [->|N]; [|reflexivity]. destruct (plain_codes _ P) as (_ & _ & X & _). congruence.
Qed.

Lemma double_denotes q s : backslashed s -> denotes q (double s) s.
Proof.
  induction 1 as [|c s C F IH]; [constructor|]. cbn [double flat_map]. fold (double s).
  destruct (Ascii.eqb_spec c backslash) as [->|N]; cbn [app]; [now apply dn_double|].
  apply dn_char; [|exact IH]. destruct C as [C|C]; [now left|]. destruct (N C).
Qed.

Lemma inert_backslashed s : inert s -> backslashed s.
Proof. induction 1 as [|c s P I IH|c s O I IH]; [constructor|constructor; auto|].
  constructor; [now right|]. constructor; [|exact IH]. left. apply O.
Qed.
