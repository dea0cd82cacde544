(** * PropsField2: stripping derivatives, pickling, products (C28-C30, C71, C72) *)

From Coq Require Import Ascii String List Bool Arith ZArith QArith Qcanon Lia Permutation.
From Verif Require Import Base BaseFacts Show ModelIndex SpecIndex ProofsIndex ModelField SpecField ProofsField ProofsField2
  PropsField.
Import ListNotations.
Local Open Scope nat_scope.

(** ** C28: stripping derivatives *)

(** [derived n f g p q]: n derivatives of f give g with Lorentz labels p q *)
Inductive derived (f : field) (a b : nat) : nat -> field -> nat -> nat -> Prop :=
| der_none : derived f a b 0 f a b
| der_step n g p q g' p' q' : derived f a b n g p q -> p' < 10 -> q' < 10 -> D g [digit p'; digit q'] = Ok g' ->
    derived f a b (S n) g' p' q'.

(** the record kept of the underlying field *)
Definition info (f : field) : stripped_info :=
  mkStripped (f_label f) (f_dynkin f) (f_symmetry f) (f_charges f) (f_latex f).

Lemma derived_facts f a b c d e n g p q :
  field_ok f a b c d e -> f_latex f <> [] -> f_stripped f = None -> f_derivs f = 0 ->
  derived f a b n g p q ->
  field_ok g p q c d e /\ f_latex g <> [] /\ f_charges g = f_charges f /\ f_is_conj g = f_is_conj f /\ f_comm g = f_comm f /\
  f_nf g = f_nf f /\ f_derivs g = n /\ f_stripped g = (if n =? 0 then None else Some (info f)) /\
  (0 < n -> f_symmetry g = symmetry_of [p; q; c; d; e]) /\
  Nat.odd p = xorb (Nat.odd a) (Nat.odd n) /\ Nat.odd q = xorb (Nat.odd b) (Nat.odd n).
Proof.
  intros F Nl St Dv H. induction H as [|n g p q g' p' q' H IH Hp Hq E].
  - split; [exact F|]. split; [exact Nl|]. repeat (split; [reflexivity|]). split; [exact Dv|]. split; [exact St|].
    split; [lia|]. cbn. now rewrite !xorb_false_r.
  - destruct IH as (G & Ng & Ch & Cj & Cm & Nf & Der & Str & Sy & Op & Oq).
    destruct (C27_D g p q c d e p' q' G Hp Hq Ng) as (Iff & Res).
    destruct (proj1 Iff (ex_intro _ _ E)) as (Ip & Iq).
    destruct (Res g' E) as (G' & S' & _ & C' & J' & M' & F' & D' & L' & _ & _ & T').
    split; [exact G'|]. split; [exact L'|]. split; [congruence|]. split; [congruence|]. split; [congruence|].
    split; [congruence|]. split; [lia|]. split.
    { rewrite T', Str. destruct n; [|reflexivity]. cbn. f_equal. inversion H; subst. reflexivity. }
    split; [intros _; exact S'|].
    assert (Par : forall x y, x = y + 1 \/ y = x + 1 -> Nat.odd x = negb (Nat.odd y)).
    { intros x y [-> | ->]; rewrite Nat.add_1_r, Nat.odd_succ, <- Nat.negb_odd; [reflexivity|now rewrite negb_involutive]. }
    rewrite (Par _ _ Ip), (Par _ _ Iq), Op, Oq, Nat.odd_succ, <- Nat.negb_odd.
    split; [destruct (Nat.odd a)|destruct (Nat.odd b)]; now destruct (Nat.odd n).
Qed.

(** Any number of derivatives is undone by [strip_derivs]: label, Dynkin labels, symmetry, charges, conjugation,
    statistics, generations and latex are those of the original, derivatives are 0.  The result keeps the record
    [stripped]. *)
Theorem C28_strip_derivs :
  forall f a b c d e n g p q x idx lab,
    field_ok f a b c d e -> f_latex f <> [] -> f_stripped f = None -> f_derivs f = 0 -> derived f a b n g p q -> 0 < n ->
    x = mkIField g idx lab ->
    strip_derivs x = Ok (inr (mkField (f_label f) (f_dynkin f) (f_charges f) (f_is_conj f) (f_comm f) (f_symmetry f) None 1
                                (f_latex f) (f_nf f) 0 (Some (info f)))).
Proof.
  intros f a b c d e n g p q x idx lab F Nl St Dv H Hn ->.
  destruct (derived_facts _ _ _ _ _ _ _ _ _ _ F Nl St Dv H) as (G & Ng & Ch & Cj & Cm & Nf & Der & Str & Sy & Op & Oq).
  unfold strip_derivs. cbv zeta. cbn [i_field]. rewrite Der. destruct (Nat.eqb_spec n 0); [lia|]. rewrite Str. cbn [s_label s_dynkin
    s_symmetry s_latex info]. rewrite Ch, Cj, Cm, Nf. destruct F as (_ & _ & P & N). rewrite mk_field_ok by assumption. reflexivity.
Qed.

(** The result therefore never compares equal to the original, although all quantum numbers agree. *)
Theorem C28_strip_derivs_refuted :
  forall f a b c d e n g p q x idx lab r,
    field_ok f a b c d e -> f_latex f <> [] -> f_stripped f = None -> f_derivs f = 0 -> derived f a b n g p q -> 0 < n ->
    x = mkIField g idx lab -> strip_derivs x = Ok (inr r) -> field_eqb f r = false.
Proof.
  intros f a b c d e n g p q x idx lab r F Nl St Dv H Hn Ex E.
  rewrite (C28_strip_derivs _ _ _ _ _ _ _ _ _ _ _ _ _ F Nl St Dv H Hn Ex) in E. injection E as <-.
  unfold field_eqb. cbn [f_stripped]. rewrite St. cbn [stripped_eqb]. apply andb_false_r.
Qed.

(** ** C71: conjugation between differentiating and stripping *)

(** The record is not conjugated: stripping the conjugate of a derivative gives a field with the charges of the
    conjugate but the Dynkin labels of the original. *)
Theorem C71_conj_strip :
  forall f a b c d e n g p q h x idx lab,
    field_ok f a b c d e -> f_latex f <> [] -> f_stripped f = None -> f_derivs f = 0 -> derived f a b n g p q -> 0 < n ->
    conj_field g = Ok h -> x = mkIField h idx lab ->
    exists r fc, strip_derivs x = Ok (inr r) /\ conj_field f = Ok fc /\
      f_charges r = f_charges fc /\ f_is_conj r = f_is_conj fc /\ f_dynkin r = f_dynkin f /\
      (f_dynkin r = f_dynkin fc <-> a = b /\ c = d).
Proof.
  intros f a b c d e n g p q h x idx lab F Nl St Dv H Hn Ec ->.
  destruct (derived_facts _ _ _ _ _ _ _ _ _ _ F Nl St Dv H) as (G & Ng & Ch & Cj & Cm & Nf & Der & Str & Sy & Op & Oq).
  rewrite (conj_field_ok _ _ _ _ _ _ G) in Ec. injection Ec as <-.
  unfold strip_derivs. cbv zeta. cbn [i_field f_derivs f_stripped f_charges f_is_conj f_comm f_nf]. rewrite Der.
  destruct (Nat.eqb_spec n 0); [lia|]. rewrite Str. cbn [s_label s_dynkin s_symmetry s_latex info].
  pose proof F as (Ed & (Ha & Hb & Hc & Hd & He) & P & N). rewrite Ch, Nf.
  rewrite mk_field_ok; [|now apply proper_neg|exact N]. cbn [bind].
  eexists. eexists. split; [reflexivity|]. split; [exact (conj_field_ok _ _ _ _ _ _ F)|].
  split; [reflexivity|]. split; [cbn [f_is_conj]; now rewrite Cj|]. split; [reflexivity|]. cbn [f_dynkin]. rewrite Ed.
  assert (Inj : forall x y, x < 10 -> y < 10 -> digit x = digit y -> x = y).
  { intros u v Hu Hv E. pose proof (digit_of_digit u Hu) as E1. rewrite E, (digit_of_digit v Hv) in E1. now injection E1. }
  unfold five. split.
  - intros [= E1 E2 E3 E4]. split; now apply Inj.
  - intros [-> ->]. reflexivity.
Qed.

(** For the lepton doublet: strip(conj(D L)) has Lorentz labels (1,0) and hypercharge +1/2, that of no field at hand. *)
Example C71_example :
  (do f <- mk_field (lit "L") (lit "10001") (Some [(lit "y", Q2Qc (-1 # 2))]) false (lit "fermi") None None 1 None 1 0 None;
   do g <- D f (lit "01"); do h <- conj_field g; do x <- call_field h (lit "u0 i1"); do r <- strip_derivs x;
   match r with inr r => Ok (f_dynkin r, f_is_conj r) | inl _ => Err KeyError end) = Ok (lit "10001", true).
Proof. vm_compute. reflexivity. Qed.

(** ** C28: ... with indices *)

Lemma by_type_filter t l : by_type t l = filter (fun i => itype_eqb (ix_type i) t) l.
Proof.
  unfold by_type, indices_by_type.
  assert (G : forall l d, (forall t, exists m, dget itype_eqb d t = Some m) ->
            dget itype_eqb (fold_left (fun d i => match dget itype_eqb d (ix_type i) with
                        | Some l => dset itype_eqb d (ix_type i) (l ++ [i])
                        | None => d end) l d) t =
            match dget itype_eqb d t with Some m => Some (m ++ filter (fun i => itype_eqb (ix_type i) t) l) | None => None end).
  { clear l. induction l as [|i l IH]; intros d Hd; cbn [fold_left filter].
    - destruct (Hd t) as (m & ->). now rewrite app_nil_r.
    - destruct (Hd (ix_type i)) as (m & Em). rewrite Em. rewrite IH.
      + destruct (itype_eqb (ix_type i) t) eqn:Et.
        * apply itype_decides in Et. subst t. rewrite (dget_dset_same itype_decides), Em, <- app_assoc. reflexivity.
        * apply (decides_false itype_decides) in Et. now rewrite (dget_dset_other itype_decides) by auto.
      + intros t'. destruct (itype_eqb (ix_type i) t') eqn:Et.
        * apply itype_decides in Et. subst t'. rewrite (dget_dset_same itype_decides). eauto.
        * apply (decides_false itype_decides) in Et. rewrite (dget_dset_other itype_decides) by auto. apply Hd. }
  rewrite G.
  - now destruct t.
  - intros []; cbn; eauto.
Qed.

(** printing an index read from a token, possibly with something appended *)
Lemma reprint tok i suffix :
  token_ok tok -> new_index tok = Ok i -> ~ In " "%char suffix -> lower suffix = suffix ->
  exists j, new_index (show_index i ++ suffix) = Ok j /\ kind j = kind i /\ ix_name j = ix_name i ++ suffix /\
            show_index i ++ suffix <> [] /\ ~ In " "%char (show_index i ++ suffix) /\
            is_g (show_index i ++ suffix) = is_generation i && ix_up i.
Proof.
  intros (low & auto & t & rest & -> & Nu & Nd & Ns) Hi Nsu Lsu.
  rewrite (new_index_spelled _ _ _ _ _ (lower_spelled low auto t rest)) in Hi. injection Hi as <-.
  set (r := lower rest ++ (if auto then lit "_" else [])).
  match goal with |- context [show_index ?i ++ suffix] =>
    assert (E : show_index i ++ suffix = spelled low false t (r ++ suffix)) end.
  { unfold show_index, spelled. cbn [ix_up ix_name]. destruct low; reflexivity. }
  assert (Lr : lower (r ++ suffix) = r ++ suffix).
  { unfold r, lower. rewrite !map_app. fold (lower rest) (lower suffix). rewrite Lsu.
    change (map lower_char (lower rest)) with (lower (lower rest)). rewrite lower_idem. now destruct auto. }
  rewrite E.
  exists (mkIndex (spelled low false t (r ++ suffix)) (letter t :: (r ++ suffix) ++ []) t (negb low)).
  split. { rewrite (new_index_spelled _ low false t (lower (r ++ suffix))) by apply lower_spelled. now rewrite Lr. }
  split; [reflexivity|]. split; [cbn [ix_name]; now rewrite app_nil_r|].
  split; [destruct low; discriminate|]. split.
  - assert (Nl : forall x, ~ In " "%char x -> ~ In " "%char (lower x)).
    { intros x N I. apply in_map_iff in I as (c & Hc & I). apply N. unfold lower_char in Hc.
      destruct ((65 <=? nat_of_ascii c) && (nat_of_ascii c <=? 90)) eqn:B; [|now subst].
      apply andb_true_iff in B as [B1 B2]. apply Nat.leb_le in B1, B2. apply (f_equal nat_of_ascii) in Hc.
      rewrite nat_ascii_embedding in Hc by lia. change (nat_of_ascii " ") with 32 in Hc. lia. }
    assert (Nr : ~ In " "%char (r ++ suffix)).
    { intros I. apply in_app_iff in I as [I|I]; [|auto]. apply in_app_iff in I as [I|I]; [now apply (Nl rest)|].
      destruct auto; cbn in I; intuition discriminate. }
    assert (Hl : letter t <> " "%char) by (destruct t; discriminate).
    destruct low; cbn [spelled app In]; intuition discriminate.
  - unfold is_generation. cbn [ix_type ix_up]. destruct low, t; reflexivity.
Qed.

Lemma reprint_all toks idx :
  Forall token_ok toks -> mapM new_index toks = Ok idx ->
  Forall (fun i => forall suffix, ~ In " "%char suffix -> lower suffix = suffix ->
            exists j, new_index (show_index i ++ suffix) = Ok j /\ kind j = kind i /\ ix_name j = ix_name i ++ suffix /\
            show_index i ++ suffix <> [] /\ ~ In " "%char (show_index i ++ suffix) /\
            is_g (show_index i ++ suffix) = is_generation i && ix_up i) idx.
Proof.
  intros H. revert idx. induction H as [|tok toks Ht H IH]; intros idx E; cbn [mapM] in E.
  - injection E as <-. constructor.
  - apply bind_ok in E as (i & Ei & E). apply bind_ok in E as (l & El & E). injection E as <-. constructor; [|auto].
    intros suffix N L. now apply (reprint tok).
Qed.

(** a field called on reprinted indices without generation indices among them *)
Lemma call_reprinted f a b c d e s toks js :
  field_ok f a b c d e -> rank (f_symmetry f) = a + b + c + d + e ->
  split_ws s = toks -> mapM new_index toks = Ok js -> Forall (fun t => is_g t = false) toks ->
  ((exists y, call_field f s = Ok y) <-> fits a b c d e (map kind js)) /\
  (forall y, call_field f s = Ok y ->
     y = mkIField (mkField (label_with_dagger f) (f_dynkin f) (f_charges f) (f_is_conj f) (f_comm f) (f_symmetry f)
                    None 1 (f_latex f) (f_nf f) (f_derivs f) (f_stripped f)) js (AStr s)).
Proof.
  intros F Rk Es Ej Ng. destruct (call_field_spec f a b c d e s F Rk) as (Iff & Res). rewrite Es in *.
  assert (E1 : filter (fun i => negb (is_g i)) toks = toks).
  { clear - Ng. induction Ng as [|t toks H Ng IH]; [reflexivity|]. cbn [filter]. rewrite H. cbn [negb]. now rewrite IH. }
  assert (E2 : filter is_g toks = []).
  { clear - Ng. induction Ng as [|t toks H Ng IH]; [reflexivity|]. cbn [filter]. now rewrite H. }
  rewrite E1, E2, Ej in Iff. split.
  - rewrite Iff. split.
    + intros ((idx & [= <-] & H) & _). exact H.
    + intros H. split; [eauto|]. cbn. lia.
  - intros y H. destruct (Res y H) as (idx & Ei & _ & ->). rewrite Ej in Ei. now injection Ei as <-.
Qed.

Lemma fits_lorentz a b c d e (kl : list (itype * bool)) hs :
  count_occ Bool.bool_dec hs true = c -> count_occ Bool.bool_dec hs false = d ->
  Forall (fun k => fst k = Undotted \/ fst k = Dotted) kl ->
  (fits a b c d e (kl ++ map (pair Colour) hs ++ repeat (Isospin, true) e) <->
   kl = repeat (Undotted, true) a ++ repeat (Dotted, true) b).
Proof.
  intros Ec Ed Hl. split.
  - intros (hs' & _ & _ & E). set (P := fun k : itype * bool => match fst k with Undotted | Dotted => true | _ => false end).
    apply (f_equal (filter P)) in E. rewrite !filter_app in E.
    assert (F1 : forall l, filter P (map (pair Colour) l) = []) by (induction l; auto).
    assert (F2 : forall n, filter P (repeat (Isospin, true) n) = []) by (induction n; auto).
    assert (F3 : forall t n, P (t, true) = true -> filter P (repeat (t, true) n) = repeat (t, true) n).
    { intros t n Hp. induction n as [|n IH]; [reflexivity|]. cbn [repeat filter]. now rewrite Hp, IH. }
    assert (F4 : filter P kl = kl).
    { clear - Hl. induction Hl as [|k kl H Hl IH]; [reflexivity|]. cbn [filter].
      assert (Hp : P k = true) by (unfold P; destruct H as [-> | ->]; reflexivity). now rewrite Hp, IH. }
    rewrite !F1, !F2, !F3, F4, !app_nil_r in E by reflexivity. exact E.
  - intros ->. exists hs. rewrite <- app_assoc. auto.
Qed.

Lemma filter_filter_comm {A} (P Q : A -> bool) l : (forall x, P x = true -> Q x = true) -> filter P (filter Q l) = filter P l.
Proof.
  intros H. induction l as [|x l IH]; [reflexivity|]. cbn [filter]. destruct (Q x) eqn:Eq; cbn [filter].
  - now rewrite IH.
  - destruct (P x) eqn:Ep; [apply H in Ep; congruence|exact IH].
Qed.

Lemma map_kind_filter t l :
  map kind (filter (fun i => itype_eqb (ix_type i) t) l) = filter (fun k => itype_eqb (fst k) t) (map kind l).
Proof. induction l as [|i l IH]; [reflexivity|]. cbn [filter map kind fst]. destruct (itype_eqb (ix_type i) t); cbn [map]; now rewrite IH. Qed.

Lemma fits_types a b c d e l :
  fits a b c d e (map kind (filter (fun i => negb (is_generation i)) l)) ->
  map kind (by_type Undotted l) = repeat (Undotted, true) a /\ map kind (by_type Dotted l) = repeat (Dotted, true) b /\
  map kind (by_type Isospin l) = repeat (Isospin, true) e /\
  exists hs, map kind (by_type Colour l) = map (pair Colour) hs /\
    count_occ Bool.bool_dec hs true = c /\ count_occ Bool.bool_dec hs false = d.
Proof.
  intros (hs & Ec & Ed & K).
  assert (G : forall t, t <> Generation -> map kind (by_type t l) =
     filter (fun k => itype_eqb (fst k) t) (repeat (Undotted, true) a ++ repeat (Dotted, true) b ++ map (pair Colour) hs ++
            repeat (Isospin, true) e)).
  { intros t Nt. rewrite <- K, <- map_kind_filter, filter_filter_comm, by_type_filter; [reflexivity|].
    intros i Hi. apply itype_decides in Hi. unfold is_generation. rewrite Hi, (decides_neq itype_decides); auto. }
  assert (R : forall t t' n, filter (fun k => itype_eqb (fst k) t) (repeat (t', true) n) = if itype_eqb t' t then repeat (t', true) n else []).
  { intros t t' n. induction n as [|n IH]; cbn [repeat filter fst]; [now destruct (itype_eqb t' t)|].
    rewrite IH. now destruct (itype_eqb t' t). }
  assert (C : forall t, filter (fun k => itype_eqb (fst k) t) (map (pair Colour) hs) = if itype_eqb Colour t then map (pair Colour) hs else []).
  { intros t. clear. induction hs as [|h hs IH]; cbn [map filter fst]; [now destruct (itype_eqb Colour t)|].
    rewrite IH. now destruct (itype_eqb Colour t). }
  rewrite !G by discriminate. rewrite !filter_app, !R, !C. cbn [itype_eqb app]. rewrite !app_nil_r.
  repeat (split; [reflexivity|]). exists hs. auto.
Qed.

Lemma split_ws_cons tok s : tok <> [] -> ~ In " "%char tok -> split_ws (tok ++ lit " " ++ s) = tok :: split_ws s.
Proof.
  intros Ne Ns. unfold split_ws. change (lit " " ++ s) with (" "%char :: s). rewrite split_on_app by exact Ns.
  cbn [filter]. destruct tok; [congruence|reflexivity].
Qed.

Lemma suffix_split {A} (x : A) B k2 : forall k1 C, C ++ x :: B = k1 ++ k2 -> ~ In x k1 -> exists C', k2 = C' ++ x :: B.
Proof.
  induction k1 as [|y k1 IH]; intros C E N; [exists C; now rewrite E|].
  destruct C as [|z C]; cbn [app] in E; injection E as E0 E; [exfalso; apply N; now left|].
  apply (IH C E). intros I. apply N. now right.
Qed.

Lemma gauge_order m k1 k2 :
  map kind (filter (fun i => negb (is_generation i)) m) = k1 ++ k2 ->
  Forall (fun k => fst k <> Isospin) k1 -> Forall (fun k => fst k = Isospin) k2 ->
  filter (fun i => itype_eqb (ix_type i) Colour || itype_eqb (ix_type i) Isospin) m =
  filter (fun i => itype_eqb (ix_type i) Colour) m ++ filter (fun i => itype_eqb (ix_type i) Isospin) m.
Proof.
  intros E H1 H2.
  assert (C : forall m1 i m2, m = m1 ++ i :: m2 -> ix_type i = Isospin -> filter (fun i => itype_eqb (ix_type i) Colour) m2 = []).
  { intros m1 i m2 -> Hi. rewrite filter_app, map_app in E. cbn [filter] in E.
    assert (Gi : is_generation i = false) by (unfold is_generation; now rewrite Hi). rewrite Gi in E. cbn [negb map] in E.
    destruct (suffix_split _ _ _ _ _ E) as (C' & ->).
    { intros I. rewrite Forall_forall in H1. apply (H1 _ I). exact Hi. }
    apply Forall_app in H2 as [_ H2]. inversion H2 as [|? ? _ H3]; subst. clear - H3.
    induction m2 as [|j m2 IH]; [reflexivity|]. cbn [filter] in H3 |- *.
    destruct (is_generation j) eqn:Gj; cbn [negb map] in H3.
    - unfold is_generation in Gj. apply itype_decides in Gj. rewrite Gj. cbn [itype_eqb]. now apply IH.
    - inversion H3 as [|? ? H0 H4]; subst. unfold kind in H0. cbn [fst] in H0. rewrite H0. cbn [itype_eqb]. now apply IH. }
  clear E H1 H2. induction m as [|i m IH]; [reflexivity|].
  assert (IH' := IH (fun m1 j m2 E => C (i :: m1) j m2 (f_equal (cons i) E))). clear IH. cbn [filter].
  destruct (ix_type i) eqn:Et; cbn [itype_eqb orb]; rewrite ?IH'; try reflexivity.
  rewrite (C [] i m eq_refl Et). reflexivity.
Qed.

(** [strip_derivs_with_indices] after n derivatives of f, which have Lorentz labels p q, works exactly for scalars and
    for two-component fermions -- for a left-handed one only if n is even or p = 0, for a right-handed one only if n is
    odd or p = 0.  The result is the original field with the gauge indices of the derivative. *)
Theorem C28_strip_derivs_with_indices :
  forall f a b c d e n g p q toks x,
    field_ok f a b c d e -> rank (f_symmetry f) = a + b + c + d + e ->
    f_latex f <> [] -> f_stripped f = None -> f_derivs f = 0 -> derived f a b n g p q -> 0 < n ->
    Forall token_ok toks -> call_field g (join (lit " ") toks) = Ok x ->
    ((exists y, strip_derivs_with_indices x = Ok y) <->
     (a = 0 /\ b = 0) \/ (a = 1 /\ b = 0 /\ (Nat.odd n = false \/ p = 0)) \/ (a = 0 /\ b = 1 /\ (Nat.odd n = true \/ p = 0))) /\
    (forall y, strip_derivs_with_indices x = Ok y ->
       i_field y = mkField (label_with_dagger f) (f_dynkin f) (f_charges f) (f_is_conj f) (f_comm f) (f_symmetry f) None 1
                     (f_latex f) (f_nf f) 0 (Some (info f)) /\
       let gauge := filter (fun i => itype_eqb (ix_type i) Colour || itype_eqb (ix_type i) Isospin) in
       map (fun i => (ix_name i, kind i)) (gauge (i_indices y)) = map (fun i => (ix_name i, kind i)) (gauge (i_indices x))).
Proof.
  intros f a b c d e n g p q toks x F Rk Nl St Dv H Hn Ht Hx.
  destruct (derived_facts _ _ _ _ _ _ _ _ _ _ F Nl St Dv H) as (G & Ng & Ch & Cj & Cm & Nf & Der & Str & Sy & Op & Oq).
  assert (Rg : rank (f_symmetry g) = p + q + c + d + e).
  { rewrite Sy by exact Hn. rewrite rank_symmetry_of. cbn [list_sum fold_right]. lia. }
  destruct (called_indices _ _ _ _ _ _ _ _ G Rg Ht Hx) as (Ei & Fi & Ex & Lg & Ko & Ln).
  pose proof (reprint_all _ _ Ht Ei) as Rp.
  destruct (fits_types _ _ _ _ _ _ Fi) as (Ku & Kd & Ki & hs & Kc & Hc & Hd).
  set (l := i_indices x) in *.
  set (fs := mkField (f_label f) (f_dynkin f) (f_charges f) (f_is_conj f) (f_comm f) (f_symmetry f) None 1
               (f_latex f) (f_nf f) 0 (Some (info f))).
  assert (Es : strip_derivs x = Ok (inr fs)).
  { rewrite Ex. unfold strip_derivs. cbv zeta. cbn [i_field f_derivs]. rewrite Der. destruct (Nat.eqb_spec n 0); [lia|].
    cbn [f_stripped f_charges f_is_conj f_comm f_nf]. rewrite Str.
    cbn [s_label s_dynkin s_symmetry s_latex info]. rewrite Ch, Cj, Cm, Nf. destruct F as (_ & _ & P & N).
    rewrite mk_field_ok by assumption. reflexivity. }
  assert (Ffs : field_ok fs a b c d e) by exact F.
  assert (Rfs : rank (f_symmetry fs) = a + b + c + d + e) by exact Rk.
  assert (Dx : f_derivs (i_field x) = n) by (rewrite Ex; exact Der).
  (* the gauge part *)
  set (gl := by_type Colour l ++ by_type Isospin l).
  assert (Kg : map kind gl = map (pair Colour) hs ++ repeat (Isospin, true) e) by (unfold gl; now rewrite map_app, Kc, Ki).
  assert (Ig : incl gl l).
  { unfold gl. rewrite !by_type_filter. intros i I. apply in_app_iff in I as [I|I]; now apply filter_In in I. }
  assert (Gen : Forall (fun i => is_generation i = false) gl).
  { unfold gl. rewrite !by_type_filter. apply Forall_forall. intros i I.
    apply in_app_iff in I as [I|I]; apply filter_In in I as [_ I]; apply itype_decides in I; unfold is_generation; now rewrite I. }
  assert (Gt : exists js, mapM new_index (map show_index gl) = Ok js /\ map kind js = map kind gl /\
                 map ix_name js = map ix_name gl /\ Forall (fun t => t <> [] /\ ~ In " "%char t) (map show_index gl) /\
                 Forall (fun t => is_g t = false) (map show_index gl)).
  { clear - Rp Ig Gen. clearbody gl. induction Gen as [|i gl Hi Gen IH]; [exists []; repeat split; constructor|].
    destruct IH as (js & J1 & J2 & J3 & J4 & J5); [intros z Hz; apply Ig; now right|].
    rewrite Forall_forall in Rp.
    destruct (Rp i (Ig i (or_introl eq_refl)) []) as (j & E1 & E2 & E3 & E4 & E5 & E6); [intros []|reflexivity|].
    rewrite !app_nil_r in *. exists (j :: js). cbn [map mapM]. rewrite E1, J1, E2, E3, J2, J3. cbn [bind].
    repeat split; constructor; auto. now rewrite E6, Hi. }
  destruct Gt as (js & Ej & Kj & Nj & Tj & Gj).
  assert (Sj : split_ws (join (lit " ") (map show_index gl)) = map show_index gl) by now apply split_ws_join.
  assert (Names : map (fun i => (ix_name i, kind i)) js = map (fun i => (ix_name i, kind i)) gl).
  { clear - Kj Nj. clearbody gl. revert gl Kj Nj. induction js as [|j js IH]; intros [|i gl] K N; try discriminate; [reflexivity|].
    cbn [map] in *. injection K as K1 K2. injection N as N1 N2. rewrite N1. f_equal; [|now apply IH].
    unfold kind. now rewrite K1, K2. }
  set (gauge := filter (fun i => itype_eqb (ix_type i) Colour || itype_eqb (ix_type i) Isospin)).
  assert (Gx : gauge l = gl).
  { destruct Fi as (hs' & _ & _ & K). unfold gl, gauge. rewrite !by_type_filter.
    apply (gauge_order l (repeat (Undotted, true) p ++ repeat (Dotted, true) q ++ map (pair Colour) hs') (repeat (Isospin, true) e)).
    - now rewrite K, <- !app_assoc.
    - apply Forall_forall. intros k I. rewrite !in_app_iff in I. destruct I as [I|[I|I]].
      + apply repeat_spec in I. rewrite I; (discriminate || reflexivity).
      + apply repeat_spec in I. rewrite I; (discriminate || reflexivity).
      + apply in_map_iff in I as (h & <- & _). discriminate.
    - apply Forall_forall. intros k I. apply repeat_spec in I. rewrite I; (discriminate || reflexivity). }
  assert (GaugeG : forall m, map kind m = map (pair Colour) hs ++ repeat (Isospin, true) e -> gauge m = m).
  { intros m Hm. unfold gauge. assert (A : Forall (fun k => fst k = Colour \/ fst k = Isospin) (map kind m)).
    { rewrite Hm. apply Forall_forall. intros k I. apply in_app_iff in I as [I|I].
      - apply in_map_iff in I as (h & <- & _). now left.
      - apply repeat_spec in I. rewrite I. now right. }
    clear - A. induction m as [|i m IH]; [reflexivity|]. inversion A as [|? ? A1 A2]; subst. cbn [filter kind fst] in *.
    destruct A1 as [A1|A1]; unfold kind in A1; cbn [fst] in A1; rewrite A1; cbn [itype_eqb orb]; f_equal; auto. }
  assert (Fe : is_fermion fs = Ok (Nat.odd (a + b))).
  { unfold is_fermion, is_boson, lorentz_irrep. rewrite (field_ok_ints _ _ _ _ _ _ Ffs). cbn [bind firstn list_sum fold_right].
    rewrite Nat.add_0_r, <- Nat.bit0_mod, Nat.bit0_odd. now destruct (Nat.odd (a + b)). }
  assert (Sw : strip_derivs_with_indices x =
    do indices <-
      (if Nat.odd (a + b) then
         match by_type Undotted l ++ by_type Dotted l with
         | [] => Err IndexError
         | i :: _ => if n mod 2 =? 0 then Ok (show_index i ++ lit " " ++ join (lit " ") (map show_index gl))
                     else do j <- conj_index i; Ok (show_index j ++ [partial_sign] ++ lit " " ++ join (lit " ") (map show_index gl))
         end
       else Ok (join (lit " ") (map show_index gl)));
    call_field fs indices).
  { unfold strip_derivs_with_indices. rewrite Es. cbn [bind]. rewrite Fe. cbn [bind]. rewrite Dx. reflexivity. }
  rewrite Sw. clear Sw.
  assert (Ev : n mod 2 =? 0 = negb (Nat.odd n)).
  { rewrite <- Nat.bit0_mod, Nat.bit0_odd. now destruct (Nat.odd n). }
  rewrite Ev. clear Ev.
  destruct (Nat.odd (a + b)) eqn:Oab.
  - (* fermion *)
    set (lo := by_type Undotted l ++ by_type Dotted l).
    assert (Klo : map kind lo = repeat (Undotted, true) p ++ repeat (Dotted, true) q) by (unfold lo; now rewrite map_app, Ku, Kd).
    assert (Ilo : incl lo l).
    { unfold lo. rewrite !by_type_filter. intros i I. apply in_app_iff in I as [I|I]; now apply filter_In in I. }
    destruct lo as [|i lo'] eqn:Elo.
    { cbn in Klo. assert (p = 0 /\ q = 0) as [-> ->] by (destruct p; [destruct q; [auto|discriminate]|discriminate]).
      rewrite Nat.odd_add in Oab. cbn in Op, Oq. destruct (Nat.odd a), (Nat.odd b), (Nat.odd n); discriminate. }
    assert (Ki0 : kind i = (if p =? 0 then Dotted else Undotted, true)).
    { cbn [map] in Klo. destruct p; cbn [repeat app Nat.eqb] in Klo |- *; [|exact (f_equal (hd (Undotted, true)) Klo)].
      destruct q; [discriminate|]. exact (f_equal (hd (Undotted, true)) Klo). }
    assert (Ii : In i l) by (apply Ilo; now left).
    (* the Lorentz token in either case *)
    assert (Tok : exists tok j k0, (if negb (Nat.odd n) then Ok (show_index i ++ lit " " ++ join (lit " ") (map show_index gl))
                 else do j <- conj_index i; Ok (show_index j ++ [partial_sign] ++ lit " " ++ join (lit " ") (map show_index gl))) =
               Ok (tok ++ lit " " ++ join (lit " ") (map show_index gl)) /\ new_index tok = Ok j /\ kind j = (k0, true) /\
               k0 = (if xorb (Nat.odd n) (p =? 0) then Dotted else Undotted) /\
               tok <> [] /\ ~ In " "%char tok /\ is_g tok = false).
    { destruct (Nat.odd n) eqn:On; cbn [negb].
      - (* odd: conjugated *)
        assert (exists tok, In tok toks /\ new_index tok = Ok i) as (tok & It & Etok).
        { clear - Ei Ii. clearbody l. apply mapM_Forall2 in Ei. induction Ei as [|t z ts zs Hz Ei IH]; [destruct Ii|].
          destruct Ii as [<-|Ii]; [exists t; split; [now left|exact Hz]|]. destruct (IH Ii) as (t' & I' & E'). exists t'. split; [now right|exact E']. }
        rewrite Forall_forall in Ht.
        destruct (conj_token tok i (Ht _ It) Etok) as (tok' & j & T1 & T2 & T3 & T4 & T5 & T6). rewrite T2. cbn [bind].
        destruct (reprint tok' j [partial_sign] T1 T3) as (j' & E1 & E2 & E3 & E4 & E5 & E6).
        { cbn. intuition discriminate. } { reflexivity. }
        exists (show_index j ++ [partial_sign]), j', (conj_type (if p =? 0 then Dotted else Undotted)).
        split; [now rewrite <- app_assoc|]. split; [exact E1|]. rewrite E2, T5, Ki0.
        split; [unfold conj_kind; cbn [fst snd]; now destruct (p =? 0)|].
        split; [now destruct (p =? 0)|]. split; [exact E4|]. split; [exact E5|].
        rewrite E6. unfold is_generation. assert (Tj0 : ix_type j = conj_type (if p =? 0 then Dotted else Undotted)).
        { assert (Q : fst (kind j) = fst (conj_kind (kind i))) by now rewrite T5. rewrite Ki0 in Q. exact Q. }
        rewrite Tj0. now destruct (p =? 0).
      - rewrite Forall_forall in Rp. destruct (Rp i Ii []) as (j & E1 & E2 & E3 & E4 & E5 & E6); [intros []|reflexivity|].
        rewrite !app_nil_r in *. exists (show_index i), j, (if p =? 0 then Dotted else Undotted).
        split; [reflexivity|]. split; [exact E1|]. split; [now rewrite E2, Ki0|]. split; [now destruct (p =? 0)|].
        split; [exact E4|]. split; [exact E5|]. rewrite E6. unfold is_generation.
        assert (Ti0 : ix_type i = if p =? 0 then Dotted else Undotted) by (assert (Q : fst (kind i) = _) by (now rewrite Ki0); exact Q).
        rewrite Ti0. now destruct (p =? 0). }
    destruct Tok as (tok & j & k0 & T1 & T2 & T3 & T4 & T5 & T6 & T7). rewrite T1. cbn [bind].
    assert (Spl : split_ws (tok ++ lit " " ++ join (lit " ") (map show_index gl)) = tok :: map show_index gl)
      by now rewrite split_ws_cons, Sj.
    destruct (call_reprinted fs a b c d e _ (tok :: map show_index gl) (j :: js) Ffs Rfs Spl) as (Iff & Res).
    { cbn [mapM]. now rewrite T2, Ej. }
    { constructor; auto. }
    split.
    + rewrite Iff. cbn [map]. rewrite Kj, Kg, T3.
      change ((k0, true) :: map (pair Colour) hs ++ repeat (Isospin, true) e) with
        ([(k0, true)] ++ map (pair Colour) hs ++ repeat (Isospin, true) e).
      rewrite (fits_lorentz a b c d e [(k0, true)] hs Hc Hd).
      2:{ constructor; [|constructor]. cbn [fst]. rewrite T4. destruct (xorb (Nat.odd n) (p =? 0)); auto. }
      rewrite T4. split.
      * intros E. assert (Lab : a + b = 1).
        { apply (f_equal (@List.length _)) in E. rewrite app_length, !repeat_length in E. cbn in E. lia. }
        destruct a as [|[|a]]; [|destruct b; [|lia]|lia].
        -- destruct b as [|[|b]]; [lia| |lia]. right. right. split; [reflexivity|]. split; [reflexivity|].
           cbn [repeat app] in E. destruct (Nat.odd n) eqn:On; [now left|right]. destruct (Nat.eqb_spec p 0); [assumption|discriminate].
        -- right. left. split; [reflexivity|]. split; [reflexivity|]. cbn [repeat app] in E.
           destruct (Nat.odd n) eqn:On; [|now left]. right. destruct (Nat.eqb_spec p 0); [assumption|discriminate].
      * intros [[-> ->]|[(-> & -> & C)|(-> & -> & C)]]; [discriminate Oab| |]; cbn [repeat app].
        -- destruct (Nat.odd n) eqn:On; cbn in Op.
           ++ destruct C as [C| ->]; [discriminate|]. reflexivity.
           ++ destruct (Nat.eqb_spec p 0) as [->|]; [discriminate Op|reflexivity].
        -- destruct (Nat.odd n) eqn:On; cbn in Op.
           ++ destruct (Nat.eqb_spec p 0) as [->|]; [discriminate Op|reflexivity].
           ++ destruct C as [C| ->]; [discriminate|]. reflexivity.
    + intros y Hy. rewrite (Res y Hy). cbn [i_field i_indices]. split; [reflexivity|].
      fold gauge. rewrite Gx, <- Names. f_equal. unfold gauge at 1. cbn [filter].
      assert (Tj1 : ix_type j = k0) by (assert (Q : fst (kind j) = _) by (now rewrite T3); exact Q).
      rewrite Tj1, T4. destruct (xorb (Nat.odd n) (p =? 0)); cbn [itype_eqb orb]; apply GaugeG; now rewrite Kj, Kg.
  - (* boson *)
    cbn [bind].
    destruct (call_reprinted fs a b c d e _ (map show_index gl) js Ffs Rfs Sj Ej Gj) as (Iff & Res). split.
    + rewrite Iff, Kj, Kg. change (map (pair Colour) hs ++ repeat (Isospin, true) e) with ([] ++ map (pair Colour) hs ++ repeat (Isospin, true) e).
      rewrite (fits_lorentz a b c d e [] hs Hc Hd) by constructor. split.
      * intros E. left. destruct a, b; try discriminate. auto.
      * intros [[-> ->]|[(-> & -> & _)|(-> & -> & _)]]; [reflexivity|discriminate Oab|discriminate Oab].
    + intros y Hy. rewrite (Res y Hy). cbn [i_field i_indices]. split; [reflexivity|].
      fold gauge. rewrite Gx, <- Names. f_equal. apply GaugeG. now rewrite Kj, Kg.
Qed.

Definition strip_twice (dyn t1 t2 s : string) : res (list str) :=
  do f <- mk_field (lit "F") (lit dyn) (Some [(lit "y", Q2Qc (1 # 2))]) false (lit "fermi") None None 1 None 1 0 None;
  do g <- D f (lit t1); do g <- (match lit t2 with [] => Ok g | t => D g t end);
  do x <- call_field g (lit s); do y <- strip_derivs_with_indices x; Ok (map ix_name (i_indices y)).

(** one derivative of a left-handed fermion with labels (0,1) can be stripped, with labels (2,1) it cannot *)
Example C28_example :
  strip_twice "10001" "01" "" "d0 i1" = Ok [lit "u0" ++ [partial_sign]; lit "i1"] /\
  strip_twice "10001" "21" "" "u0 u1 d2 i3" = Err AssertionError /\
  strip_twice "10101" "01" "10" "u0 c1 i2" = Ok [lit "u0"; lit "c1"; lit "i2"] /\
  strip_twice "00001" "11" "" "u0 d1 i2" = Ok [lit "i2"] /\
  strip_twice "11001" "22" "" "u0 u1 d2 d3 i2" = Err AssertionError.
Proof. vm_compute. auto 10. Qed.

(** ** C29: pickling *)

(** an indexed field is recovered from its dictionary *)
Theorem C29_field :
  forall x, indexed x -> mk_ifield (i_dict x) = Ok x.
Proof.
  intros x I. destruct (indexed_inv _ I) as (X1 & X2 & X3 & X4 & X5 & X6 & X7 & X8).
  unfold mk_ifield, i_dict. cbv zeta. cbn [a_indices a_symmetry a_label a_charges a_is_conj a_comm a_latex a_nf a_derivs a_stripped].
  rewrite X1. cbn [bind]. rewrite X8, Nat.eqb_refl. cbn [assert_ bind]. rewrite X3. cbn [bind].
  rewrite mk_field_ok by assumption. cbn [bind]. rewrite X2. destruct x as [f l lab]. cbn [i_field i_indices i_index_labels] in *.
  destruct f. cbn in X6, X7. now subst.
Qed.

(** a symbol is made by eps or by delta *)
Definition made (s : symbol) : Prop := exists text, eps text = Ok s \/ delta text = Ok s.

Definition is_delta (s : symbol) : bool := match s with DeltaC _ => true | _ => false end.

Lemma labels_tokens toks idx : mapM new_index toks = Ok idx -> map ix_label idx = toks.
Proof.
  revert idx. induction toks as [|t toks IH]; intros idx E; cbn [mapM] in E; [now injection E as <-|].
  apply bind_ok in E as (i & Hi & E). apply bind_ok in E as (l & Hl & E). injection E as <-. cbn [map].
  rewrite (new_index_label _ _ Hi). f_equal. auto.
Qed.

Lemma split_ws_tokens s : split_ws (join (lit " ") (split_ws s)) = split_ws s.
Proof.
  apply split_ws_join. unfold split_ws. apply Forall_forall. intros p I. apply filter_In in I as [I N].
  split; [now destruct p|]. pose proof (split_on_Forall " "%char s) as F. rewrite Forall_forall in F. now apply F.
Qed.

(** The text form of a symbol gives the symbol back exactly when it is not a delta; a delta raises. *)
Theorem C29_symbol :
  forall s, made s ->
    eps (join (lit " ") (map ix_label (symbol_indices s))) = if is_delta s then Err AssertionError else Ok s.
Proof.
  intros s (text & [E|E]).
  - unfold eps in E. apply bind_ok in E as (l & El & E). cbv beta in E. destruct l as [|i0 l]; [discriminate|].
    assert (S : symbol_indices s = i0 :: l /\ is_delta s = false).
    { destruct (negb (itype_eqb (ix_type i0) Colour)).
      - apply bind_ok in E as ([] & _ & E). apply bind_ok in E as ([] & _ & E). cbv beta in E.
        destruct (ix_type i0); try discriminate; injection E as <-; auto.
      - apply bind_ok in E as ([] & _ & E). apply bind_ok in E as ([] & _ & E). cbv beta in E. injection E as <-. auto. }
    destruct S as [S1 S2]. rewrite S1, S2. unfold eps. rewrite (labels_tokens _ _ El), split_ws_tokens, El. exact E.
  - unfold delta in E. apply bind_ok in E as (l & El & E). cbv beta in E.
    destruct l as [|i [|j [|? ?]]]; try discriminate.
    destruct (itype_eqb (ix_type i) Colour) eqn:Ti; [|discriminate]. cbn [assert_ bind] in E.
    apply bind_ok in E as ([] & _ & E). apply bind_ok in E as ([] & _ & E). apply bind_ok in E as ([] & _ & E). injection E as <-.
    cbn [symbol_indices is_delta]. unfold eps. rewrite (labels_tokens _ _ El), split_ws_tokens, El. cbn [bind]. rewrite Ti. reflexivity.
Qed.

Lemma normalise_sorted l :
  sort (fun a b => match a, b with TSymbol _, TField _ => false | _, _ => true end) l =
  map TField (indexed_fields l) ++ map TSymbol (epsilons l).
Proof.
  induction l as [|t l IH]; [reflexivity|]. cbn [sort]. rewrite IH. unfold indexed_fields, epsilons. cbn [flat_map].
  fold (indexed_fields l) (epsilons l). destruct t as [f|s]; cbn [app map].
  - destruct (indexed_fields l); [destruct (epsilons l)|]; reflexivity.
  - clear IH. generalize (indexed_fields l) as fs, (epsilons l) as es. intros fs es.
    induction fs as [|f fs IHf]; cbn [map app insert]; [destruct es; reflexivity|]. f_equal. exact IHf.
Qed.

(** Operator's constructor puts the fields before the symbols and keeps the order otherwise; an operator it made is
    restored by unpickling, unless it contains a delta, in which case unpickling raises AssertionError. *)
Theorem C29_pickle :
  forall args op, op = normalise_operator_input args ->
    Forall indexed (indexed_fields op) -> Forall made (epsilons op) ->
    from_pickle_form (pickle_form op) = if existsb is_delta (epsilons op) then Err AssertionError else Ok op.
Proof.
  intros args op Eop Hf Hs.
  assert (Fix : op = map TField (indexed_fields op) ++ map TSymbol (epsilons op)).
  { assert (E : forall fs ss, indexed_fields (map TField fs ++ map TSymbol ss) = fs /\ epsilons (map TField fs ++ map TSymbol ss) = ss).
    { intros fs ss. unfold indexed_fields, epsilons. rewrite !flat_map_app.
      assert (E1 : flat_map (fun t => match t with TField f => [f] | TSymbol _ => [] end) (map TField fs) = fs)
        by (clear; induction fs as [|f fs IH]; cbn; congruence).
      assert (E2 : flat_map (fun t => match t with TField f => [f] | TSymbol _ => [] end) (map TSymbol ss) = [])
        by (clear; induction ss as [|f fs IH]; cbn; congruence).
      assert (E3 : flat_map (fun t => match t with TField _ => [] | TSymbol s => [s] end) (map TField fs) = [])
        by (clear; induction fs as [|f fs IH]; cbn; congruence).
      assert (E4 : flat_map (fun t => match t with TField _ => [] | TSymbol s => [s] end) (map TSymbol ss) = ss)
        by (clear; induction ss as [|f fs IH]; cbn; congruence).
      now rewrite E1, E2, E3, E4, app_nil_r. }
    unfold normalise_operator_input in Eop. cbv zeta in Eop. rewrite normalise_sorted in Eop. rewrite Eop.
    destruct (E (indexed_fields (concat args)) (epsilons (concat args))) as [-> ->]. reflexivity. }
  unfold from_pickle_form, pickle_form. cbn [fst snd].
  assert (Ms : mapM (fun l => eps (join (lit " ") l)) (map (fun e => map ix_label (symbol_indices e)) (epsilons op)) =
               if existsb is_delta (epsilons op) then Err AssertionError else Ok (epsilons op)).
  { clear Fix Hf Eop. induction Hs as [|s ss H Hs IH]; [reflexivity|]. cbn [map mapM existsb]. rewrite (C29_symbol _ H), IH.
    destruct (is_delta s); [reflexivity|]. cbn [bind orb]. destruct (existsb is_delta ss); reflexivity. }
  assert (Mf : mapM mk_ifield (map i_dict (indexed_fields op)) = Ok (indexed_fields op)).
  { clear Fix Hs Ms Eop. induction Hf as [|x xs H Hf IH]; [reflexivity|]. cbn [map mapM]. rewrite (C29_field _ H), IH. reflexivity. }
  rewrite Ms. destruct (existsb is_delta (epsilons op)); [reflexivity|]. cbn [bind]. rewrite Mf. cbn [bind]. now rewrite <- Fix.
Qed.

Theorem C29_pickle_refuted :
  exists op, Forall indexed (indexed_fields op) /\ Forall made (epsilons op) /\
             op = normalise_operator_input [op] /\ from_pickle_form (pickle_form op) = Err AssertionError.
Proof.
  exists [TSymbol (DeltaC [mkIndex (lit "c0") (lit "c0") Colour true; mkIndex (lit "-c1") (lit "c1") Colour false])].
  split; [constructor|]. split; [|split; reflexivity].
  constructor; [|constructor]. exists (lit "c0 -c1"). right. reflexivity.
Qed.

Example C29_example :
  (do f <- mk_field (lit "L") (lit "10001") (Some [(lit "y", Q2Qc (-1 # 2))]) false (lit "fermi") None None 1 None 1 0 None;
   do x <- call_field f (lit "u0 i1"); do y <- call_field f (lit "u2 i3");
   do e1 <- eps (lit "-u0 -u2"); do e2 <- eps (lit "-i1 -i3");
   do op <- from_pickle_form (pickle_form (normalise_operator_input [[TSymbol e1; TField x]; [TField y; TSymbol e2]]));
   Ok (map (fun t => match t with TField x => map ix_name (i_indices x) | TSymbol s => map ix_name (symbol_indices s) end) op)) =
  Ok [[lit "u0"; lit "i1"]; [lit "u2"; lit "i3"]; [lit "u0"; lit "u2"]; [lit "i1"; lit "i3"]].
Proof. vm_compute. reflexivity. Qed.

(** ** C72: replacing indices *)

(** the replacement is simultaneous; of several pairs for one index the last wins *)
Definition replacement (pairs : list (index * index)) (i : index) : index :=
  match find (fun ij => index_eqb (fst ij) i) (rev pairs) with Some ij => snd ij | None => i end.

Theorem C72_substituted :
  forall x pairs, indexed x -> (forall i j, In (i, j) pairs -> kind i = kind j) ->
    exists y, substituted_indices x pairs = Ok y /\ i_field y = i_field x /\
      Forall2 (fun i j => index_eqb j (replacement pairs i) = true) (i_indices x) (i_indices y).
Proof.
  intros x pairs I Hk. destruct (indexed_inv _ I) as (X1 & X2 & X3 & X4 & X5 & X6 & X7 & X8).
  unfold substituted_indices. cbv zeta.
  set (sub := fun idx => fold_left (fun cur ij => if index_eqb (fst ij) idx then snd ij else cur) pairs idx).
  assert (Sub : forall i, sub i = replacement pairs i).
  { intros i. unfold sub, replacement. generalize i at 2 4 as cur. clear. induction pairs as [|p ps IH] using rev_ind; intros cur; [reflexivity|].
    rewrite fold_left_app, rev_app_distr. cbn [fold_left rev app find]. destruct (index_eqb (fst p) i); [reflexivity|]. apply IH. }
  assert (Ks : forall i, kind (sub i) = kind i).
  { intros i. rewrite Sub. unfold replacement. destruct (find _ (rev pairs)) as [[a b]|] eqn:E; [|reflexivity].
    apply find_some in E as [E1 E2]. apply in_rev in E1. cbn [fst snd] in *. rewrite <- (Hk _ _ E1).
    apply index_eqb_spec in E2 as (_ & T & U). unfold kind. now rewrite T, U. }
  unfold mk_ifield. cbv zeta. cbn [a_indices a_symmetry a_label a_charges a_is_conj a_comm a_latex a_nf a_derivs a_stripped arg_indices arg_after bind].
  assert (Kr : forall i, kind (reindex (sub i)) = kind i) by (intros i; transitivity (kind (sub i)); [reflexivity|apply Ks]).
  assert (G : existsb is_generation (map reindex (map sub (i_indices x))) = existsb is_generation (i_indices x)).
  { clear - Kr. induction (i_indices x) as [|i l IH]; [reflexivity|]. cbn [map existsb]. rewrite IH. f_equal.
    unfold is_generation. f_equal. now injection (Kr i). }
  assert (Dk : get_dynkin (map reindex (map sub (i_indices x))) = get_dynkin (i_indices x)).
  { unfold get_dynkin. f_equal. clear - Kr. generalize (0, 0, 0, 0, 0) as st.
    induction (i_indices x) as [|i l IH]; intros st; [reflexivity|]. cbn [map foldM].
    assert (E : dynkin_step st (reindex (sub i)) = dynkin_step st i).
    { destruct st as [[[[? ?] ?] ?] ?]. pose proof (f_equal fst (Kr i)) as T. pose proof (f_equal snd (Kr i)) as U.
      change (ix_type (reindex (sub i)) = ix_type i) in T. change (ix_up (reindex (sub i)) = ix_up i) in U.
      unfold dynkin_step. now rewrite T, U. }
    rewrite E. destruct (dynkin_step st i); [|reflexivity]. apply IH. }
  rewrite G, Dk, X3, !map_length, X8, Nat.eqb_refl. cbn [assert_ bind].
  rewrite mk_field_ok by assumption. cbn [bind]. eexists. split; [reflexivity|]. cbn [i_field i_indices]. split.
  - destruct x as [f l lab]. cbn [i_field] in *. destruct f. cbn in X6, X7. now subst.
  - clear - Sub. induction (i_indices x) as [|i l IH]; [constructor|]. cbn [map]. constructor; [|exact IH].
    rewrite <- Sub. apply index_eqb_spec. auto.
Qed.

Example C72_example :
  (do f <- mk_field (lit "F") (lit "00002") None false (lit "0") None None 1 None 1 0 None;
   do x <- call_field f (lit "i0 i1"); do i0 <- new_index (lit "i0"); do i1 <- new_index (lit "i1");
   do y <- substituted_indices x [(i0, i1); (i1, i0)]; Ok (map ix_name (i_indices y))) = Ok [lit "i1"; lit "i0"].
Proof. vm_compute. reflexivity. Qed.

(** ** C30: products *)

(** With the same charges defined on every factor the product exists; each term carries the sum of each charge, its
    history lists the factors from left to right, its label is the concatenation. *)
Theorem C30_product :
  forall irrep_product f g rst tex,
    proper (f_charges f) -> to_tex (f_label f) = Ok tex -> Forall (same_keys f) (g :: rst) ->
    exists l, decompose_product irrep_product (f :: g :: rst) = Ok (inr l) /\
      Forall (fun r => (forall k, charge_of r k = total (f :: g :: rst) k) /\
                       leaves (walked r) = concat (map (fun f => leaves (walked f)) (f :: g :: rst)) /\
                       f_label r = concat (map (fun h => f_label h ++ (if f_is_conj h then [dagger] else [])) (f :: g :: rst)) /\
                       f_is_conj r = false) l.
Proof.
  intros ip f g rst tex P T S. destruct (decompose_ok ip rst f g tex P T S) as (l & E & H). exists l.
  cbn [decompose_product]. rewrite E. split; [reflexivity|]. eapply Forall_impl; [|exact H]. cbv beta. tauto.
Qed.

(** One field is returned as it is, no field is an error, and factors with different charges are refused. *)
Theorem C30_edge_cases :
  forall irrep_product, (forall f, decompose_product irrep_product [f] = Ok (inl f)) /\
    decompose_product irrep_product [] = Err ValueError /\
    (forall f g rst, ~ same_keys f g -> decompose_product irrep_product (f :: g :: rst) = Err AssertionError).
Proof.
  intros ip. split; [reflexivity|]. split; [reflexivity|]. intros f g rst N.
  assert (E : mul_field ip f g = Err AssertionError).
  { unfold mul_field. match goal with |- context [assert_ ?b] => destruct b eqn:B end; [|reflexivity].
    exfalso. apply N. apply andb_true_iff in B as [B1 B2]. rewrite forallb_forall in B1, B2. intros k.
    split; intros I; apply (mem_by_In str_decides); auto. }
  cbn [decompose_product]. destruct rst; cbn [decompose]; rewrite E; reflexivity.
Qed.

(** Dimensions are conserved when each term is counted with the product of the multiplicities along its history. *)
Theorem C30_dimension :
  forall irrep_product f g rst tex l,
    product_spec irrep_product ->
    proper (f_charges f) -> to_tex (f_label f) = Ok tex -> Forall (same_keys f) (g :: rst) ->
    Forall has_digits (f :: g :: rst) -> small (f :: g :: rst) ->
    decompose_product irrep_product (f :: g :: rst) = Ok (inr l) ->
    list_sum (map (fun r => chain_multiplicity (S (List.length rst)) r * dim r) l) =
    fold_right (fun h n => dim h * n) 1 (f :: g :: rst).
Proof.
  intros ip f g rst tex l Hp P T S Dg Sm E. cbn [decompose_product] in E. apply bind_ok in E as (l' & E & E').
  injection E' as <-. exact (decompose_dim ip Hp rst f g l' tex P T S Dg Sm E).
Qed.

(** The attribute [multiplicity] of a term alone does not do: three octets. *)
Theorem C30_multiplicity_refuted :
  forall irrep_product f tex l,
    product_spec irrep_product -> proper (f_charges f) -> to_tex (f_label f) = Ok tex -> f_dynkin f = lit "00110" ->
    Permutation (irrep_product (lit "00110") (lit "00110"))
      [([0;0;2;2;0], 1); ([0;0;3;0;0], 1); ([0;0;0;3;0], 1); ([0;0;1;1;0], 2); ([0;0;0;0;0], 1)] ->
    decompose_product irrep_product [f; f; f] = Ok (inr l) ->
    list_sum (map (fun r => f_multiplicity r * dim r) l) = 448 /\ dim f * (dim f * dim f) = 512.
Proof.
  intros ip f tex l Hp P T Ed Perm E.
  assert (Df : dim f = 8) by (unfold dim, labels_of; rewrite Ed; reflexivity). split; [|rewrite Df; reflexivity].
  assert (Sk : same_keys f f) by (intros k; reflexivity).
  cbn [decompose_product] in E. apply bind_ok in E as (l' & E & E'). injection E' as <-. cbn [decompose] in E.
  destruct (mul_field_ok ip f f tex P Sk T) as (t & Em & Et). rewrite Em in E. cbn [bind] in E. clear Em.
  apply bind_ok in E as (ls & El & E). injection E as <-. rewrite Ed in El.
  assert (Each : forall r s m l, r + s <= 4 ->
            decompose ip (product_field f f ([0; 0; r; s; 0], m) t) f [] = Ok l ->
            list_sum (map (fun r => f_multiplicity r * dim r) l) = dimension [0; 0; r; s; 0] * 8).
  { intros r s m l B E. cbn [decompose] in E.
    assert (Sk2 : same_keys (product_field f f ([0; 0; r; s; 0], m) t) f).
    { intros k. cbn [product_field f_charges]. now rewrite keys_sum. }
    destruct (mul_field_ok ip (product_field f f ([0; 0; r; s; 0], m) t) f t (sum_proper _ _ P) Sk2 Et) as (t2 & Em & _).
    rewrite (product_dynkin f f 0 0 r s 0 t m) in Em by lia. rewrite Ed in Em.
    rewrite Em in E. cbn [bind] in E. injection E as <-. clear Em.
    destruct (Hp 0 0 r s 0 0 0 1 1 0 ltac:(lia) ltac:(lia)) as (W & Sum).
    change (lit "00110") with (five 0 0 1 1 0). change 8 with (dimension [0; 0; 1; 1; 0]). rewrite <- Sum.
    rewrite map_map. f_equal. apply map_ext_in. intros [w' m'] I.
    destruct (W w' m' I) as (p' & q' & r' & s' & u' & -> & H1 & H2 & H3 & H4).
    cbn [product_field f_multiplicity snd fst]. f_equal. unfold dim.
    rewrite (labels_five _ p' q' r' s' u'); [reflexivity|apply product_dynkin; lia|lia]. }
  assert (In5 : forall w m, In (w, m) (ip (lit "00110") (lit "00110")) -> exists r s, w = [0; 0; r; s; 0] /\ r + s <= 4).
  { intros w m I. apply (Permutation_in _ Perm) in I. cbn [In] in I.
    repeat destruct I as [I|I]; try (injection I as <- _; do 2 eexists; split; [reflexivity|lia]). destruct I. }
  assert (Sum : list_sum (map (fun r => f_multiplicity r * dim r) (concat ls)) =
                list_sum (map (fun wm => dimension (fst wm) * 8) (ip (lit "00110") (lit "00110")))).
  { clear Perm. revert ls El. induction (ip (lit "00110") (lit "00110")) as [|[w m] wms IH]; intros ls El.
    - injection El as <-. reflexivity.
    - cbn [map mapM] in El. apply bind_ok in El as (l1 & E1 & El). apply bind_ok in El as (ls1 & El & E'). injection E' as <-.
      cbn [concat]. rewrite map_app, list_sum_app, (IH (fun w m I => In5 w m (or_intror I)) _ El).
      destruct (In5 w m (or_introl eq_refl)) as (r & s & -> & B). rewrite (Each r s m l1 B E1). reflexivity. }
  rewrite Sum. assert (Q : forall a b : list nat, Permutation a b -> list_sum a = list_sum b).
  { clear. induction 1; unfold list_sum in *; cbn [fold_right] in *; lia. }
  rewrite (Q _ _ (Permutation_map _ Perm)). reflexivity.
Qed.

(** A product that meets the specification and is the true one for two octets. *)
Definition octets (a b : str) : list (list nat * nat) :=
  if str_eqb a (lit "00110") && str_eqb b (lit "00110")
  then [([0;0;2;2;0], 1); ([0;0;3;0;0], 1); ([0;0;0;3;0], 1); ([0;0;1;1;0], 2); ([0;0;0;0;0], 1)]
  else [([0;0;0;0;0], dimension (map (fun c => nat_of_ascii c - 48) a) * dimension (map (fun c => nat_of_ascii c - 48) b))].

Example C30_octets : product_spec octets.
Proof.
  intros a b c d e a' b' c' d' e' B B'. unfold octets. cbv zeta.
  assert (L : forall a b c d e, a < 10 /\ b < 10 /\ c < 10 /\ d < 10 /\ e < 10 ->
            map (fun c => nat_of_ascii c - 48) (five a b c d e) = [a; b; c; d; e]).
  { clear. intros a b c d e B. unfold five, digit. cbn [map]. rewrite !nat_ascii_embedding by lia. repeat (f_equal; try lia). }
  rewrite !L by assumption. destruct (_ && _) eqn:T.
  - apply andb_true_iff in T as [T1 T2]. apply str_decides in T1. apply str_decides in T2.
    apply (f_equal (map (fun c => nat_of_ascii c - 48))) in T1, T2. rewrite L in T1, T2 by assumption.
    cbn in T1, T2. injection T1 as -> -> -> -> ->. injection T2 as -> -> -> -> ->. split; [|reflexivity].
    intros w m I. cbn [In] in I.
    repeat destruct I as [I|I]; try (injection I as <- _; do 5 eexists; split; [reflexivity|lia]). destruct I.
  - split; [|cbn [map list_sum fold_right fst snd]; change (dimension [0; 0; 0; 0; 0]) with 1; lia].
    intros w m [I|[]]. injection I as <- _. do 5 eexists. split; [reflexivity|lia].
Qed.

Example C30_example :
  (do f <- mk_field (lit "S") (lit "00110") (Some [(lit "y", Q2Qc (1 # 2))]) false (lit "bose") None None 1 None 1 0 None;
   do l <- decompose_product octets [f; f; f];
   Ok (match l with inl _ => [] | inr l => map (fun r => (f_dynkin r, f_multiplicity r, dim r)) l end,
       match l with inl _ => 0 | inr l => list_sum (map (fun r => chain_multiplicity 2 r * dim r) l) end,
       match l with inl _ => true | inr l => forallb (fun r => Qc_eq_bool (charge_of r (lit "y")) (Q2Qc (3 # 2))) l end)) =
  Ok ([(lit "00000", 216, 1); (lit "00000", 80, 1); (lit "00000", 80, 1); (lit "00220", 1, 27);
       (lit "00300", 1, 10); (lit "00030", 1, 10); (lit "00110", 2, 8); (lit "00000", 1, 1); (lit "00000", 8, 1)], 512, true).
Proof. vm_compute. reflexivity. Qed.

Print Assumptions C28_strip_derivs.
Print Assumptions C28_strip_derivs_refuted.
Print Assumptions C28_strip_derivs_with_indices.
Print Assumptions C71_conj_strip.
Print Assumptions C29_field.
Print Assumptions C29_symbol.
Print Assumptions C29_pickle.
Print Assumptions C29_pickle_refuted.
Print Assumptions C72_substituted.
Print Assumptions C30_product.
Print Assumptions C30_edge_cases.
Print Assumptions C30_dimension.
Print Assumptions C30_multiplicity_refuted.
