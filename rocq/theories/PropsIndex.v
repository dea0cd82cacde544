(** * PropsIndex: theorems about tensor indices (C22, C23) *)

From Coq Require Import Ascii String List Bool Arith ZArith Lia Permutation.
From Verif Require Import Base BaseFacts Spec Show ModelIndex SpecIndex ProofsIndex.
Import ListNotations.
Local Open Scope nat_scope.

(** ** C22: Index algebra *)

(** Which labels Index accepts: after lower-casing, an optional minus sign, an optional underscore and a type
    letter.  One further minus sign slips through after the first minus sign or after the underscore. *)
Theorem C22_accepted :
  forall l, (exists i, new_index l = Ok i) <->
            exists pre t rest, lower l = pre ++ letter t :: rest /\
                               In pre (map lit [""; "-"; "_"; "-_"; "--"; "_-"; "-_-"]%string).
Proof.
  intros l. split.
  - intros (i & H). unfold new_index in H. destruct (lower l) as [|c r] eqn:El; [discriminate|].
    destruct (Ascii.eqb_spec c "-") as [->|Nc]; cbn [negb] in H; cbv zeta in H.
    + destruct r as [|c r]; [discriminate|].
      apply bind_ok in H as (t & Ht & _).
      destruct (Ascii.eqb_spec c "_") as [->|Nu].
      * apply classify_ok in Ht as [(q & Eq)|(q & Eq)].
        -- destruct r as [|c' r]; [destruct t; discriminate Eq|]. injection Eq as -> _.
           exists (lit "-_"), t, r. (split; [reflexivity|cbn; tauto]).
        -- destruct r as [|c' r]; [discriminate Eq|]. injection Eq as -> Eq.
           destruct r as [|c'' r]; [destruct t; discriminate Eq|]. injection Eq as -> _.
           exists (lit "-_-"), t, r. (split; [reflexivity|cbn; tauto]).
      * apply classify_ok in Ht as [(q & Eq)|(q & Eq)].
        -- injection Eq as -> ->. exists (lit "-"), t, q. (split; [reflexivity|cbn; tauto]).
        -- injection Eq as -> ->. exists (lit "--"), t, q. (split; [reflexivity|cbn; tauto]).
    + apply bind_ok in H as (t & Ht & _).
      destruct (Ascii.eqb_spec c "_") as [->|Nu].
      * apply classify_ok in Ht as [(q & Eq)|(q & Eq)].
        -- destruct r as [|c' r]; [destruct t; discriminate Eq|]. injection Eq as -> _.
           exists (lit "_"), t, r. (split; [reflexivity|cbn; tauto]).
        -- destruct r as [|c' r]; [discriminate Eq|]. injection Eq as -> Eq.
           destruct r as [|c'' r]; [destruct t; discriminate Eq|]. injection Eq as -> _.
           exists (lit "_-"), t, r. (split; [reflexivity|cbn; tauto]).
      * apply classify_ok in Ht as [(q & Eq)|(q & Eq)].
        -- injection Eq as -> ->. exists (lit ""), t, q. (split; [reflexivity|cbn; tauto]).
        -- injection Eq as -> _. now destruct Nc.
  - intros (pre & t & rest & El & Hp).
    assert (G : forall x, (exists q, x = letter t :: q) \/ (exists q, x = "-"%char :: letter t :: q) ->
                classify_index x = Ok t) by (intros x; apply classify_ok).
    assert (Hd : Ascii.eqb (letter t) "-" = false) by now destruct t.
    assert (Hu : Ascii.eqb (letter t) "_" = false) by now destruct t.
    unfold new_index. rewrite El. cbn in Hp.
    destruct Hp as [<-|[<-|[<-|[<-|[<-|[<-|[<-|[]]]]]]]]; cbn [app]; rewrite ?Hd;
      cbn [Ascii.eqb Bool.eqb negb]; rewrite ?Hu; cbn [Ascii.eqb Bool.eqb negb app];
      rewrite G by (cbn [app]; eauto); eexists; reflexivity.
Qed.

(** An accepted label in the documented form: type and height can be read off, an underscore moves to the end of
    the name. *)
Theorem C22_index_of_label :
  forall l low auto t rest, lower l = spelled low auto t rest ->
    new_index l = Ok (mkIndex l (letter t :: rest ++ (if auto then lit "_" else [])) t (negb low)).
Proof. intros. now apply new_index_spelled. Qed.

(** Raising/lowering keeps name and type, changes the height, and undoes itself. *)
Theorem C22_neg :
  forall l low auto t rest i, lower l = spelled low auto t rest -> new_index l = Ok i ->
    exists j, neg_index i = Ok j /\ ix_name j = ix_name i /\ ix_type j = ix_type i /\ ix_up j = negb (ix_up i) /\
              neg_index j = Ok i.
Proof.
  intros l low auto t rest i El Hi. rewrite (new_index_spelled _ _ _ _ _ El) in Hi. injection Hi as <-.
  unfold neg_index at 1. cbn [ix_up ix_label ix_name ix_type].
  destruct low; cbn [negb].
  - destruct l as [|c l]; [discriminate El|].
    assert (Hc : c = "-"%char).
    { apply lower_char_dash. cbn in El. now injection El. }
    subst c. cbn [tl]. assert (El' : lower l = spelled false auto t rest) by (cbn in El; now injection El).
    rewrite (new_index_spelled _ _ _ _ _ El'). eexists. split; [reflexivity|]. cbn [ix_name ix_type ix_up negb]. repeat split.
    unfold neg_index. cbn [ix_up ix_label]. now rewrite (new_index_spelled _ true auto t rest) by exact El.
  - assert (El' : lower (lit "-" ++ l) = spelled true auto t rest).
    { cbn. f_equal. exact El. }
    rewrite (new_index_spelled _ _ _ _ _ El'). eexists. split; [reflexivity|]. cbn [ix_name ix_type ix_up negb]. repeat split.
    unfold neg_index. cbn [ix_up ix_label tl]. now rewrite (new_index_spelled _ false auto t rest) by exact El.
Qed.

(** For a label with two minus signs it does not: raising it gives a lowered index again. *)
Theorem C22_neg_refuted :
  exists l i j, new_index l = Ok i /\ neg_index i = Ok j /\ ix_up i = false /\ ix_up j = false /\
                neg_index j <> Ok i.
Proof.
  exists (lit "--c0"). eexists. eexists. split; [vm_compute; reflexivity|]. split; [vm_compute; reflexivity|].
  split; [reflexivity|]. split; [reflexivity|]. vm_compute. discriminate.
Qed.

(** Conjugation of an index whose type letter is in lower case: isospin and generation indices stay, colour is
    raised/lowered, and a Lorentz index gets the other Lorentz type at the same height. *)
Theorem C22_conj :
  forall low auto t rest i, new_index (spelled low auto t rest) = Ok i ->
    exists j, conj_index i = Ok j /\ ix_type j = conj_type t /\
      match t with
      | Isospin | Generation => j = i
      | Colour => ix_name j = ix_name i /\ ix_up j = negb (ix_up i)
      | Undotted | Dotted => ix_up j = ix_up i /\ List.length (ix_name j) = List.length (ix_name i)
      end.
Proof.
  intros low auto t rest i Hi. pose proof (lower_spelled low auto t rest) as El.
  pose proof (C22_neg _ _ _ _ _ _ El Hi) as (j & Hj & N1 & N2 & N3 & _).
  rewrite (new_index_spelled _ _ _ _ _ El) in Hi. injection Hi as <-.
  unfold conj_index. cbn [ix_type ix_label]. destruct t.
  - rewrite (replace_spelled _ _ Undotted Dotted) by reflexivity.
    rewrite (new_index_spelled _ low auto Dotted _ (lower_spelled _ _ _ _)). eexists. split; [reflexivity|].
    cbn. repeat split. f_equal. rewrite !app_length. unfold lower, replace_char. now rewrite !map_length.
  - rewrite (replace_spelled _ _ Dotted Undotted) by reflexivity.
    rewrite (new_index_spelled _ low auto Undotted _ (lower_spelled _ _ _ _)). eexists. split; [reflexivity|].
    cbn. repeat split. f_equal. rewrite !app_length. unfold lower, replace_char. now rewrite !map_length.
  - exists j. cbn in *. auto.
  - eexists. cbn. auto.
  - eexists. cbn. auto.
Qed.

(** When the rest of the name contains neither u nor d (a number, say), only the letter changes. *)
Theorem C22_conj_lorentz :
  forall low auto t rest, t = Undotted \/ t = Dotted -> ~ In "u"%char rest -> ~ In "d"%char rest ->
    forall i, new_index (spelled low auto t rest) = Ok i ->
    conj_index i = new_index (spelled low auto (conj_type t) rest).
Proof.
  intros low auto t rest Ht Nu Nd i Hi.
  rewrite (new_index_spelled _ _ _ _ _ (lower_spelled low auto t rest)) in Hi. injection Hi as <-.
  assert (Nrep : forall a b x, ~ In a x -> replace_char a b x = x).
  { intros a b x N. unfold replace_char. rewrite <- (map_id x) at 2. apply map_ext_in. intros c I.
    destruct (Ascii.eqb_spec c a); [now subst|reflexivity]. }
  unfold conj_index. cbn [ix_type ix_label]. destruct Ht as [-> | ->].
  - rewrite (replace_spelled _ _ Undotted Dotted) by reflexivity. now rewrite Nrep.
  - rewrite (replace_spelled _ _ Dotted Undotted) by reflexivity. now rewrite Nrep.
Qed.

(** Conjugating twice gives the index back exactly when the rest of a Lorentz label does not contain the letter
    of the other Lorentz type; for the other types it always does. *)
Theorem C22_conj_twice :
  forall low auto t rest i j, new_index (spelled low auto t rest) = Ok i -> conj_index i = Ok j ->
    (conj_index j = Ok i <->
     match t with Undotted => ~ In "d"%char rest | Dotted => ~ In "u"%char rest | _ => True end).
Proof.
  intros low auto t rest i j Hi Hj. pose proof (lower_spelled low auto t rest) as El.
  pose proof (C22_neg _ _ _ _ _ _ El Hi) as (k & Hk & N1 & N2 & N3 & N4).
  rewrite (new_index_spelled _ _ _ _ _ El) in Hi. injection Hi as <-.
  unfold conj_index in Hj. cbn [ix_type ix_label] in Hj. destruct t.
  - rewrite (replace_spelled _ _ Undotted Dotted) in Hj by reflexivity.
    rewrite (new_index_spelled _ low auto Dotted _ (lower_spelled _ _ _ _)) in Hj. injection Hj as <-.
    unfold conj_index. cbn [ix_type ix_label].
    rewrite (replace_spelled _ _ Dotted Undotted) by reflexivity.
    rewrite (new_index_spelled _ low auto Undotted _ (lower_spelled _ _ _ _)).
    rewrite <- (replace_replace "u" "d" rest) by discriminate. split.
    + intros [= H _]. unfold spelled in H. destruct low, auto; cbn [app] in H; now injection H.
    + intros H. now rewrite H.
  - rewrite (replace_spelled _ _ Dotted Undotted) in Hj by reflexivity.
    rewrite (new_index_spelled _ low auto Undotted _ (lower_spelled _ _ _ _)) in Hj. injection Hj as <-.
    unfold conj_index. cbn [ix_type ix_label].
    rewrite (replace_spelled _ _ Undotted Dotted) by reflexivity.
    rewrite (new_index_spelled _ low auto Dotted _ (lower_spelled _ _ _ _)).
    rewrite <- (replace_replace "d" "u" rest) by discriminate. split.
    + intros [= H _]. unfold spelled in H. destruct low, auto; cbn [app] in H; now injection H.
    + intros H. now rewrite H.
  - rewrite Hk in Hj. injection Hj as <-. split; [auto|]. intros _.
    unfold conj_index. rewrite N2. cbn [ix_type]. exact N4.
  - injection Hj as <-. cbn. tauto.
  - injection Hj as <-. cbn. tauto.
Qed.

(** Neither holds for capital letters, which Index accepts: the conjugate of U0 is U0, an undotted index. *)
Theorem C22_conj_refuted :
  (exists l i, new_index l = Ok i /\ ix_type i = Undotted /\ conj_index i = Ok i) /\
  (exists l i j k, new_index l = Ok i /\ ix_type i = Undotted /\ conj_index i = Ok j /\ conj_index j = Ok k /\
                   index_eqb i k = false).
Proof.
  split.
  - exists (lit "U0"). eexists. vm_compute. repeat split.
  - exists (lit "u0d"). do 3 eexists. repeat (split; [vm_compute; reflexivity|]). vm_compute. reflexivity.
Qed.

(** Printing an index and reading it again gives an equal index. *)
Theorem C22_print_parse :
  forall l low auto t rest i, lower l = spelled low auto t rest -> new_index l = Ok i ->
    exists j, new_index (show_index i) = Ok j /\ index_eqb i j = true.
Proof.
  intros l low auto t rest i El Hi.
  rewrite (new_index_spelled _ _ _ _ _ El) in Hi. injection Hi as <-.
  assert (Hr : lower rest = rest).
  { pose proof (f_equal lower El) as E. rewrite lower_idem, El, lower_spelled in E. unfold spelled in E.
    apply app_inv_head, app_inv_head in E. now injection E. }
  assert (E : lower (show_index (mkIndex l (letter t :: rest ++ (if auto then lit "_" else [])) t (negb low))) =
              spelled low false t (rest ++ (if auto then lit "_" else []))).
  { unfold show_index. cbn [ix_up ix_name]. unfold spelled, lower. rewrite map_app. cbn [map].
    rewrite map_app, lower_letter. fold (lower rest). rewrite Hr. now destruct low, auto. }
  eexists. split; [exact (new_index_spelled _ _ _ _ _ E)|].
  apply index_eqb_spec. cbn. rewrite app_nil_r. auto.
Qed.

Example C22_example :
  new_index (lit "-c3") = Ok (mkIndex (lit "-c3") (lit "c3") Colour false) /\
  neg_index (mkIndex (lit "-c3") (lit "c3") Colour false) = Ok (mkIndex (lit "c3") (lit "c3") Colour true) /\
  conj_index (mkIndex (lit "_u7") (lit "u7_") Undotted true) = Ok (mkIndex (lit "_d7") (lit "d7_") Dotted true) /\
  conj_index_string (lit "u0 -c1 i2") = Ok (lit "d0 c1 i2").
Proof. vm_compute. auto. Qed.

(** ** C23: fresh indices *)

(** A program asks for fresh indices by type letter or by Dynkin string. *)
Inductive request := RFresh (t : itype) | RDynkin (a b c d e : nat).

Definition request_ok (r : request) : Prop :=
  match r with RFresh _ => True | RDynkin a b c d e => a < 10 /\ b < 10 /\ c < 10 /\ d < 10 /\ e < 10 end.

Definition answer (r : request) (st : counters) : res (list index * counters) :=
  match r with
  | RFresh t => do x <- fresh (letter t) st; Ok ([fst x], snd x)
  | RDynkin a b c d e => fresh_index_list [digit a; digit b; digit c; digit d; digit e] st
  end.

Fixpoint answers (rs : list request) (st : counters) : res (list (list index) * counters) :=
  match rs with
  | [] => Ok ([], st)
  | r :: rs => do x <- answer r st; do y <- answers rs (snd x); Ok (fst x :: fst y, snd y)
  end.

(** names made for a type so far, as numbers *)
Lemma answer_names r st :
  request_ok r ->
  exists l st', answer r st = Ok (l, st') /\
    (forall t, st t <= st' t) /\ NoDup (map ix_name l) /\
    (forall i, In i l -> exists t n, ix_name i = fresh_name t n /\ st t <= n < st' t).
Proof.
  destruct r as [t|a b c d e]; intros H.
  - exists [fresh_index t (st t)], (bump t st). cbn [answer]. rewrite fresh_ok. cbn [bind fst snd].
    split; [reflexivity|]. split; [|split].
    + intros t'. unfold bump. destruct (itype_eqb t' t); lia.
    + cbn. constructor; [auto|constructor].
    + intros i [<-|[]]. exists t, (st t). split; [reflexivity|]. unfold bump.
      rewrite (decides_refl itype_decides). lia.
  - destruct H as (Ha & Hb & Hc & Hd & He).
    destruct (fresh_list_ok a b c d e st Ha Hb Hc Hd He) as (st' & E & E1 & E2 & E3 & E4 & E5).
    eexists. exists st'. cbn [answer]. split; [exact E|]. split; [|split].
    + intros []; lia.
    + rewrite !map_app, !map_name_block.
      set (idx := map (pair Undotted) (seq (st Undotted) a) ++ map (pair Dotted) (seq (st Dotted) b) ++
                  map (pair Colour) (seq (st Colour) c ++ seq (c + st Colour) d) ++
                  map (pair Isospin) (seq (st Isospin) e)).
      assert (Em : map (fresh_name Undotted) (seq (st Undotted) a) ++ map (fresh_name Dotted) (seq (st Dotted) b) ++
                   map (fresh_name Colour) (seq (st Colour) c) ++ map (fresh_name Colour) (seq (c + st Colour) d) ++
                   map (fresh_name Isospin) (seq (st Isospin) e) = map (fun p => fresh_name (fst p) (snd p)) idx).
      { unfold idx. rewrite !map_app, !map_map. cbn [fst snd]. now rewrite <- !app_assoc. }
      rewrite Em. apply FinFun.Injective_map_NoDup.
      { intros [t n] [t' n'] Eq. cbn in Eq. apply fresh_name_inj in Eq as [-> ->]. reflexivity. }
      assert (ND : forall t l, NoDup l -> NoDup (map (@pair itype nat t) l)).
      { intros t l N. apply FinFun.Injective_map_NoDup; [|exact N]. intros x y [= ->]. reflexivity. }
      assert (Ap : forall (x y : list (itype * nat)), NoDup x -> NoDup y -> (forall p, In p x -> ~ In p y) -> NoDup (x ++ y)).
      { induction x as [|p x IH]; intros y Nx Ny Hxy; [exact Ny|]. inversion Nx; subst. cbn. constructor.
        - rewrite in_app_iff. intros [I|I]; [now apply H1|]. apply (Hxy p); [now left|exact I].
        - apply IH; auto. intros q Iq. apply Hxy. now right. }
      assert (Sq : seq (st Colour) c ++ seq (c + st Colour) d = seq (st Colour) (c + d)).
      { rewrite seq_app. f_equal. f_equal. lia. }
      unfold idx. rewrite Sq.
      repeat apply Ap; try (apply ND, seq_NoDup);
        intros [t n] I J; rewrite ?in_app_iff, ?in_map_iff in *;
        repeat match goal with
               | H : exists _, _ |- _ => destruct H as (? & ? & ?)
               | H : _ \/ _ |- _ => destruct H
               end; congruence.
    + intros i I.
      assert (Gt : forall (raised : bool) t n k, In i (fresh_block raised t n k) -> exists m, ix_name i = fresh_name t m /\ k <= m < k + n).
      { intros raised t n k Ib. unfold fresh_block in Ib. apply in_map_iff in Ib as (m & Em & Im).
        apply in_seq in Im. exists m. split; [|lia]. subst i. now destruct raised. }
      rewrite !in_app_iff in I. destruct I as [I|[I|[I|[I|I]]]]; apply Gt in I as (m & Em & Hm);
        [exists Undotted|exists Dotted|exists Colour|exists Colour|exists Isospin]; exists m;
        (split; [exact Em|lia]).
Qed.

(** Whatever was generated before, no sequence of requests ever yields two indices with the same name. *)
Theorem C23_never_repeated :
  forall rs st, Forall request_ok rs ->
    exists ls st', answers rs st = Ok (ls, st') /\ NoDup (map ix_name (concat ls)).
Proof.
  intros rs st H.
  enough (G : exists ls st', answers rs st = Ok (ls, st') /\ NoDup (map ix_name (concat ls)) /\
              forall i, In i (concat ls) -> exists t n, ix_name i = fresh_name t n /\ st t <= n).
  { destruct G as (ls & st' & E & N & _). eauto. }
  revert st. induction H as [|r rs Hr H IH]; intros st.
  - exists [], st. cbn. repeat split; [constructor|tauto].
  - destruct (answer_names r st Hr) as (l & s1 & E1 & M1 & N1 & B1).
    destruct (IH s1) as (ls & s2 & E2 & N2 & B2). exists (l :: ls), s2. cbn [answers]. rewrite E1. cbn [bind fst snd].
    rewrite E2. cbn [bind fst snd concat]. split; [reflexivity|]. split.
    + rewrite map_app.
      assert (D : forall x, In x (map ix_name l) -> ~ In x (map ix_name (concat ls))).
      { intros x Ix Jx. apply in_map_iff in Ix as (i & <- & Ii). apply in_map_iff in Jx as (j & Ej & Ij).
        destruct (B1 i Ii) as (t & n & En & Hn). destruct (B2 j Ij) as (t' & n' & En' & Hn').
        rewrite Ej, En in En'. apply fresh_name_inj in En' as [-> ->]. lia. }
      clear - N1 N2 D. induction (map ix_name l) as [|x xs IHx]; [exact N2|]. cbn.
      inversion N1; subst. constructor.
      * rewrite in_app_iff. intros [I|I]; [auto|]. apply (D x); [now left|exact I].
      * apply IHx; auto. intros y Iy. apply D. now right.
    + intros i I. apply in_app_iff in I as [I|I].
      * destruct (B1 i I) as (t & n & En & Hn). exists t, n. split; [exact En|lia].
      * destruct (B2 i I) as (t & n & En & Hn). exists t, n. split; [exact En|]. specialize (M1 t). lia.
Qed.

(** The indices made for a Dynkin string have the types and heights it asks for, in canonical order. *)
Theorem C23_kinds :
  forall a b c d e st, a < 10 -> b < 10 -> c < 10 -> d < 10 -> e < 10 ->
    exists l st', fresh_index_list [digit a; digit b; digit c; digit d; digit e] st = Ok (l, st') /\
                  map (fun i => (ix_type i, ix_up i)) l = canonical a b c d e.
Proof.
  intros a b c d e st Ha Hb Hc Hd He.
  destruct (fresh_list_ok a b c d e st Ha Hb Hc Hd He) as (st' & E & _).
  eexists. exists st'. split; [exact E|]. rewrite !map_app, !map_kind_block. reflexivity.
Qed.


Lemma fresh_reparse i :
  (exists (raised : bool) t n, i = (if raised then fresh_index t n else lowered (fresh_index t n) : index)) ->
  new_index (show_index i) = Ok (reindex i) /\ show_index i <> [] /\ ~ In " "%char (show_index i).
Proof.
  intros (raised & t & n & ->).
  assert (L : lower (show_nat n ++ lit "_") = show_nat n ++ lit "_").
  { unfold lower. rewrite map_app. fold (lower (show_nat n)). now rewrite digits_lower by apply show_digits. }
  assert (L' : lower (fresh_name t n) = letter t :: show_nat n ++ lit "_").
  { unfold fresh_name. transitivity (lower_char (letter t) :: lower (show_nat n ++ lit "_")); [reflexivity|].
    now rewrite lower_letter, L. }
  assert (Nsp : ~ In " "%char (letter t :: show_nat n ++ lit "_")).
  { intros [E|I]; [destruct t; discriminate E|]. apply in_app_iff in I as [I|[E|[]]]; [|discriminate E].
    pose proof (show_digits n) as D. rewrite Forall_forall in D. apply D, digit_char in I. cbn in I. lia. }
  destruct raised; cbn [ix_up ix_name show_index lowered fresh_index fresh_name app].
  - split; [|split; [discriminate|exact Nsp]].
    rewrite (new_index_spelled _ false false t (show_nat n ++ lit "_")).
    2:{ transitivity (lower (fresh_name t n)); [reflexivity|exact L']. }
    rewrite app_nil_r. reflexivity.
  - split; [|split; [discriminate|]].
    + change (show_index (lowered (fresh_index t n))) with (lit "-" ++ letter t :: show_nat n ++ lit "_").
      rewrite (new_index_spelled _ true false t (show_nat n ++ lit "_")).
      2:{ transitivity ("-"%char :: lower (fresh_name t n)); [reflexivity|]. now rewrite L'. }
      rewrite app_nil_r. reflexivity.
    + intros I. change (show_index (lowered (fresh_index t n))) with ("-"%char :: letter t :: show_nat n ++ lit "_") in I.
      destruct I as [E|I]; [discriminate E|]. now apply Nsp.
Qed.

(** The string returned by [fresh_indices], read again by the functions that take index strings, gives the same
    indices, and their Dynkin labels are those asked for. *)
Theorem C23_fresh_indices_string :
  forall a b c d e st, a < 10 -> b < 10 -> c < 10 -> d < 10 -> e < 10 ->
    let dynkin := [digit a; digit b; digit c; digit d; digit e] in
    exists s l l' st', fresh_indices dynkin st = Ok (s, st') /\ fresh_index_list dynkin st = Ok (l, st') /\
      mapM new_index (split_ws s) = Ok l' /\ Forall2 (fun i j => index_eqb i j = true) l l' /\
      get_dynkin l' = Ok dynkin.
Proof.
  intros a b c d e st Ha Hb Hc Hd He dynkin.
  destruct (fresh_list_ok a b c d e st Ha Hb Hc Hd He) as (st' & E & _).
  set (l := fresh_block true Undotted a (st Undotted) ++ _) in E.
  assert (Hl : Forall (fun i => exists (raised : bool) t n, i = (if raised then fresh_index t n else lowered (fresh_index t n) : index)) l).
  { assert (G : forall (raised : bool) t n k, Forall (fun i => exists (raised : bool) t n, i = (if raised then fresh_index t n else lowered (fresh_index t n) : index)) (fresh_block raised t n k)).
    { intros raised t n k. apply Forall_forall. intros i I. unfold fresh_block in I.
      apply in_map_iff in I as (m & <- & _). eauto. }
    unfold l. rewrite !Forall_app. repeat split; apply G. }
  exists (join (lit " ") (map show_index l)), l, (map reindex l), st'.
  unfold fresh_indices. fold dynkin in E. rewrite E. cbn [bind fst snd].
  split; [reflexivity|]. split; [reflexivity|].
  split; [|split].
  - rewrite split_ws_join.
    + clear E. clearbody l. induction Hl as [|i l Hi Hl IH]; [reflexivity|]. cbn [map mapM].
      apply fresh_reparse in Hi as (R & _). rewrite R. cbn [bind]. now rewrite IH.
    + clear E. clearbody l. induction Hl as [|i l Hi Hl IH]; constructor; [|exact IH].
      now apply fresh_reparse in Hi as (_ & R).
  - clear. induction l as [|i l IH]; constructor; [|exact IH]. apply index_eqb_spec. auto.
  - assert (K : map (fun i => (ix_type i, ix_up i)) (map reindex l) = canonical a b c d e).
    { rewrite map_map. cbn. unfold l. rewrite !map_app, !map_kind_block. reflexivity. }
    clearbody l. revert K. generalize (map reindex l). clear - Ha Hb Hc Hd He. intros l K.
    assert (C : forall t up, count_kind t up l =
                List.length (filter (fun p => itype_eqb (fst p) t && Bool.eqb (snd p) up) (canonical a b c d e))).
    { intros t up. rewrite <- K. clear. induction l as [|i l IH]; [reflexivity|].
      rewrite count_kind_cons, IH. cbn [map filter fst snd]. now destruct (itype_eqb (ix_type i) t && Bool.eqb (ix_up i) up). }
    assert (Rp : forall (p : itype * bool) n (P : itype * bool -> bool), List.length (filter P (repeat p n)) = if P p then n else 0).
    { intros p n P. induction n as [|n IH]; cbn; [now destruct (P p)|]. destruct (P p); cbn; rewrite IH; reflexivity. }
    assert (Ko : forallb kinds_ok l = true).
    { assert (G : forallb (fun p => snd p || itype_eqb (fst p) Colour || itype_eqb (fst p) Generation) (canonical a b c d e) = true).
      { unfold canonical. rewrite !forallb_app, !andb_true_iff.
        assert (R : forall (p : itype * bool) n (P : itype * bool -> bool), P p = true -> forallb P (repeat p n) = true).
        { intros p n P Hp. induction n as [|n IH]; [reflexivity|]. cbn. now rewrite Hp, IH. }
        repeat split; now apply R. }
      rewrite <- K in G. clear - G. induction l as [|i l IH]; [reflexivity|]. cbn in *.
      apply andb_true_iff in G as [G1 G2]. unfold kinds_ok at 1. rewrite G1. now apply IH. }
    rewrite (get_dynkin_ok _ Ko), !C. unfold canonical. rewrite !filter_app, !app_length, !Rp.
    cbn [fst snd itype_eqb Bool.eqb andb]. rewrite !Nat.add_0_r, !Nat.add_0_l.
    rewrite !show_nat_digit by assumption. reflexivity.
Qed.

Example C23_example :
  (do x <- fresh_indices (lit "10011") (fun _ => 3); do y <- fresh_indices (lit "10101") (snd x); Ok (fst x, fst y)) =
  Ok (lit "u3_ -c3_ i3_", lit "u4_ c4_ i4_").
Proof. vm_compute. reflexivity. Qed.

Print Assumptions C22_accepted.
Print Assumptions C22_index_of_label.
Print Assumptions C22_neg.
Print Assumptions C22_neg_refuted.
Print Assumptions C22_conj.
Print Assumptions C22_conj_lorentz.
Print Assumptions C22_conj_twice.
Print Assumptions C22_conj_refuted.
Print Assumptions C22_print_parse.
Print Assumptions C23_never_repeated.
Print Assumptions C23_kinds.
Print Assumptions C23_fresh_indices_string.
