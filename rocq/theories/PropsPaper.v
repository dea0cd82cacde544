(** * PropsPaper: what the table of operators for the paper shows (C103) *)

From Coq Require Import Ascii String List Bool Arith Lia.
From Verif Require Import Base Show ModelFunctions ModelIndex ModelField ModelContract ModelOperators DataPaper ModelPaper SpecPaper BaseFacts ProofsIndex PropsOperators2.
Import ListNotations.
Local Open Scope nat_scope.

(** ** The rows *)

Lemma startswith_spec p s : startswith p s = true <-> exists r, s = p ++ r.
Proof.
  revert s. induction p as [|x p IH]; intros s; cbn [startswith].
  - split; [intros _; now exists s|]. destruct s; reflexivity.
  - destruct s as [|y s]; cbn; [split; [discriminate|intros [r Q]; discriminate Q]|]. rewrite andb_true_iff, IH. split.
    + intros [E [r ->]]. apply Ascii.eqb_eq in E. subst. now exists r.
    + intros [r Q]. injection Q as -> ->. split; [apply Ascii.eqb_refl|now exists r].
Qed.

Lemma endswith_spec p s : endswith p s = true <-> exists r, s = r ++ p.
Proof.
  unfold endswith. rewrite startswith_spec. split; intros [r Q].
  - exists (rev r). rewrite <- (rev_involutive s), Q, rev_app_distr, rev_involutive. reflexivity.
  - exists (rev r). rewrite Q, rev_app_distr. reflexivity.
Qed.

Lemma drop_last_app r p : drop_last (List.length p) (r ++ p) = r.
Proof.
  unfold drop_last. rewrite app_length. replace (List.length r + List.length p - List.length p) with (List.length r) by lia. rewrite firstn_app, Nat.sub_diag. cbn. rewrite app_nil_r. apply firstn_all.
Qed.

Lemma endswith_not p s : endswith p s = false -> forall r, s <> r ++ p.
Proof. intros H r E. assert (X : endswith p s = true) by (apply endswith_spec; now exists r). rewrite X in H. discriminate H. Qed.

Theorem C103_primes : forall label, primed label (format_primes label).
Proof.
  intros s. unfold format_primes. destruct (endswith (lit "ppp") s) eqn:E3; [|destruct (endswith (lit "pp") s) eqn:E2; [|destruct (endswith (lit "p") s) eqn:E1]].
  - apply endswith_spec in E3 as [r ->]. exists r, 3. split; [reflexivity|]. split; [lia|]. split; [lia|]. replace (drop_last 3 (r ++ lit "ppp")) with r by (symmetry; exact (drop_last_app r (lit "ppp"))); reflexivity.
  - apply endswith_spec in E2 as [r ->]. exists r, 2. split; [reflexivity|]. split; [lia|]. split; [|replace (drop_last 2 (r ++ lit "pp")) with r by (symmetry; exact (drop_last_app r (lit "pp"))); reflexivity].
    intros _ b ->. apply (endswith_not _ _ E3 b). now rewrite <- app_assoc.
  - apply endswith_spec in E1 as [r ->]. exists r, 1. split; [reflexivity|]. split; [lia|]. split; [|replace (drop_last 1 (r ++ lit "p")) with r by (symmetry; exact (drop_last_app r (lit "p"))); reflexivity].
    intros _ b ->. apply (endswith_not _ _ E2 b). now rewrite <- app_assoc.
  - exists s, 0. split; [symmetry; apply app_nil_r|]. split; [lia|]. split; [|symmetry; apply app_nil_r]. intros _ b ->. exact (endswith_not _ _ E1 b eq_refl).
Qed.

(** dictionaries with different keys *)
Lemma dget_known {V} (d : list (str * V)) k v : NoDup (map fst d) -> (dget str_eqb d k = Some v <-> In (k, v) d).
Proof.
  induction d as [|[k' v'] d IH]; cbn [map fst dget]; intros N; [split; [discriminate|intros []]|]. inversion N as [|? ? Nk Nd]; subst. destruct (str_eqb k k') eqn:E.
  - apply str_decides in E. subst k'. split; [intros Q; injection Q as ->; now left|]. intros [Q|Q]; [now injection Q as ->|]. exfalso. apply Nk. apply (in_map fst) in Q. exact Q.
  - rewrite (IH Nd). split; [now right|]. intros [Q|Q]; [|exact Q]. injection Q as -> ->. rewrite (decides_refl str_decides) in E. discriminate E.
Qed.

Lemma dget_absent {V} (d : list (str * V)) k : dget str_eqb d k = None <-> ~ In k (map fst d).
Proof.
  induction d as [|[k' v'] d IH]; cbn [map fst dget]; [split; [intros _ []|reflexivity]|]. destruct (str_eqb k k') eqn:E.
  - apply str_decides in E. subst k'. split; [discriminate|]. intros H. exfalso. apply H. now left.
  - rewrite IH. split; intros H.
    + intros [->|I]; [rewrite (decides_refl str_decides) in E; discriminate E|auto].
    + intros I. apply H. now right.
Qed.

Lemma dget_strings d k : dget str_eqb (as_strings d) k = match dget str_eqb d k with Some n => Some (show_nat n) | None => None end.
Proof. induction d as [|[k' n] d IH]; [reflexivity|]. cbn. destruct (str_eqb k k'); auto. Qed.

Lemma counter_get ops : forall d k, dget str_eqb (fold_left (fun d k => dset str_eqb d k (S (match dget str_eqb d k with Some n => n | None => 0 end))) ops d) k =
  match List.length (filter (str_eqb k) ops), dget str_eqb d k with 0, x => x | n, Some m => Some (n + m) | n, None => Some n end.
Proof.
  induction ops as [|o ops IH]; intros d k; cbn [fold_left filter]; [reflexivity|]. rewrite IH, (dget_dset str_decides).
  destruct (str_eqb k o) eqn:E.
  - apply str_decides in E. subst o. cbn [List.length]. destruct (List.length (filter (str_eqb k) ops)), (dget str_eqb d k); f_equal; lia.
  - destruct (List.length (filter (str_eqb k) ops)), (dget str_eqb d k); reflexivity.
Qed.

Lemma zeros_get (models : list (str * nat)) : forall d k, In k (map fst models) ->
  dget str_eqb (fold_left (fun d kv => if dmem str_eqb d (fst kv) then d else dset str_eqb d (fst kv) 0) models d) k = Some (match dget str_eqb d k with Some n => n | None => 0 end).
Proof.
  assert (K : forall (models : list (str * nat)) d k n, dget str_eqb d k = Some n -> dget str_eqb (fold_left (fun d kv => if dmem str_eqb d (fst kv) then d else dset str_eqb d (fst kv) 0) models d) k = Some n).
  { clear. induction models as [|[a m] models IH]; intros d k n E; cbn [fold_left fst]; [exact E|]. apply IH. destruct (dmem str_eqb d a) eqn:M; [exact E|]. rewrite (dget_dset str_decides).
    destruct (str_eqb k a) eqn:Q; [|exact E]. apply str_decides in Q. subst a. unfold dmem in M. rewrite E in M. discriminate M. }
  induction models as [|[a m] models IH]; intros d k I; [destruct I|]. cbn [fold_left fst map] in *. destruct (str_eqb k a) eqn:Q.
  - apply str_decides in Q. subst a. apply K. unfold dmem. destruct (dget str_eqb d k) as [n|] eqn:E; [exact E|]. rewrite (dget_dset str_decides), (decides_refl str_decides). reflexivity.
  - destruct I as [<-|I]; [rewrite (decides_refl str_decides) in Q; discriminate Q|]. rewrite (IH _ _ I). destruct (dmem str_eqb d a); [reflexivity|]. rewrite (dget_dset str_decides), Q. reflexivity.
Qed.

Lemma filtered_get models ops k : In k (map fst models) -> dget str_eqb (filtered_counts models ops) k = Some (List.length (filter (str_eqb k) ops)).
Proof.
  intros I. unfold filtered_counts. rewrite (zeros_get _ _ _ I), counter_get. cbn [dget]. destruct (List.length (filter (str_eqb k) ops)); reflexivity.
Qed.

Section Rows.
  Variables (table_data : operator -> res (str * str)) (eff deriv : list (str * operator)) (models : list (str * nat)) (ops : list str).
  Hypotheses (Ne : NoDup (map fst eff)) (Nd : NoDup (map fst deriv)) (Nm : NoDup (map fst models)).

  (** the row printed for a label after [before] *)
  Definition row_printed (before : list str) (label latex s : str) : Prop :=
    exists op loops scale primes m f, current eff deriv (before ++ [label]) op /\ table_data op = Ok (loops, scale) /\ primed label primes /\
      counts show_nat models ops label m f /\
      s = lit "$" ++ primes ++ lit "$ & " ++ latex ++ lit " & " ++ m ++ lit " & " ++ f ++ lit " & " ++ loops ++ lit " & " ++ scale ++ lit " \\".

  (** why there is no row *)
  Definition row_missing (before : list str) (label : str) (e : exn) : Prop :=
    (Forall (unknown eff deriv) (before ++ [label]) /\ e = NameError) \/ exists op, current eff deriv (before ++ [label]) op /\ table_data op = Err e.

  Definition holds (before : list str) (op : option operator) : Prop :=
    match op with Some o => current eff deriv before o | None => Forall (unknown eff deriv) before end.

  Lemma next_holds before label op : holds before op -> holds (before ++ [label]) (next_op eff deriv label op).
  Proof using Ne Nd.
    intros H. unfold next_op. destruct (dget str_eqb eff label) as [o|] eqn:E.
    - apply (dget_known _ _ _ Ne) in E. exists before, label, []. split; [reflexivity|]. split; [now left|constructor].
    - apply dget_absent in E. destruct (dget str_eqb deriv label) as [o|] eqn:D.
      + apply (dget_known _ _ _ Nd) in D. exists before, label, []. split; [reflexivity|]. split; [right; auto|constructor].
      + apply dget_absent in D. destruct op as [o|]; cbn [holds] in *.
        * destruct H as (a & l & b & -> & K & U). exists a, l, (b ++ [label]). split; [now rewrite <- app_assoc|]. split; [exact K|]. apply Forall_app. split; [exact U|]. constructor; [split; auto|constructor].
        * apply Forall_app. split; [exact H|]. constructor; [split; auto|constructor].
  Qed.

  Lemma rows_spec : forall table before op, holds before op ->
    let (l, e) := rows table_data eff deriv (as_strings models) (as_strings (filtered_counts models ops)) table op in
    (forall n s, nth_error l n = Some s -> exists label latex, nth_error table n = Some (label, latex) /\ row_printed (before ++ map fst (firstn n table)) label latex s) /\
    match e with
    | None => List.length l = List.length table
    | Some x => exists label latex, nth_error table (List.length l) = Some (label, latex) /\ row_missing (before ++ map fst (firstn (List.length l) table)) label x
    end.
  Proof using Ne Nd Nm.
    induction table as [|[label latex] r IH]; intros before op H; cbn [rows]; [split; [intros [|n] s Q; discriminate Q|reflexivity]|].
    pose proof (next_holds before label op H) as H'. set (op' := next_op eff deriv label op) in *. cbv zeta.
    assert (Cm : exists m f, (if dmem str_eqb (as_strings models) label
                  then do m <- dgetM str_eqb (as_strings models) label; do f <- dgetM str_eqb (as_strings (filtered_counts models ops)) label; Ok (m, f)
                  else Ok ([], [])) = Ok (m, f) /\ counts show_nat models ops label m f).
    { unfold dmem, dgetM. rewrite !dget_strings. destruct (dget str_eqb models label) as [n|] eqn:E.
      - apply (dget_known _ _ _ Nm) in E. cbn [bind]. rewrite filtered_get by (apply (in_map fst) in E; exact E). cbn [bind]. do 2 eexists. split; [reflexivity|]. left. exists n. auto.
      - apply dget_absent in E. do 2 eexists. split; [reflexivity|]. right. auto. }
    destruct Cm as (m & f & Em & Cm). rewrite Em.
    destruct op' as [o|]; cbn [bind holds] in *.
    - destruct (table_data o) as [[loops scale]|x] eqn:Et; cbn [bind fst snd].
      + specialize (IH (before ++ [label]) (Some o) H'). destruct (rows _ _ _ _ _ r (Some o)) as [l e]. destruct IH as [I1 I2]. split.
        * intros [|n] s Q; cbn in Q.
          -- injection Q as <-. exists label, latex. split; [reflexivity|]. cbn [firstn map]. rewrite app_nil_r. exists o, loops, scale, (format_primes label), m, f. repeat (split; [assumption || apply C103_primes|]). reflexivity.
          -- destruct (I1 n s Q) as (la & lt & N & R). exists la, lt. split; [exact N|]. cbn [firstn map fst]. rewrite <- app_assoc in R. exact R.
        * destruct e as [x|]; [|cbn; now rewrite I2]. destruct I2 as (la & lt & N & R). exists la, lt. split; [exact N|]. cbn [firstn map fst List.length]. rewrite <- app_assoc in R. exact R.
      + split; [intros [|n] s Q; discriminate Q|]. exists label, latex. split; [reflexivity|]. cbn [List.length firstn map]. rewrite app_nil_r. right. exists o. auto.
    - split; [intros [|n] s Q; discriminate Q|]. exists label, latex. split; [reflexivity|]. cbn [List.length firstn map]. rewrite app_nil_r. left. auto.
  Qed.
End Rows.

Definition paper_table : list (str * str) := map (fun kv => (lit (fst kv), lit (snd kv))) operator_latex.

(** The table has a row for every label in order, with the primes, the LaTeX, the numbers of models and the estimates of the operator,
    up to the first label for which there is no operator or no estimate. *)
Theorem C103_rows : forall table_data eff deriv models ops, NoDup (map fst eff) -> NoDup (map fst deriv) -> NoDup (map fst models) ->
  let (l, e) := print_paper_table table_data eff deriv models ops in
  (forall n s, nth_error l n = Some s -> exists label latex, nth_error paper_table n = Some (label, latex) /\
      row_printed table_data eff deriv models ops (map fst (firstn n paper_table)) label latex s) /\
  match e with
  | None => List.length l = List.length paper_table
  | Some x => exists label latex, nth_error paper_table (List.length l) = Some (label, latex) /\
      row_missing table_data eff deriv (map fst (firstn (List.length l) paper_table)) label x
  end.
Proof.
  intros td eff deriv models ops Ne Nd Nm. exact (rows_spec td eff deriv models ops Ne Nd Nm paper_table [] None (Forall_nil _)).
Qed.

(** ** The pictures *)

Definition joinedb (p : picture) (i j : nat) : bool := existsb (fun e => ((fst e =? i) && (snd e =? j)) || ((fst e =? j) && (snd e =? i))) (pc_joins p).

Lemma joinedb_ok p i j : joinedb p i j = true <-> joined p i j.
Proof.
  unfold joinedb, joined. rewrite existsb_exists. split.
  - intros ([a b] & I & H). cbn in H. apply orb_true_iff in H as [H|H]; apply andb_true_iff in H as [A B]; apply Nat.eqb_eq in A, B; subst; auto.
  - intros [I|I]; eexists; (split; [exact I|]); cbn; rewrite !Nat.eqb_refl; cbn; [reflexivity|apply orb_true_r].
Qed.

Section Same.
  Variables p q : picture.

  Definition fits (done : list nat) (j : nat) : bool :=
    let i := List.length done in
    str_eqb (nth i (pc_names p) []) (nth j (pc_names q) []) && negb (existsb (Nat.eqb j) done) &&
    forallb (fun x => Bool.eqb (joinedb p (fst x) i) (joinedb q (snd x) j)) (combine (seq 0 i) done).

  (** images of the factors, in order *)
  Fixpoint match_factors (k : nat) (done : list nat) : option (list nat) :=
    match k with
    | O => Some done
    | S k =>
      (fix try (l : list nat) := match l with
        | [] => None
        | j :: r => if fits done j then match match_factors k (done ++ [j]) with Some x => Some x | None => try r end else try r
        end) (seq 0 (List.length (pc_names q)))
    end.

  Definition same_by (l : list nat) : bool :=
    let n := List.length (pc_names p) in
    (n =? List.length (pc_names q)) && (List.length (pc_joins p) =? List.length (pc_joins q)) &&
    forallb (fun i => (nth i l 0 <? n) && str_eqb (nth (nth i l 0) (pc_names q) []) (nth i (pc_names p) []) &&
                      forallb (fun j => Bool.eqb (joinedb p i j) (joinedb q (nth i l 0) (nth j l 0)) && ((i =? j) || negb (nth i l 0 =? nth j l 0))) (seq 0 n)) (seq 0 n).

  Lemma same_by_ok l : same_by l = true -> same_picture p q.
  Proof.
    unfold same_by. rewrite !andb_true_iff. intros [[Hn Hj] H]. apply Nat.eqb_eq in Hn, Hj. rewrite forallb_forall in H.
    assert (G : forall i, i < List.length (pc_names p) -> In i (seq 0 (List.length (pc_names p)))) by (intros i I; apply in_seq; lia).
    assert (P : forall i, i < List.length (pc_names p) -> (nth i l 0 < List.length (pc_names p) /\ nth (nth i l 0) (pc_names q) [] = nth i (pc_names p) []) /\
      forall j, j < List.length (pc_names p) -> joinedb p i j = joinedb q (nth i l 0) (nth j l 0) /\ (nth i l 0 = nth j l 0 -> i = j)).
    { intros i I. specialize (H i (G i I)). rewrite !andb_true_iff in H. destruct H as [[A B] C]. split; [split; [now apply Nat.ltb_lt|now apply str_decides]|].
      intros j J. rewrite forallb_forall in C. specialize (C j (G j J)). apply andb_true_iff in C as [C1 C2]. split; [now apply Bool.eqb_prop|]. intros Q. rewrite Q, Nat.eqb_refl in C2. cbn in C2. rewrite orb_false_r in C2. now apply Nat.eqb_eq. }
    split; [exact Hn|]. split; [exact Hj|]. exists (fun i => nth i l 0). split; [|split].
    - intros i I. destruct (P i I) as [[A B] _]. split; [lia|exact B].
    - intros i j I J Q. now apply (P i I).
    - intros i j I J. rewrite <- !joinedb_ok. destruct (P i I) as [_ C]. destruct (C j J) as [-> _]. split; exact (fun x => x).
  Qed.

  Definition same_pictureb : bool := match match_factors (List.length (pc_names p)) [] with Some l => same_by l | None => false end.

  Lemma same_pictureb_ok : same_pictureb = true -> same_picture p q.
  Proof. unfold same_pictureb. destruct (match_factors _ _) as [l|]; [apply same_by_ok|discriminate]. Qed.

  (** no factors called [a] and [b] are joined *)
  Definition never_joined (a b : str) : bool :=
    negb (existsb (fun e => (str_eqb (nth (fst e) (pc_names q) []) a && str_eqb (nth (snd e) (pc_names q) []) b) ||
                            (str_eqb (nth (fst e) (pc_names q) []) b && str_eqb (nth (snd e) (pc_names q) []) a)) (pc_joins q)).

  Lemma differ_joins i j a b : never_joined a b = true -> joined p i j -> i < List.length (pc_names p) -> j < List.length (pc_names p) ->
    nth i (pc_names p) [] = a -> nth j (pc_names p) [] = b -> ~ same_picture p q.
  Proof.
    intros N J I I' A B (_ & _ & f & Hf & _ & Hj). apply (Hj i j I I') in J. destruct (Hf i I) as [_ Fi], (Hf j I') as [_ Fj]. unfold never_joined in N. apply negb_true_iff in N.
    assert (X : existsb (fun e => (str_eqb (nth (fst e) (pc_names q) []) a && str_eqb (nth (snd e) (pc_names q) []) b) ||
                            (str_eqb (nth (fst e) (pc_names q) []) b && str_eqb (nth (snd e) (pc_names q) []) a)) (pc_joins q) = true).
    { apply existsb_exists. destruct J as [J|J]; eexists; (split; [exact J|]); cbn [fst snd]; rewrite Fi, Fj, A, B, !(decides_refl str_decides); [reflexivity|apply orb_true_r]. }
    rewrite X in N. discriminate N.
  Qed.

  Lemma differ_names i a : i < List.length (pc_names p) -> nth i (pc_names p) [] = a -> existsb (str_eqb a) (pc_names q) = false -> ~ same_picture p q.
  Proof.
    intros I A N (_ & _ & f & Hf & _). destruct (Hf i I) as [L Fi]. assert (X : existsb (str_eqb a) (pc_names q) = true); [|rewrite X in N; discriminate N].
    apply existsb_exists. exists a. split; [|apply (decides_refl str_decides)]. rewrite <- A, <- Fi. now apply nth_In.
  Qed.
End Same.

(** positions of the fields that have the index [i] is contracted with *)
Definition partnerb (i j : index) : bool := str_eqb (ix_name j) (ix_name i) && itype_eqb (ix_type j) (ix_type i) && negb (Bool.eqb (ix_up j) (ix_up i)).
Definition carriers_of (fs : list ifield) (i : index) : list nat :=
  filter (fun n => match nth_error fs n with Some f => existsb (partnerb i) (i_indices f) | None => false end) (seq 0 (List.length fs)).

Lemma carriers_ok op i n : In n (carriers_of (fields_in op) i) <-> carries_partner op i n.
Proof.
  unfold carriers_of, carries_partner. rewrite filter_In, in_seq. split.
  - intros [_ H]. destruct (nth_error (fields_in op) n) as [f|]; [|discriminate H]. apply existsb_exists in H as (j & I & H). unfold partnerb in H. rewrite !andb_true_iff in H. destruct H as [[A B] C].
    exists f, j. split; [reflexivity|]. split; [exact I|]. apply str_decides in A. apply itype_decides in B. repeat split; auto. intros E. rewrite E, Bool.eqb_reflx in C. discriminate C.
  - intros (f & j & E & I & A & B & C). assert (L : n < List.length (fields_in op)) by (apply nth_error_Some; congruence). split; [lia|]. rewrite E. apply existsb_exists. exists j. split; [exact I|].
    unfold partnerb. rewrite A, B, (decides_refl str_decides), (decides_refl itype_decides). cbn. destruct (ix_up j), (ix_up i); try reflexivity; now destruct C.
Qed.

Definition join_of (fs : list ifield) (s : symbol) : option (nat * nat) :=
  match symbol_indices s with
  | [i; j] => if itype_eqb (ix_type i) Isospin && itype_eqb (ix_type j) Isospin
              then match carriers_of fs i, carriers_of fs j with [a], [b] => Some (a, b) | _, _ => None end
              else None
  | _ => None
  end.

Fixpoint joins_of (fs : list ifield) (l : list symbol) : option (list (nat * nat)) :=
  match l with
  | [] => Some []
  | s :: r => match join_of fs s, joins_of fs r with Some e, Some es => Some (e :: es) | _, _ => None end
  end.

Definition picture_of (op : list tensor) : option picture :=
  let fs := fields_in op in
  match joins_of fs (symbols_in op) with
  | Some es =>
    if forallb (fun n => match nth_error fs n with
                         | Some f => negb (existsb (fun i => itype_eqb (ix_type i) Isospin) (i_indices f)) || existsb (fun e => (fst e =? n) || (snd e =? n)) es
                         | None => true end) (seq 0 (List.length fs))
    then Some (mkPicture (map (fun f => f_label (i_field f)) fs) es) else None
  | None => None
  end.

Lemma joins_of_ok op : forall l es, joins_of (fields_in op) l = Some es -> forall es',
  Forall2 (fun s e => exists i j, symbol_indices s = [i; j] /\ ix_type i = Isospin /\ ix_type j = Isospin /\ carries_partner op i (fst e) /\ carries_partner op j (snd e)) l es' <-> es' = es.
Proof.
  induction l as [|s l IH]; intros es E es'; cbn [joins_of] in E.
  - injection E as <-. split; [intros F; inversion F; reflexivity|intros ->; constructor].
  - destruct (join_of (fields_in op) s) as [[a b]|] eqn:Ej; [|discriminate E]. destruct (joins_of (fields_in op) l) as [r|] eqn:Er; [|discriminate E]. injection E as <-.
    unfold join_of in Ej. destruct (symbol_indices s) as [|i [|j [|]]] eqn:Es; try discriminate Ej. destruct (itype_eqb (ix_type i) Isospin && itype_eqb (ix_type j) Isospin) eqn:Et; [|discriminate Ej].
    apply andb_true_iff in Et as [Ti Tj]. apply itype_decides in Ti, Tj. destruct (carriers_of (fields_in op) i) as [|a0 [|]] eqn:Ca; try discriminate Ej. destruct (carriers_of (fields_in op) j) as [|b0 [|]] eqn:Cb; try discriminate Ej. injection Ej as -> ->.
    assert (Ua : forall n, carries_partner op i n <-> n = a) by (intros n; rewrite <- carriers_ok, Ca; cbn; intuition).
    assert (Ub : forall n, carries_partner op j n <-> n = b) by (intros n; rewrite <- carriers_ok, Cb; cbn; intuition).
    split.
    + intros F. inversion F as [|? [a' b'] ? es0 (i' & j' & Q & _ & _ & A & B) F']; subst. rewrite Es in Q. injection Q as <- <-. apply Ua in A. apply Ub in B. cbn in A, B. subst. f_equal. now apply (IH r eq_refl).
    + intros ->. constructor; [|now apply (IH r eq_refl)]. exists i, j. rewrite Es. repeat (split; [assumption || reflexivity|]). split; [now apply Ua|now apply Ub].
Qed.

Lemma picture_of_ok op q : picture_of op = Some q -> forall q', pictures op q' <-> q' = q.
Proof.
  unfold picture_of. intros E q'. destruct (joins_of (fields_in op) (symbols_in op)) as [es|] eqn:Ej; [|discriminate E].
  destruct (forallb _ _) eqn:Ef in E; [|discriminate E]. injection E as <-. unfold pictures. rewrite (joins_of_ok op _ _ Ej). split.
  - intros (A & B & _). destruct q' as [n j]. cbn in A, B. now subst.
  - intros ->. cbn [pc_names pc_joins]. split; [reflexivity|]. split; [reflexivity|]. intros n f i N I T. rewrite forallb_forall in Ef.
    assert (L : n < List.length (fields_in op)) by (apply nth_error_Some; congruence). specialize (Ef n). rewrite in_seq, N in Ef. specialize (Ef (conj (Nat.le_0_l n) L)).
    assert (X : existsb (fun i => itype_eqb (ix_type i) Isospin) (i_indices f) = true) by (apply existsb_exists; exists i; split; [exact I|now apply itype_decides]). rewrite X in Ef. cbn [negb orb] in Ef.
    apply existsb_exists in Ef as ([a b] & Ie & H). cbn in H. apply orb_true_iff in H as [H|H]; apply Nat.eqb_eq in H; subst; [exists b; now left|exists a; now right].
Qed.

Definition showsb (latex : str) (op : list tensor) : bool :=
  match meaning paper_table (S (List.length paper_table)) latex, picture_of op with Some p, Some q => same_pictureb p q | _, _ => false end.

Lemma showsb_ok latex op : showsb latex op = true -> shows paper_table latex op.
Proof.
  unfold showsb. intros H. destruct (meaning _ _ _) as [p|] eqn:Ep; [|discriminate H]. destruct (picture_of op) as [q|] eqn:Eq; [|discriminate H].
  exists p, q. split; [exact Ep|]. split; [now apply (picture_of_ok op q Eq)|now apply same_pictureb_ok].
Qed.


(** the rows that do not show the operator *)
Definition wrong_rows : list str := map lit ["27d"; "32e"; "32f"; "59c"; "D15"]%string.

Definition lookup (a b : list (str * operator)) (k : str) : option operator :=
  match dget str_eqb a k with Some op => Some op | None => dget str_eqb b k end.

Lemma lookup_known a b k op : NoDup (map fst a) -> NoDup (map fst b) -> (known a b k op <-> lookup a b k = Some op).
Proof.
  intros Na Nb. unfold known, lookup, operator in *. rewrite <- (dget_known a k op Na), <- (dget_known b k op Nb), <- (dget_absent a k). destruct (dget str_eqb a k) as [o|].
  - split; [intros [Q|[Q _]]; [exact Q|discriminate Q]|auto].
  - split; [intros [Q|[_ Q]]; [discriminate Q|exact Q]|auto].
Qed.

Lemma lookup_unknown a b k : unknown a b k <-> lookup a b k = None.
Proof.
  unfold unknown, lookup, operator in *. rewrite <- (dget_absent a k), <- (dget_absent b k). destruct (dget str_eqb a k); split; auto; [intros [Q _]; discriminate Q|discriminate|intros [_ Q]; exact Q].
Qed.

Definition with_operators (P : list (str * operator) -> list (str * operator) -> bool) : bool :=
  match eff_operators, deriv_eff_operators with Ok a, Ok b => P a b | _, _ => false end.

Lemma with_operators_ok P a b : with_operators P = true -> eff_operators = Ok a -> deriv_eff_operators = Ok b -> P a b = true.
Proof. unfold with_operators. intros H Ea Eb. rewrite Ea, Eb in H. exact H. Qed.

Lemma shown_checked : with_operators (fun a b => forallb (fun r => mem_by str_eqb (fst r) wrong_rows ||
  match lookup a b (fst r) with Some op => showsb (snd r) op | None => true end) paper_table) = true.
Proof. vm_compute. reflexivity. Qed.

(** Every row but five shows the operator with its label: the same fields, and isospin contracted in the same way. *)
Theorem C103_shown : exists a b, eff_operators = Ok a /\ deriv_eff_operators = Ok b /\ NoDup (map fst a) /\ NoDup (map fst b) /\
  forall label latex op, In (label, latex) paper_table -> known a b label op -> ~ In label wrong_rows -> shows paper_table latex op.
Proof.
  destruct C87_operators as (a & Ea & _ & Na & _). destruct C87_deriv as (b & Eb & _ & Nb & _). exists a, b. repeat (split; [assumption|]). intros label latex op I K W.
  pose proof (with_operators_ok _ a b shown_checked Ea Eb) as H. cbv beta in H. rewrite forallb_forall in H. specialize (H (label, latex) I). cbn [fst snd] in H. apply (lookup_known a b _ _ Na Nb) in K. rewrite K in H.
  apply showsb_ok. apply orb_true_iff in H as [H|H]; [|exact H]. exfalso. apply W. now apply (mem_by_In str_decides).
Qed.

(** a row that cannot be read, with a factor that the operator does not have, with an epsilon that it does not have *)
Definition wrongb (latex : str) (op : operator) : bool :=
  match picture_of op, meaning paper_table (S (List.length paper_table)) latex with
  | None, _ => false
  | Some _, None => true
  | Some q, Some p =>
    existsb (fun a => negb (existsb (str_eqb a) (pc_names q))) (pc_names p) ||
    existsb (fun e => (fst e <? List.length (pc_names p)) && (snd e <? List.length (pc_names p)) && never_joined q (nth (fst e) (pc_names p) []) (nth (snd e) (pc_names p) [])) (pc_joins p)
  end.

Lemma wrongb_ok latex op : wrongb latex op = true -> ~ shows paper_table latex op.
Proof.
  unfold wrongb. intros H (p & q & Ep & Pq & S). destruct (picture_of op) as [q0|] eqn:Eq; [|discriminate H]. apply (picture_of_ok op q0 Eq) in Pq. subst q0. rewrite Ep in H.
  apply orb_true_iff in H as [H|H]; apply existsb_exists in H.
  - destruct H as (a & I & H). apply negb_true_iff in H. apply In_nth with (d := []) in I as (i & L & A). exact (differ_names p q i a L A H S).
  - destruct H as ([i j] & I & H). cbn [fst snd] in H. rewrite !andb_true_iff in H. destruct H as [[L1 L2] H]. apply Nat.ltb_lt in L1, L2. exact (differ_joins p q i j _ _ H (or_introl I) L1 L2 eq_refl eq_refl S).
Qed.

Lemma wrong_checked : with_operators (fun a b => forallb (fun k => existsb (fun r => str_eqb (fst r) k && match lookup a b k with Some op => wrongb (snd r) op | None => false end) paper_table) wrong_rows) = true.
Proof. vm_compute. reflexivity. Qed.

(** The rows 27d, 59c (other contraction), 32e, 32f (an epsilon is missing) and D15 (derivative at another field) do not. *)
Theorem C103_wrong_refuted : exists a b, eff_operators = Ok a /\ deriv_eff_operators = Ok b /\
  forall label, In label wrong_rows -> exists latex op, In (label, latex) paper_table /\ known a b label op /\ ~ shows paper_table latex op.
Proof.
  destruct C87_operators as (a & Ea & _ & Na & _). destruct C87_deriv as (b & Eb & _ & Nb & _). exists a, b. repeat (split; [assumption|]). intros label W.
  pose proof (with_operators_ok _ a b wrong_checked Ea Eb) as H. cbv beta in H. rewrite forallb_forall in H. specialize (H label W). apply existsb_exists in H as ([k latex] & I & H). cbn [fst snd] in H.
  apply andb_true_iff in H as [Q H]. apply str_decides in Q. subst k. destruct (lookup a b label) as [op|] eqn:L; [|discriminate H]. exists latex, op. split; [exact I|]. split; [now apply (lookup_known a b _ _ Na Nb)|now apply wrongb_ok].
Qed.

(** labels without operator, and the last one before with an operator *)
Definition stale_rows : list (str * str) := map (fun x => (lit (fst x), lit (snd x))) [("1ppp", "1pp"); ("D1", "82"); ("D11", "D10c"); ("D19a", "D18f"); ("D19b", "D18f"); ("D19c", "D18f")]%string.

Fixpoint last_known (a b : list (str * operator)) (op : option str) (l : list str) : option str :=
  match l with [] => op | k :: r => last_known a b (match lookup a b k with Some _ => Some k | None => op end) r end.

Fixpoint position (k : str) (l : list (str * str)) : nat := match l with [] => 0 | r :: l => if str_eqb k (fst r) then 0 else S (position k l) end.

Lemma stale_checked : with_operators (fun a b =>
  forallb (fun r => match lookup a b (fst r) with Some _ => true | None => mem_by str_eqb (fst r) (map fst stale_rows) end) paper_table &&
  forallb (fun x => (position (fst x) paper_table <? List.length paper_table) && match lookup a b (fst x) with Some _ => false | None => true end &&
                    match last_known a b None (firstn (S (position (fst x) paper_table)) (map fst paper_table)) with Some k => str_eqb k (snd x) | None => false end) stale_rows) = true.
Proof. vm_compute. reflexivity. Qed.

Lemma last_known_spec a b : NoDup (map fst a) -> NoDup (map fst b) -> forall l op k, last_known a b op l = Some k -> (op = Some k /\ Forall (unknown a b) l) \/ exists p q o, l = p ++ k :: q /\ known a b k o /\ Forall (unknown a b) q.
Proof.
  intros Na Nb. induction l as [|x l IH]; intros op k H; cbn [last_known] in H; [left; auto|]. destruct (IH _ _ H) as [[Q U]|(p & q & o & -> & K & U)]; [|right; exists (x :: p), q, o; auto].
  destruct (lookup a b x) as [o|] eqn:L.
  - injection Q as <-. right. exists [], l, o. split; [reflexivity|]. split; [now apply (lookup_known a b _ _ Na Nb)|exact U].
  - left. split; [exact Q|]. constructor; [now apply lookup_unknown|exact U].
Qed.

Lemma position_spec k l : position k l < List.length l -> exists v, nth_error l (position k l) = Some (k, v).
Proof.
  induction l as [|[k' v] l IH]; cbn [position List.length fst]; intros H; [lia|]. destruct (str_eqb k k') eqn:E; [apply str_decides in E; subst k'; now exists v|]. apply IH. lia.
Qed.

(** Six rows are about operators that the package does not have.  Loops and scale in these rows are those of another operator. *)
Theorem C103_stale_refuted : exists a b, eff_operators = Ok a /\ deriv_eff_operators = Ok b /\
  (forall label latex, In (label, latex) paper_table -> (unknown a b label <-> In label (map fst stale_rows))) /\
  forall label other, In (label, other) stale_rows -> exists n latex op, nth_error paper_table n = Some (label, latex) /\ known a b other op /\
    forall table_data models ops l s, NoDup (map fst models) -> print_paper_table table_data a b models ops = (l, None) -> nth_error l n = Some s ->
      exists loops scale rest, table_data op = Ok (loops, scale) /\ s = rest ++ lit " & " ++ loops ++ lit " & " ++ scale ++ lit " \\".
Proof.
  destruct C87_operators as (a & Ea & _ & Na & _). destruct C87_deriv as (b & Eb & _ & Nb & _). exists a, b. split; [exact Ea|]. split; [exact Eb|].
  pose proof (with_operators_ok _ a b stale_checked Ea Eb) as H. cbv beta in H. apply andb_true_iff in H as [H1 H2]. rewrite forallb_forall in H1, H2. split.
  - intros label latex I. rewrite lookup_unknown. split.
    + intros L. specialize (H1 (label, latex) I). cbn [fst] in H1. rewrite L in H1. now apply (mem_by_In str_decides).
    + intros J. apply in_map_iff in J as ([k o] & <- & J). specialize (H2 _ J). cbn [fst snd] in *. rewrite !andb_true_iff in H2. destruct H2 as [[_ H2] _]. destruct (lookup a b k); [discriminate H2|reflexivity].
  - intros label other I. specialize (H2 _ I). cbn [fst snd] in H2. rewrite !andb_true_iff in H2. destruct H2 as [[Lt _] H2]. apply Nat.ltb_lt in Lt. destruct (position_spec _ _ Lt) as (latex & Nt).
    set (n := position label paper_table) in *. destruct (last_known a b None (firstn (S n) (map fst paper_table))) as [k|] eqn:Lk; [|discriminate H2]. apply str_decides in H2. subst k.
    destruct (last_known_spec a b Na Nb _ _ _ Lk) as [[Q _]|(p & q & op & Ep & K & U)]; [discriminate Q|]. exists n, latex, op. split; [exact Nt|]. split; [exact K|].
    intros td models ops l s Nm Pr Ns. pose proof (C103_rows td a b models ops Na Nb Nm) as R. rewrite Pr in R. destruct R as [R _]. destruct (R n s Ns) as (label' & latex' & Nt' & op' & loops & scale & primes & m & f & C & T & _ & _ & ->).
    rewrite Nt in Nt'. injection Nt' as <- <-. exists loops, scale, (lit "$" ++ primes ++ lit "$ & " ++ latex ++ lit " & " ++ m ++ lit " & " ++ f). split.
    + rewrite <- T. f_equal. destruct C as (p' & k' & q' & Ep' & K' & U'). assert (Fp : firstn (S n) (map fst paper_table) = map fst (firstn n paper_table) ++ [label]).
      { clear - Nt. revert Nt. generalize paper_table n. intros t m. revert m. induction t as [|[x y] t IH]; intros [|m] Q; cbn [nth_error] in Q; try discriminate Q; [injection Q as <- <-; reflexivity|]. cbn [map fst]. change (x :: firstn (S m) (map fst t) = x :: (map fst (firstn m t) ++ [label])). f_equal. apply (IH m Q). }
      rewrite <- Fp, Ep in Ep'. assert (X : k' = other /\ q' = q).
      { clear - Ep' K K' U U'. assert (D : forall k o, known a b k o -> ~ unknown a b k).
        { intros k o [Q|[_ Q]] [A B]; [apply A|apply B]; apply (in_map fst) in Q; exact Q. }
        revert p' Ep'. induction p as [|x p IH]; intros [|x' p'] Q; cbn [app] in Q.
        - injection Q as -> ->. auto.
        - injection Q as -> Q. exfalso. subst q. rewrite Forall_forall in U. apply (D _ _ K'). apply U. apply in_app_iff. right. now left.
        - injection Q as -> Q. exfalso. subst q'. rewrite Forall_forall in U'. apply (D _ _ K). apply U'. apply in_app_iff. right. now left.
        - injection Q as _ Q. exact (IH p' Q). }
      destruct X as [-> _]. apply (lookup_known a b _ _ Na Nb) in K, K'. rewrite K in K'. now injection K' as ->.
    + rewrite <- !app_assoc. reflexivity.
Qed.

Lemma missing_checked : with_operators (fun a b => forallb (fun k => Bool.eqb (mem_by str_eqb k (map fst paper_table)) (negb (str_eqb k (lit "D13c")))) (map fst a ++ map fst b) && mem_by str_eqb (lit "D13c") (map fst b)) = true.
Proof. vm_compute. reflexivity. Qed.

(** The operator D13c has no row; every other one has. *)
Theorem C103_missing_refuted : exists a b, eff_operators = Ok a /\ deriv_eff_operators = Ok b /\ In (lit "D13c") (map fst b) /\
  forall label, In label (map fst a ++ map fst b) -> (In label (map fst paper_table) <-> label <> lit "D13c").
Proof.
  destruct C87_operators as (a & Ea & _). destruct C87_deriv as (b & Eb & _). pose proof (with_operators_ok _ a b missing_checked Ea Eb) as H. cbv beta in H. exists a, b. split; [exact Ea|]. split; [exact Eb|].
  apply andb_true_iff in H as [H D]. split; [now apply (mem_by_In str_decides)|]. intros label I. rewrite forallb_forall in H. specialize (H label I). apply Bool.eqb_prop in H. rewrite <- (mem_by_In str_decides), H, negb_true_iff. split.
  - intros N ->. rewrite (decides_refl str_decides) in N. discriminate N.
  - intros N. destruct (str_eqb label (lit "D13c")) eqn:E; [apply str_decides in E; contradiction|reflexivity].
Qed.

(** ** Examples *)

(** what two rows mean, one through another row *)
Example C103_ex1 : option_map (fun p => (List.length (pc_names p), pc_joins p)) (meaning paper_table 9 (lit "$\mathcal{O}_{3b} \cdot Q^i \bar{d} \tilde{H}^j \cdot \epsilon_{ij}$")) =
  Some (8, [(0, 2); (1, 4); (5, 7)]).
Proof. vm_compute. reflexivity. Qed.

Example C103_ex2 : meaning [] 2 (lit "${\bar{e}^{\dagger}} (D^{3} H)^{k} H^l \cdot \epsilon_{kl}$") = Some (mkPicture [lit "eb" ++ [dagger]; lit "DDDH"; lit "H"] [(1, 2)]).
Proof. vm_compute. reflexivity. Qed.

(** the first rows *)
Example C103_ex3 : with_operators (fun a b =>
    let (l, e) := print_paper_table (fun _ => Ok (lit "0", lit "5")) a b [(lit "2", 7)] [lit "2"; lit "1"; lit "2"] in
    (List.length l =? 248) && list_eqb str_eqb (firstn 2 l)
      [lit "$1$ & $L^{i} L^{j} H^{k} H^{l}  \cdot  \epsilon_{i k} \epsilon_{j l}$ &  &  & 0 & 5 \\";
       lit "$2$ & $L^{i} L^{j} L^{k} \bar{e} H^{l}  \cdot  \epsilon_{i k} \epsilon_{j l}$ & 7 & 2 & 0 & 5 \\"] && match e with None => true | Some _ => false end) = true.
Proof. vm_compute. reflexivity. Qed.

Example C103_ex4 : map format_primes [lit "71p"; lit "1ppp"; lit "5a"] = [lit "71^{\prime}"; lit "1^{\prime\prime\prime}"; lit "5a"].
Proof. vm_compute. reflexivity. Qed.

Print Assumptions C103_primes.
Print Assumptions C103_rows.
Print Assumptions C103_shown.
Print Assumptions C103_wrong_refuted.
Print Assumptions C103_stale_refuted.
Print Assumptions C103_missing_refuted.
