(** * PropsNine: the script completions/d9.py (C110) *)

From Coq Require Import Ascii String List Bool Arith NArith ZArith QArith Qcanon Lia Permutation.
From Verif Require Import Base BaseFacts Spec ModelFunctions ModelIndex ModelField ModelContract ModelInfo ModelOperators ModelRegistry ProofsRegistry PropsRegistry ModelNine SpecNine.
Import ListNotations.
Local Open Scope nat_scope.

Definition has_dimension (n : Z) (op : operator) : bool := match mass_dimension op with Ok m => (m =? n)%Z | Err _ => false end.

(** the completions found for the operators of dimension [n], in order *)
Definition found_at {C} (n : Z) (found : list (str * operator * list C)) : list C :=
  flat_map (fun x => snd x) (filter (fun x => has_dimension n (snd (fst x))) found).

Definition by_dimension {C} (found : list (str * operator * list C)) : list (Z * list C) :=
  [(5, found_at 5 found); (7, found_at 7 found); (9, found_at 9 found)]%Z.

(** an operator whose completions are wanted, and one that ends the loop *)
Definition low (op : operator) : Prop := mass_dimension op = Ok 5%Z \/ mass_dimension op = Ok 7%Z \/ mass_dimension op = Ok 9%Z.
Definition high (op : operator) : Prop := exists n, mass_dimension op = Ok n /\ (11 <= n)%Z.

Lemma found_cons {C} n k op (l : list C) found : found_at n ((k, op, l) :: found) = (if has_dimension n op then l else []) ++ found_at n found.
Proof. unfold found_at. cbn [filter fst snd]. destruct (has_dimension n op); reflexivity. Qed.

Section Loop.
  Context {C CS : Type} (work : operator -> CS -> res (list C * CS)).

  Lemma loop_low : forall before cs found cs' after, Forall (fun kop => low (snd kop)) before -> worked work before cs found cs' -> forall a b c,
    collect_loop work (before ++ after) [(5, a); (7, b); (9, c)]%Z cs =
    collect_loop work after [(5, a ++ found_at 5 found); (7, b ++ found_at 7 found); (9, c ++ found_at 9 found)]%Z cs'.
  Proof.
    intros before cs found cs' after Hl Hw. revert Hl. induction Hw as [cs|k op ops cs l cs1 found cs2 E W IH]; intros Hl a b c; [cbn; now rewrite !app_nil_r|].
    inversion Hl as [|? ? H1 H2]; subst. cbn [snd] in H1. cbn [app collect_loop]. rewrite !found_cons. unfold has_dimension.
    destruct H1 as [H|[H|H]]; rewrite H; cbn [bind Z.ltb Z.compare Pos.compare Pos.compare_cont dget Z.eqb Pos.eqb dset fst snd]; unfold dgetM; cbn [dget Z.eqb Pos.eqb bind]; rewrite E; cbn [bind fst snd];
      rewrite (IH H2), <- ?app_assoc; reflexivity.
  Qed.

  Lemma loop_inv : forall ops a b c cs d cs', collect_loop work ops [(5, a); (7, b); (9, c)]%Z cs = Ok (d, cs') ->
    exists before after found, ops = before ++ after /\ Forall (fun kop => low (snd kop)) before /\ (after = [] \/ exists k op r, after = (k, op) :: r /\ high op) /\
      worked work before cs found cs'.
  Proof.
    induction ops as [|[k op] ops IH]; intros a b c cs d cs' E.
    - cbn in E. injection E as <- <-. exists [], [], []. repeat split; auto; constructor.
    - cbn [collect_loop] in E. destruct (mass_dimension op) as [n|] eqn:M; [|discriminate E]. cbn [bind] in E. destruct (n <? 11)%Z eqn:L.
      + assert (Hl : low op).
        { clear - E M. unfold dgetM in E. cbn [dget] in E. unfold low.
          destruct (Z.eqb_spec n 5) as [->|N5]; [auto|]. destruct (Z.eqb_spec n 7) as [->|N7]; [auto|]. destruct (Z.eqb_spec n 9) as [->|N9]; [auto|]. discriminate E. }
        destruct (dgetM Z.eqb [(5, a); (7, b); (9, c)]%Z n) as [o|] eqn:G; [|discriminate E]. cbn [bind] in E. destruct (work op cs) as [[l cs1]|] eqn:W; [|discriminate E]. cbn [bind fst snd] in E.
        assert (X : exists a' b' c', dset Z.eqb [(5, a); (7, b); (9, c)]%Z n (o ++ l) = [(5, a'); (7, b'); (9, c')]%Z).
        { destruct Hl as [H|[H|H]]; rewrite H in M; injection M as <-; repeat eexists. }
        destruct X as (a' & b' & c' & X). rewrite X in E. destruct (IH _ _ _ _ _ _ E) as (before & after & found & -> & Hb & Ha & Hw).
        exists ((k, op) :: before), after, ((k, op, l) :: found). split; [reflexivity|]. split; [constructor; [exact Hl|exact Hb]|]. split; [exact Ha|]. econstructor; eassumption.
      + injection E as <- <-. exists [], ((k, op) :: ops), []. split; [reflexivity|]. split; [constructor|]. split; [|constructor]. right. exists k, op, ops. split; [reflexivity|]. exists n. split; [exact M|]. apply Z.ltb_ge in L. exact L.
  Qed.
End Loop.

(** C110 (1): the loop works through the operators up to the first one of dimension eleven or more and sorts what it finds by
    the dimension of the operator. *)
Theorem C110_loop : forall (C CS : Type) (work : operator -> CS -> res (list C * CS)) ops cs d cs',
  collect_loop work ops no_completions cs = Ok (d, cs') <->
  exists before after found, ops = before ++ after /\ Forall (fun kop => low (snd kop)) before /\ (after = [] \/ exists k op r, after = (k, op) :: r /\ high op) /\
    worked work before cs found cs' /\ d = by_dimension found.
Proof.
  intros C CS work ops cs d cs'. assert (Fin : forall after d cs, (after = [] \/ exists k op r, after = (k, op) :: r /\ high op) -> collect_loop work after d cs = Ok (d, cs)).
  { intros after d0 cs0 [->|(k & op & r & -> & n & M & L)]; [reflexivity|]. cbn [collect_loop]. rewrite M. cbn [bind]. apply Z.ltb_ge in L. now rewrite L. }
  split.
  - intros E. destruct (loop_inv work _ _ _ _ _ _ _ E) as (before & after & found & Eo & Hb & Ha & Hw). exists before, after, found. repeat (split; [assumption|]).
    unfold no_completions in E. rewrite Eo, (loop_low work _ _ _ _ after Hb Hw), (Fin after) in E by exact Ha. injection E as <-. reflexivity.
  - intros (before & after & found & -> & Hb & Ha & Hw & ->). unfold no_completions. rewrite (loop_low work _ _ _ _ after Hb Hw). now apply Fin.
Qed.

(** ** The shipped operators *)

Definition lowb (op : operator) : bool := has_dimension 5 op || has_dimension 7 op || has_dimension 9 op.
Definition highb (op : operator) : bool := match mass_dimension op with Ok n => (11 <=? n)%Z | Err _ => false end.

Lemma lowb_ok op : lowb op = true -> low op.
Proof. unfold lowb, low, has_dimension. destruct (mass_dimension op) as [m|]; [|discriminate]. rewrite !orb_true_iff, !Z.eqb_eq. intros [[-> | ->] | ->]; auto. Qed.

Lemma highb_ok op : highb op = true -> high op.
Proof. unfold highb, high. destruct (mass_dimension op) as [m|]; [|discriminate]. intros H. exists m. split; [reflexivity|now apply Z.leb_le]. Qed.

Definition reached_names : list str := map lit
  ["1"; "2"; "3a"; "3b"; "4a"; "4b"; "5a"; "5b"; "5c"; "5d"; "6a"; "6b"; "6c"; "6d"; "7"; "8"; "9"; "10"; "11a"; "11b"; "12a"; "12b"; "13"; "14a"; "14b"; "15"; "16"; "17"; "18"; "19"; "20"]%string.
Definition missed_names : list str := map lit ["61a"; "61b"; "71"; "76"; "77"; "78"; "1p"; "8p"; "1pp"]%string.

Definition splits (ops : list (str * operator)) : bool :=
  list_eqb str_eqb (map fst (firstn 31 ops)) reached_names && forallb (fun kop => lowb (snd kop)) (firstn 31 ops) &&
  match skipn 31 ops with [] => false | kop :: _ => highb (snd kop) end &&
  list_eqb str_eqb (map fst (filter (fun kop => lowb (snd kop)) (skipn 31 ops))) missed_names && forallb (fun kop => lowb (snd kop) || highb (snd kop)) (skipn 31 ops).

Lemma shipped_splits : match eff_operators with Ok ops => splits ops | Err _ => false end = true.
Proof. vm_compute. reflexivity. Qed.

(** C110 (2): for the shipped operators this ends after operator 20: nine operators of dimensions seven and nine behind it
    are not worked on. *)
Theorem C110_missed_refuted : exists ops reached rest, eff_operators = Ok ops /\ ops = reached ++ rest /\
  map fst reached = reached_names /\ Forall (fun kop => low (snd kop)) reached /\
  (forall k op, In (k, op) rest -> low op -> In k missed_names) /\ (forall k, In k missed_names -> exists op, In (k, op) rest /\ low op) /\
  forall (C CS : Type) (work : operator -> CS -> res (list C * CS)) cs d cs', collect_loop work ops no_completions cs = Ok (d, cs') <->
    exists found, worked work reached cs found cs' /\ d = by_dimension found.
Proof.
  pose proof shipped_splits as S. destruct eff_operators as [ops|]; [|discriminate S]. unfold splits in S. rewrite !andb_true_iff in S. destruct S as ((((S1 & S2) & S3) & S4) & S5).
  assert (D : decides (list_eqb str_eqb)) by (apply list_decides, str_decides). apply D in S1, S4. rewrite forallb_forall in S2, S5.
  set (reached := firstn 31 ops) in *. set (rest := skipn 31 ops) in *. assert (Eo : ops = reached ++ rest) by (symmetry; apply firstn_skipn).
  assert (Lo : Forall (fun kop => low (snd kop)) reached) by (apply Forall_forall; intros x I; apply lowb_ok, S2, I).
  assert (Nl : forall op, low op -> high op -> False) by (intros op [H|[H|H]] (n & M & L); rewrite H in M; injection M as <-; lia).
  assert (LL : forall op, low op -> lowb op = true) by (intros op [H|[H|H]]; unfold lowb, has_dimension; rewrite H; reflexivity).
  exists ops, reached, rest. split; [reflexivity|]. split; [exact Eo|]. split; [exact S1|]. split; [exact Lo|]. split; [|split].
  - intros k op I H. rewrite <- S4. apply in_map_iff. exists (k, op). split; [reflexivity|]. apply filter_In. split; [exact I|]. now apply LL.
  - intros k I. rewrite <- S4 in I. apply in_map_iff in I as ([k' op] & <- & I). apply filter_In in I as [I L]. exists op. split; [exact I|now apply lowb_ok].
  - intros C CS work cs d cs'. destruct rest as [|[k op] rest'] eqn:Er; [discriminate S3|]. apply highb_ok in S3. cbn [snd] in S3. rewrite C110_loop. split.
    + intros (before & after & found & E2 & Hb & Ha & Hw & ->). assert (before = reached) as ->.
      { rewrite Eo in E2. clear - E2 Hb Ha Lo Nl S3. revert before E2 Hb. induction reached as [|x r IH]; intros before E2 Hb.
        - destruct before as [|y b]; [reflexivity|]. injection E2 as <- E2. inversion Hb as [|? ? H1 _]; subst. destruct (Nl _ H1 S3).
        - inversion Lo as [|? ? L1 L2]; subst. destruct before as [|y b].
          + cbn in E2. destruct Ha as [->|(k1 & op1 & r1 & -> & H)]; [discriminate E2|]. injection E2 as -> _. destruct (Nl _ L1 H).
          + injection E2 as -> E2. f_equal. apply IH; auto. now inversion Hb. }
      eauto.
    + intros (found & Hw & ->). exists reached, ((k, op) :: rest'), found. split; [exact Eo|]. split; [exact Lo|]. split; [|auto]. right. eauto.
Qed.

(** ** The sieve *)

Lemma collect_keys {C V} (key : C -> list V) veqb vleb l : decides veqb -> NoDup (keys (collect_completions key veqb vleb l)).
Proof.
  intros Hv. unfold collect_completions. generalize (groupby key veqb vleb l). intros gs. assert (H : forall d, NoDup (keys d) -> NoDup (keys (fold_left (fun out kg => dset (list_eqb veqb) out (set_key veqb vleb (fst kg)) (snd kg)) gs d))).
  { induction gs as [|g gs IH]; intros d N; [exact N|]. cbn [fold_left]. apply IH. apply (NoDup_keys_dset (list_decides Hv)). exact N. }
  apply H. constructor.
Qed.

Section Sieve.
  Context {C V : Type} (key : C -> list V) (veqb vleb : V -> V -> bool) (root : Z -> Z).
  Hypothesis Hv : decides veqb.
  Hypothesis Hr : forall n, (1 <= n)%Z -> (1 <= root n)%Z /\ (n < (root n + 1) * (root n + 1))%Z.

  (** [out] are the models of [l] without those that contain a model of [prev] *)
  Definition left_over (l : list C) (prev out : models (C := C) (V := V)) : Prop :=
    sublist out (collect_completions key veqb vleb l) /\
    forall k v, In (k, v) out <-> In (k, v) (collect_completions key veqb vleb l) /\ forall s, In s (keys prev) -> ~ contains k s.

  Lemma filter_left l prev : NoDup (keys prev) -> exists out, filter_completions veqb root (collect_completions key veqb vleb l) prev = Ok out /\ left_over l prev out /\ NoDup (keys out).
  Proof.
    intros N. destruct (C11_filter_completions V C veqb root (collect_completions key veqb vleb l) prev Hv (collect_keys key veqb vleb l Hv) N Hr) as (out & E & S & H).
    exists out. split; [exact E|]. split; [now split|]. pose proof (collect_keys key veqb vleb l Hv) as K. clear - S K. unfold keys in *. induction S; cbn [map] in *; [constructor|inversion K; auto|].
    inversion K as [|? ? K1 K2]; subst. constructor; [|auto]. intros I. apply K1. apply in_map_iff in I as (y & <- & I). apply in_map. eapply sublist_In; eauto.
  Qed.
End Sieve.

(** C110 (3): run as it is the script ends with a NameError if it gets that far, and never normally *)
Theorem C110_name_refuted : forall (C V CS : Type) (key : C -> list V) veqb vleb root (work : operator -> CS -> res (list C * CS)) ops cs,
  decides veqb -> (forall n, (1 <= n)%Z -> (1 <= root n)%Z /\ (n < (root n + 1) * (root n + 1))%Z) ->
  (forall r, collect_loop work ops no_completions cs = Ok r -> d9 key veqb vleb root work ops None cs = Err NameError) /\
  (forall e, collect_loop work ops no_completions cs = Err e -> d9 key veqb vleb root work ops None cs = Err e).
Proof.
  intros C V CS key veqb vleb root work ops cs Hv Hr. unfold d9. split; intros r E; rewrite E; [|reflexivity]. cbn [bind]. destruct r as [d cs']. apply C110_loop in E as (before & after & found & _ & _ & _ & _ & ->).
  cbn [fst]. unfold by_dimension. cbn [sieve_loop]. destruct (filter_left key veqb vleb root Hv Hr (found_at 5 found) [] (NoDup_nil _)) as (out & -> & _). reflexivity.
Qed.

(** C110 (4): in a namespace with [filtered_models] it adds for each dimension the models that contain none of those kept for
    the dimension before *)
Theorem C110_sieve : forall (C V CS : Type) (key : C -> list V) veqb vleb root (work : operator -> CS -> res (list C * CS)) ops cs d cs' given,
  decides veqb -> (forall n, (1 <= n)%Z -> (1 <= root n)%Z /\ (n < (root n + 1) * (root n + 1))%Z) ->
  collect_loop work ops no_completions cs = Ok (d, cs') ->
  exists l5 l7 l9 m5 m7 m9 out, d = [(5, l5); (7, l7); (9, l9)]%Z /\ d9 key veqb vleb root work ops (Some given) cs = Ok (Some out, cs') /\
    (dget Z.eqb out 5 = Some m5 /\ dget Z.eqb out 7 = Some m7 /\ dget Z.eqb out 9 = Some m9)%Z /\
    (forall n, ~ In n [5; 7; 9]%Z -> dget Z.eqb out n = dget Z.eqb given n) /\
    m5 = collect_completions key veqb vleb l5 /\ left_over key veqb vleb l7 m5 m7 /\ left_over key veqb vleb l9 m7 m9.
Proof.
  intros C V CS key veqb vleb root work ops cs d cs' given Hv Hr E. unfold d9. rewrite E. cbn [bind fst snd]. apply C110_loop in E as (before & after & found & _ & _ & _ & _ & ->). unfold by_dimension.
  destruct (filter_left key veqb vleb root Hv Hr (found_at 5 found) [] (NoDup_nil _)) as (m5 & E5 & (S5 & H5) & N5).
  destruct (filter_left key veqb vleb root Hv Hr (found_at 7 found) m5 N5) as (m7 & E7 & H7 & N7).
  destruct (filter_left key veqb vleb root Hv Hr (found_at 9 found) m7 N7) as (m9 & E9 & H9 & N9).
  assert (Em : m5 = collect_completions key veqb vleb (found_at 5 found)).
  { assert (I : incl (collect_completions key veqb vleb (found_at 5 found)) m5) by (intros [k v] I; apply H5; split; [exact I|intros s []]).
    pose proof (collect_keys key veqb vleb (found_at 5 found) Hv) as K. unfold keys in K. apply NoDup_map_inv in K. clear - S5 I K.
    induction S5 as [|x a b S IH|x a b S IH]; [reflexivity| |].
    - exfalso. inversion K as [|? ? K1 K2]; subst. apply K1. apply (sublist_In x S). apply I. now left.
    - f_equal. inversion K as [|? ? K1 K2]; subst. apply IH; [|exact K2]. intros y Y. destruct (I y (or_intror Y)) as [->|Z]; [contradiction|exact Z]. }
  pose proof Z_decides as Zd.
  exists (found_at 5 found), (found_at 7 found), (found_at 9 found), m5, m7, m9. eexists. split; [reflexivity|].
  split; [cbn [sieve_loop]; rewrite E5; cbn [bind]; rewrite E7; cbn [bind]; rewrite E9; cbn [bind]; reflexivity|].
  split; [|split; [|split; [exact Em|split; [exact H7|exact H9]]]].
  - rewrite !(dget_dset Zd). cbn. auto.
  - intros n N. rewrite !(dget_dset Zd). cbn [In] in N. destruct (Z.eqb_spec n 9) as [->|]; [tauto|]. destruct (Z.eqb_spec n 7) as [->|]; [tauto|]. destruct (Z.eqb_spec n 5) as [->|]; [tauto|]. reflexivity.
Qed.

(** so a model may be kept for dimension nine although it contains one of dimension five, if the models in between contain it
    too: completions are lists of numbers here, which are their fields *)
Theorem C110_previous_refuted : exists l5 l7 l9 m5 m7 m9 out k v s,
  sieve_loop (fun c : list nat => c) Nat.eqb Nat.leb Z.sqrt [(5, l5); (7, l7); (9, l9)]%Z [] (Some []) = Ok (Some out) /\
  out = [(5, m5); (7, m7); (9, m9)]%Z /\ In (k, v) m9 /\ In s (keys m5) /\ contains k s /\ s <> [].
Proof.
  exists [[1]], [[1; 2]], [[1; 2; 3]]. do 7 eexists. split; [vm_compute; reflexivity|]. split; [reflexivity|]. split; [left; reflexivity|]. split; [left; reflexivity|].
  split; [exists [2; 3]; reflexivity|discriminate].
Qed.

(** a run: one operator of dimension five and one of dimension nine, the third is too heavy, the fourth is not looked at *)
Definition nth_operator (k : string) : str * operator :=
  match eff_operators with
  | Ok ops => match find (fun kop => str_eqb (fst kop) (lit k)) ops with Some kop => kop | None => ([], []) end
  | Err _ => ([], [])
  end.

Example C110_example :
  let ops := map nth_operator ["1"; "20"; "21a"; "1pp"]%string in
  let work := fun (op : operator) (n : nat) => Ok ([[List.length op; n]], S n) in
  collect_loop work ops no_completions 0 = Ok ([(5%Z, [[6; 0]]); (7%Z, []); (9%Z, [[7; 1]])], 2) /\
  d9 (fun c : list nat => c) Nat.eqb Nat.leb Z.sqrt work ops None 0 = Err NameError /\
  d9 (fun c : list nat => c) Nat.eqb Nat.leb Z.sqrt work ops (Some []) 0 = Ok (Some [(5%Z, [([0; 6], [[6; 0]])]); (7%Z, []); (9%Z, [([1; 7], [[7; 1]])])], 2).
Proof. cbv zeta. split; [|split]; vm_compute; reflexivity. Qed.

Print Assumptions C110_loop.
Print Assumptions C110_missed_refuted.
Print Assumptions C110_name_refuted.
Print Assumptions C110_sieve.
Print Assumptions C110_previous_refuted.
