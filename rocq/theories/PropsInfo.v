(** * PropsInfo: C53 mass dimension of operators, C80 topology type *)

From Coq Require Import Ascii String List Bool Arith ZArith QArith Qcanon Lia Permutation.
From Verif Require Import Base BaseFacts Spec Show ModelIndex SpecIndex ProofsIndex ModelField SpecField ProofsField ModelContract SpecContract ProofsContract
  ModelPartition ModelExotic SpecExotic ModelInfo SpecInfo.
Import ListNotations.
Local Open Scope nat_scope.

Lemma labels_five f a b c d e : f_dynkin f = five a b c d e -> a < 10 /\ b < 10 /\ c < 10 /\ d < 10 /\ e < 10 ->
  labels_of f = [a; b; c; d; e] /\ dynkin_ints f = Ok [a; b; c; d; e].
Proof.
  intros E (A & B & C & D' & F). split; [|unfold dynkin_ints; rewrite E; now apply digits_five].
  unfold labels_of. rewrite E. unfold five. cbn [map].
  assert (X : forall n, n < 10 -> nat_of_ascii (digit n) - 48 = n).
  { intros n L. do 10 (destruct n as [|n]; [reflexivity|]). lia. }
  rewrite !X by assumption. reflexivity.
Qed.

Lemma lorentz_digits f : has_digits f -> lorentz_irrep f = Ok [undotted_label f; dotted_label f].
Proof.
  intros (a & b & c & d & e & E & B). destruct (labels_five f a b c d e E B) as [L I].
  unfold lorentz_irrep, undotted_label, dotted_label. rewrite I, L. reflexivity.
Qed.

Lemma boson_digits f : has_digits f ->
  (half_integer f /\ is_boson f = Ok false /\ is_fermion f = Ok true) \/ (~ half_integer f /\ is_boson f = Ok true /\ is_fermion f = Ok false).
Proof.
  intros H. unfold is_fermion, is_boson, half_integer. rewrite (lorentz_digits f H). cbn [bind]. cbn [list_sum fold_right].
  change (list_sum [undotted_label f; dotted_label f]) with (undotted_label f + (dotted_label f + 0)). rewrite Nat.add_0_r.
  set (n := undotted_label f + dotted_label f). destruct (Nat.Even_or_Odd n) as [E|O].
  - right. split; [intros O; exact (Nat.Even_Odd_False _ E O)|]. destruct E as [k E]. assert (M : n mod 2 = 0) by (rewrite E, Nat.mul_comm; apply Nat.mod_mul; lia). rewrite M. auto.
  - left. split; [exact O|]. destruct O as [k O]. assert (M : n mod 2 = 1) by (rewrite O, Nat.mul_comm, Nat.add_comm, Nat.mod_add; [reflexivity|lia]). rewrite M. auto.
Qed.

Lemma mass_dim_digits f : has_digits f ->
  (half_integer f -> mass_dim f = Ok (Q2Qc (3 # 2))) /\
  (~ half_integer f -> scalar_or_vector f -> mass_dim f = Ok (Q2Qc 1)) /\
  (~ half_integer f -> ~ scalar_or_vector f -> mass_dim f = Err PlainException).
Proof.
  intros H. unfold mass_dim. destruct (boson_digits f H) as [(O & _ & F)|(O & _ & F)]; rewrite F; cbn [bind]; (split; [|split]); try (intros; contradiction); auto.
  - intros _ S. unfold is_scalar, is_vector. rewrite (lorentz_digits f H). cbn [bind]. destruct S as [[-> ->]|[-> ->]]; reflexivity.
  - intros _ S. unfold is_scalar, is_vector. rewrite (lorentz_digits f H). cbn [bind].
    assert (X : nats_eqb [undotted_label f; dotted_label f] [0; 0] || nats_eqb [undotted_label f; dotted_label f] [1; 1] = false).
    { apply not_true_is_false. intros E. apply S. apply orb_true_iff in E as [E|E]; unfold nats_eqb in E; cbn [list_eqb] in E;
        rewrite andb_true_r in E; apply andb_true_iff in E as [E1 E2]; apply Nat.eqb_eq in E1, E2; [left|right]; auto. }
    rewrite X. reflexivity.
Qed.

(** ** Sums *)

Definition half_sum (b n : nat) : Qc := Q2Qc (inject_Z (Z.of_nat b) + (3 # 2) * inject_Z (Z.of_nat n)).

Lemma half_sum_boson b n : (half_sum b n + Q2Qc 1)%Qc = half_sum (S b) n.
Proof. apply Qc_is_canon. unfold half_sum. rewrite Nat2Z.inj_succ. unfold Z.succ. cbn [this Qcplus Q2Qc]. rewrite !Qred_correct, inject_Z_plus. change (inject_Z 1) with 1%Q. ring. Qed.

Lemma half_sum_fermion b n : (half_sum b n + Q2Qc (3 # 2))%Qc = half_sum b (S n).
Proof. apply Qc_is_canon. unfold half_sum. rewrite (Nat2Z.inj_succ n). unfold Z.succ. cbn [this Qcplus Q2Qc]. rewrite !Qred_correct, inject_Z_plus. change (inject_Z 1) with 1%Q. ring. Qed.

Lemma mass_sum fs : forall b n b0 n0, Forall has_digits fs ->
  Forall (fun f => half_integer f \/ scalar_or_vector f) fs ->
  counts half_integer fs n -> b + n = List.length fs ->
  foldM (fun s f => do m <- mass_dim f; Ok (s + m)%Qc) fs (half_sum b0 n0) = Ok (half_sum (b0 + b) (n0 + n)).
Proof.
  induction fs as [|f fs IH]; intros b n b0 n0 D M C L; inversion C; subst; cbn [foldM List.length] in *.
  - now rewrite !Nat.add_0_r; replace b with 0 by lia; rewrite Nat.add_0_r.
  - inversion D; inversion M; subst. destruct (mass_dim_digits f) as (X & _); [assumption|]. rewrite X by assumption. cbn [bind].
    rewrite half_sum_fermion, (IH b n1) by (auto; lia). do 2 f_equal. lia.
  - inversion D as [|? ? Df D']; inversion M as [|? ? Mf M']; subst. destruct (mass_dim_digits f Df) as (_ & X & _). rewrite X by first [assumption|destruct Mf; [contradiction|assumption]]. cbn [bind].
    destruct b as [|b]. { exfalso. assert (K : n <= List.length fs); [|lia]. clear -H3. induction H3; cbn; lia. }
    rewrite half_sum_boson, (IH b n) by (auto; lia). do 2 f_equal. lia.
Qed.

Lemma mass_sum_err fs : forall s, Forall has_digits fs ->
  Exists (fun f => ~ half_integer f /\ ~ scalar_or_vector f) fs ->
  foldM (fun s f => do m <- mass_dim f; Ok (s + m)%Qc) fs s = Err PlainException.
Proof.
  induction fs as [|f fs IH]; intros s D E; [inversion E|]. inversion D as [|? ? Df D']; subst. cbn [foldM].
  destruct (mass_dim_digits f Df) as (X1 & X2 & X3). inversion E as [? ? [N1 N2]|? ? E']; subst.
  - rewrite X3 by assumption. reflexivity.
  - destruct (boson_digits f Df) as [(O & _)|(O & _)].
    + rewrite X1 by exact O. cbn [bind]. now apply IH.
    + assert (S : scalar_or_vector f \/ ~ scalar_or_vector f).
      { unfold scalar_or_vector. destruct (Nat.eq_dec (undotted_label f) 0), (Nat.eq_dec (dotted_label f) 0), (Nat.eq_dec (undotted_label f) 1), (Nat.eq_dec (dotted_label f) 1); try tauto; right; intros [[]|[]]; congruence. }
      destruct S as [S|S]; [rewrite X2 by assumption; cbn [bind]; now apply IH|rewrite X3 by assumption; reflexivity].
Qed.

Lemma counts_le {A} (P : A -> Prop) l n : counts P l n -> n <= List.length l.
Proof. induction 1; cbn; lia. Qed.

Theorem C53_dimension : forall op fs n,
  op_fields op = Ok fs -> Forall has_digits fs -> counts half_integer fs n ->
  (Forall (fun f => half_integer f \/ scalar_or_vector f) fs ->
     (forall k, n = 2 * k -> mass_dimension op = Ok (Z.of_nat (List.length fs - n + 3 * k + list_sum (map f_derivs fs)))) /\
     (Nat.Odd n -> mass_dimension op = Err AssertionError) /\
     op_mass_dim op = Ok (Q2Qc (inject_Z (Z.of_nat (List.length fs - n)) + (3 # 2) * inject_Z (Z.of_nat n)))) /\
  (Exists (fun f => ~ half_integer f /\ ~ scalar_or_vector f) fs ->
     mass_dimension op = Err PlainException /\ op_mass_dim op = Err PlainException).
Proof.
  intros op fs n E D C. unfold mass_dimension, op_mass_dim. change (mapM field_of (indexed_fields op)) with (op_fields op). rewrite E. cbn [bind]. split.
  - intros M. pose proof (counts_le _ _ _ C) as Le.
    assert (S0 : Q2Qc 0 = half_sum 0 0) by (apply Qc_is_canon; reflexivity). rewrite S0.
    rewrite (mass_sum fs (List.length fs - n) n 0 0 D M C) by lia. cbn [bind Nat.add].
    set (b := List.length fs - n). set (d := list_sum (map f_derivs fs)). split; [|split].
    + intros k K. 
      assert (X : (half_sum b n + Q2Qc (inject_Z (Z.of_nat d)))%Qc = Q2Qc (inject_Z (Z.of_nat (b + 3 * k + d)))).
      { apply Qc_is_canon. unfold half_sum. cbn [this Qcplus Q2Qc]. rewrite !Qred_correct, K. rewrite !Nat2Z.inj_add, !Nat2Z.inj_mul, !inject_Z_plus, !inject_Z_mult.
        change (inject_Z (Z.of_nat 2)) with 2%Q. change (inject_Z (Z.of_nat 3)) with 3%Q. field. }
      rewrite X. assert (Y : forall z, Qred (inject_Z z) = inject_Z z). { intros z. apply Qred_identity. cbn. apply Z.gcd_1_r. }
      cbn [this Q2Qc]. rewrite !Y. cbn [Qnum Qden inject_Z]. rewrite Z.quot_1_r.
      assert (W : forall q, Qc_eq_bool q q = true) by (intros q; unfold Qc_eq_bool; destruct (Qc_eq_dec q q); congruence).
      rewrite W. reflexivity.
    + intros [k K]. set (q := (half_sum b n + Q2Qc (inject_Z (Z.of_nat d)))%Qc).
      assert (X : forall z, q <> Q2Qc (inject_Z z)).
      { intros z Eq. apply (f_equal this) in Eq. unfold q, half_sum in Eq. cbn [this Qcplus Q2Qc] in Eq.
        assert (Eq' : (inject_Z (Z.of_nat b) + (3 # 2) * inject_Z (Z.of_nat n) + inject_Z (Z.of_nat d) == inject_Z z)%Q).
        { rewrite <- (Qred_correct (inject_Z z)). rewrite <- Eq. rewrite !Qred_correct. reflexivity. }
        rewrite K in Eq'. unfold Qeq, Qplus, Qmult, inject_Z in Eq'. cbn [Qnum Qden] in Eq'. rewrite ?Pos2Z.inj_mul in Eq'. lia. }
      unfold Qc_eq_bool at 1. destruct (Qc_eq_dec q _) as [Eq|]; [now apply X in Eq|reflexivity].
    + reflexivity.
  - intros Ex. rewrite (mass_sum_err fs _ D Ex). auto.
Qed.

(** ** Invariant operators have an even number of fermions *)

Lemma closed_even (l : list index) : NoDup (map slot l) -> (forall i, In i l -> exists j, In j l /\ counterpart i j) -> Nat.Even (List.length l).
Proof.
  intros N H.
  set (nt := fun i : index => (ix_name i, ix_type i)).
  assert (P : forall b, NoDup (map nt (filter (fun i => Bool.eqb (ix_up i) b) l))).
  { intros b. clear H. induction l as [|i l IH]; [constructor|]. cbn [map] in N. inversion N as [|? ? N1 N2]; subst. cbn [filter].
    destruct (Bool.eqb (ix_up i) b) eqn:E; [|auto]. cbn [map]. constructor; [|auto]. intros I. apply N1. apply in_map_iff in I as (j & Ej & J). apply filter_In in J as [J Eb].
    apply eqb_prop in E, Eb. apply in_map_iff. exists j. split; [|exact J]. unfold slot. unfold nt in Ej. congruence. }
  assert (I : forall b, incl (map nt (filter (fun i => Bool.eqb (ix_up i) b) l)) (map nt (filter (fun i => Bool.eqb (ix_up i) (negb b)) l))).
  { intros b x X. apply in_map_iff in X as (i & <- & X). apply filter_In in X as [X E]. destruct (H i X) as (j & J & C1 & C2 & C3).
    apply in_map_iff. exists j. split; [unfold nt; congruence|]. apply filter_In. split; [exact J|]. apply eqb_prop in E. rewrite C3, E. apply eqb_reflx. }
  assert (L : List.length (filter (fun i => Bool.eqb (ix_up i) true) l) = List.length (filter (fun i => Bool.eqb (ix_up i) false) l)).
  { rewrite <- (map_length nt (filter (fun i => Bool.eqb (ix_up i) true) l)), <- (map_length nt (filter (fun i => Bool.eqb (ix_up i) false) l)).
    apply Nat.le_antisymm; apply NoDup_incl_length; try apply P; [exact (I true)|exact (I false)]. }
  assert (T : List.length l = List.length (filter (fun i => Bool.eqb (ix_up i) true) l) + List.length (filter (fun i => Bool.eqb (ix_up i) false) l)).
  { clear. induction l as [|i l IH]; [reflexivity|]. cbn [filter List.length]. destruct (ix_up i); cbn [Bool.eqb List.length]; lia. }
  exists (List.length (filter (fun i => Bool.eqb (ix_up i) false) l)). lia.
Qed.

Definition lorentz_b (i : index) : bool := itype_eqb (ix_type i) Undotted || itype_eqb (ix_type i) Dotted.

Lemma lorentz_b_iff i : lorentz_b i = true <-> lorentz i.
Proof. unfold lorentz_b, lorentz. destruct (ix_type i); cbn; intuition congruence. Qed.

Lemma field_lorentz x : indexed_by_labels x -> List.length (filter lorentz_b (i_indices x)) = undotted_label (i_field x) + dotted_label (i_field x).
Proof.
  intros (A & B & U). rewrite <- A, <- B. clear A B. induction (i_indices x) as [|i l IH]; [reflexivity|]. rewrite !count_kind_cons. cbn [filter].
  assert (Ui : lorentz i -> ix_up i = true) by (apply U; now left). specialize (IH (fun j J => U j (or_intror J))).
  unfold lorentz_b at 1. unfold lorentz in Ui. destruct (ix_type i); cbn [itype_eqb orb andb]; try (rewrite Ui by auto; cbn [Bool.eqb List.length]); lia.
Qed.

Lemma symbol_lorentz s : pairs_lorentz s -> Nat.Even (List.length (filter lorentz_b (symbol_indices s))).
Proof.
  intros [N|(i & j & -> & I & J)].
  - rewrite filter_none; [exists 0; reflexivity|]. intros i H. apply not_true_is_false. intros E. apply lorentz_b_iff in E. now apply (N i).
  - cbn [filter]. apply lorentz_b_iff in I, J. rewrite I, J. exists 1. reflexivity.
Qed.

Lemma op_lorentz op : Forall indexed_by_labels (indexed_fields op) -> Forall pairs_lorentz (epsilons op) ->
  exists k, List.length (filter lorentz_b (op_indices op)) = list_sum (map (fun x => undotted_label (i_field x) + dotted_label (i_field x)) (indexed_fields op)) + 2 * k.
Proof.
  induction op as [|t op IH]; intros F S; [exists 0; reflexivity|].
  unfold op_indices. cbn [flat_map]. rewrite filter_app, app_length. fold (op_indices op). destruct t as [x|s].
  - cbn [indexed_fields epsilons flat_map app] in F, S. inversion F as [|? ? Fx F']; subst. destruct (IH F' S) as (k & K). exists k.
    rewrite K. cbn [tensor_indices]. rewrite (field_lorentz x Fx). cbn [indexed_fields flat_map app map]. fold (indexed_fields op).
    change (list_sum (?a :: ?l)) with (a + list_sum l). lia.
  - cbn [indexed_fields epsilons flat_map app] in F, S. inversion S as [|? ? Sx S']; subst. destruct (IH F S') as (k & K). destruct (symbol_lorentz s Sx) as (j & J). exists (k + j).
    rewrite K. cbn [tensor_indices]. rewrite J. cbn [indexed_fields flat_map app]. fold (indexed_fields op). lia.
Qed.

Lemma field_of_labels x f : field_of x = Ok f -> f_dynkin f = f_dynkin (i_field x) /\ f_derivs f = f_derivs (i_field x).
Proof.
  unfold field_of, mk_field. cbn [bind]. destruct (negb (f_nf (i_field x) =? 1) && negb (f_nf (i_field x) =? 3)); [discriminate|]. intros [= <-]. auto.
Qed.

Lemma counts_parity fs n : counts half_integer fs n -> exists k, list_sum (map (fun f => undotted_label f + dotted_label f) fs) + n = 2 * k.
Proof.
  induction 1 as [|f l n P _ (k & IH)|f l n P _ (k & IH)]; cbn [map]; change (list_sum (?a :: ?l)) with (a + list_sum l).
  - exists 0. reflexivity.
  - destruct P as [j P]. exists (k + j + 1). lia.
  - destruct (Nat.Even_or_Odd (undotted_label f + dotted_label f)) as [[j E]|O]; [|contradiction]. exists (k + j). lia.
Qed.

Theorem C53_even : forall op fs n,
  op_fields op = Ok fs -> lorentz_invariant op -> counts half_integer fs n -> Nat.Even n.
Proof.
  intros op fs n E [P F S Cl] C.
  assert (Ev : Nat.Even (List.length (filter lorentz_b (op_indices op)))).
  { apply closed_even.
    - unfold proper_op in P. clear -P. induction (op_indices op) as [|i l IH]; [constructor|]. cbn [map filter] in *. inversion P as [|? ? P1 P2]; subst.
      destruct (lorentz_b i); [|auto]. cbn [map]. constructor; [|auto]. intros I. apply P1. apply in_map_iff in I as (j & <- & J). apply filter_In in J as [J _]. now apply in_map.
    - intros i I. apply filter_In in I as [I L]. destruct (existsb (opposite i) (op_indices op)) eqn:X.
      + apply existsb_exists in X as (j & J & O). unfold opposite in O. apply andb_true_iff in O as [O O3]. apply andb_true_iff in O as [O1 O2].
        apply str_decides in O1. exists j.
        assert (T : ix_type j = ix_type i) by (destruct (ix_type i), (ix_type j); try reflexivity; discriminate O2).
        split; [|repeat split; try congruence; destruct (ix_up i), (ix_up j); try reflexivity; discriminate O3].
        apply filter_In. split; [exact J|]. unfold lorentz_b in *. now rewrite T.
      + exfalso. apply lorentz_b_iff in L. apply (Cl i); [|exact L]. split; [exact I|]. intros j J (N1 & N2 & N3).
        assert (Y : existsb (opposite i) (op_indices op) = true); [|congruence]. apply existsb_exists. exists j. split; [exact J|].
        unfold opposite. rewrite N1, N2, N3. assert (Z : str_eqb (ix_name i) (ix_name i) = true) by now apply str_decides. rewrite Z. destruct (ix_type i), (ix_up i); reflexivity. }
  destruct (op_lorentz op F S) as (k & K). rewrite K in Ev. destruct (counts_parity fs n C) as (j & J).
  assert (Q : list_sum (map (fun x => undotted_label (i_field x) + dotted_label (i_field x)) (indexed_fields op)) = list_sum (map (fun f => undotted_label f + dotted_label f) fs)).
  { unfold op_fields in E. apply mapM_Forall2 in E. clear -E. induction E as [|x f l l' H _ IH]; [reflexivity|]. cbn [map]. change (list_sum (?a :: ?l)) with (a + list_sum l).
    rewrite IH. destruct (field_of_labels x f H) as [D _]. unfold undotted_label, dotted_label, labels_of. now rewrite D. }
  rewrite Q in Ev. destruct Ev as [i I]. exists (j + k - i). lia.
Qed.

Theorem C80_topology_type : forall op fs n,
  op_fields op = Ok fs -> Forall has_digits fs -> counts half_integer fs n ->
  topology_type op = Ok (List.length fs - n, n).
Proof.
  intros op fs n E D C. unfold topology_type. rewrite E. cbn [bind].
  assert (G : forall n b0 n0, counts half_integer fs n ->
    foldM (fun m f => do b <- is_boson f; if b then Ok (fst m + 1, snd m) else do c <- is_fermion f; Ok (if c then (fst m, snd m + 1) else m)) fs (b0, n0) =
    Ok (b0 + (List.length fs - n), n0 + n)).
  { clear n E C. induction D as [|f fs Df D IH]; intros n b0 n0 C; inversion C as [|? ? n1 P C'|? ? n1 P C']; subst; cbn [foldM List.length].
    - f_equal. f_equal; lia.
    - destruct (boson_digits f Df) as [(_ & B & F)|(O & _)]; [|contradiction]. rewrite B, F. cbn [bind fst snd]. rewrite (IH n1) by exact C'. do 2 f_equal; lia.
    - destruct (boson_digits f Df) as [(O & _)|(_ & B & F)]; [contradiction|]. rewrite B. cbn [bind fst snd]. rewrite (IH n) by exact C'. pose proof (counts_le _ _ _ C'). do 2 f_equal; lia. }
  rewrite (G n 0 0 C). reflexivity.
Qed.

(** ** Cases: the Weinberg operator; one with a derivative; two derivatives on one field, or a field strength *)

Definition ex_charges (y b : Q) : option charges := Some [(lit "y", Q2Qc y); (lit "3b", Q2Qc b)].
Definition ex_field (label dynkin : string) (y : Q) (nf : nat) : res field :=
  mk_field (lit label) (lit dynkin) (ex_charges y 0) false (lit "0") None None 1 None nf 0 None.

Definition ex_tensors (l : list (res tensor)) : res operator := mapM (fun x => x) l.
Definition ex_indexed (f : res field) (s : string) : res tensor := do f <- f; do x <- call_field f (lit s); Ok (TField x).
Definition ex_eps (s : string) : res tensor := do e <- eps (lit s); Ok (TSymbol e).

Definition ex_L := ex_field "L" "10001" (-1 # 2) 3.
Definition ex_H := ex_field "H" "00001" (1 # 2) 1.

Definition weinberg : res operator :=
  ex_tensors [ex_indexed ex_L "u0 i0 g0"; ex_indexed ex_L "u1 i1 g1"; ex_indexed ex_H "i2"; ex_indexed ex_H "i3";
              ex_eps "-u0 -u1"; ex_eps "-i0 -i2"; ex_eps "-i1 -i3"].

Definition get {A} (d : A) (x : res A) : A := match x with Ok a => a | Err _ => d end.

Ltac count_fields := repeat (first [apply counts_nil | apply counts_yes; [exists 0; reflexivity|] | apply counts_no; [intros [? X]; match type of X with ?a = _ => let n := eval vm_compute in a in change a with n in X end; lia|]]).

Example C53_example :
  let op := get [] weinberg in
  List.length op = 7 /\ lorentz_invariant op /\ (exists fs, op_fields op = Ok fs /\ Forall has_digits fs /\ counts half_integer fs 2 /\
    Forall (fun f => half_integer f \/ scalar_or_vector f) fs) /\
  mass_dimension op = Ok 5%Z /\ topology_type op = Ok (2, 2) /\
  mass_dimension (get [] (ex_tensors [ex_indexed ex_L "u0 i0 g0"; ex_indexed (do h <- ex_H; D h (lit "11")) "u1 d1 i1"])) = Err AssertionError /\
  (do op <- ex_tensors [ex_indexed (do h <- ex_H; D h (lit "11")) "u0 d0 i0"; ex_indexed (do h <- ex_H; D h (lit "11")) "u1 d1 i1"; ex_eps "-u0 -u1"; ex_eps "-d0 -d1"];
   do m <- op_mass_dim op; do d <- mass_dimension op; Ok (m, d)) = Ok (Q2Qc 2, 4%Z) /\
  (do op <- ex_tensors [ex_indexed (do h <- ex_H; do h <- D h (lit "11"); D h (lit "22")) "u0 u1 d0 d1 i0"]; mass_dimension op) = Err PlainException /\
  (do op <- ex_tensors [ex_indexed (ex_field "B" "20000" 0 1) "u0 u1"]; mass_dimension op) = Err PlainException.
Proof.
  cbv zeta. split; [vm_compute; reflexivity|]. split.
  - constructor.
    + unfold proper_op. vm_compute. repeat (constructor; [cbn; intuition discriminate|]). constructor.
    + assert (X : forallb (fun x => (count_kind Undotted true (i_indices x) =? undotted_label (i_field x)) && (count_kind Dotted true (i_indices x) =? dotted_label (i_field x)) &&
        forallb (fun i => negb (lorentz_b i) || ix_up i) (i_indices x)) (indexed_fields (get [] weinberg)) = true) by (vm_compute; reflexivity).
      rewrite forallb_forall in X. apply Forall_forall. intros x I. specialize (X x I). apply andb_true_iff in X as [X X3]. apply andb_true_iff in X as [X1 X2].
      apply Nat.eqb_eq in X1, X2. split; [exact X1|]. split; [exact X2|]. intros i Ii L. rewrite forallb_forall in X3. specialize (X3 i Ii). apply lorentz_b_iff in L. now rewrite L in X3.
    + vm_compute. constructor; [right; do 2 eexists; split; [reflexivity|]; split; left; reflexivity|].
      repeat (constructor; [left; intros i [<- | [<- | []]] [C|C]; discriminate C|]). constructor.
    + intros i [I F] L.
      assert (X : forallb (fun i => negb (lorentz_b i) || existsb (opposite i) (op_indices (get [] weinberg))) (op_indices (get [] weinberg)) = true) by (vm_compute; reflexivity).
      rewrite forallb_forall in X. specialize (X i I). apply lorentz_b_iff in L. rewrite L in X. cbn [negb orb] in X. apply existsb_exists in X as (j & J & O).
      apply (F j J). unfold opposite in O. apply andb_true_iff in O as [O O3]. apply andb_true_iff in O as [O1 O2]. apply str_decides in O1.
      split; [congruence|]. split; [destruct (ix_type i), (ix_type j); try reflexivity; discriminate O2|destruct (ix_up i), (ix_up j); try reflexivity; discriminate O3].
  - split; [|vm_compute; repeat split; reflexivity].
    let fs := eval vm_compute in (get [] (op_fields (get [] weinberg))) in exists fs. split; [vm_compute; reflexivity|]. split; [|split; [count_fields|]].
    + constructor; [exists 1, 0, 0, 0, 1; repeat split; lia|]. constructor; [exists 1, 0, 0, 0, 1; repeat split; lia|].
      constructor; [exists 0, 0, 0, 0, 1; repeat split; lia|]. constructor; [exists 0, 0, 0, 0, 1; repeat split; lia|]. constructor.
    + constructor; [left; exists 0; reflexivity|]. constructor; [left; exists 0; reflexivity|]. constructor; [right; left; split; reflexivity|]. constructor; [right; left; split; reflexivity|]. constructor.
Qed.

Print Assumptions C53_dimension.
Print Assumptions C53_even.
Print Assumptions C80_topology_type.
