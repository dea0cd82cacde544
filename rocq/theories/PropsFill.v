(** * PropsFill: C111, numbering the free indices of an operator *)

From Coq Require Import Ascii String List Bool Arith ZArith QArith Qcanon Lia.
From Coq Require DecimalString DecimalPos DecimalNat.
From Verif Require Import Base BaseFacts Show ModelFunctions ModelIndex SpecIndex ProofsIndex ModelField ModelContract ModelInvariants ModelFill SpecFill.
From Verif Require PropsField2 PropsJson PropsRelabel.
Import ListNotations.
Local Open Scope nat_scope.

(** ** the digits of a number *)

Lemma lu_nat d : DecimalPos.Unsigned.of_lu d = N.of_nat (DecimalNat.Unsigned.of_lu d).
Proof. induction d; cbn [DecimalPos.Unsigned.of_lu DecimalNat.Unsigned.of_lu]; try reflexivity; rewrite IHd; lia. Qed.

Lemma digits_show n : show_Z (Z.of_nat n) = digits_of n.
Proof.
  assert (U : N.to_uint (N.of_nat n) = Nat.to_uint n).
  { rewrite <- (DecimalNat.Unsigned.of_to n) at 1. rewrite DecimalNat.Unsigned.of_uint_alt, <- lu_nat, <- DecimalPos.Unsigned.of_uint_alt, DecimalPos.Unsigned.to_of.
    rewrite <- DecimalNat.Unsigned.to_of, DecimalNat.Unsigned.of_to. reflexivity. }
  unfold show_Z, digits_of, lit. rewrite <- U. destruct n; reflexivity.
Qed.

Lemma digits_inj a b : digits_of a = digits_of b -> a = b.
Proof. rewrite <- !digits_show. intros E. apply show_Z_inj in E. lia. Qed.

Lemma digits_lower n : lower (digits_of n) = digits_of n.
Proof.
  unfold digits_of. pose proof (uint_digits (Nat.to_uint n)) as D. unfold lit in D. induction D as [|c l C _ IH]; [reflexivity|].
  change (lower (c :: l)) with (lower_char c :: lower l). rewrite IH. f_equal. unfold is_digit in C. cbn in C.
  repeat (destruct C as [<- | C]; [reflexivity|]). destruct C.
Qed.

Lemma cons_numbered t n up : exists l, cons_index t (Z.of_nat n) up = Ok (mkIndex l (numbered t n) t up).
Proof.
  unfold cons_index. rewrite digits_show.
  assert (L : index_letter t = letter t) by now destruct t.
  eexists. rewrite (new_index_spelled _ (negb up) false t (digits_of n)).
  - rewrite app_nil_r, negb_involutive. unfold numbered. replace (letter_for t) with (letter t) by now destruct t. reflexivity.
  - unfold spelled. rewrite L. unfold lower. rewrite !map_app. fold (lower (digits_of n)). rewrite digits_lower.
    destruct up, t; reflexivity.
Qed.

(** ** the free indices *)

Definition free_b (all : list index) (i : index) : bool := negb (existsb (opposite i) all).

Lemma opposite_iff i j : opposite i j = true <-> ix_name j = ix_name i /\ ix_type j = ix_type i /\ ix_up j = negb (ix_up i).
Proof.
  unfold opposite. rewrite !andb_true_iff, negb_true_iff. split.
  - intros ((A & B) & C). apply str_decides in A. apply itype_decides in B. destruct (ix_up i), (ix_up j); try discriminate C; auto.
  - intros (A & B & C). rewrite A, B, C. repeat split; [now apply str_decides|now apply itype_decides|destruct (ix_up i); reflexivity].
Qed.

Lemma free_b_iff all i : free_b all i = true <-> ~ summed all i.
Proof.
  unfold free_b, summed. rewrite negb_true_iff. split.
  - intros E (j & I & H). apply opposite_iff in H. assert (existsb (opposite i) all = true) by (apply existsb_exists; eauto). congruence.
  - intros H. destruct (existsb (opposite i) all) eqn:E; [|reflexivity]. destruct H. apply existsb_exists in E as (j & I & O). exists j. split; [exact I|now apply opposite_iff].
Qed.

Lemma summed_b_iff all i : free_b all i = false <-> summed all i.
Proof.
  destruct (free_b all i) eqn:E.
  - apply free_b_iff in E. split; [discriminate|tauto].
  - split; [|reflexivity]. intros _. unfold free_b in E. apply negb_false_iff, existsb_exists in E as (j & I & O). exists j. split; [exact I|now apply opposite_iff].
Qed.

Lemma slots_indices op : slots op = op_indices op.
Proof.
  unfold slots, op_indices. rewrite flat_map_concat_map. reflexivity.
Qed.

Definition wanted (all : list index) (t : itype) (i : index) : bool := itype_eqb (ix_type i) t && free_b all i.

Lemma free_among_iff all t l n : free_among all t l n <-> n = List.length (filter (wanted all t) l).
Proof.
  assert (F : free_among all t l n -> n = List.length (filter (wanted all t) l)).
  { clear. induction 1 as [|i l n T S _ IH|i l n T _ IH|i l n S _ IH]; cbn [filter]; [reflexivity|unfold wanted at 1..].
    - replace (itype_eqb (ix_type i) t) with true by (symmetry; now apply itype_decides). apply free_b_iff in S. rewrite S. cbn. now rewrite IH.
    - destruct (itype_eqb (ix_type i) t) eqn:E; [apply itype_decides in E; contradiction|]. exact IH.
    - apply summed_b_iff in S. rewrite S, andb_false_r. exact IH. }
  split; [apply F|]. intros ->. clear F. induction l as [|i l IH]; cbn [filter]; [constructor|].
  unfold wanted at 1. destruct (itype_eqb (ix_type i) t) eqn:E; cbn [andb].
  - apply itype_decides in E. destruct (free_b all i) eqn:S; [apply free_b_iff in S; now apply fa_yes|apply summed_b_iff in S; now apply fa_summed].
  - apply fa_type; [|exact IH]. intros T. apply itype_decides in T. congruence.
Qed.

(** ** the replacements *)

Definition number_from (t : itype) (n : nat) (l : list index) (out : list (index * index)) : Prop :=
  map fst out = l /\ forall k i j, nth_error out k = Some (i, j) -> plain_of j = (numbered t (n + k), t, ix_up i).

Definition counted (store : list (ascii * Z)) (t : itype) : Z := match dget Ascii.eqb store (index_letter t) with Some n => n | None => 0%Z end.

Lemma ascii_dec_ok : decides Ascii.eqb. Proof. intros a b. apply Ascii.eqb_eq. Qed.

Lemma letter_apart t u : t <> u -> index_letter t <> index_letter u.
Proof. destruct t, u; intros N E; try discriminate E; now apply N. Qed.

Lemma number_run t l : forall store reps n, counted store t = Z.of_nat n ->
  exists store' out, foldM (fill_step t) l (store, reps) = Ok (store', reps ++ out) /\ number_from t n l out /\
    counted store' t = Z.of_nat (n + List.length l) /\ (forall u, u <> t -> counted store' u = counted store u).
Proof.
  induction l as [|i l IH]; intros store reps n C.
  - exists store, []. rewrite app_nil_r. cbn [foldM List.length]. rewrite Nat.add_0_r. split; [reflexivity|]. split; [|split; [exact C|auto]].
    split; [reflexivity|]. intros [|k]; discriminate.
  - cbn [foldM]. unfold fill_step at 1. fold (counted store t). rewrite C. destruct (cons_numbered t n (ix_up i)) as (lab & E). rewrite E. cbn [bind].
    set (j := mkIndex lab (numbered t n) t (ix_up i)).
    destruct (IH (dset Ascii.eqb store (index_letter t) (Z.of_nat n + 1)%Z) (reps ++ [(i, j)]) (S n)) as (store' & out & R & N & C' & O).
    { unfold counted. rewrite (dget_dset_same ascii_dec_ok). lia. }
    exists store', ((i, j) :: out). rewrite R, <- app_assoc. split; [reflexivity|]. split; [|split].
    + destruct N as (N1 & N2). split; [cbn [map fst]; now rewrite N1|]. intros [|k] a b; cbn [nth_error].
      * intros [= <- <-]. rewrite Nat.add_0_r. reflexivity.
      * intros H. rewrite (N2 _ _ _ H). replace (n + S k) with (S n + k) by lia. reflexivity.
    + rewrite C'. cbn [List.length]. f_equal. lia.
    + intros u U. rewrite (O u U). unfold counted. rewrite (dget_dset_other ascii_dec_ok); [reflexivity|now apply letter_apart].
Qed.

Lemma types_run (f : itype -> list index) ts : NoDup ts -> forall store reps, (forall t, In t ts -> counted store t = 0%Z) ->
  exists store' outs, foldM (fun acc (ti : itype * list index) => foldM (fill_step (fst ti)) (snd ti) acc) (map (fun t => (t, f t)) ts) (store, reps) = Ok (store', reps ++ List.concat outs) /\
    Forall2 (fun t out => number_from t 0 (f t) out) ts outs.
Proof.
  induction 1 as [|t ts N ND IH]; intros store reps Z.
  - exists store, []. cbn. rewrite app_nil_r. split; [reflexivity|constructor].
  - cbn [map foldM fst snd]. destruct (number_run t (f t) store reps 0 (Z t (or_introl eq_refl))) as (store1 & out & R & M & _ & O). rewrite R. cbn [bind].
    destruct (IH store1 (reps ++ out)) as (store' & outs & R' & F').
    { intros u U. rewrite O; [apply Z; now right|]. intros ->. contradiction. }
    exists store', (out :: outs). rewrite R'. cbn [List.concat]. rewrite app_assoc. split; [reflexivity|]. now constructor.
Qed.

Lemma index_eqb_plain i j : index_eqb i j = true <-> plain_of i = plain_of j.
Proof.
  unfold index_eqb, plain_of. rewrite !andb_true_iff, Bool.eqb_true_iff. split.
  - intros ((A & B) & ->). apply str_decides in A as ->. apply itype_decides in B as ->. reflexivity.
  - intros [= -> -> ->]. repeat split; [now apply str_decides|now apply itype_decides].
Qed.

Lemma replaced_skip p q i : (forall a b, In (a, b) p -> plain_of a <> plain_of i) -> replaced (p ++ q) i = replaced q i.
Proof.
  induction p as [|(a, b) p IH]; intros H; [reflexivity|]. cbn [app replaced]. destruct (index_eqb a i) eqn:E.
  - apply index_eqb_plain in E. destruct (H a b); [now left|exact E].
  - apply IH. intros x y I. apply (H x y). now right.
Qed.

Lemma number_from_in t n l out i j : number_from t n l out -> In (i, j) out -> In i l.
Proof. intros (<- & _) I. apply in_map_iff. exists (i, j). auto. Qed.

Definition fills (all : list index) (p : nat) (i : index) : plain_index :=
  if free_b all i then (numbered (ix_type i) (List.length (filter (wanted all (ix_type i)) (firstn p all))), ix_type i, ix_up i) else plain_of i.

Lemma all_types_nodup : NoDup all_itypes.
Proof. repeat constructor; cbn; intuition discriminate. Qed.

Lemma all_types_in t : In t all_itypes.
Proof. destruct t; cbn; tauto. Qed.

Lemma filter_and {A} (f g : A -> bool) l : filter f (filter g l) = filter (fun x => f x && g x) l.
Proof. induction l as [|x l IH]; [reflexivity|]. cbn [filter]. destruct (g x) eqn:G; cbn [filter]; rewrite ?andb_true_r, ?andb_false_r; destruct (f x); cbn [andb]; now rewrite IH. Qed.

Lemma nth_firstn {A} p : forall (l : list A) q x, nth_error (firstn p l) q = Some x -> nth_error l q = Some x.
Proof.
  induction p as [|p IH]; intros l q x E; [destruct q; discriminate E|]. destruct l as [|y l]; [exact E|]. destruct q; cbn in *; [exact E|]. now apply IH.
Qed.

Lemma pairs_fill op : proper op -> exists pairs, replacements_of (free_indices op) = Ok pairs /\
  forall p i, nth_error (slots op) p = Some i -> replaced pairs i = fills (slots op) p i.
Proof.
  intros P. unfold replacements_of. rewrite PropsJson.by_type_list.
  destruct (types_run (fun t => by_type t (free_indices op)) all_itypes all_types_nodup [] []) as (store & outs & R & F).
  { reflexivity. }
  rewrite R. cbn [bind snd app]. exists (List.concat outs). split; [reflexivity|]. clear R store.
  set (all := slots op) in *.
  assert (B : forall t, by_type t (free_indices op) = filter (wanted all t) all).
  { intros t. rewrite PropsField2.by_type_filter. unfold free_indices. rewrite <- slots_indices. fold all. rewrite filter_and. reflexivity. }
  assert (F' : Forall2 (fun t out => number_from t 0 (filter (wanted all t) all) out) all_itypes outs).
  { clear - F B. induction F as [|t out ts outs M _ IH]; constructor; [now rewrite <- B|exact IH]. }
  clear F B. intros p i Ep. unfold fills. destruct (free_b all i) eqn:Fi.
  - assert (G : forall ts outs, Forall2 (fun t out => number_from t 0 (filter (wanted all t) all) out) ts outs -> In (ix_type i) ts ->
      replaced (List.concat outs) i = (numbered (ix_type i) (List.length (filter (wanted all (ix_type i)) (firstn p all))), ix_type i, ix_up i)).
    { clear outs F'. induction 1 as [|t out ts outs M F IH]; intros I; [destruct I|]. cbn [List.concat].
      destruct (itype_eqb t (ix_type i)) eqn:T.
      - apply itype_decides in T as ->. set (t := ix_type i) in *.
        assert (S : filter (wanted all t) all = filter (wanted all t) (firstn p all) ++ i :: filter (wanted all t) (skipn (S p) all)).
        { assert (A : all = firstn p all ++ i :: skipn (S p) all).
          { clear - Ep. revert p Ep. induction all as [|x l IH]; intros [|p] E; try discriminate E; cbn in *; [now injection E as ->|]. f_equal. now apply IH. }
          rewrite A at 2. rewrite filter_app. cbn [filter]. replace (wanted all t i) with true; [reflexivity|]. unfold wanted. rewrite Fi. unfold t. rewrite (decides_refl itype_decides). reflexivity. }
        set (k := List.length (filter (wanted all t) (firstn p all))) in *. destruct M as (M1 & M2).
        assert (K : exists j, nth_error out k = Some (i, j)).
        { assert (E : nth_error (map fst out) k = Some i) by (rewrite M1, S, nth_error_app2, Nat.sub_diag; [reflexivity|exact (le_n k)]).
          rewrite nth_error_map in E. destruct (nth_error out k) as [(a, b)|]; [|discriminate E]. injection E as <-. now exists b. }
        destruct K as (j & K). pose proof (M2 _ _ _ K) as J. apply nth_error_split in K as (o1 & o2 & -> & L).
        rewrite <- app_assoc. rewrite replaced_skip.
        + cbn [app replaced]. replace (index_eqb i i) with true by (symmetry; now apply index_eqb_plain). rewrite J. reflexivity.
        + intros a b I' E. rewrite map_app in M1. rewrite S in M1. cbn [map fst] in M1.
          assert (A : map fst o1 = filter (wanted all t) (firstn p all)).
          { assert (Q : firstn k (map fst o1 ++ i :: map fst o2) = firstn k (filter (wanted all t) (firstn p all) ++ i :: filter (wanted all t) (skipn (Datatypes.S p) all))) by now rewrite M1.
            rewrite <- L in Q at 1. rewrite <- (map_length fst o1), firstn_app, Nat.sub_diag, firstn_all, firstn_O, app_nil_r in Q. rewrite Q.
            unfold k. rewrite firstn_app, Nat.sub_diag, firstn_all, firstn_O, app_nil_r. reflexivity. }
          assert (I2 : In a (firstn p all)). { assert (In a (map fst o1)) as I3 by (apply in_map_iff; exists (a, b); auto). rewrite A in I3. now apply filter_In in I3. }
          apply In_nth_error in I2 as (q & Eq). assert (q < p). { assert (q < List.length (firstn p all)) by (apply nth_error_Some; congruence). rewrite firstn_length in *. lia. }
          assert (Eq' : nth_error all q = Some a) by now apply (nth_firstn p).
          injection E as E1 E2 E3. pose proof (P q p a i Eq' Ep E1 E2 E3). lia.
      - assert (T' : t <> ix_type i) by (intros E; apply itype_decides in E; congruence).
        rewrite replaced_skip; [apply IH; destruct I as [E|I]; [now destruct T'|exact I]|].
        intros a b I' E. injection E as _ E _. apply (number_from_in _ _ _ _ _ _ M) in I'. apply filter_In in I' as (_ & W). apply andb_true_iff in W as (W & _). apply itype_decides in W. congruence. }
    apply (G all_itypes outs F'). apply all_types_in.
  - rewrite <- (app_nil_r (List.concat outs)). rewrite replaced_skip; [reflexivity|]. intros a b I E.
    apply in_concat in I as (out & Io & I).
    assert (M : exists t, number_from t 0 (filter (wanted all t) all) out).
    { clear - F' Io. induction F' as [|t o ts outs M _ IH]; [destruct Io|]. destruct Io as [->|Io]; [eauto|auto]. }
    destruct M as (t & M). apply (number_from_in _ _ _ _ _ _ M) in I. apply filter_In in I as (_ & W). apply andb_true_iff in W as (_ & W).
    apply free_b_iff in W. apply W. apply summed_b_iff in Fi. destruct Fi as (j & Ij & A & B & C). injection E as E1 E2 E3. exists j. rewrite A, B, C. repeat split; congruence.
Qed.

(** ** what is filled in *)

Lemma fill_slots op : proper op -> exists out, fill_free_indices op = Ok out /\ map fst out = map head_of op /\
  map (fun h => List.length (snd h)) out = map (fun t => List.length (tensor_indices t)) op /\
  List.length (List.concat (map snd out)) = List.length (slots op) /\
  forall p i, nth_error (slots op) p = Some i -> nth_error (List.concat (map snd out)) p = Some (fills (slots op) p i).
Proof.
  intros P. destruct (pairs_fill op P) as (pairs & R & H). unfold fill_free_indices. rewrite R. cbn [bind]. eexists. split; [reflexivity|].
  rewrite !map_map. cbn [fst snd].
  assert (C : List.concat (map (fun t => map (replaced pairs) (tensor_indices t)) op) = map (replaced pairs) (slots op)).
  { rewrite slots_indices. unfold op_indices. rewrite flat_map_concat_map, concat_map, map_map. reflexivity. }
  rewrite C. split; [reflexivity|]. split; [apply map_ext; intros t; apply map_length|]. split; [apply map_length|].
  intros p i E. rewrite nth_error_map, E. cbn [option_map]. f_equal. now apply H.
Qed.

Lemma blocks_same {A B} (l m : list (list A)) (f : list B) : map (@List.length A) l = map (@List.length A) m -> List.concat l = List.concat m -> l = m.
Proof.
  clear f B. revert m. induction l as [|x l IH]; intros [|y m] L E; try discriminate L; [reflexivity|]. cbn in L, E. injection L as L1 L2.
  assert (X : x = y). { rewrite <- (firstn_all x), <- (firstn_all y), <- L1. apply (f_equal (firstn (List.length x))) in E. rewrite !firstn_app, <- L1, Nat.sub_diag, !firstn_O, !app_nil_r in E. exact E. }
  subst y. apply app_inv_head in E. f_equal. now apply IH.
Qed.

(** Every tensor keeps its place, its kind and the number of its indices.  An index that is summed over is kept, a free one is
    replaced by the number of the free ones of its type before it. *)
Theorem C111_fill :
  forall op, proper op -> exists out, fill_free_indices op = Ok out /\ map fst out = map head_of op /\
    map (fun h => List.length (snd h)) out = map (fun t => List.length (tensor_indices t)) op /\
    List.length (List.concat (map snd out)) = List.length (slots op) /\
    forall p i, nth_error (slots op) p = Some i ->
      (summed (slots op) i -> nth_error (List.concat (map snd out)) p = Some (ix_name i, ix_type i, ix_up i)) /\
      (~ summed (slots op) i -> exists n, free_among (slots op) (ix_type i) (firstn p (slots op)) n /\
         nth_error (List.concat (map snd out)) p = Some (numbered (ix_type i) n, ix_type i, ix_up i)).
Proof.
  intros op P. destruct (fill_slots op P) as (out & E & H & L & T & S). exists out. repeat (split; [assumption|]). intros p i Ei. rewrite (S p i Ei). unfold fills. split; intros Q.
  - apply summed_b_iff in Q. rewrite Q. reflexivity.
  - apply free_b_iff in Q. rewrite Q. eexists. split; [now apply free_among_iff|reflexivity].
Qed.

(** ** relabelled operators *)

Lemma same_heads a b : Forall2 same_tensor a b -> map ix_type (slots a) = map ix_type (slots b) -> map head_of a = map head_of b.
Proof.
  induction 1 as [|t u a b ST _ IH]; intros T; [reflexivity|].
  assert (X : map ix_type (tensor_indices t) = map ix_type (tensor_indices u) /\ map ix_type (slots a) = map ix_type (slots b)).
  { rewrite !slots_indices in T. cbn [op_indices flat_map] in T. rewrite !map_app in T. rewrite !slots_indices.
    assert (L : List.length (tensor_indices t) = List.length (tensor_indices u)).
    { destruct t as [x|[? ?|?|?]], u as [y|[? ?|?|?]]; cbn in ST |- *; tauto. }
    apply (f_equal (firstn (List.length (tensor_indices t)))) in T as T1. apply (f_equal (skipn (List.length (tensor_indices t)))) in T as T2.
    rewrite !firstn_app, !map_length, <- L, Nat.sub_diag, !firstn_O, !app_nil_r in T1. rewrite !skipn_app, !map_length, <- L, Nat.sub_diag in T2.
    rewrite !(skipn_all2 (n := List.length (tensor_indices t))) in T2 by (rewrite map_length; lia). cbn [app skipn] in T2.
    rewrite !firstn_all2 in T1 by (rewrite map_length; lia). split; assumption. }
  destruct X as (X1 & X2). cbn [map]. rewrite (IH X2). f_equal.
  destruct t as [x|[? ?|?|?]], u as [y|[? ?|?|?]]; cbn in ST, X1 |- *; try contradiction; try reflexivity.
  - destruct ST as (-> & -> & -> & _). now rewrite X1.
  - destruct ST as (-> & _). reflexivity.
Qed.

Lemma nth_ext' {A} (l m : list A) : (forall p, nth_error l p = nth_error m p) -> l = m.
Proof.
  revert m. induction l as [|x l IH]; intros [|y m] H; [reflexivity|specialize (H 0); discriminate H|specialize (H 0); discriminate H|].
  pose proof (H 0) as E. injection E as ->. f_equal. apply IH. intros p. exact (H (S p)).
Qed.

Lemma same_length a b : Forall2 same_tensor a b -> map (fun t => List.length (tensor_indices t)) a = map (fun t => List.length (tensor_indices t)) b /\ List.length (slots a) = List.length (slots b).
Proof.
  induction 1 as [|t u a b ST _ (IH1 & IH2)]; [now split|].
  assert (L : List.length (tensor_indices t) = List.length (tensor_indices u)).
  { destruct t as [x|[? ?|?|?]], u as [y|[? ?|?|?]]; cbn in ST |- *; tauto. }
  split; [cbn [map]; congruence|]. rewrite !slots_indices in *. cbn [op_indices flat_map]. rewrite !app_length. unfold op_indices in IH2. lia.
Qed.

Lemma Forall2_nth' {A B} (R : A -> B -> Prop) l m : List.length l = List.length m -> (forall p x y, nth_error l p = Some x -> nth_error m p = Some y -> R x y) -> Forall2 R l m.
Proof.
  revert m. induction l as [|x l IH]; intros [|y m] L H; try discriminate L; constructor; [exact (H 0 x y eq_refl eq_refl)|]. apply IH; [now injection L|]. intros p. exact (H (S p)).
Qed.

Lemma wanted_count t all1 all2 l m : Forall2 (fun i j => ix_type i = ix_type j /\ free_b all1 i = free_b all2 j) l m ->
  List.length (filter (wanted all1 t) l) = List.length (filter (wanted all2 t) m).
Proof.
  induction 1 as [|i j l m (T & F) _ IH]; [reflexivity|]. cbn [filter]. replace (wanted all2 t j) with (wanted all1 t i) by (unfold wanted; now rewrite T, F).
  destruct (wanted all1 t i); cbn [List.length]; congruence.
Qed.

Lemma Forall2_firstn {A B} (R : A -> B -> Prop) p : forall l m, Forall2 R l m -> Forall2 R (firstn p l) (firstn p m).
Proof. induction p as [|p IH]; intros l m H; [constructor|]. destruct H; cbn; constructor; auto. Qed.

Lemma Forall2_at {A B} (R : A -> B -> Prop) l m : Forall2 R l m -> forall p i j, nth_error l p = Some i -> nth_error m p = Some j -> R i j.
Proof. induction 1 as [|x y l m Q _ IH]; intros [|p] i j Ei Ej; try discriminate; cbn in *; [injection Ei as <-; injection Ej as <-; exact Q|eauto]. Qed.

Lemma Forall2_weaken {A B} (R S : A -> B -> Prop) l m : (forall x y, R x y -> S x y) -> Forall2 R l m -> Forall2 S l m.
Proof. intros H. induction 1; constructor; auto. Qed.

Lemma relabelled_same a b : proper a -> proper b -> relabelled a b -> fill_free_indices a = fill_free_indices b.
Proof.
  intros Pa Pb (ST & R). destruct (fill_slots a Pa) as (oa & Ea & Ha & La & Ta & Sa). destruct (fill_slots b Pb) as (ob & Eb & Hb & Lb & Tb & Sb).
  rewrite Ea, Eb. f_equal. destruct (same_length a b ST) as (L1 & L2).
  assert (F : Forall2 (fun i j => (ix_type i = ix_type j /\ free_b (slots a) i = free_b (slots b) j) /\ ix_up i = ix_up j /\ (free_b (slots a) i = false -> ix_name i = ix_name j)) (slots a) (slots b)).
  { apply Forall2_nth'; [exact L2|]. intros p i j Ei Ej. destruct (R p i j Ei Ej) as (T & U & S & N). split; [split; [exact T|]|split; [exact U|]].
    - destruct (free_b (slots a) i) eqn:Fi, (free_b (slots b) j) eqn:Fj; try reflexivity.
      + apply free_b_iff in Fi. apply summed_b_iff in Fj. tauto.
      + apply summed_b_iff in Fi. apply free_b_iff in Fj. tauto.
    - intros Q. apply summed_b_iff in Q. auto. }
  assert (T : map ix_type (slots a) = map ix_type (slots b)) by (clear - F; induction F as [|i j l m ((T & _) & _) _ IH]; cbn; congruence).
  assert (C : List.concat (map snd oa) = List.concat (map snd ob)).
  { apply nth_ext'. intros p. destruct (nth_error (slots a) p) as [i|] eqn:Ei.
    - assert (J : exists j, nth_error (slots b) p = Some j).
      { destruct (nth_error (slots b) p) as [j|] eqn:Ej; [eauto|]. apply nth_error_None in Ej. assert (p < List.length (slots a)) by (apply nth_error_Some; congruence). lia. }
      destruct J as (j & Ej). rewrite (Sa p i Ei), (Sb p j Ej). f_equal. unfold fills.
      assert (Q : (ix_type i = ix_type j /\ free_b (slots a) i = free_b (slots b) j) /\ ix_up i = ix_up j /\ (free_b (slots a) i = false -> ix_name i = ix_name j)).
      { exact (Forall2_at _ _ _ F p i j Ei Ej). }
      destruct Q as ((Qt & Qf) & Qu & Qn). rewrite <- Qf. destruct (free_b (slots a) i) eqn:Fi.
      + rewrite <- Qt, <- Qu. do 2 f_equal. f_equal. apply wanted_count. apply Forall2_firstn. exact (Forall2_weaken _ _ _ _ (fun x y Q => proj1 Q) F).
      + unfold plain_of. rewrite Qt, Qu, (Qn eq_refl). reflexivity.
    - apply nth_error_None in Ei. rewrite (proj2 (nth_error_None _ _)) by lia. symmetry. apply nth_error_None. lia. }
  assert (W : map snd oa = map snd ob).
  { apply (blocks_same _ _ (@nil nat)); [|exact C]. rewrite !map_map. congruence. }
  assert (Hh : map fst oa = map fst ob) by (rewrite Ha, Hb; now apply same_heads).
  clear - W Hh. revert ob W Hh. induction oa as [|(h, l) oa IH]; intros [|(h', l') ob] W Hh; try discriminate W; [reflexivity|].
  cbn in W, Hh. injection W as -> W. injection Hh as -> Hh. f_equal. now apply IH.
Qed.

(** *** back again *)

Lemma count_before {A} (f : A -> bool) l p q x : nth_error l p = Some x -> f x = true -> p < q -> List.length (filter f (firstn p l)) < List.length (filter f (firstn q l)).
Proof.
  revert p q. induction l as [|y l IH]; intros [|p] [|q] E F L; try discriminate E; try lia; cbn in E.
  - injection E as ->. cbn. rewrite F. cbn. lia.
  - cbn [firstn filter]. assert (Q : List.length (filter f (firstn p l)) < List.length (filter f (firstn q l))) by (apply IH; auto; lia). destruct (f y); cbn [List.length]; lia.
Qed.

Lemma count_all {A} (f : A -> bool) l p x : nth_error l p = Some x -> f x = true -> List.length (filter f (firstn p l)) < List.length (filter f l).
Proof.
  intros E F. pose proof (count_before f l p (List.length l) x E F) as H. rewrite firstn_all in H. apply H. apply nth_error_Some. congruence.
Qed.

Lemma numbered_inj t a b : numbered t a = numbered t b -> a = b.
Proof. intros [= E]. now apply digits_inj. Qed.

(** where [a] has a free index, [b] has one *)
Lemma free_stays a b : proper a -> apart a -> List.length (slots a) = List.length (slots b) ->
  (forall p i j, nth_error (slots a) p = Some i -> nth_error (slots b) p = Some j -> fills (slots a) p i = fills (slots b) p j) ->
  forall p i j, nth_error (slots a) p = Some i -> nth_error (slots b) p = Some j -> free_b (slots a) i = true -> free_b (slots b) j = true.
Proof.
  intros P A L H p i j Ei Ej Fi. destruct (free_b (slots b) j) eqn:Fj; [reflexivity|exfalso].
  pose proof (H p i j Ei Ej) as E. unfold fills in E. rewrite Fi, Fj in E. unfold plain_of in E. injection E as En Et Eu.
  apply summed_b_iff in Fj as S. destruct S as (j' & I & N' & T' & U'). apply In_nth_error in I as (q & Eq').
  assert (K : exists i', nth_error (slots a) q = Some i').
  { destruct (nth_error (slots a) q) as [x|] eqn:Q; [eauto|]. apply nth_error_None in Q. assert (q < List.length (slots b)) by (apply nth_error_Some; congruence). lia. }
  destruct K as (i' & Eq). pose proof (H q i' j' Eq Eq') as E'.
  assert (Fj' : free_b (slots b) j' = false).
  { apply summed_b_iff. exists j. split; [eapply nth_error_In; eassumption|]. rewrite U', negb_involutive. auto. }
  unfold fills in E'. rewrite Fj' in E'. destruct (free_b (slots a) i') eqn:Fi'.
  - unfold plain_of in E'. injection E' as En' Et' Eu'. assert (TT : ix_type i' = ix_type i) by congruence. rewrite TT in En'.
    rewrite N', <- En in En'. injection En' as En'. apply digits_inj in En'.
    assert (W : wanted (slots a) (ix_type i) i = true) by (unfold wanted; rewrite (decides_refl itype_decides); exact Fi).
    assert (W' : wanted (slots a) (ix_type i) i' = true) by (unfold wanted; rewrite TT, (decides_refl itype_decides); exact Fi').
    destruct (Nat.lt_trichotomy p q) as [Lt|[->|Lt]].
    + pose proof (count_before _ _ _ _ _ Ei W Lt). lia.
    + assert (i = i') by congruence. subst i'. rewrite U', <- Eu in Eu'. destruct (ix_up i); discriminate Eu'.
    + pose proof (count_before _ _ _ _ _ Eq W' Lt). lia.
  - unfold plain_of in E'. injection E' as En' Et' Eu'. apply summed_b_iff in Fi'.
    assert (W : wanted (slots a) (ix_type i) i = true) by (unfold wanted; rewrite (decides_refl itype_decides); exact Fi).
    assert (TT : ix_type i' = ix_type i) by congruence.
    refine (A i' _ _ (nth_error_In _ _ Eq) Fi' (proj2 (free_among_iff _ _ _ _) eq_refl) _ _).
    + rewrite TT. exact (count_all _ _ _ _ Ei W).
    + rewrite En', N', <- En, TT. reflexivity.
Qed.

Lemma heads_same a b : map head_of a = map head_of b -> map (fun t => List.length (tensor_indices t)) a = map (fun t => List.length (tensor_indices t)) b -> Forall2 same_tensor a b.
Proof.
  revert b. induction a as [|t a IH]; intros [|u b] H L; try discriminate H; [constructor|]. cbn [map] in H, L. injection H as H1 H2. injection L as L1 L2. constructor; [|now apply IH].
  destruct t as [x|[? ?|?|?]], u as [y|[? ?|?|?]]; cbn in H1, L1 |- *; try discriminate H1; try exact L1; [|split; [congruence|exact L1]].
  injection H1 as H1 _ H3 H4. auto.
Qed.

(** Two operators come out the same exactly when they differ by the names of their free indices only.  (A relabelled operator
    comes out the same whether or not the names are apart.) *)
Theorem C111_relabelled :
  forall a b, proper a -> proper b ->
    (relabelled a b -> fill_free_indices a = fill_free_indices b) /\
    (apart a -> apart b -> fill_free_indices a = fill_free_indices b -> relabelled a b).
Proof.
  intros a b Pa Pb. split; [now apply relabelled_same|]. intros Aa Ab E.
  destruct (fill_slots a Pa) as (oa & Ea & Ha & La & Ta & Sa). destruct (fill_slots b Pb) as (ob & Eb & Hb & Lb & Tb & Sb).
  assert (O : oa = ob) by congruence. subst ob. clear Ea Eb E.
  assert (L : List.length (slots a) = List.length (slots b)) by congruence.
  assert (H : forall p i j, nth_error (slots a) p = Some i -> nth_error (slots b) p = Some j -> fills (slots a) p i = fills (slots b) p j).
  { intros p i j Ei Ej. specialize (Sa p i Ei). specialize (Sb p j Ej). congruence. }
  assert (H' : forall p i j, nth_error (slots b) p = Some i -> nth_error (slots a) p = Some j -> fills (slots b) p i = fills (slots a) p j).
  { intros p i j Ei Ej. symmetry. now apply H. }
  split; [apply heads_same; congruence|]. intros p i j Ei Ej. pose proof (H p i j Ei Ej) as E.
  pose proof (free_stays a b Pa Aa L H p i j Ei Ej) as F1. pose proof (free_stays b a Pb Ab (eq_sym L) H' p j i Ej Ei) as F2.
  unfold fills in E. destruct (free_b (slots a) i) eqn:Fi, (free_b (slots b) j) eqn:Fj; try (specialize (F1 eq_refl); discriminate F1); try (specialize (F2 eq_refl); discriminate F2).
  - apply free_b_iff in Fi, Fj. injection E as _ E2 E3. tauto.
  - apply summed_b_iff in Fi, Fj. injection E as E1 E2 E3. tauto.
Qed.

(** The names are apart when no type has both free and summed indices, which is how [invariants] leaves them. *)
Theorem C111_apart :
  forall op, (forall i j, In i (slots op) -> In j (slots op) -> summed (slots op) i -> ~ summed (slots op) j -> ix_type i <> ix_type j) -> apart op.
Proof.
  intros op H i n k I S F L. exfalso. assert (Z : n = 0); [|lia]. apply free_among_iff in F. rewrite F.
  destruct (filter (wanted (slots op) (ix_type i)) (slots op)) as [|j l] eqn:E; [reflexivity|].
  assert (J : In j (filter (wanted (slots op) (ix_type i)) (slots op))) by (rewrite E; now left). apply filter_In in J as (J & W). apply andb_true_iff in W as (T & W).
  apply itype_decides in T. apply free_b_iff in W. destruct (H i j I J S W). congruence.
Qed.

(** ** cleaning a list of operators *)

Section Clean.
  Variables (K : Type) (keqb : K -> K -> bool) (canon : list (head * list plain_index) -> option K).
  Hypothesis keqb_ok : forall a b, keqb a b = true <-> a = b.

  Lemma clean_from_kept ops : forall seen kept, clean_from K keqb (simplify_filled canon) seen ops = Ok kept ->
    (forall x, In x kept -> In x ops /\ exists f k, fill_free_indices x = Ok f /\ canon f = Some k /\ ~ In k seen) /\
    ForallOrdPairs (fun x y => fill_free_indices x <> fill_free_indices y) kept /\
    (forall x, In x ops -> exists f, fill_free_indices x = Ok f /\
       (canon f = None \/ exists k, canon f = Some k /\ (In k seen \/ exists y g, In y kept /\ fill_free_indices y = Ok g /\ canon g = Some k))).
  Proof using keqb_ok.
    induction ops as [|op ops IH]; intros seen kept E; cbn [clean_from] in E.
    - injection E as <-. split; [intros x []|]. split; [constructor|intros x []].
    - apply bind_ok in E as (k & Ek & E). unfold simplify_filled in Ek. apply bind_ok in Ek as (f & Ef & Ek). injection Ek as Ek. destruct k as [k|].
      + destruct (existsb (keqb k) seen) eqn:X.
        * destruct (IH _ _ E) as (A & B & C). split; [|split; [exact B|]].
          -- intros x I. destruct (A x I). split; [now right|assumption].
          -- intros x [<-|I]; [|now apply C]. exists f. split; [exact Ef|]. right. exists k. split; [exact Ek|]. left. apply existsb_exists in X as (z & Iz & Z). apply keqb_ok in Z. now subst.
        * assert (Nk : ~ In k seen). { intros I. assert (existsb (keqb k) seen = true) by (apply existsb_exists; exists k; split; [exact I|now apply keqb_ok]). congruence. }
          apply bind_ok in E as (l & El & E). injection E as <-. destruct (IH _ _ El) as (A & B & C). split; [|split].
          -- intros x [<-|I]; [split; [now left|]; exists f, k; auto|]. destruct (A x I) as (I' & g & k' & G1 & G2 & G3). split; [now right|]. exists g, k'. split; [exact G1|]. split; [exact G2|]. intros H. apply G3. now right.
          -- constructor; [|exact B]. apply Forall_forall. intros x I Q. destruct (A x I) as (_ & g & k' & G1 & G2 & G3). apply G3. left. congruence.
          -- intros x [<-|I].
             ++ exists f. split; [exact Ef|]. right. exists k. split; [exact Ek|]. right. exists op, f. split; [now left|auto].
             ++ destruct (C x I) as (g & G1 & [G2|(k' & G2 & [[->|G3]|(y & h & Y1 & Y2 & Y3)])]); exists g; (split; [exact G1|]).
                ** now left.
                ** right. exists k'. split; [exact G2|]. right. exists op, f. split; [now left|auto].
                ** right. exists k'. split; [exact G2|]. now left.
                ** right. exists k'. split; [exact G2|]. right. exists y, h. split; [now right|auto].
      + destruct (IH _ _ E) as (A & B & C). split; [|split; [exact B|]].
        * intros x I. destruct (A x I). split; [now right|assumption].
        * intros x [<-|I]; [|now apply C]. exists f. split; [exact Ef|now left].
  Qed.

  (** [clean_operators] keeps none of two operators that differ by the names of the free indices, whatever sympy makes of them,
      and of every operator that does not vanish it keeps one with the same canonical form. *)
  Theorem C111_clean :
    forall ops, Forall proper ops ->
    exists kept, clean_operators K keqb (simplify_filled canon) ops = Ok kept /\
      (forall x, In x kept -> In x ops) /\
      ForallOrdPairs (fun x y => ~ relabelled x y) kept /\
      (forall x, In x ops -> exists f, fill_free_indices x = Ok f /\
         (canon f = None \/ exists y g, In y kept /\ fill_free_indices y = Ok g /\ canon g = canon f /\ canon g <> None)).
  Proof using keqb_ok.
    intros ops P.
    assert (T : forall seen, exists kept, clean_from K keqb (simplify_filled canon) seen ops = Ok kept).
    { induction P as [|op ops Po P IH]; intros seen; cbn [clean_from]; [eauto|]. unfold simplify_filled at 1. destruct (C111_fill op Po) as (f & -> & _). cbn [bind].
      destruct (canon f) as [k|]; [|apply IH]. destruct (existsb (keqb k) seen); [apply IH|]. destruct (IH (k :: seen)) as (l & ->). cbn [bind]. eauto. }
    destruct (T []) as (kept & E). exists kept. split; [exact E|]. destruct (clean_from_kept ops [] kept E) as (A & B & C). split; [|split].
    - intros x I. now apply A.
    - rewrite Forall_forall in P. assert (Q : forall x, In x kept -> proper x) by (intros x I; apply P; now apply A). clear - B Q.
      induction B as [|x l F B IH]; constructor; [|apply IH; intros y I; apply Q; now right]. rewrite Forall_forall in *. intros y I R. apply (F y I).
      apply relabelled_same; [apply Q; now left|apply Q; now right|exact R].
    - intros x I. destruct (C x I) as (f & F & [N|(k & Fk & [[]|(y & g & Y1 & Y2 & Y3)])]); exists f; (split; [exact F|]); [now left|].
      right. exists y, g. split; [exact Y1|]. split; [exact Y2|]. split; congruence.
  Qed.
End Clean.

(** ** examples *)

Definition check_proper (op : operator) : bool :=
  (fix go (l : list index) := match l with [] => true | i :: r => negb (existsb (index_eqb i) r) && go r end) (slots op).

Lemma check_proper_ok op : check_proper op = true -> proper op.
Proof.
  unfold check_proper, proper. generalize (slots op) as l. induction l as [|x l IH]; intros C p q i j Ei Ej N T U; [destruct p; discriminate Ei|].
  apply andb_true_iff in C as (C1 & C2). apply negb_true_iff in C1.
  assert (X : forall y p, nth_error l p = Some y -> plain_of x <> plain_of y).
  { intros y r E Q. apply index_eqb_plain in Q. assert (existsb (index_eqb x) l = true) by (apply existsb_exists; exists y; split; [eapply nth_error_In; eassumption|exact Q]). congruence. }
  destruct p, q; cbn in Ei, Ej; [reflexivity| | |f_equal; eapply IH; eassumption].
  - injection Ei as ->. destruct (X j q Ej). unfold plain_of. congruence.
  - injection Ej as ->. destruct (X i p Ei). unfold plain_of. congruence.
Qed.

Definition at_ (s : string) (t : itype) (up : bool) : index := mkIndex ((if up then [] else lit "-") ++ lit s) (lit s) t up.

Definition field_at (label : string) (dynkin : string) (l : list index) : tensor :=
  TField (mkIField (PropsRelabel.fld label dynkin) l (AIdxs l)).

(** (L^i L^j) H^k H^l with isospin contracted *)
Definition llhh (a b : string) : operator :=
  [field_at "L" "10001" [at_ a Undotted true; at_ "i7" Isospin true]; field_at "L" "10001" [at_ b Undotted true; at_ "i1" Isospin true];
   field_at "H" "00001" [at_ "i2" Isospin true]; field_at "H" "00001" [at_ "i3" Isospin true];
   TSymbol (Metric Isospin [at_ "i7" Isospin false; at_ "i2" Isospin false]); TSymbol (Metric Isospin [at_ "i1" Isospin false; at_ "i3" Isospin false])].

(** Two scalars and a spectator epsilon: the summed index is named i0, the free ones i5 and i9. *)
Definition held (a b : string) : operator :=
  [field_at "H" "00001" [at_ a Isospin true]; field_at "P" "00001" [at_ b Isospin true]; TSymbol (Metric Isospin [at_ "i0" Isospin false; at_ "i9" Isospin false])].

(** Without names apart the numbering runs into the summed index: the operator with H summed and the one with P summed come out
    the same, with i0 in three places, and one of them is lost. *)
Theorem C111_capture_refuted :
  exists a b out, proper a /\ proper b /\ ~ relabelled a b /\ fill_free_indices a = Ok out /\ fill_free_indices b = Ok out /\
    map snd out = [[(lit "i0", Isospin, true)]; [(lit "i0", Isospin, true)]; [(lit "i0", Isospin, false); (lit "i1", Isospin, false)]] /\
    forall K (keqb : K -> K -> bool) canon k, (forall x y, keqb x y = true <-> x = y) -> canon out = Some k ->
      clean_operators K keqb (simplify_filled canon) [a; b] = Ok [a].
Proof.
  assert (E : fill_free_indices (held "i0" "i5") = fill_free_indices (held "i5" "i0")) by (vm_compute; reflexivity).
  exists (held "i0" "i5"), (held "i5" "i0").
  destruct (fill_free_indices (held "i0" "i5")) as [out|e] eqn:Ea; [|vm_compute in Ea; discriminate Ea]. exists out.
  split; [apply check_proper_ok; vm_compute; reflexivity|]. split; [apply check_proper_ok; vm_compute; reflexivity|]. split.
  - intros (_ & R). destruct (R 0 _ _ eq_refl eq_refl) as (_ & _ & _ & N). assert (S : summed (slots (held "i0" "i5")) (at_ "i0" Isospin true)).
    { exists (at_ "i0" Isospin false). split; [cbn; tauto|]. split; [reflexivity|]. split; reflexivity. }
    specialize (N S). discriminate N.
  - split; [reflexivity|]. split; [now symmetry|]. split.
    + vm_compute in Ea. injection Ea as <-. reflexivity.
    + intros K keqb canon k Hk C. unfold clean_operators. cbn [clean_from]. unfold simplify_filled. rewrite Ea, <- E. cbn [bind]. rewrite C. cbn [existsb].
      replace (keqb k k) with true by (symmetry; now apply Hk). reflexivity.
Qed.

Example C111_example :
  proper (llhh "u5" "u3") /\ proper (llhh "u0" "u1") /\ apart (llhh "u5" "u3") /\ apart (llhh "u0" "u1") /\
  relabelled (llhh "u5" "u3") (llhh "u0" "u1") /\
  (exists out, fill_free_indices (llhh "u5" "u3") = Ok out /\
    map snd (firstn 2 out) = [[(lit "u0", Undotted, true); (lit "i7", Isospin, true)]; [(lit "u1", Undotted, true); (lit "i1", Isospin, true)]]) /\
  clean_operators nat Nat.eqb (simplify_filled (fun f => Some (List.length f))) [llhh "u5" "u3"; llhh "u0" "u1"] = Ok [llhh "u5" "u3"].
Proof.
  assert (P1 : proper (llhh "u5" "u3")) by (apply check_proper_ok; vm_compute; reflexivity).
  assert (P2 : proper (llhh "u0" "u1")) by (apply check_proper_ok; vm_compute; reflexivity).
  assert (A : forall a b, forallb (fun i => forallb (fun j => free_b (slots (llhh a b)) i || negb (free_b (slots (llhh a b)) j) || negb (itype_eqb (ix_type i) (ix_type j))) (slots (llhh a b))) (slots (llhh a b)) = true -> apart (llhh a b)).
  { intros a b C. apply C111_apart. intros i j I J S F T. rewrite forallb_forall in C. specialize (C i I). rewrite forallb_forall in C. specialize (C j J).
    apply summed_b_iff in S. apply free_b_iff in F. rewrite S, F in C. apply itype_decides in T. rewrite T in C. discriminate C. }
  assert (A1 : apart (llhh "u5" "u3")) by (apply A; vm_compute; reflexivity).
  assert (A2 : apart (llhh "u0" "u1")) by (apply A; vm_compute; reflexivity).
  repeat (split; [assumption|]). split.
  - apply (proj2 (C111_relabelled _ _ P1 P2)); [exact A1|exact A2|]. vm_compute. reflexivity.
  - split; [eexists; split; [vm_compute; reflexivity|reflexivity]|]. vm_compute. reflexivity.
Qed.

Print Assumptions C111_fill.
Print Assumptions C111_relabelled.
Print Assumptions C111_apart.
Print Assumptions C111_clean.
Print Assumptions C111_capture_refuted.
