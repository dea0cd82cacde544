(** * PropsFunctions: properties C01, C02, C03 (chunks), C04, C05 of utils/functions.py *)

From Coq Require Import Ascii String List Bool Arith ZArith Lia Permutation Sorted QArith Qcanon.
From Verif Require Import Base BaseFacts Spec Show ModelFunctions SpecFunctions ProofsFunctions.
Import ListNotations.
Local Open Scope nat_scope.

(** ** C01 *)

(** The loop terminates, never indexes out of range, and leaves exactly what one left-to-right scan keeps. *)
Theorem C01_remove_equivalent_keeps_first :
  forall (T : Type) (eq : T -> T -> bool) (l : list T),
    remove_equivalent eq l = Ok (keep_first eq [] l).
Proof. intros. apply remove_equivalent_ok. Qed.

(** The same without the recursive specification: the result determines, and is determined by, the
    decision taken for every further element. *)
Theorem C01_remove_equivalent_snoc :
  forall (T : Type) (eq : T -> T -> bool) (l : list T) (x : T),
    remove_equivalent eq [] = Ok [] /\
    exists r, remove_equivalent eq l = Ok r /\
      ((exists y, In y r /\ eq y x = true) -> remove_equivalent eq (l ++ [x]) = Ok r) /\
      ((forall y, In y r -> eq y x = false) -> remove_equivalent eq (l ++ [x]) = Ok (r ++ [x])).
Proof.
  intros T eq l x. split; [reflexivity|]. exists (keep_first eq [] l). rewrite !remove_equivalent_ok.
  split; [reflexivity|]. rewrite keep_first_snoc. cbn [app]. split; intros H.
  - replace (existsb (fun y => eq y x) (keep_first eq [] l)) with true; [now rewrite app_nil_r|].
    symmetry. apply existsb_exists. exact H.
  - replace (existsb (fun y => eq y x) (keep_first eq [] l)) with false; [reflexivity|].
    symmetry. apply not_true_is_false. intros E. apply existsb_exists in E as (y & A & B).
    rewrite (H y A) in B. discriminate.
Qed.

Theorem C01_remove_equivalent_order_pairwise_cover :
  forall (T : Type) (eq : T -> T -> bool) (l r : list T),
    remove_equivalent eq l = Ok r ->
    sublist r l /\
    ForallOrdPairs (fun earlier later => eq earlier later = false) r /\
    (forall a x b, l = a ++ x :: b ->
       exists ra, remove_equivalent eq a = Ok ra /\
         ((exists rb, r = ra ++ x :: rb) \/ exists y, In y ra /\ In y a /\ eq y x = true)).
Proof.
  intros T eq l r E. rewrite remove_equivalent_ok in E. inversion E; subst. clear E.
  split; [apply keep_first_sublist|]. split; [apply keep_first_pairwise|].
  intros a x b ->. exists (keep_first eq [] a). split; [apply remove_equivalent_ok|].
  assert (G : forall kept, (exists rb, keep_first eq kept (a ++ x :: b) = keep_first eq kept a ++ x :: rb)
              \/ exists y, In y (kept ++ keep_first eq kept a) /\ eq y x = true).
  { induction a as [|z a IH]; intros kept; cbn [app keep_first].
    - destruct (existsb (fun y => eq y x) kept) eqn:E.
      + right. rewrite app_nil_r. now apply existsb_exists.
      + left. eexists. reflexivity.
    - destruct (existsb (fun y => eq y z) kept) eqn:E; [apply IH|].
      destruct (IH (kept ++ [z])) as [(rb & H)|(y & H & Ey)].
      + left. exists rb. cbn [app]. now f_equal.
      + right. exists y. rewrite <- app_assoc in H. auto. }
  destruct (G []) as [H|(y & H & Ey)]; [left; exact H|]. right. exists y. cbn [app] in H.
  repeat split; auto. eapply sublist_In; [apply keep_first_sublist|exact H].
Qed.

Example C01_example :
  remove_equivalent (fun a b => Nat.eqb (a mod 3) (b mod 3)) [4; 7; 2; 1; 5; 3; 9; 8] = Ok [4; 2; 3].
Proof. reflexivity. Qed.

(** a relation that is not transitive: 1~2~3 but 1 is not related to 3; 3 is kept because 2 is not *)
Example C01_example_not_transitive :
  remove_equivalent (fun a b => Nat.leb (b - a + (a - b)) 1) [1; 2; 3; 4] = Ok [1; 3].
Proof. reflexivity. Qed.

(** ** C02 *)

Theorem C02_nopop_agrees :
  forall (T : Type) (eq : T -> T -> bool) (l : list T),
    exists r, remove_equivalent eq l = Ok r /\ remove_equivalent_nopop eq l = Ok (map Some r).
Proof.
  intros. exists (keep_first eq [] l). split; [apply remove_equivalent_ok|apply remove_equivalent_nopop_ok].
Qed.

(** [dropped_vals] on any set of valid positions drops exactly those positions *)
Theorem C02_dropped_vals :
  forall (T : Type) (l : list T) (vals : list nat),
    NoDup vals -> (forall p, In p vals -> p < List.length l) ->
    exists r, dropped_vals l vals = Ok (map Some r) /\ sublist r l /\
      List.length r = List.length l - List.length vals /\
      forall y, In y r <-> exists q, nth_error l q = Some y /\ ~ In q vals.
Proof.
  intros T l vals ND H. exists (survivors 0 vals l).
  assert (L : List.length (survivors 0 vals l) = List.length l - List.length vals)
    by (apply survivors_count; auto; intros p Hp; specialize (H p Hp); lia).
  repeat split; auto.
  - unfold dropped_vals. pose proof (dropped_loop_spec l 0 vals [] _ L) as E. exact E.
  - clear. generalize 0. induction l as [|x l IH]; intros k; cbn [survivors]; [constructor|].
    destruct (mem_by Nat.eqb k vals); [now apply sub_skip|now apply sub_keep].
  - intros I. now apply survivors_In in I.
  - intros I. now apply survivors_In.
Qed.

Example C02_example :
  remove_equivalent_nopop (fun a b => Nat.eqb (a mod 3) (b mod 3)) [4; 7; 2; 1; 5; 3; 9; 8]
  = Ok [Some 4; Some 2; Some 3].
Proof. reflexivity. Qed.

Example C02_example_dropped : dropped_vals [10; 11; 12; 13] [2; 0] = Ok [Some 11; Some 13].
Proof. reflexivity. Qed.

(** ** C03, chunks *)

Theorem C03_chunks :
  forall (A : Type) (l : list A) (n : nat),
    1 <= n ->
    exists cs, chunks l n = Ok cs /\ concat cs = l /\
      forall a c b, cs = a ++ c :: b -> 1 <= List.length c <= n /\ (b <> [] -> List.length c = n).
Proof.
  intros A l n Hn. exists (chunks_fuel (List.length l) n l). repeat split.
  - destruct n; [lia|reflexivity].
  - apply chunks_fuel_concat; lia.
  - eapply chunks_fuel_sizes in H; [|lia|lia]. tauto.
  - eapply chunks_fuel_sizes in H; [|lia|lia]. tauto.
  - eapply chunks_fuel_sizes in H; [|lia|lia]. tauto.
Qed.

Theorem C03_chunks_zero : forall (A : Type) (l : list A), chunks l 0 = Err ValueError.
Proof. reflexivity. Qed.

Example C03_example_chunks : chunks [1; 2; 3; 4; 5] 2 = Ok [[1; 2]; [3; 4]; [5]].
Proof. reflexivity. Qed.

(** ** C04 *)

(** conjugate_field on a printed field is the printed conjugate: colour reversed, charges negated, rest kept *)
Theorem C04_conjugate_field_prints_conjugate :
  forall f, qfield_ok f -> conjugate_field (print_field f) = Ok (print_field (conj_qfield f)).
Proof. intros. now apply conjugate_print. Qed.

Theorem C04_conjugate_field_involution :
  forall x, field_string x ->
    exists y, conjugate_field x = Ok y /\ field_string y /\ conjugate_field y = Ok x.
Proof. intros. now apply field_string_conj. Qed.

Theorem C04_negate_u1 : forall q : Qc, negate_u1 (show_Q q) = Ok (show_Q (- q)%Qc).
Proof. exact negate_show_Q. Qed.

Definition C04_field : qfield := Ex (mkExotic (lit "S") (lit "10") (lit "2") (Q2Qc (-7 # 6)) (Q2Qc 1)).

Example C04_example : qfield_ok C04_field /\ print_field C04_field = lit "S,10,2,-7/6,1" /\
                      conjugate_field (lit "S,10,2,-7/6,1") = Ok (lit "S,01,2,7/6,-1").
Proof.
  repeat split; try (vm_compute; reflexivity); simpl; intros H; repeat destruct H as [H|H];
    discriminate || auto.
Qed.

(** Outside the well-formed strings the involution fails: a negative zero, and an empty charge. *)
Theorem C04_not_involutive_on_minus_zero :
  conjugate_field (lit "S,00,0,-0,0") = Ok (lit "S,00,0,0,0") /\
  conjugate_field (lit "S,00,0,0,0") = Ok (lit "S,00,0,0,0") /\
  conjugate_field (lit "S,00,0,,0") = Err IndexError.
Proof. repeat split. Qed.

(** ** C05 *)

Theorem C05_conjugate_term_sorted :
  forall t r, conjugate_term t = Ok r -> StronglySorted (fun a b => str_leb a b = true) r.
Proof.
  unfold conjugate_term. intros t r E. apply bind_ok in E as (c & _ & E). inversion E; subst.
  apply sorted_str_sorted.
Qed.

Theorem C05_conjugate_term_order_independent :
  forall t1 t2, Permutation t1 t2 -> Forall field_string t1 ->
    exists r, conjugate_term t1 = Ok r /\ conjugate_term t2 = Ok r.
Proof.
  intros t1 t2 P F. destruct (conjugate_term_twice t1 F) as (r & E & _ & _). exists r. split; auto.
  eapply conjugate_term_perm; eauto.
Qed.

Theorem C05_conjugate_term_twice :
  forall t, Forall field_string t ->
    exists t', conjugate_term t = Ok t' /\ Forall field_string t' /\ conjugate_term t' = Ok (sorted_str t).
Proof. exact conjugate_term_twice. Qed.

(** what the result contains: the conjugates of the fields, each as often as the field *)
Theorem C05_conjugate_term_content :
  forall fs, Forall qfield_ok fs ->
    exists r, conjugate_term (map print_field fs) = Ok r /\
              Permutation r (map (fun f => print_field (conj_qfield f)) fs).
Proof.
  intros fs F. exists (sorted_str (map (fun f => print_field (conj_qfield f)) fs)). split.
  - unfold conjugate_term.
    replace (mapM conjugate_field (map print_field fs))
      with (Ok (map (fun f => print_field (conj_qfield f)) fs)); [reflexivity|].
    induction F as [|f fs Hf F IH]; [reflexivity|]. simpl. rewrite conjugate_print by auto. now rewrite <- IH.
  - symmetry. apply sorted_str_perm.
Qed.

Example C05_example :
  conjugate_term [lit "S,10,2,-7/6,1"; lit "L"; lit "Q.conj"]
  = Ok [lit "L.conj"; lit "Q"; lit "S,01,2,7/6,-1"].
Proof. reflexivity. Qed.

Print Assumptions C01_remove_equivalent_keeps_first.
Print Assumptions C01_remove_equivalent_order_pairwise_cover.
Print Assumptions C02_nopop_agrees.
Print Assumptions C02_dropped_vals.
Print Assumptions C03_chunks.
Print Assumptions C04_conjugate_field_prints_conjugate.
Print Assumptions C04_conjugate_field_involution.
Print Assumptions C05_conjugate_term_twice.
Print Assumptions C05_conjugate_term_content.
