(** * ProofsOperatorList: pairings are the same if they join the same kinds of factors equally often *)

From Coq Require Import Ascii String List Bool Arith ZArith Permutation Lia.
From Verif Require Import Base Show ModelIndex ModelField SpecPaper SpecOperatorList BaseFacts.
Import ListNotations.
Local Open Scope nat_scope.

Definition nm (p : picture) (i : nat) : str := nth i (pc_names p) [].
Definition norm (e : str * str) : str * str := if str_leb (fst e) (snd e) then e else (snd e, fst e).
Definition kinds (p : picture) : list (str * str) := map (fun e => (nm p (fst e), nm p (snd e))) (pc_joins p).
Definition labels (p : picture) : list (str * str) := map norm (kinds p).
Definition flat {A} (J : list (A * A)) : list A := flat_map (fun e => [fst e; snd e]) J.

Lemma norm_swap a b : norm (a, b) = norm (b, a).
Proof.
  unfold norm. cbn [fst snd]. destruct (str_leb a b) eqn:E, (str_leb b a) eqn:E'; try reflexivity.
  - now rewrite (str_leb_antisym a b E E').
  - destruct (str_leb_total a b) as [H|H]; congruence.
Qed.

Lemma names_seq (l : list str) : l = map (fun i => nth i l []) (seq 0 (List.length l)).
Proof.
  induction l as [|x l IH]; [reflexivity|]. cbn [List.length seq map nth]. f_equal. rewrite <- seq_shift, map_map. exact IH.
Qed.

Lemma flat_share {A} (J : list (A * A)) e e' x : NoDup (flat J) -> In e J -> In e' J -> x = fst e \/ x = snd e -> x = fst e' \/ x = snd e' -> e = e'.
Proof.
  assert (K : forall (J : list (A * A)) e, In e J -> In (fst e) (flat J) /\ In (snd e) (flat J)).
  { intros J0 e0 I. split; apply in_flat_map; exists e0; (split; [exact I|]); [now left|right; now left]. }
  induction J as [|c J IH]; intros N I I' X X'; [destruct I|]. cbn in N. inversion N as [|? ? N1 N2]; subst. inversion N2 as [|? ? N3 N4]; subst.
  destruct I as [<-|I], I' as [<-|I']; auto.
  - exfalso. destruct (K _ _ I') as [F S]. destruct X as [-> | ->], X' as [Q|Q].
    + apply N1. right. now rewrite Q.
    + apply N1. right. now rewrite Q.
    + apply N3. now rewrite Q.
    + apply N3. now rewrite Q.
  - exfalso. destruct (K _ _ I) as [F S]. destruct X as [Q|Q], X' as [Q'|Q']; rewrite Q in Q'; rewrite Q' in *; ((apply N1; right; assumption) || (apply N3; assumption)).
Qed.

Lemma flat_nodup {A} (J : list (A * A)) : NoDup (flat J) -> NoDup J.
Proof.
  induction J as [|c J IH]; intros N; [constructor|]. cbn in N. inversion N as [|? ? N1 N2]; subst. inversion N2 as [|? ? N3 N4]; subst. constructor; [|auto].
  intros I. apply N3. apply in_flat_map. exists c. split; [exact I|right; now left].
Qed.

Lemma pairing_bound p i j : isospin_pairing p -> In (i, j) (pc_joins p) -> i < List.length (pc_names p) /\ j < List.length (pc_names p).
Proof.
  intros [_ H] I. split; apply H; apply in_flat_map; exists (i, j); (split; [exact I|]); [now left|right; now left].
Qed.

(** ** The same picture: the same names and kinds *)

Lemma same_names p q : same_picture p q -> Permutation (pc_names p) (pc_names q).
Proof.
  intros (L & _ & f & Hf & Hi & _). set (n := List.length (pc_names p)) in *. rewrite (names_seq (pc_names q)), (names_seq (pc_names p)). fold n. rewrite <- L.
  assert (P : Permutation (map f (seq 0 n)) (seq 0 n)).
  { apply NoDup_Permutation_bis.
    - assert (G : forall l, NoDup l -> incl l (seq 0 n) -> NoDup (map f l)).
      { induction l as [|x l IH]; intros N I; [constructor|]. inversion N; subst. cbn. constructor; [|apply IH; [assumption|intros y Iy; apply I; now right]].
        intros M. apply in_map_iff in M as (y & E & Iy). assert (Bx := I x (or_introl eq_refl)). assert (By := I y (or_intror Iy)). apply in_seq in Bx, By. apply Hi in E; [subst; contradiction|lia|lia]. }
      apply G; [apply seq_NoDup|apply incl_refl].
    - rewrite map_length. lia.
    - intros x I. apply in_map_iff in I as (y & <- & Iy). apply in_seq in Iy. destruct (Hf y) as [B _]; [lia|]. apply in_seq. lia. }
  etransitivity; [|apply Permutation_map; exact P]. rewrite map_map. apply Permutation_refl'. apply map_ext_in. intros i I. apply in_seq in I. symmetry. apply Hf. lia.
Qed.

Lemma pair_dec (a b : nat * nat) : {a = b} + {a <> b}.
Proof. decide equality; apply Nat.eq_dec. Defined.

Lemma same_labels p q : isospin_pairing p -> isospin_pairing q -> same_picture p q -> Permutation (labels p) (labels q).
Proof.
  intros Pp Pq (L & LJ & f & Hf & Hi & Hj).
  set (F := fun e : nat * nat => if in_dec pair_dec (f (fst e), f (snd e)) (pc_joins q) then (f (fst e), f (snd e)) else (f (snd e), f (fst e))).
  assert (FI : forall e, In e (pc_joins p) -> In (F e) (pc_joins q)).
  { intros [i j] I. unfold F. cbn [fst snd]. destruct (in_dec pair_dec (f i, f j) (pc_joins q)) as [D|D]; [exact D|].
    destruct (pairing_bound p i j Pp I) as [Bi Bj]. destruct (proj1 (Hj i j Bi Bj) (or_introl I)) as [X|X]; [contradiction|exact X]. }
  assert (P : Permutation (map F (pc_joins p)) (pc_joins q)).
  { apply NoDup_Permutation_bis; [|rewrite map_length; lia|intros x I; apply in_map_iff in I as (e & <- & I); auto].
    assert (N := proj1 Pp). pose proof (flat_nodup (pc_joins p) N) as NJ.
    assert (G : forall l, NoDup l -> incl l (pc_joins p) -> NoDup (map F l)).
    { induction l as [|e l IH]; intros Nl I; [constructor|]. inversion Nl as [|? ? Ne Nl']; subst. cbn. constructor; [|apply IH; [assumption|intros y Iy; apply I; now right]].
      intros M. apply in_map_iff in M as (e' & E & I'). assert (Ie := I e (or_introl eq_refl)). assert (Ie' := I e' (or_intror I')). apply Ne.
      assert (e = e'); [|now subst].
      destruct e as [i j], e' as [i' j']. destruct (pairing_bound p _ _ Pp Ie) as [Bi Bj], (pairing_bound p _ _ Pp Ie') as [Bi' Bj'].
      apply (flat_share (pc_joins p) _ _ i N Ie Ie'); [now left|]. cbn [fst snd].
      unfold F in E. cbn [fst snd] in E. destruct (in_dec _ _ _), (in_dec _ _ _); injection E as E1 E2; eauto. }
    apply G; [exact NJ|apply incl_refl]. }
  unfold labels, kinds. rewrite !map_map. etransitivity; [|apply Permutation_map; exact P]. rewrite map_map. apply Permutation_refl'. apply map_ext_in. intros [i j] I. cbn [fst snd].
  destruct (pairing_bound p i j Pp I) as [Bi Bj]. destruct (Hf i Bi) as [_ Ei], (Hf j Bj) as [_ Ej]. unfold F. cbn [fst snd].
  destruct (in_dec _ _ _); cbn [fst snd]; unfold nm; rewrite Ei, Ej; [reflexivity|apply norm_swap].
Qed.

(** ** The same names and kinds: the same picture *)

Definition orient (p : picture) (e : nat * nat) : nat * nat := if str_leb (nm p (fst e)) (nm p (snd e)) then e else (snd e, fst e).

Lemma labels_orient p : labels p = map (fun e => (nm p (fst e), nm p (snd e))) (map (orient p) (pc_joins p)).
Proof.
  unfold labels, kinds. rewrite !map_map. apply map_ext. intros [i j]. unfold norm, orient. cbn [fst snd]. destruct (str_leb (nm p i) (nm p j)); reflexivity.
Qed.

Lemma flat_orient p J : Permutation (flat (map (orient p) J)) (flat J).
Proof.
  induction J as [|[i j] J IH]; [reflexivity|]. cbn [map flat flat_map]. fold (@flat nat). unfold orient at 1 2. cbn [fst snd].
  destruct (str_leb _ _); cbn [fst snd app]; [now do 2 constructor|]. etransitivity; [apply perm_swap|]. now do 2 constructor.
Qed.

Lemma in_orient p i j : In (i, j) (map (orient p) (pc_joins p)) \/ In (j, i) (map (orient p) (pc_joins p)) <-> joined p i j.
Proof.
  unfold joined. rewrite !in_map_iff. split.
  - intros [([a b] & E & I)|([a b] & E & I)]; unfold orient in E; cbn [fst snd] in E; destruct (str_leb _ _); injection E as -> ->; auto.
  - assert (K : forall a b, In (a, b) (pc_joins p) -> orient p (a, b) = (a, b) \/ orient p (a, b) = (b, a)) by (intros a b _; unfold orient; cbn [fst snd]; destruct (str_leb _ _); auto).
    intros [I|I]; destruct (K _ _ I) as [E|E]; [left|right|right|left]; eexists; split; try exact E; exact I.
Qed.

Lemma combine_flat {A B} (J : list (A * A)) : forall (K : list (B * B)) i j, List.length J = List.length K -> In (i, j) J ->
  exists x y, In (x, y) K /\ In (i, x) (combine (flat J) (flat K)) /\ In (j, y) (combine (flat J) (flat K)).
Proof.
  induction J as [|[a b] J IH]; intros [|[c d] K] i j L I; try discriminate L; [destruct I|]. cbn [flat flat_map fst snd app combine] in *. destruct I as [Q|I].
  - injection Q as -> ->. exists c, d. split; [now left|]. split; [now left|right; now left].
  - destruct (IH K i j) as (x & y & I1 & I2 & I3); [now injection L|exact I|]. exists x, y. split; [now right|]. split; right; right; assumption.
Qed.

Lemma combine_app_in {A B} (a : list A) (b : list B) a' b' x : In x (combine a b) -> In x (combine (a ++ a') (b ++ b')).
Proof. revert b. induction a as [|y a IH]; intros [|z b] I; try destruct I as []; cbn [combine app] in *; [left; assumption|]. right. apply IH. assumption. Qed.

Lemma combine_swap {A B} (a : list A) : forall (b : list B) x y, In (x, y) (combine a b) -> In (y, x) (combine b a).
Proof. induction a as [|u a IH]; intros [|v b] x y I; try destruct I as [Q|I]; try destruct I. - injection Q as -> ->. now left. - right. auto. Qed.

Lemma combine_fun {A B} (a : list A) : forall (b : list B) x y z, NoDup a -> In (x, y) (combine a b) -> In (x, z) (combine a b) -> y = z.
Proof.
  induction a as [|u a IH]; intros [|v b] x y z N I I'; try destruct I as []; cbn [combine] in *; inversion N as [|? ? Nu Na]; subst.
  - injection H as -> ->. destruct I' as [Q|I']; [now injection Q|]. apply in_combine_l in I'. contradiction.
  - destruct I' as [Q|I']; [injection Q as -> ->; apply in_combine_l in H; contradiction|]. exact (IH b x y z Na H I').
Qed.

Lemma combine_get {A B} (a : list A) : forall (b : list B) x, List.length a = List.length b -> In x a -> exists y, In (x, y) (combine a b).
Proof.
  induction a as [|u a IH]; intros [|v b] x L I; try discriminate L; [destruct I|]. destruct I as [<-|I]; [exists v; now left|].
  destruct (IH b x) as [y H]; [now injection L|exact I|]. exists y. now right.
Qed.

Lemma combine_map {A B C} (g : A -> C) (h : B -> C) (a : list A) : forall (b : list B) x y, map g a = map h b -> In (x, y) (combine a b) -> g x = h y.
Proof. induction a as [|u a IH]; intros [|v b] x y E I; try destruct I as [Q|I]; try destruct I; cbn in E; injection E as E1 E2. - now injection Q as -> ->. - eauto. Qed.

Lemma aligned p q (J K : list (nat * nat)) (S T : list nat) :
  List.length (pc_joins p) = List.length (pc_joins q) ->
  (forall i j, In (i, j) J \/ In (j, i) J <-> joined p i j) -> (forall i j, In (i, j) K \/ In (j, i) K <-> joined q i j) ->
  List.length J = List.length K ->
  Permutation (flat J ++ S) (seq 0 (List.length (pc_names p))) -> Permutation (flat K ++ T) (seq 0 (List.length (pc_names q))) ->
  map (nm p) (flat J ++ S) = map (nm q) (flat K ++ T) -> same_picture p q.
Proof.
  intros LJ HJ HK LL PJ PK E. set (a := flat J ++ S) in *. set (b := flat K ++ T) in *.
  assert (Lab : List.length a = List.length b) by (apply (f_equal (@List.length _)) in E; now rewrite !map_length in E).
  assert (Na : NoDup a) by (eapply Permutation_NoDup; [symmetry; exact PJ|apply seq_NoDup]).
  assert (Nb : NoDup b) by (eapply Permutation_NoDup; [symmetry; exact PK|apply seq_NoDup]).
  assert (Ln : List.length (pc_names p) = List.length (pc_names q)) by (apply Permutation_length in PJ, PK; rewrite seq_length in *; lia).
  split; [exact Ln|]. split; [exact LJ|].
  set (f := fun i => match find (fun c => fst c =? i) (combine a b) with Some c => snd c | None => 0 end). exists f.
  assert (G : forall i, i < List.length (pc_names p) -> In (i, f i) (combine a b)).
  { intros i B. assert (Ia : In i a) by (eapply Permutation_in; [symmetry; exact PJ|apply in_seq; lia]).
    destruct (combine_get a b i Lab Ia) as [y Iy]. unfold f. destruct (find _ _) as [[u v]|] eqn:Ef.
    - apply find_some in Ef as [I Q]. apply Nat.eqb_eq in Q. cbn in Q |- *. now subst.
    - exfalso. pose proof (find_none _ _ Ef _ Iy) as X. cbn in X. rewrite Nat.eqb_refl in X. discriminate X. }
  split; [|split].
  - intros i B. specialize (G i B). split.
    + apply in_combine_r in G. eapply Permutation_in in G; [|exact PK]. apply in_seq in G. lia.
    + symmetry. exact (combine_map (nm p) (nm q) a b i (f i) E G).
  - intros i j Bi Bj Q. pose proof (G i Bi) as Gi. pose proof (G j Bj) as Gj. rewrite Q in Gi. apply combine_swap in Gi, Gj. exact (combine_fun b a _ _ _ Nb Gi Gj).
  - assert (D : forall i j, i < List.length (pc_names p) -> j < List.length (pc_names p) -> (In (i, j) J <-> In (f i, f j) K)).
    { intros i j Bi Bj. split; intros I.
      - destruct (combine_flat J K i j LL I) as (x & y & I1 & I2 & I3). apply (combine_app_in _ _ S T) in I2, I3. fold a in I2, I3. fold b in I2, I3.
        rewrite (combine_fun a b _ _ _ Na (G i Bi) I2), (combine_fun a b _ _ _ Na (G j Bj) I3). exact I1.
      - destruct (combine_flat K J _ _ (eq_sym LL) I) as (x & y & I1 & I2 & I3). apply (combine_app_in _ _ T S) in I2, I3. fold a in I2, I3. fold b in I2, I3.
        rewrite (combine_fun b a _ _ _ Nb (combine_swap a b _ _ (G i Bi)) I2), (combine_fun b a _ _ _ Nb (combine_swap a b _ _ (G j Bj)) I3). exact I1. }
    intros i j Bi Bj. rewrite <- HJ, <- HK. rewrite (D i j Bi Bj), (D j i Bj Bi). reflexivity.
Qed.

Definition others (l : list nat) (n : nat) : list nat := filter (fun i => negb (existsb (Nat.eqb i) l)) (seq 0 n).

Lemma others_perm l n : NoDup l -> (forall i, In i l -> i < n) -> Permutation (l ++ others l n) (seq 0 n).
Proof.
  intros N B. assert (X : forall i, existsb (Nat.eqb i) l = true <-> In i l).
  { intros i. rewrite existsb_exists. split; [intros (y & I & Q); apply Nat.eqb_eq in Q; now subst|]. intros I. exists i. split; [exact I|apply Nat.eqb_refl]. }
  apply NoDup_Permutation.
    assert (G : forall k, NoDup k -> NoDup (l ++ filter (fun i => negb (existsb (Nat.eqb i) l)) k)).
    { clear B. intros k Nk. assert (D : forall i, In i l -> In i (filter (fun i => negb (existsb (Nat.eqb i) l)) k) -> False).
      { intros i I J. apply filter_In in J as [_ J]. apply negb_true_iff in J. apply X in I. congruence. }
      assert (M : NoDup (filter (fun i => negb (existsb (Nat.eqb i) l)) k)) by now apply NoDup_filter.
      revert D M. generalize (filter (fun i => negb (existsb (Nat.eqb i) l)) k). clear X. induction l as [|x l IH]; intros m D M; [exact M|]. cbn. inversion N; subst. constructor.
      - intros I. apply in_app_iff in I as [I|I]; [contradiction|]. apply (D x); [now left|exact I].
      - apply IH; [assumption| |exact M]. intros i I. apply D. now right. }
    apply G, seq_NoDup.
  - apply seq_NoDup.
  - intros i. rewrite in_app_iff. unfold others. rewrite filter_In, in_seq, negb_true_iff. split.
    + intros [I|[I _]]; [specialize (B i I); lia|lia].
    + intros I. destruct (existsb (Nat.eqb i) l) eqn:E; [left; now apply X|right; split; [lia|reflexivity]].
Qed.

Lemma flat_map_pairs {A B} (g : A -> B) J : map g (flat J) = flat (map (fun e => (g (fst e), g (snd e))) J).
Proof. induction J as [|[a b] J IH]; [reflexivity|]. unfold flat in *. cbn [flat_map map app fst snd]. now rewrite IH. Qed.

Lemma flat_perm {A} (J K : list (A * A)) : Permutation J K -> Permutation (flat J) (flat K).
Proof. apply Permutation_flat_map. Qed.

Lemma kinds_same p q : isospin_pairing p -> isospin_pairing q -> Permutation (pc_names p) (pc_names q) -> Permutation (labels p) (labels q) -> same_picture p q.
Proof.
  intros Pp Pq N H. rewrite (labels_orient p), (labels_orient q) in H. set (J := map (orient p) (pc_joins p)) in *.
  apply Permutation_map_inv in H as (K & E & PK).
  assert (Ln : List.length (pc_names p) = List.length (pc_names q)) by now apply Permutation_length.
  assert (LJK : List.length J = List.length K) by (apply (f_equal (@List.length _)) in E; now rewrite !map_length in E).
  assert (FJ : Permutation (flat J) (ends p)) by apply flat_orient.
  assert (FK : Permutation (flat K) (ends q)).
  { etransitivity; [symmetry; apply flat_perm; exact PK|apply flat_orient]. }
  assert (NJ : NoDup (flat J)) by (eapply Permutation_NoDup; [symmetry; exact FJ|apply Pp]).
  assert (NK : NoDup (flat K)) by (eapply Permutation_NoDup; [symmetry; exact FK|apply Pq]).
  set (n := List.length (pc_names p)) in *.
  assert (OJ : Permutation (flat J ++ others (flat J) n) (seq 0 n)).
  { apply others_perm; [exact NJ|]. intros i I. apply (Permutation_in _ FJ) in I. apply Pp in I. apply I. }
  assert (OK : Permutation (flat K ++ others (flat K) n) (seq 0 n)).
  { apply others_perm; [exact NK|]. intros i I. apply (Permutation_in _ FK) in I. apply Pq in I. rewrite Ln. apply I. }
  assert (M : map (nm p) (flat J) = map (nm q) (flat K)) by (rewrite !flat_map_pairs; now rewrite E).
  assert (R : Permutation (map (nm p) (others (flat J) n)) (map (nm q) (others (flat K) n))).
  { apply (Permutation_app_inv_l (map (nm p) (flat J))). rewrite M at 2. rewrite <- !map_app.
    rewrite OJ, OK. unfold nm. pose proof (names_seq (pc_names p)) as Sp. pose proof (names_seq (pc_names q)) as Sq. fold n in Sp. rewrite <- Ln in Sq. fold n in Sq. rewrite <- Sp, <- Sq. exact N. }
  apply Permutation_map_inv in R as (T & ET & PT).
  apply (aligned p q J K (others (flat J) n) T).
  - unfold J in LJK. rewrite map_length in LJK. apply Permutation_length in PK. rewrite map_length in PK. lia.
  - apply in_orient.
  - intros i j. rewrite <- in_orient. split; intros [I|I]; ((left; eapply Permutation_in; [|exact I]; (exact PK || (symmetry; exact PK))) || (right; eapply Permutation_in; [|exact I]; (exact PK || (symmetry; exact PK)))).
  - exact LJK.
  - exact OJ.
  - rewrite <- Ln. etransitivity; [|exact OK]. apply Permutation_app_head. now symmetry.
  - rewrite !map_app. now rewrite M, ET.
Qed.

(** ** All pairings *)

Fixpoint splits {A} (l : list A) : list (A * list A) :=
  match l with [] => [] | y :: r => (y, r) :: map (fun s => (fst s, y :: snd s)) (splits r) end.

Fixpoint pairings {A} (k : nat) (l : list A) : list (list (A * A)) :=
  match l, k with
  | [], _ => [[]]
  | _, O => []
  | x :: r, S k => flat_map (fun s => map (cons (x, fst s)) (pairings k (snd s))) (splits r)
  end.

Lemma splits_in {A} (l : list A) y : In y l -> exists r, In (y, r) (splits l) /\ Permutation l (y :: r).
Proof.
  induction l as [|x l IH]; intros I; [destruct I|]. destruct I as [->|I]; [exists l; split; [now left|reflexivity]|].
  destruct (IH I) as (r & Ir & P). exists (x :: r). split.
  - right. apply in_map_iff. exists (y, r). auto.
  - etransitivity; [apply perm_skip; exact P|apply perm_swap].
Qed.

Lemma pairings_all : forall k (l : list str) J, Permutation (flat J) l -> List.length J <= k ->
  exists J', In J' (pairings k l) /\ Permutation (map norm J) (map norm J').
Proof.
  induction k as [|k IH]; intros l J P L.
  - destruct J; [|cbn in L; lia]. apply Permutation_nil in P. subst l. exists []. split; [now left|constructor].
  - destruct l as [|x r].
    + apply Permutation_sym, Permutation_nil in P. destruct J; [|discriminate P]. exists []. split; [now left|constructor].
    + assert (I : In x (flat J)) by (eapply Permutation_in; [symmetry; exact P|now left]). apply in_flat_map in I as ([a b] & Ie & I). apply in_split in Ie as (J1 & J2 & ->).
      assert (Q : exists y, Permutation [a; b] [x; y] /\ norm (a, b) = norm (x, y)).
      { destruct I as [<-|[<-|[]]]; [exists b; split; reflexivity|exists a; split; [apply perm_swap|apply norm_swap]]. }
      destruct Q as (y & Qp & Qn).
      assert (R : Permutation r (y :: flat (J1 ++ J2))).
      { apply (Permutation_cons_inv (a := x)). rewrite <- P. unfold flat. rewrite !flat_map_app. cbn [flat_map fst snd]. rewrite Permutation_app_comm. cbn [app].
        change (Permutation ([a; b] ++ (flat_map (fun e => [fst e; snd e]) J2 ++ flat_map (fun e => [fst e; snd e]) J1)) ([x; y] ++ (flat_map (fun e => [fst e; snd e]) J1 ++ flat_map (fun e => [fst e; snd e]) J2))).
        apply Permutation_app; [exact Qp|apply Permutation_app_comm]. }
      destruct (splits_in r y) as (r' & Ir & Pr); [eapply Permutation_in; [symmetry; exact R|now left]|].
      destruct (IH r' (J1 ++ J2)) as (J' & IJ & PJ).
      * apply (Permutation_cons_inv (a := y)). now rewrite <- R.
      * rewrite app_length in *. cbn in L. lia.
      * exists ((x, y) :: J'). split; [cbn; apply in_flat_map; exists (y, r'); split; [exact Ir|]; apply in_map_iff; now exists J'|].
        rewrite map_app. cbn [map]. rewrite Qn. rewrite <- Permutation_middle. constructor. now rewrite <- map_app.
Qed.

(** ** The doublets *)

Fixpoint doubletb (s : str) : bool :=
  match s with
  | [] => false
  | c :: r => (existsb (Ascii.eqb c) ["L"; "Q"; "H"]%char && match r with [] => true | [d] => Ascii.eqb d dagger | _ => false end) || (Ascii.eqb c "D" && doubletb r)
  end.

Lemma doubletb_ok s : doubletb s = true <-> doublet s.
Proof.
  induction s as [|c r IH]; [split; [discriminate|]; intros (n & c & d & E & _); destruct n; discriminate E|].
  cbn [doubletb]. rewrite orb_true_iff, !andb_true_iff, IH, Ascii.eqb_eq. split.
  - intros [[I R]|[-> (n & x & d & -> & I & D)]].
    + apply existsb_exists in I as (x & I & Q). apply Ascii.eqb_eq in Q. subst x. exists 0, c, r. split; [reflexivity|]. split; [exact I|]. destruct r as [|d [|]]; [now left| |discriminate R]. apply Ascii.eqb_eq in R. subst. now right.
    + exists (S n), x, d. auto.
  - intros ([|n] & x & d & E & I & D); cbn in E; injection E as -> ->.
    + left. split; [apply existsb_exists; exists x; split; [exact I|apply Ascii.eqb_refl]|]. destruct D as [-> | ->]; [reflexivity|apply Ascii.eqb_refl].
    + right. split; [reflexivity|]. exists n, x, d. auto.
Qed.

Lemma filter_map {A B} (g : A -> B) h l : map g (filter (fun x => h (g x)) l) = filter h (map g l).
Proof. induction l as [|x l IH]; [reflexivity|]. cbn. destruct (h (g x)); cbn; now rewrite IH. Qed.

Lemma filter_perm {A} (h : A -> bool) l l' : Permutation l l' -> Permutation (filter h l) (filter h l').
Proof.
  induction 1; cbn; auto; [destruct (h x); auto|destruct (h x), (h y); auto; constructor|etransitivity; eassumption].
Qed.

Lemma kinds_doublets p : isospin_pairing p -> Permutation (flat (kinds p)) (filter doubletb (pc_names p)).
Proof.
  intros [N H]. unfold kinds. rewrite <- (flat_map_pairs (nm p) (pc_joins p)). rewrite (names_seq (pc_names p)) at 1. fold (nm p). rewrite <- filter_map. apply Permutation_map.
  apply NoDup_Permutation; [exact N|apply NoDup_filter, seq_NoDup|]. intros i. rewrite filter_In, in_seq, doubletb_ok.
  rewrite (H i : In i (flat (pc_joins p)) <-> _). unfold nm. split; intros [A B]; (split; [lia|exact B]).
Qed.
