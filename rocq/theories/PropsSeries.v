(** * PropsSeries: C97, the Hilbert series *)

From Coq Require Import Ascii String List Bool Arith ZArith QArith Qcanon Lia Permutation.
From Verif Require Import Base BaseFacts Show ModelIndex ModelField ModelLagrangian ModelDeriv DataSeries ModelSeries SpecSeries.
Import ListNotations.
Local Open Scope nat_scope.

(** ** Products as vectors *)

Definition names : list string := map fst table.
Definition vec (c : product_of) : list nat := map c names.

Definition vtotal (q : quantum -> Z) (v : list nat) : Z :=
  fold_right (fun p s => (q (snd (fst p)) * Z.of_nat (snd p) + s)%Z) 0%Z (combine table v).

Lemma total_vec q c : total q c = vtotal q (vec c).
Proof.
  unfold total, vtotal, vec, names. induction table as [|r t IH]; [reflexivity|]. cbn [map combine fold_right fst snd]. now rewrite IH.
Qed.

Definition get (v : list nat) (x : string) : nat :=
  match find (fun p => String.eqb (fst p) x) (combine names v) with Some (_, n) => n | None => 0 end.

Lemma get_vec c x : In x names -> get (vec c) x = c x.
Proof.
  unfold get, vec. induction names as [|y l IH]; [intros []|]. cbn [map combine find fst]. destruct (String.eqb y x) eqn:E.
  - intros _. apply String.eqb_eq in E as ->. reflexivity.
  - intros [-> |I]; [now rewrite String.eqb_refl in E|exact (IH I)].
Qed.

Definition vconserving (d : Z) (v : list nat) : bool :=
  if (vtotal q_dim v =? 2 * d)%Z then
  if (vtotal q_y v =? 0)%Z then
  if (vtotal q_tri v mod 3 =? 0)%Z then
  if Z.even (vtotal q_iso v) then
  if Z.even (vtotal q_left v) then Z.even (vtotal q_right v) else false else false else false else false else false.

Lemma vconserving_spec d c : vconserving d (vec c) = true <-> conserving d c.
Proof.
  unfold vconserving, conserving. rewrite !total_vec.
  destruct (vtotal q_dim (vec c) =? 2 * d)%Z eqn:E1; [apply Z.eqb_eq in E1|apply Z.eqb_neq in E1; intuition congruence].
  destruct (vtotal q_y (vec c) =? 0)%Z eqn:E2; [apply Z.eqb_eq in E2|apply Z.eqb_neq in E2; intuition congruence].
  destruct (vtotal q_tri (vec c) mod 3 =? 0)%Z eqn:E3; [apply Z.eqb_eq in E3|apply Z.eqb_neq in E3; intuition congruence].
  destruct (Z.even (vtotal q_iso (vec c))); [|intuition congruence].
  destruct (Z.even (vtotal q_left (vec c))); intuition congruence.
Qed.

Definition vlepton (v : list nat) : bool := if (vtotal q_lepton v =? 2)%Z then (vtotal q_baryon v =? 0)%Z else false.

Lemma vlepton_spec c : vlepton (vec c) = true <-> lepton_two c.
Proof.
  unfold vlepton, lepton_two. rewrite !total_vec. destruct (vtotal q_lepton (vec c) =? 2)%Z eqn:E1; [apply Z.eqb_eq in E1|apply Z.eqb_neq in E1; intuition congruence].
  rewrite Z.eqb_eq. intuition.
Qed.

Definition vbalanced (v : list nat) : bool :=
  let g x := get v x in
  let d := g "L"%string + g "Ld"%string + g "Q"%string + g "Qd"%string in
  if g "D"%string =? 0 then if g "H"%string <=? g "Hd"%string + d then g "Hd"%string <=? g "H"%string + d else false else true.

Lemma vbalanced_spec c : vbalanced (vec c) = true <-> balanced c.
Proof.
  unfold vbalanced, balanced. rewrite !get_vec by (cbn; auto 20). cbv zeta.
  destruct (Nat.eqb_spec (c "D"%string) 0) as [E|E]; [|intuition congruence].
  destruct (Nat.leb_spec (c "H"%string) (c "Hd"%string + (c "L"%string + c "Ld"%string + c "Q"%string + c "Qd"%string))) as [L|L]; [|split; [discriminate|intros X; specialize (X E); lia]].
  rewrite Nat.leb_le. intuition.
Qed.

(** ** Enumeration of vectors of given weight *)

Fixpoint vectors (ws : list nat) (n : nat) : list (list nat) :=
  match ws with
  | [] => if n =? 0 then [[]] else []
  | w :: ws => flat_map (fun k => if k * w <=? n then map (cons k) (vectors ws (n - k * w)) else []) (seq 0 (S n))
  end.

Definition dot (ws v : list nat) : nat := list_sum (map (fun p => snd p * fst p) (combine ws v)).

Lemma vectors_all : forall ws v n, Forall (fun w => 0 < w) ws -> List.length v = List.length ws -> dot ws v = n -> In v (vectors ws n).
Proof.
  induction ws as [|w ws IH]; intros [|k v] n P L D; try discriminate L; cbn [vectors].
  - cbn in D. subst n. now left.
  - injection L as L. inversion P as [|? ? P1 P2]; subst. set (n := dot (w :: ws) (k :: v)). assert (En : n = k * w + dot ws v) by reflexivity.
    apply in_flat_map. exists k. split; [apply in_seq; nia|]. rewrite (proj2 (Nat.leb_le (k * w) n)) by lia. apply in_map. apply IH; [exact P2|exact L|lia].
Qed.

Definition weights : list nat := map (fun r => Z.to_nat (q_dim (snd r))) (matter ++ [("D"%string, derivative)]).

Lemma vtotal_nat : forall t v, Forall (fun r : string * quantum => (0 <= q_dim (snd r))%Z) t -> List.length v = List.length t ->
  fold_right (fun p s => (q_dim (snd (fst p)) * Z.of_nat (snd p) + s)%Z) 0%Z (combine t v) = Z.of_nat (dot (map (fun r => Z.to_nat (q_dim (snd r))) t) v).
Proof.
  induction t as [|r t IH]; intros [|k v] P L; try discriminate L; [reflexivity|]. injection L as L. inversion P as [|? ? P1 P2]; subst.
  cbn [combine fold_right fst snd map]. rewrite (IH v P2 L). unfold dot. cbn [combine map list_sum fold_right fst snd]. rewrite Nat2Z.inj_add, Nat2Z.inj_mul, Z2Nat.id by exact P1. unfold list_sum. lia.
Qed.

Definition names13 : list string := map fst (matter ++ [("D"%string, derivative)]).

Lemma vec_matter c : matter_only c -> vec c = map c names13 ++ [0; 0; 0; 0; 0; 0].
Proof.
  intros M. unfold vec. change names with (names13 ++ map fst strengths). rewrite map_app. f_equal.
  cbn [map fst strengths]. rewrite !M by (cbn; auto 10). reflexivity.
Qed.

Lemma enumerated d c : matter_only c -> total q_dim c = (2 * Z.of_nat d)%Z -> exists v, In v (vectors weights (2 * d)) /\ vec c = v ++ [0; 0; 0; 0; 0; 0].
Proof.
  intros M T. exists (map c names13). split; [|exact (vec_matter c M)]. apply vectors_all.
  - repeat constructor.
  - reflexivity.
  - rewrite total_vec, (vec_matter c M) in T. unfold vtotal in T.
    change table with ((matter ++ [("D"%string, derivative)]) ++ strengths) in T.
    assert (E : combine ((matter ++ [("D"%string, derivative)]) ++ strengths) (map c names13 ++ [0; 0; 0; 0; 0; 0]) =
                combine (matter ++ [("D"%string, derivative)]) (map c names13) ++ combine strengths [0; 0; 0; 0; 0; 0]) by reflexivity.
    rewrite E, fold_right_app in T. cbn [fold_right combine strengths fst snd] in T.
    replace (fold_right (fun (p : string * quantum * nat) (s : Z) => (q_dim (snd (fst p)) * Z.of_nat (snd p) + s)%Z) _ _) with
      (fold_right (fun (p : string * quantum * nat) (s : Z) => (q_dim (snd (fst p)) * Z.of_nat (snd p) + s)%Z) 0%Z (combine (matter ++ [("D"%string, derivative)]) (map c names13))) in T
      by (f_equal; cbn; lia).
    rewrite vtotal_nat in T; [|repeat constructor; cbn; lia|reflexivity]. fold weights in T. lia.
Qed.

(** ** Checks *)

Definition svec (t : summand) : list nat := let '(_, _, n, fs) := t in vec (product_with n fs).
Definition known (t : summand) : bool := let '(_, _, _, fs) := t in forallb (fun p => existsb (String.eqb (fst p)) (map fst (matter ++ strengths))) fs.

Definition nats_eq : list nat -> list nat -> bool := list_eqb Nat.eqb.
Lemma nats_eq_spec : decides nats_eq.
Proof. apply list_decides. intros x y. apply Nat.eqb_eq. Qed.

Lemma same_vec c c' : same_product c c' <-> vec c = vec c'.
Proof.
  unfold same_product, vec, names. split.
  - intros H. apply map_ext_in. exact H.
  - intros E x I. rewrite <- (get_vec c x I), <- (get_vec c' x I). unfold vec, names. now rewrite E.
Qed.

Lemma occurs_vec s c : occurs s c <-> In (vec c) (map svec s).
Proof.
  unfold occurs. rewrite in_map_iff. split.
  - intros (q & k & n & fs & I & E). apply same_vec in E. exists (q, k, n, fs). split; [exact E|exact I].
  - intros ([[[q k] n] fs] & E & I). exists q, k, n, fs. split; [exact I|]. apply same_vec. exact E.
Qed.

(** every vector that passes the test occurs *)
Definition all_occur (d : nat) (ok : list nat -> bool) (s : list summand) : bool :=
  let vs := map svec s in
  forallb (fun v => let v := v ++ [0; 0; 0; 0; 0; 0] in if ok v then existsb (nats_eq v) vs else true) (vectors weights (2 * d)).
Definition all_pass (ok : list nat -> bool) (s : list summand) : bool := forallb (fun t => ok (svec t)) s.

Lemma all_occur_spec d ok s : all_occur d ok s = true -> forall c, matter_only c -> total q_dim c = (2 * Z.of_nat d)%Z -> ok (vec c) = true -> occurs s c.
Proof.
  intros A c M T O. unfold all_occur in A. cbv zeta in A. rewrite forallb_forall in A. destruct (enumerated d c M T) as (v & I & E). specialize (A v I). cbv zeta in A.
  rewrite <- E, O in A. apply existsb_exists in A as (w & W & X). apply nats_eq_spec in X as <-. apply occurs_vec. exact W.
Qed.

Lemma all_pass_spec ok s : all_pass ok s = true -> forall c, occurs s c -> ok (vec c) = true.
Proof.
  intros A c O. apply occurs_vec in O. apply in_map_iff in O as (t & <- & I). unfold all_pass in A. rewrite forallb_forall in A. exact (A t I).
Qed.

Definition vfield (v : list nat) : bool := existsb (fun x => negb (get v x =? 0)) (map fst matter).
Lemma vfield_spec c : vfield (vec c) = true <-> exists x, In x (map fst matter) /\ c x <> 0.
Proof.
  unfold vfield. rewrite existsb_exists. split; intros (x & I & N); exists x; (split; [exact I|]).
  - rewrite get_vec in N by (cbn in *; intuition). apply Bool.negb_true_iff, Nat.eqb_neq in N. exact N.
  - rewrite get_vec by (cbn in *; intuition). now apply Bool.negb_true_iff, Nat.eqb_neq.
Qed.

Definition ok6 (v : list nat) : bool := if vconserving 6 v then if vbalanced v then vfield v else false else false.
Definition ok_lnv (d : Z) (v : list nat) : bool := if vconserving d v then if vlepton v then vbalanced v else false else false.
Definition ok_sound (d : Z) (v : list nat) : bool := if vconserving d v then vlepton v else false.
Definition ok_plain (d : Z) (v : list nat) : bool := if get v "D"%string =? 0 then ok_lnv d v else false.

Lemma check6 : all_occur 6 ok6 H6 = true. Proof. vm_compute. reflexivity. Qed.
Lemma check7 : all_occur 7 (ok_lnv 7) H7_LNV = true. Proof. vm_compute. reflexivity. Qed.
Lemma check9 : all_occur 9 (ok_lnv 9) H9_LNV = true. Proof. vm_compute. reflexivity. Qed.
Lemma check11 : all_occur 11 (ok_plain 11) H11_LNV = true. Proof. vm_compute. reflexivity. Qed.
Lemma pass6 : all_pass ok6 H6 = true. Proof. vm_compute. reflexivity. Qed.
Lemma pass7 : all_pass (ok_sound 7) H7_LNV = true. Proof. vm_compute. reflexivity. Qed.
Lemma pass9 : all_pass (ok_sound 9) H9_LNV = true. Proof. vm_compute. reflexivity. Qed.
Lemma pass11 : all_pass (ok_plain 11) H11_LNV = true. Proof. vm_compute. reflexivity. Qed.
(** without field strengths the doublets are balanced *)
Definition no_strength (v : list nat) : bool := forallb (fun x => get v x =? 0) (map fst strengths).
Definition ok_balanced (v : list nat) : bool := if no_strength v then vbalanced v else true.
Lemma balance7 : all_pass ok_balanced H7_LNV = true. Proof. vm_compute. reflexivity. Qed.
Lemma balance9 : all_pass ok_balanced H9_LNV = true. Proof. vm_compute. reflexivity. Qed.

Lemma no_strength_spec c : matter_only c -> no_strength (vec c) = true.
Proof. intros M. apply forallb_forall. intros x I. rewrite get_vec by (cbn in *; intuition). now rewrite (M x I). Qed.

Lemma sound_from d s c : all_pass (ok_sound d) s = true -> occurs s c -> conserving d c /\ lepton_two c.
Proof.
  intros P O. pose proof (all_pass_spec _ _ P c O) as X. unfold ok_sound in X. destruct (vconserving d (vec c)) eqn:E; [|discriminate X].
  split; [now apply vconserving_spec|now apply vlepton_spec].
Qed.

(** ** The theorems *)

(** Every term of the series conserves what it must: it has the dimension of the series, hypercharge and triality zero, even numbers of
    doublets and spinor indices, and in the series of lepton-number violation lepton number two and baryon number zero. *)
Theorem C97_sound : forall c,
  (occurs H6 c -> conserving 6 c /\ matter_only c) /\
  (occurs H7_LNV c -> conserving 7 c /\ lepton_two c) /\
  (occurs H9_LNV c -> conserving 9 c /\ lepton_two c) /\
  (occurs H11_LNV c -> conserving 11 c /\ lepton_two c /\ matter_only c /\ c "D"%string = 0).
Proof.
  assert (M6 : all_pass no_strength H6 = true) by (vm_compute; reflexivity).
  assert (M11 : all_pass no_strength H11_LNV = true) by (vm_compute; reflexivity).
  assert (Mo : forall s c, all_pass no_strength s = true -> occurs s c -> matter_only c).
  { intros s c P O x I. pose proof (all_pass_spec _ _ P c O) as X. unfold no_strength in X. rewrite forallb_forall in X. specialize (X x I). rewrite get_vec in X by (cbn in *; intuition).
    now apply Nat.eqb_eq in X. }
  intros c. split; [|split; [|split]].
  - intros O. split; [|exact (Mo _ _ M6 O)]. pose proof (all_pass_spec _ _ pass6 c O) as X. unfold ok6 in X. destruct (vconserving 6 (vec c)) eqn:E; [|discriminate X]. now apply vconserving_spec.
  - exact (sound_from 7 H7_LNV c pass7).
  - exact (sound_from 9 H9_LNV c pass9).
  - intros O. pose proof (all_pass_spec _ _ pass11 c O) as X. unfold ok_plain, ok_lnv in X. rewrite get_vec in X by (cbn; auto 20).
    destruct (Nat.eqb_spec (c "D"%string) 0) as [D0|]; [|discriminate X]. destruct (vconserving 11 (vec c)) eqn:E; [|discriminate X]. destruct (vlepton (vec c)) eqn:F; [|discriminate X].
    split; [now apply vconserving_spec|]. split; [now apply vlepton_spec|]. split; [exact (Mo _ _ M11 O)|exact D0].
Qed.

(** Without field strengths nothing is missing: whatever product of fields and derivatives conserves these quantities, and whose Higgs
    doublets are balanced by other doublets if there is no derivative, has a term in the series; for dimension eleven if it has no derivative. *)
Theorem C97_complete : forall c, matter_only c ->
  (occurs H6 c <-> conserving 6 c /\ balanced c /\ exists x, In x (map fst matter) /\ c x <> 0) /\
  (occurs H7_LNV c <-> conserving 7 c /\ lepton_two c /\ balanced c) /\
  (occurs H9_LNV c <-> conserving 9 c /\ lepton_two c /\ balanced c) /\
  (c "D"%string = 0 -> (occurs H11_LNV c <-> conserving 11 c /\ lepton_two c /\ balanced c)).
Proof.
  intros c M.
  assert (Lnv : forall (d : nat) s, all_occur d (ok_lnv (Z.of_nat d)) s = true -> all_pass (ok_sound (Z.of_nat d)) s = true -> all_pass ok_balanced s = true ->
     (occurs s c <-> conserving (Z.of_nat d) c /\ lepton_two c /\ balanced c)).
  { intros d s A P B. split.
    - intros O. destruct (sound_from _ _ _ P O) as [C L]. split; [exact C|]. split; [exact L|]. pose proof (all_pass_spec _ _ B c O) as X. unfold ok_balanced in X. rewrite (no_strength_spec c M) in X. now apply vbalanced_spec.
    - intros (C & L & Ba). apply (all_occur_spec _ _ _ A c M); [apply C|]. unfold ok_lnv. now rewrite (proj2 (vconserving_spec _ c) C), (proj2 (vlepton_spec c) L), (proj2 (vbalanced_spec c) Ba). }
  split; [|split; [|split]].
  - split.
    + intros O. pose proof (all_pass_spec _ _ pass6 c O) as X. unfold ok6 in X. destruct (vconserving 6 (vec c)) eqn:E; [|discriminate X]. destruct (vbalanced (vec c)) eqn:F; [|discriminate X].
      split; [now apply vconserving_spec|]. split; [now apply vbalanced_spec|now apply vfield_spec].
    + intros (C & B & F). apply (all_occur_spec _ _ _ check6 c M); [apply C|]. unfold ok6. now rewrite (proj2 (vconserving_spec _ c) C), (proj2 (vbalanced_spec c) B), (proj2 (vfield_spec c) F).
  - exact (Lnv 7 H7_LNV check7 pass7 balance7).
  - exact (Lnv 9 H9_LNV check9 pass9 balance9).
  - intros D0. split.
    + intros O. pose proof (all_pass_spec _ _ pass11 c O) as X. unfold ok_plain, ok_lnv in X. rewrite get_vec, D0 in X by (cbn; auto 20). cbn [Nat.eqb] in X.
      destruct (vconserving 11 (vec c)) eqn:E; [|discriminate X]. destruct (vlepton (vec c)) eqn:F; [|discriminate X]. split; [now apply vconserving_spec|]. split; [now apply vlepton_spec|now apply vbalanced_spec].
    + intros (C & L & Ba). apply (all_occur_spec _ _ _ check11 c M); [apply C|]. unfold ok_plain, ok_lnv. rewrite get_vec, D0 by (cbn; auto 20). cbn [Nat.eqb].
      now rewrite (proj2 (vconserving_spec _ c) C), (proj2 (vlepton_spec c) L), (proj2 (vbalanced_spec c) Ba).
Qed.

(** Six Higgs doublets and one right-handed pair conserve everything but are not balanced; the product of four Higgs doublets and two
    electrons has no term at dimension seven, but with two derivatives it has one at dimension nine. *)
Example C97_example :
  let c : product_of := fun x => if String.eqb x "H" then 4 else if String.eqb x "ebd" then 2 else 0 in
  let c' : product_of := fun x => if String.eqb x "D" then 2 else c x in
  conserving 7 c /\ lepton_two c /\ ~ occurs H7_LNV c /\ occurs H9_LNV c'.
Proof.
  cbv zeta. set (c := fun x => if String.eqb x "H" then 4 else if String.eqb x "ebd" then 2 else 0).
  split; [repeat split; vm_compute; reflexivity|]. split; [split; vm_compute; reflexivity|]. split.
  - intros O. apply C97_complete in O as (_ & _ & B); [|intros x I; cbn in I; intuition (subst; reflexivity)]. destruct (B eq_refl) as [B1 _]. vm_compute in B1. lia.
  - apply C97_complete; [intros x I; cbn in I; intuition (subst; reflexivity)|]. split; [repeat split; vm_compute; reflexivity|]. split; [split; vm_compute; reflexivity|]. intros D0. discriminate D0.
Qed.
