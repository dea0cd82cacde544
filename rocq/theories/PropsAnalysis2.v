(** * PropsAnalysis2: C100, the adjoint, the shipped matrices and the couplings that give the measured masses *)

From Coq Require Import Ascii String List Bool Arith ZArith Lia QArith Qcanon Field_theory Ring Field.
From Verif Require Import Base BaseFacts ModelAnalysis SpecAnalysis PropsAnalysis.
Import ListNotations.
Local Open Scope nat_scope.

Section Laws.
  Context (N : numbers) (W : lawful N).
  Local Notation "x + y" := (nadd N x y).
  Local Notation "x * y" := (nmul N x y).
  Local Notation "x - y" := (nsub N x y).
  Local Notation "x / y" := (ndiv N x y).
  Local Notation "- x" := (nopp N x).
  Local Notation O := (n0 N).
  Local Notation I := (n1 N).
  Local Notation conj := (nconj N).

  Add Field NF : (N_field N W).

  Lemma val_shape p symb : exists a b c d e f g h i, um_val N (make_unitary N p symb) = [[a; b; c]; [d; e; f]; [g; h; i]].
  Proof using. unfold make_unitary, um_val. cbn [fold_left product transpose column width map seq List.length matrix_1 matrix_2 matrix_3 matrix_p nth]. repeat eexists. Qed.

  (** the adjoint is the inverse; sympy's matrices do not have the method *)
  Theorem C100_dagger p : rotation N p ->
    (exists m, get_dagger N (make_unitary N p false) = Ok m /\ three_by_three N m /\
       (forall i j, (i < 3)%nat -> (j < 3)%nat -> entry N m i j = conj (entry N (um_val N (make_unitary N p false)) j i)) /\
       product N m (um_val N (make_unitary N p false)) = [[I; O; O]; [O; I; O]; [O; O; I]] /\
       product N (um_val N (make_unitary N p false)) m = [[I; O; O]; [O; I; O]; [O; O; I]]) /\
    get_dagger N (make_unitary N p true) = Err AttributeError /\ um_val N (make_unitary N p true) = um_val N (make_unitary N p false).
  Proof using W.
    intros R. split; [|split; reflexivity]. pose proof (C100_unitary N W p false R) as (_ & U). unfold get_dagger. change (um_symb N (make_unitary N p false)) with false.
    destruct (val_shape p false) as (a & b & c & d & e & f & g & h & i & E). rewrite E in *. eexists. split; [reflexivity|].
    split; [split; [reflexivity|cbn; repeat constructor]|]. split.
    { intros k l Lk Ll. destruct k as [|[|[|k]]]; [| | |lia]; (destruct l as [|[|[|l]]]; [| | |lia]); reflexivity. }
    cbn [product transpose column width map seq List.length nth dot combine fst snd fold_left].
    unfold sum3, entry, kron in U. split; repeat (f_equal; try reflexivity);
    match goal with |- context [conj] => idtac end.
    - destruct (U 0 0 ltac:(lia) ltac:(lia)) as [_ X]. cbn [nth Nat.eqb] in X. refine (eq_trans _ X). ring.
    - destruct (U 0 1 ltac:(lia) ltac:(lia)) as [_ X]. cbn [nth Nat.eqb] in X. refine (eq_trans _ X). ring.
    - destruct (U 0 2 ltac:(lia) ltac:(lia)) as [_ X]. cbn [nth Nat.eqb] in X. refine (eq_trans _ X). ring.
    - destruct (U 1 0 ltac:(lia) ltac:(lia)) as [_ X]. cbn [nth Nat.eqb] in X. refine (eq_trans _ X). ring.
    - destruct (U 1 1 ltac:(lia) ltac:(lia)) as [_ X]. cbn [nth Nat.eqb] in X. refine (eq_trans _ X). ring.
    - destruct (U 1 2 ltac:(lia) ltac:(lia)) as [_ X]. cbn [nth Nat.eqb] in X. refine (eq_trans _ X). ring.
    - destruct (U 2 0 ltac:(lia) ltac:(lia)) as [_ X]. cbn [nth Nat.eqb] in X. refine (eq_trans _ X). ring.
    - destruct (U 2 1 ltac:(lia) ltac:(lia)) as [_ X]. cbn [nth Nat.eqb] in X. refine (eq_trans _ X). ring.
    - destruct (U 2 2 ltac:(lia) ltac:(lia)) as [_ X]. cbn [nth Nat.eqb] in X. refine (eq_trans _ X). ring.
    - destruct (U 0 0 ltac:(lia) ltac:(lia)) as [X _]. cbn [nth Nat.eqb] in X. refine (eq_trans _ X). ring.
    - destruct (U 0 1 ltac:(lia) ltac:(lia)) as [X _]. cbn [nth Nat.eqb] in X. refine (eq_trans _ X). ring.
    - destruct (U 0 2 ltac:(lia) ltac:(lia)) as [X _]. cbn [nth Nat.eqb] in X. refine (eq_trans _ X). ring.
    - destruct (U 1 0 ltac:(lia) ltac:(lia)) as [X _]. cbn [nth Nat.eqb] in X. refine (eq_trans _ X). ring.
    - destruct (U 1 1 ltac:(lia) ltac:(lia)) as [X _]. cbn [nth Nat.eqb] in X. refine (eq_trans _ X). ring.
    - destruct (U 1 2 ltac:(lia) ltac:(lia)) as [X _]. cbn [nth Nat.eqb] in X. refine (eq_trans _ X). ring.
    - destruct (U 2 0 ltac:(lia) ltac:(lia)) as [X _]. cbn [nth Nat.eqb] in X. refine (eq_trans _ X). ring.
    - destruct (U 2 1 ltac:(lia) ltac:(lia)) as [X _]. cbn [nth Nat.eqb] in X. refine (eq_trans _ X). ring.
    - destruct (U 2 2 ltac:(lia) ltac:(lia)) as [X _]. cbn [nth Nat.eqb] in X. refine (eq_trans _ X). ring.
  Qed.

  (** the shipped matrices *)
  Theorem C100_shipped : lawful_angles N -> unitary N (um_val N (PMNS N)) /\ unitary N (CKM N).
  Proof using W.
    intros A. assert (H : forall a b c d, real N a -> real N b -> real N c -> real N d -> rotation N (by_angles N a b c d)).
    { intros a b c d Ra Rb Rc Rd. unfold rotation, by_angles. cbn. unfold real, circle in *.
      repeat split; try apply (l_circle N A); try (apply (l_real_cos N A); assumption); try (apply (l_real_sin N A); assumption); try assumption; apply (conj_zero N W). }
    assert (D : forall a b, real N (degrees N a b)) by (intros a b; apply (l_real_rad N A), (l_real_lit N A)).
    split; apply (C100_unitary N W), H; apply D.
  Qed.

  (** the couplings x and Z give the masses and the mixing, whatever xi *)
  Theorem C100_masses u mv1 mv2 mv3 xi m0 : three_by_three N (um_val N u) -> xi <> O -> m0 <> O ->
    nsqrt N mv2 * nsqrt N mv2 = mv2 -> nsqrt N mv3 * nsqrt N mv3 = mv3 -> nsqrt N (two N * m0) * nsqrt N (two N * m0) = two N * m0 ->
    exists x z, x_coupling N u [mv1; mv2; mv3] xi m0 = Ok x /\ z_coupling N u [mv1; mv2; mv3] xi m0 = Ok z /\ List.length x = 3 /\ List.length z = 3 /\
      (forall i j, (i < 3)%nat -> (j < 3)%nat ->
         mass N m0 x z i j = sum3 N (fun k => conj (entry N (um_val N u) i k) * nth k [O; mv2; mv3] O * conj (entry N (um_val N u) j k))) /\
      (unitary N (um_val N u) -> forall a b, (a < 3)%nat -> (b < 3)%nat ->
         sum3 N (fun i => sum3 N (fun j => entry N (um_val N u) i a * mass N m0 x z i j * entry N (um_val N u) j b)) = kron N a b * nth a [O; mv2; mv3] O).
  Proof using W.
    intros [L1 L2] Hx Hm S2 S3 S0. destruct (um_val N u) as [|r1 [|r2 [|r3 [|? ?]]]] eqn:E; try discriminate L1.
    inversion L2 as [|? ? A1 L3]; subst. inversion L3 as [|? ? A2 L4]; subst. inversion L4 as [|? ? A3 _]; subst. clear L1 L2 L3 L4.
    destruct r1 as [|a [|b [|c [|? ?]]]]; try discriminate A1. destruct r2 as [|d [|e [|f [|? ?]]]]; try discriminate A2.
    destruct r3 as [|g [|h [|i [|? ?]]]]; try discriminate A3. clear A1 A2 A3.
    unfold x_coupling, z_coupling, cols. rewrite E. cbn [transpose column width map seq List.length nth unpack bind].
    eexists. eexists. split; [reflexivity|]. split; [reflexivity|]. split; [reflexivity|]. split; [reflexivity|].
    assert (Two : two N <> O) by exact (l_two N W).
    assert (Q : nsqrt N (two N * m0) <> O).
    { intros Z0. rewrite Z0 in S0. assert (Y : two N * m0 = O) by (rewrite <- S0; ring).
      apply Hm. transitivity (ninv N (two N) * (two N * m0)); [field; exact Two|rewrite Y; ring]. }
    set (q := nsqrt N (two N * m0)) in *. set (a2 := nsqrt N mv2) in *. set (a3 := nsqrt N mv3) in *.
    assert (M : forall k l, (k < 3)%nat -> (l < 3)%nat ->
      mass N m0
        [xi / q * (conj b * a2 + nj N * a3 * conj c); xi / q * (conj e * a2 + nj N * a3 * conj f); xi / q * (conj h * a2 + nj N * a3 * conj i)]
        [I / (q * xi) * (conj b * a2 - nj N * a3 * conj c); I / (q * xi) * (conj e * a2 - nj N * a3 * conj f); I / (q * xi) * (conj h * a2 - nj N * a3 * conj i)] k l =
      sum3 N (fun r => conj (entry N [[a; b; c]; [d; e; f]; [g; h; i]] k r) * nth r [O; mv2; mv3] O * conj (entry N [[a; b; c]; [d; e; f]; [g; h; i]] l r))).
    { assert (K : forall u2 u3 v2 v3 w w', m0 * (xi / q * (u2 * a2 + nj N * a3 * u3) * (I / (q * xi) * (v2 * a2 - nj N * a3 * v3)) +
                    I / (q * xi) * (u2 * a2 - nj N * a3 * u3) * (xi / q * (v2 * a2 + nj N * a3 * v3))) = w * O * w' + u2 * mv2 * v2 + u3 * mv3 * v3).
      { intros u2 u3 v2 v3 w w'. transitivity ((two N * m0) * (I / (q * q)) * (u2 * v2 * (a2 * a2) - (nj N * nj N) * (u3 * v3 * (a3 * a3)))).
        - unfold two. field. split; assumption.
        - rewrite S2, S3, (l_i N W), S0. field. split; assumption. }
      intros k l Lk Ll. unfold mass, sum3, entry. destruct k as [|[|[|k]]]; [| | |lia]; (destruct l as [|[|[|l]]]; [| | |lia]); cbn [nth]; apply K. }
    split; [exact M|]. intros (_ & U) x y Lx Ly. unfold sum3 at 1. unfold sum3 at 1 2 3. rewrite !M by lia.
    assert (V : forall k, (k < 3)%nat ->
      sum3 N (fun r => conj (entry N [[a; b; c]; [d; e; f]; [g; h; i]] r k) * entry N [[a; b; c]; [d; e; f]; [g; h; i]] r x) = kron N k x /\
      sum3 N (fun r => conj (entry N [[a; b; c]; [d; e; f]; [g; h; i]] r k) * entry N [[a; b; c]; [d; e; f]; [g; h; i]] r y) = kron N k y).
    { intros k Lk. split; [exact (proj2 (U k x Lk Lx))|exact (proj2 (U k y Lk Ly))]. }
    transitivity (sum3 N (fun k => sum3 N (fun r => conj (entry N [[a; b; c]; [d; e; f]; [g; h; i]] r k) * entry N [[a; b; c]; [d; e; f]; [g; h; i]] r x) * nth k [O; mv2; mv3] O * sum3 N (fun r => conj (entry N [[a; b; c]; [d; e; f]; [g; h; i]] r k) * entry N [[a; b; c]; [d; e; f]; [g; h; i]] r y))).
    - unfold sum3, entry. cbn [nth]. ring.
    - unfold sum3 at 1. destruct (V 0 ltac:(lia)) as [-> ->]. destruct (V 1 ltac:(lia)) as [-> ->]. destruct (V 2 ltac:(lia)) as [-> ->].
      unfold kron. destruct x as [|[|[|x]]]; [| | |lia]; (destruct y as [|[|[|y]]]; [| | |lia]); cbn [Nat.eqb nth]; ring.
  Qed.

  (** the couplings of the scan: Z is the product of z and w *)
  Theorem C100_point Z1 z23 w22 w32 : w22 <> O -> z22_of N Z1 z23 w22 w32 * w22 + z23 * w32 = Z1.
  Proof using W. intros H. unfold z22_of. field. exact H. Qed.
End Laws.

(** ** Numbers: complex numbers with rational parts *)

Definition gauss := (Qc * Qc)%type.
Local Open Scope Qc_scope.
Definition g_add (x y : gauss) : gauss := (fst x + fst y, snd x + snd y).
Definition g_mul (x y : gauss) : gauss := (fst x * fst y - snd x * snd y, fst x * snd y + snd x * fst y).
Definition g_opp (x : gauss) : gauss := (- fst x, - snd x).
Definition g_sub (x y : gauss) : gauss := g_add x (g_opp y).
Definition g_norm (x : gauss) : Qc := fst x * fst x + snd x * snd x.
Definition g_inv (x : gauss) : gauss := (fst x / g_norm x, - snd x / g_norm x).
Definition g_div (x y : gauss) : gauss := g_mul x (g_inv y).
Definition g_conj (x : gauss) : gauss := (fst x, - snd x).

(** on the imaginary axis the exponential has the values of a rational circle *)
Definition g_exp (x : gauss) : gauss :=
  let t := snd x in (((1 - t * t) / (1 + t * t)), ((1 + 1) * t / (1 + t * t))).
Definition g_sqrt (x : gauss) : gauss :=
  if Qc_eq_dec (fst x) (dec 4 1) then (dec 2 1, 0) else if Qc_eq_dec (fst x) (dec 9 1) then (dec 3 1, 0) else (1, 0).
Definition g_cos (x : gauss) : gauss := (((1 - fst x * fst x) / (1 + fst x * fst x)), 0).
Definition g_sin (x : gauss) : gauss := ((1 + 1) * fst x / (1 + fst x * fst x), 0).

Definition gaussian : numbers :=
  mkNumbers gauss (0, 0) (1, 0) (0, 1) g_add g_mul g_sub g_opp g_div g_inv g_conj g_exp g_sqrt g_cos g_sin (fun x => g_div x (dec 180 1, 0)) (fun q => (q, 0)).

Lemma Qc_square_pos (x : Qc) : 0 <= x * x.
Proof. destruct (Qclt_le_dec x 0) as [L|L]; [|apply (Qcmult_le_compat_r 0 x x) in L as L'; [now rewrite Qcmult_0_l in L'|exact L]].
  assert (M : 0 <= - x) by (apply Qclt_le_weak, Qcle_minus_iff in L; now rewrite Qcplus_0_l in L).
  replace (x * x) with ((- x) * (- x)) by ring. apply (Qcmult_le_compat_r 0 (- x) (- x)) in M as M'; [now rewrite Qcmult_0_l in M'|exact M]. Qed.

Lemma Qc_one_square (x : Qc) : 1 + x * x <> 0.
Proof.
  intros E. pose proof (Qc_square_pos x) as H. assert (X : x * x = - (1)) by (replace (x * x) with ((1 + x * x) - 1) by ring; rewrite E; ring).
  rewrite X in H. revert H. vm_compute. intros H. now apply H.
Qed.

Lemma norm_zero (x : gauss) : g_norm x = 0 -> x = (0, 0).
Proof.
  destruct x as [a b]. unfold g_norm. cbn. intros E. destruct (Qc_eq_dec a 0) as [->|Na].
  - f_equal. replace (0 * 0 + b * b) with (b * b) in E by ring. now apply Qcmult_integral in E as [E|E].
  - exfalso. apply (Qc_one_square (b / a)). replace (1 + b / a * (b / a)) with ((a * a + b * b) / (a * a)) by (field; exact Na). rewrite E. field. exact Na.
Qed.

Lemma gauss_ring : ring_theory ((0, 0) : gauss) (1, 0) g_add g_mul g_sub g_opp (@eq gauss).
Proof.
  constructor; unfold g_add, g_mul, g_sub, g_opp, g_add; intros; repeat match goal with x : gauss |- _ => destruct x as [? ?] end; cbn [fst snd]; f_equal; ring.
Qed.

Lemma gaussian_lawful : lawful gaussian.
Proof.
  constructor; cbn.
  - constructor.
    + exact gauss_ring.
    + discriminate.
    + reflexivity.
    + intros x H. unfold g_mul, g_inv. cbn. assert (Z : g_norm x <> 0) by (intros Z; apply H, norm_zero, Z). destruct x as [a b]. unfold g_norm in *. cbn in *. f_equal; field; exact Z.
  - discriminate.
  - unfold g_mul, g_opp. cbn. f_equal; ring.
  - intros [a b] [c d]. unfold g_conj, g_add. cbn. f_equal; ring.
  - intros [a b] [c d]. unfold g_conj, g_mul. cbn. f_equal; ring.
  - intros [a b]. unfold g_conj. cbn. f_equal; ring.
  - unfold g_conj, g_opp. cbn. f_equal; ring.
  - intros [a b]. unfold g_mul, g_exp, g_opp. cbn. pose proof (Qc_one_square b) as Z. assert (Z' : 1 + (- b) * (- b) <> 0) by (replace ((- b) * (- b)) with (b * b) by ring; exact Z).
    f_equal; field; auto.
  - intros [a b]. unfold g_conj, g_exp. cbn. pose proof (Qc_one_square b) as Z. assert (Z' : 1 + (- b) * (- b) <> 0) by (replace ((- b) * (- b)) with (b * b) by ring; exact Z).
    f_equal; field; auto.
Qed.

Lemma gaussian_angles : lawful_angles gaussian.
Proof.
  constructor; cbn.
  - intros [a b]. unfold g_add, g_mul, g_cos, g_sin. cbn. pose proof (Qc_one_square a) as Z. f_equal; field; exact Z.
  - intros [a b] _. unfold g_conj, g_cos. cbn. f_equal; ring.
  - intros [a b] _. unfold g_conj, g_sin. cbn. f_equal; ring.
  - intros [a b] H. unfold g_conj in H. cbn in H. injection H as H.
    assert (B : b = 0).
    { assert (E : (1 + 1) * b = 0) by (replace ((1 + 1) * b) with (b - - b) by ring; rewrite H; ring). apply Qcmult_integral in E as [E|E]; [discriminate E|exact E]. }
    subst b. unfold g_conj, g_div, g_mul, g_inv. cbn. f_equal. unfold g_norm. cbn. field. discriminate.
  - intros q. unfold g_conj. cbn. f_equal; ring.
Qed.

(** a matrix with a complex phase, and couplings that give the masses 0, 4 and 9 *)
Definition g (a b : Z) (d : positive) : gauss := (dec a d, dec b d).

Definition ex_angles : angles gaussian :=
  mkAngles gaussian (g 3 0 5) (g 4 0 5) (g 5 0 13) (g 4 0 5) (g 3 0 5) (g 12 0 13) (g 1 0 2) (g 0 0 1) (g 1 0 3).

Lemma ex_rotation : rotation gaussian ex_angles.
Proof. unfold rotation, real, circle. cbn. repeat split; reflexivity || (unfold g_conj, g_add, g_mul, g; cbn; f_equal; apply Qc_is_canon; reflexivity). Qed.

Example C100_example :
  unitary gaussian (um_val gaussian (make_unitary gaussian ex_angles false)) /\
  entry gaussian (um_val gaussian (make_unitary gaussian ex_angles false)) 0 2 = g 9 (-12) 25 /\
  exists x z, x_coupling gaussian (make_unitary gaussian ex_angles false) [g 0 0 1; g 4 0 1; g 9 0 1] (g 1 1 1) (g 2 0 1) = Ok x /\
    z_coupling gaussian (make_unitary gaussian ex_angles false) [g 0 0 1; g 4 0 1; g 9 0 1] (g 1 1 1) (g 2 0 1) = Ok z /\
    forall a b, (a < 3)%nat -> (b < 3)%nat ->
      sum3 gaussian (fun i => sum3 gaussian (fun j => g_mul (g_mul (entry gaussian (um_val gaussian (make_unitary gaussian ex_angles false)) i a)
        (mass gaussian (g 2 0 1) x z i j)) (entry gaussian (um_val gaussian (make_unitary gaussian ex_angles false)) j b))) =
      g_mul (kron gaussian a b) (nth a [g 0 0 1; g 4 0 1; g 9 0 1] (g 0 0 1)).
Proof.
  pose proof (C100_unitary gaussian gaussian_lawful ex_angles false ex_rotation) as U. split; [exact U|]. split.
  { vm_compute. f_equal; apply Qc_is_canon; reflexivity. }
  destruct (C100_masses gaussian gaussian_lawful (make_unitary gaussian ex_angles false) (g 0 0 1) (g 4 0 1) (g 9 0 1) (g 1 1 1) (g 2 0 1) (proj1 U)) as (x & z & Ex & Ez & _ & _ & _ & D).
  - discriminate.
  - discriminate.
  - vm_compute. f_equal; apply Qc_is_canon; reflexivity.
  - vm_compute. f_equal; apply Qc_is_canon; reflexivity.
  - vm_compute. f_equal; apply Qc_is_canon; reflexivity.
  - exists x, z. split; [exact Ex|]. split; [exact Ez|]. exact (D U).
Qed.

(** The parameters are not checked: cosines and sines that do not belong to an angle give a matrix that is not unitary *)
Theorem C100_angles_refuted : exists p, rotation gaussian ex_angles /\ s12 gaussian p = s12 gaussian ex_angles /\
  ~ unitary gaussian (um_val gaussian (make_unitary gaussian p false)).
Proof.
  exists (mkAngles gaussian (g 1 0 1) (g 4 0 5) (g 5 0 13) (g 4 0 5) (g 3 0 5) (g 12 0 13) (g 1 0 2) (g 0 0 1) (g 1 0 3)). split; [exact ex_rotation|]. split; [reflexivity|].
  intros (_ & U). destruct (U 0%nat 0%nat ltac:(lia) ltac:(lia)) as [X _]. apply (f_equal (fun q : gauss => Qden (this (fst q)))) in X. vm_compute in X. discriminate X.
Qed.

Print Assumptions C100_dagger.
Print Assumptions C100_shipped.
Print Assumptions C100_masses.
Print Assumptions C100_point.
Print Assumptions C100_angles_refuted.
