(** * PropsLagrangian5: C48, examples and exotic fields for which the symmetries raise *)

From Coq Require Import Ascii String List Bool Arith ZArith QArith Qcanon Lia Permutation Sorted.
From Verif Require Import Base BaseFacts Spec SpecFunctions ProofsFunctions PropsFunctions Show ModelFunctions ProofsDatabase3 ModelIndex SpecIndex ProofsIndex ModelField SpecField ProofsField ModelContract SpecContract ProofsContract
  ModelPartition ModelExotic SpecExotic ProofsExotic ProofsExotic2 PropsExotic2 ModelLagrangian SpecLagrangian ProofsLagrangian PropsLagrangian PropsLagrangian2 PropsLagrangian3 PropsLagrangian4.
Import ListNotations.
Local Open Scope nat_scope.

(** ** The fields of the standard model *)

(** tensormethod/sm.py:9-46: a field made from label, Dynkin labels and hypercharge, then given a LaTeX form and baryon number *)
Definition sm_made (label dynkin tex : string) (y : Q) (b : Z) (comm : string) (nf : nat) : res field :=
  do f <- mk_field (lit label) (lit dynkin) (Some [(lit "y", Q2Qc y)]) false (lit comm) None None 1 None nf 0 None;
  let f := set_charge (lit "3b") (Q2Qc (inject_Z b)) f in
  Ok (mkField (f_label f) (f_dynkin f) (f_charges f) (f_is_conj f) (f_comm f) (f_symmetry f) (f_history f) (f_multiplicity f) (lit tex) (f_nf f) (f_derivs f) (f_stripped f)).

(** The fields written out in the model are what these calls give. *)
Theorem sm_fields_made :
  sm_made "H" "00001" "H" (1 # 2) 0 "bose" 1 = Ok sm_H /\
  sm_made "Q" "10101" "Q" (1 # 6) 1 "fermi" 3 = Ok sm_Q /\
  sm_made "ub" "10010" "\bar{u}" (-2 # 3) (-1) "fermi" 3 = Ok sm_ub /\
  sm_made "db" "10010" "\bar{d}" (1 # 3) (-1) "fermi" 3 = Ok sm_db /\
  sm_made "L" "10001" "L" (-1 # 2) 0 "fermi" 3 = Ok sm_L /\
  sm_made "eb" "10000" "\bar{e}" 1 0 "fermi" 3 = Ok sm_eb.
Proof. repeat split; vm_compute; reflexivity. Qed.

(** ** Fields *)

Definition exotic (k : cls) (label : str) (l : list index) (y b : Q) : cfield :=
  mkCF k (made label l (two (Q2Qc y) (Q2Qc b)) false (class_comm k) label (sym_of l) (AIdxs l)).

Definition ix (t : itype) (n : string) (up : bool) : index := index_at t (lit n) up.

Lemma ix_printed t n up : ProofsExotic2.good (lit n) -> printed (ix t n up).
Proof. intros G. exists (lit n). split; [exact G|reflexivity]. Qed.

Ltac good_tac := cbn [app]; repeat (apply Forall_cons; [apply ix_printed; split; [reflexivity|cbn; intuition discriminate]|]); apply Forall_nil.

Lemma few l : List.length l < 10 -> forall t up, count_kind t up l < 10.
Proof. intros H t up. unfold count_kind. pose proof (filter_length_le (fun i => match ix_type i, t with Undotted, Undotted | Dotted, Dotted | Colour, Colour | Isospin, Isospin | Generation, Generation => Bool.eqb (ix_up i) up | _, _ => false end) l). lia. Qed.

(** a heavy lepton doublet, a scalar leptoquark and a real triplet; a neutral quark; a complex scalar in the 15 of colour; a
    real scalar with baryon number *)
Definition heavy_lepton := exotic (DiracFermion true) (lit "E") ([ix Undotted "0" true] ++ [] ++ [ix Isospin "0" true]) (-3 # 2) 0.
Definition quark_scalar := exotic ComplexScalar (lit "S") ([] ++ [ix Colour "0" false] ++ []) (1 # 3) (-1).
Definition real_triplet := exotic RealScalar (lit "T") ([] ++ [] ++ [ix Isospin "1" true; ix Isospin "2" true]) 0 0.
Definition neutral_quark := exotic (DiracFermion true) (lit "N") ([ix Undotted "0" true] ++ [ix Colour "0" true] ++ []) 0 0.
Definition fifteen := exotic ComplexScalar (lit "F") ([] ++ [ix Colour "0" true; ix Colour "1" true; ix Colour "2" false] ++ []) (1 # 3) 0.
Definition baryonic := exotic RealScalar (lit "B") ([] ++ [] ++ []) 0 1.

Lemma made_ok k label z c s y b u : arranged z c s -> k = class_for z (real_rep (z ++ c ++ s) (Q2Qc y)) (Some u) ->
  (forall i j, In i (z ++ s) -> In j (z ++ s) -> ix_name j <> ix_name i ++ lit "^") ->
  well_made (exotic k label (z ++ c ++ s) y b) z c s.
Proof.
  intros A Ek N. set (x := exotic _ _ _ _ _).
  assert (L : count_kind Undotted true (indices_of x) + count_kind Dotted true (indices_of x) = List.length z) by exact (arr_lorentz_counts _ _ _ A).
  pose proof (real_rep_iff x (Q2Qc y) (z ++ c ++ s) eq_refl eq_refl) as R.
  constructor; try assumption; try reflexivity.
  - unfold right_class. change (cf_class x) with k. rewrite Ek. unfold class_for, fermion, boson, scalar. rewrite L.
    destruct (ar_lorentz _ _ _ A) as [Z|(i & Z & _)]; rewrite Z in *; cbn [List.length] in *.
    + destruct (real_rep _ (Q2Qc y)) eqn:E; (split; [lia|]); [now apply R|]. intros X. apply R in X. discriminate X.
    + destruct (real_rep _ (Q2Qc y)) eqn:E; (split; [intros (n & Hn); lia|]); [now apply R|]. intros X. apply R in X. discriminate X.
  - repeat split.
  - exact (arr_dynkin _ _ _ A).
  - eexists. split; [exact (arr_digits _ _ _ A)|reflexivity].
  - split; reflexivity.
Qed.

Ltac names_tac := let i := fresh in let j := fresh in intros i j; cbn; intuition (subst; discriminate).
Ltac arr_tac := constructor;
  [good_tac
  |first [left; reflexivity|right; eexists; split; [reflexivity|split; [left; reflexivity|reflexivity]]]
  |cbn; intuition (subst; reflexivity)
  |cbn; intuition (subst; reflexivity)
  |intros t up _; apply few; cbn; lia].

Lemma examples_made :
  (exists z c s, well_made heavy_lepton z c s) /\ (exists z c s, well_made quark_scalar z c s) /\ (exists z c s, well_made real_triplet z c s) /\
  (exists z c s, well_made neutral_quark z c s) /\ (exists z c s, well_made fifteen z c s) /\ (exists z c s, well_made baryonic z c s).
Proof.
  split; [|split; [|split; [|split; [|split]]]]; do 3 eexists; (apply made_ok with (u := true); [arr_tac|vm_compute; reflexivity|names_tac]).
Qed.

Lemma examples_ordinary : Forall ordinary [heavy_lepton; quark_scalar; real_triplet].
Proof.
  destruct examples_made as (E1 & E2 & E3 & _). repeat constructor; try assumption.
  - cbn. intuition discriminate.
  - cbn. intros H. apply (f_equal (fun q : Qc => Qnum q)) in H. discriminate H.
Qed.

(** Two Dirac fields, the leptoquark and the triplet: the mass terms and the coupling of the leptoquark to Q and L. *)
Example C48_example : forall nullspace,
  exists l ex smc exc, mk_lagrangian (fun x => f_label (i_field (cf_if x))) [heavy_lepton; quark_scalar; real_triplet; heavy_lepton] [] = Ok l /\
    map (fun x => f_label (i_field (cf_if x))) (l_fields l) = map lit ["E"; "E~"; "S"; "T"]%string /\
    mapM (fun x => field_of (cf_if x)) (l_fields l) = Ok ex /\ setting sm_matter smc ex exc /\
    u1_symmetries nullspace sm_matter l =
      Ok (nullspace [[0; 0; 0; 0; 0; 0; 1; 1; 0; 0]; [0; 0; 0; 0; 0; 0; 1; 1; 0; 0]; [0; 0; 0; 0; 0; 0; 0; 0; 0; 0]; [0; 0; 0; 0; 0; 0; 0; 0; 0; 2];
                     [1; 1; 1; 0; 0; 0; 0; 0; 0; 0]; [-1; 1; 0; 1; 0; 0; 0; 0; 0; 0]; [-1; 0; 0; 0; 1; 1; 0; 0; 0; 0]]%Z).
Proof.
  intros nullspace. do 4 eexists. split; [vm_compute; reflexivity|]. split; [vm_compute; reflexivity|]. split; [vm_compute; reflexivity|].
  split; [|vm_compute; reflexivity].
  constructor; [vm_compute; reflexivity|vm_compute; reflexivity|reflexivity|apply separateb_ok; vm_compute; reflexivity|]. keys_tac.
Qed.

(** what each refuted case says: the Lagrangian is made, its fields are distinct, and the symmetries raise *)
Definition raises (x : cfield) : Prop := forall text nullspace,
  exists l ex smc exc, mk_lagrangian text [x] [] = Ok l /\ mapM (fun x => field_of (cf_if x)) (l_fields l) = Ok ex /\
    setting sm_matter smc ex exc /\ u1_symmetries nullspace sm_matter l = Err KeyError.

Ltac raises_tac := intros text nullspace; do 4 eexists; (split; [vm_compute; reflexivity|]); (split; [vm_compute; reflexivity|]);
  (split; [|vm_compute; reflexivity]); constructor; [vm_compute; reflexivity|vm_compute; reflexivity|reflexivity|apply separateb_ok; vm_compute; reflexivity|]; keys_tac.

(** The naive property fails for a coloured Dirac fermion of zero hypercharge, *)
Theorem C48_neutral_dirac_refuted : exists x, (exists z c s, well_made x z c s) /\ tilded x /\ cf_class x = DiracFermion true /\ hypercharge x = 0%Qc /\ raises x.
Proof.
  exists neutral_quark. split; [apply examples_made|]. split; [cbn; intuition discriminate|]. split; [reflexivity|]. split; [reflexivity|]. raises_tac.
Qed.

(** for a complex scalar in the 15 of colour, *)
Theorem C48_mixed_colour_refuted : exists x, (exists z c s, well_made x z c s) /\ tilded x /\ cf_class x = ComplexScalar /\ ~ pure_colour x /\ raises x.
Proof.
  exists fifteen. split; [apply examples_made|]. split; [exact I|]. split; [reflexivity|]. split; [intros [H|[H|H]]; vm_compute in H; discriminate H|]. raises_tac.
Qed.

(** and for a real scalar with baryon number. *)
Theorem C48_baryon_refuted : exists x, (exists z c s, well_made x z c s) /\ tilded x /\ cf_class x = RealScalar /\ baryon x <> 0%Qc /\ raises x.
Proof.
  exists baryonic. split; [apply examples_made|]. split; [exact I|]. split; [reflexivity|]. split; [intros H; apply (f_equal (fun q : Qc => Qnum q)) in H; discriminate H|]. raises_tac.
Qed.

Print Assumptions sm_fields_made.
Print Assumptions C48_mass_term.
Print Assumptions C48_clean.
Print Assumptions C48_masses_known.
Print Assumptions C48_total.
Print Assumptions C48_example.
Print Assumptions C48_neutral_dirac_refuted.
Print Assumptions C48_mixed_colour_refuted.
Print Assumptions C48_baryon_refuted.
