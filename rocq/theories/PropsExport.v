(** * PropsExport: completions written as text are read back (C91, C92) *)

From Coq Require Import Ascii String List Bool Arith ZArith NArith QArith Qcanon Lia Sorted.
From Verif Require Import Base BaseFacts Show ShowRead ModelFunctions ModelIndex SpecIndex ProofsIndex ModelField SpecField ProofsField
  PropsField PropsField2 ModelContract SpecContract ProofsContract ModelPartition ModelExotic SpecExotic ProofsExotic ProofsExotic2
  ModelInfo ModelLagrangian ModelDatabase ModelExport ProofsExport SpecExport ProofsExport2 ProofsExport3 ProofsExport4 ProofsExport5 ProofsExport6.
From Verif Require PropsInfo4 PropsLagrangian2.
Import ListNotations.
Local Open Scope nat_scope.

(** ** C91: tensors and operators *)

(** what [export_tensor] writes evaluates to the same field or symbol with its indices in printed form *)
Theorem C91_tensor : forall t u, read_back t u -> exists s, export_tensor t = Ok s /\ py_eval s = Ok (VTensor u).
Proof. intros t u R. destruct (tensor_reads t u R) as (s & E & Rd & _). exists s. split; [exact E|]. apply reads_eval, reads_up, Rd. Qed.

Theorem C91_operator : forall op op', operator_back op op' -> exists s, export_operator op = Ok s /\ py_eval s = Ok (VOp op').
Proof. intros op op' R. destruct (operator_reads op op' R) as (s & E & Rd & _). exists s. split; [exact E|]. apply reads_eval, Rd. Qed.

Lemma typed_rest x : typed x -> f_derivs (i_field (cf_if x)) = 0 /\ f_stripped (i_field (cf_if x)) = None.
Proof.
  intros (_ & label & ind & ch & lx & cj & sym & E). unfold mk_typed in E.
  apply bind_ok in E as (l & El & E). apply bind_ok in E as ([] & _ & E). cbv zeta in E. apply bind_ok in E as (x0 & E0 & E).
  apply bind_ok in E as ([] & _ & E). injection E as E.
  assert (Q1 : i_field (cf_if x) = i_field x0) by (rewrite <- E; cbn [cf_if]; destruct ind; auto).
  rewrite Q1. clear E Q1. unfold mk_ifield in E0. cbn [a_indices a_symmetry a_label a_charges a_is_conj a_comm a_latex a_nf a_derivs a_stripped] in E0.
  apply bind_ok in E0 as (l' & _ & E0). cbv zeta in E0. apply bind_ok in E0 as ([] & _ & E0). apply bind_ok in E0 as (dk & Ed & E0).
  apply bind_ok in E0 as (g & Eg & E0). injection E0 as <-. cbn [i_field]. unfold mk_field in Eg. cbv zeta in Eg.
  apply bind_ok in Eg as (sy & _ & Eg). apply bind_ok in Eg as (la & _ & Eg). cbv beta in Eg. destruct (negb (1 =? 1) && negb (1 =? 3)); [discriminate|]. injection Eg as <-. auto.
Qed.

(** Python's == between an exotic field and what is read: whether it is barred does not matter *)
Theorem C91_exotic_equal : forall x, exportable x ->
  (cfield_eqb x (reread (f_latex (i_field (cf_if x))) x) = true <->
   i_index_labels (cf_if x) = AStr (join (lit " ") (map show_index (indices_of x))) /\ (cf_class x = RealScalar -> f_is_conj (i_field (cf_if x)) = false)).
Proof.
  intros x Ex. pose proof (typed_inv x (xp_typed x Ex)) as T. destruct (typed_rest x (xp_typed x Ex)) as [Dv St]. pose proof (tf_nf x T) as Nf.
  destruct (ex_charges x Ex) as (y & b & Ec & _). cbv zeta in Ec.
  unfold cfield_eqb, reread. cbn [cf_class cf_if]. unfold ifield_eqb.
  cbn [i_field f_label i_index_labels f_charges f_is_conj f_symmetry f_comm f_latex f_nf f_derivs f_stripped stripped_eqb].
  rewrite Nf, Dv, St, Ec. cbn [stripped_eqb]. rewrite !Nat.eqb_refl, !andb_true_r.
  rewrite !(decides_refl str_decides), (decides_refl symmetry_decides), (proj2 (two_eqb y b y b) eq_refl), !andb_true_r. cbn [andb].
  assert (K : match cf_class x with Plain => true | k => cls_eqb k (match cf_class x with DiracFermion _ => DiracFermion true | k => k end) end = true).
  { destruct (cf_class x); reflexivity. }
  rewrite K. cbn [andb]. rewrite andb_true_iff.
  assert (A : idx_arg_eqb (i_index_labels (cf_if x)) (AStr (join (lit " ") (map show_index (indices_of x)))) = true <->
              i_index_labels (cf_if x) = AStr (join (lit " ") (map show_index (indices_of x)))).
  { destruct (i_index_labels (cf_if x)) as [s|s|s]; cbn [idx_arg_eqb]; [rewrite (str_decides s); split; congruence|split; discriminate|split; discriminate]. }
  rewrite A. rewrite Bool.eqb_true_iff. split; intros [H1 H2]; (split; [exact H1|]).
  - intros C. rewrite C in H2. exact H2.
  - destruct (cf_class x); auto.
Qed.

(** and between a field of the Standard Model and what is read: the text of the indices must be the printed one *)
Theorem C91_field_equal : forall f s y, standard f -> call_field f s = Ok y ->
  (ifield_eqb y (rewritten y) = true <-> s = join (lit " ") (map show_index (i_indices y))).
Proof.
  intros f s y Sf E. destruct (standard_ok f Sf) as (a & b & c & d & e & F & Rk & Dv & St & Lx & _).
  destruct (proj2 (call_field_spec f a b c d e s F Rk) y E) as (idx & _ & _ & Ey).
  assert (Lb : i_index_labels y = AStr s) by (rewrite Ey; reflexivity). unfold ifield_eqb, rewritten. cbn [i_field i_index_labels]. cbv zeta.
  assert (Ch : charges_eqb (f_charges (i_field y)) (f_charges (i_field y)) = true).
  { rewrite Ey. cbn [i_field f_charges]. destruct F as (_ & _ & P & _). apply charges_eqb_spec; [exact (proper_NoDup _ P)|exact (proper_NoDup _ P)|]. intros k. reflexivity. }
  assert (Sy : f_stripped (i_field y) = None) by (rewrite Ey; exact St).
  rewrite Ch, Sy, Lb, !(decides_refl str_decides), (decides_refl symmetry_decides), !Nat.eqb_refl, Bool.eqb_reflx. cbn [idx_arg_eqb stripped_eqb andb].
  rewrite !andb_true_r. apply str_decides.
Qed.

(** ** C92: completions *)

(** the text of a completion evaluates to the completion: same operator, partition, graph, set of fields, terms, topology *)
Theorem C92_eager : forall c op' p' ts', writable_completion c -> operator_back (co_operator c) op' -> tree_back (co_partition c) p' ->
  Forall2 operator_back (co_terms c) ts' ->
  exists c', completion_back c c' /\ co_operator c' = op' /\ co_partition c' = p' /\ co_terms c' = ts' /\
    forall s, export_completion c false = Ok s -> py_eval s = Ok (VComp c').
Proof.
  intros c op' p' ts' W Ho Hp Ht. destruct (whole_reads c op' p' ts' W Ho Hp Ht) as (g' & xs & B & H). cbv zeta in B, H.
  eexists. split; [exact B|]. split; [reflexivity|]. split; [reflexivity|]. split; [reflexivity|]. intros s E.
  apply reads_eval, reads_up. exact (proj1 (H false s E) eq_refl).
Qed.

(** the lazy form: the head at once, the same completion when it is forced *)
Theorem C92_lazy : forall c op' p' ts', writable_completion c -> Forall (fun x => inert (f_latex (i_field (cf_if x)))) (co_exotics c) ->
  operator_back (co_operator c) op' -> tree_back (co_partition c) p' -> Forall2 operator_back (co_terms c) ts' ->
  exists c', completion_back c c' /\
    (forall s, export_completion c false = Ok s -> py_eval s = Ok (VComp c')) /\
    (forall s, export_completion c true = Ok s -> exists m, py_eval s = Ok (VLazy m (Some (co_topology c))) /\ head_of c m /\ force m = Ok (VComp c')).
Proof.
  intros c op' p' ts' W I Ho Hp Ht. destruct (whole_reads c op' p' ts' W Ho Hp Ht) as (g' & xs & B & H). cbv zeta in B, H.
  eexists. split; [exact B|]. split.
  - intros s E. apply reads_eval, reads_up. exact (proj1 (H false s E) eq_refl).
  - intros s E. destruct (proj2 (H true s E) eq_refl) as (m & R & Hd & T). exists m. split; [apply reads_eval, reads_up, R|]. split; [exact Hd|].
    apply reads_eval, reads_up. exact (T I).
Qed.

(** the head does not depend on the latex *)
Theorem C92_head : forall c op' p' ts', writable_completion c -> operator_back (co_operator c) op' -> tree_back (co_partition c) p' ->
  Forall2 operator_back (co_terms c) ts' ->
  forall s, export_completion c true = Ok s -> exists m, py_eval s = Ok (VLazy m (Some (co_topology c))) /\ head_of c m.
Proof.
  intros c op' p' ts' W Ho Hp Ht s E. destruct (whole_reads c op' p' ts' W Ho Hp Ht) as (g' & xs & B & H). cbv zeta in B, H.
  destruct (proj2 (H true s E) eq_refl) as (m & R & Hd & _). exists m. split; [apply reads_eval, reads_up, R|exact Hd].
Qed.

(** the text exists: the class of every exotic field is that of its quantum numbers, every field of the terms has five Dynkin labels *)
Definition five_labels (x : cfield) : Prop := exists a b c d e, f_dynkin (i_field (cf_if x)) = five a b c d e /\ (a < 10 /\ b < 10 /\ c < 10 /\ d < 10 /\ e < 10).

Lemma info_exists x : (exists z c s, PropsLagrangian2.well_made x z c s) -> (exists tex, to_tex (f_label (i_field (cf_if x))) = Ok tex) ->
  exists q s, info_of x = Ok q /\ show_qnumbers q = Ok s.
Proof.
  intros (z & c & s & W) T. destruct (PropsInfo4.C56_info x z c s W T) as (l & _ & P & N).
  destruct (Qclt_le_dec (hypercharge x) 0) as [H|H].
  - eexists. eexists. split; [exact (N H)|]. reflexivity.
  - eexists. eexists. split; [exact (P H)|]. reflexivity.
Qed.

Lemma dset_values {A B} eqb (d : list (A * B)) k v w : In w (map snd (dset eqb d k v)) -> w = v \/ In w (map snd d).
Proof.
  induction d as [|[k' v'] d IH]; cbn [dset map snd In]; [intros [<-|[]]; now left|].
  destruct (eqb _ _); cbn [map snd In]; intros [<-|I]; auto. destruct (IH I); auto.
Qed.

Lemma quantum_exist l : Forall (fun x => exists q s, info_of x = Ok q /\ show_qnumbers q = Ok s) l -> exists r, quantum_number_strings l = Ok r.
Proof.
  intros F. assert (H : forall d, Forall (fun q => exists s, show_qnumbers q = Ok s) (values d) ->
    exists info, foldM (fun info e => do q <- info_of e; Ok (dset cfield_eqb info e q)) l d = Ok info /\ Forall (fun q => exists s, show_qnumbers q = Ok s) (values info)).
  { induction F as [|x l (q & s & E & S) F IH]; intros d D; cbn [foldM]; [eauto|]. rewrite E. cbn [bind]. apply IH.
    apply Forall_forall. intros w I. apply dset_values in I as [->|I]; [eauto|]. rewrite Forall_forall in D. now apply D. }
  destruct (H [] (Forall_nil _)) as (info & E & V). unfold quantum_number_strings, exotic_info. rewrite E. cbn [bind].
  assert (X : exists r, mapM show_qnumbers (values info) = Ok r).
  { clear E. induction V as [|q v (s & S) V (r & R)]; cbn [mapM]; [eauto|]. rewrite S. cbn [bind]. rewrite R. cbn [bind]. eauto. }
  destruct X as (r & ->). cbn [bind]. eauto.
Qed.

Lemma default_key d k : In k (keys default_charges) -> exists q, dgetM str_eqb (dupdate str_eqb default_charges d) k = Ok q.
Proof.
  intros I. unfold dgetM. destruct (dget str_eqb (dupdate str_eqb default_charges d) k) as [q|] eqn:E; [eauto|].
  exfalso. apply (dget_None str_decides) in E. apply E, (keys_dupdate_In str_decides). now left.
Qed.

Lemma spelling_exists x : one_or_three x -> five_labels x -> exists s, (do f <- field_of (cf_if x); field_qns f) = Ok s.
Proof.
  intros N (a & b & c & d & e & D & L1 & L2 & L3 & L4 & L5).
  assert (Ef : exists f, field_of (cf_if x) = Ok f).
  { unfold field_of, mk_field. cbv zeta. cbn [bind]. destruct N as [N|N]; rewrite N; cbn [Nat.eqb negb andb]; eauto. }
  destruct Ef as (f & Ef). rewrite Ef. cbn [bind]. destruct (field_of_parts _ _ Ef) as (_ & Pd & Pc & _). unfold field_qns.
  assert (Sc : exists s, is_scalar f = Ok s).
  { unfold is_scalar, lorentz_irrep, dynkin_ints. rewrite Pd, D. unfold five. cbn [mapM]. rewrite !digit_of_digit by assumption. cbn [bind]. eauto. }
  destruct Sc as (sc & ->). cbn [bind]. rewrite Pc. destruct (default_key (f_charges (i_field (cf_if x))) (lit "y")) as (y & ->); [cbn; tauto|]. cbn [bind].
  destruct (default_key (f_charges (i_field (cf_if x))) (lit "3b")) as (b3 & ->); [cbn; tauto|]. cbn [bind].
  unfold stringify_qns. rewrite Pd, D. unfold five. destruct (negb _); eauto.
Qed.

Lemma mapM_total {A B} (f : A -> res B) l : Forall (fun a => exists b, f a = Ok b) l -> exists r, mapM f l = Ok r.
Proof. intros F. induction F as [|a l (b & E) F (r & R)]; cbn [mapM]; [eauto|]. rewrite E. cbn [bind]. rewrite R. cbn [bind]. eauto. Qed.

Theorem C92_written : forall c op' p' ts', writable_completion c -> operator_back (co_operator c) op' -> tree_back (co_partition c) p' ->
  Forall2 operator_back (co_terms c) ts' ->
  Forall (fun x => (exists z c s, PropsLagrangian2.well_made x z c s) /\ exists tex, to_tex (f_label (i_field (cf_if x))) = Ok tex) (co_exotics c) ->
  Forall (fun t => Forall (fun x => one_or_three x /\ five_labels x) (cfields t)) (co_terms c) ->
  forall is_lazy, exists s, export_completion c is_lazy = Ok s.
Proof.
  intros c op' p' ts' W Ho Hp Ht Fx Ft is_lazy. unfold export_completion.
  destruct (operator_reads _ _ Ho) as (so & -> & _). cbn [bind]. cbv zeta. destruct (wc_partition c W) as (l & El).
  pose proof Hp as Hp'. rewrite El in Hp'. destruct (export_partition_reads l p' Hp') as (sp & Ep & _). rewrite <- El in Ep. rewrite Ep. cbn [bind].
  destruct (terms_read _ _ Ht) as (st & -> & _). cbn [bind]. destruct (exotics_ok _ (wc_exotics c W)) as (m & -> & _). cbn [bind].
  destruct (quantum_exist (co_exotics c)) as (q & ->).
  { apply Forall_forall. intros x I. rewrite Forall_forall in Fx. destruct (Fx x I) as [A B]. now apply info_exists. }
  cbn [bind]. unfold plain_terms.
  destruct (mapM_total (fun t => mapM (fun x => do f <- field_of (cf_if x); field_qns f) (cfields t)) (co_terms c)) as (r & ->).
  { apply Forall_forall. intros t I. rewrite Forall_forall in Ft. apply mapM_total, Forall_forall. intros x J. specialize (Ft t I).
    rewrite Forall_forall in Ft. destruct (Ft x J). now apply spelling_exists. }
  cbn [bind]. eauto.
Qed.

(** [undirected] graphs come back: nodes in order, edges with their attributes *)
Theorem C92_graph : forall g, undirected g -> exists h, py_eval (export_graph g) = Ok (VGraph h) /\ same_graph g h.
Proof. intros g U. destruct (graph_reads g U) as (h & R & S & _). exists h. split; [apply reads_eval, reads_up, R|exact S]. Qed.

(** ** Examples *)

Definition plainb (s : str) : bool :=
  forallb (fun c => let n := nat_of_ascii c in
    (32 <=? n) && negb (n =? 127) && negb (n =? 39) && negb (n =? 34) && negb (n =? 92)) s.

Lemma plainb_ok s : plainb s = true -> plain s.
Proof.
  unfold plainb, plain. rewrite forallb_forall, Forall_forall. intros H c I. specialize (H c I). cbv zeta in H.
  rewrite !andb_true_iff, !negb_true_iff, !Nat.eqb_neq, Nat.leb_le in H. unfold plain_char. cbv zeta. tauto.
Qed.

Definition writableb (l : list index) : bool := forallb (fun i => cleanb i && plainb (ix_name i)) l.

Lemma writableb_ok l : writableb l = true -> writable l.
Proof.
  unfold writableb. rewrite forallb_forall. intros H.
  split; apply Forall_forall; intros i I; specialize (H i I); apply andb_true_iff in H as [H1 H2]; [apply cleanb_ok, H1|apply plainb_ok, H2].
Qed.

Definition got {A} (d : A) (r : res A) : A := match r with Ok a => a | Err _ => d end.
Definition none : cfield := mkCF Plain (mkIField (mkField [] [] [] false [] [] None 1 [] 1 0 None) [] (AStr [])).
Definition ynumbers (y b : Q) : charges := [(lit "y", Q2Qc y); (lit "3b", Q2Qc b)].
Definition exotic k n ind y cj := mk_typed k [ascii_of_nat n] (TStr (lit ind)) (Some (ynumbers y 0)) None cj None.

(** the triplet of the type II seesaw, and the two fermions that are not read as they are *)
Definition ex_phi := got none (exotic ComplexScalar 179 "i4 i5" 1 false).
Definition ex_psi := got none (exotic (DiracFermion false) 181 "u0 i0" (1 # 2) false).
Definition ex_theta := got none (exotic MajoranaFermion 167 "u0 i0 i1" 0 false).
Definition ex_field f ind := got (cf_if none) (call_field f (lit ind)).

Definition eval_of (r : res str) : res val := do s <- r; py_eval s.
Definition ex_phid := got none (mk_typed ComplexScalar [ascii_of_nat 179; dagger] (TStr (lit "i6 i7")) (Some (ynumbers (-1) 0)) None true None).
Definition sym (r : res symbol) : ctensor := KSym (got (EpsC []) r).
Definition std f ind : ctensor := KField (mkCF Plain (ex_field f ind)).

Definition ex_operator : cop :=
  [std sm_L "u0 i0"; std sm_L "u1 i1"; std sm_H "i2"; std sm_H "i3"; sym (eps (lit "-u0 -u1")); sym (eps (lit "-i0 -i2")); sym (eps (lit "-i1 -i3"))].
Definition ex_terms : list cop :=
  [[KField ex_phi; std sm_L "u0 i0"; std sm_L "u1 i1"; sym (eps (lit "-u0 -u1")); sym (eps (lit "-i0 -i4")); sym (eps (lit "-i1 -i5"))];
   [KField ex_phid; std sm_H "i2"; std sm_H "i3"; sym (eps (lit "-i2 -i6")); sym (eps (lit "-i3 -i7"))]].
Definition ex_leaf f ind n : ptree (cfield * N) := Lf (mkCF Plain (ex_field f ind), n).
Definition ex_edge (s : string) : list (str * str) := [(lit "particle", lit s)].
Definition ex_graph : adjacency :=
  [(1, [(5, ex_edge "L")]); (2, [(5, ex_edge "L")]); (3, [(6, ex_edge "H")]); (4, [(6, ex_edge "H")]);
   (5, [(1, ex_edge "L"); (2, ex_edge "L"); (6, ex_edge "phi")]); (6, [(3, ex_edge "H"); (4, ex_edge "H"); (5, ex_edge "phi")])]%N.
Definition ex_completion : comp := mkComp (lit "1") ex_operator
  (Tp [Tp [ex_leaf sm_L "u0 i0" 1%N; ex_leaf sm_L "u1 i1" 2%N]; Tp [ex_leaf sm_H "i2" 3%N; ex_leaf sm_H "i3" 4%N]])
  ex_graph [ex_phi] ex_terms (lit "4s0f_1").

(** what they become: the indices are labelled by their printed form *)
Definition again (t : ctensor) : ctensor :=
  match t with
  | KField x => match cf_class x with Plain => KField (mkCF Plain (rewritten (cf_if x))) | _ => KField (reread (f_latex (i_field (cf_if x))) x) end
  | KSym s => KSym (rewritten_symbol s)
  end.

Ltac text_ok := first [apply plainb_ok|apply writableb_ok]; vm_compute; reflexivity.

Definition plain_charb (c : ascii) : bool := plainb [c].
Lemma plain_charb_ok c : plain_charb c = true -> plain_char c.
Proof. intros H. exact (Forall_inv (plainb_ok [c] H)). Qed.

Fixpoint inertb (s : str) : bool :=
  match s with
  | [] => true
  | c :: r => if Ascii.eqb c (ascii_of_nat 92)
              then match r with d :: r => plain_charb d && negb (existsb (Ascii.eqb d) (lit "abfnrtvxNuU01234567")) && inertb r | [] => false end
              else plain_charb c && inertb r
  end.
Lemma inertb_ok n : forall s, List.length s <= n -> inertb s = true -> inert s.
Proof.
  induction n as [|n IH]; intros [|c r] L H; cbn [List.length] in L; [apply inert_nil|lia|apply inert_nil|].
  cbn [inertb] in H. destruct (Ascii.eqb c (ascii_of_nat 92)) eqn:E.
  - apply Ascii.eqb_eq in E as ->. destruct r as [|d r]; [discriminate|]. rewrite !andb_true_iff, negb_true_iff in H. destruct H as [[H1 H2] H3].
    apply inert_backslash; [split; [apply plain_charb_ok, H1|]|apply IH; [cbn [List.length] in L; lia|exact H3]].
    intros I. assert (X : existsb (Ascii.eqb d) (lit "abfnrtvxNuU01234567") = true); [|rewrite X in H2; discriminate].
    apply existsb_exists. exists d. split; [exact I|apply Ascii.eqb_refl].
  - apply andb_true_iff in H as [H1 H2]. apply inert_plain; [apply plain_charb_ok, H1|apply IH; [lia|exact H2]].
Qed.
Lemma inertb_inert s : inertb s = true -> inert s.
Proof. apply (inertb_ok (List.length s)). lia. Qed.

(** a complex scalar whose hypercharge is not zero *)
Lemma complex_ok x label ind ch lx cj sy : cf_class x = ComplexScalar -> mk_typed ComplexScalar label ind ch lx cj sy = Ok x ->
  scalar x -> hypercharge x <> Q2Qc 0 -> standard_charges x -> List.length (indices_of x) < 10 ->
  existsb is_generation (indices_of x) = false -> writableb (indices_of x) = true -> plainb (f_label (i_field (cf_if x))) = true -> exportable x.
Proof.
  intros K E S H C L G W Lb. constructor; auto.
  - rewrite <- K in E. split; [rewrite K; discriminate|]. now exists label, ind, ch, lx, cj, sy.
  - unfold right_class. rewrite K. split; [exact S|]. intros (_ & _ & Z). contradiction.
  - intros t up _. apply Nat.le_lt_trans with (2 := L). apply filter_length_le.
  - intros i I T. assert (X : existsb is_generation (indices_of x) = true); [|rewrite X in G; discriminate].
    apply existsb_exists. exists i. split; [exact I|]. unfold is_generation. rewrite T. reflexivity.
  - now apply writableb_ok.
  - now apply plainb_ok.
Qed.

Example phi_exportable : exportable ex_phi /\ exportable ex_phid.
Proof.
  split.
  - apply (complex_ok _ [ascii_of_nat 179] (TStr (lit "i4 i5")) (Some (ynumbers 1 0)) None false None);
      [reflexivity|vm_compute; reflexivity|split; vm_compute; reflexivity|vm_compute; discriminate|vm_compute; reflexivity|vm_compute; lia|
       vm_compute; reflexivity|vm_compute; reflexivity|vm_compute; reflexivity].
  - apply (complex_ok _ [ascii_of_nat 179; dagger] (TStr (lit "i6 i7")) (Some (ynumbers (-1) 0)) None true None);
      [reflexivity|vm_compute; reflexivity|split; vm_compute; reflexivity|vm_compute; discriminate|vm_compute; reflexivity|vm_compute; lia|
       vm_compute; reflexivity|vm_compute; reflexivity|vm_compute; reflexivity].
Qed.

Lemma std_back f ind : matter f -> is_ok (call_field f (lit ind)) = true -> writableb (i_indices (ex_field f ind)) = true ->
  (f_nf (i_field (ex_field f ind)) = 1 \/ f_nf (i_field (ex_field f ind)) = 3) -> read_back (std f ind) (again (std f ind)).
Proof.
  unfold std, ex_field. destruct (call_field f (lit ind)) as [y|] eqn:E; [|discriminate]. intros M _ W N. cbn [got again cf_class cf_if] in *.
  apply (rb_field f (lit ind)); [left; exact M|exact E|unfold looks_like; auto|now apply writableb_ok].
Qed.

Lemma eps_back ind : is_ok (eps (lit ind)) = true -> writableb (symbol_indices (got (EpsC []) (eps (lit ind)))) = true ->
  read_back (sym (eps (lit ind))) (again (sym (eps (lit ind)))).
Proof.
  unfold sym. destruct (eps (lit ind)) as [y|] eqn:E; [|discriminate]. intros _ W. cbn [got again] in *.
  apply rb_symbol; [exists (lit ind); left; exact E|now apply writableb_ok].
Qed.

Ltac is_back :=
  first [ apply eps_back; vm_compute; reflexivity
        | apply std_back; [cbv; tauto|vm_compute; reflexivity|vm_compute; reflexivity|vm_compute; tauto] ].

Example operator_read : operator_back ex_operator (map again ex_operator).
Proof.
  split; [exact I|]. split.
  - repeat (apply of_cons; [intros u Hu; repeat (destruct Hu as [<-|Hu]; [vm_compute; lia|]); destruct Hu|]). apply of_nil.
  - unfold ex_operator. cbn [map]. repeat (apply Forall2_cons; [is_back|]). apply Forall2_nil.
Qed.

Example terms_are_read : Forall2 operator_back ex_terms (map (map again) ex_terms).
Proof.
  destruct phi_exportable as [P1 P2].
  apply Forall2_cons; [|apply Forall2_cons; [|apply Forall2_nil]]; (split; [exact I|]; split;
   [repeat (apply of_cons; [intros u Hu; repeat (destruct Hu as [<-|Hu]; [vm_compute; lia|]); destruct Hu|]); apply of_nil|]);
   cbn [map]; (apply Forall2_cons; [apply rb_exotic; [assumption|apply inertb_inert; vm_compute; reflexivity]|]);
   repeat (apply Forall2_cons; [is_back|]); apply Forall2_nil.
Qed.

Ltac nodup := repeat (apply NoDup_cons; [cbv; intuition discriminate|]); apply NoDup_nil.
Ltac members H := repeat (destruct H as [H|H]; [injection H as <- <-|]); [..|destruct H].

Example graph_undirected : undirected ex_graph.
Proof.
  constructor.
  - cbn [map fst ex_graph]. nodup.
  - intros u nb I. cbn [ex_graph In] in I. members I; cbn [map fst]; nodup.
  - intros u v a (nb & I & J). cbn [ex_graph In] in I. members I; cbn [In] in J; members J;
      (eexists; split; [cbn [ex_graph In]; tauto|cbn [In]; tauto]).
  - intros u v a (nb & I & J). cbn [ex_graph In] in I.
    assert (X : exists s, a = ex_edge s /\ plainb (lit s) = true) by (members I; cbn [In] in J; members J; eexists; (split; [reflexivity|reflexivity])).
    destruct X as (s & -> & P). cbn [ex_edge map fst]. split; [nodup|].
    apply Forall_cons; [|apply Forall_nil]. cbn [fst snd]. split; [text_ok|apply plainb_ok, P].
Qed.

Example completion_writable : writable_completion ex_completion.
Proof.
  constructor.
  - text_ok.
  - text_ok.
  - eexists. reflexivity.
  - exact graph_undirected.
  - apply Forall_cons; [|apply Forall_nil]. split; [exact (proj1 phi_exportable)|]. apply inert_backslashed, inertb_inert. vm_compute. reflexivity.
Qed.

Definition again_leaf (x : cfield * N) : cfield * N := (match again (KField (fst x)) with KField y => y | _ => fst x end, snd x).
Fixpoint again_tree (t : ptree (cfield * N)) : ptree (cfield * N) :=
  match t with Lf x => Lf (again_leaf x) | Tp l => Tp (map again_tree l) end.

Example partition_read : tree_back (co_partition ex_completion) (again_tree (co_partition ex_completion)).
Proof.
  cbn [co_partition ex_completion again_tree map].
  repeat first [ apply tb_node | apply Forall2_nil | apply Forall2_cons | apply tb_leaf; is_back ].
Qed.

(** both forms exist and are read as the completion *)
Lemma both_forms c c' (P : lazy -> Prop) :
  (forall s, export_completion c false = Ok s -> py_eval s = Ok (VComp c')) ->
  (forall s, export_completion c true = Ok s -> exists m, py_eval s = Ok (VLazy m (Some (co_topology c))) /\ head_of c m /\ force m = Ok (VComp c')) ->
  is_ok (export_completion c false) = true -> is_ok (export_completion c true) = true ->
  match eval_of (export_completion c true) with Ok (VLazy m _) => P m | _ => False end ->
  eval_of (export_completion c false) = Ok (VComp c') /\
  exists m, eval_of (export_completion c true) = Ok (VLazy m (Some (co_topology c))) /\ force m = Ok (VComp c') /\ P m.
Proof.
  intros E Z K1 K2 H. unfold eval_of in *. destruct (export_completion c false) as [s1|]; [|discriminate].
  destruct (export_completion c true) as [s2|]; [|discriminate]. cbn [bind] in *.
  split; [apply E; reflexivity|]. destruct (Z s2 eq_refl) as (m & Em & _ & F). rewrite Em in H. exists m. auto.
Qed.

Example completion_read : exists c', completion_back ex_completion c' /\
  eval_of (export_completion ex_completion false) = Ok (VComp c') /\
  exists m, eval_of (export_completion ex_completion true) = Ok (VLazy m (Some (lit "4s0f_1"))) /\ force m = Ok (VComp c') /\
    lz_operator m = lit "1" /\ lz_quantum_numbers m = [lit "S,00,2,1,0"] /\
    lz_terms m = [[lit "S,00,2,1,0"; lit "L"; lit "L"]; [lit "S,00,2,-1,0"; lit "H"; lit "H"]].
Proof.
  assert (I : Forall (fun x => inert (f_latex (i_field (cf_if x)))) (co_exotics ex_completion)).
  { apply Forall_cons; [|apply Forall_nil]. apply inertb_inert. vm_compute. reflexivity. }
  destruct (C92_lazy ex_completion (map again ex_operator) (again_tree (co_partition ex_completion)) (map (map again) ex_terms)
              completion_writable I operator_read partition_read terms_are_read) as (c' & B & E & Z).
  exists c'. split; [exact B|].
  apply (both_forms ex_completion c'
           (fun m => lz_operator m = lit "1" /\ lz_quantum_numbers m = [lit "S,00,2,1,0"] /\
                     lz_terms m = [[lit "S,00,2,1,0"; lit "L"; lit "L"]; [lit "S,00,2,-1,0"; lit "H"; lit "H"]]) E Z).
  - vm_compute. reflexivity.
  - vm_compute. reflexivity.
  - assert (X : (do v <- eval_of (export_completion ex_completion true);
                 match v with VLazy m _ => Ok (lz_operator m, lz_quantum_numbers m, lz_terms m) | _ => Err TypeError end) =
                Ok (lit "1", [lit "S,00,2,1,0"], [[lit "S,00,2,1,0"; lit "L"; lit "L"]; [lit "S,00,2,-1,0"; lit "H"; lit "H"]])) by (vm_compute; reflexivity).
    revert X. generalize (eval_of (export_completion ex_completion true)). intros [v|e] X; [|discriminate].
    cbn [bind] in X. destruct v; try discriminate. generalize dependent m. intros m X. injection X as -> -> ->. auto.
Qed.

(** ** What is lost *)

(** a barred fermion is read as one that is not *)
Theorem C91_barred_refuted : exists x s y, exportable x /\ export_tensor (KField x) = Ok s /\ py_eval s = Ok (VTensor (KField y)) /\
  cf_class x = DiracFermion false /\ cf_class y = DiracFermion true /\ cfield_eqb x y = true.
Proof.
  exists ex_psi. eexists. eexists. split; [|split; [vm_compute; reflexivity|split; [vm_compute; reflexivity|split; [|split]; vm_compute; reflexivity]]].
  constructor.
  - split; [vm_compute; discriminate|]. exists [ascii_of_nat 181], (TStr (lit "u0 i0")), (Some (ynumbers (1 # 2) 0)), None, false, None. vm_compute. reflexivity.
  - change (right_class ex_psi) with (fermion ex_psi /\ ~ real_irrep ex_psi). split.
    + intros [k K]. change (1 = 2 * k) in K. lia.
    + intros (_ & [k K] & _). change (1 = 2 * k) in K. lia.
  - vm_compute. reflexivity.
  - intros t up _. destruct t, up; vm_compute; lia.
  - intros i [<-|[<-|[]]]; vm_compute; discriminate.
  - text_ok.
  - text_ok.
Qed.

(** the latex form of the fifth fermion symbol begins like a tabulator *)
Theorem C91_theta_refuted : exists x s y, typed x /\ f_label (i_field (cf_if x)) = [ascii_of_nat 167] /\
  f_latex (i_field (cf_if x)) = lit "\theta" /\ export_tensor (KField x) = Ok s /\ py_eval s = Ok (VTensor (KField y)) /\
  f_latex (i_field (cf_if y)) = ascii_of_nat 9 :: lit "heta" /\ cfield_eqb x y = false.
Proof.
  exists ex_theta. eexists. eexists. split; [|repeat (split; [vm_compute; reflexivity|]); vm_compute; reflexivity].
  split; [vm_compute; discriminate|]. exists [ascii_of_nat 167], (TStr (lit "u0 i0 i1")), (Some (ynumbers 0 0)), None, false, None. vm_compute. reflexivity.
Qed.

(** database.py does not know the gauge field strengths *)
Theorem C91_names_refuted : exists f x s, mk_field (lit "W") (lit "20002") (Some (ynumbers 0 0)) false (lit "bose") None None 1 None 1 0 None = Ok f /\
  call_field f (lit "u0 u1 i0 i1") = Ok x /\ export_tensor (KField (mkCF Plain x)) = Ok s /\ py_eval s = Err NameError.
Proof. eexists. eexists. eexists. repeat (split; [vm_compute; reflexivity|]). vm_compute. reflexivity. Qed.

(** set of exotic fields: kept by the text of the completion, lost in the lazy form *)
Definition ex_dark : comp := mkComp (lit "1") ex_operator (co_partition ex_completion) ex_graph [ex_theta] [] (lit "4s0f_1").

Definition latex_read (v : res val) : res (list str) :=
  do v <- v; match v with VComp c => Ok (map (fun x => f_latex (i_field (cf_if x))) (co_exotics c)) | _ => Err TypeError end.

Theorem C92_theta_refuted : exists c s1 s2 m, export_completion c false = Ok s1 /\ export_completion c true = Ok s2 /\
  map (fun x => f_latex (i_field (cf_if x))) (co_exotics c) = [lit "\theta"] /\ latex_read (py_eval s1) = Ok [lit "\theta"] /\
  py_eval s2 = Ok (VLazy m (Some (co_topology c))) /\ latex_read (force m) = Ok [ascii_of_nat 9 :: lit "heta"].
Proof. exists ex_dark. eexists. eexists. eexists. repeat (split; [vm_compute; reflexivity|]). vm_compute. reflexivity. Qed.

Print Assumptions C91_tensor.
Print Assumptions C91_operator.
Print Assumptions C91_exotic_equal.
Print Assumptions C91_field_equal.
Print Assumptions C92_eager.
Print Assumptions C92_lazy.
Print Assumptions C92_head.
Print Assumptions C92_written.
Print Assumptions C92_graph.
Print Assumptions C91_barred_refuted.
Print Assumptions C91_theta_refuted.
Print Assumptions C91_names_refuted.
Print Assumptions C92_theta_refuted.
