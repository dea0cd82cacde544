(** * PropsRelabel: C94, duplicates and relabellings *)

From Coq Require Import Ascii String List Bool Arith ZArith QArith Qcanon Lia Permutation Sorted.
From Verif Require Import Base BaseFacts ModelFunctions ModelIndex SpecIndex ModelField SpecField ModelContract SpecContract ModelPartition ModelLagrangian
  ModelInvariants SpecInvariants.
From Verif Require Spec.
Import ListNotations.
Local Open Scope nat_scope.

Lemma tindex_decides i j : tindex_eqb i j = true <-> i = j.
Proof.
  unfold tindex_eqb. rewrite !andb_true_iff, !Bool.eqb_true_iff. destruct i as [a b c d], j as [a' b' c' d']. cbn [t_own t_name t_type t_up]. split.
  - intros (((-> & N) & T) & ->). apply str_decides in N as ->. destruct c, c'; try discriminate T; reflexivity.
  - intros E. injection E as -> -> -> ->. repeat split; [apply str_decides; reflexivity|destruct c'; reflexivity].
Qed.

Lemma starts_begins p s : starts p s = true <-> begins p s.
Proof.
  unfold starts, begins. generalize (lit p) as q. intros q. revert s. induction q as [|c q IH]; intros s; cbn [strip_prefix].
  - split; [intros _; now exists s|reflexivity].
  - destruct s as [|d s]; [split; [discriminate|intros (r & E); discriminate]|]. destruct (Ascii.eqb c d) eqn:E.
    + apply Ascii.eqb_eq in E as ->. rewrite IH. split; intros (r & X); [exists r; now rewrite X|injection X as X; now exists r].
    + split; [discriminate|]. intros (r & X). injection X as X _. subst d. rewrite Ascii.eqb_refl in E. discriminate.
Qed.

Lemma filter_selected {A} (P : A -> Prop) (b : A -> bool) l : (forall x, b x = true <-> P x) -> selected P l (filter b l).
Proof.
  intros H. induction l as [|x l IH]; [constructor|]. cbn [filter]. destruct (b x) eqn:E; [apply sel_take; [now apply H|exact IH]|].
  apply sel_skip; [|exact IH]. intros X. apply H in X. congruence.
Qed.

Lemma selected_fun {A} (P : A -> Prop) l a : selected P l a -> forall b, selected P l b -> a = b.
Proof.
  induction 1 as [|x l l' Hx S IH|x l l' Hx S IH]; intros b Sb; inversion Sb; subst; try contradiction; [reflexivity|f_equal; auto|auto].
Qed.

Lemma itype_eqb_eq a b : itype_eqb a b = true <-> a = b.
Proof. destruct a, b; cbn; split; intros; congruence. Qed.

Lemma structure_spec t f : first_type t f && invariant_symbol f = true <-> is_structure t f.
Proof.
  unfold first_type, invariant_symbol, is_structure. rewrite andb_true_iff, !orb_true_iff, !starts_begins. split.
  - intros [T S]. split; [tauto|]. destruct (fa_indices f) as [|i r]; [discriminate|]. apply itype_eqb_eq in T. now exists i, r.
  - intros [S (i & r & E & T)]. rewrite E. split; [now apply itype_eqb_eq|tauto].
Qed.

Lemma filter_filter {A} (p q : A -> bool) l : filter p (filter q l) = filter (fun x => p x && q x) l.
Proof. induction l as [|x l IH]; [reflexivity|]. cbn [filter]. destruct (q x); cbn [filter]; destruct (p x); cbn; now rewrite IH. Qed.

Theorem C94_structures : forall args, structures_by_type args (by_structures args).
Proof.
  intros args. unfold structures_by_type, by_structures.
  exists (map (fun t => filter (first_type t) (structures args)) [Undotted; Dotted; Colour; Isospin; Generation]). split.
  - generalize [Undotted; Dotted; Colour; Isospin; Generation]. intros ts. induction ts as [|t ts IH]; constructor; [|exact IH].
    unfold structures. rewrite filter_filter. apply filter_selected. intros f. apply structure_spec.
  - apply filter_selected. intros [|x l]; split; intros H; congruence.
Qed.

Lemma structures_fun args gs gs' : structures_by_type args gs -> structures_by_type args gs' -> gs = gs'.
Proof.
  intros (a & F & S) (b & F' & S'). assert (E : a = b); [|subst b; eapply selected_fun; eauto]. clear S S'. revert b F'.
  induction F as [|t g ts a Hg F IH]; intros b F'; inversion F' as [|? g' ? b' H1 H2]; subst; [reflexivity|]. f_equal; [eapply selected_fun; eauto|now apply IH].
Qed.

(** ** renamings of pairs *)

Lemma sort_pair f : List.length (fa_indices f) = 2 -> ordered_pair f (sort_indices (fa_indices f)).
Proof.
  intros L. unfold sort_indices. set (leb := fun i j => str_leb (t_name i) (t_name j)).
  destruct (fa_indices f) as [|a [|b [|c r]]] eqn:E; try discriminate L. cbn [sort fold_right insert].
  change (sort leb [a; b]) with (if leb a b then [a; b] else [b; a]). destruct (leb a b) eqn:Ab.
  - exists a, b. rewrite E. repeat split; auto.
  - exists b, a. rewrite E. split; [reflexivity|]. split; [constructor|]. unfold leb in Ab. split.
    + destruct (str_leb_total (t_name a) (t_name b)) as [X|X]; [congruence|exact X].
    + intros X. rewrite <- X in Ab. destruct (str_leb_total (t_name b) (t_name b)) as [Y|Y]; congruence.
Qed.

Lemma ordered_pair_fun f p q : ordered_pair f p -> ordered_pair f q -> p = q.
Proof.
  intros (i & j & -> & P & L & E) (k & l & -> & P' & L' & E').
  assert (Q : Permutation [i; j] [k; l]) by (rewrite <- P; exact P'). apply Permutation_length_2 in Q as [[-> ->]|[-> ->]]; [reflexivity|].
  assert (N : t_name k = t_name l) by (apply str_leb_antisym; assumption). rewrite <- (E' N). symmetry. rewrite <- E; [reflexivity|congruence].
Qed.

Lemma pairs_fun fs xs ys : Forall2 ordered_pair fs xs -> Forall2 ordered_pair fs ys -> xs = ys.
Proof.
  intros H. revert ys. induction H as [|f x fs xs Hf H IH]; intros ys H'; inversion H'; subst; [reflexivity|]. f_equal; [eapply ordered_pair_fun; eauto|auto].
Qed.

Lemma pairs_sorted fs : Forall (fun f => List.length (fa_indices f) = 2) fs -> Forall2 ordered_pair fs (map (fun f => sort_indices (fa_indices f)) fs).
Proof. induction 1 as [|f fs H F IH]; constructor; [now apply sort_pair|exact IH]. Qed.

Definition is_pair (p : list tindex) : Prop := List.length p = 2.

Lemma pick_eq (a b : tindex) (z : mapping) : (a = b -> z = []) -> (a <> b -> z = [(a, b)]) -> z = if tindex_eqb a b then [] else [(a, b)].
Proof.
  intros H1 H2. destruct (tindex_eqb a b) eqn:E; [apply H1; now apply tindex_decides|]. apply H2. intros X. apply tindex_decides in X. congruence.
Qed.

Lemma moves_renames p : forall q, Forall is_pair p -> Forall is_pair q ->
  exists ms, mapM (fun pq => moves (fst pq) (snd pq)) (combine p q) = Ok ms /\ renames p q (concat ms) /\ forall m, renames p q m -> m = concat ms.
Proof.
  induction p as [|x p IH]; intros q Hp Hq.
  - exists []. split; [reflexivity|]. split; [constructor|]. intros m R. inversion R; reflexivity.
  - destruct q as [|y q].
    + exists []. split; [reflexivity|]. split; [constructor|]. intros m R. inversion R; reflexivity.
    + apply Forall_cons_iff in Hp as [X Hp]. apply Forall_cons_iff in Hq as [Y Hq]. unfold is_pair in X, Y.
      destruct x as [|i [|j [|? ?]]]; try discriminate X. destruct y as [|k [|l [|? ?]]]; try discriminate Y.
      destruct (IH q Hp Hq) as (ms & E & R & U). cbn [combine mapM fst snd moves bind]. rewrite E. cbn [bind].
      eexists. split; [reflexivity|].
      assert (W : forall a b, (a = b -> (if tindex_eqb a b then [] else [(a, b)]) = []) /\ (a <> b -> (if tindex_eqb a b then [] else [(a, b)]) = [(a, b)])).
      { intros a b. destruct (tindex_eqb a b) eqn:Eab; split; intros H; try reflexivity; [apply tindex_decides in Eab; contradiction|apply tindex_decides in H; congruence]. }
      cbn [concat]. rewrite <- app_assoc. split.
      * constructor; try apply W. exact R.
      * intros m R'. inversion R' as [| |? ? ? ? ? ? ij jl m' H1 H2 H3 H4 R'']; subst. rewrite (U _ R'').
        now rewrite (pick_eq i k ij H1 H2), (pick_eq j l jl H3 H4).
Qed.

Lemma mapM_all {A B} (f : A -> res B) (g : A -> B) l : (forall x, In x l -> f x = Ok (g x)) -> mapM f l = Ok (map g l).
Proof.
  induction l as [|x l IH]; intros H; [reflexivity|]. cbn [mapM map]. rewrite (H x (or_introl eq_refl)). cbn [bind]. rewrite IH; [reflexivity|]. intros y I. apply H. now right.
Qed.

Lemma mapM_fails {A B} (f : A -> res B) e l : (forall x, In x l -> f x = Err e \/ exists b, f x = Ok b) -> (exists x, In x l /\ f x = Err e) -> mapM f l = Err e.
Proof.
  induction l as [|x l IH]; intros H (y & I & E); [destruct I|]. cbn [mapM]. destruct (H x (or_introl eq_refl)) as [->|(b & Eb)]; [reflexivity|].
  destruct I as [->|I]; [congruence|]. rewrite Eb. cbn [bind]. rewrite IH; [reflexivity| |now exists y]. intros z Iz. apply H. now right.
Qed.

(** [extract_relabellings] lists, for every way to match the pairs, what has to be renamed; it raises ValueError when some
    symbol has not two indices. *)
Theorem C94_extract :
  forall x y,
    (Forall (fun f => List.length (fa_indices f) = 2) (x ++ y) -> exists ms xs ys,
       extract_relabellings x y = Ok ms /\ Forall2 ordered_pair x xs /\ Forall2 ordered_pair y ys /\
       List.length ms = fact (List.length x) /\ forall m, In m ms <-> exists p, Permutation xs p /\ renames p ys m) /\
    ((exists f, In f x /\ List.length (fa_indices f) <> 2) -> y <> [] -> extract_relabellings x y = Err ValueError).
Proof.
  intros x y. split.
  - intros H. apply Forall_app in H as [Hx Hy]. pose proof (pairs_sorted x Hx) as Px. pose proof (pairs_sorted y Hy) as Py.
    unfold extract_relabellings. set (xs := map (fun f => sort_indices (fa_indices f)) x) in *. set (ys := map (fun f => sort_indices (fa_indices f)) y) in *.
    assert (Lp : forall fs ps, Forall2 ordered_pair fs ps -> Forall is_pair ps).
    { induction 1 as [|f q fs qs (i & j & -> & _) F IH]; constructor; [reflexivity|exact IH]. }
    assert (G : forall p, In p (permutations xs) -> exists ms, mapM (fun pq => moves (fst pq) (snd pq)) (combine p ys) = Ok ms /\ renames p ys (concat ms) /\ forall m, renames p ys m -> m = concat ms).
    { intros p I. apply permutations_spec in I. apply moves_renames; [|exact (Lp _ _ Py)]. eapply Permutation_Forall; [exact I|exact (Lp _ _ Px)]. }
    set (h := fun p => match mapM (fun pq => moves (fst pq) (snd pq)) (combine p ys) with Ok ms => concat ms | Err _ => [] end).
    exists (map h (permutations xs)), xs, ys. split.
    + apply mapM_all. intros p I. destruct (G p I) as (ms & E & _). unfold h. now rewrite E.
    + split; [exact Px|]. split; [exact Py|]. split.
      * rewrite map_length, permutations_count. unfold xs. now rewrite map_length.
      * intros m. rewrite in_map_iff. split.
        -- intros (p & <- & I). destruct (G p I) as (ms & E & R & _). exists p. split; [now apply permutations_spec|]. unfold h. now rewrite E.
        -- intros (p & Pm & R). exists p. apply permutations_spec in Pm. split; [|exact Pm]. destruct (G p Pm) as (ms & E & _ & U). unfold h. rewrite E. symmetry. now apply U.
  - intros (f & I & L) Ny. unfold extract_relabellings. set (ys := map (fun f => sort_indices (fa_indices f)) y) in *.
    assert (M1 : forall pq : list tindex * list tindex, moves (fst pq) (snd pq) = Err ValueError \/ exists b, moves (fst pq) (snd pq) = Ok b).
    { intros [[|i [|j [|? ?]]] [|k [|k' [|? ?]]]]; cbn [moves fst snd]; eauto. }
    apply mapM_fails.
    + intros p _. destruct (mapM (fun pq => moves (fst pq) (snd pq)) (combine p ys)) as [ms|e] eqn:E; [right; eexists; reflexivity|].
      left. cbn [bind]. f_equal. clear - E M1. revert E. generalize (combine p ys). induction l as [|z l IH]; cbn [mapM]; [discriminate|].
      destruct (M1 z) as [X|(b & X)]; rewrite X; cbn [bind]; [now injection 1|]. destruct (mapM (fun pq => moves (fst pq) (snd pq)) l); cbn [bind]; [discriminate|auto].
    + apply in_split in I as (a & b & ->). exists (sort_indices (fa_indices f) :: map (fun f => sort_indices (fa_indices f)) (a ++ b)). split.
      * apply permutations_spec. change (sort_indices (fa_indices f) :: map (fun f => sort_indices (fa_indices f)) (a ++ b)) with (map (fun f => sort_indices (fa_indices f)) (f :: a ++ b)).
        apply Permutation_map. symmetry. apply Permutation_middle.
      * subst ys. destruct y as [|y0 y]; [congruence|]. cbn [map combine mapM fst snd].
        assert (Ls : List.length (sort_indices (fa_indices f)) <> 2) by (unfold sort_indices; rewrite sort_length; exact L).
        destruct (sort_indices (fa_indices f)) as [|i1 [|j1 [|i2 j2]]]; cbn [List.length] in Ls; try congruence; reflexivity.
Qed.

(** Doing a listed renaming all at once turns the pairs of [x] into those of [y], when no index of [x] occurs twice. *)
Lemma renamed_other m i : (forall k, ~ In (i, k) m) -> renamed m i = i.
Proof.
  induction m as [|[j k] m IH]; intros H; [reflexivity|]. cbn [renamed]. destruct (tindex_eqb j i) eqn:E.
  - apply tindex_decides in E as ->. exfalso. apply (H k). now left.
  - apply IH. intros l I. apply (H l). now right.
Qed.

Lemma renames_source p q m : renames p q m -> forall i k, In (i, k) m -> In i (concat p).
Proof.
  induction 1 as [q|p|i j k l p q ij jl m H1 H2 H3 H4 R IH]; intros a b I; try destruct I. rewrite !in_app_iff in I. cbn [concat app In].
  destruct I as [I|[I|I]]; [| |right; right; eauto].
  - rewrite (pick_eq i k ij H1 H2) in I. destruct (tindex_eqb i k); [destruct I|]. destruct I as [E|[]]. injection E as -> _. now left.
  - rewrite (pick_eq j l jl H3 H4) in I. destruct (tindex_eqb j l); [destruct I|]. destruct I as [E|[]]. injection E as -> _. right. now left.
Qed.

Lemma renamed_app a b i : (forall k, ~ In (i, k) a) -> renamed (a ++ b) i = renamed b i.
Proof.
  induction a as [|[j k] a IH]; intros H; [reflexivity|]. cbn [app renamed]. destruct (tindex_eqb j i) eqn:E.
  - apply tindex_decides in E as ->. exfalso. apply (H k). now left.
  - apply IH. intros l I. apply (H l). now right.
Qed.

Theorem C94_renaming : forall p q m, renames p q m -> List.length p = List.length q -> NoDup (concat p) -> map (map (renamed m)) p = q.
Proof.
  intros p q m R. induction R as [q|p|i j k l p q ij jl m H1 H2 H3 H4 R IH]; intros L N; [destruct q; [reflexivity|discriminate]|destruct p; [reflexivity|discriminate]|].
  cbn [List.length] in L. injection L as L. cbn [concat app] in N. apply NoDup_cons_iff in N as [Ni N]. apply NoDup_cons_iff in N as [Nj N]. cbn [In] in Ni.
  pose proof (pick_eq i k ij H1 H2) as Eij. pose proof (pick_eq j l jl H3 H4) as Ejl. clear H1 H2 H3 H4.
  assert (Sm := renames_source p q m R).
  assert (Hij : forall a b, In (a, b) ij -> a = i). { intros a b I. rewrite Eij in I. destruct (tindex_eqb i k); [destruct I|]. destruct I as [E|[]]. now injection E. }
  assert (Hjl : forall a b, In (a, b) jl -> a = j). { intros a b I. rewrite Ejl in I. destruct (tindex_eqb j l); [destruct I|]. destruct I as [E|[]]. now injection E. }
  cbn [map]. f_equal; [f_equal; [|f_equal]|].
  - rewrite Eij. destruct (tindex_eqb i k) eqn:E.
    + apply tindex_decides in E as <-. cbn [app]. apply renamed_other. intros b I. apply in_app_iff in I as [I|I]; [apply Hjl in I; apply Ni; now left|apply Sm in I; apply Ni; now right].
    + cbn [app renamed]. now rewrite (proj2 (tindex_decides i i) eq_refl).
  - rewrite renamed_app by (intros b I; apply Hij in I; apply Ni; left; congruence). rewrite Ejl. destruct (tindex_eqb j l) eqn:E.
    + apply tindex_decides in E as <-. cbn [app]. apply renamed_other. intros b I. apply Sm in I. contradiction.
    + cbn [app renamed]. now rewrite (proj2 (tindex_decides j j) eq_refl).
  - rewrite <- IH by assumption. apply map_ext_in. intros x Ix. apply map_ext_in. intros a Ia.
    assert (Ic : In a (concat p)) by (apply in_concat; eauto).
    rewrite renamed_app by (intros b I; apply Hij in I; subst; apply Ni; now right). apply renamed_app. intros b I. apply Hjl in I. subst. contradiction.
Qed.

(** ** identical fields *)

Definition apart (g g' : list factor) : Prop := forall x y, In x g -> In y g' -> fa_head x <> fa_head y.

Lemma runs_sorted l : StronglySorted (fun x y => str_leb (fa_head x) (fa_head y) = true) l ->
  concat (runs l) = l /\ Forall (fun g => exists x t, g = x :: t /\ Forall (fun f => fa_head f = fa_head x) g) (runs l) /\ ForallOrdPairs apart (runs l).
Proof.
  induction 1 as [|x l S (C & G & O) F]; [repeat split; constructor|]. cbn [runs]. destruct (runs l) as [|[|y g] gs].
  - cbn [concat] in C. subst l. split; [reflexivity|]. split; repeat constructor. exists x, []. repeat constructor.
  - exfalso. apply Forall_inv in G as (z & t & E & _). discriminate.
  - apply Forall_cons_iff in G as [(z & t & E & Gz) G]. injection E as <- <-. inversion O as [|? ? O1 O2]; subst. clear O.
    destruct (str_eqb (fa_head x) (fa_head y)) eqn:Exy.
    + apply str_decides in Exy. split; [reflexivity|]. split.
      * constructor; [|exact G]. exists x, (y :: g). split; [reflexivity|]. constructor; [reflexivity|]. eapply Forall_impl; [|exact Gz]. cbv beta. congruence.
      * constructor; [|exact O2]. eapply Forall_impl; [|exact O1]. intros g' A a b [<-|Ia] Ib; [rewrite Exy; apply (A y b); [now left|exact Ib]|now apply A].
    + split; [reflexivity|]. split.
      * constructor; [exists x, []; repeat constructor|]. constructor; [exists y, g; split; [reflexivity|exact Gz]|exact G].
      * assert (Nx : forall b, In b (concat ((y :: g) :: gs)) -> fa_head x <> fa_head b).
        { intros b Ib E. cbn [concat app] in S, F, Ib. apply StronglySorted_inv in S as [_ Sy]. apply Forall_cons_iff in F as [Fy _].
          assert (K : fa_head x = fa_head y); [|apply str_decides in K; congruence]. destruct Ib as [<-|Ib]; [exact E|]. rewrite Forall_forall in Sy. specialize (Sy b Ib).
          apply str_leb_antisym; [exact Fy|]. rewrite E. exact Sy. }
        constructor; [|constructor; assumption]. apply Forall_forall. intros g' Ig a b [<-|[]] Ib. apply Nx. apply in_concat. eauto.
Qed.

Lemma group_filter gs : Forall (fun g => exists x t, g = x :: t /\ Forall (fun f => fa_head f = fa_head x) g) gs -> ForallOrdPairs apart gs ->
  forall g, In g gs <-> exists h, g = filter (fun f => str_eqb (fa_head f) h) (concat gs) /\ g <> [].
Proof.
  assert (None0 : forall h (l : list factor), (forall y, In y l -> fa_head y <> h) -> filter (fun f => str_eqb (fa_head f) h) l = []).
  { intros h l H. induction l as [|y l IH]; [reflexivity|]. cbn [filter]. destruct (str_eqb (fa_head y) h) eqn:E; [apply str_decides in E; exfalso; apply (H y); [now left|exact E]|]. apply IH. intros z I. apply H. now right. }
  assert (All0 : forall h (l : list factor), Forall (fun y => fa_head y = h) l -> filter (fun f => str_eqb (fa_head f) h) l = l).
  { intros h l H. induction H as [|y l E H IH]; [reflexivity|]. cbn [filter]. rewrite (proj2 (str_decides _ _) E). now rewrite IH. }
  intros G O. revert G. induction O as [|g0 gs A O IH]; intros G g; [cbn; split; [intros []|intros (h & -> & N); now apply N]|].
  apply Forall_cons_iff in G as [(x & t & E0 & Hg) G]. specialize (IH G). cbn [concat In]. rewrite Forall_forall in A.
  assert (Ap : forall a b, In a g0 -> In b (concat gs) -> fa_head a <> fa_head b). { intros a b Ia Ib. apply in_concat in Ib as (g' & Ig & Ib). now apply (A g' Ig). }
  assert (Ix : In x g0) by (rewrite E0; now left).
  split.
  - intros [<-|I].
    + exists (fa_head x). rewrite filter_app, (All0 _ _ Hg), None0, app_nil_r; [split; [reflexivity|rewrite E0; discriminate]|]. intros y Iy E. now apply (Ap x y Ix Iy).
    + destruct (proj1 (IH g) I) as (h & E & N). exists h. split; [|exact N]. rewrite filter_app, <- E, None0; [reflexivity|]. intros y Iy Ey.
      destruct g as [|z g]; [congruence|]. assert (Iz : In z (filter (fun f => str_eqb (fa_head f) h) (concat gs))) by (rewrite <- E; now left).
      apply filter_In in Iz as [Iz Ez]. apply str_decides in Ez. apply (Ap y z Iy Iz). congruence.
  - intros (h & E & N). rewrite filter_app in E. destruct (str_eqb (fa_head x) h) eqn:Eh.
    + apply str_decides in Eh. subst h. left. rewrite (All0 _ _ Hg), (None0 _ (concat gs)), app_nil_r in E; [congruence|]. intros y Iy Ey. now apply (Ap x y Ix Iy).
    + right. apply IH. exists h. split; [|exact N]. rewrite E, None0; [reflexivity|]. intros y Iy Ey. rewrite Forall_forall in Hg. rewrite (Hg y Iy) in Ey. apply str_decides in Ey. congruence.
Qed.

Lemma duplicate_spec args i j : existsb (fun v => mem_t i v && mem_t j v) (duplicate_fields args) = true <-> exchangeable args i j.
Proof.
  assert (Mt : forall i v, mem_t i v = true <-> In i v).
  { intros a v. unfold mem_t. rewrite existsb_exists. split; [intros (x & I & E); apply tindex_decides in E; now subst|]. intros I. exists a. split; [exact I|now apply tindex_decides]. }
  set (l := filter (fun f => negb (starts "Eps" (fa_text f))) args).
  assert (Srt : StronglySorted (fun x y => str_leb (fa_head x) (fa_head y) = true) (sort_factors l)).
  { unfold sort_factors. apply (sort_sorted (fun x y => str_leb (fa_head x) (fa_head y))); [intros; apply str_leb_total|intros x y z; apply str_leb_trans]. }
  destruct (runs_sorted _ Srt) as (C & G & O). pose proof (group_filter _ G O) as Gf. rewrite C in Gf.
  assert (St : forall h, filter (fun f => str_eqb (fa_head f) h) (sort_factors l) = filter (fun f => str_eqb (fa_head f) h) l).
  { intros h. unfold sort_factors. apply sort_stable. intros x y Ex Ey. apply str_decides in Ex, Ey. rewrite Ex, Ey. destruct (str_leb_total h h); assumption. }
  assert (Sel : forall h, selected (fun f => ~ begins "Eps" (fa_text f) /\ fa_head f = h) args (filter (fun f => str_eqb (fa_head f) h) l)).
  { intros h. unfold l. rewrite filter_filter. apply filter_selected. intros f. rewrite andb_true_iff, negb_true_iff. rewrite <- starts_begins. rewrite (str_decides (fa_head f) h).
    destruct (starts "Eps" (fa_text f)); intuition congruence. }
  unfold duplicate_fields. fold l. rewrite existsb_exists. split.
  - intros (v & I & E). apply andb_true_iff in E as [Ei Ej]. apply Mt in Ei, Ej. apply in_map_iff in I as (g & <- & I). apply filter_In in I as [I L]. apply Nat.ltb_lt in L.
    apply Gf in I as (h & Eg & _). rewrite St in Eg. exists h, g. split; [rewrite Eg; apply Sel|]. split; [exact L|].
    split; [apply in_concat in Ei as (x & Ix & Ek)|apply in_concat in Ej as (x & Ix & Ek)]; apply in_map_iff in Ix as (f & <- & If); exists f; auto.
  - intros (h & same & S & L & (f & If & Ii) & (f' & If' & Ij)). pose proof (selected_fun _ _ _ S _ (Sel h)) as ->. set (g := filter (fun f => str_eqb (fa_head f) h) l) in *.
    exists (concat (map fa_indices g)). split.
    + apply in_map_iff. exists g. split; [reflexivity|]. apply filter_In. split; [|now apply Nat.ltb_lt]. apply Gf. exists h. split; [now rewrite St|]. intros E. rewrite E in L. cbn in L. lia.
    + apply andb_true_iff. split; apply Mt; apply in_concat; [exists (fa_indices f)|exists (fa_indices f')]; (split; [now apply in_map|assumption]).
Qed.

Section Compare.
  Variables (args : operator -> list factor) (nocoeff_eqb : operator -> operator -> bool).

  Lemma identity_spec m op : is_identity_mapping args m op = true <-> harmless (args op) m.
  Proof using Type.
    unfold is_identity_mapping, harmless. rewrite forallb_forall. split.
    - intros H i j I. specialize (H (i, j) I). cbn [fst snd] in H. apply orb_true_iff in H as [H|H]; [apply andb_true_iff in H; now left|right; now apply duplicate_spec].
    - intros H [i j] I. cbn [fst snd]. apply orb_true_iff. destruct (H i j I) as [[-> ->]|X]; [now left|right; now apply duplicate_spec].
  Qed.

  Lemma choices_in {A} (l : list (list A)) c : In c (choices l) <-> Forall2 (fun x xs => In x xs) c l.
  Proof using Type.
    revert c. induction l as [|xs l IH]; intros c; cbn [choices].
    - split; [intros [<-|[]]; constructor|]. intros F. inversion F. now left.
    - rewrite in_flat_map. split.
      + intros (x & Ix & I). apply in_map_iff in I as (c' & <- & I). constructor; [exact Ix|now apply IH].
      + intros F. inversion F as [|x ? c' ? Ix F']; subst. exists x. split; [exact Ix|]. apply in_map. now apply IH.
  Qed.

  Lemma harmless_concat a ms : harmless a (concat ms) <-> Forall (harmless a) ms.
  Proof using Type.
    unfold harmless. rewrite Forall_forall. split.
    - intros H m Im i j I. apply H. apply in_concat. eauto.
    - intros H i j I. apply in_concat in I as (m & Im & I). eapply H; eauto.
  Qed.

  Definition pairs_only (gs : list (list factor)) : Prop := Forall (Forall (fun f => List.length (fa_indices f) = 2)) gs.

  Lemma relabellings_spec ls : forall rs, pairs_only ls -> pairs_only rs -> exists rel, mapM (fun lr => extract_relabellings (fst lr) (snd lr)) (combine ls rs) = Ok rel /\
    forall ms, Forall2 (fun m xs => In m xs) ms rel <->
      Forall2 (fun lr m => exists xs p ys, Forall2 ordered_pair (fst lr) xs /\ Permutation xs p /\ Forall2 ordered_pair (snd lr) ys /\ renames p ys m) (combine ls rs) ms.
  Proof using Type.
    induction ls as [|x ls IH]; intros rs Pl Pr.
    - exists []. split; [reflexivity|]. intros ms. split; intros F; inversion F; constructor.
    - destruct rs as [|y rs]; [exists []; split; [reflexivity|]; intros ms; split; intros F; inversion F; constructor|].
      apply Forall_cons_iff in Pl as [Px Pl]. apply Forall_cons_iff in Pr as [Py Pr]. destruct (IH rs Pl Pr) as (rel & E & R).
      destruct (proj1 (C94_extract x y)) as (ms0 & xs & ys & E0 & Fx & Fy & _ & M). { now apply Forall_app. }
      exists (ms0 :: rel). cbn [combine mapM fst snd]. rewrite E0. cbn [bind]. rewrite E. split; [reflexivity|]. intros ms. split; intros F; inversion F as [|a ? b ? H1 H2]; subst.
      + constructor; [|now apply R]. cbn [fst snd]. apply M in H1 as (p & Pm & Rn). exists xs, p, ys. auto.
      + cbn [fst snd] in H1. constructor; [|now apply R]. destruct H1 as (xs' & p & ys' & Fx' & Pm & Fy' & Rn). apply M. exists p.
        rewrite (pairs_fun _ _ _ Fx Fx'), (pairs_fun _ _ _ Fy Fy'). auto.
  Qed.

  (** What [compare_singlets] and [exists_identity_mapping] make of two operators. *)
  Theorem C94_compare :
    forall left right ls rs,
      structures_by_type (args left) ls -> structures_by_type (args right) rs ->
      (nocoeff_eqb left right = true -> same_up_to args nocoeff_eqb left right = Err TypeError) /\
      (nocoeff_eqb left right = false -> List.length ls <> List.length rs -> same_up_to args nocoeff_eqb left right = Err AssertionError) /\
      (nocoeff_eqb left right = false -> ls = [] -> rs = [] -> same_up_to args nocoeff_eqb left right = Err TypeError) /\
      (nocoeff_eqb left right = false -> List.length ls = List.length rs -> ls <> [] -> pairs_only ls -> pairs_only rs ->
         exists b, same_up_to args nocoeff_eqb left right = Ok b /\ (b = true <-> matched (args left) ls rs)).
  Proof using Type.
    intros left right ls rs Sl Sr.
    pose proof (structures_fun _ _ _ Sl (C94_structures (args left))) as El. pose proof (structures_fun _ _ _ Sr (C94_structures (args right))) as Er.
    unfold same_up_to, compare_singlets. rewrite <- El, <- Er. clear El Er. split; [|split; [|split]].
    - intros ->. reflexivity.
    - intros -> N. apply Nat.eqb_neq in N. rewrite N. reflexivity.
    - intros -> El Er. rewrite El, Er. reflexivity.
    - intros -> L Nl Pl Pr. rewrite L, Nat.eqb_refl. cbn [assert_ bind]. destruct (relabellings_spec ls rs Pl Pr) as (rel & E & R). rewrite E. cbn [bind].
      assert (Nr : rel <> []). { intros ->. destruct ls; [congruence|]. destruct rs; [discriminate L|]. apply mapM_Forall2 in E. inversion E. }
      destruct rel as [|r0 rel]; [congruence|]. cbn [bind exists_identity_mapping]. eexists. split; [reflexivity|]. rewrite existsb_exists. unfold matched. split.
      + intros (m & I & Hm). apply in_map_iff in I as (ms & <- & I). apply choices_in in I. apply identity_spec, harmless_concat in Hm. exists ms. split; [now apply R|exact Hm].
      + intros (ms & F & H). exists (concat ms). split; [|now apply identity_spec, harmless_concat]. apply in_map_iff. exists ms. split; [reflexivity|]. apply choices_in. now apply R.
  Qed.

  (** ** removing relabellings *)

  Section Removed.
    Variable same : operator -> operator -> bool.

    Lemma compare_later_ok op later : forall j removed, (forall o, In o later -> same_up_to args nocoeff_eqb op o = Ok (same op o)) ->
      exists r, compare_later args nocoeff_eqb op j later removed = Ok r /\
        forall k, In k r <-> In k removed \/ exists o, nth_error later (k - j) = Some o /\ j <= k /\ same op o = true.
    Proof using Type.
      induction later as [|o later IH]; intros j removed H; cbn [compare_later].
      - exists removed. split; [reflexivity|]. intros k. split; [now left|]. intros [X|(o & E & _)]; [exact X|]. destruct (k - j); discriminate.
      - rewrite (H o (or_introl eq_refl)). cbn [bind]. destruct (IH (S j) (if same op o then j :: removed else removed)) as (r & E & R). { intros x I. apply H. now right. }
        exists r. split; [exact E|]. intros k. rewrite R. split.
        + intros [X|(x & E1 & L & Sx)].
          * destruct (same op o) eqn:So; [|now left]. destruct X as [<-|X]; [|now left]. right. exists o. rewrite Nat.sub_diag. cbn [nth_error]. auto.
          * right. exists x. replace (k - j) with (S (k - S j)) by lia. cbn [nth_error]. repeat split; auto. lia.
        + intros [X|(x & E1 & L & Sx)]; [left; destruct (same op o); [now right|exact X]|].
          destruct (Nat.eq_dec k j) as [->|N].
          * rewrite Nat.sub_diag in E1. injection E1 as <-. rewrite Sx. left. now left.
          * right. exists x. replace (k - j) with (S (k - S j)) in E1 by lia. cbn [nth_error] in E1. repeat split; auto. lia.
    Qed.

    Lemma compare_from_ok ops : forall i removed, ForallOrdPairs (fun a b => same_up_to args nocoeff_eqb a b = Ok (same a b)) ops ->
      exists r, compare_from args nocoeff_eqb i ops removed = Ok r /\
        forall k, In k r <-> In k removed \/ exists a b p q, nth_error ops p = Some a /\ nth_error ops q = Some b /\ p < q /\ k = i + q /\ same a b = true.
    Proof using Type.
      induction ops as [|op ops IH]; intros i removed H; cbn [compare_from].
      - exists removed. split; [reflexivity|]. intros k. split; [now left|]. intros [X|(a & b & p & q & E & _)]; [exact X|]. destruct p; discriminate.
      - inversion H as [|? ? H1 H2]; subst. rewrite Forall_forall in H1. destruct (compare_later_ok op ops (S i) removed H1) as (r1 & E1 & R1). rewrite E1. cbn [bind].
        destruct (IH (S i) r1 H2) as (r & E & R). exists r. split; [exact E|]. intros k. rewrite R, R1. split.
        + intros [[X|(o & En & L & So)]|(a & b & p & q & Ea & Eb & L & -> & Sab)].
          * now left.
          * right. exists op, o, 0, (S (k - S i)). cbn [nth_error]. repeat split; auto; lia.
          * right. exists a, b, (S p), (S q). cbn [nth_error]. repeat split; auto; lia.
        + intros [X|(a & b & p & q & Ea & Eb & L & -> & Sab)]; [now left; left|]. destruct q as [|q]; [lia|]. cbn [nth_error] in Eb. destruct p as [|p].
          * cbn [nth_error] in Ea. injection Ea as <-. left. right. exists b. replace (i + S q - S i) with q by lia. repeat split; auto. lia.
          * cbn [nth_error] in Ea. right. exists a, b, p, q. repeat split; auto; lia.
    Qed.

    Lemma keep_picked (P : nat -> operator -> Prop) removed (ops : list operator) : forall n, (forall k x, nth_error ops k = Some x -> (P (n + k) x <-> ~ In (n + k) removed)) ->
      picked P n ops (map snd (filter (fun io => negb (existsb (Nat.eqb (fst io)) removed)) (combine (seq n (List.length ops)) ops))).
    Proof using Type.
      induction ops as [|op ops IH]; intros n H; [constructor|]. cbn [List.length seq combine filter fst]. pose proof (H 0 op eq_refl) as H0. rewrite Nat.add_0_r in H0.
      assert (IH' := IH (S n)). assert (X : forall k x, nth_error ops k = Some x -> (P (S n + k) x <-> ~ In (S n + k) removed)).
      { intros k x E. replace (S n + k) with (n + S k) by lia. now apply H. }
      specialize (IH' X). destruct (existsb (Nat.eqb n) removed) eqn:E; cbn [negb map snd].
      - apply pk_skip; [|exact IH']. intros Y. apply H0 in Y. apply Y. apply existsb_exists in E as (y & I & Ey). apply Nat.eqb_eq in Ey. now subst.
      - apply pk_take; [|exact IH']. apply H0. intros Y. assert (Z : existsb (Nat.eqb n) removed = true) by (apply existsb_exists; exists n; split; [exact Y|apply Nat.eqb_refl]). congruence.
    Qed.
  End Removed.

  Lemma ordpairs_nth {A} (R : A -> A -> Prop) l : ForallOrdPairs R l <-> forall i j a b, nth_error l i = Some a -> nth_error l j = Some b -> i < j -> R a b.
  Proof using Type.
    split.
    - induction 1 as [|x l F O IH]; intros i j a b Ea Eb L; [destruct i; discriminate|]. destruct j as [|j]; [lia|]. cbn [nth_error] in Eb. destruct i as [|i].
      + injection Ea as <-. rewrite Forall_forall in F. apply F. now apply nth_error_In in Eb.
      + apply (IH i j); auto. lia.
    - induction l as [|x l IH]; intros H; constructor.
      + apply Forall_forall. intros y I. apply In_nth_error in I as (j & E). apply (H 0 (S j)); auto. lia.
      + apply IH. intros i j a b Ea Eb L. apply (H (S i) (S j)); auto. lia.
  Qed.

  (** [remove_relabellings]: an operator is removed when one before it matches it, whether or not that one stays. *)
  Theorem C94_remove :
    forall ops n, 0 < n ->
      Forall (fun op => exists gs, structures_by_type (args op) gs /\ List.length gs = n /\ pairs_only gs) ops ->
      ForallOrdPairs (fun a b => nocoeff_eqb a b = false) ops ->
      exists kept, remove_relabellings args nocoeff_eqb ops = Ok kept /\
        picked (fun j op => forall i earlier ls rs, i < j -> nth_error ops i = Some earlier -> structures_by_type (args earlier) ls -> structures_by_type (args op) rs ->
                            ~ matched (args earlier) ls rs) 0 ops kept.
  Proof using Type.
    intros ops n Hn Hs Hq. rewrite Forall_forall in Hs.
    set (same := fun a b => match same_up_to args nocoeff_eqb a b with Ok b => b | Err _ => false end).
    assert (Sm : forall a b ls rs, In a ops -> In b ops -> nocoeff_eqb a b = false -> structures_by_type (args a) ls -> structures_by_type (args b) rs ->
              same_up_to args nocoeff_eqb a b = Ok (same a b) /\ (same a b = true <-> matched (args a) ls rs)).
    { intros a b ls rs Ia Ib Nq Sa Sb. destruct (Hs a Ia) as (ga & Ga & La & Pa). destruct (Hs b Ib) as (gb & Gb & Lb & Pb).
      pose proof (structures_fun _ _ _ Sa Ga) as ->. pose proof (structures_fun _ _ _ Sb Gb) as ->.
      destruct (C94_compare a b ga gb Ga Gb) as (_ & _ & _ & H). destruct H as (x & E & Hx); try assumption; [congruence|intros ->; cbn in La; lia|]. unfold same. rewrite E. auto. }
    assert (Op : ForallOrdPairs (fun a b => same_up_to args nocoeff_eqb a b = Ok (same a b)) ops).
    { apply ordpairs_nth. intros i j a b Ea Eb L. apply nth_error_In in Ea as Ia. apply nth_error_In in Eb as Ib. destruct (Hs a Ia) as (ga & Ga & _). destruct (Hs b Ib) as (gb & Gb & _).
      apply (Sm a b ga gb Ia Ib); auto. rewrite ordpairs_nth in Hq. eapply Hq; eauto. }
    destruct (compare_from_ok same ops 0 [] Op) as (removed & E & R). unfold remove_relabellings. rewrite E. cbn [bind]. eexists. split; [reflexivity|].
    apply keep_picked. intros k x Ex. cbn [Nat.add]. rewrite R. split.
    - intros H [[]|(a & b & p & q & Ea & Eb & L & -> & Sab)]. rewrite Nat.add_0_l in *. assert (x = b) by congruence. subst b. apply nth_error_In in Ea as Ia. apply nth_error_In in Eb as Ib.
      destruct (Hs a Ia) as (ga & Ga & _). destruct (Hs x Ib) as (gb & Gb & _). apply (H p a ga gb L Ea Ga Gb). apply (Sm a x ga gb Ia Ib); auto. rewrite ordpairs_nth in Hq. eapply Hq; eauto.
    - intros H i a ls rs L Ea Sa Sx M. apply H. right. exists a, x, i, k. repeat split; auto. apply nth_error_In in Ea as Ia. apply nth_error_In in Ex as Ix.
      apply (Sm a x ls rs Ia Ix); auto. rewrite ordpairs_nth in Hq. eapply Hq; eauto.
  Qed.

  (** Two operators that are equal up to a coefficient are not recognised but raise TypeError. *)
  Theorem C94_equal_raise :
    forall ops, (forall a b, In a ops -> In b ops -> nocoeff_eqb a b = false -> exists x, same_up_to args nocoeff_eqb a b = Ok x) ->
      (exists i j a b, i < j /\ nth_error ops i = Some a /\ nth_error ops j = Some b /\ nocoeff_eqb a b = true) ->
      remove_relabellings args nocoeff_eqb ops = Err TypeError.
  Proof using Type.
    intros ops H (i & j & a & b & L & Ea & Eb & Eq).
    assert (Te : forall a b, nocoeff_eqb a b = true -> same_up_to args nocoeff_eqb a b = Err TypeError) by (intros x y E; unfold same_up_to, compare_singlets; rewrite E; reflexivity).
    assert (La : forall op later k removed, (forall o, In o later -> nocoeff_eqb op o = true \/ exists x, same_up_to args nocoeff_eqb op o = Ok x) ->
      (exists o, In o later /\ nocoeff_eqb op o = true) -> compare_later args nocoeff_eqb op k later removed = Err TypeError).
    { intros op later. induction later as [|o later IH]; intros k removed Hl (o' & I & E); [destruct I|]. cbn [compare_later].
      destruct (nocoeff_eqb op o) eqn:Eo; [now rewrite Te|]. destruct (Hl o (or_introl eq_refl)) as [X|(x & X)]; [congruence|]. rewrite X. cbn [bind].
      apply IH; [intros z Iz; apply Hl; now right|]. destruct I as [->|I]; [congruence|]. now exists o'. }
    assert (Lo : forall op later k removed, (forall o, In o later -> exists x, same_up_to args nocoeff_eqb op o = Ok x) -> exists r, compare_later args nocoeff_eqb op k later removed = Ok r).
    { intros op later. induction later as [|o later IH]; intros k removed Hl; [eexists; reflexivity|]. cbn [compare_later]. destruct (Hl o (or_introl eq_refl)) as (x & ->). cbn [bind].
      apply IH. intros z Iz. apply Hl. now right. }
    assert (Lf : forall l k removed, (forall a b, In a l -> In b l -> nocoeff_eqb a b = false -> exists x, same_up_to args nocoeff_eqb a b = Ok x) ->
      (exists i j a b, i < j /\ nth_error l i = Some a /\ nth_error l j = Some b /\ nocoeff_eqb a b = true) -> compare_from args nocoeff_eqb k l removed = Err TypeError).
    { intros l. induction l as [|op l IH]; intros k removed Hl (i0 & j0 & a0 & b0 & L0 & Ea0 & Eb0 & Eq0); [destruct i0; discriminate|]. cbn [compare_from].
      assert (Hl' : forall o, In o l -> nocoeff_eqb op o = true \/ exists x, same_up_to args nocoeff_eqb op o = Ok x).
      { intros o Io. destruct (nocoeff_eqb op o) eqn:Eo; [now left|]. right. apply Hl; [now left|now right|exact Eo]. }
      destruct (existsb (nocoeff_eqb op) l) eqn:Ex.
      - apply existsb_exists in Ex as (o & Io & Eo). rewrite La; [reflexivity|exact Hl'|now exists o].
      - assert (Hno : forall o, In o l -> nocoeff_eqb op o = false).
        { intros o Io. destruct (nocoeff_eqb op o) eqn:Eo; [|reflexivity]. assert (Y : existsb (nocoeff_eqb op) l = true) by (apply existsb_exists; eauto). congruence. }
        destruct (Lo op l (S k) removed) as (r & ->). { intros o Io. apply Hl; [now left|now right|now apply Hno]. } cbn [bind].
        apply IH; [intros x y Ix Iy; apply Hl; now right|]. destruct j0 as [|j0]; [lia|]. destruct i0 as [|i0].
        + cbn [nth_error] in Ea0, Eb0. injection Ea0 as <-. apply nth_error_In in Eb0. rewrite (Hno b0 Eb0) in Eq0. discriminate.
        + exists i0, j0, a0, b0. repeat split; auto. lia. }
    unfold remove_relabellings. rewrite Lf; [reflexivity|exact H|]. exists i, j, a, b. auto.
  Qed.

  Section Clean.
    Variables (K : Type) (keqb : K -> K -> bool) (simplify : operator -> res (option K)).
    Hypothesis keqb_ok : forall a b, keqb a b = true <-> a = b.

    (** [clean_operators]: what does not vanish, the first of those that simplify to the same.  An operator that cannot be
        simplified is an error, the first one there is. *)
    Theorem C94_clean :
      forall ops,
        (Forall (fun op => exists k, simplify op = Ok k) ops ->
           exists kept, clean_operators K keqb simplify ops = Ok kept /\
             picked (fun i op => exists k, simplify op = Ok (Some k) /\ forall j earlier, j < i -> nth_error ops j = Some earlier -> simplify earlier <> Ok (Some k)) 0 ops kept) /\
        (forall a op b e, ops = a ++ op :: b -> Forall (fun op => exists k, simplify op = Ok k) a -> simplify op = Err e -> clean_operators K keqb simplify ops = Err e).
    Proof using keqb_ok.
      assert (Ex : forall k seen, existsb (keqb k) seen = true <-> In k seen).
      { intros k seen. rewrite existsb_exists. split; [intros (x & I & E); apply keqb_ok in E; now subst|]. intros I. exists k. split; [exact I|now apply keqb_ok]. }
      intros ops. split.
      - intros H. unfold clean_operators.
        assert (G : forall pre l seen, ops = pre ++ l -> (forall k, In k seen <-> exists j o, j < List.length pre /\ nth_error ops j = Some o /\ simplify o = Ok (Some k)) ->
          Forall (fun op => exists k, simplify op = Ok k) l ->
          exists kept, clean_from K keqb simplify seen l = Ok kept /\
            picked (fun i op => exists k, simplify op = Ok (Some k) /\ forall j earlier, j < i -> nth_error ops j = Some earlier -> simplify earlier <> Ok (Some k)) (List.length pre) l kept).
        { intros pre l. revert pre. induction l as [|op l IH]; intros pre seen E Hs Hl; [exists []; split; [reflexivity|constructor]|].
          apply Forall_cons_iff in Hl as [(k & Ek) Hl]. cbn [clean_from]. rewrite Ek. cbn [bind].
          assert (E' : ops = (pre ++ [op]) ++ l) by (rewrite <- app_assoc; exact E).
          assert (Ho : nth_error ops (List.length pre) = Some op) by (rewrite E, nth_error_app2, Nat.sub_diag by lia; reflexivity).
          assert (Lp : List.length (pre ++ [op]) = S (List.length pre)) by (rewrite app_length; cbn; lia).
          destruct k as [k|].
          - destruct (existsb (keqb k) seen) eqn:Es.
            + apply Ex, Hs in Es as (j0 & o0 & L0 & E0 & S0). destruct (IH (pre ++ [op]) seen E') as (kept & E1 & P1); [|exact Hl|].
              * intros k'. rewrite Hs, Lp. split; intros (j & o & L & Eo & So); [exists j, o; repeat split; auto; lia|]. destruct (Nat.eq_dec j (List.length pre)) as [->|N].
                -- assert (o = op) by congruence. subst o. assert (k' = k) by congruence. subst k'. exists j0, o0. auto.
                -- exists j, o. repeat split; auto. lia.
              * exists kept. split; [exact E1|]. rewrite Lp in P1. apply pk_skip; [|exact P1]. intros (k' & Ek' & Hk'). apply (Hk' j0 o0 L0 E0). congruence.
            + destruct (IH (pre ++ [op]) (k :: seen) E') as (kept & E1 & P1); [|exact Hl|].
              * intros k'. cbn [In]. rewrite Hs, Lp. split.
                -- intros [<-|(j & o & L & Eo & So)]; [exists (List.length pre), op; repeat split; auto|exists j, o; repeat split; auto; lia].
                -- intros (j & o & L & Eo & So). destruct (Nat.eq_dec j (List.length pre)) as [->|N]; [left; assert (o = op) by congruence; subst; congruence|right; exists j, o; repeat split; auto; lia].
              * exists (op :: kept). rewrite E1. split; [reflexivity|]. rewrite Lp in P1. apply pk_take; [|exact P1]. exists k. split; [exact Ek|]. intros j o L Eo So.
                assert (Y : existsb (keqb k) seen = true) by (apply Ex, Hs; exists j, o; auto). congruence.
          - destruct (IH (pre ++ [op]) seen E') as (kept & E1 & P1); [|exact Hl|].
            + intros k'. rewrite Hs, Lp. split; intros (j & o & L & Eo & So); [exists j, o; repeat split; auto; lia|]. destruct (Nat.eq_dec j (List.length pre)) as [->|N].
              * assert (o = op) by congruence. subst o. congruence.
              * exists j, o. repeat split; auto. lia.
            + exists kept. split; [exact E1|]. rewrite Lp in P1. apply pk_skip; [|exact P1]. intros (k' & Ek' & _). congruence. }
        apply (G [] ops []); [reflexivity| |exact H]. intros k. cbn [In List.length]. split; [intros []|intros (j & o & L & _); lia].
      - intros a op b e -> Ha Eo. unfold clean_operators. generalize (@nil K). induction Ha as [|x a (k & Ek) Ha IH]; intros seen; cbn [app clean_from].
        + rewrite Eo. reflexivity.
        + rewrite Ek. cbn [bind]. destruct k as [k|]; [|apply IH]. destruct (existsb (keqb k) seen); [apply IH|]. rewrite IH. reflexivity.
    Qed.

    Lemma clean_distinct ops : forall seen kept, clean_from K keqb simplify seen ops = Ok kept ->
      ForallOrdPairs (fun a b => forall k, simplify a = Ok (Some k) -> simplify b <> Ok (Some k)) kept /\
      Forall (fun op => In op ops /\ exists k, simplify op = Ok (Some k) /\ ~ In k seen) kept.
    Proof using keqb_ok.
      induction ops as [|op ops IH]; intros seen kept E; cbn [clean_from] in E; [injection E as <-; split; constructor|]. apply bind_ok in E as (k & Ek & E).
      assert (Up : forall seen' l, Forall (fun op0 => In op0 ops /\ exists k, simplify op0 = Ok (Some k) /\ ~ In k seen') l -> incl seen seen' ->
                   Forall (fun op0 => In op0 (op :: ops) /\ exists k, simplify op0 = Ok (Some k) /\ ~ In k seen) l).
      { intros seen' l F Inc. eapply Forall_impl; [|exact F]. intros o (I & k' & E1 & N). split; [now right|]. exists k'. split; [exact E1|]. intros X. apply N, Inc, X. }
      destruct k as [k|]; [|destruct (IH _ _ E) as [H1 H2]; split; [exact H1|apply (Up seen); [exact H2|apply incl_refl]]].
      destruct (existsb (keqb k) seen) eqn:Es; [destruct (IH _ _ E) as [H1 H2]; split; [exact H1|apply (Up seen); [exact H2|apply incl_refl]]|].
      apply bind_ok in E as (l & El & E). injection E as <-. destruct (IH _ _ El) as [H1 H2]. split.
      - constructor; [|exact H1]. eapply Forall_impl; [|exact H2]. intros o (_ & k' & E1 & N) k0 E0 E2. apply N. left. congruence.
      - constructor; [|apply (Up (k :: seen)); [exact H2|now right]]. split; [now left|]. exists k. split; [exact Ek|]. intros X.
        assert (Y : existsb (keqb k) seen = true) by (apply existsb_exists; exists k; split; [exact X|now apply keqb_ok]). congruence.
    Qed.

    (** [invariants] removes duplicates first; so if operators that are equal up to a coefficient simplify to the same, the
        error above does not occur. *)
    Theorem C94_invariants :
      forall irrep_product fields ignore s ops s' n,
        (forall a b k, nocoeff_eqb a b = true -> simplify a = Ok (Some k) -> simplify b = Ok (Some k)) ->
        unsimplified_invariants irrep_product fields ignore s = (Ok ops, s') ->
        Forall (fun op => exists k, simplify op = Ok k) ops ->
        exists clean, clean_operators K keqb simplify ops = Ok clean /\
          invariants args nocoeff_eqb K keqb simplify irrep_product fields ignore false s = (Ok clean, s') /\
          (0 < n -> Forall (fun op => exists gs, structures_by_type (args op) gs /\ List.length gs = n /\ pairs_only gs) ops ->
           exists kept, remove_relabellings args nocoeff_eqb clean = Ok kept /\
             invariants args nocoeff_eqb K keqb simplify irrep_product fields ignore true s = (Ok kept, s') /\ incl kept clean).
    Proof using keqb_ok.
      intros ip fields ignore s ops s' n Hq E Hs. destruct (proj1 (C94_clean ops) Hs) as (clean & Ec & P). exists clean. split; [exact Ec|]. unfold invariants. rewrite E. cbn [bind]. rewrite Ec. cbn [bind].
      split; [reflexivity|]. intros Hn Ho. destruct (clean_distinct ops [] clean Ec) as [D F].
      destruct (C94_remove clean n Hn) as (kept & Ek & Pk).
      - rewrite Forall_forall in Ho, F |- *. intros op I. apply Ho. now apply F.
      - apply ordpairs_nth. intros i j a b Ea Eb L. destruct (nocoeff_eqb a b) eqn:Eq; [|reflexivity]. exfalso. rewrite ordpairs_nth in D.
        rewrite Forall_forall in F. destruct (F a (nth_error_In _ _ Ea)) as (_ & k & Ka & _). exact (D i j a b Ea Eb L k Ka (Hq a b k Eq Ka)).
      - exists kept. rewrite Ek. split; [reflexivity|]. split; [reflexivity|]. clear - Pk. revert Pk. generalize 0 at 1. generalize clean at 1 as whole. intros whole n0 Pk.
        induction Pk as [m|m x l l' Hx Pk IH|m x l l' Hx Pk IH]; [intros y []| |].
        + intros y [<-|I]; [now left|right; now apply IH].
        + intros y I. right. now apply IH.
    Qed.
  End Clean.
End Compare.

(** ** Examples *)

(** factors as they are in the model, without sympy's renaming of contracted indices *)
Definition plain_args (op : operator) : list factor :=
  map (fun t => let idx := map (fun i => mkT (negb (existsb (opposite i) (op_indices op))) (ix_name i) (ix_type i) (ix_up i)) (tensor_indices t) in
                match t with
                | TField x => mkFactor (f_label (i_field x)) (f_label (i_field x)) idx
                | TSymbol (DeltaC _) => mkFactor (lit "KD") (lit "KD") idx
                | TSymbol _ => mkFactor (lit "Eps") (lit "Eps") idx
                end) op.

Definition fld (label dynkin : string) : field := mkField (lit label) (lit dynkin) default_charges false (lit "fermi") [] None 1 [] 1 0 None.
Definition at_ (s : string) (t : itype) (up : bool) : index := mkIndex (lit s) (lit s) t up.
Definition u (s : string) : index := at_ s Undotted true.
Definition i_ (s : string) : index := at_ s Isospin true.
Definition tensor_of (f : field) (l : list index) : tensor := TField (mkIField f l (AIdxs l)).
Definition eps_of (t : itype) (a b : string) : tensor := TSymbol (Metric t [at_ a t false; at_ b t false]).

Definition lle_h : list tensor :=
  [tensor_of (fld "L" "10001") [u "u0"; i_ "i0"]; tensor_of (fld "L" "10001") [u "u1"; i_ "i1"]; tensor_of (fld "L" "10001") [u "u2"; i_ "i2"];
   tensor_of (fld "eb" "10000") [u "u3"]; tensor_of (fld "H" "00001") [i_ "i3"]; eps_of Undotted "u0" "u1"; eps_of Undotted "u2" "u3"].

(** (L^i L^j) (L^k eb) H^l with isospin contracted in two ways *)
Definition crossed : operator := lle_h ++ [eps_of Isospin "i0" "i2"; eps_of Isospin "i1" "i3"].
Definition direct : operator := lle_h ++ [eps_of Isospin "i0" "i1"; eps_of Isospin "i2" "i3"].

(** the number an operator is when its fields have the given components: the sum over the values of all indices *)
Fixpoint assignments (names : list str) : list (str -> nat) :=
  match names with
  | [] => [fun _ => 0]
  | n :: r => flat_map (fun a => [(fun s => if str_eqb s n then 0 else a s); (fun s => if str_eqb s n then 1 else a s)]) (assignments r)
  end.

Definition component := list nat -> Z.

Definition value (op : operator) (comps : list component) : Z :=
  fold_right Z.add 0%Z (map (fun a => fold_right Z.mul 1%Z (map (fun tc => snd tc (map (fun i => a (ix_name i)) (tensor_indices (fst tc)))) (combine op comps)))
    (assignments (nodup (list_eq_dec ascii_dec) (map ix_name (op_indices op))))).

Definition epsilon : component := fun l => match l with [0; 1] => 1%Z | [1; 0] => (-1)%Z | _ => 0%Z end.
Definition spinor2 (a b c d : Z) : component := fun l => match l with [0; 0] => a | [0; 1] => b | [1; 0] => c | [1; 1] => d | _ => 0%Z end.
Definition vector (a b : Z) : component := fun l => match l with [0] => a | [1] => b | _ => 0%Z end.

Definition with_flavours (ls : list component) : list component := ls ++ [vector 1 2; vector 3 (-1); epsilon; epsilon; epsilon; epsilon].
Definition three_flavours : list component := [spinor2 1 2 3 5; spinor2 2 (-1) 4 1; spinor2 (-3) 1 1 7].

(** What the note in the docstring says: the two are taken to be related, and one of them is removed.  They are different:
    there are three leptons, an electron and a Higgs field for which no assignment of the leptons to the three places makes
    one of them plus or minus the other.  Both have nothing but contracted indices. *)
Theorem C94_related_refuted :
  free_indices crossed = [] /\ free_indices direct = [] /\
  remove_relabellings plain_args (fun _ _ => false) [crossed; direct] = Ok [crossed] /\
  remove_relabellings plain_args (fun _ _ => false) [direct; crossed] = Ok [direct] /\
  (forall ls, Permutation three_flavours ls -> value crossed (with_flavours ls) <> value direct (with_flavours three_flavours) /\
                                               value crossed (with_flavours ls) <> (- value direct (with_flavours three_flavours))%Z).
Proof.
  split; [vm_compute; reflexivity|]. split; [vm_compute; reflexivity|]. split; [vm_compute; reflexivity|]. split; [vm_compute; reflexivity|].
  intros ls P. apply permutations_spec in P.
  assert (H : Forall (fun ls => value crossed (with_flavours ls) <> value direct (with_flavours three_flavours) /\
                                value crossed (with_flavours ls) <> (- value direct (with_flavours three_flavours))%Z) (permutations three_flavours)).
  { assert (C : forallb (fun ls => negb (Z.eqb (value crossed (with_flavours ls)) (value direct (with_flavours three_flavours))) &&
                                   negb (Z.eqb (value crossed (with_flavours ls)) (- value direct (with_flavours three_flavours)))) (permutations three_flavours) = true)
      by (vm_compute; reflexivity).
    rewrite forallb_forall in C. apply Forall_forall. intros x I. specialize (C x I). apply andb_true_iff in C as [C1 C2].
    apply negb_true_iff, Z.eqb_neq in C1. apply negb_true_iff, Z.eqb_neq in C2. auto. }
  rewrite Forall_forall in H. now apply H.
Qed.

(** The other way round: two operators that differ by the order of two equal fields only, and are not recognised because one of
    the indices is on the wrong side of its pair. *)
Definition scalars : list tensor := [tensor_of (fld "H" "00001") [i_ "i0"]; tensor_of (fld "A" "00001") [i_ "i1"]; tensor_of (fld "H" "00001") [i_ "i2"]; tensor_of (fld "B" "00001") [i_ "i3"]].
Definition first_way : operator := scalars ++ [eps_of Isospin "i0" "i1"; eps_of Isospin "i2" "i3"].
Definition second_way : operator := scalars ++ [eps_of Isospin "i2" "i1"; eps_of Isospin "i0" "i3"].

Theorem C94_complete_refuted :
  remove_relabellings plain_args (fun _ _ => false) [first_way; second_way] = Ok [first_way; second_way] /\
  (forall h a b e, value first_way [h; a; h; b; e; e] = value second_way [h; a; h; b; e; e]).
Proof.
  split; [vm_compute; reflexivity|]. intros h a b e. cbv -[Z.add Z.mul]. ring.
Qed.

(** the hypotheses at work: with two isospin structures each, the one with the two Higgs fields on the other side is removed *)
Definition third_way : operator := scalars ++ [eps_of Isospin "i0" "i2"; eps_of Isospin "i1" "i3"].

Example C94_example :
  Forall (fun op => exists gs, structures_by_type (plain_args op) gs /\ List.length gs = 1 /\ pairs_only gs) [first_way; second_way; third_way] /\
  remove_relabellings plain_args (fun _ _ => false) [first_way; third_way] = Ok [first_way; third_way] /\
  remove_relabellings plain_args (fun _ _ => false) [crossed; direct; crossed] = Ok [crossed] /\
  remove_relabellings plain_args (fun _ _ => true) [first_way; third_way] = Err TypeError /\
  clean_operators nat Nat.eqb (fun op => match List.length op with 0 => Ok None | n => Ok (Some n) end) [first_way; []; second_way; [eps_of Isospin "i0" "i1"]] =
    Ok [first_way; [eps_of Isospin "i0" "i1"]] /\
  List.length (duplicate_fields (plain_args first_way)) = 1.
Proof.
  split; [|vm_compute; auto 10].
  assert (H : forall op, (List.length (by_structures (plain_args op)) =? 1) && forallb (forallb (fun f => List.length (fa_indices f) =? 2)) (by_structures (plain_args op)) = true ->
    exists gs, structures_by_type (plain_args op) gs /\ List.length gs = 1 /\ pairs_only gs).
  { intros op E. apply andb_true_iff in E as [E1 E2]. exists (by_structures (plain_args op)). split; [apply C94_structures|]. split; [now apply Nat.eqb_eq|].
    rewrite forallb_forall in E2. apply Forall_forall. intros g I. specialize (E2 g I). rewrite forallb_forall in E2. apply Forall_forall. intros f If. now apply Nat.eqb_eq, E2. }
  repeat apply Forall_cons; try apply Forall_nil; apply H; vm_compute; reflexivity.
Qed.

Print Assumptions C94_structures.
Print Assumptions C94_extract.
Print Assumptions C94_renaming.
Print Assumptions C94_compare.
Print Assumptions C94_remove.
Print Assumptions C94_equal_raise.
Print Assumptions C94_clean.
Print Assumptions C94_invariants.
Print Assumptions C94_related_refuted.
Print Assumptions C94_complete_refuted.
