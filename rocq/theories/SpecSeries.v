(** * SpecSeries: which products of Standard Model fields can be made into operators *)

From Coq Require Import Ascii String List Bool Arith ZArith QArith Permutation.
From Verif Require Import Base ModelField SpecDeriv.
Import ListNotations.
Local Open Scope nat_scope.
Local Open Scope string_scope.
Local Open Scope list_scope.

(** twice the mass dimension, six times the hypercharge, colour triality, number of isospin one-halves, of undotted and of dotted
    spinor indices, lepton number, three times baryon number *)
Record quantum := Quantum { q_dim : Z; q_y : Z; q_tri : Z; q_iso : Z; q_left : Z; q_right : Z; q_lepton : Z; q_baryon : Z }.

Definition bar (q : quantum) : quantum :=
  Quantum (q_dim q) (- q_y q) (- q_tri q) (q_iso q) (q_right q) (q_left q) (- q_lepton q) (- q_baryon q).

Definition higgs := Quantum 2 3 0 1 0 0 0 0.
Definition lepton_doublet := Quantum 3 (-3) 0 1 1 0 1 0.
Definition quark_doublet := Quantum 3 1 1 1 1 0 0 1.
Definition positron := Quantum 3 6 0 0 1 0 (-1) 0.
Definition up_antiquark := Quantum 3 (-4) (-1) 0 1 0 0 (-1).
Definition down_antiquark := Quantum 3 2 (-1) 0 1 0 0 (-1).
Definition derivative := Quantum 2 0 0 0 1 1 0 0.

Definition matter : list (string * quantum) :=
  [("L", lepton_doublet); ("Ld", bar lepton_doublet); ("Q", quark_doublet); ("Qd", bar quark_doublet);
   ("eb", positron); ("ebd", bar positron); ("ub", up_antiquark); ("ubd", bar up_antiquark);
   ("db", down_antiquark); ("dbd", bar down_antiquark); ("H", higgs); ("Hd", bar higgs)].
Definition strengths : list (string * quantum) :=
  [("G", Quantum 4 0 0 0 2 0 0 0); ("Gb", Quantum 4 0 0 0 0 2 0 0); ("W", Quantum 4 0 0 2 2 0 0 0);
   ("Wb", Quantum 4 0 0 2 0 2 0 0); ("B", Quantum 4 0 0 0 2 0 0 0); ("Bb", Quantum 4 0 0 0 0 2 0 0)].
Definition table : list (string * quantum) := matter ++ [("D", derivative)] ++ strengths.

(** A product of fields and derivatives: how often each occurs. *)
Definition product_of := string -> nat.

Definition total (q : quantum -> Z) (c : product_of) : Z :=
  fold_right (fun row s => (q (snd row) * Z.of_nat (c (fst row)) + s)%Z) 0%Z table.

(** dimension [d], no hypercharge, no triality, even numbers of doublets and of spinor indices *)
Definition conserving (d : Z) (c : product_of) : Prop :=
  (total q_dim c = 2 * d /\ total q_y c = 0 /\ total q_tri c mod 3 = 0 /\
   Z.even (total q_iso c) = true /\ Z.even (total q_left c) = true /\ Z.even (total q_right c) = true)%Z.

(** lepton number two, no baryon number *)
Definition lepton_two (c : product_of) : Prop := (total q_lepton c = 2 /\ total q_baryon c = 0)%Z.

(** [a] equal Higgs doublets without derivatives have isospin a/2, so that there must be doublets to balance the excess of one kind of
    Higgs doublets over the other *)
Definition balanced (c : product_of) : Prop :=
  c "D" = 0 -> c "H" <= c "Hd" + (c "L" + c "Ld" + c "Q" + c "Qd") /\ c "Hd" <= c "H" + (c "L" + c "Ld" + c "Q" + c "Qd").

(** The series [s] has a term in which every field and the derivative occur as often as in [c]. *)
Definition exponent (fs : list (string * nat)) (x : string) : nat :=
  fold_right (fun p n => if String.eqb (fst p) x then snd p + n else n) 0 fs.
Definition product_with (n : nat) (fs : list (string * nat)) : product_of :=
  fun x => if String.eqb x "D" then n else exponent fs x.
Definition same_product (c c' : product_of) : Prop := forall x, In x (map fst table) -> c x = c' x.
Definition occurs (s : list (Q * nat * nat * list (string * nat))) (c : product_of) : Prop :=
  exists q k n fs, In (q, k, n, fs) s /\ same_product (product_with n fs) c.

(** without field strengths *)
Definition matter_only (c : product_of) : Prop := forall x, In x (map fst strengths) -> c x = 0.

(** The product of the Higgs doublet with its conjugate and the Yukawa couplings with their conjugates. *)
Definition standard_model_terms : list (list string) :=
  [["H"; "Hd"]; ["Hd"; "L"; "eb"]; ["Hd"; "Q"; "db"]; ["H"; "Q"; "ub"]; ["H"; "Ld"; "ebd"]; ["H"; "Qd"; "dbd"]; ["Hd"; "Qd"; "ubd"]].
Definition times (c : product_of) (l : list string) : product_of := fun x => c x + count_occ string_dec l x.

(** the coefficient of a product in a series for [nf] generations *)
Definition same_productb (c c' : product_of) : bool := forallb (fun x => Nat.eqb (c x) (c' x)) (map fst table).
Definition coefficient (nf : nat) (s : list (Q * nat * nat * list (string * nat))) (c : product_of) : Q :=
  fold_right (fun t sum => let '(q, k, n, fs) := t in
    if same_productb (product_with n fs) c then (q * inject_Z (Z.of_nat (nf ^ k)) + sum)%Q else sum) 0%Q s.

(** The lists of fields [l] are those that arise from the terms [es], with derivatives and factors given, by placing the derivatives on the
    factors in every way and choosing the spinor labels of each; [lookup] gives the field of a name. *)
Definition parsed (lookup : str -> res field) (es : list (nat * list (string * nat) * Q)) (l : list (list field)) : Prop :=
  (forall s, In s l -> exists n fs q t, In ((n, fs), q) es /\ placed n (flat_map (fun p => repeat (lit (fst p), 0) (snd p)) fs) t /\
     Forall2 (fun (p : str * nat) f => exists b, lookup (fst p) = Ok b /\ derived (snd p) b f) t s) /\
  (forall n fs q t, In ((n, fs), q) es -> placed n (flat_map (fun p => repeat (lit (fst p), 0) (snd p)) fs) t -> exists t', Permutation t t' /\
     forall s, Forall2 (fun (p : str * nat) f => exists b, lookup (fst p) = Ok b /\ derived (snd p) b f) t' s -> In s l).

(** The product of the fields of a shipped operator; their labels begin with a D for each derivative and end with a dagger if they are
    conjugate. *)
Definition letters (a : iargs) : str :=
  let l := skipn (a_derivs a) (a_label a) in if a_is_conj a then removelast l ++ lit "d" else l.
Definition shipped_product (fields : list iargs) : product_of :=
  fun x => if String.eqb x "D" then list_sum (map a_derivs fields) else List.length (filter (fun a => str_eqb (letters a) (lit x)) fields).
