(** * SpecOperatorList: all ways of contracting the isospin of some fields *)

From Coq Require Import Ascii String List Bool Arith ZArith Permutation.
From Verif Require Import Base Show ModelIndex ModelField SpecPaper.
Import ListNotations.
Local Open Scope nat_scope.

(** the names of the isospin doublets, perhaps with derivatives *)
Definition doublet (name : str) : Prop :=
  exists n c d, name = repeat "D"%char n ++ c :: d /\ In c ["L"; "Q"; "H"]%char /\ (d = [] \/ d = [dagger]).

(** the factors at the ends of the epsilons *)
Definition ends (p : picture) : list nat := flat_map (fun e => [fst e; snd e]) (pc_joins p).

(** the epsilons join the doublets in pairs *)
Definition isospin_pairing (p : picture) : Prop :=
  NoDup (ends p) /\ forall i, In i (ends p) <-> i < List.length (pc_names p) /\ doublet (nth i (pc_names p) []).

(** two factors called [a] are joined *)
Definition joins_two (p : picture) (a : str) : Prop := exists i j, joined p i j /\ nth i (pc_names p) [] = a /\ nth j (pc_names p) [] = a.

(** an epsilon between two equal bosons is zero *)
Definition nonzero (p : picture) : Prop := ~ joins_two p (lit "H") /\ ~ joins_two p (lit "H" ++ [dagger]).

(** [d] has every nonzero contraction of the isospin of the fields [names] under one label *)
Definition all_once (d : list (str * list tensor)) (names : list str) : Prop :=
  forall p, Permutation (pc_names p) names -> isospin_pairing p -> nonzero p ->
    exists label, (exists op q, In (label, op) d /\ pictures op q /\ same_picture p q) /\
      forall label' op q, In (label', op) d -> pictures op q -> same_picture p q -> label' = label.

(** the names of lnv.py: a conjugate has ".conj" *)
Definition written (s : string) (name : str) : Prop :=
  (exists b, lit s = b ++ lit ".conj" /\ name = b ++ [dagger]) \/ ((forall b, lit s <> b ++ lit ".conj") /\ name = lit s).

Definition has_content (k : list string) (names : list str) : Prop := exists l, Forall2 written k l /\ Permutation l names.

(** the label is a number, perhaps with one letter other than p *)
Definition numbered (n : Z) (label : str) : Prop := label = show_Z n \/ exists c, letter c = true /\ c <> "p"%char /\ label = show_Z n ++ [c].
