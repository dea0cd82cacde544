(** * SpecPrimed: an operator with a further pair of Higgs fields *)

From Coq Require Import Ascii String List Bool Permutation.
From Verif Require Import Base ModelIndex ModelField ModelContract.
Import ListNotations.

(** the labels of the fields of an operator; a conjugate has a dagger in its label *)
Definition labels (op : operator) : list str := map (fun x => f_label (i_field x)) (indexed_fields op).

(** the second has the fields of the first and a Higgs field and its conjugate *)
Definition higgs_pair (op op' : operator) : Prop := exists h h', Permutation (labels op') (h :: h' :: labels op) /\
  (exists x, In x (indexed_fields op') /\ f_label (i_field x) = h /\ f_is_conj (i_field x) = false) /\ (exists x, In x (indexed_fields op') /\ f_label (i_field x) = h' /\ f_is_conj (i_field x) = true) /\
  h = lit "H" /\ removelast h' = h.

(** completions/operators.py:103-118: the operators made of another one and [prime] *)
Definition primed : list (str * str) := map (fun p => (lit (fst p), lit (snd p)))
  [("1", "1p"); ("1p", "1pp"); ("7", "7p"); ("8", "8p"); ("8p", "8pp"); ("71", "71p"); ("77", "77p"); ("78", "78p"); ("61a", "79a"); ("5a", "80a"); ("5b", "80b"); ("6a", "81a"); ("6b", "81b")]%string.
