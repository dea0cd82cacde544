(** * SpecCompare: when two interactions are alike *)

From Coq Require Import Ascii String List Bool Arith Permutation.
From Verif Require Import Base SpecMatch ModelIndex ModelField ModelContract ModelExotic ModelInfo.
Import ListNotations.
Local Open Scope nat_scope.

Definition number (ds : str) : Prop := ds <> [] /\ Forall (fun c => In c (lit "0123456789")) ds.

(** the numbers of generation indices g0_, g1_, ... are erased *)
Inductive erased : str -> str -> Prop :=
| er_nil : erased [] []
| er_gen ds r r' : number ds -> erased r r' -> erased ("g" :: ds ++ "_" :: r)%char ("g" :: "_" :: r')%char
| er_char c r r' : (c = "g"%char -> forall ds r1, number ds -> r <> ds ++ "_"%char :: r1) -> erased r r' -> erased (c :: r) (c :: r').

(** the factors of a product, without signs of indices and generation numbers *)
Definition factors_of (s : str) (fs : list str) : Prop :=
  exists s', erased s s' /\ fs <> [] /\ Forall (fun f => ~ In "*"%char f) fs /\ join (lit "*") fs = filter (fun c => negb (Ascii.eqb c "-")) s'.

(** Two products are alike if their factors can be paired up so that the factors of a pair have the same characters. *)
Definition alike (s t : str) : Prop :=
  exists fs gs hs, factors_of s fs /\ factors_of t gs /\ Permutation gs hs /\ Forall2 (@Permutation ascii) fs hs.

(** every interaction of one list is like one of the other *)
Definition same_interactions (us ts : list str) : Prop :=
  (forall u, In u us -> exists t, In t ts /\ alike u t) /\ (forall t, In t ts -> exists u, In u us /\ alike u t).

(** The remapping: the label of each field goes to the label of the last field of the other completion with the same numbers. *)
Definition remaps (fields1 fields2 : list (cfield * qnumbers)) (remapping : list (str * str)) : Prop :=
  Forall2 (fun fq lr => fst lr = cf_label (fst fq) /\
                        exists pre f post, fields2 = pre ++ (f, snd fq) :: post /\ (forall f', ~ In (f', snd fq) post) /\ snd lr = cf_label f) fields1 remapping.
