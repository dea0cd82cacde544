(** * SpecGenerate: specification notions for the terms of a Lagrangian *)

From Coq Require Import Ascii String List Bool Arith ZArith QArith Qcanon Permutation Sorted.
From Verif Require Import Base ModelIndex SpecIndex ModelField SpecField ModelContract SpecContract ModelInvariants SpecInvariants.
Import ListNotations.
Local Open Scope nat_scope.

(** a field of spin zero or one half, with its label, symmetry and charges in order, not a product *)
Record plain_field (f : field) : Prop := mkPlainField
  { pf_made : exists a b c d e, field_ok f a b c d e /\ rank (f_symmetry f) = a + b + c + d + e /\ a + b <= 1 /\ c + d <= 2 /\ e <= 2;
    pf_simple : f_history f = None;
    pf_one : f_multiplicity f = 1;
    pf_tex : exists tex, to_tex (f_label f) = Ok tex }.

Definition charged_alike (fs : list field) : Prop := forall f g, In f fs -> In g fs -> same_keys f g.

(** the terms of a product of two or more fields: for each neutral singlet in it operators made of these fields without
    free SU(2) indices, and of each what becomes of it when colour is contracted *)
Definition terms_of_product (irrep_product : str -> str -> list (list nat * nat)) (combo : list field) (terms : list operator) : Prop :=
  exists products singlets opss rss, decompose_product irrep_product combo = Ok (inr products) /\ selected neutral products singlets /\
    Forall2 (fun r ops => ops <> [] /\ Forall (realises combo (fun _ => 0)) ops) singlets opss /\
    terms = concat rss /\ Forall2 (coloured (all_colours true combo) (all_colours false combo)) (concat opss) rss.

(** a product with a neutral singlet the code cannot construct *)
Definition clashes (irrep_product : str -> str -> list (list nat * nat)) (combo : list field) : Prop :=
  ~ colour_matches (all_colours true combo) (all_colours false combo) /\
  exists products r, decompose_product irrep_product combo = Ok (inr products) /\ In r products /\ neutral r.

(** spin zero, spin one half *)
Definition scalar_field (f : field) : Prop := all_labels Undotted [f] + all_labels Dotted [f] = 0.
Definition spinor_field (f : field) : Prop := all_labels Undotted [f] + all_labels Dotted [f] = 1.

(** the kinds of renormalisable terms *)
Definition renormalisable_kind (fs : list field) : Prop :=
  (Forall scalar_field fs /\ (List.length fs = 3 \/ List.length fs = 4)) \/
  (List.length fs = 3 /\ exists s f g, Permutation fs [s; f; g] /\ scalar_field s /\ spinor_field f /\ spinor_field g).

(** [t] is made of the fields [fs] *)
Definition made_of (fs : list field) (t : operator) : Prop := map i_field (indexed_fields t) = map dressed fs.

(** twice the mass dimension of fields of spin zero or one half *)
Definition twice_dimension (fs : list field) : nat := list_sum (map (fun f => 2 + all_labels Undotted [f] + all_labels Dotted [f]) fs).

(** no free SU(2) index *)
Definition su2_closed (t : operator) : Prop := forall ty up i, su2_type ty -> is_free t i -> ix_type i = ty -> ix_up i = up -> False.

(** what is asked of basisgen's product in addition: triality is conserved *)
Definition triality_rule (irrep_product : str -> str -> list (list nat * nat)) : Prop :=
  forall a b c d e a' b' c' d' e',
    a < 10 /\ b < 10 /\ c < 10 /\ d < 10 /\ e < 10 -> a' < 10 /\ b' < 10 /\ c' < 10 /\ d' < 10 /\ e' < 10 ->
    forall p q r s t m, In ([p; q; r; s; t], m) (irrep_product (five a b c d e) (five a' b' c' d' e')) ->
      (r + 2 * s) mod 3 = (c + 2 * d + (c' + 2 * d')) mod 3.

(** neither sextets nor octets *)
Definition few_colours (f : field) : Prop := colour_label true f + colour_label false f <= 1.
