(** * SpecInvariants: specification notions for invariant operators *)

From Coq Require Import Ascii String List Bool Arith ZArith QArith Qcanon Permutation Sorted.
From Verif Require Import Base ModelIndex SpecIndex ModelField SpecField ModelContract SpecContract ModelInvariants.
Import ListNotations.
Local Open Scope nat_scope.

(** ** Products *)

(** three angular momenta that add up: each is at most the sum of the others, the sum is even *)
Definition triangle (a b p : nat) : Prop := p <= a + b /\ a <= b + p /\ b <= a + p /\ Nat.Even (a + b + p).

(** What is asked of basisgen's product: Dynkin labels as SU(2) and SU(3) have them. *)
Definition selection_rule (irrep_product : str -> str -> list (list nat * nat)) : Prop :=
  forall a b c d e a' b' c' d' e',
    a < 10 /\ b < 10 /\ c < 10 /\ d < 10 /\ e < 10 -> a' < 10 /\ b' < 10 /\ c' < 10 /\ d' < 10 /\ e' < 10 ->
    forall w m, In (w, m) (irrep_product (five a b c d e) (five a' b' c' d' e')) ->
      exists p q r s t, w = [p; q; r; s; t] /\ triangle a a' p /\ triangle b b' q /\ r + s <= c + d + (c' + d') /\ triangle e e' t.

Definition all_labels (t : itype) (fs : list field) : nat := total_label (su2_label t) fs.
Definition all_colours (up : bool) (fs : list field) : nat := total_label (colour_label up) fs.

(** fields of a product: labels and symmetry fit, not products themselves, the same charges, a hypercharge *)
Record multiplied (fs : list field) : Prop := mkMultiplied
  { mu_made : Forall (fun f => exists a b c d e, field_ok f a b c d e /\ rank (f_symmetry f) = a + b + c + d + e) fs;
    mu_simple : Forall (fun f => f_history f = None) fs;
    mu_charges : forall f g, In f fs -> In g fs -> same_keys f g;
    mu_tex : Forall (fun f => exists tex, to_tex (f_label f) = Ok tex) fs;
    mu_few : forall t, su2_type t -> all_labels t fs < 10;
    mu_colour : all_colours true fs + all_colours false fs < 10 }.

(** SU(2) indices that are left: none, or all of them when the type is ignored *)
Definition left_over (ignore : itype -> bool) (fs : list field) (t : itype) : nat := if ignore t then all_labels t fs else 0.

(** a neutral singlet *)
Definition neutral (r : field) : Prop := f_dynkin r = lit "00000" /\ charge_of r (lit "y") = Q2Qc 0.

(** [l'] are the elements of [l] with [P], in order *)
Inductive selected {A} (P : A -> Prop) : list A -> list A -> Prop :=
| sel_nil : selected P [] []
| sel_take x l l' : P x -> selected P l l' -> selected P (x :: l) (x :: l')
| sel_skip x l l' : ~ P x -> selected P l l' -> selected P (x :: l) l'.

(** the product [r] was made from the left, with the irreps of [steps] on the way; [n] ways to contract *)
Definition made_in (ignore : itype -> bool) (f : field) (rest : list field) (r : field) (n : nat) : Prop :=
  exists steps, walked r = chain f steps /\ map snd steps = rest /\ n = chain_ways ignore (fun t => su2_label t f) steps.

(** what becomes of an operator with [n] raised and [m] lowered colour indices: a delta for each pairing and, for three
    and three, two epsilons; for three raised or three lowered ones an epsilon, and copies with nothing contracted *)
Definition coloured (n m : nat) (op : operator) (rs : list operator) : Prop :=
  (n = m /\ exists ups downs perms special ds, lists op Colour true ups /\ lists op Colour false downs /\
     rs = special ++ ds /\ NoDup perms /\ (forall p, In p perms <-> Permutation ups p) /\ Forall2 (delta_pairing op downs) perms ds /\
     Forall (contracted_type Colour op) rs /\ List.length special = if n =? 3 then 1 else 0) \/
  (n = 3 /\ m = 0 /\ exists r, rs = r :: repeat op 6 /\ contracted_type Colour op r) \/
  (n = 0 /\ m = 3 /\ exists r, rs = [r; op] /\ contracted_type Colour op r).

Definition colour_matches (n m : nat) : Prop := n = m \/ n = 3 /\ m = 0 \/ n = 0 /\ m = 3.

(** ** Relabellings *)

(** [l'] are the elements of [l] whose position and value satisfy [P], in order; the first position is [n] *)
Inductive picked {A} (P : nat -> A -> Prop) : nat -> list A -> list A -> Prop :=
| pk_nil n : picked P n [] []
| pk_take n x l l' : P n x -> picked P (S n) l l' -> picked P n (x :: l) (x :: l')
| pk_skip n x l l' : ~ P n x -> picked P (S n) l l' -> picked P n (x :: l) l'.

Definition begins (p : string) (s : str) : Prop := exists r, s = lit p ++ r.

Definition is_structure (t : itype) (f : factor) : Prop :=
  (begins "Eps" (fa_text f) \/ begins "KD" (fa_text f) \/ begins "metric" (fa_text f)) /\ exists i r, fa_indices f = i :: r /\ t_type i = t.

(** the invariant symbols, by type, without the types that do not occur *)
Definition structures_by_type (args : list factor) (gs : list (list factor)) : Prop :=
  exists gs', Forall2 (fun t g => selected (is_structure t) args g) [Undotted; Dotted; Colour; Isospin; Generation] gs' /\
              selected (fun g => g <> []) gs' gs.

(** the two indices of a symbol, by name *)
Definition ordered_pair (f : factor) (p : list tindex) : Prop :=
  exists i j, p = [i; j] /\ Permutation (fa_indices f) [i; j] /\ str_leb (t_name i) (t_name j) = true /\
              (t_name i = t_name j -> fa_indices f = [i; j]).

(** what has to be renamed to turn the pairs [p] into [q]: the places where they differ *)
Inductive renames : list (list tindex) -> list (list tindex) -> mapping -> Prop :=
| rn_left q : renames [] q []
| rn_right p : renames p [] []
| rn_both i j k l p q ij jl m : (i = k -> ij = []) -> (i <> k -> ij = [(i, k)]) -> (j = l -> jl = []) -> (j <> l -> jl = [(j, l)]) ->
    renames p q m -> renames ([i; j] :: p) ([k; l] :: q) (ij ++ jl ++ m).

(** a renaming, all at once *)
Fixpoint renamed (m : mapping) (i : tindex) : tindex :=
  match m with [] => i | (j, k) :: r => if tindex_eqb j i then k else renamed r i end.

(** [i] and [j] are indices of one of several factors with the same head *)
Definition exchangeable (args : list factor) (i j : tindex) : Prop :=
  exists h same, selected (fun f => ~ begins "Eps" (fa_text f) /\ fa_head f = h) args same /\ 2 <= List.length same /\
    (exists f, In f same /\ In i (fa_indices f)) /\ (exists f, In f same /\ In j (fa_indices f)).

(** a renaming that is taken to be harmless *)
Definition harmless (args : list factor) (m : mapping) : Prop :=
  forall i j, In (i, j) m -> t_own i = true /\ t_own j = true \/ exchangeable args (tneg i) (tneg j).

(** some way to match the symbols of each type needs harmless renamings only *)
Definition matched (largs : list factor) (ls rs : list (list factor)) : Prop :=
  exists ms, Forall2 (fun lr m => exists xs p ys, Forall2 ordered_pair (fst lr) xs /\ Permutation xs p /\ Forall2 ordered_pair (snd lr) ys /\ renames p ys m)
                     (combine ls rs) ms /\ Forall (harmless largs) ms.
