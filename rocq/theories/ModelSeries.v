(** * ModelSeries: the Hilbert series as given to the parser, tensormethod/parse_hs.py (17-65, 196-224) with tensormethod/hs.py *)

From Coq Require Import Ascii String List Bool Arith ZArith QArith Qcanon.
From Verif Require Import Base Show ModelIndex ModelField ModelLagrangian ModelDeriv DataSeries.
Import ListNotations.
Local Open Scope nat_scope.

(** what distinguishes the summands that sympy collects: the power of D and the powers of the functions of X *)
Definition content := (nat * list (string * nat))%type.
Definition content_of (t : summand) : content := let '(_, _, d, fs) := t in (d, fs).

Definition power (fs : list (string * nat)) (x : string) : nat :=
  list_sum (map (fun p => if String.eqb (fst p) x then snd p else 0) fs).
Definition content_eqb (a b : content) : bool :=
  (fst a =? fst b) && forallb (fun x => power (snd a) x =? power (snd b) x) (map fst (snd a) ++ map fst (snd b)).

(** parse_hs.py:17-20, [xreplace({Nf: 3})]: the powers of Nf become numbers and the summands of equal content one summand; summands
    with coefficient zero vanish.  The order is sympy's, here that of the first summand of each content. *)
Definition value (nf : nat) (t : summand) : Q := let '(c, k, _, _) := t in (c * inject_Z (Z.of_nat (nf ^ k)))%Q.
Definition collect (nf : nat) (s : list summand) : list (content * Q) :=
  fold_left (fun acc t => dset content_eqb acc (content_of t)
    (match dget content_eqb acc (content_of t) with Some q => q + value nf t | None => value nf t end)%Q) s [].
Definition with_generations (nf : nat) (s : list summand) : list (content * Q) :=
  filter (fun cq => negb (Qeq_bool (snd cq) 0)) (collect nf s).

Definition H7_LNV_NF3 := with_generations 3 H7_LNV.
Definition H9_LNV_NF3 := with_generations 3 H9_LNV.
Definition H11_LNV_NF3 := with_generations 3 H11_LNV.

(** tensormethod/sm.py:19-25, 32-40: the field strengths *)
Definition sm_strength (label dynkin tex : string) : res field :=
  do f <- mk_field (lit label) (lit dynkin) None false (lit "bose") None None 1 None 1 0 None;
  Ok (mkField (f_label f) (f_dynkin f) (f_charges f) (f_is_conj f) (f_comm f) (f_symmetry f) (f_history f) (f_multiplicity f) (lit tex) (f_nf f) (f_derivs f) (f_stripped f)).

(** parse_hs.py:22-41 [FIELD_LOOKUP], made when the module is imported *)
Definition field_table : list (string * res field) :=
  [("L", Ok sm_L); ("Ld", conj_field sm_L); ("H", Ok sm_H); ("Hd", conj_field sm_H); ("Q", Ok sm_Q); ("Qd", conj_field sm_Q);
   ("eb", Ok sm_eb); ("ebd", conj_field sm_eb); ("ub", Ok sm_ub); ("ubd", conj_field sm_ub); ("db", Ok sm_db); ("dbd", conj_field sm_db);
   ("G", sm_strength "G" "20110" "G"); ("Gb", sm_strength "Gb" "02110" "\bar{G}");
   ("W", sm_strength "W" "20002" "W"); ("Wb", sm_strength "Wb" "02002" "\bar{W}");
   ("B", sm_strength "B" "20000" "B"); ("Bb", sm_strength "Bb" "02000" "\bar{B}")]%string.
Definition field_lookup (x : str) : res field :=
  match find (fun e => str_eqb (lit (fst e)) x) field_table with Some (_, f) => f | None => Err KeyError end.

(** the functions of a summand, each as often as its power says *)
Definition factors (fs : list (string * nat)) : monomial := flat_map (fun p => repeat (lit (fst p), 0) (snd p)) fs.

(** What may be given to [parse]: a sympy sum, or a list or tuple of products *)
Inductive series := Sum (l : list (content * Q)) | ListOf (l : list (content * Q)) | TupleOf (l : list (content * Q)).

(** parse_hs.py:44-53: the terms gone through *)
Definition terms_of (s : series) : res (list (content * Q)) :=
  match s with Sum l | ListOf l => Ok l | TupleOf _ => Err AttributeError end.

(** parse_hs.py:44-80, 196-197 and 222-224 [parse] *)
Definition parse_series (s : series) : res (list (list field)) :=
  do ts <- terms_of s;
  do l <- mapM (fun cq : content * Q => parse field_lookup (fst (fst cq)) (factors (snd (fst cq)))) ts;
  Ok (List.concat l).

(** a tuple or list of products as written *)
Definition as_written (s : list summand) : list (content * Q) := map (fun t => (content_of t, value 1 t)) s.
