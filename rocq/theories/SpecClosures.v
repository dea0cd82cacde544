(** * SpecClosures: quantum numbers of component products, what rewriting means *)

From Coq Require Import Ascii String List Bool Arith ZArith Permutation.
From Verif Require Import Base ModelClosures.
Import ListNotations.
Local Open Scope Z_scope.

(** ** Quantum numbers *)

(** a quantum number of symbols, extended to operands: conjugation changes the sign; [k] for constants *)
Definition of_atom (q : fsym -> Z) (k : ksym -> Z) (a : atom) : Z :=
  match a with Fd s => q s | Cj s => - q s | Cst c => k c end.

Definition total (f : atom -> Z) (op : mop) : Z := fold_right Z.add 0 (map f op).

(** eb, ub and db are conjugates of the right-handed fields *)
Definition lepton_of (s : fsym) : Z := match s with Se | Snu => 1 | Seb => -1 | _ => 0 end.
Definition thrice_baryon_of (s : fsym) : Z := match s with Su | Sd => 1 | Sub | Sdb => -1 | _ => 0 end.
Definition thrice_charge_of (s : fsym) : Z :=
  match s with Se => -3 | Snu => 0 | Su => 2 | Sd => -1 | Sh0 => 0 | Shp => 3 | Sdb => 1 | Sub => -2 | Seb => 3 | SW => -3 end.
Definition twice_isospin_of (s : fsym) : Z :=
  match s with Snu | Su | Shp => 1 | Se | Sd | Sh0 => -1 | SW => -2 | Sdb | Sub | Seb => 0 end.

(** Const(nunu) stands for two neutrinos *)
Definition lepton : mop -> Z := total (of_atom lepton_of (fun k => match k with Knunu => 2 | _ => 0 end)).
Definition thrice_baryon : mop -> Z := total (of_atom thrice_baryon_of (fun _ => 0)).
Definition thrice_charge : mop -> Z := total (of_atom thrice_charge_of (fun _ => 0)).
Definition twice_isospin : mop -> Z := total (of_atom twice_isospin_of (fun k => match k with Knunu => 2 | _ => 0 end)).

(** a structure of a neutral operator that breaks lepton number by two units *)
Definition admissible (op : mop) : Prop := lepton op = 2 /\ thrice_charge op = 0 /\ twice_isospin op = 0.

Local Open Scope nat_scope.

(** ** Rewriting *)

(** the pattern occurs, with at least one further operand *)
Definition fires (r : rule) (op rst : mop) : Prop := rst <> [] /\ Permutation op (fst r ++ rst).

(** one application of the first rule that fires *)
Definition step (op : mop) (r : rule) (op' : mop) : Prop :=
  exists earlier later rst, RULES = earlier ++ r :: later /\ fires r op rst /\ Permutation op' (snd r ++ rst) /\
    forall r' rst', In r' earlier -> ~ fires r' op rst'.

Definition normal (op : mop) : Prop := forall r rst, In r RULES -> ~ fires r op rst.

(** a number of steps, with the rules used *)
Inductive steps : mop -> list rule -> mop -> Prop :=
| steps_nil op op' : Permutation op op' -> steps op [] op'
| steps_cons op r op1 rs op' : step op r op1 -> steps op1 rs op' -> steps op (r :: rs) op'.

(** the operands that are no constants *)
Definition is_const (a : atom) : bool := match a with Cst _ => true | _ => false end.
Definition reduced (op : mop) : Prop := forall a, In a op -> is_const a = true.

(** number of operands that are no constants, where e and c(eb) count for three *)
Definition weight (op : mop) : nat :=
  list_sum (map (fun a => match a with Cst _ => 0 | Fd Se | Cj Seb => 3 | _ => 1 end) op).

Definition constant (k : ksym) (op : mop) : nat := List.length (filter (fun a => match a with Cst c => ksym_eqb k c | _ => false end) op).

(** the two rules that do not conserve charge *)
Definition wrong_hp : rule := ([Fd Shp; Fd Su; Cj Sd], [Cst Kg2; Cst Kloop; Cst Kloop]).
Definition wrong_eb : rule := ([Cj Seb; Fd Snu], [Cst Kye; Fd Shp; Fd Snu; Fd Snu]).

(** ** Power counting and chirality *)

Definition fields_in (op : mop) : nat := List.length (filter (fun a => negb (is_const a)) op).

(** fields that are singlets of SU(2), by kind, conjugated or not *)
Definition singlets (s : fsym) (op : mop) : nat := List.length (filter (fun a => match a with Fd t | Cj t => fsym_eqb s t | Cst _ => false end) op).

(** no W among the fields, no constants *)
Definition components (op : mop) : Prop := forall a, In a op -> is_const a = false /\ a <> Fd SW /\ a <> Cj SW.
