(** * ModelHeavy: the one-loop models of the Weinberg operator, database/heavyloops.py, and how they are looked up,
    database/pickler (79-101) *)

From Coq Require Import Ascii String List Bool Arith ZArith QArith Qcanon.
From Verif Require Import Base Show.
Import ListNotations.
Local Open Scope nat_scope.

(** database/heavyloops.py:13-22 *)
Definition tbl_2_su2_reps_func (m : nat) : list (list nat) :=
  [[m; m + 1; m; m + 1];
   [m + 1; m; m + 1; m];
   [m; m + 1; m + 2; m + 1];
   [m + 1; m; m + 1; m + 2];
   [m + 1; m + 2; m + 1; m];
   [m + 2; m + 1; m; m + 1];
   [m + 1; m + 2; m + 1; m + 2];
   [m + 2; m + 1; m + 2; m + 1]].

(** database/heavyloops.py:24-30 *)
Definition tbl_3_su2_reps_func (m : nat) : list (list nat) :=
  [[m; m + 2; m + 1];
   [m + 1; m + 1; m];
   [m + 1; m + 1; m + 2];
   [m + 2; m; m + 1];
   [m + 2; m + 2; m + 1]].

(** database/heavyloops.py:32-45 *)
Definition tbl_2_su2_reps : list (list nat) :=
  tbl_2_su2_reps_func 1 ++ tbl_2_su2_reps_func 2 ++ tbl_2_su2_reps_func 3 ++ tbl_2_su2_reps_func 4 ++ tbl_2_su2_reps_func 5.
Definition tbl_3_su2_reps : list (list nat) :=
  tbl_3_su2_reps_func 1 ++ tbl_3_su2_reps_func 2 ++ tbl_3_su2_reps_func 3 ++ tbl_3_su2_reps_func 4 ++ tbl_3_su2_reps_func 5.

(** the f-string of a field; [i[k]] is at least 1 *)
Definition field_text (lorentz colour : string) (i : list nat) (k : nat) (y : Qc) : str :=
  lit lorentz ++ lit "," ++ lit colour ++ lit "," ++ show_nat (nth k i 0 - 1) ++ lit "," ++ show_Q y.

(** the six pairs of colour labels in each of the four tables, in order; the tuples of the tables differ by them only *)
Definition colour_pairs : list (string * string) :=
  [("00", "00"); ("10", "01"); ("01", "10"); ("02", "20"); ("20", "02"); ("11", "11")]%string.

Definition half : Qc := Q2Qc (1 # 2).

(** database/heavyloops.py:48-86 *)
Definition tbl_2_1 (i : list nat) (a : Qc) : list (list str) :=
  map (fun pq => [field_text "S" (fst pq) i 0 a; field_text "S" (snd pq) i 1 (a - half)%Qc;
                  field_text "F" (fst pq) i 2 a; field_text "S" (snd pq) i 3 (half + a)%Qc]) colour_pairs.

(** database/heavyloops.py:89-127 *)
Definition tbl_2_2 (i : list nat) (a : Qc) : list (list str) :=
  map (fun pq => [field_text "F" (fst pq) i 0 a; field_text "S" (snd pq) i 1 (a + half)%Qc;
                  field_text "S" (fst pq) i 2 a; field_text "F" (snd pq) i 3 (half + a)%Qc]) colour_pairs.

(** database/heavyloops.py:130-168 *)
Definition tbl_2_3 (i : list nat) (a : Qc) : list (list str) :=
  map (fun pq => [field_text "F" (fst pq) i 0 a; field_text "F" (snd pq) i 1 (a + half)%Qc;
                  field_text "S" (fst pq) i 2 a; field_text "F" (snd pq) i 3 (- half + a)%Qc]) colour_pairs.

(** database/heavyloops.py:171-203 *)
Definition tbl_3_1 (i : list nat) (a : Qc) : list (list str) :=
  map (fun pq => [field_text "S" (fst pq) i 0 a; field_text "S" (fst pq) i 1 (1 + a)%Qc;
                  field_text "F" (snd pq) i 2 (half + a)%Qc]) colour_pairs.

(** database/heavyloops.py:206-212, [counter] and [y_range] *)
Fixpoint y_range_from (counter : Qc) (n : nat) : list Qc :=
  match n with
  | O => []
  | S n => let counter := (counter + Q2Qc (1 # 6))%Qc in counter :: y_range_from counter n
  end.
Definition y_range : list Qc := y_range_from (Q2Qc (-3) - Q2Qc (1 # 6))%Qc 37.

(** database/heavyloops.py:206-229 [generate_models] *)
Definition generate_models : list (list str) :=
  flat_map (fun y => flat_map (fun struct => tbl_2_1 struct y) tbl_2_su2_reps ++ flat_map (fun struct => tbl_2_2 struct y) tbl_2_su2_reps ++
                     flat_map (fun struct => tbl_2_3 struct y) tbl_2_su2_reps ++ flat_map (fun struct => tbl_3_1 struct y) tbl_3_su2_reps) y_range.

(** database/pickler:79-84 [field_options]; [primes] is [db.exotic_prime_dict] *)
Definition field_options (primes : list (str * Z)) (field : str) : list str := filter (startswith field) (keys primes).

(** database/pickler:87-101 [one_loop_democratic_nums] *)
Definition one_loop_democratic_nums (primes : list (str * Z)) (models : list (list str)) : res (list Z) :=
  foldM (fun nums model =>
    let opts := map (field_options primes) model in
    if existsb (fun o => match o with [] => true | _ => false end) opts then Ok nums
    else do num <- foldM (fun num opt => match opt with
                                         | [k] => do p <- dgetM str_eqb primes k; Ok (num * p)%Z
                                         | _ => Err AssertionError
                                         end) opts 1%Z;
         Ok (nums ++ [num])) models [].
