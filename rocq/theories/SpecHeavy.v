(** * SpecHeavy: one-loop models as data, independent of the tables *)

From Coq Require Import Ascii String List Bool Arith ZArith QArith Qcanon.
From Verif Require Import Base Show.
Import ListNotations.
Local Open Scope nat_scope.

(** A field without its baryon number: scalar or fermion, colour labels, dimension of the isospin representation, hypercharge *)
Record hfield := mkHF { h_fermion : bool; h_colour : nat * nat; h_dim : nat; h_hyper : Qc }.

(** "lorentz,colour,isospin,hypercharge" with the label of isospin, one less than the dimension *)
Definition print_hfield (f : hfield) : str :=
  (if h_fermion f then lit "F" else lit "S") ++ lit "," ++ show_nat (fst (h_colour f)) ++ show_nat (snd (h_colour f)) ++ lit "," ++
  show_nat (h_dim f - 1) ++ lit "," ++ show_Q (h_hyper f).

(** colour representations considered, together with their conjugates *)
Inductive small_colour : nat * nat -> nat * nat -> Prop :=
| sc_singlet : small_colour (0, 0) (0, 0)
| sc_triplet : small_colour (1, 0) (0, 1)
| sc_antitriplet : small_colour (0, 1) (1, 0)
| sc_sextet : small_colour (2, 0) (0, 2)
| sc_antisextet : small_colour (0, 2) (2, 0)
| sc_octet : small_colour (1, 1) (1, 1).

(** a hypercharge that is a multiple of 1/6 between -3 and 3 *)
Definition sixth (y : Qc) : Prop := exists k, (-18 <= k <= 18)%Z /\ y = Q2Qc (k # 6).

(** dimensions of two SU(2) representations that couple to a doublet *)
Definition near (a b : nat) : Prop := a = S b \/ b = S a.
(** and to a triplet *)
Definition triplet_coupling (a b : nat) : Prop := (a = b /\ 2 <= a) \/ a = S (S b) \/ b = S (S a).
Definition dim_ok (a : nat) : Prop := 1 <= a <= 7.

Definition box (a b c d : nat) : Prop := dim_ok a /\ dim_ok b /\ dim_ok c /\ dim_ok d /\ near a b /\ near b c /\ near c d /\ near d a.
Definition triangle (a b c : nat) : Prop := dim_ok a /\ dim_ok b /\ dim_ok c /\ near b c /\ near c a /\ triplet_coupling a b.

(** The generated models: loops of four fields, in which neighbours couple to a doublet, and of three, two of which couple to a
    triplet. *)
Inductive one_loop : list hfield -> Prop :=
| ol_box1 a b c d p q y : box a b c d -> small_colour p q -> sixth y ->
    one_loop [mkHF false p a y; mkHF false q b (y - Q2Qc (1 # 2))%Qc; mkHF true p c y; mkHF false q d (y + Q2Qc (1 # 2))%Qc]
| ol_box2 a b c d p q y : box a b c d -> small_colour p q -> sixth y ->
    one_loop [mkHF true p a y; mkHF false q b (y + Q2Qc (1 # 2))%Qc; mkHF false p c y; mkHF true q d (y + Q2Qc (1 # 2))%Qc]
| ol_box3 a b c d p q y : box a b c d -> small_colour p q -> sixth y ->
    one_loop [mkHF true p a y; mkHF true q b (y + Q2Qc (1 # 2))%Qc; mkHF false p c y; mkHF true q d (y - Q2Qc (1 # 2))%Qc]
| ol_triangle a b c p q y : triangle a b c -> small_colour p q -> sixth y ->
    one_loop [mkHF false p a y; mkHF false p b (y + Q2Qc 1)%Qc; mkHF true q c (y + Q2Qc (1 # 2))%Qc].

(** Two fields, each of them or its conjugate, couple to a colour singlet of hypercharge 1/2 or -1/2 only if triality and
    hypercharge add up to zero. *)
Definition sign (s : Z) : Prop := s = 1%Z \/ s = (-1)%Z.
Definition triality (f : hfield) : Z := (Z.of_nat (fst (h_colour f)) - Z.of_nat (snd (h_colour f)))%Z.
Definition couple (f g : hfield) : Prop := exists s t e : Z, sign s /\ sign t /\ sign e /\
  (Q2Qc (inject_Z s) * h_hyper f + Q2Qc (inject_Z t) * h_hyper g + Q2Qc (e # 2) = 0)%Qc /\
  Z.divide 3 (s * triality f + t * triality g).

(** [k] begins with [f] *)
Definition begins (f k : str) : Prop := exists r, k = f ++ r.
