(** * ModelCompare: comparing completions, completions/completions.py (988-1075) *)

From Coq Require Import Ascii String List Bool Arith ZArith QArith Qcanon.
From Verif Require Import Base Show ModelMatch ModelIndex ModelField ModelContract ModelExotic ModelInfo.
Import ListNotations.
Local Open Scope nat_scope.

Definition ascii_leb (a b : ascii) : bool := nat_of_ascii a <=? nat_of_ascii b.

(** [sorted(s)] of the characters of a string *)
Definition sorted_chars (s : str) : str := sort ascii_leb s.

(** completions/completions.py:988-995 [sort_strings]; a set is a list without repetition *)
Definition sort_strings (terms : list (list str)) : list (list str) :=
  let data := map (map sorted_chars) terms in
  nodup_by (list_eqb str_eqb) (map sorted_str data).

Definition digit_b (c : ascii) : bool := (48 <=? nat_of_ascii c) && (nat_of_ascii c <=? 57).

(** how many digits the text begins with, and what follows *)
Fixpoint digits_at (s : str) : nat * str :=
  match s with
  | c :: r => if digit_b c then let '(n, t) := digits_at r in (S n, t) else (0, s)
  | [] => (0, [])
  end.

(** [re.sub(r"g[0-9]+_", "g_", s)]: [skip] characters are part of a match *)
Fixpoint sub_generations_from (skip : nat) (s : str) : str :=
  match s with
  | [] => []
  | c :: r =>
    match skip with
    | S k => sub_generations_from k r
    | O => if Ascii.eqb c "g" then
             match digits_at r with
             | (S n, "_"%char :: _) => c :: sub_generations_from (S n) r
             | _ => c :: sub_generations_from 0 r
             end
           else c :: sub_generations_from 0 r
    end
  end.
Definition sub_generations (s : str) : str := sub_generations_from 0 s.

(** [re.sub(r"-", "", s)] *)
Definition sub_minus (s : str) : str := filter (fun c => negb (Ascii.eqb c "-")) s.

(** sets of tuples *)
Definition same_set (x y : list (list str)) : bool :=
  forallb (fun t => mem_by (list_eqb str_eqb) t y) x && forallb (fun t => mem_by (list_eqb str_eqb) t x) y.

Section Compare.
  (** the text of a term, [str(safe_nocoeff(term.safe_simplify()))], sympy's *)
  Context {O : Type} (text : O -> res str).

  (** completions/completions.py:998-1034 [check_remapping_on_terms]; the loop over the remapping does the same for every entry *)
  Definition check_remapping_on_terms (terms1 terms2 : list O) (remapping : list (str * str)) : res (list (str * str)) :=
    do new_terms <- foldM (fun new_terms term =>
        foldM (fun new_terms (_ : str * str) =>
          do s <- text term;
          do s <- multiple_replace remapping s;
          Ok (new_terms ++ [sorted_str (split_on "*"%char (sub_minus (sub_generations s)))])) remapping new_terms) terms1 [];
    do comp2_strs <- mapM text terms2;
    let comp2_tups := map (fun s => sorted_str (split_on "*"%char (sub_minus (sub_generations s)))) comp2_strs in
    Ok (if same_set (sort_strings new_terms) (sort_strings comp2_tups) then remapping else []).

  Definition charge_eqb (a b : str * Qc) : bool := str_eqb (fst a) (fst b) && Qc_eq_bool (snd a) (snd b).
  Definition qn_eqb (a b : qnumbers) : bool :=
    str_eqb (qn_lorentz a) (qn_lorentz b) && list_eqb Nat.eqb (qn_sm a) (qn_sm b) && list_eqb charge_eqb (qn_charges a) (qn_charges b).

  (** completions/completions.py:1037-1064 [compare_terms]; a completion is given by its exotic fields, in the order of iteration,
      and its terms *)
  Definition compare_terms (comp1 comp2 : list cfield * list O) : res (list (str * str)) :=
    do info1 <- exotic_info (fst comp1);
    do info2 <- exotic_info (fst comp2);
    let values1 := map snd info1 in
    let values2 := map snd info2 in
    if negb (forallb (fun q => mem_by qn_eqb q values2) values1 && forallb (fun q => mem_by qn_eqb q values1) values2) then Ok []
    else if negb (List.length (snd comp1) =? List.length (snd comp2)) then Ok []
    else let rev_map2 := fold_left (fun d fq => dset qn_eqb d (snd fq) (cf_label (fst fq))) info2 [] in
         do remapping <- foldM (fun d fq => do l <- dgetM qn_eqb rev_map2 (snd fq); Ok (dset str_eqb d (cf_label (fst fq)) l)) info1 [];
         check_remapping_on_terms (snd comp1) (snd comp2) remapping.

  (** completions/completions.py:1066-1075 [are_equivalent_completions] *)
  Definition are_equivalent_completions (comp1 comp2 : list cfield * list O) : res bool :=
    do remapping <- compare_terms comp1 comp2;
    Ok (negb (match remapping with [] => true | _ => false end)).
End Compare.
