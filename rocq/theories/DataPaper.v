(** * DataPaper: the dictionary operator_latex of print_paper_table, database/operators.py:13-749

    Label and LaTeX of the operators, in the order of the assignments.  Generated from the file; entries are unchanged. *)

From Coq Require Import String List.
Import ListNotations.
Local Open Scope string_scope.

Definition operator_latex : list (string * string) :=
  [("1", "$L^{i} L^{j} H^{k} H^{l}  \cdot  \epsilon_{i k} \epsilon_{j l}$");
   ("2", "$L^{i} L^{j} L^{k} \bar{e} H^{l}  \cdot  \epsilon_{i k} \epsilon_{j l}$");
   ("3a", "$L^{i} L^{j} Q^{k} \bar{d} H^{l}  \cdot  \epsilon_{i j} \epsilon_{k l}$");
   ("3b", "$L^{i} L^{j} Q^{k} \bar{d} H^{l}  \cdot  \epsilon_{i k} \epsilon_{j l}$");
   ("4a", "$L^{i} L^{j} \tilde{Q}^{k} \bar{u}^{\dagger} H^{l}  \cdot  \epsilon_{i k} \epsilon_{j l}$");
   ("4b", "$L^{i} L^{j} \tilde{Q}^{k} \bar{u}^{\dagger} H^{l}  \cdot  \epsilon_{i j} \epsilon_{k l}$");
   ("5a", "$L^{i} L^{j} Q^{k} \bar{d} H^{l} H^{m} \tilde{H}^{n}  \cdot \epsilon_{i l} \epsilon_{j n} \epsilon_{k m}$");
   ("5b", "$\mathcal{O}_1 \cdot Q^{i} \bar{d} \tilde{H}^{j}  \cdot \epsilon_{i j}$");
   ("5c", "$\mathcal{O}_{3a} \cdot H^{i} \tilde{H}^{j}  \cdot \epsilon_{i j}$");
   ("5d", "$\mathcal{O}_{3b} \cdot H^{i} \tilde{H}^{j}  \cdot \epsilon_{i j}$");
   ("6a", "$L^{i} L^{j} \tilde{Q}^{k} \bar{u}^{\dagger} H^{l} H^{m} \tilde{H}^{n}  \cdot  \epsilon_{i l} \epsilon_{j n} \epsilon_{k m}$");
   ("6b", "$\mathcal{O}_1 \cdot \tilde{Q}^{i} \bar{u}^{\dagger} \tilde{H}^{j}  \cdot  \epsilon_{i j}$");
   ("6c", "$\mathcal{O}_{4a} \cdot H^{i} \tilde{H}^{j}  \cdot  \epsilon_{i j}$");
   ("6d", "$\mathcal{O}_{4b} \cdot H^{i} \tilde{H}^{j}  \cdot  \epsilon_{i j}$");
   ("7", "$L^{i} \bar{e}^{\dagger} Q^{j} \tilde{Q}^{k} H^{l} H^{m} H^{n}  \cdot  \epsilon_{i l} \epsilon_{j m} \epsilon_{k n}$");
   ("8", "$L^{i} \bar{e}^{\dagger} \bar{u}^{\dagger} \bar{d} H^{j}  \cdot  \epsilon_{i j}$");
   ("9", "$L^{i} L^{j} L^{k} L^{l} \bar{e} \bar{e}  \cdot  \epsilon_{i k} \epsilon_{j l}$");
   ("10", "$L^{i} L^{j} L^{k} \bar{e} Q^{l} \bar{d}  \cdot  \epsilon_{i k} \epsilon_{j l}$");
   ("11a", "$L^{i} L^{j} Q^{k} Q^{l} \bar{d} \bar{d}  \cdot  \epsilon_{i j} \epsilon_{k l}$");
   ("11b", "$L^{i} L^{j} Q^{k} Q^{l} \bar{d} \bar{d}  \cdot  \epsilon_{i k} \epsilon_{j l}$");
   ("12a", "$L^{i} L^{j} \tilde{Q}^{k} \tilde{Q}^{l} \bar{u}^{\dagger} \bar{u}^{\dagger}  \cdot  \epsilon_{i k} \epsilon_{j l}$");
   ("12b", "$L^{i} L^{j} \tilde{Q}^{k} \tilde{Q}^{l} \bar{u}^{\dagger} \bar{u}^{\dagger}  \cdot  \epsilon_{i j} \epsilon_{k l}$");
   ("13", "$L^{i} L^{j} L^{k} \bar{e} \tilde{Q}^{l} \bar{u}^{\dagger}  \cdot  \epsilon_{i k} \epsilon_{j l}$");
   ("14a", "$L^{i} L^{j} Q^{k} \tilde{Q}^{l} \bar{u}^{\dagger} \bar{d}  \cdot  \epsilon_{i j} \epsilon_{k l}$");
   ("14b", "$L^{i} L^{j} Q^{k} \tilde{Q}^{l} \bar{u}^{\dagger} \bar{d}  \cdot  \epsilon_{i k} \epsilon_{j l}$");
   ("15", "$L^{i} L^{j} L^{k} \tilde{L}^{l} \bar{u}^{\dagger} \bar{d}  \cdot \epsilon_{i k} \epsilon_{j l}$");
   ("16", "$L^{i} L^{j} \bar{e} \bar{e}^{\dagger} \bar{u}^{\dagger} \bar{d}  \cdot  \epsilon_{i j}$");
   ("17", "$L^{i} L^{j} \bar{u}^{\dagger} \bar{d} \bar{d} \bar{d}^{\dagger}  \cdot  \epsilon_{i j}$");
   ("18", "$L^{i} L^{j} \bar{u} \bar{u}^{\dagger} \bar{u}^{\dagger} \bar{d}  \cdot  \epsilon_{i j}$");
   ("19", "$L^{i} \bar{e}^{\dagger} Q^{j} \bar{u}^{\dagger} \bar{d} \bar{d}  \cdot  \epsilon_{i j}$");
   ("20", "$L^{i} \bar{e}^{\dagger} \tilde{Q}^{j} \bar{u}^{\dagger} \bar{u}^{\dagger} \bar{d}  \cdot  \epsilon_{i j}$");
   ("21a", "$L^{i} L^{j} L^{k} \bar{e} Q^{l} \bar{u} H^{m} H^{n}  \cdot  \epsilon_{i l} \epsilon_{j m} \epsilon_{k n}$");
   ("21b", "$L^{i} L^{j} L^{k} \bar{e} Q^{l} \bar{u} H^{m} H^{n}  \cdot  \epsilon_{i k} \epsilon_{j m} \epsilon_{l n}$");
   ("22a", "$L^{i} L^{j} L^{k} \tilde{L}^{l} \bar{e} \bar{e}^{\dagger} H^{m} H^{n}  \cdot  \epsilon_{i l} \epsilon_{j m} \epsilon_{k n}$");
   ("22b", "$\mathcal{O}_2 \cdot \tilde{L}^i \bar{e}^\dagger H^j \epsilon_{ij}$");
   ("23a", "$L^{i} L^{j} L^{k} \bar{e} \tilde{Q}^{l} \bar{d}^{\dagger} H^{m} H^{n}  \cdot  \epsilon_{i l} \epsilon_{j m} \epsilon_{k n}$");
   ("23b", "$\mathcal{O}_2 \cdot \tilde{Q}^i \bar{d}^\dagger H^j \cdot \epsilon_{ij}$");
   ("24a", "$L^{i} L^{j} Q^{k} Q^{l} \bar{d} \bar{d} H^{m} \tilde{H}^{n}  \cdot  \epsilon_{i l} \epsilon_{j n} \epsilon_{k m}$");
   ("24b", "$L^{i} L^{j} Q^{k} Q^{l} \bar{d} \bar{d} H^{m} \tilde{H}^{n}  \cdot  \epsilon_{i m} \epsilon_{j n} \epsilon_{k l}$");
   ("24c", "$\mathcal{O}_{3a} \cdot Q^i \bar{d} \tilde{H}^j \cdot \epsilon_{ij}$");
   ("24d", "$\mathcal{O}_{3b} \cdot Q^i \bar{d} \tilde{H}^j \cdot \epsilon_{ij}$");
   ("24e", "$\mathcal{O}_{11a} \cdot H^i \tilde{H}^j \cdot \epsilon_{ij}$");
   ("24f", "$\mathcal{O}_{11b} \cdot H^i \tilde{H}^j \cdot \epsilon_{ij}$");
   ("25a", "$L^{i} L^{j} Q^{k} Q^{l} \bar{u} \bar{d} H^{m} H^{n}  \cdot  \epsilon_{i m} \epsilon_{j n} \epsilon_{k l}$");
   ("25b", "$\mathcal{O}_{3a} \cdot Q^i \bar{u} H^j \cdot \epsilon_{ij}$");
   ("25c", "$\mathcal{O}_{3b} \cdot Q^i \bar{u} H^j \cdot \epsilon_{ij}$");
   ("26a", "$L^{i} L^{j} \tilde{L}^{k} \bar{e}^{\dagger} Q^{l} \bar{d} H^{m} H^{n}  \cdot  \epsilon_{i k} \epsilon_{j m} \epsilon_{l n}$");
   ("26b", "$L^{i} L^{j} \tilde{L}^{k} \bar{e}^{\dagger} Q^{l} \bar{d} H^{m} H^{n}  \cdot  \epsilon_{i m} \epsilon_{j n} \epsilon_{k l}$");
   ("26c", "$\mathcal{O}_{3a} \cdot \tilde{L}^i \bar{e}^\dagger H^j \cdot \epsilon_{ij}$");
   ("26d", "$\mathcal{O}_{3b} \cdot \tilde{L}^i \bar{e}^\dagger H^j \cdot \epsilon_{ij}$");
   ("27a", "$L^{i} L^{j} Q^{k} \tilde{Q}^{l} \bar{d} \bar{d}^{\dagger} H^{m} H^{n}  \cdot  \epsilon_{i k} \epsilon_{j m} \epsilon_{l n}$");
   ("27b", "$L^{i} L^{j} Q^{k} \tilde{Q}^{l} \bar{d} \bar{d}^{\dagger} H^{m} H^{n}  \cdot  \epsilon_{i m} \epsilon_{j n} \epsilon_{k l}$");
   ("27c", "$\mathcal{O}_{3a} \cdot \tilde{Q}^i \bar{d}^\dagger H^j \cdot \epsilon_{ij}$");
   ("27d", "$\mathcal{O}_{3b} \cdot \tilde{Q}^i \bar{d}^\dagger H^j \cdot \epsilon_{ij}$");
   ("28a", "$L^{i} L^{j} Q^{k} \tilde{Q}^{l} \bar{u}^{\dagger} \bar{d} H^{m} \tilde{H}^{n}  \cdot  \epsilon_{i l} \epsilon_{j n} \epsilon_{k m}$");
   ("28b", "$L^{i} L^{j} Q^{k} \tilde{Q}^{l} \bar{u}^{\dagger} \bar{d} H^{m} \tilde{H}^{n}  \cdot  \epsilon_{i m} \epsilon_{j n} \epsilon_{k l}$");
   ("28c", "$L^{i} L^{j} Q^{k} \tilde{Q}^{l} \bar{u}^{\dagger} \bar{d} H^{m} \tilde{H}^{n}  \cdot  \epsilon_{i k} \epsilon_{j n} \epsilon_{l m}$");
   ("28d", "$\mathcal{O}_{3a} \cdot \tilde{Q}^i \bar{u}^\dagger \tilde{H}^j \cdot \epsilon_{ij}$");
   ("28e", "$\mathcal{O}_{3b} \cdot \tilde{Q}^i \bar{u}^\dagger \tilde{H}^j \cdot \epsilon_{ij}$");
   ("28f", "$\mathcal{O}_{4a} \cdot Q^i \bar{d} \tilde{H}^j \cdot \epsilon_{ij}$");
   ("28g", "$\mathcal{O}_{4b} \cdot Q^i \bar{d} \tilde{H}^j \cdot \epsilon_{ij}$");
   ("28h", "$\mathcal{O}_{14a} \cdot H^i \tilde{H}^j \cdot \epsilon_{ij}$");
   ("28i", "$\mathcal{O}_{14b} \cdot H^i \tilde{H}^j \cdot \epsilon_{ij}$");
   ("29a", "$L^{i} L^{j} Q^{k} \tilde{Q}^{l} \bar{u} \bar{u}^{\dagger} H^{m} H^{n}  \cdot  \epsilon_{i m} \epsilon_{j n} \epsilon_{k l}$");
   ("29b", "$L^{i} L^{j} Q^{k} \tilde{Q}^{l} \bar{u} \bar{u}^{\dagger} H^{m} H^{n}  \cdot  \epsilon_{i k} \epsilon_{j m} \epsilon_{l n}$");
   ("29c", "$\mathcal{O}_{4a} \cdot Q^i \bar{u} H^j \cdot \epsilon_{ij}$");
   ("29d", "$\mathcal{O}_{4b} \cdot Q^i \bar{u} H^j \cdot \epsilon_{ij}$");
   ("30a", "$L^{i} L^{j} \tilde{L}^{k} \bar{e}^{\dagger} \tilde{Q}^{l} \bar{u}^{\dagger} H^{m} H^{n}  \cdot  \epsilon_{i k} \epsilon_{j m} \epsilon_{l n}$");
   ("30b", "$L^{i} L^{j} \tilde{L}^{k} \bar{e}^{\dagger} \tilde{Q}^{l} \bar{u}^{\dagger} H^{m} H^{n}  \cdot  \epsilon_{i m} \epsilon_{j n} \epsilon_{k l}$");
   ("30c", "$\mathcal{O}_{4a} \cdot \tilde{L}^i \bar{e}^\dagger H^j \cdot \epsilon_{ij}$");
   ("30d", "$\mathcal{O}_{4b} \cdot \tilde{L}^i \bar{e}^\dagger H^j \cdot \epsilon_{ij}$");
   ("31a", "$\mathcal{O}_{4a} \cdot \tilde{Q}^i \bar{d}^\dagger H^j \cdot \epsilon_{ij}$");
   ("31b", "$L^{i} L^{j} \tilde{Q}^{k} \tilde{Q}^{l} \bar{u}^{\dagger} \bar{d}^{\dagger} H^{m} H^{n}  \cdot  \epsilon_{i m} \epsilon_{j n} \epsilon_{k l}$");
   ("31c", "$\mathcal{O}_{4b} \cdot \tilde{Q}^i \bar{d}^\dagger H^j \cdot \epsilon_{ij}$");
   ("32a", "$L^{i} L^{j} \tilde{Q}^{k} \tilde{Q}^{l} \bar{u}^{\dagger} \bar{u}^{\dagger} H^{m} \tilde{H}^{n}  \cdot  \epsilon_{i l} \epsilon_{j n} \epsilon_{k m}$");
   ("32b", "$L^{i} L^{j} \tilde{Q}^{k} \tilde{Q}^{l} \bar{u}^{\dagger} \bar{u}^{\dagger} H^{m} \tilde{H}^{n}  \cdot  \epsilon_{i m} \epsilon_{j n} \epsilon_{k l}$");
   ("32c", "$\mathcal{O}_{4a} \cdot \tilde{Q}^i \bar{u}^\dagger \tilde{H}^j \cdot \epsilon_{ij}$");
   ("32d", "$\mathcal{O}_{4b} \cdot \tilde{Q}^i \bar{u}^\dagger \tilde{H}^j \cdot \epsilon_{ij}$");
   ("32e", "$\mathcal{O}_{12a} \cdot H^i \tilde{H}^j$");
   ("32f", "$\mathcal{O}_{12b} \cdot H^i \tilde{H}^j$");
   ("33", "$\mathcal{O}_1 \cdot \bar{e} \bar{e} \bar{e}^{\dagger} \bar{e}^{\dagger}$");
   ("34", "$L^{i} \bar{e} \bar{e}^{\dagger} \bar{e}^{\dagger} Q^{j} \bar{d} H^{k} H^{l}  \cdot  \epsilon_{i k} \epsilon_{j l}$");
   ("35", "$L^{i} \bar{e} \bar{e}^{\dagger} \bar{e}^{\dagger} \tilde{Q}^{j} \bar{u}^{\dagger} H^{k} H^{l}  \cdot  \epsilon_{i k} \epsilon_{j l}$");
   ("36", "$\bar{e}^{\dagger} \bar{e}^{\dagger} Q^{i} Q^{j} \bar{d} \bar{d} H^{k} H^{l}  \cdot  \epsilon_{i k} \epsilon_{j l}$");
   ("37", "$\bar{e}^{\dagger} \bar{e}^{\dagger} Q^{i} \tilde{Q}^{j} \bar{u}^{\dagger} \bar{d} H^{k} H^{l}  \cdot  \epsilon_{i k} \epsilon_{j l}$");
   ("38", "$\bar{e}^{\dagger} \bar{e}^{\dagger} \tilde{Q}^{i} \tilde{Q}^{j} \bar{u}^{\dagger} \bar{u}^{\dagger} H^{k} H^{l}  \cdot  \epsilon_{i k} \epsilon_{j l}$");
   ("39a", "$\mathcal{O}_1 \cdot L^{i} L^{j} \tilde{L}^{k} \tilde{L}^{l} \cdot  \epsilon_{i k} \epsilon_{j l}$");
   ("39b", "$L^{i} L^{j} L^{k} L^{l} \tilde{L}^{m} \tilde{L}^{n} H^{p} H^{q}  \cdot  \epsilon_{i k} \epsilon_{j l} \epsilon_{m p} \epsilon_{n q}$");
   ("39c", "$L^{i} L^{j} L^{k} L^{l} \tilde{L}^{m} \tilde{L}^{n} H^{p} H^{q}  \cdot  \epsilon_{i l} \epsilon_{j n} \epsilon_{k p} \epsilon_{m q}$");
   ("39d", "$\mathcal{O}_1 \cdot L^{i} L^{j} \tilde{L}^{k} \tilde{L}^{l} \cdot  \epsilon_{i j} \epsilon_{k l}$");
   ("40a", "$L^{i} L^{j} L^{k} \tilde{L}^{l} Q^{m} \tilde{Q}^{n} H^{p} H^{q}  \cdot  \epsilon_{i l} \epsilon_{j n} \epsilon_{k p} \epsilon_{m q}$");
   ("40b", "$L^{i} L^{j} L^{k} \tilde{L}^{l} Q^{m} \tilde{Q}^{n} H^{p} H^{q}  \cdot  \epsilon_{i l} \epsilon_{j p} \epsilon_{k q} \epsilon_{m n}$");
   ("40c", "$L^{i} L^{j} L^{k} \tilde{L}^{l} Q^{m} \tilde{Q}^{n} H^{p} H^{q}  \cdot  \epsilon_{i n} \epsilon_{j p} \epsilon_{k q} \epsilon_{l m}$");
   ("40d", "$L^{i} L^{j} L^{k} \tilde{L}^{l} Q^{m} \tilde{Q}^{n} H^{p} H^{q}  \cdot  \epsilon_{i k} \epsilon_{j l} \epsilon_{m p} \epsilon_{n q}$");
   ("40e", "$L^{i} L^{j} L^{k} \tilde{L}^{l} Q^{m} \tilde{Q}^{n} H^{p} H^{q}  \cdot  \epsilon_{i l} \epsilon_{j m} \epsilon_{k p} \epsilon_{n q}$");
   ("40f", "$L^{i} L^{j} L^{k} \tilde{L}^{l} Q^{m} \tilde{Q}^{n} H^{p} H^{q}  \cdot  \epsilon_{i k} \epsilon_{j n} \epsilon_{l p} \epsilon_{m q}$");
   ("40g", "$L^{i} L^{j} L^{k} \tilde{L}^{l} Q^{m} \tilde{Q}^{n} H^{p} H^{q}  \cdot  \epsilon_{i m} \epsilon_{j n} \epsilon_{k p} \epsilon_{l q}$");
   ("40h", "$L^{i} L^{j} L^{k} \tilde{L}^{l} Q^{m} \tilde{Q}^{n} H^{p} H^{q}  \cdot  \epsilon_{i k} \epsilon_{j m} \epsilon_{l p} \epsilon_{n q}$");
   ("40i", "$L^{i} L^{j} L^{k} \tilde{L}^{l} Q^{m} \tilde{Q}^{n} H^{p} H^{q}  \cdot  \epsilon_{i m} \epsilon_{j p} \epsilon_{k q} \epsilon_{l n}$");
   ("40j", "$L^{i} L^{j} L^{k} \tilde{L}^{l} Q^{m} \tilde{Q}^{n} H^{p} H^{q}  \cdot  \epsilon_{i k} \epsilon_{j p} \epsilon_{l n} \epsilon_{m q}$");
   ("40k", "$L^{i} L^{j} L^{k} \tilde{L}^{l} Q^{m} \tilde{Q}^{n} H^{p} H^{q}  \cdot  \epsilon_{i k} \epsilon_{j p} \epsilon_{l m} \epsilon_{n q}$");
   ("40l", "$L^{i} L^{j} L^{k} \tilde{L}^{l} Q^{m} \tilde{Q}^{n} H^{p} H^{q} \cdot  \epsilon_{i k} \epsilon_{j p} \epsilon_{l q} \epsilon_{m n}$");
   ("41a", "$L^{i} L^{j} L^{k} \tilde{L}^{l} \bar{d} \bar{d}^{\dagger} H^{m} H^{n}  \cdot  \epsilon_{i l} \epsilon_{j m} \epsilon_{k n}$");
   ("41b", "$L^{i} L^{j} L^{k} \tilde{L}^{l} \bar{d} \bar{d}^{\dagger} H^{m} H^{n}  \cdot  \epsilon_{i k} \epsilon_{j m} \epsilon_{l n}$");
   ("42a", "$L^{i} L^{j} L^{k} \tilde{L}^{l} \bar{u} \bar{u}^{\dagger} H^{m} H^{n}  \cdot  \epsilon_{i l} \epsilon_{j m} \epsilon_{k n}$");
   ("42b", "$L^{i} L^{j} L^{k} \tilde{L}^{l} \bar{u} \bar{u}^{\dagger} H^{m} H^{n}  \cdot  \epsilon_{i k} \epsilon_{j m} \epsilon_{l n}$");
   ("43a", "$L^{i} L^{j} L^{k} \tilde{L}^{l} \bar{u}^{\dagger} \bar{d} H^{m} \tilde{H}^{n}  \cdot  \epsilon_{i k} \epsilon_{j n} \epsilon_{l m}$");
   ("43b", "$L^{i} L^{j} L^{k} \tilde{L}^{l} \bar{u}^{\dagger} \bar{d} H^{m} \tilde{H}^{n}  \cdot  \epsilon_{i l} \epsilon_{j m} \epsilon_{k n}$");
   ("43c", "$L^{i} L^{j} L^{k} \tilde{L}^{l} \bar{u}^{\dagger} \bar{d} H^{m} \tilde{H}^{n}  \cdot  \epsilon_{i k} \epsilon_{j m} \epsilon_{l n}$");
   ("43d", "$L^{i} L^{j} L^{k} \tilde{L}^{l} \bar{u}^{\dagger} \bar{d} H^{m} \tilde{H}^{n}  \cdot  \epsilon_{i k} \epsilon_{j l} \epsilon_{m n}$");
   ("44a", "$L^{i} L^{j} \bar{e} \bar{e}^{\dagger} Q^{k} \tilde{Q}^{l} H^{m} H^{n}  \cdot  \epsilon_{i l} \epsilon_{j m} \epsilon_{k n}$");
   ("44b", "$L^{i} L^{j} \bar{e} \bar{e}^{\dagger} Q^{k} \tilde{Q}^{l} H^{m} H^{n}  \cdot  \epsilon_{i m} \epsilon_{j n} \epsilon_{k l}$");
   ("44c", "$L^{i} L^{j} \bar{e} \bar{e}^{\dagger} Q^{k} \tilde{Q}^{l} H^{m} H^{n}  \cdot  \epsilon_{i j} \epsilon_{k m} \epsilon_{l n}$");
   ("44d", "$L^{i} L^{j} \bar{e} \bar{e}^{\dagger} Q^{k} \tilde{Q}^{l} H^{m} H^{n}  \cdot  \epsilon_{i k} \epsilon_{j m} \epsilon_{l n}$");
   ("45", "$L^{i} L^{j} \bar{e} \bar{e}^{\dagger} \bar{d} \bar{d}^{\dagger} H^{k} H^{l}  \cdot  \epsilon_{i k} \epsilon_{j l}$");
   ("46", "$L^{i} L^{j} \bar{e} \bar{e}^{\dagger} \bar{u} \bar{u}^{\dagger} H^{k} H^{l}  \cdot  \epsilon_{i k} \epsilon_{j l}$");
   ("47a", "$L^{i} L^{j} Q^{k} Q^{l} \tilde{Q}^{m} \tilde{Q}^{n} H^{p} H^{q}  \cdot  \epsilon_{i m} \epsilon_{j n} \epsilon_{k p} \epsilon_{l q}$");
   ("47b", "$L^{i} L^{j} Q^{k} Q^{l} \tilde{Q}^{m} \tilde{Q}^{n} H^{p} H^{q}  \cdot  \epsilon_{i m} \epsilon_{j p} \epsilon_{k n} \epsilon_{l q}$");
   ("47c", "$L^{i} L^{j} Q^{k} Q^{l} \tilde{Q}^{m} \tilde{Q}^{n} H^{p} H^{q}  \cdot  \epsilon_{i p} \epsilon_{j q} \epsilon_{k m} \epsilon_{l n}$");
   ("47d", "$L^{i} L^{j} Q^{k} Q^{l} \tilde{Q}^{m} \tilde{Q}^{n} H^{p} H^{q}  \cdot  \epsilon_{i l} \epsilon_{j n} \epsilon_{k p} \epsilon_{m q}$");
   ("47e", "$L^{i} L^{j} Q^{k} Q^{l} \tilde{Q}^{m} \tilde{Q}^{n} H^{p} H^{q}  \cdot  \epsilon_{i n} \epsilon_{j p} \epsilon_{k l} \epsilon_{m q}$");
   ("47f", "$L^{i} L^{j} Q^{k} Q^{l} \tilde{Q}^{m} \tilde{Q}^{n} H^{p} H^{q}  \cdot  \epsilon_{i j} \epsilon_{k n} \epsilon_{l p} \epsilon_{m q}$");
   ("47g", "$L^{i} L^{j} Q^{k} Q^{l} \tilde{Q}^{m} \tilde{Q}^{n} H^{p} H^{q}  \cdot  \epsilon_{i l} \epsilon_{j p} \epsilon_{k n} \epsilon_{m q}$");
   ("47h", "$L^{i} L^{j} Q^{k} Q^{l} \tilde{Q}^{m} \tilde{Q}^{n} H^{p} H^{q}  \cdot  \epsilon_{i j} \epsilon_{k p} \epsilon_{l q} \epsilon_{m n}$");
   ("47i", "$L^{i} L^{j} Q^{k} Q^{l} \tilde{Q}^{m} \tilde{Q}^{n} H^{p} H^{q}  \cdot  \epsilon_{i l} \epsilon_{j p} \epsilon_{k q} \epsilon_{m n}$");
   ("47j", "$L^{i} L^{j} Q^{k} Q^{l} \tilde{Q}^{m} \tilde{Q}^{n} H^{p} H^{q}  \cdot  \epsilon_{i p} \epsilon_{j q} \epsilon_{k l} \epsilon_{m n}$");
   ("47k", "$L^{i} L^{j} Q^{k} Q^{l} \tilde{Q}^{m} \tilde{Q}^{n} H^{p} H^{q}  \cdot  \epsilon_{i k} \epsilon_{j l} \epsilon_{m p} \epsilon_{n q}$");
   ("47l", "$L^{i} L^{j} Q^{k} Q^{l} \tilde{Q}^{m} \tilde{Q}^{n} H^{p} H^{q}  \cdot  \epsilon_{i j} \epsilon_{k l} \epsilon_{m p} \epsilon_{n q}$");
   ("48", "$L^{i} L^{j} \bar{d} \bar{d} \bar{d}^{\dagger} \bar{d}^{\dagger} H^{k} H^{l}  \cdot  \epsilon_{i k} \epsilon_{j l}$");
   ("49", "$L^{i} L^{j} \bar{u} \bar{u}^{\dagger} \bar{d} \bar{d}^{\dagger} H^{k} H^{l}  \cdot  \epsilon_{i k} \epsilon_{j l}$");
   ("50a", "$L^{i} L^{j} \bar{u}^{\dagger} \bar{d} \bar{d} \bar{d}^{\dagger} H^{k} \tilde{H}^{l}  \cdot  \epsilon_{i k} \epsilon_{j l}$");
   ("50b", "$\mathcal{O}_{17} \cdot H^i \tilde{H}^j \cdot \epsilon_{ij}$");
   ("51", "$L^{i} L^{j} \bar{u} \bar{u} \bar{u}^{\dagger} \bar{u}^{\dagger} H^{k} H^{l}  \cdot  \epsilon_{i k} \epsilon_{j l}$");
   ("52a", "$L^{i} L^{j} \bar{u} \bar{u}^{\dagger} \bar{u}^{\dagger} \bar{d} H^{k} \tilde{H}^{l}  \cdot  \epsilon_{i k} \epsilon_{j l}$");
   ("52b", "$\mathcal{O}_{18} \cdot H^i \tilde{H}^j \cdot \epsilon_{ij}$");
   ("53", "$L^{i} L^{j} \bar{u}^{\dagger} \bar{u}^{\dagger} \bar{d} \bar{d} \tilde{H}^{k} \tilde{H}^{l}  \cdot  \epsilon_{i k} \epsilon_{j l}$");
   ("54a", "$L^{i} \bar{e}^{\dagger} Q^{j} Q^{k} \tilde{Q}^{l} \bar{d} H^{m} H^{n}  \cdot  \epsilon_{i l} \epsilon_{j m} \epsilon_{k n}$");
   ("54b", "$L^{i} \bar{e}^{\dagger} Q^{j} Q^{k} \tilde{Q}^{l} \bar{d} H^{m} H^{n}  \cdot  \epsilon_{i m} \epsilon_{j l} \epsilon_{k n}$");
   ("54c", "$L^{i} \bar{e}^{\dagger} Q^{j} Q^{k} \tilde{Q}^{l} \bar{d} H^{m} H^{n}  \cdot  \epsilon_{i m} \epsilon_{j k} \epsilon_{l n}$");
   ("54d", "$L^{i} \bar{e}^{\dagger} Q^{j} Q^{k} \tilde{Q}^{l} \bar{d} H^{m} H^{n}  \cdot  \epsilon_{i k} \epsilon_{j m} \epsilon_{l n}$");
   ("55a", "$L^{i} \bar{e}^{\dagger} Q^{j} \tilde{Q}^{k} \tilde{Q}^{l} \bar{u}^{\dagger} H^{m} H^{n}  \cdot  \epsilon_{i l} \epsilon_{j m} \epsilon_{k n}$");
   ("55b", "$L^{i} \bar{e}^{\dagger} Q^{j} \tilde{Q}^{k} \tilde{Q}^{l} \bar{u}^{\dagger} H^{m} H^{n}  \cdot  \epsilon_{i m} \epsilon_{j l} \epsilon_{k n}$");
   ("55c", "$L^{i} \bar{e}^{\dagger} Q^{j} \tilde{Q}^{k} \tilde{Q}^{l} \bar{u}^{\dagger} H^{m} H^{n}  \cdot  \epsilon_{i m} \epsilon_{j n} \epsilon_{k l}$");
   ("55d", "$L^{i} \bar{e}^{\dagger} Q^{j} \tilde{Q}^{k} \tilde{Q}^{l} \bar{u}^{\dagger} H^{m} H^{n}  \cdot  \epsilon_{i j} \epsilon_{k m} \epsilon_{l n}$");
   ("56", "$L^{i} \bar{e}^{\dagger} Q^{j} \bar{d} \bar{d} \bar{d}^{\dagger} H^{k} H^{l}  \cdot  \epsilon_{i k} \epsilon_{j l}$");
   ("57", "$L^{i} \bar{e}^{\dagger} \tilde{Q}^{j} \bar{u}^{\dagger} \bar{d} \bar{d}^{\dagger} H^{k} H^{l}  \cdot  \epsilon_{i k} \epsilon_{j l}$");
   ("58", "$L^{i} \bar{e}^{\dagger} \tilde{Q}^{j} \bar{u} \bar{u}^{\dagger} \bar{u}^{\dagger} H^{k} H^{l}  \cdot  \epsilon_{i k} \epsilon_{j l}$");
   ("59a", "$L^{i} \bar{e}^{\dagger} Q^{j} \bar{u}^{\dagger} \bar{d} \bar{d} H^{k} \tilde{H}^{l}  \cdot  \epsilon_{i k} \epsilon_{j l}$");
   ("59b", "$\mathcal{O}_{19} \cdot H^i \tilde{H}^j \cdot \epsilon_{ij}$");
   ("59c", "$\mathcal{O}_{8} \cdot Q^i \bar{d} \tilde{H}^j \cdot \epsilon_{ij}$");
   ("60a", "$L^{i} \bar{e}^{\dagger} \tilde{Q}^{j} \bar{u}^{\dagger} \bar{u}^{\dagger} \bar{d} H^{k} \tilde{H}^{l}  \cdot  \epsilon_{i l} \epsilon_{j k}$");
   ("60b", "$\mathcal{O}_8 \cdot \tilde{Q}^i \bar{u}^\dagger \tilde{H}^j \cdot \epsilon_{ij}$");
   ("60c", "$\mathcal{O}_{20} \cdot H^i \tilde{H}^j \cdot \epsilon_{ij}$");
   ("61a", "$\mathcal{O}_1 \cdot L^i \bar{e} \tilde{H}^j \cdot \epsilon_{ij}$");
   ("61b", "$\mathcal{O}_2 \cdot H^i \tilde{H}^j \cdot \epsilon_{ij}$");
   ("62a", "$L^{i} L^{j} L^{k} L^{l} \bar{e} \bar{e} H^{m} \tilde{H}^{n}  \cdot  \epsilon_{i l} \epsilon_{j m} \epsilon_{k n}$");
   ("62b", "$\mathcal{O}_9 \cdot H^i \tilde{H}^j \cdot \epsilon_{ij}$");
   ("63a", "$L^{i} L^{j} L^{k} \bar{e} Q^{l} \bar{d} H^{m} \tilde{H}^{n}  \cdot  \epsilon_{i k} \epsilon_{j n} \epsilon_{l m}$");
   ("63b", "$L^{i} L^{j} L^{k} \bar{e} Q^{l} \bar{d} H^{m} \tilde{H}^{n}  \cdot  \epsilon_{i l} \epsilon_{j m} \epsilon_{k n}$");
   ("63c", "$\mathcal{O}_2 \cdot Q^i \bar{d} \tilde{H}^j \cdot \epsilon_{ij}$");
   ("63d", "$\mathcal{O}_{10} \cdot H^i \tilde{H}^j \cdot \epsilon_{ij}$");
   ("64a", "$L^{i} L^{j} L^{k} \bar{e} \tilde{Q}^{l} \bar{u}^{\dagger} H^{m} \tilde{H}^{n}  \cdot  \epsilon_{i l} \epsilon_{j m} \epsilon_{k n}$");
   ("64b", "$L^{i} L^{j} L^{k} \bar{e} \tilde{Q}^{l} \bar{u}^{\dagger} H^{m} \tilde{H}^{n}  \cdot  \epsilon_{i k} \epsilon_{j n} \epsilon_{l m}$");
   ("64c", "$\mathcal{O}_2 \cdot \tilde{Q}^i \bar{u}^\dagger \tilde{H}^j \cdot \epsilon_{ij}$");
   ("64d", "$\mathcal{O}_{13} \cdot H^i \tilde{H}^j \cdot \epsilon_{ij}$");
   ("65a", "$L^{i} L^{j} \bar{e} \bar{e}^{\dagger} \bar{u}^{\dagger} \bar{d} H^{k} \tilde{H}^{l}  \cdot  \epsilon_{i k} \epsilon_{j l}$");
   ("65b", "$\mathcal{O}_{16} \cdot H^i \tilde{H}^j \cdot \epsilon_{ij}$");
   ("71", "$\mathcal{O}_1 \cdot Q^{i} \bar{u} H^{j} \cdot  \epsilon_{i j}$");
   ("75", "$\mathcal{O}_8 \cdot Q^{i} \bar{u} H^j \cdot \epsilon_{i j}$");
   ("76", "$\bar{e}^\dagger \bar{e}^\dagger \bar{u}^\dagger \bar{u}^\dagger \bar{d} \bar{d}$");
   ("77", "$\mathcal{O}_{1} \cdot \tilde{L}^{i} \bar{e}^{\dagger} H^{j} \cdot \epsilon_{ij}$");
   ("78", "$\mathcal{O}_{1} \cdot \tilde{Q}^{i} \bar{d}^{\dagger} H^{j} \cdot \epsilon_{ij}$");
   ("1p", "$\mathcal{O}_{1} \cdot \tilde{H}^{i} H^{j} \cdot \epsilon_{ij}$");
   ("8p", "$\mathcal{O}_{8} \cdot \tilde{H}^{i} H^{j} \cdot \epsilon_{ij}$");
   ("1pp", "$\mathcal{O}_{1} \cdot\tilde{H}^{i} H^{j} \tilde{H}^{k} H^{l} \cdot \epsilon_{ij} \epsilon_{kl}$");
   ("1ppp", "$\mathcal{O}_{1} \cdot \tilde{H}^{i} H^{j} \tilde{H}^{k} H^{l} \tilde{H}^{m} H^{n} \cdot \epsilon_{ij} \epsilon_{kl} \epsilon_{mn}$");
   ("7p", "$\mathcal{O}_{7} \cdot \tilde{H}^{i} H^{j} \cdot \epsilon_{ij}$");
   ("8pp", "$\mathcal{O}_{8} \cdot \tilde{H}^{i} H^{j} \tilde{H}^{k} H^{l} \cdot \epsilon_{ij} \epsilon_{kl}$");
   ("71p", "$\mathcal{O}_{71} \cdot \tilde{H}^{i} H^{j}  \cdot \epsilon_{ij}$");
   ("76p", "$\mathcal{O}_{76} \cdot \tilde{H}^{i} H^{j}  \cdot \epsilon_{ij}$");
   ("77p", "$\mathcal{O}_{77} \cdot \tilde{H}^{i} H^{j}  \cdot \epsilon_{ij}$");
   ("78p", "$\mathcal{O}_{78} \cdot \tilde{H}^{i} H^{j}  \cdot \epsilon_{ij}$");
   ("79a", "$\mathcal{O}_{61a} \cdot \tilde{H}^{i} H^{j}  \cdot \epsilon_{ij}$");
   ("79b", "$\mathcal{O}_{2} \cdot \tilde{H}^{i} H^{j}  \tilde{H}^{k} H^{l} \cdot \epsilon_{ij} \epsilon_{kl}$");
   ("80a", "$\mathcal{O}_{5a} \cdot \tilde{H}^{i} H^{j}  \cdot \epsilon_{ij}$");
   ("80b", "$\mathcal{O}_{5b} \cdot \tilde{H}^{i} H^{j}  \cdot \epsilon_{ij}$");
   ("80c", "$\mathcal{O}_{3a} \cdot \tilde{H}^{i} H^{j}  \tilde{H}^{k} H^{l} \cdot \epsilon_{ij} \epsilon_{kl}$");
   ("80d", "$\mathcal{O}_{3b} \cdot \tilde{H}^{i} H^{j}  \tilde{H}^{k} H^{l} \cdot \epsilon_{ij} \epsilon_{kl}$");
   ("81a", "$\mathcal{O}_{6a} \cdot \tilde{H}^{i} H^{j} \cdot \epsilon_{ij}$");
   ("81b", "$\mathcal{O}_{6b} \cdot \tilde{H}^{i} H^{j} \cdot \epsilon_{ij}$");
   ("81c", "$\mathcal{O}_{4a} \cdot \tilde{H}^{i} H^{j}  \tilde{H}^{k} H^{l} \cdot \epsilon_{ij} \epsilon_{kl}$");
   ("81d", "$\mathcal{O}_{4b} \cdot \tilde{H}^{i} H^{j}  \tilde{H}^{k} H^{l} \cdot \epsilon_{ij} \epsilon_{kl}$");
   ("82", "$L^{i} \tilde{L}^{j} \bar{e}^{\dagger} \bar{e}^{\dagger} \bar{u}^{\dagger} \bar{d} H^{k} H^{l} \cdot \epsilon_{ik} \epsilon_{jl}$");
   ("D1", "$(DL)^{i} L^{j} {\bar{u}^{\dagger}} \bar{d}  \cdot  \epsilon_{i j}$");
   ("D2a", "$(DL)^{i} L^{j} (DH)^{k} H^{l}  \cdot  \epsilon_{i j} \epsilon_{k l}$");
   ("D2b", "$(DL)^{i} L^{j} (DH)^{k} H^{l}  \cdot  \epsilon_{i l} \epsilon_{j k}$");
   ("D2c", "$(DL)^{i} L^{j} (DH)^{k} H^{l}  \cdot  \epsilon_{i k} \epsilon_{j l}$");
   ("D3", "$L^{i} {\bar{e}^{\dagger}} H^{j} H^{k} (DH)^{l}  \cdot  \epsilon_{i k} \epsilon_{j l}$");
   ("D4a", "$L^{i} L^{j} (DL)^{k} (D\bar{e}) H^{l}  \cdot  \epsilon_{i k} \epsilon_{j l}$");
   ("D4b", "$L^{i} L^{j} (DL)^{k} (D\bar{e}) H^{l}  \cdot  \epsilon_{i j} \epsilon_{k l}$");
   ("D5a", "$L^{i} L^{j} (DL)^{k} \tilde{L}^{l} H^{m} H^{n}  \cdot  \epsilon_{i l} \epsilon_{j m} \epsilon_{k n}$");
   ("D5b", "$L^{i} L^{j} (DL)^{k} \tilde{L}^{l} H^{m} H^{n}  \cdot  \epsilon_{i k} \epsilon_{j m} \epsilon_{l n}$");
   ("D5c", "$L^{i} L^{j} (DL)^{k} \tilde{L}^{l} H^{m} H^{n}  \cdot  \epsilon_{i j} \epsilon_{k m} \epsilon_{l n}$");
   ("D5d", "$L^{i} L^{j} (DL)^{k} \tilde{L}^{l} H^{m} H^{n}  \cdot  \epsilon_{i m} \epsilon_{j n} \epsilon_{k l}$");
   ("D6a", "$L^{i} L^{j} \bar{e} {\bar{e}^{\dagger}} (DH)^{k} H^{l}  \cdot  \epsilon_{i k} \epsilon_{j l}$");
   ("D6b", "$L^{i} L^{j} \bar{e} {\bar{e}^{\dagger}} (DH)^{k} H^{l}  \cdot  \epsilon_{i j} \epsilon_{k l}$");
   ("D7a", "$(DL)^{i} L^{j} Q^{k} (D\bar{d}) H^{l}  \cdot  \epsilon_{i j} \epsilon_{k l}$");
   ("D7b", "$(DL)^{i} L^{j} Q^{k} (D\bar{d}) H^{l}  \cdot  \epsilon_{i k} \epsilon_{j l}$");
   ("D7c", "$(DL)^{i} L^{j} Q^{k} (D\bar{d}) H^{l}  \cdot  \epsilon_{i l} \epsilon_{j k}$");
   ("D8a", "$L^{i} L^{j} Q^{k} \tilde{Q}^{l} (DH)^{m} H^{n}  \cdot  \epsilon_{i n} \epsilon_{j k} \epsilon_{l m}$");
   ("D8b", "$L^{i} L^{j} Q^{k} \tilde{Q}^{l} (DH)^{m} H^{n}  \cdot  \epsilon_{i n} \epsilon_{j l} \epsilon_{k m}$");
   ("D8c", "$L^{i} L^{j} Q^{k} \tilde{Q}^{l} (DH)^{m} H^{n}  \cdot  \epsilon_{i k} \epsilon_{j l} \epsilon_{m n}$");
   ("D8d", "$L^{i} L^{j} Q^{k} \tilde{Q}^{l} (DH)^{m} H^{n}  \cdot  \epsilon_{i m} \epsilon_{j k} \epsilon_{l n}$");
   ("D8e", "$L^{i} L^{j} Q^{k} \tilde{Q}^{l} (DH)^{m} H^{n}  \cdot  \epsilon_{i m} \epsilon_{j l} \epsilon_{k n}$");
   ("D8f", "$L^{i} L^{j} Q^{k} \tilde{Q}^{l} (DH)^{m} H^{n}  \cdot  \epsilon_{i m} \epsilon_{j n} \epsilon_{k l}$");
   ("D8g", "$L^{i} L^{j} Q^{k} \tilde{Q}^{l} (DH)^{m} H^{n}  \cdot  \epsilon_{i j} \epsilon_{k m} \epsilon_{l n}$");
   ("D8h", "$L^{i} L^{j} Q^{k} \tilde{Q}^{l} (DH)^{m} H^{n}  \cdot  \epsilon_{i j} \epsilon_{k n} \epsilon_{l m}$");
   ("D8i", "$L^{i} L^{j} Q^{k} \tilde{Q}^{l} (DH)^{m} H^{n}  \cdot  \epsilon_{i j} \epsilon_{k l} \epsilon_{m n}$");
   ("D9a", "$L^{i} L^{j} \bar{d} {\bar{d}^{\dagger}} (DH)^{k} H^{l}  \cdot  \epsilon_{i k} \epsilon_{j l}$");
   ("D9b", "$L^{i} L^{j} \bar{d} {\bar{d}^{\dagger}} (DH)^{k} H^{l}  \cdot  \epsilon_{i j} \epsilon_{k l}$");
   ("D10a", "$(DL)^{i} L^{j} {\bar{u}^{\dagger}} \bar{d} H^{k} \tilde{H}^{l}  \cdot  \epsilon_{i l} \epsilon_{j k}$");
   ("D10b", "$(DL)^{i} L^{j} {\bar{u}^{\dagger}} \bar{d} H^{k} \tilde{H}^{l}  \cdot  \epsilon_{i j} \epsilon_{k l}$");
   ("D10c", "$(DL)^{i} L^{j} {\bar{u}^{\dagger}} \bar{d} H^{k} \tilde{H}^{l}  \cdot  \epsilon_{i k} \epsilon_{j l}$");
   ("D11", "$(DL)^{i} L^{j} (D\bar{u}^{\dagger}) (D\bar{d})  \cdot  \epsilon_{i j}$");
   ("D12a", "$L^{i} L^{j} \bar{u} {\bar{u}^{\dagger}} (DH)^{k} H^{l}  \cdot  \epsilon_{i k} \epsilon_{j l}$");
   ("D12b", "$L^{i} L^{j} \bar{u} {\bar{u}^{\dagger}} (DH)^{k} H^{l}  \cdot  \epsilon_{i j} \epsilon_{k l}$");
   ("D13a", "$(DL)^{i} L^{j} \tilde{Q}^{k} (D{\bar{u}^{\dagger}}) H^{l}  \cdot  \epsilon_{i j} \epsilon_{k l}$");
   ("D13b", "$(DL)^{i} L^{j} \tilde{Q}^{k} (D{\bar{u}^{\dagger}}) H^{l}  \cdot  \epsilon_{i k} \epsilon_{j l}$");
   ("D14a", "$L^{i} {\bar{e}^{\dagger}} Q^{j} \bar{d} (DH)^{k} H^{l}  \cdot  \epsilon_{i k} \epsilon_{j l}$");
   ("D14b", "$L^{i} {\bar{e}^{\dagger}} Q^{j} \bar{d} (DH)^{k} H^{l}  \cdot  \epsilon_{i l} \epsilon_{j k}$");
   ("D14c", "$L^{i} {\bar{e}^{\dagger}} Q^{j} \bar{d} (DH)^{k} H^{l}  \cdot  \epsilon_{i j} \epsilon_{k l}$");
   ("D15", "$(DL)^{i} {\bar{e}^{\dagger}} (D \bar{u}^{\dagger}) \bar{d} H^{j}  \cdot  \epsilon_{i j}$");
   ("D16a", "$L^{i} {\bar{e}^{\dagger}} \tilde{Q}^{j} {\bar{u}^{\dagger}} (DH)^{k} H^{l}  \cdot  \epsilon_{i k} \epsilon_{j l}$");
   ("D16b", "$L^{i} {\bar{e}^{\dagger}} \tilde{Q}^{j} {\bar{u}^{\dagger}} (DH)^{k} H^{l}  \cdot  \epsilon_{i l} \epsilon_{j k}$");
   ("D16c", "$L^{i} {\bar{e}^{\dagger}} \tilde{Q}^{j} {\bar{u}^{\dagger}} (DH)^{k} H^{l}  \cdot  \epsilon_{i j} \epsilon_{k l}$");
   ("D17", "${\bar{e}^{\dagger}} {\bar{e}^{\dagger}} {\bar{u}^{\dagger}} \bar{d} (DH)^{i} H^{j}  \cdot  \epsilon_{i j}$");
   ("D18a", "$(DL)^{i} L^{j} H^{k} H^{l} (DH)^{m} \tilde{H}^{n}  \cdot  \epsilon_{i k} \epsilon_{j m} \epsilon_{l n}$");
   ("D18b", "$(DL)^{i} L^{j} H^{k} H^{l} (DH)^{m} \tilde{H}^{n}  \cdot  \epsilon_{i k} \epsilon_{j l} \epsilon_{m n}$");
   ("D18c", "$(DL)^{i} L^{j} H^{k} H^{l} (DH)^{m} \tilde{H}^{n}  \cdot  \epsilon_{i m} \epsilon_{j l} \epsilon_{k n}$");
   ("D18d", "$(DL)^{i} L^{j} H^{k} H^{l} (DH)^{m} \tilde{H}^{n}  \cdot  \epsilon_{i j} \epsilon_{k m} \epsilon_{l n}$");
   ("D18e", "$(DL)^{i} L^{j} H^{k} H^{l} (DH)^{m} \tilde{H}^{n}  \cdot  \epsilon_{i n} \epsilon_{j l} \epsilon_{k m}$");
   ("D18f", "$(DL)^{i} L^{j} H^{k} H^{l} (DH)^{m} \tilde{H}^{n}  \cdot  \epsilon_{i l} \epsilon_{j n} \epsilon_{k m}$");
   ("D19a", "$(DL)^{i} L^{j} (D^{3} H)^{k} H^{l}  \cdot  \epsilon_{i j} \epsilon_{k l}$");
   ("D19b", "$(DL)^{i} L^{j} (D^{3} H)^{k} H^{l}  \cdot  \epsilon_{i l} \epsilon_{j k}$");
   ("D19c", "$(DL)^{i} L^{j} (D^{3} H)^{k} H^{l}  \cdot  \epsilon_{i k} \epsilon_{j l}$");
   ("D20", "$L^{i} {\bar{e}^{\dagger}} H^{j} H^{k} H^{l} (DH)^{m} \tilde{H}^{n}  \cdot  \epsilon_{i l} \epsilon_{j m} \epsilon_{k n}$");
   ("D21", "$(DL)^{i} (D\bar{e}^{\dagger}) H^{j} H^{k} (DH)^{l}  \cdot  \epsilon_{i k} \epsilon_{j l}$");
   ("D22", "${\bar{e}^{\dagger}} {\bar{e}^{\dagger}} (DH)^{i} (DH)^{j} H^{k} H^{l}  \cdot  \epsilon_{i k} \epsilon_{j l}$")].
