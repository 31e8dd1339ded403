(** Which nodes of a tree can be computed from which others. *)
From Coq Require Import List NArith.
Import ListNotations.
Open Scope N_scope.

(** A node can be computed when it is given or both nodes below it can be computed. *)
Inductive computable (known : list N) : N -> Prop :=
| Given i : In i known -> computable known i
| Combined i : computable known (2 * i) -> computable known (2 * i + 1) -> computable known i.
