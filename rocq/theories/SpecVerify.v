(** What the verification of a proof costs, stated without the code. *)
From Coq Require Import List NArith.
From Verif Require Import SpecMulti.
Import ListNotations.
Open Scope N_scope.

(** The nodes that have to be computed: above an index, and not one of the indices. *)
Definition to_compute (indices : list N) (g : N) : Prop :=
  (exists i, In i indices /\ ancestor g i) /\ ~ In g indices.

(** [l] lists them, each once. *)
Definition work_list (indices l : list N) : Prop :=
  NoDup l /\ forall g, In g l <-> to_compute indices g.

(** The number of nodes above a node, and above each of several nodes. *)
Definition node_depth (i : N) : N := N.log2 i.
Definition depths (indices : list N) : N := fold_right (fun i s => node_depth i + s) 0 indices.
