(** Multiproofs, stated with paths in a binary tree. Independent of the model in Multiproofs.v.
    Node 1 is the root; the children of node [g] are [2 * g] and [2 * g + 1]. *)
From Coq Require Import List NArith Bool Sorted.
From Verif Require Import Prelude.
Import ListNotations.
Open Scope N_scope.

(** [g] lies strictly above [i]. *)
Definition ancestor (g i : N) : Prop := 1 <= g /\ exists k, 0 < k /\ g = i / 2 ^ k.

(** [j] is one of the indices or lies above one of them, and is not the root. *)
Definition on_path (indices : list N) (j : N) : Prop :=
  2 <= j /\ exists i, In i indices /\ (j = i \/ ancestor j i).

Definition spec_sibling (j : N) : N := if N.even j then j + 1 else j - 1.

(** The nodes needed beside the indices to compute the root. *)
Definition helper (indices : list N) (j : N) : Prop :=
  on_path indices (spec_sibling j) /\ ~ on_path indices j.

Definition helper_list (indices hs : list N) : Prop :=
  StronglySorted (fun a b => b < a) hs /\ forall j, In j hs <-> helper indices j.

(** The node given for index [g]; of several ones the last. *)
Fixpoint given (l : list (N * bytes)) (g : N) : option bytes :=
  match l with
  | [] => None
  | (k, v) :: r =>
      match given r g with
      | Some w => Some w
      | None => if k =? g then Some v else None
      end
  end.

Section Hash.
  Context (H : bytes -> bytes).

  (** [opens l g v]: [v] is the node at [g], or is computed from the nodes below [g]. *)
  Inductive opens (l : list (N * bytes)) : N -> bytes -> Prop :=
  | opens_given g v : given l g = Some v -> opens l g v
  | opens_pair g a b : given l g = None ->
      opens l (2 * g) a -> opens l (2 * g + 1) b -> opens l g (H (a ++ b)).

  (** [x] is hashed on the way to the root. *)
  Definition opened_input (l : list (N * bytes)) (x : bytes) : Prop :=
    exists g a b, 1 <= g /\ given l g = None /\ opens l (2 * g) a /\ opens l (2 * g + 1) b /\ x = a ++ b.

  (** [M] labels the nodes of a Merkle tree in which the nodes above the indices are inner nodes. *)
  Definition merkle_over (indices : list N) (M : N -> bytes) : Prop :=
    forall i g, In i indices -> ancestor g i -> M g = H (M (2 * g) ++ M (2 * g + 1)).

  (** [y] is hashed in the tree [M], at a node above an index. *)
  Definition tree_input (indices : list N) (M : N -> bytes) (y : bytes) : Prop :=
    exists i g, In i indices /\ ancestor g i /\ y = M (2 * g) ++ M (2 * g + 1).
End Hash.

(** No index is given twice or lies above another one. *)
Definition independent (indices : list N) : Prop :=
  NoDup indices /\ forall i j, In i indices -> In j indices -> ~ ancestor i j.
