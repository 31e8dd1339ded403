(** What lists with bounds too large for [usize] arithmetic get instead of their roots. Independent of the
    model. *)
From Coq Require Import List NArith.
From Verif Require Import Prelude SpecMerkle.
Import ListNotations.
Open Scope N_scope.

Section Hash.
  Context (H : bytes -> bytes).

  (** The first [m] chunks, followed by hashes of two zero chunks for ever. *)
  Definition half_leaves (cs : list bytes) (m i : N) : bytes :=
    if i <? m then chunk_at cs i else H (zero_chunk ++ zero_chunk).
End Hash.
