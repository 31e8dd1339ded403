(** Verification of proofs with a counter for the calls of the hash function. As in Cost.v, each
    definition repeats the one of Proofs.v or Multiproofs.v with [hash] in place of [H]. *)
From Coq Require Import List NArith Bool.
From Coq Require Import Strings.Byte.
From Verif Require Import Prelude Types Merkleize Proofs Multiproofs Cost.
Import ListNotations.
Open Scope N_scope.

Section Hash.
  Context (H : bytes -> bytes) (oc : bool) (enum : list N -> list N).

  (** ** Single proofs *)

  Fixpoint derive_root_c (i : N) (nodes : list bytes) (index : N) (derived_root : bytes) : tally bytes :=
    match nodes with
    | [] => free (Ok derived_root)
    | node :: r =>
        run p <- free (upow2 oc i);
        run q <- free (udiv index p);
        run derived_root <- (if negb (q mod 2 =? 0) then hash H (node ++ derived_root)
                             else hash H (derived_root ++ node));
        derive_root_c (i + 1) r index derived_root
    end.

  Definition is_valid_merkle_branch_c (leaf : bytes) (branch : list bytes) (depth index : N) (root : bytes)
    : tally unit :=
    if negb (blen branch =? depth) then free (Err InvalidProof)
    else
      run derived_root <- derive_root_c 0 branch index leaf;
      free (if bytes_eqb derived_root root then Ok tt else Err InvalidProof).

  Definition verify_c (p : Proof_) (root : bytes) : tally unit :=
    match log_2 (proof_index p) with
    | None => free (Err InvalidGeneralizedIndex)
    | Some depth =>
        run index <- free (get_subtree_index oc (proof_index p));
        is_valid_merkle_branch_c (leaf p) (branch p) depth index root
    end.

  (** ** The verifier of multiproofs.rs for one index *)

  Fixpoint fold_branch_c (i : N) (nodes : list bytes) (index : N) (result : bytes) : tally bytes :=
    match nodes with
    | [] => free (Ok result)
    | next :: r =>
        run bit <- free (get_bit oc index i);
        run result <- (if bit : bool then hash H (next ++ result) else hash H (result ++ next));
        fold_branch_c (i + 1) r index result
    end.

  Definition verify_merkle_proof_c (leaf : bytes) (proof : list bytes) (index : N) (root : bytes) : tally unit :=
    run path_length <- free (get_path_length index);
    run r <- (if negb (path_length =? blen proof) then free (Err InvalidProof)
              else fold_branch_c 0 proof index leaf);
    free (if bytes_eqb r root then Ok tt else Err InvalidProof).

  (** ** Multiproofs *)

  Fixpoint combine_nodes_c (fuel : nat) (todo : list N) (objects : list (N * bytes)) : tally (list (N * bytes)) :=
    match todo with
    | [] => free (Ok objects)
    | key :: rest =>
        match fuel with
        | O => free (Panic PFuel)
        | S fuel =>
            let key_present := contains_key objects key in
            let sibling_present := contains_key objects (sibling key) in
            let parent_index := parent key in
            let parent_missing := negb (contains_key objects parent_index) in
            let should_compute := key_present && sibling_present && parent_missing in
            if should_compute then
              let right_index := N.lor key 1 in
              let left_index := sibling right_index in
              match map_get objects left_index, map_get objects right_index with
              | Some left_input, Some right_input =>
                  run h <- hash H (left_input ++ right_input);
                  combine_nodes_c fuel (rest ++ [parent_index]) (map_insert objects parent_index h)
              | _, _ => free (Panic PExpect)
              end
            else combine_nodes_c fuel rest objects
        end
    end.

  Definition calculate_multi_merkle_root_c (leaves proof : list bytes) (indices : list N) : tally bytes :=
    if negb (blen leaves =? blen indices) then free (Err InvalidProof)
    else
      run helper_indices <- free (get_helper_indices enum indices);
      if negb (blen proof =? blen helper_indices) then free (Err InvalidProof)
      else
        let objects := insert_all [] (combine indices leaves) in
        let objects := insert_all objects (combine helper_indices proof) in
        let keys := sort_desc (enum (keys_of objects)) in
        run objects <- combine_nodes_c (work keys) keys objects;
        free (match map_get objects 1 with
              | Some root => Ok root
              | None => Panic PExpect
              end).

  Definition verify_merkle_multiproof_c (leaves proof : list bytes) (indices : list N) (root : bytes) : tally unit :=
    run r <- calculate_multi_merkle_root_c leaves proof indices;
    free (if bytes_eqb r root then Ok tt else Err InvalidProof).
End Hash.
