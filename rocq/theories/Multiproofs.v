(** Model of ssz-rs/src/merkleization/multiproofs.rs.

    [HashSet] and [HashMap] are lists without repeated keys; the order in which they enumerate
    their keys is an arbitrary function [enum] (theorems assume only that it permutes). *)
From Coq Require Import List NArith Bool.
From Coq Require Import Strings.Byte.
From Verif Require Import Prelude Types Bitvec Ser De Impls Merkleize Proofs.
Import ListNotations.
Open Scope N_scope.

(** [while focus > 1 { focus = step(focus); result.push(focus); }], multiproofs.rs:14-17, 25-28 *)
Fixpoint collect_up (fuel : nat) (step : N -> N) (focus : N) (result : list N) : mres (list N) :=
  if 1 <? focus then
    match fuel with
    | O => Panic PFuel
    | S fuel => let focus := step focus in collect_up fuel step focus (result ++ [focus])
    end
  else Ok result.

(** [result.truncate(result.len() - 1)] *)
Definition drop_last (result : list N) : list N := firstn (length result - 1) result.

(** multiproofs.rs:11-20 *)
Definition get_branch_indices (tree_index : N) : mres (list N) :=
  let focus := sibling tree_index in
  do result <- collect_up (N.to_nat (N.size focus)) (fun f => sibling (parent f)) focus [focus];
  Ok (drop_last result).

(** multiproofs.rs:22-31 *)
Definition get_path_indices (tree_index : N) : mres (list N) :=
  do result <- collect_up (N.to_nat (N.size tree_index)) parent tree_index [tree_index];
  Ok (drop_last result).

(** [HashSet::insert], [extend], [difference] *)
Definition memN (x : N) (l : list N) : bool := existsb (N.eqb x) l.
Definition set_insert (s : list N) (x : N) : list N := if memN x s then s else s ++ [x].
Definition set_extend (s l : list N) : list N := fold_left set_insert l s.

(** [sort_by(|a, b| b.cmp(a))]: a stable sort in decreasing order. *)
Fixpoint insert_desc (x : N) (l : list N) : list N :=
  match l with
  | [] => [x]
  | y :: r => if y <=? x then x :: l else y :: insert_desc x r
  end.
Definition sort_desc (l : list N) : list N := fold_right insert_desc [] l.

(** [HashMap::get], [insert] *)
Fixpoint map_get (m : list (N * bytes)) (k : N) : option bytes :=
  match m with
  | [] => None
  | (x, v) :: r => if x =? k then Some v else map_get r k
  end.
Fixpoint map_insert (m : list (N * bytes)) (k : N) (v : bytes) : list (N * bytes) :=
  match m with
  | [] => [(k, v)]
  | (x, w) :: r => if x =? k then (k, v) :: r else (x, w) :: map_insert r k v
  end.
Definition contains_key (m : list (N * bytes)) (k : N) : bool :=
  match map_get m k with Some _ => true | None => false end.
Definition keys_of (m : list (N * bytes)) : list N := map fst m.

Section Hash.
  Context (H : bytes -> bytes) (oc : bool) (enum : list N -> list N).

  (** multiproofs.rs:33-46 *)
  Definition get_helper_indices (indices : list N) : mres (list N) :=
    do (all_helper_indices, all_path_indices) <-
      foldM (fun s index =>
               do b <- get_branch_indices index;
               do p <- get_path_indices index;
               Ok (set_extend (fst s) b, set_extend (snd s) p)) ([], []) indices;
    let all_branch_indices :=
      filter (fun i => negb (memN i all_path_indices)) (enum all_helper_indices) in
    Ok (sort_desc all_branch_indices).

  (** The loop at multiproofs.rs:60-69. *)
  Fixpoint fold_branch (i : N) (nodes : list bytes) (index : N) (result : bytes) : mres bytes :=
    match nodes with
    | [] => Ok result
    | next :: r =>
        do bit <- get_bit oc index i;
        let result := if bit : bool then H (next ++ result) else H (result ++ next) in
        fold_branch (i + 1) r index result
    end.

  (** multiproofs.rs:48-71 *)
  Definition calculate_merkle_root (leaf : bytes) (proof : list bytes) (index : N) : mres bytes :=
    do path_length <- get_path_length index;
    if negb (path_length =? blen proof) then Err InvalidProof
    else fold_branch 0 proof index leaf.

  (** multiproofs.rs:73-84 *)
  Definition verify_merkle_proof (leaf : bytes) (proof : list bytes) (index : N) (root : bytes)
    : mres unit :=
    do r <- calculate_merkle_root leaf proof index;
    if bytes_eqb r root then Ok tt else Err InvalidProof.

  (** The work-list loop at multiproofs.rs:109-130; [todo] is [keys[pos..]]. *)
  Fixpoint combine_nodes (fuel : nat) (todo : list N) (objects : list (N * bytes))
    : mres (list (N * bytes)) :=
    match todo with
    | [] => Ok objects
    | key :: rest =>
        match fuel with
        | O => Panic PFuel
        | S fuel =>
            let key_present := contains_key objects key in
            let sibling_present := contains_key objects (sibling key) in
            let parent_index := parent key in
            let parent_missing := negb (contains_key objects parent_index) in
            let should_compute := key_present && sibling_present && parent_missing in
            if should_compute then
              let right_index := N.lor key 1 in
              let left_index := sibling right_index in
              match map_get objects left_index, map_get objects right_index with
              | Some left_input, Some right_input =>
                  let objects := map_insert objects parent_index (H (left_input ++ right_input)) in
                  combine_nodes fuel (rest ++ [parent_index]) objects
              | _, _ => Panic PExpect
              end
            else combine_nodes fuel rest objects
        end
    end.

  Definition insert_all (m : list (N * bytes)) (l : list (N * bytes)) : list (N * bytes) :=
    fold_left (fun m kv => map_insert m (fst kv) (snd kv)) l m.

  (** An upper bound for the number of loop iterations. *)
  Definition work (keys : list N) : nat := N.to_nat (sumN (map (fun k => 1 + N.size k) keys)).

  (** multiproofs.rs:86-136 *)
  Definition calculate_multi_merkle_root (leaves proof : list bytes) (indices : list N)
    : mres bytes :=
    if negb (blen leaves =? blen indices) then Err InvalidProof
    else
      do helper_indices <- get_helper_indices indices;
      if negb (blen proof =? blen helper_indices) then Err InvalidProof
      else
        let objects := insert_all [] (combine indices leaves) in
        let objects := insert_all objects (combine helper_indices proof) in
        let keys := sort_desc (enum (keys_of objects)) in
        do objects <- combine_nodes (work keys) keys objects;
        match map_get objects 1 with
        | Some root => Ok root
        | None => Panic PExpect
        end.

  (** multiproofs.rs:138-149 *)
  Definition verify_merkle_multiproof (leaves proof : list bytes) (indices : list N)
      (root : bytes) : mres unit :=
    do r <- calculate_multi_merkle_root leaves proof indices;
    if bytes_eqb r root then Ok tt else Err InvalidProof.
End Hash.
