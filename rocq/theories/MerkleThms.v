(** Proofs of the Merkle properties. The statements are repeated in PropMerkle.v. *)
From Coq Require Import String.
From Coq Require Import List NArith ZArith Bool Lia ZifyBool ZifyNat ZifyN Permutation.
From Coq Require Import Strings.Byte.
From Verif Require Import Prelude Types Bitvec Ser De Impls Api Merkleize Proofs MerkImpls Multiproofs Sha256
  Compare Valid SpecSer SpecApi SpecMerkle SpecPack SpecWrite SpecAlike SpecRoot SpecMulti SpecMinimal SpecSize SpecCost Cost SpecProve SpecFound SpecTree SpecBeside SpecJoin SpecLater SpecSummary SpecHuge CostVerify SpecVerify
  CompareProof Lib BitsLib SerProof SerSpec RoundTrip ChunkLib MerkProof TreeProof RootProof GindexProof ProveProof LeafProof BindProof MultiProof MinimalProof PackProof PackGindex PackProve WriteProof RootAny AlikeProof AlikeRoot ProbeProof FoundProof ValueTree BesideProof JoinProof GrowProof LaterProof SummaryProof HugeProof SizeProof CostProof CostProve CostVerifyProof CodecFacts SpecModes ModesProof Samples.
Import ListNotations.
Open Scope N_scope.

Ltac Zify.zify_post_hook ::= Z.div_mod_to_equations.

(** ** SHA-256 gives 32 bytes *)

Lemma sha_round_length s kw : length (sha_round s kw) = length s.
Proof. do 9 (destruct s as [|? s]; [reflexivity|]). reflexivity. Qed.

Lemma sha_rounds_length l : forall s, length (fold_left sha_round l s) = length s.
Proof. induction l as [|x l IH]; intros s; cbn [fold_left]; [reflexivity|]. rewrite IH. apply sha_round_length. Qed.

Lemma compress_length s b : length (compress s b) = length s.
Proof. unfold compress. rewrite map_length, combine_length, sha_rounds_length. apply Nat.min_id. Qed.

Lemma sha_blocks_length n : forall s m, length (sha_blocks n s m) = length s.
Proof. induction n as [|n IH]; intros s m; cbn [sha_blocks]; [reflexivity|]. rewrite IH. apply compress_length. Qed.

Lemma sha256_blen x : blen (sha256 x) = 32.
Proof.
  unfold sha256. rewrite (concat_same_blen 4).
  - rewrite blen_map. unfold blen. rewrite sha_blocks_length. reflexivity.
  - rewrite Forall_map, Forall_forall. intros n _. unfold be_bytes. rewrite blen_rev. apply blen_le_bytes.
Qed.

(** The static table of the library built with the hash function [H]. *)
Notation table H := (CONTEXT_of (compute_zero_hashes H)).

Lemma c23_merkleize :
  forall H : bytes -> bytes, (forall x, blen (H x) = 32) -> forall oc (cs : list bytes),
  Forall (fun c : bytes => blen c = 32) cs -> blen cs <= 2 ^ 63 ->
  merkleize H (CONTEXT_of (compute_zero_hashes H)) oc (concat cs) None =
    Ok (spec_merkleize H (tree_depth (blen cs)) cs) /\
  forall limit, blen cs <= limit -> limit <= 2 ^ 63 ->
    merkleize H (CONTEXT_of (compute_zero_hashes H)) oc (concat cs) (Some limit) =
      Ok (spec_merkleize H (tree_depth limit) cs).
Proof.
  intros H Hlen oc cs HF HB. pose proof (CONTEXT_good H Hlen) as HC. split.
  - apply merkleize_none; auto.
  - intros limit H1 H2. rewrite merkleize_some by auto. replace (limit <? blen cs) with false by lia. reflexivity.
Qed.

Lemma c24_limit :
  forall H : bytes -> bytes, (forall x, blen (H x) = 32) -> forall oc (cs : list bytes) limit,
  Forall (fun c : bytes => blen c = 32) cs -> blen cs <= 2 ^ 63 -> limit <= 2 ^ 63 ->
  let r := merkleize H (CONTEXT_of (compute_zero_hashes H)) oc (concat cs) (Some limit) in
  (r = Err (InputExceedsLimit limit) <-> limit < blen cs) /\
  (limit < blen cs \/ exists root, r = Ok root) /\ forall p, r <> Panic p.
Proof.
  intros H Hlen oc cs limit HF HB HL r. pose proof (CONTEXT_good H Hlen) as HC. unfold r.
  rewrite merkleize_some by auto. destruct (N.ltb_spec limit (blen cs)) as [L|L].
  - split; [tauto|]. split; [auto|discriminate].
  - split; [split; [discriminate|lia]|]. split; [eauto|discriminate].
Qed.

Lemma c25_zero_hashes :
  forall H : bytes -> bytes, (forall x, blen (H x) = 32) ->
  exists b, compute_zero_hashes H = Ok b /\
    forall d, (d < 64)%nat -> context_index b (N.of_nat d) = Ok (subtree H d (fun _ => zero_chunk)).
Proof.
  exact compute_zero_hashes_good.
Qed.

Lemma c26_compute_merkle_tree :
  forall H : bytes -> bytes, (forall x, blen (H x) = 32) -> forall oc D (cs : list bytes),
  (D <= 57)%nat -> Forall (fun c : bytes => blen c = 32) cs -> blen cs <= 2 ^ N.of_nat D ->
  exists tree, compute_merkle_tree H oc (concat cs) (2 ^ N.of_nat D) = Ok tree /\
    (forall g, 1 <= g < 2 ^ N.of_nat D -> exists a b,
       tree_index oc tree (2 * g) = Ok a /\ tree_index oc tree (2 * g + 1) = Ok b /\
       tree_index oc tree g = Ok (H (a ++ b))) /\
    (forall i, i < 2 ^ N.of_nat D -> tree_index oc tree (2 ^ N.of_nat D + i) = Ok (chunk_at cs i)) /\
    tree_index oc tree 1 =
      merkleize H (CONTEXT_of (compute_zero_hashes H)) oc (concat cs) (Some (2 ^ N.of_nat D)).
Proof.
  intros H Hlen oc D cs HD HF HB. pose proof (CONTEXT_good H Hlen) as HC.
  destruct (compute_merkle_tree_ok H Hlen oc D cs HF HB HD) as (T & E & HT).
  exists (concat T). split; [exact E|].
  assert (Hn : 2 ^ N.of_nat D <= 2 ^ 57) by (apply N.pow_le_mono_r; lia).
  assert (Hp : 1 <= 2 ^ N.of_nat D) by (pose proof (pow2_pos (N.of_nat D)); lia).
  assert (HI : forall g, 1 <= g < 2 * 2 ^ N.of_nat D -> tree_index oc (concat T) g = Ok (heap H D (chunk_at cs) g)).
  { intros g Hg. change (2 ^ 57) with 144115188075855872 in Hn.
    assert (HU : USIZE = 18446744073709551616) by reflexivity.
    apply (tree_index_ok oc T (2 * 2 ^ N.of_nat D)); auto; lia. }
  split; [|split].
  - intros g Hg. exists (heap H D (chunk_at cs) (2 * g)), (heap H D (chunk_at cs) (2 * g + 1)).
    rewrite !HI by lia. rewrite (heap_node H Hlen D _ g) by lia. auto.
  - intros i Hi. rewrite HI by lia. rewrite (heap_leaf H Hlen) by exact Hi. reflexivity.
  - rewrite HI by lia. rewrite (heap_root H Hlen). change (2 ^ 57) with 144115188075855872 in Hn.
    rewrite merkleize_some by (auto; change (2 ^ 63) with 9223372036854775808; lia).
    replace (2 ^ N.of_nat D <? blen cs) with false by lia. unfold spec_merkleize.
    replace (tree_depth (2 ^ N.of_nat D)) with D; [reflexivity|]. unfold tree_depth. rewrite N.log2_up_pow2 by lia. lia.
Qed.

Lemma c27_hash_tree_root :
  forall H : bytes -> bytes, (forall x, blen (H x) = 32) -> forall oc t v,
  legal t = true -> regular t = true -> valid t v ->
  ssz_hash_tree_root H oc t v = Ok (spec_root H t v).
Proof.
  intros H Hlen oc t v HL HR HV. unfold ssz_hash_tree_root, ssz.
  pose proof (CONTEXT_good H Hlen) as HC. exact (proj1 (hash_tree_root_ok H Hlen _ HC oc t HL HR v HV)).
Qed.

Lemma c28_arrays_refuted :
  exists t v, legal t = true /\ valid t v /\
  forall oc, exists r, ssz_hash_tree_root sha256 oc t v = Ok r /\ r <> spec_root sha256 t v.
Proof.
  exists (TVector (TArray (TUint U8) 2) 2), (VSeq [VSeq [VUint 1; VUint 2]; VSeq [VUint 3; VUint 4]]).
  split; [reflexivity|]. split; [solve_valid|]. intros oc. exists (chunk_at (spec_pack [x01; x02; x03; x04]) 0).
  split; [destruct oc; vm_compute; reflexivity|vm_compute; discriminate].
Qed.

Lemma c28_newtypes_refuted :
  exists t v, legal t = true /\ valid t v /\
  forall oc, exists r, ssz_hash_tree_root sha256 oc t v = Ok r /\ r <> spec_root sha256 t v.
Proof.
  exists (TVector (TNewtype (TUint U8)) 2), (VSeq [VNewtype (VUint 1); VNewtype (VUint 2)]).
  split; [reflexivity|]. split; [solve_valid|]. intros oc. exists (sha256 (num_chunk 1 ++ num_chunk 2)).
  split; [destruct oc; vm_compute; reflexivity|vm_compute; discriminate].
Qed.

Lemma c28_partial :
  forall H : bytes -> bytes, (forall x, blen (H x) = 32) -> forall oc t v,
  legal t = true -> sized t = true -> valid t v ->
  spec_root H t v = root_with spec_basic H t v /\
  ssz_hash_tree_root H oc t v = Ok (root_with packed H t v).
Proof.
  intros H Hlen oc t v HL HS HV. split; [reflexivity|]. unfold ssz_hash_tree_root, ssz.
  pose proof (CONTEXT_good H Hlen) as HC. exact (proj1 (with_hash_tree_root_ok H Hlen _ HC oc t HL HS v HV)).
Qed.

Lemma c28_exact_partial :
  forall H : bytes -> bytes, (forall x, blen (H x) = 32) -> forall oc t v,
  legal t = true -> sized t = true -> typed t v -> (forall u y, part t v u y -> in_memory u y) ->
  ssz_hash_tree_root H oc t v = match root_any H t v with inl r => Ok r | inr e => Err e end.
Proof.
  intros H Hlen oc t v HL HS HT HM.
  exact (proj1 (root_any_ok H Hlen _ (CONTEXT_good H Hlen) oc t HL HS v HT HM)).
Qed.

Lemma c29_binding_partial :
  forall H : bytes -> bytes, (forall x, blen (H x) = 32) -> forall oc1 oc2 t v w r,
  legal t = true -> regular t = true -> no_transparent t = true -> valid t v -> valid t w ->
  ssz_hash_tree_root H oc1 t v = Ok r -> ssz_hash_tree_root H oc2 t w = Ok r ->
  v = w \/ exists x y, hashed H t v x /\ hashed H t w y /\ x <> y /\ H x = H y.
Proof.
  intros H Hlen oc1 oc2 t v w r HL HR HN HV HW E1 E2.
  rewrite c27_hash_tree_root in E1, E2 by auto.
  apply (root_binds H Hlen t HL HN v w HV HW). congruence.
Qed.

Lemma c29_partial :
  forall H : bytes -> bytes, (forall x, blen (H x) = 32) -> forall oc1 oc2 t v w r,
  legal t = true -> sized t = true -> no_transparent t = true -> valid t v -> valid t w ->
  ssz_hash_tree_root H oc1 t v = Ok r -> ssz_hash_tree_root H oc2 t w = Ok r ->
  v = w \/ exists x y, hashed_with packed H t v x /\ hashed_with packed H t w y /\ x <> y /\ H x = H y.
Proof.
  intros H Hlen oc1 oc2 t v w r HL HS HN HV HW E1 E2.
  destruct (c28_partial H Hlen oc1 t v HL HS HV) as [_ F1]. destruct (c28_partial H Hlen oc2 t w HL HS HW) as [_ F2].
  apply (with_root_binds H Hlen t HS HL HN v w HV HW). congruence.
Qed.

Lemma c29_transparent_refuted :
  exists t v w, legal t = true /\ regular t = true /\ valid t v /\ valid t w /\ v <> w /\
  (forall oc, ssz_hash_tree_root sha256 oc t v = ssz_hash_tree_root sha256 oc t w /\
              exists r, ssz_hash_tree_root sha256 oc t v = Ok r) /\
  forall x, ~ hashed sha256 t v x.
Proof.
  exists (TTransparent [TUint U8; TUint U16]), (VVariant 0 (VUint 1)), (VVariant 1 (VUint 1)).
  split; [reflexivity|]. split; [reflexivity|]. split; [reflexivity|]. split; [reflexivity|].
  split; [discriminate|]. split.
  - intros oc. split; [vm_compute; reflexivity|]. eexists. vm_compute. reflexivity.
  - intros x (u & y & HP & HO).
    assert (HC : (u, y) = (TTransparent [TUint U8; TUint U16], VVariant 0 (VUint 1)) \/ (u, y) = (TUint U8, VUint 1)).
    { remember (TTransparent [TUint U8; TUint U16]) as t0. remember (VVariant 0 (VUint 1)) as v0.
      destruct HP as [? ?|? ? t1 v1 t2 v2 HI HP]; [left; subst; reflexivity|right]. subst.
      destruct HI as [[= <- <-]|[]]. remember (TUint U8) as t0. remember (VUint 1) as v0.
      destruct HP as [? ?|? ? t1 v1 t2 v2 HI HP]; subst; [reflexivity|destruct HI]. }
    destruct HC as [[= -> ->]|[= -> ->]]; destruct HO as [HO|HO]; exact HO.
Qed.

Lemma c30_refuted :
  exists u n l, legal (TList u n) = true /\ Forall (valid u) l /\ n < blen l /\
  forall oc, exists r, ssz_hash_tree_root sha256 oc (TList u n) (VSeq l) = Ok r.
Proof.
  exists (TUint U8), 1, [VUint 1; VUint 2]. split; [reflexivity|]. split; [repeat constructor|]. split; [reflexivity|].
  intros oc. eexists. destruct oc; vm_compute; reflexivity.
Qed.

Lemma c30_partial :
  forall H : bytes -> bytes, (forall x, blen (H x) = 32) -> forall oc u n l,
  legal (TList u n) = true -> regular (TList u n) = true -> Forall (valid u) l ->
  blen l * spec_item_length u < 2 ^ 64 ->
  let limit := (n * spec_item_length u + 31) / 32 in
  let needed := (blen l * spec_item_length u + 31) / 32 in
  ssz_hash_tree_root H oc (TList u n) (VSeq l) =
    (if limit <? needed then Err (InputExceedsLimit limit)
     else Ok (spec_mix_in H (spec_merkleize H (tree_depth limit) (seq_chunks H u l)) (blen l))) /\
  (spec_basic u = false -> limit = n /\ needed = blen l).
Proof.
  intros H Hlen oc u n l HL HR HV HB limit need. cbn [legal] in HL. rewrite !andb_true_iff in HL. destruct HL as [HL1 HL].
  cbn [regular] in HR. rewrite !andb_true_iff in HR. destruct HR as [[R1 R2] R3].
  pose proof (CONTEXT_good H Hlen) as HC. split.
  - assert (IH : forall v, valid u v -> hash_tree_root (ssz H oc u) v = Ok (spec_root H u v))
      by (intros; apply (c27_hash_tree_root H Hlen oc u v); auto).
    unfold ssz_hash_tree_root. change (ssz H oc (TList u n)) with (list_m H (table H) oc (ssz H oc u) n).
    cbn [list_m hash_tree_root list_hash_tree_root]. unfold ssz in *.
    rewrite (assemble_chunks_ok H Hlen) by auto. cbn [bind]. rewrite composite_simple.
    assert (HA : all32 (seq_chunks H u l)) by (apply seq_chunks_all32; auto).
    pose proof (seq_chunks_blen H u l HV) as HN. fold need in HN.
    assert (HI1 : spec_item_length u <> 0).
    { unfold spec_item_length. destruct (spec_basic u) eqn:E; [|lia]. pose proof (basic_size u E). lia. }
    assert (HL64 : blen l < 2 ^ 64) by nia.
    assert (HNB : need <= 2 ^ 63).
    { unfold need. change (2 ^ 64) with 18446744073709551616 in HB. change (2 ^ 63) with 9223372036854775808. lia. }
    assert (HX : limit <= 2 ^ 63 ->
      (do data_root <- merkleize H (table H) oc (concat (seq_chunks H u l)) (Some limit); mix_in_length H data_root (blen l)) =
      (if limit <? need then Err (InputExceedsLimit limit)
       else Ok (spec_mix_in H (spec_merkleize H (tree_depth limit) (seq_chunks H u l)) (blen l)))).
    { intros HLim. rewrite merkleize_some by (auto; rewrite HN; exact HNB). rewrite HN. destruct (limit <? need); [reflexivity|].
      cbn [bind]. unfold mix_in_length. apply mix_in_ok; auto. }
    unfold regular_element in R1. destruct (packed u) eqn:EP; cbn [negb].
    + unfold list_inherent_chunk_count. rewrite ser_simple, size_hint_spec.
      rewrite umul_ok by (unfold USIZE; lia). cbn [bind]. change BYTES_PER_CHUNK with 32. rewrite div_ceil_32.
      assert (E : n * fixed_size u = n * spec_item_length u).
      { unfold spec_item_length. destruct (spec_basic u); [reflexivity|]. cbn [Bool.eqb orb] in R1. f_equal. lia. }
      rewrite E in *. apply HX. unfold limit. change (2 ^ 64) with 18446744073709551616 in R3.
      change (2 ^ 63) with 9223372036854775808. lia.
    + assert (E : spec_item_length u = 32).
      { unfold spec_item_length. destruct (spec_basic u); [|reflexivity]. cbn [Bool.eqb orb] in R1. lia. }
      assert (EL : limit = n) by (unfold limit; rewrite E; lia). rewrite EL in *. apply HX. lia.
  - intros HBasic. unfold limit, need, spec_item_length. rewrite HBasic. lia.
Qed.

Lemma c30_all_types_partial :
  forall H : bytes -> bytes, (forall x, blen (H x) = 32) -> forall oc u n l,
  legal (TList u n) = true -> sized (TList u n) = true -> Forall (valid u) l -> n < blen l ->
  blen l * item_length_with packed u < 2 ^ 63 ->
  ((exists r, ssz_hash_tree_root H oc (TList u n) (VSeq l) = Ok r) <->
   packed u = true /\ (blen l * fixed_size u + 31) / 32 <= (n * fixed_size u + 31) / 32) /\
  (forall p, ssz_hash_tree_root H oc (TList u n) (VSeq l) <> Panic p).
Proof.
  intros H Hlen oc u n l HL HR HV HN HB. pose proof (CONTEXT_good H Hlen) as HC.
  cbn [legal] in HL. rewrite !andb_true_iff in HL. destruct HL as [HL1 HL].
  cbn [sized] in HR. fold (small u) in HR. rewrite !andb_true_iff in HR. destruct HR as [[R1 R2] R3].
  assert (IH : forall v, valid u v -> hash_tree_root (ssz H oc u) v = Ok (root_with packed H u v))
    by (intros; apply (with_hash_tree_root_ok H Hlen _ HC oc u); auto).
  unfold ssz_hash_tree_root. change (ssz H oc (TList u n)) with (list_m H (table H) oc (ssz H oc u) n).
  cbn [list_m hash_tree_root list_hash_tree_root]. unfold ssz in *.
  rewrite (with_assemble_chunks_ok H Hlen) by auto. cbn [bind]. rewrite composite_simple.
  assert (HA : all32 (seq_chunks_with packed H u l)) by (apply with_seq_chunks_all32; auto).
  pose proof (with_seq_chunks_blen H u l R1 HL HV) as HE.
  assert (HI1 : item_length_with packed u <> 0).
  { unfold item_length_with. destruct (packed u) eqn:EP; [|lia].
    assert (EV : spec_variable u = false) by (apply packed_fixed; auto). pose proof (legal_fixed_size u HL EV). lia. }
  assert (HL64 : blen l < 2 ^ 64).
  { assert (blen l <= blen l * item_length_with packed u) by nia.
    change (2 ^ 63) with 9223372036854775808 in *. change (2 ^ 64) with 18446744073709551616. lia. }
  assert (HCS : blen (seq_chunks_with packed H u l) <= 2 ^ 63)
    by (rewrite HE; change (2 ^ 63) with 9223372036854775808 in *; lia).
  unfold item_length_with in HE. destruct (packed u) eqn:EP; cbn [negb].
  - unfold list_inherent_chunk_count. rewrite ser_simple, size_hint_spec.
    rewrite umul_ok by (unfold USIZE; lia). cbn [bind]. change BYTES_PER_CHUNK with 32. rewrite div_ceil_32.
    rewrite merkleize_some; auto;
      [|change (2 ^ 64) with 18446744073709551616 in R3; change (2 ^ 63) with 9223372036854775808; lia].
    rewrite HE. destruct ((n * fixed_size u + 31) / 32 <? (blen l * fixed_size u + 31) / 32) eqn:EL; cbn [bind].
    + split; [|intros p; discriminate]. split; [intros [r Hr]; discriminate|]. intros [_ G]. lia.
    + unfold mix_in_length. rewrite (mix_in_ok H Hlen) by auto. split; [|intros p; discriminate].
      split; [intros _; split; [reflexivity|]|intros _; eexists; reflexivity]. lia.
  - rewrite merkleize_some; auto; [|lia]. rewrite HE.
    replace (n <? (blen l * 32 + 31) / 32) with true by lia. cbn [bind].
    split; [|intros p; discriminate]. split; [intros [r Hr]; discriminate|]. intros [G _]. discriminate.
Qed.

Lemma c31_partial :
  forall H oc t path g, along indexable (as_unions t) path = true -> spec_gindex (as_unions t) path = Some g -> g < 2 ^ 64 ->
  ssz_generalized_index H oc t path = Ok g.
Proof.
  intros H oc t path g HA HG Hg. unfold ssz_generalized_index, generalized_index, ssz.
  rewrite <- as_unions_gindex. apply gindex_ok; auto. reflexivity.
Qed.

Lemma c31_newtypes_refuted :
  exists t path g, legal t = true /\ spec_gindex t path = Some g /\
  forall H oc, exists g', ssz_generalized_index H oc t path = Ok g' /\ g' <> g.
Proof.
  exists (TVector (TNewtype (TUint U8)) 2), [Index 1], 1. split; [reflexivity|]. split; [reflexivity|].
  intros H oc. exists 3. split; [destruct oc; reflexivity|discriminate].
Qed.

Lemma c31_all_types_partial :
  forall H oc t path g, countable_path item_basic (as_unions t) path = true ->
  gindex_with item_basic (as_unions t) path = Some g -> g < 2 ^ 64 ->
  spec_gindex (as_unions t) path = gindex_with spec_basic (as_unions t) path /\
  ssz_generalized_index H oc t path = Ok g.
Proof.
  intros H oc t path g HA HG Hg. split; [reflexivity|]. unfold ssz_generalized_index, generalized_index, ssz.
  rewrite <- as_unions_gindex. apply with_gindex_ok; auto. reflexivity.
Qed.

Lemma c31_checked_partial :
  forall H t path g, ssz_generalized_index H true t path = Ok g <->
  countable_path item_basic (as_unions t) path = true /\
  gindex_with item_basic (as_unions t) path = Some g /\ g < 2 ^ 64.
Proof.
  intros H t path g. split.
  - intros HE. unfold ssz_generalized_index, generalized_index, ssz in HE. rewrite <- as_unions_gindex in HE.
    apply gindex_checked in HE; [exact HE|reflexivity|apply as_unions_along].
  - intros (HC & HG & HL). apply c31_all_types_partial; auto.
Qed.

Lemma c32_invalid_paths :
  forall H oc t path,
  match ssz_generalized_index H oc t path with
  | Ok _ => spec_path_error (as_unions t) path = None
  | Err e => spec_path_error (as_unions t) path = Some e
  | Panic p => oc = true /\ p = POverflow
  end /\
  (spec_path_error (as_unions t) path = None <-> exists g, spec_gindex (as_unions t) path = Some g).
Proof.
  intros H oc t path. split.
  - unfold ssz_generalized_index, generalized_index, ssz. rewrite <- as_unions_gindex.
    exact (gindex_errors H (table H) oc path (as_unions t) 1 (as_unions_along path t)).
  - unfold spec_gindex. rewrite (path_error_gindex path (as_unions t) 1).
    destruct (spec_gindex_from (as_unions t) 1 path) as [g|]; split; try congruence; eauto. intros [? [=]].
Qed.

Lemma c33_nesting :
  forall H oc t p q g, countable_path item_basic (as_unions t) (p ++ q) = true ->
  gindex_with item_basic (as_unions t) (p ++ q) = Some g -> g < 2 ^ 64 ->
  exists a u b,
    spec_target (as_unions t) p = Some u /\
    ssz_generalized_index H oc t p = Ok a /\
    ssz_generalized_index H oc u q = Ok b /\
    ssz_generalized_index H oc t (p ++ q) = Ok (graft a b) /\
    graft a b / 2 ^ N.log2 b = a.
Proof.
  intros H oc t p q g HA HG Hlt. set (t' := as_unions t) in *.
  destruct (countable_path_app item_basic p t' q HA) as [HAp HAq].
  pose proof HG as HG'. unfold gindex_with in HG'. rewrite with_gindex_app in HG'.
  destruct (spec_target t' p) as [u|] eqn:ET; [|discriminate].
  destruct (gindex_from_with item_basic t' 1 p) as [a|] eqn:EA; [|discriminate].
  rewrite with_gindex_from_graft in HG'. destruct (gindex_with item_basic u q) as [b|] eqn:EB; [|discriminate].
  cbn [option_map] in HG'. assert (Eg : g = graft a b) by congruence. clear HG'.
  pose proof (with_gindex_from_ge _ _ _ _ EA) as Ha. pose proof (with_gindex_from_ge _ _ _ _ EB) as Hb.
  assert (Hba : b <= g /\ a <= g).
  { subst g. unfold graft. pose proof (N.log2_spec b ltac:(lia)) as [L1 L2]. pose proof (pow2_pos (N.log2 b)). nia. }
  exists a, u, b. split; [reflexivity|].
  split; [apply c31_all_types_partial; [exact HAp|exact EA|lia]|].
  split.
  { unfold ssz_generalized_index, generalized_index, ssz. apply with_gindex_ok; [reflexivity|apply HAq; reflexivity|exact EB|lia]. }
  split; [subst g; apply c31_all_types_partial; auto|]. apply graft_parent. lia.
Qed.

Lemma c33_checked :
  forall H t p q g, ssz_generalized_index H true t (p ++ q) = Ok g ->
  exists a u b,
    spec_target (as_unions t) p = Some u /\
    ssz_generalized_index H true t p = Ok a /\
    ssz_generalized_index H true u q = Ok b /\
    g = graft a b /\ g / 2 ^ N.log2 b = a.
Proof.
  intros H t p q g HE. pose proof HE as HE'. apply c31_checked_partial in HE' as (HC & HG & HL).
  destruct (c33_nesting H true t p q g HC HG HL) as (a & u & b & E1 & E2 & E3 & E4 & E5).
  assert (Eg : g = graft a b) by congruence. exists a, u, b. subst g. auto.
Qed.

Lemma c34_partial :
  forall H : bytes -> bytes, (forall x, blen (H x) = 32) -> forall oc t v path b g,
  legal t = true -> regular t = true -> valid t v -> provable t = true -> along provable t path = true ->
  spec_leaf H t v path = Some b -> spec_gindex t path = Some g -> g < 2 ^ 64 ->
  exists pf witness,
    ssz_prove H oc t v path = Ok (pf, witness) /\
    ssz_hash_tree_root H oc t v = Ok witness /\
    ssz_generalized_index H oc t path = Ok (proof_index pf) /\
    proof_index pf = g /\
    forall oc', verify H oc' pf witness = Ok tt.
Proof.
  intros H Hlen oc t v path b g HL HR HV HP HA HS HG Hlt. pose proof (CONTEXT_good H Hlen) as HC.
  destruct (prove_spec H Hlen _ HC oc t v path b g HL HR HV HP HA HS HG Hlt) as (br & E & HB & HE).
  exists (MkProof b br g), (spec_root H t v). split; [exact E|]. split; [apply c27_hash_tree_root; auto|].
  cbn [proof_index]. split.
  { unfold ssz_generalized_index, generalized_index, ssz.
    apply with_gindex_ok; [reflexivity|apply along_countable, regular_along; auto|apply regular_gindex; auto|exact Hlt]. }
  split; [reflexivity|]. intros oc'. unfold verify. cbn [leaf branch proof_index].
  rewrite verify_for_index by exact Hlt. rewrite HB, HE, N.eqb_refl.
  assert (Hg : 1 <= g) by exact (gindex_from_ge _ _ _ _ HG). replace (g =? 0) with false by lia.
  replace (bytes_eqb _ _) with true; [reflexivity|]. symmetry. apply bytes_eqb_true. reflexivity.
Qed.

Lemma c34_all_types_partial :
  forall H : bytes -> bytes, (forall x, blen (H x) = 32) -> forall oc t v path b g,
  legal t = true -> sized t = true -> valid t v ->
  provable_with t = true -> along provable_with t path = true ->
  leaf_with H t v path = Some b -> gindex_with item_basic t path = Some g -> g < 2 ^ 64 ->
  exists pf witness,
    ssz_prove H oc t v path = Ok (pf, witness) /\
    ssz_hash_tree_root H oc t v = Ok witness /\
    ssz_generalized_index H oc t path = Ok (proof_index pf) /\
    proof_index pf = g /\
    forall oc', verify H oc' pf witness = Ok tt.
Proof.
  intros H Hlen oc t v path b g HL HR HV HP HA HS HG Hlt. pose proof (CONTEXT_good H Hlen) as HC.
  destruct (with_prove_spec H Hlen _ HC oc t v path b g HL HR HV HP HA HS HG Hlt) as (br & E & HB & HE).
  exists (MkProof b br g), (root_with packed H t v). split; [exact E|].
  split; [exact (proj1 (with_hash_tree_root_ok H Hlen _ HC oc t HL HR v HV))|].
  cbn [proof_index]. split.
  { unfold ssz_generalized_index, generalized_index, ssz.
    apply with_gindex_ok; [reflexivity|apply along_countable; auto|exact HG|exact Hlt]. }
  split; [reflexivity|]. intros oc'. unfold verify. cbn [leaf branch proof_index].
  rewrite verify_for_index by exact Hlt. rewrite HB, HE, N.eqb_refl.
  assert (Hg : 1 <= g) by exact (with_gindex_from_ge _ _ _ _ HG). replace (g =? 0) with false by lia.
  replace (bytes_eqb _ _) with true; [reflexivity|]. symmetry. apply bytes_eqb_true. reflexivity.
Qed.

Lemma c34_variants_refuted :
  exists t v path, legal t = true /\ regular t = true /\ valid t v /\ provable t = true /\ along provable t path = true /\
  forall oc, exists pf witness, ssz_prove sha256 oc t v path = Ok (pf, witness) /\
    ssz_hash_tree_root sha256 oc t v = Ok witness /\ verify sha256 oc pf witness = Err InvalidProof.
Proof.
  exists (TUnion [Some (TList (TUint U8) 64); Some (TVector (TUint U64) 16)]), (VVariant 0 (VSeq [VUint 1])), [Index 1; Index 12].
  split; [reflexivity|]. split; [reflexivity|]. split; [solve_valid|]. split; [reflexivity|]. split; [reflexivity|].
  intros oc. destruct oc; eexists _, _; (split; [vm_compute; reflexivity|]); split; vm_compute; reflexivity.
Qed.

Lemma c34_exact_partial :
  forall H : bytes -> bytes, (forall x, blen (H x) = 32) -> forall oc t v path pf w,
  legal t = true -> sized t = true -> addressable t = true -> valid t v ->
  ssz_prove H oc t v path = Ok (pf, w) ->
  exists g, ssz_generalized_index H oc t path = Ok g /\ 1 <= g /\ probe t v g = Made /\
    pf = MkProof (fst (found H t v g)) (snd (found H t v g)) g /\ w = tree_node H t v 1 /\
    blen (snd (found H t v g)) = N.log2 g /\
    (forall oc', verify H oc' pf w = if bytes_eqb (climb H g (leaf pf) (branch pf)) w then Ok tt else Err InvalidProof) /\
    (connected H t v g -> forall oc', verify H oc' pf w = Ok tt) /\
    (let r := spec_merkleize H (tree_depth (chunk_count_with item_basic t)) (chunks_with packed H t v) in
     w = match number t v with Some n => spec_mix_in H r n | None => r end) /\
    (tree_depth (chunk_count_with item_basic t) = tree_depth (chunk_count_with packed t) -> number t v = spec_decoration t v ->
     ssz_hash_tree_root H oc t v = Ok w).
Proof.
  intros H Hlen oc t v path pf w HL HR HA HV. pose proof (CONTEXT_good H Hlen) as HC.
  unfold ssz_prove, prove, ssz_generalized_index.
  destruct (generalized_index (ssz H oc t) path) as [g|e|p] eqn:EG; cbn [bind]; try discriminate.
  pose proof (generalized_index_word H _ oc t path 1 ltac:(reflexivity) g EG) as Hg.
  pose proof (probe_ok H Hlen _ HC oc t v g (prover_from g) HL HR HA HV Hg eq_refl) as HP. unfold outcome_is in HP.
  fold (ssz H oc t) in HP.
  destruct (compute_proof H oc (ssz H oc t) v (prover_from g)) as [q|e|p] eqn:EQ; cbn [bind]; try discriminate.
  intros E. exists g. split; [reflexivity|].
  destruct (found_ok H Hlen _ HC oc t v g (prover_from g) q HL HR HA HV Hg eq_refl EQ) as (H1 & E1 & E2).
  assert (EP : pf = MkProof (fst (found H t v g)) (snd (found H t v g)) g).
  { subst q. unfold filled in E. cbn in E. congruence. }
  assert (EW : w = tree_node H t v 1).
  { subst q. unfold filled in E. cbn in E. congruence. }
  assert (EV : forall oc', verify H oc' pf w = if bytes_eqb (climb H g (leaf pf) (branch pf)) w then Ok tt else Err InvalidProof).
  { intros oc'. unfold verify. rewrite EP. cbn [leaf branch proof_index]. rewrite verify_for_index by exact Hg.
    rewrite E2, N.eqb_refl. replace (g =? 0) with false by lia. reflexivity. }
  split; [exact H1|]. split.
  { destruct (probe t v g); [reflexivity|congruence|destruct HP; congruence]. }
  split; [exact EP|]. split; [exact EW|]. split; [exact E2|]. split; [exact EV|]. split.
  { intros HN oc'. rewrite EV. destruct (connected_ok H Hlen [] oc t v g HL HV H1 HN) as [_ E3].
    rewrite EP. cbn [leaf branch]. rewrite E3, <- EW. replace (bytes_eqb w w) with true; [reflexivity|]. symmetry. apply bytes_eqb_true. reflexivity. }
  rewrite EW, (tree_node_root H Hlen [] oc t v HV HL). split; [reflexivity|]. intros ED EN.
  rewrite ED, EN, <- with_root_of_chunks by auto. exact (proj1 (with_hash_tree_root_ok H Hlen _ HC oc t HL HR v HV)).
Qed.

Lemma c34_arrays_refuted :
  exists t v, legal t = true /\ sized t = true /\ addressable t = true /\ valid t v /\
  forall oc path, In path [[]; [Index 2]; [Index 2; Index 1]] -> exists pf witness root, ssz_prove sha256 oc t v path = Ok (pf, witness) /\
    ssz_hash_tree_root sha256 oc t v = Ok root /\ witness <> root /\ witness <> spec_root sha256 t v /\
    verify sha256 oc pf witness = Ok tt /\ verify sha256 oc pf root = Err InvalidProof.
Proof.
  exists (TVector (TArray (TUint U8) 3) 4), (VSeq (repeat (VSeq (repeat (VUint 1) 3)) 4)).
  split; [reflexivity|]. split; [reflexivity|]. split; [reflexivity|]. split; [solve_valid|].
  intros oc path [<-|[<-|[<-|[]]]]; destruct oc; eexists _, _, _;
    (split; [vm_compute; reflexivity|]); (split; [vm_compute; reflexivity|]); (split; [vm_compute; discriminate|]); (split; [vm_compute; discriminate|]); split; vm_compute; reflexivity.
Qed.

Lemma c34_transparent_refuted :
  exists t v, legal t = true /\ regular t = true /\ addressable t = true /\ valid t v /\
  forall oc path, In path [[]; [Selector]; [Index 1]] -> exists pf witness root, ssz_prove sha256 oc t v path = Ok (pf, witness) /\
    ssz_hash_tree_root sha256 oc t v = Ok root /\ witness <> root /\
    verify sha256 oc pf witness = Ok tt /\ verify sha256 oc pf root = Err InvalidProof.
Proof.
  exists (TTransparent [TUint U8; TBool]), (VVariant 1 (VBool true)).
  split; [reflexivity|]. split; [reflexivity|]. split; [reflexivity|]. split; [solve_valid|].
  intros oc path [<-|[<-|[<-|[]]]]; destruct oc; eexists _, _, _;
    (split; [vm_compute; reflexivity|]); (split; [vm_compute; reflexivity|]); (split; [vm_compute; discriminate|]); split; vm_compute; reflexivity.
Qed.

Lemma c35_variants_refuted :
  exists t v path, legal t = true /\ regular t = true /\ valid t v /\ provable t = true /\ along provable t path = true /\
  spec_leaf sha256 t v path = None /\
  forall oc, exists pf witness, ssz_prove sha256 oc t v path = Ok (pf, witness) /\
    verify sha256 oc pf witness = Ok tt.
Proof.
  exists (TUnion [Some (TList (TUint U8) 64); Some (TVector (TUint U64) 8)]), (VVariant 0 (VSeq [VUint 1])), [Index 1; Index 2].
  split; [reflexivity|]. split; [reflexivity|]. split; [solve_valid|]. split; [reflexivity|]. split; [reflexivity|].
  split; [vm_compute; reflexivity|].
  intros oc. destruct oc; eexists _, _; (split; [vm_compute; reflexivity|]); vm_compute; reflexivity.
Qed.

Lemma c35_partial :
  forall H : bytes -> bytes, (forall x, blen (H x) = 32) -> forall oc t v path b g,
  legal t = true -> regular t = true -> valid t v -> provable t = true -> along provable t path = true ->
  spec_leaf H t v path = Some b -> spec_gindex t path = Some g -> g < 2 ^ 64 ->
  exists pf witness, ssz_prove H oc t v path = Ok (pf, witness) /\ leaf pf = b /\
    (* the branch leads from the leaf to the root *)
    blen (branch pf) = N.log2 g /\ climb H g b (branch pf) = witness.
Proof.
  intros H Hlen oc t v path b g HL HR HV HP HA HS HG Hlt. pose proof (CONTEXT_good H Hlen) as HC.
  destruct (prove_spec H Hlen _ HC oc t v path b g HL HR HV HP HA HS HG Hlt) as (br & E & HB & HE).
  exists (MkProof b br g), (spec_root H t v). auto.
Qed.

Lemma c35_all_types_partial :
  forall H : bytes -> bytes, (forall x, blen (H x) = 32) -> forall oc t v path b g,
  legal t = true -> sized t = true -> valid t v ->
  provable_with t = true -> along provable_with t path = true ->
  leaf_with H t v path = Some b -> gindex_with item_basic t path = Some g -> g < 2 ^ 64 ->
  exists pf witness, ssz_prove H oc t v path = Ok (pf, witness) /\ leaf pf = b /\
    blen (branch pf) = N.log2 g /\ climb H g b (branch pf) = witness /\ witness = root_with packed H t v.
Proof.
  intros H Hlen oc t v path b g HL HR HV HP HA HS HG Hlt. pose proof (CONTEXT_good H Hlen) as HC.
  destruct (with_prove_spec H Hlen _ HC oc t v path b g HL HR HV HP HA HS HG Hlt) as (br & E & HB & HE).
  exists (MkProof b br g), (root_with packed H t v). auto.
Qed.

Lemma c36_refuted :
  exists t v path g, legal t = true /\ regular t = true /\ valid t v /\ provable t = true /\ along provable t path = true /\
  spec_gindex t path = Some g /\ forall oc, exists p, ssz_prove sha256 oc t v path = Panic p.
Proof.
  exists (TList (TList (TUint U8) 4) 3), (VSeq []), [Index 0; Index 0], 16.
  split; [reflexivity|]. split; [reflexivity|]. split; [solve_valid|]. split; [reflexivity|]. split; [reflexivity|].
  split; [reflexivity|]. intros oc. eexists. destruct oc; vm_compute; reflexivity.
Qed.

Lemma c36_partial :
  forall H : bytes -> bytes, (forall x, blen (H x) = 32) -> forall oc t v path,
  (* parts that the value has *)
  (forall b g, legal t = true -> regular t = true -> valid t v -> provable t = true -> along provable t path = true ->
     spec_leaf H t v path = Some b -> spec_gindex t path = Some g -> g < 2 ^ 64 ->
     exists r, ssz_prove H oc t v path = Ok r) /\
  (* invalid paths *)
  (forall e, spec_path_error (as_unions t) path = Some e ->
     ssz_prove H oc t v path = Err e \/ (oc = true /\ ssz_prove H oc t v path = Panic POverflow)).
Proof.
  intros H Hlen oc t v path. split.
  - intros b g HL HR HV HP HA HS HG Hlt. destruct (c34_partial H Hlen oc t v path b g HL HR HV HP HA HS HG Hlt) as (pf & w & E & _). eauto.
  - intros e HE. pose proof (proj1 (c32_invalid_paths H oc t path)) as HI. unfold ssz_prove, prove.
    unfold ssz_generalized_index in HI. destruct (generalized_index (ssz H oc t) path) as [g|x|p]; cbn [bind].
    + congruence.
    + left. congruence.
    + destruct HI as [HI1 ->]. auto.
Qed.

Lemma c36_exact_partial :
  forall H : bytes -> bytes, (forall x, blen (H x) = 32) -> forall oc t v path,
  legal t = true -> sized t = true -> addressable t = true -> valid t v ->
  match ssz_generalized_index H oc t path with
  | Ok g =>
      match probe t v g with
      | Made => exists pf witness, ssz_prove H oc t v path = Ok (pf, witness) /\ proof_index pf = g
      | Fails e => ssz_prove H oc t v path = Err e
      | Crashes => exists p, ssz_prove H oc t v path = Panic p
      end
  | Err e => ssz_prove H oc t v path = Err e
  | Panic p => ssz_prove H oc t v path = Panic p
  end.
Proof.
  intros H Hlen oc t v path HL HR HA HV. pose proof (CONTEXT_good H Hlen) as HC.
  unfold ssz_prove, prove, ssz_generalized_index.
  destruct (generalized_index (ssz H oc t) path) as [g|e|p] eqn:EG; cbn [bind]; try reflexivity.
  pose proof (generalized_index_word H _ oc t path 1 ltac:(reflexivity) g EG) as Hg.
  pose proof (probe_ok H Hlen _ HC oc t v g (prover_from g) HL HR HA HV Hg eq_refl) as HP. unfold outcome_is in HP.
  fold (ssz H oc t) in HP.
  destruct (probe t v g) as [|e|].
  - destruct HP as (q & E & Eq). rewrite E. cbn [bind]. eauto.
  - rewrite HP. reflexivity.
  - destruct HP as (x & E). rewrite E. cbn [bind]. eauto.
Qed.

Lemma c37_branches_bind :
  forall H : bytes -> bytes, (forall x, blen (H x) = 32) -> forall oc1 oc2 p1 p2 root,
  proof_index p1 = proof_index p2 -> proof_index p1 < 2 ^ 64 ->
  blen (leaf p1) = 32 -> blen (leaf p2) = 32 ->
  Forall (fun c : bytes => blen c = 32) (branch p1) -> Forall (fun c : bytes => blen c = 32) (branch p2) ->
  verify H oc1 p1 root = Ok tt -> verify H oc2 p2 root = Ok tt ->
  p1 = p2 \/
  exists x y, In x (climb_inputs H (proof_index p1) (leaf p1) (branch p1)) /\
              In y (climb_inputs H (proof_index p2) (leaf p2) (branch p2)) /\ x <> y /\ H x = H y.
Proof.
  intros H Hlen oc1 oc2 [l1 b1 g] [l2 b2 g'] root. cbn [proof_index leaf branch]. intros <- Hg L1 L2 A1 A2.
  unfold verify. cbn [proof_index leaf branch]. rewrite !verify_for_index by exact Hg. destruct (g =? 0); [discriminate|].
  destruct (N.eqb_spec (blen b1) (N.log2 g)) as [B1|]; [|discriminate].
  destruct (N.eqb_spec (blen b2) (N.log2 g)) as [B2|]; [|discriminate]. cbn [andb].
  destruct (bytes_eqb (climb H g l1 b1) root) eqn:E1; [|discriminate].
  destruct (bytes_eqb (climb H g l2 b2) root) eqn:E2; [|discriminate]. intros _ _.
  apply bytes_eqb_true in E1, E2.
  destruct (climb_binds H Hlen b1 g l1 l2 b2 L1 L2 A1 A2) as [[-> ->]|C].
  - unfold blen in *. lia.
  - congruence.
  - left. reflexivity.
  - right. exact C.
Qed.

Lemma derive_root_panics (H : bytes -> bytes) oc nodes : forall i index b, i <= 64 -> 64 < i + blen nodes ->
  exists p, derive_root H oc i nodes index b = Panic p.
Proof.
  induction nodes as [|s nodes IH]; intros i index b Hi Hn.
  - change (blen (@nil bytes)) with 0 in Hn. lia.
  - cbn [derive_root]. rewrite blen_cons in Hn. destruct (N.eq_dec i 64) as [->|].
    + destruct oc; vm_compute; eexists; reflexivity.
    + rewrite upow2_ok by lia. cbn [bind]. unfold udiv. pose proof (pow2_pos i). replace (2 ^ i =? 0) with false by lia.
      cbn [bind]. apply IH; lia.
Qed.

Lemma c38_refuted :
  forall leaf : bytes, exists br index root, Forall (fun c : bytes => blen c = 32) br /\
  forall oc, exists p, is_valid_merkle_branch sha256 oc leaf br (blen br) index root = Panic p.
Proof.
  intros leaf. exists (repeat zero_chunk 65), 0, zero_chunk. split.
  - apply Forall_forall. intros x HX. apply repeat_spec in HX. subst. reflexivity.
  - intros oc. unfold is_valid_merkle_branch. rewrite N.eqb_refl. cbn [negb].
    destruct (derive_root_panics sha256 oc (repeat zero_chunk 65) 0 0 leaf) as [p E]; [lia|reflexivity|].
    rewrite E. eexists. reflexivity.
Qed.

Lemma c38_partial :
  forall H oc leaf (br : list bytes) depth index root,
  (blen br <= 64 \/ blen br <> depth ->
   is_valid_merkle_branch H oc leaf br depth index root =
     if (blen br =? depth) && bytes_eqb (climb H index leaf br) root then Ok tt else Err InvalidProof) /\
  (64 < blen br -> blen br = depth ->
   exists p, is_valid_merkle_branch H oc leaf br depth index root = Panic p) /\
  (bytes_eqb (climb H index leaf br) root = true <-> climb H index leaf br = root).
Proof.
  intros H oc leaf br depth index root. split; [|split].
  - intros [HB|HB]; [apply valid_branch_ok; exact HB|]. unfold is_valid_merkle_branch.
    replace (blen br =? depth) with false by lia. reflexivity.
  - intros HB <-. unfold is_valid_merkle_branch. rewrite N.eqb_refl. cbn [negb].
    destruct (derive_root_panics H oc br 0 index leaf) as [p E]; [lia|lia|]. rewrite E. eexists. reflexivity.
  - apply bytes_eqb_true.
Qed.

Lemma c39_verifiers_agree :
  forall H oc leaf br g root, g < 2 ^ 64 ->
  verify_merkle_proof H oc leaf br g root = verify H oc (MkProof leaf br g) root /\
  (g = 0 -> verify_merkle_proof H oc leaf br g root = Err InvalidGeneralizedIndex) /\
  (verify_merkle_proof H oc leaf br g root = Ok tt <-> 1 <= g /\ blen br = N.log2 g /\ climb H g leaf br = root).
Proof.
  intros H oc leaf br g root Hg. unfold verify. cbn [Proofs.leaf branch proof_index].
  rewrite verify_for_index by exact Hg. unfold verify_merkle_proof. rewrite calculate_root_ok by exact Hg.
  destruct (N.eqb_spec g 0) as [->|]; cbn [bind].
  { split; [reflexivity|]. split; [reflexivity|]. split; [discriminate|]. lia. }
  split; [destruct (blen br =? N.log2 g); reflexivity|]. split; [lia|].
  destruct (N.eqb_spec (blen br) (N.log2 g)) as [E|]; cbn [bind].
  - destruct (bytes_eqb (climb H g leaf br) root) eqn:EB.
    + apply bytes_eqb_true in EB. split; auto. intros _. repeat split; auto; lia.
    + split; [discriminate|]. intros (_ & _ & HE). apply bytes_eqb_true in HE. congruence.
  - split; [discriminate|]. intros (_ & HE & _). congruence.
Qed.

Lemma c40_honest_multiproofs :
  forall H enum, (forall l, Permutation (enum l) l) -> forall indices M,
  merkle_over H indices M -> (exists i, In i indices /\ 1 <= i) ->
  exists hs, get_helper_indices enum indices = Ok hs /\
    calculate_multi_merkle_root H enum (map M indices) (map M hs) indices = Ok (M 1) /\
    verify_merkle_multiproof H enum (map M indices) (map M hs) indices (M 1) = Ok tt.
Proof.
  intros H enum Henum indices M HM HX. destruct (helper_indices_ok enum Henum indices) as (hs & E & HH).
  exists hs. split; [exact E|]. pose proof (multi_honest H enum Henum indices hs M HH HM HX) as R. split; [exact R|].
  unfold verify_merkle_multiproof. rewrite R. cbn [bind]. replace (bytes_eqb _ _) with true; [reflexivity|].
  symmetry. apply bytes_eqb_true. reflexivity.
Qed.

Definition small_tree (g : N) : bytes :=
  if g =? 1 then sha256 (sha256 (num_chunk 4 ++ num_chunk 5) ++ num_chunk 3)
  else if g =? 2 then sha256 (num_chunk 4 ++ num_chunk 5) else num_chunk g.

Lemma small_tree_over : merkle_over sha256 [5; 3] small_tree.
Proof.
  intros i g HI (Hg & k & Hk & E).
  assert (HD : 2 <= 2 ^ k) by (change 2 with (2 ^ 1) at 1; apply N.pow_le_mono_r; lia).
  assert (HC : g = 1 \/ g = 2).
  { assert (g <= i / 2) by (subst g; apply N.div_le_compat_l; lia).
    destruct HI as [<-|[<-|[]]]; [change (5 / 2) with 2 in H|change (3 / 2) with 1 in H]; lia. }
  destruct HC as [-> | ->]; vm_compute; reflexivity.
Qed.

Lemma c41_multiproofs_sound :
  forall H : bytes -> bytes, (forall x, blen (H x) = 32) -> forall enum, (forall l, Permutation (enum l) l) ->
  forall indices leaves proof M,
  independent indices -> (forall i, In i indices -> 1 <= i) ->
  Forall (fun c : bytes => blen c = 32) leaves -> Forall (fun c : bytes => blen c = 32) proof ->
  (forall g, blen (M g) = 32) -> merkle_over H indices M ->
  verify_merkle_multiproof H enum leaves proof indices (M 1) = Ok tt ->
  exists hs, get_helper_indices enum indices = Ok hs /\
  ((leaves = map M indices /\ proof = map M hs) \/
   exists x y, opened_input H (combine indices leaves ++ combine hs proof) x /\ tree_input indices M y /\ x <> y /\ H x = H y).
Proof.
  intros H Hlen enum Henum indices leaves proof M [HI1 HI2] HI3 A1 A2 AM HM HE.
  destruct (helper_indices_ok enum Henum indices) as (hs & E & HH). exists hs. split; [exact E|].
  unfold verify_merkle_multiproof in HE. destruct (calculate_multi_merkle_root H enum leaves proof indices) as [r| |] eqn:EC; try discriminate.
  cbn [bind] in HE. destruct (bytes_eqb r (M 1)) eqn:EB; [|discriminate]. apply bytes_eqb_true in EB. subst r.
  destruct (multi_ok_inv H enum Henum _ _ _ _ _ HH EC) as (L1 & L2 & HX & HO).
  destruct (multi_sound H enum Henum Hlen indices leaves proof hs M HH A1 A2 AM HM EC) as [HS|C]; [left|right; exact C].
  assert (HP : forall (ks : list N) (vs : list bytes), length ks = length vs ->
                 (forall k v, In (k, v) (combine ks vs) -> v = M k) -> vs = map M ks).
  { clear. induction ks as [|k ks IH]; intros [|v vs] HL HI; try discriminate; [reflexivity|]. cbn [map].
    cbn [length] in HL. f_equal; [apply HI; now left|]. apply IH; [lia|]. intros. apply HI. now right. }
  split; apply HP; auto; intros k v HI.
  - assert (Hk : In k indices) by exact (in_combine_l _ _ _ _ HI).
    apply (HS k v); [apply HI3; exact Hk|apply assigned_leaf; auto|]. intros i Hi. apply HI2; auto.
  - assert (Hk : In k hs) by exact (in_combine_l _ _ _ _ HI). apply HH in Hk.
    apply (HS k v); [|apply assigned_helper; auto|].
    + destruct Hk as [(Hs & _) _]. unfold spec_sibling in Hs. destruct (N.even k); lia.
    + intros i Hi HA. destruct Hk as [(Hs & j & Hj & HJ) Hn].
      (* an ancestor of a helper lies above the index the helper belongs to *)
      assert (HA' : ancestor i (spec_sibling k)).
      { destruct HA as (HA1 & m & Hm & EM). split; [exact HA1|]. exists m. split; [exact Hm|]. rewrite EM.
        replace m with (1 + (m - 1)) by lia. rewrite N.pow_add_r, <- !N.div_div; try (change (2 ^ 1) with 2; lia); try (apply N.pow_nonzero; lia).
        f_equal. change (2 ^ 1) with 2. unfold spec_sibling in *. pose proof (N.even_spec k). destruct (N.even k) eqn:EV.
        - apply N.even_spec in EV as [z ->]. lia.
        - assert (HO' : N.odd k = true) by (rewrite <- N.negb_even, EV; reflexivity). apply N.odd_spec in HO' as [z ->]. lia. }
      destruct HJ as [HJ|HJ]; [rewrite HJ in HA'; exact (HI2 i j Hi Hj HA')|].
      apply (HI2 i j Hi Hj). destruct HA' as (? & m & Hm & Em), HJ as (? & m' & Hm' & Em').
      split; [assumption|]. exists (m' + m). split; [lia|].
      rewrite Em, Em', N.pow_add_r, N.div_div by (apply N.pow_nonzero; lia). reflexivity.
Qed.

Lemma small_tree_independent : independent [5; 3].
Proof.
  split; [repeat constructor; cbn; intuition discriminate|].
  intros i j HI HJ (Hg & k & Hk & E).
  assert (HD : 2 <= 2 ^ k) by (change 2 with (2 ^ 1) at 1; apply N.pow_le_mono_r; lia).
  assert (i <= j / 2) by (subst i; apply N.div_le_compat_l; lia).
  destruct HI as [<-|[<-|[]]], HJ as [<-|[<-|[]]];
    [change (5 / 2) with 2 in *|change (3 / 2) with 1 in *|change (5 / 2) with 2 in *|change (3 / 2) with 1 in *]; lia.
Qed.

Lemma small_tree_blen g : blen (small_tree g) = 32.
Proof.
  unfold small_tree. destruct (g =? 1); [apply sha256_blen|]. destruct (g =? 2); [apply sha256_blen|apply num_chunk_blen].
Qed.

Definition tiny_tree (g : N) : bytes := if g =? 1 then sha256 (zero_chunk ++ zero_chunk) else zero_chunk.

Lemma c42_refuted :
  exists indices leaves proof M,
  merkle_over sha256 indices M /\ (forall g, blen (M g) = 32) /\ (forall i, In i indices -> 1 <= i) /\
  (forall enum, (forall l, Permutation (enum l) l) ->
     verify_merkle_multiproof sha256 enum leaves proof indices (M 1) = Ok tt /\
     get_helper_indices enum indices = Ok [3]) /\
  Forall (fun c : bytes => blen c = 32) (leaves ++ proof) /\ leaves <> map M indices /\
  forall x, ~ opened_input sha256 (combine indices leaves ++ combine [3] proof) x.
Proof.
  exists [1; 2], [tiny_tree 1; num_chunk 7], [zero_chunk], tiny_tree.
  split.
  { intros i g HI (Hg & k & Hk & E).
    assert (HD : 2 <= 2 ^ k) by (change 2 with (2 ^ 1) at 1; apply N.pow_le_mono_r; lia).
    assert (g <= i / 2) by (subst g; apply N.div_le_compat_l; lia).
    assert (g = 1) as -> by (destruct HI as [<-|[<-|[]]]; [change (1 / 2) with 0 in *|change (2 / 2) with 1 in *]; lia).
    reflexivity. }
  split; [intros g; unfold tiny_tree; destruct (g =? 1); [apply sha256_blen|reflexivity]|].
  split; [intros i [<-|[<-|[]]]; lia|]. split.
  - intros enum Henum.
    assert (HI : forall l : list N, Permutation (id l) l) by reflexivity. split.
    + unfold verify_merkle_multiproof. rewrite (multi_order sha256 enum id) by auto. vm_compute. reflexivity.
    + destruct (helper_indices_ok enum Henum [1; 2]) as (hs & E & HH).
      destruct (helper_indices_ok id HI [1; 2]) as (hs' & E' & HH'). rewrite E.
      rewrite (helper_list_unique _ _ _ HH HH'). rewrite <- E'. vm_compute. reflexivity.
  - split; [repeat constructor; vm_compute; reflexivity|]. split; [vm_compute; discriminate|].
    assert (HO : forall g v, opens sha256 (combine [1; 2] [tiny_tree 1; num_chunk 7] ++ combine [3] [zero_chunk]) g v -> 1 <= g < 4).
    { intros g v HO. induction HO as [g v HG|g a b HG Ha IHa Hb IHb]; [|lia].
      cbn [combine app given] in HG. destruct (N.eqb_spec 3 g); [lia|]. destruct (N.eqb_spec 2 g); [lia|].
      destruct (N.eqb_spec 1 g); [lia|discriminate]. }
    intros x (g & a & b & Hg & HG & Ha & Hb & _). apply HO in Ha. assert (g = 1) as -> by lia. discriminate HG.
Qed.

Lemma c42_partial :
  forall H : bytes -> bytes, (forall x, blen (H x) = 32) -> forall enum, (forall l, Permutation (enum l) l) ->
  forall indices leaves proof M,
  Forall (fun c : bytes => blen c = 32) leaves -> Forall (fun c : bytes => blen c = 32) proof ->
  (forall g, blen (M g) = 32) -> merkle_over H indices M ->
  verify_merkle_multiproof H enum leaves proof indices (M 1) = Ok tt ->
  exists hs, get_helper_indices enum indices = Ok hs /\
  ((forall i v, 1 <= i -> given (combine indices leaves) i = Some v -> (forall j, In j indices -> ~ ancestor j i) -> v = M i) \/
   exists x y, opened_input H (combine indices leaves ++ combine hs proof) x /\ tree_input indices M y /\ x <> y /\ H x = H y).
Proof.
  intros H Hlen enum Henum indices leaves proof M A1 A2 AM HM HE.
  destruct (helper_indices_ok enum Henum indices) as (hs & E & HH). exists hs. split; [exact E|].
  unfold verify_merkle_multiproof in HE. destruct (calculate_multi_merkle_root H enum leaves proof indices) as [r| |] eqn:EC; try discriminate.
  cbn [bind] in HE. destruct (bytes_eqb r (M 1)) eqn:EB; [|discriminate]. apply bytes_eqb_true in EB. subst r.
  destruct (multi_ok_inv H enum Henum _ _ _ _ _ HH EC) as (L1 & L2 & HX & HO).
  destruct (multi_sound H enum Henum Hlen indices leaves proof hs M HH A1 A2 AM HM EC) as [HS|C]; [left|right; exact C].
  intros i v Hi HG HA. apply (HS i v Hi); [|exact HA]. unfold assigned. rewrite given_app, HG.
  destruct (given (combine hs proof) i) eqn:EG; [exfalso|reflexivity].
  assert (HN : given (combine hs proof) i <> None) by congruence. apply given_in in HN.
  rewrite combine_fst in HN by assumption. apply HH in HN as [(H2 & _) HP]. apply HP.
  rewrite <- sibling_spec, <- sibling_ge in H2. split; [exact H2|]. exists i. split; [|now left].
  assert (HN : given (combine indices leaves) i <> None) by congruence. apply given_in in HN.
  rewrite combine_fst in HN by assumption. exact HN.
Qed.

Lemma c43_helper_indices :
  forall enum, (forall l, Permutation (enum l) l) -> forall indices,
  exists hs, get_helper_indices enum indices = Ok hs /\
    Sorted.StronglySorted (fun a b => b < a) hs /\
    forall j, In j hs <-> on_path indices (spec_sibling j) /\ ~ on_path indices j.
Proof.
  intros enum Henum indices. destruct (helper_indices_ok enum Henum indices) as (hs & E & HH & HI). eauto.
Qed.

Lemma c44_single_index :
  forall H enum, (forall l, Permutation (enum l) l) -> forall oc leaf proof i, 1 <= i -> i < 2 ^ 64 ->
  calculate_multi_merkle_root H enum [leaf] proof [i] = calculate_merkle_root H oc leaf proof i /\
  forall root, verify_merkle_multiproof H enum [leaf] proof [i] root = verify H oc (MkProof leaf proof i) root.
Proof.
  intros H enum Henum oc leaf proof i Hi H64. split; [apply multi_single; auto|]. intros root.
  rewrite <- (proj1 (c39_verifiers_agree H oc leaf proof i root H64)).
  unfold verify_merkle_multiproof, verify_merkle_proof. rewrite (multi_single H enum Henum oc) by auto. reflexivity.
Qed.

Lemma c45_refuted :
  forall H, exists p, forall enum : list N -> list N, (forall l, Permutation (enum l) l) ->
  calculate_multi_merkle_root H enum [] [] [] = Panic p.
Proof.
  intros H. exists PExpect. intros enum Henum. rewrite (multi_order H enum id) by first [exact Henum|intros; reflexivity]. reflexivity.
Qed.

Lemma c45_partial :
  forall H enum, (forall l, Permutation (enum l) l) -> forall leaves proof indices,
  exists hs, get_helper_indices enum indices = Ok hs /\
  ((exists p, calculate_multi_merkle_root H enum leaves proof indices = Panic p) <->
   blen leaves = blen indices /\ blen proof = blen hs /\ forall i, In i indices -> i = 0) /\
  (forall e, calculate_multi_merkle_root H enum leaves proof indices = Err e <->
     e = InvalidProof /\ (blen leaves <> blen indices \/ blen proof <> blen hs)).
Proof.
  intros H enum Henum leaves proof indices. destruct (helper_indices_ok enum Henum indices) as (hs & E & HH).
  exists hs. split; [exact E|]. pose proof (multi_root H enum Henum indices leaves proof hs HH) as HR. cbn zeta in HR.
  destruct (N.eqb_spec (blen leaves) (blen indices)) as [L1|L1]; cbn [negb orb] in HR.
  - destruct (N.eqb_spec (blen proof) (blen hs)) as [L2|L2]; cbn [negb orb] in HR.
    + destruct HR as [((i & HI & Hi) & r & -> & _)|(HZ & ->)].
      * split; [split; [intros [p [=]]|intros (_ & _ & HZ); specialize (HZ i HI); lia]|].
        intros e. split; [discriminate|]. intros [_ [?|?]]; congruence.
      * split; [split; [auto|eauto]|]. intros e. split; [discriminate|]. intros [_ [?|?]]; congruence.
    + rewrite HR. split; [split; [intros [p [=]]|intros (_ & ? & _); congruence]|].
      intros e. split; [intros [= <-]; auto|intros [-> _]; reflexivity].
  - rewrite HR. split; [split; [intros [p [=]]|intros (? & _ & _); congruence]|].
    intros e. split; [intros [= <-]; auto|intros [-> _]; reflexivity].
Qed.

Lemma c46_map_order :
  forall H enum1 enum2, (forall l, Permutation (enum1 l) l) -> (forall l, Permutation (enum2 l) l) ->
  forall leaves proof indices,
  calculate_multi_merkle_root H enum1 leaves proof indices = calculate_multi_merkle_root H enum2 leaves proof indices.
Proof.
  intros H enum1 enum2 H1 H2 leaves proof indices. apply multi_order; auto.
Qed.

Lemma c13_root :
  forall H : bytes -> bytes, (forall x, blen (H x) = 32) -> forall oc x,
  (forall w, x < 2 ^ uint_bits w -> ssz_hash_tree_root H oc (TUint w) (VUint x) = Ok (spec_uint 32 x)) /\
  (x < 2 ^ 256 -> ssz_hash_tree_root H oc TU256 (VUint x) = Ok (spec_uint 32 x)).
Proof.
  intros H Hlen oc x. split.
  - intros w Hx. rewrite c27_hash_tree_root; [|exact Hlen|reflexivity|reflexivity|destruct w; exact Hx]. f_equal.
    change (spec_root H (TUint w) (VUint x)) with (chunk_at (spec_pack (spec_uint (spec_uint_size w) x)) 0).
    assert (HW : (0 < spec_uint_size w < 32)%nat /\ 2 ^ uint_bits w = 256 ^ N.of_nat (spec_uint_size w))
      by (destruct w; split; try reflexivity; cbn; lia).
    destruct HW as [HW1 HW2]. rewrite HW2 in Hx. rewrite !spec_uint_le_bytes.
    rewrite spec_pack_last by (rewrite le_bytes_length; lia). rewrite le_bytes_length. unfold chunk_at. cbn [nth N.to_nat].
    replace 32%nat with (spec_uint_size w + (32 - spec_uint_size w))%nat at 2 by lia.
    rewrite le_bytes_pad by exact Hx. reflexivity.
  - intros Hx. rewrite c27_hash_tree_root by auto.
    change (spec_root H TU256 (VUint x)) with (chunk_at (spec_pack (spec_uint 32 x)) 0).
    rewrite spec_pack_32 by apply spec_uint_blen. reflexivity.
Qed.

Lemma c17_root_refuted :
  exists n ops1 ops2,
  let b1 := apply_bit_ops bitlist_default ops1 in
  let b2 := apply_bit_ops bitlist_default ops2 in
  bv_bits b1 = bv_bits b2 /\
  forall oc, exists r1 r2,
    ssz_hash_tree_root sha256 oc (TBitlist n) (VBits b1) = Ok r1 /\
    ssz_hash_tree_root sha256 oc (TBitlist n) (VBits b2) = Ok r2 /\ r1 <> r2.
Proof.
  exists 8, [BPush true; BPush true; BPush true; BTruncate 1], [BPush true].
  cbv zeta. split; [vm_compute; reflexivity|]. intros oc. eexists _, _.
  split; [destruct oc; vm_compute; reflexivity|]. split; [destruct oc; vm_compute; reflexivity|]. vm_compute. discriminate.
Qed.

Lemma c17_root_exact_partial :
  forall H : bytes -> bytes, (forall x, blen (H x) = 32) -> forall oc n b1 b2, n + 8 < 2 ^ 64 ->
  bv_ok b1 = true -> bv_ok b2 = true -> bv_len b1 <= n -> bv_len b1 < 2 ^ 63 -> bv_bits b1 = bv_bits b2 ->
  exists r1 r2,
    ssz_hash_tree_root H oc (TBitlist n) (VBits b1) = Ok r1 /\
    ssz_hash_tree_root H oc (TBitlist n) (VBits b2) = Ok r2 /\
    (stored_bits b1 = stored_bits b2 -> r1 = r2) /\
    (r1 = r2 -> stored_bits b1 = stored_bits b2 \/
       exists x y, bitlist_inputs H n b1 x /\ bitlist_inputs H n b2 y /\ x <> y /\ H x = H y).
Proof.
  intros H Hlen oc n b1 b2 Hn O1 O2 HL HM HE.
  assert (EL : bv_len b1 = bv_len b2) by (rewrite <- !blen_bv_bits, HE; reflexivity).
  assert (HR : forall b, bv_ok b = true -> bv_len b = bv_len b1 ->
    ssz_hash_tree_root H oc (TBitlist n) (VBits b) =
      Ok (spec_mix_in H (spec_merkleize H (tree_depth ((n + 255) / 256)) (spec_pack (spec_bits (stored_bits b)))) (bv_len b))).
  { intros b Ob Eb. rewrite (c28_exact_partial H Hlen); [|cbn [legal]; lia|reflexivity|exact Ob|].
    - cbn [root_any]. rewrite Eb. replace (n <? bv_len b1) with false by lia. unfold within, mixed.
      rewrite stored_bits_raw, spec_pack_blen. apply bv_ok_len in Ob. unfold bits_bytes in Ob. rewrite Ob, Eb.
      replace (_ <? _) with false by lia. reflexivity.
    - intros u y HP. remember (TBitlist n) as t. remember (VBits b) as v.
      destruct HP as [? ?|? ? t1 v1 t2 v2 HI HP]; subst; [cbn [in_memory]; lia|destruct HI]. }
  rewrite (HR b1), (HR b2) by auto. eexists _, _. split; [reflexivity|]. split; [reflexivity|].
  split; [intros ->; rewrite EL; reflexivity|]. unfold bitlist_inputs, own_chunks_input, spec_mix_in.
  set (d := tree_depth ((n + 255) / 256)). set (c1 := spec_pack (spec_bits (stored_bits b1))).
  set (c2 := spec_pack (spec_bits (stored_bits b2))). rewrite EL. intros HH.
  assert (A1 : all32 c1) by apply spec_pack_all32. assert (A2 : all32 c2) by apply spec_pack_all32.
  destruct (bytes_dec (spec_merkleize H d c1 ++ num_chunk (bv_len b2)) (spec_merkleize H d c2 ++ num_chunk (bv_len b2))) as [EX|NX].
  2:{ right. eexists _, _. split; [right; reflexivity|]. split; [right; reflexivity|]. auto. }
  apply app_split in EX as [EX _]; [|rewrite !(spec_merkleize_blen H Hlen) by auto; reflexivity].
  destruct (subtree_binds H Hlen d (chunk_at c1) (chunk_at c2)) as [HI|(x & y & X & Y & C)]; auto using chunk_at_blen.
  2:{ right. exists x, y. auto. }
  left. apply bv_ok_len in O1, O2. unfold bits_bytes in O1, O2.
  assert (EB : blen (bv_raw b1) = blen (bv_raw b2)) by congruence.
  assert (EC : c1 = c2).
  { apply chunks_ext.
    - unfold c1, c2. rewrite !stored_bits_raw, !spec_pack_blen, EB. reflexivity.
    - intros i Hi. apply HI. unfold c1 in Hi. rewrite stored_bits_raw, spec_pack_blen, O1 in Hi.
      unfold d, tree_depth. rewrite Nnat.N2Nat.id. eapply N.lt_le_trans; [exact Hi|].
      eapply N.le_trans; [|apply N.log2_up_le_pow2; [|apply N.le_refl]]; [lia|].
      destruct (N.eq_dec ((n + 255) / 256) 0) as [E0|E0]; [|lia]. exfalso. lia. }
  unfold c1, c2 in EC. rewrite !stored_bits_raw in EC. apply spec_pack_inj in EC; auto.
  unfold stored_bits. rewrite EC. reflexivity.
Qed.

Lemma c21_root :
  forall H oc ts i u x, nth_error ts (N.to_nat i) = Some u ->
  ssz_hash_tree_root H oc (TTransparent ts) (VVariant i x) = ssz_hash_tree_root H oc u x.
Proof.
  intros H oc ts i u x HE. unfold ssz_hash_tree_root, ssz.
  cbn [simple_serialize transparent_m hash_tree_root union_chunks]. rewrite map_map, nth_error_map, HE. reflexivity.
Qed.

Lemma to_node_len E b r : @to_node E b = Ok r -> blen r = 32.
Proof. unfold to_node, BYTES_PER_CHUNK. destruct (blen b =? 32) eqn:E1; [|discriminate]. intros [= <-]. lia. Qed.

Lemma virtual_padding_len H c oc b k r : merkleize_chunks_with_virtual_padding H c oc b k = Ok r -> blen r = 32.
Proof.
  unfold merkleize_chunks_with_virtual_padding. intros HE.
  apply bind_ok_inv in HE as (? & _ & HE). apply bind_ok_inv in HE as (? & _ & HE). apply bind_ok_inv in HE as (? & _ & HE).
  destruct (_ =? 0); repeat (apply bind_ok_inv in HE as (? & _ & HE)); eapply to_node_len; eauto.
Qed.

Lemma merkleize_len H c oc b limit r : merkleize H c oc b limit = Ok r -> blen r = 32.
Proof.
  unfold merkleize. intros HE. apply bind_ok_inv in HE as (? & _ & HE). apply bind_ok_inv in HE as (? & _ & HE).
  destruct limit as [limit|]; [|eapply virtual_padding_len; eauto].
  destruct (limit <? _); [discriminate|]. apply bind_ok_inv in HE as (? & _ & HE). eapply virtual_padding_len; eauto.
Qed.

Lemma mix_in_len H b k r : mix_in_decoration H b k = Ok r -> blen r = 32.
Proof.
  unfold mix_in_decoration. destruct (usize_hash_tree_root k); [|discriminate|discriminate]. apply to_node_len.
Qed.

(* Every root that is computed is a node, whatever the value. *)
Lemma root_len H oc t : forall v r, ssz_hash_tree_root H oc t v = Ok r -> blen r = 32.
Proof.
  unfold ssz_hash_tree_root, ssz. induction t using ty_ind'; intros v r HE.
  - destruct v as [[]| | | | | | | | |]; try discriminate HE; injection HE as <-; reflexivity.
  - apply bind_ok_inv in HE as (? & _ & HE). eapply to_node_len; eauto.
  - apply bind_ok_inv in HE as (? & _ & HE). eapply to_node_len; eauto.
  - apply bind_ok_inv in HE as (? & _ & HE). eapply to_node_len; eauto.
  - apply bind_ok_inv in HE as (? & _ & HE). eapply merkleize_len; eauto.
  - apply bind_ok_inv in HE as (? & _ & HE). eapply merkleize_len; eauto.
  - cbn [simple_serialize list_m hash_tree_root] in HE. destruct v; try discriminate HE. unfold list_hash_tree_root in HE.
    apply bind_ok_inv in HE as (? & _ & HE). apply bind_ok_inv in HE as (? & _ & HE). eapply mix_in_len; eauto.
  - apply bind_ok_inv in HE as (? & _ & HE). eapply merkleize_len; eauto.
  - cbn [simple_serialize bitlist_m hash_tree_root] in HE. destruct v; try discriminate HE. unfold bitlist_hash_tree_root in HE.
    apply bind_ok_inv in HE as (? & _ & HE). apply bind_ok_inv in HE as (? & _ & HE). eapply mix_in_len; eauto.
  - apply bind_ok_inv in HE as (? & _ & HE). eapply merkleize_len; eauto.
  - cbn [simple_serialize newtype_m hash_tree_root] in HE. destruct v; try discriminate HE. cbn [unwrap] in HE.
    apply bind_ok_inv in HE as (? & _ & HE). eapply merkleize_len; eauto.
  - cbn [simple_serialize option_m hash_tree_root] in HE. unfold option_hash_tree_root in HE.
    apply bind_ok_inv in HE as (? & _ & HE). apply bind_ok_inv in HE as (? & _ & HE).
    destruct v; eapply mix_in_len; eauto.
  - cbn [simple_serialize union_m hash_tree_root] in HE. unfold union_hash_tree_root in HE.
    destruct v; try discriminate HE.
    + destruct (map _ vs) as [|[]]; try discriminate HE. eapply mix_in_len; eauto.
    + destruct (nth_error _ _) as [[]|]; try discriminate HE. apply bind_ok_inv in HE as (? & _ & HE).
      eapply mix_in_len; eauto.
  - cbn [simple_serialize transparent_m hash_tree_root] in HE. unfold union_chunks in HE.
    destruct v; try discriminate HE.
    + destruct (map _ _) as [|[]] eqn:EM; try discriminate HE. injection HE as <-. reflexivity.
    + rewrite map_map, nth_error_map in HE. destruct (nth_error ts _) as [u|] eqn:EN; [|discriminate HE].
      rewrite Forall_forall in H0. exact (H0 u (nth_error_In _ _ EN) v r HE).
Qed.

Lemma c53_newtype_merkle :
  forall H : bytes -> bytes, (forall x, blen (H x) = 32) -> forall oc t x,
  ssz_hash_tree_root H oc (TNewtype t) (VNewtype x) = ssz_hash_tree_root H oc t x /\
  (forall path, ssz_generalized_index H oc (TNewtype t) path = ssz_generalized_index H oc t path) /\
  (forall path, ssz_prove H oc (TNewtype t) (VNewtype x) path = ssz_prove H oc t x path).
Proof.
  intros H Hlen oc t x. unfold ssz_hash_tree_root, ssz_generalized_index, ssz_prove, ssz.
  cbn [simple_serialize newtype_m hash_tree_root unwrap]. split; [|split; reflexivity].
  destruct (hash_tree_root (simple_serialize H (table H) oc t) x) as [r|e|p] eqn:E.
  - pose proof (root_len H oc t x r E) as HB. pose proof (CONTEXT_good H Hlen) as HC.
    change (zeros 32) with (zeros (N.to_nat (1 * 32))). rewrite (fill_fields_all H Hlen [] _ [r]).
    + cbn [bind]. rewrite merkleize_none; auto.
      * constructor; [exact HB|constructor].
      * cbn. lia.
    + constructor; [exact E|constructor].
    + constructor; [exact HB|constructor].
    + reflexivity.
  - cbn [fill_fields]. rewrite E. reflexivity.
  - cbn [fill_fields]. rewrite E. reflexivity.
Qed.

Lemma c62_index_arithmetic :
  (forall oc x, x <= 2 ^ 63 -> exists k, get_power_of_two_ceil oc x = Ok (2 ^ k) /\ x <= 2 ^ k /\
   forall j, x <= 2 ^ j -> 2 ^ k <= 2 ^ j) /\
(forall oc x, 2 ^ 63 < x -> get_power_of_two_ceil oc x = if oc then Panic POverflow else Ok 0) /\
(get_path_length 0 = Err InvalidGeneralizedIndex) /\
(forall g, 0 < g -> exists k, get_path_length g = Ok k /\ 2 ^ k <= g < 2 ^ (k + 1) /\
   (* k steps to the parent lead to the root, and no fewer *)
   N.iter k parent g = 1 /\ forall j, j < k -> 1 < N.iter j parent g) /\
(forall g, sibling g = (if N.even g then g + 1 else g - 1) /\ sibling (sibling g) = g /\
   parent (sibling g) = parent g /\ (1 < g -> parent (2 * g) = g /\ parent (2 * g + 1) = g)) /\
(forall oc g i, i < 64 -> get_bit oc g i = Ok (N.odd (N.iter i parent g))) /\
(forall g i, 64 <= i -> get_bit true g i = Panic POverflow).
Proof.
  assert (HI : forall j g, N.iter j parent g = g / 2 ^ j).
  { intros j g. induction j as [|j IH] using N.peano_ind; [rewrite N.div_1_r; reflexivity|].
    rewrite N.iter_succ, IH. unfold parent. rewrite N.div_div, N.pow_succ_r', N.mul_comm by (try apply N.pow_nonzero; discriminate).
    reflexivity. }
  split; [|split; [|split; [|split; [|split; [|split]]]]].
  - intros oc x Hx. exists (N.log2_up x). unfold get_power_of_two_ceil, next_power_of_two. rewrite next_pow2_width.
    unfold width. assert (HM : N.log2_up x <= 63) by (rewrite <- (N.log2_up_pow2 63) by lia; apply N.log2_up_le_mono; exact Hx).
    assert (HU : 2 ^ N.log2_up x < USIZE).
    { apply N.le_lt_trans with (2 ^ 63); [apply N.pow_le_mono_r; lia|reflexivity]. }
    apply N.ltb_lt in HU. rewrite HU. split; [reflexivity|]. split.
    + destruct (N.le_gt_cases x 1) as [H1|H1].
      * apply N.le_trans with 1; [exact H1|]. apply N.lt_pred_le. cbn. apply N.neq_0_lt_0, N.pow_nonzero. discriminate.
      * apply N.log2_up_spec. exact H1.
    + intros j Hj. apply N.pow_le_mono_r; [discriminate|]. rewrite <- (N.log2_up_pow2 j) by lia. apply N.log2_up_le_mono. exact Hj.
  - intros oc x Hx. unfold get_power_of_two_ceil, next_power_of_two. rewrite next_pow2_width. unfold width.
    assert (HM : 63 < N.log2_up x) by (apply N.log2_up_lt_pow2; [|exact Hx]; apply N.lt_trans with (2 ^ 63); [reflexivity|exact Hx]).
    assert (HU : USIZE <= 2 ^ N.log2_up x) by (change USIZE with (2 ^ 64); apply N.pow_le_mono_r; [discriminate|lia]).
    apply N.ltb_ge in HU. rewrite HU. reflexivity.
  - reflexivity.
  - intros g Hg. exists (N.log2 g). unfold get_path_length, log_2. replace (g =? 0) with false by lia.
    pose proof (N.log2_spec g Hg) as [S1 S2]. rewrite <- N.add_1_r in S2. split; [reflexivity|]. split; [auto|].
    rewrite HI. split.
    + symmetry. apply (N.div_unique g (2 ^ N.log2 g) 1 (g - 2 ^ N.log2 g)); rewrite N.add_1_r, N.pow_succ_r' in S2; lia.
    + intros j Hj. rewrite HI. apply N.lt_le_trans with 2; [reflexivity|]. apply N.div_le_lower_bound; [apply N.pow_nonzero; discriminate|].
      apply N.le_trans with (2 ^ N.log2 g); [|exact S1]. rewrite N.mul_comm, <- N.pow_succ_r'. apply N.pow_le_mono_r; [discriminate|lia].
  - assert (HS : forall g, sibling g = (if N.even g then g + 1 else g - 1)).
    { intros g. unfold sibling. destruct g as [|[p|p|]]; reflexivity. }
    assert (HE : forall g, N.even g = (g mod 2 =? 0)).
    { intros g. destruct (N.even g) eqn:E.
      - apply N.even_spec in E as [k ->]. symmetry. apply N.eqb_eq. lia.
      - assert (O : N.odd g = true) by (rewrite <- N.negb_even, E; reflexivity). apply N.odd_spec in O as [k ->].
        symmetry. apply N.eqb_neq. lia. }
    intros g. split; [apply HS|]. split.
    + unfold sibling. rewrite N.lxor_assoc, N.lxor_nilpotent, N.lxor_0_r. reflexivity.
    + rewrite HS, HE. unfold parent. split; [|lia]. destruct (g mod 2 =? 0) eqn:E; lia.
  - intros oc g i Hi. unfold get_bit. replace (i <? 64) with true by lia. f_equal. rewrite HI.
    rewrite <- N.shiftr_div_pow2, <- N.bit0_odd, N.shiftr_spec', N.add_0_l, N.shiftl_1_l.
    destruct (N.testbit g i) eqn:E.
    + apply N.ltb_lt. apply N.neq_0_lt_0. intros H. assert (G : N.testbit (N.land g (2 ^ i)) i = false) by (rewrite H; apply N.bits_0).
      rewrite N.land_spec, E, N.pow2_bits_true in G. discriminate.
    + replace (N.land g (2 ^ i)) with 0; [reflexivity|]. symmetry. apply N.bits_inj_0. intros k.
      rewrite N.land_spec, N.pow2_bits_eqb. destruct (N.eqb_spec i k) as [<-|]; [rewrite E; reflexivity|apply andb_false_r].
  - intros g i Hi. unfold get_bit. replace (i <? 64) with false by lia. reflexivity.
Qed.

Lemma c65_presentation_merkle :
  forall H : bytes -> bytes, (forall x, blen (H x) = 32) -> forall t, legal t = true ->
  (forall u, regular_element (core u) = true) /\
  (forall oc v, valid t v -> regular (core t) = true ->
     ssz_hash_tree_root H oc (core t) (core_val v) = Ok (spec_root H t v)) /\
  (forall oc v, valid t v -> regular (core t) = true -> regular t = true ->
     ssz_hash_tree_root H oc (core t) (core_val v) = ssz_hash_tree_root H oc t v).
Proof.
  intros H Hlen t HL. split; [apply core_regular_element|].
  assert (HC : forall oc v, valid t v -> regular (core t) = true ->
    ssz_hash_tree_root H oc (core t) (core_val v) = Ok (spec_root H t v)).
  { intros oc v HV HR. rewrite (c27_hash_tree_root H Hlen) by (auto using core_legal, core_valid).
    rewrite core_root by exact HV. reflexivity. }
  split; [exact HC|]. intros oc v HV HR1 HR2. rewrite HC by auto. symmetry. apply c27_hash_tree_root; auto.
Qed.

Lemma c67_hashes :
  forall (H : bytes -> bytes) oc t v, fst (root_c H (table H) oc t v) = ssz_hash_tree_root H oc t v /\
  ((forall x, blen (H x) = 32) -> legal t = true -> sized t = true -> typed t v ->
   (forall u y, part t v u y -> in_memory u y) ->
   (forall r, ssz_hash_tree_root H oc t v = Ok r -> snd (root_c H (table H) oc t v) = root_hashes t v) /\
   snd (root_c H (table H) oc t v) <= root_hashes t v /\
   32 * root_hashes t v + 32 <= encoded_bytes t v + 32 * 66 * trees t v).
Proof.
  intros H oc t v. split; [apply root_erased|]. intros Hlen HL HR HT HM.
  destruct (root_takes H (table H) oc Hlen (CONTEXT_good H Hlen) t HL HR v HT HM) as [G1 G2].
  split; [|split; [exact G1|exact (root_cost t HL HR v HT HM)]].
  intros r E. apply (G2 r). rewrite root_erased. exact E.
Qed.

Lemma c68_hashes :
  forall (H : bytes -> bytes) oc t v path, fst (prove_c H (table H) oc t v path) = ssz_prove H oc t v path /\
  ((forall x, blen (H x) = 32) -> legal t = true -> sized t = true -> addressable t = true -> valid t v ->
   (forall u y, part t v u y -> in_memory u y) ->
   match ssz_generalized_index H oc t path with
   | Ok g =>
       (forall r, ssz_prove H oc t v path = Ok r -> snd (prove_c H (table H) oc t v path) = prove_hashes t v g) /\
       snd (prove_c H (table H) oc t v path) <= prove_hashes t v g
   | _ => snd (prove_c H (table H) oc t v path) = 0
   end).
Proof.
  intros H oc t v path. split; [apply prove_erased|]. intros Hlen HL HR HA HV HM.
  destruct (ssz_generalized_index H oc t path) as [g|e|x] eqn:EG.
  - destruct (prove_takes H Hlen (table H) (CONTEXT_good H Hlen) oc t v path g HL HR HA HV HM EG) as [G1 G2].
    split; [|exact G1]. intros r E. apply (G2 r). rewrite prove_erased. exact E.
  - unfold prove_c. unfold ssz_generalized_index, ssz in EG. rewrite EG. reflexivity.
  - unfold prove_c. unfold ssz_generalized_index, ssz in EG. rewrite EG. reflexivity.
Qed.

Lemma c68_padding :
  forall H : bytes -> bytes, (forall x, blen (H x) = 32) -> forall oc k, 5 <= k -> k <= 61 ->
  let t := TList (TUint U8) (2 ^ k) in
  (exists r, ssz_prove H oc t (VSeq []) [Length] = Ok r) /\
  snd (prove_c H (table H) oc t (VSeq []) [Length]) = 2 ^ (k - 4) /\
  snd (root_c H (table H) oc t (VSeq [])) = 1.
Proof.
  intros H Hlen oc k H1 H2 t.
  assert (HB : 2 ^ k <= 2 ^ 61) by (apply N.pow_le_mono_r; lia). change (2 ^ 61) with 2305843009213693952 in HB.
  assert (HL : legal t = true).
  { change ((2 ^ k <? 18446744073709551616) && true = true). lia. }
  assert (HR : sized t = true).
  { change (true && (2 ^ k * 1 <? 18446744073709551616) = true). lia. }
  assert (HA : addressable t = true).
  { change ((2 ^ k * 1 + 31 <? 18446744073709551616) && true = true). lia. }
  assert (HV : valid t (VSeq [])) by (split; [apply N.le_0_l|constructor]).
  assert (HM : forall u y, part t (VSeq []) u y -> in_memory u y).
  { apply (all_fit_ok 1). reflexivity. }
  assert (EG : ssz_generalized_index H oc t [Length] = Ok 3) by reflexivity.
  pose proof (c36_exact_partial H Hlen oc t (VSeq []) [Length] HL HR HA HV) as HP. rewrite EG in HP.
  unfold t at 1 in HP. rewrite (list_u8_probe k H1 H2) in HP. destruct HP as (pf & w & EP & _).
  split; [eauto|]. split.
  - destruct (c68_hashes H oc t (VSeq []) [Length]) as [_ G]. specialize (G Hlen HL HR HA HV HM). rewrite EG in G.
    rewrite (proj1 G _ EP). apply list_u8_hashes. exact H1.
  - destruct (c67_hashes H oc t (VSeq [])) as [_ G].
    destruct (G Hlen HL HR (valid_typed _ _ HV) HM) as [G' _].
    destruct (c28_partial H Hlen oc t (VSeq []) HL HR HV) as [_ ER]. rewrite (G' _ ER).
    unfold t. cbn [root_hashes]. rewrite tree_hashes_0. reflexivity.
Qed.

Lemma c69_all_types :
  forall H : bytes -> bytes, (forall x, blen (H x) = 32) -> forall oc oc' t v path g b root,
  legal t = true -> sized t = true -> valid t v -> along counts t path = true ->
  gindex_with item_basic t path = Some g -> g < 2 ^ 64 -> leaf_with H t v path = Some b ->
  ssz_hash_tree_root H oc t v = Ok root ->
  verify H oc' (MkProof b (map (value_node H t v) (branch_of g)) g) root = Ok tt /\
  forall p, proof_index p = g -> blen (leaf p) = 32 -> Forall (fun c : bytes => blen c = 32) (branch p) ->
    verify H oc' p root = Ok tt ->
    p = MkProof b (map (value_node H t v) (branch_of g)) g \/
    exists x y, In x (climb_inputs H g (leaf p) (branch p)) /\ hashed_with packed H t v y /\ x <> y /\ H x = H y.
Proof.
  intros H Hlen oc oc' t v path g b root HL HR HV HA HG Hg HS ER.
  destruct (path_node H Hlen t v path b g HL HR HV HA HS HG) as (G1 & GB & GI & GR).
  destruct (c28_partial H Hlen oc t v HL HR HV) as [_ ER']. rewrite ER' in ER. assert (root = value_node H t v 1) by congruence. subst root. clear ER ER' GR.
  assert (GM : forall a, ancestor a g -> value_node H t v a = H (value_node H t v (2 * a) ++ value_node H t v (2 * a + 1))).
  { intros a Ha. exact (proj1 (GI a Ha)). }
  split.
  - unfold verify. cbn [leaf branch proof_index]. rewrite verify_for_index by exact Hg. replace (g =? 0) with false by lia.
    rewrite <- GB, (climb_honest H (value_node H t v) _ g eq_refl G1 GM). rewrite bytes_eqb_refl.
    replace (blen _ =? N.log2 g) with true; [reflexivity|]. symmetry. apply N.eqb_eq. unfold blen, branch_of.
    rewrite !map_length, seq_length. lia.
  - intros [l br g'] EI L1 A1. cbn [leaf branch proof_index] in *. subst g'. unfold verify. cbn [leaf branch proof_index].
    rewrite verify_for_index by exact Hg. replace (g =? 0) with false by lia.
    destruct (N.eqb_spec (blen br) (N.log2 g)) as [B1|]; [|discriminate]. cbn [andb].
    destruct (bytes_eqb _ _) eqn:E1; [|discriminate]. intros _. apply bytes_eqb_true in E1.
    destruct (climb_sound H Hlen (value_node H t v) (fun g => value_blen H Hlen t v g HV) br g l B1 G1 L1 A1 GM E1) as [[-> ->]|(x & a & HI & Ha & NX & EX)].
    + left. rewrite GB. reflexivity.
    + right. eexists x, _. split; [exact HI|]. split; [apply (GI a Ha)|]. auto.
Qed.

Lemma c69_proofs_sound :
  forall H : bytes -> bytes, (forall x, blen (H x) = 32) -> forall oc oc' t v path g b root,
  legal t = true -> regular t = true -> valid t v ->
  spec_gindex t path = Some g -> g < 2 ^ 64 -> spec_leaf H t v path = Some b ->
  ssz_hash_tree_root H oc t v = Ok root ->
  verify H oc' (MkProof b (map (value_node H t v) (branch_of g)) g) root = Ok tt /\
  forall p, proof_index p = g -> blen (leaf p) = 32 -> Forall (fun c : bytes => blen c = 32) (branch p) ->
    verify H oc' p root = Ok tt ->
    p = MkProof b (map (value_node H t v) (branch_of g)) g \/
    exists x y, In x (climb_inputs H g (leaf p) (branch p)) /\ hashed_with packed H t v y /\ x <> y /\ H x = H y.
Proof.
  intros H Hlen oc oc' t v path g b root HL HR HV HG Hg HS ER. apply (c69_all_types H Hlen oc oc' t v path g b root); auto.
  - apply regular_sized, HR.
  - apply regular_along_counts, HR.
  - apply regular_gindex; auto.
  - apply regular_leaf; auto.
Qed.

Lemma c69_honest_proofs :
  forall H : bytes -> bytes, (forall x, blen (H x) = 32) -> forall oc t v path g b,
  legal t = true -> sized t = true -> valid t v -> provable_with t = true -> along provable_with t path = true ->
  gindex_with item_basic t path = Some g -> g < 2 ^ 64 -> leaf_with H t v path = Some b ->
  exists root, ssz_hash_tree_root H oc t v = Ok root /\
    ssz_prove H oc t v path = Ok (MkProof b (map (value_node H t v) (branch_of g)) g, root).
Proof.
  intros H Hlen oc t v path g b HL HR HV HP HA HG Hlt HS. pose proof (CONTEXT_good H Hlen) as HC.
  exists (root_with packed H t v). split; [exact (proj1 (with_hash_tree_root_ok H Hlen _ HC oc t HL HR v HV))|].
  apply honest_spec; auto.
Qed.

Lemma c70_all_types :
  forall H : bytes -> bytes, (forall x, blen (H x) = 32) -> forall enum, (forall l, Permutation (enum l) l) ->
  forall oc t v paths gs bs root,
  legal t = true -> sized t = true -> valid t v -> paths <> [] -> Forall (fun path => along counts t path = true) paths ->
  Forall2 (fun path g => gindex_with item_basic t path = Some g) paths gs ->
  Forall2 (fun path b => leaf_with H t v path = Some b) paths bs ->
  ssz_hash_tree_root H oc t v = Ok root ->
  exists hs, get_helper_indices enum gs = Ok hs /\
    verify_merkle_multiproof H enum bs (map (value_node H t v) hs) gs root = Ok tt /\
    (independent gs -> forall leaves proof,
     Forall (fun c : bytes => blen c = 32) leaves -> Forall (fun c : bytes => blen c = 32) proof ->
     verify_merkle_multiproof H enum leaves proof gs root = Ok tt ->
     (leaves = bs /\ proof = map (value_node H t v) hs) \/
     exists x y, opened_input H (combine gs leaves ++ combine hs proof) x /\ hashed_with packed H t v y /\ x <> y /\ H x = H y).
Proof.
  intros H Hlen enum Henum oc t v paths gs bs root HL HR HV HP HA HG HS ER.
  destruct (c28_partial H Hlen oc t v HL HR HV) as [_ ER']. rewrite ER' in ER.
  assert (HN : root = value_node H t v 1 /\ bs = map (value_node H t v) gs /\ (forall g, In g gs -> 1 <= g) /\
    (forall i g, In i gs -> ancestor g i -> inner_at H t v g)).
  { assert (HI : bs = map (value_node H t v) gs /\ (forall g, In g gs -> 1 <= g) /\ (forall i g, In i gs -> ancestor g i -> inner_at H t v g)).
    { clear HP. revert bs HS HA. induction HG as [|path g paths gs E HG IH]; intros bs HS HA; inversion HS; subst.
      - split; [reflexivity|]. split; [intros ? []|intros ? ? []].
      - inversion HA; subst. destruct (IH _ ltac:(eassumption) ltac:(assumption)) as (I1 & I2 & I3).
        match goal with Hl : leaf_with H t v path = Some ?b, Ha : along counts t path = true |- _ =>
          destruct (path_node H Hlen t v path b g HL HR HV Ha Hl E) as (G1 & GB & GI & _) end.
        split; [cbn [map]; congruence|]. split.
        + intros g' [<-|HI]; auto.
        + intros i g' [<-|HI]; eauto. }
    split; [|exact HI]. destruct paths as [|path paths]; [congruence|]. inversion HA; inversion HG; inversion HS; subst.
    match goal with Hl : leaf_with H t v path = Some ?b, Ha : along counts t path = true, He : gindex_with _ _ path = Some ?g |- _ =>
      destruct (path_node H Hlen t v path b g HL HR HV Ha Hl He) as (_ & _ & _ & GR) end. congruence. }
  destruct HN as (-> & -> & N1 & N2).
  assert (HM : merkle_over H gs (value_node H t v)). { intros i g Hi Hg. exact (proj1 (N2 i g Hi Hg)). }
  assert (HX : exists i, In i gs /\ 1 <= i).
  { destruct HG as [|path g paths gs E HG]; [congruence|]. exists g. split; [now left|]. apply N1. now left. }
  destruct (c40_honest_multiproofs H enum Henum gs (value_node H t v) HM HX) as (hs & E & _ & EV). exists hs. split; [exact E|]. split; [exact EV|].
  intros HI leaves proof A1 A2 EP.
  destruct (c41_multiproofs_sound H Hlen enum Henum gs leaves proof (value_node H t v) HI N1 A1 A2 (fun g => value_blen H Hlen t v g HV) HM EP) as (hs' & E' & C).
  assert (hs' = hs) by congruence. subst hs'. destruct C as [C|(x & y & X1 & (i & g & Hi & Hg & ->) & X3)]; [left; exact C|].
  right. eexists x, _. split; [exact X1|]. split; [apply (N2 i g Hi Hg)|exact X3].
Qed.

Lemma c70_multiproofs :
  forall H : bytes -> bytes, (forall x, blen (H x) = 32) -> forall enum, (forall l, Permutation (enum l) l) ->
  forall oc t v paths gs bs root,
  legal t = true -> regular t = true -> valid t v -> paths <> [] ->
  Forall2 (fun path g => spec_gindex t path = Some g) paths gs ->
  Forall2 (fun path b => spec_leaf H t v path = Some b) paths bs ->
  ssz_hash_tree_root H oc t v = Ok root ->
  exists hs, get_helper_indices enum gs = Ok hs /\
    verify_merkle_multiproof H enum bs (map (value_node H t v) hs) gs root = Ok tt /\
    (independent gs -> forall leaves proof,
     Forall (fun c : bytes => blen c = 32) leaves -> Forall (fun c : bytes => blen c = 32) proof ->
     verify_merkle_multiproof H enum leaves proof gs root = Ok tt ->
     (leaves = bs /\ proof = map (value_node H t v) hs) \/
     exists x y, opened_input H (combine gs leaves ++ combine hs proof) x /\ hashed_with packed H t v y /\ x <> y /\ H x = H y).
Proof.
  intros H Hlen enum Henum oc t v paths gs bs root HL HR HV HP HG HS ER.
  apply (c70_all_types H Hlen enum Henum oc t v paths gs bs root); auto.
  - apply regular_sized, HR.
  - apply Forall_forall. intros path _. apply regular_along_counts, HR.
  - clear HS HP. induction HG; constructor; auto. apply regular_gindex; auto.
  - clear HG HP. induction HS; constructor; auto. apply regular_leaf; auto.
Qed.

Lemma c72_all_types :
  forall H : bytes -> bytes, (forall x, blen (H x) = 32) -> forall oc t v w path g b c,
  legal t = true -> sized t = true -> valid t v -> valid t w -> provable_with t = true -> along provable_with t path = true ->
  gindex_with item_basic t path = Some g -> g < 2 ^ 64 -> leaf_with H t v path = Some b -> leaf_with H t w path = Some c ->
  agree_off t v w path ->
  exists br root root',
    ssz_prove H oc t v path = Ok (MkProof b br g, root) /\ ssz_prove H oc t w path = Ok (MkProof c br g, root') /\
    ssz_hash_tree_root H oc t v = Ok root /\ ssz_hash_tree_root H oc t w = Ok root' /\
    root = climb H g b br /\ root' = climb H g c br /\
    forall oc', verify H oc' (MkProof c br g) root' = Ok tt.
Proof.
  intros H Hlen oc t v w path g b c HL HR HV HW HP HA HG Hlt HS HS' HB.
  destruct (c69_honest_proofs H Hlen oc t v path g b HL HR HV HP HA HG Hlt HS) as (root & R1 & P1).
  destruct (c69_honest_proofs H Hlen oc t w path g c HL HR HW HP HA HG Hlt HS') as (root' & R2 & P2).
  pose proof (along_counts path t HA) as HA'.
  rewrite <- (branch_agree H Hlen path t v w g) in P2 by auto.
  exists (map (value_node H t v) (branch_of g)), root, root'. split; [exact P1|]. split; [exact P2|]. split; [exact R1|]. split; [exact R2|].
  assert (HCl : forall x b r, valid t x -> leaf_with H t x path = Some b -> ssz_hash_tree_root H oc t x = Ok r ->
            r = climb H g b (map (value_node H t x) (branch_of g))).
  { intros x b0 r HX HSx ER. destruct (path_node H Hlen t x path b0 g HL HR HX HA' HSx HG) as (G1 & GB & GI & GR).
    destruct (c28_partial H Hlen oc t x HL HR HX) as [_ ER']. rewrite ER' in ER. assert (r = value_node H t x 1) by congruence. subst r.
    rewrite <- GB. symmetry. apply (climb_honest H (value_node H t x) _ g eq_refl G1). intros a Ha. exact (proj1 (GI a Ha)). }
  split; [apply HCl; auto|]. split.
  - rewrite (branch_agree H Hlen path t v w g) by auto. apply HCl; auto.
  - intros oc'. rewrite (branch_agree H Hlen path t v w g) by auto.
    eapply (proj1 (c69_all_types H Hlen oc oc' t w path g c root' HL HR HW HA' HG Hlt HS' R2)).
Qed.

Lemma c72_branches_last :
  forall H : bytes -> bytes, (forall x, blen (H x) = 32) -> forall oc t v w path g b c,
  legal t = true -> regular t = true -> valid t v -> valid t w -> provable t = true -> along provable t path = true ->
  spec_gindex t path = Some g -> g < 2 ^ 64 -> spec_leaf H t v path = Some b -> spec_leaf H t w path = Some c ->
  agree_off t v w path ->
  exists br,
    ssz_prove H oc t v path = Ok (MkProof b br g, spec_root H t v) /\
    ssz_prove H oc t w path = Ok (MkProof c br g, spec_root H t w) /\
    spec_root H t v = climb H g b br /\ spec_root H t w = climb H g c br /\
    forall oc', verify H oc' (MkProof c br g) (spec_root H t w) = Ok tt.
Proof.
  intros H Hlen oc t v w path g b c HL HR HV HW HP HA HG Hlt HS HS' HB.
  destruct (c72_all_types H Hlen oc t v w path g b c) as (br & root & root' & P1 & P2 & R1 & R2 & C1 & C2 & C3); auto.
  - apply regular_sized, HR.
  - apply regular_provable; auto.
  - apply regular_along; auto.
  - apply regular_gindex; auto.
  - apply regular_leaf; auto.
  - apply regular_leaf; auto.
  - pose proof (c27_hash_tree_root H Hlen oc t v HL HR HV) as E1. pose proof (c27_hash_tree_root H Hlen oc t w HL HR HW) as E2.
    assert (D1 : root = spec_root H t v) by congruence. assert (D2 : root' = spec_root H t w) by congruence.
    exists br. rewrite <- D1, <- D2. split; [exact P1|]. split; [exact P2|]. split; [exact C1|]. split; [exact C2|exact C3].
Qed.

Lemma c73_chained :
  forall H oc oc1 oc2 leaf1 (br1 br2 : list bytes) g1 g2 root,
  1 <= g1 -> 1 <= g2 -> graft g2 g1 < 2 ^ 64 -> blen br1 = N.log2 g1 ->
  (verify H oc (MkProof leaf1 (br1 ++ br2) (graft g2 g1)) root = Ok tt <->
   exists middle, verify H oc1 (MkProof leaf1 br1 g1) middle = Ok tt /\ verify H oc2 (MkProof middle br2 g2) root = Ok tt).
Proof.
  intros H oc oc1 oc2 leaf1 br1 br2 g1 g2 root H1 H2 Hlt HB.
  assert (L1 : g1 < 2 ^ 64 /\ g2 < 2 ^ 64).
  { clear HB. unfold graft in Hlt. destruct (N.log2_spec g1 ltac:(lia)). assert (1 <= 2 ^ N.log2 g1) by (pose proof (pow2_pos (N.log2 g1)); lia). nia. }
  destruct L1 as [L1 L2].
  destruct (c39_verifiers_agree H oc leaf1 (br1 ++ br2) (graft g2 g1) root Hlt) as (E0 & _ & E1).
  rewrite <- E0, E1. clear E0 E1.
  assert (Eb : blen (br1 ++ br2) = blen br1 + blen br2) by (unfold blen; rewrite app_length; lia).
  rewrite climb_graft, Eb, log2_graft by auto.
  assert (H3 : 1 <= graft g2 g1) by (unfold graft; pose proof (pow2_pos (N.log2 g1)); nia).
  split.
  - intros (_ & B & C). exists (climb H g1 leaf1 br1).
    destruct (c39_verifiers_agree H oc1 leaf1 br1 g1 (climb H g1 leaf1 br1) L1) as (E0 & _ & E1). rewrite <- E0, E1.
    destruct (c39_verifiers_agree H oc2 (climb H g1 leaf1 br1) br2 g2 root L2) as (E2 & _ & E3). rewrite <- E2, E3.
    split; [auto|]. split; [exact H2|]. split; [lia|exact C].
  - intros (m & A & B).
    destruct (c39_verifiers_agree H oc1 leaf1 br1 g1 m L1) as (E0 & _ & E1). rewrite <- E0, E1 in A.
    destruct (c39_verifiers_agree H oc2 m br2 g2 root L2) as (E2 & _ & E3). rewrite <- E2, E3 in B.
    destruct A as (_ & _ & A). destruct B as (_ & B1 & B2). subst m. split; [exact H3|]. split; [lia|exact B2].
Qed.

Lemma c73_all_types :
  forall H : bytes -> bytes, (forall x, blen (H x) = 32) -> forall oc t v p q u x g b,
  legal t = true -> sized t = true -> valid t v -> provable_with t = true -> provable_with u = true ->
  along provable_with t (p ++ q) = true -> part_at t v p = Some (u, x) ->
  gindex_with item_basic t (p ++ q) = Some g -> g < 2 ^ 64 -> leaf_with H t v (p ++ q) = Some b ->
  exists gp gq brp brq middle root,
    ssz_prove H oc u x q = Ok (MkProof b brq gq, middle) /\
    ssz_prove H oc t v p = Ok (MkProof middle brp gp, root) /\
    g = graft gp gq /\ ssz_prove H oc t v (p ++ q) = Ok (MkProof b (brq ++ brp) g, root) /\
    ssz_hash_tree_root H oc u x = Ok middle /\ ssz_hash_tree_root H oc t v = Ok root.
Proof.
  intros H Hlen oc t v p q u x g b HL HR HV HP HPu HA HE HG Hlt HS.
  destruct (part_at_ok H Hlen p t v u x q HL HR HV (along_counts _ _ HA) HE) as (B1 & B2 & B3 & _ & B5 & gp & G1 & G2 & G3 & G4).
  rewrite HG in G3. destruct (gindex_with item_basic u q) as [gq|] eqn:EQ; [|discriminate]. cbn [option_map] in G3.
  assert (Eg : g = graft gp gq) by congruence. clear G3.
  assert (Hq : 1 <= gq) by (apply with_gindex_from_ge in EQ; exact EQ).
  assert (LT : gp < 2 ^ 64 /\ gq < 2 ^ 64).
  { subst g. clear HG. unfold graft in Hlt. destruct (N.log2_spec gq ltac:(lia)).
    assert (1 <= 2 ^ N.log2 gq) by (pose proof (pow2_pos (N.log2 gq)); lia). nia. }
  destruct LT as [LTp LTq].
  assert (HApq : along provable_with t p = true /\ along provable_with u q = true).
  { clear HS HG Eg G1 G4 EQ. revert t v HL HR HV HP HA HE B5. induction p as [|e p IH]; intros t v HL HR HV HP HA HE B5.
    - assert (u = t) by (cbn [part_at] in HE; congruence). subst u. auto.
    - cbn [app] in HA. pose proof (provable_counts t HP) as HC.
      destruct (part_step H t v e p u x HL HR HV HC HE) as (k & pos & u1 & x1 & ES & Ek & EX & HE' & HLf).
      destruct (along_step provable_with t e (p ++ q) k pos u1 ES HA) as [_ HA'].
      destruct (part_ok H Hlen [] true t v pos u1 x1 HC HL HR HV EX) as [D1 D2 D3 _ _ _].
      destruct p as [|e' p].
      + assert (u = u1) by (cbn [part_at] in HE'; congruence). subst u1. split; [|exact HA'].
        cbn [along]. rewrite HP. cbn [andb]. destruct (spec_step t e) as [[[? ?] ?]|]; reflexivity.
      + assert (HP1 : provable_with u1 = true) by (cbn [along app] in HA'; apply andb_true_iff in HA'; apply HA').
        destruct (IH u1 x1 D1 D2 D3 HP1 HA' HE') as [I1 I2].
        { intros q'. rewrite <- (B5 q'). cbn [app]. rewrite HLf. reflexivity. }
        split; [|exact I2]. cbn [along]. rewrite HP. cbn [andb].
        pose proof (step_target item_basic t e) as HT. destruct (spec_step t e) as [[[w' pos'] u']|]; [|reflexivity].
        destruct HT as (w2 & pos2 & HT). rewrite ES in HT. injection HT as _ _ <-. exact I1. }
  destruct HApq as [HAp HAq].
  pose proof (B5 q) as Bq. rewrite HS in Bq. symmetry in Bq.
  pose proof (B5 []) as Bp. rewrite app_nil_r in Bp. cbn [leaf_with] in Bp.
  destruct (c69_honest_proofs H Hlen oc u x q gq b B1 B2 B3 HPu HAq EQ LTq Bq) as (m & R1 & P1).
  destruct (c28_partial H Hlen oc u x B1 B2 B3) as [_ R1']. rewrite R1' in R1. assert (m = root_with packed H u x) by congruence. subst m.
  destruct (c69_honest_proofs H Hlen oc t v p gp _ HL HR HV HP HAp G1 LTp Bp) as (root & R2 & P2).
  destruct (c69_honest_proofs H Hlen oc t v (p ++ q) g b HL HR HV HP HA HG Hlt HS) as (root' & R3 & P3).
  assert (root' = root) by congruence. subst root'.
  exists gp, gq, (map (value_node H t v) (branch_of gp)), (map (value_node H u x) (branch_of gq)), (root_with packed H u x), root.
  split; [exact P1|]. split; [exact P2|]. split; [exact Eg|]. split; [|split; [exact R1'|exact R2]].
  rewrite P3. do 3 f_equal. rewrite Eg, branch_of_graft, map_app, map_map by auto. f_equal. apply map_ext_in. intros s Hs. apply G4.
  pose proof (branch_of_ge gq Hq) as HGe. rewrite Forall_forall in HGe. apply HGe, Hs.
Qed.

Lemma c73_parts_of_parts :
  forall H : bytes -> bytes, (forall x, blen (H x) = 32) -> forall oc t v p q u x g b,
  legal t = true -> regular t = true -> valid t v -> provable t = true -> provable u = true ->
  along provable t (p ++ q) = true -> part_at t v p = Some (u, x) ->
  spec_gindex t (p ++ q) = Some g -> g < 2 ^ 64 -> spec_leaf H t v (p ++ q) = Some b ->
  exists gp gq brp brq,
    ssz_prove H oc u x q = Ok (MkProof b brq gq, spec_root H u x) /\
    ssz_prove H oc t v p = Ok (MkProof (spec_root H u x) brp gp, spec_root H t v) /\
    ssz_prove H oc t v (p ++ q) = Ok (MkProof b (brq ++ brp) g, spec_root H t v) /\ g = graft gp gq.
Proof.
  intros H Hlen oc t v p q u x g b HL HR HV HP HPu HA HE HG Hlt HS.
  pose proof (part_regular H Hlen p t v u x HL HR HV HE) as HRu.
  destruct (part_at_ok H Hlen p t v u x q HL (regular_sized t HR) HV (regular_along_counts _ _ HR) HE) as (B1 & _ & B3 & _).
  destruct (c73_all_types H Hlen oc t v p q u x g b) as (gp & gq & brp & brq & m & root & P1 & P2 & Eg & P3 & R1 & R2); auto.
  - apply regular_sized, HR.
  - apply regular_provable; auto.
  - apply regular_provable; auto.
  - apply regular_along; auto.
  - apply regular_gindex; auto.
  - apply regular_leaf; auto.
  - pose proof (c27_hash_tree_root H Hlen oc t v HL HR HV) as E1. pose proof (c27_hash_tree_root H Hlen oc u x B1 HRu B3) as E2.
    assert (D1 : root = spec_root H t v) by congruence. assert (D2 : m = spec_root H u x) by congruence.
    exists gp, gq, brp, brq. rewrite <- D1, <- D2. auto.
Qed.

Lemma c74_all_types :
  forall H : bytes -> bytes, (forall x, blen (H x) = 32) -> forall enum, (forall l, Permutation (enum l) l) ->
  forall oc t v w paths gs bs cs root root',
  legal t = true -> sized t = true -> valid t v -> valid t w -> paths <> [] -> Forall (fun path => along counts t path = true) paths ->
  Forall2 (fun path g => gindex_with item_basic t path = Some g) paths gs -> independent gs ->
  Forall2 (fun path b => leaf_with H t v path = Some b) paths bs ->
  Forall2 (fun path c => leaf_with H t w path = Some c) paths cs ->
  changes t paths v w ->
  ssz_hash_tree_root H oc t v = Ok root -> ssz_hash_tree_root H oc t w = Ok root' ->
  exists hs, get_helper_indices enum gs = Ok hs /\ map (value_node H t v) hs = map (value_node H t w) hs /\
    verify_merkle_multiproof H enum bs (map (value_node H t v) hs) gs root = Ok tt /\
    verify_merkle_multiproof H enum cs (map (value_node H t v) hs) gs root' = Ok tt /\
    calculate_multi_merkle_root H enum cs (map (value_node H t v) hs) gs = Ok root'.
Proof.
  intros H Hlen enum Henum oc t v w paths gs bs cs root root' HL HR HV HW HP HA HG HI HS HS' HX R R'.
  destruct (c70_all_types H Hlen enum Henum oc t v paths gs bs root HL HR HV HP HA HG HS R) as (hs & E & E1 & _).
  destruct (c70_all_types H Hlen enum Henum oc t w paths gs cs root' HL HR HW HP HA HG HS' R') as (hs' & E' & E2 & _).
  assert (hs' = hs) by congruence. subst hs'. clear E'.
  destruct (c43_helper_indices enum Henum gs) as (hs' & E' & _ & HH). assert (hs' = hs) by congruence. subst hs'. clear E'.
  assert (HN : forall x y, valid t x -> valid t y -> changes t paths x y -> map (value_node H t x) hs = map (value_node H t y) hs).
  { intros x y Hx Hy HC. induction HC as [x|x u y path HIn Hu HO HC IH]; [reflexivity|]. rewrite <- IH by auto.
    apply map_ext_in. intros s Hs. apply HH in Hs.
    assert (HIg : exists g, gindex_with item_basic t path = Some g /\ In g gs).
    { clear - HG HIn. induction HG as [|a g ps gs Ea HG IH]; [contradiction|]. destruct HIn as [<-|HIn]; [exists g; split; [exact Ea|now left]|].
      destruct (IH HIn) as (g' & A & B). exists g'. split; [exact A|now right]. }
    destruct HIg as (g & Eg & HIg). assert (Hg : 1 <= g) by (apply with_gindex_from_ge in Eg; exact Eg).
    rewrite Forall_forall in HA.
    destruct (helper_apart gs s g HI Hs HIg Hg) as (S1 & S2 & S3).
    apply (node_agree H Hlen path t x u g s); auto. }
  exists hs. rewrite <- (HN v w HV HW HX) in E2. split; [exact E|]. split; [auto|]. split; [exact E1|]. split; [exact E2|].
  unfold verify_merkle_multiproof in E2. destruct (calculate_multi_merkle_root H enum cs (map (value_node H t v) hs) gs) as [r|e|p]; cbn [bind] in E2; try discriminate.
  destruct (bytes_eqb r root') eqn:EB; [|discriminate]. apply bytes_eqb_true in EB. congruence.
Qed.

Lemma c74_updates :
  forall H : bytes -> bytes, (forall x, blen (H x) = 32) -> forall enum, (forall l, Permutation (enum l) l) ->
  forall t v w paths gs bs cs,
  legal t = true -> regular t = true -> valid t v -> valid t w -> paths <> [] ->
  Forall2 (fun path g => spec_gindex t path = Some g) paths gs -> independent gs ->
  Forall2 (fun path b => spec_leaf H t v path = Some b) paths bs ->
  Forall2 (fun path c => spec_leaf H t w path = Some c) paths cs ->
  changes t paths v w ->
  exists hs, get_helper_indices enum gs = Ok hs /\ map (value_node H t v) hs = map (value_node H t w) hs /\
    verify_merkle_multiproof H enum bs (map (value_node H t v) hs) gs (spec_root H t v) = Ok tt /\
    verify_merkle_multiproof H enum cs (map (value_node H t v) hs) gs (spec_root H t w) = Ok tt /\
    calculate_multi_merkle_root H enum cs (map (value_node H t v) hs) gs = Ok (spec_root H t w).
Proof.
  intros H Hlen enum Henum t v w paths gs bs cs HL HR HV HW HP HG HI HS HS' HX.
  apply (c74_all_types H Hlen enum Henum true t v w paths gs bs cs); auto.
  - apply regular_sized, HR.
  - apply Forall_forall. intros path _. apply regular_along_counts, HR.
  - clear - HG HR. induction HG; constructor; auto. apply regular_gindex; auto.
  - clear - HS HR HL HV Hlen. induction HS; constructor; auto. apply regular_leaf; auto.
  - clear - HS' HR HL HW Hlen. induction HS'; constructor; auto. apply regular_leaf; auto.
  - apply c27_hash_tree_root; auto.
  - apply c27_hash_tree_root; auto.
Qed.

Lemma c75_all_types :
  forall H : bytes -> bytes, (forall x, blen (H x) = 32) -> forall oc t v w i g b c,
  legal t = true -> sized t = true -> valid t v -> valid t w -> provable_with t = true ->
  gindex_with item_basic t [Index i] = Some g -> g < 2 ^ 64 ->
  leaf_with H t v [Index i] = Some b -> leaf_with H t w [Index i] = Some c ->
  same_entries t v w i ->
  exists br root root',
    ssz_prove H oc t v [Index i] = Ok (MkProof b (br ++ [num_chunk (entry_count t v)]) g, root) /\
    ssz_prove H oc t w [Index i] = Ok (MkProof c (br ++ [num_chunk (entry_count t w)]) g, root') /\
    ssz_hash_tree_root H oc t v = Ok root /\ ssz_hash_tree_root H oc t w = Ok root' /\
    root = climb H g b (br ++ [num_chunk (entry_count t v)]) /\ root' = climb H g c (br ++ [num_chunk (entry_count t w)]).
Proof.
  intros H Hlen oc t v w i g b c HL HR HV HW HP HG Hlt HS HS' HE.
  assert (HA : along provable_with t [Index i] = true).
  { cbn [along]. rewrite HP. destruct (spec_step t (Index i)) as [[[? ?] ?]|]; reflexivity. }
  destruct (entries_branch H Hlen t v w i g HL HR HV HW (provable_counts t HP) HE HG) as (lower & EB & EM & E3 & E3').
  destruct (c69_honest_proofs H Hlen oc t v [Index i] g b HL HR HV HP HA HG Hlt HS) as (root & R1 & P1).
  destruct (c69_honest_proofs H Hlen oc t w [Index i] g c HL HR HW HP HA HG Hlt HS') as (root' & R2 & P2).
  pose proof (along_counts _ t HA) as HA'.
  assert (HCl : forall x b r, valid t x -> leaf_with H t x [Index i] = Some b -> ssz_hash_tree_root H oc t x = Ok r ->
            r = climb H g b (map (value_node H t x) (branch_of g))).
  { intros x b0 r HX HSx ER. destruct (path_node H Hlen t x [Index i] b0 g HL HR HX HA' HSx HG) as (G1 & GB & GI & GR).
    destruct (c28_partial H Hlen oc t x HL HR HX) as [_ ER']. rewrite ER' in ER. assert (r = value_node H t x 1) by congruence. subst r.
    rewrite <- GB. symmetry. apply (climb_honest H (value_node H t x) _ g eq_refl G1). intros a Ha. exact (proj1 (GI a Ha)). }
  pose proof (HCl v b root HV HS R1) as C1. pose proof (HCl w c root' HW HS' R2) as C2. clear HCl.
  rewrite EB, map_app in P1, P2, C1, C2. cbn [map] in P1, P2, C1, C2. rewrite E3 in P1, C1. rewrite E3', <- EM in P2, C2.
  exists (map (value_node H t v) lower), root, root'. split; [exact P1|]. split; [exact P2|]. split; [exact R1|]. split; [exact R2|]. split; [exact C1|exact C2].
Qed.

Lemma c75_append :
  forall H : bytes -> bytes, (forall x, blen (H x) = 32) -> forall oc u n l x g,
  legal (TList u n) = true -> regular (TList u n) = true -> valid (TList u n) (VSeq (l ++ [x])) -> provable (TList u n) = true ->
  spec_basic u = false -> spec_gindex (TList u n) [Index (blen l)] = Some g -> g < 2 ^ 64 ->
  exists br,
    ssz_prove H oc (TList u n) (VSeq l) [Index (blen l)] =
      Ok (MkProof zero_chunk (br ++ [num_chunk (blen l)]) g, spec_root H (TList u n) (VSeq l)) /\
    ssz_hash_tree_root H oc (TList u n) (VSeq (l ++ [x])) = Ok (climb H g (spec_root H u x) (br ++ [num_chunk (blen l + 1)])).
Proof.
  intros H Hlen oc u n l x g HL HR HW HP HB HG Hlt.
  assert (HV : valid (TList u n) (VSeq l)).
  { destruct HW as [W1 W2]. apply Forall_app in W2. destruct W2 as [W2 _]. split; [|exact W2]. unfold blen in *. rewrite app_length in W1. cbn [length] in W1. lia. }
  assert (Hi : blen l <? n = true).
  { destruct HW as [W1 _]. unfold blen in *. rewrite app_length in W1. cbn [length] in W1. lia. }
  assert (E0 : nth_error l (N.to_nat (blen l)) = None) by (apply nth_error_None; unfold blen; lia).
  assert (E1 : nth_error (l ++ [x]) (N.to_nat (blen l)) = Some x).
  { rewrite nth_error_app2 by (unfold blen; lia). replace (N.to_nat (blen l) - length l)%nat with 0%nat by (unfold blen; lia). reflexivity. }
  assert (S0 : spec_leaf H (TList u n) (VSeq l) [Index (blen l)] = Some zero_chunk).
  { cbn [spec_leaf peel]. rewrite Hi, HB, E0. reflexivity. }
  assert (S1 : spec_leaf H (TList u n) (VSeq (l ++ [x])) [Index (blen l)] = Some (spec_root H u x)).
  { cbn [spec_leaf peel]. rewrite Hi, HB, E1. reflexivity. }
  destruct (c75_all_types H Hlen oc (TList u n) (VSeq l) (VSeq (l ++ [x])) (blen l) g zero_chunk (spec_root H u x))
    as (br & root & root' & P1 & P2 & R1 & R2 & C1 & C2); auto.
  - apply regular_sized, HR.
  - apply regular_provable; auto.
  - apply regular_gindex; auto.
  - apply regular_leaf; auto.
  - apply regular_leaf; auto.
  - unfold same_entries. cbn [peel]. intros j Hj. symmetry. apply nth_error_push. intros E. assert (Ej : j = blen l) by (unfold blen; lia).
    subst j. destruct (item_basic u); congruence.
  - cbn [entry_count peel snd] in *. unfold entry_count in *. cbn [peel snd] in *.
    assert (El : blen (l ++ [x]) = blen l + 1) by (unfold blen; rewrite app_length; cbn [length]; lia). rewrite El in *.
    exists br. rewrite <- C2. split; [|exact R2].
    pose proof (c27_hash_tree_root H Hlen oc (TList u n) (VSeq l) HL HR HV) as ER.
    assert (root = spec_root H (TList u n) (VSeq l)) by congruence. congruence.
Qed.

Lemma c76_roots_partial :
  forall H : bytes -> bytes, (forall x, blen (H x) = 32) -> forall oc1 oc2 t v w r1 r2,
  legal t = true -> sized t = true -> valid t v -> valid t w ->
  ssz_hash_tree_root H oc1 t v = Ok r1 -> ssz_hash_tree_root H oc2 t w = Ok r2 ->
  (ssz_eq v w = true -> r1 = r2) /\
  (no_transparent t = true -> ssz_eq v w = false -> r1 = r2 ->
   exists x y, hashed_with packed H t v x /\ hashed_with packed H t w y /\ x <> y /\ H x = H y).
Proof.
  intros H Hlen oc1 oc2 t v w r1 r2 HL HS HV HW E1 E2. split.
  - intros E. apply ssz_eq_spec in E. apply (same_valid t v w HV HW) in E. subst w.
    destruct (c28_partial H Hlen oc1 t v HL HS HV) as [_ F1]. destruct (c28_partial H Hlen oc2 t v HL HS HV) as [_ F2]. congruence.
  - intros HN E <-. destruct (c29_partial H Hlen oc1 oc2 t v w r1 HL HS HN HV HW E1 E2) as [<-|HC]; [|exact HC].
    rewrite (proj2 (ssz_eq_spec v v) (same_refl v)) in E. discriminate.
Qed.

Lemma c76_roots_refuted :
  exists n ops1 ops2,
  let v := VBits (apply_bit_ops bitlist_default ops1) in
  let w := VBits (apply_bit_ops bitlist_default ops2) in
  legal (TBitlist n) = true /\ regular (TBitlist n) = true /\ typed (TBitlist n) v /\ typed (TBitlist n) w /\
  ssz_eq v w = true /\
  forall oc, exists r1 r2,
    ssz_hash_tree_root sha256 oc (TBitlist n) v = Ok r1 /\ ssz_hash_tree_root sha256 oc (TBitlist n) w = Ok r2 /\ r1 <> r2.
Proof.
  exists 8, [BPush true; BPush true; BPush true; BTruncate 1], [BPush true].
  cbv zeta. do 4 (split; [reflexivity|]). split; [vm_compute; reflexivity|]. intros oc.
  destruct oc.
  - eexists. eexists. split; [vm_compute; reflexivity|]. split; [vm_compute; reflexivity|]. discriminate.
  - eexists. eexists. split; [vm_compute; reflexivity|]. split; [vm_compute; reflexivity|]. discriminate.
Qed.

Lemma c78_roots :
  forall H : bytes -> bytes, (forall x, blen (H x) = 32) -> forall oc oc' t t' v,
  legal t = true -> sized t = true -> legal t' = true -> sized t' = true ->
  grows (same_height packed) t t' -> valid t v ->
  valid t' v /\ ssz_hash_tree_root H oc' t' v = ssz_hash_tree_root H oc t v.
Proof.
  intros H Hlen oc oc' t t' v HL HS HL' HS' HG HV.
  pose proof (valid_wider _ _ v (grows_wider _ _ _ HG) HV) as HV'. split; [exact HV'|].
  destruct (c28_partial H Hlen oc t v HL HS HV) as [_ E1]. destruct (c28_partial H Hlen oc' t' v HL' HS' HV') as [_ E2].
  rewrite E1, E2. f_equal. apply root_grown; auto. exact wider_packed.
Qed.

Lemma c78_indices :
  forall H t t' path g, enlarges t t' -> addressable t' = true ->
  ssz_generalized_index H true t path = Ok g -> forall oc, ssz_generalized_index H oc t' path = Ok g.
Proof.
  intros H t t' path g HE HA HG oc. apply c31_checked_partial in HG as (_ & HG & HB).
  destruct (c31_all_types_partial H oc t' path g) as [_ E]; auto.
  - apply addressable_path. rewrite as_unions_addressable. exact HA.
  - eapply enlarges_gindex; [|exact HG]. apply enlarges_unions. exact HE.
Qed.

Lemma c78_fields :
  forall H oc fs gs name pos u, field_position name fs = Some (pos, u) -> blen (fs ++ gs) <= 2 ^ 62 ->
  ssz_generalized_index H oc (TContainer fs) [Field name] = Ok (width (blen fs) + pos) /\
  ssz_generalized_index H oc (TContainer (fs ++ gs)) [Field name] = Ok (width (blen (fs ++ gs)) + pos) /\
  (ssz_generalized_index H oc (TContainer (fs ++ gs)) [Field name] = ssz_generalized_index H oc (TContainer fs) [Field name] <->
   blen (fs ++ gs) <= width (blen fs)).
Proof.
  intros H oc fs gs name pos u HF HB.
  assert (HX : forall hs, field_position name hs = Some (pos, u) -> blen hs <= 2 ^ 62 ->
    ssz_generalized_index H oc (TContainer hs) [Field name] = Ok (width (blen hs) + pos)).
  { intros hs HN HH. apply c31_all_types_partial.
    - cbn [countable_path]. unfold countable. cbn [as_unions resolve andb].
      destruct (step_with item_basic _ _) as [[[w q] y]|]; reflexivity.
    - unfold gindex_with. cbn [gindex_from_with]. unfold step_with. rewrite as_unions_count. cbn [as_unions resolve chunk_count_with].
      assert (HP : field_position name (map (fun f => (fst f, as_unions (snd f))) hs) = Some (pos, as_unions u)).
      { clear -HN. revert pos HN. induction hs as [|[n t] hs IH]; intros pos; cbn [field_position map fst snd]; [discriminate|].
        destruct (String.eqb name n); [intros [= <- <-]; reflexivity|].
        destruct (field_position name hs) as [[q w]|]; [|discriminate]. cbn [option_map fst snd]. intros [= <- <-].
        rewrite (IH q eq_refl). reflexivity. }
      rewrite HP. f_equal. lia.
    - assert (HW : width (blen hs) <= 2 ^ 62) by (apply width_le; exact HH).
      assert (HQ : pos < blen hs).
      { clear -HN. revert pos HN. unfold blen. induction hs as [|[n t] hs IH]; intros pos; cbn [field_position]; [discriminate|].
        destruct (String.eqb name n); [intros [= <- <-]; cbn [length]; lia|].
        destruct (field_position name hs) as [[q w]|]; [|discriminate]. cbn [option_map fst snd length]. intros E.
        assert (1 + q = pos) by congruence. assert (w = u) by congruence. subst w. specialize (IH q eq_refl). lia. }
      change (2 ^ 64) with (4 * 2 ^ 62). lia. }
  assert (HF' : field_position name (fs ++ gs) = Some (pos, u)).
  { clear -HF. revert pos HF. induction fs as [|[n t] fs IH]; intros pos; cbn [field_position app]; [discriminate|].
    destruct (String.eqb name n); [auto|]. destruct (field_position name fs) as [[q w]|]; [|discriminate]. cbn [option_map fst snd].
    intros [= <- <-]. rewrite (IH q eq_refl). reflexivity. }
  assert (HA : blen fs <= blen (fs ++ gs)) by (rewrite blen_app; lia).
  assert (E1 : ssz_generalized_index H oc (TContainer fs) [Field name] = Ok (width (blen fs) + pos)) by (apply HX; [exact HF|lia]).
  assert (E2 : ssz_generalized_index H oc (TContainer (fs ++ gs)) [Field name] = Ok (width (blen (fs ++ gs)) + pos)) by (apply HX; assumption).
  split; [exact E1|]. split; [exact E2|]. rewrite E1, E2. split.
  - intros E. assert (EW : width (blen (fs ++ gs)) = width (blen fs)) by (assert (width (blen (fs ++ gs)) + pos = width (blen fs) + pos) by congruence; lia).
    rewrite <- EW. apply width_ge.
  - intros HW. f_equal. f_equal. apply width_between; assumption.
Qed.

Lemma c78_proofs :
  forall H : bytes -> bytes, (forall x, blen (H x) = 32) -> forall t t' v path pf root,
  legal t = true -> sized t = true -> addressable t = true ->
  legal t' = true -> sized t' = true -> addressable t' = true ->
  grows both_heights t t' -> valid t v ->
  ssz_prove H true t v path = Ok (pf, root) -> forall oc, ssz_prove H oc t' v path = Ok (pf, root).
Proof.
  intros H Hlen t t' v path pf root HL HS HA HL' HS' HA' HG HV HP oc.
  pose proof (valid_wider _ _ v (grows_wider _ _ _ HG) HV) as HV'.
  destruct (c34_exact_partial H Hlen true t v path pf root HL HS HA HV HP) as (g & EG & _ & EP & EF & EW & _).
  assert (HE : enlarges t t').
  { apply grows_enlarges. eapply grows_impl; [|exact HG]. intros u u' [_ HU]. exact HU. }
  pose proof (c78_indices H t t' path g HE HA' EG oc) as EG'.
  pose proof (c36_exact_partial H Hlen oc t' v path HL' HS' HA' HV') as HX. rewrite EG' in HX.
  rewrite (probe_grown _ _ _ _ HG HV EP) in HX. destruct HX as (pf' & w' & HX & _). rewrite HX.
  destruct (c34_exact_partial H Hlen oc t' v path pf' w' HL' HS' HA' HV' HX) as (g' & EG2 & _ & _ & EF' & EW' & _).
  assert (g' = g) by congruence. subst g'. f_equal. rewrite EF, EF', EW, EW'.
  rewrite (found_grown H _ _ _ _ HG HV EP), (node_grown H _ _ _ HG HV). reflexivity.
Qed.

Lemma c79_single :
  forall (H : bytes -> bytes) oc,
  (forall p root, fst (verify_c H oc p root) = verify H oc p root /\
    (proof_index p < 2 ^ 64 -> snd (verify_c H oc p root) =
      if (1 <=? proof_index p) && (blen (branch p) =? node_depth (proof_index p)) then node_depth (proof_index p) else 0)) /\
  (forall leaf proof index root,
    fst (verify_merkle_proof_c H oc leaf proof index root) = verify_merkle_proof H oc leaf proof index root /\
    (index < 2 ^ 64 -> snd (verify_merkle_proof_c H oc leaf proof index root) =
      if (1 <=? index) && (blen proof =? node_depth index) then node_depth index else 0)) /\
  (forall leaf branch depth index root,
    fst (is_valid_merkle_branch_c H oc leaf branch depth index root) = is_valid_merkle_branch H oc leaf branch depth index root /\
    snd (is_valid_merkle_branch_c H oc leaf branch depth index root) = if blen branch =? depth then N.min depth 64 else 0).
Proof.
  intros H oc. split; [|split].
  - intros p root. split; [apply verify_erased|apply verify_count].
  - intros leaf proof index root. split; [apply proof_erased|apply proof_count].
  - intros leaf branch depth index root. split; [apply branch_erased|apply branch_count].
Qed.

Lemma c79_multi :
  forall (H : bytes -> bytes) (enum : list N -> list N), (forall l, Permutation (enum l) l) ->
  forall indices hs leaves proof root, helper_list indices hs ->
  fst (verify_merkle_multiproof_c H enum leaves proof indices root) = verify_merkle_multiproof H enum leaves proof indices root /\
  exists above, work_list indices above /\
    snd (verify_merkle_multiproof_c H enum leaves proof indices root) =
      (if (blen leaves =? blen indices) && (blen proof =? blen hs) then blen above else 0) /\
    blen above <= depths indices /\
    (independent indices -> indices <> [] -> Forall (fun i => 1 <= i) indices -> blen above + 1 = blen indices + blen hs).
Proof.
  intros H enum HE indices hs leaves proof root HH. split; [apply multi_erased|].
  destruct (multi_count H enum HE indices leaves proof hs root HH) as (d & HD & HC). exists d.
  split; [exact HD|]. split; [exact HC|]. split; [exact (work_depths _ _ HD)|].
  intros HI HN HP. exact (work_independent _ _ _ HI HN HP HH HD).
Qed.

Lemma c83_roots :
  forall H : bytes -> bytes, (forall x, blen (H x) = 32) -> forall oc oc' t v m,
  let t' := summary_ty t m in let v' := summary_val H t v m in
  legal t = true -> sized t = true -> legal t' = true -> sized t' = true -> valid t v ->
  valid t' v' /\ ssz_hash_tree_root H oc' t' v' = ssz_hash_tree_root H oc t v /\
  exists r, ssz_hash_tree_root H oc t v = Ok r.
Proof.
  intros H Hlen oc oc' t v m t' v' HL HS HL' HS' HV.
  pose proof (summary_valid H Hlen t m v HV) as HV'. split; [exact HV'|].
  destruct (c28_partial H Hlen oc t v HL HS HV) as [_ E1]. destruct (c28_partial H Hlen oc' t' v' HL' HS' HV') as [_ E2].
  rewrite E1, E2. split; [|eauto]. f_equal. exact (roots_kept H Hlen t m v HV).
Qed.

Lemma c83_indices :
  forall H t m path g, addressable t = true ->
  ssz_generalized_index H true (summary_ty t m) path = Ok g -> forall oc, ssz_generalized_index H oc t path = Ok g.
Proof.
  intros H t m path g HA HG oc. apply c31_checked_partial in HG as (_ & HG & HB).
  destruct (c31_all_types_partial H oc t path g) as [_ E]; auto.
  - apply addressable_path. rewrite as_unions_addressable. exact HA.
  - rewrite summary_unions in HG. eapply summary_gindex. exact HG.
Qed.

Lemma c83_proofs :
  forall H : bytes -> bytes, (forall x, blen (H x) = 32) -> forall t v m path pf root,
  let t' := summary_ty t m in let v' := summary_val H t v m in
  legal t = true -> sized t = true -> addressable t = true -> legal t' = true -> sized t' = true -> valid t v ->
  inside t m = true ->
  ssz_prove H true t' v' path = Ok (pf, root) -> forall oc, ssz_prove H oc t v path = Ok (pf, root).
Proof.
  intros H Hlen t v m path pf root t' v' HL HS HA HL' HS' HV HI HP oc.
  pose proof (summary_valid H Hlen t m v HV) as HV'. pose proof (summary_addressable t m HA) as HA'.
  destruct (c34_exact_partial H Hlen true t' v' path pf root HL' HS' HA' HV' HP) as (g & EG & _ & EP & EF & EW & _).
  pose proof (c83_indices H t m path g HA EG oc) as EG'.
  destruct (proofs_kept H Hlen t m v g HI HV EP) as [EM EN].
  pose proof (c36_exact_partial H Hlen oc t v path HL HS HA HV) as HX. rewrite EG', EM in HX.
  destruct HX as (pf' & w' & HX & _). rewrite HX.
  destruct (c34_exact_partial H Hlen oc t v path pf' w' HL HS HA HV HX) as (g' & EG2 & _ & _ & EF' & EW' & _).
  assert (g' = g) by congruence. subst g'. f_equal. rewrite EF, EF', EW, EW'. unfold t', v'.
  rewrite EN, (node_kept H Hlen t m v HI HV). reflexivity.
Qed.

Lemma c84_refuted :
  exists t v w, legal t = true /\ valid t v /\ valid t w /\ v <> w /\
  (exists r, ssz_hash_tree_root sha256 false t v = Ok r /\ ssz_hash_tree_root sha256 false t w = Ok r) /\
  ssz_hash_tree_root sha256 true t v = Panic POverflow.
Proof.
  set (n := 18446744073709551615).
  exists (TList (TVector (TUint U8) 1) n), (VSeq ([VSeq [VUint 0]] ++ [VSeq [VUint 0]])), (VSeq ([VSeq [VUint 0]] ++ [VSeq [VUint 1]])).
  assert (VZ : Forall (valid (TVector (TUint U8) 1)) [VSeq [VUint 0]]) by (constructor; [solve_valid|constructor]).
  assert (VO : Forall (valid (TVector (TUint U8) 1)) [VSeq [VUint 1]]) by (constructor; [solve_valid|constructor]).
  split; [reflexivity|]. split; [solve_valid|]. split; [solve_valid|]. split; [discriminate|]. split.
  - apply (huge_list_collides sha256 sha256_blen); auto; try reflexivity; try discriminate.
  - rewrite (huge_list_root sha256 sha256_blen); try reflexivity. apply Forall_app. auto.
Qed.

Lemma c84_packed_refuted :
  exists t v, legal t = true /\ valid t v /\
  ssz_hash_tree_root sha256 false t v = Err (InputExceedsLimit 0) /\
  ssz_hash_tree_root sha256 true t v = Panic POverflow.
Proof.
  exists (TList (TUint U64) 2305843009213693952), (VSeq [VUint 1]).
  split; [reflexivity|]. split; [solve_valid|]. split; vm_compute; reflexivity.
Qed.

Lemma c84_merkleize_partial :
  forall H : bytes -> bytes, (forall x, blen (H x) = 32) -> forall oc (cs : list bytes) limit,
  Forall (fun c : bytes => blen c = 32) cs -> blen cs <= 2 ^ 63 -> 2 ^ 63 < limit ->
  merkleize H (CONTEXT_of (compute_zero_hashes H)) oc (concat cs) (Some limit) =
  if oc then Panic POverflow
  else if blen cs =? 0 then Panic PIndex
  else Ok (subtree H 63 (half_leaves H cs ((blen cs + 1) / 2))).
Proof.
  intros H Hlen oc cs limit HA HB HL. rewrite (merkleize_huge H Hlen) by auto. destruct oc; [reflexivity|].
  destruct cs as [|c cs]; [reflexivity|]. replace (blen (c :: cs) =? 0) with false; [reflexivity|].
  symmetry. apply N.eqb_neq. rewrite blen_cons. lia.
Qed.

Lemma c84_partial :
  forall H : bytes -> bytes, (forall x, blen (H x) = 32) -> forall oc u n l,
  legal (TList u n) = true -> sized u = true -> (packed u = true -> fixed_size u < 2 ^ 32) -> Forall (valid u) l ->
  (if packed u then 2 ^ 64 <= n * fixed_size u else 2 ^ 63 < n) -> blen l * item_length_with packed u < 2 ^ 63 ->
  ssz_hash_tree_root H oc (TList u n) (VSeq l) =
  (if oc then Panic POverflow
   else if packed u then
     let limit := (n * fixed_size u mod 2 ^ 64 + 31) / 32 in
     if limit <? (blen l * fixed_size u + 31) / 32 then Err (InputExceedsLimit limit)
     else Ok (spec_mix_in H (spec_merkleize H (tree_depth limit) (seq_chunks_with packed H u l)) (blen l))
   else if blen l =? 0 then Panic PIndex
   else Ok (spec_mix_in H (subtree H 63 (half_leaves H (seq_chunks_with packed H u l) ((blen l + 1) / 2))) (blen l))).
Proof.
  intros H Hlen oc u n l HL HU HP HV HN HB. apply (huge_list_root H Hlen); auto.
  - unfold small. destruct (packed u); [|reflexivity]. apply N.ltb_lt. auto.
  - cbn [sized]. destruct (packed u).
    + replace (n * fixed_size u <? 2 ^ 64) with false by (symmetry; apply N.ltb_ge; exact HN). apply andb_false_r.
    + replace (n <=? 2 ^ 63) with false by (symmetry; apply N.leb_gt; exact HN). apply andb_false_r.
Qed.

Lemma c84_collision_partial :
  forall H : bytes -> bytes, (forall x, blen (H x) = 32) -> forall u n a b b',
  legal (TList u n) = true -> sized u = true -> packed u = false -> 2 ^ 63 < n ->
  Forall (valid u) (a ++ b) -> Forall (valid u) b' -> blen b = blen b' -> blen b <= blen a -> a <> [] ->
  (blen a + blen b) * 32 < 2 ^ 63 ->
  exists r, ssz_hash_tree_root H false (TList u n) (VSeq (a ++ b)) = Ok r /\
            ssz_hash_tree_root H false (TList u n) (VSeq (a ++ b')) = Ok r.
Proof.
  intros H Hlen u n a b b' HL HU HP HN HV HV' EB HAB HA HB. apply Forall_app in HV as [VA VB].
  apply (huge_list_collides H Hlen); auto. unfold small. rewrite HP. reflexivity.
Qed.

Lemma c85_merkle :
  forall H t v path leaf branch depth index proof root chunks limit count,
  modes_agree (ssz_hash_tree_root H true t v) (ssz_hash_tree_root H false t v) /\
  modes_agree (ssz_generalized_index H true t path) (ssz_generalized_index H false t path) /\
  modes_agree (ssz_prove H true t v path) (ssz_prove H false t v path) /\
  modes_agree (verify H true proof root) (verify H false proof root) /\
  modes_agree (is_valid_merkle_branch H true leaf branch depth index root) (is_valid_merkle_branch H false leaf branch depth index root) /\
  modes_agree (verify_merkle_proof H true leaf branch index root) (verify_merkle_proof H false leaf branch index root) /\
  modes_agree (merkleize H (CONTEXT_of (compute_zero_hashes H)) true chunks limit)
              (merkleize H (CONTEXT_of (compute_zero_hashes H)) false chunks limit) /\
  modes_agree (compute_merkle_tree H true chunks count) (compute_merkle_tree H false chunks count).
Proof.
  intros H t v path l b d i p r c n k. pose proof (types_modes H (CONTEXT_of (compute_zero_hashes H)) t) as HT.
  split; [apply (ta_root _ _ HT)|]. split; [apply (ta_index _ _ HT)|]. split; [apply prove_modes|].
  split; [apply ma_verify|]. split; [apply ma_branch|]. split; [apply ma_merkle_proof|]. split; [apply ma_merkleize|]. apply ma_tree.
Qed.

Lemma c87_minimal :
  forall enum, (forall l, Permutation (enum l) l) -> forall indices,
  independent indices -> (exists i, In i indices) -> (forall i, In i indices -> 1 <= i) ->
  exists hs, get_helper_indices enum indices = Ok hs /\
    computable (indices ++ hs) 1 /\
    (forall others, (forall j, In j others -> j <> 1 /\ ~ on_path indices j) ->
       computable (indices ++ others) 1 -> blen hs <= blen others) /\
    (forall h, In h hs -> ~ computable (indices ++ remove N.eq_dec h hs) 1) /\
    (forall H leaves proof root, calculate_multi_merkle_root H enum leaves proof indices = Ok root -> blen proof = blen hs).
Proof.
  intros enum Henum indices HI (i & Hi) HG. destruct (helper_indices_ok enum Henum indices) as (hs & E & HH).
  exists hs. split; [exact E|]. split.
  { apply (helpers_suffice indices hs); [intros j; apply HH|]. pose proof (HG i Hi). split; [lia|]. exists i. split; [exact Hi|].
    exists (N.log2 i). pose proof (N.log2_spec i ltac:(lia)) as [L1 L2]. rewrite N.pow_succ_r' in L2.
    apply N.div_unique with (r := i - 2 ^ N.log2 i); lia. }
  split; [intros others HO C; pose proof (helpers_fewest indices hs others HH HI HO C); unfold blen; lia|].
  split; [intros h Hh; exact (helpers_needed indices hs h HH HI Hh)|].
  intros H leaves proof root. unfold calculate_multi_merkle_root. destruct (blen leaves =? blen indices); [|discriminate].
  rewrite E. cbn [negb bind]. destruct (N.eqb_spec (blen proof) (blen hs)) as [L|L]; [auto|discriminate].
Qed.
