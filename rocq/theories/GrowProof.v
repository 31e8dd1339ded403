(** Lists that get longer or shorter. *)
From Coq Require Import String List NArith ZArith Bool Lia ZifyBool ZifyNat ZifyN.
From Coq Require Import Strings.Byte.
From Verif Require Import Prelude Types Bitvec Ser De Impls Merkleize Proofs MerkImpls Multiproofs Valid SpecSer SpecMerkle SpecMulti
  SpecPack SpecProve SpecFound SpecTree SpecBeside Lib SerProof SerSpec RoundTrip BitsLib ChunkLib MerkProof TreeProof RootProof GindexProof ProveProof LeafProof BindProof
  PackProof PackGindex PackProve ProbeProof FoundProof ValueTree BesideProof.
Import ListNotations.
Open Scope N_scope.
Ltac Zify.zify_post_hook ::= Z.div_mod_to_equations.

Section Grow.
  Context (H : bytes -> bytes) (Hlen : forall x, blen (H x) = 32).

  Lemma entries_step t v w i k pos u : legal t = true -> sized t = true -> valid t v -> valid t w -> counts t = true ->
    same_entries t v w i -> step_with item_basic t (Index i) = Some (k, pos, u) ->
    spec_decoration t v = Some (entry_count t v) /\ spec_decoration t w = Some (entry_count t w) /\
    k = 2 * 2 ^ N.of_nat (wdepth t) /\ pos < 2 ^ N.of_nat (wdepth t) /\
    forall j, j <> pos -> chunk_at (chunks_with packed H t v) j = chunk_at (chunks_with packed H t w) j.
  Proof.
    intros HL HR HV HW HP HS ES. unfold same_entries, entry_count in *.
    pose proof (counts_count t HP) as HCi.
    destruct (peel t v) as [r y] eqn:EP. destruct (peel t w) as [r' y'] eqn:EP'.
    destruct (with_peel_facts H t v r y EP HL HR HV) as (A1 & A2 & A3 & A4 & A5 & A6 & A7).
    destruct (with_peel_facts H t w r' y' EP' HL HR HW) as (B1 & B2 & B3 & B4 & B5 & B6 & B7).
    assert (Er : r' = r) by congruence. clear B1. subst r'.
    assert (HCC : chunk_count_with packed t = chunk_count_with item_basic r).
    { rewrite A1, with_resolve_chunk_count. exact HCi. }
    pose proof (width_ge (chunk_count_with packed t)) as HW'.
    assert (HWD : 2 ^ N.of_nat (wdepth t) = width (chunk_count_with packed t)) by (unfold wdepth; apply tree_depth_width).
    assert (Hcounts : counts r = true).
    { rewrite A1. unfold counts. rewrite resolve_idem. exact HP. }
    assert (Eres : resolve r = r) by (rewrite A1; apply resolve_idem).
    rewrite <- A5, <- B5, <- A6, <- B6, HWD.
    unfold step_with in ES. rewrite <- A1, <- HCi in ES. unfold counts in Hcounts. rewrite Eres in Hcounts.
    destruct r as [| | | |t0 n|t0 n|t0 n|n|n|fs| |t0|vs|ts]; destruct y as [| | |l|bv|l| | |z|c z]; try contradiction HS; no_shape;
      destruct y' as [| | |l'|bv'|l'| | |z'|c' z']; try contradiction HS; no_shape;
      cbn [snd spec_decoration chunks_with chunk_count_with] in *;
      (destruct (N.ltb_spec i n) as [Hi|]; [|discriminate]); injection ES as Ek Epos <-.
    - split; [reflexivity|]. split; [reflexivity|]. split; [auto|].
      pose proof (with_position_lt t0 n i Hi) as Hpos. split; [lia|].
      cbn [legal sized] in A3, A4. rewrite !andb_true_iff in A3, A4.
      assert (HLt : legal t0 = true) by apply A3.
      assert (HSm : small t0 = true) by exact (proj1 (andb_prop _ _ (proj1 A4))).
      assert (HSz : sized t0 = true) by exact (proj2 (andb_prop _ _ (proj1 A4))).
      intros j Hj. destruct (item_basic t0) eqn:EB.
      + unfold seq_chunks_with. rewrite item_packed by auto. apply (packed_off t0 l l' j) with (i := i); auto; try apply A2; try apply B2.
        rewrite <- Epos in Hj. unfold item_length_with in Hj. rewrite EB in Hj. exact Hj.
      + assert (HPt : forall z, valid (TList t0 n) (VSeq z) -> forall j, chunk_at (seq_chunks_with packed H t0 z) j =
                  match nth_error z (N.to_nat j) with Some x => root_with packed H t0 x | None => zero_chunk end).
        { intros z Hz q. destruct (nth_error z (N.to_nat q)) as [x|] eqn:EN.
          - assert (EX : part_of (TList t0 n) (VSeq z) q = Some (t0, x)) by (cbn [part_of]; rewrite EB, EN; reflexivity).
            refine (pf_chunk _ _ _ _ _ _ _ _ (part_ok H Hlen [] true (TList t0 n) (VSeq z) q t0 x _ _ _ Hz EX)).
            + unfold counts. cbn [resolve]. exact Hcounts.
            + exact B3.
            + exact B4.
          - apply chunk_at_over. rewrite with_seq_chunks_blen by (auto; apply Hz).
            rewrite counted_item by auto. unfold item_length_with. rewrite EB. apply nth_error_None in EN. unfold blen. lia. }
        rewrite !HPt by auto. rewrite HS; [reflexivity|]. intros E. apply Hj. rewrite <- Epos, <- E. unfold item_length_with. rewrite EB. lia.
    - rewrite !blen_bv_bits. split; [reflexivity|]. split; [reflexivity|]. split; [auto|]. split; [lia|].
      intros j Hj. apply (bits_off _ _ i); [exact HS|]. congruence.
  Qed.

  Theorem entries_branch t v w i g : legal t = true -> sized t = true -> valid t v -> valid t w -> counts t = true ->
    same_entries t v w i -> gindex_with item_basic t [Index i] = Some g ->
    exists lower, branch_of g = lower ++ [3] /\ map (value_node H t v) lower = map (value_node H t w) lower /\
      value_node H t v 3 = num_chunk (entry_count t v) /\ value_node H t w 3 = num_chunk (entry_count t w).
  Proof.
    intros HL HR HV HW HP HS HG. unfold gindex_with in HG. cbn [gindex_from_with] in HG.
    destruct (step_with item_basic t (Index i)) as [[[k pos] u]|] eqn:ES; [|discriminate].
    destruct (entries_step t v w i k pos u HL HR HV HW HP HS ES) as (D1 & D2 & Ek & Hpos & HC).
    set (D := wdepth t) in *. pose proof (pow2_pos (N.of_nat D)) as PD.
    assert (Eg : g = graft 2 (2 ^ N.of_nat D + pos)).
    { unfold graft. rewrite log2_pow_add by exact Hpos. assert (g = 1 * k + pos) by congruence. lia. }
    exists (map (graft 2) (branch_of (2 ^ N.of_nat D + pos))). subst g. rewrite branch_of_graft by lia.
    split; [reflexivity|].
    assert (EFv : wfull t v = S D) by (unfold wfull, full_depth; rewrite D1; reflexivity).
    assert (EFw : wfull t w = S D) by (unfold wfull, full_depth; rewrite D2; reflexivity).
    assert (HO : forall x n s, valid t x -> spec_decoration t x = Some n -> wfull t x = S D -> N.log2 s <= N.of_nat (S D) ->
              value_node H t x s = if s =? 1 then wtree H t x 1 else if s =? 3 then num_chunk n else heap H (S D) (chunk_at (chunks_with packed H t x)) s).
    { intros x n s Hx Dx Fx Hs. rewrite (value_own H Hlen t x) by (rewrite ?Fx; auto).
      destruct (s =? 1) eqn:E1; [apply N.eqb_eq in E1; subst s; reflexivity|].
      unfold PackProve.wtree, local_tree. rewrite Dx, E1. reflexivity. }
    split; [|split].
    - rewrite !map_map. apply map_ext_in. intros s Hs.
      assert (H1 : 1 <= 2 ^ N.of_nat D + pos) by lia.
      destruct (branch_of_off D pos s Hpos Hs) as (e & p & He & -> & Hp & Hn).
      pose proof (pow2_pos (N.of_nat e)) as Pe.
      assert (Es : graft 2 (2 ^ N.of_nat e + p) = 2 ^ N.of_nat (S e) + p).
      { unfold graft. rewrite log2_pow_add by exact Hp. rewrite pow2_S. lia. }
      rewrite Es.
      assert (Hlog : N.log2 (2 ^ N.of_nat (S e) + p) <= N.of_nat (S D)) by (rewrite log2_pow_add by (rewrite pow2_S; lia); lia).
      rewrite (HO v _ _ HV D1 EFv Hlog), (HO w _ _ HW D2 EFw Hlog).
      replace (2 ^ N.of_nat (S e) + p =? 1) with false by (rewrite pow2_S; lia).
      replace (2 ^ N.of_nat (S e) + p =? 3) with false.
      2: { rewrite pow2_S. destruct e; [change (2 ^ N.of_nat 0) with 1 in *; lia|]. rewrite pow2_S in *. pose proof (pow2_pos (N.of_nat e)). lia. }
      apply (heap_off H Hlen (S D) _ _ (S e) p pos); [lia|rewrite pow2_S; lia| |exact HC].
      replace (S D - S e)%nat with (D - e)%nat by lia. exact Hn.
    - rewrite (HO v _ 3 HV D1 EFv) by (change (N.log2 3) with 1; lia). reflexivity.
    - rewrite (HO w _ 3 HW D2 EFw) by (change (N.log2 3) with 1; lia). reflexivity.
  Qed.
End Grow.

Lemma nth_error_push {A} (l : list A) x k : k <> length l -> nth_error (l ++ [x]) k = nth_error l k.
Proof.
  intros Hk. destruct (Nat.lt_ge_cases k (length l)) as [HL|HG].
  - apply nth_error_app1. exact HL.
  - rewrite nth_error_app2 by exact HG. rewrite (proj2 (nth_error_None l k)) by exact HG.
    destruct (k - length l)%nat as [|m] eqn:E; [lia|]. destruct m; reflexivity.
Qed.
