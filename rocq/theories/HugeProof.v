(** Merkleization with a limit above 2^63, where [next_power_of_two] overflows. *)
From Coq Require Import List NArith ZArith Bool Lia ZifyBool ZifyNat ZifyN.
From Coq Require Import Strings.Byte.
From Verif Require Import Prelude Types Bitvec Ser De Impls Merkleize Proofs MerkImpls SpecSer SpecMerkle SpecPack Valid Lib ChunkLib MerkProof
  SerProof SerSpec RoundTrip RootProof PackProof SpecHuge.
Import ListNotations.
Open Scope N_scope.
Ltac Zify.zify_post_hook ::= Z.div_mod_to_equations.

Lemma next_power_of_two_huge {E} oc x : 2 ^ 63 < x ->
  @next_power_of_two E oc x = if oc then Panic POverflow else Ok 0.
Proof.
  intros Hx. unfold next_power_of_two. rewrite next_pow2_width.
  assert (G : 64 <= N.log2_up x).
  { destruct (N.le_gt_cases 64 (N.log2_up x)) as [|C]; [assumption|].
    assert (x <= 2 ^ 63); [|lia]. apply N.log2_up_le_pow2; lia. }
  replace (width x <? USIZE) with false; [reflexivity|]. symmetry. apply N.ltb_ge.
  unfold USIZE, width. apply N.pow_le_mono_r; lia.
Qed.

Section Hash.
  Context (H : bytes -> bytes) (Hlen : forall x, blen (H x) = 32).

  Lemma shifted_zroot d : subtree H d (fun _ => H (zero_chunk ++ zero_chunk)) = zroot H (S d).
  Proof.
    induction d as [|d IH]; [reflexivity|]. rewrite zroot_S, <- IH. cbn [subtree].
    reflexivity.
  Qed.

  Lemma context_64 : context_index (CONTEXT_of (compute_zero_hashes H)) 64 = Panic PIndex.
  Proof.
    destruct (zero_hashes_spec H Hlen 63 ltac:(lia)) as (cs & HF & HC & HL & _).
    unfold compute_zero_hashes. change (N.to_nat (MAX_MERKLE_TREE_DEPTH - 1)) with 63%nat.
    rewrite HF. cbn [CONTEXT_of]. unfold context_index, slice, get_range. change BYTES_PER_CHUNK with 32.
    rewrite blen_concat32, HL by auto. reflexivity.
  Qed.

  Context (CONTEXT : bytes) (HC : good_context H CONTEXT).

  Section Loop.
    Context (cs : list bytes) (HCs : all32 cs) (M : N) (HM : M <= blen cs).

    Notation leaves := (half_leaves H cs M).
    Notation nd := (node H leaves).

    Lemma half_leaves_blen i : blen (leaves i) = 32.
    Proof. unfold half_leaves. destruct (i <? M); [apply chunk_at_blen; auto|apply Hlen]. Qed.

    Lemma half_zero e p : M <= p * 2 ^ N.of_nat e -> nd e p = zroot H (S e).
    Proof.
      intros Hp. rewrite <- shifted_zroot. apply subtree_ext. intros i Hi. unfold shifted, half_leaves.
      replace (_ <? M) with false by lia. reflexivity.
    Qed.

    Lemma half_layer height k limit e m fuel : forall j L,
      (S e < 64)%nat -> height - k - 1 = N.of_nat (S e) -> m <= limit -> 1 <= m ->
      M <= m * 2 ^ N.of_nat e ->
      all32 L -> m <= blen L ->
      (forall p, p < j -> chunk_at L p = nd (S e) p) ->
      (forall p, 2 * j <= p -> p < m -> chunk_at L p = nd e p) ->
      (m + 1) / 2 <= j + N.of_nat fuel -> j <= (m + 1) / 2 ->
      exists L' : list bytes, merkleize_layer H CONTEXT false fuel height k limit (2 * j) (m - 1) (concat L) = Ok (concat L') /\
        all32 L' /\ blen L' = blen L /\ forall p, p < (m + 1) / 2 -> chunk_at L' p = nd (S e) p.
    Proof.
      induction fuel as [|fuel IH]; intros j L He Hh Hlim Hm Hcov HL HLm Hdone Htodo Hfuel Hj;
        cbn [merkleize_layer].
      - exists L. assert (j = (m + 1) / 2) as -> by lia.
        replace (m - 1 <? 2 * ((m + 1) / 2)) with true by lia.
        destruct (2 * ((m + 1) / 2) <? limit); (split; [reflexivity|auto]).
      - destruct (N.ltb_spec (m - 1) (2 * j)) as [Hend|Hgo].
        + exists L. assert (j = (m + 1) / 2) as -> by lia.
          destruct (_ <? limit); (split; [reflexivity|auto]).
        + replace (2 * j <? limit) with true by lia.
          set (new := nd (S e) j).
          assert (Hstep : merkleize_pair H CONTEXT false height k (2 * j) (m - 1) (concat L) = Ok (concat (updN j new L))).
          { unfold new. rewrite node_S by exact Hlen. destruct (N.ltb_spec (2 * j) (m - 1)) as [Hlt|Hge].
            - rewrite pair_less by (auto; lia). replace (2 * j / 2) with j by lia.
              rewrite !Htodo by lia. reflexivity.
            - rewrite (pair_equal H Hlen CONTEXT HC false _ _ _ _ _ (S e)) by (auto; lia).
              replace (2 * j / 2) with j by lia. rewrite Htodo by lia.
              rewrite (half_zero e (2 * j + 1)); [reflexivity|].
              replace (2 * j + 1) with m by lia. exact Hcov. }
          rewrite Hstep. cbn [bind]. replace (2 * j + 2) with (2 * (j + 1)) by lia.
          assert (Hnew : blen new = 32) by (apply node_blen; [exact Hlen|apply half_leaves_blen]).
          destruct (IH (j + 1) (updN j new L)) as (L' & HR & H1 & H2 & H3); auto.
          * apply all32_updN; auto.
          * rewrite blen_updN; lia.
          * intros p Hp. rewrite chunk_at_updN by lia. destruct (N.eqb_spec p j) as [->|]; [reflexivity|].
            apply Hdone. lia.
          * intros p Hp1 Hp2. rewrite chunk_at_updN by lia. replace (p =? j) with false by lia. apply Htodo; lia.
          * lia.
          * lia.
          * exists L'. rewrite blen_updN in H2 by lia. auto.
    Qed.

    Lemma half_layers n : forall m L,
      (n <= 63)%nat -> all32 L -> 1 <= m -> m <= blen L -> M <= m * 2 ^ N.of_nat (63 - n) ->
      (forall p, p < m -> chunk_at L p = nd (63 - n) p) -> m <= 2 ^ N.of_nat n ->
      exists L' : list bytes, merkleize_layers H CONTEXT false n 65 (m - 1) (concat L) = Ok (concat L') /\
        all32 L' /\ 1 <= blen L' /\ chunk_at L' 0 = nd 63 0.
    Proof.
      induction n as [|n IH]; intros m L Hn HA Hm1 HmL Hcov Hnd Hm.
      - cbn in Hm. assert (m = 1) as -> by lia.
        exists L. split; [reflexivity|]. split; [exact HA|]. split; [lia|]. apply Hnd. lia.
      - cbn [merkleize_layers]. unfold upow2. replace (N.of_nat (S n) <? 64) with true by lia. cbn [bind].
        destruct (half_layer 65 (N.of_nat (S n)) (2 ^ N.of_nat (S n)) (63 - S n) m
                    (S (N.to_nat (m - 1))) 0 L) as (L1 & HR & H1 & H2 & H3); auto; try lia.
        change (2 * 0) with 0 in HR. rewrite HR. cbn [bind].
        destruct (IH ((m + 1) / 2) L1) as (L' & HR' & HO); try lia; auto.
        + replace (63 - n)%nat with (S (63 - S n)) by lia. rewrite pow2_S.
          pose proof (pow2_pos (N.of_nat (63 - S n))). nia.
        + intros p Hp. replace (63 - n)%nat with (S (63 - S n)) by lia. auto.
        + rewrite pow2_S in Hm. lia.
        + exists L'. split; [|exact HO]. rewrite <- HR'. f_equal. lia.
    Qed.
  End Loop.

  Lemma top_layer n last b : N.of_nat (S n) = 64 ->
    merkleize_layers H CONTEXT false (S n) 65 last b = merkleize_layers H CONTEXT false n 65 (last / 2) b.
  Proof. intros E. cbn [merkleize_layers]. rewrite E. reflexivity. Qed.

  Lemma merkleize_huge_ok cs limit : all32 cs -> cs <> [] -> blen cs <= 2 ^ 63 -> 2 ^ 63 < limit ->
    merkleize H CONTEXT false (concat cs) (Some limit) =
    Ok (subtree H 63 (half_leaves H cs ((blen cs + 1) / 2))).
  Proof.
    intros HCs HN HB Hlim. assert (HP : 1 <= blen cs) by (destruct cs; [contradiction|rewrite blen_cons; lia]).
    unfold merkleize. change BYTES_PER_CHUNK with 32. rewrite blen_concat32 by auto.
    assert (E2 : blen cs * 32 / 32 = blen cs) by lia. rewrite E2.
    unfold debug_assert at 1. cbn [bind andb]. rewrite next_power_of_two_ok by auto. cbn [bind].
    replace (limit <? blen cs) with false by lia. rewrite next_power_of_two_huge by auto. cbn [bind].
    unfold merkleize_chunks_with_virtual_padding. change BYTES_PER_CHUNK with 32. rewrite blen_concat32, E2 by auto.
    unfold debug_assert. cbn [bind andb]. replace (blen cs =? 0) with false by lia.
    cbn [trailing_zeros]. change (N.to_nat (64 + 1 - 1)) with 64%nat. change (64 + 1) with 65.
    rewrite top_layer by reflexivity.
    set (M := (blen cs + 1) / 2).
    assert (HM1 : M <= blen cs) by (unfold M; lia).
    assert (HM2 : 1 <= M) by (unfold M; lia).
    assert (HM3 : (blen cs - 1) / 2 = M - 1) by (unfold M; lia).
    assert (HM4 : M <= 2 ^ 63) by lia. rewrite HM3.
    destruct (half_layers cs HCs M HM1 63%nat M cs) as (L' & HR & H1 & H2 & H3); auto.
    - change (63 - 63)%nat with 0%nat. cbn [N.of_nat]. lia.
    - intros p Hp. change (63 - 63)%nat with 0%nat. rewrite node_0 by exact Hlen. unfold half_leaves.
      replace (p <? M) with true by lia. reflexivity.
    - rewrite HR. cbn [bind].
      replace (@slice MerkleizationError byte 0 32 (concat L'))
        with (@slice MerkleizationError byte (0 * 32) (1 * 32) (concat L')) by reflexivity.
      rewrite slice_concat32 by (auto; lia). cbn [bind]. rewrite dropN_chunk by lia.
      rewrite takeN1. cbn [concat]. rewrite app_nil_r. rewrite H3.
      unfold to_node. change BYTES_PER_CHUNK with 32. rewrite node_blen; [|exact Hlen|apply half_leaves_blen; auto].
      cbn [N.eqb Pos.eqb]. rewrite subtree_node. reflexivity.
  Qed.

  Lemma merkleize_huge_overflow cs limit : all32 cs -> blen cs <= 2 ^ 63 -> 2 ^ 63 < limit ->
    merkleize H CONTEXT true (concat cs) (Some limit) = Panic POverflow.
  Proof.
    intros HCs HB Hlim. unfold merkleize. change BYTES_PER_CHUNK with 32. rewrite blen_concat32 by auto.
    assert (E1 : (blen cs * 32) mod 32 = 0) by lia. rewrite E1.
    assert (E2 : blen cs * 32 / 32 = blen cs) by lia. rewrite E2.
    change (debug_assert true (0 =? 0)) with (@Ok MerkleizationError unit tt). cbn [bind].
    rewrite next_power_of_two_ok by auto. cbn [bind].
    replace (limit <? blen cs) with false by lia. rewrite next_power_of_two_huge by auto. reflexivity.
  Qed.
End Hash.

Section Table.
  Context (H : bytes -> bytes) (Hlen : forall x, blen (H x) = 32).
  Notation table := (CONTEXT_of (compute_zero_hashes H)).

  Lemma merkleize_huge_empty limit : 2 ^ 63 < limit -> merkleize H table false [] (Some limit) = Panic PIndex.
  Proof.
    intros Hlim. unfold merkleize. unfold debug_assert at 1. cbn [bind andb].
    change (blen (@nil byte)) with 0. change (0 / BYTES_PER_CHUNK) with 0.
    rewrite next_power_of_two_ok by lia. cbn [bind].
    replace (limit <? 0) with false by lia. rewrite next_power_of_two_huge by auto. cbn [bind].
    unfold merkleize_chunks_with_virtual_padding, debug_assert. cbn [bind andb].
    change (blen (@nil byte)) with 0. change (0 / BYTES_PER_CHUNK) with 0. cbn [N.eqb trailing_zeros].
    change (64 + 1 - 1) with 64. rewrite (context_64 H Hlen). reflexivity.
  Qed.

  Lemma merkleize_huge oc cs limit : all32 cs -> blen cs <= 2 ^ 63 -> 2 ^ 63 < limit ->
    merkleize H table oc (concat cs) (Some limit) =
    if oc then Panic POverflow
    else match cs with
         | [] => Panic PIndex
         | _ => Ok (subtree H 63 (half_leaves H cs ((blen cs + 1) / 2)))
         end.
  Proof.
    intros HA HB HL. pose proof (CONTEXT_good H Hlen) as HC. destruct oc.
    - apply merkleize_huge_overflow; auto.
    - destruct cs as [|c cs].
      + apply merkleize_huge_empty; auto.
      + apply (merkleize_huge_ok H Hlen); auto; discriminate.
  Qed.
End Table.

(** Only the first half of the chunks counts. *)
Lemma half_leaves_agree H cs cs' M : blen cs = blen cs' -> (forall i, i < M -> chunk_at cs i = chunk_at cs' i) ->
  subtree H 63 (half_leaves H cs M) = subtree H 63 (half_leaves H cs' M).
Proof.
  intros _ HE. apply subtree_ext. intros i _. unfold half_leaves. destruct (N.ltb_spec i M); [apply HE; auto|reflexivity].
Qed.

(** ** Lists *)

Lemma umul_wraps {E} oc a b : USIZE <= a * b ->
  @umul E oc a b = if oc then Panic POverflow else Ok ((a * b) mod 2 ^ 64).
Proof. intros G. unfold umul. replace (a * b <? USIZE) with false by lia. reflexivity. Qed.

Section Lists.
  Context (H : bytes -> bytes) (Hlen : forall x, blen (H x) = 32) (oc : bool).

  Lemma huge_list_root u n l :
    legal (TList u n) = true -> sized u = true -> small u = true -> sized (TList u n) = false ->
    Forall (valid u) l -> blen l * item_length_with packed u < 2 ^ 63 ->
    ssz_hash_tree_root H oc (TList u n) (VSeq l) =
    (if oc then Panic POverflow
     else if packed u then
       let limit := (n * fixed_size u mod 2 ^ 64 + 31) / 32 in
       if limit <? (blen l * fixed_size u + 31) / 32 then Err (InputExceedsLimit limit)
       else Ok (spec_mix_in H (spec_merkleize H (tree_depth limit) (seq_chunks_with packed H u l)) (blen l))
     else if blen l =? 0 then Panic PIndex
     else Ok (spec_mix_in H (subtree H 63 (half_leaves H (seq_chunks_with packed H u l) ((blen l + 1) / 2))) (blen l))).
  Proof.
    intros HL HU HM HS HV HB. pose proof (CONTEXT_good H Hlen) as HC.
    cbn [legal] in HL. rewrite !andb_true_iff in HL. destruct HL as [HL1 HL].
    cbn [sized] in HS. fold (small u) in HS. rewrite HM, HU in HS. cbn [andb] in HS.
    assert (IH : forall v, valid u v -> hash_tree_root (ssz H oc u) v = Ok (root_with packed H u v))
      by (intros; apply (with_hash_tree_root_ok H Hlen _ HC oc u); auto).
    unfold ssz_hash_tree_root. change (ssz H oc (TList u n)) with (list_m H (CONTEXT_of (compute_zero_hashes H)) oc (ssz H oc u) n).
    cbn [list_m hash_tree_root list_hash_tree_root]. unfold ssz in *.
    rewrite (with_assemble_chunks_ok H Hlen) by auto. cbn [bind]. rewrite composite_simple.
    assert (HA : all32 (seq_chunks_with packed H u l)) by (apply with_seq_chunks_all32; auto).
    pose proof (with_seq_chunks_blen H u l HM HL HV) as HE.
    assert (HI1 : item_length_with packed u <> 0).
    { unfold item_length_with. destruct (packed u) eqn:EP; [|lia].
      assert (EV : spec_variable u = false) by (apply packed_fixed; auto). pose proof (legal_fixed_size u HL EV). lia. }
    assert (HL64 : blen l < 2 ^ 64).
    { assert (blen l <= blen l * item_length_with packed u) by nia.
      change (2 ^ 63) with 9223372036854775808 in *. change (2 ^ 64) with 18446744073709551616. lia. }
    assert (HCS : blen (seq_chunks_with packed H u l) <= 2 ^ 63)
      by (rewrite HE; change (2 ^ 63) with 9223372036854775808 in *; lia).
    unfold item_length_with in HE. destruct (packed u) eqn:EP; cbn [negb].
    - unfold list_inherent_chunk_count. rewrite ser_simple, size_hint_spec.
      rewrite umul_wraps by (unfold USIZE; lia). destruct oc; [reflexivity|]. cbn [bind]. change BYTES_PER_CHUNK with 32.
      rewrite div_ceil_32.
      assert (HW : (n * fixed_size u mod 2 ^ 64 + 31) / 32 <= 2 ^ 63).
      { assert (G : n * fixed_size u mod 2 ^ 64 < 2 ^ 64) by (apply N.mod_lt; discriminate).
        revert G. generalize (n * fixed_size u mod 2 ^ 64). intros x G.
        change (2 ^ 64) with 18446744073709551616 in G. change (2 ^ 63) with 9223372036854775808. lia. }
      cbv zeta. rewrite merkleize_some by auto. rewrite HE.
      destruct ((n * fixed_size u mod 2 ^ 64 + 31) / 32 <? (blen l * fixed_size u + 31) / 32); [reflexivity|]. cbn [bind]. unfold mix_in_length. apply (mix_in_ok H Hlen). exact HL64.
    - rewrite (merkleize_huge H Hlen) by (auto; lia). destruct oc; [reflexivity|].
      replace ((blen l * 32 + 31) / 32) with (blen l) in HE by lia.
      destruct (seq_chunks_with packed H u l) as [|c cs] eqn:EC.
      + change (0 = blen l) in HE. rewrite <- HE. reflexivity.
      + rewrite HE. replace (blen l =? 0) with false; [|symmetry; apply N.eqb_neq; rewrite <- HE; rewrite blen_cons; lia].
        cbn [bind]. unfold mix_in_length. apply (mix_in_ok H Hlen). exact HL64.
  Qed.
End Lists.

(** In release builds the second half of the elements does not matter. *)
Lemma huge_list_collides H : (forall x, blen (H x) = 32) -> forall u n a b b',
  legal (TList u n) = true -> sized u = true -> small u = true -> packed u = false -> 2 ^ 63 < n ->
  Forall (valid u) a -> Forall (valid u) b -> Forall (valid u) b' ->
  blen b = blen b' -> blen b <= blen a -> a <> [] -> (blen a + blen b) * 32 < 2 ^ 63 ->
  exists r, ssz_hash_tree_root H false (TList u n) (VSeq (a ++ b)) = Ok r /\
            ssz_hash_tree_root H false (TList u n) (VSeq (a ++ b')) = Ok r.
Proof.
  intros Hlen u n a b b' HL HU HM HP HN VA VB VB' EB HAB HA HS.
  assert (HX : sized (TList u n) = false).
  { cbn [sized]. rewrite HP. replace (n <=? 2 ^ 63) with false by lia. rewrite andb_false_r. reflexivity. }
  assert (HA1 : 1 <= blen a) by (destruct a; [contradiction|rewrite blen_cons; lia]).
  assert (HI : item_length_with packed u = 32) by (unfold item_length_with; rewrite HP; reflexivity).
  rewrite !(huge_list_root H Hlen) by (rewrite ?HI, ?blen_app, <- ?EB; auto; apply Forall_app; auto).
  rewrite HP, !blen_app, <- EB. replace (blen a + blen b =? 0) with false by lia.
  eexists. split; [reflexivity|]. f_equal. f_equal. apply half_leaves_agree.
  - unfold seq_chunks_with. rewrite HP, !blen_map, !blen_app. lia.
  - intros i Hi. unfold chunk_at, seq_chunks_with. rewrite HP, !map_app.
    rewrite !app_nth1; [reflexivity| |]; rewrite map_length; unfold blen in *; lia.
Qed.
