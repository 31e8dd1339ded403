(** merkleize.rs and build.rs against perfect binary trees. *)
From Coq Require Import List NArith ZArith Bool Lia ZifyBool ZifyNat ZifyN.
From Coq Require Import Strings.Byte.
From Verif Require Import Prelude Types Bitvec Ser De Impls Merkleize SpecSer SpecMerkle Lib ChunkLib.
Import ListNotations.
Open Scope N_scope.
Ltac Zify.zify_post_hook ::= Z.div_mod_to_equations.

Lemma pow2_pos n : 0 < 2 ^ n.
Proof. apply N.neq_0_lt_0, N.pow_nonzero. discriminate. Qed.

Lemma pow2_S d : 2 ^ N.of_nat (S d) = 2 * 2 ^ N.of_nat d.
Proof. rewrite Nnat.Nat2N.inj_succ. apply N.pow_succ_r'. Qed.

Lemma foldM_app {E A S} (f : S -> A -> res E S) s l1 l2 :
  foldM f s (l1 ++ l2) = do s' <- foldM f s l1; foldM f s' l2.
Proof.
  revert s; induction l1 as [|a l1 IH]; intros s; [reflexivity|].
  cbn [app foldM]. destruct (f s a); cbn [bind]; auto.
Qed.

(** ** Powers of two *)

Lemma next_pow2_width x : next_pow2 x = width x.
Proof.
  unfold next_pow2, width. destruct (N.leb_spec x 1) as [Hx|Hx].
  - assert (x = 0 \/ x = 1) as [-> | ->] by lia; reflexivity.
  - rewrite N.log2_up_eqn by lia. f_equal.
    destruct (N.pred x) eqn:E; [lia|]. rewrite <- E, <- N.sub_1_r.
    rewrite N.size_log2 by lia. reflexivity.
Qed.

Lemma width_le x n : x <= 2 ^ n -> width x <= 2 ^ n.
Proof.
  intros Hx. unfold width. destruct (N.eq_dec x 0) as [->|].
  - cbn. pose proof (pow2_pos n). change (N.log2_up 0) with 0. cbn. lia.
  - apply N.pow_le_mono_r; [lia|]. apply N.log2_up_le_pow2; lia.
Qed.

Lemma width_ge x : x <= width x.
Proof.
  unfold width. destruct (N.leb_spec x 1).
  - pose proof (pow2_pos (N.log2_up x)). lia.
  - apply N.log2_up_spec. auto.
Qed.

Lemma next_power_of_two_ok {E} oc x : x <= 2 ^ 63 -> @next_power_of_two E oc x = Ok (width x).
Proof.
  intros Hx. unfold next_power_of_two. rewrite next_pow2_width.
  pose proof (width_le x 63 Hx) as G. replace (width x <? USIZE) with true; [reflexivity|].
  symmetry. apply N.ltb_lt. unfold USIZE. change (2 ^ 64) with (2 * 2 ^ 63). lia.
Qed.

Lemma pos_ctz_pow p d : Npos p = 2 ^ d -> pos_ctz p = d.
Proof.
  revert d; induction p as [p IH|p IH|]; intros d Hd; cbn [pos_ctz].
  - destruct (N.eq_dec d 0) as [->|]; [discriminate|].
    replace d with (N.succ (d - 1)) in Hd by lia. rewrite N.pow_succ_r' in Hd. lia.
  - destruct (N.eq_dec d 0) as [->|]; [discriminate|].
    replace d with (N.succ (d - 1)) in Hd by lia. rewrite N.pow_succ_r' in Hd.
    rewrite (IH (d - 1)); lia.
  - destruct (N.eq_dec d 0) as [->|]; [reflexivity|].
    replace d with (N.succ (d - 1)) in Hd by lia. rewrite N.pow_succ_r' in Hd. lia.
Qed.

Lemma trailing_zeros_pow d : trailing_zeros (2 ^ d) = d.
Proof.
  unfold trailing_zeros. pose proof (pow2_pos d). destruct (2 ^ d) eqn:E; [lia|].
  apply pos_ctz_pow. auto.
Qed.

Lemma width_pow d : width (2 ^ d) = 2 ^ d.
Proof. unfold width. rewrite N.log2_up_pow2 by lia. reflexivity. Qed.

Lemma tree_depth_width n : 2 ^ N.of_nat (tree_depth n) = width n.
Proof. unfold tree_depth, width. rewrite Nnat.N2Nat.id. reflexivity. Qed.

Lemma tree_depth_lt n : n <= 2 ^ 63 -> (tree_depth n < 64)%nat.
Proof.
  intros Hn. unfold tree_depth. destruct (N.eq_dec n 0) as [->|]; [cbn; lia|].
  apply N.log2_up_le_pow2 in Hn; lia.
Qed.

Section Hash.
  Context (H : bytes -> bytes) (Hlen : forall x, blen (H x) = 32).

  Notation subtree := (subtree H).

  (** ** Perfect trees *)

  Lemma subtree_ext d : forall f g, (forall i, i < 2 ^ N.of_nat d -> f i = g i) -> subtree d f = subtree d g.
  Proof.
    induction d as [|d IH]; intros f g Hfg; cbn [SpecMerkle.subtree].
    - apply Hfg. reflexivity.
    - rewrite pow2_S in Hfg. f_equal. f_equal; apply IH; intros i Hi.
      + apply Hfg. lia.
      + apply Hfg. lia.
  Qed.

  Lemma subtree_blen d : forall f, (forall i, blen (f i) = 32) -> blen (subtree d f) = 32.
  Proof. destruct d; intros f Hf; cbn [SpecMerkle.subtree]; auto. Qed.

  (** Root of a tree of zero chunks. *)
  Definition zroot (d : nat) : bytes := subtree d (fun _ => zero_chunk).

  Lemma zroot_S d : zroot (S d) = H (zroot d ++ zroot d).
  Proof. reflexivity. Qed.

  Lemma zroot_blen d : blen (zroot d) = 32.
  Proof. apply subtree_blen. reflexivity. Qed.

  (** Node number [p] at height [e] above the leaves. *)
  Definition node (leaves : N -> bytes) (e : nat) (p : N) : bytes :=
    subtree e (shifted leaves (p * 2 ^ N.of_nat e)).

  Lemma node_0 leaves p : node leaves 0 p = leaves p.
  Proof. unfold node, shifted. cbn [SpecMerkle.subtree N.of_nat]. f_equal. lia. Qed.

  Lemma node_S leaves e p : node leaves (S e) p = H (node leaves e (2 * p) ++ node leaves e (2 * p + 1)).
  Proof.
    unfold node. cbn [SpecMerkle.subtree]. rewrite pow2_S.
    f_equal. f_equal; apply subtree_ext; intros i Hi; unfold shifted; f_equal; lia.
  Qed.

  Lemma node_blen leaves e p : (forall i, blen (leaves i) = 32) -> blen (node leaves e p) = 32.
  Proof. intros HL. apply subtree_blen. intros i. apply HL. Qed.

  Lemma node_zero leaves e p m : (forall i, m <= i -> leaves i = zero_chunk) ->
    m <= p * 2 ^ N.of_nat e -> node leaves e p = zroot e.
  Proof. intros HL Hm. apply subtree_ext. intros i Hi. apply HL. lia. Qed.

  Lemma subtree_node d leaves : subtree d leaves = node leaves d 0.
  Proof. apply subtree_ext. intros i Hi. unfold shifted. f_equal. Qed.

  (** ** The zero-hash table *)

  Lemma zero_hashes_spec n : (n <= 63)%nat ->
    exists cs : list bytes, foldM (zero_hashes_step H) (zeros (N.to_nat (MAX_MERKLE_TREE_DEPTH * 32)))
                 (map N.of_nat (seq 0 n)) = Ok (concat cs) /\
      all32 cs /\ blen cs = 64 /\
      (forall d, (d <= n)%nat -> chunk_at cs (N.of_nat d) = zroot d).
  Proof.
    induction n as [|n IH]; intros Hn.
    - exists (repeat zero_chunk 64). split; [|split; [apply all32_zero|split; [reflexivity|]]].
      + cbn [seq map foldM]. rewrite zeros_chunks. reflexivity.
      + intros d Hd. rewrite chunk_at_zero. replace d with 0%nat by lia. reflexivity.
    - destruct (IH ltac:(lia)) as (cs & HF & HC & HL & HZ).
      exists (updN (N.of_nat n + 1) (zroot (S n)) cs).
      split; [|split; [|split]].
      + rewrite seq_S, map_app, foldM_app, HF. cbn [bind map foldM Nat.add]. unfold zero_hashes_step.
        rewrite slice_concat32 by (auto; lia). cbn [bind].
        replace (N.of_nat n + 2 - N.of_nat n) with 2 by lia.
        rewrite dropN_chunk by lia. rewrite dropN_chunk by lia. rewrite takeN2.
        cbn [concat]. rewrite takeN_app by (rewrite chunk_at_blen; auto).
        rewrite HZ by lia. rewrite <- zroot_S.
        replace (N.of_nat n * 32 + 32) with ((N.of_nat n + 1) * 32) by lia.
        rewrite copy_concat32; [reflexivity|auto|apply zroot_blen|lia].
      + apply all32_updN; [apply zroot_blen|auto].
      + rewrite blen_updN; lia.
      + intros d Hd. rewrite chunk_at_updN by lia.
        destruct (N.eqb_spec (N.of_nat d) (N.of_nat n + 1)) as [E|E].
        * replace d with (S n) by lia. reflexivity.
        * apply HZ. lia.
  Qed.

  (** What the rest of the model needs from the table. *)
  Definition good_context (CONTEXT : bytes) : Prop :=
    forall d, (d < 64)%nat -> context_index CONTEXT (N.of_nat d) = Ok (zroot d).

  Lemma compute_zero_hashes_good :
    exists b, compute_zero_hashes H = Ok b /\ good_context b.
  Proof.
    destruct (zero_hashes_spec 63 ltac:(lia)) as (cs & HF & HC & HL & HZ).
    exists (concat cs). split; [exact HF|]. intros d Hd. unfold context_index.
    change BYTES_PER_CHUNK with 32. rewrite slice_concat32 by (auto; lia).
    replace (N.of_nat d + 1 - N.of_nat d) with 1 by lia.
    rewrite dropN_chunk by lia. rewrite takeN1. cbn [concat]. rewrite app_nil_r.
    rewrite HZ by lia. reflexivity.
  Qed.

  Lemma CONTEXT_good : good_context (CONTEXT_of (compute_zero_hashes H)).
  Proof. destruct compute_zero_hashes_good as (b & -> & Hb). exact Hb. Qed.

  (** ** The in-place loops *)

  Context (CONTEXT : bytes) (HC : good_context CONTEXT) (oc : bool).

  Lemma pair_less height k i last L :
    all32 L -> i < last -> last < blen L -> i mod 2 = 0 ->
    merkleize_pair H CONTEXT oc height k i last (concat L) =
    Ok (concat (updN (i / 2) (H (chunk_at L i ++ chunk_at L (i + 1))) L)).
  Proof.
    intros HL Hi Hlast Hev. unfold merkleize_pair. replace (i <? last) with true by lia.
    change BYTES_PER_CHUNK with 32.
    rewrite slice_concat32 by (auto; lia). cbn [bind].
    set (F := takeN (i + 2 - i / 2) (dropN (i / 2) L)).
    assert (HF : all32 F) by (apply all32_takeN, all32_dropN; auto).
    assert (HFl : blen F = i + 2 - i / 2) by (unfold F; rewrite blen_takeN, blen_dropN; lia).
    rewrite blen_concat32 by auto. rewrite usub_ok by lia. cbn [bind].
    replace (blen F * 32 - 2 * 32) with ((i - i / 2) * 32) by lia.
    rewrite dropN_concat32, takeN_concat32 by auto.
    assert (HD : dropN (i - i / 2) F = [chunk_at L i; chunk_at L (i + 1)]).
    { unfold F. rewrite takeN_dropN_comm, dropN_dropN.
      replace (i / 2 + (i - i / 2)) with i by lia.
      replace (i / 2 + (i + 2 - i / 2)) with (i + 2) by lia.
      rewrite <- takeN_dropN_comm. rewrite dropN_chunk by lia. rewrite dropN_chunk by lia. reflexivity. }
    rewrite HD. cbn [concat]. rewrite app_nil_r.
    rewrite takeN_app by (rewrite chunk_at_blen; auto). rewrite dropN_app by (rewrite chunk_at_blen; auto).
    destruct (N.eqb_spec i 0) as [->|Hne].
    - replace (0 / 2 * 32 + (0 - 0 / 2) * 32) with ((0 / 2) * 32) by lia. rewrite copy_concat32; auto. lia.
    - replace (@slice MerkleizationError byte 0 32 (concat (takeN (i - i / 2) F)))
        with (@slice MerkleizationError byte (0 * 32) (1 * 32) (concat (takeN (i - i / 2) F))) by reflexivity.
      rewrite slice_concat32; [|apply all32_takeN; auto|lia|rewrite blen_takeN; lia].
      cbn [bind]. rewrite copy_concat32; auto. lia.
  Qed.

  Lemma pair_equal height k i last L e :
    all32 L -> i = last -> last < blen L -> i mod 2 = 0 -> (e < 64)%nat -> height - k - 1 = N.of_nat e ->
    merkleize_pair H CONTEXT oc height k i last (concat L) =
    Ok (concat (updN (i / 2) (H (chunk_at L i ++ zroot e)) L)).
  Proof.
    intros HL Hi Hlast Hev He Hh. unfold merkleize_pair. replace (i <? last) with false by lia.
    change BYTES_PER_CHUNK with 32.
    rewrite slice_concat32 by (auto; lia). cbn [bind].
    set (F := takeN (i + 1 - i / 2) (dropN (i / 2) L)).
    assert (HF : all32 F) by (apply all32_takeN, all32_dropN; auto).
    assert (HFl : blen F = i + 1 - i / 2) by (unfold F; rewrite blen_takeN, blen_dropN; lia).
    rewrite blen_concat32 by auto. rewrite usub_ok by lia. cbn [bind].
    replace (blen F * 32 - 32) with ((i - i / 2) * 32) by lia.
    rewrite dropN_concat32, takeN_concat32 by auto.
    assert (HD : dropN (i - i / 2) F = [chunk_at L i]).
    { unfold F. rewrite takeN_dropN_comm, dropN_dropN.
      replace (i / 2 + (i - i / 2)) with i by lia.
      replace (i / 2 + (i + 1 - i / 2)) with (i + 1) by lia.
      rewrite <- takeN_dropN_comm. rewrite dropN_chunk by lia. reflexivity. }
    rewrite HD. cbn [concat]. rewrite app_nil_r. rewrite Hh, (HC _ He). cbn [bind].
    destruct (N.eqb_spec i 0) as [->|Hne].
    - replace (0 / 2 * 32 + (0 - 0 / 2) * 32) with ((0 / 2) * 32) by lia. rewrite copy_concat32; auto. lia.
    - replace (@slice MerkleizationError byte 0 32 (concat (takeN (i - i / 2) F)))
        with (@slice MerkleizationError byte (0 * 32) (1 * 32) (concat (takeN (i - i / 2) F))) by reflexivity.
      rewrite slice_concat32; [|apply all32_takeN; auto|lia|rewrite blen_takeN; lia].
      cbn [bind]. rewrite copy_concat32; auto. lia.
  Qed.

  Section Loop.
    Context (cs : list bytes) (HCs : all32 cs).

    Notation nd := (node (chunk_at cs)).

    Lemma leaves_blen i : blen (chunk_at cs i) = 32.
    Proof. apply chunk_at_blen; auto. Qed.

    (** The first [m] chunks of the layer are the nodes at height [e]. *)
    Definition layer_ok (e : nat) (m : N) (L : list bytes) : Prop :=
      all32 L /\ 1 <= m /\ m <= blen L /\ blen cs <= m * 2 ^ N.of_nat e /\
      forall p, p < m -> chunk_at L p = nd e p.

    Lemma layer_loop height k limit e m fuel : forall j L,
      (e < 64)%nat -> height - k - 1 = N.of_nat e -> m <= limit -> 1 <= m ->
      blen cs <= m * 2 ^ N.of_nat e ->
      all32 L -> m <= blen L ->
      (forall p, p < j -> chunk_at L p = nd (S e) p) ->
      (forall p, 2 * j <= p -> p < m -> chunk_at L p = nd e p) ->
      (m + 1) / 2 <= j + N.of_nat fuel -> j <= (m + 1) / 2 ->
      exists L' : list bytes, merkleize_layer H CONTEXT oc fuel height k limit (2 * j) (m - 1) (concat L) = Ok (concat L') /\
        all32 L' /\ blen L' = blen L /\ forall p, p < (m + 1) / 2 -> chunk_at L' p = nd (S e) p.
    Proof.
      induction fuel as [|fuel IH]; intros j L He Hh Hlim Hm Hcov HL HLm Hdone Htodo Hfuel Hj;
        cbn [merkleize_layer].
      - exists L. assert (j = (m + 1) / 2) as -> by lia.
        replace (m - 1 <? 2 * ((m + 1) / 2)) with true by lia.
        destruct (2 * ((m + 1) / 2) <? limit); (split; [reflexivity|auto]).
      - destruct (N.ltb_spec (m - 1) (2 * j)) as [Hend|Hgo].
        + exists L. assert (j = (m + 1) / 2) as -> by lia.
          destruct (_ <? limit); (split; [reflexivity|auto]).
        + replace (2 * j <? limit) with true by lia.
          set (new := nd (S e) j).
          assert (Hstep : merkleize_pair H CONTEXT oc height k (2 * j) (m - 1) (concat L) = Ok (concat (updN j new L))).
          { unfold new. rewrite node_S. destruct (N.ltb_spec (2 * j) (m - 1)) as [Hlt|Hge].
            - rewrite pair_less by (auto; lia). replace (2 * j / 2) with j by lia.
              rewrite !Htodo by lia. reflexivity.
            - rewrite (pair_equal _ _ _ _ _ e) by (auto; lia). replace (2 * j / 2) with j by lia.
              rewrite Htodo by lia.
              rewrite (node_zero (chunk_at cs) e (2 * j + 1) (blen cs)); [reflexivity| |].
              + intros i Hi. apply chunk_at_over. auto.
              + replace (2 * j + 1) with m by lia. auto. }
          rewrite Hstep. cbn [bind]. replace (2 * j + 2) with (2 * (j + 1)) by lia.
          assert (Hnew : blen new = 32) by (apply node_blen, leaves_blen).
          destruct (IH (j + 1) (updN j new L)) as (L' & HR & H1 & H2 & H3); auto.
          * apply all32_updN; auto.
          * rewrite blen_updN; lia.
          * intros p Hp. rewrite chunk_at_updN by lia. destruct (N.eqb_spec p j) as [->|]; [reflexivity|].
            apply Hdone. lia.
          * intros p Hp1 Hp2. rewrite chunk_at_updN by lia. replace (p =? j) with false by lia. apply Htodo; lia.
          * lia.
          * lia.
          * exists L'. rewrite blen_updN in H2 by lia. auto.
    Qed.

    Lemma layers_loop D n : forall m L,
      (n <= D)%nat -> (D < 64)%nat -> layer_ok (D - n) m L -> m <= 2 ^ N.of_nat n ->
      exists L' : list bytes, merkleize_layers H CONTEXT oc n (N.of_nat D + 1) (m - 1) (concat L) = Ok (concat L') /\
        layer_ok D 1 L'.
    Proof.
      induction n as [|n IH]; intros m L Hn HD HL Hm.
      - cbn in Hm. assert (m = 1) as -> by (destruct HL as (_ & ? & _); lia).
        exists L. split; [reflexivity|]. rewrite PeanoNat.Nat.sub_0_r in HL. exact HL.
      - destruct HL as (HA & Hm1 & HmL & Hcov & Hnd).
        cbn [merkleize_layers]. unfold upow2. replace (N.of_nat (S n) <? 64) with true by lia. cbn [bind].
        destruct (layer_loop (N.of_nat D + 1) (N.of_nat (S n)) (2 ^ N.of_nat (S n)) (D - S n) m
                    (S (N.to_nat (m - 1))) 0 L) as (L1 & HR & H1 & H2 & H3); auto; try lia.
        change (2 * 0) with 0 in HR. rewrite HR. cbn [bind].
        destruct (IH ((m + 1) / 2) L1) as (L' & HR' & HO); try lia.
        + split; [auto|]. split; [lia|]. split; [lia|]. split.
          * replace (D - n)%nat with (S (D - S n)) by lia. rewrite pow2_S.
            pose proof (pow2_pos (N.of_nat (D - S n))). nia.
          * intros p Hp. replace (D - n)%nat with (S (D - S n)) by lia. auto.
        + rewrite pow2_S in Hm. lia.
        + exists L'. split; [|exact HO]. rewrite <- HR'. f_equal. lia.
    Qed.

    Lemma virtual_padding_ok D :
      (D < 64)%nat -> blen cs <= 2 ^ N.of_nat D ->
      merkleize_chunks_with_virtual_padding H CONTEXT oc (concat cs) (2 ^ N.of_nat D) =
      Ok (spec_merkleize H D cs).
    Proof.
      intros HD Hcs. unfold merkleize_chunks_with_virtual_padding.
      change BYTES_PER_CHUNK with 32. rewrite blen_concat32 by auto.
      assert (E1 : (blen cs * 32) mod 32 = 0) by lia. rewrite E1.
      assert (E2 : blen cs * 32 / 32 = blen cs) by lia. rewrite E2.
      rewrite trailing_zeros_pow.
      assert (HA : forall b, b = true -> debug_assert oc b = Ok tt) by (intros b ->; unfold debug_assert; destruct oc; reflexivity).
      rewrite HA by reflexivity. cbn [bind].
      assert (HP : 2 ^ N.of_nat D <= 2 ^ 63) by (apply N.pow_le_mono_r; lia).
      rewrite next_power_of_two_ok by auto. cbn [bind]. rewrite width_pow.
      rewrite HA by (apply N.eqb_refl).
      assert (E3 : (if oc then @Ok MerkleizationError unit tt else Ok tt) = Ok tt) by (destruct oc; reflexivity).
      rewrite E3. cbn [bind].
      rewrite HA by (unfold MAX_MERKLE_TREE_DEPTH; lia). cbn [bind].
      destruct (N.eqb_spec (blen cs) 0) as [E0|E0].
      - replace (N.of_nat D + 1 - 1) with (N.of_nat D) by lia. rewrite (HC _ HD). cbn [bind].
        unfold to_node. change BYTES_PER_CHUNK with 32. rewrite zroot_blen. cbn [N.eqb Pos.eqb]. f_equal.
        symmetry. apply subtree_ext. intros i Hi. apply chunk_at_over. lia.
      - replace (N.to_nat (N.of_nat D + 1 - 1)) with D by lia.
        destruct (layers_loop D D (blen cs) cs) as (L' & HR & HA' & _ & HL' & _ & HN); auto.
        { split; [auto|]. split; [lia|]. split; [lia|]. rewrite PeanoNat.Nat.sub_diag. split.
          - cbn. lia.
          - intros p Hp. symmetry. apply node_0. }
        rewrite HR. cbn [bind].
        replace (@slice MerkleizationError byte 0 32 (concat L'))
          with (@slice MerkleizationError byte (0 * 32) (1 * 32) (concat L')) by reflexivity.
        rewrite slice_concat32 by (auto; lia). cbn [bind]. rewrite dropN_chunk by lia.
        rewrite takeN1. cbn [concat]. rewrite app_nil_r. rewrite HN by lia.
        unfold to_node. change BYTES_PER_CHUNK with 32. rewrite node_blen by apply leaves_blen.
        cbn [N.eqb Pos.eqb]. unfold spec_merkleize. rewrite subtree_node. reflexivity.
    Qed.

    Lemma merkleize_none :
      blen cs <= 2 ^ 63 ->
      merkleize H CONTEXT oc (concat cs) None = Ok (spec_merkleize H (tree_depth (blen cs)) cs).
    Proof.
      intros Hcs. unfold merkleize. change BYTES_PER_CHUNK with 32. rewrite blen_concat32 by auto.
      assert (E1 : (blen cs * 32) mod 32 = 0) by lia. rewrite E1.
      assert (E2 : blen cs * 32 / 32 = blen cs) by lia. rewrite E2.
      replace (debug_assert oc (0 =? 0)) with (@Ok MerkleizationError unit tt)
        by (unfold debug_assert; destruct oc; reflexivity).
      cbn [bind]. rewrite next_power_of_two_ok by auto. cbn [bind].
      rewrite <- tree_depth_width. apply virtual_padding_ok; [apply tree_depth_lt; auto|].
      rewrite tree_depth_width. apply width_ge.
    Qed.

    Lemma merkleize_some limit :
      blen cs <= 2 ^ 63 -> limit <= 2 ^ 63 ->
      merkleize H CONTEXT oc (concat cs) (Some limit) =
      if limit <? blen cs then Err (InputExceedsLimit limit)
      else Ok (spec_merkleize H (tree_depth limit) cs).
    Proof.
      intros Hcs Hlim. unfold merkleize. change BYTES_PER_CHUNK with 32. rewrite blen_concat32 by auto.
      assert (E1 : (blen cs * 32) mod 32 = 0) by lia. rewrite E1.
      assert (E2 : blen cs * 32 / 32 = blen cs) by lia. rewrite E2.
      replace (debug_assert oc (0 =? 0)) with (@Ok MerkleizationError unit tt)
        by (unfold debug_assert; destruct oc; reflexivity).
      cbn [bind]. rewrite next_power_of_two_ok by auto. cbn [bind].
      destruct (N.ltb_spec limit (blen cs)) as [HL|HL]; [reflexivity|].
      rewrite next_power_of_two_ok by auto. cbn [bind].
      rewrite <- tree_depth_width. apply virtual_padding_ok; [apply tree_depth_lt; auto|].
      rewrite tree_depth_width. pose proof (width_ge limit). lia.
    Qed.
  End Loop.
End Hash.
