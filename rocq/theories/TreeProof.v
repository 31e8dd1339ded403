(** compute_merkle_tree and mix_in_decoration against perfect trees. *)
From Coq Require Import List NArith ZArith Bool Lia ZifyBool ZifyNat ZifyN.
From Coq Require Import Strings.Byte.
From Verif Require Import Prelude Types Bitvec Ser De Impls Merkleize SpecSer SpecMerkle Lib ChunkLib MerkProof.
Import ListNotations.
Open Scope N_scope.
Ltac Zify.zify_post_hook ::= Z.div_mod_to_equations.

Lemma log2_pow_add d p : p < 2 ^ d -> N.log2 (2 ^ d + p) = d.
Proof. intros Hp. apply N.log2_unique; [lia|]. rewrite N.pow_succ_r'. lia. Qed.

Lemma log2_split g : 1 <= g -> exists d p, g = 2 ^ d + p /\ p < 2 ^ d /\ N.log2 g = d.
Proof.
  intros Hg. exists (N.log2 g), (g - 2 ^ N.log2 g).
  pose proof (N.log2_spec g ltac:(lia)) as [A B]. rewrite N.pow_succ_r' in B. lia.
Qed.

(** Copying several chunks. *)
Lemma copy_concat32s {E} L cs a : all32 L -> all32 cs -> a + blen cs <= blen L ->
  @copy_at E byte (a * 32) (concat cs) (concat L) =
  Ok (concat (takeN a L ++ cs ++ dropN (a + blen cs) L)).
Proof.
  intros HL HC Ha. rewrite copy_at_ok by (rewrite !blen_concat32 by auto; lia).
  rewrite takeN_concat32 by auto. rewrite blen_concat32 by auto.
  replace (a * 32 + blen cs * 32) with ((a + blen cs) * 32) by lia.
  rewrite dropN_concat32 by auto. rewrite !concat_app. reflexivity.
Qed.

Lemma chunk_at_app (a b : list bytes) i :
  chunk_at (a ++ b) i = if i <? blen a then chunk_at a i else chunk_at b (i - blen a).
Proof.
  unfold chunk_at, blen. destruct (N.ltb_spec i (N.of_nat (length a))).
  - apply app_nth1. lia.
  - rewrite app_nth2 by lia. f_equal. lia.
Qed.

Section Hash.
  Context (H : bytes -> bytes) (Hlen : forall x, blen (H x) = 32) (oc : bool).

  (** Node [g] (a generalized index) of the tree of depth [D]. *)
  Definition heap (D : nat) (leaves : N -> bytes) (g : N) : bytes :=
    node H leaves (D - N.to_nat (N.log2 g)) (g - 2 ^ N.log2 g).

  Lemma heap_at D leaves d p : p < 2 ^ N.of_nat d ->
    heap D leaves (2 ^ N.of_nat d + p) = node H leaves (D - d) p.
  Proof.
    intros Hp. unfold heap. rewrite log2_pow_add by auto. rewrite Nnat.Nat2N.id. f_equal. lia.
  Qed.

  Lemma heap_root D leaves : heap D leaves 1 = subtree H D leaves.
  Proof.
    change 1 with (2 ^ N.of_nat 0 + 0). rewrite heap_at by reflexivity. rewrite PeanoNat.Nat.sub_0_r.
    symmetry. apply subtree_node; auto.
  Qed.

  Lemma heap_leaf D leaves i : i < 2 ^ N.of_nat D -> heap D leaves (2 ^ N.of_nat D + i) = leaves i.
  Proof. intros Hi. rewrite heap_at by auto. rewrite PeanoNat.Nat.sub_diag. apply node_0; auto. Qed.

  Lemma heap_node D leaves g : 1 <= g -> g < 2 ^ N.of_nat D ->
    heap D leaves g = H (heap D leaves (2 * g) ++ heap D leaves (2 * g + 1)).
  Proof.
    intros H1 H2. destruct (log2_split g H1) as (d & p & -> & Hp & Hd).
    rewrite <- (Nnat.N2Nat.id d) in *. set (e := N.to_nat d) in *.
    assert (He : (e < D)%nat).
    { destruct (Nat.ltb_spec e D); [auto|].
      assert (2 ^ N.of_nat D <= 2 ^ N.of_nat e) by (apply N.pow_le_mono_r; lia). lia. }
    replace (2 * (2 ^ N.of_nat e + p)) with (2 ^ N.of_nat (S e) + 2 * p) by (rewrite pow2_S; lia).
    replace (2 ^ N.of_nat (S e) + 2 * p + 1) with (2 ^ N.of_nat (S e) + (2 * p + 1)) by lia.
    rewrite !heap_at by (rewrite ?pow2_S; lia).
    replace (D - e)%nat with (S (D - S e)) by lia. apply node_S; auto.
  Qed.

  Lemma heap_blen D leaves g : (forall i, blen (leaves i) = 32) -> blen (heap D leaves g) = 32.
  Proof. intros. apply node_blen; auto. Qed.

  (** The buffer [concat T] holds the nodes [f 1 .. f (n - 1)]. *)
  Definition holds (T : list bytes) (n : N) (f : N -> bytes) : Prop :=
    all32 T /\ blen T + 1 = n /\ forall g, 1 <= g -> g < n -> chunk_at T (g - 1) = f g.

  Lemma tree_range_ok g : 1 <= g -> g * 32 < USIZE -> tree_range oc g = Ok ((g - 1) * 32, g * 32).
  Proof.
    intros H1 H2. unfold tree_range. change BYTES_PER_CHUNK with 32.
    rewrite usub_ok by lia. cbn [bind].
    rewrite umul_ok by lia. cbn [bind]. rewrite umul_ok by lia. reflexivity.
  Qed.

  Lemma tree_index_ok T n f g :
    holds T n f -> 1 <= g -> g < n -> n * 32 < USIZE -> tree_index oc (concat T) g = Ok (f g).
  Proof.
    intros (HA & HL & HN) H1 H2 HU. unfold tree_index. rewrite tree_range_ok by lia. cbn [bind].
    rewrite slice_concat32 by (auto; lia). rewrite dropN_chunk by lia.
    replace (g - (g - 1)) with 1 by lia. rewrite takeN1. cbn [concat]. rewrite app_nil_r.
    rewrite HN by lia. reflexivity.
  Qed.

  Lemma tree_write_ok T n f g c :
    holds T n f -> 1 <= g -> g < n -> n * 32 < USIZE -> blen c = 32 ->
    exists T' : list bytes, tree_write oc (concat T) g c = Ok (concat T') /\
      holds T' n (fun k => if k =? g then c else f k).
  Proof.
    intros HH H1 H2 HU Hc. pose proof HH as (HA & HL & HN). exists (updN (g - 1) c T). split.
    - unfold tree_write. rewrite (tree_index_ok T n f) by auto. cbn [bind].
      rewrite <- HN by lia. rewrite chunk_at_blen by auto. rewrite Hc. cbn [N.eqb Pos.eqb].
      rewrite tree_range_ok by lia. cbn [bind]. apply copy_concat32; auto. lia.
    - split; [apply all32_updN; auto|]. split; [rewrite blen_updN; lia|].
      intros k Hk1 Hk2. rewrite chunk_at_updN by lia.
      destruct (N.eqb_spec (k - 1) (g - 1)), (N.eqb_spec k g); try lia; auto.
  Qed.

  Section Build.
    Context (D : nat) (cs : list bytes) (HCs : all32 cs) (Hfit : blen cs <= 2 ^ N.of_nat D).

    Notation hp := (heap D (chunk_at cs)).

    Lemma tree_step_ok T g :
      all32 T -> 1 <= g -> 2 * g + 1 <= blen T ->
      tree_step H oc (concat T) (2 * g) =
      Ok (concat (updN (g - 1) (H (chunk_at T (2 * g - 1) ++ chunk_at T (2 * g))) T)).
    Proof.
      intros HA Hg HT. unfold tree_step. replace ((2 * g - 1) / 2) with (g - 1) by lia.
      change BYTES_PER_CHUNK with 32. rewrite slice_concat32 by (auto; lia). cbn [bind].
      set (F := takeN (2 * g + 1 - (g - 1)) (dropN (g - 1) T)).
      assert (HF : all32 F) by (apply all32_takeN, all32_dropN; auto).
      assert (HFl : blen F = g + 2) by (unfold F; rewrite blen_takeN, blen_dropN; lia).
      rewrite blen_concat32 by auto. rewrite usub_ok by lia. cbn [bind].
      replace (blen F * 32 - 2 * 32) with (g * 32) by lia.
      rewrite dropN_concat32, takeN_concat32 by auto.
      assert (HD : dropN g F = [chunk_at T (2 * g - 1); chunk_at T (2 * g)]).
      { unfold F. rewrite takeN_dropN_comm, dropN_dropN.
        replace (g - 1 + g) with (2 * g - 1) by lia.
        replace (g - 1 + (2 * g + 1 - (g - 1))) with (2 * g - 1 + 2) by lia.
        rewrite <- takeN_dropN_comm. rewrite dropN_chunk by lia.
        replace (2 * g - 1 + 1) with (2 * g) by lia. rewrite dropN_chunk by lia. reflexivity. }
      rewrite HD. cbn [concat]. rewrite app_nil_r.
      rewrite takeN_app by (rewrite chunk_at_blen; auto).
      rewrite dropN_app by (rewrite chunk_at_blen; auto).
      replace (@slice MerkleizationError byte 0 32 (concat (takeN g F)))
        with (@slice MerkleizationError byte (0 * 32) (1 * 32) (concat (takeN g F))) by reflexivity.
      rewrite slice_concat32; [|apply all32_takeN; auto|lia|rewrite blen_takeN; lia].
      cbn [bind]. apply copy_concat32; auto. lia.
    Qed.

    Lemma tree_loop n T0 :
      N.of_nat n + 1 <= 2 ^ N.of_nat D ->
      all32 T0 -> blen T0 + 1 = 2 * 2 ^ N.of_nat D ->
      (forall i, i < 2 ^ N.of_nat D -> chunk_at T0 (2 ^ N.of_nat D - 1 + i) = chunk_at cs i) ->
      exists T : list bytes,
        foldM (tree_step H oc) (concat T0)
              (map (fun j => 2 * 2 ^ N.of_nat D - 1 - 1 - 2 * N.of_nat j) (seq 0 n)) = Ok (concat T) /\
        all32 T /\ blen T = blen T0 /\
        forall g, 2 ^ N.of_nat D <= g + N.of_nat n -> 1 <= g -> g < 2 * 2 ^ N.of_nat D ->
          chunk_at T (g - 1) = hp g.
    Proof.
      intros Hn HA HL H0. induction n as [|n IH].
      - exists T0. split; [reflexivity|]. split; [auto|]. split; [auto|]. intros g Hg1 _ Hg2.
        replace g with (2 ^ N.of_nat D + (g - 2 ^ N.of_nat D)) at 2 by lia.
        rewrite heap_leaf by lia. rewrite <- H0 by lia. f_equal. lia.
      - destruct (IH ltac:(lia)) as (T & HF & HA' & HL' & HT).
        set (g := 2 ^ N.of_nat D - 1 - N.of_nat n).
        exists (updN (g - 1) (hp g) T).
        assert (Hhp : blen (hp g) = 32) by (apply heap_blen; intros; apply chunk_at_blen; auto).
        split; [|split; [apply all32_updN; auto|split; [rewrite blen_updN; lia|]]].
        + rewrite seq_S, map_app, foldM_app, HF. cbn [bind map foldM Nat.add].
          replace (2 * 2 ^ N.of_nat D - 1 - 1 - 2 * N.of_nat n) with (2 * g) by lia.
          rewrite tree_step_ok by (auto; lia). cbn [bind]. do 3 f_equal.
          rewrite heap_node by lia.
          replace (2 * g) with ((2 * g + 1) - 1) at 2 by lia. rewrite !HT by lia. reflexivity.
        + intros k Hk1 Hk2 Hk3. rewrite chunk_at_updN by lia.
          destruct (N.eqb_spec (k - 1) (g - 1)).
          * replace k with g by lia. reflexivity.
          * apply HT; lia.
    Qed.

    Lemma compute_merkle_tree_ok :
      (D <= 57)%nat ->
      exists T : list bytes, compute_merkle_tree H oc (concat cs) (2 ^ N.of_nat D) = Ok (concat T) /\
        holds T (2 * 2 ^ N.of_nat D) hp.
    Proof.
      intros HD. set (n := 2 ^ N.of_nat D) in *.
      assert (Hn : 1 <= n) by (pose proof (pow2_pos (N.of_nat D)); unfold n; lia).
      assert (Hn2 : n <= 2 ^ 57) by (apply N.pow_le_mono_r; lia).
      change (2 ^ 57) with 144115188075855872 in Hn2.
      assert (HU : USIZE = 18446744073709551616) by reflexivity.
      unfold compute_merkle_tree. change BYTES_PER_CHUNK with 32. rewrite blen_concat32 by auto.
      assert (E1 : (blen cs * 32) mod 32 = 0) by lia. rewrite E1.
      assert (HAs : forall b, b = true -> debug_assert oc b = Ok tt)
        by (intros b ->; unfold debug_assert; destruct oc; reflexivity).
      rewrite HAs by reflexivity. cbn [bind].
      rewrite next_power_of_two_ok by (change (2 ^ 63) with 9223372036854775808; lia). cbn [bind].
      unfold n at 1. rewrite width_pow. fold n. rewrite HAs by (apply N.eqb_refl).
      assert (E3 : (if oc then @Ok MerkleizationError unit tt else Ok tt) = Ok tt) by (destruct oc; reflexivity).
      rewrite E3. cbn [bind].
      rewrite umul_ok by lia. cbn [bind]. rewrite usub_ok by lia. cbn [bind].
      rewrite usub_ok by lia. cbn [bind]. rewrite umul_ok by lia. cbn [bind].
      rewrite umul_ok by lia. cbn [bind]. unfold alloc_zeros.
      replace ((2 * n - 1) * 32 <? 2 ^ 63) with true
        by (change (2 ^ 63) with 9223372036854775808; lia).
      cbn [bind]. rewrite zeros_chunks.
      rewrite copy_concat32s; [|apply all32_zero|auto|rewrite blen_repeat; lia].
      cbn [bind]. set (Z := repeat zero_chunk (N.to_nat (2 * n - 1))).
      set (T0 := takeN (2 * n - 1 - n) Z ++ cs ++ dropN (2 * n - 1 - n + blen cs) Z).
      assert (HZ : blen Z = 2 * n - 1) by (unfold Z; rewrite blen_repeat; lia).
      assert (HA0 : all32 T0).
      { unfold T0, all32. apply Forall_app. split; [apply all32_takeN, all32_zero|].
        apply Forall_app. split; [auto|apply all32_dropN, all32_zero]. }
      assert (HL0 : blen T0 = 2 * n - 1).
      { unfold T0. rewrite !blen_app, blen_takeN, blen_dropN, HZ. lia. }
      destruct (tree_loop (N.to_nat ((2 * n - 1) / 2)) T0) as (T & HF & HA & HL & HT); fold n; auto; try lia.
      - intros i Hi. unfold T0. rewrite chunk_at_app. rewrite blen_takeN, HZ.
        replace (n - 1 + i <? N.min (2 * n - 1 - n) (2 * n - 1)) with false by lia.
        replace (n - 1 + i - N.min (2 * n - 1 - n) (2 * n - 1)) with i by lia.
        rewrite chunk_at_app. destruct (N.ltb_spec i (blen cs)); [reflexivity|].
        rewrite (chunk_at_over cs) by auto. unfold chunk_at. rewrite nth_dropN.
        apply (chunk_at_zero (N.to_nat (2 * n - 1))).
      - exists T. split; [exact HF|]. split; [auto|]. split; [lia|]. intros g Hg1 Hg2. apply HT; lia.
    Qed.
  End Build.
End Hash.
