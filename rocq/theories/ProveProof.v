(** Proofs made by the prover, and what they prove. *)
From Coq Require Import String List NArith ZArith Bool Lia ZifyBool ZifyNat ZifyN.
From Coq Require Import Strings.Byte.
From Verif Require Import Prelude Types Bitvec Ser De Impls Merkleize Proofs MerkImpls Valid SpecSer SpecMerkle
  Lib SerSpec ChunkLib MerkProof TreeProof RootProof GindexProof.
Import ListNotations.
Open Scope N_scope.
Ltac Zify.zify_post_hook ::= Z.div_mod_to_equations.

(** ** Climbing *)

Lemma climb_app H br1 : forall g b br2,
  climb H g b (br1 ++ br2) = climb H (g / 2 ^ blen br1) (climb H g b br1) br2.
Proof.
  induction br1 as [|s br1 IH]; intros g b br2; cbn [app climb].
  - change (blen (@nil bytes)) with 0. rewrite N.pow_0_r, N.div_1_r. reflexivity.
  - rewrite IH, blen_cons. f_equal. rewrite N.add_1_r, N.pow_succ_r', N.div_div by (try lia; pose proof (pow2_pos (blen br1)); lia).
    reflexivity.
Qed.

(** Only the low bits of the index matter. *)
Lemma climb_low H br : forall g h b, g mod 2 ^ blen br = h mod 2 ^ blen br -> climb H g b br = climb H h b br.
Proof.
  induction br as [|s br IH]; intros g h b E; [reflexivity|]. cbn [climb].
  rewrite blen_cons, N.add_1_r, N.pow_succ_r' in E. set (m := 2 ^ blen br) in *.
  pose proof (pow2_pos (blen br)) as Hm. fold m in Hm.
  assert (E2 : g mod 2 = h mod 2 /\ (g / 2) mod m = (h / 2) mod m).
  { rewrite !N.mod_mul_r in E by lia. pose proof (N.mod_lt g 2). pose proof (N.mod_lt h 2). split; lia. }
  destruct E2 as [E2 E3]. rewrite (IH _ _ _ E3). f_equal.
  assert (EO : N.odd g = N.odd h).
  { rewrite <- !N.bit0_odd. rewrite !N.bit0_eqb. rewrite E2. reflexivity. }
  rewrite EO. reflexivity.
Qed.

Lemma graft_mod a c : 1 <= c -> graft a c mod 2 ^ N.log2 c = c mod 2 ^ N.log2 c.
Proof.
  intros Hc. destruct (log2_split c Hc) as (m & y & -> & Hy & E). unfold graft. rewrite E.
  pose proof (pow2_pos m). replace (2 ^ m + y - 2 ^ m) with y by lia.
  rewrite N.add_comm, N.mod_add by lia. rewrite <- (N.mul_1_l (2 ^ m)) at 2. rewrite N.add_comm, N.mod_add by lia. reflexivity.
Qed.

Lemma climb_graft H a c b br1 br2 : 1 <= c -> blen br1 = N.log2 c ->
  climb H (graft a c) b (br1 ++ br2) = climb H a (climb H c b br1) br2.
Proof.
  intros Hc Hb. rewrite climb_app, Hb, graft_parent by auto. f_equal. apply climb_low. rewrite Hb. apply graft_mod; auto.
Qed.

Lemma log2_graft a c : 1 <= a -> 1 <= c -> N.log2 (graft a c) = N.log2 a + N.log2 c.
Proof.
  intros Ha Hc. destruct (log2_split a Ha) as (k & x & -> & Hx & E1). destruct (log2_split c Hc) as (m & y & -> & Hy & E2).
  unfold graft. rewrite E1, E2. replace ((2 ^ k + x) * 2 ^ m + (2 ^ m + y - 2 ^ m)) with (2 ^ (k + m) + (x * 2 ^ m + y))
    by (rewrite N.pow_add_r; lia).
  apply log2_pow_add. rewrite N.pow_add_r. nia.
Qed.

Lemma log2_lt_64 g : g < 2 ^ 64 -> N.log2 g < 64.
Proof.
  intros Hg. destruct (N.eq_dec g 0) as [->|]; [reflexivity|]. apply N.log2_lt_pow2; lia.
Qed.

Lemma upow2_ok {E} oc k : k < 64 -> @upow2 E oc k = Ok (2 ^ k).
Proof.
  intros Hk. unfold upow2. replace (k <? 64) with true by lia. reflexivity.
Qed.

(** ** Local coordinates *)

Lemma halve_stop fuel i n : i <= n -> halve_until fuel i n = Ok i.
Proof. intros. destruct fuel; cbn [halve_until]; replace (n <? i) with false by lia; reflexivity. Qed.

Lemma halve_run d m : forall a y fuel, a < 2 ^ (d + 1) -> 2 ^ d <= a -> y < 2 ^ N.of_nat m -> (m <= fuel)%nat ->
  halve_until fuel (a * 2 ^ N.of_nat m + y) (2 ^ (d + 1) - 1) = Ok a.
Proof.
  induction m as [|m IH]; intros a y fuel H1 H2 Hy Hf.
  - change (2 ^ N.of_nat 0) with 1 in *. replace (a * 1 + y) with a by lia. apply halve_stop. lia.
  - destruct fuel as [|fuel]; [lia|]. cbn [halve_until]. rewrite pow2_S in *.
    rewrite N.add_1_r, N.pow_succ_r' in *. set (q := 2 ^ N.of_nat m) in *.
    replace (2 * 2 ^ d - 1 <? a * (2 * q) + y) with true by nia.
    replace ((a * (2 * q) + y) / 2) with (a * q + y / 2) by lia.
    apply IH; lia.
Qed.

Section Local.
  Context (H : bytes -> bytes) (Hlen : forall x, blen (H x) = 32) (oc : bool).
  Context (D : nat) (cs : list bytes) (HCs : all32 cs).
  Context (deco : option N) (Hdeco : match deco with Some n => n < 2 ^ 64 | None => True end).

  Definition full_depth : nat := match deco with Some _ => S D | None => D end.
  Context (Hfit : blen cs <= 2 ^ N.of_nat full_depth) (Hdepth : (full_depth <= 57)%nat).

  (** The tree of a value, before its children are expanded. *)
  Definition local_tree (g : N) : bytes :=
    match deco with
    | Some n =>
        if g =? 1 then H (heap H full_depth (chunk_at cs) 2 ++ num_chunk n)
        else if g =? 3 then num_chunk n
        else heap H full_depth (chunk_at cs) g
    | None => heap H full_depth (chunk_at cs) g
    end.

  (** Nodes that are not below the length or selector. *)
  Definition allowed (g : N) : Prop := deco = None \/ g = 3 \/ 2 * g < 3 * 2 ^ N.log2 g.

  Lemma chunk_blen i : blen (chunk_at cs i) = 32.
  Proof. apply chunk_at_blen; auto. Qed.

  Lemma local_root : local_tree 1 = decorate H (spec_merkleize H D cs) deco.
  Proof. clear HCs Hfit Hdeco Hdepth.
    unfold local_tree, decorate, spec_merkleize, full_depth. destruct deco as [n|].
    - cbn [N.eqb Pos.eqb]. unfold spec_mix_in. do 2 f_equal.
      change 2 with (2 ^ N.of_nat 1 + 0). rewrite heap_at by (first [exact Hlen | reflexivity]).
      replace (S D - 1)%nat with D by lia. symmetry. apply subtree_node; auto.
    - apply heap_root; auto.
  Qed.

  Lemma local_blen g : blen (local_tree g) = 32.
  Proof.
    unfold local_tree. destruct deco; [|apply heap_blen; auto; apply chunk_blen].
    destruct (g =? 1); [apply Hlen|]. destruct (g =? 3); [apply num_chunk_blen|].
    apply heap_blen; auto. apply chunk_blen.
  Qed.

  Lemma local_leaf i : i < 2 ^ N.of_nat D -> local_tree (2 ^ N.of_nat full_depth + i) = chunk_at cs i.
  Proof. clear HCs Hfit Hdeco Hdepth.
    intros Hi. unfold local_tree, full_depth. destruct deco as [n|].
    - rewrite pow2_S. pose proof (pow2_pos (N.of_nat D)).
      replace (2 * 2 ^ N.of_nat D + i =? 1) with false by lia.
      replace (2 * 2 ^ N.of_nat D + i =? 3) with false.
      + rewrite <- pow2_S. apply heap_leaf; auto. rewrite pow2_S. lia.
      + symmetry. apply N.eqb_neq. intros E. destruct (N.eq_dec (2 ^ N.of_nat D) 1); lia.
    - apply heap_leaf; auto.
  Qed.

  Lemma local_node g : 1 <= g -> g < 2 ^ N.of_nat full_depth -> g <> 3 -> allowed g ->
    local_tree g = H (local_tree (2 * g) ++ local_tree (2 * g + 1)).
  Proof. clear HCs Hfit Hdeco Hdepth.
    intros H1 H2 H3 HA. unfold local_tree. unfold allowed in HA. destruct deco as [n|] eqn:ED.
    - destruct (N.eqb_spec g 1) as [->|Hg1].
      { cbn [N.mul N.add Pos.mul Pos.add N.eqb Pos.eqb]. reflexivity. }
      replace (g =? 3) with false by lia.
      replace (2 * g =? 1) with false by lia. replace (2 * g =? 3) with false by lia.
      replace (2 * g + 1 =? 1) with false by lia. replace (2 * g + 1 =? 3) with false by lia.
      apply heap_node; auto.
    - apply heap_node; auto.
  Qed.

  Lemma allowed_half g : 2 <= g -> allowed g -> allowed (g / 2) /\ g / 2 <> 3 \/ deco = None.
  Proof.
    intros Hg [HA|[->|HA]]; [right; auto| |].
    - left. split; [|lia]. right. right. cbn. lia.
    - left. destruct (log2_split g ltac:(lia)) as (d & y & -> & Hy & E). rewrite E in HA.
      destruct d as [|d] using N.peano_ind; [change (2 ^ 0) with 1 in *; lia|]. clear IHd.
      rewrite N.pow_succ_r' in *. set (q := 2 ^ d) in *.
      assert (E' : (2 * q + y) / 2 = q + y / 2) by lia. rewrite E'.
      split.
      + right. right. unfold q. rewrite log2_pow_add by (fold q; lia). fold q. lia.
      + intros E3. assert (q <> 3).
        { unfold q. destruct d as [|d] using N.peano_ind; [discriminate|]. rewrite N.pow_succ_r'. lia. }
        lia.
  Qed.

  Lemma local_parent g : 2 <= g -> g < 2 * 2 ^ N.of_nat full_depth -> allowed g ->
    local_tree (g / 2) = H (local_tree (2 * (g / 2)) ++ local_tree (2 * (g / 2) + 1)).
  Proof.
    intros H1 H2 HA. destruct (allowed_half g H1 HA) as [[HA' H3]|ED].
    - apply local_node; auto; lia.
    - unfold local_tree. rewrite ED. apply heap_node; auto; lia.
  Qed.

  Lemma allowed_half' g : 2 <= g -> allowed g -> allowed (g / 2).
  Proof. intros Hg HA. destruct (allowed_half g Hg HA) as [[]|]; auto. left. auto. Qed.

  (** The siblings on the way up over [k] levels. *)
  Fixpoint sibs (k : nat) (g : N) : list N :=
    match k with
    | O => []
    | S k => (if N.odd g then g - 1 else g + 1) :: sibs k (g / 2)
    end.

  Lemma extend_ok T k : forall g p, holds T (2 * 2 ^ N.of_nat full_depth) local_tree ->
    N.log2 g = N.of_nat k -> 1 <= g -> g < 2 * 2 ^ N.of_nat full_depth -> allowed g ->
    exists br, extend_branches oc k (concat T) g p =
        Ok (MkProver (MkProof (leaf (proof p)) (branch (proof p) ++ br) (proof_index (proof p))) (witness p)) /\
      blen br = N.of_nat k /\ climb H g (local_tree g) br = local_tree 1 /\ br = map local_tree (sibs k g).
  Proof.
    assert (HU : 2 * 2 ^ N.of_nat full_depth * 32 < USIZE).
    { assert (2 ^ N.of_nat full_depth <= 2 ^ 57) by (apply N.pow_le_mono_r; lia).
      change (2 ^ 57) with 144115188075855872 in *. change USIZE with 18446744073709551616. lia. }
    induction k as [|k IH]; intros g p HT Hk H1 H2 HA.
    - exists []. cbn [extend_branches climb]. rewrite app_nil_r. split; [destruct p as [[]]; reflexivity|].
      split; [reflexivity|]. destruct (log2_split g H1) as (d & y & -> & Hy & E). rewrite E in Hk. subst d.
      cbn in Hy. cbn [sibs map]. split; [|reflexivity]. cbn. replace y with 0 by lia. reflexivity.
    - assert (H3 : 2 <= g).
      { destruct (N.eq_dec g 1) as [->|]; [cbn in Hk; lia|lia]. }
      set (s := if N.odd g then g - 1 else g + 1).
      assert (Hodd : N.odd g = negb (g mod 2 =? 0)).
      { rewrite <- N.bit0_odd, N.bit0_eqb. destruct (N.eqb_spec (g mod 2) 1), (N.eqb_spec (g mod 2) 0); try reflexivity; lia. }
      assert (HS : s = if g mod 2 =? 0 then g + 1 else g - 1).
      { unfold s. rewrite Hodd. destruct (g mod 2 =? 0); reflexivity. }
      assert (Hs : 1 <= s /\ s < 2 * 2 ^ N.of_nat full_depth).
      { rewrite HS. destruct (N.eqb_spec (g mod 2) 0); lia. }
      assert (EI : (if negb (g mod 2 =? 0) then tree_index oc (concat T) (g - 1)
                    else do t <- uadd oc g 1; tree_index oc (concat T) t) = Ok (local_tree s)).
      { rewrite HS. destruct (g mod 2 =? 0) eqn:E0; cbn [negb].
        - rewrite uadd_ok by lia. cbn [bind]. apply (tree_index_ok oc _ _ _ _ HT); lia.
        - apply (tree_index_ok oc _ _ _ _ HT); lia. }
      destruct (IH (g / 2) (MkProver (MkProof (leaf (proof p)) (branch (proof p) ++ [local_tree s]) (proof_index (proof p))) (witness p)))
        as (br & E1 & E2 & E3 & E4); auto; try lia.
      { destruct (log2_split g H1) as (d & y & -> & Hy & E). rewrite E in Hk. subst d.
        rewrite pow2_S in *. replace ((2 * 2 ^ N.of_nat k + y) / 2) with (2 ^ N.of_nat k + y / 2) by lia.
        apply log2_pow_add. lia. }
      { apply allowed_half'; auto. }
      exists (local_tree s :: br). split; [|split; [|split]].
      + cbn [extend_branches]. rewrite EI. cbn [bind]. unfold extend_branch.
        rewrite to_node_ok by apply local_blen. cbn [bind]. rewrite E1. cbn [proof leaf branch proof_index witness].
        rewrite <- app_assoc. reflexivity.
      + rewrite blen_cons. lia.
      + cbn [climb]. rewrite <- E3. f_equal. rewrite (local_parent g) by auto. f_equal.
        rewrite Hodd. unfold s. rewrite Hodd. destruct (N.eqb_spec (g mod 2) 0); cbn [negb].
        * replace (2 * (g / 2)) with g by lia. reflexivity.
        * replace (2 * (g / 2)) with (g - 1) by lia. replace (g - 1 + 1) with g by lia. reflexivity.
      + cbn [sibs map]. rewrite E4. reflexivity.
  Qed.

  Context (T : SimpleSerialize) (v : val) (cc : N).
  Context (Hcc : chunk_count T = Ok cc) (HD : D = tree_depth cc) (Hcs : chunks T v = Ok (concat cs))
          (Hdec : decoration T v = deco).

  Lemma tree_ok : exists Tr : list bytes,
    (do tree <- compute_merkle_tree H oc (concat cs) (2 ^ N.of_nat full_depth);
     match deco with Some d => tree_mix_in_decoration H oc tree d | None => Ok tree end) = Ok (concat Tr) /\
    holds Tr (2 * 2 ^ N.of_nat full_depth) local_tree.
  Proof.
    assert (HU : 2 * 2 ^ N.of_nat full_depth * 32 < USIZE).
    { assert (2 ^ N.of_nat full_depth <= 2 ^ 57) by (apply N.pow_le_mono_r; lia).
      change (2 ^ 57) with 144115188075855872 in *. change USIZE with 18446744073709551616. lia. }
    destruct (compute_merkle_tree_ok H Hlen oc full_depth cs HCs Hfit Hdepth) as (Tr & E & HT).
    rewrite E. cbn [bind]. destruct deco as [d|] eqn:ED.
    - assert (Hn : 4 <= 2 * 2 ^ N.of_nat full_depth).
      { unfold full_depth. rewrite ED. rewrite pow2_S. pose proof (pow2_pos (N.of_nat D)). lia. }
      unfold tree_mix_in_decoration. rewrite usize_root by auto. cbn [bind].
      destruct (tree_write_ok H Hlen oc _ _ _ 3 (num_chunk d) HT) as (T3 & E3 & HT3); try lia; [apply num_chunk_blen|].
      rewrite E3. cbn [bind].
      rewrite (tree_index_ok oc _ _ _ 2 HT3) by lia. cbn [bind].
      rewrite (tree_index_ok oc _ _ _ 3 HT3) by lia. cbn [bind N.eqb Pos.eqb].
      destruct (tree_write_ok H Hlen oc _ _ _ 1 (H (heap H full_depth (chunk_at cs) 2 ++ num_chunk d)) HT3)
        as (T1 & E1 & HT1); try lia; [apply Hlen|].
      exists T1. split; [exact E1|]. destruct HT1 as (A1 & A2 & A3). split; [auto|]. split; [auto|].
      intros g G1 G2. rewrite A3 by auto. unfold local_tree. rewrite ED. reflexivity.
    - exists Tr. split; [reflexivity|]. destruct HT as (A1 & A2 & A3). split; [auto|]. split; [auto|].
      intros g G1 G2. rewrite A3 by auto. unfold local_tree. rewrite ED. reflexivity.
  Qed.

  Lemma leaf_count_ok :
    (do leaf_count <- next_power_of_two oc cc;
     match deco with Some _ => umul oc leaf_count 2 | None => Ok leaf_count end)
    = @Ok MerkleizationError N (2 ^ N.of_nat full_depth).
  Proof.
    assert (2 ^ N.of_nat full_depth <= 2 ^ 57) by (apply N.pow_le_mono_r; lia).
    change (2 ^ 57) with 144115188075855872 in *.
    assert (E : width cc = 2 ^ N.of_nat D) by (rewrite HD; symmetry; apply tree_depth_width).
    unfold full_depth in *.
    assert (HU : USIZE = 18446744073709551616) by reflexivity.
    destruct deco; rewrite ?pow2_S in *.
    - rewrite next_power_of_two_width by lia. cbn [bind]. rewrite E.
      rewrite umul_ok by lia. f_equal. lia.
    - rewrite next_power_of_two_width by lia. cbn [bind]. rewrite E. reflexivity.
  Qed.

  Lemma coordinates_ok a c g : 1 <= a -> a < 2 * 2 ^ N.of_nat full_depth -> 1 <= c ->
    c = 1 \/ 2 ^ N.of_nat full_depth <= a -> g = graft a c ->
    compute_local_merkle_coordinates oc g (2 ^ N.of_nat full_depth) = Ok (N.log2 a, a - 2 ^ N.log2 a, a).
  Proof.
    intros H1 H2 H3 H4 ->.
    assert (HB : 2 ^ N.of_nat full_depth <= 2 ^ 57) by (apply N.pow_le_mono_r; lia).
    change (2 ^ 57) with 144115188075855872 in *.
    assert (HU : USIZE = 18446744073709551616) by reflexivity.
    unfold compute_local_merkle_coordinates.
    rewrite umul_ok by lia. cbn [bind]. rewrite usub_ok by lia. cbn [bind].
    assert (EH : halve_until (N.to_nat (N.size (graft a c))) (graft a c) (2 * 2 ^ N.of_nat full_depth - 1) = Ok a).
    { destruct H4 as [->|H4].
      - rewrite graft_1. apply halve_stop. lia.
      - destruct (log2_split c H3) as (m & y & -> & Hy & E). pose proof (log2_graft a (2 ^ m + y) H1 H3) as EL.
        rewrite E in EL. pose proof (N.size_log2 (graft a (2 ^ m + y))) as ES.
        assert (EG : graft a (2 ^ m + y) = a * 2 ^ N.of_nat (N.to_nat m) + y).
        { unfold graft. rewrite E, Nnat.N2Nat.id. lia. }
        assert (EP : 2 * 2 ^ N.of_nat full_depth = 2 ^ (N.of_nat full_depth + 1)) by (rewrite N.add_1_r, N.pow_succ_r'; reflexivity).
        rewrite ES by (rewrite EG; pose proof (pow2_pos (N.of_nat (N.to_nat m))); nia). rewrite EL, EG, EP.
        apply halve_run; rewrite ?Nnat.N2Nat.id; auto; lia. }
    rewrite EH. cbn [bind]. unfold get_depth, log_2. replace (a =? 0) with false by lia. cbn [bind].
    unfold get_index. assert (HL : N.log2 a < 64) by (apply log2_lt_64; change (2 ^ 64) with 18446744073709551616; lia).
    rewrite upow2_ok by auto. cbn [bind]. unfold urem. pose proof (pow2_pos (N.log2 a)).
    replace (2 ^ N.log2 a =? 0) with false by lia. cbn [bind]. do 2 f_equal. f_equal.
    pose proof (N.log2_spec a ltac:(lia)) as [L1 L2]. rewrite N.pow_succ_r' in L2.
    symmetry. apply N.mod_unique with (q := 1); lia.
  Qed.

  Lemma compute_proof_local p g : proof_index (proof p) = g -> 1 <= g -> g < 2 * 2 ^ N.of_nat full_depth -> allowed g ->
    exists br, compute_proof H oc T v p = Ok (MkProver (MkProof (local_tree g) (branch (proof p) ++ br) g) (local_tree 1)) /\
      blen br = N.log2 g /\ climb H g (local_tree g) br = local_tree 1 /\ br = map local_tree (sibs (N.to_nat (N.log2 g)) g).
  Proof.
    intros Hp H1 H2 HA. unfold compute_proof. rewrite Hcc. cbn [bind]. rewrite Hdec, Hp.
    pose proof leaf_count_ok as EL. destruct (next_power_of_two oc cc) as [lc| |]; cbn [bind] in *; try discriminate EL.
    rewrite EL. cbn [bind].
    rewrite (coordinates_ok g 1 g) by (auto; try lia; rewrite graft_1; reflexivity). cbn [bind].
    rewrite N.ltb_irrefl. cbn [negb bind]. rewrite Hcs. cbn [bind].
    destruct tree_ok as (Tr & ET & HT).
    destruct (compute_merkle_tree H oc (concat cs) (2 ^ N.of_nat full_depth)) as [tree| |]; cbn [bind] in *; try discriminate ET.
    rewrite ET. cbn [bind].
    assert (HB : 2 ^ N.of_nat full_depth <= 2 ^ 57) by (apply N.pow_le_mono_r; lia).
    change (2 ^ 57) with 144115188075855872 in *.
    assert (HU : USIZE = 18446744073709551616) by reflexivity.
    rewrite (tree_index_ok oc _ _ _ g HT) by lia. cbn [bind]. unfold set_leaf.
    rewrite to_node_ok by apply local_blen. cbn [bind].
    destruct (extend_ok Tr (N.to_nat (N.log2 g)) g
       (MkProver (MkProof (local_tree g) (branch (proof p)) (proof_index (proof p))) (witness p))) as (br & E1 & E2 & E3 & E4);
      rewrite ?Nnat.N2Nat.id; auto.
    rewrite E1. cbn [bind]. rewrite (tree_index_ok oc _ _ _ 1 HT) by lia. cbn [bind]. unfold set_witness.
    rewrite to_node_ok by apply local_blen. cbn [bind proof leaf branch proof_index witness].
    exists br. rewrite Hp. split; [reflexivity|]. split; [lia|auto].
  Qed.

  Lemma compute_proof_child p p1 i c g :
    proof_index (proof p) = g -> i < 2 ^ N.of_nat D -> 2 <= c -> g = graft (2 ^ N.of_nat full_depth + i) c -> g < 2 ^ 64 ->
    prove_element T v i (set_index p c) = Ok p1 ->
    exists br, compute_proof H oc T v p = Ok (MkProver (MkProof (leaf (proof p1)) (branch (proof p1) ++ br) g) (local_tree 1)) /\
      blen br = N.of_nat full_depth /\ climb H (2 ^ N.of_nat full_depth + i) (chunk_at cs i) br = local_tree 1 /\
      br = map local_tree (sibs full_depth (2 ^ N.of_nat full_depth + i)).
  Proof.
    intros Hp Hi Hc Hg Hlt HE. unfold compute_proof. rewrite Hcc. cbn [bind]. rewrite Hdec, Hp.
    pose proof leaf_count_ok as EL. destruct (next_power_of_two oc cc) as [lc| |]; cbn [bind] in *; try discriminate EL.
    rewrite EL. cbn [bind].
    set (a := 2 ^ N.of_nat full_depth + i) in *.
    assert (Hi' : i < 2 ^ N.of_nat full_depth) by (unfold full_depth; destruct deco; rewrite ?pow2_S; lia).
    pose proof (pow2_pos (N.of_nat full_depth)) as HP.
    assert (Ha : N.log2 a = N.of_nat full_depth) by (apply log2_pow_add; auto).
    rewrite (coordinates_ok a c g) by (auto; unfold a; lia). rewrite Ha.
    replace (a - 2 ^ N.of_nat full_depth) with i by (unfold a; lia). cbn [bind].
    pose proof (log2_graft a c ltac:(unfold a; lia) ltac:(lia)) as EG. rewrite <- Hg, Ha in EG.
    assert (Hag : a < g).
    { rewrite Hg. unfold graft. assert (2 <= 2 ^ N.log2 c).
      { change 2 with (2 ^ 1) at 1. apply N.pow_le_mono_r; [lia|]. apply N.log2_le_pow2; lia. }
      unfold a. nia. }
    replace (a <? g) with true by lia. cbn [negb].
    pose proof (log2_lt_64 g Hlt) as Hl.
    unfold get_depth, log_2. replace (g =? 0) with false by lia. cbn [bind].
    rewrite usub_ok by (rewrite EG; lia). cbn [bind].
    replace (N.log2 g - N.of_nat full_depth) with (N.log2 c) by lia. rewrite upow2_ok by lia. cbn [bind].
    unfold urem. pose proof (pow2_pos (N.log2 c)). replace (2 ^ N.log2 c =? 0) with false by lia. cbn [bind].
    pose proof (graft_mod a c ltac:(lia)) as EM. rewrite <- Hg in EM. rewrite EM.
    pose proof (N.log2_spec c ltac:(lia)) as [L1 L2]. rewrite N.pow_succ_r' in L2.
    assert (EC : c mod 2 ^ N.log2 c = c - 2 ^ N.log2 c).
    { symmetry. apply N.mod_unique with (q := 1); lia. }
    rewrite EC. replace (2 ^ N.log2 c + (c - 2 ^ N.log2 c)) with c by lia.
    assert (Hcg : c <= g).
    { rewrite Hg. unfold graft. unfold a. nia. }
    rewrite uadd_ok by (change USIZE with (2 ^ 64); lia). cbn [bind].
    replace (2 ^ N.log2 c + (c - 2 ^ N.log2 c)) with c by lia. rewrite HE. cbn [bind]. rewrite Hcs. cbn [bind].
    destruct tree_ok as (Tr & ET & HT).
    destruct (compute_merkle_tree H oc (concat cs) (2 ^ N.of_nat full_depth)) as [tree| |]; cbn [bind] in *; try discriminate ET.
    rewrite ET. cbn [bind].
    assert (HB : 2 ^ N.of_nat full_depth <= 2 ^ 57) by (apply N.pow_le_mono_r; lia).
    change (2 ^ 57) with 144115188075855872 in *.
    assert (HU : USIZE = 18446744073709551616) by reflexivity.
    rewrite Nnat.Nat2N.id.
    destruct (extend_ok Tr full_depth a (set_index p1 g)) as (br & E1 & E2 & E3 & E4); auto; try (unfold a; lia).
    { unfold allowed. rewrite Ha. destruct deco eqn:ED; [|left; auto]. right. right. unfold a, full_depth in *. rewrite ED in *.
      rewrite pow2_S. lia. }
    rewrite E1. cbn [bind]. rewrite (tree_index_ok oc _ _ _ 1 HT) by lia. cbn [bind]. unfold set_witness.
    rewrite to_node_ok by apply local_blen. cbn [bind proof leaf branch proof_index witness set_index].
    exists br. split; [reflexivity|]. split; [auto|]. split; [|exact E4]. rewrite <- E3. f_equal. symmetry. apply local_leaf. auto.
  Qed.
End Local.

(** ** The record of every type *)

Section Prover.
  Context (H : bytes -> bytes) (Hlen : forall x, blen (H x) = 32).
  Context (CONTEXT : bytes) (HC : good_context H CONTEXT) (oc : bool).
  Notation S_ := (simple_serialize H CONTEXT oc).

  Lemma decoration_ok t : is_transparent (resolve t) = false -> forall v, valid t v -> decoration (S_ t) v = spec_decoration t v.
  Proof.
    induction t using ty_ind'; intros HT v HV; destruct v; no_shape; try reflexivity; try discriminate HT.
    exact (IHt HT v HV).
  Qed.

  Lemma decoration_lt t : legal t = true -> forall v, valid t v ->
    match spec_decoration t v with Some n => n < 2 ^ 64 | None => True end.
  Proof. clear HC.
    induction t using ty_ind'; intros HL v HV; destruct v; no_shape; cbn [spec_decoration]; try exact I; try reflexivity.
    - cbn [legal] in HL. rewrite !andb_true_iff in HL. destruct HV as [HV _]. lia.
    - cbn [legal] in HL. destruct HV as (_ & HV & _). lia.
    - exact (IHt HL v HV).
    - apply valid_variant in HV as (u & E & _). cbn [legal] in HL. rewrite !andb_true_iff in HL. destruct HL as [HL _].
      assert (HI : (N.to_nat i < length vs)%nat) by (apply nth_error_Some; congruence).
      assert (HB : blen vs <= 127).
      { unfold legal_variants in HL. destruct vs; [discriminate|]. rewrite !andb_true_iff in HL. lia. }
      unfold blen in HB. change (2 ^ 64) with 18446744073709551616. lia.
  Qed.

  Lemma spec_chunks_all32 t : forall v, valid t v -> all32 (spec_chunks H t v).
  Proof. clear HC.
    assert (HChunk : forall b, all32 [chunk_at (spec_pack b) 0])
      by (intros; constructor; [apply chunk_at_blen, spec_pack_all32|constructor]).
    induction t using ty_ind'; intros v HV; destruct v; no_shape; cbn [spec_chunks]; auto.
    - apply seq_chunks_all32; [auto|apply HV].
    - apply seq_chunks_all32; [auto|apply HV].
    - apply seq_chunks_all32; [auto|apply HV].
    - apply spec_pack_all32.
    - apply spec_pack_all32.
    - apply valid_fields in HV as [_ HV]. unfold all32. rewrite Forall_map. eapply Forall_impl; [|exact HV].
      intros [f x] Hx. apply spec_root_blen; auto.
    - constructor; [reflexivity|constructor].
    - constructor; [apply spec_root_blen; auto|constructor].
    - constructor; [reflexivity|constructor].
    - apply valid_variant in HV as (u & E & HV). rewrite E. constructor; [apply spec_root_blen; auto|constructor].
    - apply valid_payload in HV as (u & E & HV). rewrite E. constructor; [apply spec_root_blen; auto|constructor].
  Qed.

  Lemma spec_chunks_fit t : forall v, valid t v -> blen (spec_chunks H t v) <= spec_chunk_count t.
  Proof. clear HC.
    assert (H1 : forall c : bytes, blen [c] <= 1) by (intros; unfold blen; cbn; lia).
    induction t using ty_ind'; intros v HV; destruct v; no_shape; cbn [spec_chunks spec_chunk_count]; auto.
    - destruct HV as [<- HV]. rewrite seq_chunks_blen by auto. lia.
    - destruct HV as [<- HV]. rewrite seq_chunks_blen by auto. lia.
    - destruct HV as [HB HV]. rewrite seq_chunks_blen by auto.
      assert (blen l * spec_item_length t <= n * spec_item_length t) by (apply N.mul_le_mono_r; auto). lia.
    - destruct HV as (_ & <- & _). rewrite bits_pack_blen. lia.
    - destruct HV as (_ & HV & _). rewrite bits_pack_blen. lia.
    - rewrite blen_map. unfold blen. rewrite combine_length. lia.
    - apply valid_variant in HV as (u & E & HV). rewrite E. auto.
    - apply valid_payload in HV as (u & E & HV). rewrite E. auto.
  Qed.
End Prover.
