(** The outcome of compute_proof for every value and every generalized index. *)
From Coq Require Import String List NArith ZArith Bool Lia ZifyBool ZifyNat ZifyN.
From Coq Require Import Strings.Byte.
From Verif Require Import Prelude Types Bitvec Ser De Impls Merkleize Proofs MerkImpls Multiproofs Valid SpecSer SpecMerkle
  SpecPack SpecProve Lib SerProof SerSpec RoundTrip BitsLib ChunkLib MerkProof TreeProof RootProof GindexProof ProveProof LeafProof BindProof
  PackProof PackGindex PackProve.
Import ListNotations.
Open Scope N_scope.
Ltac Zify.zify_post_hook ::= Z.div_mod_to_equations.

Definition outcome_is (o : outcome) (g : N) (r : mres Prover) : Prop :=
  match o with
  | Made => exists q, r = Ok q /\ proof_index (proof q) = g
  | Fails e => r = Err e
  | Crashes => exists x, r = Panic x
  end.

Section Any.
  Context (H : bytes -> bytes) (Hlen : forall x, blen (H x) = 32) (oc : bool).
  Context (cs : list bytes) (HCs : all32 cs).
  Context (deco : option N) (Hdeco : match deco with Some n => n < 2 ^ 64 | None => True end).
  Context (cc : N).
  Notation F := (full_depth (tree_depth cc) deco).
  Context (Hdepth : (F <= 60)%nat).

  Lemma leaf_count_any :
    (do leaf_count <- next_power_of_two oc cc;
     match deco with Some _ => umul oc leaf_count 2 | None => Ok leaf_count end)
    = @Ok MerkleizationError N (2 ^ N.of_nat F).
  Proof. clear Hlen HCs Hdeco.
    assert (2 ^ N.of_nat F <= 2 ^ 60) by (apply N.pow_le_mono_r; lia).
    change (2 ^ 60) with 1152921504606846976 in *.
    pose proof (tree_depth_width cc) as E. unfold full_depth in *.
    assert (HU : USIZE = 18446744073709551616) by reflexivity.
    destruct deco; rewrite ?pow2_S in *.
    - rewrite next_power_of_two_width by lia. cbn [bind]. rewrite <- E.
      rewrite umul_ok by lia. f_equal. lia.
    - rewrite next_power_of_two_width by lia. cbn [bind]. rewrite <- E. reflexivity.
  Qed.

  Lemma coordinates_any a c g : 1 <= a -> a < 2 * 2 ^ N.of_nat F -> 1 <= c ->
    c = 1 \/ 2 ^ N.of_nat F <= a -> g = graft a c ->
    compute_local_merkle_coordinates oc g (2 ^ N.of_nat F) = Ok (N.log2 a, a - 2 ^ N.log2 a, a).
  Proof. clear Hlen HCs Hdeco.
    intros H1 H2 H3 H4 ->.
    assert (HB : 2 ^ N.of_nat F <= 2 ^ 60) by (apply N.pow_le_mono_r; lia).
    change (2 ^ 60) with 1152921504606846976 in *.
    assert (HU : USIZE = 18446744073709551616) by reflexivity.
    unfold compute_local_merkle_coordinates.
    rewrite umul_ok by lia. cbn [bind]. rewrite usub_ok by lia. cbn [bind].
    assert (EH : halve_until (N.to_nat (N.size (graft a c))) (graft a c) (2 * 2 ^ N.of_nat F - 1) = Ok a).
    { destruct H4 as [->|H4].
      - rewrite graft_1. apply halve_stop. lia.
      - destruct (log2_split c H3) as (m & y & -> & Hy & E). pose proof (log2_graft a (2 ^ m + y) H1 H3) as EL.
        rewrite E in EL. pose proof (N.size_log2 (graft a (2 ^ m + y))) as ES.
        assert (EG : graft a (2 ^ m + y) = a * 2 ^ N.of_nat (N.to_nat m) + y).
        { unfold graft. rewrite E, Nnat.N2Nat.id. lia. }
        assert (EP : 2 * 2 ^ N.of_nat F = 2 ^ (N.of_nat F + 1)) by (rewrite N.add_1_r, N.pow_succ_r'; reflexivity).
        rewrite ES by (rewrite EG; pose proof (pow2_pos (N.of_nat (N.to_nat m))); nia). rewrite EL, EG, EP.
        apply halve_run; rewrite ?Nnat.N2Nat.id; auto; lia. }
    rewrite EH. cbn [bind]. unfold get_depth, log_2. replace (a =? 0) with false by lia. cbn [bind].
    unfold get_index. assert (HL : N.log2 a < 64) by (apply log2_lt_64; change (2 ^ 64) with 18446744073709551616; lia).
    rewrite upow2_ok by auto. cbn [bind]. unfold urem. pose proof (pow2_pos (N.log2 a)).
    replace (2 ^ N.log2 a =? 0) with false by lia. cbn [bind]. do 2 f_equal. f_equal.
    pose proof (N.log2_spec a ltac:(lia)) as [L1 L2]. rewrite N.pow_succ_r' in L2.
    symmetry. apply N.mod_unique with (q := 1); lia.
  Qed.

  Lemma coordinates_zero : compute_local_merkle_coordinates oc 0 (2 ^ N.of_nat F) = Err InvalidGeneralizedIndex.
  Proof. clear Hlen HCs Hdeco.
    assert (HB : 2 ^ N.of_nat F <= 2 ^ 60) by (apply N.pow_le_mono_r; lia).
    change (2 ^ 60) with 1152921504606846976 in *. pose proof (pow2_pos (N.of_nat F)).
    assert (HU : USIZE = 18446744073709551616) by reflexivity.
    unfold compute_local_merkle_coordinates. rewrite umul_ok by lia. cbn [bind]. rewrite usub_ok by lia. cbn [bind].
    rewrite halve_stop by lia. reflexivity.
  Qed.

  (** ** The tree *)

  Definition fits : bool := (2 ^ N.of_nat F <=? 2 ^ 57) && (blen cs <=? 2 ^ N.of_nat F).

  Lemma tree_panics : fits = false -> exists x, compute_merkle_tree H oc (concat cs) (2 ^ N.of_nat F) = Panic x.
  Proof. clear Hdeco.
    intros HF. unfold fits in HF.
    assert (E1 : (blen (concat cs)) mod 32 = 0) by (rewrite blen_concat32 by auto; lia).
    destruct (N.leb_spec (2 ^ N.of_nat F) (2 ^ 57)) as [HD|HD]; cbn [andb] in HF.
    - change (2 ^ 57) with 144115188075855872 in HD. set (n := 2 ^ N.of_nat F) in *.
      assert (Hn : 1 <= n) by (pose proof (pow2_pos (N.of_nat F)); unfold n; lia).
      assert (HU : USIZE = 18446744073709551616) by reflexivity.
      unfold compute_merkle_tree. change BYTES_PER_CHUNK with 32. rewrite E1.
      assert (HAs : forall b, b = true -> debug_assert oc b = Ok tt)
        by (intros b ->; unfold debug_assert; destruct oc; reflexivity).
      rewrite HAs by reflexivity. cbn [bind].
      rewrite next_power_of_two_ok by (change (2 ^ 63) with 9223372036854775808; lia). cbn [bind].
      unfold n at 1. rewrite width_pow. fold n. rewrite HAs by (apply N.eqb_refl).
      assert (E3 : (if oc then @Ok MerkleizationError unit tt else Ok tt) = Ok tt) by (destruct oc; reflexivity).
      rewrite E3. cbn [bind].
      rewrite umul_ok by lia. cbn [bind]. rewrite usub_ok by lia. cbn [bind].
      rewrite usub_ok by lia. cbn [bind]. rewrite umul_ok by lia. cbn [bind].
      rewrite umul_ok by lia. cbn [bind]. unfold alloc_zeros.
      replace ((2 * n - 1) * 32 <? 2 ^ 63) with true
        by (change (2 ^ 63) with 9223372036854775808; lia).
      cbn [bind]. unfold copy_at. rewrite blen_concat32 by auto. rewrite blen_zeros, Nnat.N2Nat.id.
      replace ((2 * n - 1 - n) * 32 + blen cs * 32 <=? (2 * n - 1) * 32) with false by lia.
      cbn [bind]. eauto.
    - clear HF. assert (HF : (58 <= F)%nat).
      { destruct (Compare_dec.le_lt_dec 58 F); auto. exfalso.
        assert (2 ^ N.of_nat F <= 2 ^ 57) by (apply N.pow_le_mono_r; lia). lia. }
      assert (HF' : F = 58%nat \/ F = 59%nat \/ F = 60%nat) by lia.
      unfold compute_merkle_tree. change BYTES_PER_CHUNK with 32. rewrite E1. generalize (concat cs). clear - HF'. intros b.
      destruct HF' as [E|[E|E]]; rewrite E; destruct oc; vm_compute; eauto.
  Qed.

  Lemma extend_any T k : forall g p, (F <= 57)%nat -> holds T (2 * 2 ^ N.of_nat F) (local_tree H (tree_depth cc) cs deco) ->
    N.log2 g = N.of_nat k -> 1 <= g -> g < 2 * 2 ^ N.of_nat F ->
    exists q, extend_branches oc k (concat T) g p = Ok q /\ proof_index (proof q) = proof_index (proof p).
  Proof. clear Hdepth.
    intros g p Hdepth.
    assert (HU : 2 * 2 ^ N.of_nat F * 32 < USIZE).
    { assert (2 ^ N.of_nat F <= 2 ^ 57) by (apply N.pow_le_mono_r; lia).
      change (2 ^ 57) with 144115188075855872 in *. change USIZE with 18446744073709551616. lia. }
    revert g p. induction k as [|k IH]; intros g p HT Hk H1 H2.
    - exists p. split; reflexivity.
    - assert (H3 : 2 <= g).
      { destruct (N.eq_dec g 1) as [->|]; [cbn in Hk; lia|lia]. }
      set (s := if g mod 2 =? 0 then g + 1 else g - 1).
      assert (Hs : 1 <= s /\ s < 2 * 2 ^ N.of_nat F).
      { unfold s. destruct (N.eqb_spec (g mod 2) 0); lia. }
      assert (EI : (if negb (g mod 2 =? 0) then tree_index oc (concat T) (g - 1)
                    else do t <- uadd oc g 1; tree_index oc (concat T) t) = Ok (local_tree H (tree_depth cc) cs deco s)).
      { unfold s in *. destruct (g mod 2 =? 0) eqn:E0; cbn [negb].
        - rewrite uadd_ok by lia. cbn [bind]. apply (tree_index_ok oc _ _ _ _ HT); lia.
        - apply (tree_index_ok oc _ _ _ _ HT); lia. }
      cbn [extend_branches]. rewrite EI. cbn [bind]. unfold extend_branch.
      rewrite to_node_ok by (apply local_blen; auto). cbn [bind].
      match goal with |- exists q, extend_branches _ _ _ _ ?P = _ /\ _ => destruct (IH (g / 2) P) as (q & E1 & E2) end; auto; try lia.
      { destruct (log2_split g H1) as (d & y & -> & Hy & E). rewrite E in Hk. subst d.
        rewrite pow2_S in *. replace ((2 * 2 ^ N.of_nat k + y) / 2) with (2 ^ N.of_nat k + y / 2) by lia.
        apply log2_pow_add. lia. }
      exists q. split; [exact E1|]. rewrite E2. reflexivity.
  Qed.

  Context (T : SimpleSerialize) (v : val).
  Context (Hcc : chunk_count T = Ok cc) (Hcs : chunks T v = Ok (concat cs)) (Hdec : decoration T v = deco).

  (** Everything after the part below the leaf. *)
  Definition finish (depth a parent_index : N) (local : bool) (p : Prover) : mres Prover :=
    do chunks <- chunks T v;
    do tree <- compute_merkle_tree H oc chunks (2 ^ N.of_nat F);
    do tree <- match deco with
               | Some decoration => tree_mix_in_decoration H oc tree decoration
               | None => Ok tree
               end;
    do p <- (if local then
               do node <- tree_index oc tree parent_index;
               set_leaf p node
             else Ok p);
    do p <- extend_branches oc (N.to_nat depth) tree a p;
    do root <- tree_index oc tree 1;
    set_witness p root.

  Lemma finish_ok a g local p : 1 <= a -> a < 2 * 2 ^ N.of_nat F -> (local = true -> g = a) -> proof_index (proof p) = g ->
    outcome_is (if fits then Made else Crashes) g (finish (N.log2 a) a g local p).
  Proof.
    intros H1 H2 Hl Hp. unfold finish. rewrite Hcs. cbn [bind]. destruct fits eqn:EF.
    - unfold fits in EF. apply andb_true_iff in EF as [E1 E2]. apply N.leb_le in E1, E2.
      assert (HD : (F <= 57)%nat).
      { destruct (Compare_dec.le_lt_dec F 57); auto. exfalso.
        assert (2 ^ 58 <= 2 ^ N.of_nat F) by (apply N.pow_le_mono_r; lia). change (2 ^ 58) with (2 * 2 ^ 57) in *. lia. }
      change (2 ^ 57) with 144115188075855872 in E1.
      assert (HU : USIZE = 18446744073709551616) by reflexivity.
      destruct (tree_ok H Hlen oc (tree_depth cc) cs HCs deco Hdeco E2 HD T v cc eq_refl Hdec) as (Tr & ET & HT).
      destruct (compute_merkle_tree H oc (concat cs) (2 ^ N.of_nat F)) as [tree| |]; cbn [bind] in *; try discriminate ET.
      rewrite ET. cbn [bind].
      assert (EL : exists p1, (if local then do node <- tree_index oc (concat Tr) g; set_leaf p node else Ok p) = Ok p1 /\
                     proof_index (proof p1) = g).
      { destruct local; [|eauto]. rewrite Hl by auto. rewrite (tree_index_ok oc _ _ _ a HT) by lia. cbn [bind].
        unfold set_leaf. rewrite to_node_ok by (apply local_blen; auto). cbn [bind]. eexists. split; [reflexivity|].
        cbn [proof proof_index]. rewrite Hp. auto. }
      destruct EL as (p1 & EL & Ep1). rewrite EL. cbn [bind].
      destruct (extend_any Tr (N.to_nat (N.log2 a)) a p1 HD HT) as (q & Eq & Epq); rewrite ?Nnat.N2Nat.id; auto.
      rewrite Eq. cbn [bind]. rewrite (tree_index_ok oc _ _ _ 1 HT) by lia. cbn [bind]. unfold set_witness.
      rewrite to_node_ok by (apply local_blen; auto). cbn [bind outcome_is]. eexists. split; [reflexivity|].
      cbn [proof]. congruence.
    - destruct (tree_panics EF) as [x ->]. cbn [bind outcome_is]. eauto.
  Qed.

  Lemma compute_proof_any p g o :
    proof_index (proof p) = g -> g < 2 ^ 64 ->
    (forall m, m = N.log2 g - N.of_nat F -> 1 <= m ->
       outcome_is o (2 ^ m + g mod 2 ^ m)
         (prove_element T v (g / 2 ^ m - 2 ^ N.of_nat F) (set_index p (2 ^ m + g mod 2 ^ m)))) ->
    outcome_is
      (if g =? 0 then Fails InvalidGeneralizedIndex
       else
         let own := if fits then Made else Crashes in
         if N.log2 g - N.of_nat F =? 0 then own else and_then o own)
      g (compute_proof H oc T v p).
  Proof.
    intros Hp Hlt HI. unfold compute_proof. rewrite Hcc. cbn [bind]. rewrite Hdec, Hp.
    pose proof leaf_count_any as EL. destruct (next_power_of_two oc cc) as [lc| |]; cbn [bind] in *; try discriminate EL.
    rewrite EL. cbn [bind].
    destruct (N.eqb_spec g 0) as [->|Hg].
    { rewrite coordinates_zero. reflexivity. }
    assert (HB : 2 ^ N.of_nat F <= 2 ^ 60) by (apply N.pow_le_mono_r; lia).
    change (2 ^ 60) with 1152921504606846976 in HB.
    pose proof (N.log2_spec g ltac:(lia)) as [G1 G2]. rewrite N.pow_succ_r' in G2.
    destruct (N.eqb_spec (N.log2 g - N.of_nat F) 0) as [Hm|Hm]; cbv zeta.
    - assert (Hg2 : g < 2 * 2 ^ N.of_nat F).
      { assert (2 ^ N.log2 g <= 2 ^ N.of_nat F) by (apply N.pow_le_mono_r; lia). lia. }
      rewrite (coordinates_any g 1 g) by (auto; try lia; rewrite graft_1; reflexivity). cbn [bind].
      rewrite N.ltb_irrefl. cbn [negb bind]. apply (finish_ok g g true p); auto; lia.
    - set (m := N.log2 g - N.of_nat F) in *. specialize (HI m eq_refl ltac:(lia)).
      set (a := g / 2 ^ m) in *. set (c := 2 ^ m + g mod 2 ^ m) in *.
      pose proof (pow2_pos m) as Pm. pose proof (N.mod_lt g (2 ^ m) ltac:(lia)) as Hr.
      pose proof (N.div_mod g (2 ^ m) ltac:(lia)) as EG. fold a in EG.
      assert (EF : 2 ^ N.log2 g = 2 ^ N.of_nat F * 2 ^ m).
      { rewrite <- N.pow_add_r. f_equal. unfold m. lia. }
      assert (Ha1 : 2 ^ N.of_nat F <= a).
      { unfold a. apply N.div_le_lower_bound; lia. }
      assert (Ha2 : a < 2 * 2 ^ N.of_nat F).
      { unfold a. apply N.div_lt_upper_bound; lia. }
      assert (Ec : N.log2 c = m).
      { unfold c. apply log2_pow_add. auto. }
      assert (Hgr : g = graft a c).
      { unfold graft. rewrite Ec. unfold c. lia. }
      pose proof (pow2_pos (N.of_nat F)) as PF.
      assert (Ea : N.log2 a = N.of_nat F).
      { replace a with (2 ^ N.of_nat F + (a - 2 ^ N.of_nat F)) by lia. apply log2_pow_add. lia. }
      rewrite (coordinates_any a c g) by (auto; lia). rewrite Ea. cbn [bind].
      assert (H2m : 2 <= 2 ^ m).
      { change 2 with (2 ^ 1) at 1. apply N.pow_le_mono_r; lia. }
      assert (Hag : a < g) by nia.
      replace (a <? g) with true by lia. cbn [negb].
      pose proof (log2_lt_64 g Hlt) as Hl.
      unfold get_depth, log_2. replace (g =? 0) with false by lia. cbn [bind].
      rewrite usub_ok by lia. cbn [bind]. fold m.
      rewrite upow2_ok by lia. cbn [bind]. unfold urem. replace (2 ^ m =? 0) with false by lia. cbn [bind].
      assert (Hcg : c <= g) by nia.
      rewrite uadd_ok by (change USIZE with (2 ^ 64); unfold c in Hcg; lia). cbn [bind]. fold c.
      set (r := prove_element T v (a - 2 ^ N.of_nat F) (set_index p c)) in *.
      destruct o as [|e|]; cbn [outcome_is] in HI.
      + destruct HI as (q & Eq & _). unfold r in *. rewrite Eq. cbn [bind].
        pose proof (finish_ok a g false (set_index q g) ltac:(lia) Ha2 ltac:(discriminate) eq_refl) as HF. rewrite Ea in HF. exact HF.
      + rewrite HI. reflexivity.
      + destruct HI as [x HI]. rewrite HI. cbn [bind outcome_is and_then]. eauto.
  Qed.
End Any.

(** ** Every type *)

Section Probe.
  Context (H : bytes -> bytes) (Hlen : forall x, blen (H x) = 32).
  Context (CONTEXT : bytes) (HC : good_context H CONTEXT) (oc : bool).
  Notation S_ := (simple_serialize H CONTEXT oc).

  Lemma count_addressable t : addressable t = true -> chunk_count (S_ t) = Ok (chunk_count_with item_basic t).
  Proof. clear HC Hlen.
    assert (HS : forall u n, n * item_length_with item_basic u + 31 < 2 ^ 64 ->
              seq_chunk_count oc (S_ u) n = Ok ((n * item_length_with item_basic u + 31) / 32)).
    { intros u n HB'. unfold seq_chunk_count. rewrite with_item_length.
      change (2 ^ 64) with USIZE in HB'. rewrite umul_ok by lia. cbn [bind]. rewrite uadd_ok by lia. reflexivity. }
    induction t using ty_ind'; intros HA; cbn [chunk_count_with addressable] in *; rewrite ?andb_true_iff in HA;
      try reflexivity; try (apply HS; lia); auto.
    - cbn. rewrite bits_chunk_count_eq. reflexivity.
    - cbn. rewrite bits_chunk_count_eq. reflexivity.
    - cbn [simple_serialize container_m chunk_count]. rewrite blen_map. reflexivity.
  Qed.

  Lemma decoration_some t : forall v, valid t v -> legal t = true ->
    match decoration (S_ t) v with Some n => decorated t = true /\ n < 2 ^ 64 | None => decorated t = false end.
  Proof. clear HC Hlen.
    induction t using ty_ind'; intros v HV HL; destruct v; no_shape; try reflexivity; try (split; reflexivity).
    - cbn [simple_serialize list_m decoration list_decoration]. cbn [legal] in HL. rewrite !andb_true_iff in HL.
      destruct HV as [HV _]. split; [reflexivity|lia].
    - cbn [simple_serialize bitlist_m decoration bitlist_decoration]. cbn [legal] in HL.
      destruct HV as (_ & HV & _). split; [reflexivity|lia].
    - exact (IHt v HV HL).
    - apply valid_variant in HV as (u & E & _). cbn [legal] in HL. rewrite !andb_true_iff in HL. destruct HL as [HL _].
      assert (HI : (N.to_nat i < length vs)%nat) by (apply nth_error_Some; congruence).
      assert (HB : blen vs <= 127).
      { unfold legal_variants in HL. destruct vs; [discriminate|]. rewrite !andb_true_iff in HL. lia. }
      unfold blen in HB. split; [reflexivity|]. change (2 ^ 64) with 18446744073709551616. lia.
    - apply valid_payload in HV as (u & E & _). cbn [legal] in HL. rewrite !andb_true_iff in HL. destruct HL as [[_ HL] _].
      assert (HI : (N.to_nat i < length ts)%nat) by (apply nth_error_Some; congruence).
      unfold blen in HL. split; [reflexivity|]. change (2 ^ 64) with 18446744073709551616. lia.
  Qed.

  Lemma leaves_depth t v : valid t v -> legal t = true ->
    leaves t = 2 ^ N.of_nat (full_depth (tree_depth (chunk_count_with item_basic t)) (decoration (S_ t) v)).
  Proof. clear HC Hlen.
    intros HV HL. pose proof (decoration_some t v HV HL) as HD. unfold leaves, full_depth.
    rewrite <- tree_depth_width. destruct (decoration (S_ t) v).
    - destruct HD as [-> _]. rewrite pow2_S. reflexivity.
    - rewrite HD. reflexivity.
  Qed.

  Lemma width_le n k : n <= 2 ^ k -> width n <= 2 ^ k.
  Proof. clear.
    intros Hn. rewrite <- tree_depth_width. apply N.pow_le_mono_r; [lia|]. unfold tree_depth. rewrite Nnat.N2Nat.id.
    rewrite <- (N.log2_up_pow2 k) by lia. apply N.log2_up_le_mono. auto.
  Qed.

  Lemma leaves_bound t : addressable t = true -> legal t = true -> leaves t <= 2 ^ 60.
  Proof. clear HC Hlen.
    assert (H59 : forall n, n <= 576460752303423488 -> width n <= 576460752303423488) by (intros n; exact (width_le n 59)).
    assert (H64 : forall n, n <? 2 ^ 64 = true -> n < 18446744073709551616) by (intros n; apply N.ltb_lt).
    assert (H1 : width 1 = 1) by reflexivity.
    assert (HS : width (chunk_count_with item_basic (resolve t)) <= 576460752303423488 -> leaves t <= 2 ^ 60).
    { unfold leaves. rewrite with_resolve_chunk_count. generalize (width (chunk_count_with item_basic t)). intros w Hw.
      change (2 ^ 60) with 1152921504606846976. destruct (decorated t); lia. }
    intros HA HL. apply HS. clear HS.
    assert (HR : addressable (resolve t) = true /\ legal (resolve t) = true) by (induction t; auto).
    destruct HR as [HAr HLr]. clear HA HL. pose proof (resolve_not_newtype t) as HN.
    destruct (resolve t) as [| | | |u n|u n|u n|n|n|fs|u|u|vs|ts]; cbn [addressable legal chunk_count_with] in *;
      rewrite ?andb_true_iff in HAr; rewrite ?andb_true_iff in HLr; rewrite ?H1; try (intros; discriminate).
    - destruct HAr as [HAr _]. apply H64 in HAr. apply H59. lia.
    - destruct HAr as [HAr _]. apply H64 in HAr. apply H59. lia.
    - destruct HAr as [HAr _]. apply H64 in HAr. apply H59. lia.
    - destruct HLr as [_ HLr]. apply H64 in HLr. apply H59. lia.
    - apply H64 in HLr. apply H59. lia.
    - destruct HAr as [HAr _]. apply H59. apply N.leb_le in HAr. exact HAr.
    - exfalso. exact (HN _ eq_refl).
  Qed.

  (** The tree of a type that is not a newtype. *)
  Lemma fits_made t v : is_newtype t = false -> valid t v -> legal t = true -> sized t = true ->
    fits (chunks_with packed H t v) (decoration (S_ t) v) (chunk_count_with item_basic t) = tree_made t v.
  Proof. clear HC.
    intros HN HV HL HR. unfold fits, tree_made. rewrite <- leaves_depth by auto. f_equal.
    assert (H1 : forall c : bytes, blen [c] <=? leaves t = true).
    { intros c. change (blen [c]) with 1. unfold leaves. pose proof (width_pos (chunk_count_with item_basic t)).
      destruct (decorated t); lia. }
    assert (HT : blen (chunks_with packed H t v) <= chunk_count_with item_basic t ->
                 blen (chunks_with packed H t v) <=? leaves t = true).
    { intros HB. unfold leaves. pose proof (width_ge (chunk_count_with item_basic t)). destruct (decorated t); lia. }
    pose proof (with_chunks_fit H Hlen t HR HL v HV) as HF.
    assert (HSeq : forall u l, small u = true -> legal u = true -> Forall (valid u) l ->
      (blen (seq_chunks_with packed H u l) <=? leaves t) = ((blen l * item_length_with packed u + 31) / 32 <=? leaves t)).
    { intros u l Hs Hl Hv. rewrite with_seq_chunks_blen by auto. reflexivity. }
    destruct t as [| | | |u n|u n|u n|n|n|fs|u|u|vs|ts]; destruct v; no_shape; try discriminate HN;
      cbn [legal sized] in HL, HR; rewrite ?andb_true_iff in HL; rewrite ?andb_true_iff in HR;
      [apply H1|apply H1|apply H1|apply H1
      |apply (HSeq u l); [apply HR|apply HL|apply HV]|apply (HSeq u l); [apply HR|apply HL|apply HV]
      |apply (HSeq u l); [apply HR|apply HL|apply HV]
      |apply HT; exact HF|apply HT; exact HF|apply HT; exact HF|apply H1|apply H1|apply H1|apply HT; exact HF|apply HT; exact HF].
  Qed.

  Definition probes (t : ty) : Prop := forall v g p, legal t = true -> sized t = true -> addressable t = true -> valid t v ->
    g < 2 ^ 64 -> proof_index (proof p) = g -> outcome_is (probe t v g) g (compute_proof H oc (S_ t) v p).

  (** What is left to show for a type that is not a newtype. *)
  Lemma probe_step t v g p o : is_newtype t = false ->
    legal t = true -> sized t = true -> addressable t = true -> valid t v -> g < 2 ^ 64 -> proof_index (proof p) = g ->
    (forall m, m = N.log2 g - N.log2 (leaves t) -> 1 <= m -> 2 ^ m + g mod 2 ^ m < 2 ^ 64 ->
       g / 2 ^ m - leaves t < leaves t ->
       outcome_is o (2 ^ m + g mod 2 ^ m)
         (prove_element (S_ t) v (g / 2 ^ m - leaves t) (set_index p (2 ^ m + g mod 2 ^ m)))) ->
    outcome_is
      (if g =? 0 then Fails InvalidGeneralizedIndex
       else
         let own := if tree_made t v then Made else Crashes in
         if N.log2 g - N.log2 (leaves t) =? 0 then own else and_then o own)
      g (compute_proof H oc (S_ t) v p).
  Proof.
    intros HN HL HR HA HV Hlt Hp HI. rewrite <- fits_made by auto.
    pose proof (leaves_bound t HA HL) as HB.
    rewrite (leaves_depth t v HV HL) in *.
    set (F := full_depth (tree_depth (chunk_count_with item_basic t)) (decoration (S_ t) v)) in *.
    rewrite N.log2_pow2 in * by lia.
    assert (HF : (F <= 60)%nat).
    { destruct (Compare_dec.le_lt_dec F 60); auto. exfalso.
      assert (2 ^ 61 <= 2 ^ N.of_nat F) by (apply N.pow_le_mono_r; lia). change (2 ^ 61) with (2 * 2 ^ 60) in *. lia. }
    refine (compute_proof_any H Hlen oc (chunks_with packed H t v) (with_chunks_all32 H Hlen _ _ HV)
      (decoration (S_ t) v) _ (chunk_count_with item_basic t) HF (S_ t) v (count_addressable t HA)
      (proj2 (with_hash_tree_root_ok H Hlen CONTEXT HC oc t HL HR v HV)) eq_refl p g o Hp Hlt _).
    - pose proof (decoration_some t v HV HL) as HD. destruct (decoration (S_ t) v); [apply HD|exact I].
    - intros m Em Hm. fold F in Em. fold F.
      destruct (N.eq_dec g 0) as [->|Hg]; [change (N.log2 0) with 0 in Em; lia|].
      pose proof (N.log2_spec g ltac:(lia)) as [G1 G2]. rewrite N.pow_succ_r' in G2.
      pose proof (pow2_pos m) as Pm. pose proof (N.mod_lt g (2 ^ m) ltac:(lia)) as Hr.
      assert (EF : 2 ^ N.log2 g = 2 ^ N.of_nat F * 2 ^ m) by (rewrite <- N.pow_add_r; f_equal; lia).
      pose proof (pow2_pos (N.of_nat F)) as PF.
      apply HI; auto.
      + pose proof (N.div_mod g (2 ^ m) ltac:(lia)) as EG.
        assert (1 <= g / 2 ^ m) by (apply N.div_le_lower_bound; [lia|nia]). nia.
      + assert (g / 2 ^ m < 2 * 2 ^ N.of_nat F) by (apply N.div_lt_upper_bound; lia). lia.
  Qed.

  Theorem probe_ok t : probes t.
  Proof.
    assert (HNone : forall v p, valid (TUint Usize) (VUint v) -> 2 <= proof_index (proof p) -> proof_index (proof p) < 2 ^ 64 ->
              compute_proof H oc (usize_m) (VUint v) p = Err NoInnerElement).
    { intros v p HV Hp Hlt.
      pose proof (probe_step (TUint Usize) (VUint v) _ p (Fails NoInnerElement) eq_refl eq_refl eq_refl eq_refl HV Hlt eq_refl) as HS.
      specialize (HS (fun _ _ _ _ _ => eq_refl)).
      change (leaves (TUint Usize)) with 1 in HS. change (N.log2 1) with 0 in HS.
      replace (proof_index (proof p) =? 0) with false in HS by lia. cbv zeta in HS.
      replace (N.log2 (proof_index (proof p)) - 0 =? 0) with false in HS; [exact HS|].
      assert (1 <= N.log2 (proof_index (proof p))) by (apply N.log2_le_pow2; lia). lia. }
    assert (HSeq : forall u n l i p, probes u -> legal u = true -> sized u = true -> addressable u = true -> Forall (valid u) l ->
              forall c, c < 2 ^ 64 -> proof_index (proof p) = c ->
              outcome_is (if n <=? i then Fails InvalidInnerIndex
                          else match nth_error l (N.to_nat i) with Some x => probe u x c | None => Crashes end) c
                (seq_prove_element H oc (S_ u) n (VSeq l) i p)).
    { intros u n l i p IH HL HR HA HV c Hc Hp. unfold seq_prove_element. destruct (n <=? i); [reflexivity|].
      unfold index. destruct (nth_error l (N.to_nat i)) as [x|] eqn:EN.
      - assert (HI : (N.to_nat i < length l)%nat) by (apply nth_error_Some; congruence).
        replace (i <? blen l) with true by (unfold blen; lia). cbn [bind]. apply IH; auto.
        rewrite Forall_forall in HV. apply HV. eapply nth_error_In; eauto.
      - apply nth_error_None in EN. replace (i <? blen l) with false by (unfold blen; lia). cbn [bind outcome_is]. eauto. }
    induction t using ty_ind'; intros v g p HL HR HA HV Hlt Hp; destruct v; no_shape;
      pose proof HL as HL0; pose proof HR as HR0; pose proof HA as HA0;
      cbn [legal sized addressable] in HL0, HR0, HA0; rewrite ?andb_true_iff in HL0; rewrite ?andb_true_iff in HR0;
      rewrite ?andb_true_iff in HA0;
      lazymatch goal with
      | |- outcome_is (probe (TNewtype _) _ _) _ _ => idtac
      | |- _ => cbn [probe]; cbv zeta; refine (probe_step _ _ g p _ _ HL HR HA HV Hlt Hp _); [reflexivity|intros m Em Hm Hc Hi; rewrite <- ?Em; clear Em]
      end; try reflexivity.
    - apply HSeq; auto; tauto || apply HV.
    - apply HSeq; auto; tauto || apply HV.
    - apply HSeq; auto; tauto || apply HV.
    - cbn [simple_serialize container_m prove_element]. unfold container_prove_element.
      apply valid_fields in HV as [HVl HV]. rewrite !blen_map, !map_map. cbn [snd].
      set (i := g / 2 ^ m - leaves (TContainer fs)) in *. clearbody i.
      set (c := 2 ^ m + g mod 2 ^ m) in *. clearbody c.
      destruct HL0 as [_ HL0]. destruct HR0 as [_ HR0]. destruct HA0 as [_ HA0]. rewrite forallb_forall in HL0, HR0, HA0.
      rewrite Forall_forall in HV, H0.
      rewrite !combine_map_l, !nth_error_map.
      destruct (nth_error (combine fs l) (N.to_nat i)) as [[f x]|] eqn:EN; cbn [option_map fst snd].
      + pose proof (nth_error_In _ _ EN) as HIn. pose proof (in_combine_l _ _ _ _ HIn) as HIf.
        assert (HI : (N.to_nat i < length (combine fs l))%nat) by (apply nth_error_Some; congruence).
        rewrite combine_length in HI. replace (blen fs <=? i) with false by (unfold blen; lia).
        apply (H0 f HIf); auto. apply (HV _ HIn).
      + apply nth_error_None in EN. rewrite combine_length in EN. replace (blen fs <=? i) with true by (unfold blen; lia). reflexivity.
    - cbn [probe]. exact (IHt v g p HL HR HA HV Hlt Hp).
    - cbn [simple_serialize option_m prove_element]. unfold option_prove_element.
      change (leaves (TOption t)) with 2 in *. replace (2 <=? g / 2 ^ m - 2) with false by lia.
      apply HNone; [reflexivity| |exact Hc].
      cbn [set_index proof proof_index]. pose proof (N.pow_le_mono_r 2 1 m ltac:(lia) Hm). change (2 ^ 1) with 2 in *. lia.
    - cbn [simple_serialize option_m prove_element]. unfold option_prove_element.
      change (leaves (TOption t)) with 2 in *. replace (2 <=? g / 2 ^ m - 2) with false by lia.
      apply IHt; auto.
    - cbn [simple_serialize union_m prove_element]. unfold union_prove_element. rewrite blen_map.
      destruct (blen vs <=? g / 2 ^ m - leaves (TUnion vs)); [reflexivity|].
      apply HNone; [reflexivity| |exact Hc].
      cbn [set_index proof proof_index]. pose proof (N.pow_le_mono_r 2 1 m ltac:(lia) Hm). change (2 ^ 1) with 2 in *. lia.
    - cbn [simple_serialize union_m prove_element]. unfold union_prove_element. rewrite blen_map.
      destruct (blen vs <=? g / 2 ^ m - leaves (TUnion vs)); [reflexivity|].
      apply valid_variant in HV as (u & E & HV). rewrite !nth_error_map, E. cbn [option_map].
      pose proof (nth_error_In _ _ E) as HIn. destruct HL0 as [_ HL0]. rewrite forallb_forall in HL0, HR0, HA0.
      rewrite Forall_forall in H0.
      refine (H0 _ HIn v _ _ (HL0 _ HIn) (HR0 _ HIn) (HA0 _ HIn) HV Hc _). reflexivity.
    - cbn [simple_serialize transparent_m prove_element]. unfold union_prove_element. rewrite !blen_map.
      destruct (blen ts <=? g / 2 ^ m - leaves (TTransparent ts)); [reflexivity|].
      apply valid_payload in HV as (u & E & HV). rewrite !nth_error_map, E. cbn [option_map].
      pose proof (nth_error_In _ _ E) as HIn. destruct HL0 as [_ HL0]. rewrite forallb_forall in HL0, HR0, HA0.
      rewrite Forall_forall in H0.
      refine (H0 _ HIn v _ _ (HL0 _ HIn) (HR0 _ HIn) (HA0 _ HIn) HV Hc _). reflexivity.
  Qed.
  (** A generalized index is a usize. *)
  Definition word (r : mres N) : Prop := forall g, r = Ok g -> g < 2 ^ 64.

  Lemma word_bind {A} (r : mres A) f : (forall x, r = Ok x -> word (f x)) -> word (bind r f).
  Proof. intros HF g. destruct r; cbn [bind]; intros E; try discriminate. eapply HF; eauto. Qed.

  Lemma word_uadd a b : word (uadd oc a b).
  Proof.
    intros g. unfold uadd. change USIZE with (2 ^ 64). destruct (N.ltb_spec (a + b) (2 ^ 64)); [congruence|].
    destruct oc; [discriminate|]. intros E. injection E as <-. apply N.mod_lt. discriminate.
  Qed.

  Lemma word_umul a b : word (umul oc a b).
  Proof.
    intros g. unfold umul. change USIZE with (2 ^ 64). destruct (N.ltb_spec (a * b) (2 ^ 64)); [congruence|].
    destruct oc; [discriminate|]. intros E. injection E as <-. apply N.mod_lt. discriminate.
  Qed.

  Lemma generalized_index_word t : forall path parent, parent < 2 ^ 64 -> word (compute_generalized_index (S_ t) parent path).
  Proof. clear HC Hlen.
    assert (HO : forall g, g < 2 ^ 64 -> word (Ok g)) by (intros g Hg x E; congruence).
    assert (HE : forall e, word (Err e)) by (intros e x E; discriminate).
    assert (HP : forall e, word (Panic e)) by (intros e x E; discriminate).
    assert (HD : forall parent path, parent < 2 ^ 64 -> word (default_compute_generalized_index parent path)).
    { intros parent [|e path] Hp; cbn; auto. }
    assert (HSel : forall parent path, word (selector_generalized_index oc parent path)).
    { intros parent [|e path]; cbn [selector_generalized_index]; auto. apply word_bind. intros. apply word_uadd. }
    assert (HNil : forall parent path, parent < 2 ^ 64 -> word (none_generalized_index parent path)).
    { intros parent [|e path] Hp; cbn; auto. }
    induction t using ty_ind'; intros path parent Hp; cbn [simple_serialize bool_m uint_m u256_m node_m vector_m array_m list_m
      bitvector_m bitlist_m container_m newtype_m option_m union_m transparent_m compute_generalized_index]; auto.
    - unfold vector_compute_generalized_index. destruct path as [|[] rest]; auto. destruct (n <=? i); auto.
      repeat (apply word_bind; intros ? ?). eapply IHt, word_uadd; eauto.
    - unfold vector_compute_generalized_index. destruct path as [|[] rest]; auto. destruct (n <=? i); auto.
      repeat (apply word_bind; intros ? ?). eapply IHt, word_uadd; eauto.
    - unfold list_compute_generalized_index. destruct path as [|[] rest]; auto.
      + destruct (n <=? i); auto. repeat (apply word_bind; intros ? ?). eapply IHt, word_uadd; eauto.
      + destruct rest; auto. apply word_bind. intros. apply word_uadd.
    - unfold bitvector_compute_generalized_index. destruct path as [|[] rest]; auto. destruct (n <=? i); auto.
      repeat (apply word_bind; intros ? ?). eapply HD, word_uadd; eauto.
    - unfold bitlist_compute_generalized_index. destruct path as [|[] rest]; auto. destruct (n <=? i); auto.
      repeat (apply word_bind; intros ? ?). eapply HD, word_uadd; eauto.
    - unfold container_compute_generalized_index. destruct path as [|[] rest]; auto.
      generalize (blen (map (fun f => (fst f, S_ (snd f))) fs)), 0. induction H0 as [|[name1 u] fs Hu _ IH]; intros c k; cbn [map by_field fst snd]; auto.
      destruct (String.eqb _ name1); auto. repeat (apply word_bind; intros ? ?). eapply Hu, word_uadd; eauto.
    - unfold option_compute_generalized_index. destruct path as [|[] rest]; auto. destruct (2 <=? i); auto.
      apply word_bind. intros c Ec. apply word_umul in Ec. destruct (i =? 0); auto. destruct (i =? 1); auto.
    - unfold union_compute_generalized_index. destruct path as [|[] rest]; auto. destruct (_ <=? i); auto.
      apply word_bind. intros c Ec. apply word_umul in Ec. rewrite nth_error_map.
      destruct (nth_error vs (N.to_nat i)) as [[u|]|] eqn:E; cbn [option_map]; auto.
      rewrite Forall_forall in H0. apply (H0 _ (nth_error_In _ _ E)). auto.
    - unfold union_compute_generalized_index. destruct path as [|[] rest]; auto. destruct (_ <=? i); auto.
      apply word_bind. intros c Ec. apply word_umul in Ec. rewrite !nth_error_map.
      destruct (nth_error ts (N.to_nat i)) as [u|] eqn:E; cbn [option_map]; auto.
      rewrite Forall_forall in H0. apply (H0 _ (nth_error_In _ _ E)). auto.
  Qed.
End Probe.
