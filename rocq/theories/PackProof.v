(** hash_tree_root of every type: the Merkleization of the specification, with ssz-rs's choice of
    packed element types; and what such roots bind. *)
From Coq Require Import String List NArith ZArith Bool Lia ZifyBool ZifyNat ZifyN.
From Coq Require Import Strings.Byte.
From Verif Require Import Prelude Types Bitvec Ser De Impls Merkleize Proofs MerkImpls Multiproofs Valid SpecSer SpecMerkle
  SpecPack Lib SerProof SerSpec RoundTrip BitsLib ChunkLib MerkProof TreeProof RootProof GindexProof ProveProof LeafProof BindProof.
Import ListNotations.
Open Scope N_scope.
Ltac Zify.zify_post_hook ::= Z.div_mod_to_equations.

(** ** Packed elements *)

Definition small (u : ty) : bool := negb (packed u) || (fixed_size u <? 2 ^ 32).

Lemma packed_encoding u : forall v, packed u = true -> fixed_size u < 2 ^ 32 -> legal u = true -> valid u v ->
  exists b, spec_serialize u v = Some b /\ blen b = fixed_size u.
Proof.
  induction u using ty_ind'; intros v HP HS HL HV; cbn [packed] in HP; try discriminate; destruct v; try contradiction.
  - exists [if b then x01 else x00]. split; [destruct b; reflexivity|reflexivity].
  - cbn [spec_serialize]. eexists. split; [reflexivity|]. rewrite spec_uint_blen. destruct w; reflexivity.
  - cbn [spec_serialize]. eexists. split; [reflexivity|]. apply spec_uint_blen.
  - cbn [spec_serialize]. eexists. split; [reflexivity|]. exact HV.
  - destruct HV as [HB HV]. cbn [fixed_size] in HS. cbn [legal] in HL. rewrite !andb_true_iff in HL.
    assert (HS' : fixed_size u <= n * fixed_size u) by nia.
    cbn [spec_serialize]. rewrite seq_serialize_concat.
    + eexists. split; [reflexivity|]. cbn [fixed_size]. rewrite (concat_same_blen (fixed_size u)).
      * rewrite blen_map. congruence.
      * rewrite Forall_map. eapply Forall_impl; [|exact HV]. intros x Hx. cbn beta in Hx.
        destruct (IHu x) as (b & Eb & Lb); auto; [lia|tauto|]. unfold basic_bytes. rewrite Eb. exact Lb.
    + apply packed_fixed; auto.
    + eapply Forall_impl; [|exact HV]. intros x Hx. cbn beta in Hx. apply IHu; auto; [lia|tauto].
    + rewrite HB. exact HS.
Qed.

Lemma packed_bytes u v : small u = true -> packed u = true -> legal u = true -> valid u v ->
  spec_serialize u v = Some (basic_bytes u v) /\ blen (basic_bytes u v) = fixed_size u.
Proof.
  intros HS HP HL HV. unfold small in HS. rewrite HP in HS.
  destruct (packed_encoding u v) as (b & Eb & Lb); auto; [cbn [negb orb] in HS; lia|].
  unfold basic_bytes. rewrite Eb. auto.
Qed.

Lemma packed_bytes_inj u : forall x y, small u = true -> packed u = true -> legal u = true -> valid u x -> valid u y ->
  basic_bytes u x = basic_bytes u y -> x = y.
Proof.
  induction u using ty_ind'; intros x y HS HP HL HX HY HE; cbn [packed] in HP; try discriminate;
    try (refine (basic_bytes_inj _ x y _ HX HY HE); reflexivity).
  - destruct x; try contradiction; destruct y; try contradiction. f_equal. exact HE.
  - unfold small in HS. cbn [packed] in HS. rewrite HP in HS. cbn [negb orb fixed_size] in HS.
    cbn [legal] in HL. rewrite !andb_true_iff in HL.
    assert (HF : fixed_size u <= n * fixed_size u) by nia.
    assert (HS' : small u = true) by (unfold small; rewrite HP; cbn [negb orb]; lia).
    destruct x; try contradiction; destruct y; try contradiction. destruct HX as [LX VX], HY as [LY VY].
    assert (HB : forall l, blen l = n -> Forall (valid u) l ->
              basic_bytes (TArray u n) (VSeq l) = concat (map (basic_bytes u) l) /\
              Forall (fun b => blen b = fixed_size u) (map (basic_bytes u) l)).
    { intros k Lk Vk. split.
      - unfold basic_bytes at 1. cbn [spec_serialize]. rewrite seq_serialize_concat; [reflexivity|apply packed_fixed; auto| |lia].
        eapply Forall_impl; [|exact Vk]. intros z Hz. apply packed_encoding; auto; [lia|tauto].
      - rewrite Forall_map. eapply Forall_impl; [|exact Vk]. intros z Hz. apply packed_bytes; tauto. }
    destruct (HB l LX VX) as [E1 F1], (HB l0 LY VY) as [E2 F2]. rewrite E1, E2 in HE.
    apply (concat_inj (fixed_size u)) in HE; auto; [|rewrite !map_length; unfold blen in *; lia].
    f_equal. assert (HI : forall a b, valid u a -> valid u b -> basic_bytes u a = basic_bytes u b -> a = b)
      by (intros; apply IHu; tauto).
    clear - HE HI VX VY. revert l0 VY HE.
    induction VX as [|a l Ha VX IHl]; intros [|b l0] VY HE; try discriminate HE; [reflexivity|].
    apply Forall_cons_iff in VY as [Hb VY]. cbn in HE. injection HE as G1 G2. f_equal; auto.
Qed.

Section Spec.
  Context (H : bytes -> bytes) (Hlen : forall x, blen (H x) = 32).

  Lemma with_blen t : forall v, valid t v -> blen (root_with packed H t v) = 32.
  Proof.
    assert (HSeq : forall u l, (forall v, valid u v -> blen (root_with packed H u v) = 32) -> Forall (valid u) l ->
              all32 (if packed u then spec_pack (concat (map (basic_bytes u) l)) else map (root_with packed H u) l)).
    { intros u l IH HV. destruct (packed u); [apply spec_pack_all32|].
      unfold all32. induction HV; cbn [map]; constructor; auto. }
    assert (HChunk : forall b, blen (chunk_at (spec_pack b) 0) = 32)
      by (intros; apply chunk_at_blen, spec_pack_all32).
    induction t using ty_ind'; intros v HV; destruct v; try contradiction; cbn [root_with];
      unfold spec_mix_in; try apply Hlen; try apply HChunk; auto.
    - apply (spec_merkleize_blen H Hlen). apply HSeq; [auto|apply HV].
    - apply (spec_merkleize_blen H Hlen). apply HSeq; [auto|apply HV].
    - apply (spec_merkleize_blen H Hlen). apply spec_pack_all32.
    - apply (spec_merkleize_blen H Hlen).
      apply valid_fields in HV as [_ HV].
      rewrite combine_map_l, map_map. cbn [fst snd]. unfold all32. rewrite Forall_map. cbn [fst snd].
      rewrite Forall_forall in *. intros [f x] Hfx. cbn [fst snd]. apply H0.
      + apply in_combine_l in Hfx. auto.
      + apply (HV (f, x)); auto.
    - apply valid_variant in HV as (u & E & HV). rewrite nth_error_map, E. cbn [option_map]. apply Hlen.
    - apply valid_payload in HV as (u & E & HV). rewrite nth_error_map, E. cbn [option_map].
      rewrite Forall_forall in H0. apply (H0 u); auto. eapply nth_error_In; eauto.
  Qed.

  Lemma with_seq_chunks_all32 u l : Forall (valid u) l -> all32 (seq_chunks_with packed H u l).
  Proof.
    intros HV. unfold seq_chunks_with. destruct (packed u); [apply spec_pack_all32|].
    unfold all32. induction HV; cbn [map]; constructor; auto. apply with_blen; auto.
  Qed.

  Lemma with_seq_chunks_blen u l : small u = true -> legal u = true -> Forall (valid u) l ->
    blen (seq_chunks_with packed H u l) = (blen l * item_length_with packed u + 31) / 32.
  Proof.
    intros HS HL HV. unfold seq_chunks_with, item_length_with. destruct (packed u) eqn:EB.
    - rewrite spec_pack_blen, (concat_same_blen (fixed_size u)).
      + rewrite blen_map. reflexivity.
      + induction HV; cbn [map]; constructor; auto. apply packed_bytes; auto.
    - rewrite blen_map. lia.
  Qed.

  Lemma with_root_of_chunks t : forall v, valid t v ->
    root_with packed H t v = decorate H (spec_merkleize H (tree_depth (chunk_count_with packed t)) (chunks_with packed H t v))
                               (spec_decoration t v).
  Proof.
    induction t using ty_ind'; intros v HV; destruct v; try contradiction;
      cbn [root_with chunks_with spec_decoration decorate chunk_count_with]; rewrite ?spec_merkleize_1; try reflexivity; auto.
    - rewrite combine_map_l, map_map. reflexivity.
    - apply valid_variant in HV as (u & E & HV). rewrite nth_error_map, E. reflexivity.
    - apply valid_payload in HV as (u & E & HV). rewrite nth_error_map, E. reflexivity.
  Qed.

  Lemma with_chunks_all32 t : forall v, valid t v -> all32 (chunks_with packed H t v).
  Proof.
    assert (HChunk : forall b, all32 [chunk_at (spec_pack b) 0])
      by (intros; constructor; [apply chunk_at_blen, spec_pack_all32|constructor]).
    induction t using ty_ind'; intros v HV; destruct v; no_shape; cbn [chunks_with]; auto.
    - apply with_seq_chunks_all32; apply HV.
    - apply with_seq_chunks_all32; apply HV.
    - apply with_seq_chunks_all32; apply HV.
    - apply spec_pack_all32.
    - apply spec_pack_all32.
    - apply valid_fields in HV as [_ HV]. unfold all32. rewrite Forall_map. eapply Forall_impl; [|exact HV].
      intros [f x] Hx. apply with_blen; auto.
    - constructor; [reflexivity|constructor].
    - constructor; [apply with_blen; auto|constructor].
    - constructor; [reflexivity|constructor].
    - apply valid_variant in HV as (u & E & HV). rewrite E. constructor; [apply with_blen; auto|constructor].
    - apply valid_payload in HV as (u & E & HV). rewrite E. constructor; [apply with_blen; auto|constructor].
  Qed.

  Lemma with_chunks_fit t : sized t = true -> legal t = true -> forall v, valid t v ->
    blen (chunks_with packed H t v) <= chunk_count_with packed t.
  Proof.
    assert (H1 : forall c : bytes, blen [c] <= 1) by (intros; unfold blen; cbn; lia).
    induction t using ty_ind'; intros HS HL v HV; destruct v; no_shape; cbn [chunks_with chunk_count_with]; auto;
      try (cbn [sized] in HS; fold (small t) in HS; rewrite !andb_true_iff in HS;
           cbn [legal] in HL; rewrite !andb_true_iff in HL; destruct HV as [HB HV];
           rewrite with_seq_chunks_blen by tauto;
           assert (blen l * item_length_with packed t <= n * item_length_with packed t) by (apply N.mul_le_mono_r; lia); lia).
    - destruct HV as (_ & <- & _). rewrite bits_pack_blen. lia.
    - destruct HV as (_ & HV & _). rewrite bits_pack_blen. lia.
    - rewrite blen_map. unfold blen. rewrite combine_length. lia.
    - apply valid_variant in HV as (u & E & HV). rewrite E. auto.
    - apply valid_payload in HV as (u & E & HV). rewrite E. auto.
  Qed.

End Spec.

Section Root.
  Context (H : bytes -> bytes) (Hlen : forall x, blen (H x) = 32).
  Context (CONTEXT : bytes) (HC : good_context H CONTEXT) (oc : bool).
  Notation S_ := (simple_serialize H CONTEXT oc).

  Lemma with_assemble_chunks_ok u l :
    legal u = true -> small u = true -> Forall (valid u) l ->
    (forall v, valid u v -> hash_tree_root (S_ u) v = Ok (root_with packed H u v)) ->
    assemble_chunks (S_ u) (VSeq l) = Ok (concat (seq_chunks_with packed H u l)).
  Proof.
    intros HL HS HV IH. unfold assemble_chunks, seq_chunks_with. rewrite composite_simple, ser_simple.
    destruct (packed u) eqn:EP; cbn [negb].
    - apply pack_ok; auto. eapply Forall_impl; [|exact HV]. intros v Hv buf. cbn beta in Hv.
      pose proof (serialize_spec oc u HL v Hv buf) as G.
      destruct (packed_bytes u v) as [E _]; auto. rewrite E in G. eauto.
    - apply (elements_to_chunks_ok H Hlen CONTEXT).
      + clear - IH HV. induction HV; cbn [map]; constructor; auto.
      + unfold all32. rewrite Forall_map. eapply Forall_impl; [|exact HV]. intros v Hv. apply with_blen; auto.
  Qed.

  Definition with_computes (t : ty) (v : val) : Prop :=
    hash_tree_root (S_ t) v = Ok (root_with packed H t v) /\ chunks (S_ t) v = Ok (concat (chunks_with packed H t v)).

  Lemma with_vector_computes u n l :
    legal u = true -> small u = true ->
    (n * item_length_with packed u + 31) / 32 <= 2 ^ 63 ->
    (forall v, valid u v -> hash_tree_root (S_ u) v = Ok (root_with packed H u v)) ->
    blen l = n -> Forall (valid u) l ->
    vector_hash_tree_root H CONTEXT oc (S_ u) (VSeq l) =
    Ok (spec_merkleize H (tree_depth ((n * item_length_with packed u + 31) / 32)) (seq_chunks_with packed H u l)).
  Proof.
    intros HL HE HS IH <- HV. unfold vector_hash_tree_root. rewrite with_assemble_chunks_ok by auto. cbn [bind].
    rewrite merkleize_none; auto.
    - rewrite with_seq_chunks_blen by auto. reflexivity.
    - apply with_seq_chunks_all32; auto.
    - rewrite with_seq_chunks_blen by auto. exact HS.
  Qed.

  Lemma with_hash_tree_root_ok t : legal t = true -> sized t = true -> forall v, valid t v -> with_computes t v.
  Proof.
    induction t using ty_ind'; intros HL HR v HV; destruct v; no_shape; unfold with_computes;
      cbn [simple_serialize chunks_with]; cbn [concat]; rewrite ?app_nil_r.
    - destruct b; split; reflexivity.
    - assert (HW : 0 < bits_to_bytes (uint_bits w) /\ bits_to_bytes (uint_bits w) <= 32 /\
                   N.to_nat (bits_to_bytes (uint_bits w)) = spec_uint_size w) by (destruct w; cbn; lia).
      destruct HW as (W1 & W2 & W3).
      cbn [uint_m hash_tree_root chunks uint_chunks_v]. rewrite (uint_chunks_ok H Hlen CONTEXT) by auto. rewrite W3.
      cbn [bind root_with]. unfold basic_bytes. cbn [spec_serialize].
      rewrite to_node_ok by apply chunk_at_blen, spec_pack_all32. auto.
    - cbn [u256_m hash_tree_root chunks u256_chunks bind root_with]. unfold basic_bytes. cbn [spec_serialize].
      rewrite spec_pack_32 by apply spec_uint_blen. rewrite spec_uint_le_bytes.
      rewrite to_node_ok by apply blen_le_bytes. auto.
    - cbn [node_m hash_tree_root chunks node_chunks bind root_with]. unfold basic_bytes. cbn [spec_serialize].
      rewrite spec_pack_32 by exact HV. rewrite to_node_ok by exact HV. auto.
    - cbn [sized chunk_count_with] in HR. fold (small t) in HR. rewrite !andb_true_iff in HR. destruct HR as [[R1 R2] R3].
      cbn [legal] in HL. rewrite !andb_true_iff in HL. destruct HL as [_ HL]. destruct HV as [HV1 HV2].
      assert (IH : forall v, valid t v -> hash_tree_root (S_ t) v = Ok (root_with packed H t v))
        by (intros; apply IHt; auto).
      split.
      + cbn [vector_m hash_tree_root root_with chunk_count_with]. apply with_vector_computes; auto. lia.
      + cbn [vector_m chunks]. apply with_assemble_chunks_ok; auto.
    - cbn [sized chunk_count_with] in HR. fold (small t) in HR. rewrite !andb_true_iff in HR. destruct HR as [[R1 R2] R3].
      cbn [legal] in HL. rewrite !andb_true_iff in HL. destruct HL as [_ HL]. destruct HV as [HV1 HV2].
      assert (IH : forall v, valid t v -> hash_tree_root (S_ t) v = Ok (root_with packed H t v))
        by (intros; apply IHt; auto).
      split.
      + cbn [array_m hash_tree_root root_with chunk_count_with]. apply with_vector_computes; auto. lia.
      + cbn [array_m chunks]. apply with_assemble_chunks_ok; auto.
    - cbn [sized] in HR. fold (small t) in HR. rewrite !andb_true_iff in HR. destruct HR as [[R1 R2] R3].
      cbn [legal] in HL. rewrite !andb_true_iff in HL. destruct HL as [HL1 HL]. destruct HV as [HV1 HV2].
      assert (IH : forall v, valid t v -> hash_tree_root (S_ t) v = Ok (root_with packed H t v))
        by (intros; apply IHt; auto).
      split; [|apply with_assemble_chunks_ok; auto].
      cbn [list_m hash_tree_root list_hash_tree_root root_with chunk_count_with]. rewrite with_assemble_chunks_ok by auto.
      cbn [bind]. rewrite composite_simple.
      assert (HA : all32 (seq_chunks_with packed H t l)) by (apply with_seq_chunks_all32; auto).
      pose proof (with_seq_chunks_blen H t l R1 HL HV2) as HB.
      fold (seq_chunks_with packed H t l). unfold mix_in_length.
      assert (HI : forall limit, limit = (n * item_length_with packed t + 31) / 32 -> limit <= 2 ^ 63 ->
          merkleize H CONTEXT oc (concat (seq_chunks_with packed H t l)) (Some limit) =
          Ok (spec_merkleize H (tree_depth ((n * item_length_with packed t + 31) / 32)) (seq_chunks_with packed H t l))).
      { intros limit -> Hlim.
        assert (G : blen (seq_chunks_with packed H t l) <= (n * item_length_with packed t + 31) / 32).
        { rewrite HB. apply N.div_le_mono; [lia|]. apply N.add_le_mono_r. apply N.mul_le_mono_r. exact HV1. }
        rewrite merkleize_some by (auto; lia). replace (_ <? _) with false by lia. reflexivity. }
      unfold item_length_with in HI |- *. destruct (packed t) eqn:EP; cbn [negb].
      + unfold list_inherent_chunk_count. rewrite ser_simple, size_hint_spec.
        rewrite umul_ok by (unfold USIZE; lia). cbn [bind]. change BYTES_PER_CHUNK with 32.
        rewrite div_ceil_32. rewrite HI; [|reflexivity|change (2 ^ 64) with 18446744073709551616 in R3; change (2 ^ 63) with 9223372036854775808; lia].
        cbn [bind]. apply (mix_in_ok H Hlen); auto. lia.
      + rewrite HI by lia. cbn [bind]. apply (mix_in_ok H Hlen); auto. lia.
    - cbn [legal] in HL. rewrite !andb_true_iff in HL. destruct HV as (HV1 & HV2 & HV3).
      assert (HP : bitvector_pack_bits n (VBits b) = Ok (concat (spec_pack (spec_bits (bv_bits b))))).
      { unfold bitvector_pack_bits, bitvector_serialize. replace (n =? 0) with false by lia.
        cbn [ser_to_merkle bind]. rewrite app_nil_l, pack_bytes_concat, bv_load_chunks_spec. reflexivity. }
      split; [|exact HP]. cbn [bitvector_m hash_tree_root root_with chunk_count_with]. rewrite HP. cbn [bind].
      pose proof (bits_pack_blen b) as HB. rewrite HV2 in HB. rewrite bits_chunk_count_eq.
      rewrite merkleize_some; auto; [|apply spec_pack_all32|change (2^63) with 9223372036854775808; lia|change (2^63) with 9223372036854775808; lia].
      rewrite HB. rewrite N.ltb_irrefl. reflexivity.
    - cbn [legal] in HL. destruct HV as (HV1 & HV2 & HV3).
      assert (HP : bitlist_pack_bits n (VBits b) = Ok (concat (spec_pack (spec_bits (bv_bits b))))).
      { unfold bitlist_pack_bits, bitlist_serialize_with_length. replace (n <? bv_len b) with false by lia.
        cbn [ser_to_merkle bind]. rewrite app_nil_l, pack_bytes_concat, clean_raw_spec by auto. reflexivity. }
      split; [|exact HP]. cbn [bitlist_m hash_tree_root bitlist_hash_tree_root root_with chunk_count_with]. rewrite HP. cbn [bind].
      pose proof (bits_pack_blen b) as HB. rewrite bits_chunk_count_eq.
      rewrite merkleize_some; auto; [|apply spec_pack_all32|change (2^63) with 9223372036854775808; lia|change (2^63) with 9223372036854775808; lia].
      rewrite HB. replace (_ <? _) with false by lia. cbn [bind]. unfold mix_in_length. apply (mix_in_ok H Hlen). lia.
    - cbn [sized] in HR. rewrite !andb_true_iff in HR. destruct HR as [R1 R2].
      cbn [legal] in HL. rewrite !andb_true_iff in HL. destruct HL as [_ HL].
      apply valid_fields in HV as [HV1 HV2].
      set (rs := map (fun fx => root_with packed H (snd (fst fx)) (snd fx)) (combine fs l)).
      assert (HA : all32 rs).
      { unfold rs, all32. rewrite Forall_map. eapply Forall_impl; [|exact HV2]. intros fx Hfx. apply with_blen; auto. }
      assert (HB : blen rs = blen fs).
      { unfold rs. rewrite blen_map. unfold blen. rewrite combine_length. lia. }
      assert (HP : container_assemble_chunks (map snd (map (fun f => (fst f, S_ (snd f))) fs)) (VStruct l) = Ok (concat rs)).
      { unfold container_assemble_chunks. rewrite !map_length, HV1, PeanoNat.Nat.eqb_refl.
        change BYTES_PER_CHUNK with 32. rewrite map_map. cbn [snd]. rewrite combine_map_l.
        rewrite blen_map. rewrite (fill_fields_all H Hlen CONTEXT _ rs); auto.
        unfold rs. clear - H0 HL R2 HV2 Hlen. rewrite forallb_forall in HL, R2. rewrite Forall_forall in H0, HV2.
        assert (G : forall fx, In fx (combine fs l) -> hash_tree_root (S_ (snd (fst fx))) (snd fx) = Ok (root_with packed H (snd (fst fx)) (snd fx))).
        { intros [f x] Hfx. cbn [fst snd]. pose proof (in_combine_l _ _ _ _ Hfx).
          apply (H0 f); auto. apply (HV2 (f, x)); auto. }
        revert G. generalize (combine fs l) as c. induction c as [|fx c IH]; intros G; cbn [map]; constructor.
        - cbn [fst snd]. apply G. left. reflexivity.
        - apply IH. intros; apply G; right; auto. }
      split; [|exact HP]. cbn [container_m hash_tree_root root_with chunk_count_with]. rewrite HP. cbn [bind].
      rewrite merkleize_none by (auto; lia). rewrite HB. do 2 f_equal.
      rewrite combine_map_l, map_map. reflexivity.
    - destruct (IHt HL HR v HV) as [I1 I2]. split; [|exact I2].
      cbn [newtype_m hash_tree_root unwrap root_with].
      change (zeros 32) with (zeros (N.to_nat (1 * 32))). rewrite (fill_fields_all H Hlen CONTEXT _ [root_with packed H t v]).
      + cbn [bind]. rewrite merkleize_none; auto.
        * constructor; [apply with_blen; auto|constructor].
        * cbn. lia.
      + constructor; [exact I1|constructor].
      + constructor; [apply with_blen; auto|constructor].
      + reflexivity.
    - split; [|reflexivity]. cbn [option_m hash_tree_root option_hash_tree_root option_chunks bind root_with].
      rewrite to_node_ok by reflexivity. cbn [bind]. unfold mix_in_selector. apply (mix_in_ok H Hlen). reflexivity.
    - destruct (IHt HL HR v HV) as [I1 I2]. split; [|exact I1].
      cbn [option_m hash_tree_root option_hash_tree_root option_chunks root_with].
      unfold option_hash_tree_root, option_chunks. rewrite I1. cbn [bind].
      rewrite to_node_ok by (apply with_blen; auto). cbn [bind]. unfold mix_in_selector. apply (mix_in_ok H Hlen). reflexivity.
    - apply valid_unit in HV as [r ->]. split; [|reflexivity].
      cbn [union_m hash_tree_root union_hash_tree_root map option_map root_with].
      unfold mix_in_selector. apply (mix_in_ok H Hlen). reflexivity.
    - apply valid_variant in HV as (u & E & HV).
      cbn [legal] in HL. rewrite andb_true_iff in HL. destruct HL as [HL1 HL2].
      cbn [sized] in HR. rewrite forallb_forall in HL2, HR.
      pose proof (nth_error_In _ _ E) as Hin. rewrite Forall_forall in H0.
      destruct (H0 _ Hin (HL2 _ Hin) (HR _ Hin) v HV) as [I1 I2].
      pose proof (legal_variants_len _ HL1) as HN.
      assert (Hi : i < 2 ^ 64).
      { assert (N.to_nat i < length vs)%nat by (apply nth_error_Some; congruence).
        unfold blen in HN. change (2 ^ 64) with 18446744073709551616. lia. }
      cbn [union_m hash_tree_root union_hash_tree_root chunks union_chunks root_with].
      rewrite !nth_error_map, E. cbn [option_map]. rewrite I1. cbn [bind concat]. rewrite app_nil_r.
      split; [|reflexivity]. unfold mix_in_selector. apply (mix_in_ok H Hlen). auto.
    - apply valid_payload in HV as (u & E & HV).
      cbn [legal] in HL. rewrite !andb_true_iff in HL. destruct HL as [_ HL2].
      cbn [sized] in HR. rewrite forallb_forall in HL2, HR.
      pose proof (nth_error_In _ _ E) as Hin. rewrite Forall_forall in H0.
      destruct (H0 _ Hin (HL2 _ Hin) (HR _ Hin) v HV) as [I1 I2].
      cbn [transparent_m hash_tree_root chunks union_chunks root_with].
      rewrite !nth_error_map, E. cbn [option_map]. rewrite I1. cbn [bind concat]. rewrite app_nil_r. auto.
  Qed.

End Root.

Section Bind.
  Context (H : bytes -> bytes) (Hlen : forall x, blen (H x) = 32).

  Notation collides := (collides H).

  Lemma with_hashed_own t v x : own_input_with packed H t v x -> hashed_with packed H t v x.
  Proof. apply hashed_here. Qed.

  Lemma with_hashed_child t v u y x : In (u, y) (rooted_children packed t v) -> hashed_with packed H u y x -> hashed_with packed H t v x.
  Proof. apply hashed_below. Qed.

  Lemma with_own_binds t v w : sized t = true -> legal t = true -> valid t v -> valid t w ->
    (spec_decoration t v = None <-> spec_decoration t w = None) ->
    root_with packed H t v = root_with packed H t w ->
    (spec_decoration t v = spec_decoration t w /\
     (blen (chunks_with packed H t v) = blen (chunks_with packed H t w) -> chunks_with packed H t v = chunks_with packed H t w)) \/
    collides (own_input_with packed H t v) (own_input_with packed H t w).
  Proof.
    intros HS HL HV HW HD HE. rewrite !with_root_of_chunks in HE by auto.
    pose proof (decoration_lt H Hlen [] t HL v HV) as Lv. pose proof (decoration_lt H Hlen [] t HL w HW) as Lw.
    pose proof (with_chunks_all32 H Hlen t v HV) as Av. pose proof (with_chunks_all32 H Hlen t w HW) as Aw.
    pose proof (with_chunks_fit H Hlen t HS HL v HV) as Fv.
    set (d := tree_depth (chunk_count_with packed t)) in *.
    assert (HT : spec_merkleize H d (chunks_with packed H t v) = spec_merkleize H d (chunks_with packed H t w) ->
      (blen (chunks_with packed H t v) = blen (chunks_with packed H t w) -> chunks_with packed H t v = chunks_with packed H t w) \/
      collides (own_input_with packed H t v) (own_input_with packed H t w)).
    { intros HM. destruct (subtree_binds H Hlen d (chunk_at (chunks_with packed H t v)) (chunk_at (chunks_with packed H t w)))
        as [HI|HC]; auto using chunk_at_blen.
      - left. intros HB. apply chunks_ext; [exact HB|]. intros i Hi. apply HI.
        eapply N.lt_le_trans; [exact Hi|]. eapply N.le_trans; [exact Fv|].
        unfold d, tree_depth. rewrite Nnat.N2Nat.id. apply N.log2_up_le_pow2; [|lia].
        destruct (chunk_count_with packed t); lia.
      - right. eapply collides_weaken; [| |exact HC]; intros x Hx; left; exact Hx. }
    destruct (spec_decoration t v) as [n|] eqn:Ev, (spec_decoration t w) as [m|] eqn:Ew.
    - cbn [decorate] in HE. unfold spec_mix_in in HE.
      destruct (bytes_dec (spec_merkleize H d (chunks_with packed H t v) ++ num_chunk n)
                          (spec_merkleize H d (chunks_with packed H t w) ++ num_chunk m)) as [EX|NX].
      + apply app_split in EX as [E1 E2]; [|rewrite !spec_merkleize_blen; auto].
        apply num_chunk_inj in E2; auto. subst m. destruct (HT E1); auto.
      + right. eexists _, _. split; [right; rewrite Ev; reflexivity|].
        split; [right; rewrite Ew; reflexivity|]. auto.
    - destruct HD as [_ HD]. discriminate (HD eq_refl).
    - destruct HD as [HD _]. discriminate (HD eq_refl).
    - cbn [decorate] in HE. destruct (HT HE); auto.
  Qed.

  (** Roots of elements, one by one. *)
  Lemma with_roots_bind {A} (f : A -> ty) (l l' : list (A * val)) :
    (forall a x y, In (a, x) l -> valid (f a) x -> valid (f a) y -> root_with packed H (f a) x = root_with packed H (f a) y ->
       x = y \/ collides (hashed_with packed H (f a) x) (hashed_with packed H (f a) y)) ->
    map fst l = map fst l' ->
    Forall (fun ax => valid (f (fst ax)) (snd ax)) l -> Forall (fun ax => valid (f (fst ax)) (snd ax)) l' ->
    map (fun ax => root_with packed H (f (fst ax)) (snd ax)) l = map (fun ax => root_with packed H (f (fst ax)) (snd ax)) l' ->
    l = l' \/ exists a x y, In (a, x) l /\ In (a, y) l' /\ collides (hashed_with packed H (f a) x) (hashed_with packed H (f a) y).
  Proof.
    revert l'. induction l as [|[a x] l IH]; intros [|[a' x'] l'] HI HF HV HV' HE; try discriminate HF; [now left|].
    cbn [map fst snd] in *. injection HF as <- HF. injection HE as HE HR.
    apply Forall_cons_iff in HV as [V1 V2]. apply Forall_cons_iff in HV' as [V1' V2']. cbn [fst snd] in V1, V1'.
    destruct (HI a x x') as [->|HC]; auto; [now left| |].
    - destruct (IH l') as [->|(b & u & w & I1 & I2 & HC)]; auto.
      + intros b u w Hb. apply HI. now right.
      + right. exists b, u, w. split; [now right|]. split; [now right|]. exact HC.
    - right. exists a, x, x'. split; [now left|]. split; [now left|]. exact HC.
  Qed.

  Definition with_binds (t : ty) : Prop := forall v w, valid t v -> valid t w ->
    root_with packed H t v = root_with packed H t w -> v = w \/ collides (hashed_with packed H t v) (hashed_with packed H t w).

  Lemma with_own_collides t v w : collides (own_input_with packed H t v) (own_input_with packed H t w) -> collides (hashed_with packed H t v) (hashed_with packed H t w).
  Proof. clear Hlen. apply collides_weaken; intros; apply with_hashed_own; assumption. Qed.

  Lemma with_seq_binds u l l' : small u = true -> legal u = true -> with_binds u -> Forall (valid u) l -> Forall (valid u) l' -> blen l = blen l' ->
    seq_chunks_with packed H u l = seq_chunks_with packed H u l' ->
    l = l' \/ packed u = false /\ exists x y, In x l /\ In y l' /\ collides (hashed_with packed H u x) (hashed_with packed H u y).
  Proof.
    intros HSm HLe IH HV HV' HL HE. unfold seq_chunks_with in HE. destruct (packed u) eqn:HB.
    - left. apply spec_pack_inj in HE.
      + apply (concat_inj (fixed_size u)) in HE.
        * clear IH HL.
          assert (HI : forall x y, valid u x -> valid u y -> basic_bytes u x = basic_bytes u y -> x = y).
          { intros x y. apply packed_bytes_inj; auto. }
          revert l' HV' HE. induction HV as [|x l Hx HV IHl]; intros [|y l'] HV' HE; try discriminate HE; [reflexivity|].
          apply Forall_cons_iff in HV' as [Hy HV']. cbn in HE. injection HE as E1 E2. f_equal; auto.
        * rewrite Forall_map. eapply Forall_impl; [|exact HV]. intros x Hx. apply packed_bytes; auto.
        * rewrite Forall_map. eapply Forall_impl; [|exact HV']. intros x Hx. apply packed_bytes; auto.
        * rewrite !map_length. unfold blen in HL. lia.
      + rewrite !(concat_same_blen (fixed_size u)), !blen_map, HL; [reflexivity| |].
        * rewrite Forall_map. eapply Forall_impl; [|exact HV']. intros x Hx. apply packed_bytes; auto.
        * rewrite Forall_map. eapply Forall_impl; [|exact HV]. intros x Hx. apply packed_bytes; auto.
    - destruct (with_roots_bind (fun _ : unit => u) (map (pair tt) l) (map (pair tt) l')) as [E|(a & x & y & I1 & I2 & C)].
      + intros a x y _. apply IH.
      + rewrite !map_map. cbn [fst]. apply (f_equal (@length _)) in HE. rewrite !map_length in HE.
        clear -HE. revert l' HE. induction l as [|x l IH]; intros [|y l'] HE; try discriminate HE; cbn; [reflexivity|].
        f_equal. apply IH. now injection HE.
      + rewrite Forall_map. exact HV.
      + rewrite Forall_map. exact HV'.
      + rewrite !map_map. exact HE.
      + left. apply (f_equal (map snd)) in E. rewrite !map_map, !map_id in E. exact E.
      + right. split; [reflexivity|]. exists x, y. apply in_map_iff in I1 as (? & [= _ <-] & I1). apply in_map_iff in I2 as (? & [= _ <-] & I2).
        auto.
  Qed.

  Lemma with_basic_binds t : spec_basic t = true -> with_binds t.
  Proof.
    intros HB v w HV HW HE. left. apply (basic_bytes_inj t); auto.
    pose proof (basic_size t HB) as HS.
    pose proof (basic_bytes_blen t v HV HB) as Bv. pose proof (basic_bytes_blen t w HW HB) as Bw.
    apply spec_pack_inj; [congruence|]. rewrite (single_chunk H Hlen (basic_bytes t v)), (single_chunk H Hlen (basic_bytes t w)) by lia.
    f_equal. clear HS Bv Bw. revert v w HV HW HE.
    induction t; try discriminate HB; intros v w' HV HW HE;
      destruct v; try contradiction; destruct w'; try contradiction; try exact HE.
    exact (IHt HB v w' HV HW HE).
  Qed.

  Lemma with_child_collides t v w u x y : In (u, x) (rooted_children packed t v) -> In (u, y) (rooted_children packed t w) ->
    collides (hashed_with packed H u x) (hashed_with packed H u y) -> collides (hashed_with packed H t v) (hashed_with packed H t w).
  Proof. clear Hlen. intros I1 I2. apply collides_weaken; intros z Hz; eapply with_hashed_child; eauto. Qed.

  Lemma with_root_binds t : sized t = true -> legal t = true -> no_transparent t = true -> with_binds t.
  Proof.
    induction t using ty_ind'; intros HS HL HN; try (apply with_basic_binds; reflexivity).
    all: intros v w' HV HW HE; destruct v; no_shape; destruct w'; no_shape.
    - (* Node *) left. f_equal. cbn [root_with] in HE. unfold basic_bytes in HE. cbn [spec_serialize] in HE.
      rewrite !spec_pack_32 in HE by assumption. exact HE.
    - (* Vector *) destruct (with_own_binds _ _ _ HS HL HV HW) as [[_ HC]|HC]; [tauto|exact HE| |right; apply with_own_collides, HC].
      destruct HV as [Lv Vv], HW as [Lw Vw]. cbn [chunks_with] in HC.
      cbn [legal] in HL. rewrite !andb_true_iff in HL. cbn [sized] in HS. fold (small t) in HS. rewrite !andb_true_iff in HS. cbn [no_transparent] in HN.
      rewrite !with_seq_chunks_blen in HC by tauto. specialize (HC ltac:(congruence)).
      destruct (with_seq_binds t l l0) as [->|(EP & x & y & I1 & I2 & C)]; auto; try tauto; [congruence|].
      right. eapply with_child_collides; [| |exact C]; cbn [rooted_children children]; rewrite EP; apply in_map; assumption.
    - (* Array *) destruct (with_own_binds _ _ _ HS HL HV HW) as [[_ HC]|HC]; [tauto|exact HE| |right; apply with_own_collides, HC].
      destruct HV as [Lv Vv], HW as [Lw Vw]. cbn [chunks_with] in HC.
      cbn [legal] in HL. rewrite !andb_true_iff in HL. cbn [sized] in HS. fold (small t) in HS. rewrite !andb_true_iff in HS. cbn [no_transparent] in HN.
      rewrite !with_seq_chunks_blen in HC by tauto. specialize (HC ltac:(congruence)).
      destruct (with_seq_binds t l l0) as [->|(EP & x & y & I1 & I2 & C)]; auto; try tauto; [congruence|].
      right. eapply with_child_collides; [| |exact C]; cbn [rooted_children children]; rewrite EP; apply in_map; assumption.
    - (* List *) destruct (with_own_binds _ _ _ HS HL HV HW) as [[HD HC]|HC];
        [cbn; split; discriminate|exact HE| |right; apply with_own_collides, HC].
      cbn [spec_decoration] in HD. assert (HD' : blen l = blen l0) by congruence.
      destruct HV as [Lv Vv], HW as [Lw Vw]. cbn [chunks_with] in HC.
      cbn [legal] in HL. rewrite !andb_true_iff in HL. cbn [sized] in HS. fold (small t) in HS. rewrite !andb_true_iff in HS. cbn [no_transparent] in HN.
      rewrite !with_seq_chunks_blen in HC by tauto. specialize (HC ltac:(congruence)).
      destruct (with_seq_binds t l l0) as [->|(EP & x & y & I1 & I2 & C)]; auto; try tauto.
      right. eapply with_child_collides; [| |exact C]; cbn [rooted_children children]; rewrite EP; apply in_map; assumption.
    - (* Bitvector *) destruct (with_own_binds _ _ _ HS HL HV HW) as [[_ HC]|HC]; [tauto|exact HE| |right; apply with_own_collides, HC].
      destruct HV as (Ov & Lv & Cv), HW as (Ow & Lw & Cw). cbn [chunks_with] in HC.
      rewrite !bits_pack_blen in HC. specialize (HC ltac:(congruence)).
      left. f_equal. eapply bits_bind; eauto.
    - (* Bitlist *) destruct (with_own_binds _ _ _ HS HL HV HW) as [[HD HC]|HC];
        [cbn; split; discriminate|exact HE| |right; apply with_own_collides, HC].
      cbn [spec_decoration] in HD. assert (HD' : bv_len b = bv_len b0) by congruence.
      destruct HV as (Ov & Lv & Cv), HW as (Ow & Lw & Cw). cbn [chunks_with] in HC.
      rewrite !bits_pack_blen in HC. specialize (HC ltac:(congruence)).
      left. f_equal. eapply bits_bind; eauto.
    - (* Container *) destruct (with_own_binds _ _ _ HS HL HV HW) as [[_ HC]|HC]; [tauto|exact HE| |right; apply with_own_collides, HC].
      apply valid_fields in HV as [Lv Vv]. apply valid_fields in HW as [Lw Vw].
      cbn [chunks_with] in HC. rewrite !blen_map in HC. unfold blen in HC.
      rewrite !combine_length in HC. specialize (HC ltac:(lia)).
      cbn [legal] in HL. rewrite !andb_true_iff in HL. cbn [no_transparent] in HN.
      destruct HL as [_ HL]. cbn [sized] in HS. rewrite !andb_true_iff in HS. destruct HS as [_ HS]. rewrite forallb_forall in HS, HL, HN. rewrite Forall_forall in H0.
      destruct (with_roots_bind (fun f : String.string * ty => snd f) (combine fs l) (combine fs l0))
        as [E|(a & x & y & I1 & I2 & C)]; auto.
      + intros a x y Ia. apply H0; [exact (in_combine_l _ _ _ _ Ia)|apply HS, (in_combine_l _ _ _ _ Ia)|apply HL, (in_combine_l _ _ _ _ Ia)|apply HN, (in_combine_l _ _ _ _ Ia)].
      + rewrite !combine_fst by assumption. reflexivity.
      + left. f_equal. apply (f_equal (map snd)) in E. rewrite !combine_snd in E by assumption. exact E.
      + right. eapply with_child_collides; [| |exact C]; cbn [rooted_children children]; rewrite combine_map_l; apply in_map_iff.
        * exists (a, x). auto.
        * exists (a, y). auto.
    - (* Newtype *) destruct (IHt HS HL HN v w' HV HW HE) as [->|C]; [now left|].
      right. eapply with_child_collides; [| |exact C]; now left.
    - (* Option *) now left.
    - destruct (with_own_binds _ _ _ HS HL HV HW) as [[HD HC]|HC];
        [cbn; split; discriminate|exact HE|discriminate HD|right; apply with_own_collides, HC].
    - destruct (with_own_binds _ _ _ HS HL HV HW) as [[HD HC]|HC];
        [cbn; split; discriminate|exact HE|discriminate HD|right; apply with_own_collides, HC].
    - destruct (with_own_binds _ _ _ HS HL HV HW) as [[HD HC]|HC];
        [cbn; split; discriminate|exact HE| |right; apply with_own_collides, HC].
      cbn [chunks_with] in HC. specialize (HC eq_refl). injection HC as HC.
      destruct (IHt HS HL HN v w' HV HW HC) as [->|C]; [now left|].
      right. eapply with_child_collides; [| |exact C]; now left.
    - (* Union *) now left.
    - destruct (with_own_binds _ _ _ HS HL HV HW) as [[HD HC]|HC];
        [cbn; split; discriminate|exact HE| |right; apply with_own_collides, HC].
      cbn [spec_decoration] in HD. injection HD as <-.
      apply valid_unit in HV as (r & ->). apply valid_variant in HW as (u & E & _). discriminate E.
    - destruct (with_own_binds _ _ _ HS HL HV HW) as [[HD HC]|HC];
        [cbn; split; discriminate|exact HE| |right; apply with_own_collides, HC].
      cbn [spec_decoration] in HD. injection HD as ->.
      apply valid_unit in HW as (r & ->). apply valid_variant in HV as (u & E & _). discriminate E.
    - destruct (with_own_binds _ _ _ HS HL HV HW) as [[HD HC]|HC];
        [cbn; split; discriminate|exact HE| |right; apply with_own_collides, HC].
      cbn [spec_decoration] in HD. injection HD as <-.
      apply valid_variant in HV as (u & E & Vv). apply valid_variant in HW as (u' & E' & Vw).
      rewrite E in E'. injection E' as <-. cbn [chunks_with] in HC. rewrite E in HC. specialize (HC eq_refl). injection HC as HC.
      pose proof (nth_error_In _ _ E) as HI.
      cbn [legal] in HL. rewrite andb_true_iff in HL. destruct HL as [_ HL]. cbn [no_transparent] in HN.
      cbn [sized] in HS. rewrite forallb_forall in HS, HL, HN. rewrite Forall_forall in H0.
      destruct (H0 _ HI (HS _ HI) (HL _ HI) (HN _ HI) v w' Vv Vw HC) as [->|C]; [now left|].
      right. eapply with_child_collides; [| |exact C]; cbn [rooted_children children]; rewrite E; now left.
    - discriminate HN.
  Qed.
End Bind.
