(** hash_tree_root against the specification. *)
From Coq Require Import String List NArith ZArith Bool Lia ZifyBool ZifyNat ZifyN.
From Coq Require Import Strings.Byte.
From Verif Require Import Prelude Types Bitvec Ser De Impls Merkleize Proofs MerkImpls Valid SpecSer SpecMerkle
  Lib BitsLib SerProof SerSpec RoundTrip ChunkLib MerkProof TreeProof.
Import ListNotations.
Open Scope N_scope.
Ltac Zify.zify_post_hook ::= Z.div_mod_to_equations.

(** ** Shapes of valid values *)

Lemma valid_variant vs i x : valid (TUnion vs) (VVariant i x) ->
  exists u, nth_error vs (N.to_nat i) = Some (Some u) /\ valid u x.
Proof.
  intros HV. cbn [valid] in HV. destruct (nth_error vs (N.to_nat i)) as [[u|]|] eqn:E.
  - exists u. split; [reflexivity|]. destruct vs as [|[|] ?]; rewrite nth_error_map, E in HV; exact HV.
  - destruct vs as [|[|] ?]; rewrite nth_error_map, E in HV; contradiction.
  - destruct vs as [|[|] ?]; rewrite nth_error_map, E in HV; contradiction.
Qed.

Lemma valid_unit vs : valid (TUnion vs) VNone -> exists r, vs = None :: r.
Proof. destruct vs as [|[|] r]; try contradiction. eauto. Qed.

Lemma valid_payload ts i x : valid (TTransparent ts) (VVariant i x) ->
  exists u, nth_error ts (N.to_nat i) = Some u /\ valid u x.
Proof.
  intros HV. cbn [valid] in HV. rewrite nth_error_map in HV.
  destruct (nth_error ts (N.to_nat i)) as [u|]; [|contradiction]. exists u. auto.
Qed.

Lemma valid_fields fs l : valid (TContainer fs) (VStruct l) ->
  length fs = length l /\ Forall (fun fx => valid (snd (fst fx)) (snd fx)) (combine fs l).
Proof. intros HV. apply (Forall2_preds_combine fs (fun f => valid (snd f))) in HV. exact HV. Qed.

Ltac no_shape :=
  try contradiction;
  try (match goal with HV : valid (TUnion ?vs) _ |- _ => destruct vs as [|[|] ?]; contradiction end).

(** ** Packing *)

Lemma map_nth_seq (b : bytes) n :
  map (fun k => nth k b x00) (seq 0 n) = firstn n b ++ zeros (n - length b).
Proof.
  revert b; induction n as [|n IH]; intros b; [reflexivity|].
  cbn [seq map]. rewrite <- seq_shift, map_map. destruct b as [|x b].
  - specialize (IH []). rewrite firstn_nil in *. cbn [app length] in *. rewrite PeanoNat.Nat.sub_0_r in *.
    cbn [nth zeros repeat]. change (repeat zero_byte n) with (zeros n). rewrite <- IH. f_equal.
    apply map_ext. intros k. destruct k; reflexivity.
  - cbn [nth firstn length app]. f_equal. apply IH.
Qed.

Lemma spec_pack_step b : (32 <= length b)%nat ->
  spec_pack b = firstn 32 b :: spec_pack (skipn 32 b).
Proof.
  intros Hb. unfold spec_pack. rewrite skipn_length.
  replace (Nat.div (length b + 31) 32) with (S (Nat.div (length b - 32 + 31) 32)).
  2:{ replace (length b + 31)%nat with ((length b - 32 + 31) + 1 * 32)%nat by lia.
      rewrite PeanoNat.Nat.div_add by lia. lia. }
  set (n := Nat.div _ _). change (seq 0 (S n)) with (0%nat :: seq 1 n). cbn [map]. f_equal.
  - change (map (fun k => nth k b x00) (seq 0 32) = firstn 32 b). rewrite map_nth_seq.
    replace (32 - length b)%nat with 0%nat by lia. apply app_nil_r.
  - rewrite <- seq_shift, map_map. apply map_ext. intros j. apply map_ext. intros k.
    rewrite nth_skipn'. f_equal. lia.
Qed.

Lemma spec_pack_nil : spec_pack [] = [].
Proof. reflexivity. Qed.

Lemma spec_pack_last b : (0 < length b)%nat -> (length b < 32)%nat ->
  spec_pack b = [b ++ zeros (32 - length b)].
Proof.
  intros H1 H2. unfold spec_pack.
  replace (Nat.div (length b + 31) 32) with 1%nat.
  2:{ apply PeanoNat.Nat.div_unique with (r := (length b - 1)%nat); lia. }
  change (seq 0 1) with [0%nat]. cbn [map]. f_equal.
  change (map (fun k => nth k b x00) (seq 0 32) = b ++ zeros (32 - length b)).
  rewrite map_nth_seq. rewrite firstn_all2 by lia. reflexivity.
Qed.

Lemma pack_ind (P : bytes -> Prop) :
  P [] -> (forall b, (0 < length b)%nat -> (length b < 32)%nat -> P b) ->
  (forall b, (32 <= length b)%nat -> P (skipn 32 b) -> P b) -> forall b, P b.
Proof.
  intros H0 H1 H2 b. remember (length b) as n eqn:Hn. revert b Hn.
  induction n as [n IH] using (well_founded_induction Wf_nat.lt_wf). intros b Hn.
  destruct (Nat.ltb_spec (length b) 32).
  - destruct b as [|x b]; [exact H0|]. apply H1; [cbn; lia|auto].
  - apply H2; [lia|]. apply (IH (length b - 32)%nat); [lia|]. rewrite skipn_length. reflexivity.
Qed.

Lemma spec_pack_all32 b : all32 (spec_pack b).
Proof.
  apply Forall_forall. intros x Hx. unfold spec_pack in Hx. apply in_map_iff in Hx as (j & <- & _).
  unfold blen. rewrite map_length, seq_length. reflexivity.
Qed.

Lemma spec_pack_blen b : blen (spec_pack b) = (blen b + 31) / 32.
Proof.
  unfold blen, spec_pack. rewrite map_length, seq_length.
  rewrite Nnat.Nat2N.inj_div. rewrite Nnat.Nat2N.inj_add. reflexivity.
Qed.

Lemma pack_bytes_concat b : pack_bytes b = concat (spec_pack b).
Proof.
  unfold pack_bytes. change BYTES_PER_CHUNK with 32. induction b as [|b H1 H2|b H1 IH] using pack_ind.
  - reflexivity.
  - rewrite spec_pack_last by auto. cbn [concat]. rewrite app_nil_r.
    assert (E : blen b mod 32 = blen b) by (apply N.mod_small; unfold blen; lia). rewrite E.
    replace (blen b =? 0) with false by (unfold blen; lia). cbn [negb]. do 2 f_equal. unfold blen. lia.
  - rewrite spec_pack_step by auto. cbn [concat]. rewrite <- IH. clear IH.
    assert (E : blen (skipn 32 b) mod 32 = blen b mod 32).
    { unfold blen. rewrite skipn_length. lia. }
    rewrite E. destruct (negb _).
    + rewrite app_assoc. rewrite firstn_skipn. reflexivity.
    + rewrite firstn_skipn. reflexivity.
Qed.

Lemma spec_pack_32 b : blen b = 32 -> spec_pack b = [b].
Proof.
  intros Hb. unfold blen in Hb. rewrite spec_pack_step by lia.
  rewrite firstn_all2, skipn_all2 by lia. reflexivity.
Qed.

Lemma spec_pack_concat32 l : all32 l -> spec_pack (concat l) = l.
Proof.
  induction 1 as [|c l Hc _ IH]; [reflexivity|]. cbn [concat]. unfold blen in Hc.
  rewrite spec_pack_step by (rewrite app_length; lia).
  rewrite firstn_app, skipn_app. replace (32 - length c)%nat with 0%nat by lia.
  rewrite firstn_all2, skipn_all2 by lia. cbn [firstn skipn app]. rewrite app_nil_r, IH. reflexivity.
Qed.

Lemma le_bytes_zero n : le_bytes n 0 = zeros n.
Proof. induction n as [|n IH]; [reflexivity|]. cbn [le_bytes]. change (0 / 256) with 0. rewrite IH. reflexivity. Qed.

Lemma le_bytes_pad a b n : n < 256 ^ N.of_nat a -> le_bytes (a + b) n = le_bytes a n ++ zeros b.
Proof.
  revert n; induction a as [|a IH]; intros n Hn.
  - cbn in Hn. replace n with 0 by lia. apply le_bytes_zero.
  - cbn [Nat.add le_bytes app]. f_equal. apply IH. rewrite pow256_succ in Hn.
    apply N.div_lt_upper_bound; lia.
Qed.

Lemma num_chunk_blen n : blen (num_chunk n) = 32.
Proof. unfold num_chunk. rewrite spec_uint_blen. reflexivity. Qed.

Lemma usize_root n : n < 2 ^ 64 -> usize_hash_tree_root n = Ok (num_chunk n).
Proof.
  intros Hn. unfold usize_hash_tree_root, uint_chunks. cbn [uint_impl serialize uint_serialize ser_to_merkle bind].
  rewrite app_nil_l. change (N.to_nat 8) with 8%nat. rewrite pack_bytes_concat.
  rewrite spec_pack_last by (rewrite le_bytes_length; lia). rewrite le_bytes_length.
  cbn [concat]. rewrite app_nil_r. change (32 - 8)%nat with 24%nat.
  rewrite <- le_bytes_pad by (change (256 ^ N.of_nat 8) with (2 ^ 64); auto).
  unfold to_node. rewrite blen_le_bytes. change (N.of_nat (8 + 24) =? BYTES_PER_CHUNK) with true.
  unfold num_chunk. rewrite spec_uint_le_bytes. reflexivity.
Qed.

(** ** Fields of the trait records *)

Section Fields.
  Context (H : bytes -> bytes) (CONTEXT : bytes) (oc : bool).
  Notation S_ := (simple_serialize H CONTEXT oc).

  Lemma ser_simple t : ser (S_ t) = serializable oc t.
  Proof.
    induction t using ty_ind'; cbn [simple_serialize serializable]; try reflexivity;
      cbn [vector_m array_m list_m container_m newtype_m option_m union_m transparent_m ser];
      rewrite ?IHt; try reflexivity.
    - f_equal. rewrite !map_map. cbn [snd]. apply map_ext_Forall. exact H0.
    - f_equal. rewrite map_map. apply map_ext_Forall. eapply Forall_impl; [|exact H0].
      intros [u|]; cbn; [intros ->|]; reflexivity.
    - f_equal. rewrite map_map. apply map_ext_Forall. exact H0.
  Qed.

  Lemma composite_simple t : is_composite_type (S_ t) = negb (packed t).
  Proof. induction t using ty_ind'; cbn; auto. Qed.

  Lemma item_length_simple t : regular_element t = true -> item_length (S_ t) = spec_item_length t.
  Proof.
    intros HR. unfold spec_item_length. destruct t; try reflexivity.
    - destruct w; reflexivity.
    - cbn [spec_basic]. unfold regular_element in HR. cbn [spec_basic packed fixed_size] in HR |- *.
      destruct (spec_basic t); [|reflexivity]. cbn [Bool.eqb orb] in HR. cbn [simple_serialize newtype_m item_length].
      unfold default_item_length, BYTES_PER_CHUNK. lia.
  Qed.
End Fields.

(** ** Elements *)

Lemma basic_fixed t : spec_basic t = true -> spec_variable t = false.
Proof. induction t; cbn; auto; discriminate. Qed.

Lemma packed_fixed t : packed t = true -> spec_variable t = false.
Proof. induction t; cbn; auto; discriminate. Qed.

(** Small fixed-size values have an encoding. *)
Lemma basic_serialize t : forall v, valid t v -> spec_basic t = true ->
  exists b, spec_serialize t v = Some b.
Proof.
  induction t using ty_ind'; intros v HV HB; cbn [spec_basic] in HB; try discriminate;
    destruct v; try contradiction; cbn [spec_serialize]; eauto.
Qed.

Lemma basic_bytes_blen t v : valid t v -> spec_basic t = true -> blen (basic_bytes t v) = fixed_size t.
Proof.
  intros HV HB. destruct (basic_serialize t v HV HB) as [b Hb]. unfold basic_bytes. rewrite Hb.
  apply (spec_serialize_fixed t v); auto. apply basic_fixed; auto.
Qed.

Lemma basic_size t : spec_basic t = true -> 1 <= fixed_size t <= 32.
Proof.
  induction t using ty_ind'; cbn [spec_basic fixed_size]; intros HB; try discriminate; auto; try lia.
  destruct w; lia.
Qed.

Lemma concat_same_blen {A} n (l : list (list A)) :
  Forall (fun c => blen c = n) l -> blen (concat l) = blen l * n.
Proof. induction 1 as [|c l Hc _ IH]; [reflexivity|]. cbn [concat]. rewrite blen_app, blen_cons. lia. Qed.

(** A sequence of fixed-size elements with encodings, of less than 2^32 bytes. *)
Lemma seq_serialize_concat u l :
  spec_variable u = false -> Forall (fun v => exists b, spec_serialize u v = Some b /\ blen b = fixed_size u) l ->
  blen l * fixed_size u < 2 ^ 32 ->
  match sequence (map (fun x => flag (spec_variable u) (spec_serialize u x)) l) with
  | Some es => spec_compose es
  | None => None
  end = Some (concat (map (basic_bytes u) l)).
Proof.
  intros HF HA HS. rewrite HF.
  assert (E : sequence (map (fun x => flag false (spec_serialize u x)) l) =
              Some (map (pair false) (map (basic_bytes u) l))).
  { apply sequence_some. clear HS. induction HA as [|v l (b & Hb & _) _ IH]; cbn [map]; constructor; auto.
    unfold basic_bytes. rewrite Hb. reflexivity. }
  rewrite E. apply compose_fixed. split; [reflexivity|].
  rewrite (concat_same_blen (fixed_size u)).
  - rewrite blen_map. exact HS.
  - clear - HA. induction HA as [|v l (b & Hb & HL) _ IH]; cbn [map]; constructor; auto.
    unfold basic_bytes. rewrite Hb. exact HL.
Qed.

Section Spec.
  Context (H : bytes -> bytes) (Hlen : forall x, blen (H x) = 32).

  Lemma spec_merkleize_blen d cs : all32 cs -> blen (spec_merkleize H d cs) = 32.
  Proof. intros. apply subtree_blen; auto. intros. apply chunk_at_blen; auto. Qed.

  Lemma spec_merkleize_1 c : spec_merkleize H (tree_depth 1) [c] = c.
  Proof. reflexivity. Qed.

  Notation seq_chunks := (seq_chunks H).

  Lemma spec_root_blen t : forall v, valid t v -> blen (spec_root H t v) = 32.
  Proof.
    assert (HSeq : forall u l, (forall v, valid u v -> blen (spec_root H u v) = 32) -> Forall (valid u) l ->
              all32 (if spec_basic u then spec_pack (concat (map (basic_bytes u) l)) else map (spec_root H u) l)).
    { intros u l IH HV. destruct (spec_basic u); [apply spec_pack_all32|].
      unfold all32. induction HV; cbn [map]; constructor; auto. }
    assert (HChunk : forall b, blen (chunk_at (spec_pack b) 0) = 32)
      by (intros; apply chunk_at_blen, spec_pack_all32).
    induction t using ty_ind'; intros v HV; destruct v; try contradiction; cbn [spec_root];
      unfold spec_mix_in; try apply Hlen; try apply HChunk; auto.
    - apply spec_merkleize_blen. apply HSeq; [auto|apply HV].
    - apply spec_merkleize_blen. apply HSeq; [auto|apply HV].
    - apply spec_merkleize_blen. apply spec_pack_all32.
    - apply spec_merkleize_blen.
      apply valid_fields in HV as [_ HV].
      rewrite combine_map_l, map_map. cbn [fst snd]. unfold all32. rewrite Forall_map. cbn [fst snd].
      rewrite Forall_forall in *. intros [f x] Hfx. cbn [fst snd]. apply H0.
      + apply in_combine_l in Hfx. auto.
      + apply (HV (f, x)); auto.
    - apply valid_variant in HV as (u & E & HV). rewrite nth_error_map, E. cbn [option_map]. apply Hlen.
    - apply valid_payload in HV as (u & E & HV). rewrite nth_error_map, E. cbn [option_map].
      rewrite Forall_forall in H0. apply (H0 u); auto. eapply nth_error_In; eauto.
  Qed.

  Lemma seq_chunks_all32 u l : Forall (valid u) l -> all32 (seq_chunks u l).
  Proof.
    intros HV. unfold seq_chunks. destruct (spec_basic u); [apply spec_pack_all32|].
    unfold all32. induction HV; cbn [map]; constructor; auto. apply spec_root_blen; auto.
  Qed.

  Lemma seq_chunks_blen u l : Forall (valid u) l ->
    blen (seq_chunks u l) = (blen l * spec_item_length u + 31) / 32.
  Proof.
    intros HV. unfold seq_chunks, spec_item_length. destruct (spec_basic u) eqn:EB.
    - rewrite spec_pack_blen, (concat_same_blen (fixed_size u)).
      + rewrite blen_map. reflexivity.
      + induction HV; cbn [map]; constructor; auto. apply basic_bytes_blen; auto.
    - rewrite blen_map. lia.
  Qed.

  (** Elements that fill one chunk: their root is their encoding. *)
  Lemma one_chunk_root t : forall v, valid t v -> packed t = true -> fixed_size t = 32 ->
    regular t = true -> spec_serialize t v = Some (spec_root H t v).
  Proof.
    induction t using ty_ind'; intros v HV HP HS HR; cbn [packed] in HP; try discriminate.
    - destruct w; discriminate.
    - destruct v; try contradiction. cbn [spec_root basic_bytes spec_serialize].
      rewrite spec_pack_32 by apply spec_uint_blen. reflexivity.
    - destruct v; try contradiction. cbn [spec_root basic_bytes spec_serialize].
      unfold basic_bytes. cbn [spec_serialize]. rewrite spec_pack_32 by exact HV. reflexivity.
    - destruct v; try contradiction. cbn [valid] in HV. destruct HV as [HL HV].
      cbn [fixed_size regular] in *. rewrite !andb_true_iff in HR. destruct HR as [[HR1 HR2] HR3].
      cbn [spec_serialize spec_root]. fold (seq_chunks t l). unfold regular_element in HR1. rewrite HP in HR1.
      assert (HE : Forall (fun v => exists b, spec_serialize t v = Some b /\ blen b = fixed_size t) l /\
                   seq_chunks t l = [concat (map (basic_bytes t) l)] /\ spec_chunk_count (TArray t n) = 1).
      { destruct (spec_basic t) eqn:EB.
        - split; [|split].
          + eapply Forall_impl; [|exact HV]. intros v Hv. cbn beta in Hv.
            destruct (basic_serialize t v Hv EB) as [b Hb]. exists b. split; [auto|].
            apply (spec_serialize_fixed t v); auto. apply packed_fixed; auto.
          + unfold seq_chunks. rewrite EB. apply spec_pack_32.
            rewrite (concat_same_blen (fixed_size t)).
            * rewrite blen_map. lia.
            * clear - HV EB. induction HV; cbn [map]; constructor; auto. apply basic_bytes_blen; auto.
          + cbn [spec_chunk_count]. unfold spec_item_length. rewrite EB. rewrite HS. reflexivity.
        - cbn [Bool.eqb orb] in HR1. assert (HS1 : fixed_size t = 32) by lia. rewrite HS1 in HS.
          assert (n = 1) as -> by lia.
          destruct l as [|x [|y l]]; [discriminate HL| |unfold blen in HL; cbn [length] in HL; lia].
          assert (Hx : valid t x) by (inversion HV; auto).
          pose proof (IHt x Hx HP HS1 HR2) as G.
          split; [|split].
          + constructor; [|constructor]. exists (spec_root H t x). split; [auto|]. rewrite HS1. apply spec_root_blen; auto.
          + unfold seq_chunks. rewrite EB. cbn [map concat]. unfold basic_bytes. rewrite G, app_nil_r. reflexivity.
          + cbn [spec_chunk_count]. unfold spec_item_length. rewrite EB. reflexivity. }
      destruct HE as (HE1 & HE2 & HE3). rewrite HE3, HE2, spec_merkleize_1.
      apply seq_serialize_concat; [apply packed_fixed; auto|auto|]. rewrite HL, HS. reflexivity.
  Qed.

  Lemma packed_serialize u v : valid u v -> packed u = true -> regular_element u = true -> regular u = true ->
    spec_serialize u v = Some (basic_bytes u v).
  Proof.
    intros HV HP HE HR. unfold regular_element in HE. rewrite HP in HE.
    destruct (spec_basic u) eqn:EB.
    - destruct (basic_serialize u v HV EB) as [b Hb]. unfold basic_bytes. rewrite Hb. reflexivity.
    - cbn [Bool.eqb orb] in HE. unfold basic_bytes. rewrite one_chunk_root; auto. lia.
  Qed.
End Spec.

Lemma div_ceil_32 a : div_ceil a 32 = (a + 31) / 32.
Proof. unfold div_ceil. destruct (N.eqb_spec (a mod 32) 0); lia. Qed.

Lemma bits_chunk_count_eq n : bits_chunk_count n = (n + 255) / 256.
Proof. unfold bits_chunk_count, div_ceil, BITS_PER_CHUNK. destruct (N.eqb_spec (n mod 256) 0); lia. Qed.

Lemma bits_pack_blen b : blen (spec_pack (spec_bits (bv_bits b))) = (bv_len b + 255) / 256.
Proof. rewrite spec_pack_blen, spec_bits_length, blen_bv_bits. unfold bits_bytes. lia. Qed.


Section Root.
  Context (H : bytes -> bytes) (Hlen : forall x, blen (H x) = 32).
  Context (CONTEXT : bytes) (HC : good_context H CONTEXT) (oc : bool).
  Notation S_ := (simple_serialize H CONTEXT oc).

  (** ** Chunks of collections *)

  Lemma fill_chunks_ok (root : val -> mres bytes) l rs : Forall2 (fun x r => root x = Ok r) l rs -> all32 rs ->
    forall i L, all32 L -> i + blen rs <= blen L ->
    fill_chunks root i l (concat L) = Ok (concat (takeN i L ++ rs ++ dropN (i + blen rs) L)).
  Proof.
    induction 1 as [|x r l rs Hx _ IH]; intros HA i L HL Hi.
    - cbn [fill_chunks app]. change (blen (@nil bytes)) with 0. rewrite N.add_0_r, takeN_dropN. reflexivity.
    - inversion HA as [|? ? Hr HA']; subst. cbn [fill_chunks]. rewrite Hx. cbn [bind].
      change BYTES_PER_CHUNK with 32. rewrite blen_cons in Hi. rewrite copy_concat32 by (auto; lia). cbn [bind].
      rewrite IH; [|auto|apply all32_updN; auto|rewrite blen_updN; lia].
      do 2 f_equal. rewrite blen_cons. unfold updN.
      rewrite takeN_app_ge, dropN_app_ge by (rewrite blen_takeN; lia). rewrite blen_takeN.
      replace (i + 1 - N.min i (blen L)) with (0 + 1) by lia.
      replace (i + 1 + blen rs - N.min i (blen L)) with (blen rs + 1) by lia.
      rewrite takeN_succ_cons, dropN_succ_cons, takeN_0, dropN_dropN. rewrite <- app_assoc. cbn [app].
      do 4 f_equal. lia.
  Qed.

  Lemma elements_to_chunks_ok root l rs : Forall2 (fun x r => root x = Ok r) l rs -> all32 rs ->
    elements_to_chunks root l (blen l) = Ok (concat rs).
  Proof.
    intros HF HA. unfold elements_to_chunks. change BYTES_PER_CHUNK with 32. rewrite zeros_chunks.
    assert (HL : blen l = blen rs) by (apply (Forall2_blen _ _ _ HF)).
    rewrite (fill_chunks_ok root l rs); auto.
    - rewrite takeN_0, dropN_all, app_nil_r; [reflexivity|]. rewrite blen_repeat. lia.
    - apply all32_zero.
    - rewrite blen_repeat. lia.
  Qed.

  Lemma pack_ok u l : Forall (fun v => forall buf, exists n,
      serialize (serializable oc u) v buf = (buf ++ basic_bytes u v, Ok n)) l ->
    pack (serializable oc u) l = Ok (concat (spec_pack (concat (map (basic_bytes u) l)))).
  Proof.
    intros HF. unfold pack.
    assert (G : forall buf, foldM (fun buffer value => ser_to_merkle (serialize (serializable oc u) value buffer)) buf l =
                Ok (buf ++ concat (map (basic_bytes u) l))).
    { induction HF as [|v l Hv _ IH]; intros buf; cbn [foldM map concat].
      - rewrite app_nil_r. reflexivity.
      - destruct (Hv buf) as [n ->]. cbn [ser_to_merkle bind]. rewrite IH, app_assoc. reflexivity. }
    rewrite G. cbn [bind app]. rewrite pack_bytes_concat. reflexivity.
  Qed.

  Lemma assemble_chunks_ok u l :
    legal u = true -> regular_element u = true -> regular u = true -> Forall (valid u) l ->
    (forall v, valid u v -> hash_tree_root (S_ u) v = Ok (spec_root H u v)) ->
    assemble_chunks (S_ u) (VSeq l) = Ok (concat (seq_chunks H u l)).
  Proof.
    intros HL HE HR HV IH. unfold assemble_chunks. rewrite composite_simple, ser_simple.
    destruct (packed u) eqn:EP; cbn [negb].
    - rewrite pack_ok.
      + unfold seq_chunks. destruct (spec_basic u) eqn:EB; [reflexivity|].
        rewrite spec_pack_concat32.
        * do 2 f_equal. apply map_ext_Forall. eapply Forall_impl; [|exact HV]. intros v Hv. cbn beta in Hv.
          unfold basic_bytes. rewrite (one_chunk_root H Hlen u); auto.
          unfold regular_element in HE. rewrite EB, EP in HE. cbn [Bool.eqb orb] in HE. lia.
        * unfold all32. rewrite Forall_map. eapply Forall_impl; [|exact HV]. intros v Hv. cbn beta in Hv.
          unfold basic_bytes. rewrite (one_chunk_root H Hlen u); auto; [apply spec_root_blen; auto|].
          unfold regular_element in HE. rewrite EB, EP in HE. cbn [Bool.eqb orb] in HE. lia.
      + eapply Forall_impl; [|exact HV]. intros v Hv buf. cbn beta in Hv.
        pose proof (serialize_spec oc u HL v Hv buf) as G.
        rewrite (packed_serialize H Hlen u v) in G by auto. eauto.
    - rewrite (elements_to_chunks_ok _ l (map (spec_root H u) l)).
      + unfold seq_chunks. destruct (spec_basic u) eqn:EB; [|reflexivity].
        unfold regular_element in HE. rewrite EB, EP in HE. cbn [Bool.eqb orb] in HE.
        assert (HS : fixed_size u = 32) by lia.
        assert (G : forall v, valid u v -> spec_root H u v = basic_bytes u v /\ blen (basic_bytes u v) = 32).
        { clear - EB HS. revert EB HS. induction u using ty_ind'; intros EB HS v HV; cbn [spec_basic] in EB; try discriminate;
            destruct v; try contradiction; try discriminate HS; try (destruct w; discriminate HS).
          - cbn [spec_root]. unfold basic_bytes. cbn [spec_serialize].
            rewrite spec_pack_32 by apply spec_uint_blen. split; [reflexivity|]. apply spec_uint_blen.
          - cbn [spec_root]. unfold basic_bytes. cbn [spec_serialize]. apply IHu; auto. }
        rewrite spec_pack_concat32.
        * do 2 f_equal. apply map_ext_Forall. eapply Forall_impl; [|exact HV]. intros v Hv. apply G; auto.
        * unfold all32. rewrite Forall_map. eapply Forall_impl; [|exact HV]. intros v Hv. apply G; auto.
      + clear - IH HV. induction HV; cbn [map]; constructor; auto.
      + unfold all32. rewrite Forall_map. eapply Forall_impl; [|exact HV]. intros v Hv. apply spec_root_blen; auto.
  Qed.

  Lemma mix_in_ok root n : n < 2 ^ 64 -> mix_in_decoration H root n = Ok (spec_mix_in H root n).
  Proof.
    intros Hn. unfold mix_in_decoration. rewrite usize_root by auto. unfold to_node. rewrite Hlen. reflexivity.
  Qed.

  Notation spec_chunks := (spec_chunks H).

  Definition decorate (root : bytes) (d : option N) : bytes :=
    match d with Some n => spec_mix_in H root n | None => root end.

  Lemma root_of_chunks t : forall v, valid t v ->
    spec_root H t v = decorate (spec_merkleize H (tree_depth (spec_chunk_count t)) (spec_chunks t v))
                               (spec_decoration t v).
  Proof.
    induction t using ty_ind'; intros v HV; destruct v; try contradiction;
      cbn [spec_root spec_chunks spec_decoration decorate spec_chunk_count]; rewrite ?spec_merkleize_1; try reflexivity; auto.
    - rewrite combine_map_l, map_map. reflexivity.
    - apply valid_variant in HV as (u & E & HV). rewrite nth_error_map, E. reflexivity.
    - apply valid_payload in HV as (u & E & HV). rewrite nth_error_map, E. reflexivity.
  Qed.

  (** ** Fields of containers *)

  Lemma fill_fields_ok fl rs : Forall2 (fun (Tv : SimpleSerialize * val) r => hash_tree_root (fst Tv) (snd Tv) = Ok r) fl rs ->
    all32 rs -> forall i L, all32 L -> i + blen rs <= blen L ->
    fill_fields i fl (concat L) = Ok (concat (takeN i L ++ rs ++ dropN (i + blen rs) L)).
  Proof.
    induction 1 as [|[T x] r l rs Hx _ IH]; intros HA i L HL Hi.
    - cbn [fill_fields app]. change (blen (@nil bytes)) with 0. rewrite N.add_0_r, takeN_dropN. reflexivity.
    - inversion HA as [|? ? Hr HA']; subst. cbn [fill_fields fst snd] in *. rewrite Hx. cbn [bind].
      change BYTES_PER_CHUNK with 32. rewrite blen_cons in Hi. rewrite copy_concat32 by (auto; lia). cbn [bind].
      rewrite IH; [|auto|apply all32_updN; auto|rewrite blen_updN; lia].
      do 2 f_equal. rewrite blen_cons. unfold updN.
      rewrite takeN_app_ge, dropN_app_ge by (rewrite blen_takeN; lia). rewrite blen_takeN.
      replace (i + 1 - N.min i (blen L)) with (0 + 1) by lia.
      replace (i + 1 + blen rs - N.min i (blen L)) with (blen rs + 1) by lia.
      rewrite takeN_succ_cons, dropN_succ_cons, takeN_0, dropN_dropN. rewrite <- app_assoc. cbn [app].
      do 4 f_equal. lia.
  Qed.

  Lemma fill_fields_all fl rs n : Forall2 (fun (Tv : SimpleSerialize * val) r => hash_tree_root (fst Tv) (snd Tv) = Ok r) fl rs ->
    all32 rs -> n = blen rs -> fill_fields 0 fl (zeros (N.to_nat (n * 32))) = Ok (concat rs).
  Proof.
    intros HF HA ->. rewrite zeros_chunks. rewrite (fill_fields_ok fl rs); auto.
    - rewrite takeN_0, dropN_all, app_nil_r; [reflexivity|]. rewrite blen_repeat. lia.
    - apply all32_zero.
    - rewrite blen_repeat. lia.
  Qed.

  Lemma single_chunk b : 0 < blen b -> blen b <= 32 -> spec_pack b = [chunk_at (spec_pack b) 0].
  Proof.
    intros H1 H2. destruct (N.eq_dec (blen b) 32) as [E|E].
    - rewrite spec_pack_32 by auto. reflexivity.
    - rewrite spec_pack_last by (unfold blen in *; lia). reflexivity.
  Qed.

  Lemma to_node_ok {E} b : blen b = 32 -> @to_node E b = Ok b.
  Proof. intros Hb. unfold to_node. change BYTES_PER_CHUNK with 32. rewrite Hb. reflexivity. Qed.

  Lemma uint_chunks_ok size n :
    0 < size -> size <= 32 -> uint_chunks size n = Ok (chunk_at (spec_pack (spec_uint (N.to_nat size) n)) 0).
  Proof.
    intros H1 H2. unfold uint_chunks. cbn [uint_impl serialize uint_serialize ser_to_merkle bind].
    rewrite app_nil_l, pack_bytes_concat, spec_uint_le_bytes.
    rewrite single_chunk at 1 by (rewrite blen_le_bytes; lia). cbn [concat]. rewrite app_nil_r. reflexivity.
  Qed.

  Definition computes (t : ty) (v : val) : Prop :=
    hash_tree_root (S_ t) v = Ok (spec_root H t v) /\ chunks (S_ t) v = Ok (concat (spec_chunks t v)).

  (** Every root is the tree over the chunks; the decoration of a transparent enum is not mixed in. *)
  Lemma vector_computes u n l :
    legal u = true -> regular_element u = true -> regular u = true ->
    (n * spec_item_length u + 31) / 32 <= 2 ^ 63 ->
    (forall v, valid u v -> hash_tree_root (S_ u) v = Ok (spec_root H u v)) ->
    blen l = n -> Forall (valid u) l ->
    vector_hash_tree_root H CONTEXT oc (S_ u) (VSeq l) =
    Ok (spec_merkleize H (tree_depth ((n * spec_item_length u + 31) / 32)) (seq_chunks H u l)).
  Proof.
    intros HL HE HR HS IH <- HV. unfold vector_hash_tree_root. rewrite assemble_chunks_ok by auto. cbn [bind].
    rewrite merkleize_none; auto.
    - rewrite seq_chunks_blen by auto. reflexivity.
    - apply seq_chunks_all32; auto.
    - rewrite seq_chunks_blen by auto. exact HS.
  Qed.

  Lemma hash_tree_root_ok t : legal t = true -> regular t = true -> forall v, valid t v -> computes t v.
  Proof.
    induction t using ty_ind'; intros HL HR v HV; destruct v; no_shape; unfold computes;
      cbn [simple_serialize spec_chunks]; cbn [concat]; rewrite ?app_nil_r.
    - destruct b; split; reflexivity.
    - assert (HW : 0 < bits_to_bytes (uint_bits w) /\ bits_to_bytes (uint_bits w) <= 32 /\
                   N.to_nat (bits_to_bytes (uint_bits w)) = spec_uint_size w) by (destruct w; cbn; lia).
      destruct HW as (W1 & W2 & W3).
      cbn [uint_m hash_tree_root chunks uint_chunks_v]. rewrite uint_chunks_ok by auto. rewrite W3.
      cbn [bind spec_root]. unfold basic_bytes. cbn [spec_serialize].
      rewrite to_node_ok by apply chunk_at_blen, spec_pack_all32. auto.
    - cbn [u256_m hash_tree_root chunks u256_chunks bind spec_root]. unfold basic_bytes. cbn [spec_serialize].
      rewrite spec_pack_32 by apply spec_uint_blen. rewrite spec_uint_le_bytes.
      rewrite to_node_ok by apply blen_le_bytes. auto.
    - cbn [node_m hash_tree_root chunks node_chunks bind spec_root]. unfold basic_bytes. cbn [spec_serialize].
      rewrite spec_pack_32 by exact HV. rewrite to_node_ok by exact HV. auto.
    - cbn [regular spec_chunk_count] in HR. rewrite !andb_true_iff in HR. destruct HR as [[R1 R2] R3].
      cbn [legal] in HL. rewrite !andb_true_iff in HL. destruct HL as [_ HL]. destruct HV as [HV1 HV2].
      assert (IH : forall v, valid t v -> hash_tree_root (S_ t) v = Ok (spec_root H t v))
        by (intros; apply IHt; auto).
      split.
      + cbn [vector_m hash_tree_root spec_root spec_chunk_count]. apply vector_computes; auto. lia.
      + cbn [vector_m chunks]. apply assemble_chunks_ok; auto.
    - cbn [regular spec_chunk_count] in HR. rewrite !andb_true_iff in HR. destruct HR as [[R1 R2] R3].
      cbn [legal] in HL. rewrite !andb_true_iff in HL. destruct HL as [_ HL]. destruct HV as [HV1 HV2].
      assert (IH : forall v, valid t v -> hash_tree_root (S_ t) v = Ok (spec_root H t v))
        by (intros; apply IHt; auto).
      split.
      + cbn [array_m hash_tree_root spec_root spec_chunk_count]. apply vector_computes; auto. lia.
      + cbn [array_m chunks]. apply assemble_chunks_ok; auto.
    - cbn [regular] in HR. rewrite !andb_true_iff in HR. destruct HR as [[R1 R2] R3].
      cbn [legal] in HL. rewrite !andb_true_iff in HL. destruct HL as [HL1 HL]. destruct HV as [HV1 HV2].
      assert (IH : forall v, valid t v -> hash_tree_root (S_ t) v = Ok (spec_root H t v))
        by (intros; apply IHt; auto).
      split; [|apply assemble_chunks_ok; auto].
      cbn [list_m hash_tree_root list_hash_tree_root spec_root spec_chunk_count]. rewrite assemble_chunks_ok by auto.
      cbn [bind]. rewrite composite_simple.
      assert (HA : all32 (seq_chunks H t l)) by (apply seq_chunks_all32; auto).
      pose proof (seq_chunks_blen H t l HV2) as HB.
      fold (seq_chunks H t l). unfold mix_in_length.
      assert (HI : forall limit, limit = (n * spec_item_length t + 31) / 32 -> limit <= 2 ^ 63 ->
          merkleize H CONTEXT oc (concat (seq_chunks H t l)) (Some limit) =
          Ok (spec_merkleize H (tree_depth ((n * spec_item_length t + 31) / 32)) (seq_chunks H t l))).
      { intros limit -> Hlim.
        assert (G : blen (seq_chunks H t l) <= (n * spec_item_length t + 31) / 32).
        { rewrite HB. apply N.div_le_mono; [lia|]. apply N.add_le_mono_r. apply N.mul_le_mono_r. exact HV1. }
        rewrite merkleize_some by (auto; lia). replace (_ <? _) with false by lia. reflexivity. }
      unfold regular_element in R1. destruct (packed t) eqn:EP; cbn [negb].
      + unfold list_inherent_chunk_count. rewrite ser_simple, size_hint_spec.
        rewrite umul_ok by (unfold USIZE; lia). cbn [bind]. change BYTES_PER_CHUNK with 32.
        assert (E : n * fixed_size t = n * spec_item_length t).
        { unfold spec_item_length. destruct (spec_basic t); [reflexivity|]. cbn [Bool.eqb orb] in R1. f_equal. lia. }
        rewrite div_ceil_32, E. rewrite HI; [|reflexivity|change (2 ^ 64) with 18446744073709551616 in R3; change (2 ^ 63) with 9223372036854775808; lia].
        cbn [bind]. apply mix_in_ok. lia.
      + assert (E : spec_item_length t = 32).
        { unfold spec_item_length. destruct (spec_basic t); [|reflexivity]. cbn [Bool.eqb orb] in R1. lia. }
        rewrite HI by lia. cbn [bind]. apply mix_in_ok. lia.
    - cbn [legal] in HL. rewrite !andb_true_iff in HL. destruct HV as (HV1 & HV2 & HV3).
      assert (HP : bitvector_pack_bits n (VBits b) = Ok (concat (spec_pack (spec_bits (bv_bits b))))).
      { unfold bitvector_pack_bits, bitvector_serialize. replace (n =? 0) with false by lia.
        cbn [ser_to_merkle bind]. rewrite app_nil_l, pack_bytes_concat, bv_load_chunks_spec. reflexivity. }
      split; [|exact HP]. cbn [bitvector_m hash_tree_root spec_root spec_chunk_count]. rewrite HP. cbn [bind].
      pose proof (bits_pack_blen b) as HB. rewrite HV2 in HB. rewrite bits_chunk_count_eq.
      rewrite merkleize_some; auto; [|apply spec_pack_all32|change (2^63) with 9223372036854775808; lia|change (2^63) with 9223372036854775808; lia].
      rewrite HB. rewrite N.ltb_irrefl. reflexivity.
    - cbn [legal] in HL. destruct HV as (HV1 & HV2 & HV3).
      assert (HP : bitlist_pack_bits n (VBits b) = Ok (concat (spec_pack (spec_bits (bv_bits b))))).
      { unfold bitlist_pack_bits, bitlist_serialize_with_length. replace (n <? bv_len b) with false by lia.
        cbn [ser_to_merkle bind]. rewrite app_nil_l, pack_bytes_concat, clean_raw_spec by auto. reflexivity. }
      split; [|exact HP]. cbn [bitlist_m hash_tree_root bitlist_hash_tree_root spec_root spec_chunk_count]. rewrite HP. cbn [bind].
      pose proof (bits_pack_blen b) as HB. rewrite bits_chunk_count_eq.
      rewrite merkleize_some; auto; [|apply spec_pack_all32|change (2^63) with 9223372036854775808; lia|change (2^63) with 9223372036854775808; lia].
      rewrite HB. replace (_ <? _) with false by lia. cbn [bind]. unfold mix_in_length. apply mix_in_ok. lia.
    - cbn [regular] in HR. rewrite !andb_true_iff in HR. destruct HR as [R1 R2].
      cbn [legal] in HL. rewrite !andb_true_iff in HL. destruct HL as [_ HL].
      apply valid_fields in HV as [HV1 HV2].
      set (rs := map (fun fx => spec_root H (snd (fst fx)) (snd fx)) (combine fs l)).
      assert (HA : all32 rs).
      { unfold rs, all32. rewrite Forall_map. eapply Forall_impl; [|exact HV2]. intros fx Hfx. apply spec_root_blen; auto. }
      assert (HB : blen rs = blen fs).
      { unfold rs. rewrite blen_map. unfold blen. rewrite combine_length. lia. }
      assert (HP : container_assemble_chunks (map snd (map (fun f => (fst f, S_ (snd f))) fs)) (VStruct l) = Ok (concat rs)).
      { unfold container_assemble_chunks. rewrite !map_length, HV1, PeanoNat.Nat.eqb_refl.
        change BYTES_PER_CHUNK with 32. rewrite map_map. cbn [snd]. rewrite combine_map_l.
        rewrite blen_map. rewrite (fill_fields_all _ rs); auto.
        unfold rs. clear - H0 HL R2 HV2 Hlen. rewrite forallb_forall in HL, R2. rewrite Forall_forall in H0, HV2.
        assert (G : forall fx, In fx (combine fs l) -> hash_tree_root (S_ (snd (fst fx))) (snd fx) = Ok (spec_root H (snd (fst fx)) (snd fx))).
        { intros [f x] Hfx. cbn [fst snd]. pose proof (in_combine_l _ _ _ _ Hfx).
          apply (H0 f); auto. apply (HV2 (f, x)); auto. }
        revert G. generalize (combine fs l) as c. induction c as [|fx c IH]; intros G; cbn [map]; constructor.
        - cbn [fst snd]. apply G. left. reflexivity.
        - apply IH. intros; apply G; right; auto. }
      split; [|exact HP]. cbn [container_m hash_tree_root spec_root spec_chunk_count]. rewrite HP. cbn [bind].
      rewrite merkleize_none by (auto; lia). rewrite HB. do 2 f_equal.
      rewrite combine_map_l, map_map. reflexivity.
    - destruct (IHt HL HR v HV) as [I1 I2]. split; [|exact I2].
      cbn [newtype_m hash_tree_root unwrap spec_root].
      change (zeros 32) with (zeros (N.to_nat (1 * 32))). rewrite (fill_fields_all _ [spec_root H t v]).
      + cbn [bind]. rewrite merkleize_none; auto.
        * constructor; [apply spec_root_blen; auto|constructor].
        * cbn. lia.
      + constructor; [exact I1|constructor].
      + constructor; [apply spec_root_blen; auto|constructor].
      + reflexivity.
    - split; [|reflexivity]. cbn [option_m hash_tree_root option_hash_tree_root option_chunks bind spec_root].
      rewrite to_node_ok by reflexivity. cbn [bind]. unfold mix_in_selector. apply mix_in_ok. reflexivity.
    - destruct (IHt HL HR v HV) as [I1 I2]. split; [|exact I1].
      cbn [option_m hash_tree_root option_hash_tree_root option_chunks spec_root].
      unfold option_hash_tree_root, option_chunks. rewrite I1. cbn [bind].
      rewrite to_node_ok by (apply spec_root_blen; auto). cbn [bind]. unfold mix_in_selector. apply mix_in_ok. reflexivity.
    - apply valid_unit in HV as [r ->]. split; [|reflexivity].
      cbn [union_m hash_tree_root union_hash_tree_root map option_map spec_root].
      unfold mix_in_selector. apply mix_in_ok. reflexivity.
    - apply valid_variant in HV as (u & E & HV).
      cbn [legal] in HL. rewrite andb_true_iff in HL. destruct HL as [HL1 HL2].
      cbn [regular] in HR. rewrite forallb_forall in HL2, HR.
      pose proof (nth_error_In _ _ E) as Hin. rewrite Forall_forall in H0.
      destruct (H0 _ Hin (HL2 _ Hin) (HR _ Hin) v HV) as [I1 I2].
      pose proof (legal_variants_len _ HL1) as HN.
      assert (Hi : i < 2 ^ 64).
      { assert (N.to_nat i < length vs)%nat by (apply nth_error_Some; congruence).
        unfold blen in HN. change (2 ^ 64) with 18446744073709551616. lia. }
      cbn [union_m hash_tree_root union_hash_tree_root chunks union_chunks spec_root].
      rewrite !nth_error_map, E. cbn [option_map]. rewrite I1. cbn [bind concat]. rewrite app_nil_r.
      split; [|reflexivity]. unfold mix_in_selector. apply mix_in_ok. auto.
    - apply valid_payload in HV as (u & E & HV).
      cbn [legal] in HL. rewrite !andb_true_iff in HL. destruct HL as [_ HL2].
      cbn [regular] in HR. rewrite forallb_forall in HL2, HR.
      pose proof (nth_error_In _ _ E) as Hin. rewrite Forall_forall in H0.
      destruct (H0 _ Hin (HL2 _ Hin) (HR _ Hin) v HV) as [I1 I2].
      cbn [transparent_m hash_tree_root chunks union_chunks spec_root].
      rewrite !nth_error_map, E. cbn [option_map]. rewrite I1. cbn [bind concat]. rewrite app_nil_r. auto.
  Qed.
End Root.
