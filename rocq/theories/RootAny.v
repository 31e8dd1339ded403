(** hash_tree_root on every value that a Rust type can hold. *)
From Coq Require Import String List NArith ZArith Bool Lia ZifyBool ZifyNat ZifyN.
From Coq Require Import Strings.Byte.
From Verif Require Import Prelude Types Bitvec Ser De Impls Merkleize Proofs MerkImpls Valid SpecSer SpecWrite
  SpecMerkle SpecPack SpecRoot Lib BitsLib SerProof SerSpec DeProof ConProof BitsDe RoundTrip SerAny WriteProof
  ChunkLib MerkProof TreeProof RootProof PackProof.
Import ListNotations.
Open Scope N_scope.

Ltac Zify.zify_post_hook ::= Z.div_mod_to_equations.

Definition as_result (x : rooting bytes) : mres bytes :=
  match x with inl r => Ok r | inr e => Err e end.

Lemma stored_bits_raw b : spec_bits (stored_bits b) = bv_raw b.
Proof.
  apply raw_ext.
  - rewrite spec_bits_length. unfold bits_bytes, blen. rewrite stored_bits_length. lia.
  - intros i _. rewrite raw_bit_spec_bits, stored_bits_nth, Nnat.N2Nat.id. reflexivity.
Qed.

Lemma packed_typed_valid u : packed u = true -> forall v, typed u v -> valid u v.
Proof.
  induction u using ty_ind'; cbn [packed]; intros HP v HT; try discriminate; destruct v; try contradiction; auto.
  destruct HT as [HT1 HT2]. split; [exact HT1|]. eapply Forall_impl; [|exact HT2]. auto.
Qed.

Lemma in_memory_child t v u x :
  (forall u y, part t v u y -> in_memory u y) -> In (u, x) (children t v) ->
  forall w y, part u x w y -> in_memory w y.
Proof. intros HM HI w y HP. apply HM. econstructor; eauto. Qed.

Section Root.
  Context (H : bytes -> bytes) (Hlen : forall x, blen (H x) = 32).
  Context (CONTEXT : bytes) (HC : good_context H CONTEXT) (oc : bool).
  Notation S_ := (simple_serialize H CONTEXT oc).

  Lemma within_blen limit cs r : all32 cs -> within H limit cs = inl r -> blen r = 32.
  Proof.
    intros HA. unfold within. destruct (limit <? blen cs); [discriminate|]. intros [= <-].
    apply (spec_merkleize_blen H Hlen); auto.
  Qed.

  Lemma all_rooted_all32 (l : list (rooting bytes)) cs : Forall (fun x => forall r, x = inl r -> blen r = 32) l ->
    all_rooted l = inl cs -> all32 cs /\ blen cs = blen l.
  Proof.
    intros HF. revert cs. induction HF as [|x l Hx _ IH]; intros cs HE.
    - injection HE as <-. split; [constructor|reflexivity].
    - destruct x as [r|e]; [|discriminate]. cbn [all_rooted] in HE. destruct (all_rooted l) as [rs|e]; [|discriminate].
      injection HE as <-. destruct (IH rs eq_refl) as [I1 I2]. split; [constructor; auto|]. rewrite !blen_cons. lia.
  Qed.

  Definition any_root (t : ty) (v : val) : Prop :=
    hash_tree_root (S_ t) v = as_result (root_any H t v) /\ (forall r, root_any H t v = inl r -> blen r = 32).

  Definition result_of {A} (f : A -> bytes) (x : rooting A) : mres bytes :=
    match x with inl a => Ok (f a) | inr e => Err e end.

  Lemma fill_fields_any fl xs :
    Forall2 (fun (Tv : SimpleSerialize * val) x =>
               hash_tree_root (fst Tv) (snd Tv) = as_result x /\ forall r, x = inl r -> blen r = 32) fl xs ->
    forall i L, all32 L -> i + blen xs <= blen L ->
    fill_fields i fl (concat L) = result_of (fun rs => concat (takeN i L ++ rs ++ dropN (i + blen rs) L)) (all_rooted xs).
  Proof.
    induction 1 as [|[T x] o l xs [Hx Ho] HF IH]; intros i L HL Hi.
    - cbn [fill_fields all_rooted result_of app]. change (blen (@nil bytes)) with 0. rewrite N.add_0_r, takeN_dropN. reflexivity.
    - cbn [fill_fields fst snd all_rooted] in *. rewrite Hx. destruct o as [r|e]; [|reflexivity]. cbn [as_result bind].
      change BYTES_PER_CHUNK with 32. rewrite blen_cons in Hi. pose proof (Ho r eq_refl) as Hr.
      rewrite copy_concat32 by (auto; lia). cbn [bind].
      rewrite IH; [|apply all32_updN; auto|rewrite blen_updN; lia].
      destruct (all_rooted xs) as [rs|e]; [|reflexivity]. cbn [and_then result_of].
      do 2 f_equal. rewrite blen_cons. unfold updN.
      rewrite takeN_app_ge, dropN_app_ge by (rewrite blen_takeN; lia). rewrite blen_takeN.
      replace (i + 1 - N.min i (blen L)) with (0 + 1) by lia.
      replace (i + 1 + blen rs - N.min i (blen L)) with (blen rs + 1) by lia.
      rewrite takeN_succ_cons, dropN_succ_cons, takeN_0, dropN_dropN. rewrite <- app_assoc. cbn [app].
      do 4 f_equal. lia.
  Qed.

  Lemma fill_fields_every fl xs n :
    Forall2 (fun (Tv : SimpleSerialize * val) x =>
               hash_tree_root (fst Tv) (snd Tv) = as_result x /\ forall r, x = inl r -> blen r = 32) fl xs ->
    n = blen xs -> fill_fields 0 fl (zeros (N.to_nat (n * 32))) = result_of (@concat byte) (all_rooted xs).
  Proof.
    intros HF ->. rewrite zeros_chunks. rewrite (fill_fields_any fl xs); auto.
    - destruct (all_rooted xs) as [rs|e] eqn:E; [|reflexivity]. cbn [result_of].
      apply all_rooted_all32 in E as [_ E].
      + rewrite takeN_0, dropN_all, app_nil_r; [reflexivity|]. rewrite blen_repeat. lia.
      + clear - HF. induction HF as [|? ? ? ? [_ ?]]; constructor; auto.
    - apply all32_zero.
    - rewrite blen_repeat. lia.
  Qed.

  Lemma fill_chunks_fields T l : forall i c,
    fill_chunks (hash_tree_root T) i l c = fill_fields i (map (pair T) l) c.
  Proof.
    induction l as [|x l IH]; intros i c; [reflexivity|]. cbn [fill_chunks fill_fields map].
    destruct (hash_tree_root T x); cbn [bind]; [|reflexivity|reflexivity].
    destruct (copy_at _ _ _); cbn [bind]; [apply IH|reflexivity|reflexivity].
  Qed.

  Definition of_elements (u : ty) (l : list val) : rooting (list bytes) :=
    if packed u then inl (spec_pack (concat (map (basic_bytes u) l))) else all_rooted (map (root_any H u) l).

  Lemma of_elements_shape u l cs : small u = true -> legal u = true -> Forall (typed u) l ->
    Forall (fun x => forall r, root_any H u x = inl r -> blen r = 32) l ->
    of_elements u l = inl cs -> all32 cs /\ blen cs = (blen l * item_length_with packed u + 31) / 32.
  Proof.
    intros HS HL HT HF HE. unfold of_elements, item_length_with in *. destruct (packed u) eqn:EP.
    - injection HE as <-. split; [apply spec_pack_all32|].
      rewrite spec_pack_blen, (concat_same_blen (fixed_size u)), blen_map; [reflexivity|].
      clear HF. induction HT; cbn [map]; constructor; auto. apply packed_bytes; auto. apply packed_typed_valid; auto.
    - apply all_rooted_all32 in HE as [E1 E2]; [|rewrite Forall_map; exact HF].
      rewrite blen_map in E2. split; [exact E1|lia].
  Qed.

  Lemma assemble_chunks_any u l :
    legal u = true -> small u = true -> Forall (typed u) l -> Forall (any_root u) l ->
    assemble_chunks (S_ u) (VSeq l) = result_of (@concat byte) (of_elements u l).
  Proof.
    intros HL HS HT HA. unfold assemble_chunks, of_elements. rewrite composite_simple, ser_simple.
    destruct (packed u) eqn:EP; cbn [negb].
    - apply (pack_ok oc). eapply Forall_impl; [|exact HT]. intros v Hv buf. apply packed_typed_valid in Hv; auto.
      pose proof (serialize_spec oc u HL v Hv buf) as G.
      destruct (packed_bytes u v) as [E _]; auto. rewrite E in G. eauto.
    - unfold elements_to_chunks. rewrite fill_chunks_fields. change BYTES_PER_CHUNK with 32.
      apply fill_fields_every; [|rewrite blen_map; reflexivity].
      clear - HA. induction HA as [|x l [H1 H2] _ IH]; constructor; auto.
  Qed.

  Lemma within_ok limit cs : all32 cs -> blen cs <= 2 ^ 63 -> limit <= 2 ^ 63 ->
    merkleize H CONTEXT oc (concat cs) (Some limit) = as_result (within H limit cs).
  Proof.
    intros HA H1 H2. rewrite merkleize_some by auto. unfold within. destruct (limit <? blen cs); reflexivity.
  Qed.

  Lemma within_self_ok cs : all32 cs -> blen cs <= 2 ^ 63 ->
    merkleize H CONTEXT oc (concat cs) None = as_result (within H (blen cs) cs).
  Proof. intros HA H1. rewrite merkleize_none by auto. unfold within. rewrite N.ltb_irrefl. reflexivity. Qed.

  Lemma mixed_blen n x r : and_then x (mixed H n) = inl r -> blen r = 32.
  Proof. destruct x; [|discriminate]. intros [= <-]. apply Hlen. Qed.

  Lemma mixed_ok n x : n < 2 ^ 64 ->
    bind (as_result x) (fun r => mix_in_decoration H r n) = as_result (and_then x (mixed H n)).
  Proof. intros Hn. destruct x as [r|e]; [|reflexivity]. cbn [as_result bind and_then]. apply (mix_in_ok H Hlen); auto. Qed.

  Lemma bit_chunks_le k : k < 2 ^ 63 -> (k + 255) / 256 <= 2 ^ 63.
  Proof. intros Hk. apply N.div_le_upper_bound; [discriminate|]. lia. Qed.

  Lemma bit_limit_le k : (k + 8 <? 2 ^ 64) = true -> (k + 255) / 256 <= 2 ^ 63.
  Proof. intros Hk. apply N.ltb_lt in Hk. apply N.div_le_upper_bound; [discriminate|]. lia. Qed.

  Lemma vector_any u l :
    legal u = true -> small u = true -> Forall (typed u) l -> Forall (any_root u) l ->
    blen l * item_length_with packed u < 2 ^ 63 ->
    let x := and_then (of_elements u l) (fun cs => within H (blen cs) cs) in
    vector_hash_tree_root H CONTEXT oc (S_ u) (VSeq l) = as_result x /\ (forall r, x = inl r -> blen r = 32).
  Proof.
    intros HL HS HT HA HM x. unfold vector_hash_tree_root. rewrite assemble_chunks_any by auto.
    assert (HF : Forall (fun x => forall r, root_any H u x = inl r -> blen r = 32) l)
      by (eapply Forall_impl; [|exact HA]; intros y [_ Hy]; exact Hy).
    subst x. destruct (of_elements u l) as [cs|e] eqn:E; [|split; [reflexivity|discriminate]].
    destruct (of_elements_shape u l cs HS HL HT HF E) as [E1 E2]. cbn [result_of bind and_then].
    assert (blen cs <= 2 ^ 63).
    { rewrite E2. change (2 ^ 63) with 9223372036854775808 in *. lia. }
    split; [apply within_self_ok; auto|]. intros r. apply within_blen; auto.
  Qed.

  Lemma basic_any t v : match t with TBool | TUint _ | TU256 | TNode => True | _ => False end ->
    typed t v -> any_root t v.
  Proof.
    intros Ht HT.
    assert (HV : valid t v) by (destruct t, v; try contradiction; exact HT).
    assert (HL : legal t = true /\ sized t = true) by (destruct t; try contradiction; auto). destruct HL as [HL HR].
    destruct (with_hash_tree_root_ok H Hlen CONTEXT HC oc t HL HR v HV) as [G _].
    pose proof (with_blen H Hlen t v HV) as HB.
    destruct t; try contradiction; destruct v; try contradiction; (split; [exact G|]; intros r [= <-]; exact HB).
  Qed.

  Lemma root_any_ok t : legal t = true -> sized t = true -> forall v, typed t v ->
    (forall u y, part t v u y -> in_memory u y) -> any_root t v.
  Proof.
    induction t using ty_ind'; intros HL HR v HT HM.
    - apply basic_any; auto.
    - apply basic_any; auto.
    - apply basic_any; auto.
    - apply basic_any; auto.
    - (* Vector *)
      cbn [sized chunk_count_with] in HR. fold (small t) in HR. rewrite !andb_true_iff in HR. destruct HR as [[R1 R2] R3].
      cbn [legal] in HL. rewrite !andb_true_iff in HL. destruct HL as [_ HL]. destruct v; try contradiction.
      cbn [typed] in HT. unfold any_root. cbn [simple_serialize vector_m hash_tree_root root_any]. fold (of_elements t l).
      apply vector_any; auto.
      + rewrite Forall_forall in HT |- *. intros x Hx. apply IHt; auto.
        apply (in_memory_child _ _ _ _ HM). cbn [children]. apply in_map. exact Hx.
      + apply (HM (TVector t n) (VSeq l)). constructor.
    - (* array *)
      cbn [sized chunk_count_with] in HR. fold (small t) in HR. rewrite !andb_true_iff in HR. destruct HR as [[R1 R2] R3].
      cbn [legal] in HL. rewrite !andb_true_iff in HL. destruct HL as [_ HL]. destruct v; try contradiction.
      destruct HT as [_ HT]. unfold any_root. cbn [simple_serialize array_m hash_tree_root root_any]. fold (of_elements t l).
      apply vector_any; auto.
      + rewrite Forall_forall in HT |- *. intros x Hx. apply IHt; auto.
        apply (in_memory_child _ _ _ _ HM). cbn [children]. apply in_map. exact Hx.
      + apply (HM (TArray t n) (VSeq l)). constructor.
    - (* List *)
      cbn [sized] in HR. fold (small t) in HR. rewrite !andb_true_iff in HR. destruct HR as [[R1 R2] R3].
      cbn [legal] in HL. rewrite !andb_true_iff in HL. destruct HL as [HL1 HL]. destruct v; try contradiction.
      cbn [typed] in HT. unfold any_root. cbn [simple_serialize list_m hash_tree_root root_any list_hash_tree_root].
      fold (of_elements t l).
      assert (HA : Forall (any_root t) l).
      { rewrite Forall_forall in HT |- *. intros x Hx. apply IHt; auto.
        apply (in_memory_child _ _ _ _ HM). cbn [children]. apply in_map. exact Hx. }
      assert (HF : Forall (fun x => forall r, root_any H t x = inl r -> blen r = 32) l)
        by (eapply Forall_impl; [|exact HA]; intros y [_ Hy]; exact Hy).
      rewrite assemble_chunks_any by auto. rewrite composite_simple.
      pose proof (HM (TList t n) (VSeq l) (part_refl _ _)) as HB. cbn [in_memory] in HB.
      destruct (of_elements t l) as [cs|e] eqn:E; [|split; [reflexivity|discriminate]].
      destruct (of_elements_shape t l cs R1 HL HT HF E) as [E1 E2]. cbn [result_of bind and_then].
      assert (HI1 : item_length_with packed t <> 0).
      { unfold item_length_with. destruct (packed t) eqn:EP; [|lia].
        assert (EV : spec_variable t = false) by (apply packed_fixed; auto).
        pose proof (legal_fixed_size t HL EV). lia. }
      assert (HL64 : blen l < 2 ^ 64).
      { assert (blen l <= blen l * item_length_with packed t) by nia.
        change (2 ^ 63) with 9223372036854775808 in *. change (2 ^ 64) with 18446744073709551616. lia. }
      assert (HCS : blen cs <= 2 ^ 63) by (rewrite E2; change (2 ^ 63) with 9223372036854775808 in *; lia).
      split; [|intros r; apply mixed_blen]. rewrite <- mixed_ok by auto. unfold mix_in_length. f_equal.
      unfold item_length_with. destruct (packed t) eqn:EP; cbn [negb].
      + unfold list_inherent_chunk_count. rewrite ser_simple, size_hint_spec.
        rewrite umul_ok by (unfold USIZE; lia). cbn [bind]. change BYTES_PER_CHUNK with 32.
        rewrite div_ceil_32. apply within_ok; auto.
        change (2 ^ 64) with 18446744073709551616 in R3; change (2 ^ 63) with 9223372036854775808; lia.
      + replace ((n * 32 + 31) / 32) with n by lia. apply within_ok; auto. lia.
    - (* Bitvector *)
      cbn [legal] in HL. rewrite !andb_true_iff in HL. destruct v; try contradiction. cbn [typed] in HT.
      pose proof (HM (TBitvector n) (VBits b) (part_refl _ _)) as HB. cbn [in_memory] in HB.
      unfold any_root. cbn [simple_serialize bitvector_m hash_tree_root root_any]. rewrite list_bits_eq by auto.
      assert (HP : bitvector_pack_bits n (VBits b) = Ok (concat (spec_pack (spec_bits (bv_bits b))))).
      { unfold bitvector_pack_bits, bitvector_serialize. replace (n =? 0) with false by lia.
        cbn [ser_to_merkle bind]. rewrite app_nil_l, pack_bytes_concat, bv_load_chunks_spec. reflexivity. }
      rewrite HP. cbn [bind]. rewrite bits_chunk_count_eq. pose proof (bits_pack_blen b) as HN.
      change (2 ^ 63) with 9223372036854775808 in *. change (2 ^ 64) with 18446744073709551616 in *.
      split; [|intros r; apply within_blen, spec_pack_all32].
      apply within_ok; [apply spec_pack_all32|change (2 ^ 63) with 9223372036854775808; lia..].
    - (* Bitlist *)
      cbn [legal] in HL. destruct v; try contradiction. cbn [typed] in HT.
      pose proof (HM (TBitlist n) (VBits b) (part_refl _ _)) as HB. cbn [in_memory] in HB.
      unfold any_root. cbn [simple_serialize bitlist_m hash_tree_root root_any bitlist_hash_tree_root].
      unfold bitlist_pack_bits, bitlist_serialize_with_length.
      destruct (n <? bv_len b) eqn:EN; [split; [reflexivity|discriminate]|].
      cbn [ser_to_merkle bind]. rewrite app_nil_l, pack_bytes_concat, stored_bits_raw, bits_chunk_count_eq.
      pose proof (proj1 (bv_ok_len b) HT) as HO. unfold bits_bytes in HO.
      assert (HN : blen (spec_pack (bv_raw b)) = (bv_len b + 255) / 256) by (rewrite spec_pack_blen, HO; lia).
      assert (HW : merkleize H CONTEXT oc (concat (spec_pack (bv_raw b))) (Some ((n + 255) / 256)) =
                   as_result (within H ((n + 255) / 256) (spec_pack (bv_raw b)))).
      { apply within_ok; [apply spec_pack_all32|rewrite HN; apply bit_chunks_le; exact HB|].
        apply bit_limit_le. exact HL. }
      rewrite HW. split; [|intros r; apply mixed_blen]. apply mixed_ok.
      eapply N.lt_trans; [exact HB|reflexivity].
    - (* container *)
      cbn [sized] in HR. rewrite !andb_true_iff in HR. destruct HR as [R1 R2].
      cbn [legal] in HL. rewrite !andb_true_iff in HL. destruct HL as [_ HL]. destruct v; try contradiction.
      cbn [typed] in HT. apply (Forall2_preds_combine fs (fun f => typed (snd f))) in HT as [HT1 HT2].
      unfold any_root. cbn [simple_serialize container_m hash_tree_root root_any].
      unfold container_assemble_chunks. rewrite !map_length, HT1, PeanoNat.Nat.eqb_refl.
      change BYTES_PER_CHUNK with 32. rewrite map_map. cbn [snd]. rewrite !combine_map_l, !map_map. cbn [fst snd].
      set (xs := map (fun fx => root_any H (snd (fst fx)) (snd fx)) (combine fs l)).
      assert (HA : forall fx, In fx (combine fs l) -> any_root (snd (fst fx)) (snd fx)).
      { rewrite forallb_forall in HL, R2. rewrite Forall_forall in H0, HT2. intros [f x] Hfx. cbn [fst snd].
        pose proof (in_combine_l _ _ _ _ Hfx). apply (H0 f); auto; [apply (HT2 (f, x)); auto|].
        apply (in_memory_child _ _ _ _ HM). cbn [children]. rewrite combine_map_l. apply in_map_iff. exists (f, x). auto. }
      assert (HF : Forall (fun x => forall r, x = inl r -> blen r = 32) xs).
      { unfold xs. rewrite Forall_map, Forall_forall. intros fx Hfx. apply (HA fx Hfx). }
      assert (HB : blen xs = blen fs).
      { unfold xs. rewrite blen_map. unfold blen. rewrite combine_length. lia. }
      rewrite blen_map. rewrite (fill_fields_every _ xs); auto.
      2:{ unfold xs. clear - HA. revert HA. generalize (combine fs l) as c.
          induction c as [|fx c IH]; intros G; cbn [map]; constructor.
          - cbn [fst snd]. apply G. left. reflexivity.
          - apply IH. intros; apply G; right; auto. }
      destruct (all_rooted xs) as [cs|e] eqn:E; [|split; [reflexivity|discriminate]].
      apply all_rooted_all32 in E as [E1 E2]; [|exact HF]. cbn [result_of bind and_then].
      rewrite HB in E2. rewrite <- E2. split; [|intros r; apply within_blen; auto].
      apply within_self_ok; auto. lia.
    - (* newtype *)
      destruct v; try contradiction.
      assert (HM' : forall u y, part t v u y -> in_memory u y)
        by (apply (in_memory_child _ _ _ _ HM); left; reflexivity).
      destruct (IHt HL HR v HT HM') as [I1 I2]. split; [|exact I2].
      cbn [simple_serialize newtype_m hash_tree_root unwrap root_any].
      change (zeros 32) with (zeros (N.to_nat (1 * 32))).
      rewrite (fill_fields_every _ [root_any H t v]); [|constructor; [auto|constructor]|reflexivity].
      cbn [all_rooted]. destruct (root_any H t v) as [r|e]; [|reflexivity]. cbn [and_then result_of bind].
      assert (HA : all32 [r]) by (constructor; [auto|constructor]).
      rewrite within_self_ok; [|exact HA|cbn; lia]. unfold within. rewrite N.ltb_irrefl.
      rewrite spec_merkleize_1. reflexivity.
    - (* Option *)
      destruct v; try contradiction.
      + split; [|intros r [= <-]; apply Hlen].
        cbn [simple_serialize option_m hash_tree_root option_hash_tree_root option_chunks bind root_any].
        rewrite to_node_ok by reflexivity. cbn [bind]. unfold mix_in_selector. apply (mix_in_ok H Hlen). reflexivity.
      + assert (HM' : forall u y, part t v u y -> in_memory u y)
          by (apply (in_memory_child _ _ _ _ HM); left; reflexivity).
        destruct (IHt HL HR v HT HM') as [I1 I2]. split; [|intros r; apply mixed_blen].
        cbn [simple_serialize option_m hash_tree_root option_hash_tree_root option_chunks root_any].
        unfold option_hash_tree_root, option_chunks. rewrite I1.
        rewrite <- mixed_ok by reflexivity. destruct (root_any H t v) as [r|e]; [|reflexivity]. cbn [as_result bind].
        rewrite to_node_ok by auto. reflexivity.
    - (* union *)
      destruct v; try (destruct vs as [|[]]; contradiction).
      + assert (exists r, vs = None :: r) as [r ->] by (destruct vs as [|[|] r]; try contradiction; exists r; reflexivity).
        split; [|intros x [= <-]; apply Hlen].
        cbn [simple_serialize union_m hash_tree_root union_hash_tree_root map option_map root_any].
        unfold mix_in_selector. apply (mix_in_ok H Hlen). reflexivity.
      + assert (HX : exists u, nth_error vs (N.to_nat i) = Some (Some u) /\ typed u v).
        { cbn [typed] in HT. destruct (nth_error vs (N.to_nat i)) as [[u|]|] eqn:E.
          - exists u. split; [reflexivity|]. destruct vs as [|[|] ?]; rewrite nth_error_map, E in HT; exact HT.
          - destruct vs as [|[|] ?]; rewrite nth_error_map, E in HT; contradiction.
          - destruct vs as [|[|] ?]; rewrite nth_error_map, E in HT; contradiction. }
        destruct HX as (u & E & HX).
        cbn [legal] in HL. rewrite andb_true_iff in HL. destruct HL as [HL1 HL2].
        cbn [sized] in HR. rewrite forallb_forall in HL2, HR.
        pose proof (nth_error_In _ _ E) as Hin. rewrite Forall_forall in H0.
        assert (HM' : forall w y, part u v w y -> in_memory w y).
        { apply (in_memory_child _ _ _ _ HM). cbn [children]. rewrite E. left. reflexivity. }
        destruct (H0 _ Hin (HL2 _ Hin) (HR _ Hin) v HX HM') as [I1 I2].
        pose proof (legal_variants_len _ HL1) as HN.
        assert (Hi : i < 2 ^ 64).
        { assert (N.to_nat i < length vs)%nat by (apply nth_error_Some; congruence).
          unfold blen in HN. change (2 ^ 64) with 18446744073709551616. lia. }
        unfold any_root. cbn [simple_serialize union_m hash_tree_root union_hash_tree_root root_any].
        rewrite !nth_error_map, E. cbn [option_map]. rewrite I1. split; [|intros r; apply mixed_blen].
        unfold mix_in_selector. apply mixed_ok. exact Hi.
    - (* transparent *)
      destruct v; try contradiction.
      assert (HX : exists u, nth_error ts (N.to_nat i) = Some u /\ typed u v).
      { cbn [typed] in HT. rewrite nth_error_map in HT. destruct (nth_error ts (N.to_nat i)) as [u|]; [|contradiction].
        exists u. auto. }
      destruct HX as (u & E & HX).
      cbn [legal] in HL. rewrite !andb_true_iff in HL. destruct HL as [_ HL2].
      cbn [sized] in HR. rewrite forallb_forall in HL2, HR.
      pose proof (nth_error_In _ _ E) as Hin. rewrite Forall_forall in H0.
      assert (HM' : forall w y, part u v w y -> in_memory w y).
      { apply (in_memory_child _ _ _ _ HM). cbn [children]. rewrite E. left. reflexivity. }
      destruct (H0 _ Hin (HL2 _ Hin) (HR _ Hin) v HX HM') as [I1 I2].
      unfold any_root. cbn [simple_serialize transparent_m hash_tree_root union_chunks root_any].
      rewrite !nth_error_map, E. cbn [option_map]. rewrite I1. auto.
  Qed.
End Root.
