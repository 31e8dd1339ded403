(** Proofs of every type, with ssz-rs's choice of packed element types. *)
From Coq Require Import String List NArith ZArith Bool Lia ZifyBool ZifyNat ZifyN.
From Coq Require Import Strings.Byte.
From Verif Require Import Prelude Types Bitvec Ser De Impls Merkleize Proofs MerkImpls Multiproofs Valid SpecSer SpecMerkle
  SpecPack Lib SerProof SerSpec RoundTrip BitsLib ChunkLib MerkProof TreeProof RootProof GindexProof ProveProof LeafProof BindProof
  PackProof PackGindex.
Import ListNotations.
Open Scope N_scope.
Ltac Zify.zify_post_hook ::= Z.div_mod_to_equations.

Lemma counted_item u : counted u = true -> item_length_with packed u = item_length_with item_basic u.
Proof.
  unfold counted, item_length_with. intros HC. destruct (packed u), (item_basic u); cbn in HC; lia.
Qed.

Lemma item_packed u : item_basic u = true -> packed u = true.
Proof. destruct u; intros; try discriminate; reflexivity. Qed.

Lemma with_resolve_packed t : chunk_count_with packed (resolve t) = chunk_count_with packed t.
Proof. induction t; auto. Qed.

Lemma provable_with_resolve t : provable_with (resolve t) = provable_with t.
Proof. unfold provable_with. rewrite resolve_idem, with_resolve_packed. reflexivity. Qed.

Lemma provable_with_count t : provable_with t = true ->
  chunk_count_with packed t = chunk_count_with item_basic t /\ chunk_count_with packed t <= 2 ^ 57 /\
  is_transparent (resolve t) = false.
Proof.
  unfold provable_with. rewrite <- with_resolve_packed, <- with_resolve_chunk_count.
  change (2 ^ 57) with 144115188075855872. change (2 ^ 56) with 72057594037927936.
  assert (HN : is_newtype (resolve t) = false) by (induction t; auto).
  destruct (resolve t) as [| | | |u n|u n|u n|n|n|fs|u|u|vs|ts]; intros HP; try discriminate.
  5-7: apply andb_true_iff in HP as [HC HP]; cbn [chunk_count_with] in *; rewrite counted_item in * by auto.
  all: (split; [reflexivity|]); (split; [lia|reflexivity]).
Qed.

Lemma provable_counts t : provable_with t = true -> counts t = true.
Proof. unfold provable_with, counts. destruct (resolve t); auto; rewrite andb_true_iff; tauto. Qed.

Lemma counts_count t : counts t = true -> chunk_count_with packed t = chunk_count_with item_basic t.
Proof.
  unfold counts. rewrite <- with_resolve_packed, <- with_resolve_chunk_count.
  assert (HN : is_newtype (resolve t) = false) by (induction t; auto).
  destruct (resolve t) as [| | | |u n|u n|u n|n|n|fs|u|u|vs|ts]; intros HP; try discriminate; try reflexivity;
    cbn [chunk_count_with]; rewrite counted_item by auto; reflexivity.
Qed.

Section Prover.
  Context (H : bytes -> bytes) (Hlen : forall x, blen (H x) = 32).
  Context (CONTEXT : bytes) (HC : good_context H CONTEXT) (oc : bool).
  Notation S_ := (simple_serialize H CONTEXT oc).

  Lemma with_chunk_count_ok t : provable_with t = true -> chunk_count (S_ t) = Ok (chunk_count_with packed t).
  Proof. clear HC.
    intros HP. destruct (provable_with_count t HP) as (E & HB & _). rewrite E in *. clear E HP.
    change (2 ^ 57) with 144115188075855872 in HB.
    assert (HS : forall u n, (n * item_length_with item_basic u + 31) / 32 <= 144115188075855872 ->
              seq_chunk_count oc (S_ u) n = Ok ((n * item_length_with item_basic u + 31) / 32)).
    { intros u n HB'. unfold seq_chunk_count. rewrite with_item_length.
      assert (HU : USIZE = 18446744073709551616) by reflexivity.
      rewrite umul_ok by lia. cbn [bind]. rewrite uadd_ok by lia. reflexivity. }
    induction t using ty_ind'; cbn [chunk_count_with] in *; try reflexivity; try (apply HS; exact HB); auto.
    - cbn. rewrite bits_chunk_count_eq. reflexivity.
    - cbn. rewrite bits_chunk_count_eq. reflexivity.
    - cbn [simple_serialize container_m chunk_count]. rewrite blen_map. reflexivity.
  Qed.

  Definition wdepth (t : ty) : nat := tree_depth (chunk_count_with packed t).
  Definition wfull (t : ty) (v : val) : nat := full_depth (wdepth t) (spec_decoration t v).
  Definition wtree (t : ty) (v : val) : N -> bytes := local_tree H (wdepth t) (chunks_with packed H t v) (spec_decoration t v).

  Lemma wtree_root t v : valid t v -> wtree t v 1 = root_with packed H t v.
  Proof. clear HC. intros HV. unfold wtree. rewrite local_root by auto. symmetry. apply with_root_of_chunks; auto. Qed.

  Lemma provable_with_depth t : provable_with t = true -> forall v, valid t v -> (wfull t v <= 57)%nat.
  Proof. clear HC.
    assert (HD : forall c k, c <= 2 ^ k -> (tree_depth c <= N.to_nat k)%nat).
    { intros c k Hc. unfold tree_depth. assert (N.log2_up c <= k); [|lia].
      rewrite <- (N.log2_up_pow2 k) by lia. apply N.log2_up_le_mono. auto. }
    unfold wfull, wdepth. intros HP. destruct (provable_with_count t HP) as (_ & HC57 & _).
    pose proof (HD _ _ HC57) as HD57. rewrite <- with_resolve_packed in *. unfold provable_with in HP.
    rewrite <- with_resolve_packed in HP.
    intros v HV. unfold full_depth. destruct (spec_decoration t v) as [n|] eqn:ED; [|lia].
    assert (HB : (tree_depth (chunk_count_with packed (resolve t)) <= 56)%nat); [|lia].
    revert HP HV ED. clear - HD. revert v. induction t using ty_ind'; intros v HP HV ED; destruct v; no_shape; try discriminate ED;
      cbn [resolve] in *; rewrite ?andb_true_iff in HP; try (cbn; lia).
    - pose proof (HD _ _ (proj1 (N.leb_le _ _) (proj2 HP))). lia.
    - pose proof (HD _ _ (proj1 (N.leb_le _ _) HP)). lia.
    - eapply IHt; eauto.
  Qed.

  (** ** Elements that fill a chunk *)

  Lemma whole_chunk u x : packed u = true -> fixed_size u = 32 -> legal u = true -> valid u x ->
    root_with packed H u x = basic_bytes u x.
  Proof. clear HC.
    intros HP H32 HL HV.
    assert (HS : small u = true) by (unfold small; rewrite H32; apply orb_true_r).
    destruct (packed_bytes u x HS HP HL HV) as [Es Eb]. rewrite H32 in Eb.
    destruct u as [| | | |u n|u n|u n|n|n|fs|u|u|vs|ts]; try discriminate HP; destruct x; no_shape;
      try (cbn [root_with]; rewrite spec_pack_32 by exact Eb; reflexivity).
    cbn [root_with]. cbn [packed] in HP. rewrite HP. cbn [chunk_count_with]. unfold item_length_with. rewrite HP.
    cbn [fixed_size] in H32. rewrite H32.
    assert (Ec : concat (map (basic_bytes u) l) = basic_bytes (TArray u n) (VSeq l)).
    { unfold basic_bytes at 2. cbn [spec_serialize]. rewrite seq_serialize_concat.
      - reflexivity.
      - apply packed_fixed; auto.
      - cbn [legal] in HL. rewrite !andb_true_iff in HL. destruct HV as [HB HV].
        eapply Forall_impl; [|exact HV]. intros y Hy. cbn beta in Hy.
        assert (HS' : small u = true) by (unfold small; rewrite HP; cbn; lia).
        exists (basic_bytes u y). apply packed_bytes; tauto.
      - destruct HV as [-> _]. rewrite H32. reflexivity. }
    rewrite Ec, spec_pack_32 by exact Eb. reflexivity.
  Qed.

  Lemma element_chunk u l i x : counted u = true -> item_basic u = false -> legal u = true -> Forall (valid u) l ->
    nth_error l (N.to_nat i) = Some x -> chunk_at (seq_chunks_with packed H u l) i = root_with packed H u x.
  Proof. clear HC.
    intros HC HI HL HV EN. unfold seq_chunks_with. destruct (packed u) eqn:EP.
    - unfold counted in HC. rewrite EP, HI in HC. cbn [Bool.eqb orb] in HC. apply N.eqb_eq in HC.
      assert (HS : small u = true) by (unfold small; rewrite HC; apply orb_true_r).
      rewrite spec_pack_concat32.
      + unfold chunk_at. erewrite nth_error_nth; [|rewrite nth_error_map, EN; reflexivity].
        symmetry. apply whole_chunk; auto. rewrite Forall_forall in HV. apply HV. eapply nth_error_In; eauto.
      + unfold all32. rewrite Forall_map. eapply Forall_impl; [|exact HV]. intros y Hy. cbn beta in *.
        rewrite <- HC. apply packed_bytes; auto.
    - unfold chunk_at. erewrite nth_error_nth; [reflexivity|]. rewrite nth_error_map, EN. reflexivity.
  Qed.

  (** ** Nodes of the whole tree *)

  Fixpoint part_of (t : ty) (v : val) (i : N) : option (ty * val) :=
    match t, v with
    | TNewtype u, VNewtype x => part_of u x i
    | TVector u _, VSeq l | TArray u _, VSeq l | TList u _, VSeq l =>
        if item_basic u then None else option_map (pair u) (nth_error l (N.to_nat i))
    | TContainer fs, VStruct l => nth_error (combine (map snd fs) l) (N.to_nat i)
    | TOption u, VSome x => if i =? 0 then Some (u, x) else None
    | TUnion vs, VVariant k x =>
        if i =? 0 then match nth_error vs (N.to_nat k) with Some (Some u) => Some (u, x) | _ => None end else None
    | _, _ => None
    end.

  Inductive inner_node (P : ty -> bool) : ty -> val -> N -> bytes -> Prop :=
  | in_local t v g : P t = true -> 1 <= g -> g < 2 * 2 ^ N.of_nat (wfull t v) ->
      allowed (spec_decoration t v) g -> inner_node P t v g (wtree t v g)
  | in_part t v i u x c b : P t = true -> part_of t v i = Some (u, x) -> inner_node P u x c b -> 2 <= c ->
      inner_node P t v (graft (2 ^ N.of_nat (wfull t v) + i) c) b.

  Record part_facts (t : ty) (v : val) (i : N) (u : ty) (x : val) : Prop := {
    pf_legal : legal u = true;
    pf_sized : sized u = true;
    pf_valid : valid u x;
    pf_lt : i < chunk_count_with item_basic t;
    pf_chunk : chunk_at (chunks_with packed H t v) i = root_with packed H u x;
    pf_prove : forall p, prove_element (S_ t) v i p = compute_proof H oc (S_ u) x p
  }.

  Lemma part_ok t : forall v i u x, counts t = true -> legal t = true -> sized t = true -> valid t v ->
    part_of t v i = Some (u, x) -> part_facts t v i u x.
  Proof. clear HC.
    assert (HSeq : forall t0 n l i u x, counted t0 = true -> blen l <= n -> legal t0 = true -> sized t0 = true -> Forall (valid t0) l ->
      (if item_basic t0 then None else option_map (pair t0) (nth_error l (N.to_nat i))) = Some (u, x) ->
      legal u = true /\ sized u = true /\ valid u x /\ i < (n * item_length_with item_basic t0 + 31) / 32 /\
      chunk_at (seq_chunks_with packed H t0 l) i = root_with packed H u x /\
      forall p, seq_prove_element H oc (S_ t0) n (VSeq l) i p = compute_proof H oc (S_ u) x p).
    { intros t0 n l i u x HC HB HL HR HV HE. destruct (item_basic t0) eqn:EB; [discriminate|].
      destruct (nth_error l (N.to_nat i)) as [y|] eqn:EN; [|discriminate]. injection HE as -> ->.
      assert (HI : (N.to_nat i < length l)%nat) by (apply nth_error_Some; congruence).
      assert (HI' : i < n) by (unfold blen in HB; lia).
      split; [auto|]. split; [auto|]. split; [rewrite Forall_forall in HV; apply HV; eapply nth_error_In; eauto|].
      split; [unfold item_length_with; rewrite EB; lia|]. split.
      - apply element_chunk; auto.
      - intros p. unfold seq_prove_element. replace (n <=? i) with false by lia.
        unfold index. rewrite EN. replace (i <? blen l) with true by (unfold blen; lia). reflexivity. }
    induction t using ty_ind'; intros v i u x HCt HL HR HV HE; destruct v; no_shape; try discriminate HE;
      cbn [part_of] in HE; cbn [legal sized] in HL, HR; rewrite ?andb_true_iff in HL; rewrite ?andb_true_iff in HR.
    - destruct HV as [HB HV]. destruct (HSeq t n l i u x) as (A1 & A2 & A3 & A4 & A5 & A6); auto; try tauto; [lia|]. constructor; auto.
    - destruct HV as [HB HV]. destruct (HSeq t n l i u x) as (A1 & A2 & A3 & A4 & A5 & A6); auto; try tauto; [lia|]. constructor; auto.
    - destruct HV as [HB HV]. destruct (HSeq t n l i u x) as (A1 & A2 & A3 & A4 & A5 & A6); auto; try tauto. constructor; auto.
    - apply valid_fields in HV as [HVl HV]. rewrite combine_map_l, nth_error_map in HE.
      destruct (nth_error (combine fs l) (N.to_nat i)) as [[f y]|] eqn:EN; [|discriminate]. cbn [option_map fst snd] in HE.
      injection HE as <- <-. pose proof (nth_error_In _ _ EN) as HIn. pose proof (in_combine_l _ _ _ _ HIn) as HIf.
      destruct HL as [_ HL]. destruct HR as [_ HR]. rewrite forallb_forall in HL, HR. rewrite Forall_forall in HV.
      assert (HI : (N.to_nat i < length (combine fs l))%nat) by (apply nth_error_Some; congruence).
      rewrite combine_length in HI.
      constructor; cbn [chunk_count_with]; auto.
      + apply (HV _ HIn).
      + unfold blen. lia.
      + cbn [chunks_with]. unfold chunk_at. erewrite nth_error_nth; [reflexivity|]. rewrite nth_error_map, EN. reflexivity.
      + intros p. cbn [simple_serialize container_m prove_element]. unfold container_prove_element.
        rewrite !blen_map. replace (blen fs <=? i) with false by (unfold blen; lia).
        rewrite map_map. cbn [snd]. rewrite combine_map_l, nth_error_map, EN. reflexivity.
    - destruct (IHt v i u x) as [A1 A2 A3 A4 A5 A6]; auto. constructor; auto.
    - destruct (N.eqb_spec i 0) as [->|]; [|discriminate]. injection HE as <- <-. constructor; auto; try (cbn; lia).
    - destruct (N.eqb_spec i 0) as [->|]; [|discriminate]. apply valid_variant in HV as (w & E & HV). rewrite E in HE.
      injection HE as <- <-. pose proof (nth_error_In _ _ E) as HIn. destruct HL as [_ HL]. rewrite forallb_forall in HL, HR.
      constructor; auto; try (cbn; lia).
      + apply (HL _ HIn).
      + apply (HR _ HIn).
      + cbn [chunks_with]. rewrite E. reflexivity.
      + intros p. cbn [simple_serialize union_m prove_element]. unfold union_prove_element.
        rewrite blen_map, nth_error_map, E. cbn [option_map].
        replace (blen vs <=? 0) with false; [reflexivity|].
        destruct vs; [destruct (N.to_nat i0); discriminate E|]. rewrite blen_cons. lia.
  Qed.

  Theorem with_prove_ok t v g b : inner_node provable_with t v g b -> legal t = true -> sized t = true -> valid t v -> g < 2 ^ 64 ->
    forall p, proof_index (proof p) = g ->
    exists br, compute_proof H oc (S_ t) v p = Ok (MkProver (MkProof b (branch (proof p) ++ br) g) (root_with packed H t v)) /\
      blen br = N.log2 g /\ climb H g b br = root_with packed H t v.
  Proof.
    intros HN. induction HN as [t v g HP H1 H2 HA|t v i u x c b HP HE HN IH Hc]; intros HL HR HV Hlt p Hp;
      pose proof (provable_with_depth _ HP _ HV) as HD;
      pose proof (decoration_lt H Hlen [] t HL _ HV) as HDl;
      destruct (provable_with_count t HP) as (HCi & _ & HTr);
      pose proof (decoration_ok H CONTEXT oc _ HTr _ HV) as HDk;
      pose proof (with_chunks_all32 H Hlen _ _ HV) as H32;
      (assert (HF : blen (chunks_with packed H t v) <= 2 ^ N.of_nat (full_depth (wdepth t) (spec_decoration t v)))
        by (pose proof (tree_depth_width (chunk_count_with packed t)) as EW; fold (wdepth t) in EW;
            pose proof (width_ge (chunk_count_with packed t)); pose proof (with_chunks_fit H Hlen t HR HL _ HV);
            unfold full_depth; destruct (spec_decoration t v); rewrite ?pow2_S; lia));
      pose proof (with_chunk_count_ok t HP) as HCC;
      pose proof (proj2 (with_hash_tree_root_ok H Hlen CONTEXT HC oc t HL HR v HV)) as HCh.
    - rewrite <- (wtree_root t v HV).
      destruct (compute_proof_local H Hlen oc (wdepth t) (chunks_with packed H t v) H32 (spec_decoration t v) HDl HF HD (S_ t) v
              (chunk_count_with packed t) HCC eq_refl HCh HDk p g Hp H1 H2 HA) as (br & F1 & F2 & F3 & _).
      exists br. auto.
    - destruct (part_ok t v i u x (provable_counts t HP) HL HR HV HE) as [A1 A2 A3 A4 A5 A6].
      assert (Hi : i < 2 ^ N.of_nat (wdepth t)).
      { unfold wdepth. rewrite tree_depth_width. pose proof (width_ge (chunk_count_with packed t)). lia. }
      set (a := 2 ^ N.of_nat (wfull t v) + i) in *.
      assert (Ha : 1 <= a) by (unfold a; pose proof (pow2_pos (N.of_nat (wfull t v))); lia).
      assert (Hcg : c <= graft a c).
      { unfold graft. pose proof (N.log2_spec c ltac:(lia)) as [L1 L2]. nia. }
      destruct (IH A1 A2 A3 ltac:(lia) (set_index p c) eq_refl) as (brc & E1 & E2 & E3).
      rewrite <- A6 in E1.
      destruct (compute_proof_child H Hlen oc (wdepth t) (chunks_with packed H t v) H32 (spec_decoration t v) HDl HF HD (S_ t) v
              (chunk_count_with packed t) HCC eq_refl HCh HDk p _ i c (graft a c) Hp Hi Hc eq_refl Hlt E1) as (br & F1 & F2 & F3 & _).
      exists (brc ++ br). rewrite F1. cbn [proof leaf branch set_index]. split; [|split].
      + rewrite <- app_assoc. unfold wtree in *. fold (wtree t v). rewrite wtree_root by auto. reflexivity.
      + rewrite blen_app, log2_graft by lia. rewrite E2, F2. unfold a. rewrite log2_pow_add; [fold (wfull t v); lia|].
        unfold wfull, full_depth. destruct (spec_decoration t v); rewrite ?pow2_S; lia.
      + rewrite climb_graft by (auto; lia). rewrite E3, <- A5. rewrite <- wtree_root by auto. exact F3.
  Qed.
End Prover.

Section Leaf.
  Context (H : bytes -> bytes) (Hlen : forall x, blen (H x) = 32).

  Lemma with_peel_facts t : forall v u x, peel t v = (u, x) -> legal t = true -> sized t = true -> valid t v ->
    u = resolve t /\ valid u x /\ legal u = true /\ sized u = true /\ chunks_with packed H u x = chunks_with packed H t v /\
    spec_decoration u x = spec_decoration t v /\ (forall i, part_of t v i = part_of u x i).
  Proof.
    induction t using ty_ind'; intros v u x HP HL HR HV; destruct v; no_shape; cbn [peel] in HP;
      try (injection HP as <- <-; repeat (split; auto)).
    destruct (IHt v u x HP HL HR HV) as (A1 & A2 & A3 & A4 & A5 & A6 & A7). repeat (split; auto).
  Qed.

  Context (P : ty -> bool) (HPc : forall t, P t = true -> counts t = true).

  Lemma with_leaf_local t v i : P t = true -> i < width (chunk_count_with packed t) ->
    inner_node H P t v (2 ^ N.of_nat (wfull t v) + i) (chunk_at (chunks_with packed H t v) i).
  Proof.
    intros HP Hi. rewrite <- tree_depth_width in Hi. fold (wdepth t) in Hi.
    assert (E : chunk_at (chunks_with packed H t v) i = wtree H t v (2 ^ N.of_nat (wfull t v) + i)).
    { unfold wtree, wfull. symmetry. apply local_leaf; auto. }
    rewrite E. pose proof (pow2_pos (N.of_nat (wdepth t))).
    assert (Hi' : i < 2 ^ N.of_nat (wfull t v)).
    { unfold wfull, full_depth. destruct (spec_decoration t v); rewrite ?pow2_S; lia. }
    apply in_local; auto; try lia.
    unfold allowed. rewrite log2_pow_add by auto. unfold wfull, full_depth in *.
    destruct (spec_decoration t v); [|left; auto]. right. right. rewrite pow2_S. lia.
  Qed.

  Lemma with_deco_local t v n : P t = true -> spec_decoration t v = Some n -> inner_node H P t v 3 (num_chunk n).
  Proof.
    intros HP HD. replace (num_chunk n) with (wtree H t v 3).
    - apply in_local; auto; [lia| |right; left; reflexivity].
      unfold wfull, full_depth. rewrite HD, pow2_S. pose proof (pow2_pos (N.of_nat (wdepth t))). lia.
    - unfold wtree, local_tree. rewrite HD. reflexivity.
  Qed.

  (** The root itself, or a node below it. *)
  Definition root_or_node (t : ty) (v : val) (path : Path) (g : N) (b : bytes) : Prop :=
    match path with
    | [] => g = 1 /\ b = root_with packed H t v
    | _ :: _ => inner_node H P t v g b
    end.

  Lemma inner_one t v b : valid t v -> inner_node H P t v 1 b -> b = root_with packed H t v.
  Proof.
    intros HV HN. remember 1 as g eqn:Eg. destruct HN as [t v g HP H1 H2 HA|t v i u x c b HP HE HN Hc].
    - subst g. apply wtree_root; auto.
    - exfalso. revert Eg. unfold graft. pose proof (N.log2_spec c ltac:(lia)) as [L1 L2].
      assert (2 <= 2 ^ N.log2 c).
      { change 2 with (2 ^ 1) at 1. apply N.pow_le_mono_r; [lia|]. apply N.log2_le_pow2; lia. }
      pose proof (pow2_pos (N.of_nat (wfull t v))). nia.
  Qed.

  Lemma part_node t v i u x c b path :
    legal t = true -> sized t = true -> valid t v ->
    P t = true -> part_of t v i = Some (u, x) -> 1 <= c -> root_or_node u x path c b ->
    inner_node H P t v (graft (2 ^ N.of_nat (wfull t v) + i) c) b.
  Proof.
    intros HL HR HV HP HE Hc HN.
    destruct (part_ok H Hlen [] true t v i u x (HPc t HP) HL HR HV HE) as [A1 A2 A3 A4 A5 A6].
    pose proof (counts_count t (HPc t HP)) as HCi.
    assert (HRoot : inner_node H P t v (graft (2 ^ N.of_nat (wfull t v) + i) 1) (root_with packed H u x)).
    { rewrite graft_1, <- A5. apply with_leaf_local; auto. pose proof (width_ge (chunk_count_with packed t)). lia. }
    destruct (N.eq_dec c 1) as [->|].
    - destruct path; [destruct HN as [_ ->]; exact HRoot|]. apply inner_one in HN; auto. subst b. exact HRoot.
    - destruct path; [destruct HN; contradiction|]. eapply in_part; eauto; lia.
  Qed.

  Lemma with_leaf_node path : forall t v b, legal t = true -> sized t = true -> valid t v ->
    along P t path = true -> leaf_with H t v path = Some b ->
    exists g, gindex_with item_basic t path = Some g /\ root_or_node t v path g b.
  Proof.
    induction path as [|p path IH]; intros t v b HL HR HV HA HS.
    { injection HS as <-. exists 1. split; [reflexivity|]. split; reflexivity. }
    cbn [along] in HA.
    apply andb_true_iff in HA as [HP HA]. cbn [leaf_with] in HS.
    unfold gindex_with. cbn [gindex_from_with root_or_node].
    pose proof (counts_count t (HPc t HP)) as HCi.
    (* inner step into a child *)
    assert (HIn : forall w pos u x, step_with item_basic t p = Some (w, pos, u) -> w = 2 ^ N.of_nat (wfull t v) ->
              part_of t v pos = Some (u, x) -> leaf_with H u x path = Some b ->
              exists g, gindex_from_with item_basic u (1 * w + pos) path = Some g /\ inner_node H P t v g b).
    { intros w pos u x ES Ew EC EL. pose proof (step_target item_basic t p) as HT.
      destruct (spec_step t p) as [[[w' pos'] u']|]; [|congruence].
      destruct HT as (w2 & pos2 & HT). rewrite ES in HT. injection HT as <- <- <-.
      destruct (part_ok H Hlen [] true t v pos u x (HPc t HP) HL HR HV EC) as [A1 A2 A3 A4 A5 A6].
      destruct (IH u x b A1 A2 A3) as (c & Ec & HN); auto.
      exists (graft (1 * w + pos) c). rewrite with_gindex_from_graft, Ec. split; [reflexivity|].
      rewrite N.mul_1_l, Ew. eapply part_node; eauto. eapply with_gindex_from_ge; eauto. }
    (* a local leaf *)
    assert (HLe : forall w pos u a, step_with item_basic t p = Some (w, pos, u) -> w = 2 ^ N.of_nat (wfull t v) ->
              pos < width (chunk_count_with packed t) ->
              a = chunk_at (chunks_with packed H t v) pos ->
              match path with [] => Some a | _ :: _ => None end = Some b ->
              exists g, gindex_from_with item_basic u (1 * w + pos) path = Some g /\ inner_node H P t v g b).
    { intros w pos u a ES Ew Hpos Ea EL. apply last_some in EL as [-> <-].
      exists (1 * w + pos). split; [reflexivity|]. rewrite N.mul_1_l, Ew, Ea. apply with_leaf_local; auto. }
    (* length or selector *)
    assert (HDe : forall u n, step_with item_basic t p = Some (2, 1, u) -> spec_decoration t v = Some n ->
              match path with [] => Some (num_chunk n) | _ :: _ => None end = Some b ->
              exists g, gindex_from_with item_basic u (1 * 2 + 1) path = Some g /\ inner_node H P t v g b).
    { intros u n ES ED EL. apply last_some in EL as [-> <-]. exists 3. split; [reflexivity|]. apply with_deco_local; auto. }
    clear IH HA.
    destruct (peel t v) as [r y] eqn:EP.
    destruct (with_peel_facts t v r y EP HL HR HV) as (A1 & A2 & A3 & A4 & A5 & A6 & A7).
    assert (HFD : forall n, spec_decoration r y = Some n -> 2 * width (chunk_count_with packed t) = 2 ^ N.of_nat (wfull t v)).
    { intros n En. unfold wfull, full_depth. rewrite <- A6, En, pow2_S. unfold wdepth. rewrite tree_depth_width. reflexivity. }
    assert (HFN : spec_decoration r y = None -> width (chunk_count_with packed t) = 2 ^ N.of_nat (wfull t v)).
    { intros En. unfold wfull, full_depth. rewrite <- A6, En. unfold wdepth. rewrite tree_depth_width. reflexivity. }
    assert (HCC : chunk_count_with packed t = chunk_count_with item_basic r).
    { rewrite A1, with_resolve_chunk_count. exact HCi. }
    pose proof (width_ge (chunk_count_with packed t)) as HW.
    assert (Hcounts : counts r = true).
    { rewrite A1. unfold counts. rewrite resolve_idem. exact (HPc t HP). }
    assert (Eres : resolve r = r) by (rewrite A1; apply resolve_idem).
    (* elements of a sequence *)
    assert (HSeq : forall w u n l i, p = Index i -> i < n -> blen l <= n -> counted u = true ->
              (forall j, part_of r y j = if item_basic u then None else option_map (pair u) (nth_error l (N.to_nat j))) ->
              chunks_with packed H r y = seq_chunks_with packed H u l ->
              chunk_count_with item_basic r = (n * item_length_with item_basic u + 31) / 32 ->
              small u = true -> legal u = true -> Forall (valid u) l ->
              step_with item_basic t p = Some (w, i * item_length_with item_basic u / 32, u) -> w = 2 ^ N.of_nat (wfull t v) ->
              (if item_basic u then
                 match path with
                 | [] => Some (chunk_at (spec_pack (concat (map (basic_bytes u) l))) (i * fixed_size u / 32))
                 | _ :: _ => None
                 end
               else match nth_error l (N.to_nat i) with
                    | Some x => leaf_with H u x path
                    | None => match path with [] => Some zero_chunk | _ :: _ => None end
                    end) = Some b ->
              exists g, gindex_from_with item_basic u (1 * w + i * item_length_with item_basic u / 32) path = Some g /\ inner_node H P t v g b).
    { intros w u n l i -> Hi Hl Hcn Hch Hcs Hcc Hsm Hle Hva ES Ew EL.
      pose proof (with_position_lt u n i Hi) as Hpos.
      destruct (item_basic u) eqn:EB.
      - refine (HLe _ _ _ _ ES Ew _ _ EL); [lia|]. rewrite <- A5, Hcs. unfold seq_chunks_with, item_length_with.
        rewrite item_packed, EB by auto. reflexivity.
      - assert (Ei : i * item_length_with item_basic u / 32 = i) by (unfold item_length_with; rewrite EB; lia).
        destruct (nth_error l (N.to_nat i)) as [x|] eqn:EN.
        + eapply HIn; eauto. rewrite A7, Hch, Ei, EN. reflexivity.
        + refine (HLe _ _ _ _ ES Ew _ _ EL); [lia|]. rewrite <- A5, Hcs, Ei.
          rewrite chunk_at_over; [reflexivity|]. rewrite with_seq_chunks_blen by auto.
          rewrite counted_item by auto. unfold item_length_with. rewrite EB. apply nth_error_None in EN. unfold blen. lia. }
    destruct r as [| | | |u n|u n|u n|n|n|fs| |u|vs|ts]; destruct y as [| | |l|bv|l| | |z|k z]; try discriminate HS; no_shape;
      destruct p as [i|name| |]; try discriminate HS.
    all: unfold step_with in *; rewrite <- A1 in *.
    all: unfold counts in Hcounts; rewrite Eres in Hcounts; try rewrite <- HCi in *.
    all: cbn [spec_decoration chunks_with part_of chunk_count_with] in *.
    - destruct (N.ltb_spec i n) as [Hi|]; [|discriminate].
      cbn [legal sized] in A3, A4. rewrite !andb_true_iff in A3, A4.
      eapply (HSeq _ u n l i); eauto; try apply A2; try apply A3; try apply A4. destruct A2; lia.
    - destruct (N.ltb_spec i n) as [Hi|]; [|discriminate].
      cbn [legal sized] in A3, A4. rewrite !andb_true_iff in A3, A4.
      eapply (HSeq _ u n l i); eauto; try apply A2; try apply A3; try apply A4. destruct A2; lia.
    - destruct (N.ltb_spec i n) as [Hi|]; [|discriminate].
      cbn [legal sized] in A3, A4. rewrite !andb_true_iff in A3, A4.
      eapply (HSeq _ u n l i); eauto; try apply A2; try apply A3. exact (proj1 (andb_prop _ _ (proj1 A4))).
    - eapply HDe; eauto.
    - destruct (N.ltb_spec i n) as [Hi|]; [|discriminate]. refine (HLe _ _ _ _ eq_refl _ _ _ HS); [eauto|lia|]. rewrite <- A5. reflexivity.
    - destruct (N.ltb_spec i n) as [Hi|]; [|discriminate]. refine (HLe _ _ _ _ eq_refl _ _ _ HS); [eauto|lia|]. rewrite <- A5. reflexivity.
    - destruct (field_position name fs) as [[pos u]|] eqn:EF; [|discriminate].
      destruct (nth_error l (N.to_nat pos)) as [x|] eqn:EN; [|discriminate].
      apply field_position_lt in EF as [F1 F2].
      eapply HIn; eauto. rewrite A7.
      clear - EN F2. revert fs l EN F2. induction (N.to_nat pos) as [|k IH]; intros [|f fs] [|y l]; cbn; try discriminate.
      + intros [= ->] [= ->]. reflexivity.
      + apply IH.
    - assert (E2 : 2 = 2 ^ N.of_nat (wfull t v)) by (rewrite <- (HFD _ eq_refl), HCC; reflexivity).
      destruct (N.eqb_spec i 0) as [->|]; [|discriminate].
      refine (HLe _ _ _ _ eq_refl E2 _ _ HS); [rewrite HCC; reflexivity|rewrite <- A5; reflexivity].
    - eapply HDe; eauto.
    - assert (E2 : 2 = 2 ^ N.of_nat (wfull t v)) by (rewrite <- (HFD _ eq_refl), HCC; reflexivity).
      destruct (N.eqb_spec i 1) as [->|]; [|discriminate]. cbn [N.eqb Pos.eqb] in *.
      refine (HIn _ _ _ _ eq_refl E2 _ HS). rewrite A7. reflexivity.
    - eapply HDe; eauto.
    - assert (E2 : 2 = 2 ^ N.of_nat (wfull t v)) by (rewrite <- (HFD _ eq_refl), HCC; reflexivity).
      destruct (N.eqb_spec i 0) as [->|]; [|discriminate]. destruct (valid_unit _ A2) as [vs' ->]. cbn [nth_error N.to_nat] in *.
      refine (HLe _ _ _ _ eq_refl E2 _ _ HS); [rewrite HCC; reflexivity|rewrite <- A5; reflexivity].
    - eapply HDe; eauto.
    - assert (E2 : 2 = 2 ^ N.of_nat (wfull t v)) by (rewrite <- (HFD _ eq_refl), HCC; reflexivity).
      destruct (N.eqb_spec i k) as [->|]; [|discriminate].
      destruct (nth_error vs (N.to_nat k)) as [[u|]|] eqn:EN; try discriminate.
      refine (HIn _ _ _ _ eq_refl E2 _ HS). rewrite A7. reflexivity.
    - eapply HDe; eauto.
  Qed.

End Leaf.

Section Prove.
  Context (H : bytes -> bytes) (Hlen : forall x, blen (H x) = 32).

  (** ** The prover *)

  Lemma provable_countable t p : provable_with t = true -> countable item_basic t p = true.
  Proof.
    intros HP. destruct (provable_with_count t HP) as (HCi & HB & _). rewrite HCi, <- with_resolve_chunk_count in HB.
    unfold countable. change (2 ^ 57) with 144115188075855872 in HB. change (2 ^ 64) with 18446744073709551616.
    destruct (resolve t); auto; destruct p; auto; cbn [chunk_count_with] in HB; lia.
  Qed.

  Lemma along_countable path : forall t, along provable_with t path = true -> countable_path item_basic t path = true.
  Proof.
    induction path as [|p path IH]; intros t HA; [reflexivity|]. cbn [along countable_path] in *.
    apply andb_true_iff in HA as [HP HA]. rewrite provable_countable by auto. cbn [andb].
    pose proof (step_target item_basic t p) as HT. destruct (spec_step t p) as [[[w pos] u]|].
    - destruct HT as (w' & pos' & ->). auto.
    - rewrite HT. reflexivity.
  Qed.

  Context (CONTEXT : bytes) (HC : good_context H CONTEXT) (oc : bool).
  Notation S_ := (simple_serialize H CONTEXT oc).

  Theorem with_prove_spec t v path b g :
    legal t = true -> sized t = true -> valid t v -> provable_with t = true -> along provable_with t path = true ->
    leaf_with H t v path = Some b -> gindex_with item_basic t path = Some g -> g < 2 ^ 64 ->
    exists br, prove H oc (S_ t) v path = Ok (MkProof b br g, root_with packed H t v) /\
      blen br = N.log2 g /\ climb H g b br = root_with packed H t v.
  Proof.
    intros HL HR HV HP HA HS HG Hlt. destruct (with_leaf_node H Hlen provable_with provable_counts path t v b HL HR HV HA HS) as (g' & EG & HN).
    rewrite HG in EG. injection EG as <-.
    assert (HN' : inner_node H provable_with t v g b).
    { destruct path; [|exact HN]. destruct HN as [-> ->]. rewrite <- (wtree_root H Hlen t v HV). apply in_local; auto; try lia.
      right. right. reflexivity. }
    unfold prove, generalized_index, default_generalized_index.
    rewrite (with_gindex_ok H CONTEXT oc path t 1 g); auto; [|lia|apply along_countable; auto]. cbn [bind].
    destruct (with_prove_ok H Hlen CONTEXT HC oc t v g b HN' HL HR HV Hlt (prover_from g) eq_refl) as (br & E1 & E2 & E3).
    exists br. rewrite E1. cbn [bind proof witness]. auto.
  Qed.

  Lemma with_leaf_gindex t v path b : legal t = true -> sized t = true -> valid t v -> along provable_with t path = true ->
    leaf_with H t v path = Some b -> gindex_with item_basic t path <> None.
  Proof. intros HL HR HV HA HS. destruct (with_leaf_node H Hlen provable_with provable_counts path t v b HL HR HV HA HS) as (g & E & _). congruence. Qed.
End Prove.

(** ** Agreement with the specification *)

Lemma regular_counted u : regular_element u = true -> counted u = true.
Proof.
  unfold regular_element, counted. destruct u; cbn [item_basic]; auto.
Qed.

Lemma regular_item u : regular_element u = true -> item_length_with packed u = spec_item_length u.
Proof.
  unfold regular_element, item_length_with, spec_item_length. destruct (spec_basic u), (packed u); cbn; lia.
Qed.

Lemma regular_small u : regular_element u = true -> small u = true.
Proof.
  unfold regular_element, small. intros HR. destruct (packed u); [|reflexivity]. cbn [negb orb].
  destruct (spec_basic u) eqn:EB; cbn in HR; [|lia]. pose proof (item_length_pos u) as HI. unfold spec_item_length in HI.
  rewrite EB in HI. change (2 ^ 32) with 4294967296. lia.
Qed.

Lemma regular_sized t : regular t = true -> sized t = true.
Proof.
  induction t using ty_ind'; intros HR; cbn [regular sized chunk_count_with] in *; auto; rewrite ?andb_true_iff in *.
  - destruct HR as [[R1 R2] R3]. rewrite regular_item by auto. repeat split; auto. apply regular_small; auto.
  - destruct HR as [[R1 R2] R3]. rewrite regular_item by auto. repeat split; auto. apply regular_small; auto.
  - destruct HR as [[R1 R2] R3]. repeat split; auto. apply regular_small; auto.
  - destruct HR as [R1 R2]. split; auto. rewrite forallb_forall in *. rewrite Forall_forall in H. intros f Hf. apply H; auto.
  - rewrite forallb_forall in *. rewrite Forall_forall in H. intros [u|] Hu; auto. apply (H (Some u)); auto. apply (HR _ Hu).
  - rewrite forallb_forall in *. rewrite Forall_forall in H. intros u Hu. apply H; auto.
Qed.

Lemma regular_count t : regular t = true -> chunk_count_with packed t = spec_chunk_count t.
Proof.
  induction t using ty_ind'; intros HR; cbn [regular chunk_count_with spec_chunk_count] in *; auto; rewrite ?andb_true_iff in *;
    rewrite regular_item by tauto; reflexivity.
Qed.

Lemma regular_resolve t : regular t = true -> regular (resolve t) = true.
Proof. induction t using ty_ind'; auto. Qed.

Lemma regular_provable t : regular t = true -> provable t = true -> provable_with t = true.
Proof.
  intros HR. unfold provable, provable_with. rewrite regular_count by auto. apply regular_resolve in HR.
  destruct (resolve t); auto; cbn [regular] in HR; rewrite !andb_true_iff in HR; rewrite regular_counted by tauto;
    intros HP; cbn [andb]; auto.
Qed.

Lemma regular_step t p : regular t = true -> spec_step t p <> None -> step_with item_basic t p = spec_step t p.
Proof.
  intros HR _. unfold step_with, spec_step.
  assert (HI : forall u, regular_element u = true -> item_length_with item_basic u = spec_item_length u).
  { intros u Hu. rewrite <- counted_item by (apply regular_counted; auto). apply regular_item; auto. }
  assert (HCt : chunk_count_with item_basic t = spec_chunk_count t).
  { rewrite <- with_resolve_chunk_count, <- resolve_chunk_count. apply regular_resolve in HR.
    pose proof (resolve_not_newtype t) as HN.
    destruct (resolve t); cbn [regular chunk_count_with spec_chunk_count] in *; auto;
      try (rewrite !andb_true_iff in HR; rewrite HI by tauto; reflexivity). exfalso. eapply HN. reflexivity. }
  rewrite HCt. apply regular_resolve in HR.
  destruct (resolve t); auto; destruct p; auto; cbn [regular] in HR; rewrite !andb_true_iff in HR; rewrite HI by tauto; reflexivity.
Qed.

Lemma regular_gindex path : forall t root g, regular t = true -> spec_gindex_from t root path = Some g ->
  gindex_from_with item_basic t root path = Some g.
Proof.
  induction path as [|p path IH]; intros t root g HR HG; [exact HG|]. cbn [spec_gindex_from gindex_from_with] in *.
  destruct (spec_step t p) as [[[w pos] u]|] eqn:ES; [|discriminate].
  rewrite regular_step, ES by (auto; congruence). apply IH; auto. eapply step_regular; eauto.
Qed.

Lemma regular_along path : forall t, regular t = true -> along provable t path = true -> along provable_with t path = true.
Proof.
  induction path as [|p path IH]; intros t HR HA; [reflexivity|]. cbn [along] in *. apply andb_true_iff in HA as [HP HA].
  rewrite regular_provable by auto. cbn [andb]. destruct (spec_step t p) as [[[w pos] u]|] eqn:ES; auto.
  apply IH; auto. eapply step_regular; eauto.
Qed.

Section Agree.
  Context (H : bytes -> bytes) (Hlen : forall x, blen (H x) = 32).

  Lemma regular_root t v : legal t = true -> regular t = true -> valid t v -> root_with packed H t v = spec_root H t v.
  Proof.
    intros HL HR HV. pose proof (CONTEXT_good H Hlen) as HC.
    pose proof (proj1 (hash_tree_root_ok H Hlen _ HC true t HL HR v HV)) as E1.
    pose proof (proj1 (with_hash_tree_root_ok H Hlen _ HC true t HL (regular_sized t HR) v HV)) as E2.
    congruence.
  Qed.

  Lemma basic_root u : forall x, spec_basic u = true -> fixed_size u = 32 -> valid u x -> spec_root H u x = basic_bytes u x.
  Proof.
    induction u using ty_ind'; intros x HB H32 HV; try discriminate HB; destruct x; no_shape; try discriminate H32.
    - destruct w; discriminate.
    - cbn [spec_root]. rewrite spec_pack_32; [reflexivity|]. unfold basic_bytes. cbn [spec_serialize]. apply spec_uint_blen.
    - exact (IHu x HB H32 HV).
  Qed.

  Lemma regular_leaf path : forall t v b, legal t = true -> regular t = true -> valid t v ->
    spec_leaf H t v path = Some b -> leaf_with H t v path = Some b.
  Proof.
    induction path as [|p path IH]; intros t v b HL HR HV HS; cbn [spec_leaf leaf_with] in *.
    { rewrite regular_root; auto. }
    destruct (peel t v) as [r y] eqn:EP.
    destruct (with_peel_facts H t v r y EP HL (regular_sized t HR) HV) as (A1 & A2 & A3 & _ & _).
    assert (A4 : regular r = true) by (rewrite A1; apply regular_resolve; auto). clear A1 EP HV HL HR t v.
    assert (HSeq : forall u n l i, regular_element u = true -> regular u = true -> legal u = true -> Forall (valid u) l ->
      (if i <? n then
        if spec_basic u then
         match path with
         | [] => Some (chunk_at (spec_pack (concat (map (basic_bytes u) l))) (i * spec_item_length u / 32))
         | _ :: _ => None
         end
        else match nth_error l (N.to_nat i) with
             | Some x => spec_leaf H u x path
             | None => match path with [] => Some zero_chunk | _ :: _ => None end
             end
       else None) = Some b ->
      (if i <? n then
        if item_basic u then
         match path with
         | [] => Some (chunk_at (spec_pack (concat (map (basic_bytes u) l))) (i * fixed_size u / 32))
         | _ :: _ => None
         end
        else match nth_error l (N.to_nat i) with
             | Some x => leaf_with H u x path
             | None => match path with [] => Some zero_chunk | _ :: _ => None end
             end
       else None) = Some b).
    { intros u n l i HE HR HL HV. destruct (i <? n); [|auto]. rewrite Forall_forall in HV.
      destruct (item_basic u) eqn:EI.
      { assert (EB : spec_basic u = true) by (destruct u; try discriminate EI; reflexivity).
        unfold spec_item_length. rewrite EB. auto. }
      destruct (spec_basic u) eqn:EB.
      - assert (H32 : fixed_size u = 32).
        { unfold regular_element in HE. rewrite EB in HE. destruct (packed u) eqn:EP; cbn in HE; [|lia].
          destruct u; try discriminate EI; try discriminate EB; try discriminate EP. }
        unfold spec_item_length. rewrite EB, H32. replace (i * 32 / 32) with i by lia.
        rewrite spec_pack_concat32.
        2:{ unfold all32. rewrite Forall_map, Forall_forall. intros x Hx. cbn beta. rewrite <- H32.
            apply basic_bytes_blen; auto. }
        destruct path; [|discriminate]. intros [= <-]. cbn [leaf_with].
        destruct (nth_error l (N.to_nat i)) as [x|] eqn:EN.
        + rewrite regular_root by (auto; apply HV; eapply nth_error_In; eauto).
          rewrite basic_root by (auto; apply HV; eapply nth_error_In; eauto). f_equal.
          unfold chunk_at. erewrite nth_error_nth; [reflexivity|]. rewrite nth_error_map, EN. reflexivity.
        + f_equal. symmetry. apply chunk_at_over. rewrite blen_map. apply nth_error_None in EN. unfold blen. lia.
      - destruct (nth_error l (N.to_nat i)) as [x|] eqn:EN; [|auto]. intros HS'. apply IH; auto.
        apply HV. eapply nth_error_In; eauto. }
    destruct r as [| | | |u n|u n|u n|n|n|fs| |u|vs|ts]; destruct y as [| | |l|bv|l| | |z|k z]; try discriminate HS; no_shape;
      destruct p as [i|name| |]; try discriminate HS; auto; cbn [legal regular] in A3, A4; rewrite ?andb_true_iff in A3; rewrite ?andb_true_iff in A4.
    - apply HSeq; auto; try apply A2; try apply A3; try apply A4.
    - apply HSeq; auto; try apply A2; try apply A3; try apply A4.
    - apply HSeq; auto; try apply A2; try apply A3; try apply A4.
    - destruct (field_position name fs) as [[pos u]|] eqn:EF; [|discriminate].
      destruct (nth_error l (N.to_nat pos)) as [x|] eqn:EN; [|discriminate].
      apply field_position_lt in EF as [F1 F2]. apply valid_fields in A2 as [_ A2].
      destruct A3 as [_ A3]. destruct A4 as [_ A4]. rewrite forallb_forall in A3, A4. rewrite Forall_forall in A2.
      pose proof (nth_error_In _ _ F2) as HIn. apply IH; auto.
      + apply (A3 _ HIn).
      + apply (A4 _ HIn).
      + assert (HIc : In ((name, u), x) (combine fs l)).
        { clear - EN F2. revert fs l EN F2. induction (N.to_nat pos) as [|k IH]; intros [|f fs] [|y l]; cbn; try discriminate.
          - intros [= ->] [= ->]. left. reflexivity.
          - intros. right. eapply IH; eauto. }
        apply (A2 _ HIc).
    - destruct (i =? 1); [|discriminate]. apply IH; auto.
    - destruct (N.eqb_spec i k) as [->|]; [|discriminate]. apply valid_variant in A2 as (u & EN & HV). rewrite EN in *.
      pose proof (nth_error_In _ _ EN) as HIn. destruct A3 as [_ A3]. rewrite forallb_forall in A3, A4. apply IH; auto.
      + apply (A3 _ HIn).
      + apply (A4 _ HIn).
  Qed.

  Theorem prove_spec CONTEXT (HC : good_context H CONTEXT) oc t v path b g :
    legal t = true -> regular t = true -> valid t v -> provable t = true -> along provable t path = true ->
    spec_leaf H t v path = Some b -> spec_gindex t path = Some g -> g < 2 ^ 64 ->
    exists br, prove H oc (simple_serialize H CONTEXT oc t) v path = Ok (MkProof b br g, spec_root H t v) /\
      blen br = N.log2 g /\ climb H g b br = spec_root H t v.
  Proof.
    intros HL HR HV HP HA HS HG Hlt. rewrite <- regular_root by auto.
    apply with_prove_spec; auto.
    - apply regular_sized; auto.
    - apply regular_provable; auto.
    - apply regular_along; auto.
    - apply regular_leaf; auto.
    - apply regular_gindex; auto.
  Qed.
End Agree.
