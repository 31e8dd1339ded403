(** The whole tree of a value: the nodes that paths address, and what is hashed above them. *)
From Coq Require Import String List NArith ZArith Bool Lia ZifyBool ZifyNat ZifyN.
From Coq Require Import Strings.Byte.
From Verif Require Import Prelude Types Bitvec Ser De Impls Merkleize Proofs MerkImpls Multiproofs Valid SpecSer SpecMerkle SpecMulti
  SpecPack SpecProve SpecFound SpecTree Lib SerProof SerSpec RoundTrip BitsLib ChunkLib MerkProof TreeProof RootProof GindexProof ProveProof LeafProof BindProof
  PackProof PackGindex PackProve ProbeProof FoundProof.
Import ListNotations.
Open Scope N_scope.
Ltac Zify.zify_post_hook ::= Z.div_mod_to_equations.

(** ** One tree *)

Section One.
  Context (H : bytes -> bytes) (Hlen : forall x, blen (H x) = 32).

  Lemma subtree_input_ext d : forall f g x, (forall i, f i = g i) -> subtree_input H d f x -> subtree_input H d g x.
  Proof.
    induction d as [|d IH]; intros f g x E; cbn [subtree_input]; [auto|].
    assert (ES : forall k i, shifted f k i = shifted g k i) by (intros; apply E).
    intros [HE|[HE|HE]].
    - left. rewrite HE. f_equal; apply subtree_ext; auto.
    - right. left. eapply IH; eauto.
    - right. right. eapply IH; [|exact HE]. auto.
  Qed.

  Lemma node_input d : forall h leaves p, p < 2 ^ N.of_nat d ->
    subtree_input H (d + S h) leaves (node H leaves h (2 * p) ++ node H leaves h (2 * p + 1)).
  Proof.
    induction d as [|d IH]; intros h leaves p Hp.
    - cbn in Hp. replace p with 0 by lia. cbn [Nat.add subtree_input]. left. unfold node.
      f_equal; apply subtree_ext; intros i Hi; unfold shifted; f_equal; lia.
    - rewrite pow2_S in Hp. cbn [Nat.add subtree_input]. right. destruct (N.lt_ge_cases p (2 ^ N.of_nat d)) as [HL|HG].
      + left. apply IH. exact HL.
      + right. assert (ED : 2 ^ N.of_nat (d + S h) = 2 ^ N.of_nat d * (2 * 2 ^ N.of_nat h)).
        { rewrite Nnat.Nat2N.inj_add, N.pow_add_r, pow2_S. reflexivity. }
        assert (EN : forall q, 2 ^ N.of_nat d * 2 <= q ->
                  node H leaves h q = node H (shifted leaves (2 ^ N.of_nat (d + S h))) h (q - 2 ^ N.of_nat d * 2)).
        { intros q Hq. unfold node. apply subtree_ext. intros i Hi. unfold shifted. f_equal. rewrite ED.
          pose proof (pow2_pos (N.of_nat h)). rewrite N.mul_sub_distr_r. nia. }
        rewrite !EN by lia.
        replace (2 * p - 2 ^ N.of_nat d * 2) with (2 * (p - 2 ^ N.of_nat d)) by lia.
        replace (2 * p + 1 - 2 ^ N.of_nat d * 2) with (2 * (p - 2 ^ N.of_nat d) + 1) by lia.
        apply IH. lia.
  Qed.

  Lemma heap_children D leaves g : 1 <= g -> g < 2 ^ N.of_nat D ->
    exists d h, D = (d + S h)%nat /\ N.log2 g = N.of_nat d /\
      heap H D leaves (2 * g) ++ heap H D leaves (2 * g + 1) =
      node H leaves h (2 * (g - 2 ^ N.of_nat d)) ++ node H leaves h (2 * (g - 2 ^ N.of_nat d) + 1).
  Proof.
    intros H1 H2. destruct (log2_split g H1) as (d & p & -> & Hp & Hd). rewrite <- (Nnat.N2Nat.id d) in *.
    set (e := N.to_nat d) in *.
    assert (He : (e < D)%nat).
    { destruct (Nat.ltb_spec e D); [auto|].
      assert (2 ^ N.of_nat D <= 2 ^ N.of_nat e) by (apply N.pow_le_mono_r; lia). lia. }
    exists e, (D - S e)%nat. split; [lia|]. split; [exact Hd|].
    replace (2 * (2 ^ N.of_nat e + p)) with (2 ^ N.of_nat (S e) + 2 * p) by (rewrite pow2_S; lia).
    replace (2 ^ N.of_nat (S e) + 2 * p + 1) with (2 ^ N.of_nat (S e) + (2 * p + 1)) by lia.
    assert (HS : 2 ^ N.of_nat (S e) = 2 * 2 ^ N.of_nat e) by apply pow2_S.
    rewrite (heap_at H Hlen D leaves (S e) (2 * p)), (heap_at H Hlen D leaves (S e) (2 * p + 1)) by lia.
    replace (2 ^ N.of_nat e + p - 2 ^ N.of_nat e) with p by lia. reflexivity.
  Qed.
End One.

Section Local.
  Context (H : bytes -> bytes) (Hlen : forall x, blen (H x) = 32).
  Context (cs : list bytes) (deco : option N) (D : nat).
  Notation F := (full_depth D deco).
  Notation local := (local_tree H D cs deco).

  Definition own (x : bytes) : Prop :=
    subtree_input H D (chunk_at cs) x \/
    match deco with Some n => x = spec_merkleize H D cs ++ num_chunk n | None => False end.

  Lemma local_inner a : 1 <= a -> a < 2 ^ N.of_nat F -> a <> 3 \/ deco = None -> allowed deco a ->
    local a = H (local (2 * a) ++ local (2 * a + 1)) /\ own (local (2 * a) ++ local (2 * a + 1)).
  Proof.
    intros H1 H2 H3 HA. split.
    { destruct H3 as [H3|ED]; [apply local_node; auto|]. unfold local_tree. rewrite ED in *. apply heap_node; auto. }
    unfold own, local_tree. unfold allowed in HA. unfold full_depth in *. destruct deco as [n|].
    - destruct (N.eq_dec a 1) as [->|Ha].
      + right. cbn [N.mul N.add Pos.mul Pos.add N.eqb Pos.eqb]. unfold spec_mix_in, spec_merkleize. f_equal.
        pose proof (heap_at H Hlen (S D) (chunk_at cs) 1 0 eq_refl) as E. change (2 ^ N.of_nat 1 + 0) with 2 in E. rewrite E.
        unfold node. replace (S D - 1)%nat with D by lia.
        apply subtree_ext. intros i Hi. unfold shifted. f_equal; lia.
      + left. assert (a <> 3) by (destruct H3; [auto|discriminate]).
        replace (2 * a =? 1) with false by lia. replace (2 * a + 1 =? 1) with false by lia.
        replace (2 * a =? 3) with false by lia. replace (2 * a + 1 =? 3) with false by lia.
        destruct (heap_children H Hlen (S D) (chunk_at cs) a H1 H2) as (d & h & ED & Ed & ->). rewrite Ed in HA.
        destruct HA as [HA|[HA|HA]]; [discriminate|contradiction|].
        pose proof (N.log2_spec a ltac:(lia)) as [L1 L2]. rewrite Ed in L1, L2. rewrite N.pow_succ_r' in L2.
        destruct d as [|d].
        { cbn in HA, L1, L2. lia. }
        replace D with (d + S h)%nat by lia. apply node_input; auto. pose proof (pow2_S d). lia.
    - left. destruct (heap_children H Hlen D (chunk_at cs) a H1 H2) as (d & h & -> & Ed & ->).
      apply node_input; auto. pose proof (N.log2_spec a ltac:(lia)) as [L1 L2]. rewrite Ed in L1, L2. rewrite N.pow_succ_r' in L2. lia.
  Qed.

  Lemma local_ancestor k : forall g a, (0 < k)%nat -> a = g / 2 ^ N.of_nat k -> 1 <= a -> g < 2 * 2 ^ N.of_nat F -> allowed deco g ->
    a < 2 ^ N.of_nat F /\ local a = H (local (2 * a) ++ local (2 * a + 1)) /\ own (local (2 * a) ++ local (2 * a + 1)).
  Proof.
    induction k as [|k IH]; intros g a Hk Ea Ha Hg HA; [lia|].
    rewrite pow2_S, <- N.div_div in Ea by (pose proof (pow2_pos (N.of_nat k)); lia).
    assert (Hg2 : 2 <= g).
    { destruct (N.lt_ge_cases g 2); [|auto]. rewrite (N.div_small g 2) in Ea by auto. rewrite N.div_0_l in Ea; [lia|].
      pose proof (pow2_pos (N.of_nat k)). lia. }
    destruct (half_allowed deco g Hg2 HA) as [HA' H3].
    destruct k as [|k].
    - cbn in Ea. rewrite N.div_1_r in Ea. subst a. assert (g / 2 < 2 ^ N.of_nat F) by lia. split; [auto|].
      apply local_inner; auto.
    - apply (IH (g / 2)); auto; lia.
  Qed.
End Local.

(** ** All trees *)

Section Value.
  Context (H : bytes -> bytes) (Hlen : forall x, blen (H x) = 32).
  Notation wtree := (wtree H).

  Lemma own_leaves_full t v : own_leaves t v = 2 ^ N.of_nat (wfull t v).
  Proof.
    unfold own_leaves, wfull, full_depth, wdepth. destruct (spec_decoration t v); rewrite ?pow2_S, tree_depth_width; reflexivity.
  Qed.

  Lemma own_node_local t v g : own_node H t v g = wtree t v g.
  Proof.
    unfold own_node, PackProve.wtree, local_tree, heap, node. rewrite own_leaves_full, N.log2_pow2 by lia. unfold wfull.
    set (F := full_depth _ _).
    assert (E : forall x, subtree H (N.to_nat (N.of_nat F - N.log2 x))
        (fun i => chunk_at (chunks_with packed H t v) ((x - 2 ^ N.log2 x) * 2 ^ (N.of_nat F - N.log2 x) + i)) =
      subtree H (F - N.to_nat (N.log2 x)) (shifted (chunk_at (chunks_with packed H t v)) ((x - 2 ^ N.log2 x) * 2 ^ N.of_nat (F - N.to_nat (N.log2 x))))).
    { intros x. replace (N.to_nat (N.of_nat F - N.log2 x)) with (F - N.to_nat (N.log2 x))%nat by lia.
      replace (N.of_nat (F - N.to_nat (N.log2 x))) with (N.of_nat F - N.log2 x) by lia. reflexivity. }
    rewrite !E. unfold spec_mix_in. reflexivity.
  Qed.

  Lemma value_own t : forall v g, valid t v -> N.log2 g <= N.of_nat (wfull t v) -> value_node H t v g = wtree t v g.
  Proof.
    assert (HG : forall t v g (r : bytes), N.log2 g <= N.of_nat (wfull t v) ->
              (if N.log2 g - N.log2 (own_leaves t v) =? 0 then own_node H t v g else r) = wtree t v g).
    { intros t0 v g r Hg. rewrite own_leaves_full, N.log2_pow2 by lia.
      replace (N.log2 g - N.of_nat (wfull t0 v) =? 0) with true by lia. apply own_node_local. }
    induction t using ty_ind'; intros v g HV Hg; destruct v; no_shape; try (cbn [value_node]; cbv zeta; apply HG; exact Hg).
    cbn [value_node]. rewrite IHt; auto.
  Qed.

  Lemma value_blen t : forall v g, valid t v -> blen (value_node H t v g) = 32.
  Proof.
    assert (HG : forall t v g (b : bool) (r : bytes), valid t v -> (b = false -> blen r = 32) ->
              blen (if b then own_node H t v g else r) = 32).
    { intros t0 v g b r HV Hr. destruct b; [|auto]. rewrite own_node_local.
      assert (HCh : forall i, blen (chunk_at (chunks_with packed H t0 v) i) = 32) by (intros; apply chunk_at_blen, with_chunks_all32; auto).
      unfold PackProve.wtree, local_tree. destruct (spec_decoration t0 v); [|apply heap_blen; auto].
      destruct (g =? 1); [apply Hlen|]. destruct (g =? 3); [apply num_chunk_blen|]. apply heap_blen; auto. }
    assert (HSeq : forall u l i c, (forall v g, valid u v -> blen (value_node H u v g) = 32) -> Forall (valid u) l ->
              blen (if item_basic u then zero_chunk else match nth_error l i with Some x => value_node H u x c | None => zero_chunk end) = 32).
    { intros u l i c IH HV. destruct (item_basic u); [reflexivity|]. destruct (nth_error l i) as [x|] eqn:E; [|reflexivity]. apply IH. rewrite Forall_forall in HV.
      apply HV. eapply nth_error_In; eauto. }
    induction t using ty_ind'; intros v g HV; destruct v; no_shape; cbn [value_node]; cbv zeta; try (apply HG; [exact HV|intros _]);
      try reflexivity; auto.
    - apply HSeq; auto. apply HV.
    - apply HSeq; auto. apply HV.
    - apply HSeq; auto. apply HV.
    - rewrite combine_map_l, nth_error_map. apply valid_fields in HV as [_ HV]. rewrite Forall_forall in HV, H0.
      destruct (nth_error (combine fs l) _) as [[f x]|] eqn:E; cbn [option_map fst snd]; [|reflexivity].
      pose proof (nth_error_In _ _ E) as HIn. apply (H0 f (in_combine_l _ _ _ _ HIn)). apply (HV _ HIn).
    - destruct (_ =? 0); [|reflexivity]. apply IHt, HV.
    - destruct (_ =? 0); [|reflexivity]. apply valid_variant in HV as (u & E & HV). rewrite nth_error_map, E. cbn [option_map].
      rewrite Forall_forall in H0. exact (H0 _ (nth_error_In _ _ E) v _ HV).
    - destruct (_ =? 0); [|reflexivity]. apply valid_payload in HV as (u & E & HV). rewrite nth_error_map, E. cbn [option_map].
      rewrite Forall_forall in H0. exact (H0 _ (nth_error_In _ _ E) v _ HV).
  Qed.

  (** The node of a part. *)
  Lemma graft_split w i c : i < 2 ^ w -> 1 <= c -> let g := graft (2 ^ w + i) c in
    let m := N.log2 g - w in
    m = N.log2 c /\ g / 2 ^ m = 2 ^ w + i /\ 2 ^ m + g mod 2 ^ m = c.
  Proof.
    intros Hi Hc g m. pose proof (pow2_pos w) as Pw.
    assert (Eg : N.log2 g = w + N.log2 c).
    { unfold g. rewrite log2_graft by lia. rewrite log2_pow_add by auto. lia. }
    assert (Em : m = N.log2 c) by (unfold m; lia). split; [exact Em|]. rewrite Em.
    pose proof (N.log2_spec c ltac:(lia)) as [L1 L2]. rewrite N.pow_succ_r' in L2. pose proof (pow2_pos (N.log2 c)) as Pc.
    split.
    - unfold g, graft. symmetry. apply (N.div_unique _ _ _ (c - 2 ^ N.log2 c)); lia.
    - unfold g, graft. rewrite <- (N.mod_unique ((2 ^ w + i) * 2 ^ N.log2 c + (c - 2 ^ N.log2 c)) (2 ^ N.log2 c) (2 ^ w + i) (c - 2 ^ N.log2 c)); lia.
  Qed.

  (** The nodes below leaf [i] are those of the part there; zero if there is none. *)
  Lemma value_deep t : forall v i c, valid t v -> is_transparent (resolve t) = false -> i < 2 ^ N.of_nat (wfull t v) -> 2 <= c ->
    value_node H t v (graft (2 ^ N.of_nat (wfull t v) + i) c) =
    match part_of t v i with Some (u, x) => value_node H u x c | None => zero_chunk end.
  Proof.
    assert (HG : forall t v i c (f : N -> N -> bytes) (r : bytes), i < 2 ^ N.of_nat (wfull t v) -> 2 <= c -> f i c = r ->
      let g := graft (2 ^ N.of_nat (wfull t v) + i) c in
      let w := own_leaves t v in let m := N.log2 g - N.log2 w in
      (if m =? 0 then own_node H t v g else f (g / 2 ^ m - w) (2 ^ m + g mod 2 ^ m)) = r).
    { intros t0 v i c f r Hi Hc Er. cbv zeta. rewrite !own_leaves_full, !N.log2_pow2 by lia.
      destruct (graft_split (N.of_nat (wfull t0 v)) i c Hi ltac:(lia)) as (E1 & E2 & E3). rewrite E2, E3.
      assert (1 <= N.log2 c) by (apply N.log2_le_pow2; lia).
      rewrite E1. replace (N.log2 c =? 0) with false by lia.
      replace (2 ^ N.of_nat (wfull t0 v) + i - 2 ^ N.of_nat (wfull t0 v)) with i by lia. exact Er. }
    assert (HSeq : forall u l i c, (if item_basic u then zero_chunk else match nth_error l (N.to_nat i) with Some x => value_node H u x c | None => zero_chunk end) =
      match (if item_basic u then None else option_map (pair u) (nth_error l (N.to_nat i))) with Some (u, x) => value_node H u x c | None => zero_chunk end).
    { intros u l i c. destruct (item_basic u); [reflexivity|]. destruct (nth_error l (N.to_nat i)); reflexivity. }
    induction t using ty_ind'; intros v i c HV HT Hi Hc; destruct v; no_shape; cbn [part_of];
      cbn [value_node]; cbv zeta;
      try match goal with |- (if _ then own_node H ?t ?v _ else zero_chunk) = _ => apply (HG t v i c (fun _ _ => zero_chunk)); auto; fail end.
    - apply (HG (TVector t n) (VSeq l) i c (fun i c => if item_basic t then zero_chunk else match nth_error l (N.to_nat i) with Some x => value_node H t x c | None => zero_chunk end)); auto.
    - apply (HG (TArray t n) (VSeq l) i c (fun i c => if item_basic t then zero_chunk else match nth_error l (N.to_nat i) with Some x => value_node H t x c | None => zero_chunk end)); auto.
    - apply (HG (TList t n) (VSeq l) i c (fun i c => if item_basic t then zero_chunk else match nth_error l (N.to_nat i) with Some x => value_node H t x c | None => zero_chunk end)); auto.
    - apply (HG (TContainer fs) (VStruct l) i c (fun i c => match nth_error (combine (map (fun f => value_node H (snd f)) fs) l) (N.to_nat i) with Some (f, x) => f x c | None => zero_chunk end)); auto.
      rewrite !combine_map_l, !nth_error_map. destruct (nth_error (combine fs l) (N.to_nat i)) as [[f y]|]; cbn [option_map fst snd]; reflexivity.
    - apply IHt; auto.
    - apply (HG (TOption t) (VSome v) i c (fun i c => if i =? 0 then value_node H t v c else zero_chunk)); auto. destruct (i =? 0); reflexivity.
    - apply (HG (TUnion vs) (VVariant i0 v) i c (fun i c => if i =? 0 then match nth_error (map (option_map (value_node H)) vs) (N.to_nat i0) with Some (Some f) => f v c | _ => zero_chunk end else zero_chunk)); auto.
      destruct (i =? 0); [|reflexivity]. rewrite nth_error_map. destruct (nth_error vs (N.to_nat i0)) as [[w|]|]; reflexivity.
    - discriminate HT.
  Qed.

  Lemma part_opaque t : forall v i, is_transparent (resolve t) = true -> part_of t v i = None.
  Proof. induction t using ty_ind'; intros v i HT; try discriminate HT; destruct v; cbn [part_of]; auto. Qed.

  Lemma value_part t v i u x c : valid t v -> part_of t v i = Some (u, x) -> i < 2 ^ N.of_nat (wfull t v) -> 2 <= c ->
    value_node H t v (graft (2 ^ N.of_nat (wfull t v) + i) c) = value_node H u x c.
  Proof.
    intros HV HP Hi Hc. destruct (is_transparent (resolve t)) eqn:ET.
    - rewrite (part_opaque t v i ET) in HP. discriminate.
    - rewrite value_deep, HP by auto. reflexivity.
  Qed.

  Definition inner_at (t : ty) (v : val) (a : N) : Prop :=
    value_node H t v a = H (value_node H t v (2 * a) ++ value_node H t v (2 * a + 1)) /\
    hashed_with packed H t v (value_node H t v (2 * a) ++ value_node H t v (2 * a + 1)).

  (** Elements that fill a chunk have no nodes below. *)
  Lemma whole_alone P (HPc : forall t, P t = true -> counts t = true) t v g b :
    inner_node H P t v g b -> packed t = true -> fixed_size t = 32 -> g = 1.
  Proof.
    intros HN. induction HN as [t v g HP H1 H2 HA|t v i u x c b HP HE HN IH Hc]; intros HK H32.
    - assert (E : wfull t v = 0%nat); [|rewrite E in H2; cbn in H2; lia].
      unfold wfull, wdepth, full_depth. destruct t; try discriminate HK; destruct v; try reflexivity;
        try (destruct w; discriminate H32);
        cbn [packed] in HK; cbn [fixed_size] in H32; cbn [chunk_count_with spec_decoration]; unfold item_length_with; rewrite HK, H32; reflexivity.
    - exfalso. destruct t; try discriminate HK; destruct v; try discriminate HE.
      cbn [packed part_of] in HK, HE. destruct (item_basic t) eqn:EI; [discriminate|].
      destruct (nth_error l (N.to_nat i)); [|discriminate]. cbn [option_map] in HE. assert (u = t) by congruence. subst u.
      apply HPc in HP. unfold counts in HP. cbn [resolve] in HP. unfold counted in HP. rewrite HK, EI in HP. cbn in HP. apply N.eqb_eq in HP.
      specialize (IH HK HP). lia.
  Qed.

  Lemma part_hashed P (HPc : forall t, P t = true -> counts t = true) t : forall v i u x c b y,
    valid t v -> counts t = true -> part_of t v i = Some (u, x) -> inner_node H P u x c b -> 2 <= c ->
    hashed_with packed H u x y -> hashed_with packed H t v y.
  Proof.
    assert (HSeq : forall t u i (l : list val) x c b, counted t = true ->
              (if item_basic t then None else option_map (pair t) (nth_error l i)) = Some (u, x) -> inner_node H P u x c b -> 2 <= c ->
              u = t /\ packed t = false /\ In x l).
    { intros t0 u i l x c b HK HP HN Hc. destruct (item_basic t0) eqn:EI; [discriminate|].
      destruct (nth_error l i) as [y|] eqn:EN; [|discriminate]. cbn [option_map] in HP. assert (u = t0) by congruence.
      assert (y = x) by congruence. subst u y. split; [reflexivity|]. split; [|eapply nth_error_In; eauto].
      destruct (packed t0) eqn:EP; [|reflexivity]. exfalso. unfold counted in HK. rewrite EI, EP in HK. cbn in HK. apply N.eqb_eq in HK.
      pose proof (whole_alone P HPc t0 x c b HN EP HK). lia. }
    induction t using ty_ind'; intros v i u x c b y HV HK HP HN Hc HH; destruct v; no_shape; cbn [part_of] in HP; try discriminate HP.
    - destruct (HSeq t u _ l x c b HK HP HN Hc) as (-> & EP & HI). apply (hashed_below _ _ _ _ t x); auto.
      cbn [rooted_children]. rewrite EP. cbn [children]. apply in_map_iff. eauto.
    - destruct (HSeq t u _ l x c b HK HP HN Hc) as (-> & EP & HI). apply (hashed_below _ _ _ _ t x); auto.
      cbn [rooted_children]. rewrite EP. cbn [children]. apply in_map_iff. eauto.
    - destruct (HSeq t u _ l x c b HK HP HN Hc) as (-> & EP & HI). apply (hashed_below _ _ _ _ t x); auto.
      cbn [rooted_children]. rewrite EP. cbn [children]. apply in_map_iff. eauto.
    - apply (hashed_below _ _ _ _ u x); auto. cbn [rooted_children children]. eapply nth_error_In; eauto.
    - apply (hashed_below _ _ _ _ t v); [left; reflexivity|]. eapply IHt; eauto.
    - destruct (i =? 0); [|discriminate]. assert (u = t) by congruence. assert (x = v) by congruence. subst.
      apply (hashed_below _ _ _ _ t v); auto. left; reflexivity.
    - destruct (i =? 0); [|discriminate]. destruct (nth_error vs (N.to_nat i0)) as [[w|]|] eqn:E; try discriminate.
      assert (u = w) by congruence. assert (x = v) by congruence. subst.
      apply (hashed_below _ _ _ _ w v); auto. cbn [rooted_children children]. rewrite E. left; reflexivity.
  Qed.

  (** Ancestors of a node of a part are above the part or in it. *)
  Lemma graft_ancestor A c a : 1 <= A -> 1 <= c -> ancestor a (graft A c) ->
    (exists a', ancestor a' c /\ a = graft A a') \/ a = A \/ ancestor a A.
  Proof.
    intros HA Hc [Ha (k & Hk & ->)].
    assert (ED : graft A c = A * 2 ^ N.log2 c + (c - 2 ^ N.log2 c)) by reflexivity.
    pose proof (N.log2_spec c ltac:(lia)) as [L1 L2]. rewrite N.pow_succ_r' in L2.
    destruct (N.lt_ge_cases k (N.log2 c + 1)) as [HL|HG].
    - destruct (N.eq_dec k (N.log2 c)) as [->|Hn].
      + right. left. rewrite graft_parent by auto. reflexivity.
      + left. exists (c / 2 ^ k). pose proof (pow2_pos k) as Pk.
        assert (EP : 2 ^ N.log2 c = 2 ^ (N.log2 c - k) * 2 ^ k) by (rewrite <- N.pow_add_r; f_equal; lia).
        pose proof (pow2_pos (N.log2 c - k)) as Pm.
        assert (HB : 2 ^ (N.log2 c - k) <= c / 2 ^ k) by (apply N.div_le_lower_bound; lia).
        assert (HB2 : c / 2 ^ k < 2 * 2 ^ (N.log2 c - k)) by (apply N.div_lt_upper_bound; lia).
        split; [split; [lia|exists k; auto]|].
        assert (EL : N.log2 (c / 2 ^ k) = N.log2 c - k).
        { replace (c / 2 ^ k) with (2 ^ (N.log2 c - k) + (c / 2 ^ k - 2 ^ (N.log2 c - k))) by lia. apply log2_pow_add. lia. }
        unfold graft at 2. rewrite EL. rewrite ED. pose proof (N.div_mod c (2 ^ k) ltac:(lia)) as EC.
        pose proof (N.mod_lt c (2 ^ k) ltac:(lia)) as HM.
        symmetry. apply (N.div_unique _ _ _ (c mod 2 ^ k)); [exact HM|]. rewrite EP.
        set (X := 2 ^ k) in *. set (Y := 2 ^ (N.log2 c - k)) in *. set (Q := c / X) in *. set (R := c mod X) in *.
        clearbody X Y Q R. rewrite EC. rewrite N.mul_add_distr_l, N.mul_sub_distr_l. nia.
    - right. right. split; [exact Ha|]. exists (k - N.log2 c). split; [lia|].
      replace k with (N.log2 c + (k - N.log2 c)) at 1 by lia.
      rewrite N.pow_add_r, <- N.div_div by (apply N.pow_nonzero; lia). rewrite graft_parent by auto. reflexivity.
  Qed.

  Lemma graft_below A a : 1 <= a -> 2 * graft A a = graft A (2 * a) /\ 2 * graft A a + 1 = graft A (2 * a + 1).
  Proof.
    intros Ha. destruct (log2_split a Ha) as (d & y & -> & Hy & E). unfold graft. rewrite E.
    assert (EP : 2 ^ (d + 1) = 2 * 2 ^ d) by (rewrite N.add_1_r; apply N.pow_succ_r').
    assert (E1 : N.log2 (2 * (2 ^ d + y)) = d + 1).
    { replace (2 * (2 ^ d + y)) with (2 ^ (d + 1) + 2 * y) by lia. apply log2_pow_add. lia. }
    assert (E2 : N.log2 (2 * (2 ^ d + y) + 1) = d + 1).
    { replace (2 * (2 ^ d + y) + 1) with (2 ^ (d + 1) + (2 * y + 1)) by lia. apply log2_pow_add. lia. }
    rewrite E1, E2, EP. nia.
  Qed.

  Theorem value_tree_ok P (HPc : forall t, P t = true -> counts t = true) t v g b : inner_node H P t v g b ->
    legal t = true -> sized t = true -> valid t v ->
    1 <= g /\ value_node H t v g = b /\ forall a, ancestor a g -> inner_at t v a.
  Proof.
    assert (HLoc : forall t v g, valid t v -> 1 <= g -> g < 2 * 2 ^ N.of_nat (wfull t v) -> value_node H t v g = wtree t v g).
    { intros t0 v0 g0 HV H1 H2. apply value_own; auto.
      assert (N.log2 g0 < N.of_nat (wfull t0 v0) + 1); [|lia].
      apply N.log2_lt_pow2; [lia|]. rewrite N.add_1_r, N.pow_succ_r'. exact H2. }
    assert (HAnc : forall t v g, valid t v -> g < 2 * 2 ^ N.of_nat (wfull t v) -> allowed (spec_decoration t v) g ->
              forall a, ancestor a g -> inner_at t v a).
    { intros t0 v0 g0 HV H2 HA a [Ha (k & Hk & Ek)]. rewrite <- (Nnat.N2Nat.id k) in Ek.
      destruct (local_ancestor H Hlen (chunks_with packed H t0 v0) (spec_decoration t0 v0) (wdepth t0) (N.to_nat k) g0 a ltac:(lia) Ek Ha H2 HA)
        as (A1 & A2 & A3). fold (wfull t0 v0) in A1.
      unfold inner_at. rewrite !HLoc by (auto; lia). split; [exact A2|]. apply hashed_here. exact A3. }
    intros HN. induction HN as [t v g HP H1 H2 HA|t v i u x c b HP HE HN IH Hc]; intros HL HR HV.
    - split; [exact H1|]. split; [apply HLoc; auto|]. apply HAnc; auto.
    - destruct (part_ok H Hlen [] true t v i u x (HPc t HP) HL HR HV HE) as [A1 A2 A3 A4 A5 A6].
      destruct (IH A1 A2 A3) as (_ & I2 & I3).
      assert (Hi : i < 2 ^ N.of_nat (wdepth t)).
      { rewrite <- counts_count in A4 by auto. unfold wdepth. rewrite tree_depth_width. pose proof (width_ge (chunk_count_with packed t)). lia. }
      pose proof (pow2_pos (N.of_nat (wdepth t))) as Pd.
      assert (Hi' : i < 2 ^ N.of_nat (wfull t v)).
      { unfold wfull, full_depth. destruct (spec_decoration t v); rewrite ?pow2_S; lia. }
      assert (HAl : allowed (spec_decoration t v) (2 ^ N.of_nat (wfull t v) + i)).
      { unfold allowed. rewrite log2_pow_add by auto. unfold wfull, full_depth in *.
        destruct (spec_decoration t v); [|left; auto]. right. right. rewrite pow2_S. lia. }
      pose proof (pow2_pos (N.of_nat (wfull t v))) as Pf.
      assert (HC : forall c', 1 <= c' -> value_node H t v (graft (2 ^ N.of_nat (wfull t v) + i) c') = value_node H u x c').
      { intros c' Hc'. destruct (N.eq_dec c' 1) as [->|]; [|apply value_part; auto; lia].
        rewrite graft_1. rewrite HLoc by (auto; lia). unfold PackProve.wtree, wfull. rewrite local_leaf by auto. rewrite A5.
        rewrite value_own by (auto; apply N.le_0_l). symmetry. apply wtree_root; auto. }
      set (A := 2 ^ N.of_nat (wfull t v) + i) in *.
      split. { unfold graft. pose proof (N.log2_spec c ltac:(lia)) as [L1 L2]. nia. }
      split; [rewrite HC by lia; exact I2|]. intros a Han.
      assert (HB : forall a', ancestor a' c -> inner_at t v (graft A a')).
      { intros a' Ha'. destruct (I3 a' Ha') as [J1 J2]. destruct Ha' as [Ha' _]. unfold inner_at.
        destruct (graft_below A a' Ha') as [G1 G2]. rewrite G1, <- G1, G2, G1. rewrite !HC by lia.
        split; [exact J1|]. eapply part_hashed; eauto. }
      destruct (graft_ancestor A c a ltac:(lia) ltac:(lia) Han) as [(a' & Ha' & ->)|[->|Ha]].
      + apply HB. exact Ha'.
      + rewrite <- (graft_1 A). apply HB. split; [lia|]. exists (N.log2 c). split.
        * assert (1 <= N.log2 c) by (apply N.log2_le_pow2; lia). lia.
        * pose proof (N.log2_spec c ltac:(lia)) as [L1 L2]. rewrite N.pow_succ_r' in L2.
          apply (N.div_unique _ _ _ (c - 2 ^ N.log2 c)); lia.
      + apply (HAnc t v A); auto. unfold A. lia.
  Qed.

  (** The node that a path addresses. *)
  Theorem path_node t v path b g : legal t = true -> sized t = true -> valid t v -> along counts t path = true ->
    leaf_with H t v path = Some b -> gindex_with item_basic t path = Some g ->
    1 <= g /\ value_node H t v g = b /\ (forall a, ancestor a g -> inner_at t v a) /\
    value_node H t v 1 = root_with packed H t v.
  Proof.
    intros HL HR HV HA HS HG. destruct (with_leaf_node H Hlen counts (fun _ E => E) path t v b HL HR HV HA HS) as (g' & EG & HN).
    rewrite HG in EG. assert (g' = g) by congruence. subst g'.
    assert (E1 : value_node H t v 1 = root_with packed H t v).
    { rewrite value_own by (auto; apply N.le_0_l). apply wtree_root; auto. }
    destruct path as [|p path].
    - destruct HN as [-> ->]. split; [lia|]. split; [exact E1|]. split; [|exact E1].
      intros a [Ha (k & Hk & Ek)]. exfalso. rewrite N.div_small in Ek; [lia|]. apply N.pow_gt_1; lia.
    - destruct (value_tree_ok counts (fun _ E => E) t v g b HN HL HR HV) as (I1 & I2 & I3). auto.
  Qed.
End Value.

(** ** Branches in a tree *)

Lemma branch_of_1 : branch_of 1 = [].
Proof. reflexivity. Qed.

Lemma branch_of_step g : 2 <= g -> branch_of g = spec_sibling g :: branch_of (g / 2).
Proof.
  intros Hg. unfold branch_of.
  assert (EL : N.log2 g = N.succ (N.log2 (g / 2))).
  { rewrite <- (N.log2_double (g / 2)) by lia. symmetry.
    destruct (N.eq_dec (g mod 2) 0) as [E|E].
    - f_equal. lia.
    - replace g with (2 * (g / 2) + 1) at 2 by lia. rewrite N.log2_succ_double, N.log2_double by lia. reflexivity. }
  rewrite EL, Nnat.N2Nat.inj_succ. cbn [seq map]. rewrite N.div_1_r. f_equal.
  rewrite <- seq_shift, map_map. apply map_ext. intros k. rewrite Nnat.Nat2N.inj_succ, N.pow_succ_r', N.div_div by lia. reflexivity.
Qed.

Lemma ancestor_half g : 2 <= g -> ancestor (g / 2) g.
Proof. intros Hg. split; [lia|]. exists 1. split; [lia|reflexivity]. Qed.

Lemma ancestor_up a g : ancestor a (g / 2) -> ancestor a g.
Proof.
  intros [Ha (k & Hk & E)]. split; [exact Ha|]. exists (N.succ k). split; [lia|].
  rewrite N.pow_succ_r', <- N.div_div by (try apply N.pow_nonzero; lia). exact E.
Qed.

Lemma log2_half g : 2 <= g -> N.log2 g = N.log2 (g / 2) + 1.
Proof.
  intros Hg. pose proof (f_equal (@length N) (branch_of_step g Hg)) as E. unfold branch_of in E. cbn [length] in E.
  rewrite !map_length, !seq_length in E. lia.
Qed.

Lemma sibling_pair (M : N -> bytes) g : 2 <= g ->
  M (2 * (g / 2)) ++ M (2 * (g / 2) + 1) = if N.odd g then M (spec_sibling g) ++ M g else M g ++ M (spec_sibling g).
Proof.
  intros Hg. unfold spec_sibling. rewrite <- N.negb_odd. destruct (N.odd g) eqn:EO; cbn [negb].
  - apply N.odd_spec in EO as [k ->]. replace ((2 * k + 1) / 2) with k by lia. f_equal; f_equal; lia.
  - assert (EE : N.even g = true) by (rewrite <- N.negb_odd, EO; reflexivity).
    apply N.even_spec in EE as [k ->]. replace (2 * k / 2) with k by lia. reflexivity.
Qed.

Section Climb.
  Context (H : bytes -> bytes) (Hlen : forall x, blen (H x) = 32).

  Lemma climb_honest (M : N -> bytes) n : forall g, N.to_nat (N.log2 g) = n -> 1 <= g ->
    (forall a, ancestor a g -> M a = H (M (2 * a) ++ M (2 * a + 1))) ->
    climb H g (M g) (map M (branch_of g)) = M 1.
  Proof.
    clear Hlen. induction n as [|n IH]; intros g EN Hg HM.
    - assert (g = 1) as ->; [|reflexivity].
      destruct (N.eq_dec g 1); [auto|]. pose proof (log2_half g ltac:(lia)). lia.
    - assert (Hg2 : 2 <= g). { destruct (N.eq_dec g 1) as [->|]; [discriminate|lia]. }
      rewrite branch_of_step by exact Hg2. cbn [map climb]. rewrite <- sibling_pair by exact Hg2.
      rewrite <- HM by (apply ancestor_half; exact Hg2). apply IH.
      + pose proof (log2_half g Hg2). lia.
      + lia.
      + intros a Ha. apply HM, ancestor_up, Ha.
  Qed.

  Lemma climb_sound (M : N -> bytes) (AM : forall g, blen (M g) = 32) branch : forall g leaf,
    blen branch = N.log2 g -> 1 <= g -> blen leaf = 32 -> all32 branch ->
    (forall a, ancestor a g -> M a = H (M (2 * a) ++ M (2 * a + 1))) ->
    climb H g leaf branch = M 1 ->
    (leaf = M g /\ branch = map M (branch_of g)) \/
    exists x a, In x (climb_inputs H g leaf branch) /\ ancestor a g /\
                x <> M (2 * a) ++ M (2 * a + 1) /\ H x = H (M (2 * a) ++ M (2 * a + 1)).
  Proof.
    induction branch as [|s r IH]; intros g leaf HB Hg HL HA HM HC.
    - assert (g = 1) as ->.
      { destruct (N.eq_dec g 1); [auto|]. pose proof (log2_half g ltac:(lia)). cbn in HB. lia. }
      left. split; [exact HC|reflexivity].
    - inversion HA as [|? ? A1 A2]; subst.
      assert (Hg2 : 2 <= g). { destruct (N.eq_dec g 1) as [->|]; [discriminate|lia]. }
      cbn [climb climb_inputs] in *. set (x := if N.odd g then s ++ leaf else leaf ++ s) in *.
      destruct (IH (g / 2) (H x)) as [[E1 E2]|(y & a & HI & Ha & HX)]; auto.
      + pose proof (log2_half g Hg2). unfold blen in *. cbn [length] in HB. lia.
      + lia.
      + intros a Ha. apply HM, ancestor_up, Ha.
      + rewrite HM in E1 by (apply ancestor_half; exact Hg2).
        destruct (bytes_dec x (M (2 * (g / 2)) ++ M (2 * (g / 2) + 1))) as [EX|NX].
        * left. rewrite (branch_of_step g Hg2). cbn [map]. rewrite sibling_pair in EX by exact Hg2. unfold x in EX.
          destruct (N.odd g); apply app_split in EX as [X1 X2]; rewrite ?AM; auto; subst; auto.
        * right. exists x, (g / 2). split; [now left|]. split; [apply ancestor_half; exact Hg2|]. auto.
      + right. exists y, a. split; [now right|]. split; [apply ancestor_up, Ha|exact HX].
  Qed.
End Climb.

(** ** Types as in the specification *)

Lemma regular_counts t : regular t = true -> counts t = true.
Proof.
  intros HR. apply regular_resolve in HR. unfold counts.
  destruct (resolve t); auto; cbn [regular] in HR; rewrite !andb_true_iff in HR; apply regular_counted; tauto.
Qed.

Lemma regular_along_counts path : forall t, regular t = true -> along counts t path = true.
Proof.
  induction path as [|p path IH]; intros t HR; [reflexivity|]. cbn [along].
  rewrite regular_counts by auto. cbn [andb]. destruct (spec_step t p) as [[[w pos] u]|] eqn:ES; auto.
  apply IH; auto. eapply step_regular; eauto.
Qed.
