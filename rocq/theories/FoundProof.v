(** What a proof contains when it is made. *)
From Coq Require Import String List NArith ZArith Bool Lia ZifyBool ZifyNat ZifyN.
From Coq Require Import Strings.Byte.
From Verif Require Import Prelude Types Bitvec Ser De Impls Merkleize Proofs MerkImpls Multiproofs Valid SpecSer SpecMerkle
  SpecPack SpecProve SpecFound Lib SerProof SerSpec RoundTrip BitsLib ChunkLib MerkProof TreeProof RootProof GindexProof ProveProof LeafProof BindProof
  PackProof PackGindex PackProve ProbeProof.
Import ListNotations.
Open Scope N_scope.
Ltac Zify.zify_post_hook ::= Z.div_mod_to_equations.

Lemma bind_ok {E A B} (x : res E A) (f : A -> res E B) b : bind x f = Ok b -> exists a, x = Ok a /\ f a = Ok b.
Proof. destruct x; cbn [bind]; intros E0; [eauto|discriminate|discriminate]. Qed.

(** [p] with a leaf, a longer branch and a witness. *)
Definition filled (p : Prover) (b : bytes) (br : list bytes) (g : N) (w : bytes) : Prover :=
  MkProver (MkProof b (branch (proof p) ++ br) g) w.

Section Any.
  Context (H : bytes -> bytes) (Hlen : forall x, blen (H x) = 32) (oc : bool).
  Context (cs : list bytes) (HCs : all32 cs).
  Context (deco : option N) (Hdeco : match deco with Some n => n < 2 ^ 64 | None => True end).
  Context (cc : N).
  Notation F := (full_depth (tree_depth cc) deco).
  Notation local := (local_tree H (tree_depth cc) cs deco).
  Context (Hdepth : (F <= 60)%nat).

  Fixpoint local_siblings (d : nat) (g : N) : list bytes :=
    match d with
    | O => []
    | S d => local (beside g) :: local_siblings d (g / 2)
    end.

  Lemma extend_found T k : forall g p, (F <= 57)%nat -> holds T (2 * 2 ^ N.of_nat F) local ->
    N.log2 g = N.of_nat k -> 1 <= g -> g < 2 * 2 ^ N.of_nat F ->
    extend_branches oc k (concat T) g p =
      Ok (filled p (leaf (proof p)) (local_siblings k g) (proof_index (proof p)) (witness p)).
  Proof. clear Hdepth.
    intros g p Hdepth.
    assert (HU : 2 * 2 ^ N.of_nat F * 32 < USIZE).
    { assert (2 ^ N.of_nat F <= 2 ^ 57) by (apply N.pow_le_mono_r; lia).
      change (2 ^ 57) with 144115188075855872 in *. change USIZE with 18446744073709551616. lia. }
    revert g p. induction k as [|k IH]; intros g p HT Hk H1 H2.
    - unfold filled. cbn [local_siblings extend_branches]. rewrite app_nil_r. destruct p as [[]]; reflexivity.
    - assert (H3 : 2 <= g).
      { destruct (N.eq_dec g 1) as [->|]; [cbn in Hk; lia|lia]. }
      assert (Hodd : N.odd g = negb (g mod 2 =? 0)).
      { rewrite <- N.bit0_odd, N.bit0_eqb. destruct (N.eqb_spec (g mod 2) 1), (N.eqb_spec (g mod 2) 0); try reflexivity; lia. }
      assert (EI : (if negb (g mod 2 =? 0) then tree_index oc (concat T) (g - 1)
                    else do t <- uadd oc g 1; tree_index oc (concat T) t) = Ok (local (beside g))).
      { unfold beside. rewrite Hodd. destruct (g mod 2 =? 0) eqn:E0; cbn [negb].
        - rewrite uadd_ok by lia. cbn [bind]. apply (tree_index_ok oc _ _ _ _ HT); lia.
        - apply (tree_index_ok oc _ _ _ _ HT); lia. }
      cbn [extend_branches]. rewrite EI. cbn [bind]. unfold extend_branch.
      rewrite to_node_ok by (apply local_blen; auto). cbn [bind]. rewrite IH; auto; try lia.
      + unfold filled. cbn [proof leaf branch proof_index witness local_siblings]. rewrite <- app_assoc. reflexivity.
      + destruct (log2_split g H1) as (d & y & -> & Hy & E). rewrite E in Hk. subst d.
        rewrite pow2_S in *. replace ((2 * 2 ^ N.of_nat k + y) / 2) with (2 ^ N.of_nat k + y / 2) by lia.
        apply log2_pow_add. lia.
  Qed.

  Lemma half_allowed g : 2 <= g -> allowed deco g -> allowed deco (g / 2) /\ (g / 2 <> 3 \/ deco = None).
  Proof. clear.
    intros Hg HA. assert (H1 : blen (@nil bytes) <= 2 ^ N.of_nat (full_depth 0 deco)) by apply N.le_0_l.
    assert (H2 : (full_depth 0 deco <= 57)%nat) by (unfold full_depth; destruct deco; lia).
    split; [exact (allowed_half' 0 [] deco H1 H2 g Hg HA)|]. destruct (allowed_half 0 [] deco H1 H2 g Hg HA) as [[]|]; auto.
  Qed.

  Lemma parent_local g : 2 <= g -> g < 2 * 2 ^ N.of_nat F -> allowed deco g ->
    local (g / 2) = H (local (2 * (g / 2)) ++ local (2 * (g / 2) + 1)).
  Proof. clear HCs Hdeco Hdepth.
    intros H1 H2 HA. destruct (half_allowed g H1 HA) as [HA' [H3|ED]].
    - apply local_node; auto; lia.
    - unfold local_tree. rewrite ED. apply heap_node; auto; [lia|]. rewrite ED in H2. lia.
  Qed.

  Lemma climb_local k : forall g, N.log2 g = N.of_nat k -> 1 <= g -> g < 2 * 2 ^ N.of_nat F -> allowed deco g ->
    climb H g (local g) (local_siblings k g) = local 1.
  Proof. clear HCs Hdeco Hdepth.
    induction k as [|k IH]; intros g Hk H1 H2 HA.
    - cbn [local_siblings climb]. destruct (log2_split g H1) as (d & y & -> & Hy & E). rewrite E in Hk. subst d.
      cbn in Hy. cbn. replace y with 0 by lia. reflexivity.
    - assert (H3 : 2 <= g).
      { destruct (N.eq_dec g 1) as [->|]; [cbn in Hk; lia|lia]. }
      assert (Hodd : N.odd g = negb (g mod 2 =? 0)).
      { rewrite <- N.bit0_odd, N.bit0_eqb. destruct (N.eqb_spec (g mod 2) 1), (N.eqb_spec (g mod 2) 0); try reflexivity; lia. }
      cbn [local_siblings climb].
      rewrite <- (IH (g / 2)); try lia.
      + f_equal. rewrite (parent_local g) by auto. f_equal.
        unfold beside. rewrite Hodd. destruct (N.eqb_spec (g mod 2) 0); cbn [negb].
        * replace (2 * (g / 2)) with g by lia. reflexivity.
        * replace (2 * (g / 2)) with (g - 1) by lia. replace (g - 1 + 1) with g by lia. reflexivity.
      + destruct (log2_split g H1) as (d & y & -> & Hy & E). rewrite E in Hk. subst d.
        rewrite pow2_S in *. replace ((2 * 2 ^ N.of_nat k + y) / 2) with (2 ^ N.of_nat k + y / 2) by lia.
        apply log2_pow_add. lia.
      + apply half_allowed; auto.
  Qed.

  Context (T : SimpleSerialize) (v : val).
  Context (Hcc : chunk_count T = Ok cc) (Hcs : chunks T v = Ok (concat cs)) (Hdec : decoration T v = deco).

  Lemma finish_found a g here p q : 1 <= a -> a < 2 * 2 ^ N.of_nat F -> (here = true -> g = a) -> proof_index (proof p) = g ->
    finish H oc deco cc T v (N.log2 a) a g here p = Ok q ->
    q = filled p (if here : bool then local g else leaf (proof p)) (local_siblings (N.to_nat (N.log2 a)) a) g (local 1).
  Proof.
    intros H1 H2 Hl Hp. unfold finish. rewrite Hcs. cbn [bind]. destruct (fits cs deco cc) eqn:EF.
    - unfold fits in EF. apply andb_true_iff in EF as [E1 E2]. apply N.leb_le in E1, E2.
      assert (HD : (F <= 57)%nat).
      { destruct (Compare_dec.le_lt_dec F 57); auto. exfalso.
        assert (2 ^ 58 <= 2 ^ N.of_nat F) by (apply N.pow_le_mono_r; lia). change (2 ^ 58) with (2 * 2 ^ 57) in *. lia. }
      change (2 ^ 57) with 144115188075855872 in E1.
      assert (HU : USIZE = 18446744073709551616) by reflexivity.
      destruct (tree_ok H Hlen oc (tree_depth cc) cs HCs deco Hdeco E2 HD T v cc eq_refl Hdec) as (Tr & ET & HT).
      destruct (compute_merkle_tree H oc (concat cs) (2 ^ N.of_nat F)) as [tree| |]; cbn [bind] in *; try discriminate ET.
      rewrite ET. cbn [bind]. intros E.
      apply bind_ok in E as (p1 & EL & E).
      assert (Ep1 : p1 = MkProver (MkProof (if here then local g else leaf (proof p)) (branch (proof p)) g) (witness p)).
      { destruct here.
        - rewrite Hl in EL |- * by auto. rewrite (tree_index_ok oc _ _ _ a HT) in EL by lia. cbn [bind] in EL.
          unfold set_leaf in EL. rewrite to_node_ok in EL by (apply local_blen; auto). cbn [bind] in EL.
          rewrite Hp, Hl in EL by auto. congruence.
        - assert (p1 = p) by congruence. subst p1. destruct p as [[]]. cbn in Hp |- *. congruence. }
      subst p1. rewrite (extend_found Tr (N.to_nat (N.log2 a)) a _ HD HT) in E by (rewrite ?Nnat.N2Nat.id; auto).
      cbn [bind] in E. rewrite (tree_index_ok oc _ _ _ 1 HT) in E by lia. cbn [bind] in E. unfold set_witness in E.
      rewrite to_node_ok in E by (apply local_blen; auto). cbn [bind] in E.
      unfold filled in *. cbn [proof leaf branch proof_index witness] in *. congruence.
    - destruct (tree_panics H oc cs HCs deco cc Hdepth EF) as [x ->]. discriminate.
  Qed.

  Lemma compute_found p g q b br :
    proof_index (proof p) = g -> g < 2 ^ 64 -> compute_proof H oc T v p = Ok q ->
    (forall m q', m = N.log2 g - N.of_nat F -> 1 <= m ->
       prove_element T v (g / 2 ^ m - 2 ^ N.of_nat F) (set_index p (2 ^ m + g mod 2 ^ m)) = Ok q' ->
       exists w, q' = filled (set_index p (2 ^ m + g mod 2 ^ m)) b br (2 ^ m + g mod 2 ^ m) w) ->
    let m := N.log2 g - N.of_nat F in
    let up := local_siblings (N.to_nat (N.log2 (g / 2 ^ m))) (g / 2 ^ m) in
    1 <= g /\ q = filled p (if m =? 0 then local g else b) (if m =? 0 then up else br ++ up) g (local 1) /\
    (m = 0 \/ exists q', prove_element T v (g / 2 ^ m - 2 ^ N.of_nat F) (set_index p (2 ^ m + g mod 2 ^ m)) = Ok q').
  Proof.
    intros Hp Hlt. unfold compute_proof. rewrite Hcc. cbn [bind]. rewrite Hdec, Hp.
    pose proof (leaf_count_any oc deco cc Hdepth) as EL. destruct (next_power_of_two oc cc) as [lc| |]; cbn [bind] in *; try discriminate EL.
    rewrite EL. cbn [bind].
    destruct (N.eqb_spec g 0) as [->|Hg].
    { rewrite (coordinates_zero oc deco cc Hdepth). discriminate. }
    assert (HB : 2 ^ N.of_nat F <= 2 ^ 60) by (apply N.pow_le_mono_r; lia).
    change (2 ^ 60) with 1152921504606846976 in HB.
    pose proof (N.log2_spec g ltac:(lia)) as [G1 G2]. rewrite N.pow_succ_r' in G2.
    cbv zeta. intros E HI. split; [lia|]. revert E HI.
    destruct (N.eqb_spec (N.log2 g - N.of_nat F) 0) as [Hm|Hm].
    - assert (Hg2 : g < 2 * 2 ^ N.of_nat F).
      { assert (2 ^ N.log2 g <= 2 ^ N.of_nat F) by (apply N.pow_le_mono_r; lia). lia. }
      rewrite (coordinates_any oc deco cc Hdepth g 1 g) by (auto; try lia; rewrite graft_1; reflexivity). cbn [bind].
      rewrite N.ltb_irrefl. cbn [negb bind]. intros E _. split; [|auto]. rewrite Hm. change (2 ^ 0) with 1. rewrite N.div_1_r.
      apply (finish_found g g true p q) in E; auto; lia.
    - set (m := N.log2 g - N.of_nat F) in *.
      set (a := g / 2 ^ m) in *. set (c := 2 ^ m + g mod 2 ^ m) in *.
      pose proof (pow2_pos m) as Pm. pose proof (N.mod_lt g (2 ^ m) ltac:(lia)) as Hr.
      pose proof (N.div_mod g (2 ^ m) ltac:(lia)) as EG. fold a in EG.
      assert (EF : 2 ^ N.log2 g = 2 ^ N.of_nat F * 2 ^ m).
      { rewrite <- N.pow_add_r. f_equal. unfold m. lia. }
      assert (Ha1 : 2 ^ N.of_nat F <= a).
      { unfold a. apply N.div_le_lower_bound; lia. }
      assert (Ha2 : a < 2 * 2 ^ N.of_nat F).
      { unfold a. apply N.div_lt_upper_bound; lia. }
      assert (Ec : N.log2 c = m).
      { unfold c. apply log2_pow_add. auto. }
      assert (Hgr : g = graft a c).
      { unfold graft. rewrite Ec. unfold c. lia. }
      pose proof (pow2_pos (N.of_nat F)) as PF.
      assert (Ea : N.log2 a = N.of_nat F).
      { replace a with (2 ^ N.of_nat F + (a - 2 ^ N.of_nat F)) by lia. apply log2_pow_add. lia. }
      rewrite (coordinates_any oc deco cc Hdepth a c g) by (auto; lia). rewrite Ea. cbn [bind].
      assert (H2m : 2 <= 2 ^ m).
      { change 2 with (2 ^ 1) at 1. apply N.pow_le_mono_r; lia. }
      assert (Hag : a < g) by nia.
      replace (a <? g) with true by lia. cbn [negb].
      pose proof (log2_lt_64 g Hlt) as Hl.
      unfold get_depth, log_2. replace (g =? 0) with false by lia. cbn [bind].
      rewrite usub_ok by lia. cbn [bind]. fold m.
      rewrite upow2_ok by lia. cbn [bind]. unfold urem. replace (2 ^ m =? 0) with false by lia. cbn [bind].
      assert (Hcg : c <= g) by nia.
      rewrite uadd_ok by (change USIZE with (2 ^ 64); unfold c in Hcg; lia). cbn [bind]. fold c.
      intros E HI. apply bind_ok in E as (q2 & E2 & E). apply bind_ok in E2 as (q1 & E1 & E2).
      specialize (HI m q1 eq_refl ltac:(lia)). fold a c in HI. destruct (HI E1) as [w HI']. split; [|right; eauto].
      assert (q2 = set_index q1 g) by congruence. subst q2. clear E2.
      pose proof (finish_found a g false (set_index q1 g) q ltac:(lia) Ha2 ltac:(discriminate) eq_refl) as HF. rewrite Ea in HF.
      rewrite (HF E). rewrite HI'. unfold filled, set_index. cbn [proof leaf branch proof_index witness]. rewrite <- app_assoc. reflexivity.
  Qed.
End Any.

(** ** Every type *)

Section Found.
  Context (H : bytes -> bytes) (Hlen : forall x, blen (H x) = 32).
  Context (CONTEXT : bytes) (HC : good_context H CONTEXT) (oc : bool).
  Notation S_ := (simple_serialize H CONTEXT oc).

  Lemma number_ok t : forall v, valid t v -> decoration (S_ t) v = number t v.
  Proof. clear HC Hlen.
    induction t using ty_ind'; intros v HV; destruct v; no_shape; try reflexivity. exact (IHt v HV).
  Qed.

  Notation local t v := (local_tree H (tree_depth (chunk_count_with item_basic t)) (chunks_with packed H t v) (decoration (S_ t) v)).
  Notation depth t v := (full_depth (tree_depth (chunk_count_with item_basic t)) (decoration (S_ t) v)).

  Lemma tree_node_local t v g : valid t v -> legal t = true -> tree_node H t v g = local t v g.
  Proof. clear HC Hlen.
    intros HV HL. unfold tree_node, local_tree, heap, node.
    rewrite (leaves_depth H CONTEXT oc t v HV HL), N.log2_pow2 by lia. rewrite (number_ok t v HV).
    set (F := full_depth _ _).
    assert (E : forall g, subtree H (N.to_nat (N.of_nat F - N.log2 g))
        (fun i => chunk_at (chunks_with packed H t v) ((g - 2 ^ N.log2 g) * 2 ^ (N.of_nat F - N.log2 g) + i)) =
      subtree H (F - N.to_nat (N.log2 g)) (shifted (chunk_at (chunks_with packed H t v)) ((g - 2 ^ N.log2 g) * 2 ^ N.of_nat (F - N.to_nat (N.log2 g))))).
    { intros x. replace (N.to_nat (N.of_nat F - N.log2 x)) with (F - N.to_nat (N.log2 x))%nat by lia.
      replace (N.of_nat (F - N.to_nat (N.log2 x))) with (N.of_nat F - N.log2 x) by lia. reflexivity. }
    rewrite !E. unfold spec_mix_in. reflexivity.
  Qed.

  Lemma siblings_local t v d : forall g, valid t v -> legal t = true ->
    siblings H t v d g = local_siblings H (chunks_with packed H t v) (decoration (S_ t) v) (chunk_count_with item_basic t) d g.
  Proof. clear HC Hlen.
    induction d as [|d IH]; intros g HV HL; cbn [siblings local_siblings]; [reflexivity|].
    rewrite tree_node_local, IH by auto. reflexivity.
  Qed.

  Definition finds (t : ty) : Prop := forall v g p q, legal t = true -> sized t = true -> addressable t = true -> valid t v ->
    g < 2 ^ 64 -> proof_index (proof p) = g -> compute_proof H oc (S_ t) v p = Ok q ->
    1 <= g /\ q = filled p (fst (found H t v g)) (snd (found H t v g)) g (tree_node H t v 1) /\
    blen (snd (found H t v g)) = N.log2 g.

  Lemma siblings_blen t v d : forall g, blen (siblings H t v d g) = N.of_nat d.
  Proof. clear. induction d as [|d IH]; intros g; cbn [siblings]; [reflexivity|]. rewrite blen_cons, IH. lia. Qed.

  (** The two parts of an index. *)
  Lemma split_index t g : 1 <= g -> leaves t = 2 ^ N.log2 (leaves t) -> let m := N.log2 g - N.log2 (leaves t) in
    let a := g / 2 ^ m in let c := 2 ^ m + g mod 2 ^ m in
    1 <= a /\ a < 2 * leaves t /\ N.log2 c = m /\ 1 <= c /\ g = graft a c /\ N.log2 a + m = N.log2 g /\ (1 <= m -> leaves t <= a).
  Proof. clear.
    intros Hg EL m a c. set (f := N.log2 (leaves t)) in *. rewrite EL. clearbody f. clear EL t.
    pose proof (N.log2_spec g ltac:(lia)) as [G1 G2]. rewrite N.pow_succ_r' in G2.
    pose proof (pow2_pos m) as Pm. pose proof (N.mod_lt g (2 ^ m) ltac:(lia)) as Hr.
    pose proof (N.div_mod g (2 ^ m) ltac:(lia)) as EG. fold a in EG.
    assert (Ec : N.log2 c = m) by (apply log2_pow_add; auto).
    assert (Hgr : g = graft a c) by (unfold graft; rewrite Ec; unfold c; lia).
    pose proof (pow2_pos f) as Pf.
    assert (HA : 1 <= a /\ a < 2 * 2 ^ f /\ (1 <= m -> 2 ^ f <= a)).
    { destruct (N.eq_dec m 0) as [Em|Em].
      - assert (a = g) by (unfold a; rewrite Em; apply N.div_1_r).
        assert (2 ^ N.log2 g <= 2 ^ f) by (apply N.pow_le_mono_r; lia). lia.
      - assert (EF : 2 ^ N.log2 g = 2 ^ f * 2 ^ m) by (rewrite <- N.pow_add_r; f_equal; lia).
        assert (2 ^ f <= a) by (apply N.div_le_lower_bound; lia).
        assert (a < 2 * 2 ^ f) by (apply N.div_lt_upper_bound; lia). lia. }
    destruct HA as (HA1 & HA2 & HA3). repeat apply conj; auto; [unfold c; lia|].
    rewrite Hgr, log2_graft by (auto; unfold c; lia). lia.
  Qed.

  Lemma depth_60 t v : valid t v -> legal t = true -> addressable t = true -> (depth t v <= 60)%nat.
  Proof. clear HC Hlen.
    intros HV HL HA. pose proof (leaves_bound H CONTEXT t HA HL) as HB. rewrite (leaves_depth H CONTEXT oc t v HV HL) in HB.
    set (F := full_depth _ _) in *. destruct (Compare_dec.le_lt_dec F 60); auto. exfalso.
    assert (2 ^ 61 <= 2 ^ N.of_nat F) by (apply N.pow_le_mono_r; lia). change (2 ^ 61) with (2 * 2 ^ 60) in *. lia.
  Qed.

  Lemma found_step t v g p q inner :
    legal t = true -> sized t = true -> addressable t = true -> valid t v -> g < 2 ^ 64 -> proof_index (proof p) = g ->
    compute_proof H oc (S_ t) v p = Ok q ->
    (forall m q', m = N.log2 g - N.log2 (leaves t) -> 1 <= m -> 2 ^ m + g mod 2 ^ m < 2 ^ 64 ->
       prove_element (S_ t) v (g / 2 ^ m - leaves t) (set_index p (2 ^ m + g mod 2 ^ m)) = Ok q' ->
       (exists w, q' = filled (set_index p (2 ^ m + g mod 2 ^ m)) (fst inner) (snd inner) (2 ^ m + g mod 2 ^ m) w) /\
       blen (snd inner) = N.log2 (2 ^ m + g mod 2 ^ m)) ->
    let m := N.log2 g - N.log2 (leaves t) in
    let up := siblings H t v (N.to_nat (N.log2 (g / 2 ^ m))) (g / 2 ^ m) in
    let r := if m =? 0 then (tree_node H t v g, up) else (fst inner, snd inner ++ up) in
    1 <= g /\ q = filled p (fst r) (snd r) g (tree_node H t v 1) /\ blen (snd r) = N.log2 g.
  Proof.
    intros HL HR HA HV Hlt Hp E HI.
    pose proof (depth_60 t v HV HL HA) as HF. pose proof (leaves_depth H CONTEXT oc t v HV HL) as EL.
    pose proof (split_index t g) as HS. cbv zeta in HS |- *.
    rewrite EL, N.log2_pow2 in HS by lia. rewrite EL in HI |- *. rewrite N.log2_pow2 in * by lia.
    set (F := depth t v) in *.
    set (m := N.log2 g - N.of_nat F) in *. set (a := g / 2 ^ m) in *. set (c := 2 ^ m + g mod 2 ^ m) in *.
    assert (HB : forall q', 1 <= g -> 1 <= m ->
        prove_element (S_ t) v (a - 2 ^ N.of_nat F) (set_index p c) = Ok q' ->
        (exists w, q' = filled (set_index p c) (fst inner) (snd inner) c w) /\ blen (snd inner) = m).
    { intros q' Hg Hm Eq. destruct (HS Hg eq_refl) as (S1 & S2 & S3 & S4 & S5 & S6 & S7). destruct (HI m q' eq_refl Hm) as [I1 I2]; auto.
      - fold c. enough (c <= g) by lia. rewrite S5. unfold graft. rewrite S3.
        pose proof (pow2_pos m). assert (2 ^ m <= c) by (unfold c; lia). nia.
      - split; [exact I1|]. fold c in I2. rewrite S3 in I2. auto. }
    destruct (compute_found H Hlen oc (chunks_with packed H t v) (with_chunks_all32 H Hlen _ _ HV)
      (decoration (S_ t) v)) with (cc := chunk_count_with item_basic t) (T := S_ t) (v := v) (p := p) (g := g) (q := q)
      (b := fst inner) (br := snd inner) as (G1 & G & G2); auto.
    - pose proof (decoration_some H CONTEXT oc t v HV HL) as HD. destruct (decoration (S_ t) v); [apply HD|exact I].
    - apply count_addressable, HA.
    - exact (proj2 (with_hash_tree_root_ok H Hlen CONTEXT HC oc t HL HR v HV)).
    - intros m' q' -> Hm Eq. fold F m a c in Hm, Eq |- *. apply HB; auto.
      destruct (N.eq_dec g 0) as [Eg|Hg]; [|lia]. unfold m in Hm. rewrite Eg in Hm. change (N.log2 0) with 0 in Hm. lia.
    - cbv zeta in G, G2. fold F m a c in G, G2. split; [exact G1|].
      destruct (HS G1 eq_refl) as (S1 & S2 & S3 & S4 & S5 & S6 & S7).
      rewrite siblings_local, !tree_node_local by auto. split; [destruct (m =? 0); exact G|].
      rewrite <- siblings_local by auto. destruct (N.eqb_spec m 0) as [Em|Em]; cbn [fst snd].
      + rewrite siblings_blen. lia.
      + destruct G2 as [G2|[q' G2]]; [lia|]. rewrite blen_app, siblings_blen. destruct (HB q' G1 ltac:(lia) G2) as [_ ->]. lia.
  Qed.

  Lemma tree_node_root t v : valid t v -> legal t = true ->
    tree_node H t v 1 = decorate H (spec_merkleize H (tree_depth (chunk_count_with item_basic t)) (chunks_with packed H t v)) (number t v).
  Proof. clear HC. intros HV HL. rewrite tree_node_local, local_root, (number_ok t v HV) by auto. reflexivity. Qed.

  Theorem found_ok t : finds t.
  Proof.
    assert (HNone : forall i p q, 2 <= proof_index (proof p) -> proof_index (proof p) < 2 ^ 64 ->
              compute_proof H oc usize_m (VUint i) p = Ok q -> i = 0 -> False).
    { intros i p q H1 H2 E ->.
      pose proof (probe_ok H Hlen CONTEXT HC oc (TUint Usize) (VUint 0) _ p eq_refl eq_refl eq_refl ltac:(reflexivity) H2 eq_refl) as HP.
      cbn [probe] in HP. change (leaves (TUint Usize)) with 1 in HP. change (N.log2 1) with 0 in HP.
      replace (proof_index (proof p) =? 0) with false in HP by lia. cbv zeta in HP.
      replace (N.log2 (proof_index (proof p)) - 0 =? 0) with false in HP.
      - cbn [and_then outcome_is] in HP. change (S_ (TUint Usize)) with usize_m in HP. congruence.
      - assert (1 <= N.log2 (proof_index (proof p))) by (apply N.log2_le_pow2; lia). lia. }
    assert (HSeq : forall u n l i p q, finds u -> legal u = true -> sized u = true -> addressable u = true -> Forall (valid u) l ->
              forall c, c < 2 ^ 64 -> proof_index (proof p) = c -> seq_prove_element H oc (S_ u) n (VSeq l) i p = Ok q ->
              let r := match nth_error l (N.to_nat i) with Some x => found H u x c | None => ([], []) end in
              (exists w, q = filled p (fst r) (snd r) c w) /\ blen (snd r) = N.log2 c).
    { intros u n l i p q IH HL HR HA HV c Hc Hp E. unfold seq_prove_element in E. destruct (n <=? i); [discriminate|].
      apply bind_ok in E as (x & Ex & E). unfold index in Ex. destruct (i <? blen l); [|discriminate].
      destruct (nth_error l (N.to_nat i)) as [x'|] eqn:EN; [|discriminate]. assert (x' = x) by congruence. subst x'.
      cbv zeta. destruct (IH x c p q) as (_ & E1 & E2); eauto.
      rewrite Forall_forall in HV. apply HV. eapply nth_error_In; eauto. }
    induction t using ty_ind'; intros v g p q HL HR HA HV Hlt Hp E; destruct v; no_shape;
      pose proof HL as HL0; pose proof HR as HR0; pose proof HA as HA0;
      cbn [legal sized addressable] in HL0, HR0, HA0; rewrite ?andb_true_iff in HL0; rewrite ?andb_true_iff in HR0;
      rewrite ?andb_true_iff in HA0;
      lazymatch goal with
      | |- _ /\ _ = filled _ (fst (found _ (TNewtype _) _ _)) _ _ _ /\ _ => idtac
      | |- _ => cbn [found]; cbv zeta; refine (found_step _ _ g p q _ HL HR HA HV Hlt Hp E _); intros m q' Em Hm Hc Eq; rewrite <- ?Em; clear Em
      end; try discriminate Eq.
    - refine (HSeq _ _ _ _ _ _ IHt _ _ _ (proj2 HV) _ Hc _ Eq); tauto || reflexivity.
    - refine (HSeq _ _ _ _ _ _ IHt _ _ _ (proj2 HV) _ Hc _ Eq); tauto || reflexivity.
    - refine (HSeq _ _ _ _ _ _ IHt _ _ _ (proj2 HV) _ Hc _ Eq); tauto || reflexivity.
    - cbn [simple_serialize container_m prove_element] in Eq. unfold container_prove_element in Eq.
      apply valid_fields in HV as [HVl HV]. rewrite !blen_map, !map_map in Eq. cbn [snd] in Eq.
      set (i := g / 2 ^ m - leaves (TContainer fs)) in *. clearbody i.
      set (c := 2 ^ m + g mod 2 ^ m) in *. clearbody c.
      destruct HL0 as [_ HL0]. destruct HR0 as [_ HR0]. destruct HA0 as [_ HA0]. rewrite forallb_forall in HL0, HR0, HA0.
      rewrite Forall_forall in HV, H0. destruct (blen fs <=? i); [discriminate|].
      revert Eq. rewrite !combine_map_l, !nth_error_map.
      destruct (nth_error (combine fs l) (N.to_nat i)) as [[f x]|] eqn:EN; cbn [option_map fst snd]; intros Eq; [|discriminate].
      pose proof (nth_error_In _ _ EN) as HIn. pose proof (in_combine_l _ _ _ _ HIn) as HIf.
      destruct (H0 f HIf x c (set_index p c) q') as (_ & E1 & E2); eauto. apply (HV _ HIn).
    - exact (IHt v g p q HL HR HA HV Hlt Hp E).
    - exfalso. cbn [simple_serialize option_m prove_element] in Eq. unfold option_prove_element in Eq. destruct (2 <=? _); [discriminate|].
      refine (HNone 0 (set_index p _) _ _ Hc Eq eq_refl). cbn [set_index proof proof_index].
      pose proof (N.pow_le_mono_r 2 1 m ltac:(lia) Hm). change (2 ^ 1) with 2 in *. lia.
    - cbn [simple_serialize option_m prove_element] in Eq. unfold option_prove_element in Eq. destruct (2 <=? _); [discriminate|].
      destruct (IHt v _ (set_index p _) q' HL0 HR0 HA0 HV Hc eq_refl Eq) as (_ & E1 & E2); eauto.
    - exfalso. cbn [simple_serialize union_m prove_element] in Eq. unfold union_prove_element in Eq. destruct (_ <=? _); [discriminate|].
      refine (HNone 0 (set_index p _) _ _ Hc Eq eq_refl). cbn [set_index proof proof_index].
      pose proof (N.pow_le_mono_r 2 1 m ltac:(lia) Hm). change (2 ^ 1) with 2 in *. lia.
    - cbn [simple_serialize union_m prove_element] in Eq. unfold union_prove_element in Eq. destruct (_ <=? _); [discriminate|].
      apply valid_variant in HV as (u & Eu & HV). revert Eq. rewrite !nth_error_map, !Eu. cbn [option_map]. intros Eq.
      pose proof (nth_error_In _ _ Eu) as HIn. destruct HL0 as [_ HL0]. rewrite forallb_forall in HL0, HR0, HA0.
      rewrite Forall_forall in H0.
      destruct (H0 _ HIn v _ (set_index p _) q' (HL0 _ HIn) (HR0 _ HIn) (HA0 _ HIn) HV Hc eq_refl Eq) as (_ & E1 & E2); eauto.
    - cbn [simple_serialize transparent_m prove_element] in Eq. unfold union_prove_element in Eq. match type of Eq with (if ?b then _ else _) = _ => destruct b; [discriminate Eq|] end.
      apply valid_payload in HV as (u & Eu & HV). revert Eq. rewrite !nth_error_map, !Eu. cbn [option_map]. intros Eq.
      pose proof (nth_error_In _ _ Eu) as HIn. destruct HL0 as [_ HL0]. rewrite forallb_forall in HL0, HR0, HA0.
      rewrite Forall_forall in H0.
      destruct (H0 _ HIn v _ (set_index p _) q' (HL0 _ HIn) (HR0 _ HIn) (HA0 _ HIn) HV Hc eq_refl Eq) as (_ & E1 & E2); eauto.
  Qed.

  (** Parts that are connected lead to the root. *)
  Definition climbs (t : ty) : Prop := forall v g, legal t = true -> valid t v -> 1 <= g -> connected H t v g ->
    blen (snd (found H t v g)) = N.log2 g /\ climb H g (fst (found H t v g)) (snd (found H t v g)) = tree_node H t v 1.

  Lemma climb_step t v g inner (rest : Prop) :
    legal t = true -> valid t v -> 1 <= g ->
    let m := N.log2 g - N.log2 (leaves t) in
    let a := g / 2 ^ m in
    let c := 2 ^ m + g mod 2 ^ m in
    let up := siblings H t v (N.to_nat (N.log2 a)) a in
    let r := if m =? 0 then (tree_node H t v g, up) else (fst inner, snd inner ++ up) in
    (1 <= m -> 1 <= c -> rest -> blen (snd inner) = N.log2 c /\ climb H c (fst inner) (snd inner) = tree_node H t v a) ->
    beside_number t a /\ (if m =? 0 then True else rest) ->
    blen (snd r) = N.log2 g /\ climb H g (fst r) (snd r) = tree_node H t v 1.
  Proof. clear HC.
    intros HL HV Hg m a c up r HI [HB HR].
    pose proof (leaves_depth H CONTEXT oc t v HV HL) as EL.
    destruct (split_index t g Hg) as (S1 & S2 & S3 & S4 & S5 & S6 & S7).
    { rewrite EL, N.log2_pow2 by lia. reflexivity. }
    fold m a c in S1, S2, S3, S4, S5, S6, S7.
    assert (HC : climb H a (tree_node H t v a) up = tree_node H t v 1).
    { unfold up. rewrite siblings_local, !tree_node_local by auto. rewrite EL in S2. apply climb_local; auto; [symmetry; apply Nnat.N2Nat.id|].
      pose proof (decoration_some H CONTEXT oc t v HV HL) as HD. unfold allowed.
      destruct (decoration (S_ t) v); [|auto]. destruct HD as [HD _]. destruct HB as [HB|HB]; [congruence|auto]. }
    assert (HU : blen up = N.log2 a) by (unfold up; rewrite siblings_blen; lia).
    unfold r. destruct (N.eqb_spec m 0) as [Em|Em]; cbn [fst snd].
    - assert (Ea : a = g) by (unfold a; rewrite Em; apply N.div_1_r). rewrite Ea in *. auto.
    - destruct (HI ltac:(lia) S4 HR) as [I1 I2]. rewrite blen_app, HU, I1, S3. split; [lia|].
      rewrite S5, climb_graft by auto. rewrite I2. exact HC.
  Qed.

  Theorem connected_ok t : climbs t.
  Proof. clear HC.
    assert (HSeq : forall u l i c (n : bytes), climbs u -> legal u = true -> Forall (valid u) l -> 1 <= c ->
              match nth_error l i with Some x => connected H u x c /\ tree_node H u x 1 = n | None => False end ->
              let r := match nth_error l i with Some x => found H u x c | None => ([], []) end in
              blen (snd r) = N.log2 c /\ climb H c (fst r) (snd r) = n).
    { intros u l i c n IH HL HV Hc HE. destruct (nth_error l i) as [x|] eqn:E; [|easy]. destruct HE as [E1 <-].
      apply IH; auto. rewrite Forall_forall in HV. apply HV. eapply nth_error_In; eauto. }
    induction t using ty_ind'; intros v g HL HV Hg E; destruct v; no_shape;
      pose proof HL as HL0; cbn [legal] in HL0; rewrite ?andb_true_iff in HL0;
      lazymatch goal with
      | |- blen (snd (found _ (TNewtype _) _ _)) = _ /\ _ => idtac
      | |- _ => cbn [found connected] in E |- *; cbv zeta in E |- *; refine (climb_step _ _ g _ _ HL HV Hg _ E); intros Hm Hc Eq
      end; try (exfalso; exact Eq).
    - apply HSeq; auto; tauto || apply HV.
    - apply HSeq; auto; tauto || apply HV.
    - apply HSeq; auto; tauto || apply HV.
    - apply valid_fields in HV as [HVl HV]. destruct HL0 as [_ HL0]. rewrite forallb_forall in HL0. rewrite Forall_forall in HV, H0.
      revert Eq. rewrite !combine_map_l, !nth_error_map.
      destruct (nth_error (combine fs l) _) as [[f x]|] eqn:EN; cbn [option_map fst snd]; [|easy]. intros [E1 <-].
      pose proof (nth_error_In _ _ EN) as HIn. pose proof (in_combine_l _ _ _ _ HIn) as HIf.
      apply (H0 f HIf); auto. apply (HV _ HIn).
    - exact (IHt v g HL HV Hg E).
    - destruct Eq as [E1 <-]. apply IHt; auto.
    - apply valid_variant in HV as (u & Eu & HV). revert Eq. rewrite !nth_error_map, !Eu. cbn [option_map]. intros [E1 <-].
      pose proof (nth_error_In _ _ Eu) as HIn. destruct HL0 as [_ HL0]. rewrite forallb_forall in HL0. rewrite Forall_forall in H0.
      exact (H0 _ HIn v _ (HL0 _ HIn) HV Hc E1).
    - apply valid_payload in HV as (u & Eu & HV). revert Eq. rewrite !nth_error_map, !Eu. cbn [option_map]. intros [E1 <-].
      pose proof (nth_error_In _ _ Eu) as HIn. destruct HL0 as [_ HL0]. rewrite forallb_forall in HL0. rewrite Forall_forall in H0.
      exact (H0 _ HIn v _ (HL0 _ HIn) HV Hc E1).
  Qed.
End Found.
