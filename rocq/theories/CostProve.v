(** The number of hashes of prove. *)
From Coq Require Import String List NArith ZArith Bool Lia ZifyBool ZifyNat ZifyN.
From Coq Require Import Strings.Byte.
From Verif Require Import Prelude Types Bitvec Ser De Impls Merkleize Proofs MerkImpls Valid SpecSer SpecWrite SpecMerkle SpecPack SpecRoot
  SpecSize SpecCost Cost SpecProve
  Lib SerProof SerSpec RoundTrip BitsLib ChunkLib MerkProof TreeProof RootProof GindexProof ProveProof PackProof PackProve ProbeProof
  CodecFacts RootAny SizeProof CostProof.
Import ListNotations.
Open Scope N_scope.
Ltac Zify.zify_post_hook ::= Z.div_mod_to_equations.

Section Hash.
  Context (H : bytes -> bytes) (CONTEXT : bytes) (oc : bool).
  Notation S_ := (simple_serialize H CONTEXT oc).

  (** ** The results are those of the model *)

  Ltac step := rewrite fst_bind; apply bind_ext; [try reflexivity|intros ?].

  Lemma tree_mix_erased tree n : fst (tree_mix_in_decoration_c H oc tree n) = tree_mix_in_decoration H oc tree n.
  Proof. unfold tree_mix_in_decoration_c, tree_mix_in_decoration. do 4 step. reflexivity. Qed.

  Lemma tree_step_erased buffer i : fst (tree_step_c H oc buffer i) = tree_step H oc buffer i.
  Proof. unfold tree_step_c, tree_step. cbv zeta. do 3 step. reflexivity. Qed.

  Lemma tree_steps_erased l : forall buffer, fst (tree_steps_c H oc buffer l) = foldM (tree_step H oc) buffer l.
  Proof.
    induction l as [|i l IH]; intros buffer; cbn [tree_steps_c foldM]; [reflexivity|].
    rewrite fst_bind. apply bind_ext; [apply tree_step_erased|]. intros b. apply IH.
  Qed.

  Lemma tree_erased chunks n : fst (compute_merkle_tree_c H oc chunks n) = compute_merkle_tree H oc chunks n.
  Proof. unfold compute_merkle_tree_c, compute_merkle_tree. do 9 step. apply tree_steps_erased. Qed.

  Lemma compute_proof_erased T chunks_ element v p :
    fst (chunks_ v) = chunks T v -> (forall i p, fst (element v i p) = prove_element T v i p) ->
    fst (compute_proof_c H oc T chunks_ element v p) = compute_proof H oc T v p.
  Proof.
    intros HCh HE. unfold compute_proof_c, compute_proof. do 4 step. destruct a2 as [[d i] a2]. cbv zeta.
    rewrite fst_bind. apply bind_ext.
    { destruct (a2 <? _); [|reflexivity]. do 5 step. rewrite fst_bind. apply bind_ext; [apply HE|reflexivity]. }
    intros q. rewrite fst_bind. apply bind_ext; [exact HCh|]. intros c. rewrite fst_bind. apply bind_ext; [apply tree_erased|].
    intros tree. rewrite fst_bind. apply bind_ext; [destruct (decoration T v); [apply tree_mix_erased|reflexivity]|].
    intros tree'. do 3 step. reflexivity.
  Qed.

  Lemma chunks_erased t : forall v, fst (chunks_c H CONTEXT oc t v) = chunks (S_ t) v.
  Proof.
    induction t using ty_ind'; intros v; try reflexivity; cbn [chunks_c simple_serialize].
    - apply assemble_erased. intros; apply root_erased.
    - apply assemble_erased. intros; apply root_erased.
    - apply assemble_erased. intros; apply root_erased.
    - cbn [container_m chunks]. unfold container_chunks_c, container_assemble_chunks. destruct v; try reflexivity.
      rewrite !map_length. destruct (Nat.eqb (length l) (length fs)) eqn:EL; [|reflexivity].
      rewrite map_map. cbn [snd]. unfold blen. rewrite !map_length.
      pose proof (fill_fields_erased (map (fun f => (S_ (snd f), root_c H CONTEXT oc (snd f))) fs) l) as G.
      rewrite !map_map in G. cbn [fst snd] in G. apply G. clear G.
      apply PeanoNat.Nat.eqb_eq in EL. clear H0. revert l EL. induction fs as [|f fs IH]; intros [|x l] EL; try discriminate; constructor.
      + cbn [fst snd]. apply root_erased.
      + apply IH. cbn in EL. congruence.
    - destruct v; try reflexivity. apply IHt.
    - destruct v; try reflexivity. apply root_erased.
    - destruct v; try reflexivity.
      + cbn [union_m chunks union_chunks union_chunks_c]. destruct vs as [|[]]; reflexivity.
      + cbn [union_m chunks union_chunks union_chunks_c]. rewrite !nth_error_map.
        destruct (nth_error vs (N.to_nat i)) as [[u|]|]; cbn [option_map]; try reflexivity. apply root_erased.
    - destruct v; try reflexivity.
      + cbn [transparent_m chunks union_chunks union_chunks_c]. destruct ts; reflexivity.
      + cbn [transparent_m chunks union_chunks union_chunks_c]. rewrite !nth_error_map.
        destruct (nth_error ts (N.to_nat i)) as [u|]; cbn [option_map]; try reflexivity. apply root_erased.
  Qed.

  Lemma usize_proof_erased v p : fst (usize_proof_c H oc v p) = compute_proof H oc usize_m v p.
  Proof. apply compute_proof_erased; reflexivity. Qed.

  Lemma element_erased t : forall v i p, fst (element_c H CONTEXT oc t v i p) = prove_element (S_ t) v i p.
  Proof.
    assert (HP : forall u, (forall v i p, fst (element_c H CONTEXT oc u v i p) = prove_element (S_ u) v i p) ->
      forall v p, fst (compute_proof_c H oc (S_ u) (chunks_c H CONTEXT oc u) (element_c H CONTEXT oc u) v p) = compute_proof H oc (S_ u) v p).
    { intros u HU v p. apply compute_proof_erased; [apply chunks_erased|apply HU]. }
    assert (HS : forall u n v i p, (forall v i p, fst (element_c H CONTEXT oc u v i p) = prove_element (S_ u) v i p) ->
      fst (seq_element_c n (compute_proof_c H oc (S_ u) (chunks_c H CONTEXT oc u) (element_c H CONTEXT oc u)) v i p)
      = seq_prove_element H oc (S_ u) n v i p).
    { intros u n v i p HU. unfold seq_element_c, seq_prove_element. destruct v; try reflexivity. destruct (n <=? i); [reflexivity|].
      step. apply HP, HU. }
    induction t using ty_ind'; intros v j p; try reflexivity; cbn [element_c simple_serialize].
    - apply HS, IHt.
    - apply HS, IHt.
    - apply HS, IHt.
    - cbn [container_m prove_element]. unfold container_element_c, container_prove_element. destruct v; try reflexivity.
      rewrite !blen_map, !map_map. cbn [snd]. destruct (blen fs <=? j); [reflexivity|].
      rewrite !combine_map_l, !nth_error_map. destruct (nth_error (combine fs l) (N.to_nat j)) as [[f x]|] eqn:E; cbn [option_map fst snd]; [|reflexivity].
      apply HP. rewrite Forall_forall in H0. apply H0. apply nth_error_In in E. apply in_combine_l in E. exact E.
    - destruct v; try reflexivity. apply IHt.
    - cbn [option_m prove_element]. unfold option_element_c, option_prove_element. destruct (2 <=? j); [reflexivity|].
      destruct v; try reflexivity; [apply usize_proof_erased|apply HP, IHt].
    - cbn [union_m prove_element]. unfold union_element_c, union_prove_element. rewrite !blen_map. destruct (blen vs <=? j); [reflexivity|].
      destruct v; try reflexivity; [apply usize_proof_erased|]. rewrite !nth_error_map.
      destruct (nth_error vs (N.to_nat i)) as [[u|]|] eqn:E; cbn [option_map]; try reflexivity.
      apply HP. rewrite Forall_forall in H0. apply (H0 _ (nth_error_In _ _ E)).
    - cbn [transparent_m prove_element]. unfold union_element_c, union_prove_element. rewrite !blen_map. destruct (blen ts <=? j); [reflexivity|].
      destruct v; try reflexivity; [apply usize_proof_erased|]. rewrite !nth_error_map.
      destruct (nth_error ts (N.to_nat i)) as [u|] eqn:E; cbn [option_map]; try reflexivity.
      apply HP. rewrite Forall_forall in H0. apply (H0 _ (nth_error_In _ _ E)).
  Qed.

  Lemma proof_erased t v p : fst (proof_c H CONTEXT oc t v p) = compute_proof H oc (S_ t) v p.
  Proof. apply compute_proof_erased; [apply chunks_erased|apply element_erased]. Qed.

  Lemma prove_erased t v path : fst (prove_c H CONTEXT oc t v path) = prove H oc (S_ t) v path.
  Proof.
    unfold prove_c, prove. step. rewrite fst_bind. apply bind_ext; [apply proof_erased|reflexivity].
  Qed.
End Hash.

(** ** The number of hashes *)

Section Count.
  Context (H : bytes -> bytes) (Hlen : forall x, blen (H x) = 32).
  Context (CONTEXT : bytes) (HC : good_context H CONTEXT) (oc : bool).
  Notation S_ := (simple_serialize H CONTEXT oc).

  Lemma tree_mix_count tree n : takes (tree_mix_in_decoration_c H oc tree n) 1.
  Proof. unfold tree_mix_in_decoration_c. do 4 (apply takes_free; intros ? _). apply takes_hash. Qed.

  Lemma tree_step_count buffer i : takes (tree_step_c H oc buffer i) 1.
  Proof. unfold tree_step_c. cbv zeta. do 3 (apply takes_free; intros ? _). apply takes_hash. Qed.

  Lemma tree_steps_count l : forall buffer, takes (tree_steps_c H oc buffer l) (blen l).
  Proof.
    induction l as [|i l IH]; intros buffer; cbn [tree_steps_c]; [apply takes_0|].
    rewrite blen_cons, N.add_comm. apply takes_bind; [apply tree_step_count|]. intros b _. apply IH.
  Qed.

  Lemma tree_count chunks n : 1 <= n -> n <= 2 ^ 60 -> takes (compute_merkle_tree_c H oc chunks n) (n - 1).
  Proof.
    intros H1 H2. change (2 ^ 60) with 1152921504606846976 in H2. assert (HU : USIZE = 18446744073709551616) by reflexivity.
    unfold compute_merkle_tree_c. do 2 (apply takes_free; intros ? _).
    apply takes_free. intros tw E1. rewrite umul_ok in E1 by lia.
    assert (tw = 2 * n) by congruence. subst tw. clear E1.
    apply takes_free. intros nc E2. rewrite usub_ok in E2 by lia.
    assert (nc = 2 * n - 1) by congruence. subst nc. clear E2.
    do 5 (apply takes_free; intros ? _).
    eapply takes_eq; [apply tree_steps_count|]. unfold rev_step_by_2. rewrite blen_map. unfold blen. rewrite seq_length. lia.
  Qed.

  Lemma chunks_count t v : is_newtype t = false -> legal t = true -> sized t = true -> typed t v ->
    (forall u y, part t v u y -> in_memory u y) -> takes (chunks_c H CONTEXT oc t v) (chunk_hashes t v).
  Proof.
    intros HN HL HR HT HM.
    assert (HE : forall u l, legal u = true -> sized u = true -> Forall (typed u) l ->
      (forall x, In x l -> forall w y, part u x w y -> in_memory w y) ->
      takes (assemble_chunks_c (S_ u) (root_c H CONTEXT oc u) (VSeq l)) (if packed u then 0 else total (map (root_hashes u) l))).
    { intros u l Hu1 Hu2 Hl1 Hl2. apply assemble_count. rewrite Forall_forall in Hl1 |- *. intros x Hx.
      apply (root_takes H CONTEXT oc Hlen HC); auto. apply Hl2, Hx. }
    destruct t as [|w| | |u n|u n|u n|n|n|fs|u|u|vs|ts]; try discriminate HN; cbn [legal] in HL; cbn [sized] in HR; rewrite ?andb_true_iff in HL;
      rewrite ?andb_true_iff in HR.
    - destruct v; apply takes_0.
    - destruct v; apply takes_0.
    - destruct v; apply takes_0.
    - destruct v; apply takes_0.
    - destruct v; try contradiction. apply HE; try tauto. intros x Hx. apply (in_memory_child _ _ _ _ HM). cbn [children]. apply in_map. exact Hx.
    - destruct v; try contradiction. destruct HT as [_ HT]. apply HE; try tauto. intros x Hx. apply (in_memory_child _ _ _ _ HM). cbn [children]. apply in_map. exact Hx.
    - destruct v; try contradiction. apply HE; try tauto. intros x Hx. apply (in_memory_child _ _ _ _ HM). cbn [children]. apply in_map. exact Hx.
    - destruct v; apply takes_0.
    - destruct v; apply takes_0.
    - destruct v; try contradiction. destruct HL as [_ HL]. destruct HR as [_ HR].
      cbn [typed] in HT. apply (Forall2_preds_combine fs (fun f => typed (snd f))) in HT as [HT1 HT2].
      cbn [chunks_c chunk_hashes]. unfold container_chunks_c. destruct (Nat.eqb _ _); [|apply takes_no; discriminate].
      apply fill_fields_count. rewrite !combine_map_l.
      assert (HA : forall fx, In fx (combine fs l) -> takes (root_c H CONTEXT oc (snd (fst fx)) (snd fx)) (root_hashes (snd (fst fx)) (snd fx))).
      { rewrite forallb_forall in HL, HR. rewrite Forall_forall in HT2. intros [f x] Hfx. cbn [fst snd].
        pose proof (in_combine_l _ _ _ _ Hfx). apply (root_takes H CONTEXT oc Hlen HC); auto; [apply (HT2 (f, x)); auto|].
        apply (in_memory_child _ _ _ _ HM). cbn [children]. rewrite combine_map_l. apply in_map_iff. exists (f, x). auto. }
      clear - HA. revert HA. generalize (combine fs l) as c. induction c as [|fx c IH]; intros G; cbn [map]; constructor.
      + cbn [fst snd]. apply G. left. reflexivity.
      + apply IH. intros; apply G; right; auto.
    - destruct v; try contradiction; [apply takes_0|]. apply (root_takes H CONTEXT oc Hlen HC); auto.
      apply (in_memory_child _ _ _ _ HM); left; reflexivity.
    - destruct v; try (destruct vs as [|[]]; contradiction).
      + destruct vs as [|[]]; try contradiction. apply takes_0.
      + cbn [chunks_c chunk_hashes]. unfold union_chunks_c. rewrite nth_error_map.
        destruct (nth_error vs (N.to_nat i)) as [[u|]|] eqn:E; cbn [option_map]; [|apply takes_0|apply takes_0].
        assert (HX : typed u v) by (cbn [typed] in HT; destruct vs as [|[|] ?]; rewrite nth_error_map, E in HT; exact HT).
        pose proof (nth_error_In _ _ E) as Hin. destruct HL as [_ HL]. rewrite forallb_forall in HL, HR.
        apply (root_takes H CONTEXT oc Hlen HC); auto; [apply (HL _ Hin)|apply (HR _ Hin)|].
        apply (in_memory_child _ _ _ _ HM). cbn [children]. rewrite E. left. reflexivity.
    - destruct v; try contradiction.
      cbn [chunks_c chunk_hashes]. unfold union_chunks_c. rewrite !nth_error_map.
      destruct (nth_error ts (N.to_nat i)) as [u|] eqn:E; cbn [option_map]; [|apply takes_0].
      assert (HX : typed u v) by (cbn [typed] in HT; rewrite nth_error_map, E in HT; exact HT).
      pose proof (nth_error_In _ _ E) as Hin. destruct HL as [_ HL]. rewrite forallb_forall in HL, HR.
      apply (root_takes H CONTEXT oc Hlen HC); auto.
      apply (in_memory_child _ _ _ _ HM). cbn [children]. rewrite E. left. reflexivity.
  Qed.

  (** One value on the way. *)
  Lemma proof_step t v g p k : is_newtype t = false ->
    legal t = true -> sized t = true -> addressable t = true -> valid t v -> g < 2 ^ 64 -> proof_index (proof p) = g ->
    (forall u y, part t v u y -> in_memory u y) ->
    (forall m, m = N.log2 g - N.log2 (leaves t) -> 1 <= m -> 2 ^ m + g mod 2 ^ m < 2 ^ 64 ->
       takes (element_c H CONTEXT oc t v (g / 2 ^ m - leaves t) (set_index p (2 ^ m + g mod 2 ^ m))) k) ->
    takes (proof_c H CONTEXT oc t v p)
      ((if N.log2 g - N.log2 (leaves t) =? 0 then 0 else k) + chunk_hashes t v + whole_tree t).
  Proof.
    intros HN HL HR HA HV Hlt Hp HM HI.
    pose proof (leaves_bound H CONTEXT t HA HL) as HB.
    pose proof (decoration_some H CONTEXT oc t v HV HL) as HD.
    pose proof (leaves_depth H CONTEXT oc t v HV HL) as EL.
    set (F := full_depth (tree_depth (chunk_count_with item_basic t)) (decoration (S_ t) v)) in *.
    assert (HF : (F <= 60)%nat).
    { destruct (Compare_dec.le_lt_dec F 60); auto. exfalso. rewrite EL in HB.
      assert (2 ^ 61 <= 2 ^ N.of_nat F) by (apply N.pow_le_mono_r; lia). change (2 ^ 61) with (2 * 2 ^ 60) in *. lia. }
    pose proof (leaf_count_any oc (decoration (S_ t) v) (chunk_count_with item_basic t) HF) as GL. fold F in GL.
    assert (HL1 : 1 <= leaves t) by (rewrite EL; pose proof (pow2_pos (N.of_nat F)); lia).
    unfold proof_c, compute_proof_c. apply takes_free. intros cc Ecc. rewrite (count_addressable H CONTEXT oc t HA) in Ecc. injection Ecc as <-.
    apply takes_free. intros lc Elc. rewrite Elc in GL. cbn [bind] in GL. apply takes_free. intros lc' Elc'. rewrite Elc' in GL.
    assert (E : lc' = leaves t) by congruence. subst lc'. clear GL Elc Elc' lc.
    apply takes_free. intros [[d i] a] Ea. rewrite <- N.add_assoc. rewrite Hp in Ea |- *.
    assert (HT : typed t v) by (apply valid_typed; exact HV).
    apply takes_bind.
    - rewrite EL in Ea |- *. rewrite N.log2_pow2 by lia.
      destruct (N.eq_dec g 0) as [->|Hg].
      { pose proof (coordinates_zero oc (decoration (S_ t) v) (chunk_count_with item_basic t) HF) as GZ. fold F in GZ. rewrite GZ in Ea. discriminate. }
      pose proof (N.log2_spec g ltac:(lia)) as [G1 G2]. rewrite N.pow_succ_r' in G2.
      destruct (N.eqb_spec (N.log2 g - N.of_nat F) 0) as [Hm|Hm].
      + assert (Hg2 : g < 2 * 2 ^ N.of_nat F).
        { assert (2 ^ N.log2 g <= 2 ^ N.of_nat F) by (apply N.pow_le_mono_r; lia). lia. }
        pose proof (coordinates_any oc (decoration (S_ t) v) (chunk_count_with item_basic t) HF g 1 g) as GC. fold F in GC.
        rewrite GC in Ea by (auto; try lia; rewrite graft_1; reflexivity). clear GC.
        assert (a = g) by congruence. subst a. rewrite N.ltb_irrefl. apply takes_0.
      + rewrite EL, N.log2_pow2 in HI by lia.
        set (m := N.log2 g - N.of_nat F) in *. specialize (HI m eq_refl ltac:(lia)).
        set (b := g / 2 ^ m) in *. set (c := 2 ^ m + g mod 2 ^ m) in *.
        pose proof (pow2_pos m) as Pm. pose proof (N.mod_lt g (2 ^ m) ltac:(lia)) as Hr.
        pose proof (N.div_mod g (2 ^ m) ltac:(lia)) as EG. fold b in EG.
        assert (EF : 2 ^ N.log2 g = 2 ^ N.of_nat F * 2 ^ m).
        { rewrite <- N.pow_add_r. f_equal. unfold m. lia. }
        assert (Ha1 : 2 ^ N.of_nat F <= b).
        { unfold b. apply N.div_le_lower_bound; lia. }
        assert (Ha2 : b < 2 * 2 ^ N.of_nat F).
        { unfold b. apply N.div_lt_upper_bound; lia. }
        assert (Ec : N.log2 c = m).
        { unfold c. apply log2_pow_add. auto. }
        assert (Hgr : g = graft b c).
        { unfold graft. rewrite Ec. unfold c. lia. }
        pose proof (pow2_pos (N.of_nat F)) as PF.
        assert (Eb : N.log2 b = N.of_nat F).
        { replace b with (2 ^ N.of_nat F + (b - 2 ^ N.of_nat F)) by lia. apply log2_pow_add. lia. }
        pose proof (coordinates_any oc (decoration (S_ t) v) (chunk_count_with item_basic t) HF b c g) as GC. fold F in GC.
        rewrite GC in Ea by (auto; lia). clear GC.
        rewrite Eb in Ea.
        assert (ED : d = N.of_nat F) by congruence. assert (EI : i = b - 2 ^ N.of_nat F) by congruence.
        assert (EA : a = b) by congruence. subst d i a. clear Ea.
        assert (H2m : 2 <= 2 ^ m).
        { change 2 with (2 ^ 1) at 1. apply N.pow_le_mono_r; lia. }
        assert (Hag : b < g) by nia.
        replace (b <? g) with true by lia.
        pose proof (log2_lt_64 g Hlt) as Hl.
        assert (Hcg : c <= g) by nia.
        apply takes_free. intros pd Epd. unfold get_depth, log_2 in Epd. replace (g =? 0) with false in Epd by lia.
        assert (pd = N.log2 g) by congruence. subst pd. clear Epd.
        apply takes_free. intros cd Ecd. rewrite usub_ok in Ecd by lia. fold m in Ecd.
        assert (cd = m) by congruence. subst cd. clear Ecd.
        apply takes_free. intros nc Enc. rewrite upow2_ok in Enc by lia.
        assert (nc = 2 ^ m) by congruence. subst nc. clear Enc.
        apply takes_free. intros r Er. unfold urem in Er. replace (2 ^ m =? 0) with false in Er by lia.
        assert (r = g mod 2 ^ m) by congruence. subst r. clear Er.
        apply takes_free. intros ci Eci. rewrite uadd_ok in Eci by (change USIZE with (2 ^ 64); unfold c in Hcg; lia).
        fold c in Eci. assert (ci = c) by congruence. subst ci. clear Eci.
        rewrite <- (N.add_0_r k). apply takes_bind; [|intros ? _; apply takes_0].
        apply HI. lia.
    - intros q _. apply takes_bind; [apply chunks_count; auto|].
      intros ch _. unfold whole_tree. apply takes_bind; [apply tree_count; auto|].
      intros tree _. rewrite <- (N.add_0_r (if decorated t then 1 else 0)). apply takes_bind.
      + destruct (decoration (S_ t) v) as [n|]; [destruct HD as [-> _]; apply tree_mix_count|rewrite HD; apply takes_0].
      + intros tree' _. do 3 (apply takes_free; intros ? _). apply takes_0.
  Qed.

  Definition proves (t : ty) : Prop := forall v g p, legal t = true -> sized t = true -> addressable t = true -> valid t v ->
    (forall u y, part t v u y -> in_memory u y) ->
    g < 2 ^ 64 -> proof_index (proof p) = g -> takes (proof_c H CONTEXT oc t v p) (prove_hashes t v g).

  Lemma usize_takes p : 2 <= proof_index (proof p) -> proof_index (proof p) < 2 ^ 64 ->
    takes (usize_proof_c H oc (VUint 0) p) 0.
  Proof.
    intros H1 H2.
    assert (HS : takes (proof_c H CONTEXT oc (TUint Usize) (VUint 0) p) 0).
    { eapply takes_eq; [apply (proof_step (TUint Usize) (VUint 0) (proof_index (proof p)) p 0); try reflexivity; auto|].
      - intros u y HP. remember (TUint Usize) as t. remember (VUint 0) as v.
        destruct HP as [? ?|? ? t1 v1 t2 v2 HI HP]; subst; [exact I|destruct HI].
      - intros m _ _ _. apply takes_0.
      - destruct (_ =? 0); reflexivity. }
    exact HS.
  Qed.

  Theorem proof_takes t : proves t.
  Proof.
    assert (HSeq : forall u n l i p c, proves u -> legal u = true -> sized u = true -> addressable u = true -> Forall (valid u) l ->
      (forall x, In x l -> forall w y, part u x w y -> in_memory w y) ->
      c < 2 ^ 64 -> proof_index (proof p) = c ->
      takes (seq_element_c n (proof_c H CONTEXT oc u) (VSeq l) i p)
            (match nth_error l (N.to_nat i) with Some x => prove_hashes u x c | None => 0 end)).
    { intros u n l i p c IH HL HR HA HV HM Hc Hp. unfold seq_element_c. destruct (n <=? i); [apply takes_no; discriminate|].
      apply takes_free. intros x Ex. unfold index in Ex. destruct (i <? blen l); [|discriminate].
      destruct (nth_error l (N.to_nat i)) as [x'|] eqn:EN; [|discriminate]. assert (x' = x) by congruence. subst x'.
      pose proof (nth_error_In _ _ EN) as HIn. apply IH; auto; [rewrite Forall_forall in HV; auto|]. apply HM, HIn. }
    induction t using ty_ind'; intros v g p HL HR HA HV HM Hlt Hp; destruct v; no_shape;
      pose proof HL as HL0; pose proof HR as HR0; pose proof HA as HA0;
      cbn [legal sized addressable] in HL0, HR0, HA0; rewrite ?andb_true_iff in HL0; rewrite ?andb_true_iff in HR0;
      rewrite ?andb_true_iff in HA0;
      lazymatch goal with
      | |- takes (proof_c _ _ _ (TNewtype _) _ _) _ => idtac
      | |- _ => cbn [prove_hashes]; cbv zeta; apply proof_step; auto; intros m Em Hm Hc; rewrite <- ?Em; clear Em
      end; try apply takes_0.
    - apply HSeq; auto; try tauto; [apply HV|]. intros x Hx. apply (in_memory_child _ _ _ _ HM). cbn [children]. apply in_map. exact Hx.
    - apply HSeq; auto; try tauto; [apply HV|]. intros x Hx. apply (in_memory_child _ _ _ _ HM). cbn [children]. apply in_map. exact Hx.
    - apply HSeq; auto; try tauto; [apply HV|]. intros x Hx. apply (in_memory_child _ _ _ _ HM). cbn [children]. apply in_map. exact Hx.
    - cbn [element_c]. unfold container_element_c.
      apply valid_fields in HV as [HVl HV]. rewrite !blen_map.
      set (i := g / 2 ^ m - leaves (TContainer fs)) in *. clearbody i.
      set (c := 2 ^ m + g mod 2 ^ m) in *. clearbody c.
      destruct HL0 as [_ HL0]. destruct HR0 as [_ HR0]. destruct HA0 as [_ HA0]. rewrite forallb_forall in HL0, HR0, HA0.
      rewrite Forall_forall in HV, H0. destruct (blen fs <=? i); [apply takes_no; discriminate|].
      rewrite !combine_map_l, !nth_error_map.
      destruct (nth_error (combine fs l) (N.to_nat i)) as [[f x]|] eqn:EN; cbn [option_map fst snd]; [|apply takes_no; discriminate].
      pose proof (nth_error_In _ _ EN) as HIn. pose proof (in_combine_l _ _ _ _ HIn) as HIf.
      apply (H0 f HIf); auto; [apply (HV _ HIn)|].
      apply (in_memory_child _ _ _ _ HM). cbn [children]. rewrite combine_map_l. apply in_map_iff. exists (f, x). auto.
    - assert (HM' : forall u y, part t v u y -> in_memory u y) by (apply (in_memory_child _ _ _ _ HM); left; reflexivity).
      exact (IHt v g p HL HR HA HV HM' Hlt Hp).
    - cbn [element_c]. unfold option_element_c. destruct (2 <=? _); [apply takes_no; discriminate|].
      apply usize_takes; [|exact Hc].
      cbn [set_index proof proof_index]. pose proof (N.pow_le_mono_r 2 1 m ltac:(lia) Hm). change (2 ^ 1) with 2 in *. lia.
    - cbn [element_c]. unfold option_element_c. destruct (2 <=? _); [apply takes_no; discriminate|].
      apply IHt; auto. apply (in_memory_child _ _ _ _ HM); left; reflexivity.
    - cbn [element_c]. unfold union_element_c. rewrite blen_map.
      destruct (blen vs <=? g / 2 ^ m - leaves (TUnion vs)); [apply takes_no; discriminate|].
      apply usize_takes; [|exact Hc].
      cbn [set_index proof proof_index]. pose proof (N.pow_le_mono_r 2 1 m ltac:(lia) Hm). change (2 ^ 1) with 2 in *. lia.
    - cbn [element_c]. unfold union_element_c. rewrite blen_map.
      destruct (blen vs <=? g / 2 ^ m - leaves (TUnion vs)); [apply takes_no; discriminate|].
      apply valid_variant in HV as (u & E & HV). rewrite !nth_error_map, E. cbn [option_map].
      pose proof (nth_error_In _ _ E) as HIn. destruct HL0 as [_ HL0]. rewrite forallb_forall in HL0, HR0, HA0.
      rewrite Forall_forall in H0.
      assert (HM' : forall w y, part u v w y -> in_memory w y).
      { apply (in_memory_child _ _ _ _ HM). cbn [children]. rewrite E. left. reflexivity. }
      refine (H0 _ HIn v _ _ (HL0 _ HIn) (HR0 _ HIn) (HA0 _ HIn) HV HM' Hc _). reflexivity.
    - cbn [element_c]. unfold union_element_c. rewrite !blen_map.
      destruct (blen ts <=? g / 2 ^ m - leaves (TTransparent ts)); [apply takes_no; discriminate|].
      apply valid_payload in HV as (u & E & HV). rewrite !nth_error_map, E. cbn [option_map].
      pose proof (nth_error_In _ _ E) as HIn. destruct HL0 as [_ HL0]. rewrite forallb_forall in HL0, HR0, HA0.
      rewrite Forall_forall in H0.
      assert (HM' : forall w y, part u v w y -> in_memory w y).
      { apply (in_memory_child _ _ _ _ HM). cbn [children]. rewrite E. left. reflexivity. }
      refine (H0 _ HIn v _ _ (HL0 _ HIn) (HR0 _ HIn) (HA0 _ HIn) HV HM' Hc _). reflexivity.
  Qed.

  Theorem prove_takes t v path g : legal t = true -> sized t = true -> addressable t = true -> valid t v ->
    (forall u y, part t v u y -> in_memory u y) -> generalized_index (S_ t) path = Ok g ->
    takes (prove_c H CONTEXT oc t v path) (prove_hashes t v g).
  Proof.
    intros HL HR HA HV HM EG. unfold prove_c. apply takes_free. intros g' EG'. assert (g' = g) by congruence. subst g'.
    rewrite <- (N.add_0_r (prove_hashes t v g)). apply takes_bind; [|intros ? _; apply takes_0].
    apply proof_takes; auto. apply (generalized_index_word H CONTEXT oc t path 1 ltac:(reflexivity) g EG).
  Qed.
End Count.

(** ** Empty lists *)

Lemma list_u8_leaves k : 5 <= k -> leaves (TList (TUint U8) (2 ^ k)) = 2 ^ (k - 4).
Proof.
  intros Hk. unfold leaves. cbn [decorated chunk_count_with item_length_with item_basic packed]. 
  change (chunk_count_with item_basic (TList (TUint U8) (2 ^ k))) with ((2 ^ k * 1 + 31) / 32).
  replace (2 ^ k) with (2 ^ (k - 5) * 32) by (change 32 with (2 ^ 5); rewrite <- N.pow_add_r; f_equal; lia).
  rewrite N.mul_1_r, N.div_add_l by lia. change (31 / 32) with 0. rewrite N.add_0_r, width_pow.
  cbn [decorated]. replace (k - 4) with (N.succ (k - 5)) by lia. rewrite N.pow_succ_r'. reflexivity.
Qed.

Lemma list_u8_probe k : 5 <= k -> k <= 61 -> probe (TList (TUint U8) (2 ^ k)) (VSeq []) 3 = Made.
Proof.
  intros H1 H2. cbn [probe]. change (3 =? 0) with false. cbv iota zeta. rewrite list_u8_leaves by auto.
  rewrite N.log2_pow2 by lia. change (N.log2 3) with 1. replace (1 - (k - 4)) with 0 by lia.
  change (0 =? 0) with true. cbv iota. unfold tree_made. rewrite list_u8_leaves by auto.
  replace (2 ^ (k - 4) <=? 2 ^ 57) with true by (symmetry; apply N.leb_le, N.pow_le_mono_r; lia).
  change (_ * _ + 31) with 31. change (31 / 32) with 0.
  replace (0 <=? 2 ^ (k - 4)) with true by (symmetry; apply N.leb_le, N.le_0_l). reflexivity.
Qed.

Lemma list_u8_hashes k : 5 <= k -> prove_hashes (TList (TUint U8) (2 ^ k)) (VSeq []) 3 = 2 ^ (k - 4).
Proof.
  intros H1. cbn [prove_hashes]. cbv zeta. rewrite list_u8_leaves by auto.
  rewrite N.log2_pow2 by lia. change (N.log2 3) with 1. replace (1 - (k - 4)) with 0 by lia.
  change (0 =? 0) with true. cbv iota. unfold whole_tree. rewrite list_u8_leaves by auto.
  change (chunk_hashes _ _) with 0. change (decorated _) with true. cbv iota.
  pose proof (pow2_pos (k - 4)) as P. remember (2 ^ (k - 4)) as x. clear - P. lia.
Qed.

Lemma tree_hashes_0 d : tree_hashes d 0 = 0.
Proof. induction d; cbn [tree_hashes]; [reflexivity|]. change ((0 + 1) / 2) with 0. rewrite IHd. reflexivity. Qed.
