(** The number of hashes of hash_tree_root. *)
From Coq Require Import String List NArith ZArith Bool Lia ZifyBool ZifyNat ZifyN.
From Coq Require Import Strings.Byte.
From Verif Require Import Prelude Types Bitvec Ser De Impls Merkleize Proofs MerkImpls Valid SpecSer SpecWrite SpecMerkle SpecPack SpecRoot
  SpecSize SpecCost Cost
  Lib SerProof SerSpec RoundTrip BitsLib ChunkLib MerkProof TreeProof RootProof PackProof RootAny SizeProof.
Import ListNotations.
Open Scope N_scope.
Ltac Zify.zify_post_hook ::= Z.div_mod_to_equations.

Lemma fst_bind {A B} (x : tally A) (f : A -> tally B) : fst (tally_bind x f) = bind (fst x) (fun a => fst (f a)).
Proof. unfold tally_bind. destruct x as [[]]; reflexivity. Qed.

Lemma fst_free {A} (x : mres A) : fst (free x) = x.
Proof. reflexivity. Qed.

Lemma bind_ext {A B} (x y : mres A) (f g : A -> mres B) : x = y -> (forall a, f a = g a) -> bind x f = bind y g.
Proof. intros -> E. destruct y; cbn [bind]; auto. Qed.

(** Success of each step, with the sum of the counters. *)
Lemma bind_ok {A B} (x : tally A) (f : A -> tally B) b : fst (tally_bind x f) = Ok b ->
  exists a, fst x = Ok a /\ fst (f a) = Ok b /\ snd (tally_bind x f) = snd x + snd (f a).
Proof. unfold tally_bind. destruct x as [[a|e|p] n]; cbn; intros E; [exists a; auto|discriminate|discriminate]. Qed.

Lemma bind_free {A B} (x : mres A) (f : A -> tally B) b : fst (tally_bind (free x) f) = Ok b ->
  exists a, x = Ok a /\ fst (f a) = Ok b /\ snd (tally_bind (free x) f) = snd (f a).
Proof. intros E. apply bind_ok in E as (a & E1 & E2 & E3). exists a. auto. Qed.

Lemma chunks_le a k : a * k < 2 ^ 63 -> (a * k + 31) / 32 <= 2 ^ 63.
Proof. intros G. apply N.div_le_upper_bound; [discriminate|]. change (2 ^ 63) with 9223372036854775808 in *. lia. Qed.

Lemma bits_limit k : k < 2 ^ 64 -> (k + 255) / 256 <= 2 ^ 63.
Proof.
  intros Hk. apply N.div_le_upper_bound; [discriminate|].
  change (2 ^ 64) with 18446744073709551616 in *. change (2 ^ 63) with 9223372036854775808. lia.
Qed.

Section Hash.
  Context (H : bytes -> bytes) (CONTEXT : bytes) (oc : bool).
  Let S_ := simple_serialize H CONTEXT oc.

  (** ** The results are those of the model *)

  Ltac erase :=
    repeat (rewrite ?fst_bind, ?fst_free;
            first [reflexivity
                  |apply bind_ext; [try reflexivity|intros ?]
                  |match goal with |- fst (if ?b then _ else _) = _ => destruct b end
                  |cbv zeta]).

  Lemma pair_erased height k i last layer :
    fst (merkleize_pair_c H CONTEXT oc height k i last layer) = merkleize_pair H CONTEXT oc height k i last layer.
  Proof. unfold merkleize_pair_c, merkleize_pair. cbv zeta. erase. Qed.

  Lemma layer_erased fuel : forall height k limit i last layer,
    fst (merkleize_layer_c H CONTEXT oc fuel height k limit i last layer)
    = merkleize_layer H CONTEXT oc fuel height k limit i last layer.
  Proof.
    induction fuel as [|fuel IH]; intros height k limit i last layer; cbn [merkleize_layer_c merkleize_layer];
      destruct (i <? limit), (last <? i); try reflexivity.
    rewrite fst_bind. apply bind_ext; [apply pair_erased|]. intros l. apply IH.
  Qed.

  Lemma layers_erased n : forall height last layer,
    fst (merkleize_layers_c H CONTEXT oc n height last layer) = merkleize_layers H CONTEXT oc n height last layer.
  Proof.
    induction n as [|n IH]; intros height last layer; [reflexivity|]. cbn [merkleize_layers_c merkleize_layers]. cbv zeta.
    rewrite fst_bind. apply bind_ext; [reflexivity|]. intros limit.
    rewrite fst_bind. apply bind_ext; [apply layer_erased|]. intros l. apply IH.
  Qed.

  Lemma padding_erased chunks leaf_count :
    fst (merkleize_chunks_with_virtual_padding_c H CONTEXT oc chunks leaf_count)
    = merkleize_chunks_with_virtual_padding H CONTEXT oc chunks leaf_count.
  Proof.
    unfold merkleize_chunks_with_virtual_padding_c, merkleize_chunks_with_virtual_padding. cbv zeta. erase.
    apply layers_erased.
  Qed.

  Lemma merkleize_erased chunks limit :
    fst (merkleize_c H CONTEXT oc chunks limit) = merkleize H CONTEXT oc chunks limit.
  Proof.
    unfold merkleize_c, merkleize. cbv zeta. erase. destruct limit as [limit|]; [|apply padding_erased].
    erase. apply padding_erased.
  Qed.

  Lemma mix_erased root n : fst (mix_in_decoration_c H root n) = mix_in_decoration H root n.
  Proof. unfold mix_in_decoration_c, mix_in_decoration. destruct (usize_hash_tree_root n); reflexivity. Qed.

  Lemma fill_chunks_erased root_m root l : Forall (fun x => fst (root x) = root_m x) l ->
    forall i chunks, fst (fill_chunks_c root i l chunks) = fill_chunks root_m i l chunks.
  Proof.
    intros HF. induction HF as [|x l HX _ IH]; intros i chunks; [reflexivity|]. cbn [fill_chunks_c fill_chunks].
    rewrite fst_bind. apply bind_ext; [exact HX|]. intros c. rewrite fst_bind. apply bind_ext; [reflexivity|]. intros d. apply IH.
  Qed.

  Lemma fill_fields_erased (fl : list (SimpleSerialize * (val -> tally bytes))) : forall l,
    Forall2 (fun f x => fst (snd f x) = hash_tree_root (fst f) x) fl l ->
    forall i chunks, fst (fill_fields_c i (combine (map snd fl) l) chunks) = fill_fields i (combine (map fst fl) l) chunks.
  Proof.
    intros l HF. induction HF as [|f x fl l HX _ IH]; intros i chunks; [reflexivity|]. cbn [map combine fill_fields_c fill_fields].
    rewrite fst_bind. apply bind_ext; [exact HX|]. intros c. rewrite fst_bind. apply bind_ext; [reflexivity|]. intros d. apply IH.
  Qed.

  Lemma assemble_erased u (root : val -> tally bytes) v : (forall x, fst (root x) = hash_tree_root (S_ u) x) ->
    fst (assemble_chunks_c (S_ u) root v) = assemble_chunks (S_ u) v.
  Proof.
    intros HR. destruct v; try reflexivity. cbn [assemble_chunks_c assemble_chunks].
    destruct (is_composite_type (S_ u)); [|reflexivity]. unfold elements_to_chunks. apply fill_chunks_erased.
    apply Forall_forall. auto.
  Qed.

  Lemma root_erased t : forall v, fst (root_c H CONTEXT oc t v) = hash_tree_root (simple_serialize H CONTEXT oc t) v.
  Proof.
    induction t using ty_ind'; intros v; try reflexivity; cbn [root_c simple_serialize].
    - cbn [vector_m hash_tree_root]. unfold vector_root_c, vector_hash_tree_root.
      rewrite fst_bind. apply bind_ext; [apply assemble_erased, IHt|intros c; apply merkleize_erased].
    - cbn [array_m hash_tree_root]. unfold vector_root_c, vector_hash_tree_root.
      rewrite fst_bind. apply bind_ext; [apply assemble_erased, IHt|intros c; apply merkleize_erased].
    - cbn [list_m hash_tree_root]. unfold list_root_c, list_hash_tree_root. destruct v; try reflexivity.
      rewrite fst_bind. apply bind_ext; [apply assemble_erased, IHt|intros c].
      rewrite fst_bind. apply bind_ext; [|intros r; apply mix_erased].
      destruct (is_composite_type _); [apply merkleize_erased|].
      rewrite fst_bind. apply bind_ext; [reflexivity|intros k; apply merkleize_erased].
    - cbn [bitvector_m hash_tree_root]. unfold bitvector_root_c.
      rewrite fst_bind. apply bind_ext; [reflexivity|intros c; apply merkleize_erased].
    - cbn [bitlist_m hash_tree_root]. unfold bitlist_root_c, bitlist_hash_tree_root. destruct v; try reflexivity.
      rewrite fst_bind. apply bind_ext; [reflexivity|intros c].
      rewrite fst_bind. apply bind_ext; [apply merkleize_erased|intros r; apply mix_erased].
    - cbn [container_m hash_tree_root]. unfold container_root_c. rewrite fst_bind. apply bind_ext; [|intros c; apply merkleize_erased].
      unfold container_chunks_c, container_assemble_chunks. destruct v; try reflexivity.
      rewrite !map_length. destruct (Nat.eqb (length l) (length fs)) eqn:EL; [|reflexivity].
      rewrite map_map. cbn [snd]. unfold blen. rewrite !map_length.
      pose proof (fill_fields_erased (map (fun f => (simple_serialize H CONTEXT oc (snd f), root_c H CONTEXT oc (snd f))) fs) l) as G.
      rewrite !map_map in G. cbn [fst snd] in G. apply G. clear G.
      apply PeanoNat.Nat.eqb_eq in EL. revert l EL. induction H0 as [|f fs HF _ IH]; intros [|x l] EL; try discriminate; constructor.
      + cbn [fst snd]. apply HF.
      + apply IH. cbn in EL. congruence.
    - cbn [newtype_m hash_tree_root]. unfold newtype_root_c, unwrap. destruct v; try reflexivity.
      rewrite fst_bind. apply bind_ext; [|intros c; apply merkleize_erased].
      apply (fill_fields_erased [(simple_serialize H CONTEXT oc t, root_c H CONTEXT oc t)] [v]). constructor; [apply IHt|constructor].
    - cbn [option_m hash_tree_root]. unfold option_root_c, option_hash_tree_root.
      rewrite fst_bind. apply bind_ext; [destruct v; try reflexivity; apply IHt|intros c].
      rewrite fst_bind. apply bind_ext; [reflexivity|intros r]. destruct v; apply mix_erased.
    - cbn [union_m hash_tree_root]. unfold union_root_c, union_hash_tree_root. destruct v; try reflexivity.
      + destruct vs as [|[]]; try reflexivity.
      + rewrite !nth_error_map. destruct (nth_error vs (N.to_nat i)) as [[u|]|] eqn:EN; cbn [option_map]; try reflexivity.
        rewrite fst_bind. apply bind_ext; [|intros r; apply mix_erased].
        apply nth_error_In in EN. rewrite Forall_forall in H0. apply (H0 _ EN).
    - cbn [transparent_m hash_tree_root]. unfold union_chunks_c, union_chunks. destruct v; try reflexivity.
      + destruct ts; reflexivity.
      + rewrite !map_map, !nth_error_map. destruct (nth_error ts (N.to_nat i)) as [u|] eqn:EN; cbn [option_map]; try reflexivity.
        apply nth_error_In in EN. rewrite Forall_forall in H0. apply (H0 _ EN).
  Qed.

  (** ** The counter *)

  (** What a computation takes when it succeeds, and takes at most otherwise. *)
  Definition takes {A} (x : tally A) (m : N) : Prop := snd x <= m /\ forall a, fst x = Ok a -> snd x = m.

  Lemma takes_bind {A B} (x : tally A) (f : A -> tally B) m k :
    takes x m -> (forall a, fst x = Ok a -> takes (f a) k) -> takes (tally_bind x f) (m + k).
  Proof.
    intros [G1 G2] G3. unfold takes, tally_bind. destruct x as [[a|e|p] n]; cbn [fst snd] in *; cbv zeta; cbn [fst snd];
      [|split; [lia|discriminate]..].
    destruct (G3 a eq_refl) as [G4 G5]. rewrite (G2 a eq_refl). split; [lia|]. intros b E. rewrite (G5 b E). reflexivity.
  Qed.

  Lemma takes_no {A} (x : mres A) k : (forall a, x <> Ok a) -> takes (free x) k.
  Proof. intros G. split; [apply N.le_0_l|]. intros a E. destruct (G a E). Qed.

  Lemma takes_0 {A} (x : mres A) : takes (free x) 0.
  Proof. split; [apply N.le_refl|reflexivity]. Qed.

  Lemma takes_free {A B} (x : mres A) (f : A -> tally B) k :
    (forall a, x = Ok a -> takes (f a) k) -> takes (tally_bind (free x) f) k.
  Proof. intros G. apply (takes_bind (free x) f 0 k (takes_0 x) G). Qed.

  Lemma takes_eq {A} (x : tally A) m k : takes x m -> m = k -> takes x k.
  Proof. intros G <-. exact G. Qed.

  Lemma takes_hash {B} x (f : bytes -> mres B) : takes (tally_bind (hash H x) (fun h => free (f h))) 1.
  Proof. split; [apply N.le_refl|reflexivity]. Qed.

  Lemma pair_count height k i last layer : takes (merkleize_pair_c H CONTEXT oc height k i last layer) 1.
  Proof.
    unfold merkleize_pair_c. cbv zeta.
    destruct (i <? last); repeat (apply takes_free; intros ? ?); destruct (i =? 0); repeat (apply takes_free; intros ? ?); apply takes_hash.
  Qed.

  Lemma layer_count fuel : forall height k limit i last layer, last < limit ->
    takes (merkleize_layer_c H CONTEXT oc fuel height k limit i last layer) ((last + 2 - i) / 2).
  Proof.
    induction fuel as [|fuel IH]; intros height k limit i last layer HL; cbn [merkleize_layer_c].
    - destruct (i <? limit) eqn:E1; [destruct (last <? i) eqn:E2|]; [|apply takes_no; discriminate|]; (eapply takes_eq; [apply takes_0|lia]).
    - destruct (i <? limit) eqn:E1; [destruct (last <? i) eqn:E2|]; [eapply takes_eq; [apply takes_0|lia]| |eapply takes_eq; [apply takes_0|lia]].
      replace ((last + 2 - i) / 2) with (1 + (last + 2 - (i + 2)) / 2) by lia.
      apply takes_bind; [apply pair_count|]. intros a _. apply IH, HL.
  Qed.

  Lemma half_lt a b : a < 2 * b -> a / 2 < b.
  Proof. intros. lia. Qed.

  Lemma layers_count n : forall height last layer, (n < 64)%nat -> last < 2 ^ N.of_nat n ->
    takes (merkleize_layers_c H CONTEXT oc n height last layer) (tree_hashes n (last + 1)).
  Proof.
    induction n as [|n IH]; intros height last layer Hn HL; [apply takes_0|].
    cbn [merkleize_layers_c tree_hashes]. cbv zeta.
    apply takes_free. intros limit EL. rewrite upow2_ok in EL by lia. injection EL as <-.
    assert (HL' : last / 2 < 2 ^ N.of_nat n) by (apply half_lt; rewrite pow2_S in HL; exact HL).
    apply takes_bind.
    - replace ((last + 1 + 1) / 2) with ((last + 2 - 0) / 2) by (clear; lia). apply layer_count. exact HL.
    - intros a _. replace ((last + 1 + 1) / 2) with (last / 2 + 1) by (clear; lia). apply IH; [lia|exact HL'].
  Qed.

  Lemma tree_hashes_0 d : tree_hashes d 0 = 0.
  Proof. induction d as [|d IH]; [reflexivity|]. cbn [tree_hashes]. change ((0 + 1) / 2) with 0. rewrite IH. reflexivity. Qed.

  Lemma padding_count chunks d : (d < 64)%nat -> blen chunks / 32 <= 2 ^ N.of_nat d ->
    takes (merkleize_chunks_with_virtual_padding_c H CONTEXT oc chunks (2 ^ N.of_nat d)) (tree_hashes d (blen chunks / 32)).
  Proof.
    intros Hd HB. unfold merkleize_chunks_with_virtual_padding_c. cbv zeta.
    do 3 (apply takes_free; intros ? _). rewrite trailing_zeros_pow. change BYTES_PER_CHUNK with 32.
    destruct (blen chunks / 32 =? 0) eqn:EC.
    - apply N.eqb_eq in EC. rewrite EC, tree_hashes_0. apply takes_free. intros ? _. apply takes_0.
    - replace (N.to_nat (N.of_nat d + 1 - 1)) with d by lia.
      rewrite <- (N.add_0_r (tree_hashes _ _)). apply takes_bind.
      + replace (blen chunks / 32) with (blen chunks / 32 - 1 + 1) at 2 by (clear - EC; lia).
        apply layers_count; [exact Hd|clear - EC HB; lia].
      + intros ? _. apply takes_free. intros ? _. apply takes_0.
  Qed.

  Lemma merkleize_some_count chunks limit : limit <= 2 ^ 63 ->
    takes (merkleize_c H CONTEXT oc chunks (Some limit)) (tree_hashes (tree_depth limit) (blen chunks / 32)).
  Proof.
    intros HL. unfold merkleize_c. cbv zeta. do 2 (apply takes_free; intros ? _). change BYTES_PER_CHUNK with 32.
    destruct (limit <? blen chunks / 32) eqn:EL; [apply takes_no; discriminate|]. apply takes_free. intros w EW.
    rewrite next_power_of_two_ok in EW by exact HL. injection EW as <-. rewrite <- tree_depth_width.
    apply padding_count; [apply tree_depth_lt; exact HL|].
    rewrite tree_depth_width. pose proof (width_ge limit). apply N.ltb_ge in EL. lia.
  Qed.

  Lemma merkleize_none_count chunks : blen chunks / 32 <= 2 ^ 63 ->
    takes (merkleize_c H CONTEXT oc chunks None) (tree_hashes (tree_depth (blen chunks / 32)) (blen chunks / 32)).
  Proof.
    intros HL. unfold merkleize_c. cbv zeta. apply takes_free; intros ? _. change BYTES_PER_CHUNK with 32.
    apply takes_free. intros w EW.
    rewrite next_power_of_two_ok in EW by exact HL. injection EW as <-. rewrite <- tree_depth_width.
    apply padding_count; [apply tree_depth_lt; exact HL|].
    rewrite tree_depth_width. apply width_ge.
  Qed.

  Lemma mix_count root n : takes (mix_in_decoration_c H root n) 1.
  Proof. unfold mix_in_decoration_c. destruct (usize_hash_tree_root n); [apply takes_hash|apply takes_no; discriminate..]. Qed.

  Lemma copy_at_blen {E A} a (src l r : list A) : @copy_at E A a src l = Ok r -> blen r = blen l.
  Proof.
    unfold copy_at. destruct (a + blen src <=? blen l) eqn:EL; [|discriminate]. intros [= <-].
    unfold blen, takeN, dropN in *. rewrite !app_length, firstn_length, skipn_length. lia.
  Qed.

  Lemma fill_chunks_count root m l : Forall (fun x => takes (root x) (m x)) l ->
    forall i chunks, takes (fill_chunks_c root i l chunks) (total (map m l)).
  Proof.
    intros HF. induction HF as [|x l HX _ IH]; intros i chunks; cbn [fill_chunks_c map total fold_right]; [apply takes_0|].
    apply takes_bind; [exact HX|]. intros c _. apply takes_free. intros d _. apply IH.
  Qed.

  Lemma fill_fields_count fl ms : Forall2 (fun f k => takes (fst f (snd f)) k) fl ms ->
    forall i chunks, takes (fill_fields_c i fl chunks) (total ms).
  Proof.
    intros HF. induction HF as [|[f x] k fl ms HX _ IH]; intros i chunks; cbn [fill_fields_c total fold_right]; [apply takes_0|].
    apply takes_bind; [exact HX|]. intros c _. apply takes_free. intros d _. apply IH.
  Qed.

  Lemma fill_fields_blen fl : forall i chunks r, fst (fill_fields_c i fl chunks) = Ok r -> blen r = blen chunks.
  Proof.
    induction fl as [|[f x] fl IH]; intros i chunks r; cbn [fill_fields_c]; [intros [= ->]; reflexivity|].
    intros E. apply bind_ok in E as (c & _ & E & _). apply bind_free in E as (d & ED & E & _).
    apply IH in E. apply copy_at_blen in ED. etransitivity; eassumption.
  Qed.

  (** ** The number of hashes *)

  Context (Hlen : forall x, blen (H x) = 32) (HC : good_context H CONTEXT).

  Lemma assemble_blen u l r : legal u = true -> small u = true -> Forall (typed u) l ->
    Forall (any_root H CONTEXT oc u) l ->
    assemble_chunks (simple_serialize H CONTEXT oc u) (VSeq l) = Ok r ->
    blen r / 32 = (blen l * item_length_with packed u + 31) / 32.
  Proof.
    intros HL HS HT HA. rewrite (assemble_chunks_any H Hlen CONTEXT oc) by auto.
    assert (HF : Forall (fun x => forall r, root_any H u x = inl r -> blen r = 32) l)
      by (eapply Forall_impl; [|exact HA]; intros y [_ Hy]; exact Hy).
    destruct (of_elements H u l) as [cs|e] eqn:E; [|discriminate]. intros [= <-].
    destruct (of_elements_shape H Hlen CONTEXT u l cs HS HL HT HF E) as [E1 E2].
    rewrite <- E2. etransitivity; [apply (f_equal (fun x => x / 32)); apply (blen_concat32 cs E1)|]. clear. lia.
  Qed.

  Lemma assemble_count u l : Forall (fun x => takes (root_c H CONTEXT oc u x) (root_hashes u x)) l ->
    takes (assemble_chunks_c (simple_serialize H CONTEXT oc u) (root_c H CONTEXT oc u) (VSeq l))
          (if packed u then 0 else total (map (root_hashes u) l)).
  Proof.
    intros HF. unfold assemble_chunks_c. rewrite composite_simple. destruct (packed u); cbn [negb]; [apply takes_0|].
    apply fill_chunks_count. exact HF.
  Qed.

  Lemma vector_takes u l : legal u = true -> small u = true -> Forall (typed u) l ->
    Forall (any_root H CONTEXT oc u) l -> blen l * item_length_with packed u < 2 ^ 63 ->
    Forall (fun x => takes (root_c H CONTEXT oc u x) (root_hashes u x)) l ->
    takes (vector_root_c H CONTEXT oc (simple_serialize H CONTEXT oc u) (root_c H CONTEXT oc u) (VSeq l))
      ((if packed u then 0 else total (map (root_hashes u) l))
       + tree_hashes (tree_depth ((blen l * item_length_with packed u + 31) / 32)) ((blen l * item_length_with packed u + 31) / 32)).
  Proof.
    intros HL HS HT HA HM HF. unfold vector_root_c. apply takes_bind; [apply assemble_count, HF|].
    intros c Ec. rewrite assemble_erased in Ec by (intros; apply root_erased).
    apply assemble_blen in Ec; auto. rewrite <- Ec. apply merkleize_none_count. rewrite Ec. apply chunks_le, HM.
  Qed.

  Lemma root_takes t : legal t = true -> sized t = true -> forall v, typed t v ->
    (forall u y, part t v u y -> in_memory u y) -> takes (root_c H CONTEXT oc t v) (root_hashes t v).
  Proof.
    induction t using ty_ind'; intros HL HR v HT HM.
    - destruct v; try contradiction. apply takes_0.
    - destruct v; try contradiction. apply takes_0.
    - destruct v; try contradiction. apply takes_0.
    - destruct v; try contradiction. apply takes_0.
    - (* Vector *)
      cbn [sized chunk_count_with] in HR. fold (small t) in HR. rewrite !andb_true_iff in HR. destruct HR as [[R1 R2] R3].
      cbn [legal] in HL. rewrite !andb_true_iff in HL. destruct HL as [_ HL]. destruct v; try contradiction.
      cbn [typed] in HT. cbn [root_c root_hashes]. rewrite Forall_forall in HT.
      assert (HM' : forall x, In x l -> forall u y, part t x u y -> in_memory u y)
        by (intros x Hx; apply (in_memory_child _ _ _ _ HM); cbn [children]; apply in_map; exact Hx).
      apply vector_takes; auto; rewrite ?Forall_forall; auto.
      + intros x Hx. apply (root_any_ok H Hlen CONTEXT HC oc); auto; apply HM', Hx.
      + apply (HM (TVector t n) (VSeq l)). constructor.
      + intros x Hx. apply IHt; auto; apply HM', Hx.
    - (* array *)
      cbn [sized chunk_count_with] in HR. fold (small t) in HR. rewrite !andb_true_iff in HR. destruct HR as [[R1 R2] R3].
      cbn [legal] in HL. rewrite !andb_true_iff in HL. destruct HL as [_ HL]. destruct v; try contradiction.
      destruct HT as [_ HT]. cbn [root_c root_hashes]. rewrite Forall_forall in HT.
      assert (HM' : forall x, In x l -> forall u y, part t x u y -> in_memory u y)
        by (intros x Hx; apply (in_memory_child _ _ _ _ HM); cbn [children]; apply in_map; exact Hx).
      apply vector_takes; auto; rewrite ?Forall_forall; auto.
      + intros x Hx. apply (root_any_ok H Hlen CONTEXT HC oc); auto; apply HM', Hx.
      + apply (HM (TArray t n) (VSeq l)). constructor.
      + intros x Hx. apply IHt; auto; apply HM', Hx.
    - (* List *)
      cbn [sized] in HR. fold (small t) in HR. rewrite !andb_true_iff in HR. destruct HR as [[R1 R2] R3].
      cbn [legal] in HL. rewrite !andb_true_iff in HL. destruct HL as [HL1 HL]. destruct v; try contradiction.
      cbn [typed] in HT. cbn [root_c root_hashes]. unfold list_root_c. rewrite Forall_forall in HT.
      assert (HM' : forall x, In x l -> forall u y, part t x u y -> in_memory u y)
        by (intros x Hx; apply (in_memory_child _ _ _ _ HM); cbn [children]; apply in_map; exact Hx).
      rewrite <- N.add_assoc. apply takes_bind; [apply assemble_count; rewrite Forall_forall; intros x Hx; apply IHt; auto; apply HM', Hx|].
      intros c Ec. rewrite assemble_erased in Ec by (intros; apply root_erased).
      apply assemble_blen in Ec; auto; rewrite ?Forall_forall; auto;
        [|intros x Hx; apply (root_any_ok H Hlen CONTEXT HC oc); auto; apply HM', Hx].
      rewrite <- Ec. apply takes_bind; [|intros r _; apply mix_count]. rewrite composite_simple.
      unfold item_length_with in *. destruct (packed t) eqn:EP; cbn [negb].
      + unfold list_inherent_chunk_count. rewrite ser_simple, size_hint_spec.
        apply takes_free. intros k Ek. rewrite umul_ok in Ek by (unfold USIZE; lia). cbn [bind] in Ek. injection Ek as <-.
        change BYTES_PER_CHUNK with 32. rewrite div_ceil_32. apply merkleize_some_count.
        change (2 ^ 64) with 18446744073709551616 in R3; change (2 ^ 63) with 9223372036854775808; lia.
      + replace ((n * 32 + 31) / 32) with n by lia. apply merkleize_some_count. lia.
    - (* Bitvector *)
      cbn [legal] in HL. rewrite !andb_true_iff in HL. destruct v; try contradiction. cbn [typed] in HT.
      pose proof (HM (TBitvector n) (VBits b) (part_refl _ _)) as HB. cbn [in_memory] in HB.
      cbn [root_c root_hashes]. unfold bitvector_root_c.
      assert (HP : bitvector_pack_bits n (VBits b) = Ok (concat (spec_pack (spec_bits (bv_bits b))))).
      { unfold bitvector_pack_bits, bitvector_serialize. replace (n =? 0) with false by lia.
        cbn [ser_to_merkle bind]. rewrite app_nil_l, pack_bytes_concat, bv_load_chunks_spec. reflexivity. }
      rewrite HP. apply takes_free. intros c [= <-]. rewrite bits_chunk_count_eq.
      assert (HN : blen (concat (spec_pack (spec_bits (bv_bits b)))) / 32 = (bv_len b + 255) / 256).
      { rewrite blen_concat32 by apply spec_pack_all32. rewrite bits_pack_blen. clear. lia. }
      rewrite <- HN. apply merkleize_some_count. apply bits_limit, N.ltb_lt, HL.
    - (* Bitlist *)
      cbn [legal] in HL. destruct v; try contradiction. cbn [typed] in HT.
      cbn [root_c root_hashes]. unfold bitlist_root_c. apply takes_free. intros c Ec.
      unfold bitlist_pack_bits, bitlist_serialize_with_length in Ec.
      destruct (n <? bv_len b) eqn:EN; [discriminate|].
      cbn [ser_to_merkle bind] in Ec. rewrite app_nil_l, pack_bytes_concat in Ec. injection Ec as <-.
      pose proof (proj1 (bv_ok_len b) HT) as HO. unfold bits_bytes in HO.
      assert (HN : blen (concat (spec_pack (bv_raw b))) / 32 = (bv_len b + 255) / 256).
      { rewrite blen_concat32 by apply spec_pack_all32. rewrite spec_pack_blen, HO. clear. lia. }
      rewrite bits_chunk_count_eq. rewrite <- HN.
      apply takes_bind; [apply merkleize_some_count, bits_limit; apply N.ltb_lt in HL; lia|]. intros r _. apply mix_count.
    - (* container *)
      cbn [sized] in HR. rewrite !andb_true_iff in HR. destruct HR as [R1 R2].
      cbn [legal] in HL. rewrite !andb_true_iff in HL. destruct HL as [_ HL]. destruct v; try contradiction.
      cbn [typed] in HT. apply (Forall2_preds_combine fs (fun f => typed (snd f))) in HT as [HT1 HT2].
      cbn [root_c root_hashes]. unfold container_root_c.
      assert (HA : forall fx, In fx (combine fs l) -> takes (root_c H CONTEXT oc (snd (fst fx)) (snd fx)) (root_hashes (snd (fst fx)) (snd fx))).
      { rewrite forallb_forall in HL, R2. rewrite Forall_forall in H0, HT2. intros [f x] Hfx. cbn [fst snd].
        pose proof (in_combine_l _ _ _ _ Hfx). apply (H0 f); auto; [apply (HT2 (f, x)); auto|].
        apply (in_memory_child _ _ _ _ HM). cbn [children]. rewrite combine_map_l. apply in_map_iff. exists (f, x). auto. }
      apply takes_bind.
      + unfold container_chunks_c. destruct (Nat.eqb _ _); [|apply takes_no; discriminate].
        apply fill_fields_count. rewrite !combine_map_l, !map_map. cbn [fst snd].
        clear - HA. revert HA. generalize (combine fs l) as c. induction c as [|fx c IH]; intros G; cbn [map]; constructor.
        * cbn [fst snd]. apply G. left. reflexivity.
        * apply IH. intros; apply G; right; auto.
      + intros c Ec.
        assert (HN : blen c / 32 = blen fs).
        { unfold container_chunks_c in Ec. destruct (Nat.eqb _ _) eqn:EQ in Ec; [|discriminate].
          apply fill_fields_blen in Ec. rewrite blen_map in Ec. change BYTES_PER_CHUNK with 32 in Ec.
          etransitivity; [apply (f_equal (fun x => x / 32)); exact Ec|]. unfold zeros. rewrite blen_repeat. clear. lia. }
        rewrite <- HN. apply merkleize_none_count. rewrite HN. lia.
    - (* newtype *)
      destruct v; try contradiction.
      assert (HM' : forall u y, part t v u y -> in_memory u y)
        by (apply (in_memory_child _ _ _ _ HM); left; reflexivity).
      pose proof (IHt HL HR v HT HM') as I. cbn [root_c root_hashes]. unfold newtype_root_c.
      rewrite <- (N.add_0_r (root_hashes t v)). apply takes_bind.
      + eapply takes_eq; [apply (fill_fields_count _ [root_hashes t v]); constructor; [exact I|constructor]|].
        cbn [total fold_right]. apply N.add_0_r.
      + intros c Ec. apply fill_fields_blen in Ec.
        assert (HN : blen c / 32 = 1) by (etransitivity; [apply (f_equal (fun x => x / 32)); exact Ec|]; reflexivity).
        change 0 with (tree_hashes (tree_depth 1) 1). rewrite <- HN. apply merkleize_none_count. rewrite HN. discriminate.
    - (* Option *)
      destruct v; try contradiction.
      + cbn [root_c root_hashes]. unfold option_root_c. cbn [option_chunks_c]. do 2 (apply takes_free; intros ? _). apply mix_count.
      + assert (HM' : forall u y, part t v u y -> in_memory u y)
          by (apply (in_memory_child _ _ _ _ HM); left; reflexivity).
        cbn [root_c root_hashes]. unfold option_root_c. cbn [option_chunks_c].
        apply takes_bind; [apply (IHt HL HR v HT HM')|]. intros c _. apply takes_free; intros ? _. apply mix_count.
    - (* union *)
      destruct v; try (destruct vs as [|[]]; contradiction).
      + assert (exists r, vs = None :: r) as [r ->] by (destruct vs as [|[|] r]; try contradiction; exists r; reflexivity).
        cbn [root_c root_hashes map option_map union_root_c]. apply mix_count.
      + assert (HX : exists u, nth_error vs (N.to_nat i) = Some (Some u) /\ typed u v).
        { cbn [typed] in HT. destruct (nth_error vs (N.to_nat i)) as [[u|]|] eqn:E.
          - exists u. split; [reflexivity|]. destruct vs as [|[|] ?]; rewrite nth_error_map, E in HT; exact HT.
          - destruct vs as [|[|] ?]; rewrite nth_error_map, E in HT; contradiction.
          - destruct vs as [|[|] ?]; rewrite nth_error_map, E in HT; contradiction. }
        destruct HX as (u & E & HX).
        cbn [legal] in HL. rewrite andb_true_iff in HL. destruct HL as [HL1 HL2].
        cbn [sized] in HR. rewrite forallb_forall in HL2, HR.
        pose proof (nth_error_In _ _ E) as Hin. rewrite Forall_forall in H0.
        assert (HM' : forall w y, part u v w y -> in_memory w y).
        { apply (in_memory_child _ _ _ _ HM). cbn [children]. rewrite E. left. reflexivity. }
        pose proof (H0 _ Hin (HL2 _ Hin) (HR _ Hin) v HX HM') as I. cbn beta iota in I.
        cbn [root_c root_hashes]. unfold union_root_c. rewrite !nth_error_map, E. cbn [option_map].
        apply takes_bind; [exact I|]. intros r _. apply mix_count.
    - (* transparent *)
      destruct v; try contradiction.
      assert (HX : exists u, nth_error ts (N.to_nat i) = Some u /\ typed u v).
      { cbn [typed] in HT. rewrite nth_error_map in HT. destruct (nth_error ts (N.to_nat i)) as [u|]; [|contradiction].
        exists u. auto. }
      destruct HX as (u & E & HX).
      cbn [legal] in HL. rewrite !andb_true_iff in HL. destruct HL as [_ HL2].
      cbn [sized] in HR. rewrite forallb_forall in HL2, HR.
      pose proof (nth_error_In _ _ E) as Hin. rewrite Forall_forall in H0.
      assert (HM' : forall w y, part u v w y -> in_memory w y).
      { apply (in_memory_child _ _ _ _ HM). cbn [children]. rewrite E. left. reflexivity. }
      cbn [root_c root_hashes]. unfold union_chunks_c. rewrite !nth_error_map, E. cbn [option_map].
      apply (H0 _ Hin (HL2 _ Hin) (HR _ Hin) v HX HM').
  Qed.
End Hash.

(** ** A bound *)

Lemma tree_hashes_le d : forall c, tree_hashes d c <= c + N.of_nat d.
Proof.
  assert (G : forall c, 0 < c -> tree_hashes d c + 1 <= c + N.of_nat d).
  { induction d as [|d IH]; intros c Hc; cbn [tree_hashes]; [lia|]. specialize (IH ((c + 1) / 2)). lia. }
  intros c. destruct (N.eq_dec c 0) as [->|]; [rewrite tree_hashes_0; lia|]. specialize (G c). lia.
Qed.

Lemma tree_hashes_63 limit c : limit <= 2 ^ 63 -> tree_hashes (tree_depth limit) c <= c + 63.
Proof. intros G. pose proof (tree_hashes_le (tree_depth limit) c). pose proof (tree_depth_lt limit G). lia. Qed.

Lemma elements_cost {A} (f e k : A -> N) l : Forall (fun x => 32 * f x + 32 <= e x + 2112 * k x) l ->
  32 * total (map f l) + 32 * blen l <= total (map e l) + 2112 * total (map k l).
Proof.
  induction 1 as [|x l HX _ IH]; [reflexivity|]. cbn [map total fold_right]. rewrite blen_cons.
  fold (total (map f l)) (total (map e l)) (total (map k l)). lia.
Qed.

Lemma packed_total u l : packed u = true -> legal u = true -> Forall (typed u) l ->
  total (map (encoded_bytes u) l) = blen l * fixed_size u.
Proof.
  intros HP HL HT. assert (HV : spec_variable u = false) by (apply packed_fixed; auto).
  induction HT as [|x l HX _ IH]; [reflexivity|]. cbn [map total fold_right]. fold (total (map (encoded_bytes u) l)).
  rewrite IH, blen_cons, encoded_fixed by (auto using packed_typed_valid). lia.
Qed.

Lemma total_shift k (f : val -> N) l : total (map (fun x => k + f x) l) = k * blen l + total (map f l).
Proof. unfold total, blen. induction l; cbn [map fold_right length]; lia. Qed.

(** The trees of the elements and the chunks of a collection. *)
Lemma collection_cost u l : legal u = true -> Forall (typed u) l ->
  Forall (fun x => 32 * root_hashes u x + 32 <= encoded_bytes u x + 2112 * trees u x) l ->
  32 * (if packed u then 0 else total (map (root_hashes u) l)) + 32 * ((blen l * item_length_with packed u + 31) / 32)
    <= total (map (fun x => (if spec_variable u then 4 else 0) + encoded_bytes u x) l) + 31
       + 2112 * (if packed u then 0 else total (map (trees u) l)).
Proof.
  intros HL HT HF. rewrite total_shift. apply elements_cost in HF. unfold item_length_with.
  destruct (packed u) eqn:EP; [rewrite (packed_total u l EP HL HT)|]; destruct (spec_variable u); lia.
Qed.

Lemma root_cost t : legal t = true -> sized t = true -> forall v, typed t v ->
  (forall u y, part t v u y -> in_memory u y) ->
  32 * root_hashes t v + 32 <= encoded_bytes t v + 2112 * trees t v.
Proof.
  induction t using ty_ind'; intros HL HR v HT HM.
  - destruct v; try contradiction. cbn [root_hashes trees]. lia.
  - destruct v; try contradiction. cbn [root_hashes trees]. lia.
  - destruct v; try contradiction. cbn [root_hashes trees]. lia.
  - destruct v; try contradiction. cbn [root_hashes trees]. lia.
  - (* Vector *)
    cbn [sized chunk_count_with] in HR. fold (small t) in HR. rewrite !andb_true_iff in HR. destruct HR as [[R1 R2] R3].
    cbn [legal] in HL. rewrite !andb_true_iff in HL. destruct HL as [_ HL]. destruct v; try contradiction.
    cbn [typed] in HT. cbn [root_hashes trees encoded_bytes]. pose proof (proj1 (Forall_forall _ _) HT) as HT'.
    pose proof (HM (TVector t n) (VSeq l) (part_refl _ _)) as HB. cbn [in_memory] in HB. apply chunks_le in HB.
    apply tree_hashes_63 with (c := (blen l * item_length_with packed t + 31) / 32) in HB.
    assert (HF : Forall (fun x => 32 * root_hashes t x + 32 <= encoded_bytes t x + 2112 * trees t x) l).
    { rewrite Forall_forall. intros x Hx. apply IHt; auto.
      apply (in_memory_child _ _ _ _ HM). cbn [children]. apply in_map. exact Hx. }
    pose proof (collection_cost t l HL HT HF) as G. clear - HB G. lia.
  - (* array *)
    cbn [sized chunk_count_with] in HR. fold (small t) in HR. rewrite !andb_true_iff in HR. destruct HR as [[R1 R2] R3].
    cbn [legal] in HL. rewrite !andb_true_iff in HL. destruct HL as [_ HL]. destruct v; try contradiction.
    destruct HT as [_ HT]. cbn [root_hashes trees encoded_bytes]. pose proof (proj1 (Forall_forall _ _) HT) as HT'.
    pose proof (HM (TArray t n) (VSeq l) (part_refl _ _)) as HB. cbn [in_memory] in HB. apply chunks_le in HB.
    apply tree_hashes_63 with (c := (blen l * item_length_with packed t + 31) / 32) in HB.
    assert (HF : Forall (fun x => 32 * root_hashes t x + 32 <= encoded_bytes t x + 2112 * trees t x) l).
    { rewrite Forall_forall. intros x Hx. apply IHt; auto.
      apply (in_memory_child _ _ _ _ HM). cbn [children]. apply in_map. exact Hx. }
    pose proof (collection_cost t l HL HT HF) as G. clear - HB G. lia.
  - (* List *)
    cbn [sized] in HR. fold (small t) in HR. rewrite !andb_true_iff in HR. destruct HR as [[R1 R2] R3].
    cbn [legal] in HL. rewrite !andb_true_iff in HL. destruct HL as [HL1 HL]. destruct v; try contradiction.
    cbn [typed] in HT. cbn [root_hashes trees encoded_bytes]. pose proof (proj1 (Forall_forall _ _) HT) as HT'.
    assert (HB : (n * item_length_with packed t + 31) / 32 <= 2 ^ 63).
    { unfold item_length_with in *. destruct (packed t).
      - change (2 ^ 64) with 18446744073709551616 in R3; change (2 ^ 63) with 9223372036854775808; lia.
      - replace ((n * 32 + 31) / 32) with n by lia. lia. }
    apply tree_hashes_63 with (c := (blen l * item_length_with packed t + 31) / 32) in HB.
    assert (HF : Forall (fun x => 32 * root_hashes t x + 32 <= encoded_bytes t x + 2112 * trees t x) l).
    { rewrite Forall_forall. intros x Hx. apply IHt; auto.
      apply (in_memory_child _ _ _ _ HM). cbn [children]. apply in_map. exact Hx. }
    pose proof (collection_cost t l HL HT HF) as G. clear - HB G. lia.
  - (* Bitvector *)
    cbn [legal] in HL. rewrite !andb_true_iff in HL. destruct v; try contradiction.
    cbn [root_hashes trees encoded_bytes].
    pose proof (tree_hashes_63 _ ((bv_len b + 255) / 256) (bits_limit n (proj1 (N.ltb_lt _ _) (proj2 HL)))) as G.
    clear - G. lia.
  - (* Bitlist *)
    cbn [legal] in HL. destruct v; try contradiction. cbn [root_hashes trees encoded_bytes].
    assert (HL' : n < 2 ^ 64) by (apply N.ltb_lt in HL; lia).
    pose proof (tree_hashes_63 _ ((bv_len b + 255) / 256) (bits_limit n HL')) as G. clear - G. lia.
  - (* container *)
    cbn [sized] in HR. rewrite !andb_true_iff in HR. destruct HR as [R1 R2].
    cbn [legal] in HL. rewrite !andb_true_iff in HL. destruct HL as [_ HL]. destruct v; try contradiction.
    cbn [typed] in HT. apply (Forall2_preds_combine fs (fun f => typed (snd f))) in HT as [HT1 HT2].
    cbn [root_hashes trees encoded_bytes]. rewrite !combine_map_l, !map_map. cbn [fst snd].
    assert (HA : Forall (fun fx : (string * ty) * val => 32 * root_hashes (snd (fst fx)) (snd fx) + 32
                   <= ((if spec_variable (snd (fst fx)) then 4 else 0) + encoded_bytes (snd (fst fx)) (snd fx)) + 2112 * trees (snd (fst fx)) (snd fx))
                   (combine fs l)).
    { rewrite forallb_forall in HL, R2. rewrite Forall_forall in H, HT2 |- *. intros [f x] Hfx. cbn [fst snd].
      pose proof (in_combine_l _ _ _ _ Hfx) as Hf.
      assert (G : 32 * root_hashes (snd f) x + 32 <= encoded_bytes (snd f) x + 2112 * trees (snd f) x).
      { apply (H f); auto; [apply (HT2 (f, x)); auto|].
        apply (in_memory_child _ _ _ _ HM). cbn [children]. rewrite combine_map_l. apply in_map_iff. exists (f, x). auto. }
      destruct (spec_variable (snd f)); clear - G; lia. }
    apply (elements_cost (fun fx : (string * ty) * val => root_hashes (snd (fst fx)) (snd fx))
             (fun fx => (if spec_variable (snd (fst fx)) then 4 else 0) + encoded_bytes (snd (fst fx)) (snd fx))
             (fun fx => trees (snd (fst fx)) (snd fx))) in HA.
    assert (HB : blen (combine fs l) = blen fs) by (unfold blen; rewrite combine_length; lia).
    rewrite HB in HA. apply N.leb_le in R1. apply tree_hashes_63 with (c := blen fs) in R1. clear - HA R1. lia.
  - (* newtype *)
    destruct v; try contradiction. cbn [root_hashes trees encoded_bytes].
    assert (HM' : forall u y, part t v u y -> in_memory u y) by (apply (in_memory_child _ _ _ _ HM); left; reflexivity).
    pose proof (IHt HL HR v HT HM') as G. clear - G. lia.
  - (* Option *)
    destruct v; try contradiction; cbn [root_hashes trees encoded_bytes]; [lia|].
    assert (HM' : forall u y, part t v u y -> in_memory u y) by (apply (in_memory_child _ _ _ _ HM); left; reflexivity).
    pose proof (IHt HL HR v HT HM') as G. clear - G. lia.
  - (* union *)
    destruct v; try (destruct vs as [|[]]; contradiction); [cbn [root_hashes trees encoded_bytes]; lia|].
    assert (HX : exists u, nth_error vs (N.to_nat i) = Some (Some u) /\ typed u v).
    { cbn [typed] in HT. destruct (nth_error vs (N.to_nat i)) as [[u|]|] eqn:E.
      - exists u. split; [reflexivity|]. destruct vs as [|[|] ?]; rewrite nth_error_map, E in HT; exact HT.
      - destruct vs as [|[|] ?]; rewrite nth_error_map, E in HT; contradiction.
      - destruct vs as [|[|] ?]; rewrite nth_error_map, E in HT; contradiction. }
    destruct HX as (u & E & HX).
    cbn [legal] in HL. rewrite andb_true_iff in HL. destruct HL as [HL1 HL2].
    cbn [sized] in HR. rewrite forallb_forall in HL2, HR.
    pose proof (nth_error_In _ _ E) as Hin. rewrite Forall_forall in H.
    assert (HM' : forall w y, part u v w y -> in_memory w y).
    { apply (in_memory_child _ _ _ _ HM). cbn [children]. rewrite E. left. reflexivity. }
    pose proof (H _ Hin (HL2 _ Hin) (HR _ Hin) v HX HM') as G. cbn beta iota in G.
    cbn [root_hashes trees encoded_bytes]. rewrite !nth_error_map, E. cbn [option_map]. clear - G. lia.
  - (* transparent *)
    destruct v; try contradiction.
    assert (HX : exists u, nth_error ts (N.to_nat i) = Some u /\ typed u v).
    { cbn [typed] in HT. rewrite nth_error_map in HT. destruct (nth_error ts (N.to_nat i)) as [u|]; [|contradiction].
      exists u. auto. }
    destruct HX as (u & E & HX).
    cbn [legal] in HL. rewrite !andb_true_iff in HL. destruct HL as [_ HL2].
    cbn [sized] in HR. rewrite forallb_forall in HL2, HR.
    pose proof (nth_error_In _ _ E) as Hin. rewrite Forall_forall in H.
    assert (HM' : forall w y, part u v w y -> in_memory w y).
    { apply (in_memory_child _ _ _ _ HM). cbn [children]. rewrite E. left. reflexivity. }
    pose proof (H _ Hin (HL2 _ Hin) (HR _ Hin) v HX HM') as G.
    cbn [root_hashes trees encoded_bytes]. rewrite !nth_error_map, E. cbn [option_map]. clear - G. lia.
Qed.
