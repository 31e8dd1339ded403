(** What roots and branches bind: two different openings of a root give a collision of the hash. *)
From Coq Require Import String List NArith ZArith Bool Lia ZifyBool ZifyNat ZifyN.
From Coq Require Import Strings.Byte.
From Verif Require Import Prelude Types Bitvec Ser De Impls Merkleize Proofs MerkImpls Multiproofs Valid SpecSer SpecMerkle
  Lib SerProof SerSpec BitsLib ChunkLib MerkProof TreeProof RootProof GindexProof ProveProof LeafProof.
Import ListNotations.
Open Scope N_scope.
Ltac Zify.zify_post_hook ::= Z.div_mod_to_equations.

Lemma bytes_dec (a b : bytes) : a = b \/ a <> b.
Proof.
  destruct (bytes_eqb a b) eqn:E.
  - left. apply bytes_eqb_true, E.
  - right. intros ->. rewrite bytes_eqb_refl in E. discriminate.
Qed.

Lemma app_split {A} (a b c d : list A) : blen a = blen c -> a ++ b = c ++ d -> a = c /\ b = d.
Proof.
  revert c. induction a as [|x a IH]; intros [|y c] HL E; unfold blen in *; cbn in HL; try lia.
  - split; [reflexivity|exact E].
  - injection E as -> E. destruct (IH c ltac:(lia) E) as [-> ->]. auto.
Qed.

(** ** Branches *)

Section Branch.
  Context (H : bytes -> bytes) (Hlen : forall x, blen (H x) = 32).

  Lemma climb_binds branch1 : forall g node1 node2 branch2,
    blen node1 = 32 -> blen node2 = 32 -> all32 branch1 -> all32 branch2 ->
    length branch1 = length branch2 ->
    climb H g node1 branch1 = climb H g node2 branch2 ->
    (node1 = node2 /\ branch1 = branch2) \/
    exists x y, In x (climb_inputs H g node1 branch1) /\ In y (climb_inputs H g node2 branch2) /\
                x <> y /\ H x = H y.
  Proof.
    induction branch1 as [|s1 r1 IH]; intros g n1 n2 [|s2 r2] L1 L2 A1 A2 HL HE; try discriminate.
    { left. split; [exact HE|reflexivity]. }
    apply Forall_cons_iff in A1 as [B1 A1]. apply Forall_cons_iff in A2 as [B2 A2].
    cbn [climb climb_inputs] in *.
    set (x := if N.odd g then s1 ++ n1 else n1 ++ s1) in *.
    set (y := if N.odd g then s2 ++ n2 else n2 ++ s2) in *.
    assert (HE' : climb H (g / 2) (H x) r1 = climb H (g / 2) (H y) r2).
    { subst x y. destruct (N.odd g); exact HE. }
    clear HE. destruct (IH (g / 2) (H x) (H y) r2) as [[EN ER]|(a & b & Ia & Ib & C)]; auto.
    - subst r2. destruct (bytes_dec x y) as [EX|NX].
      + left. subst x y. destruct (N.odd g).
        * destruct (app_split s1 n1 s2 n2); [congruence|exact EX|]. split; congruence.
        * destruct (app_split n1 s1 n2 s2); [congruence|exact EX|]. split; congruence.
      + right. exists x, y. split; [now left|]. split; [now left|]. auto.
    - right. exists a, b. split; [now right|]. split; [now right|]. exact C.
  Qed.

  (** ** Perfect trees *)

  Lemma subtree_binds d : forall f g,
    (forall i, blen (f i) = 32) -> (forall i, blen (g i) = 32) ->
    subtree H d f = subtree H d g ->
    (forall i, i < 2 ^ N.of_nat d -> f i = g i) \/
    exists x y, subtree_input H d f x /\ subtree_input H d g y /\ x <> y /\ H x = H y.
  Proof.
    induction d as [|d IH]; intros f g Lf Lg HE.
    { left. intros i Hi. replace i with 0 by (cbn in Hi; lia). exact HE. }
    cbn [subtree subtree_input] in *.
    set (k := 2 ^ N.of_nat d) in *.
    assert (HP : 2 ^ N.of_nat (S d) = k + k) by (subst k; rewrite Nat2N.inj_succ, N.pow_succ_r'; lia).
    assert (Sf : forall i, blen (shifted f k i) = 32) by (intros; apply Lf).
    assert (Sg : forall i, blen (shifted g k i) = 32) by (intros; apply Lg).
    destruct (bytes_dec (subtree H d f ++ subtree H d (shifted f k))
                        (subtree H d g ++ subtree H d (shifted g k))) as [EX|NX].
    - apply app_split in EX as [E1 E2]; [|rewrite !subtree_blen; auto].
      destruct (IH f g Lf Lg E1) as [I1|(x & y & Ix & Iy & C)].
      2:{ right. exists x, y. auto. }
      destruct (IH (shifted f k) (shifted g k) Sf Sg E2) as [I2|(x & y & Ix & Iy & C)].
      2:{ right. exists x, y. auto. }
      left. intros i Hi. destruct (N.lt_ge_cases i k) as [L|L]; [apply I1, L|].
      specialize (I2 (i - k)). unfold shifted in I2. replace (k + (i - k)) with i in I2 by lia.
      apply I2. lia.
    - right. eexists _, _. split; [left; reflexivity|]. split; [left; reflexivity|]. auto.
  Qed.
End Branch.

(** ** Contents of chunks *)

Lemma nth_pack b k : (k < length b)%nat ->
  nth k b x00 = nth (Nat.modulo k 32) (nth (Nat.div k 32) (spec_pack b) zero_chunk) x00.
Proof.
  intros Hk. unfold spec_pack.
  assert (Hq : (Nat.div k 32 < Nat.div (length b + 31) 32)%nat).
  { apply Nat.div_lt_upper_bound; [lia|]. pose proof (Nat.div_mod (length b + 31) 32 ltac:(lia)).
    pose proof (Nat.mod_upper_bound (length b + 31) 32). lia. }
  rewrite (nth_map_seq _ _ _ zero_chunk Hq), nth_map_seq by (apply Nat.mod_upper_bound; lia).
  f_equal. apply Nat.div_mod. lia.
Qed.

Lemma spec_pack_inj a b : blen a = blen b -> spec_pack a = spec_pack b -> a = b.
Proof.
  intros HL HE. apply (nth_ext _ _ x00 x00); [unfold blen in HL; lia|].
  intros k Hk. rewrite (nth_pack a), (nth_pack b), HE by (unfold blen in HL; lia). reflexivity.
Qed.

Lemma basic_bytes_inj t : forall x y, spec_basic t = true -> valid t x -> valid t y ->
  basic_bytes t x = basic_bytes t y -> x = y.
Proof.
  induction t; intros x y HB HX HY HE; try discriminate HB; destruct x; try contradiction; destruct y; try contradiction;
    unfold basic_bytes in HE; cbn [spec_serialize] in HE; cbn [valid] in HX, HY.
  - f_equal. destruct b, b0; try reflexivity; discriminate HE.
  - f_equal. rewrite !spec_uint_le_bytes in HE. destruct w; apply le_bytes_inj in HE; try exact HE; assumption.
  - f_equal. rewrite !spec_uint_le_bytes in HE. apply le_bytes_inj in HE; assumption.
  - f_equal. apply IHt; auto.
Qed.

Lemma concat_inj n (l l' : list bytes) :
  Forall (fun x => blen x = n) l -> Forall (fun x => blen x = n) l' -> length l = length l' ->
  concat l = concat l' -> l = l'.
Proof.
  intros HF. revert l'. induction HF as [|x l Hx HF IH]; intros [|x' l'] HF' HL HE; try discriminate HL; [reflexivity|].
  apply Forall_cons_iff in HF' as [Hx' HF']. cbn in HE. apply app_split in HE as [-> HE]; [|congruence].
  f_equal. apply IH; auto.
Qed.

Lemma num_chunk_inj a b : a < 2 ^ 64 -> b < 2 ^ 64 -> num_chunk a = num_chunk b -> a = b.
Proof.
  intros Ha Hb HE. assert (H64 : 2 ^ 64 < 256 ^ N.of_nat 32) by (vm_compute; reflexivity).
  unfold num_chunk in HE. rewrite !spec_uint_le_bytes in HE.
  apply le_bytes_inj in HE; auto; eapply N.lt_trans; eauto.
Qed.

Section Bind.
  Context (H : bytes -> bytes) (Hlen : forall x, blen (H x) = 32).

  Definition collides (P Q : bytes -> Prop) : Prop :=
    exists x y, P x /\ Q y /\ x <> y /\ H x = H y.

  Lemma collides_weaken (P P' Q Q' : bytes -> Prop) :
    (forall x, P x -> P' x) -> (forall x, Q x -> Q' x) -> collides P Q -> collides P' Q'.
  Proof. intros HP HQ (x & y & A & B & C). exists x, y. auto. Qed.

  Lemma hashed_own t v x : own_input H t v x -> hashed H t v x.
  Proof. intros. exists t, v. split; [constructor|assumption]. Qed.

  Lemma hashed_child t v u y x : In (u, y) (children t v) -> hashed H u y x -> hashed H t v x.
  Proof. intros HI (u' & y' & HP & HO). exists u', y'. split; [econstructor; eauto|assumption]. Qed.

  Lemma own_binds t v w : legal t = true -> valid t v -> valid t w ->
    (spec_decoration t v = None <-> spec_decoration t w = None) ->
    spec_root H t v = spec_root H t w ->
    (spec_decoration t v = spec_decoration t w /\
     (blen (spec_chunks H t v) = blen (spec_chunks H t w) -> spec_chunks H t v = spec_chunks H t w)) \/
    collides (own_input H t v) (own_input H t w).
  Proof.
    intros HL HV HW HD HE. rewrite !root_of_chunks in HE by auto.
    pose proof (decoration_lt H Hlen [] t HL v HV) as Lv. pose proof (decoration_lt H Hlen [] t HL w HW) as Lw.
    pose proof (spec_chunks_all32 H Hlen t v HV) as Av. pose proof (spec_chunks_all32 H Hlen t w HW) as Aw.
    pose proof (spec_chunks_fit H Hlen [] t v HV) as Fv.
    set (d := tree_depth (spec_chunk_count t)) in *.
    assert (HT : spec_merkleize H d (spec_chunks H t v) = spec_merkleize H d (spec_chunks H t w) ->
      (blen (spec_chunks H t v) = blen (spec_chunks H t w) -> spec_chunks H t v = spec_chunks H t w) \/
      collides (own_input H t v) (own_input H t w)).
    { intros HM. destruct (subtree_binds H Hlen d (chunk_at (spec_chunks H t v)) (chunk_at (spec_chunks H t w)))
        as [HI|HC]; auto using chunk_at_blen.
      - left. intros HB. apply chunks_ext; [exact HB|]. intros i Hi. apply HI.
        eapply N.lt_le_trans; [exact Hi|]. eapply N.le_trans; [exact Fv|].
        unfold d, tree_depth. rewrite Nnat.N2Nat.id. apply N.log2_up_le_pow2; [|lia].
        destruct (spec_chunk_count t); lia.
      - right. eapply collides_weaken; [| |exact HC]; intros x Hx; left; exact Hx. }
    destruct (spec_decoration t v) as [n|] eqn:Ev, (spec_decoration t w) as [m|] eqn:Ew.
    - cbn [decorate] in HE. unfold spec_mix_in in HE.
      destruct (bytes_dec (spec_merkleize H d (spec_chunks H t v) ++ num_chunk n)
                          (spec_merkleize H d (spec_chunks H t w) ++ num_chunk m)) as [EX|NX].
      + apply app_split in EX as [E1 E2]; [|rewrite !spec_merkleize_blen; auto].
        apply num_chunk_inj in E2; auto. subst m. destruct (HT E1); auto.
      + right. eexists _, _. split; [right; rewrite Ev; reflexivity|].
        split; [right; rewrite Ew; reflexivity|]. auto.
    - destruct HD as [_ HD]. discriminate (HD eq_refl).
    - destruct HD as [HD _]. discriminate (HD eq_refl).
    - cbn [decorate] in HE. destruct (HT HE); auto.
  Qed.

  (** Roots of elements, one by one. *)
  Lemma roots_bind {A} (f : A -> ty) (l l' : list (A * val)) :
    (forall a x y, In (a, x) l -> valid (f a) x -> valid (f a) y -> spec_root H (f a) x = spec_root H (f a) y ->
       x = y \/ collides (hashed H (f a) x) (hashed H (f a) y)) ->
    map fst l = map fst l' ->
    Forall (fun ax => valid (f (fst ax)) (snd ax)) l -> Forall (fun ax => valid (f (fst ax)) (snd ax)) l' ->
    map (fun ax => spec_root H (f (fst ax)) (snd ax)) l = map (fun ax => spec_root H (f (fst ax)) (snd ax)) l' ->
    l = l' \/ exists a x y, In (a, x) l /\ In (a, y) l' /\ collides (hashed H (f a) x) (hashed H (f a) y).
  Proof.
    revert l'. induction l as [|[a x] l IH]; intros [|[a' x'] l'] HI HF HV HV' HE; try discriminate HF; [now left|].
    cbn [map fst snd] in *. injection HF as <- HF. injection HE as HE HR.
    apply Forall_cons_iff in HV as [V1 V2]. apply Forall_cons_iff in HV' as [V1' V2']. cbn [fst snd] in V1, V1'.
    destruct (HI a x x') as [->|HC]; auto; [now left| |].
    - destruct (IH l') as [->|(b & u & w & I1 & I2 & HC)]; auto.
      + intros b u w Hb. apply HI. now right.
      + right. exists b, u, w. split; [now right|]. split; [now right|]. exact HC.
    - right. exists a, x, x'. split; [now left|]. split; [now left|]. exact HC.
  Qed.

  Lemma combine_fst {A B} (a : list A) (b : list B) : length a = length b -> map fst (combine a b) = a.
  Proof. clear Hlen. revert b. induction a as [|x a IH]; intros [|y b] HL; try discriminate HL; cbn; [reflexivity|]. f_equal. apply IH. now injection HL. Qed.

  Lemma combine_snd {A B} (a : list A) (b : list B) : length a = length b -> map snd (combine a b) = b.
  Proof. clear Hlen. revert b. induction a as [|x a IH]; intros [|y b] HL; try discriminate HL; cbn; [reflexivity|]. f_equal. apply IH. now injection HL. Qed.

  Definition binds (t : ty) : Prop := forall v w, valid t v -> valid t w ->
    spec_root H t v = spec_root H t w -> v = w \/ collides (hashed H t v) (hashed H t w).

  Lemma own_collides t v w : collides (own_input H t v) (own_input H t w) -> collides (hashed H t v) (hashed H t w).
  Proof. clear Hlen. apply collides_weaken; intros; apply hashed_own; assumption. Qed.

  Lemma seq_binds u l l' : binds u -> Forall (valid u) l -> Forall (valid u) l' -> blen l = blen l' ->
    seq_chunks H u l = seq_chunks H u l' ->
    l = l' \/ exists x y, In x l /\ In y l' /\ collides (hashed H u x) (hashed H u y).
  Proof.
    intros IH HV HV' HL HE. unfold seq_chunks in HE. destruct (spec_basic u) eqn:HB.
    - left. apply spec_pack_inj in HE.
      + apply (concat_inj (fixed_size u)) in HE.
        * clear IH HL.
          assert (HI : forall x y, valid u x -> valid u y -> basic_bytes u x = basic_bytes u y -> x = y).
          { intros x y. apply basic_bytes_inj, HB. }
          revert l' HV' HE. induction HV as [|x l Hx HV IHl]; intros [|y l'] HV' HE; try discriminate HE; [reflexivity|].
          apply Forall_cons_iff in HV' as [Hy HV']. cbn in HE. injection HE as E1 E2. f_equal; auto.
        * rewrite Forall_map. eapply Forall_impl; [|exact HV]. intros x Hx. apply basic_bytes_blen; auto.
        * rewrite Forall_map. eapply Forall_impl; [|exact HV']. intros x Hx. apply basic_bytes_blen; auto.
        * rewrite !map_length. unfold blen in HL. lia.
      + rewrite !(concat_same_blen (fixed_size u)), !blen_map, HL; [reflexivity| |].
        * rewrite Forall_map. eapply Forall_impl; [|exact HV']. intros x Hx. apply basic_bytes_blen; auto.
        * rewrite Forall_map. eapply Forall_impl; [|exact HV]. intros x Hx. apply basic_bytes_blen; auto.
    - destruct (roots_bind (fun _ : unit => u) (map (pair tt) l) (map (pair tt) l')) as [E|(a & x & y & I1 & I2 & C)].
      + intros a x y _. apply IH.
      + rewrite !map_map. cbn [fst]. apply (f_equal (@length _)) in HE. rewrite !map_length in HE.
        clear -HE. revert l' HE. induction l as [|x l IH]; intros [|y l'] HE; try discriminate HE; cbn; [reflexivity|].
        f_equal. apply IH. now injection HE.
      + rewrite Forall_map. exact HV.
      + rewrite Forall_map. exact HV'.
      + rewrite !map_map. exact HE.
      + left. apply (f_equal (map snd)) in E. rewrite !map_map, !map_id in E. exact E.
      + right. exists x, y. apply in_map_iff in I1 as (? & [= _ <-] & I1). apply in_map_iff in I2 as (? & [= _ <-] & I2).
        auto.
  Qed.

  Lemma basic_binds t : spec_basic t = true -> binds t.
  Proof.
    intros HB v w HV HW HE. left. apply (basic_bytes_inj t); auto.
    pose proof (basic_size t HB) as HS.
    pose proof (basic_bytes_blen t v HV HB) as Bv. pose proof (basic_bytes_blen t w HW HB) as Bw.
    apply spec_pack_inj; [congruence|]. rewrite (single_chunk H Hlen (basic_bytes t v)), (single_chunk H Hlen (basic_bytes t w)) by lia.
    f_equal. clear HS Bv Bw. revert v w HV HW HE.
    induction t; try discriminate HB; intros v w' HV HW HE;
      destruct v; try contradiction; destruct w'; try contradiction; try exact HE.
    exact (IHt HB v w' HV HW HE).
  Qed.

  Lemma bits_bind n (b b' : bitvec) : bv_ok b = true -> bv_ok b' = true -> bv_clean b -> bv_clean b' ->
    bv_len b = n -> bv_len b' = n ->
    spec_pack (spec_bits (bv_bits b)) = spec_pack (spec_bits (bv_bits b')) -> b = b'.
  Proof. clear Hlen.
    intros O O' C C' L L' HE. apply bv_ext; auto. apply spec_bits_inj; [rewrite !blen_bv_bits; congruence|].
    apply spec_pack_inj; [rewrite !spec_bits_length, !blen_bv_bits; congruence|]. exact HE.
  Qed.

  Lemma child_collides t v w u x y : In (u, x) (children t v) -> In (u, y) (children t w) ->
    collides (hashed H u x) (hashed H u y) -> collides (hashed H t v) (hashed H t w).
  Proof. clear Hlen. intros I1 I2. apply collides_weaken; intros z Hz; eapply hashed_child; eauto. Qed.

  Lemma root_binds t : legal t = true -> no_transparent t = true -> binds t.
  Proof.
    induction t using ty_ind'; intros HL HN; try (apply basic_binds; reflexivity).
    all: intros v w' HV HW HE; destruct v; no_shape; destruct w'; no_shape.
    - (* Node *) left. f_equal. cbn [spec_root] in HE. unfold basic_bytes in HE. cbn [spec_serialize] in HE.
      rewrite !spec_pack_32 in HE by assumption. exact HE.
    - (* Vector *) destruct (own_binds _ _ _ HL HV HW) as [[_ HC]|HC]; [tauto|exact HE| |right; apply own_collides, HC].
      destruct HV as [Lv Vv], HW as [Lw Vw]. cbn [spec_chunks] in HC.
      rewrite !seq_chunks_blen in HC by auto. specialize (HC ltac:(congruence)).
      cbn [legal] in HL. rewrite !andb_true_iff in HL. cbn [no_transparent] in HN.
      destruct (seq_binds t l l0) as [->|(x & y & I1 & I2 & C)]; auto; [apply IHt; tauto|congruence|].
      right. eapply child_collides; [| |exact C]; cbn [children]; apply in_map; assumption.
    - (* Array *) destruct (own_binds _ _ _ HL HV HW) as [[_ HC]|HC]; [tauto|exact HE| |right; apply own_collides, HC].
      destruct HV as [Lv Vv], HW as [Lw Vw]. cbn [spec_chunks] in HC.
      rewrite !seq_chunks_blen in HC by auto. specialize (HC ltac:(congruence)).
      cbn [legal] in HL. rewrite !andb_true_iff in HL. cbn [no_transparent] in HN.
      destruct (seq_binds t l l0) as [->|(x & y & I1 & I2 & C)]; auto; [apply IHt; tauto|congruence|].
      right. eapply child_collides; [| |exact C]; cbn [children]; apply in_map; assumption.
    - (* List *) destruct (own_binds _ _ _ HL HV HW) as [[HD HC]|HC];
        [cbn; split; discriminate|exact HE| |right; apply own_collides, HC].
      cbn [spec_decoration] in HD. assert (HD' : blen l = blen l0) by congruence.
      destruct HV as [Lv Vv], HW as [Lw Vw]. cbn [spec_chunks] in HC.
      rewrite !seq_chunks_blen in HC by auto. specialize (HC ltac:(congruence)).
      cbn [legal] in HL. rewrite !andb_true_iff in HL. cbn [no_transparent] in HN.
      destruct (seq_binds t l l0) as [->|(x & y & I1 & I2 & C)]; auto; [apply IHt; tauto|].
      right. eapply child_collides; [| |exact C]; cbn [children]; apply in_map; assumption.
    - (* Bitvector *) destruct (own_binds _ _ _ HL HV HW) as [[_ HC]|HC]; [tauto|exact HE| |right; apply own_collides, HC].
      destruct HV as (Ov & Lv & Cv), HW as (Ow & Lw & Cw). cbn [spec_chunks] in HC.
      rewrite !bits_pack_blen in HC. specialize (HC ltac:(congruence)).
      left. f_equal. eapply bits_bind; eauto.
    - (* Bitlist *) destruct (own_binds _ _ _ HL HV HW) as [[HD HC]|HC];
        [cbn; split; discriminate|exact HE| |right; apply own_collides, HC].
      cbn [spec_decoration] in HD. assert (HD' : bv_len b = bv_len b0) by congruence.
      destruct HV as (Ov & Lv & Cv), HW as (Ow & Lw & Cw). cbn [spec_chunks] in HC.
      rewrite !bits_pack_blen in HC. specialize (HC ltac:(congruence)).
      left. f_equal. eapply bits_bind; eauto.
    - (* Container *) destruct (own_binds _ _ _ HL HV HW) as [[_ HC]|HC]; [tauto|exact HE| |right; apply own_collides, HC].
      apply valid_fields in HV as [Lv Vv]. apply valid_fields in HW as [Lw Vw].
      cbn [spec_chunks] in HC. rewrite !blen_map in HC. unfold blen in HC.
      rewrite !combine_length in HC. specialize (HC ltac:(lia)).
      cbn [legal] in HL. rewrite !andb_true_iff in HL. cbn [no_transparent] in HN.
      destruct HL as [_ HL]. rewrite forallb_forall in HL, HN. rewrite Forall_forall in H0.
      destruct (roots_bind (fun f : String.string * ty => snd f) (combine fs l) (combine fs l0))
        as [E|(a & x & y & I1 & I2 & C)]; auto.
      + intros a x y Ia. apply H0; [exact (in_combine_l _ _ _ _ Ia)|apply HL, (in_combine_l _ _ _ _ Ia)|apply HN, (in_combine_l _ _ _ _ Ia)].
      + rewrite !combine_fst by assumption. reflexivity.
      + left. f_equal. apply (f_equal (map snd)) in E. rewrite !combine_snd in E by assumption. exact E.
      + right. eapply child_collides; [| |exact C]; cbn [children]; rewrite combine_map_l; apply in_map_iff.
        * exists (a, x). auto.
        * exists (a, y). auto.
    - (* Newtype *) destruct (IHt HL HN v w' HV HW HE) as [->|C]; [now left|].
      right. eapply child_collides; [| |exact C]; now left.
    - (* Option *) now left.
    - destruct (own_binds _ _ _ HL HV HW) as [[HD HC]|HC];
        [cbn; split; discriminate|exact HE|discriminate HD|right; apply own_collides, HC].
    - destruct (own_binds _ _ _ HL HV HW) as [[HD HC]|HC];
        [cbn; split; discriminate|exact HE|discriminate HD|right; apply own_collides, HC].
    - destruct (own_binds _ _ _ HL HV HW) as [[HD HC]|HC];
        [cbn; split; discriminate|exact HE| |right; apply own_collides, HC].
      cbn [spec_chunks] in HC. specialize (HC eq_refl). injection HC as HC.
      destruct (IHt HL HN v w' HV HW HC) as [->|C]; [now left|].
      right. eapply child_collides; [| |exact C]; now left.
    - (* Union *) now left.
    - destruct (own_binds _ _ _ HL HV HW) as [[HD HC]|HC];
        [cbn; split; discriminate|exact HE| |right; apply own_collides, HC].
      cbn [spec_decoration] in HD. injection HD as <-.
      apply valid_unit in HV as (r & ->). apply valid_variant in HW as (u & E & _). discriminate E.
    - destruct (own_binds _ _ _ HL HV HW) as [[HD HC]|HC];
        [cbn; split; discriminate|exact HE| |right; apply own_collides, HC].
      cbn [spec_decoration] in HD. injection HD as ->.
      apply valid_unit in HW as (r & ->). apply valid_variant in HV as (u & E & _). discriminate E.
    - destruct (own_binds _ _ _ HL HV HW) as [[HD HC]|HC];
        [cbn; split; discriminate|exact HE| |right; apply own_collides, HC].
      cbn [spec_decoration] in HD. injection HD as <-.
      apply valid_variant in HV as (u & E & Vv). apply valid_variant in HW as (u' & E' & Vw).
      rewrite E in E'. injection E' as <-. cbn [spec_chunks] in HC. rewrite E in HC. specialize (HC eq_refl). injection HC as HC.
      pose proof (nth_error_In _ _ E) as HI.
      cbn [legal] in HL. rewrite andb_true_iff in HL. destruct HL as [_ HL]. cbn [no_transparent] in HN.
      rewrite forallb_forall in HL, HN. rewrite Forall_forall in H0.
      destruct (H0 _ HI (HL _ HI) (HN _ HI) v w' Vv Vw HC) as [->|C]; [now left|].
      right. eapply child_collides; [| |exact C]; cbn [children]; rewrite E; now left.
    - discriminate HN.
  Qed.
End Bind.
