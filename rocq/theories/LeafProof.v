(** The verifiers of branches. *)
From Coq Require Import String List NArith ZArith Bool Lia ZifyBool ZifyNat ZifyN.
From Coq Require Import Strings.Byte.
From Verif Require Import Prelude Types Bitvec Ser De Impls Merkleize Proofs MerkImpls Multiproofs Valid SpecSer SpecMerkle
  Lib SerSpec ChunkLib MerkProof TreeProof RootProof GindexProof ProveProof.
Import ListNotations.
Open Scope N_scope.
Ltac Zify.zify_post_hook ::= Z.div_mod_to_equations.

Lemma resolve_idem t : resolve (resolve t) = resolve t.
Proof. induction t; auto. Qed.

Lemma provable_resolve t : provable (resolve t) = provable t.
Proof. unfold provable. rewrite resolve_idem, resolve_chunk_count. reflexivity. Qed.

Section Leaf.
  Context (H : bytes -> bytes) (Hlen : forall x, blen (H x) = 32).

  Lemma last_some {A} (rest : Path) (a b : A) : match rest with [] => Some a | _ :: _ => None end = Some b -> rest = [] /\ a = b.
  Proof. destruct rest; [intros [= <-]; auto|discriminate]. Qed.

  (** ** Verification *)

  Section Verify.
  Context (oc : bool).

  Lemma derive_root_ok nodes : forall i index b, i + blen nodes <= 64 ->
    derive_root H oc i nodes index b = Ok (climb H (index / 2 ^ i) b nodes).
  Proof. clear Hlen.
    induction nodes as [|s nodes IH]; intros i index b Hi; cbn [derive_root climb]; [reflexivity|].
    rewrite blen_cons in Hi. rewrite upow2_ok by lia. cbn [bind]. unfold udiv.
    pose proof (pow2_pos i). replace (2 ^ i =? 0) with false by lia. cbn [bind].
    rewrite IH by lia. do 2 f_equal.
    - rewrite N.add_1_r, N.pow_succ_r', N.mul_comm, N.div_div by lia. reflexivity.
    - set (q := index / 2 ^ i). rewrite <- N.bit0_odd, N.bit0_eqb.
      destruct (N.eqb_spec (q mod 2) 0), (N.eqb_spec (q mod 2) 1); try reflexivity; lia.
  Qed.

  Lemma valid_branch_ok leaf br depth index root : blen br <= 64 ->
    is_valid_merkle_branch H oc leaf br depth index root =
    if (blen br =? depth) && bytes_eqb (climb H index leaf br) root then Ok tt else Err InvalidProof.
  Proof. clear Hlen.
    intros Hb. unfold is_valid_merkle_branch. destruct (blen br =? depth); cbn [negb andb]; [|reflexivity].
    rewrite derive_root_ok by lia. rewrite N.pow_0_r, N.div_1_r. reflexivity.
  Qed.

  Lemma verify_for_index leaf br g root : g < 2 ^ 64 ->
    is_valid_merkle_branch_for_generalized_index H oc leaf br g root =
    if g =? 0 then Err InvalidGeneralizedIndex
    else if (blen br =? N.log2 g) && bytes_eqb (climb H g leaf br) root then Ok tt else Err InvalidProof.
  Proof. clear Hlen.
    intros Hg. unfold is_valid_merkle_branch_for_generalized_index, log_2.
    destruct (N.eqb_spec g 0); [reflexivity|]. unfold get_subtree_index, get_depth, log_2.
    replace (g =? 0) with false by lia. cbn [bind]. unfold get_index.
    pose proof (log2_lt_64 g Hg). rewrite upow2_ok by lia. cbn [bind]. unfold urem.
    pose proof (pow2_pos (N.log2 g)) as HP. replace (2 ^ N.log2 g =? 0) with false by lia. cbn [bind].
    destruct (N.eqb_spec (blen br) (N.log2 g)) as [E|E].
    - rewrite valid_branch_ok by lia. rewrite E, N.eqb_refl. cbn [andb].
      rewrite (climb_low H br (g mod 2 ^ N.log2 g) g); [reflexivity|]. rewrite E. apply N.mod_mod. lia.
    - unfold is_valid_merkle_branch. replace (blen br =? N.log2 g) with false by lia. reflexivity.
  Qed.

  Lemma fold_branch_ok nodes : forall i index b, i + blen nodes <= 64 ->
    fold_branch H oc i nodes index b = Ok (climb H (index / 2 ^ i) b nodes).
  Proof. clear Hlen.
    induction nodes as [|s nodes IH]; intros i index b Hi; cbn [fold_branch climb]; [reflexivity|].
    rewrite blen_cons in Hi. unfold get_bit. replace (i <? 64) with true by lia. cbn [bind].
    rewrite IH by lia. do 2 f_equal.
    - pose proof (pow2_pos i). rewrite N.add_1_r, N.pow_succ_r', N.mul_comm, N.div_div by lia. reflexivity.
    - assert (E : (0 <? N.land index (N.shiftl 1 i)) = N.odd (index / 2 ^ i)).
      { rewrite <- N.shiftr_div_pow2, <- N.bit0_odd, N.shiftr_spec', N.add_0_l, N.shiftl_1_l.
        destruct (N.testbit index i) eqn:E.
        - assert (N.testbit (N.land index (2 ^ i)) i = true) by (rewrite N.land_spec, E, N.pow2_bits_true; reflexivity).
          destruct (N.ltb_spec 0 (N.land index (2 ^ i))) as [|HZ]; [reflexivity|].
          apply N.le_0_r in HZ. rewrite HZ, N.bits_0 in *. discriminate.
        - assert (HZ : N.land index (2 ^ i) = 0); [|rewrite HZ; reflexivity].
          apply N.bits_inj. intros j. rewrite N.land_spec, N.bits_0. destruct (N.eq_dec i j) as [<-|].
          + rewrite E. reflexivity.
          + rewrite N.pow2_bits_false by auto. apply andb_false_r. }
      rewrite E. destruct (N.odd _); reflexivity.
  Qed.

  Lemma calculate_root_ok leaf br g : g < 2 ^ 64 ->
    calculate_merkle_root H oc leaf br g =
    if g =? 0 then Err InvalidGeneralizedIndex
    else if blen br =? N.log2 g then Ok (climb H g leaf br) else Err InvalidProof.
  Proof. clear Hlen.
    intros Hg. unfold calculate_merkle_root, get_path_length, log_2. destruct (N.eqb_spec g 0); [reflexivity|].
    cbn [bind]. rewrite (N.eqb_sym (blen br)). destruct (N.eqb_spec (N.log2 g) (blen br)) as [E|]; cbn [negb]; [|reflexivity].
    pose proof (log2_lt_64 g Hg). rewrite fold_branch_ok by lia. rewrite N.pow_0_r, N.div_1_r. reflexivity.
  Qed.
  End Verify.

  (** ** Steps *)

  Lemma step_regular t p w pos u : regular t = true -> spec_step t p = Some (w, pos, u) -> regular u = true.
  Proof.
    assert (HR : forall t, regular t = true -> regular (resolve t) = true).
    { clear. intros t. induction t using ty_ind'; auto. }
    intros HT. apply HR in HT. unfold spec_step. destruct (resolve t) as [| | | |e n|e n|e n|n|n|fs| |e|vs|ts];
      destruct p as [i|name| |]; try discriminate; cbn [regular] in HT; rewrite ?andb_true_iff in HT.
    1-3: destruct (i <? n); [|discriminate]; intros [= _ _ <-]; tauto.
    - intros [= _ _ <-]. reflexivity.
    - destruct (i <? n); [|discriminate]; intros [= _ _ <-]; reflexivity.
    - destruct (i <? n); [|discriminate]; intros [= _ _ <-]; reflexivity.
    - destruct (field_position name fs) as [[q v]|] eqn:EF; [|discriminate]. intros [= _ _ <-].
      apply field_position_lt in EF as [_ EF]. destruct HT as [_ HT]. rewrite forallb_forall in HT.
      apply (HT (name, v)). eapply nth_error_In; eauto.
    - destruct (i =? 0); [intros [= _ _ <-]; reflexivity|]. destruct (i =? 1); [intros [= _ _ <-]; auto|discriminate].
    - intros [= _ _ <-]. reflexivity.
    - destruct (nth_error vs (N.to_nat i)) as [[v|]|] eqn:EN; try discriminate; intros [= _ _ <-]; [|reflexivity].
      rewrite forallb_forall in HT. apply (HT (Some v)). eapply nth_error_In; eauto.
    - intros [= _ _ <-]. reflexivity.
  Qed.
End Leaf.
