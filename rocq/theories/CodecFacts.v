(** Lemmas behind the remaining codec properties. *)
From Coq Require Import List NArith ZArith Bool Lia ZifyBool ZifyNat ZifyN.
From Coq Require Import Strings.Byte.
From Verif Require Import Prelude Types Bitvec Ser De Impls Api Valid SpecSer SpecErr SpecAccept SpecApi
  Lib BitsLib SerProof SerSpec DeProof ConProof BitsDe RoundTrip DecValid Accept SerAny DeErr.
Import ListNotations.
Open Scope N_scope.

Ltac Zify.zify_post_hook ::= Z.div_mod_to_equations.

(** ** Fixed-size types reject other lengths *)

Lemma decode_fixed_len oc t :
  legal t = true -> spec_variable t = false ->
  forall b v, blen b < 2 ^ 63 -> deserialize (serializable oc t) b = Ok v -> blen b = fixed_size t.
Proof.
  induction t using ty_ind'; intros HL HF b v HB HD; try discriminate HF.
  - cbn [serializable bool_impl deserialize] in HD. unfold bool_deserialize in HD.
    destruct b as [|x [|]]; try discriminate. reflexivity.
  - cbn [serializable uint_impl deserialize] in HD. apply bind_ok_inv in HD as (k & HD & _).
    unfold uint_deserialize in HD. destruct (blen b <? _) eqn:C1; [discriminate|].
    destruct (_ <? blen b) eqn:C2; [discriminate|].
    assert (G : blen b = bits_to_bytes (uint_bits w)) by lia. rewrite G. destruct w; reflexivity.
  - cbn [serializable u256_impl uint_impl deserialize] in HD. apply bind_ok_inv in HD as (k & HD & _).
    unfold uint_deserialize in HD. destruct (blen b <? _) eqn:C1; [discriminate|].
    destruct (_ <? blen b) eqn:C2; [discriminate|]. unfold U256_BYTE_COUNT in *. cbn [fixed_size]. lia.
  - cbn [serializable node_impl deserialize] in HD. unfold node_deserialize, BYTES_PER_CHUNK in HD.
    destruct (blen b <? _) eqn:C1; [discriminate|].
    destruct (_ <? blen b) eqn:C2; [discriminate|]. cbn [fixed_size]. lia.
  - cbn [serializable vector_impl deserialize] in HD.
    apply vector_deserialize_inv in HD as (l & _ & _ & _ & HD & _). exact (HD HF).
  - cbn [serializable array_impl deserialize] in HD.
    apply array_deserialize_inv in HD as (l & _ & _ & _ & HD & _). exact (HD HF).
  - cbn [serializable bitvector_impl deserialize] in HD.
    apply bitvector_deserialize_iff in HD as (_ & HD & _). exact HD.
  - cbn [serializable container_impl deserialize] in HD. apply bind_ok_inv in HD as (vs & HD & _).
    cbn [legal] in HL. rewrite !andb_true_iff in HL. destruct HL as [[L1 L2] L3].
    apply container_inv in HD as (es & H1 & H2 & _ & _); auto; [|apply fields_size_ok; auto].
    rewrite H2, clayout_blen, compose_size_eq. cbn [fixed_size spec_variable] in *. rewrite HF.
    clear H2 H HB L1 L2 L3. rewrite Forall2_map_l in H1.
    induction H1 as [|f [x y] fs es [G1 G2] _ IH]; [reflexivity|].
    cbn [existsb] in HF. apply orb_false_iff in HF as [HF1 HF2].
    rewrite is_variable_size_spec, HF1 in G1. cbn [fst snd] in *. subst x. specialize (G2 eq_refl).
    rewrite size_hint_spec in G2.
    rewrite fixed_lengths_cons, variable_lengths_cons, !total_cons. cbn [fst snd map total fold_right].
    change (fold_right N.add 0) with total. rewrite <- (IH HF2). change (blen (@nil byte)) with 0. lia.
  - cbn [serializable newtype_impl deserialize] in HD. apply bind_ok_inv in HD as (x & HD & _).
    eapply IHt; eauto.
Qed.

(** ** A failed serialize *)

Lemma serialize_elements_err_buf oc elements buf out e :
  serialize_elements oc elements buf = (out, Err e) -> out = buf.
Proof.
  unfold serialize_elements. destruct (foldM _ _ _) as [s|x|p]; [|congruence|congruence].
  unfold serializer_serialize. destruct (MAXIMUM_LENGTH <=? _); [congruence|].
  set (w := write_parts _ _ _ _). intros H.
  assert (G : forall ps r b o x, write_parts oc ps r b <> (o, Err x)).
  { clear. induction ps as [|[d|l] ps IH]; intros r b o x; cbn [write_parts]; [congruence|apply IH|].
    unfold u32_serialize. cbn [ser_bind]. destruct (oc && _); [congruence|].
    unfold u32_add. destruct (_ <? 2 ^ 32); [apply IH|]. destruct oc; [congruence|apply IH]. }
  destruct w as [o [n|x|p]] eqn:E; cbn [ser_bind] in H; [congruence| |congruence].
  exfalso. exact (G _ _ _ _ _ E).
Qed.

Lemma serialize_err_buf oc t : writes_all_or_nothing t = true ->
  forall v buf out e, serialize (serializable oc t) v buf = (out, Err e) -> out = buf.
Proof.
  induction t using ty_ind'; intros HW v buf out e HS; try discriminate HW;
    cbn [serializable bool_impl uint_impl u256_impl node_impl vector_impl array_impl list_impl
         bitvector_impl bitlist_impl container_impl newtype_impl transparent_impl serialize] in HS.
  - destruct v; cbn in HS; unfold ill_typed in HS; congruence.
  - destruct v; cbn in HS; unfold ill_typed in HS; congruence.
  - destruct v; cbn in HS; unfold ill_typed in HS; congruence.
  - destruct v; cbn in HS; unfold ill_typed in HS; congruence.
  - destruct v; cbn [vector_serialize ill_typed] in HS; unfold ill_typed in HS; try congruence.
    destruct (n =? 0); [congruence|]. eapply serialize_elements_err_buf; eauto.
  - destruct v; cbn [vector_serialize ill_typed] in HS; unfold ill_typed in HS; try congruence.
    destruct (n =? 0); [congruence|]. eapply serialize_elements_err_buf; eauto.
  - destruct v; cbn [list_serialize ill_typed] in HS; unfold ill_typed in HS; try congruence.
    destruct (n <? blen l); [congruence|]. eapply serialize_elements_err_buf; eauto.
  - destruct v; cbn [bitvector_serialize ill_typed] in HS; unfold ill_typed in HS; try congruence.
    destruct (n =? 0); congruence.
  - destruct v; cbn [bitlist_serialize ill_typed] in HS; unfold ill_typed in HS; try congruence.
    unfold bitlist_serialize_with_length in HS. destruct (n <? bv_len b); [congruence|].
    destruct (bv_len b mod 8 =? 0); [congruence|].
    unfold or_last in HS. destruct (rev _); congruence.
  - destruct v; cbn [container_serialize ill_typed] in HS; unfold ill_typed in HS; try congruence.
    destruct (Nat.eqb _ _); [|unfold ill_typed in HS; congruence]. eapply serialize_elements_err_buf; eauto.
  - destruct v; unfold ill_typed in HS; try congruence. eapply IHt; eauto.
  - destruct v; cbn [transparent_serialize ill_typed] in HS; unfold ill_typed in HS; try congruence.
    rewrite nth_error_map in HS. destruct (nth_error ts (N.to_nat i)) as [t|] eqn:E; cbn [option_map] in HS; [|unfold ill_typed in HS; congruence].
    pose proof (nth_error_In _ _ E) as Hin. rewrite Forall_forall in H.
    cbn [writes_all_or_nothing] in HW. rewrite forallb_forall in HW.
    exact (H _ Hin (HW _ Hin) _ _ _ _ HS).
Qed.

(** ** When serialize fails on values within bounds *)

Lemma legal_valid_child t v t1 v1 :
  legal t = true -> valid t v -> In (t1, v1) (children t v) -> legal t1 = true /\ valid t1 v1.
Proof.
  intros HL HV Hin. destruct t, v; try contradiction; cbn [valid children legal] in *;
    rewrite ?andb_true_iff in HL.
  - apply in_map_iff in Hin as (x & [= <- <-] & Hx). destruct HV as [_ HV]. rewrite Forall_forall in HV.
    split; [tauto|auto].
  - apply in_map_iff in Hin as (x & [= <- <-] & Hx). destruct HV as [_ HV]. rewrite Forall_forall in HV.
    split; [tauto|auto].
  - apply in_map_iff in Hin as (x & [= <- <-] & Hx). destruct HV as [_ HV]. rewrite Forall_forall in HV.
    split; [tauto|auto].
  - apply (Forall2_preds_combine fs (fun f => valid (snd f))) in HV as [_ HV].
    rewrite combine_map_l in Hin. apply in_map_iff in Hin as ([f x] & [= <- <-] & Hx).
    rewrite Forall_forall in HV. destruct HL as [_ HL]. rewrite forallb_forall in HL.
    split; [|exact (HV _ Hx)]. apply HL. eapply in_combine_l; eauto.
  - destruct Hin as [[= <- <-]|[]]. auto.
  - destruct Hin as [[= <- <-]|[]]. auto.
  - destruct HL as [_ HL]. rewrite forallb_forall in HL.
    destruct (nth_error vs (N.to_nat i)) as [[u|]|] eqn:E; try contradiction.
    destruct Hin as [[= <- <-]|[]]. split; [exact (HL _ (nth_error_In _ _ E))|].
    destruct vs as [|[|] vs']; rewrite nth_error_map, E in HV; exact HV.
  - destruct HL as [_ HL]. rewrite forallb_forall in HL.
    destruct (nth_error ts (N.to_nat i)) as [u|] eqn:E; try contradiction.
    destruct Hin as [[= <- <-]|[]]. split; [exact (HL _ (nth_error_In _ _ E))|].
    rewrite nth_error_map, E in HV. exact HV.
Qed.

Lemma valid_typed t : forall v, valid t v -> typed t v.
Proof.
  induction t using ty_ind'; intros v HV; destruct v; try contradiction; cbn [valid typed] in *; auto.
  - destruct HV as [_ HV]. eapply Forall_impl; [|exact HV]. auto.
  - destruct HV as [HL HV]. split; [auto|]. eapply Forall_impl; [|exact HV]. auto.
  - destruct HV as [_ HV]. eapply Forall_impl; [|exact HV]. auto.
  - tauto.
  - tauto.
  - revert l HV. induction H as [|f fs Hf _ IH]; intros l HV; inversion HV; subst; constructor; auto.
  - assert (G : match nth_error vs (N.to_nat i) with Some (Some u) => valid u v | _ => False end).
    { destruct vs as [|[|] ?]; rewrite nth_error_map in HV; destruct (nth_error _ _) as [[|]|]; exact HV. }
    assert (G' : match nth_error vs (N.to_nat i) with Some (Some u) => typed u v | _ => False end).
    { destruct (nth_error vs (N.to_nat i)) as [[u|]|] eqn:E; try contradiction.
      rewrite Forall_forall in H. exact (H _ (nth_error_In _ _ E) _ G). }
    clear HV G H. assert (G : match nth_error (map (option_map typed) vs) (N.to_nat i) with
                          | Some (Some P) => P v | _ => False end).
    { rewrite nth_error_map. destruct (nth_error vs (N.to_nat i)) as [[|]|]; exact G'. }
    destruct vs as [|[|] ?]; exact G.
  - rewrite nth_error_map in *. destruct (nth_error ts (N.to_nat i)) as [u|] eqn:E; [|contradiction].
    cbn [option_map] in *. rewrite Forall_forall in H. exact (H _ (nth_error_In _ _ E) _ HV).
Qed.

Lemma part_valid t v t' v' :
  part t v t' v' -> legal t = true -> valid t v -> legal t' = true /\ valid t' v'.
Proof.
  induction 1 as [|t v t1 v1 t2 v2 Hin _ IH]; intros HL HV; auto.
  destruct (legal_valid_child _ _ _ _ HL HV Hin). auto.
Qed.

Lemma valid_bitvectors_sized t v : legal t = true -> valid t v -> bitvectors_sized t v.
Proof.
  intros HL HV n b HP. destruct (part_valid _ _ _ _ HP HL HV) as [_ H]. cbn [valid] in H. tauto.
Qed.

Lemma joined_encs t v b :
  joined t = true -> spec_serialize t v = Some b ->
  joined_size t v = Some (blen b) /\ blen b < 2 ^ 32.
Proof.
  intros HJ HS. unfold joined_size. fold (encs (children t v)).
  assert (G : match encs (children t v) with Some es => spec_compose es | None => None end = Some b).
  { destruct t; try discriminate HJ; destruct v; try discriminate HS; cbn [spec_serialize children] in *;
      unfold encs; rewrite ?map_map, ?combine_map_l, ?map_map in *; cbn [fst snd] in *; exact HS. }
  destruct (encs (children t v)) as [es|]; [|discriminate]. cbn [option_map].
  rewrite (spec_compose_blen _ _ G). split; [reflexivity|].
  apply spec_compose_some in G. tauto.
Qed.

Lemma serialize_not_too_big oc t v b :
  legal t = true -> valid t v -> ssz_serialize oc t v = Ok b -> forall n, ~ too_big t v n.
Proof.
  intros HL HV HS n (t' & v' & HP & HJ & HN & HB).
  unfold ssz_serialize, serialize_to_vec in HS.
  destruct (serialize (serializable oc t) v []) as [out [k|e|p]] eqn:E; try discriminate.
  destruct (serialize_parts oc _ _ _ _ HP (valid_typed _ _ HV) _ _ _ E) as (b' & k' & E').
  pose proof (part_valid _ _ _ _ HP HL HV) as G.
  destruct G as [L' V'].
  pose proof (serialize_spec oc t' L' v' V' []) as G.
  destruct (spec_serialize t' v') as [b2|] eqn:E2.
  - destruct (joined_encs _ _ _ HJ E2) as [G1 G2]. rewrite HN in G1.
    assert (n = blen b2) by congruence. lia.
  - destruct G as (m & ext & G & _). rewrite E' in G. discriminate.
Qed.

(** ** Bit lists *)

Lemma top_log2 x : x <> x00 -> top x = N.log2 (byte_to_N x).
Proof.
  intros H. pose proof (all_bytes (fun x => byte_eqb x x00 || (top x =? N.log2 (byte_to_N x)))
                          ltac:(vm_compute; reflexivity) x) as G.
  cbn beta in G. apply byte_eqb_false in H. rewrite H in G. cbn [orb] in G. lia.
Qed.

Lemma bitlist_decode_iff oc n b :
  n + 8 < 2 ^ 64 ->
  (exists v, bitlist_deserialize oc n b = Ok v) <->
  (exists p x, b = p ++ [x] /\ x <> x00 /\ 8 * blen p + N.log2 (byte_to_N x) <= n).
Proof.
  intros Hn. split.
  - intros (v & H). destruct (last_cases b) as [->|(p & x & ->)]; [discriminate|].
    destruct (byte_eqb x x00) eqn:Ex.
    { unfold bitlist_deserialize in H. rewrite rev_app_distr in H. cbn [rev app] in H.
      rewrite bitlist_byte_length_ok in H by auto. cbn [bind] in H. rewrite Ex in H.
      destruct (_ <? _); discriminate. }
    apply byte_eqb_false in Ex. exists p, x. split; [reflexivity|]. split; [auto|].
    destruct (N.lt_ge_cases (n / 8 + 1) (blen p + 1)) as [L|L].
    { unfold bitlist_deserialize in H. rewrite rev_app_distr in H. cbn [rev app] in H.
      rewrite bitlist_byte_length_ok in H by auto. cbn [bind] in H.
      rewrite blen_app in H. change (blen [x]) with 1 in H.
      replace (n / 8 + 1 <? blen p + 1) with true in H by lia. discriminate. }
    rewrite bitlist_deserialize_snoc in H by auto.
    destruct (bitlist_bits p x Ex) as [HB _]. rewrite HB in H. rewrite <- top_log2 by auto.
    destruct (n <? _) eqn:C; [discriminate|]. lia.
  - intros (p & x & -> & Hx & Hb). rewrite <- top_log2 in Hb by auto.
    destruct (top_spec x Hx) as (_ & Ht & _).
    rewrite bitlist_deserialize_snoc by (auto; lia).
    destruct (bitlist_bits p x Hx) as [HB _]. rewrite HB.
    replace (n <? _) with false by lia. eauto.
Qed.

Lemma bitlist_decode_value oc n p x v :
  n + 8 < 2 ^ 64 ->
  bitlist_deserialize oc n (p ++ [x]) = Ok v ->
  exists b, v = VBits b /\ bv_ok b = true /\ bv_clean b /\
    bv_len b = 8 * blen p + N.log2 (byte_to_N x) /\
    forall i, i < bv_len b -> bv_get b i = Some (bit_of (p ++ [x]) i).
Proof.
  intros Hn H.
  assert (Hx : x <> x00).
  { destruct (proj1 (bitlist_decode_iff oc n (p ++ [x]) Hn) (ex_intro _ v H)) as (p' & x' & E & Hx & _).
    apply app_inj_tail in E as [_ ->]. auto. }
  apply bitlist_deserialize_iff in H as (bits & He & HL & ->); auto.
  destruct (bitlist_bits p x Hx) as [HB HS].
  set (bits' := bv_bits (bv_from_slice p) ++ takeN (top x) (bv_bits (bv_from_element x))) in *.
  assert (Hbits : bits = bits').
  { rewrite HS in He.
    assert (HLen : blen bits = blen bits').
    { (* the same byte string has one delimiter *)
      assert (HR : forall i, nth (N.to_nat i) (bits' ++ [true]) false = nth (N.to_nat i) (bits ++ [true]) false).
      { intros i. rewrite <- !raw_bit_spec_bits, He. reflexivity. }
      destruct (N.lt_trichotomy (blen bits) (blen bits')) as [L|[L|L]]; auto; exfalso.
      - pose proof (HR (blen bits')) as B'.
        rewrite (nth_overflow (bits ++ [true])) in B' by (rewrite app_length; cbn [length]; unfold blen in *; lia).
        rewrite app_nth2 in B' by (unfold blen; lia).
        replace (N.to_nat (blen bits') - length bits')%nat with 0%nat in B' by (unfold blen; lia).
        discriminate.
      - pose proof (HR (blen bits)) as B'.
        rewrite (nth_overflow (bits' ++ [true])) in B' by (rewrite app_length; cbn [length]; unfold blen in *; lia).
        rewrite app_nth2 in B' by (unfold blen; lia).
        replace (N.to_nat (blen bits) - length bits)%nat with 0%nat in B' by (unfold blen; lia).
        discriminate. }
    assert (HE : bits' ++ [true] = bits ++ [true]).
    { apply spec_bits_inj; auto. rewrite !blen_app. lia. }
    apply app_inv_tail in HE. auto. }
  subst bits. exists (BitVec (spec_bits bits') (blen bits')). split; [reflexivity|].
  split; [apply bv_ok_len; apply spec_bits_length|]. split.
  { intros i Hi. cbn [bv_len bv_raw] in *. rewrite raw_bit_spec_bits. apply nth_overflow. unfold blen in Hi. lia. }
  cbn [bv_len]. rewrite HB, top_log2 by auto. split; [reflexivity|].
  intros i Hi. unfold bv_get. cbn [bv_len bv_raw].
  replace (i <? _) with true by lia. f_equal.
  change (bit_of (p ++ [x]) i) with (raw_bit (p ++ [x]) i). rewrite HS, !raw_bit_spec_bits.
  rewrite app_nth1; [reflexivity|]. rewrite <- top_log2 in Hi by auto. unfold blen in *. lia.
Qed.

(** ** Sequences of operations *)

Lemma replace_length {A} i (x : A) l : length (replace i x l) = length l.
Proof. revert i; induction l as [|y l IH]; intros [|i]; cbn [replace length]; auto. Qed.

Lemma nth_replace {A} i (x : A) l j d :
  nth j (replace i x l) d = if (Nat.eqb j i && Nat.ltb i (length l))%bool then x else nth j l d.
Proof.
  revert i j; induction l as [|y l IH]; intros i j.
  - rewrite andb_comm. destruct i; reflexivity.
  - destruct i as [|i], j as [|j]; cbn [replace nth length]; auto. rewrite IH. reflexivity.
Qed.

Lemma bits_set_spec b i v :
  bv_ok b = true ->
  bv_ok (fst (bits_set b i v)) = true /\
  bv_bits (fst (bits_set b i v)) = replace (N.to_nat i) v (bv_bits b) /\
  (bv_clean b -> bv_clean (fst (bits_set b i v))) /\
  snd (bits_set b i v) = nth_error (bv_bits b) (N.to_nat i).
Proof.
  intros Hok. unfold bits_set, bv_get. destruct (i <? bv_len b) eqn:E.
  - assert (HS : exists b', bv_set b i v = Some b') by (unfold bv_set; rewrite E; eauto).
    destruct HS as (b' & HS). rewrite HS. cbn [fst snd].
    destruct (bv_set_spec _ _ _ _ Hok HS) as (H1 & H2 & H3 & H4).
    split; [auto|]. split; [|split; [eapply bv_set_clean; eauto|]].
    + apply bools_nth_ext; [rewrite replace_length, !bv_bits_length; congruence|].
      intros j Hj. rewrite bv_bits_length in Hj. rewrite nth_bv_bits, nth_replace, H3, H4, bv_bits_length.
      replace (N.of_nat j <? bv_len b) with true by lia. cbn [andb].
      replace (Nat.ltb (N.to_nat i) (N.to_nat (bv_len b))) with true by (symmetry; apply Nat.ltb_lt; lia).
      rewrite andb_true_r.
      destruct (Nat.eqb j (N.to_nat i)) eqn:Ej.
      * apply Nat.eqb_eq in Ej. replace (N.of_nat j =? i) with true by lia. reflexivity.
      * apply Nat.eqb_neq in Ej. replace (N.of_nat j =? i) with false by lia.
        rewrite nth_bv_bits. replace (N.of_nat j <? bv_len b) with true by lia. reflexivity.
    + rewrite (nth_error_nth' _ false) by (rewrite bv_bits_length; lia).
      rewrite nth_bv_bits, N2Nat.id, E. reflexivity.
  - assert (HN : nth_error (bv_bits b) (N.to_nat i) = None)
      by (apply nth_error_None; rewrite bv_bits_length; lia).
    cbn [fst snd]. split; [auto|]. split; [|split; [auto|auto]].
    apply bools_nth_ext; [rewrite replace_length; auto|]. intros j Hj. rewrite nth_replace, bv_bits_length.
    replace (Nat.ltb (N.to_nat i) (N.to_nat (bv_len b))) with false by (symmetry; apply Nat.ltb_ge; lia).
    rewrite andb_false_r. reflexivity.
Qed.

Lemma removelast_firstn' {A} (l : list A) : removelast l = firstn (length l - 1) l.
Proof.
  induction l as [|x [|y l] IH]; [reflexivity|reflexivity|].
  cbn [removelast] in *. rewrite IH. cbn [length].
  replace (S (S (length l)) - 1)%nat with (S (length l)) by lia.
  replace (S (length l) - 1)%nat with (length l) by lia. reflexivity.
Qed.

(** The live bits always follow the sequence semantics; the dead bits stay clean as long as
    nothing shrinks. *)
Lemma apply_bit_op_spec b o :
  bv_ok b = true ->
  bv_ok (apply_bit_op b o) = true /\
  bv_bits (apply_bit_op b o) = spec_bit_op (bv_bits b) o /\
  (grows o = true -> bv_clean b -> bv_clean (apply_bit_op b o)).
Proof.
  intros Hok.
  assert (HT : forall n, bv_ok (bv_truncate b n) = true /\
                 bv_bits (bv_truncate b n) = firstn (N.to_nat n) (bv_bits b)).
  { intros n. destruct (N.le_gt_cases n (bv_len b)) as [L|L].
    - destruct (bv_truncate_spec b n Hok L) as (H1 & H2 & H3). auto.
    - unfold bv_truncate. replace (n <? bv_len b) with false by lia. split; [auto|].
      symmetry. apply firstn_all2. rewrite bv_bits_length. lia. }
  destruct o as [v|i v| |n|]; cbn [apply_bit_op spec_bit_op grows].
  - split; [apply bv_push_ok; auto|]. split; [apply bv_push_bits; auto|]. intros _. apply bv_push_clean; auto.
  - destruct (bits_set_spec b i v Hok) as (H1 & H2 & H3 & _). auto.
  - unfold bv_pop. destruct (bv_len b =? 0) eqn:E; cbn [snd].
    + split; [auto|]. split; [|discriminate].
      destruct (bv_bits b) eqn:Eb; [reflexivity|].
      apply (f_equal (@length bool)) in Eb. rewrite bv_bits_length in Eb. cbn [length] in Eb. lia.
    + destruct (HT (bv_len b - 1)) as (H1 & H2). split; [auto|]. split; [|discriminate].
      rewrite H2, removelast_firstn', bv_bits_length. f_equal. lia.
  - destruct (HT n). split; [auto|]. split; [auto|discriminate].
  - unfold bv_clear. destruct (HT 0). split; [auto|]. split; [auto|discriminate].
Qed.

Lemma apply_bit_ops_spec ops : forall b,
  bv_ok b = true ->
  bv_ok (apply_bit_ops b ops) = true /\
  bv_bits (apply_bit_ops b ops) = fold_left spec_bit_op ops (bv_bits b) /\
  (forallb grows ops = true -> bv_clean b -> bv_clean (apply_bit_ops b ops)).
Proof.
  induction ops as [|o ops IH]; intros b Hok; [auto|].
  destruct (apply_bit_op_spec b o Hok) as (H1 & H2 & H3).
  destruct (IH _ H1) as (G1 & G2 & G3). unfold apply_bit_ops in *. cbn [fold_left forallb].
  rewrite <- H2. split; [auto|]. split; [auto|]. rewrite andb_true_iff. intros [A B] C. auto.
Qed.

(** serialize of a clean bit list. *)
Lemma bitlist_serialize_clean oc n b :
  bv_ok b = true -> bv_clean b ->
  ssz_serialize oc (TBitlist n) (VBits b) =
  if n <? bv_len b then Err (SInvalidInstance (Bounded n (bv_len b)))
  else Ok (spec_bits (bv_bits b ++ [true])).
Proof.
  intros Hok HC. unfold ssz_serialize, serialize_to_vec. cbn [serializable bitlist_impl serialize bitlist_serialize].
  destruct (n <? bv_len b) eqn:E.
  - unfold bitlist_serialize_with_length. rewrite E. reflexivity.
  - rewrite bitlist_serialize_spec by (auto; lia). reflexivity.
Qed.

(** set_all: the loop of Bitvector::try_from. *)
Lemma set_all_spec l : forall b i,
  bv_ok b = true -> bv_clean b -> i + blen l <= bv_len b ->
  bv_ok (set_all i l b) = true /\ bv_clean (set_all i l b) /\ bv_len (set_all i l b) = bv_len b /\
  bv_bits (set_all i l b) =
    firstn (N.to_nat i) (bv_bits b) ++ l ++ skipn (N.to_nat i + length l) (bv_bits b).
Proof.
  induction l as [|x l IH]; intros b i Hok HC Hi; cbn [set_all].
  - split; [auto|]. split; [auto|]. split; [auto|]. cbn [length app]. rewrite Nat.add_0_r.
    symmetry. apply firstn_skipn.
  - rewrite blen_cons in Hi. destruct (bits_set_spec b i x Hok) as (H1 & H2 & H3 & _).
    assert (HL : bv_len (fst (bits_set b i x)) = bv_len b).
    { pose proof (f_equal (@length bool) H2) as G. rewrite replace_length, !bv_bits_length in G. lia. }
    destruct (IH (fst (bits_set b i x)) (i + 1)) as (G1 & G2 & G3 & G4); auto; [lia|].
    split; [auto|]. split; [auto|]. split; [congruence|]. rewrite G4, H2.
    set (k := N.to_nat i). set (bb := bv_bits b).
    assert (Hk : (k < length bb)%nat) by (unfold bb, k; rewrite bv_bits_length; lia).
    replace (N.to_nat (i + 1)) with (S k) by (unfold k; lia). clearbody k bb. clear -Hk.
    cbn [length]. revert bb Hk. induction k as [|k IHk]; intros [|y bb] Hk; cbn [length] in Hk; try lia.
    + cbn [replace firstn skipn app]. reflexivity.
    + cbn [replace firstn app]. f_equal. specialize (IHk bb ltac:(lia)).
      cbn [skipn Nat.add]. exact IHk.
Qed.

(** ** Containers *)

Lemma ioffs_bound m es : forall r,
  Forall (fun o => o < m) (ioffs (items_of r es)) <->
  (forall i body, nth_error es i = Some (true, body) -> r + total (firstn i (variable_lengths es)) < m).
Proof.
  induction es as [|[f b] es IH]; intros r.
  - cbn. split; [intros _ [|i] body; discriminate|constructor].
  - rewrite variable_lengths_cons. destruct f; cbn [items_of ioffs fst snd].
    + split.
      * intros H [|i] body; inversion H; subst; cbn [nth_error firstn].
        -- intros _. cbn [total fold_right]. lia.
        -- intros E. rewrite total_cons. rewrite N.add_assoc. eapply (proj1 (IH _)); eauto.
      * intros H. constructor.
        -- specialize (H 0%nat b eq_refl). cbn [firstn total fold_right] in H. lia.
        -- apply IH. intros i body E. specialize (H (S i) body E). cbn [firstn] in H.
           rewrite total_cons in H. lia.
    + change (blen (@nil byte)) with 0. split.
      * intros H [|i] body; cbn [nth_error firstn]; [discriminate|]. intros E. rewrite total_cons.
        rewrite N.add_0_l. eapply (proj1 (IH _)); eauto.
      * intros H. apply IH. intros i body E. specialize (H (S i) body E). cbn [firstn] in H.
        rewrite total_cons in H. lia.
Qed.

Lemma clayout_spec es : clayout es = concat (fixed_parts es ++ variable_parts es).
Proof. unfold clayout. rewrite concat_app, fixed_parts_from. reflexivity. Qed.

Definition span_ok (oc : bool) (fb : ty * bytes) (v : val) : Prop :=
  ssz_deserialize oc (fst fb) (snd fb) = Ok v /\
  (spec_variable (fst fb) = false -> blen (snd fb) = fixed_size (fst fb)).

Lemma container_decode_iff oc fs b vs :
  legal (TContainer fs) = true -> blen b < 2 ^ 63 ->
  ssz_deserialize oc (TContainer fs) b = Ok (VStruct vs) <->
  exists bodies : list bytes,
    length bodies = length fs /\
    let es := combine (map (fun f => spec_variable (snd f)) fs) bodies in
    b = concat (fixed_parts es ++ variable_parts es) /\
    (forall i body, nth_error es i = Some (true, body) -> variable_offset es i < 2 ^ 32) /\
    Forall2 (span_ok oc) (combine (map snd fs) bodies) vs.
Proof.
  intros HL HB. unfold ssz_deserialize. cbn [serializable container_impl deserialize].
  cbn [legal] in HL. rewrite !andb_true_iff in HL. destruct HL as [[L1 L2] L3].
  pose proof (fields_size_ok oc fs L3) as HS.
  split.
  - intros H. apply bind_ok_inv in H as (vs' & H & [= ->]).
    apply container_inv in H as (es & H1 & H2 & H3 & H4); auto.
    exists (map snd es). pose proof (Forall2_length _ _ _ H1) as Hlen. rewrite map_length in Hlen.
    split; [rewrite map_length; auto|].
    assert (Hes : combine (map (fun f => spec_variable (snd f)) fs) (map snd es) = es).
    { clear - H1. rewrite Forall2_map_l in H1.
      induction H1 as [|f [x y] fs es [G _] _ IH]; [reflexivity|]. cbn [map combine snd].
      rewrite IH. rewrite is_variable_size_spec in G. cbn [fst] in G. rewrite G. reflexivity. }
    cbv zeta. rewrite Hes, <- clayout_spec. split; [auto|]. split.
    + intros i body E. unfold variable_offset. rewrite total_app. eapply (proj1 (ioffs_bound _ _ _)); eauto.
    + apply mapM_ok_iff in H4. clear - H1 H4. rewrite Forall2_map_l in H1.
      revert vs H4. induction H1 as [|f [x y] fs es [G1 G2] _ IH]; intros vs H4; cbn [map combine] in *.
      * inversion H4; subst. constructor.
      * inversion H4; subst. constructor; [|apply IH; auto]. cbn [fst snd] in *. split; [auto|].
        cbn [fst snd]. intros HF. rewrite <- size_hint_spec with (oc := oc). apply G2.
        rewrite <- G1, is_variable_size_spec. auto.
  - intros (bodies & Hlen & HC). cbv zeta in HC.
    set (es := combine (map (fun f => spec_variable (snd f)) fs) bodies) in *.
    destruct HC as (-> & H2 & H3). rewrite <- clayout_spec in *.
    assert (HF : Forall2 field_ok (map (fun f => serializable oc (snd f)) fs) es /\ map snd es = bodies).
    { clear - Hlen H3. unfold es. clear es. revert bodies vs Hlen H3.
      induction fs as [|f fs IH]; intros [|y bodies] vs Hlen H3; try discriminate Hlen; [split; constructor|].
      cbn [map combine] in *. inversion H3 as [|? v ? vs' [G1 G2] H4]; subst.
      destruct (IH bodies vs' ltac:(injection Hlen; auto) H4) as [I1 I2]. split; [|cbn [snd]; f_equal; auto].
      constructor; auto. split; cbn [fst snd] in *; [apply is_variable_size_spec|].
      intros E. rewrite size_hint_spec. auto. }
    destruct HF as [HF HM].
    rewrite container_layout; auto.
    2:{ apply ioffs_bound. intros i body E. specialize (H2 i body E). unfold variable_offset in H2.
        rewrite total_app in H2. auto. }
    rewrite HM. replace (mapM _ _) with (@Ok DeserializeError _ vs); [reflexivity|].
    symmetry. apply mapM_ok_iff. clear - H3 Hlen. revert bodies vs Hlen H3.
    induction fs as [|f fs IH]; intros [|y bodies] vs Hlen H3; try discriminate Hlen; cbn [map combine] in *.
    + inversion H3. constructor.
    + inversion H3 as [|? v ? vs' [G1 G2] H4]; subst. constructor; [exact G1|]. apply IH; auto.
Qed.

(** Offsets of the specification layout. *)
Lemma variable_offset_props es :
  (forall i j, (i <= j)%nat -> variable_offset es i <= variable_offset es j) /\
  (forall i, variable_offset es i <= blen (concat (fixed_parts es ++ variable_parts es))) /\
  (forall i body, nth_error es i = Some (true, body) ->
     (forall k b, (k < i)%nat -> nth_error es k = Some (true, b) -> False) ->
     variable_offset es i = total (fixed_lengths es)).
Proof.
  assert (HM : forall l (i j : nat), (i <= j)%nat -> total (firstn i l) <= total (firstn j l)).
  { induction l as [|x l IH]; intros [|i] [|j] H; cbn [firstn]; rewrite ?total_cons;
      change (total []) with 0; try lia. specialize (IH i j ltac:(lia)). lia. }
  assert (HA : forall l (i : nat), total (firstn i l) <= total l).
  { intros l i. rewrite <- (firstn_skipn i l) at 2. rewrite total_app. lia. }
  split; [|split].
  - intros i j Hij. unfold variable_offset. rewrite !total_app. specialize (HM (variable_lengths es) i j Hij). lia.
  - intros i. rewrite <- clayout_spec, clayout_blen, compose_size_eq. unfold variable_offset.
    rewrite total_app. specialize (HA (variable_lengths es) i). lia.
  - intros i body E HN. unfold variable_offset. rewrite total_app.
    replace (total (firstn i (variable_lengths es))) with 0; [lia|]. symmetry. clear E.
    revert i HN. induction es as [|[f b] es IH]; intros [|i] HN; try reflexivity.
    rewrite variable_lengths_cons. cbn [firstn]. rewrite total_cons. cbn [fst snd].
    destruct f.
    + exfalso. apply (HN 0%nat b); [lia|reflexivity].
    + rewrite IH; [reflexivity|]. intros k b' Hk E. apply (HN (S k) b'); [lia|exact E].
Qed.

(** ** Transparent enums *)

Lemma try_variants_spec l e :
  (forall T, In T l -> forall p, deserialize T e <> Panic p) ->
  match try_variants l e with
  | Ok v => exists pre T post x, l = pre ++ T :: post /\ v = VVariant (blen post) x /\
              deserialize T e = Ok x /\ Forall (fun T' => exists er, deserialize T' e = Err er) pre
  | Err er => er = NoMatchingVariant /\ Forall (fun T' => exists er, deserialize T' e = Err er) l
  | Panic _ => False
  end.
Proof.
  induction l as [|T l IH]; intros HP; cbn [try_variants]; [auto|].
  destruct (deserialize T e) as [x|er|p] eqn:E.
  - exists [], T, l, x. auto.
  - specialize (IH (fun T' H => HP T' (or_intror H))).
    destruct (try_variants l e) as [v|er'|p].
    + destruct IH as (pre & T' & post & x & -> & -> & Hx & HF).
      exists (T :: pre), T', post, x. split; [reflexivity|]. split; [auto|]. split; [auto|]. constructor; eauto.
    + destruct IH as [-> IH]. split; [auto|]. constructor; eauto.
    + contradiction.
  - exact (HP T (or_introl eq_refl) p E).
Qed.

(** ** Default values *)

Lemma mapM_const {E A} (x : res E A) v n : x = Ok v -> mapM (fun _ : unit => x) (repeat tt n) = Ok (repeat v n).
Proof. intros ->. induction n as [|n IH]; [reflexivity|]. cbn [repeat mapM bind]. rewrite IH. reflexivity. Qed.

Lemma default_valid t : legal t = true -> has_default t = true ->
  exists v, default_value t = Ok v /\ valid t v.
Proof.
  induction t using ty_ind'; intros HL HD; cbn [default_value valid] in *.
  - eexists. split; [reflexivity|exact I].
  - eexists. split; [reflexivity|]. destruct w; reflexivity.
  - eexists. split; [reflexivity|]. reflexivity.
  - eexists. split; [reflexivity|]. reflexivity.
  - cbn [legal has_default] in *. rewrite !andb_true_iff in HL. destruct HL as [[[L1 L2] L3] L4].
    destruct (IHt L4 HD) as (v & H1 & H2). replace (n =? 0) with false by lia.
    rewrite (mapM_const _ v) by auto. cbn [bind]. unfold vector_try_from.
    replace (n =? 0) with false by lia. rewrite blen_repeat, N2Nat.id, N.eqb_refl. cbn [negb].
    eexists. split; [reflexivity|]. cbn [valid]. rewrite blen_repeat, N2Nat.id. split; [auto|].
    apply Forall_forall. intros x Hx. apply repeat_spec in Hx. congruence.
  - cbn [legal has_default] in *. rewrite !andb_true_iff in HL. destruct HL as [[[L1 L2] L3] L4].
    destruct (IHt L4 HD) as (v & H1 & H2).
    rewrite (mapM_const _ v) by auto. cbn [bind].
    eexists. split; [reflexivity|]. cbn [valid]. rewrite blen_repeat, N2Nat.id. split; [auto|].
    apply Forall_forall. intros x Hx. apply repeat_spec in Hx. congruence.
  - unfold list_try_from. change (blen (@nil val)) with 0. replace (n <? 0) with false by lia.
    eexists. split; [reflexivity|]. cbn [valid]. split; [cbn; lia|constructor].
  - cbn [legal] in HL. unfold bitvector_default. replace (n =? 0) with false by lia. cbn [bind].
    eexists. split; [reflexivity|]. cbn [valid]. split; [apply bv_repeat_false_ok|].
    split; [reflexivity|apply bv_repeat_false_clean].
  - eexists. split; [reflexivity|]. cbn [valid]. split; [apply bv_ok_new|]. split; [cbn; lia|].
    intros i _. apply raw_bit_high. cbn. lia.
  - cbn [legal has_default] in *. rewrite !andb_true_iff in HL. destruct HL as [[_ _] L3].
    assert (G : exists l, mapM (fun x : res Error val => x) (map (fun f => default_value (snd f)) fs) = Ok l /\
              Forall2 (fun (P : val -> Prop) x => P x) (map (fun f => valid (snd f)) fs) l).
    { induction H as [|f fs Hf _ IH]; [exists []; split; [reflexivity|constructor]|].
      cbn [forallb] in *. apply andb_true_iff in L3 as [A1 A2]. apply andb_true_iff in HD as [B1 B2].
      destruct (Hf A1 B1) as (v & E1 & E2). destruct (IH A2 B2) as (l & E3 & E4).
      exists (v :: l). cbn [map mapM]. rewrite E1. cbn [bind]. rewrite E3. cbn [bind].
      split; [reflexivity|]. constructor; auto. }
    destruct G as (l & G1 & G2). rewrite G1. cbn [bind]. eexists. split; [reflexivity|exact G2].
  - cbn [legal has_default] in *. destruct (IHt HL HD) as (v & H1 & H2). rewrite H1. cbn [bind].
    eexists. split; [reflexivity|auto].
  - eexists. split; [reflexivity|exact I].
  - cbn [has_default] in HD. destruct vs as [|[|] vs]; try discriminate.
    eexists. split; [reflexivity|exact I].
  - discriminate.
Qed.

(** ** Vectors under mutation *)

Lemma apply_set_length l ops :
  forallb (fun o => match o with OpSet _ _ => true | _ => false end) ops = true ->
  blen (apply_vec_ops l ops) = blen l.
Proof.
  revert l; induction ops as [|o ops IH]; intros l H; [reflexivity|].
  cbn [forallb] in H. apply andb_true_iff in H as [H1 H2]. destruct o; try discriminate.
  unfold apply_vec_ops in *. cbn [fold_left]. rewrite IH by auto. cbn [apply_vec_op].
  destruct (i <? blen l) eqn:E; [|reflexivity].
  rewrite blen_app, blen_cons, blen_takeN, blen_dropN. lia.
Qed.
