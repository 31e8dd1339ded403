(** Decoding inverts encoding; sizes of fixed-size types. *)
From Coq Require Import List NArith ZArith Bool Lia ZifyBool ZifyNat ZifyN.
From Coq Require Import Strings.Byte.
From Verif Require Import Prelude Types Bitvec Ser De Impls Valid SpecSer Lib BitsLib SerProof
  SerSpec DeProof ConProof BitsDe.
Import ListNotations.
Open Scope N_scope.

Ltac Zify.zify_post_hook ::= Z.div_mod_to_equations.

(** ** Sizes *)

Lemma fixed_size_variable t : spec_variable t = true -> fixed_size t = 0.
Proof.
  induction t using ty_ind'; cbn [spec_variable fixed_size]; intros HV; try discriminate; auto;
    try (rewrite IHt by auto; lia).
  rewrite HV. reflexivity.
Qed.

Lemma size_hint_spec oc t : size_hint (serializable oc t) = fixed_size t.
Proof.
  induction t using ty_ind'; cbn [serializable fixed_size]; try reflexivity.
  - destruct w; reflexivity.
  - cbn [vector_impl size_hint]. rewrite IHt. lia.
  - cbn [array_impl size_hint]. rewrite IHt. lia.
  - cbn [bitvector_impl size_hint]. apply byte_length_bits_bytes.
  - cbn [container_impl size_hint].
    replace (existsb is_variable_size (map (fun f => serializable oc (snd f)) fs))
      with (existsb (fun f => spec_variable (snd f)) fs).
    2:{ clear H. induction fs as [|f fs IH]; [reflexivity|]. cbn. rewrite IH, is_variable_size_spec.
        reflexivity. }
    destruct (existsb _ fs); [reflexivity|]. unfold sumN, total. f_equal.
    rewrite map_map. apply map_ext_Forall in H. rewrite H. reflexivity.
  - cbn [newtype_impl size_hint]. rewrite is_variable_size_spec, IHt.
    destruct (spec_variable t) eqn:E; [|reflexivity]. symmetry. apply fixed_size_variable; auto.
Qed.

Lemma legal_fixed_size t :
  legal t = true -> spec_variable t = false -> 0 < fixed_size t <= MAX_SIZE.
Proof.
  induction t using ty_ind'; cbn [legal spec_variable fixed_size]; intros HL HV; try discriminate.
  - cbv; split; congruence || reflexivity.
  - destruct w; cbv; split; congruence || reflexivity.
  - cbv; split; congruence || reflexivity.
  - cbv; split; congruence || reflexivity.
  - rewrite !andb_true_iff in HL. destruct HL as [[[H1 H2] H3] H4].
    specialize (IHt H4 HV). cbn [fixed_size] in H3. lia.
  - rewrite !andb_true_iff in HL. destruct HL as [[[H1 H2] H3] H4].
    specialize (IHt H4 HV). cbn [fixed_size] in H3. lia.
  - unfold MAX_SIZE. lia.
  - rewrite !andb_true_iff in HL. destruct HL as [[H1 H2] H3]. cbn [fixed_size] in H2.
    rewrite HV in *. split; [|lia].
    destruct fs as [|f fs]; [discriminate|]. inversion H as [|? ? Hf _]; subst.
    cbn [forallb] in H3. apply andb_true_iff in H3 as [H3 _].
    cbn [existsb] in HV. apply orb_false_iff in HV as [HV _].
    specialize (Hf H3 HV). cbn [map]. rewrite total_cons. lia.
  - auto.
Qed.

(** ** Sequences of encodings *)

Lemma sequence_some {A} (l : list (option A)) r :
  sequence l = Some r <-> Forall2 (fun o a => o = Some a) l r.
Proof.
  revert r; induction l as [|[a|] l IH]; intros r; cbn [sequence].
  - split; [intros [= <-]; constructor|intros H; inversion H; reflexivity].
  - destruct (sequence l) as [s|].
    + split.
      * intros [= <-]. constructor; auto. apply IH; auto.
      * intros H. inversion H; subst. apply IH in H4. congruence.
    + split; [discriminate|]. intros H. inversion H; subst. apply IH in H4. discriminate.
  - split; [discriminate|]. intros H. inversion H. discriminate.
Qed.

Definition enc_of (tv : ty * val) (fb : bool * bytes) : Prop :=
  fst fb = spec_variable (fst tv) /\ spec_serialize (fst tv) (snd tv) = Some (snd fb).

Lemma flag_some b o fb : flag b o = Some fb <-> fst fb = b /\ o = Some (snd fb).
Proof.
  unfold flag. destruct o as [x|]; cbn [option_map].
  - split; [intros [= <-]; auto|]. intros [<- [= ->]]. destruct fb; reflexivity.
  - split; [discriminate|]. intros [_ H]; discriminate.
Qed.

Lemma encs_some xs es : encs xs = Some es <-> Forall2 enc_of xs es.
Proof.
  unfold encs. rewrite sequence_some, Forall2_map_l.
  split; apply Forall2_weaken; cbn; intros a b G; apply flag_some; exact G.
Qed.

Lemma encs_homogeneous t l es :
  encs (map (pair t) l) = Some es ->
  exists bodies, es = map (pair (spec_variable t)) bodies /\
    Forall2 (fun v b => spec_serialize t v = Some b) l bodies.
Proof.
  intros H. apply encs_some in H. apply (proj1 (Forall2_map_l _ _ _ _)) in H.
  induction H as [|v fb l es [H1 H2] _ (bodies & -> & IH)].
  - exists []. split; [reflexivity|constructor].
  - cbn [fst snd] in *. exists (snd fb :: bodies). split; [|constructor; auto].
    cbn [map]. f_equal. rewrite <- H1. destruct fb; reflexivity.
Qed.

Lemma encs_homogeneous_conv t l bodies :
  Forall2 (fun v b => spec_serialize t v = Some b) l bodies ->
  encs (map (pair t) l) = Some (map (pair (spec_variable t)) bodies).
Proof.
  intros H. apply encs_some. apply Forall2_map_l.
  induction H; cbn [map]; constructor; auto. split; auto.
Qed.

Lemma compose_fixed bodies b :
  spec_compose (map (pair false) bodies) = Some b <-> b = concat bodies /\ blen b < 2 ^ 32.
Proof.
  rewrite spec_compose_some.
  assert (H1 : forall r, fixed_from r (map (pair false) bodies) = bodies).
  { intros r. induction bodies; cbn; f_equal; auto. }
  assert (H2 : concat (variable_parts (map (pair false) bodies)) = []).
  { clear. induction bodies; cbn; auto. }
  rewrite H1, H2, app_nil_r. rewrite compose_size_eq.
  rewrite <- (fixed_from_blen _ 0), <- variable_parts_blen, H1, H2.
  change (blen (@nil byte)) with 0. rewrite N.add_0_r.
  split; intros [HA HB]; subst; auto.
Qed.

(** Lengths of encodings of fixed-size types. *)
Lemma spec_serialize_fixed t : forall v b,
  valid t v -> spec_variable t = false -> spec_serialize t v = Some b -> blen b = fixed_size t.
Proof.
  induction t using ty_ind'; intros v b HV HF HS; cbn [spec_variable] in HF; try discriminate.
  - destruct v; try contradiction. injection HS as <-. reflexivity.
  - destruct v; try contradiction. injection HS as <-. rewrite spec_uint_blen. destruct w; reflexivity.
  - destruct v; try contradiction. injection HS as <-. rewrite spec_uint_blen. reflexivity.
  - destruct v; try contradiction. injection HS as <-. exact HV.
  - destruct v as [| | |l| | | | | |]; try contradiction. cbn [valid] in HV. destruct HV as [HL HV].
    cbn [spec_serialize] in HS. 
    destruct (sequence _) as [es|] eqn:E; [|discriminate].
    assert (E' : encs (map (pair t) l) = Some es) by (unfold encs; rewrite map_map; exact E).
    apply encs_homogeneous in E' as (bodies & -> & HB). rewrite HF in HS.
    apply compose_fixed in HS as [-> _]. cbn [fixed_size].
    rewrite (concat_blen (fixed_size t)).
    + rewrite <- HL. rewrite (Forall2_blen _ _ _ HB). apply N.mul_comm.
    + clear - IHt HV HF HB. induction HB; inversion HV; subst; constructor; eauto.
  - destruct v as [| | |l| | | | | |]; try contradiction. cbn [valid] in HV. destruct HV as [HL HV].
    cbn [spec_serialize] in HS. 
    destruct (sequence _) as [es|] eqn:E; [|discriminate].
    assert (E' : encs (map (pair t) l) = Some es) by (unfold encs; rewrite map_map; exact E).
    apply encs_homogeneous in E' as (bodies & -> & HB). rewrite HF in HS.
    apply compose_fixed in HS as [-> _]. cbn [fixed_size].
    rewrite (concat_blen (fixed_size t)).
    + rewrite <- HL. rewrite (Forall2_blen _ _ _ HB). apply N.mul_comm.
    + clear - IHt HV HF HB. induction HB; inversion HV; subst; constructor; eauto.
  - destruct v as [| | | |bv| | | | |]; try contradiction. cbn [valid] in HV.
    destruct HV as (_ & HL & _). injection HS as <-.
    rewrite spec_bits_length, blen_bv_bits, HL. reflexivity.
  - destruct v as [| | | | |l| | | |]; try contradiction. cbn [valid] in HV.
    apply (Forall2_preds_combine fs (fun f => valid (snd f))) in HV as [Hlen HV].
    cbn [spec_serialize] in HS.
    destruct (sequence _) as [es|] eqn:E; [|discriminate].
    assert (E' : encs (combine (map snd fs) l) = Some es).
    { unfold encs. rewrite !combine_map_l, !map_map in *. exact E. }
    apply encs_some in E'. cbn [fixed_size]. rewrite HF.
    rewrite (spec_compose_blen _ _ HS), compose_size_eq. clear HS E.
    revert l es Hlen HV E'. induction H as [|f fs Hf _ IH]; intros l es Hlen HV E'.
    { inversion E'; subst. reflexivity. }
    destruct l as [|x l]; [discriminate|]. cbn [map combine] in *.
    inversion E' as [|? fb ? es' [G1 G2] E'']; subst. cbn [fst snd] in *.
    inversion HV; subst. cbn [fst snd existsb] in *. apply orb_false_iff in HF as [HF1 HF2].
    specialize (IH HF2 l es' (eq_add_S _ _ Hlen) H2 E'').
    rewrite fixed_lengths_cons, variable_lengths_cons, !total_cons, G1, HF1.
    rewrite (Hf _ _ H1 HF1 G2). change (blen (@nil byte)) with 0. lia.
  - destruct v as [| | | | | |x| | |]; try contradiction. cbn in *. eauto.
Qed.

(** ** Round trip *)

Lemma fixed_list_roundtrip oc t l bodies b :
  legal t = true -> spec_variable t = false ->
  Forall (valid t) l ->
  Forall2 (fun v b => spec_serialize t v = Some b) l bodies ->
  (forall v b, valid t v -> spec_serialize t v = Some b -> deserialize (serializable oc t) b = Ok v) ->
  b = concat bodies ->
  deserialize_homogeneous_composite oc (serializable oc t) b = Ok l /\
  blen b = blen l * fixed_size t.
Proof.
  intros HL HF HV HB HD ->.
  assert (Hlen : Forall (fun b => blen b = fixed_size t) bodies).
  { clear - HV HF HB. induction HB; inversion HV; subst; constructor; eauto.
    eapply spec_serialize_fixed; eauto. }
  split.
  - unfold deserialize_homogeneous_composite. rewrite is_variable_size_spec, HF.
    pose proof (legal_fixed_size t HL HF).
    apply fixed_homogeneous_ok; rewrite ?size_hint_spec; auto; [lia|].
    clear - HV HB HD. induction HB; inversion HV; subst; constructor; auto.
  - rewrite (concat_blen _ _ Hlen), (Forall2_blen _ _ _ HB). apply N.mul_comm.
Qed.

Lemma variable_list_roundtrip oc t l bodies b :
  spec_variable t = true ->
  Forall (valid t) l ->
  Forall2 (fun v b => spec_serialize t v = Some b) l bodies ->
  (forall v b, valid t v -> spec_serialize t v = Some b -> deserialize (serializable oc t) b = Ok v) ->
  spec_compose (map (pair true) bodies) = Some b ->
  deserialize_homogeneous_composite oc (serializable oc t) b = Ok l.
Proof.
  intros HF HV HB HD HC. apply layout_compose in HC as [-> HL].
  unfold deserialize_homogeneous_composite. rewrite is_variable_size_spec, HF.
  rewrite variable_homogeneous_layout.
  - apply mapM_ok_iff. clear - HV HB HD. induction HB; inversion HV; subst; constructor; auto.
  - apply Forall_forall. intros o Ho. apply offs_bound in Ho.
    unfold layout in HL. rewrite blen_app, blen_le_offs in HL. lia.
Qed.

(** The shared part of vector, array and list decoding. *)
Lemma homogeneous_roundtrip oc t l es b :
  legal t = true ->
  Forall (valid t) l ->
  sequence (map (fun x => flag (spec_variable t) (spec_serialize t x)) l) = Some es ->
  (forall v b, valid t v -> spec_serialize t v = Some b -> deserialize (serializable oc t) b = Ok v) ->
  spec_compose es = Some b ->
  deserialize_homogeneous_composite oc (serializable oc t) b = Ok l /\
  (spec_variable t = false -> blen b = blen l * fixed_size t).
Proof.
  intros HL HV E HD HC.
  assert (E' : encs (map (pair t) l) = Some es) by (unfold encs; rewrite map_map; exact E).
  apply encs_homogeneous in E' as (bodies & -> & HB).
  destruct (spec_variable t) eqn:HF.
  - split; [|discriminate]. eapply variable_list_roundtrip; eauto.
  - apply compose_fixed in HC as [-> _].
    destruct (fixed_list_roundtrip oc t l bodies (concat bodies)); auto.
Qed.

Lemma combine_fields_ok oc (fs : list ty) l es :
  Forall2 enc_of (combine fs l) es -> length fs = length l ->
  Forall (fun tv => valid (fst tv) (snd tv)) (combine fs l) ->
  Forall2 field_ok (map (serializable oc) fs) es.
Proof.
  revert l es; induction fs as [|t fs IH]; intros l es H HL HV.
  - inversion H. constructor.
  - destruct l as [|x l]; [discriminate|]. cbn [combine] in *.
    inversion H as [|? fb ? es' [G1 G2] H']; subst. inversion HV; subst. cbn [fst snd] in *.
    cbn [map]. constructor; [|eapply IH; eauto].
    split; [rewrite is_variable_size_spec; auto|].
    intros Hf. rewrite size_hint_spec. eapply spec_serialize_fixed; eauto.
Qed.

Lemma items_of_lt es : forall r m,
  r + total (variable_lengths es) < m -> Forall (fun o => o < m) (ioffs (items_of r es)).
Proof.
  intros r m H. eapply Forall_impl; [|apply (items_of_offs_le es (r + total (variable_lengths es)) r); lia].
  cbn. intros. lia.
Qed.

Lemma decode_encode oc t :
  legal t = true -> no_transparent t = true ->
  forall v b, valid t v -> spec_serialize t v = Some b ->
  deserialize (serializable oc t) b = Ok v.
Proof.
  induction t using ty_ind'; intros HL HN v b HV HS.
  - destruct v as [x| | | | | | | | |]; try contradiction. injection HS as <-. destruct x; reflexivity.
  - destruct v as [|n| | | | | | | |]; try contradiction. injection HS as <-. cbn [valid] in HV.
    cbn [serializable uint_impl deserialize].
    rewrite (proj2 (uint_deserialize_iff _ _ n)); [reflexivity|].
    rewrite spec_uint_blen, spec_uint_le_bytes.
    split; [destruct w; reflexivity|]. symmetry. apply le_value_le_bytes.
    destruct w; exact HV.
  - destruct v as [|n| | | | | | | |]; try contradiction. injection HS as <-. cbn [valid] in HV.
    cbn [serializable u256_impl uint_impl deserialize].
    rewrite (proj2 (uint_deserialize_iff _ _ n)); [reflexivity|].
    rewrite spec_uint_blen, spec_uint_le_bytes.
    split; [reflexivity|]. symmetry. apply le_value_le_bytes. exact HV.
  - destruct v as [| |x| | | | | | |]; try contradiction. injection HS as <-. cbn [valid] in HV.
    cbn [serializable node_impl deserialize]. unfold node_deserialize, BYTES_PER_CHUNK.
    rewrite HV, N.ltb_irrefl. rewrite <- HV, slice_full. reflexivity.
  - destruct v as [| | |l| | | | | |]; try contradiction. cbn [valid] in HV. destruct HV as [Hlen HV].
    cbn [legal] in HL. rewrite !andb_true_iff in HL. destruct HL as [[[L1 L2] L3] L4].
    cbn [spec_serialize] in HS. destruct (sequence _) as [es|] eqn:E; [|discriminate].
    destruct (homogeneous_roundtrip oc t l es b L4 HV E (IHt L4 HN) HS) as [HD HB].
    cbn [serializable vector_impl deserialize]. unfold vector_deserialize.
    replace (n =? 0) with false by lia. unfold check_fixed_length.
    rewrite is_variable_size_spec, size_hint_spec.
    destruct (spec_variable t) eqn:HF; cbn [negb bind].
    + rewrite HD. cbn [bind]. unfold vector_try_from.
      replace (n =? 0) with false by lia. replace (blen l =? n) with true by lia. reflexivity.
    + rewrite HB, Hlen, N.ltb_irrefl by reflexivity. cbn [bind]. rewrite HD. cbn [bind].
      unfold vector_try_from.
      replace (n =? 0) with false by lia. replace (blen l =? n) with true by lia. reflexivity.
  - destruct v as [| | |l| | | | | |]; try contradiction. cbn [valid] in HV. destruct HV as [Hlen HV].
    cbn [legal] in HL. rewrite !andb_true_iff in HL. destruct HL as [[[L1 L2] L3] L4].
    cbn [spec_serialize] in HS. destruct (sequence _) as [es|] eqn:E; [|discriminate].
    destruct (homogeneous_roundtrip oc t l es b L4 HV E (IHt L4 HN) HS) as [HD HB].
    cbn [serializable array_impl deserialize]. unfold array_deserialize.
    replace (n =? 0) with false by lia. unfold check_fixed_length.
    rewrite is_variable_size_spec, size_hint_spec.
    destruct (spec_variable t) eqn:HF; cbn [negb bind].
    + rewrite HD. cbn [bind]. replace (blen l =? n) with true by lia. reflexivity.
    + rewrite HB, Hlen, N.ltb_irrefl by reflexivity. cbn [bind]. rewrite HD. cbn [bind].
      replace (blen l =? n) with true by lia. reflexivity.
  - destruct v as [| | |l| | | | | |]; try contradiction. cbn [valid] in HV. destruct HV as [Hlen HV].
    cbn [legal] in HL. rewrite !andb_true_iff in HL. destruct HL as [L1 L4].
    cbn [spec_serialize] in HS. destruct (sequence _) as [es|] eqn:E; [|discriminate].
    destruct (homogeneous_roundtrip oc t l es b L4 HV E (IHt L4 HN) HS) as [HD HB].
    cbn [serializable list_impl deserialize]. unfold list_deserialize.
    rewrite is_variable_size_spec, size_hint_spec.
    destruct (spec_variable t) eqn:HF; cbn [negb bind].
    + rewrite HD. cbn [bind]. unfold list_try_from.
      replace (n <? blen l) with false by lia. reflexivity.
    + pose proof (legal_fixed_size t L4 HF). unfold rem_len.
      replace (fixed_size t =? 0) with false by lia. cbn [bind].
      rewrite HB, N.mod_mul by (reflexivity || lia). cbn [N.eqb negb bind].
      rewrite HD. cbn [bind]. unfold list_try_from.
      replace (n <? blen l) with false by lia. reflexivity.
  - destruct v as [| | | |bv| | | | |]; try contradiction. cbn [valid] in HV.
    destruct HV as (Hok & Hlen & HC). cbn [legal] in HL. injection HS as <-.
    cbn [serializable bitvector_impl deserialize]. apply bitvector_deserialize_iff.
    split; [lia|]. split; [rewrite spec_bits_length, blen_bv_bits, Hlen; reflexivity|]. split.
    + intros i Hi. rewrite raw_bit_spec_bits. apply nth_overflow. rewrite bv_bits_length. lia.
    + f_equal. rewrite <- Hlen. apply bv_of_bits; auto.
  - destruct v as [| | | |bv| | | | |]; try contradiction. cbn [valid] in HV.
    destruct HV as (Hok & Hlen & HC). cbn [legal] in HL. injection HS as <-.
    cbn [serializable bitlist_impl deserialize]. apply bitlist_deserialize_iff; [lia|].
    exists (bv_bits bv). split; [reflexivity|]. rewrite blen_bv_bits. split; [auto|].
    unfold bits_value. rewrite blen_bv_bits. f_equal. apply bv_of_bits; auto.
  - destruct v as [| | | | |l| | | |]; try contradiction. cbn [valid] in HV.
    apply (Forall2_preds_combine fs (fun f => valid (snd f))) in HV as [Hlen HV].
    cbn [legal] in HL. rewrite !andb_true_iff in HL. destruct HL as [[L1 L2] L3].
    rewrite forallb_forall in L3. cbn [no_transparent] in HN. rewrite forallb_forall in HN.
    cbn [spec_serialize] in HS. destruct (sequence _) as [es|] eqn:E; [|discriminate].
    assert (E' : encs (combine (map snd fs) l) = Some es).
    { unfold encs. rewrite !combine_map_l, !map_map in *. exact E. }
    clear E. apply encs_some in E'.
    assert (HV' : Forall (fun tv => valid (fst tv) (snd tv)) (combine (map snd fs) l)).
    { rewrite combine_map_l. apply Forall_map. cbn [fst snd]. exact HV. }
    pose proof (combine_fields_ok oc (map snd fs) l es E' ltac:(rewrite map_length; auto) HV') as HFO.
    pose proof (spec_compose_blen _ _ HS) as Hbl.
    apply spec_compose_some in HS as [Hsz ->].
    cbn [serializable container_impl deserialize].
    rewrite <- (map_map snd (serializable oc)).
    pose proof (clayout_blen es) as Hcl. rewrite compose_size_eq in *.
    assert (HR : container_deserialize oc (map (serializable oc) (map snd fs)) (clayout es) = Ok l).
    { rewrite container_layout; auto; [|lia|apply items_of_lt; auto].
      assert (HD : Forall (fun tv => forall b, spec_serialize (fst tv) (snd tv) = Some b ->
                     deserialize (serializable oc (fst tv)) b = Ok (snd tv)) (combine (map snd fs) l)).
      { rewrite combine_map_l. apply Forall_map. cbn [fst snd]. rewrite Forall_forall in *.
        intros [f x] Hin b Hb. pose proof (in_combine_l _ _ _ _ Hin) as Hf.
        apply H; auto. }
      assert (Hlen' : length (map snd fs) = length l) by (rewrite map_length; auto).
      clear - E' HD Hlen'. revert l es E' HD Hlen'. generalize (map snd fs) as ts.
      induction ts as [|t ts IH]; intros l es E' HD Hlen'.
      - destruct l; [|discriminate]. reflexivity.
      - destruct l as [|x l]; [discriminate|]. cbn [combine] in *.
        inversion E' as [|? fb ? es' [G1 G2] E'']; subst. inversion HD; subst. cbn [fst snd] in *.
        cbn [map combine mapM fst snd]. rewrite (H1 _ G2). cbn [bind].
        rewrite (IH l es'); auto. }
    unfold clayout in HR. rewrite HR. reflexivity.
  - destruct v as [| | | | | |x| | |]; try contradiction. cbn in *.
    rewrite (IHt HL HN _ _ HV HS). reflexivity.
  - destruct v as [| | | | | | | |x|]; try contradiction.
    + injection HS as <-. reflexivity.
    + cbn [valid spec_serialize] in *. destruct (spec_serialize t x) as [b'|] eqn:E; [|discriminate].
      injection HS as <-. cbn [serializable option_impl deserialize option_deserialize].
      change (byte_eqb x01 x00) with false. change (byte_eqb x01 x01) with true. cbn iota.
      rewrite (IHt HL HN _ _ HV E). reflexivity.
  - cbn [legal] in HL. apply andb_true_iff in HL as [HLV HL]. rewrite forallb_forall in HL.
    cbn [no_transparent] in HN. rewrite forallb_forall in HN. rewrite Forall_forall in H.
    destruct v as [| | | | | | | | |i x]; try (destruct vs as [|[] ?]; contradiction).
    + destruct vs as [|[|] ?]; try contradiction. injection HS as <-. reflexivity.
    + assert (HV' : match nth_error vs (N.to_nat i) with
                    | Some (Some t) => valid t x | _ => False end).
      { cbn [valid] in HV. destruct vs as [|[|] vs'];
        rewrite nth_error_map in HV; destruct (nth_error _ (N.to_nat i)) as [[|]|]; exact HV. }
      cbn [spec_serialize] in HS. rewrite nth_error_map in HS.
      destruct (nth_error vs (N.to_nat i)) as [[t|]|] eqn:E; try contradiction.
      pose proof (nth_error_In _ _ E) as Hin. cbn [option_map] in HS.
      destruct (spec_serialize t x) as [b'|] eqn:Eb; [|discriminate]. injection HS as <-.
      assert (Hi : i < 127).
      { apply legal_variants_len in HLV.
        assert (N.to_nat i < length vs)%nat by (apply nth_error_Some; congruence).
        unfold blen in HLV. lia. }
      cbn [serializable union_impl deserialize union_deserialize].
      rewrite byte_to_N_of_N, N.mod_small by lia. rewrite nth_error_map, E. cbn [option_map].
      pose proof (H _ Hin (HL _ Hin) (HN _ Hin) _ _ HV' Eb) as HD. rewrite HD. reflexivity.
  - discriminate.
Qed.
