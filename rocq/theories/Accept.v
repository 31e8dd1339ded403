(** Exactly which byte strings decode, and to what. *)
From Coq Require Import List NArith ZArith Bool Lia ZifyBool ZifyNat ZifyN.
From Coq Require Import Strings.Byte.
From Verif Require Import Prelude Types Bitvec Ser De Impls Valid SpecSer SpecAccept Lib BitsLib
  SerProof SerSpec DeProof ConProof BitsDe RoundTrip DecValid.
Import ListNotations.
Open Scope N_scope.

Ltac Zify.zify_post_hook ::= Z.div_mod_to_equations.

Lemma fixed_no_variable_list t : spec_variable t = false -> no_variable_list t = true.
Proof.
  induction t using ty_ind'; cbn [spec_variable no_variable_list]; intros HV; try discriminate; auto.
  rewrite forallb_forall. rewrite Forall_forall in H. intros f Hf. apply H; auto.
  destruct (spec_variable (snd f)) eqn:E; auto.
  assert (existsb (fun f => spec_variable (snd f)) fs = true) by (apply existsb_exists; eauto).
  congruence.
Qed.

Lemma sequence_flag_iff (R : val -> bytes -> Prop) (f : val -> option bytes) u l b :
  Forall (fun v => forall b, R v b <-> f v = Some b) l ->
  (exists bodies : list bytes, Forall2 R l bodies /\ spec_compose (map (pair u) bodies) = Some b) <->
  match sequence (map (fun x => flag u (f x)) l) with
  | Some es => spec_compose es = Some b
  | None => False
  end.
Proof.
  intros HR. split.
  - intros (bodies & HF & HC).
    assert (E : sequence (map (fun x => flag u (f x)) l) = Some (map (pair u) bodies)).
    { apply sequence_some. clear HC. induction HF; inversion HR; subst; cbn [map]; constructor; auto.
      apply flag_some. split; [reflexivity|]. apply H2; auto. }
    rewrite E. exact HC.
  - destruct (sequence _) as [es|] eqn:E; [|contradiction]. intros HC.
    apply sequence_some in E. exists (map snd es).
    revert es E HC. intros es E HC.
    assert (Hes : es = map (pair u) (map snd es) /\ Forall2 R l (map snd es)).
    { clear HC b. revert es E. induction l as [|x l IH]; intros es E; inversion E; subst.
      - split; constructor.
      - inversion HR; subst. apply flag_some in H1 as [<- G]. destruct (IH H4 _ H3) as [I1 I2].
        cbn [map]. split; [|constructor; auto; apply H2; auto].
        destruct y; cbn [fst snd] in *. rewrite I1 at 1. reflexivity. }
    destruct Hes as [He HF]. split; auto. rewrite <- He. exact HC.
Qed.

Lemma match_none {A} (o : option (list A)) (g : list A -> option bytes) b :
  match o with Some es => g es = Some b | None => False end <->
  match o with Some es => g es | None => None end = Some b.
Proof. destruct o; [tauto|]. split; [contradiction|discriminate]. Qed.

Definition acc_of (tv : ty * val) (b : bytes) : Prop := accepted (fst tv) (snd tv) b.

Lemma accepted_container fs l b :
  accepted (TContainer fs) (VStruct l) b <->
  length (map snd fs) = length l /\
  exists bodies : list bytes,
    Forall2 acc_of (combine (map snd fs) l) bodies /\
    spec_compose (combine (map spec_variable (map snd fs)) bodies) = Some b.
Proof.
  cbn [accepted]. rewrite map_length, map_map.
  rewrite !combine_map_l, map_map. cbn [fst snd].
  assert (E : forall bodies : list bytes,
    Forall2 (fun (P : bytes -> Prop) b => P b)
      (map (fun x : String.string * ty * val => accepted (snd (fst x)) (snd x)) (combine fs l)) bodies <->
    Forall2 acc_of (map (fun x : String.string * ty * val => (snd (fst x), snd x)) (combine fs l)) bodies).
  { intros bodies. rewrite !Forall2_map_l. split; apply Forall2_weaken; auto. }
  split; intros [HL (bodies & HF & HC)]; (split; [auto|]); exists bodies; split; auto; apply E; auto.
Qed.

Lemma spec_serialize_container fs l b :
  spec_serialize (TContainer fs) (VStruct l) = Some b <->
  exists es, Forall2 enc_of (combine (map snd fs) l) es /\ spec_compose es = Some b.
Proof.
  cbn [spec_serialize].
  replace (sequence _) with (encs (combine (map snd fs) l))
    by (unfold encs; rewrite !combine_map_l, !map_map; reflexivity).
  destruct (encs _) as [es|] eqn:E.
  - apply encs_some in E. split; [eauto|]. intros (es' & HF & HC).
    apply encs_some in HF. apply encs_some in E. congruence.
  - split; [discriminate|]. intros (es' & HF & HC). apply encs_some in HF. congruence.
Qed.

(** Outside lists of variable-size elements the accepted strings are the encodings. *)
Lemma accepted_spec t :
  no_variable_list t = true ->
  forall v b, valid t v -> (accepted t v b <-> spec_serialize t v = Some b).
Proof.
  induction t using ty_ind'; intros HV v b HVal; try (cbn [accepted]; tauto).
  - destruct v; try contradiction. destruct HVal as [_ HVal].
    cbn [accepted spec_serialize]. rewrite <- match_none.
    apply sequence_flag_iff. eapply Forall_impl; [|exact HVal]. cbn. auto.
  - destruct v; try contradiction. destruct HVal as [_ HVal].
    cbn [accepted spec_serialize]. rewrite <- match_none.
    apply sequence_flag_iff. eapply Forall_impl; [|exact HVal]. cbn. auto.
  - cbn [no_variable_list] in HV. apply andb_true_iff in HV as [HV1 HV2].
    destruct v; try contradiction. destruct HVal as [_ HVal].
    cbn [accepted spec_serialize]. rewrite <- match_none.
    rewrite <- (sequence_flag_iff (accepted t)) by (eapply Forall_impl; [|exact HVal]; cbn; auto).
    split; [intros [G|[G _]]; auto; rewrite G in HV1; discriminate|auto].
  - destruct v as [| | | | |l| | | |]; try contradiction. cbn [valid] in HVal.
    apply (Forall2_preds_combine fs (fun f => valid (snd f))) in HVal as [Hlen HVal].
    cbn [no_variable_list] in *. rewrite forallb_forall in HV.
    rewrite Forall_forall in H. rewrite accepted_container, spec_serialize_container.
    assert (HX : Forall (fun tv => forall b, acc_of tv b <-> spec_serialize (fst tv) (snd tv) = Some b)
                   (combine (map snd fs) l)).
    { rewrite combine_map_l. apply Forall_map. rewrite Forall_forall in *. intros [f x] Hin b'.
      pose proof (in_combine_l _ _ _ _ Hin) as Hf. unfold acc_of. cbn [fst snd]. apply H; auto.
      apply (HVal _ Hin). }
    assert (Hlen' : length (map snd fs) = length l) by (rewrite map_length; auto).
    clear - HX Hlen'. generalize dependent (map snd fs). intros ts HX Hlen. split.
    + intros (_ & bodies & HF & HC). exists (combine (map spec_variable ts) bodies). split; auto.
      clear HC. revert l bodies Hlen HF HX.
      induction ts as [|t ts IH]; intros l bodies Hlen HF HX; destruct l as [|x l]; try discriminate;
        cbn [map combine] in *; inversion HF; subst; [constructor|].
      inversion HX as [|? ? G1 G2]; subst. constructor; [|apply IH; auto].
      split; cbn [fst snd]; auto. apply G1; auto.
    + intros (es & HF & HC). split; [auto|]. exists (map snd es).
      assert (G : Forall2 acc_of (combine ts l) (map snd es) /\
                  es = combine (map spec_variable ts) (map snd es)).
      { clear HC. revert l es Hlen HF HX.
        induction ts as [|t ts IH]; intros l es Hlen HF HX; destruct l as [|x l]; try discriminate;
          cbn [map combine] in *; inversion HF as [|? fb ? es' [G1 G2] HF']; subst; [split; constructor|].
        inversion HX as [|? ? G3 G4]; subst. destruct (IH l es' (eq_add_S _ _ Hlen) HF' G4) as [I1 I2].
        cbn [map combine fst snd] in *. split; [constructor; auto; apply G3; auto|].
        rewrite <- I2, <- G1. destruct fb; reflexivity. }
      destruct G as [G1 G2]. split; auto. rewrite <- G2. exact HC.
  - destruct v; try contradiction. cbn [accepted spec_serialize]. auto.
  - destruct v; try contradiction; cbn [accepted spec_serialize]; [tauto|].
    split.
    + intros (b' & -> & Hb). apply (IHt HV _ _ HVal) in Hb. rewrite Hb. reflexivity.
    + destruct (spec_serialize t v) as [b'|] eqn:E; [|discriminate]. intros [= <-].
      exists b'. split; auto. apply IHt; auto.
  - cbn [no_variable_list] in *. rewrite forallb_forall in HV.
    rewrite Forall_forall in H.
    destruct v as [| | | | | | | | |i x]; try (destruct vs as [|[] ?]; contradiction);
      cbn [accepted spec_serialize]; [tauto|].
    assert (HV' : match nth_error vs (N.to_nat i) with
                  | Some (Some t) => valid t x | _ => False end).
    { cbn [valid] in HVal. destruct vs as [|[|] vs'];
        rewrite nth_error_map in HVal; destruct (nth_error _ (N.to_nat i)) as [[|]|]; exact HVal. }
    rewrite !nth_error_map. destruct (nth_error vs (N.to_nat i)) as [[t|]|] eqn:E; try contradiction.
    cbn [option_map]. pose proof (nth_error_In _ _ E) as Hin. split.
    + intros (b' & -> & Hb). apply (H _ Hin (HV _ Hin) _ _ HV') in Hb. rewrite Hb. reflexivity.
    + destruct (spec_serialize t x) as [b'|] eqn:E2; [|discriminate]. intros [= <-].
      exists b'. split; auto. apply (H _ Hin (HV _ Hin)); auto.
  - cbn [no_variable_list] in *. rewrite forallb_forall in HV. rewrite Forall_forall in H.
    destruct v as [| | | | | | | | |i x]; try contradiction. cbn [valid accepted spec_serialize] in *.
    rewrite !nth_error_map in *. destruct (nth_error ts (N.to_nat i)) as [t|] eqn:E; [|contradiction].
    cbn [option_map] in *. pose proof (nth_error_In _ _ E) as Hin. apply (H _ Hin (HV _ Hin)); auto.
Qed.

Lemma accepted_fixed t v b :
  valid t v -> spec_variable t = false -> accepted t v b ->
  blen b = fixed_size t.
Proof.
  intros HV HF HA. eapply spec_serialize_fixed; eauto.
  apply accepted_spec; auto. apply fixed_no_variable_list; auto.
Qed.

(** ** Accepted strings decode *)

Lemma homogeneous_accept oc t l bodies b :
  legal t = true -> no_transparent t = true ->
  Forall (valid t) l ->
  Forall2 (accepted t) l bodies ->
  spec_compose (map (pair (spec_variable t)) bodies) = Some b ->
  (forall v b, valid t v -> accepted t v b -> deserialize (serializable oc t) b = Ok v) ->
  deserialize_homogeneous_composite oc (serializable oc t) b = Ok l /\
  (spec_variable t = false -> blen b = blen l * fixed_size t).
Proof.
  intros HL HN HV HB HC HD.
  assert (HDs : Forall2 (fun b v => deserialize (serializable oc t) b = Ok v) bodies l).
  { clear HC. induction HB; inversion HV; subst; constructor; auto. }
  unfold deserialize_homogeneous_composite. rewrite is_variable_size_spec.
  destruct (spec_variable t) eqn:HF.
  - split; [|discriminate]. apply layout_compose in HC as [-> HLt].
    rewrite variable_homogeneous_layout; [apply mapM_ok_iff; auto|].
    apply Forall_forall. intros o Ho. apply offs_bound in Ho.
    unfold layout in HLt. rewrite blen_app, blen_le_offs in HLt. lia.
  - apply compose_fixed in HC as [-> _].
    assert (Hlen : Forall (fun b => blen b = fixed_size t) bodies).
    { clear - HV HF HB HN. induction HB; inversion HV; subst; constructor; eauto.
      eapply accepted_fixed; eauto. }
    pose proof (legal_fixed_size t HL HF). split.
    + apply fixed_homogeneous_ok; rewrite ?size_hint_spec; auto; lia.
    + intros _. rewrite (concat_blen _ _ Hlen), (Forall2_blen _ _ _ HB). apply N.mul_comm.
Qed.

Lemma acc_fields_ok oc (ts : list ty) l (bodies : list bytes) :
  Forall2 acc_of (combine ts l) bodies -> length ts = length l ->
  forallb no_transparent ts = true ->
  Forall (fun tv => valid (fst tv) (snd tv)) (combine ts l) ->
  Forall2 field_ok (map (serializable oc) ts) (combine (map spec_variable ts) bodies) /\
  map snd (combine (map spec_variable ts) bodies) = bodies.
Proof.
  revert l bodies; induction ts as [|t ts IH]; intros l bodies H HL HN HV;
    destruct l as [|x l]; try discriminate; cbn [map combine forallb] in *.
  - inversion H. split; constructor.
  - inversion H as [|? b ? bs H1 H2]; subst. inversion HV; subst. cbn [fst snd] in *.
    apply andb_true_iff in HN as [HN1 HN2].
    destruct (IH l bs H2 (eq_add_S _ _ HL) HN2 H5) as [I1 I2].
    cbn [map combine fst snd]. split; [|rewrite I2; reflexivity]. constructor; auto.
    split; cbn [fst snd]; [rewrite is_variable_size_spec; auto|].
    intros Hf. rewrite size_hint_spec. eapply accepted_fixed; eauto.
Qed.

Lemma accept_decode oc t :
  legal t = true -> no_transparent t = true ->
  forall v b, valid t v -> accepted t v b -> deserialize (serializable oc t) b = Ok v.
Proof.
  induction t using ty_ind'; intros HL HN v b HV HS;
    try (apply decode_encode; auto; fail).
  - destruct v as [| | |l| | | | | |]; try contradiction. cbn [valid] in HV. destruct HV as [Hlen HV].
    cbn [legal] in HL. rewrite !andb_true_iff in HL. destruct HL as [[[L1 L2] L3] L4].
    cbn [accepted] in HS. destruct HS as (bodies & HF & HC).
    destruct (homogeneous_accept oc t l bodies b L4 HN HV HF HC (IHt L4 HN)) as [HD HB].
    cbn [serializable vector_impl deserialize]. unfold vector_deserialize.
    replace (n =? 0) with false by lia. unfold check_fixed_length.
    rewrite is_variable_size_spec, size_hint_spec.
    destruct (spec_variable t) eqn:HFt; cbn [negb bind].
    + rewrite HD. cbn [bind]. unfold vector_try_from.
      replace (n =? 0) with false by lia. replace (blen l =? n) with true by lia. reflexivity.
    + rewrite HB, Hlen, N.ltb_irrefl by reflexivity. cbn [bind]. rewrite HD. cbn [bind].
      unfold vector_try_from.
      replace (n =? 0) with false by lia. replace (blen l =? n) with true by lia. reflexivity.
  - destruct v as [| | |l| | | | | |]; try contradiction. cbn [valid] in HV. destruct HV as [Hlen HV].
    cbn [legal] in HL. rewrite !andb_true_iff in HL. destruct HL as [[[L1 L2] L3] L4].
    cbn [accepted] in HS. destruct HS as (bodies & HF & HC).
    destruct (homogeneous_accept oc t l bodies b L4 HN HV HF HC (IHt L4 HN)) as [HD HB].
    cbn [serializable array_impl deserialize]. unfold array_deserialize.
    replace (n =? 0) with false by lia. unfold check_fixed_length.
    rewrite is_variable_size_spec, size_hint_spec.
    destruct (spec_variable t) eqn:HFt; cbn [negb bind].
    + rewrite HD. cbn [bind]. replace (blen l =? n) with true by lia. reflexivity.
    + rewrite HB, Hlen, N.ltb_irrefl by reflexivity. cbn [bind]. rewrite HD. cbn [bind].
      replace (blen l =? n) with true by lia. reflexivity.
  - destruct v as [| | |l| | | | | |]; try contradiction. cbn [valid] in HV. destruct HV as [Hlen HV].
    cbn [legal] in HL. rewrite !andb_true_iff in HL. destruct HL as [L1 L4].
    cbn [serializable list_impl deserialize]. unfold list_deserialize.
    rewrite is_variable_size_spec, size_hint_spec.
    cbn [accepted] in HS. destruct HS as [(bodies & HF & HC)|(HVar & -> & rest & ->)].
    + destruct (homogeneous_accept oc t l bodies b L4 HN HV HF HC (IHt L4 HN)) as [HD HB].
      destruct (spec_variable t) eqn:HFt; cbn [negb bind].
      * rewrite HD. cbn [bind]. unfold list_try_from.
        replace (n <? blen l) with false by lia. reflexivity.
      * pose proof (legal_fixed_size t L4 HFt). unfold rem_len.
        replace (fixed_size t =? 0) with false by lia. cbn [bind].
        rewrite HB, N.mod_mul by (reflexivity || lia). cbn [N.eqb negb bind].
        rewrite HD. cbn [bind]. unfold list_try_from.
        replace (n <? blen l) with false by lia. reflexivity.
    + rewrite HVar. cbn [negb bind]. unfold deserialize_homogeneous_composite.
      rewrite is_variable_size_spec, HVar. rewrite variable_homogeneous_zero.
      * cbn [bind]. unfold list_try_from. change (blen (@nil val)) with 0.
        replace (n <? 0) with false by lia. reflexivity.
      * rewrite blen_app. change (blen [x00; x00; x00; x00]) with 4. lia.
      * apply takeN_app. reflexivity.
  - destruct v as [| | | | |l| | | |]; try contradiction. cbn [valid] in HV.
    apply (Forall2_preds_combine fs (fun f => valid (snd f))) in HV as [Hlen HV].
    cbn [legal] in HL. rewrite !andb_true_iff in HL. destruct HL as [[L1 L2] L3].
    rewrite forallb_forall in L3. cbn [no_transparent] in HN.
    apply accepted_container in HS as (_ & bodies & HF & HC).
    assert (HV' : Forall (fun tv => valid (fst tv) (snd tv)) (combine (map snd fs) l)).
    { rewrite combine_map_l. apply Forall_map. cbn [fst snd]. exact HV. }
    assert (HN' : forallb no_transparent (map snd fs) = true).
    { rewrite forallb_forall in *. intros t Ht. apply in_map_iff in Ht as (f & <- & Hf). auto. }
    destruct (acc_fields_ok oc (map snd fs) l bodies HF ltac:(rewrite map_length; auto) HN' HV') as [HFO Hsnd].
    set (es := combine (map spec_variable (map snd fs)) bodies) in *.
    pose proof (spec_compose_blen _ _ HC) as Hbl.
    apply spec_compose_some in HC as [Hsz ->].
    cbn [serializable container_impl deserialize].
    rewrite <- (map_map snd (serializable oc)).
    pose proof (clayout_blen es) as Hcl. rewrite compose_size_eq in *.
    assert (HR : container_deserialize oc (map (serializable oc) (map snd fs)) (clayout es) = Ok l).
    { rewrite container_layout; auto; [|lia|apply items_of_lt; auto].
      rewrite Hsnd. apply mapM_ok_iff.
      assert (HD : Forall (fun tv => forall b, acc_of tv b ->
                     deserialize (serializable oc (fst tv)) b = Ok (snd tv)) (combine (map snd fs) l)).
      { rewrite combine_map_l. apply Forall_map. cbn [fst snd]. rewrite Forall_forall in *.
        intros [f x] Hin b Hb. pose proof (in_combine_l _ _ _ _ Hin) as Hf.
        rewrite forallb_forall in HN. apply H; auto. }
      assert (Hlen' : length (map snd fs) = length l) by (rewrite map_length; auto).
      clear - HF HD Hlen'. revert l bodies HF HD Hlen'. generalize (map snd fs) as ts.
      induction ts as [|t ts IH]; intros l bodies HF HD Hlen';
        destruct l as [|x l]; try discriminate; cbn [map combine] in *.
      - inversion HF. constructor.
      - inversion HF; subst. inversion HD; subst. cbn [map combine]. constructor; auto.
      }
    unfold clayout in HR. rewrite HR. reflexivity.
  - destruct v as [| | | | | |x| | |]; try contradiction. cbn in *.
    rewrite (IHt HL HN _ _ HV HS). reflexivity.
  - destruct v as [| | | | | | | |x|]; try contradiction.
    + apply decode_encode; auto.
    + cbn [valid accepted] in *. destruct HS as (b' & -> & HS).
      cbn [serializable option_impl deserialize option_deserialize].
      change (byte_eqb x01 x00) with false. change (byte_eqb x01 x01) with true. cbn iota.
      rewrite (IHt HL HN _ _ HV HS). reflexivity.
  - pose proof HL as HL0. pose proof HN as HN0.
    cbn [legal] in HL. apply andb_true_iff in HL as [HLV HL]. rewrite forallb_forall in HL.
    cbn [no_transparent] in HN. rewrite forallb_forall in HN. rewrite Forall_forall in H.
    destruct v as [| | | | | | | | |i x]; try (destruct vs as [|[] ?]; contradiction).
    + apply decode_encode; auto.
    + assert (HV' : match nth_error vs (N.to_nat i) with
                    | Some (Some t) => valid t x | _ => False end).
      { cbn [valid] in HV. destruct vs as [|[|] vs'];
        rewrite nth_error_map in HV; destruct (nth_error _ (N.to_nat i)) as [[|]|]; exact HV. }
      cbn [accepted] in HS. rewrite nth_error_map in HS.
      destruct (nth_error vs (N.to_nat i)) as [[t|]|] eqn:E; try contradiction.
      pose proof (nth_error_In _ _ E) as Hin. cbn [option_map] in HS.
      destruct HS as (b' & -> & HS).
      assert (Hi : i < 127).
      { apply legal_variants_len in HLV.
        assert (N.to_nat i < length vs)%nat by (apply nth_error_Some; congruence).
        unfold blen in HLV. lia. }
      cbn [serializable union_impl deserialize union_deserialize].
      rewrite byte_to_N_of_N, N.mod_small by lia. rewrite nth_error_map, E. cbn [option_map].
      pose proof (H _ Hin (HL _ Hin) (HN _ Hin) _ _ HV' HS) as HD. rewrite HD. reflexivity.
  - discriminate.
Qed.

(** ** Decoded strings are accepted *)

Lemma homogeneous_decode oc t b l :
  (spec_variable t = false -> blen b mod fixed_size t = 0) ->
  blen b < 2 ^ 32 ->
  deserialize_homogeneous_composite oc (serializable oc t) b = Ok l ->
  (forall v b, blen b < 2 ^ 32 -> deserialize (serializable oc t) b = Ok v -> accepted t v b) ->
  (exists bodies : list bytes,
     Forall2 (accepted t) l bodies /\
     spec_compose (map (pair (spec_variable t)) bodies) = Some b)
  \/ (spec_variable t = true /\ l = [] /\ exists rest, b = [x00; x00; x00; x00] ++ rest).
Proof.
  intros HM HB HD IH. unfold deserialize_homogeneous_composite in HD.
  rewrite is_variable_size_spec in HD. destruct (spec_variable t) eqn:HF.
  - apply variable_homogeneous_inv in HD as [[-> ->]|[(H4 & Ht & ->)|(bodies & _ & -> & HO & HD)]].
    + left. exists []. split; [constructor|reflexivity].
    + right. split; [auto|]. split; [auto|]. exists (dropN 4 b). rewrite <- Ht.
      symmetry. apply takeN_dropN.
    + left. exists bodies. split; [|apply layout_compose_conv; auto].
      assert (HBs : forall b, In b bodies -> blen b < 2 ^ 32).
      { intros b Hb. apply blen_concat_in in Hb. unfold layout in HB. rewrite blen_app in HB. lia. }
      clear - HD HBs IH. induction HD; constructor; auto.
      * apply IH; auto. apply HBs; left; auto.
      * apply IHHD. intros; apply HBs; right; auto.
  - apply fixed_homogeneous_inv in HD as (_ & bs & -> & HL & HD); [|rewrite size_hint_spec; auto].
    left. exists bs. split; [|apply compose_fixed; auto].
    assert (HBs : forall b, In b bs -> blen b < 2 ^ 32).
    { intros b Hb. apply blen_concat_in in Hb. lia. }
    clear - HD HBs IH. induction HD; constructor; auto.
    + apply IH; auto. apply HBs; left; auto.
    + apply IHHD. intros; apply HBs; right; auto.
Qed.

Lemma decode_accept oc t :
  legal t = true ->
  forall v b, blen b < 2 ^ 32 -> deserialize (serializable oc t) b = Ok v -> accepted t v b.
Proof.
  induction t using ty_ind'; intros HL v b HB HD; cbn [serializable] in HD.
  - cbn [bool_impl deserialize] in HD. unfold bool_deserialize in HD.
    destruct b as [|x [|]]; try discriminate.
    destruct (byte_eqb x x00) eqn:E0.
    { apply byte_eqb_true in E0. injection HD as <-. subst x. reflexivity. }
    destruct (byte_eqb x x01) eqn:E1; [|discriminate].
    apply byte_eqb_true in E1. injection HD as <-. subst x. reflexivity.
  - cbn [uint_impl deserialize] in HD. apply bind_ok_inv in HD as (n & HD & [= <-]).
    apply uint_deserialize_iff in HD as [HL' ->]. cbn [accepted spec_serialize].
    rewrite spec_uint_le_bytes, le_bytes_value_n; [reflexivity|].
    unfold blen in HL'. destruct w; cbn in HL' |- *; lia.
  - cbn [u256_impl uint_impl deserialize] in HD. apply bind_ok_inv in HD as (n & HD & [= <-]).
    apply uint_deserialize_iff in HD as [HL' ->]. cbn [accepted spec_serialize].
    rewrite spec_uint_le_bytes, le_bytes_value_n; [reflexivity|].
    unfold blen, U256_BYTE_COUNT in HL'. lia.
  - cbn [node_impl deserialize] in HD. unfold node_deserialize, BYTES_PER_CHUNK in HD.
    destruct (blen b <? 32) eqn:C1; [discriminate|]. destruct (32 <? blen b) eqn:C2; [discriminate|].
    replace 32 with (blen b) in HD by lia. rewrite slice_full in HD. injection HD as <-. reflexivity.
  - cbn [vector_impl deserialize] in HD. apply vector_deserialize_inv in HD as (l & -> & Hn & Hl & Hf & HD).
    cbn [legal] in HL. rewrite !andb_true_iff in HL. destruct HL as [[[L1 L2] L3] L4].
    cbn [accepted]. destruct (homogeneous_decode oc t b l) as [G|(_ & -> & _)]; auto.
    + intros HF. rewrite Hf by auto. apply mod_mul_ok.
    + change (blen (@nil val)) with 0 in Hl. lia.
  - cbn [array_impl deserialize] in HD. apply array_deserialize_inv in HD as (l & -> & Hn & Hl & Hf & HD).
    cbn [legal] in HL. rewrite !andb_true_iff in HL. destruct HL as [[[L1 L2] L3] L4].
    cbn [accepted]. destruct (homogeneous_decode oc t b l) as [G|(_ & -> & _)]; auto.
    + intros HF. rewrite Hf by auto. apply mod_mul_ok.
    + change (blen (@nil val)) with 0 in Hl. lia.
  - cbn [list_impl deserialize] in HD. apply list_deserialize_inv in HD as (l & -> & Hl & Hf & HD).
    cbn [legal] in HL. rewrite !andb_true_iff in HL. destruct HL as [L1 L4].
    cbn [accepted]. eapply homogeneous_decode; eauto.
  - cbn [bitvector_impl deserialize] in HD. apply bitvector_deserialize_iff in HD as (Hn & Hl & Hz & ->).
    cbn [accepted spec_serialize]. f_equal. symmetry. apply (clean_raw_spec (BitVec b n)).
    + unfold bv_ok. cbn [bv_raw bv_len]. lia.
    + intros i Hi. apply Hz; auto.
  - cbn [bitlist_impl deserialize] in HD. cbn [legal] in HL.
    pose proof (proj1 (bitlist_deserialize_iff oc n b v ltac:(lia)) HD) as (bits & -> & Hn & ->).
    cbn [accepted spec_serialize bits_value]. rewrite spec_bits_raw. reflexivity.
  - cbn [legal] in HL. rewrite !andb_true_iff in HL. destruct HL as [[L1 L2] L3].
    cbn [container_impl deserialize] in HD. apply bind_ok_inv in HD as (vs & HD & [= <-]).
    apply container_inv in HD as (es & HFO & -> & HO & HM); [|lia|apply fields_size_ok; auto].
    rewrite forallb_forall in L3. rewrite Forall_forall in H.
    apply mapM_ok_iff in HM.
    assert (HBs : forall e, In e es -> blen (snd e) < 2 ^ 32).
    { intros e He. apply clayout_part_le in He. lia. }
    apply accepted_container.
    assert (G : Forall2 acc_of (combine (map snd fs) vs) (map snd es) /\
                length (map snd fs) = length vs /\
                es = combine (map spec_variable (map snd fs)) (map snd es)).
    { clear - H L3 HFO HM HBs. revert es vs HFO HM HBs.
      induction fs as [|f fs IH]; intros es vs HFO HM HBs; cbn [map] in *.
      + inversion HFO; subst. inversion HM; subst. repeat split; constructor.
      + inversion HFO as [|? e ? es' HE HFO']; subst. cbn [map combine] in HM.
        inversion HM as [|? v ? vs' Hv HM']; subst. cbn [fst snd] in Hv.
        destruct (IH ltac:(intros; eapply H; eauto; right; auto)
                     ltac:(intros; apply L3; right; auto)
                     es' vs' HFO' HM'
                     ltac:(intros; apply HBs; right; auto)) as (I1 & I2 & I3).
        cbn [map combine length]. split; [|split; [auto|]].
        * constructor; auto. unfold acc_of. cbn [fst snd].
          eapply H; [left; reflexivity|apply L3; left; reflexivity| |exact Hv].
          apply HBs; left; reflexivity.
        * rewrite <- I3. destruct HE as [HE _]. rewrite is_variable_size_spec in HE.
          destruct e as [fl bd]. cbn [fst snd] in *. rewrite HE. reflexivity. }
    destruct G as (G1 & G2 & G3). split; [auto|]. exists (map snd es). split; [auto|].
    rewrite <- G3. apply spec_compose_some. rewrite <- clayout_blen. split; [auto|reflexivity].
  - cbn [newtype_impl deserialize] in HD. apply bind_ok_inv in HD as (x & HD & [= <-]).
    exact (IHt HL _ _ HB HD).
  - cbn [option_impl deserialize] in HD. unfold option_deserialize in HD.
    destruct b as [|x b]; [discriminate|]. rewrite blen_cons in *.
    destruct (byte_eqb x x00) eqn:E0.
    + apply byte_eqb_true in E0. subst x.
      destruct (blen b + 1 =? 1) eqn:EL; cbn [negb] in HD; [injection HD as <-|discriminate].
      assert (b = []) as -> by (destruct b; [reflexivity|rewrite blen_cons in EL; lia]). reflexivity.
    + destruct (byte_eqb x x01) eqn:E1; [|discriminate]. apply byte_eqb_true in E1. subst x.
      apply bind_ok_inv in HD as (y & HD & [= <-]).
      cbn [accepted]. exists b. split; auto. eapply IHt; eauto. lia.
  - cbn [legal] in HL. apply andb_true_iff in HL as [HLV HL]. rewrite forallb_forall in HL.
    rewrite Forall_forall in H.
    cbn [union_impl deserialize] in HD. unfold union_deserialize in HD.
    destruct b as [|x b]; [discriminate|]. rewrite blen_cons in *. rewrite nth_error_map in HD.
    destruct (nth_error vs (N.to_nat (byte_to_N x))) as [[t|]|] eqn:E; cbn [option_map] in HD; [| |discriminate].
    + apply bind_ok_inv in HD as (y & HD & [= <-]).
      pose proof (nth_error_In _ _ E) as Hin.
      cbn [accepted]. rewrite nth_error_map, E. cbn [option_map]. exists b.
      rewrite byte_of_N_to_N. split; auto.
      eapply (H _ Hin); [apply (HL _ Hin)| |exact HD]; lia.
    + destruct (blen b + 1 =? 1) eqn:EL; cbn [negb] in HD; [injection HD as <-|discriminate].
      assert (b = []) as -> by (destruct b; [reflexivity|rewrite blen_cons in EL; lia]).
      cbn [accepted spec_serialize]. unfold legal_variants in HLV.
      destruct (N.to_nat (byte_to_N x)) as [|k] eqn:Ek.
      * f_equal. f_equal. rewrite <- (byte_of_N_to_N x). replace (byte_to_N x) with 0 by lia. reflexivity.
      * exfalso. destruct vs as [|o r]; [discriminate|]. cbn [nth_error] in E.
        rewrite !andb_true_iff in HLV. destruct HLV as [[_ HLV] _].
        apply nth_error_In in E. apply negb_true_iff in HLV.
        assert (existsb is_none r = true) by (apply existsb_exists; exists None; auto). congruence.
  - cbn [legal] in HL. rewrite !andb_true_iff in HL. destruct HL as [_ L3].
    rewrite forallb_forall in L3. rewrite Forall_forall in H.
    cbn [transparent_impl deserialize] in HD. unfold transparent_deserialize in HD.
    destruct b as [|x b]; [discriminate|].
    apply try_variants_inv in HD as (pre & T & post & y & Hr & -> & HD & _).
    assert (E : nth_error (map (serializable oc) ts) (length post) = Some T).
    { rewrite <- (rev_involutive (map (serializable oc) ts)), Hr, rev_app_distr.
      cbn [rev]. rewrite <- app_assoc. rewrite nth_error_app2; rewrite rev_length; [|lia].
      rewrite Nat.sub_diag. reflexivity. }
    rewrite nth_error_map in E.
    destruct (nth_error ts (length post)) as [t|] eqn:E'; [|discriminate]. injection E as <-.
    pose proof (nth_error_In _ _ E') as Hin.
    cbn [accepted]. unfold blen. rewrite Nnat.Nat2N.id, nth_error_map, E'. cbn [option_map].
    eapply (H _ Hin); eauto.
Qed.
