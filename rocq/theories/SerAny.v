(** serialize on every value a Rust type can hold, in bounds or not: it never panics, only
    appends, and what it appends does not depend on the buffer. *)
From Coq Require Import List NArith ZArith Bool Lia ZifyBool ZifyNat ZifyN.
From Coq Require Import Strings.Byte.
From Verif Require Import Prelude Types Bitvec Ser De Impls Valid SpecSer Lib BitsLib SerProof
  SerSpec.
Import ListNotations.
Open Scope N_scope.

Ltac Zify.zify_post_hook ::= Z.div_mod_to_equations.

Lemma bitvectors_sized_child t v t1 v1 :
  bitvectors_sized t v -> In (t1, v1) (children t v) -> bitvectors_sized t1 v1.
Proof. intros H Hin n b Hp. apply H. econstructor; eauto. Qed.

Definition any_ok (oc : bool) (t : ty) (v : val) : Prop :=
  exists suf r,
    (forall buf, serialize (serializable oc t) v buf = (buf ++ suf, r)) /\
    (forall p, r <> Panic p) /\
    (bitvectors_sized t v -> forall n, r = Ok n -> n = blen suf).

Lemma serialize_elements_any oc elements :
  Forall (fun e => forall buf p, snd (serialize (fst e) (snd e) buf) <> Panic p) elements ->
  exists suf r,
    (forall buf, serialize_elements oc elements buf = (buf ++ suf, r)) /\
    (forall p, r <> Panic p) /\ (forall n, r = Ok n -> n = blen suf) /\
    ((exists n, r = Ok n) -> Forall (fun e => exists b n, serialize (fst e) (snd e) [] = (b, Ok n)) elements).
Proof.
  intros H.
  assert (G : (exists es, Forall2 elem_ok elements es) \/
              (exists pre e post es out x, elements = pre ++ e :: post /\
                 Forall2 elem_ok pre es /\ serialize (fst e) (snd e) [] = (out, Err x))).
  { induction H as [|e elements He _ IH]; [left; exists []; constructor|].
    specialize (He []). destruct (serialize (fst e) (snd e) []) as [out [n|x|p]] eqn:E.
    - destruct IH as [[es IH]|(pre & e' & post & es & out' & x & -> & H1 & H2)].
      + left. exists ((is_variable_size (fst e), out) :: es). constructor; auto.
        split; cbn [fst snd]; eauto.
      + right. exists (e :: pre), e', post, ((is_variable_size (fst e), out) :: es), out', x.
        split; [reflexivity|]. split; [|auto]. constructor; auto. split; cbn [fst snd]; eauto.
    - right. exists [], e, elements, [], out, x. split; [reflexivity|]. split; [constructor|auto].
    - exfalso. exact (He p eq_refl). }
  destruct G as [[es G]|(pre & e & post & es & out & x & -> & H1 & H2)].
  - destruct (spec_compose es) as [b|] eqn:E.
    + exists b, (Ok (blen b)). split; [intros buf; rewrite (serialize_elements_ok _ _ _ _ G), E; reflexivity|].
      split; [discriminate|]. split; [congruence|]. intros _.
      clear - G. induction G as [|e fb elements es [_ [n He]] _ IH]; constructor; eauto.
    + exists [], (Err (MaximumEncodedLengthReached (compose_size es))).
      split; [intros buf; rewrite (serialize_elements_ok _ _ _ _ G), E, app_nil_r; reflexivity|].
      split; [discriminate|]. split; [discriminate|]. intros [n Hn]; discriminate.
  - exists [], (Err x). split; [intros buf; rewrite (serialize_elements_err _ _ _ _ _ _ _ _ H1 H2), app_nil_r; reflexivity|].
    split; [discriminate|]. split; [discriminate|]. intros [n Hn]; discriminate.
Qed.

Lemma bv_load_chunks_blen b : blen (bv_load_chunks b) = bits_bytes (bv_len b).
Proof. unfold bv_load_chunks, chunk_indices. rewrite !blen_map. unfold blen. rewrite seq_length. lia. Qed.

Lemma bitlist_serialize_any n b :
  bv_ok b = true ->
  exists suf r, (forall buf, bitlist_serialize_with_length n b true buf = (buf ++ suf, r)) /\
    (forall p, r <> Panic p) /\ (forall k, r = Ok k -> k = blen suf).
Proof.
  intros Hok. apply bv_ok_len in Hok. unfold bitlist_serialize_with_length.
  destruct (n <? bv_len b).
  { exists [], (Err (SInvalidInstance (Bounded n (bv_len b)))).
    split; [intros; rewrite app_nil_r; reflexivity|]. split; discriminate. }
  destruct (bv_len b mod 8 =? 0) eqn:E.
  - exists (bv_raw b ++ [x01]), (Ok (blen (bv_raw b ++ [x01]))).
    split; [|split; [discriminate|congruence]].
    intros buf. rewrite app_assoc, !blen_app. f_equal. f_equal. unfold blen. lia.
  - destruct (last_cases (bv_raw b)) as [Hnil|(raw & x & Hraw)].
    { rewrite Hnil in Hok. change (blen (@nil byte)) with 0 in Hok. unfold bits_bytes in Hok. lia. }
    rewrite Hraw. set (y := byte_of_N (N.lor (byte_to_N x) (N.shiftl 1 (bv_len b mod 8)))).
    exists (raw ++ [y]), (Ok (blen (raw ++ [y]))).
    split; [|split; [discriminate|congruence]].
    intros buf. rewrite (app_assoc buf raw [x]), or_last_spec.
    fold y. rewrite <- app_assoc. f_equal. f_equal. rewrite !blen_app. unfold blen. lia.
Qed.

Lemma any_elements oc t v elements :
  (forall buf, serialize (serializable oc t) v buf = serialize_elements oc (insts oc elements) buf) ->
  Forall (fun tv => any_ok oc (fst tv) (snd tv)) elements ->
  any_ok oc t v.
Proof.
  intros HS H.
  destruct (serialize_elements_any oc (insts oc elements)) as (suf & r & H1 & H2 & H3 & _).
  - unfold insts. apply Forall_map. eapply Forall_impl; [|exact H]. cbn [fst snd].
    intros tv (s & r & G1 & G2 & _) buf p. rewrite G1. apply G2.
  - exists suf, r. split; [intros; rewrite HS; auto|]. split; [auto|]. auto.
Qed.

Lemma selector_any oc sel t v :
  any_ok oc t v ->
  exists suf r,
    (forall buf, selector_serialize sel (serializable oc t) v buf = (buf ++ suf, r)) /\
    (forall p, r <> Panic p) /\
    (bitvectors_sized t v -> forall n, r = Ok n -> n = blen suf).
Proof.
  intros (suf & r & H1 & H2 & H3). unfold selector_serialize.
  exists (le_bytes 1 sel ++ suf), (match r with Ok n => Ok (1 + n) | x => x end).
  split; [|split].
  - intros buf. cbn [u8_serialize ser_bind]. unfold u8_serialize. cbn [ser_bind]. rewrite H1.
    rewrite app_assoc. destruct r; reflexivity.
  - intros p. destruct r; try discriminate. exfalso. exact (H2 p0 eq_refl).
  - intros HB n Hn. rewrite blen_app, blen_le_bytes. destruct r; try discriminate.
    assert (Hn' : n = 1 + a) by congruence. rewrite Hn', (H3 HB a eq_refl). lia.
Qed.

Lemma serialize_any oc t : forall v, typed t v -> any_ok oc t v.
Proof.
  induction t using ty_ind'; intros v HT.
  - destruct v; try contradiction. exists [if b then x01 else x00], (Ok 1).
    split; [reflexivity|]. split; [discriminate|]. intros _ n [= <-]. reflexivity.
  - destruct v; try contradiction.
    exists (le_bytes (N.to_nat (bits_to_bytes (uint_bits w))) n), (Ok (bits_to_bytes (uint_bits w))).
    split; [reflexivity|]. split; [discriminate|]. intros _ k [= <-]. rewrite blen_le_bytes. lia.
  - destruct v; try contradiction. exists (le_bytes 32 n), (Ok 32).
    split; [reflexivity|]. split; [discriminate|]. intros _ k [= <-]. rewrite blen_le_bytes. reflexivity.
  - destruct v; try contradiction. exists b, (Ok 32).
    split; [reflexivity|]. split; [discriminate|]. intros _ k [= <-]. cbn [typed] in HT. lia.
  - destruct v as [| | |l| | | | | |]; try contradiction. cbn [typed] in HT.
    destruct (n =? 0) eqn:E0.
    + exists [], (Err (SInvalidType (InvalidBound n))).
      split; [intros; cbn; rewrite E0, app_nil_r; reflexivity|]. split; discriminate.
    + apply (any_elements oc _ _ (map (pair t) l)).
      * intros buf. cbn [serializable vector_impl serialize]. unfold vector_serialize. rewrite E0.
        unfold insts. rewrite map_map. reflexivity.
      * apply Forall_map. eapply Forall_impl; [|exact HT]. cbn. auto.
  - destruct v as [| | |l| | | | | |]; try contradiction. cbn [typed] in HT. destruct HT as [_ HT].
    destruct (n =? 0) eqn:E0.
    + exists [], (Err (SInvalidType (InvalidBound n))).
      split; [intros; cbn; rewrite E0, app_nil_r; reflexivity|]. split; discriminate.
    + apply (any_elements oc _ _ (map (pair t) l)).
      * intros buf. cbn [serializable array_impl serialize]. unfold vector_serialize. rewrite E0.
        unfold insts. rewrite map_map. reflexivity.
      * apply Forall_map. eapply Forall_impl; [|exact HT]. cbn. auto.
  - destruct v as [| | |l| | | | | |]; try contradiction. cbn [typed] in HT.
    destruct (n <? blen l) eqn:E0.
    + exists [], (Err (SInvalidInstance (Bounded n (blen l)))).
      split; [intros; cbn [serializable list_impl serialize]; unfold list_serialize; rewrite E0, app_nil_r; reflexivity|].
      split; discriminate.
    + apply (any_elements oc _ _ (map (pair t) l)).
      * intros buf. cbn [serializable list_impl serialize]. unfold list_serialize. rewrite E0.
        unfold insts. rewrite map_map. reflexivity.
      * apply Forall_map. eapply Forall_impl; [|exact HT]. cbn. auto.
  - destruct v as [| | | |bv| | | | |]; try contradiction. cbn [typed] in HT.
    destruct (n =? 0) eqn:E0.
    + exists [], (Err (SInvalidType (InvalidBound n))).
      split; [intros; cbn; rewrite E0, app_nil_r; reflexivity|]. split; discriminate.
    + exists (bv_load_chunks bv), (Ok (bitvector_byte_length n)).
      split; [intros; cbn; rewrite E0; reflexivity|]. split; [discriminate|].
      intros HB k [= <-]. rewrite bv_load_chunks_blen, (HB n bv (part_refl _ _)).
      unfold bitvector_byte_length, div_ceil, bits_bytes. destruct (n mod 8 =? 0) eqn:E; lia.
  - destruct v as [| | | |bv| | | | |]; try contradiction. cbn [typed] in HT.
    destruct (bitlist_serialize_any n bv HT) as (suf & r & H1 & H2 & H3).
    exists suf, r. split; [exact H1|]. auto.
  - destruct v as [| | | | |l| | | |]; try contradiction. cbn [typed] in HT.
    apply (Forall2_preds_combine fs (fun f => typed (snd f))) in HT as [Hlen HT].
    apply (any_elements oc _ _ (combine (map snd fs) l)).
    + intros buf. cbn [serializable container_impl serialize]. unfold container_serialize.
      rewrite map_length, Hlen, Nat.eqb_refl. unfold insts.
      rewrite !combine_map_l, map_map. reflexivity.
    + rewrite combine_map_l. apply Forall_map. rewrite Forall_forall in *. cbn [fst snd].
      intros [f x] Hin. apply H; [eapply in_combine_l; eauto|]. apply (HT _ Hin).
  - destruct v as [| | | | | |x| | |]; try contradiction.
    destruct (IHt x HT) as (suf & r & H1 & H2 & H3). exists suf, r. split; [exact H1|]. split; [auto|].
    intros HB. apply H3. eapply bitvectors_sized_child; [exact HB|]. left; reflexivity.
  - destruct v as [| | | | | | | |x|]; try contradiction.
    + exists [x00], (Ok 1). split; [reflexivity|]. split; [discriminate|]. intros _ k [= <-]. reflexivity.
    + destruct (selector_any oc 1 t x (IHt x HT)) as (suf & r & H1 & H2 & H3).
      exists suf, r. split; [exact H1|]. split; [auto|].
      intros HB. apply H3. eapply bitvectors_sized_child; [exact HB|]. left; reflexivity.
  - rewrite Forall_forall in H.
    destruct v as [| | | | | | | | |i x]; try (destruct vs as [|[] ?]; contradiction).
    + destruct vs as [|[|] ?]; try contradiction.
      exists [x00], (Ok 1). split; [reflexivity|]. split; [discriminate|]. intros _ k [= <-]. reflexivity.
    + assert (HV' : match nth_error vs (N.to_nat i) with
                    | Some (Some t) => typed t x | _ => False end).
      { cbn [typed] in HT. destruct vs as [|[|] vs'];
        rewrite nth_error_map in HT; destruct (nth_error _ (N.to_nat i)) as [[|]|]; exact HT. }
      destruct (nth_error vs (N.to_nat i)) as [[t|]|] eqn:E; try contradiction.
      pose proof (nth_error_In _ _ E) as Hin.
      destruct (selector_any oc (i mod 256) t x (H _ Hin x HV')) as (suf & r & H1 & H2 & H3).
      exists suf, r. split; [|split; [auto|]].
      * intros buf. cbn [serializable union_impl serialize union_serialize].
        rewrite nth_error_map, E. cbn [option_map]. apply H1.
      * intros HB. apply H3. eapply bitvectors_sized_child; [exact HB|].
        cbn [children]. rewrite E. left; reflexivity.
  - rewrite Forall_forall in H. destruct v as [| | | | | | | | |i x]; try contradiction.
    cbn [typed] in HT. rewrite nth_error_map in HT.
    destruct (nth_error ts (N.to_nat i)) as [t|] eqn:E; [|contradiction]. cbn [option_map] in HT.
    pose proof (nth_error_In _ _ E) as Hin.
    destruct (H _ Hin x HT) as (suf & r & H1 & H2 & H3). exists suf, r. split; [|split; [auto|]].
    + intros buf. cbn [serializable transparent_impl serialize transparent_serialize].
      rewrite nth_error_map, E. cbn [option_map]. apply H1.
    + intros HB. apply H3. eapply bitvectors_sized_child; [exact HB|].
      cbn [children]. rewrite E. left; reflexivity.
Qed.

(** If a value serializes, so does everything inside it. *)
Lemma elements_ok oc elements buf out n :
  Forall (fun tv => any_ok oc (fst tv) (snd tv)) elements ->
  serialize_elements oc (insts oc elements) buf = (out, Ok n) ->
  Forall (fun tv => exists b k, serialize (serializable oc (fst tv)) (snd tv) [] = (b, Ok k)) elements.
Proof.
  intros H HS.
  destruct (serialize_elements_any oc (insts oc elements)) as (suf & r & H1 & _ & _ & H4).
  - unfold insts. apply Forall_map. eapply Forall_impl; [|exact H]. cbn [fst snd].
    intros tv (s & r & G1 & G2 & _) buf' p. rewrite G1. apply G2.
  - rewrite H1 in HS. injection HS as <- ->. specialize (H4 (ex_intro _ n eq_refl)).
    unfold insts in H4. exact (proj1 (Forall_map _ _ _) H4).
Qed.

Lemma typed_children t v t1 v1 : typed t v -> In (t1, v1) (children t v) -> typed t1 v1.
Proof.
  intros HT Hin. destruct t, v; try contradiction; cbn [typed children] in *.
  - apply in_map_iff in Hin as (x & [= <- <-] & Hx). rewrite Forall_forall in HT. auto.
  - apply in_map_iff in Hin as (x & [= <- <-] & Hx). destruct HT as [_ HT]. rewrite Forall_forall in HT. auto.
  - apply in_map_iff in Hin as (x & [= <- <-] & Hx). rewrite Forall_forall in HT. auto.
  - apply (Forall2_preds_combine fs (fun f => typed (snd f))) in HT as [_ HT].
    rewrite combine_map_l in Hin. apply in_map_iff in Hin as ([f x] & [= <- <-] & Hx).
    rewrite Forall_forall in HT. exact (HT _ Hx).
  - destruct Hin as [[= <- <-]|[]]. auto.
  - destruct Hin as [[= <- <-]|[]]. auto.
  - destruct vs as [|[|] vs']; rewrite ?nth_error_map in HT; destruct (nth_error _ (N.to_nat i)) as [[|]|];
      try contradiction; destruct Hin as [[= <- <-]|[]]; auto.
  - rewrite nth_error_map in HT. destruct (nth_error ts (N.to_nat i)); [|contradiction].
    destruct Hin as [[= <- <-]|[]]; auto.
Qed.

Lemma serialize_children oc t v t1 v1 buf out n :
  typed t v -> serialize (serializable oc t) v buf = (out, Ok n) ->
  In (t1, v1) (children t v) ->
  exists b k, serialize (serializable oc t1) v1 [] = (b, Ok k).
Proof.
  intros HT HS Hin.
  assert (HA : forall els, (forall tv, In tv els -> typed (fst tv) (snd tv)) ->
                 Forall (fun tv => any_ok oc (fst tv) (snd tv)) els).
  { intros els G. apply Forall_forall. intros tv Htv. apply serialize_any; auto. }
  assert (HC : forall els, (forall tv, In tv els -> typed (fst tv) (snd tv)) ->
             serialize_elements oc (insts oc els) buf = (out, Ok n) -> In (t1, v1) els ->
             exists b k, serialize (serializable oc t1) v1 [] = (b, Ok k)).
  { intros els G E Hi. apply elements_ok in E; auto. rewrite Forall_forall in E. exact (E _ Hi). }
  assert (HR : forall tv, In tv (children t v) -> typed (fst tv) (snd tv)).
  { intros [t2 v2] H2. eapply typed_children; eauto. }
  assert (HSel : forall sel t v buf out n, typed t v ->
     selector_serialize sel (serializable oc t) v buf = (out, Ok n) ->
     exists b k, serialize (serializable oc t) v [] = (b, Ok k)).
  { clear. intros sel t v buf out n HT HS. destruct (serialize_any oc t v HT) as (suf & r & H1 & H2 & _).
    unfold selector_serialize, u8_serialize in HS. cbn [ser_bind] in HS. rewrite H1 in HS.
    destruct r as [k| |]; try discriminate. rewrite H1. eauto. }
  destruct t, v; try contradiction; cbn [children] in *.
  - cbn [serializable vector_impl serialize] in HS. unfold vector_serialize in HS.
    destruct (n0 =? 0); [discriminate|]. eapply HC; eauto. unfold insts. rewrite map_map. exact HS.
  - cbn [serializable array_impl serialize] in HS. unfold vector_serialize in HS.
    destruct (n0 =? 0); [discriminate|]. eapply HC; eauto. unfold insts. rewrite map_map. exact HS.
  - cbn [serializable list_impl serialize] in HS. unfold list_serialize in HS.
    destruct (n0 <? blen l); [discriminate|]. eapply HC; eauto. unfold insts. rewrite map_map. exact HS.
  - cbn [serializable container_impl serialize] in HS. unfold container_serialize in HS.
    destruct (Nat.eqb _ _); [|discriminate].
    eapply HC; eauto. unfold insts. rewrite !combine_map_l, map_map in *. exact HS.
  - destruct Hin as [[= <- <-]|[]].
    destruct (serialize_any oc t v HT) as (suf & r & H1 & H2 & _).
    cbn in HS. rewrite H1 in HS. injection HS as _ ->. rewrite H1. eauto.
  - destruct Hin as [[= <- <-]|[]]. exact (HSel 1 t v buf out n HT HS).
  - pose proof (HR _ Hin) as HT1. cbn [fst snd] in HT1.
    cbn [serializable union_impl serialize union_serialize] in HS. rewrite nth_error_map in HS.
    destruct (nth_error vs (N.to_nat i)) as [[t|]|]; try contradiction.
    destruct Hin as [[= <- <-]|[]]. exact (HSel _ t v buf out n HT1 HS).
  - pose proof (HR _ Hin) as HT1. cbn [fst snd] in HT1.
    cbn [serializable transparent_impl serialize transparent_serialize] in HS. rewrite nth_error_map in HS.
    destruct (nth_error ts (N.to_nat i)) as [t|]; try contradiction.
    destruct Hin as [[= <- <-]|[]]. cbn [option_map] in HS.
    destruct (serialize_any oc t v HT1) as (suf & r & H1 & H2 & _).
    rewrite H1 in HS. injection HS as _ ->. rewrite H1. eauto.
Qed.

Lemma serialize_parts oc t v t1 v1 :
  part t v t1 v1 -> typed t v ->
  forall buf out n, serialize (serializable oc t) v buf = (out, Ok n) ->
  exists b k, serialize (serializable oc t1) v1 [] = (b, Ok k).
Proof.
  induction 1 as [t v|t v t1 v1 t2 v2 Hin _ IH]; intros HT buf out n HS.
  - destruct (serialize_any oc t v HT) as (suf & r & H1 & _). rewrite H1 in *.
    injection HS as _ ->. eauto.
  - destruct (serialize_children _ _ _ _ _ _ _ _ HT HS Hin) as (b & k & E).
    eapply IH; eauto. eapply typed_children; eauto.
Qed.

(** Over-long lists and bit lists make every enclosing value fail. *)
Lemma serialize_overlong oc t v t1 v1 bound len :
  typed t v -> part t v t1 v1 -> bound < len ->
  (exists u l, t1 = TList u bound /\ v1 = VSeq l /\ blen l = len) \/
  (exists b, t1 = TBitlist bound /\ v1 = VBits b /\ bv_len b = len) ->
  exists e, ssz_serialize oc t v = Err e.
Proof.
  intros HT HP HB HO. unfold ssz_serialize, serialize_to_vec.
  destruct (serialize_any oc t v HT) as (suf & r & H1 & H2 & _). rewrite H1.
  destruct r as [n|e|p]; [|eauto|exfalso; exact (H2 p eq_refl)].
  destruct (serialize_parts oc _ _ _ _ HP HT [] suf n (H1 [])) as (b & k & E). exfalso.
  destruct HO as [(u & l & -> & -> & <-)|(bv & -> & -> & <-)].
  - cbn [serializable list_impl serialize] in E. unfold list_serialize in E.
    replace (bound <? blen l) with true in E by lia. discriminate.
  - cbn in E. unfold bitlist_serialize_with_length in E.
    replace (bound <? bv_len bv) with true in E by lia. discriminate.
Qed.
