(** Proofs about text forms. *)
From Coq Require Import String Ascii.
From Coq Require Import List NArith ZArith Bool Lia ZifyBool ZifyNat ZifyN.
From Coq Require Import Strings.Byte.
From Coq Require Import DecimalString DecimalN DecimalFacts.
From Verif Require Import Prelude Types Bitvec Ser De Impls Api Valid SpecSer Text SpecText Lib BitsLib
  SerProof SerSpec DeProof ConProof BitsDe RoundTrip DecValid Accept SerAny DeErr ReadProof CodecFacts.
Import ListNotations.
Open Scope N_scope.

Ltac Zify.zify_post_hook ::= Z.div_mod_to_equations.

(** ** Hexadecimal *)

Lemma hex_high x : hex_value (hex_digit (byte_to_N x / 16)) = Some (byte_to_N x / 16).
Proof. destruct x; reflexivity. Qed.
Lemma hex_low x : hex_value (hex_digit (byte_to_N x mod 16)) = Some (byte_to_N x mod 16).
Proof. destruct x; reflexivity. Qed.
Lemma hex_join x : byte_of_N (16 * (byte_to_N x / 16) + byte_to_N x mod 16) = x.
Proof. destruct x; reflexivity. Qed.

Lemma hex_decode_encode b : hex_decode (hex_encode b) = Some b.
Proof.
  induction b as [|x b IH]; [reflexivity|]. cbn [hex_encode hex_decode].
  rewrite hex_high, hex_low, IH, hex_join. reflexivity.
Qed.

Lemma get_overflow s : forall n, (String.length s <= n)%nat -> String.get n s = None.
Proof. induction s as [|c s IH]; intros [|n] H; cbn in *; try reflexivity; [lia|]. apply IH. lia. Qed.

Lemma hex_value_iff c n : hex_value c = Some n <-> digit_of c n.
Proof.
  split.
  - destruct c as [[|] [|] [|] [|] [|] [|] [|] [|]]; vm_compute; intros [= <-]; auto.
  - unfold digit_of. intros H.
    assert (HN : (N.to_nat n < 16)%nat).
    { destruct (Nat.ltb_spec (N.to_nat n) 16) as [|G]; [auto|]. exfalso.
      rewrite !get_overflow in H by (cbn; lia). destruct H; discriminate. }
    assert (G : exists k, (k < 16)%nat /\ n = N.of_nat k) by (exists (N.to_nat n); split; [auto|lia]).
    destruct G as (k & Hk & ->). clear HN. rewrite Nnat.Nat2N.id in H.
    do 16 (destruct k as [|k]; [destruct H as [H|H]; cbn in H; injection H as <-; reflexivity|]). lia.
Qed.

Lemma byte_to_N_lt x : byte_to_N x < 256.
Proof. destruct x; reflexivity. Qed.

Lemma byte_of_N_to n : n < 256 -> byte_to_N (byte_of_N n) = n.
Proof.
  intros H. unfold byte_of_N. rewrite N.mod_small by auto. destruct (Byte.of_N n) as [x|] eqn:E.
  - apply Byte.to_of_N. exact E.
  - apply Byte.of_N_None_iff in E. lia.
Qed.

Lemma hex_value_lt c n : hex_value c = Some n -> n < 16.
Proof. destruct c as [[|] [|] [|] [|] [|] [|] [|] [|]]; vm_compute; intros [= <-]; auto. Qed.

Lemma byte_to_N_eq x y : byte_to_N x = byte_to_N y -> x = y.
Proof.
  intros H. unfold byte_to_N in H. assert (Some x = Some y) by (rewrite <- !Byte.of_to_N, H; reflexivity). congruence.
Qed.

Lemma hex_decode_sound s : forall b, hex_decode s = Some b -> spells s b.
Proof.
  assert (G : forall n s, (String.length s <= n)%nat -> forall b, hex_decode s = Some b -> spells s b).
  { clear s. induction n as [|n IH]; intros s Hn b H.
    - destruct s; [|cbn in Hn; lia]. injection H as <-. constructor.
    - destruct s as [|h [|l s]]; cbn [hex_decode] in H.
      + injection H as <-. constructor.
      + discriminate.
      + destruct (hex_value h) as [a|] eqn:E1; [|discriminate]. destruct (hex_value l) as [c|] eqn:E2; [|discriminate].
        destruct (hex_decode s) as [r|] eqn:E3; [|discriminate]. injection H as <-.
        pose proof (hex_value_lt _ _ E1). pose proof (hex_value_lt _ _ E2).
        apply hex_value_iff in E1, E2. econstructor; eauto.
        * apply byte_of_N_to. lia.
        * apply IH; auto. cbn in Hn. lia. }
  intros b. apply (G (String.length s)). lia.
Qed.

Lemma hex_decode_complete s b : spells s b -> hex_decode s = Some b.
Proof.
  induction 1 as [|h l n m x s b H1 H2 H3 _ IH]; [reflexivity|]. cbn [hex_decode].
  apply hex_value_iff in H1, H2. rewrite H1, H2, IH. rewrite <- H3. do 2 f_equal.
  apply byte_to_N_eq, byte_of_N_to, byte_to_N_lt.
Qed.

Lemma hex_from_to b : hex_from_json (hex_to_json b) = Ok b.
Proof.
  unfold hex_from_json, hex_to_json, bytes_from_hex. cbn [String.append strip_prefix].
  change (Ascii.eqb "0" "0" && Ascii.eqb "x" "x")%bool with true. cbn iota. rewrite hex_decode_encode. reflexivity.
Qed.

Lemma hex_from_json_iff s b :
  hex_from_json (JStr s) = Ok b <-> spells (strip_prefix s) b.
Proof.
  unfold hex_from_json, bytes_from_hex. split.
  - destruct (hex_decode (strip_prefix s)) eqn:E; [|discriminate]. intros [= <-]. apply hex_decode_sound. exact E.
  - intros H. rewrite (hex_decode_complete _ _ H). reflexivity.
Qed.

(** ** serde *)

Lemma mapM_write_read (T : Serde) l :
  Forall (fun v => exists j, to_json T v = Ok j /\ from_json T j = Ok v) l ->
  exists js, mapM (to_json T) l = Ok js /\ mapM (from_json T) js = Ok l.
Proof.
  induction 1 as [|v l (j & H1 & H2) _ (js & I1 & I2)]; [exists []; auto|].
  exists (j :: js). cbn [mapM]. rewrite H1, I1. cbn [bind mapM]. rewrite H2, I2. auto.
Qed.

Definition good (T : Serde) (v : val) : Prop :=
  exists j, to_json T v = Ok j /\ from_json T j = Ok v.

Lemma write_fields_ok fs l :
  Forall2 (fun f v => good (snd f) v) fs l ->
  exists r, write_fields fs l = Ok r /\
    Forall2 (fun f (e : string * json) => fst e = fst f) fs r /\
    Forall2 (fun fv (e : string * json) => from_json (snd (fst fv)) (snd e) = Ok (snd fv)) (combine fs l) r.
Proof.
  induction 1 as [|[name T] v fs l (j & H1 & H2) _ (r & I1 & I2 & I3)]; [exists []; repeat constructor|].
  cbn [snd fst] in *. exists ((name, j) :: r). cbn [write_fields]. rewrite H1, I1. cbn [bind].
  split; [reflexivity|]. split; constructor; auto.
Qed.

Lemma fill_here f T fs s slots j :
  fill ((f, T) :: fs) (s :: slots) f j =
  Some match s with Some _ => Err (JDuplicateField f) | None => do v <- from_json T j; Ok (Some v :: slots) end.
Proof. cbn [fill]. rewrite String.eqb_refl. reflexivity. Qed.

(** Filling the fields [b] of [a ++ b], in order. *)
Lemma fill_skip a : forall sa fs slots name j, length a = length sa -> ~ In name (map fst a) ->
  fill (a ++ fs) (sa ++ slots) name j = option_map (fun r => do x <- r; Ok (sa ++ x)) (fill fs slots name j).
Proof.
  induction a as [|[f T] a IH]; intros [|s sa] fs slots name j HL HN; try discriminate.
  - cbn [app]. destruct (fill fs slots name j) as [[| |]|]; reflexivity.
  - cbn [app fill]. cbn [map fst In] in HN. destruct (String.eqb_spec f name) as [->|Hf]; [exfalso; auto|].
    rewrite IH by (auto; cbn in HL; lia). destruct (fill fs slots name j) as [[| |]|]; reflexivity.
Qed.

Lemma read_entries_ok fs : forall a sa l r,
  length a = length sa -> NoDup (map fst (a ++ fs)) ->
  Forall2 (fun f (e : string * json) => fst e = fst f) fs r ->
  length fs = length l ->
  Forall2 (fun fv (e : string * json) => from_json (snd (fst fv)) (snd e) = Ok (snd fv)) (combine fs l) r ->
  foldM (read_entry (a ++ fs)) (sa ++ map (fun _ => None) fs) r = Ok (sa ++ map Some l).
Proof.
  induction fs as [|[f T] fs IH]; intros a sa l r HL HN H1 HLl H2; inversion H1; subst; destruct l as [|v l]; try discriminate.
  - cbn [map foldM]. reflexivity.
  - cbn [combine] in H2. inversion H2; subst. cbn [fst snd] in *. destruct y as [name j]. cbn [fst snd] in *. subst name.
    cbn [foldM]. unfold read_entry at 1. cbn [fst snd map].
    rewrite map_app in HN. cbn [map fst] in HN.
    rewrite fill_skip by (auto; apply NoDup_remove_2 in HN; intros G; apply HN; apply in_or_app; auto).
    rewrite fill_here. cbn [option_map]. match goal with H : from_json _ _ = Ok _ |- _ => rewrite H end. cbn [bind].
    replace (a ++ (f, T) :: fs) with ((a ++ [(f, T)]) ++ fs) by (rewrite <- app_assoc; reflexivity).
    replace (sa ++ Some v :: map (fun _ : string * Serde => None) fs)
      with ((sa ++ [Some v]) ++ map (fun _ : string * Serde => None) fs) by (rewrite <- app_assoc; reflexivity).
    rewrite (IH _ _ l) ; auto.
    + rewrite <- app_assoc. reflexivity.
    + rewrite !app_length. cbn. lia.
    + rewrite <- app_assoc. cbn [app]. rewrite map_app. exact HN.
Qed.

Lemma finish_fields_ok fs : forall l, length fs = length l -> finish_fields fs (map Some l) = Ok l.
Proof.
  induction fs as [|[f T] fs IH]; intros [|v l] HL; try discriminate; [reflexivity|].
  cbn [map finish_fields bind]. rewrite IH by (cbn in HL; lia). reflexivity.
Qed.

Lemma container_round_trip fs l :
  NoDup (map fst fs) -> Forall2 (fun f v => good (snd f) v) fs l -> good (container_serde fs) (VStruct l).
Proof.
  intros HN HF. pose proof (Forall2_len _ _ _ HF) as HL. destruct (write_fields_ok _ _ HF) as (r & H1 & H2 & H3).
  exists (JObj r). cbn [container_serde to_json from_json]. rewrite H1. split; [reflexivity|].
  pose proof (read_entries_ok fs [] [] l r eq_refl HN H2 HL H3) as H4. cbn [app] in H4.
  cbn [bind]. rewrite H4. cbn [bind].
  rewrite finish_fields_ok by auto. reflexivity.
Qed.

Lemma serde_round_trip oc foreign t : foreign_round_trips foreign -> legal t = true -> unambiguous t ->
  forall v, valid t v ->
  exists j, to_json (serde oc foreign t) v = Ok j /\ (nullable t = false -> j <> JNull) /\
            from_json (serde oc foreign t) j = Ok v.
Proof.
  intros HF.
  assert (EX : forall t, is_foreign t = true -> serde oc foreign t = foreign t -> forall v, valid t v ->
    exists j, to_json (serde oc foreign t) v = Ok j /\ (nullable t = false -> j <> JNull) /\
            from_json (serde oc foreign t) j = Ok v).
  { intros u H1 H2 v HV. rewrite H2. destruct (HF u v H1 HV) as (j & A & B & C). eauto. }
  induction t using ty_ind'; intros HL HU v HV;
    try (apply EX; [reflexivity|reflexivity|exact HV]).
  - (* Vector *) destruct v as [| | |l| | | | | |]; try contradiction. cbn [valid] in HV. destruct HV as [Hn HV].
    cbn [legal] in HL. rewrite !andb_true_iff in HL. destruct HL as [[[L1 _] _] L2].
    destruct (mapM_write_read (serde oc foreign t) l) as (js & H1 & H2).
    { eapply Forall_impl; [|exact HV]. intros x Hx. destruct (IHt L2 HU x Hx) as (j & A & _ & B). eauto. }
    exists (JArr js). cbn [serde vector_serde to_json from_json]. unfold vec_to_json, vec_from_json. rewrite H1. cbn [bind].
    split; [reflexivity|]. split; [discriminate|]. rewrite H2. cbn [bind]. unfold vector_try_from.
    replace (n =? 0) with false by lia. replace (blen l =? n) with true by lia. reflexivity.
  - (* List *) destruct v as [| | |l| | | | | |]; try contradiction. cbn [valid] in HV. destruct HV as [Hn HV].
    cbn [legal] in HL. rewrite !andb_true_iff in HL. destruct HL as [_ L2].
    destruct (mapM_write_read (serde oc foreign t) l) as (js & H1 & H2).
    { eapply Forall_impl; [|exact HV]. intros x Hx. destruct (IHt L2 HU x Hx) as (j & A & _ & B). eauto. }
    exists (JArr js). cbn [serde list_serde to_json from_json]. unfold vec_to_json, vec_from_json. rewrite H1. cbn [bind].
    split; [reflexivity|]. split; [discriminate|]. rewrite H2. cbn [bind]. unfold list_try_from.
    replace (n <? blen l) with false by lia. reflexivity.
  - (* Bitvector *) destruct v as [| | | |b| | | | |]; try contradiction.
    exists (hex_to_json (spec_bits (bv_bits b))). cbn [serde bitvector_serde to_json from_json].
    assert (HS : spec_serialize (TBitvector n) (VBits b) = Some (spec_bits (bv_bits b))) by reflexivity.
    pose proof (serialize_spec oc (TBitvector n) HL (VBits b) HV []) as HW. rewrite HS in HW.
    unfold ssz_serialize, serialize_to_vec. rewrite HW. cbn [map_err bind app snd].
    split; [reflexivity|]. split; [discriminate|]. rewrite hex_from_to. cbn [bind].
    pose proof (decode_encode oc (TBitvector n) HL eq_refl _ _ HV HS) as HD. cbn [serializable bitvector_impl deserialize] in HD.
    unfold bitvector_try_from_bytes. rewrite HD. reflexivity.
  - (* Bitlist *) destruct v as [| | | |b| | | | |]; try contradiction.
    exists (hex_to_json (spec_bits (bv_bits b ++ [true]))). cbn [serde bitlist_serde to_json from_json].
    assert (HS : spec_serialize (TBitlist n) (VBits b) = Some (spec_bits (bv_bits b ++ [true]))) by reflexivity.
    pose proof (serialize_spec oc (TBitlist n) HL (VBits b) HV []) as HW. rewrite HS in HW.
    rewrite bitlist_byte_length_ok by (cbn [legal valid] in *; lia). cbn [bind].
    unfold ssz_serialize, serialize_to_vec. rewrite HW. cbn [map_err bind app snd].
    split; [reflexivity|]. split; [discriminate|]. rewrite hex_from_to. cbn [bind].
    pose proof (decode_encode oc (TBitlist n) HL eq_refl _ _ HV HS) as HD. cbn [serializable bitlist_impl deserialize] in HD.
    unfold bitlist_try_from_bytes. rewrite HD. reflexivity.
  - (* Container *) destruct v as [| | | | |l| | | |]; try contradiction. cbn [valid] in HV.
    apply (Forall2_preds_combine fs (fun f => valid (snd f))) in HV as [Hlen HV].
    cbn [legal] in HL. rewrite !andb_true_iff in HL. destruct HL as [_ HL]. rewrite forallb_forall in HL.
    cbn [unambiguous] in HU. destruct HU as [HN HU].
    cbn [serde].
    destruct (container_round_trip (map (fun f => (fst f, serde oc foreign (snd f))) fs) l) as (j & H1 & H2).
    + rewrite map_map. exact HN.
    + clear HN. revert l Hlen HV. induction fs as [|f fs IH]; intros [|v l] Hlen HV; cbn [map]; try discriminate; constructor.
      * cbn [snd]. inversion H; subst. cbn [combine] in HV. inversion HV; subst. destruct HU as [U1 U2].
        match goal with IHt : legal (snd f) = true -> _ |- _ =>
          destruct (IHt (HL f (or_introl eq_refl)) U1 v ltac:(assumption)) as (j & A & _ & B) end. exists j. auto.
      * inversion H; subst. cbn [combine] in HV. inversion HV; subst. destruct HU as [U1 U2].
        apply IH; auto. intros x Hx. apply HL. right. exact Hx.
    + exists j. split; [exact H1|]. split; [|exact H2]. intros _ ->.
      cbn [container_serde from_json] in H2. discriminate.
  - (* newtype *) destruct v as [| | | | | |x| | |]; try contradiction. destruct (IHt HL HU x HV) as (j & A & B & C).
    exists j. cbn [serde newtype_serde to_json from_json nullable]. split; [exact A|]. split; [exact B|]. rewrite C. reflexivity.
  - (* Option *) cbn [unambiguous] in HU. destruct HU as [U1 U2]. destruct v as [| | | | | | | |x|]; try contradiction.
    + exists JNull. split; [reflexivity|]. split; [discriminate|reflexivity].
    + destruct (IHt HL U2 x HV) as (j & A & B & C). exists j. cbn [serde option_serde to_json from_json].
      split; [exact A|]. split; [discriminate|]. specialize (B U1). rewrite C. destruct j; [contradiction|..]; reflexivity.
Qed.

Definition reads (f : string * Serde) (P : val -> Prop) : Prop :=
  (forall j v, from_json (snd f) j = Ok v -> P v) /\ (forall v, when_missing (snd f) = Some v -> P v).

Definition held (P : val -> Prop) (s : option val) : Prop := forall v, s = Some v -> P v.

Lemma fill_valid fs Ps : Forall2 reads fs Ps -> forall slots name j r, fill fs slots name j = Some (Ok r) ->
  Forall2 held Ps slots -> Forall2 held Ps r.
Proof.
  induction 1 as [|[f T] P fs Ps [H1 H2] _ IH]; intros slots name j r H HF; [discriminate|].
  destruct slots as [|s slots]; [discriminate|]. inversion HF; subst. cbn [fill snd] in *. destruct (String.eqb f name).
  - destruct s; [discriminate|]. injection H as H. apply bind_ok_inv in H as (v & H & [= <-]).
    constructor; auto. intros w [= <-]. eauto.
  - destruct (fill fs slots name j) as [x|] eqn:E; [|discriminate]. cbn [option_map] in H. injection H as H.
    apply bind_ok_inv in H as (y & -> & [= <-]). constructor; auto. eapply IH; eauto.
Qed.

Lemma read_entries_valid fs Ps entries : Forall2 reads fs Ps ->
  forall slots r, foldM (read_entry fs) slots entries = Ok r -> Forall2 held Ps slots -> Forall2 held Ps r.
Proof.
  intros HP. induction entries as [|e entries IH]; intros slots r H HF; cbn [foldM] in H.
  - injection H as <-. exact HF.
  - apply bind_ok_inv in H as (s & H1 & H2). apply (IH s); auto. unfold read_entry in H1.
    destruct (fill fs slots (fst e) (snd e)) eqn:E; [subst|injection H1 as <-; exact HF]. eapply fill_valid; eauto.
Qed.

Lemma finish_fields_valid fs Ps : Forall2 reads fs Ps -> forall slots l,
  Forall2 held Ps slots -> finish_fields fs slots = Ok l -> Forall2 (fun (P : val -> Prop) v => P v) Ps l.
Proof.
  induction 1 as [|[f T] P fs Ps [R1 R2] _ IH]; intros slots l HF H; inversion HF; subst; cbn [finish_fields snd] in *.
  - injection H as <-. constructor.
  - apply bind_ok_inv in H as (v & K1 & H). apply bind_ok_inv in H as (r & K2 & [= <-]). constructor; [|eauto].
    destruct y as [w|]; [injection K1 as <-; auto|].
    destruct (when_missing T) eqn:E; [|discriminate]. injection K1 as <-. eauto.
Qed.

Lemma read_items_valid fs Ps : Forall2 reads fs Ps -> forall js l,
  read_items fs js = Ok l -> Forall2 (fun (P : val -> Prop) v => P v) Ps l.
Proof.
  induction 1 as [|[f T] P fs Ps [R1 R2] _ IH]; intros [|j js] l H; cbn [read_items snd] in *; try discriminate.
  - injection H as <-. constructor.
  - apply bind_ok_inv in H as (v & H1 & H). apply bind_ok_inv in H as (r & H2 & [= <-]). constructor; eauto.
Qed.

Lemma map_err_ok_inv {E F A} (f : E -> F) (x : res E A) a : map_err f x = Ok a -> x = Ok a.
Proof. destruct x; cbn; congruence. Qed.

Lemma serde_reads_valid oc foreign t : foreign_reads_valid foreign -> legal t = true ->
  (forall j v, from_json (serde oc foreign t) j = Ok v -> valid t v) /\
  (forall v, when_missing (serde oc foreign t) = Some v -> valid t v).
Proof.
  intros HF. induction t using ty_ind'; intros HL; try (refine (HF _ _); reflexivity).
  - cbn [legal] in HL. rewrite !andb_true_iff in HL. destruct HL as [_ L2]. destruct (IHt L2) as [I _].
    split; [|discriminate]. intros j v H0. cbn [serde vector_serde from_json] in H0.
    apply bind_ok_inv in H0 as (l & H1 & H2). apply bind_ok_inv in H2 as (l' & H2 & [= <-]).
    unfold vec_from_json in H1. destruct j; try discriminate. apply mapM_ok_iff in H1.
    apply map_err_ok_inv in H2. unfold vector_try_from in H2. destruct (n =? 0); [discriminate|].
    destruct (blen l =? n) eqn:E; [|discriminate]. injection H2 as <-. cbn [valid]. split; [lia|].
    clear E. induction H1; constructor; eauto.
  - cbn [legal] in HL. rewrite !andb_true_iff in HL. destruct HL as [_ L2]. destruct (IHt L2) as [I _].
    split; [|discriminate]. intros j v H0. cbn [serde list_serde from_json] in H0.
    apply bind_ok_inv in H0 as (l & H1 & H2). apply bind_ok_inv in H2 as (l' & H2 & [= <-]).
    unfold vec_from_json in H1. destruct j; try discriminate. apply mapM_ok_iff in H1.
    apply map_err_ok_inv in H2. unfold list_try_from in H2.
    destruct (n <? blen l) eqn:E; [discriminate|]. injection H2 as <-. cbn [valid]. split; [lia|].
    clear E. induction H1; constructor; eauto.
  - split; [|discriminate]. intros j v H0. cbn [serde bitvector_serde from_json] in H0.
    apply bind_ok_inv in H0 as (b & H1 & H2). apply map_err_ok_inv, map_err_ok_inv in H2.
    pose proof H2 as HB. apply bitvector_deserialize_iff in HB as (_ & HB & _).
    apply (decode_valid oc (TBitvector n) HL b v); [|exact H2].
    cbn [legal] in HL. unfold bits_bytes in HB. change (2 ^ 63) with 9223372036854775808.
    change (2 ^ 64) with 18446744073709551616 in HL. lia.
  - split; [|discriminate]. intros j v H0. cbn [serde bitlist_serde from_json] in H0.
    apply bind_ok_inv in H0 as (b & H1 & H2). apply map_err_ok_inv, map_err_ok_inv in H2.
    assert (HL' := HL). cbn [legal] in HL'. apply N.ltb_lt in HL'.
    pose proof H2 as HB. apply bitlist_deserialize_iff in HB as (bits & HB & HB2 & _); [|exact HL'].
    apply (decode_valid oc (TBitlist n) HL b v); [|exact H2]. rewrite HB, spec_bits_length. unfold bits_bytes.
    rewrite blen_app. change (blen [true]) with 1. change (2 ^ 63) with 9223372036854775808.
    change (2 ^ 64) with 18446744073709551616 in HL'. lia.
  - cbn [legal] in HL. rewrite !andb_true_iff in HL. destruct HL as [_ HL]. rewrite forallb_forall in HL.
    split; [|discriminate]. intros j v H0. cbn [serde] in H0.
    assert (G : Forall2 reads (map (fun f => (fst f, serde oc foreign (snd f))) fs) (map (fun f => valid (snd f)) fs)).
    { clear H0. induction fs as [|f fs IH]; cbn [map]; constructor.
      - inversion H; subst. unfold reads. cbn [snd]. auto using in_eq.
      - inversion H; subst. apply IH; auto. intros x Hx. apply HL. right. exact Hx. }
    cbn [container_serde from_json] in H0. destruct j; try discriminate.
    + apply bind_ok_inv in H0 as (l' & H1 & [= <-]). cbn [valid]. eapply read_items_valid; eauto.
    + apply bind_ok_inv in H0 as (slots & H1 & H2). apply bind_ok_inv in H2 as (l' & H2 & [= <-]). cbn [valid].
      eapply finish_fields_valid; [exact G| |exact H2]. eapply read_entries_valid; [exact G|exact H1|].
      clear. induction fs; cbn [map]; constructor; auto. discriminate.
  - cbn [legal] in HL. destruct (IHt HL) as [I _]. split; [|discriminate]. intros j v H0.
    cbn [serde newtype_serde from_json] in H0. apply bind_ok_inv in H0 as (x & H1 & [= <-]). cbn [valid]. eauto.
  - cbn [legal] in HL. destruct (IHt HL) as [I _]. split.
    + intros j v H0. cbn [serde option_serde from_json] in H0. destruct j;
        try (injection H0 as <-; exact Logic.I);
        apply bind_ok_inv in H0 as (x & H1 & [= <-]); cbn [valid]; eauto.
    + intros v [= <-]. exact Logic.I.
Qed.

(** ** Debug *)

Lemma append_assoc (a b c : string) : String.append (String.append a b) c = String.append a (String.append b c).
Proof. induction a; cbn [String.append]; [reflexivity|]. rewrite IHa. reflexivity. Qed.

Lemma append_nil (a : string) : String.append a "" = a.
Proof. induction a; cbn [String.append]; [reflexivity|]. rewrite IHa. reflexivity. Qed.

Lemma write_bits_step oc len k bit r f : 1 <= len -> (oc = true -> k + 1 < 2 ^ 31) ->
  write_bits oc len k (k mod 2 ^ 32) (bit :: r) f =
  write_bits oc len (k + 1) ((k + 1) mod 2 ^ 32) r
    (String.append f (String.append (bit_text bit) (if ((k + 1) mod 4 =? 0) && negb (k =? len - 1) then "_" else ""))).
Proof.
  intros Hl Ho. cbn [write_bits]. unfold next_written.
  change (2 ^ 32) with 4294967296. change (2 ^ 31) with 2147483648 in *.
  assert (E : oc && (k mod 4294967296 =? 2147483648 - 1) = false).
  { destruct oc; [|reflexivity]. specialize (Ho eq_refl). cbn [andb]. lia. }
  rewrite E. cbn [bind]. replace ((k mod 4294967296 + 1) mod 4294967296) with ((k + 1) mod 4294967296) by lia.
  replace (((k + 1) mod 4294967296) mod 4) with ((k + 1) mod 4) by lia.
  destruct ((k + 1) mod 4 =? 0); cbn [andb bind].
  - unfold usub. replace (1 <=? len) with true by lia. cbn [bind]. rewrite <- append_assoc.
    destruct (k =? len - 1); cbn [negb]; [rewrite append_nil|]; reflexivity.
  - rewrite append_nil. reflexivity.
Qed.

Lemma write_bits_overflow len : forall bits k f, 1 <= len -> k < 2 ^ 31 -> 2 ^ 31 <= k + blen bits ->
  write_bits true len k (k mod 2 ^ 32) bits f = Panic POverflow.
Proof.
  induction bits as [|bit r IH]; intros k f Hl Hk HB.
  - change (blen (@nil bool)) with 0 in HB. lia.
  - rewrite blen_cons in HB. destruct (N.eq_dec (k + 1) (2 ^ 31)) as [E|E].
    + cbn [write_bits]. unfold next_written. change (2 ^ 31) with 2147483648 in *. change (2 ^ 32) with 4294967296.
      replace (true && (k mod 4294967296 =? 2147483648 - 1)) with true by (cbn [andb]; lia). reflexivity.
    + rewrite write_bits_step by (intros; lia). apply IH; lia.
Qed.

Lemma groups_nil l : groups l = [] -> l = [].
Proof. destruct l as [|a [|b [|c [|d l]]]]; cbn; congruence. Qed.

Lemma bits_text_four a b c d r :
  bits_text (a :: b :: c :: d :: r) =
  String.append (bit_text a) (String.append (bit_text b) (String.append (bit_text c) (String.append (bit_text d)
    (match r with [] => "" | _ => String.append "_" (bits_text r) end)))).
Proof.
  unfold bits_text. cbn [groups map]. destruct (groups r) as [|g gs] eqn:E.
  - apply groups_nil in E. subst. destruct a, b, c, d; reflexivity.
  - assert (HR : r <> []) by (intros ->; discriminate). cbn [map].
    replace (match r with [] => ""%string | _ => String.append "_" (String.concat "_" (String.concat "" (map bit_text g) :: map (fun g => String.concat "" (map bit_text g)) gs)) end)
      with (String.append "_" (String.concat "_" (String.concat "" (map bit_text g) :: map (fun g => String.concat "" (map bit_text g)) gs)))
      by (destruct r; congruence).
    destruct a, b, c, d; reflexivity.
Qed.

Lemma write_bits_ok oc len : forall m bits k f, (length bits <= m)%nat ->
  k mod 4 = 0 -> len = k + blen bits -> (oc = true -> len < 2 ^ 31) ->
  write_bits oc len k (k mod 2 ^ 32) bits f = Ok (String.append f (bits_text bits)).
Proof.
  induction m as [|m IH]; intros bits k f Hm Hk HL Ho.
  { destruct bits; [|cbn in Hm; lia]. cbn [write_bits]. unfold bits_text. cbn. rewrite append_nil. reflexivity. }
  destruct bits as [|a [|b [|c [|d r]]]].
  - cbn [write_bits]. unfold bits_text. cbn. rewrite append_nil. reflexivity.
  - rewrite !blen_cons in HL. change (blen (@nil bool)) with 0 in HL.
    rewrite write_bits_step by (intros; try lia; specialize (Ho eq_refl); lia || (specialize (Ho H); lia)).
    replace ((k + 1) mod 4 =? 0) with false by lia. cbn [andb write_bits]. rewrite append_nil.
    unfold bits_text. cbn. destruct a; reflexivity.
  - rewrite !blen_cons in HL. change (blen (@nil bool)) with 0 in HL.
    do 2 rewrite write_bits_step by (intros; try lia; specialize (Ho H); lia).
    replace ((k + 1) mod 4 =? 0) with false by lia. replace ((k + 1 + 1) mod 4 =? 0) with false by lia.
    cbn [andb write_bits]. rewrite !append_nil, append_assoc.
    unfold bits_text. cbn. destruct a, b; reflexivity.
  - rewrite !blen_cons in HL. change (blen (@nil bool)) with 0 in HL.
    do 3 rewrite write_bits_step by (intros; try lia; specialize (Ho H); lia).
    replace ((k + 1) mod 4 =? 0) with false by lia. replace ((k + 1 + 1) mod 4 =? 0) with false by lia.
    replace ((k + 1 + 1 + 1) mod 4 =? 0) with false by lia.
    cbn [andb write_bits]. rewrite !append_nil, !append_assoc.
    unfold bits_text. cbn. destruct a, b, c; reflexivity.
  - rewrite !blen_cons in HL.
    do 4 rewrite write_bits_step by (intros; try lia; specialize (Ho H); lia).
    replace ((k + 1) mod 4 =? 0) with false by lia. replace ((k + 1 + 1) mod 4 =? 0) with false by lia.
    replace ((k + 1 + 1 + 1) mod 4 =? 0) with false by lia. replace ((k + 1 + 1 + 1 + 1) mod 4 =? 0) with true by lia.
    rewrite IH; [|cbn in Hm; lia|lia|lia|exact Ho]. cbn [andb]. rewrite !append_nil, bits_text_four, !append_assoc.
    do 6 f_equal. destruct r as [|e r].
    + change (blen (@nil bool)) with 0 in HL. replace (k + 1 + 1 + 1 =? len - 1) with true by lia. reflexivity.
    + rewrite blen_cons in HL. replace (k + 1 + 1 + 1 =? len - 1) with false by lia. reflexivity.
Qed.

Lemma write_bits_all oc bits f : (oc = true -> blen bits < 2 ^ 31) ->
  write_bits oc (blen bits) 0 0 bits f = Ok (String.append f (bits_text bits)).
Proof.
  intros Ho. change 0 with (0 mod 2 ^ 32) at 2. apply (write_bits_ok oc (blen bits) (length bits)); auto; lia.
Qed.

Lemma write_bits_panics bits f : 2 ^ 31 <= blen bits -> write_bits true (blen bits) 0 0 bits f = Panic POverflow.
Proof.
  intros HB. change 0 with (0 mod 2 ^ 32) at 2. apply write_bits_overflow; [|reflexivity|lia].
  change (2 ^ 31) with 2147483648 in HB. lia.
Qed.

(** Different bits give different text. *)
Lemma bits_text_inj : forall m l1 l2, (length l1 <= m)%nat -> bits_text l1 = bits_text l2 -> l1 = l2.
Proof.
  assert (B : forall a b x y, String.append (bit_text a) x = String.append (bit_text b) y -> a = b /\ x = y).
  { intros [|] [|] x y; cbn; intros [= H]; auto. }
  assert (T1 : forall a, bits_text [a] = String.append (bit_text a) "") by (intros [|]; reflexivity).
  assert (T2 : forall a b, bits_text [a; b] = String.append (bit_text a) (String.append (bit_text b) "")) by (intros [|] [|]; reflexivity).
  assert (T3 : forall a b c, bits_text [a; b; c] =
     String.append (bit_text a) (String.append (bit_text b) (String.append (bit_text c) ""))) by (intros [|] [|] [|]; reflexivity).
  assert (N : forall a x, String.append (bit_text a) x <> ""%string) by (intros [|] x; discriminate).
  induction m as [|m IH]; intros l1 l2 Hm H.
  { destruct l1; [|cbn in Hm; lia].
    destruct l2 as [|a [|b [|c [|d r]]]]; rewrite ?T1, ?T2, ?T3, ?bits_text_four in H; [reflexivity|..]; symmetry in H; apply N in H; contradiction. }
  destruct l1 as [|a [|b [|c [|d r]]]]; destruct l2 as [|a' [|b' [|c' [|d' r']]]];
    rewrite ?T1, ?T2, ?T3, ?bits_text_four in H; try reflexivity;
    try (apply N in H; contradiction); try (symmetry in H; apply N in H; contradiction);
    repeat match goal with
    | H : String.append (bit_text _) _ = String.append (bit_text _) _ |- _ => apply B in H; destruct H as [-> H]
    | H : ""%string = String.append (bit_text _) _ |- _ => symmetry in H; apply N in H; contradiction
    | H : String.append (bit_text _) _ = ""%string |- _ => apply N in H; contradiction
    end; try reflexivity.
  destruct r as [|e r], r' as [|e' r']; try discriminate; [reflexivity|].
  cbn [String.append] in H. injection H as H. apply IH in H; [congruence|cbn in *; lia].
Qed.

(** ** Trees *)

Lemma text_of_length b : String.length (text_of b) = length b.
Proof. induction b; cbn; auto. Qed.

Lemma strip_prefix_length s : (String.length (strip_prefix s) <= String.length s)%nat.
Proof. destruct s as [|a [|b s]]; cbn; try lia. destruct (_ && _)%bool; cbn; lia. Qed.

Lemma short_not_hex b : (length b <= 32)%nat -> node_from_hex (text_of b) = None.
Proof.
  intros H. unfold node_from_hex. pose proof (strip_prefix_length (text_of b)) as G. rewrite text_of_length in G.
  destruct (Nat.eqb_spec (String.length (strip_prefix (text_of b))) 64); [lia|reflexivity].
Qed.

Lemma tree_debug_panics tree : tree <> [] -> tree_debug tree = Panic PExpect.
Proof.
  destruct tree as [|x tree]; [congruence|]. intros _. unfold tree_debug. cbn [length chunks_32 mapM].
  rewrite short_not_hex; [reflexivity|]. rewrite firstn_length. lia.
Qed.

(** ** Reading Debug text back *)

(** The text after the first opening bracket. *)
Fixpoint after_bracket (s : string) : string :=
  match s with
  | EmptyString => ""
  | String c r => if Ascii.eqb c "[" then r else after_bracket r
  end.

Fixpoint no_bracket (s : string) : bool :=
  match s with
  | EmptyString => true
  | String c r => negb (Ascii.eqb c "[") && no_bracket r
  end.

Lemma after_bracket_append a b : no_bracket a = true -> after_bracket (String.append a (String "["%char b)) = b.
Proof.
  induction a as [|c a IH]; intros H; [reflexivity|]. cbn [no_bracket] in H. apply andb_true_iff in H as [H1 H2].
  cbn [String.append after_bracket]. destruct (Ascii.eqb c "["); [discriminate|]. auto.
Qed.

Lemma no_bracket_append a b : no_bracket a = true -> no_bracket b = true -> no_bracket (String.append a b) = true.
Proof.
  intros HA HB. induction a as [|c a IH]; [exact HB|]. cbn [String.append no_bracket] in *.
  apply andb_true_iff in HA as [-> H]. rewrite IH by auto. reflexivity.
Qed.

Lemma decimal_no_bracket n : no_bracket (decimal n) = true.
Proof.
  unfold decimal, NilZero.string_of_uint.
  assert (G : forall u, no_bracket (NilEmpty.string_of_uint u) = true) by (induction u; cbn; auto).
  destruct (N.to_uint n) eqn:E; [reflexivity|..]; rewrite <- E; apply G.
Qed.

Lemma append_same_end a b c : String.append a c = String.append b c -> a = b.
Proof.
  intros H. apply (f_equal list_ascii_of_string) in H.
  assert (G : forall x y, list_ascii_of_string (String.append x y) = (list_ascii_of_string x ++ list_ascii_of_string y)%list)
    by (induction x; intros; cbn; congruence).
  rewrite !G in H. apply app_inv_tail in H.
  rewrite <- (string_of_list_ascii_of_string a), <- (string_of_list_ascii_of_string b), H. reflexivity.
Qed.

Lemma bitlist_text_inj n m l1 l2 : bitlist_text n l1 = bitlist_text m l2 -> l1 = l2.
Proof.
  assert (G : forall n l, after_bracket (bitlist_text n l) = String.append (bits_text l) "]").
  { intros k l. unfold bitlist_text. rewrite <- !append_assoc, (append_assoc _ ">["). 
    change (String.append ">[" (bits_text l)) with (String.append ">" (String "["%char (bits_text l))).
    rewrite <- (append_assoc _ ">"), append_assoc. cbn [String.append]. apply after_bracket_append.
    repeat apply no_bracket_append; try apply decimal_no_bracket; reflexivity. }
  intros H. apply (f_equal after_bracket) in H. rewrite !G in H. apply append_same_end in H.
  apply (bits_text_inj (length l1)); auto.
Qed.

Lemma bitvector_text_inj n m l1 l2 : bitvector_text n l1 = bitvector_text m l2 -> l1 = l2.
Proof.
  assert (G : forall n l, after_bracket (bitvector_text n l) = String.append (bits_text l) "]").
  { intros k l. unfold bitvector_text. rewrite <- !append_assoc, (append_assoc _ ">["). 
    change (String.append ">[" (bits_text l)) with (String.append ">" (String "["%char (bits_text l))).
    rewrite <- (append_assoc _ ">"), append_assoc. cbn [String.append]. apply after_bracket_append.
    repeat apply no_bracket_append; try apply decimal_no_bracket; reflexivity. }
  intros H. apply (f_equal after_bracket) in H. rewrite !G in H. apply append_same_end in H.
  apply (bits_text_inj (length l1)); auto.
Qed.

Lemma write_bv_all oc b f : (oc = true -> bv_len b < 2 ^ 31) ->
  write_bits oc (bv_len b) 0 0 (bv_bits b) f = Ok (String.append f (bits_text (bv_bits b))).
Proof. intros Ho. pose proof (write_bits_all oc (bv_bits b) f) as H. rewrite blen_bv_bits in H. auto. Qed.

Lemma bitlist_debug_ok oc n b : (oc = true -> bv_len b < 2 ^ 31) ->
  bitlist_debug oc n b = Ok (bitlist_text n (bv_bits b)).
Proof.
  intros Ho. unfold bitlist_debug. rewrite write_bv_all by auto.
  cbn [bind]. unfold bitlist_text. rewrite blen_bv_bits, !append_assoc. reflexivity.
Qed.

Lemma bitvector_debug_ok oc n b : (oc = true -> bv_len b < 2 ^ 31) ->
  bitvector_debug oc n b = Ok (bitvector_text n (bv_bits b)).
Proof.
  intros Ho. unfold bitvector_debug. rewrite write_bv_all by auto.
  cbn [bind]. unfold bitvector_text. rewrite !append_assoc. reflexivity.
Qed.

Lemma bits_debug_panics n b : 2 ^ 31 <= bv_len b ->
  bitlist_debug true n b = Panic POverflow /\ bitvector_debug true n b = Panic POverflow.
Proof.
  intros HB. rewrite <- blen_bv_bits in HB. unfold bitlist_debug, bitvector_debug. rewrite <- !blen_bv_bits.
  rewrite !write_bits_panics by exact HB. split; reflexivity.
Qed.
