(** serialize = spec_serialize on valid values of legal types. *)
From Coq Require Import List NArith ZArith Bool Lia ZifyBool ZifyNat ZifyN.
From Coq Require Import Strings.Byte.
From Verif Require Import Prelude Types Bitvec Ser De Impls Valid SpecSer Lib BitsLib SerProof.
Import ListNotations.
Open Scope N_scope.

Ltac Zify.zify_post_hook ::= Z.div_mod_to_equations.

Definition ser_spec (oc : bool) (t : ty) (v : val) : Prop :=
  forall buf,
  match spec_serialize t v with
  | Some b => serialize (serializable oc t) v buf = (buf ++ b, Ok (blen b))
  | None => exists n ext,
      serialize (serializable oc t) v buf = (buf ++ ext, Err (MaximumEncodedLengthReached n)) /\
      too_big t v n
  end.

Definition encs (xs : list (ty * val)) : option (list (bool * bytes)) :=
  sequence (map (fun tv : ty * val => flag (spec_variable (fst tv)) (spec_serialize (fst tv) (snd tv))) xs).

Definition insts (oc : bool) (xs : list (ty * val)) : list (Serializable * val) :=
  map (fun tv : ty * val => (serializable oc (fst tv), snd tv)) xs.

Lemma encs_cases oc xs :
  Forall (fun tv => ser_spec oc (fst tv) (snd tv)) xs ->
  match encs xs with
  | Some es => Forall2 elem_ok (insts oc xs) es
  | None => exists pre tv post es out n,
      xs = pre ++ tv :: post /\ Forall2 elem_ok (insts oc pre) es /\
      serialize (serializable oc (fst tv)) (snd tv) [] = (out, Err (MaximumEncodedLengthReached n)) /\
      too_big (fst tv) (snd tv) n
  end.
Proof.
  induction 1 as [|[t v] xs H _ IH]; [constructor|].
  unfold encs in *. cbn [map sequence fst snd]. cbn [fst snd] in H.
  specialize (H []). destruct (spec_serialize t v) as [b|]; cbn [flag option_map].
  - assert (He : elem_ok (serializable oc t, v) (spec_variable t, b)).
    { split; cbn [fst snd]; [apply is_variable_size_spec|]. eauto. }
    destruct (sequence _) as [es|].
    + constructor; auto.
    + destruct IH as (pre & tv & post & es & out & n & -> & H1 & H2 & H3).
      exists ((t, v) :: pre), tv, post, ((spec_variable t, b) :: es), out, n.
      split; [reflexivity|]. split; [constructor; auto|]. auto.
  - destruct H as (n & ext & H1 & H2).
    exists [], (t, v), xs, [], ext, n. split; [reflexivity|]. split; [constructor|]. auto.
Qed.

Lemma too_big_child t v t1 v1 n :
  In (t1, v1) (children t v) -> too_big t1 v1 n -> too_big t v n.
Proof.
  intros Hin (t' & v' & Hp & H). exists t', v'. split; [|exact H].
  econstructor; eauto.
Qed.

(** The composite case shared by vectors, arrays, lists and containers. *)
Lemma joined_case oc t v buf :
  joined t = true ->
  Forall (fun tv => ser_spec oc (fst tv) (snd tv)) (children t v) ->
  match (match encs (children t v) with Some es => spec_compose es | None => None end) with
  | Some b => serialize_elements oc (insts oc (children t v)) buf = (buf ++ b, Ok (blen b))
  | None => exists n ext,
      serialize_elements oc (insts oc (children t v)) buf
        = (buf ++ ext, Err (MaximumEncodedLengthReached n)) /\
      too_big t v n
  end.
Proof.
  intros Hj HF. pose proof (encs_cases oc _ HF) as HC.
  destruct (encs (children t v)) as [es|] eqn:Ee.
  - rewrite (serialize_elements_ok oc _ _ buf HC).
    destruct (spec_compose es) as [b|] eqn:E; [reflexivity|].
    exists (compose_size es), []. rewrite app_nil_r. split; [reflexivity|].
    exists t, v. split; [constructor|]. split; [auto|]. split.
    + unfold joined_size. fold (encs (children t v)). rewrite Ee. reflexivity.
    + apply spec_compose_none; auto.
  - destruct HC as (pre & tv & post & es & out & n & Hx & H1 & H2 & H3).
    exists n, []. rewrite app_nil_r. split.
    + rewrite Hx. unfold insts. rewrite map_app. cbn [map].
      eapply serialize_elements_err; [exact H1|]. exact H2.
    + eapply too_big_child; [|exact H3]. rewrite Hx.
      rewrite <- surjective_pairing. apply in_elt.
Qed.

Lemma Forall2_preds_combine {A} (fs : list A) (P : A -> val -> Prop) l :
  Forall2 (fun (Q : val -> Prop) x => Q x) (map P fs) l ->
  length fs = length l /\ Forall (fun fx => P (fst fx) (snd fx)) (combine fs l).
Proof.
  revert l; induction fs as [|f fs IH]; intros l H; inversion H; subst; cbn; [auto|].
  destruct (IH _ H4). auto.
Qed.

Lemma combine_map_l {A B C} (f : A -> B) (l : list A) (r : list C) :
  combine (map f l) r = map (fun xy => (f (fst xy), snd xy)) (combine l r).
Proof. revert r; induction l; intros [|y r]; cbn; f_equal; auto. Qed.

Lemma spec_uint_blen n x : blen (spec_uint n x) = N.of_nat n.
Proof. rewrite spec_uint_le_bytes. apply blen_le_bytes. Qed.

Lemma legal_variants_len vs : legal_variants vs = true -> blen vs <= 127.
Proof. unfold legal_variants. destruct vs; [discriminate|].
  rewrite !andb_true_iff. intros [[H _] _]. apply N.leb_le in H. exact H. Qed.

Lemma serialize_spec oc t : legal t = true -> forall v, valid t v -> ser_spec oc t v.
Proof.
  induction t using ty_ind'; intros HL v HV buf.
  - destruct v; try contradiction. reflexivity.
  - destruct v; try contradiction. cbn [spec_serialize serializable uint_impl serialize uint_serialize].
    rewrite spec_uint_blen, spec_uint_le_bytes. destruct w; reflexivity.
  - destruct v; try contradiction. cbn [spec_serialize serializable u256_impl uint_impl serialize uint_serialize].
    rewrite spec_uint_blen, spec_uint_le_bytes. reflexivity.
  - destruct v; try contradiction. cbn in HV. cbn. unfold BYTES_PER_CHUNK. rewrite HV. reflexivity.
  - destruct v as [| | |l| | | | | |]; try contradiction. cbn [legal] in HL. cbn [valid] in HV.
    assert (HF : Forall (fun tv => ser_spec oc (fst tv) (snd tv)) (children (TVector t n) (VSeq l))).
    { cbn [children]. apply Forall_map. cbn [fst snd]. eapply Forall_impl; [|apply HV].
      intros a Ha. apply IHt; auto. rewrite !andb_true_iff in HL. tauto. }
    pose proof (joined_case oc (TVector t n) (VSeq l) buf eq_refl HF) as G.
    cbn [spec_serialize serializable vector_impl serialize vector_serialize].
    replace (n =? 0) with false by lia.
    cbn [children] in G. unfold encs, insts in G. rewrite !map_map in G. cbn [fst snd] in G.
    exact G.
  - destruct v as [| | |l| | | | | |]; try contradiction. cbn [legal] in HL. cbn [valid] in HV.
    assert (HF : Forall (fun tv => ser_spec oc (fst tv) (snd tv)) (children (TArray t n) (VSeq l))).
    { cbn [children]. apply Forall_map. cbn [fst snd]. eapply Forall_impl; [|apply HV].
      intros a Ha. apply IHt; auto. rewrite !andb_true_iff in HL. tauto. }
    pose proof (joined_case oc (TArray t n) (VSeq l) buf eq_refl HF) as G.
    cbn [spec_serialize serializable array_impl serialize vector_serialize].
    replace (n =? 0) with false by lia.
    cbn [children] in G. unfold encs, insts in G. rewrite !map_map in G. cbn [fst snd] in G.
    exact G.
  - destruct v as [| | |l| | | | | |]; try contradiction. cbn [legal] in HL. cbn [valid] in HV.
    assert (HF : Forall (fun tv => ser_spec oc (fst tv) (snd tv)) (children (TList t n) (VSeq l))).
    { cbn [children]. apply Forall_map. cbn [fst snd]. eapply Forall_impl; [|apply HV].
      intros a Ha. apply IHt; auto. rewrite !andb_true_iff in HL. tauto. }
    pose proof (joined_case oc (TList t n) (VSeq l) buf eq_refl HF) as G.
    cbn [spec_serialize serializable list_impl serialize list_serialize].
    replace (n <? blen l) with false by lia.
    cbn [children] in G. unfold encs, insts in G. rewrite !map_map in G. cbn [fst snd] in G.
    exact G.
  - destruct v as [| | | |b| | | | |]; try contradiction. cbn [legal] in HL. cbn [valid] in HV.
    destruct HV as (Hok & Hlen & _).
    cbn [spec_serialize serializable bitvector_impl serialize bitvector_serialize].
    replace (n =? 0) with false by lia. rewrite bv_load_chunks_spec. do 2 f_equal.
    rewrite spec_bits_length, blen_bv_bits, Hlen.
    unfold bitvector_byte_length, div_ceil, bits_bytes.
    destruct (n mod 8 =? 0) eqn:E; lia.
  - destruct v as [| | | |b| | | | |]; try contradiction. cbn [valid] in HV.
    destruct HV as (Hok & Hlen & HC).
    cbn [spec_serialize serializable bitlist_impl serialize bitlist_serialize].
    apply bitlist_serialize_spec; auto.
  - destruct v as [| | | | |l| | | |]; try contradiction. cbn [legal] in HL. cbn [valid] in HV.
    apply (Forall2_preds_combine fs (fun f => valid (snd f))) in HV as [Hlen HV].
    apply andb_true_iff in HL as [_ HL]. rewrite forallb_forall in HL.
    assert (HF : Forall (fun tv => ser_spec oc (fst tv) (snd tv)) (children (TContainer fs) (VStruct l))).
    { cbn [children]. rewrite combine_map_l. apply Forall_map. cbn [fst snd].
      rewrite Forall_forall in *. intros [f x] Hin. cbn [fst snd].
      pose proof (in_combine_l _ _ _ _ Hin) as Hf.
      apply H; auto. apply (HV _ Hin). }
    pose proof (joined_case oc (TContainer fs) (VStruct l) buf eq_refl HF) as G.
    cbn [spec_serialize serializable container_impl serialize container_serialize].
    rewrite map_length, Hlen, Nat.eqb_refl.
    cbn [children] in G. unfold encs, insts in G.
    rewrite !combine_map_l in G. rewrite !map_map in G. cbn [fst snd] in G.
    rewrite !combine_map_l. rewrite !map_map. cbn [fst snd]. exact G.
  - destruct v as [| | | | | |x| | |]; try contradiction. cbn [legal valid] in *.
    specialize (IHt HL _ HV buf).
    cbn [spec_serialize serializable newtype_impl serialize].
    destruct (spec_serialize t x) as [b|]; [auto|].
    destruct IHt as (n & ext & H1 & H2). exists n, ext. split; auto.
    eapply too_big_child; [|exact H2]. cbn; auto.
  - destruct v as [| | | | | | | |x|]; try contradiction; cbn [legal valid] in *.
    + reflexivity.
    + cbn [spec_serialize serializable option_impl serialize option_serialize].
      unfold selector_serialize. cbn [u8_serialize ser_bind le_bytes].
      specialize (IHt HL _ HV (buf ++ [x01])). change (byte_of_N (1 mod 256)) with x01.
      destruct (spec_serialize t x) as [b|]; cbn [option_map].
      * rewrite IHt. cbn [ser_bind]. rewrite <- app_assoc. cbn [app]. do 2 f_equal.
        rewrite blen_cons. lia.
      * destruct IHt as (n & ext & H1 & H2). exists n, (x01 :: ext). rewrite H1. cbn [ser_bind].
        rewrite <- app_assoc. split; [reflexivity|].
        eapply too_big_child; [|exact H2]. cbn; auto.
  - cbn [legal] in HL. apply andb_true_iff in HL as [HLV HL]. rewrite forallb_forall in HL.
    rewrite Forall_forall in H.
    destruct v as [| | | | | | | | |i x]; try (destruct vs as [|[] ?]; contradiction).
    + destruct vs as [|[|] ?]; try contradiction. reflexivity.
    + assert (HV' : match nth_error vs (N.to_nat i) with
                    | Some (Some t) => valid t x | _ => False end).
      { cbn [valid] in HV. destruct vs as [|[|] vs'];
        rewrite nth_error_map in HV; destruct (nth_error _ (N.to_nat i)) as [[|]|]; exact HV. }
      destruct (nth_error vs (N.to_nat i)) as [[t|]|] eqn:E; try contradiction.
      pose proof (nth_error_In _ _ E) as Hin.
      assert (Hi : i < 127).
      { apply legal_variants_len in HLV.
        assert (N.to_nat i < length vs)%nat by (apply nth_error_Some; congruence).
        unfold blen in HLV. lia. }
      pose proof (H _ Hin (HL _ Hin) x HV') as IH.
      cbn [spec_serialize serializable union_impl serialize union_serialize].
      rewrite !nth_error_map, E. cbn [option_map].
      unfold selector_serialize. cbn [u8_serialize ser_bind le_bytes].
      rewrite (N.mod_small i 256) by lia. rewrite (N.mod_small i 256) by lia.
      specialize (IH (buf ++ [byte_of_N i])).
      destruct (spec_serialize t x) as [b|]; cbn [option_map].
      * rewrite IH. cbn [ser_bind]. rewrite <- app_assoc. cbn [app]. do 2 f_equal.
        rewrite blen_cons. lia.
      * destruct IH as (n & ext & H1 & H2). exists n, (byte_of_N i :: ext). rewrite H1.
        cbn [ser_bind]. rewrite <- app_assoc. split; [reflexivity|].
        eapply too_big_child; [|exact H2]. cbn. rewrite E. cbn; auto.
  - cbn [legal] in HL. apply andb_true_iff in HL as [HLV HL]. rewrite forallb_forall in HL.
    rewrite Forall_forall in H.
    destruct v as [| | | | | | | | |i x]; try contradiction.
    cbn [valid] in HV. rewrite nth_error_map in HV.
    destruct (nth_error ts (N.to_nat i)) as [t|] eqn:E; cbn [option_map] in HV; try contradiction.
    pose proof (nth_error_In _ _ E) as Hin.
    pose proof (H _ Hin (HL _ Hin) x HV buf) as IH.
    cbn [spec_serialize serializable transparent_impl serialize transparent_serialize].
    rewrite !nth_error_map, E. cbn [option_map].
    destruct (spec_serialize t x) as [b|]; [auto|].
    destruct IH as (n & ext & H1 & H2). exists n, ext. split; auto.
    eapply too_big_child; [|exact H2]. cbn. rewrite E. cbn; auto.
Qed.
