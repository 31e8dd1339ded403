(** Decoded values satisfy the bounds of their type. *)
From Coq Require Import List NArith ZArith Bool Lia ZifyBool ZifyNat ZifyN.
From Coq Require Import Strings.Byte.
From Verif Require Import Prelude Types Bitvec Ser De Impls Valid SpecSer Lib BitsLib SerProof
  SerSpec DeProof ConProof BitsDe RoundTrip.
Import ListNotations.
Open Scope N_scope.

Ltac Zify.zify_post_hook ::= Z.div_mod_to_equations.

Lemma blen_concat_in {A} (l : list (list A)) x : In x l -> blen x <= blen (concat l).
Proof.
  induction l as [|a l IH]; [contradiction|]. cbn [concat]. rewrite blen_app.
  intros [->|H]; [lia|]. specialize (IH H). lia.
Qed.

Lemma Forall2_bodies_bound {A} (R : bytes -> A -> Prop) bs vs m :
  (forall b, In b bs -> blen b <= m) -> Forall2 R bs vs ->
  Forall (fun v => exists b, blen b <= m /\ R b v) vs.
Proof.
  intros HB HF. induction HF as [|b v bs vs Hb _ IH]; constructor.
  - exists b. split; auto. apply HB; left; auto.
  - apply IH. intros; apply HB; right; auto.
Qed.

(** Every body handed to the element decoder is no longer than the whole. *)
Lemma homogeneous_elements oc t e vs :
  (spec_variable t = false -> blen e mod fixed_size t = 0) ->
  deserialize_homogeneous_composite oc (serializable oc t) e = Ok vs ->
  Forall (fun v => exists b, blen b <= blen e /\ deserialize (serializable oc t) b = Ok v) vs.
Proof.
  intros HM H. unfold deserialize_homogeneous_composite in H.
  rewrite is_variable_size_spec in H. destruct (spec_variable t) eqn:HV.
  - apply variable_homogeneous_inv in H as [[-> ->]|[(_ & _ & ->)|(bodies & _ & -> & _ & HF)]];
      auto.
    eapply Forall2_bodies_bound; [|exact HF].
    intros b Hb. unfold layout. rewrite blen_app. apply blen_concat_in in Hb. lia.
  - apply fixed_homogeneous_inv in H as (_ & bs & -> & _ & HF); [|rewrite size_hint_spec; auto].
    eapply Forall2_bodies_bound; [|exact HF]. apply blen_concat_in.
Qed.

Lemma check_fixed_length_inv oc t n e :
  check_fixed_length (serializable oc t) n e = Ok tt ->
  spec_variable t = false -> blen e = n * fixed_size t.
Proof.
  unfold check_fixed_length. rewrite is_variable_size_spec, size_hint_spec. intros H HF.
  rewrite HF in H. cbn [negb] in H.
  destruct (blen e <? _) eqn:C1; [discriminate|]. destruct (_ <? blen e) eqn:C2; [discriminate|]. lia.
Qed.

Lemma mod_mul_ok n s : (n * s) mod s = 0.
Proof. destruct (N.eq_dec s 0) as [->|]; [rewrite N.mul_0_r; reflexivity|]. apply N.mod_mul; auto. Qed.

(** Inversion of the sequence decoders. *)
Lemma vector_deserialize_inv oc t n e v :
  vector_deserialize oc (serializable oc t) n e = Ok v ->
  exists l, v = VSeq l /\ 0 < n /\ blen l = n /\
    (spec_variable t = false -> blen e = n * fixed_size t) /\
    deserialize_homogeneous_composite oc (serializable oc t) e = Ok l.
Proof.
  unfold vector_deserialize. intros H. destruct (n =? 0) eqn:E0; [discriminate|].
  apply bind_ok_inv in H as ([] & HC & H). apply bind_ok_inv in H as (l & Hl & H).
  unfold vector_try_from in H. rewrite E0 in H.
  destruct (blen l =? n) eqn:EL; cbn [negb map_err bind] in H; [|discriminate].
  injection H as <-. exists l. split; [auto|]. split; [lia|]. split; [lia|]. split; [|auto].
  eapply check_fixed_length_inv; eauto.
Qed.

Lemma array_deserialize_inv oc t n e v :
  array_deserialize oc (serializable oc t) n e = Ok v ->
  exists l, v = VSeq l /\ 0 < n /\ blen l = n /\
    (spec_variable t = false -> blen e = n * fixed_size t) /\
    deserialize_homogeneous_composite oc (serializable oc t) e = Ok l.
Proof.
  unfold array_deserialize. intros H. destruct (n =? 0) eqn:E0; [discriminate|].
  apply bind_ok_inv in H as ([] & HC & H). apply bind_ok_inv in H as (l & Hl & H).
  destruct (blen l =? n) eqn:EL; [|discriminate].
  injection H as <-. exists l. split; [auto|]. split; [lia|]. split; [lia|]. split; [|auto].
  eapply check_fixed_length_inv; eauto.
Qed.

Lemma list_deserialize_inv oc t n e v :
  list_deserialize oc (serializable oc t) n e = Ok v ->
  exists l, v = VSeq l /\ blen l <= n /\
    (spec_variable t = false -> blen e mod fixed_size t = 0) /\
    deserialize_homogeneous_composite oc (serializable oc t) e = Ok l.
Proof.
  unfold list_deserialize. rewrite is_variable_size_spec, size_hint_spec. intros H.
  apply bind_ok_inv in H as ([] & HC & H). apply bind_ok_inv in H as (l & Hl & H).
  destruct (n <? blen l) eqn:EL; [discriminate|].
  unfold list_try_from in H. rewrite EL in H. injection H as <-.
  exists l. split; [auto|]. split; [lia|]. split; [|auto].
  intros HF. rewrite HF in HC. cbn [negb] in HC. unfold rem_len in HC.
  destruct (fixed_size t =? 0) eqn:E0; [discriminate|]. cbn [bind] in HC.
  destruct (blen e mod fixed_size t =? 0) eqn:EM; [lia|]. cbn [negb] in HC.
  apply bind_ok_inv in HC as (x & _ & HC). discriminate.
Qed.

Lemma fields_size_ok oc fs :
  forallb (fun f : String.string * ty => legal (snd f)) fs = true ->
  Forall (fun T => is_variable_size T = false -> size_hint T <= 2 ^ 63)
    (map (fun f : String.string * ty => serializable oc (snd f)) fs).
Proof.
  rewrite forallb_forall. intros H. apply Forall_map, Forall_forall. intros f Hf.
  rewrite is_variable_size_spec, size_hint_spec. intros HF.
  apply (legal_fixed_size _ (H f Hf) HF).
Qed.

Lemma clayout_part_le es (e : bool * bytes) : In e es -> blen (snd e) <= blen (clayout es).
Proof.
  rewrite clayout_blen, compose_size_eq.
  induction es as [|a es IH]; [contradiction|]. rewrite fixed_lengths_cons, variable_lengths_cons, !total_cons.
  intros [->|H]; [destruct e as [[] b]; cbn [fst snd]; lia|]. specialize (IH H). lia.
Qed.

Lemma try_variants_inv l e v :
  try_variants l e = Ok v ->
  exists pre T post x, l = pre ++ T :: post /\ v = VVariant (blen post) x /\ deserialize T e = Ok x /\
    Forall (fun T' => exists er, deserialize T' e = Err er) pre.
Proof.
  induction l as [|T l IH]; cbn [try_variants]; [discriminate|].
  destruct (deserialize T e) as [x|er|p] eqn:E; [| |discriminate].
  - intros [= <-]. exists [], T, l, x. auto.
  - intros H. destruct (IH H) as (pre & T' & post & x & -> & -> & Hx & HP).
    exists (T :: pre), T', post, x. split; [reflexivity|]. split; [auto|]. split; [auto|].
    constructor; eauto.
Qed.

Lemma decode_valid oc t :
  legal t = true ->
  forall b v, blen b < 2 ^ 63 -> deserialize (serializable oc t) b = Ok v -> valid t v.
Proof.
  induction t using ty_ind'; intros HL b v HB HD; cbn [serializable] in HD.
  - cbn [bool_impl deserialize] in HD. unfold bool_deserialize in HD.
    destruct b as [|x [|]]; try discriminate. destruct (byte_eqb x x00); [injection HD as <-; exact I|].
    destruct (byte_eqb x x01); [injection HD as <-; exact I|discriminate].
  - cbn [uint_impl deserialize] in HD. apply bind_ok_inv in HD as (n & HD & [= <-]).
    apply uint_deserialize_iff in HD as [HL' ->]. cbn [valid].
    pose proof (le_value_lt b) as Hb.
    replace (uint_bound w) with (256 ^ blen b); [exact Hb|]. rewrite HL'. destruct w; reflexivity.
  - cbn [u256_impl uint_impl deserialize] in HD. apply bind_ok_inv in HD as (n & HD & [= <-]).
    apply uint_deserialize_iff in HD as [HL' ->]. cbn [valid].
    pose proof (le_value_lt b) as Hb. rewrite HL' in Hb. exact Hb.
  - cbn [node_impl deserialize] in HD. unfold node_deserialize, BYTES_PER_CHUNK in HD.
    destruct (blen b <? 32) eqn:C1; [discriminate|]. destruct (32 <? blen b) eqn:C2; [discriminate|].
    apply bind_ok_inv in HD as (s & HS & [= <-]). apply slice_inv in HS as (_ & _ & ->).
    cbn [valid]. rewrite takeN_length; rewrite ?blen_dropN; lia.
  - cbn [vector_impl deserialize] in HD. apply vector_deserialize_inv in HD as (l & -> & Hn & Hl & Hf & HD).
    cbn [legal] in HL. rewrite !andb_true_iff in HL. destruct HL as [[[L1 L2] L3] L4].
    cbn [valid]. split; [auto|]. eapply Forall_impl; [|eapply homogeneous_elements; [|exact HD]].
    + cbn. intros v (b' & Hb' & Hd). apply (IHt L4 b'); auto. lia.
    + intros HF. rewrite Hf by auto. apply mod_mul_ok.
  - cbn [array_impl deserialize] in HD. apply array_deserialize_inv in HD as (l & -> & Hn & Hl & Hf & HD).
    cbn [legal] in HL. rewrite !andb_true_iff in HL. destruct HL as [[[L1 L2] L3] L4].
    cbn [valid]. split; [auto|]. eapply Forall_impl; [|eapply homogeneous_elements; [|exact HD]].
    + cbn. intros v (b' & Hb' & Hd). apply (IHt L4 b'); auto. lia.
    + intros HF. rewrite Hf by auto. apply mod_mul_ok.
  - cbn [list_impl deserialize] in HD. apply list_deserialize_inv in HD as (l & -> & Hl & Hf & HD).
    cbn [legal] in HL. rewrite !andb_true_iff in HL. destruct HL as [L1 L4].
    cbn [valid]. split; [auto|]. eapply Forall_impl; [|eapply homogeneous_elements; [|exact HD]]; auto.
    cbn. intros v (b' & Hb' & Hd). apply (IHt L4 b'); auto. lia.
  - cbn [bitvector_impl deserialize] in HD. apply bitvector_deserialize_iff in HD as (Hn & Hl & Hz & ->).
    cbn [valid bv_len bv_raw]. unfold bv_ok. cbn [bv_len bv_raw]. split; [lia|]. split; [reflexivity|].
    intros i Hi. apply Hz. exact Hi.
  - cbn [bitlist_impl deserialize] in HD. cbn [legal] in HL.
    pose proof (proj1 (bitlist_deserialize_iff oc n b v ltac:(lia)) HD) as (bits & -> & Hn & ->).
    cbn [valid bits_value]. unfold bv_ok. cbn [bv_len bv_raw]. split; [|split; [auto|]].
    + rewrite spec_bits_length. unfold bits_bytes. lia.
    + intros i Hi. cbn [bv_len bv_raw] in *. rewrite raw_bit_spec_bits. apply nth_overflow.
      unfold blen in Hi. lia.
  - cbn [legal] in HL. rewrite !andb_true_iff in HL. destruct HL as [[L1 L2] L3].
    cbn [container_impl deserialize] in HD. apply bind_ok_inv in HD as (vs & HD & [= <-]).
    apply container_inv in HD as (es & HFO & -> & _ & HM); [|auto|apply fields_size_ok; auto].
    cbn [valid]. rewrite Forall_forall in H. rewrite forallb_forall in L3.
    apply mapM_ok_iff in HM.
    assert (HBs : forall e, In e es -> blen (snd e) < 2 ^ 63).
    { intros e He. apply clayout_part_le in He. lia. }
    clear - H L3 HFO HM HBs. revert es vs HFO HM HBs.
    induction fs as [|f fs IH]; intros es vs HFO HM HBs; cbn [map] in *.
    + inversion HFO; subst. inversion HM; subst. constructor.
    + inversion HFO as [|? e ? es' _ HFO']; subst. cbn [map combine] in HM.
      inversion HM as [|? v ? vs' Hv HM']; subst. cbn [fst snd] in Hv. constructor.
      * eapply H; [left; reflexivity|apply L3; left; reflexivity| |exact Hv].
        apply HBs; left; reflexivity.
      * eapply IH; eauto; intros; [eapply H|apply L3|apply HBs]; eauto; right; auto.
  - cbn [newtype_impl deserialize] in HD. apply bind_ok_inv in HD as (x & HD & [= <-]).
    exact (IHt HL _ _ HB HD).
  - cbn [option_impl deserialize] in HD. unfold option_deserialize in HD.
    destruct b as [|x b]; [discriminate|]. rewrite blen_cons in *.
    destruct (byte_eqb x x00).
    + destruct (_ =? 1); cbn [negb] in HD; [injection HD as <-; exact I|discriminate].
    + destruct (byte_eqb x x01); [|discriminate]. apply bind_ok_inv in HD as (y & HD & [= <-]).
      cbn [valid]. eapply IHt; eauto. lia.
  - cbn [legal] in HL. apply andb_true_iff in HL as [HLV HL]. rewrite forallb_forall in HL.
    rewrite Forall_forall in H.
    cbn [union_impl deserialize] in HD. unfold union_deserialize in HD.
    destruct b as [|x b]; [discriminate|]. rewrite blen_cons in *. rewrite nth_error_map in HD.
    destruct (nth_error vs (N.to_nat (byte_to_N x))) as [[t|]|] eqn:E; cbn [option_map] in HD; [| |discriminate].
    + apply bind_ok_inv in HD as (y & HD & [= <-]).
      pose proof (nth_error_In _ _ E) as Hin.
      assert (HV : valid t y) by (eapply (H _ Hin); [apply (HL _ Hin)| |exact HD]; lia).
      cbn [valid]. destruct vs as [|[|] ?]; rewrite nth_error_map, E; exact HV.
    + destruct (_ =? 1); cbn [negb] in HD; [injection HD as <-|discriminate].
      cbn [valid]. unfold legal_variants in HLV.
      destruct vs as [|[t|] r]; [discriminate| |exact I].
      rewrite !andb_true_iff in HLV. destruct HLV as [[_ HLV] _].
      exfalso. destruct (N.to_nat (byte_to_N x)) as [|k]; [discriminate|]. cbn [nth_error] in E.
      apply nth_error_In in E. apply negb_true_iff in HLV.
      assert (existsb is_none r = true) by (apply existsb_exists; exists None; auto). congruence.
  - cbn [legal] in HL. rewrite !andb_true_iff in HL. destruct HL as [[L1 L2] L3].
    rewrite forallb_forall in L3. rewrite Forall_forall in H.
    cbn [transparent_impl deserialize] in HD. unfold transparent_deserialize in HD.
    destruct b as [|x b]; [discriminate|].
    apply try_variants_inv in HD as (pre & T & post & y & Hr & -> & HD & _).
    assert (E : nth_error (map (serializable oc) ts) (length post) = Some T).
    { rewrite <- (rev_involutive (map (serializable oc) ts)), Hr, rev_app_distr.
      cbn [rev]. rewrite <- app_assoc. rewrite nth_error_app2; rewrite rev_length; [|lia].
      rewrite Nat.sub_diag. reflexivity. }
    rewrite nth_error_map in E.
    destruct (nth_error ts (length post)) as [t|] eqn:E'; [|discriminate]. injection E as <-.
    pose proof (nth_error_In _ _ E') as Hin.
    cbn [valid]. unfold blen. rewrite Nat2N.id, nth_error_map, E'. cbn [option_map].
    eapply (H _ Hin); eauto.
Qed.
