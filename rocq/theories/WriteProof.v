(** serialize on every value that a Rust type can hold. *)
From Coq Require Import List NArith ZArith Bool Lia ZifyBool ZifyNat ZifyN.
From Coq Require Import Strings.Byte.
From Verif Require Import Prelude Types Bitvec Ser De Impls Valid SpecSer SpecWrite Lib BitsLib SerProof SerSpec SerAny.
Import ListNotations.
Open Scope N_scope.

Ltac Zify.zify_post_hook ::= Z.div_mod_to_equations.

Definition outcome (w : written) : res SerializeError N := match w with Wrote n => Ok n | Fails e => Err e end.

Definition writes (S : Serializable) (v : val) (w : writing) : Prop :=
  forall buf, serialize S v buf = (buf ++ fst w, outcome (snd w)).

Lemma stored_bits_nth b i : nth i (stored_bits b) false = raw_bit (bv_raw b) (N.of_nat i).
Proof.
  unfold stored_bits. destruct (Nat.ltb_spec i (8 * length (bv_raw b))) as [Hi|Hi].
  - rewrite (nth_indep _ false ((fun i => N.testbit (byte_to_N (nth (Nat.div i 8) (bv_raw b) x00)) (N.of_nat (Nat.modulo i 8))) 0%nat))
      by (rewrite map_length, seq_length; auto).
    rewrite (map_nth (fun i => N.testbit (byte_to_N (nth (Nat.div i 8) (bv_raw b) x00)) (N.of_nat (Nat.modulo i 8)))), seq_nth by auto.
    cbn [Nat.add]. unfold raw_bit, byte_bit, nth_byte. change zero_byte with x00. rewrite Nnat.Nat2N.inj_mod.
    replace (N.to_nat (N.of_nat i / 8)) with (i / 8)%nat by lia. reflexivity.
  - rewrite nth_overflow by (rewrite map_length, seq_length; auto). symmetry. apply raw_bit_high. unfold blen. lia.
Qed.

Lemma stored_bits_length b : length (stored_bits b) = (8 * length (bv_raw b))%nat.
Proof. unfold stored_bits. rewrite map_length, seq_length. reflexivity. Qed.

Lemma nth_firstn_lt' {A} (l : list A) n i d : (i < n)%nat -> nth i (firstn n l) d = nth i l d.
Proof.
  revert l i. induction n as [|n IH]; intros l i Hi; [lia|]. destruct l; [reflexivity|]. cbn [firstn]. destruct i; [reflexivity|].
  cbn [nth]. apply IH. lia.
Qed.

Lemma list_bits_eq b : bv_ok b = true -> list_bits b = bv_bits b.
Proof.
  intros Hok. apply bv_ok_len in Hok. unfold bits_bytes, blen in Hok. unfold list_bits. apply (nth_ext _ _ false false).
  - rewrite firstn_length, stored_bits_length, bv_bits_length. lia.
  - intros i Hi. rewrite firstn_length in Hi. rewrite nth_firstn_lt' by lia.
    rewrite stored_bits_nth, nth_bv_bits. replace (N.of_nat i <? bv_len b) with true by lia. reflexivity.
Qed.

Lemma marked_bits b : bv_ok b = true -> forall i,
  nth i (list_bits b ++ true :: dead_bits b) false = (Nat.eqb i (N.to_nat (bv_len b)) || nth i (stored_bits b) false)%bool.
Proof.
  intros Hok i. assert (HL : length (list_bits b) = N.to_nat (bv_len b)) by (rewrite list_bits_eq by auto; apply bv_bits_length).
  destruct (Nat.ltb_spec i (N.to_nat (bv_len b))) as [Hi|Hi].
  - rewrite app_nth1 by lia. unfold list_bits. rewrite nth_firstn_lt' by auto.
    replace (i =? N.to_nat (bv_len b))%nat with false by lia. reflexivity.
  - rewrite app_nth2 by lia. rewrite HL. destruct (Nat.eqb_spec i (N.to_nat (bv_len b))) as [->|Hn].
    + rewrite Nat.sub_diag. reflexivity.
    + cbn [orb]. unfold dead_bits. replace (i - N.to_nat (bv_len b))%nat with (S (i - S (N.to_nat (bv_len b)))) by lia.
      cbn [nth]. rewrite nth_skipn'. f_equal. lia.
Qed.

Lemma dead_bits_length b : length (dead_bits b) = (8 * length (bv_raw b) - S (N.to_nat (bv_len b)))%nat.
Proof. unfold dead_bits. rewrite skipn_length, stored_bits_length. reflexivity. Qed.

Lemma bitlist_writes n b : bv_ok b = true -> bv_len b <= n -> forall buf,
  bitlist_serialize_with_length n b true buf =
  (buf ++ spec_bits (list_bits b ++ true :: dead_bits b), Ok (blen (spec_bits (list_bits b ++ true :: dead_bits b)))).
Proof.
  intros Hok Hn buf. pose proof Hok as HO. apply bv_ok_len in HO. unfold bits_bytes in HO.
  assert (HL : blen (spec_bits (list_bits b ++ true :: dead_bits b)) = (bv_len b + 8) / 8).
  { rewrite spec_bits_length, blen_app, blen_cons. unfold bits_bytes.
    rewrite list_bits_eq, blen_bv_bits by auto. unfold blen in *. rewrite dead_bits_length. lia. }
  unfold bitlist_serialize_with_length. replace (n <? bv_len b) with false by lia.
  destruct (bv_len b mod 8 =? 0) eqn:E.
  - assert (HE : bv_raw b ++ [x01] = spec_bits (list_bits b ++ true :: dead_bits b)).
    { apply raw_ext; [rewrite HL, blen_app; change (blen [x01]) with 1; lia|].
      intros i Hi. rewrite blen_app in Hi. change (blen [x01]) with 1 in Hi.
      rewrite raw_bit_spec_bits, marked_bits by auto. rewrite stored_bits_nth, Nnat.N2Nat.id.
      destruct (N.lt_ge_cases i (8 * blen (bv_raw b))) as [H1|H1].
      - rewrite raw_bit_app1 by auto. replace (N.to_nat i =? N.to_nat (bv_len b))%nat with false by lia. reflexivity.
      - rewrite raw_bit_app2 by auto. rewrite (raw_bit_high (bv_raw b)) by auto. rewrite orb_false_r.
        assert (HB : bv_len b = 8 * blen (bv_raw b)) by lia. rewrite HB.
        assert (Hc : i - 8 * blen (bv_raw b) < 8) by lia.
        replace (N.to_nat i =? N.to_nat (8 * blen (bv_raw b)))%nat with (i - 8 * blen (bv_raw b) =? 0) by lia.
        revert Hc. generalize (i - 8 * blen (bv_raw b)). intros j Hj.
        unfold raw_bit. replace (j / 8) with 0 by lia. replace (j mod 8) with j by lia. change (nth_byte 0 [x01]) with x01.
        destruct (N.eqb_spec j 0) as [->|]; [reflexivity|].
        assert (j = 1 \/ j = 2 \/ j = 3 \/ j = 4 \/ j = 5 \/ j = 6 \/ j = 7) as [->|[->|[->|[->|[->|[->| ->]]]]]] by lia; reflexivity. }
    rewrite <- HE, <- app_assoc. f_equal. f_equal. rewrite !blen_app. lia.
  - destruct (last_cases (bv_raw b)) as [Hnil|(raw & x & Hraw)].
    { rewrite Hnil in HO. change (blen (@nil byte)) with 0 in HO. lia. }
    rewrite Hraw. set (y := byte_of_N (N.lor (byte_to_N x) (N.shiftl 1 (bv_len b mod 8)))).
    rewrite (app_assoc buf raw [x]), or_last_spec. fold y.
    assert (HE : raw ++ [y] = spec_bits (list_bits b ++ true :: dead_bits b)).
    { assert (HR : blen (bv_raw b) = blen raw + 1) by (rewrite Hraw, blen_app; reflexivity).
      apply raw_ext; [rewrite HL, blen_app; change (blen [y]) with 1; lia|].
      intros i Hi. rewrite blen_app in Hi. change (blen [y]) with 1 in Hi.
      rewrite raw_bit_spec_bits, marked_bits by auto. rewrite stored_bits_nth, Nnat.N2Nat.id, Hraw.
      destruct (N.lt_ge_cases i (8 * blen raw)) as [H1|H1].
      - rewrite !raw_bit_app1 by auto. replace (N.to_nat i =? N.to_nat (bv_len b))%nat with false by lia. reflexivity.
      - rewrite !raw_bit_app2 by auto.
        assert (HB : bv_len b = 8 * blen raw + bv_len b mod 8) by lia.
        assert (Hc : i - 8 * blen raw < 8) by lia.
        replace (N.to_nat i =? N.to_nat (bv_len b))%nat with (i - 8 * blen raw =? bv_len b mod 8) by lia.
        revert Hc. generalize (i - 8 * blen raw). intros j Hj.
        unfold raw_bit. replace (j / 8) with 0 by lia. replace (j mod 8) with j by lia.
        change (nth_byte 0 [y]) with y. change (nth_byte 0 [x]) with x.
        unfold y. rewrite byte_bit_of_N, N.lor_spec, N.shiftl_1_l, N.pow2_bits_eqb.
        replace (j <? 8) with true by lia. unfold byte_bit. rewrite (N.eqb_sym (bv_len b mod 8) j).
        destruct (j =? bv_len b mod 8); cbn [orb andb]; [apply orb_true_r|apply orb_false_r]. }
    rewrite <- HE. rewrite <- app_assoc. f_equal. f_equal. rewrite !blen_app. lia.
Qed.

Lemma elements_write oc elements ws :
  Forall2 (fun e (w : bool * writing) => is_variable_size (fst e) = fst w /\ writes (fst e) (snd e) (snd w)) elements ws ->
  forall buf, serialize_elements oc elements buf = (buf ++ fst (write_composite ws), outcome (snd (write_composite ws))).
Proof.
  intros HF buf. unfold write_composite.
  assert (G : match all_written ws with
              | inl es => Forall2 elem_ok elements es
              | inr x => exists pre e post es out, elements = pre ++ e :: post /\ Forall2 elem_ok pre es /\
                           serialize (fst e) (snd e) [] = (out, Err x)
              end).
  { induction HF as [|e [f [b w]] elements ws [H1 H2] _ IH]; [constructor|]. cbn [fst snd] in *. cbn [all_written].
    unfold writes in H2. cbn [fst snd] in H2. destruct w as [n|x]; cbn [outcome] in H2.
    - assert (HE : elem_ok e (f, b)) by (split; [exact H1|exists n; exact (H2 [])]).
      destruct (all_written ws) as [es|x].
      + constructor; auto.
      + destruct IH as (pre & e' & post & es & out & -> & G1 & G2). exists (e :: pre), e', post, ((f, b) :: es), out.
        split; [reflexivity|]. split; [constructor; auto|exact G2].
    - exists [], e, elements, [], b. split; [reflexivity|]. split; [constructor|]. exact (H2 []). }
  destruct (all_written ws) as [es|x].
  - rewrite (serialize_elements_ok _ _ _ _ G). destruct (spec_compose es); [reflexivity|].
    cbn [nothing fst snd outcome]. rewrite app_nil_r. reflexivity.
  - destruct G as (pre & e & post & es & out & -> & H1 & H2).
    rewrite (serialize_elements_err _ _ _ _ _ _ _ _ H1 H2). cbn [nothing fst snd outcome]. rewrite app_nil_r. reflexivity.
Qed.

Lemma selected_write T v w i : writes T v w -> forall buf,
  selector_serialize (i mod 256) T v buf = (buf ++ fst (write_selected i w), outcome (snd (write_selected i w))).
Proof.
  intros HW buf. unfold selector_serialize, u8_serialize, write_selected. cbn [ser_bind]. rewrite HW. cbn [fst snd].
  assert (E : le_bytes 1 (i mod 256) = spec_uint 1 i).
  { cbn [le_bytes]. unfold spec_uint. cbn [seq map]. change (256 ^ N.of_nat 0) with 1. rewrite N.div_1_r. f_equal.
    unfold byte_of_N. rewrite ?N.mod_mod by discriminate. reflexivity. }
  rewrite E, app_assoc. destruct (snd w); reflexivity.
Qed.

Lemma write_ok oc t : forall v, typed t v -> writes (serializable oc t) v (write t v).
Proof.
  induction t using ty_ind'; intros v HT; unfold writes.
  - destruct v; try contradiction. reflexivity.
  - destruct v; try contradiction. intros buf. cbn [write in_full fst snd outcome]. rewrite spec_uint_le_bytes.
    cbn [serializable uint_impl serialize uint_serialize].
    replace (N.to_nat (bits_to_bytes (uint_bits w))) with (spec_uint_size w) by (destruct w; reflexivity).
    rewrite blen_le_bytes. f_equal. destruct w; reflexivity.
  - destruct v; try contradiction. intros buf. cbn [write in_full fst snd outcome]. rewrite spec_uint_le_bytes.
    rewrite blen_le_bytes. reflexivity.
  - destruct v; try contradiction. intros buf. cbn [typed] in HT. cbn [write in_full fst snd outcome].
    cbn [serializable node_impl serialize node_serialize]. unfold BYTES_PER_CHUNK. repeat f_equal. lia.
  - destruct v as [| | |l| | | | | |]; try contradiction. cbn [typed] in HT. intros buf.
    cbn [serializable vector_impl serialize write]. unfold vector_serialize.
    destruct (n =? 0); [cbn [nothing fst snd outcome]; rewrite app_nil_r; reflexivity|].
    apply elements_write. clear buf. induction HT as [|x l Hx HT IH]; cbn [map]; constructor; auto.
    split; [apply is_variable_size_spec|]. apply IHt. exact Hx.
  - destruct v as [| | |l| | | | | |]; try contradiction. cbn [typed] in HT. destruct HT as [_ HT]. intros buf.
    cbn [serializable array_impl serialize write]. unfold vector_serialize.
    destruct (n =? 0); [cbn [nothing fst snd outcome]; rewrite app_nil_r; reflexivity|].
    apply elements_write. clear buf. induction HT as [|x l Hx HT IH]; cbn [map]; constructor; auto.
    split; [apply is_variable_size_spec|]. apply IHt. exact Hx.
  - destruct v as [| | |l| | | | | |]; try contradiction. cbn [typed] in HT. intros buf.
    cbn [serializable list_impl serialize write]. unfold list_serialize.
    destruct (n <? blen l); [cbn [nothing fst snd outcome]; rewrite app_nil_r; reflexivity|].
    apply elements_write. clear buf. induction HT as [|x l Hx HT IH]; cbn [map]; constructor; auto.
    split; [apply is_variable_size_spec|]. apply IHt. exact Hx.
  - destruct v as [| | | |bv| | | | |]; try contradiction. cbn [typed] in HT. intros buf.
    cbn [serializable bitvector_impl serialize bitvector_serialize write].
    destruct (n =? 0); [cbn [nothing fst snd outcome]; rewrite app_nil_r; reflexivity|].
    cbn [fst snd outcome]. rewrite bv_load_chunks_spec, list_bits_eq by auto. f_equal. f_equal.
    unfold bitvector_byte_length, div_ceil. destruct (n mod 8 =? 0) eqn:E; lia.
  - destruct v as [| | | |bv| | | | |]; try contradiction. cbn [typed] in HT. intros buf.
    cbn [serializable bitlist_impl serialize bitlist_serialize write].
    destruct (n <? bv_len bv) eqn:E.
    + unfold bitlist_serialize_with_length. rewrite E. cbn [nothing fst snd outcome]. rewrite app_nil_r. reflexivity.
    + apply bitlist_writes; [auto|lia].
  - destruct v as [| | | | |l| | | |]; try contradiction. cbn [typed] in HT.
    apply (Forall2_preds_combine fs (fun f => typed (snd f))) in HT as [Hlen HT]. intros buf.
    cbn [serializable container_impl serialize write]. unfold container_serialize.
    rewrite map_length, Hlen, Nat.eqb_refl. apply elements_write. rewrite !combine_map_l, map_map. cbn [fst snd].
    clear buf Hlen. revert l HT. induction fs as [|f fs IH]; intros [|x l] HT; cbn [combine map]; try constructor.
    + cbn [fst snd]. inversion HT; subst. inversion H; subst. cbn [fst snd] in *.
      split; [apply is_variable_size_spec|]. auto.
    + inversion HT; subst. inversion H; subst. apply IH; auto.
  - destruct v as [| | | | | |x| | |]; try contradiction. intros buf. apply (IHt x HT).
  - destruct v as [| | | | | | | |x|]; try contradiction.
    + reflexivity.
    + intros buf. apply (selected_write _ _ _ 1 (IHt x HT)).
  - rewrite Forall_forall in H.
    destruct v as [| | | | | | | | |i x]; try (destruct vs as [|[] ?]; contradiction).
    + destruct vs as [|[|] ?]; try contradiction. reflexivity.
    + assert (HV' : match nth_error vs (N.to_nat i) with
                    | Some (Some t) => typed t x | _ => False end).
      { cbn [typed] in HT. destruct vs as [|[|] vs'];
        rewrite nth_error_map in HT; destruct (nth_error _ (N.to_nat i)) as [[|]|]; exact HT. }
      intros buf. cbn [serializable union_impl serialize union_serialize write]. rewrite !nth_error_map.
      destruct (nth_error vs (N.to_nat i)) as [[t|]|] eqn:E; try contradiction.
      pose proof (nth_error_In _ _ E) as Hin. cbn [option_map].
      apply selected_write. exact (H _ Hin x HV').
  - rewrite Forall_forall in H. destruct v as [| | | | | | | | |i x]; try contradiction.
    cbn [typed] in HT. rewrite nth_error_map in HT.
    intros buf. cbn [serializable transparent_impl serialize transparent_serialize write]. rewrite !nth_error_map.
    destruct (nth_error ts (N.to_nat i)) as [t|] eqn:E; [|contradiction]. cbn [option_map] in *.
    apply (H _ (nth_error_In _ _ E) x HT).
Qed.

Lemma composite_fails ws e : snd (write_composite ws) = Fails e -> fst (write_composite ws) = [].
Proof. unfold write_composite. destruct (all_written ws); [destruct (spec_compose l); [discriminate|]|]; reflexivity. Qed.

(** What a failed serialize leaves behind. *)
Lemma write_fails t : forall v e, snd (write t v) = Fails e -> fst (write t v) = selectors t v.
Proof.
  induction t using ty_ind'; intros v e HE; destruct v; cbn [write selectors] in *; try discriminate; try reflexivity.
  - destruct (n =? 0); [reflexivity|]. eapply composite_fails; eauto.
  - destruct (n =? 0); [reflexivity|]. eapply composite_fails; eauto.
  - destruct (n <? blen l); [reflexivity|]. eapply composite_fails; eauto.
  - destruct (n =? 0); [reflexivity|]. discriminate.
  - destruct (n <? bv_len b); [reflexivity|]. discriminate.
  - eapply composite_fails; eauto.
  - eauto.
  - cbn [write_selected fst snd] in *. destruct (snd (write t v)) eqn:E; [discriminate|]. rewrite (IHt _ _ E). reflexivity.
  - rewrite Forall_forall in H. rewrite nth_error_map in *. rewrite nth_error_map.
    destruct (nth_error vs (N.to_nat i)) as [[t|]|] eqn:E; cbn [option_map] in *; try discriminate.
    cbn [write_selected fst snd] in *. destruct (snd (write t v)) eqn:E1; [discriminate|].
    pose proof (nth_error_In _ _ E) as Hin. specialize (H _ Hin). cbn in H. rewrite (H _ _ E1). reflexivity.
  - rewrite Forall_forall in H. rewrite nth_error_map in *. rewrite nth_error_map.
    destruct (nth_error ts (N.to_nat i)) as [t|] eqn:E; cbn [option_map] in *; try discriminate.
    pose proof (nth_error_In _ _ E) as Hin. eapply H; eauto.
Qed.
