(** What the bit vector and bit list decoders accept. *)
From Coq Require Import List NArith ZArith Bool Lia ZifyBool ZifyNat ZifyN.
From Coq Require Import Strings.Byte.
From Verif Require Import Prelude Types Bitvec Ser De Impls Valid SpecSer Lib BitsLib SerProof.
Import ListNotations.
Open Scope N_scope.

Ltac Zify.zify_post_hook ::= Z.div_mod_to_equations.

Lemma last_opt_app {A} (l : list A) x : last_opt (l ++ [x]) = Some x.
Proof. unfold last_opt. rewrite rev_app_distr. reflexivity. Qed.

Lemma byte_length_bits_bytes n : bitvector_byte_length n = bits_bytes n.
Proof.
  unfold bitvector_byte_length, div_ceil, bits_bytes.
  destruct (n mod 8 =? 0) eqn:E; lia.
Qed.

Lemma shiftr_zero_bits b r :
  r < 8 -> (N.shiftr (byte_to_N b) r =? 0) = true <-> forall i, r <= i -> byte_bit b i = false.
Proof.
  intros Hr. rewrite N.eqb_eq. split.
  - intros H i Hi. unfold byte_bit. replace i with ((i - r) + r) by lia.
    rewrite <- N.shiftr_spec by lia. rewrite H. apply N.bits_0.
  - intros H. apply N.bits_inj_0. intros i. rewrite N.shiftr_spec by lia. apply H. lia.
Qed.

Lemma bitvector_deserialize_iff n e v :
  bitvector_deserialize n e = Ok v <->
  0 < n /\ blen e = bits_bytes n /\ (forall i, n <= i -> raw_bit e i = false) /\
  v = VBits (BitVec e n).
Proof.
  unfold bitvector_deserialize. rewrite byte_length_bits_bytes.
  destruct (n =? 0) eqn:Z; [split; [discriminate|lia]|].
  destruct (blen e <? bits_bytes n) eqn:C1; [split; [discriminate|lia]|].
  destruct (bits_bytes n <? blen e) eqn:C2; [split; [discriminate|lia]|].
  assert (HL : blen e = bits_bytes n) by lia.
  destruct (n mod 8 =? 0) eqn:M; cbn [negb].
  - assert (HC : forall i, n <= i -> raw_bit e i = false).
    { intros i Hi. apply raw_bit_high. rewrite HL. unfold bits_bytes. lia. }
    rewrite bv_store_chunks_spec by auto.
    split; [intros [= <-]; split; [lia|auto]|intros (_ & _ & _ & ->); reflexivity].
  - destruct (last_cases e) as [->|(r & x & ->)].
    { rewrite blen_nil in HL. unfold bits_bytes in HL. lia. }
    rewrite last_opt_app.
    rewrite blen_app in HL. change (blen [x]) with 1 in HL.
    assert (HS : (forall i, n mod 8 <= i -> byte_bit x i = false) <->
                 (forall i, n <= i -> raw_bit (r ++ [x]) i = false)).
    { unfold bits_bytes in HL. split; intros H i Hi.
      - destruct (N.lt_ge_cases i (8 * (blen r + 1))).
        + rewrite raw_bit_app2 by lia. unfold raw_bit.
          replace ((i - 8 * blen r) / 8) with 0 by lia. change (nth_byte 0 [x]) with x.
          apply H. lia.
        + apply raw_bit_high. rewrite blen_app. change (blen [x]) with 1. lia.
      - destruct (N.lt_ge_cases i 8); [|apply byte_bit_high; auto].
        specialize (H (8 * blen r + i)). rewrite raw_bit_app2 in H by lia. unfold raw_bit in H.
        replace ((8 * blen r + i - 8 * blen r) / 8) with 0 in H by lia.
        change (nth_byte 0 [x]) with x in H.
        replace ((8 * blen r + i - 8 * blen r) mod 8) with i in H by lia. apply H. lia. }
    destruct (N.shiftr (byte_to_N x) (n mod 8) =? 0) eqn:S; cbn [negb].
    + pose proof (proj1 HS (proj1 (shiftr_zero_bits x (n mod 8) ltac:(lia)) S)) as S'.
      rewrite bv_store_chunks_spec; [|rewrite blen_app; change (blen [x]) with 1; lia|auto].
      split; [intros [= <-]; split; [lia|]; split; [|auto]|intros (_ & _ & _ & ->); reflexivity].
      rewrite blen_app. change (blen [x]) with 1. lia.
    + split; [discriminate|]. intros (_ & _ & H' & _). pose proof (proj2 HS H') as H.
      pose proof (proj2 (shiftr_zero_bits x (n mod 8) ltac:(lia)) H). congruence.
Qed.

Lemma bitvector_deserialize_no_panic n e p : bitvector_deserialize n e <> Panic p.
Proof.
  unfold bitvector_deserialize. rewrite byte_length_bits_bytes.
  destruct (n =? 0) eqn:Z; [discriminate|].
  destruct (blen e <? bits_bytes n) eqn:C1; [discriminate|].
  destruct (bits_bytes n <? blen e) eqn:C2; [discriminate|].
  destruct (n mod 8 =? 0); cbn [negb]; [discriminate|].
  destruct (last_cases e) as [->|(r & x & ->)].
  { rewrite blen_nil in C1. unfold bits_bytes in C1. lia. }
  rewrite last_opt_app. destruct (N.shiftr _ _ =? 0); discriminate.
Qed.

(** ** Bit lists *)

(** Position of the highest set bit of a nonzero byte. *)
Definition top (b : byte) : N := 7 - bv_trailing_zeros (bv_from_element b).

Definition top_check (b : byte) : bool :=
  byte_eqb b x00 ||
  ((bv_trailing_zeros (bv_from_element b) <=? 7) && byte_bit b (top b) &&
   forallb (fun i => (i <=? top b) || negb (byte_bit b i)) [0;1;2;3;4;5;6;7]).

Lemma all_bytes (f : byte -> bool) :
  forallb f (map (fun n => byte_of_N (N.of_nat n)) (seq 0 256)) = true -> forall b, f b = true.
Proof.
  intros H b. rewrite forallb_forall in H. apply H. apply in_map_iff.
  exists (N.to_nat (byte_to_N b)). rewrite Nnat.N2Nat.id. split; [apply byte_of_N_to_N|].
  apply in_seq. pose proof (byte_to_N_lt b). lia.
Qed.

Lemma top_checked b : top_check b = true.
Proof. apply all_bytes. vm_compute. reflexivity. Qed.

Lemma top_spec b :
  b <> x00 ->
  bv_trailing_zeros (bv_from_element b) <= 7 /\ top b <= 7 /\
  byte_bit b (top b) = true /\ forall i, top b < i -> byte_bit b i = false.
Proof.
  intros Hb. pose proof (top_checked b) as H. unfold top_check in H.
  apply byte_eqb_false in Hb. rewrite Hb in H. cbn [orb] in H.
  apply andb_true_iff in H as [H H3]. apply andb_true_iff in H as [H1 H2].
  apply N.leb_le in H1. split; [auto|]. split; [unfold top; lia|]. split; [auto|].
  intros i Hi. destruct (N.lt_ge_cases i 8) as [L|L]; [|apply byte_bit_high; auto].
  rewrite forallb_forall in H3. specialize (H3 i).
  assert (In i [0;1;2;3;4;5;6;7]) as Hin by (cbn [In]; lia).
  apply H3 in Hin. apply orb_true_iff in Hin as [Hin|Hin].
  - apply N.leb_le in Hin. lia.
  - apply negb_true_iff in Hin. auto.
Qed.

Lemma bv_from_element_bits b i :
  (i < 8)%nat -> nth i (bv_bits (bv_from_element b)) false = byte_bit b (N.of_nat i).
Proof.
  intros Hi. rewrite nth_bv_bits. cbn [bv_from_element bv_len bv_raw].
  replace (N.of_nat i <? 8) with true by lia. cbn [andb]. unfold raw_bit.
  replace (N.of_nat i / 8) with 0 by lia. f_equal. lia.
Qed.

Lemma nth_firstn_lt {A} (l : list A) n i d : (i < n)%nat -> nth i (firstn n l) d = nth i l d.
Proof.
  revert n i; induction l as [|a l IH]; intros [|n] [|i] H; cbn; auto; try lia.
  apply IH. lia.
Qed.

(** The bits that a nonempty string with a nonzero last byte stands for. *)
Lemma bitlist_bits r x :
  x <> x00 ->
  let bits := bv_bits (bv_from_slice r) ++ takeN (top x) (bv_bits (bv_from_element x)) in
  blen bits = 8 * blen r + top x /\ r ++ [x] = spec_bits (bits ++ [true]).
Proof.
  intros Hx bits. destruct (top_spec x Hx) as (_ & H1 & H2 & H3).
  assert (HB : blen bits = 8 * blen r + top x).
  { unfold bits. rewrite blen_app, blen_bv_bits. cbn [bv_from_slice bv_len].
    rewrite takeN_length; [reflexivity|]. rewrite blen_bv_bits. cbn [bv_from_element bv_len]. lia. }
  split; [exact HB|].
  apply raw_ext.
  - rewrite spec_bits_length, !blen_app, HB. change (blen [x]) with 1. change (blen [true]) with 1.
    unfold bits_bytes. lia.
  - intros i Hi. rewrite blen_app in Hi. change (blen [x]) with 1 in Hi.
    rewrite raw_bit_spec_bits.
    destruct (N.lt_ge_cases i (8 * blen r)) as [L|L].
    + rewrite raw_bit_app1 by auto. unfold bits. rewrite <- app_assoc.
      rewrite app_nth1 by (rewrite bv_bits_length; cbn [bv_from_slice bv_len]; lia).
      rewrite nth_bv_bits, Nnat.N2Nat.id. cbn [bv_from_slice bv_len bv_raw].
      replace (i <? 8 * blen r) with true by lia. reflexivity.
    + rewrite raw_bit_app2 by auto. unfold bits. rewrite <- app_assoc.
      rewrite app_nth2 by (rewrite bv_bits_length; cbn [bv_from_slice bv_len]; lia).
      rewrite bv_bits_length. cbn [bv_from_slice bv_len].
      replace (N.to_nat i - N.to_nat (8 * blen r))%nat with (N.to_nat (i - 8 * blen r)) by lia.
      assert (Hj : i - 8 * blen r < 8) by lia. generalize dependent (i - 8 * blen r).
      intros j Hj. unfold raw_bit. replace (j / 8) with 0 by lia. replace (j mod 8) with j by lia.
      change (nth_byte 0 [x]) with x.
      assert (HT : length (takeN (top x) (bv_bits (bv_from_element x))) = N.to_nat (top x)).
      { unfold takeN. rewrite firstn_length, bv_bits_length. cbn [bv_from_element bv_len]. lia. }
      destruct (N.lt_ge_cases j (top x)) as [LT|LT].
      * rewrite app_nth1 by lia. unfold takeN. rewrite nth_firstn_lt by lia.
        rewrite bv_from_element_bits by lia. f_equal. lia.
      * rewrite app_nth2 by lia. rewrite HT.
        destruct (N.eq_dec j (top x)) as [->|NE].
        -- rewrite Nat.sub_diag. cbn [nth]. auto.
        -- rewrite nth_overflow by (cbn [length]; lia). apply H3. lia.
Qed.

Lemma bv_from_slice_ok r : bv_ok (bv_from_slice r) = true.
Proof. apply bv_ok_len. cbn [bv_from_slice bv_raw bv_len]. unfold bits_bytes. lia. Qed.

Lemma bv_from_slice_clean r : bv_clean (bv_from_slice r).
Proof. intros i Hi. apply raw_bit_high. cbn [bv_from_slice bv_raw bv_len] in *. auto. Qed.

(** Value of the decoder on a string that ends in a nonzero byte. *)
Definition bits_value (bits : list bool) : val := VBits (BitVec (spec_bits bits) (blen bits)).

Lemma bv_of_bits b :
  bv_ok b = true -> bv_clean b -> b = BitVec (spec_bits (bv_bits b)) (bv_len b).
Proof.
  intros. rewrite <- clean_raw_spec by auto. destruct b; reflexivity.
Qed.

Lemma bitlist_byte_length_ok {E} oc n :
  n + 8 < 2 ^ 64 -> @bitlist_byte_length E oc n = Ok (n / 8 + 1).
Proof.
  intros H. unfold bitlist_byte_length.
  rewrite uadd_ok by (unfold USIZE; lia). cbn [bind].
  rewrite usub_ok by lia. cbn [bind].
  rewrite uadd_ok by (unfold USIZE; lia). cbn [bind]. f_equal. lia.
Qed.

Lemma bitlist_deserialize_snoc oc n r x :
  n + 8 < 2 ^ 64 -> x <> x00 -> blen r + 1 <= n / 8 + 1 ->
  let bits := bv_bits (bv_from_slice r) ++ takeN (top x) (bv_bits (bv_from_element x)) in
  bitlist_deserialize oc n (r ++ [x]) =
  if n <? blen bits then Err (DInvalidInstance (Bounded n (blen bits)))
  else Ok (bits_value bits).
Proof.
  intros Hn Hx HL bits. destruct (bitlist_bits r x Hx) as [HB _]. fold bits in HB.
  destruct (top_spec x Hx) as (T0 & T1 & _).
  unfold bitlist_deserialize. rewrite rev_app_distr. cbn [rev app].
  rewrite bitlist_byte_length_ok by auto. cbn [bind].
  rewrite blen_app. change (blen [x]) with 1.
  replace (n / 8 + 1 <? blen r + 1) with false by lia.
  apply byte_eqb_false in Hx. rewrite Hx, rev_involutive.
  rewrite usub_ok by lia. cbn [bind]. rewrite usub_ok by lia. cbn [bind].
  replace (8 - bv_trailing_zeros (bv_from_element x) - 1) with (top x) by (unfold top; lia).
  change (bv_len (bv_from_slice r)) with (8 * blen r). rewrite HB.
  destruct (n <? 8 * blen r + top x); [reflexivity|].
  rewrite slice_ok by (rewrite ?blen_bv_bits; cbn [bv_from_element bv_len]; lia).
  cbn [bind]. rewrite N.sub_0_r, dropN_0.
  destruct (bv_extend_spec (takeN (top x) (bv_bits (bv_from_element x))) (bv_from_slice r)
              (bv_from_slice_ok r)) as (E1 & E2 & E3).
  specialize (E3 (bv_from_slice_clean r)). unfold bits_value. do 2 f_equal.
  rewrite (bv_of_bits _ E1 E3), E2. fold bits. f_equal.
  rewrite <- blen_bv_bits, E2. reflexivity.
Qed.

Lemma bitlist_deserialize_iff oc n e v :
  n + 8 < 2 ^ 64 ->
  bitlist_deserialize oc n e = Ok v <->
  exists bits, e = spec_bits (bits ++ [true]) /\ blen bits <= n /\ v = bits_value bits.
Proof.
  intros Hn.
  assert (Hsplit : forall bits r x, r ++ [x] = spec_bits (bits ++ [true]) ->
            x <> x00 /\ bits = bv_bits (bv_from_slice r) ++ takeN (top x) (bv_bits (bv_from_element x))
            /\ blen r = blen bits / 8).
  { intros bits r x H.
    assert (HLr : blen r = blen bits / 8).
    { apply (f_equal blen) in H. rewrite spec_bits_length, !blen_app in H.
      change (blen [x]) with 1 in H. change (blen [true]) with 1 in H.
      unfold bits_bytes in H. lia. }
    assert (Hbit : forall i, raw_bit (r ++ [x]) i = nth (N.to_nat i) (bits ++ [true]) false).
    { intros. rewrite H. apply raw_bit_spec_bits. }
    assert (Htop : byte_bit x (blen bits mod 8) = true).
    { specialize (Hbit (blen bits)). rewrite raw_bit_app2 in Hbit by lia.
      rewrite app_nth2 in Hbit by (unfold blen; lia).
      replace (N.to_nat (blen bits) - length bits)%nat with 0%nat in Hbit by (unfold blen; lia).
      unfold raw_bit in Hbit. replace ((blen bits - 8 * blen r) / 8) with 0 in Hbit by lia.
      change (nth_byte 0 [x]) with x in Hbit. cbn [nth] in Hbit. rewrite <- Hbit. f_equal. lia. }
    assert (Hx : x <> x00).
    { intros ->. change (byte_bit x00) with (byte_bit zero_byte) in Htop.
      rewrite byte_bit_zero in Htop. discriminate. }
    split; [auto|]. split; [|auto].
    destruct (bitlist_bits r x Hx) as [HB HE]. set (bits' := bv_bits (bv_from_slice r) ++ takeN (top x) (bv_bits (bv_from_element x))) in *.
    assert (Hl : blen bits = blen bits').
    { rewrite HB. destruct (top_spec x Hx) as (_ & T1 & T2 & T3).
      assert (top x = blen bits mod 8); [|lia].
      destruct (N.lt_trichotomy (top x) (blen bits mod 8)) as [L|[L|L]]; auto.
      - rewrite T3 in Htop by auto. discriminate.
      - specialize (Hbit (8 * blen r + top x)).
        rewrite raw_bit_app2 in Hbit by lia.
        unfold raw_bit in Hbit. replace ((8 * blen r + top x - 8 * blen r) / 8) with 0 in Hbit by lia.
        change (nth_byte 0 [x]) with x in Hbit.
        replace ((8 * blen r + top x - 8 * blen r) mod 8) with (top x) in Hbit by lia.
        rewrite T2 in Hbit. rewrite nth_overflow in Hbit; [discriminate|].
        rewrite app_length. cbn [length]. unfold blen in *. lia. }
    assert (bits ++ [true] = bits' ++ [true]) as HH.
    { apply spec_bits_inj; [rewrite !blen_app; lia|congruence]. }
    apply app_inj_tail in HH. apply HH. }
  split.
  - intros H. destruct (last_cases e) as [->|(r & x & ->)]; [discriminate|].
    destruct (byte_eqb x x00) eqn:Ex.
    { unfold bitlist_deserialize in H. rewrite rev_app_distr in H. cbn [rev app] in H.
      rewrite bitlist_byte_length_ok in H by auto. cbn [bind] in H. rewrite Ex in H.
      destruct (_ <? _) in H; discriminate. }
    apply byte_eqb_false in Ex.
    destruct (N.lt_ge_cases (n / 8 + 1) (blen r + 1)) as [L|L].
    { unfold bitlist_deserialize in H. rewrite rev_app_distr in H. cbn [rev app] in H.
      rewrite bitlist_byte_length_ok in H by auto. cbn [bind] in H.
      rewrite blen_app in H. change (blen [x]) with 1 in H.
      replace (n / 8 + 1 <? blen r + 1) with true in H by lia. discriminate. }
    rewrite bitlist_deserialize_snoc in H by auto.
    destruct (bitlist_bits r x Ex) as [HB HE]. set (bits := bv_bits (bv_from_slice r) ++ takeN (top x) (bv_bits (bv_from_element x))) in *.
    destruct (n <? blen bits) eqn:C; [discriminate|]. inv_res.
    exists bits. split; [auto|]. split; [lia|auto].
  - intros (bits & He & HL & ->).
    destruct (last_cases e) as [->|(r & x & ->)].
    { apply (f_equal blen) in He. rewrite spec_bits_length, blen_app, blen_nil in He.
      change (blen [true]) with 1 in He. unfold bits_bytes in He. lia. }
    destruct (Hsplit _ _ _ He) as (Hx & Hbits & Hr).
    rewrite bitlist_deserialize_snoc; auto; [|lia].
    rewrite <- Hbits. replace (n <? blen bits) with false by lia. reflexivity.
Qed.

Lemma bitlist_deserialize_no_panic oc n e p :
  n + 8 < 2 ^ 64 -> bitlist_deserialize oc n e <> Panic p.
Proof.
  intros Hn. destruct (last_cases e) as [->|(r & x & ->)]; [discriminate|].
  destruct (byte_eqb x x00) eqn:Ex.
  { unfold bitlist_deserialize. rewrite rev_app_distr. cbn [rev app].
    rewrite bitlist_byte_length_ok by auto. cbn [bind]. rewrite Ex.
    destruct (_ <? _); discriminate. }
  apply byte_eqb_false in Ex.
  destruct (N.lt_ge_cases (n / 8 + 1) (blen r + 1)) as [L|L].
  { unfold bitlist_deserialize. rewrite rev_app_distr. cbn [rev app].
    rewrite bitlist_byte_length_ok by auto. cbn [bind].
    rewrite blen_app. change (blen [x]) with 1.
    replace (n / 8 + 1 <? blen r + 1) with true by lia. discriminate. }
  rewrite bitlist_deserialize_snoc by auto.
  destruct (n <? _); discriminate.
Qed.
