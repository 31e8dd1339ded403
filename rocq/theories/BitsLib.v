(** Lemmas about bytes as bit strings and about the [BitVec] model of Bitvec.v. *)
From Coq Require Import List NArith ZArith Bool Lia ZifyBool ZifyNat ZifyN.
From Coq Require Import Strings.Byte.
From Verif Require Import Prelude Types Bitvec Valid SpecSer Lib.
Import ListNotations.
Open Scope N_scope.

Ltac Zify.zify_post_hook ::= Z.div_mod_to_equations.

(** ** Bits of a byte *)

Lemma byte_bit_high b i : 8 <= i -> byte_bit b i = false.
Proof.
  intros. unfold byte_bit. pose proof (byte_to_N_lt b).
  rewrite <- (N.mod_small (byte_to_N b) (2 ^ 8)) by (cbn; lia).
  apply N.mod_pow2_bits_high. auto.
Qed.

Lemma byte_ext a b : (forall i, i < 8 -> byte_bit a i = byte_bit b i) -> a = b.
Proof.
  intros H. apply byte_to_N_inj. apply N.bits_inj. intros i.
  destruct (N.lt_ge_cases i 8).
  - apply H; auto.
  - pose proof (byte_bit_high a i). pose proof (byte_bit_high b i).
    unfold byte_bit in *. rewrite H1, H2; auto.
Qed.

Lemma byte_bit_of_N n i : byte_bit (byte_of_N n) i = (i <? 8) && N.testbit n i.
Proof.
  unfold byte_bit. rewrite byte_to_N_of_N. change 256 with (2 ^ 8).
  destruct (i <? 8) eqn:E.
  - apply N.mod_pow2_bits_low. lia.
  - apply N.mod_pow2_bits_high. lia.
Qed.

Lemma byte_bit_zero i : byte_bit zero_byte i = false.
Proof. apply N.bits_0. Qed.

Lemma byte_bit_set b i v j :
  i < 8 -> byte_bit (byte_set b i v) j = if j =? i then v else byte_bit b j.
Proof.
  intros Hi. unfold byte_set. rewrite byte_bit_of_N.
  destruct (N.lt_ge_cases j 8) as [Hj|Hj].
  - replace (j <? 8) with true by lia. cbn [andb].
    destruct (j =? i) eqn:E.
    + apply N.eqb_eq in E; subst. destruct v.
      * apply N.setbit_eq.
      * apply N.clearbit_eq.
    + apply N.eqb_neq in E. destruct v.
      * apply N.setbit_neq; auto.
      * apply N.clearbit_neq; auto.
  - replace (j <? 8) with false by lia. replace (j =? i) with false by lia.
    rewrite byte_bit_high; auto.
Qed.

(** ** Bits of a byte string *)

Lemma nth_byte_ge i l : blen l <= i -> nth_byte i l = zero_byte.
Proof. unfold nth_byte, blen; intros. apply nth_overflow. lia. Qed.

Lemma nth_byte_app1 i a b : i < blen a -> nth_byte i (a ++ b) = nth_byte i a.
Proof. unfold nth_byte, blen; intros. apply app_nth1. lia. Qed.

Lemma nth_byte_app2 i a b : blen a <= i -> nth_byte i (a ++ b) = nth_byte (i - blen a) b.
Proof.
  unfold nth_byte, blen; intros. rewrite app_nth2 by lia. f_equal. lia.
Qed.

Lemma nth_byte_ext a b :
  blen a = blen b -> (forall i, i < blen a -> nth_byte i a = nth_byte i b) -> a = b.
Proof.
  unfold blen. intros HL H. apply (nth_ext _ _ zero_byte zero_byte); [lia|].
  intros n Hn. specialize (H (N.of_nat n)). unfold nth_byte in H.
  rewrite Nnat.Nat2N.id in H. apply H. lia.
Qed.

Lemma raw_bit_high l i : 8 * blen l <= i -> raw_bit l i = false.
Proof.
  intros. unfold raw_bit. rewrite nth_byte_ge by lia. apply byte_bit_zero.
Qed.

Lemma raw_ext a b :
  blen a = blen b -> (forall i, i < 8 * blen a -> raw_bit a i = raw_bit b i) -> a = b.
Proof.
  intros HL H. apply nth_byte_ext; auto. intros i Hi. apply byte_ext. intros k Hk.
  specialize (H (8 * i + k)). unfold raw_bit in H.
  replace ((8 * i + k) / 8) with i in H by lia.
  replace ((8 * i + k) mod 8) with k in H by lia.
  apply H. lia.
Qed.

Lemma raw_bit_app1 a b i : i < 8 * blen a -> raw_bit (a ++ b) i = raw_bit a i.
Proof. intros. unfold raw_bit. rewrite nth_byte_app1 by lia. reflexivity. Qed.

Lemma raw_bit_app2 a b i : 8 * blen a <= i -> raw_bit (a ++ b) i = raw_bit b (i - 8 * blen a).
Proof.
  intros. unfold raw_bit. rewrite nth_byte_app2 by lia.
  replace (i / 8 - blen a) with ((i - 8 * blen a) / 8) by lia.
  replace ((i - 8 * blen a) mod 8) with (i mod 8) by lia. reflexivity.
Qed.

Lemma raw_bit_zeros n i : raw_bit (zeros n) i = false.
Proof.
  unfold raw_bit, nth_byte, zeros. rewrite nth_repeat. apply byte_bit_zero.
Qed.

Lemma blen_update_byte i b l : i < blen l -> blen (update_byte i b l) = blen l.
Proof.
  intros. unfold update_byte. rewrite blen_app, blen_cons, blen_takeN, blen_dropN. lia.
Qed.

Lemma nth_skipn' {A} (l : list A) k m d : nth k (skipn m l) d = nth (m + k) l d.
Proof.
  revert l; induction m; intros l; [reflexivity|].
  destruct l; cbn; [destruct k; reflexivity|]. apply IHm.
Qed.

Lemma nth_byte_update i b l j :
  i < blen l -> nth_byte j (update_byte i b l) = if j =? i then b else nth_byte j l.
Proof.
  intros Hi. unfold update_byte.
  rewrite <- (takeN_dropN i l) at 3.
  destruct (N.lt_ge_cases j i) as [Hj|Hj].
  - replace (j =? i) with false by lia.
    rewrite !nth_byte_app1 by (rewrite blen_takeN; lia). reflexivity.
  - rewrite nth_byte_app2 by (rewrite blen_takeN; lia).
    rewrite blen_takeN. replace (N.min i (blen l)) with i by lia.
    destruct (j =? i) eqn:E.
    + apply N.eqb_eq in E. subst. rewrite N.sub_diag. reflexivity.
    + rewrite nth_byte_app2 by (rewrite blen_takeN; lia).
      rewrite blen_takeN. replace (N.min i (blen l)) with i by lia.
      change (b :: dropN (i + 1) l) with ([b] ++ dropN (i + 1) l).
      rewrite nth_byte_app2 by (cbn; lia). change (blen [b]) with 1.
      unfold nth_byte, dropN. rewrite !nth_skipn'. f_equal. lia.
Qed.

Lemma raw_bit_update i b l j :
  i < blen l ->
  raw_bit (update_byte i b l) j = if j / 8 =? i then byte_bit b (j mod 8) else raw_bit l j.
Proof.
  intros. unfold raw_bit. rewrite nth_byte_update by auto. destruct (j / 8 =? i); reflexivity.
Qed.

(** ** [spec_bits] *)

Lemma testbit_total8 (f : nat -> bool) k :
  (k < 8)%nat ->
  N.testbit (total (map (fun k => bool_to_N (f k) * 2 ^ N.of_nat k) (seq 0 8))) (N.of_nat k) = f k.
Proof.
  intros Hk. cbn [seq map total fold_right].
  assert (G : forall b0 b1 b2 b3 b4 b5 b6 b7 : bool,
    let n := bool_to_N b0 * 2 ^ N.of_nat 0 + (bool_to_N b1 * 2 ^ N.of_nat 1 +
      (bool_to_N b2 * 2 ^ N.of_nat 2 + (bool_to_N b3 * 2 ^ N.of_nat 3 +
      (bool_to_N b4 * 2 ^ N.of_nat 4 + (bool_to_N b5 * 2 ^ N.of_nat 5 +
      (bool_to_N b6 * 2 ^ N.of_nat 6 + (bool_to_N b7 * 2 ^ N.of_nat 7 + 0))))))) in
    map (N.testbit n) [0;1;2;3;4;5;6;7] = [b0;b1;b2;b3;b4;b5;b6;b7])
    by (intros [] [] [] [] [] [] [] []; reflexivity).
  specialize (G (f 0%nat) (f 1%nat) (f 2%nat) (f 3%nat) (f 4%nat) (f 5%nat) (f 6%nat) (f 7%nat)).
  cbv zeta in G. cbn [map] in G.
  do 8 (destruct k as [|k]; [injection G; intros; assumption|]). lia.
Qed.

Lemma spec_bits_length bits : blen (spec_bits bits) = bits_bytes (blen bits).
Proof.
  unfold spec_bits, bits_bytes. rewrite blen_map. unfold blen. rewrite seq_length. lia.
Qed.

Lemma raw_bit_spec_bits bits i :
  raw_bit (spec_bits bits) i = nth (N.to_nat i) bits false.
Proof.
  destruct (N.lt_ge_cases i (8 * blen (spec_bits bits))) as [Hi|Hi].
  - rewrite spec_bits_length in Hi. unfold raw_bit, nth_byte, spec_bits.
    set (F := fun j : nat => _).
    assert (Hlt : (N.to_nat (i / 8) < Nat.div (length bits + 7) 8)%nat)
      by (unfold bits_bytes, blen in Hi; lia).
    rewrite (nth_indep _ zero_byte (F 0%nat)) by (rewrite map_length, seq_length; auto).
    rewrite map_nth, seq_nth by auto. unfold F.
    rewrite byte_bit_of_N. replace (i mod 8 <? 8) with true by lia. cbn [andb].
    replace (i mod 8) with (N.of_nat (N.to_nat (i mod 8))) by lia.
    rewrite testbit_total8 by lia. f_equal. lia.
  - rewrite raw_bit_high by auto. rewrite spec_bits_length in Hi.
    symmetry. apply nth_overflow. unfold bits_bytes, blen in Hi. lia.
Qed.

Lemma bools_nth_ext (a b : list bool) :
  length a = length b -> (forall i, (i < length a)%nat -> nth i a false = nth i b false) -> a = b.
Proof. intros. apply (nth_ext _ _ false false); auto. Qed.

Lemma spec_bits_inj a b : blen a = blen b -> spec_bits a = spec_bits b -> a = b.
Proof.
  intros HL H. apply bools_nth_ext; [unfold blen in HL; lia|].
  intros i _. rewrite <- (Nnat.Nat2N.id i), <- !raw_bit_spec_bits. congruence.
Qed.

(** ** [BitVec] *)

Lemma bv_ok_len b : bv_ok b = true <-> blen (bv_raw b) = bits_bytes (bv_len b).
Proof. apply N.eqb_eq. Qed.

Lemma bv_bits_length b : length (bv_bits b) = N.to_nat (bv_len b).
Proof. unfold bv_bits. rewrite map_length, seq_length. reflexivity. Qed.

Lemma blen_bv_bits b : blen (bv_bits b) = bv_len b.
Proof. unfold blen. rewrite bv_bits_length. lia. Qed.

Lemma nth_bv_bits b i :
  nth i (bv_bits b) false = (N.of_nat i <? bv_len b) && raw_bit (bv_raw b) (N.of_nat i).
Proof.
  destruct (N.of_nat i <? bv_len b) eqn:E.
  - unfold bv_bits. set (F := fun j : nat => _).
    rewrite (nth_indep _ false (F 0%nat)) by (rewrite map_length, seq_length; lia).
    rewrite map_nth, seq_nth by lia. reflexivity.
  - apply nth_overflow. rewrite bv_bits_length. lia.
Qed.

Lemma bv_ext a b :
  bv_ok a = true -> bv_ok b = true -> bv_clean a -> bv_clean b ->
  bv_bits a = bv_bits b -> a = b.
Proof.
  intros Ha Hb Ca Cb H. apply bv_ok_len in Ha. apply bv_ok_len in Hb.
  assert (HL : bv_len a = bv_len b).
  { apply (f_equal (@length bool)) in H. rewrite !bv_bits_length in H. lia. }
  destruct a as [ra la], b as [rb lb]; cbn [bv_raw bv_len] in *. subst lb. f_equal.
  apply raw_ext; [congruence|]. intros i Hi.
  destruct (N.lt_ge_cases i la) as [L|L].
  - pose proof (nth_bv_bits (BitVec ra la) (N.to_nat i)) as Na.
    pose proof (nth_bv_bits (BitVec rb la) (N.to_nat i)) as Nb.
    cbn [bv_raw bv_len] in *. rewrite Nnat.N2Nat.id in *.
    replace (i <? la) with true in * by lia. cbn [andb] in *. congruence.
  - specialize (Ca i). specialize (Cb i). cbn [bv_raw bv_len] in *. rewrite Ca, Cb; auto.
Qed.

Lemma bv_ok_new : bv_ok bv_new = true.
Proof. reflexivity. Qed.

Lemma bv_repeat_false_ok n : bv_ok (bv_repeat_false n) = true.
Proof. apply bv_ok_len. cbn. rewrite blen_zeros. lia. Qed.

Lemma bv_repeat_false_clean n : bv_clean (bv_repeat_false n).
Proof. intros i _. apply raw_bit_zeros. Qed.

Lemma bv_repeat_false_bits n : bv_bits (bv_repeat_false n) = repeat false (N.to_nat n).
Proof.
  apply bools_nth_ext; [rewrite bv_bits_length, repeat_length; reflexivity|].
  intros i Hi. rewrite nth_bv_bits, nth_repeat. cbn [bv_raw bv_repeat_false].
  rewrite raw_bit_zeros. apply andb_false_r.
Qed.

(** push *)
Section Push.
  Context (b : bitvec) (v : bool) (Hok : bv_ok b = true).

  Let raw := if bv_len b mod 8 =? 0 then bv_raw b ++ [zero_byte] else bv_raw b.

  Lemma push_raw_len : blen raw = bits_bytes (bv_len b + 1).
  Proof.
    apply bv_ok_len in Hok. unfold raw, bits_bytes in *.
    destruct (bv_len b mod 8 =? 0) eqn:E; [rewrite blen_app; cbn [blen length]|];
      rewrite Hok; unfold blen; cbn [length]; lia.
  Qed.

  Lemma push_raw_bit i : raw_bit raw i = raw_bit (bv_raw b) i.
  Proof.
    unfold raw. destruct (bv_len b mod 8 =? 0); [|reflexivity].
    destruct (N.lt_ge_cases i (8 * blen (bv_raw b))).
    - apply raw_bit_app1; auto.
    - rewrite raw_bit_app2 by auto. rewrite (raw_bit_high (bv_raw b)) by auto.
      apply (raw_bit_zeros 1).
  Qed.

  Lemma bv_push_raw_bit i :
    raw_bit (bv_raw (bv_push b v)) i = if i =? bv_len b then v else raw_bit (bv_raw b) i.
  Proof.
    unfold bv_push. fold raw. cbn [bv_raw].
    pose proof push_raw_len as HL.
    rewrite raw_bit_update by (unfold bits_bytes in HL; lia).
    rewrite <- (push_raw_bit i).
    destruct (i / 8 =? bv_len b / 8) eqn:E.
    - rewrite byte_bit_set by lia.
      destruct (i mod 8 =? bv_len b mod 8) eqn:E2.
      + replace (i =? bv_len b) with true by lia. reflexivity.
      + replace (i =? bv_len b) with false by lia.
        unfold raw_bit. f_equal. f_equal. lia.
    - replace (i =? bv_len b) with false; [reflexivity|].
      symmetry. apply N.eqb_neq. intros ->. rewrite N.eqb_refl in E. discriminate.
  Qed.

  Lemma bv_push_ok : bv_ok (bv_push b v) = true.
  Proof.
    apply bv_ok_len. unfold bv_push. fold raw. cbn [bv_raw bv_len].
    pose proof push_raw_len as HL.
    rewrite blen_update_byte; auto. unfold bits_bytes in HL; lia.
  Qed.

  Lemma bv_push_bits : bv_bits (bv_push b v) = bv_bits b ++ [v].
  Proof.
    apply bools_nth_ext.
    - rewrite app_length, !bv_bits_length. cbn [bv_push bv_len length]. lia.
    - intros i Hi. rewrite bv_bits_length in Hi. cbn [bv_push bv_len] in Hi.
      rewrite nth_bv_bits, bv_push_raw_bit. cbn [bv_push bv_len].
      replace (N.of_nat i <? bv_len b + 1) with true by lia. cbn [andb].
      destruct (N.of_nat i =? bv_len b) eqn:E.
      + rewrite app_nth2 by (rewrite bv_bits_length; lia).
        rewrite bv_bits_length. replace (i - N.to_nat (bv_len b))%nat with 0%nat by lia.
        reflexivity.
      + rewrite app_nth1 by (rewrite bv_bits_length; lia).
        rewrite nth_bv_bits. replace (N.of_nat i <? bv_len b) with true by lia. reflexivity.
  Qed.

  Lemma bv_push_clean : bv_clean b -> bv_clean (bv_push b v).
  Proof.
    intros C i Hi. rewrite bv_push_raw_bit. cbn [bv_push bv_len] in Hi.
    replace (i =? bv_len b) with false by lia. apply C. lia.
  Qed.
End Push.

Lemma bv_extend_spec bits b :
  bv_ok b = true ->
  bv_ok (bv_extend b bits) = true /\ bv_bits (bv_extend b bits) = bv_bits b ++ bits /\
  (bv_clean b -> bv_clean (bv_extend b bits)).
Proof.
  unfold bv_extend. revert b; induction bits as [|x bits IH]; intros b Hok; cbn [fold_left].
  - rewrite app_nil_r. auto.
  - destruct (IH (bv_push b x)) as (H1 & H2 & H3); [apply bv_push_ok; auto|].
    split; [auto|split].
    + rewrite H2, bv_push_bits, <- app_assoc by auto. reflexivity.
    + intros C. apply H3, bv_push_clean; auto.
Qed.

(** set *)
Lemma bv_set_spec b i v b' :
  bv_ok b = true -> bv_set b i v = Some b' ->
  i < bv_len b /\ bv_ok b' = true /\ bv_len b' = bv_len b /\
  (forall j, raw_bit (bv_raw b') j = if j =? i then v else raw_bit (bv_raw b) j).
Proof.
  intros Hok H. pose proof Hok as HL. apply bv_ok_len in HL. unfold bv_set in H.
  destruct (i <? bv_len b) eqn:E; [|discriminate].
  injection H as <-. cbn [bv_raw bv_len].
  assert (Hi : i / 8 < blen (bv_raw b)) by (rewrite HL; unfold bits_bytes; lia).
  split; [lia|]. split; [|split; [reflexivity|]].
  - apply bv_ok_len. cbn [bv_raw bv_len]. rewrite blen_update_byte; auto.
  - intros j. rewrite raw_bit_update by auto.
    destruct (j / 8 =? i / 8) eqn:E1.
    + rewrite byte_bit_set by lia.
      destruct (j mod 8 =? i mod 8) eqn:E2.
      * replace (j =? i) with true by lia. reflexivity.
      * replace (j =? i) with false by lia. unfold raw_bit. do 2 f_equal. lia.
    + replace (j =? i) with false; [reflexivity|].
      symmetry. apply N.eqb_neq. intros ->. rewrite N.eqb_refl in E1. discriminate.
Qed.

Lemma bv_set_clean b i v b' :
  bv_ok b = true -> bv_set b i v = Some b' -> bv_clean b -> bv_clean b'.
Proof.
  intros Hok H C j Hj. destruct (bv_set_spec _ _ _ _ Hok H) as (H1 & H2 & H3 & H4).
  rewrite H4. replace (j =? i) with false by lia. apply C. lia.
Qed.

(** truncate *)
Lemma nth_byte_takeN n l i : nth_byte i (takeN n l) = if i <? n then nth_byte i l else zero_byte.
Proof.
  destruct (i <? n) eqn:E.
  - rewrite <- (takeN_dropN n l) at 2.
    destruct (N.lt_ge_cases i (blen l)).
    + rewrite nth_byte_app1; [reflexivity|]. rewrite blen_takeN. lia.
    + rewrite !nth_byte_ge; rewrite ?blen_app, ?blen_takeN, ?blen_dropN; auto; lia.
  - apply nth_byte_ge. rewrite blen_takeN. lia.
Qed.

Lemma bv_truncate_spec b n :
  bv_ok b = true -> n <= bv_len b ->
  bv_ok (bv_truncate b n) = true /\ bv_len (bv_truncate b n) = n /\
  bv_bits (bv_truncate b n) = takeN n (bv_bits b).
Proof.
  intros Hok Hn. pose proof Hok as HL. apply bv_ok_len in HL.
  unfold bv_truncate. destruct (n <? bv_len b) eqn:E.
  - split; [|split; [reflexivity|]].
    + apply bv_ok_len. cbn [bv_raw bv_len]. rewrite blen_takeN. unfold bits_bytes in *. lia.
    + apply bools_nth_ext.
      * rewrite bv_bits_length. unfold takeN. rewrite firstn_length, bv_bits_length.
        cbn [bv_len]. lia.
      * intros i Hi. rewrite bv_bits_length in Hi. cbn [bv_len] in Hi.
        rewrite nth_bv_bits. cbn [bv_len bv_raw].
        replace (N.of_nat i <? n) with true by lia. cbn [andb].
        transitivity (nth i (bv_bits b) false).
        -- rewrite nth_bv_bits. replace (N.of_nat i <? bv_len b) with true by lia.
           cbn [andb]. unfold raw_bit. rewrite nth_byte_takeN. unfold bits_bytes.
           replace (N.of_nat i / 8 <? (n + 7) / 8) with true by lia. reflexivity.
        -- rewrite <- (takeN_dropN n (bv_bits b)) at 1.
           rewrite app_nth1; [reflexivity|].
           unfold takeN. rewrite firstn_length, bv_bits_length. lia.
  - assert (n = bv_len b) by lia. subst. split; [auto|split; [reflexivity|]].
    symmetry. apply takeN_all. rewrite blen_bv_bits. lia.
Qed.

(** ** Encodings of bit vectors *)

Lemma nth_map_seq {A} (f : nat -> A) n i d : (i < n)%nat -> nth i (map f (seq 0 n)) d = f i.
Proof.
  intros. rewrite (nth_indep _ d (f 0%nat)) by (rewrite map_length, seq_length; auto).
  rewrite map_nth, seq_nth; auto.
Qed.

Lemma bv_load_chunks_length b : blen (bv_load_chunks b) = bits_bytes (bv_len b).
Proof.
  unfold bv_load_chunks, chunk_indices. rewrite !blen_map. unfold blen.
  rewrite seq_length. lia.
Qed.

Lemma nth_byte_load_chunks b k :
  k < bits_bytes (bv_len b) ->
  nth_byte k (bv_load_chunks b) =
  byte_of_N (byte_to_N (nth_byte k (bv_raw b)) mod 2 ^ chunk_width b k).
Proof.
  intros Hk. unfold bv_load_chunks, chunk_indices. rewrite map_map. unfold nth_byte at 1.
  rewrite nth_map_seq by lia. rewrite Nnat.N2Nat.id. reflexivity.
Qed.

Lemma bv_load_chunks_spec b : bv_load_chunks b = spec_bits (bv_bits b).
Proof.
  apply raw_ext.
  - rewrite bv_load_chunks_length, spec_bits_length, blen_bv_bits. reflexivity.
  - intros i Hi. rewrite bv_load_chunks_length in Hi.
    rewrite raw_bit_spec_bits, nth_bv_bits, Nnat.N2Nat.id.
    unfold raw_bit at 1. rewrite nth_byte_load_chunks by lia.
    rewrite byte_bit_of_N. replace (i mod 8 <? 8) with true by lia. cbn [andb].
    unfold chunk_width. destruct (i <? bv_len b) eqn:E; cbn [andb].
    + rewrite N.mod_pow2_bits_low by lia. reflexivity.
    + apply N.mod_pow2_bits_high. lia.
Qed.

Lemma bv_store_chunks_spec n l :
  blen l = bits_bytes n ->
  (forall i, n <= i -> raw_bit l i = false) ->
  bv_store_chunks (bv_repeat_false n) l = BitVec l n.
Proof.
  intros HL HC. unfold bv_store_chunks.
  cbn [bv_len bv_repeat_false bv_raw]. f_equal.
  rewrite HL, N.min_id. rewrite dropN_all by (rewrite blen_zeros; lia).
  rewrite app_nil_r.
  assert (Hlen : length (chunk_indices (bv_repeat_false n)) = length l).
  { unfold chunk_indices. rewrite map_length, seq_length.
    cbn [bv_len bv_repeat_false]. unfold blen in HL. lia. }
  apply nth_byte_ext.
  - unfold blen. rewrite map_length, combine_length. lia.
  - intros k Hk. unfold blen in Hk. rewrite map_length, combine_length in Hk.
    unfold nth_byte at 1.
    set (F := fun kv : N * byte => _).
    rewrite (nth_indep _ zero_byte (F (0, zero_byte))) by (rewrite map_length, combine_length; lia).
    rewrite map_nth, combine_nth by auto. unfold F. cbn [fst snd].
    unfold chunk_indices. rewrite (nth_indep _ 0 (N.of_nat 0)) by (rewrite map_length, seq_length; cbn [bv_len bv_repeat_false]; unfold blen in HL; lia).
    rewrite map_nth, seq_nth by (cbn [bv_len bv_repeat_false]; unfold blen in HL; lia).
    cbn [Nat.add]. rewrite Nnat.N2Nat.id.
    change (nth (N.to_nat k) l zero_byte) with (nth_byte k l).
    replace (nth_byte k (zeros (N.to_nat (bits_bytes n)))) with zero_byte
      by (symmetry; apply nth_repeat).
    change (byte_to_N zero_byte) with 0. rewrite N.mod_0_l by (apply N.pow_nonzero; lia).
    cbn [N.sub N.add]. apply byte_ext. intros i Hi.
    rewrite byte_bit_of_N. replace (i <? 8) with true by lia. cbn [andb].
    unfold chunk_width. cbn [bv_len bv_repeat_false].
    destruct (N.lt_ge_cases (8 * k + i) n) as [L|L].
    + rewrite N.mod_pow2_bits_low by lia. reflexivity.
    + rewrite N.mod_pow2_bits_high by lia.
      specialize (HC (8 * k + i) L). unfold raw_bit in HC.
      replace ((8 * k + i) / 8) with k in HC by lia.
      replace ((8 * k + i) mod 8) with i in HC by lia. auto.
Qed.

(** A clean bit vector is its raw bytes. *)
Lemma clean_raw_spec b :
  bv_ok b = true -> bv_clean b -> bv_raw b = spec_bits (bv_bits b).
Proof.
  intros Hok C. apply bv_ok_len in Hok. apply raw_ext.
  - rewrite spec_bits_length, blen_bv_bits. auto.
  - intros i Hi. rewrite raw_bit_spec_bits, nth_bv_bits, Nnat.N2Nat.id.
    destruct (i <? bv_len b) eqn:E; cbn [andb]; [reflexivity|]. apply C. lia.
Qed.

Lemma spec_bits_raw bits :
  bv_bits (BitVec (spec_bits bits) (blen bits)) = bits.
Proof.
  apply bools_nth_ext.
  - rewrite bv_bits_length. cbn [bv_len]. unfold blen. lia.
  - intros i Hi. rewrite bv_bits_length in Hi. cbn [bv_len] in Hi.
    rewrite nth_bv_bits. cbn [bv_len bv_raw].
    replace (N.of_nat i <? blen bits) with true by lia. cbn [andb].
    rewrite raw_bit_spec_bits, Nnat.Nat2N.id. reflexivity.
Qed.
