(** Byte buffers that are sequences of 32-byte chunks. *)
From Coq Require Import List NArith ZArith Bool Lia.
From Coq Require Import Strings.Byte.
From Verif Require Import Prelude Types Impls SpecMerkle Lib.
From Coq Require Import ZifyBool ZifyNat ZifyN.
Import ListNotations.
Open Scope N_scope.
Ltac Zify.zify_post_hook ::= Z.div_mod_to_equations.

Definition all32 (cs : list bytes) : Prop := Forall (fun c => blen c = 32) cs.

Lemma blen_concat32 cs : all32 cs -> blen (concat cs) = blen cs * 32.
Proof.
  induction 1 as [|c cs Hc _ IH]; [reflexivity|]. cbn [concat]. rewrite blen_app, blen_cons. lia.
Qed.

Lemma dropN_succ_cons {A} a (c : A) cs : dropN (a + 1) (c :: cs) = dropN a cs.
Proof. unfold dropN. replace (N.to_nat (a + 1)) with (S (N.to_nat a)) by lia. reflexivity. Qed.
Lemma takeN_succ_cons {A} a (c : A) cs : takeN (a + 1) (c :: cs) = c :: takeN a cs.
Proof. unfold takeN. replace (N.to_nat (a + 1)) with (S (N.to_nat a)) by lia. reflexivity. Qed.

Lemma dropN_concat32 cs : all32 cs -> forall a, dropN (a * 32) (concat cs) = concat (dropN a cs).
Proof.
  induction 1 as [|c cs Hc _ IH]; intros a.
  - unfold dropN. rewrite !skipn_nil. reflexivity.
  - destruct (N.eq_dec a 0) as [->|]; [reflexivity|].
    replace a with ((a - 1) + 1) by lia. rewrite dropN_succ_cons. cbn [concat].
    rewrite dropN_app_ge by lia. rewrite <- IH. f_equal. lia.
Qed.

Lemma takeN_concat32 cs : all32 cs -> forall a, takeN (a * 32) (concat cs) = concat (takeN a cs).
Proof.
  induction 1 as [|c cs Hc _ IH]; intros a.
  - unfold takeN. rewrite !firstn_nil. reflexivity.
  - destruct (N.eq_dec a 0) as [->|]; [reflexivity|].
    replace a with ((a - 1) + 1) by lia. rewrite takeN_succ_cons. cbn [concat].
    rewrite takeN_app_ge by lia. rewrite <- IH. f_equal. f_equal. lia.
Qed.

Lemma all32_dropN a cs : all32 cs -> all32 (dropN a cs).
Proof. unfold all32, dropN. rewrite !Forall_forall. intros H x Hx. apply H.
  rewrite <- (firstn_skipn (N.to_nat a)). apply in_or_app. auto. Qed.
Lemma all32_takeN a cs : all32 cs -> all32 (takeN a cs).
Proof. unfold all32, takeN. rewrite !Forall_forall. intros H x Hx. apply H.
  rewrite <- (firstn_skipn (N.to_nat a)). apply in_or_app. auto. Qed.

Lemma slice_concat32 {E} cs a b : all32 cs -> a <= b -> b <= blen cs ->
  @slice E byte (a * 32) (b * 32) (concat cs) = Ok (concat (takeN (b - a) (dropN a cs))).
Proof.
  intros HC H1 H2. rewrite slice_ok; [|lia|rewrite blen_concat32 by auto; lia].
  rewrite dropN_concat32 by auto. replace (b * 32 - a * 32) with ((b - a) * 32) by lia.
  rewrite takeN_concat32 by (apply all32_dropN; auto). reflexivity.
Qed.

Lemma skipn_nth {A} n (l : list A) d : (n < length l)%nat -> skipn n l = nth n l d :: skipn (S n) l.
Proof.
  revert l; induction n as [|n IH]; intros [|x l] Hl; cbn [length] in Hl; try lia; [reflexivity|].
  cbn [skipn nth]. apply IH. lia.
Qed.

Lemma dropN_nth {A} a (l : list A) d : a < blen l -> dropN a l = nth (N.to_nat a) l d :: dropN (a + 1) l.
Proof.
  unfold blen, dropN. intros. rewrite (skipn_nth _ _ d) by lia.
  replace (N.to_nat (a + 1)) with (S (N.to_nat a)) by lia. reflexivity.
Qed.

Lemma dropN_chunk a cs : a < blen cs -> dropN a cs = chunk_at cs a :: dropN (a + 1) cs.
Proof. apply dropN_nth. Qed.

Lemma takeN1 {A} (x : A) l : takeN 1 (x :: l) = [x].
Proof. reflexivity. Qed.
Lemma takeN2 {A} (x y : A) l : takeN 2 (x :: y :: l) = [x; y].
Proof. reflexivity. Qed.

Lemma chunk_at_blen cs a : all32 cs -> blen (chunk_at cs a) = 32.
Proof.
  intros HC. unfold chunk_at.
  destruct (nth_in_or_default (N.to_nat a) cs zero_chunk) as [Hin| ->]; [|reflexivity].
  unfold all32 in HC. rewrite Forall_forall in HC. auto.
Qed.

Lemma chunk_at_over cs a : blen cs <= a -> chunk_at cs a = zero_chunk.
Proof. intros. apply nth_overflow. unfold blen in *. lia. Qed.

Definition updN {A} (a : N) (c : A) (cs : list A) : list A := takeN a cs ++ c :: dropN (a + 1) cs.

Lemma blen_updN {A} a (c : A) cs : a < blen cs -> blen (updN a c cs) = blen cs.
Proof. intros. unfold updN. rewrite blen_app, blen_cons, blen_takeN, blen_dropN. lia. Qed.

Lemma all32_updN a c cs : blen c = 32 -> all32 cs -> all32 (updN a c cs).
Proof.
  intros Hc HC. unfold updN, all32. apply Forall_app. split; [apply all32_takeN; auto|].
  constructor; [auto|]. apply all32_dropN; auto.
Qed.

Lemma copy_concat32 {E} cs a c : all32 cs -> blen c = 32 -> a < blen cs ->
  @copy_at E byte (a * 32) c (concat cs) = Ok (concat (updN a c cs)).
Proof.
  intros HC Hc Ha. rewrite copy_at_ok by (rewrite blen_concat32 by auto; lia).
  rewrite takeN_concat32 by auto. rewrite Hc. replace (a * 32 + 32) with ((a + 1) * 32) by lia.
  rewrite dropN_concat32 by auto. unfold updN. rewrite concat_app. reflexivity.
Qed.

Lemma nth_takeN {A} a (l : list A) d i : i < a -> nth (N.to_nat i) (takeN a l) d = nth (N.to_nat i) l d.
Proof.
  intros Hi. unfold takeN. destruct (N.ltb_spec i (blen l)) as [Hl|Hl].
  - rewrite <- (firstn_skipn (N.to_nat a) l) at 2. rewrite app_nth1; [reflexivity|].
    rewrite firstn_length. unfold blen in Hl. lia.
  - rewrite !nth_overflow; auto; [unfold blen in Hl; lia|]. rewrite firstn_length. unfold blen in Hl. lia.
Qed.

Lemma nth_dropN {A} a (l : list A) d i : nth (N.to_nat i) (dropN a l) d = nth (N.to_nat (a + i)) l d.
Proof.
  unfold dropN. destruct (N.ltb_spec a (blen l)) as [Hl|Hl].
  - rewrite <- (firstn_skipn (N.to_nat a) l) at 2. unfold blen in Hl. rewrite app_nth2; rewrite firstn_length; [f_equal; lia|lia].
  - rewrite skipn_all2 by (unfold blen in Hl; lia). rewrite (nth_overflow l) by (unfold blen in Hl; lia).
    destruct (N.to_nat i); reflexivity.
Qed.

Lemma nth_updN {A} a (c : A) cs d i : a < blen cs ->
  nth (N.to_nat i) (updN a c cs) d = if i =? a then c else nth (N.to_nat i) cs d.
Proof.
  intros Ha. unfold updN.
  assert (HT : length (takeN a cs) = N.to_nat a).
  { pose proof (takeN_length a cs ltac:(lia)) as G. unfold blen in G. lia. }
  destruct (N.eqb_spec i a) as [->|Hne].
  - rewrite app_nth2 by lia. rewrite HT, PeanoNat.Nat.sub_diag. reflexivity.
  - destruct (N.ltb_spec i a).
    + rewrite app_nth1 by lia. apply nth_takeN. auto.
    + rewrite app_nth2 by lia. rewrite HT. replace (N.to_nat i - N.to_nat a)%nat with (S (N.to_nat (i - a - 1))) by lia.
      cbn [nth]. rewrite nth_dropN. f_equal. lia.
Qed.

Lemma chunk_at_updN a c cs i : a < blen cs -> chunk_at (updN a c cs) i = if i =? a then c else chunk_at cs i.
Proof. apply nth_updN. Qed.

Lemma zeros_chunks n : zeros (N.to_nat (n * 32)) = concat (repeat zero_chunk (N.to_nat n)).
Proof.
  replace (N.to_nat (n * 32)) with (N.to_nat n * 32)%nat by lia.
  induction (N.to_nat n) as [|k IH]; [reflexivity|]. cbn [repeat concat]. rewrite <- IH.
  unfold zeros, zero_chunk, zeros. rewrite <- repeat_app. reflexivity.
Qed.

Lemma all32_zero n : all32 (repeat zero_chunk n).
Proof. apply Forall_forall. intros x Hx. apply repeat_spec in Hx as ->. reflexivity. Qed.

Lemma chunk_at_zero n i : chunk_at (repeat zero_chunk n) i = zero_chunk.
Proof. apply nth_repeat. Qed.

(** Two lists of chunks with the same length and the same chunks are equal. *)
Lemma chunks_ext (a b : list bytes) :
  blen a = blen b -> (forall i, i < blen a -> chunk_at a i = chunk_at b i) -> a = b.
Proof.
  unfold blen, chunk_at. intros HL Hi. apply (nth_ext _ _ zero_chunk zero_chunk); [lia|].
  intros n Hn. specialize (Hi (N.of_nat n)). rewrite Nnat.Nat2N.id in Hi. apply Hi. lia.
Qed.

(** Every buffer whose length is a multiple of 32 is a sequence of chunks. *)
Lemma chunks_of b : blen b mod 32 = 0 -> exists cs, all32 cs /\ b = concat cs.
Proof.
  intros Hb. exists (chunks_exact_fuel (length b) 32 b).
  destruct (chunks_exact_fuel_inv 32 b (length b) ltac:(lia) ltac:(lia) Hb) as [HA HC]. auto.
Qed.
