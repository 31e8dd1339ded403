(** [size_hint] does not overflow on legal types. *)
From Coq Require Import List NArith ZArith Bool Lia ZifyBool ZifyNat ZifyN.
From Verif Require Import Prelude Types Bitvec Ser De Impls Api Valid SpecSer Lib BitsLib SerProof SerSpec DeProof ConProof BitsDe RoundTrip
  SizeHint.
Import ListNotations.
Open Scope N_scope.

Lemma fold_usum_ok {E} oc (l : list N) : forall a,
  a + total l < USIZE ->
  fold_left (fun acc x => do a <- acc; do b <- x; uadd oc a b) (map Ok l) (Ok a) = @Ok E N (a + total l).
Proof.
  induction l as [|x l IH]; intros a H; cbn [map fold_left].
  - unfold total in *. cbn [fold_right] in *. f_equal. lia.
  - cbn [bind]. rewrite total_cons in *. unfold uadd at 2.
    replace (a + x <? USIZE) with true by lia. rewrite IH by lia. f_equal. lia.
Qed.

Lemma usum_ok {E} oc (l : list N) : total l < USIZE -> usum oc (map Ok l) = @Ok E N (total l).
Proof.
  destruct l as [|x l]; intros H; [reflexivity|]. cbn [map usum]. rewrite total_cons in *.
  apply fold_usum_ok. exact H.
Qed.

Lemma size_hint_no_overflow E oc t :
  legal t = true -> @size_hint_machine E oc t = Ok (size_hint (serializable oc t)).
Proof.
  rewrite size_hint_spec. induction t using ty_ind'; intros HL; cbn [size_hint_machine fixed_size];
    try reflexivity.
  - destruct w; reflexivity.
  - cbn [legal] in HL. rewrite !andb_true_iff in HL. destruct HL as [[[H1 H2] H3] H4].
    rewrite (IHt H4). cbn [bind]. cbn [fixed_size] in H3. unfold umul, USIZE. unfold MAX_SIZE in H3.
    change (2 ^ 64) with 18446744073709551616. change (2 ^ 63) with 9223372036854775808 in *.
    rewrite (N.mul_comm (fixed_size t)).
    replace (n * fixed_size t <? 18446744073709551616) with true by lia. reflexivity.
  - cbn [legal] in HL. rewrite !andb_true_iff in HL. destruct HL as [[[H1 H2] H3] H4].
    rewrite (IHt H4). cbn [bind]. cbn [fixed_size] in H3. unfold umul, USIZE. unfold MAX_SIZE in H3.
    change (2 ^ 64) with 18446744073709551616. change (2 ^ 63) with 9223372036854775808 in *.
    rewrite (N.mul_comm (fixed_size t)).
    replace (n * fixed_size t <? 18446744073709551616) with true by lia. reflexivity.
  - f_equal. apply byte_length_bits_bytes.
  - cbn [legal] in HL. rewrite !andb_true_iff in HL. destruct HL as [[H1 H2] H3].
    replace (existsb (fun f => is_variable_size (serializable oc (snd f))) fs)
      with (existsb (fun f => spec_variable (snd f)) fs).
    2:{ clear. induction fs as [|f fs IH]; [reflexivity|]. cbn. rewrite IH, is_variable_size_spec. reflexivity. }
    cbn [fixed_size] in H2. destruct (existsb _ fs) eqn:HE; [reflexivity|].
    replace (map (fun f => size_hint_machine oc (snd f)) fs)
      with (map (@Ok E N) (map (fun f => fixed_size (snd f)) fs)).
    2:{ rewrite map_map. apply map_ext_in. intros f Hf. symmetry.
        rewrite Forall_forall in H. apply (H f Hf). rewrite forallb_forall in H3. apply (H3 f Hf). }
    apply usum_ok. unfold MAX_SIZE in H2. unfold USIZE.
    change (2 ^ 64) with 18446744073709551616. change (2 ^ 63) with 9223372036854775808 in *. lia.
  - cbn [legal] in HL. rewrite is_variable_size_spec. destruct (spec_variable t) eqn:HV; [|auto].
    f_equal. symmetry. apply fixed_size_variable. exact HV.
Qed.
