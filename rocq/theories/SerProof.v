(** Lemmas relating the serializer (Ser.v, Impls.v) to the specification (SpecSer.v). *)
From Coq Require Import List NArith ZArith Bool Lia ZifyBool ZifyNat ZifyN.
From Coq Require Import Strings.Byte.
From Verif Require Import Prelude Types Bitvec Ser De Impls Valid SpecSer Lib BitsLib.
Import ListNotations.
Open Scope N_scope.

Ltac Zify.zify_post_hook ::= Z.div_mod_to_equations.

(** ** Arithmetic helpers *)

Lemma spec_uint_le_bytes n x : spec_uint n x = le_bytes n x.
Proof.
  unfold spec_uint. revert x; induction n as [|n IH]; intros x; [reflexivity|].
  cbn [seq map le_bytes]. f_equal.
  - cbn [N.of_nat]. rewrite N.pow_0_r, N.div_1_r. reflexivity.
  - rewrite <- seq_shift, map_map, <- IH. apply map_ext. intros i.
    rewrite pow256_succ. rewrite N.div_div; [reflexivity|lia|].
    apply N.pow_nonzero. lia.
Qed.

Lemma total_app a b : total (a ++ b) = total a + total b.
Proof. induction a; cbn; [reflexivity|]. fold (total (a0 ++ b)) (total a0). lia. Qed.

Lemma total_cons a l : total (a :: l) = a + total l.
Proof. reflexivity. Qed.

(** ** Composition *)

Lemma fixed_lengths_cons e es :
  fixed_lengths (e :: es) = (if fst e then 4 else blen (snd e)) :: fixed_lengths es.
Proof. reflexivity. Qed.

Lemma variable_lengths_cons e es :
  variable_lengths (e :: es) = blen (if fst e then snd e else []) :: variable_lengths es.
Proof. reflexivity. Qed.

Lemma variable_parts_cons e es :
  variable_parts (e :: es) = (if fst e then snd e else []) :: variable_parts es.
Proof. reflexivity. Qed.

Lemma variable_lengths_app a b : variable_lengths (a ++ b) = variable_lengths a ++ variable_lengths b.
Proof. unfold variable_lengths, variable_parts. rewrite !map_app. reflexivity. Qed.

Fixpoint fixed_from (r : N) (es : list (bool * bytes)) : list bytes :=
  match es with
  | [] => []
  | (true, b) :: es => le_bytes 4 r :: fixed_from (r + blen b) es
  | (false, b) :: es => b :: fixed_from r es
  end.

Lemma fixed_parts_from es : fixed_parts es = fixed_from (total (fixed_lengths es)) es.
Proof.
  unfold fixed_parts.
  assert (G : forall suf pre, es = pre ++ suf ->
    map (fun ie : nat * (bool * bytes) =>
           if fst (snd ie) then spec_uint 4 (variable_offset es (fst ie)) else snd (snd ie))
        (combine (seq (length pre) (length suf)) suf)
    = fixed_from (total (fixed_lengths es) + total (variable_lengths pre)) suf).
  { induction suf as [|[f b] suf IH]; intros pre Hes; [reflexivity|].
    cbn [length seq combine map fst snd].
    specialize (IH (pre ++ [(f, b)])).
    rewrite app_length in IH. cbn [length] in IH. rewrite Nat.add_1_r in IH.
    rewrite IH by (rewrite <- app_assoc; exact Hes).
    rewrite variable_lengths_app, total_app, variable_lengths_cons, total_cons. cbn [fst snd].
    change (total (variable_lengths [])) with 0. rewrite N.add_0_r.
    destruct f; cbn [fixed_from].
    - f_equal.
      + rewrite spec_uint_le_bytes. f_equal. unfold variable_offset.
        rewrite total_app. do 2 f_equal. subst es. rewrite variable_lengths_app.
        rewrite firstn_app.
        replace (length pre) with (length (variable_lengths pre))
          by (unfold variable_lengths, variable_parts; rewrite !map_length; reflexivity).
        rewrite firstn_all, Nat.sub_diag, firstn_O, app_nil_r. reflexivity.
      + f_equal. lia.
    - f_equal. f_equal. change (blen (@nil byte)) with 0. lia. }
  etransitivity; [exact (G es [] eq_refl)|]. f_equal. change (total (variable_lengths [])) with 0. lia.
Qed.

Lemma fixed_from_blen es : forall r, blen (concat (fixed_from r es)) = total (fixed_lengths es).
Proof.
  induction es as [|[f b] es IH]; intros r; [reflexivity|].
  rewrite fixed_lengths_cons, total_cons. destruct f; cbn [fixed_from concat fst snd];
    rewrite blen_app, IH, ?blen_le_bytes; reflexivity.
Qed.

Lemma variable_parts_blen es : blen (concat (variable_parts es)) = total (variable_lengths es).
Proof.
  induction es as [|[f b] es IH]; [reflexivity|].
  rewrite variable_lengths_cons, total_cons, variable_parts_cons. cbn [concat].
  rewrite blen_app, IH. reflexivity.
Qed.

Definition compose_size (es : list (bool * bytes)) : N :=
  total (fixed_lengths es ++ variable_lengths es).

Lemma compose_size_eq es :
  compose_size es = total (fixed_lengths es) + total (variable_lengths es).
Proof. apply total_app. Qed.

Lemma spec_compose_some es b :
  spec_compose es = Some b <->
  compose_size es < 2 ^ 32 /\
  b = concat (fixed_from (total (fixed_lengths es)) es) ++ concat (variable_parts es).
Proof.
  unfold spec_compose. fold (compose_size es). rewrite fixed_parts_from, concat_app.
  destruct (compose_size es <? 2 ^ 32) eqn:E.
  - apply N.ltb_lt in E. split; [intros [= <-]; auto|intros [_ ->]; auto].
  - apply N.ltb_ge in E. split; [discriminate|]. intros [H _]. lia.
Qed.

Lemma spec_compose_blen es b : spec_compose es = Some b -> blen b = compose_size es.
Proof.
  intros H. apply spec_compose_some in H as [_ ->].
  rewrite blen_app, fixed_from_blen, variable_parts_blen, compose_size_eq. reflexivity.
Qed.

Lemma spec_compose_none es : spec_compose es = None <-> 2 ^ 32 <= compose_size es.
Proof.
  unfold spec_compose. fold (compose_size es). destruct (compose_size es <? 2 ^ 32) eqn:E.
  - apply N.ltb_lt in E. split; [discriminate|lia].
  - apply N.ltb_ge in E. tauto.
Qed.

(** ** The serializer *)

Definition elem_ok (e : Serializable * val) (fb : bool * bytes) : Prop :=
  is_variable_size (fst e) = fst fb /\
  exists n, serialize (fst e) (snd e) [] = (snd fb, Ok n).

Definition part_of (fb : bool * bytes) : Part :=
  if fst fb then POffset (blen (snd fb)) else PFixed (snd fb).

Lemma with_element_ok e fb s :
  elem_ok e fb ->
  with_element (fst e) s (snd e) =
  Ok {| parts := parts s ++ [part_of fb];
        variable := variable s ++ (if fst fb then snd fb else []);
        fixed_lengths_sum := fixed_lengths_sum s + (if fst fb then 4 else blen (snd fb));
        variable_lengths_sum := variable_lengths_sum s + blen (if fst fb then snd fb else []) |}.
Proof.
  intros [H1 [n H2]]. unfold with_element. rewrite H1, H2. unfold part_of.
  destruct (fst fb); [reflexivity|].
  rewrite app_nil_r. change (blen (@nil byte)) with 0. rewrite N.add_0_r. reflexivity.
Qed.

Lemma fold_with_element_ok elements es :
  Forall2 elem_ok elements es -> forall s,
  foldM (fun s e => with_element (fst e) s (snd e)) s elements =
  Ok {| parts := parts s ++ map part_of es;
        variable := variable s ++ concat (variable_parts es);
        fixed_lengths_sum := fixed_lengths_sum s + total (fixed_lengths es);
        variable_lengths_sum := variable_lengths_sum s + total (variable_lengths es) |}.
Proof.
  induction 1 as [|e fb elements es He _ IH]; intros s.
  - cbn [foldM map variable_parts concat]. rewrite !app_nil_r.
    change (total (fixed_lengths [])) with 0. change (total (variable_lengths [])) with 0.
    rewrite !N.add_0_r. destruct s; reflexivity.
  - cbn [foldM]. rewrite (with_element_ok _ _ _ He). cbn [bind]. rewrite IH.
    cbn [parts variable fixed_lengths_sum variable_lengths_sum].
    rewrite fixed_lengths_cons, variable_lengths_cons, variable_parts_cons, !total_cons.
    cbn [map concat]. rewrite <- !app_assoc, !N.add_assoc. reflexivity.
Qed.

Lemma write_parts_ok oc es : forall r buf,
  r + total (variable_lengths es) < 2 ^ 32 ->
  write_parts oc (map part_of es) r buf = (buf ++ concat (fixed_from r es), Ok 0).
Proof.
  induction es as [|[f b] es IH]; intros r buf Hr.
  - cbn. rewrite app_nil_r. reflexivity.
  - rewrite variable_lengths_cons, total_cons in Hr. cbn [fst snd] in Hr.
    destruct f; cbn [map part_of fst snd write_parts fixed_from concat].
    + cbn [u32_serialize ser_bind]. change (4 =? BYTES_PER_LENGTH_OFFSET) with true.
      cbn [negb]. rewrite andb_false_r.
      rewrite (N.mod_small (blen b)) by lia. unfold u32_add.
      replace (r + blen b <? 2 ^ 32) with true by lia.
      rewrite IH by lia. rewrite app_assoc. reflexivity.
    + rewrite IH by (change (blen (@nil byte)) with 0 in Hr; lia).
      rewrite app_assoc. reflexivity.
Qed.

Lemma serialize_elements_ok oc elements es buf :
  Forall2 elem_ok elements es ->
  serialize_elements oc elements buf =
  match spec_compose es with
  | Some b => (buf ++ b, Ok (blen b))
  | None => (buf, Err (MaximumEncodedLengthReached (compose_size es)))
  end.
Proof.
  intros H. unfold serialize_elements. rewrite (fold_with_element_ok _ _ H).
  unfold serializer_serialize.
  cbn [parts variable fixed_lengths_sum variable_lengths_sum serializer_default app].
  rewrite !N.add_0_l, <- compose_size_eq.
  change MAXIMUM_LENGTH with (2 ^ 32).
  destruct (spec_compose es) as [b|] eqn:E.
  - rewrite (spec_compose_blen _ _ E). apply spec_compose_some in E as [HL ->].
    replace (2 ^ 32 <=? compose_size es) with false by lia.
    rewrite compose_size_eq in HL.
    rewrite N.mod_small by lia.
    rewrite write_parts_ok by lia. cbn [ser_bind]. rewrite <- app_assoc. reflexivity.
  - apply spec_compose_none in E.
    replace (2 ^ 32 <=? compose_size es) with true by lia. reflexivity.
Qed.

Lemma fold_with_element_err pre es e post x out s :
  Forall2 elem_ok pre es -> serialize (fst e) (snd e) [] = (out, Err x) ->
  foldM (fun s e => with_element (fst e) s (snd e)) s (pre ++ e :: post) = Err x.
Proof.
  intros H Hx. revert s. induction H as [|e' fb elements es He _ IH]; intros s.
  - cbn [app foldM]. unfold with_element. rewrite Hx. reflexivity.
  - cbn [app foldM]. rewrite (with_element_ok _ _ _ He). cbn [bind]. apply IH.
Qed.

Lemma serialize_elements_err oc pre es e post x out buf :
  Forall2 elem_ok pre es -> serialize (fst e) (snd e) [] = (out, Err x) ->
  serialize_elements oc (pre ++ e :: post) buf = (buf, Err x).
Proof.
  intros H Hx. unfold serialize_elements. rewrite (fold_with_element_err _ _ _ _ _ _ _ H Hx).
  reflexivity.
Qed.

(** ** Variable-size flags agree *)

Lemma is_variable_size_spec oc t : is_variable_size (serializable oc t) = spec_variable t.
Proof.
  induction t using ty_ind'; cbn [serializable spec_variable]; try reflexivity; auto.
  cbn [container_impl is_variable_size].
  induction H as [|f fs Hf _ IH]; cbn; [reflexivity|]. rewrite Hf, IH. reflexivity.
Qed.

(** ** Bit lists *)

Lemma or_last_spec m buf b :
  or_last m (buf ++ [b]) = Ok (buf ++ [byte_of_N (N.lor (byte_to_N b) (N.shiftl 1 m))]).
Proof. unfold or_last. rewrite rev_app_distr. cbn. rewrite rev_involutive. reflexivity. Qed.

Lemma testbit_shiftl_1 m i : N.testbit (N.shiftl 1 m) i = (i =? m).
Proof. rewrite N.shiftl_1_l. apply N.pow2_bits_eqb || (rewrite N.pow2_bits_eqb; apply N.eqb_sym). Qed.

Lemma bitlist_serialize_spec n b buf :
  bv_ok b = true -> bv_clean b -> bv_len b <= n ->
  bitlist_serialize_with_length n b true buf =
  (buf ++ spec_bits (bv_bits b ++ [true]), Ok (blen (spec_bits (bv_bits b ++ [true])))).
Proof.
  intros Hok C Hn. unfold bitlist_serialize_with_length.
  replace (n <? bv_len b) with false by lia.
  pose proof Hok as HL. apply bv_ok_len in HL.
  assert (HS : blen (spec_bits (bv_bits b ++ [true])) = bits_bytes (bv_len b + 1)).
  { rewrite spec_bits_length, blen_app, blen_bv_bits. reflexivity. }
  destruct (bv_len b mod 8 =? 0) eqn:E.
  - assert (HE : bv_raw b ++ [x01] = spec_bits (bv_bits b ++ [true])).
    { apply raw_ext.
      - rewrite HS, blen_app, HL. unfold bits_bytes. change (blen [x01]) with 1. lia.
      - intros i Hi. rewrite blen_app, HL in Hi. change (blen [x01]) with 1 in Hi.
        rewrite raw_bit_spec_bits. unfold bits_bytes in *.
        destruct (N.lt_ge_cases i (bv_len b)) as [L|L].
        + rewrite raw_bit_app1 by lia. rewrite app_nth1 by (rewrite bv_bits_length; lia).
          rewrite nth_bv_bits, Nnat.N2Nat.id. replace (i <? bv_len b) with true by lia.
          reflexivity.
        + rewrite raw_bit_app2 by lia. rewrite app_nth2 by (rewrite bv_bits_length; lia).
          rewrite bv_bits_length, HL.
          replace (8 * ((bv_len b + 7) / 8)) with (bv_len b) by lia.
          replace (N.to_nat i - N.to_nat (bv_len b))%nat with (N.to_nat (i - bv_len b)) by lia.
          assert (Hj : i - bv_len b < 8) by lia.
          generalize dependent (i - bv_len b). intros j Hj.
          unfold raw_bit. replace (j / 8) with 0 by lia. replace (j mod 8) with j by lia.
          change (nth_byte 0 [x01]) with x01.
          assert (j = 0 \/ 0 < j) as [->|Hj0] by lia; [reflexivity|].
          rewrite nth_overflow by (cbn [length]; lia).
          unfold byte_bit. change (byte_to_N x01) with (2 ^ 0).
          apply N.pow2_bits_false. lia. }
    rewrite <- HE. rewrite <- app_assoc. f_equal. f_equal. rewrite !blen_app. lia.
  - destruct (last_cases (bv_raw b)) as [Hr|(r & x & Hr)].
    { rewrite Hr in HL. cbn in HL. unfold bits_bytes in HL. lia. }
    rewrite Hr. rewrite app_assoc, or_last_spec.
    set (y := byte_of_N _).
    assert (HE : r ++ [y] = spec_bits (bv_bits b ++ [true])).
    { rewrite Hr, blen_app in HL. change (blen [x]) with 1 in HL.
      apply raw_ext.
      - rewrite HS, blen_app. change (blen [y]) with 1. unfold bits_bytes in *. lia.
      - intros i Hi. rewrite blen_app in Hi. change (blen [y]) with 1 in Hi.
        rewrite raw_bit_spec_bits. unfold bits_bytes in *.
        assert (Hraw : raw_bit (bv_raw b) i = (i <? bv_len b) && raw_bit (bv_raw b) i).
        { destruct (i <? bv_len b) eqn:L; cbn [andb]; [reflexivity|]. apply C. lia. }
        assert (HN : nth (N.to_nat i) (bv_bits b ++ [true]) false
                     = raw_bit (bv_raw b) i || (i =? bv_len b)).
        { destruct (N.lt_ge_cases i (bv_len b)) as [L|L].
          - rewrite app_nth1 by (rewrite bv_bits_length; lia).
            rewrite nth_bv_bits, Nnat.N2Nat.id. replace (i =? bv_len b) with false by lia.
            rewrite orb_false_r. auto.
          - rewrite app_nth2 by (rewrite bv_bits_length; lia). rewrite bv_bits_length.
            rewrite Hraw. replace (i <? bv_len b) with false by lia. cbn [andb orb].
            destruct (i =? bv_len b) eqn:Q.
            + replace (N.to_nat i - N.to_nat (bv_len b))%nat with 0%nat by lia. reflexivity.
            + apply nth_overflow. cbn [length]. lia. }
        rewrite HN. rewrite Hr.
        destruct (N.lt_ge_cases i (8 * blen r)) as [L|L].
        + rewrite !raw_bit_app1 by lia. replace (i =? bv_len b) with false by lia.
          rewrite orb_false_r. reflexivity.
        + rewrite !raw_bit_app2 by lia.
          unfold raw_bit. replace ((i - 8 * blen r) / 8) with 0 by lia.
          change (nth_byte 0 [y]) with y. change (nth_byte 0 [x]) with x. unfold y.
          rewrite byte_bit_of_N, N.lor_spec, testbit_shiftl_1.
          replace ((i - 8 * blen r) mod 8 <? 8) with true by lia. cbn [andb].
          f_equal. destruct (i =? bv_len b) eqn:Q; lia. }
    rewrite <- app_assoc. rewrite HE. f_equal. f_equal. rewrite !blen_app. lia.
Qed.
