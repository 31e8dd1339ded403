(** What is wrong with an input that cannot be decoded. *)
From Coq Require Import List NArith ZArith Bool Lia ZifyBool ZifyNat ZifyN.
From Coq Require Import Strings.Byte.
From Verif Require Import Prelude Types Bitvec Ser De Impls Valid SpecSer SpecDecode SpecFault Lib BitsLib
  SerProof SerSpec DeProof ConProof BitsDe RoundTrip DecValid SpecErr DeErr ReadProof CodecFacts.
Import ListNotations.
Open Scope N_scope.

Ltac Zify.zify_post_hook ::= Z.div_mod_to_equations.

Definition blames {A} (P : DeserializeError -> Prop) (x : res DeserializeError A) : Prop :=
  forall e, x = Err e -> P e.

Lemma blames_bind {A B} P (x : res DeserializeError A) (f : A -> res DeserializeError B) :
  blames P x -> (forall a, x = Ok a -> blames P (f a)) -> blames P (bind x f).
Proof. intros HX HF e H. apply bind_err_inv in H as [H|(a & HA & H)]; [exact (HX e H)|exact (HF a HA e H)]. Qed.

Lemma blames_ok {A} P (a : A) : blames P (Ok a).
Proof. intros e H. discriminate. Qed.
Lemma blames_err {A} (P : _ -> Prop) e : P e -> @blames A P (Err e).
Proof. intros HP x H. apply err_inj in H. subst. exact HP. Qed.
Lemma blames_panic {A} P p : @blames A P (Panic p).
Proof. intros x H. discriminate. Qed.

Lemma blames_weaken {A} (P Q : DeserializeError -> Prop) (x : res DeserializeError A) :
  (forall e, P e -> Q e) -> blames P x -> blames Q x.
Proof. intros HQ HP e H. auto. Qed.

(** ** Integers and collections *)

Lemma uint_blames n b : blames (wrong_length n b) (uint_deserialize n b).
Proof.
  unfold uint_deserialize. destruct (N.ltb_spec (blen b) n); [apply blames_err; left; auto|].
  destruct (N.ltb_spec n (blen b)); [apply blames_err; right; auto|]. rewrite slice_ok by lia. apply blames_ok.
Qed.

Lemma check_fixed_blames oc t n b :
  blames (fun e => spec_variable t = false /\ wrong_length (n * fixed_size t) b e) (check_fixed_length (serializable oc t) n b).
Proof.
  unfold check_fixed_length. rewrite is_variable_size_spec, size_hint_spec.
  destruct (spec_variable t); cbn [negb]; [apply blames_ok|].
  destruct (N.ltb_spec (blen b) (n * fixed_size t)); [apply blames_err; split; [reflexivity|left; auto]|].
  destruct (N.ltb_spec (n * fixed_size t) (blen b)); [apply blames_err; split; [reflexivity|right; auto]|apply blames_ok].
Qed.

(** The elements as [read] finds them. *)
Lemma variable_stage T e : e <> [] -> 4 <= blen e -> first_offset e <= blen e -> first_offset e mod 4 = 0 ->
  deserialize_variable_homogeneous_composite T e = mapM (deserialize_span T e) (offset_pairs e).
Proof.
  intros HE H4 HL HM. unfold deserialize_variable_homogeneous_composite, offset_pairs.
  destruct e as [|x l]; [congruence|]. set (e := x :: l) in *. clearbody e. clear x l.
  change BYTES_PER_LENGTH_OFFSET with 4.
  rewrite get_range_some by lia. replace (4 - 0) with 4 by reflexivity. rewrite u32_at by lia. cbn [bind].
  fold (first_offset e). set (first := first_offset e) in *.
  replace (blen e <? first) with false by lia. rewrite HM. cbn [N.eqb negb].
  rewrite slice_ok by lia. cbn [bind]. rewrite dropN_0, N.sub_0_r.
  rewrite chunks_exact_eq by lia. cbn [bind]. rewrite takeN_length by lia.
  assert (HO : mapM u32_deserialize (map (fun i => takeN 4 (dropN (i * 4) (takeN first e))) (count_to (first / 4))) =
               Ok (map (fun i => number (sub_bytes e (4 * i) 4)) (count_to (first / 4)))).
  { apply mapM_ok_iff. apply Forall2_map_l.
    assert (HC : forall i, In i (count_to (first / 4)) -> i < first / 4) by apply in_count_to.
    induction (count_to (first / 4)) as [|i is IH]; constructor.
    - specialize (HC i (or_introl eq_refl)).
      replace (takeN 4 (dropN (i * 4) (takeN first e))) with (takeN 4 (dropN (4 * i) e)).
      + apply u32_at. lia.
      + rewrite <- (takeN_dropN first e) at 1.
        rewrite dropN_app_le by (rewrite takeN_length; lia).
        rewrite takeN_app_le by (rewrite blen_dropN, takeN_length; lia). f_equal. f_equal. lia.
    - apply IH. intros j Hj. apply HC. right. exact Hj. }
  rewrite HO. cbn [bind]. rewrite neighbours_windows. reflexivity.
Qed.

Lemma variable_cases T e : e <> [] ->
  (blen e < 4 /\ deserialize_variable_homogeneous_composite T e = Err (ExpectedFurtherInput (blen e) 4)) \/
  (4 <= blen e /\ blen e < first_offset e /\
   deserialize_variable_homogeneous_composite T e = Err (ExpectedFurtherInput (blen e) (first_offset e))) \/
  (4 <= blen e /\ first_offset e <= blen e /\ first_offset e mod 4 <> 0 /\
   deserialize_variable_homogeneous_composite T e = Err (InvalidOffsetsLength (first_offset e))) \/
  (4 <= blen e /\ first_offset e <= blen e /\ first_offset e mod 4 = 0 /\
   deserialize_variable_homogeneous_composite T e = mapM (deserialize_span T e) (offset_pairs e)).
Proof.
  intros HE. pose proof (variable_stage T e HE) as HS. revert HS.
  unfold deserialize_variable_homogeneous_composite.
  destruct e as [|x l]; [congruence|]. set (e := x :: l) in *. clearbody e. clear x l.
  change BYTES_PER_LENGTH_OFFSET with 4.
  destruct (N.ltb_spec (blen e) 4) as [H4|H4].
  { intros _. left. split; [exact H4|]. unfold get_range. replace (4 <=? blen e) with false by lia. rewrite andb_false_r. reflexivity. }
  rewrite get_range_some by lia. replace (4 - 0) with 4 by reflexivity. rewrite u32_at by lia. cbn [bind].
  fold (first_offset e). set (first := first_offset e) in *.
  destruct (N.ltb_spec (blen e) first) as [HL|HL].
  { intros _. right. left. auto. }
  destruct (N.eqb_spec (first mod 4) 0) as [HM|HM]; cbn [negb].
  - intros HS. right. right. right. split; [lia|]. split; [lia|]. split; [exact HM|]. apply HS; lia.
  - intros _. right. right. left. auto.
Qed.

Lemma blen_neighbours l : blen (neighbours l) = blen l - 1.
Proof.
  induction l as [|a l IH]; [reflexivity|]. destruct l as [|c l]; [reflexivity|].
  cbn [neighbours] in *. rewrite !blen_cons in *. rewrite IH. lia.
Qed.

Lemma blen_offset_pairs b : blen (offset_pairs b) = first_offset b / 4.
Proof.
  unfold offset_pairs. rewrite blen_neighbours, blen_app, blen_map, blen_count_to. change (blen [blen b]) with 1. lia.
Qed.

Lemma homogeneous_blames oc t f b : legal t = true ->
  (spec_variable t = false -> blen b mod fixed_size t = 0) ->
  (forall b', blen b' <= blen b -> blames (f b') (deserialize (serializable oc t) b')) ->
  blames (bad_elements (spec_variable t) (fixed_size t) f b) (deserialize_homogeneous_composite oc (serializable oc t) b) /\
  (forall l, deserialize_homogeneous_composite oc (serializable oc t) b = Ok l ->
     blen l = found_elements (spec_variable t) (fixed_size t) b).
Proof.
  intros HL HM HF. unfold deserialize_homogeneous_composite, bad_elements, found_elements. rewrite is_variable_size_spec.
  destruct (spec_variable t) eqn:HV.
  - destruct b as [|x b0]; [split; [apply blames_ok|intros l [= <-]; reflexivity]|]. set (b := x :: b0) in *.
    assert (HE : b <> []) by discriminate. clearbody b. clear x b0.
    destruct (variable_cases (serializable oc t) b HE) as [(H1 & ->)|[(H1 & H2 & ->)|[(H1 & H2 & H3 & ->)|(H1 & H2 & H3 & ->)]]].
    + split; [|discriminate]. apply blames_err. split; [exact HE|]. left. auto.
    + split; [|discriminate]. apply blames_err. split; [exact HE|]. right. left. auto.
    + split; [|discriminate]. apply blames_err. split; [exact HE|]. right. right. left. auto.
    + split.
      * intros e HE'. split; [exact HE|]. right. right. right. split; [exact H1|]. split; [exact H2|]. split; [exact H3|].
        apply mapM_err_inv in HE' as ([s x] & Hin & HD). exists s, x. split; [exact Hin|].
        unfold deserialize_span in HD. destruct (N.ltb_spec x s) as [C|C].
        -- apply err_inj in HD. left. auto.
        -- right. apply bind_err_inv in HD as [HD|(b' & HB & HD)].
           { unfold slice in HD. destruct (get_range s x b); discriminate. }
           apply slice_inv in HB as (G1 & G2 & ->). split; [lia|]. rewrite sub_bytes_eq. apply HF; [|exact HD].
           rewrite blen_takeN, blen_dropN. lia.
      * intros l HO. apply mapM_ok_iff in HO. rewrite <- (Forall2_blen _ _ _ HO). apply blen_offset_pairs.
  - pose proof (legal_fixed_size t HL HV) as HZ.
    unfold deserialize_fixed_homogeneous_composite, rem_len. rewrite size_hint_spec.
    replace (fixed_size t =? 0) with false by lia. cbn [bind]. rewrite (HM eq_refl). cbn [N.eqb].
    replace (if oc then @Ok DeserializeError _ tt else Ok tt) with (@Ok DeserializeError _ tt) by (destruct oc; reflexivity).
    cbn [bind]. rewrite chunks_exact_eq by lia. cbn [bind]. split.
    + intros e HE. apply mapM_err_inv in HE as (c & Hin & HD). apply in_map_iff in Hin as (i & <- & Hi).
      apply in_count_to in Hi. exists i. split; [exact Hi|]. rewrite sub_bytes_eq. apply HF; [|exact HD].
      rewrite blen_takeN, blen_dropN. lia.
    + intros l HO. apply mapM_ok_iff in HO. rewrite <- (Forall2_blen _ _ _ HO), blen_map. apply blen_count_to.
Qed.

(** ** Containers *)

Lemma neighbours_before prev l p : In p (neighbours l) -> In p (neighbours (before prev l)).
Proof. destruct prev as [q|]; [|auto]. cbn [before]. destruct l as [|a l]; [contradiction|]. intros H. right. exact H. Qed.

Definition bad_head (oc : bool) (enc : bytes) (p0 : N) (prev : option N) (ks : list (bool * N)) (e : DeserializeError) : Prop :=
  (exists pre x post, ks = pre ++ x :: post /\
     p0 + total (map head_size pre) <= blen enc /\ blen enc < p0 + total (map head_size pre) + head_size x /\
     e = ExpectedFurtherInput (blen enc - (p0 + total (map head_size pre))) (head_size x)) \/
  (exists start fin, In (start, fin) (neighbours (before prev (head_offsets enc p0 ks))) /\ fin < start /\ e = OffsetNotIncreasing start fin) \/
  (oc = false /\ exists start fin, In (start, fin) (neighbours (before prev (head_offsets enc p0 ks))) /\ start <= fin /\ blen enc < fin /\
     e = ExpectedFurtherInput (2 ^ 64 + blen enc - (if blen enc <? start then start else fin)) (fin - start)).

Lemma bad_head_cons oc enc p0 prev k ks e prev' :
  (forall p, In p (neighbours (before prev' (head_offsets enc (p0 + head_size k) ks))) ->
     In p (neighbours (before prev (head_offsets enc p0 (k :: ks))))) ->
  bad_head oc enc (p0 + head_size k) prev' ks e -> bad_head oc enc p0 prev (k :: ks) e.
Proof.
  intros HN [(pre & x & post & E & H1 & H2 & H3)|[(s & f & Hin & H)|(HO & s & f & Hin & H)]].
  - left. exists (k :: pre), x, post. cbn [map]. rewrite total_cons, N.add_assoc. subst ks. auto.
  - right. left. exists s, f. auto.
  - right. right. split; [exact HO|]. exists s, f. auto.
Qed.

Lemma wrapped_sub oc a b : a <? b = true -> b < 2 ^ 64 -> @usub DeserializeError oc a b =
  if oc then Panic POverflow else Ok (2 ^ 64 + a - b).
Proof.
  intros H HB. unfold usub. replace (b <=? a) with false by lia. destruct oc; [reflexivity|].
  unfold USIZE. rewrite N.mod_small by lia. reflexivity.
Qed.

Lemma number4 e p : p + 4 <= blen e -> number (sub_bytes e p 4) < 2 ^ 32.
Proof.
  intros H. rewrite number_le. pose proof (le_value_lt (sub_bytes e p 4)) as HL.
  rewrite sub_bytes_eq, takeN_length in HL by (rewrite blen_dropN; lia). rewrite sub_bytes_eq. exact HL.
Qed.

Lemma parse_blames oc enc fields : forall d,
  blen enc < 2 ^ 63 ->
  Forall (fun T => is_variable_size T = false -> size_hint T <= 2 ^ 63) fields ->
  total_bytes_read d <= blen enc ->
  blames (bad_head oc enc (total_bytes_read d) (last_opt (offsets d)) (map ReadProof.kind fields)) (foldM (parse oc enc) d fields).
Proof.
  induction fields as [|T fields IH]; intros d HL HS HT; [apply blames_ok|].
  cbn [foldM map]. inversion HS as [|? ? HS1 HS2]; subst. apply blames_bind.
  - (* this field *)
    unfold parse. destruct (is_variable_size T) eqn:Hv.
    + change BYTES_PER_LENGTH_OFFSET with 4.
      rewrite uadd_ok by (unfold USIZE; lia). cbn [bind]. rewrite usub_ok by lia. cbn [bind].
      destruct (N.leb_spec (total_bytes_read d + 4) (blen enc)) as [H4|H4].
      2:{ unfold get_range. replace (total_bytes_read d + 4 <=? blen enc) with false by lia. rewrite andb_false_r.
          apply blames_err. left. exists [], (ReadProof.kind T), (map ReadProof.kind fields). cbn [map app]. change (total []) with 0. rewrite N.add_0_r.
          unfold head_size, ReadProof.kind. cbn [fst]. rewrite Hv. auto. }
      rewrite get_range_some by lia.
      replace (total_bytes_read d + 4 - total_bytes_read d) with 4 by lia. rewrite u32_at by lia. cbn [bind].
      pose proof (number4 enc (total_bytes_read d) H4) as HO.
      assert (EH : head_offsets enc (total_bytes_read d) (ReadProof.kind T :: map ReadProof.kind fields) =
                   number (sub_bytes enc (total_bytes_read d) 4) :: head_offsets enc (total_bytes_read d + 4) (map ReadProof.kind fields)).
      { cbn [head_offsets]. unfold ReadProof.kind at 1, head_size, ReadProof.kind at 1. cbn [fst]. rewrite Hv. cbn [andb].
        replace (total_bytes_read d + 4 <=? blen enc) with true by lia. reflexivity. }
      set (o := number (sub_bytes enc (total_bytes_read d) 4)) in *.
      apply blames_bind; [|intros; apply blames_ok].
      unfold check_offset. destruct (last_opt (offsets d)) as [q|] eqn:EL; [|apply blames_ok].
      assert (Hin : In (q, o) (neighbours (before (Some q) (head_offsets enc (total_bytes_read d) (ReadProof.kind T :: map ReadProof.kind fields))))).
      { rewrite EH. cbn [before neighbours]. left. reflexivity. }
      destruct (N.ltb_spec o q) as [C1|C1]; [apply blames_err; right; left; exists q, o; auto|].
      destruct (blen enc <? q) eqn:C2.
      { rewrite wrapped_sub by (auto; lia). destruct oc; [apply blames_panic|]. cbn [bind]. rewrite usub_ok by lia. cbn [bind].
        apply blames_err. right. right. split; [reflexivity|]. exists q, o. rewrite C2. split; [exact Hin|]. split; [exact C1|]. split; [lia|reflexivity]. }
      destruct (blen enc <? o) eqn:C3; [|apply blames_ok].
      rewrite wrapped_sub by (auto; lia). destruct oc; [apply blames_panic|]. cbn [bind]. rewrite usub_ok by lia. cbn [bind].
      apply blames_err. right. right. split; [reflexivity|]. exists q, o. rewrite C2. split; [exact Hin|]. split; [exact C1|]. split; [lia|reflexivity].
    + specialize (HS1 eq_refl). rewrite uadd_ok by (unfold USIZE; lia). cbn [bind].
      replace (blen enc <? total_bytes_read d) with false by lia.
      destruct (N.ltb_spec (blen enc) (total_bytes_read d + size_hint T)) as [C|C]; [|apply blames_ok].
      rewrite usub_ok by lia. cbn [bind]. apply blames_err. left. exists [], (ReadProof.kind T), (map ReadProof.kind fields).
      cbn [map app]. change (total []) with 0. rewrite N.add_0_r. unfold head_size, ReadProof.kind. cbn [fst snd]. rewrite Hv. auto.
  - (* the others *)
    intros d' HP. unfold parse in HP. destruct (is_variable_size T) eqn:Hv.
    + change BYTES_PER_LENGTH_OFFSET with 4 in HP.
      rewrite uadd_ok in HP by (unfold USIZE; lia). cbn [bind] in HP. rewrite usub_ok in HP by lia. cbn [bind] in HP.
      destruct (N.leb_spec (total_bytes_read d + 4) (blen enc)) as [H4|H4].
      2:{ unfold get_range in HP. replace (total_bytes_read d + 4 <=? blen enc) with false in HP by lia. rewrite andb_false_r in HP. discriminate. }
      rewrite get_range_some in HP by lia.
      replace (total_bytes_read d + 4 - total_bytes_read d) with 4 in HP by lia. rewrite u32_at in HP by lia. cbn [bind] in HP.
      assert (EH : head_offsets enc (total_bytes_read d) (ReadProof.kind T :: map ReadProof.kind fields) =
                   number (sub_bytes enc (total_bytes_read d) 4) :: head_offsets enc (total_bytes_read d + 4) (map ReadProof.kind fields)).
      { cbn [head_offsets]. unfold ReadProof.kind at 1, head_size, ReadProof.kind at 1. cbn [fst]. rewrite Hv. cbn [andb].
        replace (total_bytes_read d + 4 <=? blen enc) with true by lia. reflexivity. }
      set (o := number (sub_bytes enc (total_bytes_read d) 4)) in *.
      apply bind_ok_inv in HP as (u & HC & HP). injection HP as <-.
      specialize (IH {| segments := segments d ++ [SOffset]; offsets := offsets d ++ [o]; total_bytes_read := total_bytes_read d + 4 |}).
      cbn [offsets total_bytes_read] in IH. rewrite last_opt_snoc in IH.
      eapply blames_weaken; [|apply IH; auto]. intros e HB. apply (bad_head_cons _ _ _ _ _ _ _ (Some o)).
      * rewrite EH. unfold head_size, ReadProof.kind at 1. cbn [fst]. rewrite Hv. intros p Hp. apply neighbours_before. exact Hp.
      * unfold head_size, ReadProof.kind at 1. cbn [fst]. rewrite Hv. exact HB.
    + specialize (HS1 eq_refl). rewrite uadd_ok in HP by (unfold USIZE; lia). cbn [bind] in HP.
      replace (blen enc <? total_bytes_read d) with false in HP by lia.
      destruct (N.ltb_spec (blen enc) (total_bytes_read d + size_hint T)) as [C|C].
      { rewrite usub_ok in HP by lia. discriminate. }
      injection HP as <-.
      specialize (IH {| segments := segments d ++ [SFixed (total_bytes_read d) (total_bytes_read d + size_hint T)];
                      offsets := offsets d; total_bytes_read := total_bytes_read d + size_hint T |}).
      cbn [offsets total_bytes_read] in IH.
      eapply blames_weaken; [|apply IH; auto]. intros e HB. apply (bad_head_cons _ _ _ _ _ _ _ (last_opt (offsets d))).
      * cbn [head_offsets]. unfold head_size. cbn [ReadProof.kind fst snd]. rewrite Hv. cbn [andb app]. auto.
      * unfold head_size, ReadProof.kind at 1. cbn [fst snd]. rewrite Hv. exact HB.
Qed.

Lemma finalize_loop_blames oc enc items : forall prev s total spans,
  chain (blen enc) prev items ->
  total + (blen enc - first_off (blen enc) items) < USIZE ->
  match finalize_loop oc enc (segs_from s items) (ioffs items ++ [blen enc]) total spans with
  | Ok (tot, _) => first_off (blen enc) items <= blen enc /\ tot = total + (blen enc - first_off (blen enc) items)
  | Err e => exists o, In o (ioffs items) /\ blen enc < o /\ e = ExpectedFurtherInput (blen enc) o
  | Panic _ => True
  end.
Proof.
  induction items as [|[b|o] items IH]; intros prev s total spans HC HT.
  - cbn [segs_from ioffs finalize_loop app]. unfold first_off. cbn [ioffs hd]. lia.
  - cbn [segs_from ioffs finalize_loop app]. apply (IH prev); auto.
  - cbn [segs_from ioffs finalize_loop app]. cbn [chain] in HC. destruct HC as [_ HC].
    assert (Hn : exists rest, ioffs items ++ [blen enc] = first_off (blen enc) items :: rest).
    { unfold first_off. destruct (ioffs items); cbn; eauto. }
    destruct Hn as (rest & Hn). rewrite Hn.
    destruct (blen enc <? o) eqn:C1; [exists o; split; [left; reflexivity|]; split; [lia|reflexivity]|].
    destruct (blen enc <? first_off (blen enc) items) eqn:C2.
    { exists (first_off (blen enc) items). split; [|split; [lia|reflexivity]]. right. unfold first_off in *.
      destruct (ioffs items); [cbn [hd] in C2; lia|left; reflexivity]. }
    pose proof (chain_first _ _ _ HC ltac:(lia)) as [G1 G2].
    unfold first_off at 1 in HT. cbn [ioffs hd] in HT.
    rewrite usub_ok by lia. cbn [bind]. rewrite uadd_ok by lia. cbn [bind]. rewrite <- Hn.
    specialize (IH (Some o) (s + 4) (total + (first_off (blen enc) items - o)) (spans ++ [o; first_off (blen enc) items]) HC ltac:(lia)).
    destruct (finalize_loop _ _ _ _ _ _) as [[tot sp]|x|q]; [| |exact I].
    + unfold first_off at 1 2. cbn [ioffs hd]. lia.
    + destruct IH as (o' & H1 & H2 & H3). exists o'. split; [right; exact H1|]. auto.
Qed.

Lemma fields_blame oc fields (fs : list ((bool * N) * (bytes -> DeserializeError -> Prop))) enc :
  blen enc < 2 ^ 63 ->
  Forall (fun T => is_variable_size T = false -> size_hint T <= 2 ^ 63) fields ->
  map ReadProof.kind fields = map fst fs ->
  Forall2 (fun T f => forall b, blen b <= blen enc -> blames (snd f b) (deserialize T b)) fields fs ->
  blames (bad_fields oc fs enc) (container_deserialize oc fields enc).
Proof.
  intros HL HS HK HD. unfold bad_fields. rewrite <- HK. set (ks := map ReadProof.kind fields).
  pose proof (parse_blames oc enc fields container_deserializer_default HL HS (N.le_0_l _)) as HP.
  change (offsets container_deserializer_default) with (@nil N) in HP. change (@last_opt N []) with (@None N) in HP.
  change (total_bytes_read container_deserializer_default) with 0 in HP. fold ks in HP.
  destruct (foldM (parse oc enc) container_deserializer_default fields) as [d|x|p] eqn:EP.
  - destruct (parse_fold_inv oc enc fields container_deserializer_default _ HL HS (N.le_0_l _) EP) as (items & HF & H1 & H2 & HCh & Hd).
    cbn [container_deserializer_default segments offsets total_bytes_read app] in *. rewrite N.add_0_l in *.
    assert (HKI : Forall2 item_kind ks items).
    { unfold ks. clear - HF. induction HF; constructor; [apply item_for_kind; auto|auto]. }
    assert (HE : enc = [] ++ ibytes items ++ dropN (blen (ibytes items)) enc).
    { cbn [app]. rewrite dropN_0 in H2. rewrite H2 at 1. symmetry. apply takeN_dropN. }
    pose proof (items_offsets _ _ HKI _ _ _ HE) as EO. change (blen (@nil byte)) with 0 in EO.
    pose proof (items_head _ _ HKI) as EH.
    destruct (finalize oc enc d) as [spans|x|p] eqn:EF.
    + destruct (container_stages oc fields enc d spans HL HS EP EF) as (es & G1 & G2 & G3 & E). rewrite E.
      destruct (layout_fields fields es G1 G3) as [C1 C2]. rewrite <- G2 in C1, C2. fold ks in C1, C2.
      apply andb_true_iff in C1 as [C1 CA]. apply andb_true_iff in C1 as [CH CF].
      intros e HE'. apply mapM_err_inv in HE' as ([T b] & Hin & HDe). cbn [fst snd] in HDe.
      right. right. right. right. right.
      assert (HB : blen b <= blen enc).
      { apply in_combine_r in Hin. apply in_map_iff in Hin as (z & <- & Hz). rewrite G2. apply clayout_part_le; auto. }
      assert (HX : exists f s, In (f, s) (combine fs (field_spans 0 ks (head_offsets enc 0 ks ++ [blen enc]))) /\
                      snd f (sub_bytes enc (fst s) (snd s)) e).
      { clear CA CH CF EF E EP HP. revert C2 Hin. generalize (field_spans 0 ks (head_offsets enc 0 ks ++ [blen enc])) as sp.
        generalize (map snd es) as bodies. clear - HD HDe HB. induction HD as [|T' f fields fs HT _ IH]; intros bodies sp C2 Hin; [contradiction|].
        destruct bodies as [|b' bodies]; [contradiction|]. destruct sp as [|s sp]; [discriminate|].
        cbn [map] in C2. injection C2 as E1 E2. cbn [combine] in *. destruct Hin as [Hin|Hin].
        - injection Hin as -> ->. exists f, s. split; [left; reflexivity|]. rewrite E1. apply HT; [exact HB|exact HDe].
        - destruct (IH _ _ E2 Hin) as (g & s' & K1 & K2). exists g, s'. split; [right; exact K1|exact K2]. }
      destruct HX as (f & s & K1 & K2). exists f, s. split; [exact K1|]. split; [lia|].
      split; [|split; [|exact K2]].
      * destruct (head_offsets enc 0 ks); cbn [app hd] in *; lia.
      * apply Forall_forall. intros q Hq. rewrite forallb_forall in CA. specialize (CA q Hq). lia.
    + unfold container_deserialize. rewrite EP. cbn [bind]. rewrite EF. cbn [bind]. apply blames_err.
      subst d. unfold finalize in EF. cbn [segments offsets total_bytes_read] in EF.
      pose proof (finalize_loop_blames oc enc items None 0 (blen (ibytes items)) [] HCh ltac:(unfold USIZE; lia)) as G.
      destruct (finalize_loop _ _ _ _ _ _) as [[tot sp]|y|q]; cbn [bind] in EF; [| |discriminate].
      * destruct G as [GF ->]. right. right. right. right. left. rewrite EH, EO. fold (first_off (blen enc) items).
        split; [lia|]. split; [exact GF|]. unfold wrong_length.
        destruct (blen enc <? _) eqn:C1; [apply err_inj in EF; subst x; left; split; [lia|reflexivity]|].
        destruct (_ <? blen enc) eqn:C2; [apply err_inj in EF; subst x; right; split; [lia|reflexivity]|discriminate].
      * apply err_inj in EF. subst y. right. right. right. left. rewrite EO. exact G.
    + unfold container_deserialize. rewrite EP. cbn [bind]. rewrite EF. apply blames_panic.
  - unfold container_deserialize. rewrite EP. cbn [bind]. apply blames_err.
    destruct (HP x eq_refl) as [(pre & y & post & E & G1 & G2 & G3)|[G|G]].
    + left. exists pre, y, post. rewrite !N.add_0_l in *. cbv zeta. auto.
    + right. left. exact G.
    + right. right. left. exact G.
  - unfold container_deserialize. rewrite EP. apply blames_panic.
Qed.

(** ** Bits *)

Lemma last_opt_split (b : bytes) x : last_opt b = Some x -> exists p, b = p ++ [x].
Proof.
  unfold last_opt. destruct (rev b) as [|y r] eqn:E; [discriminate|]. intros H. injection H as ->.
  exists (rev r). rewrite <- (rev_involutive b), E. reflexivity.
Qed.

Lemma shiftr_small x k : N.shiftr x k = 0 <-> x < 2 ^ k.
Proof.
  rewrite N.shiftr_div_pow2. assert (HP : 2 ^ k <> 0) by (apply N.pow_nonzero; lia).
  split; intros H; [apply N.div_small_iff; auto|apply N.div_small; exact H].
Qed.

Lemma bitvector_blames n b : 0 < n -> blames (fault true (TBitvector n) b) (bitvector_deserialize n b).
Proof.
  intros Hn. unfold bitvector_deserialize. replace (n =? 0) with false by lia. rewrite byte_length_bits_bytes. unfold bits_bytes.
  cbn [fault]. destruct (N.ltb_spec (blen b) ((n + 7) / 8)); [apply blames_err; left; left; auto|].
  destruct (N.ltb_spec ((n + 7) / 8) (blen b)); [apply blames_err; left; right; auto|].
  destruct (N.eqb_spec (n mod 8) 0) as [|HM]; cbn [negb]; [apply blames_ok|].
  destruct (last_opt b) as [x|] eqn:EL; [|apply blames_panic].
  destruct (N.eqb_spec (N.shiftr (byte_to_N x) (n mod 8)) 0) as [|HS]; cbn [negb]; [apply blames_ok|].
  apply blames_err. right. apply last_opt_split in EL as (p & E). exists p, x. split; [exact E|]. split; [exact HM|].
  split; [rewrite shiftr_small in HS; lia|]. split; [lia|reflexivity].
Qed.

Lemma bitlist_blames oc n b : n + 8 < 2 ^ 64 -> blames (fault oc (TBitlist n) b) (bitlist_deserialize oc n b).
Proof.
  intros Hn e HE. cbn [fault]. destruct (last_cases b) as [->|(p & x & ->)].
  { apply err_inj in HE. left. auto. }
  destruct (N.ltb_spec (n / 8 + 1) (blen (p ++ [x]))) as [HB|HB].
  { unfold bitlist_deserialize in HE. rewrite rev_app_distr in HE. cbn [rev app] in HE. rewrite bitlist_byte_length_ok in HE by auto.
    cbn [bind] in HE. replace (n / 8 + 1 <? blen (p ++ [x])) with true in HE by lia. apply err_inj in HE. right. left. auto. }
  destruct (byte_eqb x x00) eqn:Ex.
  { unfold bitlist_deserialize in HE. rewrite rev_app_distr in HE. cbn [rev app] in HE. rewrite bitlist_byte_length_ok in HE by auto.
    cbn [bind] in HE. replace (n / 8 + 1 <? blen (p ++ [x])) with false in HE by lia. rewrite Ex in HE. apply err_inj in HE.
    assert (x = x00) by (destruct x; try discriminate; reflexivity). subst x. right. right. left. exists p. auto. }
  assert (Hx : x <> x00) by (intros ->; discriminate).
  rewrite blen_app in HB. change (blen [x]) with 1 in HB.
  rewrite bitlist_deserialize_snoc in HE by (auto; lia). cbv zeta in HE. destruct (bitlist_bits p x Hx) as [HL _]. rewrite HL in HE.
  rewrite top_log2 in HE by exact Hx. destruct (N.ltb_spec n (8 * blen p + N.log2 (byte_to_N x))); [|discriminate].
  apply err_inj in HE. right. right. right. exists p, x. auto.
Qed.

Lemma two_or_more x : byte_eqb x x00 = false -> byte_eqb x x01 = false -> 1 < byte_to_N x.
Proof. destruct x; cbn; intros; try discriminate; reflexivity. Qed.

(** ** All types *)

Theorem decode_blames oc t : legal t = true -> forall b, blen b < 2 ^ 63 ->
  blames (fault oc t b) (deserialize (serializable oc t) b).
Proof.
  induction t using ty_ind'; intros HL b HB; cbn [serializable].
  - cbn [bool_impl deserialize fault]. unfold bool_deserialize.
    destruct b as [|x [|y b]].
    + apply blames_err. left. left. split; reflexivity.
    + destruct (byte_eqb x x00) eqn:E0; [apply blames_ok|]. destruct (byte_eqb x x01) eqn:E1; [apply blames_ok|].
      apply blames_err. right. exists x. split; [reflexivity|]. split; [apply two_or_more; auto|reflexivity].
    + apply blames_err. left. right. split; [rewrite !blen_cons; lia|reflexivity].
  - cbn [uint_impl deserialize fault]. replace (N.of_nat (spec_uint_size w)) with (bits_to_bytes (uint_bits w)) by (destruct w; reflexivity).
    apply blames_bind; [apply uint_blames|]. intros; apply blames_ok.
  - cbn [u256_impl uint_impl deserialize fault]. change U256_BYTE_COUNT with 32. apply blames_bind; [apply uint_blames|]. intros; apply blames_ok.
  - cbn [node_impl deserialize fault]. unfold node_deserialize, BYTES_PER_CHUNK.
    destruct (N.ltb_spec (blen b) 32); [apply blames_err; left; auto|].
    destruct (N.ltb_spec 32 (blen b)); [apply blames_err; right; auto|]. rewrite slice_ok by lia. apply blames_ok.
  - cbn [legal] in HL. rewrite !andb_true_iff in HL. destruct HL as [[[L1 L2] L3] L4].
    cbn [vector_impl deserialize fault]. unfold vector_deserialize. replace (n =? 0) with false by lia.
    apply blames_bind; [eapply blames_weaken; [|apply check_fixed_blames]; auto|]. intros [] HC.
    destruct (homogeneous_blames oc t (fault oc t) b L4) as [G1 G2].
    { intros HV. rewrite (check_fixed_length_inv _ _ _ _ HC HV). apply mod_mul_ok. }
    { intros b' Hb'. apply IHt; auto. lia. }
    apply blames_bind; [eapply blames_weaken; [|exact G1]; auto|]. intros l Hl. specialize (G2 l Hl).
    unfold vector_try_from. replace (n =? 0) with false by lia.
    destruct (N.eqb_spec (blen l) n) as [EN|EN]; cbn [negb map_err bind]; [apply blames_ok|]. apply blames_err.
    right. right. destruct (spec_variable t) eqn:HV.
    + unfold found_elements in *. cbn [snd vector_try_from_err]. rewrite <- G2. auto.
    + exfalso. apply EN. rewrite G2. unfold found_elements. rewrite (check_fixed_length_inv _ _ _ _ HC HV).
      apply N.div_mul. pose proof (legal_fixed_size t L4 HV). lia.
  - cbn [legal] in HL. rewrite !andb_true_iff in HL. destruct HL as [[[L1 L2] L3] L4].
    cbn [array_impl deserialize fault]. unfold array_deserialize. replace (n =? 0) with false by lia.
    apply blames_bind; [eapply blames_weaken; [|apply check_fixed_blames]; auto|]. intros [] HC.
    destruct (homogeneous_blames oc t (fault oc t) b L4) as [G1 G2].
    { intros HV. rewrite (check_fixed_length_inv _ _ _ _ HC HV). apply mod_mul_ok. }
    { intros b' Hb'. apply IHt; auto. lia. }
    apply blames_bind; [eapply blames_weaken; [|exact G1]; auto|]. intros l Hl. specialize (G2 l Hl).
    destruct (N.eqb_spec (blen l) n) as [EN|EN]; [apply blames_ok|]. apply blames_err.
    right. right. destruct (spec_variable t) eqn:HV.
    + unfold found_elements in *. rewrite <- G2. auto.
    + exfalso. apply EN. rewrite G2. unfold found_elements. rewrite (check_fixed_length_inv _ _ _ _ HC HV).
      apply N.div_mul. pose proof (legal_fixed_size t L4 HV). lia.
  - cbn [legal] in HL. rewrite !andb_true_iff in HL. destruct HL as [L1 L4].
    cbn [list_impl deserialize fault]. unfold list_deserialize. rewrite is_variable_size_spec, size_hint_spec.
    set (first_step := if negb (spec_variable t) then _ else Ok tt).
    assert (HF : blames (fun e => spec_variable t = false /\ blen b mod fixed_size t <> 0 /\
                   e = AdditionalInput (blen b) (blen b - blen b mod fixed_size t)) first_step /\
                 (first_step = Ok tt -> spec_variable t = false -> blen b mod fixed_size t = 0)).
    { unfold first_step. destruct (spec_variable t) eqn:HV; cbn [negb]; [split; [apply blames_ok|discriminate]|].
      pose proof (legal_fixed_size t L4 HV) as HZ. unfold rem_len. replace (fixed_size t =? 0) with false by lia. cbn [bind].
      destruct (N.eqb_spec (blen b mod fixed_size t) 0) as [EM|EM]; cbn [negb]; [split; [apply blames_ok|auto]|].
      rewrite usub_ok by (apply N.mod_le; lia). cbn [bind]. split; [apply blames_err; auto|discriminate]. }
    destruct HF as [HF1 HF2]. apply blames_bind; [eapply blames_weaken; [|exact HF1]; auto|]. intros [] HC.
    destruct (homogeneous_blames oc t (fault oc t) b L4 (HF2 HC)) as [G1 G2].
    { intros b' Hb'. apply IHt; auto. lia. }
    apply blames_bind; [eapply blames_weaken; [|exact G1]; auto|]. intros l Hl. specialize (G2 l Hl). rewrite G2.
    unfold list_try_from. rewrite G2. destruct (N.ltb_spec n (found_elements (spec_variable t) (fixed_size t) b)).
    + apply blames_err. right. right. auto.
    + apply blames_ok.
  - cbn [legal] in HL. cbn [bitvector_impl deserialize]. apply (bitvector_blames n b). lia.
  - cbn [legal] in HL. cbn [bitlist_impl deserialize]. apply bitlist_blames. lia.
  - cbn [legal] in HL. rewrite !andb_true_iff in HL. destruct HL as [[L1 L2] L3].
    cbn [container_impl deserialize fault]. apply blames_bind; [|intros; apply blames_ok].
    apply fields_blame; [auto|apply fields_size_ok; auto| |].
    + rewrite !map_map. apply map_ext. intros f. unfold ReadProof.kind. cbn [fst]. rewrite is_variable_size_spec, size_hint_spec. reflexivity.
    + rewrite forallb_forall in L3. clear L1 L2. induction fs as [|f fs IH]; cbn [map]; constructor.
      * intros b' Hb'. cbn [snd]. inversion H; subst. apply H2; [apply L3; left; reflexivity|lia].
      * inversion H; subst. apply IH; auto. intros; apply L3; right; auto.
  - cbn [newtype_impl deserialize fault]. apply blames_bind; [|intros; apply blames_ok]. apply IHt; auto.
  - cbn [option_impl deserialize fault]. unfold option_deserialize.
    destruct b as [|x b]; [apply blames_err; left; auto|].
    destruct (byte_eqb x x00) eqn:E0.
    + assert (x = x00) by (destruct x; try discriminate; reflexivity). subst x. rewrite blen_cons.
      destruct (N.eqb_spec (blen b + 1) 1) as [E|E]; cbn [negb]; [apply blames_ok|]. apply blames_err. right. left. exists b.
      split; [reflexivity|]. split; [intros ->; apply E; reflexivity|reflexivity].
    + destruct (byte_eqb x x01) eqn:E1.
      * assert (x = x01) by (destruct x; try discriminate; reflexivity). subst x. rewrite blen_cons in HB.
        apply blames_bind; [|intros; apply blames_ok]. eapply blames_weaken; [|apply IHt; [exact HL|lia]].
        intros e He. right. right. left. exists b. auto.
      * apply blames_err. right. right. right. exists x, b. split; [reflexivity|]. split; [apply two_or_more; auto|reflexivity].
  - cbn [legal] in HL. apply andb_true_iff in HL as [HLV HL]. rewrite forallb_forall in HL.
    rewrite Forall_forall in H. cbn [union_impl deserialize fault]. unfold union_deserialize.
    destruct b as [|x b]; [apply blames_err; left; auto|]. rewrite blen_cons in *. rewrite nth_error_map.
    assert (HX : forall A (r : res DeserializeError A),
      blames (fun e => match nth_error (map (option_map (fault oc)) vs) (N.to_nat (byte_to_N x)) with
         | Some (Some f) => f b e
         | Some None => b <> [] /\ e = AdditionalInput (blen b + 1) 1
         | None => e = InvalidByte x
         end) r -> blames (fun e => (x :: b = [] /\ e = ExpectedFurtherInput 0 1) \/
         exists y r, x :: b = y :: r /\ match nth_error (map (option_map (fault oc)) vs) (N.to_nat (byte_to_N y)) with
         | Some (Some f) => f r e
         | Some None => r <> [] /\ e = AdditionalInput (blen b + 1) 1
         | None => e = InvalidByte y
         end) r).
    { intros A r Hr e He. right. exists x, b. split; [reflexivity|]. apply (Hr e He). }
    apply HX. rewrite nth_error_map. destruct (nth_error vs (N.to_nat (byte_to_N x))) as [[t|]|] eqn:E; cbn [option_map].
    + pose proof (nth_error_In _ _ E) as Hin. apply blames_bind; [|intros; apply blames_ok].
      apply (H _ Hin); [apply (HL _ Hin)|lia].
    + destruct (N.eqb_spec (blen b + 1) 1) as [E1|E1]; cbn [negb]; [apply blames_ok|]. apply blames_err.
      split; [intros ->; apply E1; reflexivity|reflexivity].
    + apply blames_err. reflexivity.
  - cbn [legal] in HL. rewrite !andb_true_iff in HL. destruct HL as [[L1 L2] L3].
    rewrite forallb_forall in L3. rewrite Forall_forall in H.
    cbn [transparent_impl deserialize fault]. unfold transparent_deserialize.
    destruct b as [|x b0]; [apply blames_err; left; auto|]. set (b := x :: b0) in *.
    intros e HE. right. split; [discriminate|].
    assert (HT : forall l, try_variants l b = Err e -> e = NoMatchingVariant /\
                   forall T, In T l -> exists e', deserialize T b = Err e').
    { induction l as [|T l IH]; cbn [try_variants]; intros HV; [apply err_inj in HV; split; [auto|contradiction]|].
      destruct (deserialize T b) as [v|e'|p] eqn:ET; try discriminate. destruct (IH HV) as [I1 I2]. split; [exact I1|].
      intros U [<-|HU]; [eauto|auto]. }
    destruct (HT _ HE) as [H1 H2]. split; [exact H1|]. intros f Hf. apply in_map_iff in Hf as (u & <- & Hu).
    destruct (H2 (serializable oc u)) as (e' & HE').
    { apply -> in_rev. apply in_map. exact Hu. }
    exists e'. apply (H u Hu (L3 u Hu) b HB e' HE').
Qed.

(** ** An input with a fault is not decoded *)

Definition unread {A} (r : reading A) : Prop := forall a, r <> Reads a.

Lemma unread_then {A B} (r : reading A) (f : A -> reading B) : unread r -> unread (then_ r f).
Proof. intros HR b. destruct r; cbn [then_]; [exfalso; eapply HR; reflexivity|discriminate|discriminate]. Qed.

Lemma unread_condition {A} c (r : reading A) : (c = true -> unread r) -> unread (on_condition c r).
Proof. intros HR b. destruct c; cbn [on_condition]; [apply HR; reflexivity|discriminate]. Qed.

Lemma unread_all {A} (rs : list (reading A)) r : In r rs -> unread r -> unread (read_all rs).
Proof.
  induction rs as [|x rs IH]; intros Hin HR; [contradiction|]. cbn [read_all]. destruct Hin as [->|Hin]; [apply unread_then; exact HR|].
  intros l. destruct x as [a| |]; cbn [then_]; try discriminate. apply unread_then. apply IH; auto.
Qed.

Lemma read_all_blen {A} (rs : list (reading A)) : forall l, read_all rs = Reads l -> blen l = blen rs.
Proof.
  induction rs as [|x rs IH]; intros l H; cbn [read_all] in H; [injection H as <-; reflexivity|].
  destruct x as [a| |]; cbn [then_] in H; try discriminate. destruct (read_all rs) as [l'| |]; cbn [then_] in H; try discriminate.
  injection H as <-. rewrite !blen_cons, (IH l' eq_refl). reflexivity.
Qed.

Lemma wrong_length_neq n b e : wrong_length n b e -> blen b =? n = false.
Proof. intros [[H _]|[H _]]; lia. Qed.

Lemma bad_elements_unread variable size (f : bytes -> DeserializeError -> Prop) (g : bytes -> reading val) b e :
  (forall b' e', f b' e' -> unread (g b')) -> bad_elements variable size f b e -> unread (read_elements variable size g b).
Proof.
  intros HF HE. unfold bad_elements, read_elements in *. destruct variable.
  - destruct HE as [HE HB]. destruct b as [|x b0]; [congruence|]. set (b := x :: b0) in *. clearbody b. clear x b0.
    fold (first_offset b). fold (offset_pairs b). apply unread_condition. intros HC.
    apply andb_true_iff in HC as [HC HM]. apply andb_true_iff in HC as [H4 HL].
    destruct HB as [[H1 _]|[(H1 & H2 & _)|[(H1 & H2 & _)|(H1 & H2 & H3 & s & x & Hin & HB)]]]; try (exfalso; lia).
    apply (unread_all _ (read_span g b (s, x))); [apply in_map; exact Hin|].
    unfold read_span. cbn [fst snd]. destruct HB as [[HB _]|[HB HG]].
    + replace (x <? s) with true by lia. intros a. discriminate.
    + replace (x <? s) with false by lia. replace (blen b <? x) with false by lia. eapply HF. exact HG.
  - destruct HE as (i & Hi & HE). apply unread_condition. intros _.
    apply (unread_all _ (g (sub_bytes b (i * size) size))); [|eapply HF; exact HE].
    apply in_map_iff. exists i. split; [reflexivity|]. unfold count_to. apply in_map_iff. exists (N.to_nat i).
    split; [lia|]. apply in_seq. lia.
Qed.

Lemma read_elements_count variable size g b l :
  read_elements variable size g b = Reads l -> blen l = found_elements variable size b.
Proof.
  unfold read_elements, found_elements. destruct variable.
  - destruct b as [|x b0]; [intros H; injection H as <-; reflexivity|]. set (b := x :: b0) in *. clearbody b. clear x b0.
    fold (first_offset b). fold (offset_pairs b). unfold on_condition. destruct (_ && _); [|discriminate].
    intros H. apply read_all_blen in H. rewrite H, blen_map. apply blen_offset_pairs.
  - unfold on_condition. destruct (_ =? _); [|discriminate]. intros H. apply read_all_blen in H.
    rewrite H, blen_map. apply blen_count_to.
Qed.

Lemma ascend_all len l : forallb (fun p => fst p <=? snd p) (neighbours (l ++ [len])) = true -> Forall (fun o => o <= len) l.
Proof.
  induction l as [|a l IH]; [constructor|]. destruct l as [|c l]; cbn [app neighbours forallb fst snd] in *; intros HA;
    apply andb_true_iff in HA as [H1 H2].
  - constructor; [lia|constructor].
  - specialize (IH H2). constructor; [|exact IH]. inversion IH; subst. lia.
Qed.

Lemma ascend_pairs len l p : forallb (fun p => fst p <=? snd p) (neighbours (l ++ [len])) = true -> In p (neighbours l) -> fst p <= snd p.
Proof.
  induction l as [|a l IH]; [contradiction|]. destruct l as [|c l]; cbn [app neighbours forallb] in *; [contradiction|]. intros HA Hin.
  apply andb_true_iff in HA as [H1 H2]. destruct Hin as [<-|Hin]; [lia|apply IH; auto].
Qed.

Lemma pairs_in (l : list N) a c : In (a, c) (neighbours l) -> In c l.
Proof.
  induction l as [|x l IH]; [contradiction|]. destruct l as [|y l]; cbn [neighbours] in *; [contradiction|].
  intros [H|H]; [injection H as -> ->; right; left; reflexivity|right; apply IH; exact H].
Qed.

Lemma bad_fields_unread oc fs gs b e :
  Forall2 (fun (f : (bool * N) * (bytes -> DeserializeError -> Prop)) (g : field) =>
    fst f = fst g /\ forall b' e', snd f b' e' -> unread (snd g b')) fs gs ->
  bad_fields oc fs b e -> unread (read_fields oc gs b).
Proof.
  intros HF HB. unfold bad_fields, read_fields in *.
  assert (HK : map fst fs = map fst gs).
  { clear - HF. induction HF as [|f g fs gs [H _] _ IH]; [reflexivity|]. cbn [map]. rewrite H, IH. reflexivity. }
  rewrite HK in HB. set (ks := map fst gs) in *. destruct (oc && overrun (blen b) (head_offsets b 0 ks)); [intros a; discriminate|].
  apply unread_condition. intros HC. apply andb_true_iff in HC as [HC HA]. apply andb_true_iff in HC as [HH HO].
  assert (EH : hd 0 (head_offsets b 0 ks ++ [blen b]) = hd (blen b) (head_offsets b 0 ks)) by (destruct (head_offsets b 0 ks); reflexivity).
  rewrite EH in HO.
  destruct HB as [(pre & x & post & E & H1 & H2 & _)|[(s & f & Hin & H & _)|[(_ & s & f & Hin & H1 & H2 & _)|[(o & Hin & H & _)|[(H1 & H2 & H3)|(f & s & Hin & _ & _ & _ & H)]]]]].
  - exfalso. rewrite E, map_app, total_app in HH. cbn [map] in HH. rewrite total_cons in HH. lia.
  - exfalso. pose proof (ascend_pairs _ _ _ HA Hin) as G. cbn [fst snd] in G. lia.
  - exfalso. pose proof (ascend_all _ _ HA) as G. rewrite Forall_forall in G. specialize (G f (pairs_in _ _ _ Hin)). lia.
  - exfalso. pose proof (ascend_all _ _ HA) as G. rewrite Forall_forall in G. specialize (G o Hin). lia.
  - exfalso. destruct H3 as [[H3 _]|[H3 _]]; lia.
  - clear - HF Hin H. revert Hin. generalize (field_spans 0 ks (head_offsets b 0 ks ++ [blen b])) as sp.
    induction HF as [|f' g fs gs [_ HG] _ IH]; intros sp Hin; [contradiction|]. destruct sp as [|s' sp]; [contradiction|].
    cbn [combine map read_all] in *. destruct Hin as [Hin|Hin].
    + injection Hin as -> ->. apply unread_then. cbn [fst snd]. eapply HG. exact H.
    + intros a. match goal with |- then_ ?r _ <> _ => destruct r; cbn [then_]; try discriminate end.
      apply unread_then. apply IH. exact Hin.
Qed.

Theorem fault_unread oc t : legal t = true -> forall b e, blen b < 2 ^ 63 -> fault oc t b e -> unread (read oc t b).
Proof.
  assert (HBits : forall t b, legal t = true -> blen b < 2 ^ 63 -> (forall v, deserialize (serializable oc t) b <> Ok v) -> unread (read oc t b)).
  { intros t' b' HL HB HD v HV. pose proof (read_ok oc t' HL b' HB) as HA. destruct (deserialize (serializable oc t') b') as [w|x|p] eqn:E; cbn [agrees] in HA.
    - apply (HD w). reflexivity.
    - congruence.
    - congruence. }
  induction t using ty_ind'; intros HL b e HB HE.
  - intros v. cbn [fault read] in *. destruct HE as [[[H _]|[H _]]|(x & -> & H & _)].
    + destruct b; [discriminate|]. rewrite blen_cons in H. lia.
    + destruct b as [|x [|y b]]; [discriminate|change (blen [x]) with 1 in H; lia|]. destruct x; discriminate.
    + destruct x; cbn in H; try discriminate; lia.
  - cbn [fault read] in *. rewrite (wrong_length_neq _ _ _ HE). intros v. discriminate.
  - cbn [fault read] in *. rewrite (wrong_length_neq _ _ _ HE). intros v. discriminate.
  - cbn [fault read] in *. rewrite (wrong_length_neq _ _ _ HE). intros v. discriminate.
  - cbn [legal] in HL. rewrite !andb_true_iff in HL. destruct HL as [[[L1 L2] L3] L4]. cbn [fault read] in *. apply unread_condition. intros HC.
    destruct HE as [[HV HE]|[HE|(HV & HE & _)]].
    + rewrite (wrong_length_neq _ _ _ HE), HV in HC. discriminate.
    + destruct (N.ltb_spec (blen b) (2 ^ 63)); [|lia]. apply unread_then. apply (bad_elements_unread _ _ (fun b' e' => blen b' < 2 ^ 63 /\ fault oc t b' e') _ b e).
      { intros b' e' [G1 G2]. eapply IHt; eauto. }
      clear - HE HB. unfold bad_elements in *. destruct (spec_variable t).
      * destruct HE as [H1 HE]. split; [exact H1|]. destruct HE as [HE|[HE|[HE|(H2 & H3 & H4 & s & x & Hin & HE)]]]; auto.
        right. right. right. do 3 (split; [assumption|]). exists s, x. split; [exact Hin|]. destruct HE as [HE|[G1 G2]]; [left; exact HE|right].
        split; [exact G1|]. split; [|exact G2]. rewrite sub_bytes_eq, blen_takeN, blen_dropN. lia.
      * destruct HE as (i & Hi & HE). exists i. split; [exact Hi|]. split; [|exact HE]. rewrite sub_bytes_eq, blen_takeN, blen_dropN. lia.
    + rewrite HV in *. intros v. destruct (read_elements true (fixed_size t) (read oc t) b) as [l| |] eqn:ER; cbn [then_]; try discriminate.
      apply read_elements_count in ER. unfold found_elements in *. unfold on_condition. replace (blen l =? n) with false by lia. discriminate.
  - cbn [legal] in HL. rewrite !andb_true_iff in HL. destruct HL as [[[L1 L2] L3] L4]. cbn [fault read] in *. apply unread_condition. intros HC.
    destruct HE as [[HV HE]|[HE|(HV & HE & _)]].
    + rewrite (wrong_length_neq _ _ _ HE), HV in HC. discriminate.
    + apply unread_then. apply (bad_elements_unread _ _ (fun b' e' => blen b' < 2 ^ 63 /\ fault oc t b' e') _ b e).
      { intros b' e' [G1 G2]. eapply IHt; eauto. }
      clear - HE HB. unfold bad_elements in *. destruct (spec_variable t).
      * destruct HE as [H1 HE]. split; [exact H1|]. destruct HE as [HE|[HE|[HE|(H2 & H3 & H4 & s & x & Hin & HE)]]]; auto.
        right. right. right. do 3 (split; [assumption|]). exists s, x. split; [exact Hin|]. destruct HE as [HE|[G1 G2]]; [left; exact HE|right].
        split; [exact G1|]. split; [|exact G2]. rewrite sub_bytes_eq, blen_takeN, blen_dropN. lia.
      * destruct HE as (i & Hi & HE). exists i. split; [exact Hi|]. split; [|exact HE]. rewrite sub_bytes_eq, blen_takeN, blen_dropN. lia.
    + rewrite HV in *. intros v. destruct (read_elements true (fixed_size t) (read oc t) b) as [l| |] eqn:ER; cbn [then_]; try discriminate.
      apply read_elements_count in ER. unfold found_elements in *. unfold on_condition. replace (blen l =? n) with false by lia. discriminate.
  - cbn [legal] in HL. rewrite !andb_true_iff in HL. destruct HL as [L1 L4]. cbn [fault read] in *.
    destruct HE as [(HV & HM & _)|[HE|(HE & _)]].
    + apply unread_then. rewrite HV. unfold read_elements. apply unread_condition. intros HC. apply N.eqb_eq in HC. congruence.
    + apply unread_then. apply (bad_elements_unread _ _ (fun b' e' => blen b' < 2 ^ 63 /\ fault oc t b' e') _ b e).
      { intros b' e' [G1 G2]. eapply IHt; eauto. }
      clear - HE HB. unfold bad_elements in *. destruct (spec_variable t).
      * destruct HE as [H1 HE]. split; [exact H1|]. destruct HE as [HE|[HE|[HE|(H2 & H3 & H4 & s & x & Hin & HE)]]]; auto.
        right. right. right. do 3 (split; [assumption|]). exists s, x. split; [exact Hin|]. destruct HE as [HE|[G1 G2]]; [left; exact HE|right].
        split; [exact G1|]. split; [|exact G2]. rewrite sub_bytes_eq, blen_takeN, blen_dropN. lia.
      * destruct HE as (i & Hi & HE). exists i. split; [exact Hi|]. split; [|exact HE]. rewrite sub_bytes_eq, blen_takeN, blen_dropN. lia.
    + intros v. destruct (read_elements _ _ (read oc t) b) as [l| |] eqn:ER; cbn [then_]; try discriminate.
      apply read_elements_count in ER. unfold on_condition. rewrite ER.
      destruct (N.leb_spec (found_elements (spec_variable t) (fixed_size t) b) n); [lia|discriminate].
  - apply HBits; auto. intros v HD. cbn [serializable bitvector_impl deserialize] in HD.
    apply bitvector_deserialize_iff in HD as (Hn & HD & HR & _). unfold bits_bytes in HD. cbn [fault] in HE.
    destruct HE as [HE|(p & x & -> & HM & HX & _)]; [apply wrong_length_neq in HE; lia|].
    rewrite blen_app in HD. change (blen [x]) with 1 in HD.
    assert (HT : N.testbit (byte_to_N x) (N.log2 (byte_to_N x)) = true).
    { apply N.bit_log2. assert (0 < 2 ^ (n mod 8)) by (apply N.neq_0_lt_0, N.pow_nonzero; lia). lia. }
    assert (HG : n mod 8 <= N.log2 (byte_to_N x)).
    { apply N.log2_le_pow2; [|exact HX]. assert (0 < 2 ^ (n mod 8)) by (apply N.neq_0_lt_0, N.pow_nonzero; lia). lia. }
    specialize (HR (8 * blen p + N.log2 (byte_to_N x)) ltac:(lia)).
    assert (HL8 : N.log2 (byte_to_N x) < 8).
    { clear. destruct x; vm_compute; reflexivity. }
    rewrite raw_bit_app2 in HR by lia. replace (8 * blen p + N.log2 (byte_to_N x) - 8 * blen p) with (N.log2 (byte_to_N x)) in HR by lia.
    unfold raw_bit in HR. rewrite N.div_small, N.mod_small in HR by lia. unfold nth_byte, byte_bit in HR. cbn [N.to_nat nth] in HR.
    congruence.
  - apply HBits; auto. intros v HD. cbn [serializable bitlist_impl deserialize] in HD. cbn [legal] in HL.
    destruct (proj1 (bitlist_decode_iff oc n b ltac:(lia)) (ex_intro _ v HD)) as (p & x & -> & Hx & Hb). cbn [fault] in HE.
    destruct HE as [[HE _]|[[HE _]|[(p' & HE & _)|(p' & x' & HE & _ & H & _)]]].
    + destruct p; discriminate.
    + rewrite blen_app in HE. change (blen [x]) with 1 in HE. lia.
    + apply app_inj_tail in HE as [_ ->]. congruence.
    + apply app_inj_tail in HE as [-> ->]. lia.
  - cbn [legal] in HL. rewrite !andb_true_iff in HL. destruct HL as [[L1 L2] L3].
    cbn [fault read] in *. apply unread_then.
    apply (bad_fields_unread oc (map (fun f => ((spec_variable (snd f), fixed_size (snd f)), fun b' e' => blen b' < 2 ^ 63 /\ fault oc (snd f) b' e')) fs) _ b e).
    + rewrite forallb_forall in L3. clear L1 L2 HE. induction fs as [|f fs IH]; cbn [map]; constructor.
      * split; [reflexivity|]. cbn [snd]. intros b' e' [G1 G2]. inversion H; subst. eapply H2; eauto. apply L3. left. reflexivity.
      * inversion H; subst. apply IH; auto. intros; apply L3; right; auto.
    + clear - HE HB. unfold bad_fields in *. rewrite map_map in *. cbn [fst] in *.
      destruct HE as [HE|[HE|[HE|[HE|[HE|(f & s & Hin & G1 & G2 & G3 & HE)]]]]]; auto 7.
      right. right. right. right. right.
      revert Hin. generalize (field_spans 0 (map (fun x : String.string * ty => (spec_variable (snd x), fixed_size (snd x))) fs)
        (head_offsets b 0 (map (fun x : String.string * ty => (spec_variable (snd x), fixed_size (snd x))) fs) ++ [blen b])) as sp.
      intros sp Hin.
      assert (HX : exists f' , In (f', s) (combine (map (fun f : String.string * ty => ((spec_variable (snd f), fixed_size (snd f)), fun b' e' => blen b' < 2 ^ 63 /\ fault oc (snd f) b' e')) fs) sp) /\
                   snd f' (sub_bytes b (fst s) (snd s)) e).
      { clear G1 G2 G3. revert sp Hin. induction fs as [|g fs IH]; intros sp Hin; [contradiction|]. destruct sp as [|s' sp]; [contradiction|].
        cbn [map combine] in *. destruct Hin as [Hin|Hin].
        - injection Hin as <- ->. eexists. split; [left; reflexivity|]. cbn [snd] in *. split; [|exact HE].
          rewrite sub_bytes_eq, blen_takeN, blen_dropN. lia.
        - destruct (IH sp Hin) as (f' & I1 & I2). exists f'. split; [right; exact I1|exact I2]. }
      destruct HX as (f' & I1 & I2). exists f', s. auto.
  - cbn [fault read] in *. apply unread_then. eapply IHt; eauto.
  - cbn [fault read] in *. destruct HE as [[-> _]|[(r & -> & H & _)|[(r & -> & HE)|(x & r & -> & H & _)]]].
    + intros v. discriminate.
    + intros v. destruct r; [congruence|discriminate].
    + apply unread_then. eapply IHt; eauto. rewrite blen_cons in HB. lia.
    + intros v. destruct x; cbn in H; try lia; try discriminate; destruct r; discriminate.
  - cbn [legal] in HL. apply andb_true_iff in HL as [HLV HL]. rewrite forallb_forall in HL. rewrite Forall_forall in H.
    cbn [fault read] in *. destruct HE as [[-> _]|(x & r & -> & HE)]; [intros v; discriminate|].
    rewrite nth_error_map in *. destruct (nth_error vs (N.to_nat (byte_to_N x))) as [[t|]|] eqn:E; cbn [option_map] in *.
    + pose proof (nth_error_In _ _ E) as Hin. apply unread_then. rewrite blen_cons in HB.
      eapply (H _ Hin); [apply (HL _ Hin)|lia|exact HE].
    + destruct HE as [HE _]. destruct r; [congruence|]. rewrite blen_cons. unfold on_condition.
      replace (blen r + 1 =? 0) with false by lia. intros v. discriminate.
    + intros v. discriminate.
  - cbn [legal] in HL. rewrite !andb_true_iff in HL. destruct HL as [[L1 L2] L3].
    rewrite forallb_forall in L3. rewrite Forall_forall in H.
    cbn [fault read] in *. destruct HE as [[-> _]|(HE & _ & HV)]; [intros v; discriminate|]. destruct b as [|x b0]; [congruence|]. set (b := x :: b0) in *.
    assert (HU : forall u, In u ts -> unread (read oc u b)).
    { intros u Hu. destruct (HV (fault oc u) ltac:(apply in_map; exact Hu)) as (e' & HE'). eapply (H u Hu); eauto. }
    clear - HU. generalize 0 as i. induction ts as [|u ts IH]; intros i v; cbn [map read_last]; [discriminate|].
    specialize (IH ltac:(intros; apply HU; right; auto) (i + 1)).
    destruct (read_last (i + 1) (map (fun u => read oc u b) ts)) as [w| |] eqn:E; [exfalso; eapply IH; reflexivity| |discriminate].
    apply unread_then. apply HU. left. reflexivity.
Qed.
