(** What decoding does with every byte string. *)
From Coq Require Import List NArith ZArith Bool Lia ZifyBool ZifyNat ZifyN.
From Coq Require Import Strings.Byte.
From Verif Require Import Prelude Types Bitvec Ser De Impls Valid SpecSer SpecDecode Lib BitsLib
  SerProof SerSpec DeProof ConProof BitsDe RoundTrip DecValid SpecErr DeErr.
Import ListNotations.
Open Scope N_scope.

Ltac Zify.zify_post_hook ::= Z.div_mod_to_equations.

Definition agrees {A} (x : res DeserializeError A) (r : reading A) : Prop :=
  match x with
  | Ok a => r = Reads a
  | Err _ => r = Rejects
  | Panic _ => r = Crashes
  end.

Lemma agrees_bind {A B} (x : res DeserializeError A) r (f : A -> res DeserializeError B) g :
  agrees x r -> (forall a, x = Ok a -> agrees (f a) (g a)) -> agrees (bind x f) (then_ r g).
Proof. intros HX HF. destruct x; cbn [agrees] in HX; subst r; cbn [bind then_]; [apply HF|..]; reflexivity. Qed.

Lemma agrees_mapM {A B} (f : A -> res DeserializeError B) l rs :
  Forall2 (fun x r => agrees (f x) r) l rs -> agrees (mapM f l) (read_all rs).
Proof.
  induction 1 as [|x r l rs HX _ IH]; [reflexivity|]. cbn [mapM read_all].
  apply agrees_bind; [exact HX|]. intros a _. apply agrees_bind; [exact IH|]. reflexivity.
Qed.

Lemma agrees_mapM_same {A B} (f : A -> res DeserializeError B) g l :
  (forall x, In x l -> agrees (f x) (g x)) -> agrees (mapM f l) (read_all (map g l)).
Proof.
  intros HF. apply agrees_mapM. induction l; constructor; [apply HF; left; reflexivity|].
  apply IHl. intros; apply HF; right; auto.
Qed.

Lemma number_le b : number b = le_value b.
Proof. induction b; [reflexivity|]. cbn [number fold_right le_value]. fold (number b). rewrite IHb. reflexivity. Qed.

Lemma sub_bytes_eq b p n : sub_bytes b p n = takeN n (dropN p b).
Proof. reflexivity. Qed.

Lemma neighbours_windows l : neighbours l = windows2 l.
Proof. induction l as [|a l IH]; [reflexivity|]. destruct l; [reflexivity|]. cbn [neighbours windows2] in *. rewrite IH. reflexivity. Qed.

Lemma count_to_S n : count_to (n + 1) = 0 :: map (fun i => i + 1) (count_to n).
Proof.
  unfold count_to. replace (N.to_nat (n + 1)) with (S (N.to_nat n)) by lia.
  cbn [seq map]. f_equal. rewrite <- seq_shift, !map_map. apply map_ext. intros. lia.
Qed.

Lemma in_count_to n i : In i (count_to n) -> i < n.
Proof. unfold count_to. rewrite in_map_iff. intros (k & <- & Hk). apply in_seq in Hk. lia. Qed.

Lemma blen_count_to n : blen (count_to n) = n.
Proof. unfold count_to. rewrite blen_map. unfold blen. rewrite seq_length. lia. Qed.

(** The chunks by position. *)
Lemma chunks_by_position {A} n (l : list A) : forall fuel, 0 < n -> (length l <= fuel)%nat ->
  chunks_exact_fuel fuel n l = map (fun i => takeN n (dropN (i * n) l)) (count_to (blen l / n)).
Proof.
  intros fuel Hn. revert l. induction fuel as [|fuel IH]; intros l Hf.
  - destruct l; [|cbn in Hf; lia]. cbn [chunks_exact_fuel]. change (blen (@nil A)) with 0. rewrite N.div_0_l by lia. reflexivity.
  - cbn [chunks_exact_fuel]. destruct (N.ltb_spec (blen l) n) as [Hlt|Hge].
    + rewrite N.div_small by lia. reflexivity.
    + rewrite IH by (unfold dropN; rewrite skipn_length; unfold blen in Hge; lia).
      rewrite blen_dropN.
      replace (blen l / n) with ((blen l - n) / n + 1).
      * rewrite count_to_S. cbn [map]. rewrite N.mul_0_l, dropN_0. f_equal. rewrite map_map. apply map_ext.
        intros i. rewrite dropN_dropN. f_equal. f_equal. lia.
      * replace (blen l) with (1 * n + (blen l - n)) at 2 by lia. rewrite N.div_add_l by lia. lia.
Qed.

Lemma chunks_exact_eq {A} n (l : list A) : 0 < n ->
  @chunks_exact DeserializeError A n l = Ok (map (fun i => takeN n (dropN (i * n) l)) (count_to (blen l / n))).
Proof.
  intros Hn. unfold chunks_exact. replace (n =? 0) with false by lia. f_equal. apply chunks_by_position; auto.
Qed.

(** ** Bits *)

Lemma bits_of_nth b i : nth i (bits_of b) false = raw_bit b (N.of_nat i).
Proof.
  unfold bits_of. destruct (Nat.ltb_spec i (8 * length b)).
  - rewrite (nth_indep _ _ (N.testbit (byte_to_N (nth (Nat.div 0 8) b x00)) (N.of_nat (Nat.modulo 0 8))))
      by (rewrite map_length, seq_length; auto).
    rewrite (map_nth (fun i => N.testbit (byte_to_N (nth (Nat.div i 8) b x00)) (N.of_nat (Nat.modulo i 8)))).
    rewrite seq_nth by auto. unfold raw_bit, byte_bit, nth_byte, zero_byte. cbn [Nat.add]. f_equal.
    + f_equal. f_equal. rewrite <- (Nnat.Nat2N.id (Nat.div i 8)). f_equal. rewrite Nnat.Nat2N.inj_div. reflexivity.
    + rewrite Nnat.Nat2N.inj_mod. reflexivity.
  - rewrite nth_overflow by (rewrite map_length, seq_length; auto). symmetry. apply raw_bit_high.
    unfold blen. lia.
Qed.

Lemma bits_of_length b : length (bits_of b) = (8 * length b)%nat.
Proof. unfold bits_of. rewrite map_length, seq_length. reflexivity. Qed.

Lemma firstn_bits n b : n <= 8 * blen b -> firstn (N.to_nat n) (bits_of b) = bv_bits (BitVec b n).
Proof.
  intros Hn. apply (nth_ext _ _ false false).
  - rewrite firstn_length, bits_of_length. unfold bv_bits. rewrite map_length, seq_length. cbn [bv_len]. unfold blen in Hn. lia.
  - intros i Hi. rewrite firstn_length, bits_of_length in Hi. rewrite nth_firstn_lt by lia.
    rewrite bits_of_nth, nth_bv_bits. cbn [bv_len bv_raw]. replace (N.of_nat i <? n) with true by lia. reflexivity.
Qed.

Lemma forallb_skipn_nth n (l : list bool) : forallb negb (skipn n l) = true <-> forall i, (n <= i)%nat -> nth i l false = false.
Proof.
  revert l. induction n as [|n IH]; intros l.
  - cbn [skipn]. rewrite forallb_forall. split.
    + intros HF i _. destruct (Nat.ltb_spec i (length l)) as [Hi|Hi]; [|apply nth_overflow; auto].
      apply negb_true_iff, HF, nth_In. auto.
    + intros HF x Hx. apply In_nth with (d := false) in Hx as (i & Hi & <-). rewrite HF by lia. reflexivity.
  - destruct l as [|a l]; cbn [skipn].
    + split; [intros _ i _; destruct i; reflexivity|reflexivity].
    + rewrite IH. split; intros HF i Hi; [destruct i; [lia|]; apply HF; lia|apply (HF (S i)); lia].
Qed.

Lemma read_bitvector_ok n e : 0 < n -> agrees (bitvector_deserialize n e) (read_bitvector n e).
Proof.
  intros Hn. pose proof (bitvector_deserialize_iff n e) as HI. unfold read_bitvector, on_condition.
  destruct (_ && _) eqn:E.
  - apply andb_true_iff in E as [E1 E2]. rewrite forallb_skipn_nth in E2.
    assert (HD : bitvector_deserialize n e = Ok (VBits (BitVec e n))).
    { apply HI. split; [auto|]. split; [unfold bits_bytes; lia|]. split; [|reflexivity].
      intros i Hi. rewrite <- (Nnat.N2Nat.id i), <- bits_of_nth. apply E2. lia. }
    rewrite HD. cbn [agrees]. f_equal. unfold bits_val.
    rewrite firstn_bits by (apply N.eqb_eq in E1; lia).
    assert (HB : blen (bv_bits (BitVec e n)) = n) by (rewrite blen_bv_bits; reflexivity). rewrite HB.
    f_equal. symmetry. apply bv_of_bits.
    + unfold bv_ok. cbn [bv_raw bv_len]. unfold bits_bytes. lia.
    + intros i Hi. cbn [bv_raw bv_len] in *. rewrite <- (Nnat.N2Nat.id i), <- bits_of_nth. apply E2. lia.
  - destruct (bitvector_deserialize n e) as [v|x|p] eqn:ED; cbn [agrees]; [|reflexivity|].
    + exfalso. apply bitvector_deserialize_iff in ED as (_ & H1 & H2 & _). apply andb_false_iff in E as [E|E]; [unfold bits_bytes in H1; lia|].
      rewrite <- not_true_iff_false in E. apply E. apply forallb_skipn_nth. intros i Hi. rewrite bits_of_nth. apply H2. lia.
    + exfalso. eapply bitvector_deserialize_no_panic; eauto.
Qed.

Lemma drop_false_split l : exists k, l = repeat false k ++ drop_false l.
Proof. induction l as [|[] l [k IH]]; [exists 0%nat; reflexivity|exists 0%nat; reflexivity|]. exists (S k). cbn. f_equal. exact IH. Qed.

Lemma drop_false_repeat k l : drop_false (repeat false k ++ true :: l) = true :: l.
Proof. induction k; cbn; auto. Qed.

Lemma drop_false_true l x r : drop_false l = x :: r -> x = true.
Proof. induction l as [|[] l IH]; cbn; [discriminate|congruence|auto]. Qed.

Lemma rev_repeat {A} (x : A) n : rev (repeat x n) = repeat x n.
Proof.
  induction n; [reflexivity|]. cbn [repeat rev]. rewrite IHn. change [x] with (repeat x 1). rewrite <- repeat_app.
  replace (n + 1)%nat with (S n) by lia. reflexivity.
Qed.

(** The bits of packed bits are these bits and padding. *)
Lemma bits_of_spec_bits l :
  exists k, (k < 8)%nat /\ bits_of (spec_bits l) = l ++ repeat false k /\ (8 * length (spec_bits l) = length l + k)%nat.
Proof.
  exists (8 * length (spec_bits l) - length l)%nat.
  assert (HL : (length (spec_bits l) = (length l + 7) / 8)%nat) by (unfold spec_bits; rewrite map_length, seq_length; reflexivity).
  pose proof (Nat.div_mod (length l + 7) 8 ltac:(lia)) as HD. pose proof (Nat.mod_upper_bound (length l + 7) 8 ltac:(lia)) as HM.
  split; [lia|]. split; [|lia].
  apply (nth_ext _ _ false false).
  - rewrite bits_of_length, app_length, repeat_length. lia.
  - intros i Hi. rewrite bits_of_nth, raw_bit_spec_bits, Nnat.Nat2N.id.
    destruct (Nat.ltb_spec i (length l)).
    + rewrite app_nth1 by auto. reflexivity.
    + rewrite app_nth2, nth_repeat, nth_overflow by auto. reflexivity.
Qed.

Lemma bits_of_inj a b : bits_of a = bits_of b -> a = b.
Proof.
  intros E. apply raw_ext.
  - pose proof (f_equal (@length bool) E) as HL. rewrite !bits_of_length in HL. unfold blen. lia.
  - intros i Hi. rewrite <- (Nnat.N2Nat.id i), <- !bits_of_nth. congruence.
Qed.

(** The content of a string of bits with an end marker. *)
Lemma bitlist_content e bits :
  e = spec_bits (bits ++ [true]) <->
  drop_false (rev (bits_of e)) = true :: rev bits /\ 8 * blen e <= blen bits + 8.
Proof.
  split.
  - intros ->. destruct (bits_of_spec_bits (bits ++ [true])) as (k & Hk & E & HL). rewrite E.
    rewrite !rev_app_distr, rev_repeat. cbn [rev app]. rewrite drop_false_repeat. split; [reflexivity|].
    rewrite app_length in HL. cbn [length] in HL. unfold blen. lia.
  - intros [ED HL]. destruct (drop_false_split (rev (bits_of e))) as (k & EK). rewrite ED in EK.
    apply (f_equal (@rev bool)) in EK. rewrite rev_involutive, rev_app_distr, rev_repeat in EK. cbn [rev] in EK.
    rewrite rev_involutive in EK.
    assert (HK : (8 * length e = length bits + 1 + k)%nat).
    { apply (f_equal (@length bool)) in EK. rewrite bits_of_length, !app_length, repeat_length in EK. exact EK. }
    apply bits_of_inj. destruct (bits_of_spec_bits (bits ++ [true])) as (k' & Hk' & E' & HL'). rewrite EK, E'.
    rewrite app_length in HL'. cbn [length] in HL'. replace k' with k; [reflexivity|].
    unfold blen in HL. lia.
Qed.

Lemma read_bitlist_ok oc n e : n + 8 < 2 ^ 64 -> agrees (bitlist_deserialize oc n e) (read_bitlist n e).
Proof.
  intros Hn. unfold read_bitlist.
  assert (HI : forall bits, e = spec_bits (bits ++ [true]) -> blen bits <= n -> bitlist_deserialize oc n e = Ok (bits_val bits)).
  { intros bits E HB. apply bitlist_deserialize_iff; auto. exists bits. auto. }
  destruct (bitlist_deserialize oc n e) as [v|x|p] eqn:ED; cbn [agrees].
  - apply bitlist_deserialize_iff in ED as (bits & E & HB & ->); auto. apply bitlist_content in E as [E HL]. rewrite E.
    rewrite rev_involutive, blen_rev. replace (8 * blen e <=? blen bits + 8) with true by lia. replace (blen bits <=? n) with true by lia. reflexivity.
  - destruct (drop_false (rev (bits_of e))) as [|y r] eqn:E; [reflexivity|].
    unfold on_condition. destruct (_ && _) eqn:EC; [|reflexivity]. exfalso. apply andb_true_iff in EC as [E1 E2].
    pose proof (drop_false_true _ _ _ E) as ->.
    assert (HE : e = spec_bits (rev r ++ [true])).
    { apply bitlist_content. rewrite rev_involutive, blen_rev. split; [exact E|lia]. }
    specialize (HI _ HE). rewrite blen_rev in HI. specialize (HI ltac:(lia)). discriminate.
  - exfalso. eapply bitlist_deserialize_no_panic; eauto.
Qed.

(** ** Collections *)

Lemma uint_agrees n e : agrees (uint_deserialize n e) (on_condition (blen e =? n) (Reads (number e))).
Proof.
  pose proof (uint_deserialize_no_panic n e) as HP. unfold on_condition. rewrite number_le.
  destruct (uint_deserialize n e) as [x|x|p] eqn:E; cbn [agrees]; [..|exfalso; eapply HP; eauto].
  - apply uint_deserialize_iff in E as [E ->]. replace (blen e =? n) with true by lia. reflexivity.
  - destruct (N.eqb_spec (blen e) n) as [Hn|]; [|reflexivity]. exfalso.
    assert (G : uint_deserialize n e = Ok (le_value e)) by (apply uint_deserialize_iff; auto). congruence.
Qed.

Lemma u32_at e p : p + 4 <= blen e -> u32_deserialize (takeN 4 (dropN p e)) = Ok (number (sub_bytes e p 4)).
Proof.
  intros Hp. apply uint_deserialize_iff. rewrite takeN_length by (rewrite blen_dropN; lia). split; [reflexivity|].
  rewrite number_le. reflexivity.
Qed.

Lemma read_span_ok T f e span : (forall b, blen b <= blen e -> agrees (deserialize T b) (f b)) ->
  agrees (deserialize_span T e span) (read_span f e span).
Proof.
  intros HF. destruct span as [s x]. unfold deserialize_span, read_span. cbn [fst snd].
  destruct (N.ltb_spec x s); [reflexivity|].
  destruct (N.ltb_spec (blen e) x).
  - unfold slice, get_range. replace (x <=? blen e) with false by lia. rewrite andb_false_r. reflexivity.
  - rewrite slice_ok by lia. cbn [bind]. apply HF. rewrite ?sub_bytes_eq, blen_takeN, blen_dropN. lia.
Qed.

Lemma read_variable_ok T f e : (forall b, blen b <= blen e -> agrees (deserialize T b) (f b)) ->
  forall size, agrees (deserialize_variable_homogeneous_composite T e) (read_elements true size f e).
Proof.
  intros HF size. unfold deserialize_variable_homogeneous_composite, read_elements.
  destruct e as [|x l]; [reflexivity|]. set (e := x :: l) in *. clearbody e. clear x l.
  change BYTES_PER_LENGTH_OFFSET with 4. unfold on_condition.
  destruct (N.leb_spec 4 (blen e)) as [H4|H4]; cbn [andb].
  2:{ unfold get_range. replace (4 <=? blen e) with false by lia. rewrite andb_false_r. reflexivity. }
  rewrite get_range_some by lia. replace (4 - 0) with 4 by reflexivity. rewrite u32_at by lia. cbn [bind].
  set (first := number (sub_bytes e 0 4)).
  destruct (N.ltb_spec (blen e) first) as [HL|HL].
  { replace (first <=? blen e) with false by lia. reflexivity. }
  replace (first <=? blen e) with true by lia. cbn [andb].
  destruct (N.eqb_spec (first mod 4) 0) as [HM|HM]; cbn [negb]; [|reflexivity].
  rewrite slice_ok by lia. cbn [bind]. rewrite dropN_0, N.sub_0_r.
  rewrite chunks_exact_eq by lia. cbn [bind]. rewrite takeN_length by lia.
  assert (HO : mapM u32_deserialize (map (fun i => takeN 4 (dropN (i * 4) (takeN first e))) (count_to (first / 4))) =
               Ok (map (fun i => number (sub_bytes e (4 * i) 4)) (count_to (first / 4)))).
  { apply mapM_ok_iff. apply Forall2_map_l.
    assert (HC : forall i, In i (count_to (first / 4)) -> i < first / 4) by apply in_count_to.
    induction (count_to (first / 4)) as [|i is IH]; constructor.
    - specialize (HC i (or_introl eq_refl)).
      replace (takeN 4 (dropN (i * 4) (takeN first e))) with (takeN 4 (dropN (4 * i) e)).
      + apply u32_at. lia.
      + rewrite <- (takeN_dropN first e) at 1.
        rewrite dropN_app_le by (rewrite takeN_length; lia).
        rewrite takeN_app_le by (rewrite blen_dropN, takeN_length; lia). f_equal. f_equal. lia.
    - apply IH. intros j Hj. apply HC. right. exact Hj. }
  rewrite HO. cbn [bind]. rewrite neighbours_windows. apply agrees_mapM_same. intros span _. apply read_span_ok. exact HF.
Qed.

Lemma read_fixed_ok oc T f e : 0 < size_hint T -> blen e mod size_hint T = 0 ->
  (forall b, blen b <= blen e -> agrees (deserialize T b) (f b)) ->
  agrees (deserialize_fixed_homogeneous_composite oc T e) (read_elements false (size_hint T) f e).
Proof.
  intros Hs HM HF. unfold deserialize_fixed_homogeneous_composite, rem_len, read_elements.
  replace (size_hint T =? 0) with false by lia. cbn [bind]. rewrite HM. cbn [N.eqb on_condition].
  replace (if oc then @Ok DeserializeError _ tt else Ok tt) with (@Ok DeserializeError _ tt) by (destruct oc; reflexivity).
  cbn [bind]. rewrite chunks_exact_eq by auto. cbn [bind]. apply agrees_mapM.
  induction (count_to (blen e / size_hint T)); constructor; auto.
  apply HF. rewrite ?sub_bytes_eq, blen_takeN, blen_dropN. lia.
Qed.

Lemma read_homogeneous_ok oc t f e : legal t = true ->
  (spec_variable t = false -> blen e mod fixed_size t = 0) ->
  (forall b, blen b <= blen e -> agrees (deserialize (serializable oc t) b) (f b)) ->
  agrees (deserialize_homogeneous_composite oc (serializable oc t) e) (read_elements (spec_variable t) (fixed_size t) f e).
Proof.
  intros HL HM HF. unfold deserialize_homogeneous_composite. rewrite is_variable_size_spec.
  destruct (spec_variable t) eqn:HV.
  - apply read_variable_ok. exact HF.
  - pose proof (legal_fixed_size t HL HV). rewrite <- size_hint_spec with (oc := oc) in *.
    apply read_fixed_ok; auto. lia.
Qed.

(** ** Transparent enums *)

Lemma read_last_snoc rs : forall i r,
  read_last i (rs ++ [r]) =
  match then_ r (fun v => Reads (VVariant (i + blen rs) v)) with Rejects => read_last i rs | o => o end.
Proof.
  induction rs as [|x rs IH]; intros i r; cbn [app read_last].
  - change (blen (@nil (reading val))) with 0. rewrite N.add_0_r. destruct r; reflexivity.
  - rewrite IH, blen_cons. replace (i + 1 + blen rs) with (i + (blen rs + 1)) by lia.
    destruct r; reflexivity.
Qed.

Lemma read_variants_ok l rs e : Forall2 (fun T r => agrees (deserialize T e) r) l rs ->
  agrees (try_variants (rev l) e) (read_last 0 rs).
Proof.
  revert rs. induction l as [|T l IH] using rev_ind; intros rs HF.
  - inversion HF; subst. reflexivity.
  - apply Forall2_app_inv_l in HF as (rs1 & rs2 & HF1 & HF2 & ->).
    inversion HF2 as [|? r ? rs3 HT HN]; subst. inversion HN; subst.
    rewrite rev_app_distr, read_last_snoc. cbn [rev app try_variants].
    rewrite blen_rev, N.add_0_l, (Forall2_blen _ _ _ HF1).
    destruct (deserialize T e); cbn [agrees] in HT; subst r; cbn [then_]; [reflexivity| |reflexivity].
    apply IH. exact HF1.
Qed.

(** ** Containers *)

Definition kind (T : Serializable) : bool * N := (is_variable_size T, size_hint T).

Lemma head_offsets_beyond e ks : forall p, blen e < p + 4 -> head_offsets e p ks = [].
Proof.
  induction ks as [|k ks IH]; intros p Hp; [reflexivity|]. cbn [head_offsets].
  replace (p + 4 <=? blen e) with false by lia. rewrite andb_false_r. cbn [app]. apply IH. lia.
Qed.

Definition before (prev : option N) (l : list N) : list N := match prev with Some q => q :: l | None => l end.

(** The offsets that make the parser panic. *)
Lemma parse_panics oc enc fields : forall d,
  blen enc < 2 ^ 63 ->
  Forall (fun T => is_variable_size T = false -> size_hint T <= 2 ^ 63) fields ->
  total_bytes_read d <= blen enc ->
  let r := oc && overrun (blen enc) (before (last_opt (offsets d)) (head_offsets enc (total_bytes_read d) (map kind fields))) in
  match foldM (parse oc enc) d fields with
  | Panic _ => r = true
  | _ => r = false
  end.
Proof.
  assert (H1 : forall prev, overrun (blen enc) (before prev []) = false) by (intros [q|]; reflexivity).
  induction fields as [|T fields IH]; intros d HL HS HT; cbv zeta.
  { cbn [foldM map head_offsets]. rewrite H1, andb_false_r. reflexivity. }
  cbn [foldM map head_offsets]. inversion HS as [|? ? HS1 HS2]; subst. unfold parse at 1. unfold kind at 1 2. cbn [fst].
  unfold head_size. cbn [kind fst snd].
  destruct (is_variable_size T) eqn:Hv.
  - change BYTES_PER_LENGTH_OFFSET with 4.
    rewrite uadd_ok by (unfold USIZE; lia). cbn [bind].
    rewrite usub_ok by lia. cbn [bind andb].
    destruct (N.leb_spec (total_bytes_read d + 4) (blen enc)) as [H4|H4].
    2:{ unfold get_range. replace (total_bytes_read d + 4 <=? blen enc) with false by lia. rewrite andb_false_r. cbn [bind app].
        rewrite head_offsets_beyond by lia. rewrite H1, andb_false_r. reflexivity. }
    rewrite get_range_some by lia.
    replace (total_bytes_read d + 4 - total_bytes_read d) with 4 by lia. rewrite u32_at by lia. cbn [bind].
    set (o := number (sub_bytes enc (total_bytes_read d) 4)) in *.
    assert (HOK : check_offset oc enc (last_opt (offsets d)) o = Ok tt ->
      oc && overrun (blen enc) (before (last_opt (offsets d)) ([o] ++ head_offsets enc (total_bytes_read d + 4) (map kind fields))) =
      oc && overrun (blen enc) (o :: head_offsets enc (total_bytes_read d + 4) (map kind fields))).
    { intros HC. f_equal. apply check_offset_inv in HC. destruct (last_opt (offsets d)) as [q|]; cbn [before app]; [|reflexivity].
      cbn [overrun]. replace (q <=? o) with true by lia. replace (blen enc <? o) with false by lia. reflexivity. }
    destruct (check_offset oc enc (last_opt (offsets d)) o) as [[]|er|p] eqn:EC; cbn [bind].
    + rewrite HOK by reflexivity.
      specialize (IH {| segments := segments d ++ [SOffset]; offsets := offsets d ++ [o]; total_bytes_read := total_bytes_read d + 4 |}).
      cbn [offsets total_bytes_read] in IH. rewrite last_opt_snoc in IH. apply IH; auto.
    + clear HOK. unfold check_offset in EC. destruct (last_opt (offsets d)) as [q|]; [|discriminate]. cbn [before app overrun].
      destruct (N.ltb_spec o q); [replace (q <=? o) with false by lia; apply andb_false_r|].
      replace (q <=? o) with true by lia. cbn [andb].
      destruct (N.ltb_spec (blen enc) q).
      * unfold usub in EC. replace (q <=? blen enc) with false in EC by lia. destruct oc; [discriminate|reflexivity].
      * destruct (N.ltb_spec (blen enc) o); [|discriminate].
        unfold usub in EC. replace (o <=? blen enc) with false in EC by lia. destruct oc; [discriminate|reflexivity].
    + clear HOK. unfold check_offset in EC. destruct (last_opt (offsets d)) as [q|]; [|discriminate]. cbn [before app overrun].
      destruct (N.ltb_spec o q); [discriminate|]. replace (q <=? o) with true by lia. cbn [andb].
      assert (HO : blen enc < o).
      { destruct (N.ltb_spec (blen enc) q); [lia|]. destruct (N.ltb_spec (blen enc) o); [lia|discriminate]. }
      replace (blen enc <? o) with true by lia. cbn [orb]. rewrite andb_true_r. destruct oc; [reflexivity|].
      unfold usub in EC. replace (blen enc <? o) with true in EC by lia.
      destruct (blen enc <? q); cbn [bind] in EC;
        repeat match type of EC with context [if ?c then _ else _] => destruct c; cbn [bind] in EC; try discriminate end.
  - specialize (HS1 eq_refl). rewrite uadd_ok by (unfold USIZE; lia). cbn [bind andb app].
    replace (blen enc <? total_bytes_read d) with false by lia.
    destruct (N.ltb_spec (blen enc) (total_bytes_read d + size_hint T)) as [HB|HB].
    { rewrite usub_ok by lia. cbn [bind]. rewrite head_offsets_beyond by lia. rewrite H1, andb_false_r. reflexivity. }
    cbn [bind].
    specialize (IH {| segments := segments d ++ [SFixed (total_bytes_read d) (total_bytes_read d + size_hint T)];
                      offsets := offsets d; total_bytes_read := total_bytes_read d + size_hint T |}).
    cbn [offsets total_bytes_read] in IH. apply IH; auto.
Qed.

(** The items in the head of an encoding. *)
Definition item_kind (k : bool * N) (it : item) : Prop :=
  match it with
  | IFix b => k = (false, blen b)
  | IOff o => fst k = true /\ o < 2 ^ 32
  end.

Lemma item_for_kind T it : item_for T it -> item_kind (kind T) it.
Proof. unfold kind. destruct it; cbn; intros [E1 E2]; [rewrite E1, E2; reflexivity|auto]. Qed.

Lemma items_head ks items : Forall2 item_kind ks items -> total (map head_size ks) = blen (ibytes items).
Proof.
  induction 1 as [|k it ks items HK _ IH]; [reflexivity|]. cbn [map]. rewrite total_cons, ibytes_cons, blen_app, IH. f_equal.
  destruct it; cbn in HK; [subst k; reflexivity|]. destruct HK as [HK _]. unfold head_size. rewrite HK.
  cbn [item_bytes]. rewrite blen_le_bytes. reflexivity.
Qed.

Lemma items_offsets ks items : Forall2 item_kind ks items -> forall e pre post, e = pre ++ ibytes items ++ post ->
  head_offsets e (blen pre) ks = ioffs items.
Proof.
  induction 1 as [|k it ks items HK _ IH]; intros e pre post He; [reflexivity|]. cbn [head_offsets].
  rewrite ibytes_cons, <- app_assoc in He.
  assert (HS : blen (item_bytes it) = head_size k).
  { destruct it; cbn in HK; [subst k; reflexivity|]. destruct HK as [HK _]. unfold head_size. rewrite HK.
    cbn [item_bytes]. rewrite blen_le_bytes. reflexivity. }
  specialize (IH e (pre ++ item_bytes it) post). rewrite <- app_assoc in IH. specialize (IH He).
  rewrite blen_app, HS in IH. rewrite IH.
  destruct it as [b|o]; cbn in HK.
  - subst k. reflexivity.
  - destruct HK as [HK Ho]. rewrite HK. cbn [item_bytes ioffs andb] in *.
    assert (HB : blen e = blen pre + (4 + blen (ibytes items ++ post))).
    { rewrite He, !blen_app, blen_le_bytes. reflexivity. }
    replace (blen pre + 4 <=? blen e) with true by lia. cbn [app]. f_equal.
    rewrite number_le, sub_bytes_eq, He, dropN_app by reflexivity.
    rewrite takeN_app by (rewrite blen_le_bytes; reflexivity). apply le_value_le_bytes. exact Ho.
Qed.

Lemma items_spans ks items : Forall2 item_kind ks items -> forall len p,
  field_spans p ks (ioffs items ++ [len]) = map (fun s : N * N => (fst s, snd s - fst s)) (spans_of len p items).
Proof.
  induction 1 as [|k it ks items HK _ IH]; intros len p; [reflexivity|].
  destruct it as [b|o]; cbn in HK.
  - subst k. cbn [field_spans spans_of map ioffs fst snd]. rewrite IH. f_equal. f_equal. lia.
  - destruct HK as [HK _]. destruct k as [v n]. cbn [fst] in HK. subst v.
    cbn [field_spans spans_of map ioffs app fst snd]. unfold first_off.
    destruct (ioffs items) as [|o2 os] eqn:EO; cbn [app hd]; rewrite <- IH; rewrite ?EO; reflexivity.
Qed.

Lemma items_ascend len items : forall prev, chain len prev items -> Forall (fun o => o <= len) (before prev (ioffs items)) ->
  forallb (fun p => fst p <=? snd p) (neighbours (before prev (ioffs items ++ [len]))) = true.
Proof.
  induction items as [|[b|o] items IH]; intros prev HC HO; cbn [chain ioffs] in *.
  - destruct prev as [q|]; cbn [before app neighbours forallb fst snd] in *; [|reflexivity].
    inversion HO; subst. replace (q <=? len) with true by lia. reflexivity.
  - apply IH; auto.
  - destruct HC as [HP HC]. specialize (IH (Some o) HC). cbn [before app] in IH.
    destruct prev as [q|]; cbn [before app] in *.
    + inversion HO; subst. cbn [neighbours forallb fst snd]. cbn [neighbours] in IH. rewrite IH by auto.
      replace (q <=? o) with true by lia. reflexivity.
    + apply IH; auto.
Qed.

Lemma ascend_items len items : forall prev,
  forallb (fun p => fst p <=? snd p) (neighbours (before prev (ioffs items ++ [len]))) = true ->
  chain len prev items /\ Forall (fun o => o <= len) (before prev (ioffs items)).
Proof.
  induction items as [|[b|o] items IH]; intros prev HA; cbn [chain ioffs app] in *.
  - split; [exact I|]. destruct prev as [q|]; cbn [before neighbours forallb fst snd] in *; constructor; auto.
    apply andb_true_iff in HA as [HA _]. lia.
  - apply IH; auto.
  - specialize (IH (Some o)). cbn [before] in IH. destruct prev as [q|]; cbn [before] in *.
    + cbn [neighbours forallb fst snd] in HA. apply andb_true_iff in HA as [HA1 HA2].
      destruct (IH HA2) as [HC HO]. inversion HO; subst. split; [split; [split; lia|exact HC]|constructor; [lia|exact HO]].
    + destruct (IH HA) as [HC HO]. auto.
Qed.

Lemma ascend_no_overrun len l : forallb (fun p => fst p <=? snd p) (neighbours (l ++ [len])) = true -> overrun len l = false.
Proof.
  induction l as [|a l IH]; [reflexivity|]. destruct l as [|c l]; [reflexivity|]. intros HA.
  cbn [app neighbours forallb fst snd] in HA. apply andb_true_iff in HA as [_ HA]. specialize (IH HA).
  assert (HC : c <= len).
  { clear - HA. revert c HA. induction l as [|x l IH]; intros c HA; cbn [app neighbours forallb fst snd] in HA;
      apply andb_true_iff in HA as [H1 H2]; [lia|]. specialize (IH x H2). lia. }
  cbn [overrun] in *. rewrite IH. replace (len <? c) with false by lia. apply andb_false_r.
Qed.

Fixpoint items_from (e : bytes) (p : N) (ks : list (bool * N)) : list item :=
  match ks with
  | [] => []
  | (true, _) :: r => IOff (number (sub_bytes e p 4)) :: items_from e (p + 4) r
  | (false, n) :: r => IFix (sub_bytes e p n) :: items_from e (p + n) r
  end.

Lemma items_from_ok fields e : forall p, p + total (map head_size (map kind fields)) <= blen e ->
  Forall2 item_for fields (items_from e p (map kind fields)) /\
  ibytes (items_from e p (map kind fields)) = takeN (total (map head_size (map kind fields))) (dropN p e).
Proof.
  induction fields as [|T fields IH]; intros p Hp; cbn [map] in *.
  - split; [constructor|]. rewrite takeN_0. reflexivity.
  - rewrite total_cons in *. unfold kind in *. unfold head_size at 1 in Hp. cbn [fst snd items_from] in *.
    destruct (is_variable_size T) eqn:Hv; cbn [fst snd items_from] in *.
    + destruct (IH (p + 4) ltac:(lia)) as [H1 H2]. split.
      * constructor; [|exact H1]. split; [exact Hv|]. rewrite number_le.
        pose proof (le_value_lt (sub_bytes e p 4)) as HL. rewrite sub_bytes_eq, takeN_length in HL by (rewrite blen_dropN; lia). exact HL.
      * rewrite ibytes_cons, H2. unfold head_size at 2. cbn [fst snd item_bytes].
        rewrite number_le, le_bytes_value_n.
        -- rewrite sub_bytes_eq. symmetry. rewrite takeN_succ_split, dropN_dropN. repeat f_equal; lia.
        -- pose proof (takeN_length 4 (dropN p e) ltac:(rewrite blen_dropN; lia)) as HL. unfold blen in HL. rewrite sub_bytes_eq. lia.
    + destruct (IH (p + size_hint T) ltac:(lia)) as [H1 H2]. split.
      * constructor; [|exact H1]. split; [exact Hv|]. rewrite sub_bytes_eq, takeN_length by (rewrite blen_dropN; lia). reflexivity.
      * rewrite ibytes_cons, H2. unfold head_size at 2. cbn [fst snd item_bytes].
        rewrite sub_bytes_eq. symmetry. rewrite takeN_succ_split, dropN_dropN. repeat f_equal; lia.
Qed.

(** The fields of an encoding, at their places. *)
Lemma layout_fields fields es :
  Forall2 field_ok fields es ->
  Forall (fun o => o < 2 ^ 32) (ioffs (items_of (total (fixed_lengths es)) es)) ->
  let enc := clayout es in
  let ks := map kind fields in
  let ends := head_offsets enc 0 ks ++ [blen enc] in
  (total (map head_size ks) <=? blen enc) && (hd 0 ends =? total (map head_size ks))
    && forallb (fun p => fst p <=? snd p) (neighbours ends) = true /\
  map (fun s : N * N => sub_bytes enc (fst s) (snd s)) (field_spans 0 ks ends) = map snd es.
Proof.
  intros HF HO. cbv zeta. set (r := total (fixed_lengths es)) in *. set (items := items_of r es) in *.
  assert (HI : Forall2 item_for fields items) by (apply items_of_for; auto).
  assert (HK : Forall2 item_kind (map kind fields) items).
  { clear - HI. induction HI; constructor; [apply item_for_kind; auto|auto]. }
  assert (Hib : ibytes items = concat (fixed_from r es)) by (unfold ibytes, items; rewrite items_of_bytes; reflexivity).
  assert (Hr : blen (ibytes items) = r) by (rewrite Hib; apply fixed_from_blen).
  assert (Hlen : blen (clayout es) = r + total (variable_lengths es)) by (rewrite clayout_blen, compose_size_eq; reflexivity).
  assert (HE : clayout es = [] ++ ibytes items ++ concat (variable_parts es)) by (unfold clayout; fold r; rewrite Hib; reflexivity).
  pose proof (items_offsets _ _ HK _ _ _ HE) as EO. change (blen (@nil byte)) with 0 in EO. rewrite EO.
  rewrite (items_head _ _ HK), Hr. split.
  - apply andb_true_iff. split; [apply andb_true_iff; split; [lia|]|].
    + apply N.eqb_eq. rewrite Hlen. destruct (first_off_items r es) as [E|[E1 E2]].
      * unfold first_off in E. fold items in E. destruct (ioffs items); exact E.
      * fold items in E1. rewrite E1, E2. cbn [app hd]. lia.
    + apply (items_ascend _ _ None); [apply items_of_chain; [exact I|lia]|apply items_of_offs_le; lia].
  - rewrite (items_spans _ _ HK), map_map. cbn [fst snd].
    assert (HS : Forall2 (fun (p : N * N) b => @slice DeserializeError _ (fst p) (snd p) (clayout es) = Ok b)
                   (spans_of (blen (clayout es)) 0 items) (map snd es)).
    { rewrite Hlen. apply (spans_of_slices_gen es [] 0 r (clayout es) (concat (fixed_from r es))).
      - reflexivity.
      - exists (concat (variable_parts es)). reflexivity.
      - exists []. rewrite app_nil_r. reflexivity.
      - apply fixed_from_blen. }
    clear - HS. induction HS as [|p b l bs HP _ IH]; [reflexivity|]. cbn [map]. rewrite IH. f_equal.
    unfold slice, get_range in HP. destruct (_ && _); [|discriminate]. injection HP as <-. reflexivity.
Qed.

Lemma read_fields_ok oc fields fs enc :
  blen enc < 2 ^ 63 ->
  Forall (fun T => is_variable_size T = false -> size_hint T <= 2 ^ 63) fields ->
  map kind fields = map fst fs ->
  Forall2 (fun T (f : field) => forall b, blen b <= blen enc -> agrees (deserialize T b) (snd f b)) fields fs ->
  agrees (container_deserialize oc fields enc) (read_fields oc fs enc).
Proof.
  intros HL HS HK HD. unfold read_fields. rewrite <- HK. set (ks := map kind fields).
  pose proof (parse_panics oc enc fields container_deserializer_default HL HS (N.le_0_l _)) as HP.
  cbv zeta in HP. change (offsets container_deserializer_default) with (@nil N) in HP. change (@last_opt N []) with (@None N) in HP.
  cbn [before] in HP. change (total_bytes_read container_deserializer_default) with 0 in HP. fold ks in HP.
  set (os := head_offsets enc 0 ks) in *.
  set (cond := (total (map head_size ks) <=? blen enc) && (hd 0 (os ++ [blen enc]) =? total (map head_size ks))
    && forallb (fun p => fst p <=? snd p) (neighbours (os ++ [blen enc]))).
  (* an accepted head *)
  assert (HC : cond = true -> exists d spans,
    foldM (parse oc enc) container_deserializer_default fields = Ok d /\ finalize oc enc d = Ok spans).
  { unfold cond. intros HC. apply andb_true_iff in HC as [HC HA]. apply andb_true_iff in HC as [HC1 HC2].
    destruct (items_from_ok fields enc 0 ltac:(fold ks; lia)) as [HI HB]. fold ks in HI, HB.
    set (items := items_from enc 0 ks) in *.
    assert (HKI : Forall2 item_kind ks items).
    { unfold ks. clear - HI. induction HI; constructor; [apply item_for_kind; auto|auto]. }
    assert (HE : enc = [] ++ ibytes items ++ dropN (total (map head_size ks)) enc).
    { cbn [app]. rewrite HB, dropN_0. symmetry. apply takeN_dropN. }
    pose proof (items_offsets _ _ HKI _ _ _ HE) as EO. change (blen (@nil byte)) with 0 in EO. fold os in EO.
    rewrite EO in HA, HC2. destruct (ascend_items _ _ None HA) as [HCh HO]. cbn [before] in HO.
    rewrite (items_head _ _ HKI) in HC1, HC2.
    eexists. eexists. split.
    - apply (parse_fold_ok oc enc items fields container_deserializer_default [] (dropN (total (map head_size ks)) enc)); auto.
    - unfold finalize. cbn [segments offsets total_bytes_read container_deserializer_default app].
      change (blen (@nil byte)) with 0. rewrite N.add_0_l.
      assert (HF : first_off (blen enc) items = blen (ibytes items)).
      { unfold first_off. destruct (ioffs items); cbn [app hd] in *; lia. }
      rewrite (finalize_loop_ok oc enc items None); auto; [|unfold USIZE; lia].
      cbn [bind]. rewrite HF.
      replace (blen (ibytes items) + (blen enc - blen (ibytes items))) with (blen enc) by lia.
      rewrite N.ltb_irrefl. reflexivity. }
  assert (HNoFin : forall d p, foldM (parse oc enc) container_deserializer_default fields = Ok d -> finalize oc enc d <> Panic p).
  { intros d p HPd. destruct (parse_fold_inv oc enc fields container_deserializer_default _ HL HS (N.le_0_l _) HPd)
      as (items & HF & H1 & H2 & HCh & Hd).
    cbn [container_deserializer_default segments offsets total_bytes_read app] in *.
    subst d. unfold finalize. cbn [segments offsets total_bytes_read]. rewrite N.add_0_l in *.
    pose proof (finalize_loop_good False True oc enc items None 0 (blen (ibytes items)) [] HCh ltac:(unfold USIZE; lia)) as G.
    destruct (finalize_loop _ _ _ _ _ _) as [[tot sp]|x|q]; cbn [bind good] in *; [|discriminate|tauto].
    destruct (blen enc <? tot); [discriminate|]. destruct (tot <? blen enc); discriminate. }
  destruct (foldM (parse oc enc) container_deserializer_default fields) as [d|x|p] eqn:EP.
  - rewrite HP. destruct (finalize oc enc d) as [spans|x|p] eqn:EF.
    + destruct (container_stages oc fields enc d spans HL HS EP EF) as (es & H1 & H2 & H3 & E). rewrite E.
      destruct (layout_fields fields es H1 H3) as [G1 G2]. rewrite <- H2 in G1, G2. fold ks in G1, G2. fold os in G1, G2. fold cond in G1.
      rewrite G1. unfold on_condition.
      assert (HB : forall b, In b (map snd es) -> blen b <= blen enc).
      { intros b Hb. apply in_map_iff in Hb as (e & <- & He). rewrite H2. apply clayout_part_le; auto. }
      assert (HLen : length fields = length (map snd es)) by (rewrite map_length; apply (Forall2_len _ _ _ H1)).
      revert G2 HB HLen. generalize (field_spans 0 ks (os ++ [blen enc])) as sp. generalize (map snd es) as bodies.
      clear - HD. intros bodies sp G2 HB HLen. apply agrees_mapM. subst bodies. revert sp HB HLen.
      induction HD as [|T f fields fs HT _ IH]; intros sp HB HLen; [constructor|].
      destruct sp as [|s sp]; [discriminate|]. cbn [map combine]. constructor.
      * cbn [fst snd]. apply HT. apply HB. left. reflexivity.
      * apply IH; [intros; apply HB; right; auto|]. cbn in HLen. lia.
    + unfold container_deserialize. rewrite EP. cbn [bind]. rewrite EF. cbn [bind agrees].
      destruct cond eqn:EC; [|reflexivity]. destruct (HC eq_refl) as (d' & sp & E1 & E2). injection E1 as <-. congruence.
    + exfalso. eapply HNoFin; eauto.
  - rewrite HP. unfold container_deserialize. rewrite EP. cbn [bind agrees].
    destruct cond eqn:EC; [|reflexivity]. destruct (HC eq_refl) as (d' & sp & E1 & E2). discriminate.
  - rewrite HP. unfold container_deserialize. rewrite EP. reflexivity.
Qed.

(** ** All types *)

Lemma read_counted oc t n b : legal t = true -> blen b < 2 ^ 63 ->
  (forall b', blen b' <= blen b -> agrees (deserialize (serializable oc t) b') (read oc t b')) ->
  forall k : list val -> res DeserializeError val, agrees
    (bind (check_fixed_length (serializable oc t) n b)
       (fun _ => bind (deserialize_homogeneous_composite oc (serializable oc t) b) k))
    (on_condition (spec_variable t || (blen b =? n * fixed_size t))
       (then_ (read_elements (spec_variable t) (fixed_size t) (read oc t) b)
          (fun l => match k l with Ok v => Reads v | Err _ => Rejects | Panic _ => Crashes end))).
Proof.
  intros HL HB HT k.
  assert (HC : check_fixed_length (serializable oc t) n b = Ok tt ->
               (spec_variable t || (blen b =? n * fixed_size t)) = true).
  { intros HC. destruct (spec_variable t) eqn:HV; [reflexivity|]. cbn [orb]. apply N.eqb_eq.
    apply (check_fixed_length_inv _ _ _ _ HC HV). }
  destruct (check_fixed_length (serializable oc t) n b) as [[]|x|p] eqn:E; cbn [bind].
  - rewrite HC by reflexivity. cbn [on_condition]. apply agrees_bind.
    + apply read_homogeneous_ok; auto. intros HV. rewrite (check_fixed_length_inv _ _ _ _ E HV). apply mod_mul_ok.
    + intros l _. destruct (k l); reflexivity.
  - clear HC. unfold check_fixed_length in E. rewrite is_variable_size_spec, size_hint_spec in E.
    destruct (spec_variable t); [discriminate|]. cbn [negb orb] in *.
    destruct (N.eqb_spec (blen b) (n * fixed_size t)) as [EB|]; [|reflexivity].
    rewrite EB, N.ltb_irrefl in E. discriminate.
  - exfalso. unfold check_fixed_length in E. destruct (negb _); [|discriminate].
    destruct (_ <? _); [discriminate|]. destruct (_ <? _); discriminate.
Qed.

Theorem read_ok oc t : legal t = true -> forall b, blen b < 2 ^ 63 ->
  agrees (deserialize (serializable oc t) b) (read oc t b).
Proof.
  induction t using ty_ind'; intros HL b HB; cbn [serializable].
  - cbn [bool_impl deserialize read]. unfold bool_deserialize.
    destruct b as [|x [|y b]]; [reflexivity| |destruct x; reflexivity]. destruct x; reflexivity.
  - cbn [uint_impl deserialize read]. pose proof (uint_agrees (bits_to_bytes (uint_bits w)) b) as G. unfold on_condition in *.
    replace (N.of_nat (spec_uint_size w)) with (bits_to_bytes (uint_bits w)) by (destruct w; reflexivity).
    destruct (uint_deserialize (bits_to_bytes (uint_bits w)) b); cbn [bind agrees] in *; destruct (blen b =? _); congruence.
  - cbn [u256_impl uint_impl deserialize read]. change U256_BYTE_COUNT with 32; pose proof (uint_agrees 32 b) as G. unfold on_condition in *.
    destruct (uint_deserialize 32 b); cbn [bind agrees] in *; destruct (blen b =? _); congruence.
  - cbn [node_impl deserialize read]. unfold node_deserialize, BYTES_PER_CHUNK, on_condition.
    destruct (N.ltb_spec (blen b) 32); [replace (blen b =? 32) with false by lia; reflexivity|].
    destruct (N.ltb_spec 32 (blen b)); [replace (blen b =? 32) with false by lia; reflexivity|].
    replace (blen b =? 32) with true by lia.
    rewrite slice_ok by lia. cbn [bind agrees]. rewrite dropN_0, takeN_all by lia. reflexivity.
  - cbn [legal] in HL. rewrite !andb_true_iff in HL. destruct HL as [[[L1 L2] L3] L4].
    cbn [vector_impl deserialize read]. unfold vector_deserialize. replace (n =? 0) with false by lia.
    match goal with |- agrees _ ?r => enough (E : r =
      (on_condition (spec_variable t || (blen b =? n * fixed_size t))
       (then_ (read_elements (spec_variable t) (fixed_size t) (read oc t) b)
          (fun l => match (do data <- map_err vector_try_from_err (vector_try_from n l); Ok (VSeq data)) with
                    | Ok v => Reads v | Err _ => Rejects | Panic _ => Crashes end)))) end.
    { rewrite E. apply read_counted; auto. intros; apply IHt; auto. lia. }
    f_equal. destruct (read_elements _ _ _ b) as [l| |]; cbn [then_]; try reflexivity.
    unfold vector_try_from. replace (n =? 0) with false by lia. destruct (blen l =? n); reflexivity.
  - cbn [legal] in HL. rewrite !andb_true_iff in HL. destruct HL as [[[L1 L2] L3] L4].
    cbn [array_impl deserialize read]. unfold array_deserialize. replace (n =? 0) with false by lia.
    match goal with |- agrees _ ?r => enough (E : r =
      (on_condition (spec_variable t || (blen b =? n * fixed_size t))
       (then_ (read_elements (spec_variable t) (fixed_size t) (read oc t) b)
          (fun l => match (if blen l =? n then Ok (VSeq l) else Err (DInvalidInstance (Exact n (blen l)))) with
                    | Ok v => Reads v | Err _ => Rejects | Panic _ => Crashes end)))) end.
    { rewrite E. apply read_counted; auto. intros; apply IHt; auto. lia. }
    f_equal. destruct (read_elements _ _ _ b) as [l| |]; cbn [then_]; try reflexivity.
    destruct (blen l =? n); reflexivity.
  - cbn [legal] in HL. rewrite !andb_true_iff in HL. destruct HL as [L1 L4].
    cbn [list_impl deserialize read]. unfold list_deserialize. rewrite is_variable_size_spec, size_hint_spec.
    assert (HF : spec_variable t = true \/ (spec_variable t = false /\ 0 < fixed_size t)).
    { destruct (spec_variable t) eqn:HV; [auto|]. right. split; [reflexivity|]. pose proof (legal_fixed_size t L4 HV). lia. }
    assert (HG : (spec_variable t = false -> blen b mod fixed_size t = 0) ->
      agrees (do inner <- deserialize_homogeneous_composite oc (serializable oc t) b;
              if n <? blen inner then Err (DInvalidInstance (Bounded n (blen inner)))
              else match list_try_from n inner with
                   | Ok data => Ok (VSeq data)
                   | Err (_, EInstance e) => Err (DInvalidInstance e)
                   | Err _ => Panic PUnreachable
                   | Panic p => Panic p
                   end)
        (then_ (read_elements (spec_variable t) (fixed_size t) (read oc t) b) (fun l => on_condition (blen l <=? n) (Reads (VSeq l))))).
    { intros HM. apply agrees_bind; [apply read_homogeneous_ok; auto; intros; apply IHt; auto; lia|].
      intros l _. unfold list_try_from, on_condition. destruct (N.ltb_spec n (blen l)).
      - replace (blen l <=? n) with false by lia. reflexivity.
      - replace (n <? blen l) with false by lia. replace (blen l <=? n) with true by lia. reflexivity. }
    destruct HF as [HV|[HV HZ]]; rewrite HV in *; cbn [negb].
    + cbn [bind]. apply HG. discriminate.
    + unfold rem_len. replace (fixed_size t =? 0) with false by lia. cbn [bind].
      destruct (N.eqb_spec (blen b mod fixed_size t) 0) as [EM|EM]; cbn [negb].
      * cbn [bind]. apply HG. auto.
      * rewrite usub_ok by (apply N.mod_le; lia). cbn [bind agrees]. unfold read_elements, on_condition.
        replace (blen b mod fixed_size t =? 0) with false by (symmetry; apply N.eqb_neq; exact EM). reflexivity.
  - cbn [legal] in HL. cbn [bitvector_impl deserialize read]. apply read_bitvector_ok. lia.
  - cbn [legal] in HL. cbn [bitlist_impl deserialize read]. apply read_bitlist_ok. lia.
  - cbn [legal] in HL. rewrite !andb_true_iff in HL. destruct HL as [[L1 L2] L3].
    cbn [container_impl deserialize read]. apply agrees_bind; [|reflexivity].
    apply read_fields_ok; [auto|apply fields_size_ok; auto| |].
    + rewrite !map_map. apply map_ext. intros f. unfold kind. cbn [fst]. rewrite is_variable_size_spec, size_hint_spec. reflexivity.
    + rewrite forallb_forall in L3. clear L1 L2. induction fs as [|f fs IH]; cbn [map]; constructor.
      * intros b' Hb'. cbn [snd]. inversion H; subst. apply H2; [apply L3; left; reflexivity|lia].
      * inversion H; subst. apply IH; auto. intros; apply L3; right; auto.
  - cbn [newtype_impl deserialize read]. apply agrees_bind; [|reflexivity]. apply IHt; auto.
  - cbn [option_impl deserialize read]. unfold option_deserialize.
    destruct b as [|x b]; [reflexivity|]. rewrite blen_cons in *.
    assert (HI : agrees (do inner <- deserialize (serializable oc t) b; Ok (VSome inner))
                   (then_ (read oc t b) (fun v => Reads (VSome v)))).
    { apply agrees_bind; [|reflexivity]. apply IHt; auto. lia. }
    destruct (byte_eqb x x00) eqn:E0.
    + assert (x = x00) by (destruct x; try discriminate; reflexivity). subst x. destruct b; [reflexivity|]. rewrite blen_cons.
      replace (blen b0 + 1 + 1 =? 1) with false by lia. reflexivity.
    + destruct (byte_eqb x x01) eqn:E1.
      * assert (x = x01) by (destruct x; try discriminate; reflexivity). subst x. exact HI.
      * destruct x; try discriminate; destruct b; reflexivity.
  - cbn [legal] in HL. apply andb_true_iff in HL as [HLV HL]. rewrite forallb_forall in HL.
    rewrite Forall_forall in H. cbn [union_impl deserialize read]. unfold union_deserialize.
    destruct b as [|x b]; [reflexivity|]. rewrite blen_cons in *. rewrite !nth_error_map.
    destruct (nth_error vs (N.to_nat (byte_to_N x))) as [[t|]|] eqn:E; cbn [option_map].
    + pose proof (nth_error_In _ _ E) as Hin. apply agrees_bind; [|reflexivity].
      apply (H _ Hin); [apply (HL _ Hin)|lia].
    + unfold on_condition. replace (blen b + 1 =? 1) with (blen b =? 0) by lia. destruct (blen b =? 0); reflexivity.
    + reflexivity.
  - cbn [legal] in HL. rewrite !andb_true_iff in HL. destruct HL as [[L1 L2] L3].
    rewrite forallb_forall in L3. rewrite Forall_forall in H.
    cbn [transparent_impl deserialize read]. unfold transparent_deserialize.
    destruct b as [|x b]; [reflexivity|]. apply read_variants_ok. clear L1 L2.
    induction ts as [|t ts IH]; cbn [map]; constructor.
    + apply H; [left; reflexivity|apply L3; left; reflexivity|auto].
    + apply IH; intros; [apply H|apply L3]; try right; auto.
Qed.
