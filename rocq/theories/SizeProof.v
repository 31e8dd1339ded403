(** Decoding does not make values larger than the input. *)
From Coq Require Import String List NArith ZArith Bool Lia ZifyBool ZifyNat ZifyN.
From Coq Require Import Strings.Byte.
From Verif Require Import Prelude Types Bitvec Valid SpecSer SpecSize SpecDecode SpecWrite SpecAlike Lib BitsLib SerProof SerSpec DeProof RoundTrip DecValid ReadProof AlikeProof.
Import ListNotations.
Open Scope N_scope.

Ltac Zify.zify_post_hook ::= Z.div_mod_to_equations.

Lemma blen_sub b p n : blen (sub_bytes b p n) <= n.
Proof. unfold sub_bytes, blen. rewrite firstn_length. lia. Qed.

Lemma total_app l m : total (l ++ m) = total l + total m.
Proof. unfold total. induction l; cbn [app fold_right]; lia. Qed.

(** Spans of neighbours. *)
Definition span_sum (l : list (N * N)) : N := total (map (fun s => snd s - fst s) l).

Lemma span_sum_neighbours l x : forallb (fun p => fst p <=? snd p) (neighbours (l ++ [x])) = true ->
  hd x l + span_sum (neighbours (l ++ [x])) = x.
Proof.
  unfold span_sum. induction l as [|a l IH]; intros HF; [cbn; lia|].
  destruct l as [|c l].
  - cbn in *. lia.
  - cbn [app neighbours forallb map total fold_right hd fst snd] in *. apply andb_true_iff in HF as [HF1 HF].
    specialize (IH HF). unfold total in IH. lia.
Qed.

Lemma hd_app {A} (l : list A) x : hd x (l ++ [x]) = hd x l.
Proof. destruct l; reflexivity. Qed.

Section Elements.
  Context (u : ty) (f : bytes -> reading val).
  Context (HF : forall e v, f e = Reads v -> encoded_bytes u v <= blen e).

  Lemma spans_bytes b spans l :
    Forall2 (fun r v => r = Reads v) (map (read_span f b) spans) l ->
    forallb (fun p => fst p <=? snd p) spans = true /\
    total (map (encoded_bytes u) l) <= span_sum spans /\ blen l = blen spans.
  Proof.
    revert l. induction spans as [|s spans IH]; intros l HR; cbn [map] in HR.
    - inversion HR; subst. cbn. lia.
    - inversion HR as [|? v ? l' HV HR']; subst. destruct (IH _ HR') as (I1 & I2 & I3).
      unfold read_span in HV. destruct (snd s <? fst s) eqn:E1; [discriminate|].
      destruct (blen b <? snd s); [discriminate|]. apply HF in HV.
      pose proof (blen_sub b (fst s) (snd s - fst s)) as HB.
      cbn [forallb map total fold_right]. rewrite I1. unfold span_sum in *. cbn [map total fold_right].
      unfold total in *. unfold blen in *. cbn [length]. lia.
  Qed.

  Lemma total_plus k l : total (map (fun x => k + encoded_bytes u x) l) = k * blen l + total (map (encoded_bytes u) l).
  Proof. unfold total, blen. induction l; cbn [map fold_right length]; lia. Qed.

  Lemma blen_neighbours {x : N} (l : list N) : blen (neighbours (l ++ [x])) = blen l.
  Proof.
    unfold blen. induction l as [|a l IH]; [reflexivity|]. destruct l as [|c l]; [reflexivity|].
    cbn [app neighbours length] in *. lia.
  Qed.

  Lemma elements_bytes size b l : 0 < size \/ spec_variable u = true ->
    read_elements (spec_variable u) size f b = Reads l ->
    total (map (fun x => (if spec_variable u then 4 else 0) + encoded_bytes u x) l) <= blen b.
  Proof.
    intros HS HR. rewrite total_plus. unfold read_elements in HR. destruct (spec_variable u).
    - destruct b as [|x b]; [injection HR as <-; cbn; lia|]. remember (x :: b) as e. clear Heqe.
      apply on_condition_reads in HR as [HC HR]. apply read_all_iff in HR.
      set (first := number (sub_bytes e 0 4)) in *.
      apply spans_bytes in HR as (H1 & H2 & H3).
      pose proof (span_sum_neighbours _ _ H1) as H4. rewrite (@blen_neighbours (blen e)) in H3.
      rewrite blen_map, blen_count_to in H3.
      rewrite !andb_true_iff in HC. destruct HC as [[HC1 HC2] HC3].
      destruct (N.eq_dec (first / 4) 0) as [HZ|HZ].
      + rewrite HZ in *. unfold count_to in H2. cbn in H2. lia.
      + replace (first / 4) with ((first / 4 - 1) + 1) in H4 at 1 by lia.
        rewrite count_to_S in H4. cbn [map hd] in H4. change (4 * 0) with 0 in H4. fold first in H4. lia.
    - destruct HS as [HS|HS]; [|discriminate].
      apply on_condition_reads in HR as [_ HR]. apply read_all_iff in HR.
      assert (HL : forall is m, Forall2 (fun r v => r = Reads v) (map (fun i => f (sub_bytes b (i * size) size)) is) m ->
                   total (map (encoded_bytes u) m) <= size * blen is).
      { induction is as [|i is IH]; intros m HM; cbn [map] in HM; inversion HM as [|? v ? m' HV HM']; subst; [cbn; lia|].
        apply IH in HM'. apply HF in HV. pose proof (blen_sub b (i * size) size).
        unfold total, blen in *. cbn [map fold_right length]. lia. }
      apply HL in HR. rewrite blen_count_to in HR.
      assert (size * (blen b / size) <= blen b) by (apply N.mul_div_le; lia). lia.
  Qed.
End Elements.

Lemma fields_bytes c ts p ends b l :
  forallb (fun q => fst q <=? snd q) (neighbours ends) = true ->
  Forall (fun t => forall e v, read c t e = Reads v -> encoded_bytes t v <= blen e) ts ->
  Forall2 (fun r v => r = Reads v)
    (map (fun fs : field * (N * N) => snd (fst fs) (sub_bytes b (fst (snd fs)) (snd (snd fs))))
         (combine (fields_of (read c) ts) (field_spans p (map (fun t => (spec_variable t, fixed_size t)) ts) ends))) l ->
  total (map (fun fx : (val -> N) * val => fst fx (snd fx))
        (combine (map (fun t x => (if spec_variable t then 4 else 0) + encoded_bytes t x) ts) l)) + hd 0 ends <=
  total (map head_size (map (fun t => (spec_variable t, fixed_size t)) ts)) + last ends 0 \/
  (total (map (fun fx : (val -> N) * val => fst fx (snd fx))
        (combine (map (fun t x => (if spec_variable t then 4 else 0) + encoded_bytes t x) ts) l)) <=
   total (map head_size (map (fun t => (spec_variable t, fixed_size t)) ts)) /\ ends = []).
Proof.
  intros HE HF. revert p ends l HE. induction HF as [|t ts HT _ IH]; intros p ends l HE HR.
  - destruct ends as [|e ends]; [right; cbn; split; [lia|reflexivity]|left]. cbn [map combine total fold_right hd].
    assert (e <= last (e :: ends) 0); [|unfold total; cbn [fold_right]; lia].
    clear -HE. revert e HE. induction ends as [|e' ends IH]; intros e HE; [cbn; lia|].
    cbn [neighbours forallb fst snd] in HE. apply andb_true_iff in HE as [H1 H2]. specialize (IH _ H2).
    change (last (e :: e' :: ends) 0) with (last (e' :: ends) 0). lia.
  - cbn [map field_spans fields_of] in HR. destruct (spec_variable t) eqn:EV.
    + destruct ends as [|s [|e ends]].
      * right. split; [|reflexivity]. cbn [field_spans combine map] in HR. inversion HR; subst.
        destruct (map _ (t :: ts)); cbn; lia.
      * left. cbn [field_spans combine map] in HR. inversion HR; subst. cbn [combine map].
        unfold total. cbn [map fold_right hd last]. lia.
      * cbn [field_spans combine map fst snd] in HR. inversion HR as [|? v ? l' HV HR']; subst.
        cbn [neighbours forallb fst snd] in HE. apply andb_true_iff in HE as [HE1 HE2].
        destruct (IH (p + 4) (e :: ends) _ HE2 HR') as [I|[_ I]]; [|discriminate]. left.
        apply HT in HV. pose proof (blen_sub b s (e - s)) as HB.
        cbn [map combine fst snd total fold_right head_size hd] in *. rewrite EV in *. cbn [fst snd] in *.
        change (last (s :: e :: ends) 0) with (last (e :: ends) 0). unfold total in *. cbn [fold_right] in *.
        change (head_size (true, fixed_size t)) with 4. lia.
    + cbn [field_spans combine map fst snd] in HR. inversion HR as [|? v ? l' HV HR']; subst.
      apply HT in HV. pose proof (blen_sub b p (fixed_size t)) as HB.
      destruct (IH (p + fixed_size t) ends _ HE HR') as [I|[I1 I2]]; [left|right; split; [|exact I2]];
        cbn [map combine fst snd total fold_right head_size hd] in *; rewrite EV in *; cbn [fst snd] in *;
        change (head_size (false, fixed_size t)) with (fixed_size t) in *;
        unfold total in *; cbn [fold_right] in *; lia.
Qed.

Lemma read_last_variant rs : forall i w, read_last i rs = Reads w ->
  exists k v, nth_error rs k = Some (Reads v) /\ w = VVariant (i + N.of_nat k) v.
Proof.
  induction rs as [|r rs IH]; intros i w HR; cbn [read_last] in HR; [discriminate|].
  destruct (read_last (i + 1) rs) as [w'| |] eqn:ER; try discriminate.
  - injection HR as <-. apply IH in ER as (k & v & HN & ->). exists (S k), v. split; [exact HN|]. f_equal. lia.
  - destruct r as [v| |]; try discriminate. injection HR as <-. exists 0%nat, v. split; [reflexivity|]. f_equal. lia.
Qed.

Lemma last_app_one {A} (l : list A) x d : last (l ++ [x]) d = x.
Proof. apply last_last. Qed.

Lemma drop_false_length l : (length (drop_false l) <= length l)%nat.
Proof. induction l as [|[] l IH]; cbn; lia. Qed.

Lemma read_bytes c t : legal t = true -> forall b v, read c t b = Reads v -> encoded_bytes t v <= blen b.
Proof.
  induction t using ty_ind'; intros HL e v HR; cbn [read] in HR.
  - destruct e as [|[] []]; try discriminate; injection HR as <-; cbn; lia.
  - apply on_condition_reads in HR as [HC [= <-]]. cbn [encoded_bytes].
    assert (fixed_size (TUint w) = N.of_nat (spec_uint_size w)) by (destruct w; reflexivity). lia.
  - apply on_condition_reads in HR as [HC [= <-]]. cbn. lia.
  - apply on_condition_reads in HR as [HC [= <-]]. cbn. lia.
  - cbn [legal] in HL. rewrite !andb_true_iff in HL. destruct HL as [[[L1 L2] L3] HL].
    apply on_condition_reads in HR as [_ HR]. apply then_reads in HR as (l & HR & HN).
    apply on_condition_reads in HN as [_ [= <-]]. cbn [encoded_bytes].
    eapply (elements_bytes t (read c t)); [apply IHt; exact HL| |exact HR].
    destruct (spec_variable t) eqn:EV; [auto|left]. pose proof (legal_fixed_size t HL EV). lia.
  - cbn [legal] in HL. rewrite !andb_true_iff in HL. destruct HL as [[[L1 L2] L3] HL].
    apply on_condition_reads in HR as [_ HR]. apply then_reads in HR as (l & HR & HN).
    apply on_condition_reads in HN as [_ [= <-]]. cbn [encoded_bytes].
    eapply (elements_bytes t (read c t)); [apply IHt; exact HL| |exact HR].
    destruct (spec_variable t) eqn:EV; [auto|left]. pose proof (legal_fixed_size t HL EV). lia.
  - cbn [legal] in HL. rewrite !andb_true_iff in HL. destruct HL as [L1 HL].
    apply then_reads in HR as (l & HR & HN).
    apply on_condition_reads in HN as [_ [= <-]]. cbn [encoded_bytes].
    eapply (elements_bytes t (read c t)); [apply IHt; exact HL| |exact HR].
    destruct (spec_variable t) eqn:EV; [auto|left]. pose proof (legal_fixed_size t HL EV). lia.
  - unfold read_bitvector in HR. apply on_condition_reads in HR as [HC [= <-]]. cbn [encoded_bytes bits_val bv_len].
    assert (blen (firstn (N.to_nat n) (bits_of e)) <= n) by (unfold blen; rewrite firstn_length; lia). lia.
  - unfold read_bitlist in HR. destruct (drop_false (rev (bits_of e))) as [|x r] eqn:ED; [discriminate|].
    apply on_condition_reads in HR as [HC [= <-]]. cbn [encoded_bytes bits_val bv_len].
    pose proof (drop_false_length (rev (bits_of e))) as HD. rewrite ED, rev_length, bits_of_length in HD. cbn [length] in HD.
    assert (HB : blen (rev r) + 1 <= 8 * blen e) by (unfold blen; rewrite rev_length; lia). lia.
  - apply then_reads in HR as (l & HR & [= <-]). rewrite fields_of_map in HR. unfold read_fields in HR.
    assert (HFD : map fst (fields_of (read c) (map snd fs)) = map (fun t => (spec_variable t, fixed_size t)) (map snd fs))
      by (unfold fields_of; rewrite map_map; reflexivity).
    rewrite HFD in HR. destruct (c && _); [discriminate|]. apply on_condition_reads in HR as [HC HR].
    rewrite !andb_true_iff in HC. destruct HC as [[HC1 HC2] HC3]. apply read_all_iff in HR.
    assert (HFS : Forall (fun t => forall e v, read c t e = Reads v -> encoded_bytes t v <= blen e) (map snd fs)).
    { apply Forall_map. cbn [legal] in HL. rewrite !andb_true_iff in HL. destruct HL as [_ HL]. rewrite forallb_forall in HL.
      rewrite Forall_forall in *. intros f Hf. apply H; auto. }
    destruct (fields_bytes _ _ _ _ _ _ HC3 HFS HR) as [I|[_ I]].
    + rewrite last_app_one in I. apply N.eqb_eq in HC2. rewrite HC2 in I. cbn [encoded_bytes]. rewrite !map_map in I. lia.
    + apply app_eq_nil in I as [_ I]. discriminate.
  - apply then_reads in HR as (x & HR & [= <-]). cbn [encoded_bytes]. apply IHt; auto.
  - destruct e as [|x e]; [discriminate|]. destruct x; try discriminate.
    + destruct e; [|discriminate]. injection HR as <-. cbn. lia.
    + apply then_reads in HR as (y & HR & [= <-]). cbn [encoded_bytes]. apply IHt in HR; auto.
      unfold blen in *. cbn [length]. lia.
  - destruct e as [|x e]; [discriminate|]. rewrite nth_error_map in HR.
    destruct (nth_error vs (N.to_nat (byte_to_N x))) as [[u|]|] eqn:EN; cbn [option_map] in HR; [| |discriminate].
    + apply then_reads in HR as (y & HR & [= <-]). cbn [encoded_bytes]. rewrite nth_error_map, EN. cbn [option_map].
      cbn [legal] in HL. apply andb_true_iff in HL as [_ HL]. rewrite forallb_forall in HL. rewrite Forall_forall in H.
      apply nth_error_In in EN. apply (H _ EN (HL _ EN)) in HR. unfold blen in *. cbn [length]. lia.
    + apply on_condition_reads in HR as [_ [= <-]]. cbn [encoded_bytes]. unfold blen. cbn [length]. lia.
  - destruct e as [|x e]; [discriminate|]. remember (x :: e) as b. clear Heqb.
    apply read_last_variant in HR as (k & w & HN & ->). cbn [encoded_bytes].
    rewrite N.add_0_l, Nnat.Nat2N.id, nth_error_map in *. destruct (nth_error ts k) as [u|] eqn:EN; [|discriminate].
    cbn [option_map] in *. injection HN as HN. cbn [legal] in HL. rewrite !andb_true_iff in HL. destruct HL as [_ HL].
    rewrite forallb_forall in HL. rewrite Forall_forall in H. apply nth_error_In in EN. apply (H _ EN (HL _ EN)); auto.
Qed.

Lemma encoded_fixed t : forall v, valid t v -> spec_variable t = false -> encoded_bytes t v = fixed_size t.
Proof.
  induction t using ty_ind'; intros v HV HF; destruct v; try (cbn [valid] in HV; contradiction);
    try reflexivity; try discriminate HF; cbn [valid spec_variable] in *.
  - destruct HV as [<- HV]. cbn [encoded_bytes fixed_size]. rewrite HF.
    induction HV as [|x l HX _ IH]; [reflexivity|]. cbn [map total fold_right]. fold (total (map (fun x => 0 + encoded_bytes t x) l)).
    rewrite IH, IHt by auto. unfold blen. cbn [length]. lia.
  - destruct HV as [<- HV]. cbn [encoded_bytes fixed_size]. rewrite HF.
    induction HV as [|x l HX _ IH]; [reflexivity|]. cbn [map total fold_right]. fold (total (map (fun x => 0 + encoded_bytes t x) l)).
    rewrite IH, IHt by auto. unfold blen. cbn [length]. lia.
  - destruct HV as (_ & <- & _). reflexivity.
  - cbn [encoded_bytes fixed_size]. rewrite HF. rewrite Forall2_fun_map in HV.
    revert HF. induction HV as [|f x fs l HX _ IH]; intros HF; [reflexivity|]. cbn [existsb] in HF. apply orb_false_iff in HF as [HF1 HF].
    inversion H; subst. cbn [map combine total fold_right fst snd].
    fold (total (map (fun fx : (val -> N) * val => fst fx (snd fx)) (combine (map (fun f x => (if spec_variable (snd f) then 4 else 0) + encoded_bytes (snd f) x) fs) l))).
    rewrite IH by auto. rewrite HF1, H2 by auto. reflexivity.
  - cbn [encoded_bytes fixed_size]. auto.
Qed.

(** ** The number of values *)

Definition cost (u : ty) (x : val) : N := (if spec_variable u then 4 else 0) + encoded_bytes u x.

Lemma cost_pos u x : legal u = true -> valid u x -> N.max 1 (encoded_bytes u x) <= cost u x.
Proof.
  intros HL HV. unfold cost. destruct (spec_variable u) eqn:EV; [lia|].
  rewrite (encoded_fixed u x HV EV). pose proof (legal_fixed_size u HL EV). lia.
Qed.

Lemma fold_max_in {A} (f : A -> N) l x : In x l -> f x <= fold_right N.max 0 (map f l).
Proof. induction l as [|a l IH]; [contradiction|]. intros [<-|HI]; cbn [map fold_right]; [lia|]. specialize (IH HI). lia. Qed.

Lemma mul_le_r a b c : b <= c -> a * b <= a * c.
Proof. intros. apply N.mul_le_mono_l. auto. Qed.

Lemma nodes_bytes t : legal t = true -> forall v, valid t v -> nodes v <= height t * N.max 1 (encoded_bytes t v).
Proof.
  assert (HSEQ : forall u l, legal u = true -> Forall (valid u) l ->
    (forall v, valid u v -> nodes v <= height u * N.max 1 (encoded_bytes u v)) ->
    nodes (VSeq l) <= (1 + height u) * N.max 1 (total (map (cost u) l))).
  { intros u l HL HV HI. cbn [nodes].
    assert (HT : total (map nodes l) <= height u * total (map (cost u) l)).
    { induction HV as [|x l HX _ IH]; [cbn; lia|]. cbn [map total fold_right]. fold (total (map nodes l)). fold (total (map (cost u) l)).
      specialize (HI x HX). pose proof (mul_le_r (height u) _ _ (cost_pos u x HL HX)). lia. }
    pose proof (mul_le_r (height u) _ _ (N.le_max_r 1 (total (map (cost u) l)))). lia. }
  assert (HONE : forall h a b, a <= h * N.max 1 b -> 1 + a <= (1 + h) * N.max 1 b) by (intros; lia).
  assert (HSEL : forall h a b, a <= h * N.max 1 b -> 1 + a <= (1 + h) * N.max 1 (1 + b)).
  { intros h a b HA. pose proof (mul_le_r h (N.max 1 b) (N.max 1 (1 + b)) ltac:(lia)). lia. }
  assert (HH : forall h h' a b, h <= h' -> a <= h * b -> a <= h' * b).
  { intros h h' a b H1 H2. pose proof (N.mul_le_mono_r h h' b H1). lia. }
  induction t using ty_ind'; intros HL v HV; destruct v; try (cbn [valid] in HV; contradiction);
    try (destruct vs as [|[]]; cbn [valid] in HV; contradiction); try (cbn [nodes height]; lia);
    cbn [legal] in HL; rewrite ?andb_true_iff in HL.
  - destruct HV as [_ HV]. apply HSEQ; auto; [apply HL|]. apply IHt, HL.
  - destruct HV as [_ HV]. apply HSEQ; auto; [apply HL|]. apply IHt, HL.
  - destruct HV as [_ HV]. apply HSEQ; auto; [apply HL|]. apply IHt, HL.
  - cbn [valid] in HV. rewrite Forall2_fun_map in HV. destruct HL as [_ HL]. cbn [nodes height encoded_bytes].
    set (h := fold_right N.max 0 (map (fun f => height (snd f)) fs)).
    assert (HB : forall f, In f fs -> height (snd f) <= h) by (intros; apply (fold_max_in (fun f => height (snd f))); auto).
    clearbody h.
    assert (HT : total (map nodes l) <= h * total (map (fun fx : (val -> N) * val => fst fx (snd fx))
        (combine (map (fun f x => (if spec_variable (snd f) then 4 else 0) + encoded_bytes (snd f) x) fs) l))).
    { clear HONE HSEL HSEQ. induction HV as [|f x fs l HX _ IH]; [cbn; lia|]. cbn [forallb] in HL. apply andb_true_iff in HL as [HL1 HL].
      inversion H; subst. cbn [map combine total fold_right fst snd].
      fold (total (map nodes l)).
      fold (total (map (fun fx : (val -> N) * val => fst fx (snd fx)) (combine (map (fun f x => (if spec_variable (snd f) then 4 else 0) + encoded_bytes (snd f) x) fs) l))).
      fold (cost (snd f) x). specialize (IH H3 HL (fun g Hg => HB g (or_intror Hg))).
      pose proof (H2 HL1 x HX) as HN. pose proof (mul_le_r (height (snd f)) _ _ (cost_pos _ x HL1 HX)).
      pose proof (HH _ h _ (cost (snd f) x) (HB f (or_introl eq_refl)) (N.le_trans _ _ _ HN H0)). lia. }
    match goal with |- _ <= _ * N.max 1 ?z => pose proof (mul_le_r h _ _ (N.le_max_r 1 z)) end. lia.
  - cbn [valid nodes height encoded_bytes] in *. apply HONE. auto.
  - cbn [valid nodes height encoded_bytes] in *. apply HSEL. auto.
  - apply valid_variant in HV as (u & EN & HV). cbn [nodes height encoded_bytes]. rewrite nth_error_map, EN. cbn [option_map].
    apply HSEL. apply nth_error_In in EN. rewrite Forall_forall in H. destruct HL as [_ HL]. rewrite forallb_forall in HL.
    eapply HH; [|apply (H _ EN (HL _ EN)); auto].
    apply (fold_max_in (fun o => match o with Some u => height u | None => 0 end) _ (Some u)); auto.
  - cbn [valid] in HV. rewrite nth_error_map in HV. destruct (nth_error ts (N.to_nat i)) as [u|] eqn:EN; [|contradiction].
    cbn [option_map] in HV. cbn [nodes height encoded_bytes]. rewrite nth_error_map, EN. cbn [option_map].
    apply HONE. apply nth_error_In in EN. rewrite Forall_forall in H. destruct HL as [_ HL]. rewrite forallb_forall in HL.
    eapply HH; [|apply (H _ EN (HL _ EN)); auto]. apply fold_max_in. auto.
Qed.

(** ** The encoding *)

Lemma compose_exact t (l : list val) es :
  Forall (fun x => forall e, spec_serialize t x = Some e -> encoded_bytes t x = blen e) l ->
  sequence (map (fun x => flag (spec_variable t) (spec_serialize t x)) l) = Some es ->
  total (map (fun x => (if spec_variable t then 4 else 0) + encoded_bytes t x) l) = total (fixed_lengths es) + total (variable_lengths es).
Proof.
  intros HF. revert es. induction HF as [|x l HX _ IH]; intros es HS; cbn [map sequence] in HS; [injection HS as <-; reflexivity|].
  destruct (spec_serialize t x) as [e|]; [|discriminate]. cbn [flag option_map] in HS.
  destruct (sequence _) as [es'|]; [|discriminate]. injection HS as <-. specialize (IH _ eq_refl). specialize (HX _ eq_refl).
  cbn [map]. unfold fixed_lengths, variable_lengths, variable_parts, total in *. cbn [map fold_right fst snd].
  destruct (spec_variable t); change (blen (@nil byte)) with 0; lia.
Qed.

Lemma encoded_exact t : forall v e, valid t v -> spec_serialize t v = Some e -> encoded_bytes t v = blen e.
Proof.
  induction t using ty_ind'; intros v e HV HS; destruct v; try (cbn [valid] in HV; contradiction);
    try (destruct vs as [|[]]; cbn [valid] in HV; contradiction); cbn [spec_serialize] in HS.
  - injection HS as <-. reflexivity.
  - injection HS as <-. rewrite spec_uint_blen. destruct w; reflexivity.
  - injection HS as <-. rewrite spec_uint_blen. reflexivity.
  - injection HS as <-. symmetry. exact HV.
  - destruct HV as [_ HV]. destruct (sequence _) as [es|] eqn:ES; [|discriminate]. apply spec_compose_blen in HS. rewrite HS.
    cbn [encoded_bytes]. unfold compose_size. erewrite compose_exact; [| |exact ES].
    + unfold compose_size. rewrite ?total_app. lia.
    + eapply Forall_impl; [|exact HV]. intros x Hx e' HE. eauto.
  - destruct HV as [_ HV]. destruct (sequence _) as [es|] eqn:ES; [|discriminate]. apply spec_compose_blen in HS. rewrite HS.
    cbn [encoded_bytes]. unfold compose_size. erewrite compose_exact; [| |exact ES].
    + rewrite ?total_app. lia.
    + eapply Forall_impl; [|exact HV]. intros x Hx e' HE. eauto.
  - destruct HV as [_ HV]. destruct (sequence _) as [es|] eqn:ES; [|discriminate]. apply spec_compose_blen in HS. rewrite HS.
    cbn [encoded_bytes]. unfold compose_size. erewrite compose_exact; [| |exact ES].
    + rewrite ?total_app. lia.
    + eapply Forall_impl; [|exact HV]. intros x Hx e' HE. eauto.
  - injection HS as <-. rewrite spec_bits_length, blen_bv_bits. reflexivity.
  - injection HS as <-. rewrite spec_bits_length, blen_app, blen_bv_bits. unfold bits_bytes. change (blen [true]) with 1. cbn [encoded_bytes]. lia.
  - cbn [valid] in HV. rewrite Forall2_fun_map in HV. destruct (sequence _) as [es|] eqn:ES; [|discriminate].
    apply spec_compose_blen in HS. rewrite HS. cbn [encoded_bytes]. unfold compose_size. rewrite ?total_app. clear HS.
    revert es ES. induction HV as [|f x fs l HX _ IH]; intros es ES; cbn [map combine sequence] in ES; [injection ES as <-; reflexivity|].
    inversion H; subst. cbn [fst snd] in ES.
    destruct (spec_serialize (snd f) x) as [e'|] eqn:EE; [|discriminate]. cbn [flag option_map] in ES.
    destruct (sequence _) as [es'|]; [|discriminate]. injection ES as <-. specialize (IH H3 _ eq_refl).
    specialize (H2 _ _ HX EE).
    cbn [map combine fst snd]. unfold fixed_lengths, variable_lengths, variable_parts, total in *. cbn [map fold_right fst snd].
    destruct (spec_variable (snd f)); change (blen (@nil byte)) with 0; lia.
  - cbn [encoded_bytes valid] in *. eauto.
  - injection HS as <-. reflexivity.
  - destruct (spec_serialize t v) as [e'|] eqn:EE; [|discriminate]. injection HS as <-. cbn [encoded_bytes].
    erewrite IHt by eauto. unfold blen. cbn [length]. lia.
  - injection HS as <-. destruct vs as [|[]]; cbn [valid] in HV; try contradiction. reflexivity.
  - apply valid_variant in HV as (u & EN & HV). cbn [encoded_bytes]. rewrite nth_error_map, EN in *. cbn [option_map] in *.
    destruct (spec_serialize u v) as [e'|] eqn:EE; [|discriminate]. injection HS as <-.
    apply nth_error_In in EN. rewrite Forall_forall in H. erewrite (H _ EN) by eauto. unfold blen. cbn [length]. lia.
  - cbn [valid] in HV. rewrite nth_error_map in *. cbn [encoded_bytes]. rewrite nth_error_map.
    destruct (nth_error ts (N.to_nat i)) as [u|] eqn:EN; [|contradiction]. cbn [option_map] in *.
    apply nth_error_In in EN. rewrite Forall_forall in H. eapply (H _ EN); eauto.
Qed.

(** ** Bounds of the type *)

Lemma smallest_le l n : In n l -> smallest l <= n.
Proof.
  destruct l as [|a r]; [contradiction|]. cbn [smallest]. revert a. induction r as [|b r IH]; intros a HI; cbn [fold_right].
  - destruct HI as [<-|[]]. lia.
  - destruct HI as [<-|[<-|HI]].
    + specialize (IH a (or_introl eq_refl)). lia.
    + lia.
    + specialize (IH a (or_intror HI)). lia.
Qed.

Lemma smallest_in l : l <> [] -> In (smallest l) l.
Proof.
  destruct l as [|a r]; [congruence|]. intros _. cbn [smallest]. induction r as [|b r IH]; cbn [fold_right]; [now left|].
  destruct (N.min_dec b (fold_right N.min a r)) as [E|E]; rewrite E; [right; now left|].
  destruct IH as [I|I]; [now left|right; now right].
Qed.

Lemma largest_le l n : In n l -> n <= largest l.
Proof. unfold largest. induction l as [|a l IH]; [contradiction|]. intros [<-|HI]; cbn [fold_right]; [lia|]. specialize (IH HI). lia. Qed.

Lemma largest_in l : l <> [] -> In (largest l) l.
Proof.
  unfold largest. induction l as [|a l IH]; [congruence|]. intros _. cbn [fold_right].
  destruct (N.max_dec a (fold_right N.max 0 l)) as [E|E]; rewrite E; [now left|].
  destruct l as [|b l]; [cbn in *; left; lia|]. right. apply IH. discriminate.
Qed.

Lemma total_between {A} (f : A -> N) lo hi l : Forall (fun x => lo <= f x <= hi) l -> blen l * lo <= total (map f l) <= blen l * hi.
Proof.
  induction 1 as [|x l HX _ IH]; [cbn; lia|]. cbn [map total fold_right]. fold (total (map f l)). rewrite blen_cons, !N.mul_add_distr_r. lia.
Qed.

Lemma bytes_between t : forall v, valid t v -> least_bytes t <= encoded_bytes t v <= most_bytes t.
Proof.
  assert (HS : forall u k lo hi l, Forall (valid u) l -> (forall v, valid u v -> lo <= encoded_bytes u v <= hi) ->
    blen l * (k + lo) <= total (map (fun x => k + encoded_bytes u x) l) <= blen l * (k + hi)).
  { intros u k lo hi l HV HI. apply total_between. eapply Forall_impl; [|exact HV]. intros x HX. specialize (HI x HX). lia. }
  induction t using ty_ind'; intros v HV; destruct v; try (cbn [valid] in HV; contradiction);
    try (destruct vs as [|[]]; cbn [valid] in HV; contradiction); try (split; apply N.le_refl); cbn [valid] in HV.
  - destruct HV as [<- HV]. cbn [least_bytes most_bytes encoded_bytes]. apply HS; auto.
  - destruct HV as [<- HV]. cbn [least_bytes most_bytes encoded_bytes]. apply HS; auto.
  - destruct HV as [HB HV]. cbn [least_bytes most_bytes encoded_bytes].
    pose proof (HS t (if spec_variable t then 4 else 0) _ _ l HV IHt) as HX.
    pose proof (N.mul_le_mono_r _ _ ((if spec_variable t then 4 else 0) + most_bytes t) HB). lia.
  - destruct HV as (_ & <- & _). cbn [least_bytes most_bytes encoded_bytes fixed_size]. lia.
  - destruct HV as (_ & HB & _). cbn [least_bytes most_bytes encoded_bytes]. lia.
  - rewrite Forall2_fun_map in HV. cbn [least_bytes most_bytes encoded_bytes].
    induction HV as [|f x fs l HX _ IH]; [cbn; lia|]. inversion H; subst. specialize (IH H3). specialize (H2 x HX).
    cbn [map combine total fold_right fst snd].
    change (fold_right N.add 0) with total. lia.
  - cbn [least_bytes most_bytes encoded_bytes]. auto.
  - cbn [least_bytes most_bytes encoded_bytes]. lia.
  - cbn [least_bytes most_bytes encoded_bytes]. specialize (IHt v HV). lia.
  - destruct vs as [|[|] vs]; try contradiction. cbn [least_bytes most_bytes encoded_bytes].
    pose proof (smallest_le (map (fun o : option ty => match o with Some u => least_bytes u | None => 0 end) (None :: vs)) 0 (or_introl eq_refl)). lia.
  - apply valid_variant in HV as (u & EN & HV). cbn [least_bytes most_bytes encoded_bytes]. rewrite nth_error_map, EN. cbn [option_map].
    apply nth_error_In in EN. rewrite Forall_forall in H. specialize (H _ EN v HV). cbn in H.
    pose proof (smallest_le _ _ (in_map (fun o : option ty => match o with Some u => least_bytes u | None => 0 end) _ _ EN)).
    pose proof (largest_le _ _ (in_map (fun o : option ty => match o with Some u => most_bytes u | None => 0 end) _ _ EN)). cbv beta iota in *. lia.
  - rewrite nth_error_map in HV. destruct (nth_error ts (N.to_nat i)) as [u|] eqn:EN; [|contradiction]. cbn [option_map] in HV.
    cbn [least_bytes most_bytes encoded_bytes]. rewrite nth_error_map, EN. cbn [option_map].
    apply nth_error_In in EN. rewrite Forall_forall in H. specialize (H _ EN v HV).
    pose proof (smallest_le _ _ (in_map least_bytes _ _ EN)). pose proof (largest_le _ _ (in_map most_bytes _ _ EN)). lia.
Qed.

(** Both are reached. *)
Lemma total_repeat {A} (f : A -> N) x n : total (map f (repeat x n)) = N.of_nat n * f x.
Proof. induction n; cbn [repeat map total fold_right]; [reflexivity|]. fold (total (map f (repeat x n))). lia. Qed.

Lemma repeat_valid u x n : valid u x -> Forall (valid u) (repeat x n).
Proof. intros HX. apply Forall_forall. intros y Hy. apply repeat_spec in Hy. subst. exact HX. Qed.

Lemma zero_bits n : exists b, bv_ok b = true /\ bv_len b = n /\ bv_clean b.
Proof.
  exists (BitVec (zeros (N.to_nat ((n + 7) / 8))) n). unfold bv_ok, bv_clean. cbn [bv_raw bv_len]. split; [rewrite blen_zeros, Nnat.N2Nat.id; apply N.eqb_refl|].
  split; [reflexivity|]. intros i _. apply raw_bit_zeros.
Qed.

Lemma bytes_reached (pick : bool) t : legal t = true ->
  exists v, valid t v /\ encoded_bytes t v = if pick then most_bytes t else least_bytes t.
Proof.
  assert (HSeq : forall u n (f : ty -> N) x, valid u x -> encoded_bytes u x = f u ->
    blen (repeat x (N.to_nat n)) = n /\ Forall (valid u) (repeat x (N.to_nat n)) /\
    total (map (fun x => (if spec_variable u then 4 else 0) + encoded_bytes u x) (repeat x (N.to_nat n))) =
    n * ((if spec_variable u then 4 else 0) + f u)).
  { intros u n f x HX EX. split; [unfold blen; rewrite repeat_length; lia|]. split; [apply repeat_valid; exact HX|].
    rewrite total_repeat, EX. lia. }
  induction t using ty_ind'; intros HL.
  - exists (VBool true). destruct pick; split; reflexivity || exact I.
  - exists (VUint 0). split; [destruct w; reflexivity|destruct pick; reflexivity].
  - exists (VUint 0). split; [reflexivity|destruct pick; reflexivity].
  - exists (VNode (zeros 32)). split; [reflexivity|destruct pick; reflexivity].
  - cbn [legal] in HL. rewrite !andb_true_iff in HL. destruct IHt as (x & HX & EX); [tauto|].
    exists (VSeq (repeat x (N.to_nat n))).
    destruct (HSeq t n (fun u => if pick then most_bytes u else least_bytes u) x HX EX) as (S1 & S2 & S3).
    split; [split; assumption|]. cbn [encoded_bytes least_bytes most_bytes]. rewrite S3. destruct pick; reflexivity.
  - cbn [legal] in HL. rewrite !andb_true_iff in HL. destruct IHt as (x & HX & EX); [tauto|].
    exists (VSeq (repeat x (N.to_nat n))).
    destruct (HSeq t n (fun u => if pick then most_bytes u else least_bytes u) x HX EX) as (S1 & S2 & S3).
    split; [split; assumption|]. cbn [encoded_bytes least_bytes most_bytes]. rewrite S3. destruct pick; reflexivity.
  - cbn [legal] in HL. rewrite !andb_true_iff in HL. destruct IHt as (x & HX & EX); [tauto|].
    destruct pick.
    + exists (VSeq (repeat x (N.to_nat n))). destruct (HSeq t n most_bytes x HX EX) as (S1 & S2 & S3).
      split; [split; [lia|assumption]|]. exact S3.
    + exists (VSeq []). split; [split; [apply N.le_0_l|constructor]|reflexivity].
  - destruct (zero_bits n) as (b & B1 & B2 & B3). exists (VBits b). split; [cbn; auto|].
    cbn [encoded_bytes least_bytes most_bytes fixed_size]. rewrite B2. destruct pick; reflexivity.
  - destruct (zero_bits (if pick then n else 0)) as (b & B1 & B2 & B3). exists (VBits b).
    split; [cbn [valid]; split; [exact B1|]; split; [destruct pick; lia|exact B3]|].
    cbn [encoded_bytes least_bytes most_bytes]. rewrite B2. destruct pick; reflexivity.
  - cbn [legal] in HL. rewrite !andb_true_iff in HL. destruct HL as [_ HL].
    assert (HX : exists l, valid (TContainer fs) (VStruct l) /\
      encoded_bytes (TContainer fs) (VStruct l) = if pick then most_bytes (TContainer fs) else least_bytes (TContainer fs)).
    { induction H as [|f fs HF _ IH].
      - exists []. split; [constructor|destruct pick; reflexivity].
      - cbn [forallb] in HL. apply andb_true_iff in HL as [HL1 HL]. destruct (IH HL) as (l & V & E). destruct (HF HL1) as (x & V' & E').
        exists (x :: l). split; [constructor; assumption|].
        cbn [encoded_bytes most_bytes least_bytes map combine total fold_right fst snd] in *.
        change (fold_right N.add 0) with total. change (fold_right N.add 0) with total in E.
        rewrite E, E'. destruct pick; reflexivity. }
    destruct HX as (l & V & E). eauto.
  - destruct (IHt HL) as (x & V & E). exists (VNewtype x). auto.
  - destruct (IHt HL) as (x & V & E). destruct pick; [exists (VSome x)|exists VNone]; split; auto; [|exact I].
    cbn [encoded_bytes most_bytes]. rewrite E. reflexivity.
  - cbn [legal] in HL. apply andb_true_iff in HL as [HL1 HL].
    set (f := fun o : option ty => match o with Some u => if pick then most_bytes u else least_bytes u | None => 0 end).
    assert (HI : exists o, In o vs /\ (if pick then most_bytes (TUnion vs) else least_bytes (TUnion vs)) = 1 + f o).
    { assert (HNe : map f vs <> []) by (destruct vs; discriminate). unfold f in *. destruct pick.
      - pose proof (largest_in _ HNe) as HI. apply in_map_iff in HI as (o & E & HI). exists o. split; [exact HI|].
        cbn [most_bytes]. rewrite E. reflexivity.
      - pose proof (smallest_in _ HNe) as HI. apply in_map_iff in HI as (o & E & HI). exists o. split; [exact HI|].
        cbn [least_bytes]. rewrite E. reflexivity. }
    destruct HI as (o & HI & ->). destruct o as [u|]; cbn [f].
    + rewrite Forall_forall in H. rewrite forallb_forall in HL. destruct (H _ HI (HL _ HI)) as (x & V & E).
      apply In_nth_error in HI as (k & EK). exists (VVariant (N.of_nat k) x). split.
      * cbn [valid]. destruct vs as [|[|] ?]; rewrite nth_error_map, Nnat.Nat2N.id, EK; exact V.
      * cbn [encoded_bytes]. rewrite nth_error_map, Nnat.Nat2N.id, EK. cbn [option_map]. rewrite E. reflexivity.
    + exists VNone. split; [|reflexivity]. destruct vs as [|[u|] r]; [discriminate| |exact I].
      cbn [legal_variants] in HL1. rewrite !andb_true_iff in HL1. destruct HL1 as [[_ HL1] _]. apply negb_true_iff in HL1.
      destruct HI as [HI|HI]; [discriminate|].
      assert (existsb is_none r = true) by (apply existsb_exists; exists None; auto). congruence.
  - cbn [legal] in HL. rewrite !andb_true_iff in HL. destruct HL as [[HL1 _] HL].
    set (f := fun u : ty => if pick then most_bytes u else least_bytes u).
    assert (HI : exists u, In u ts /\ (if pick then most_bytes (TTransparent ts) else least_bytes (TTransparent ts)) = f u).
    { assert (HNe : map f ts <> []) by (destruct ts; discriminate). unfold f in *. destruct pick.
      - pose proof (largest_in _ HNe) as HI. apply in_map_iff in HI as (o & E & HI). exists o. auto.
      - pose proof (smallest_in _ HNe) as HI. apply in_map_iff in HI as (o & E & HI). exists o. auto. }
    destruct HI as (u & HI & ->). rewrite Forall_forall in H. rewrite forallb_forall in HL.
    destruct (H _ HI (HL _ HI)) as (x & V & E). apply In_nth_error in HI as (k & EK). exists (VVariant (N.of_nat k) x). split.
    + cbn [valid]. rewrite nth_error_map, Nnat.Nat2N.id, EK. exact V.
    + cbn [encoded_bytes]. rewrite nth_error_map, Nnat.Nat2N.id, EK. exact E.
Qed.

(** Values below 2^32 bytes have encodings. *)
Lemma small_serializes t : forall v, valid t v -> encoded_bytes t v < 2 ^ 32 -> exists e, spec_serialize t v = Some e.
Proof.
  assert (HS : forall u l, Forall (fun v => encoded_bytes u v < 2 ^ 32 -> exists e, spec_serialize u v = Some e) l ->
    Forall (valid u) l ->
    total (map (fun x => (if spec_variable u then 4 else 0) + encoded_bytes u x) l) < 2 ^ 32 ->
    exists e, match sequence (map (fun x => flag (spec_variable u) (spec_serialize u x)) l) with Some es => spec_compose es | None => None end = Some e).
  { intros u l HI HV HB.
    assert (HQ : exists es, sequence (map (fun x => flag (spec_variable u) (spec_serialize u x)) l) = Some es).
    { clear HV. induction HI as [|x l HX _ IH]; [eexists; reflexivity|].
      cbn [map total fold_right] in HB. change (fold_right N.add 0) with total in HB.
      destruct HX as [e E]; [lia|]. destruct IH as [es ES]; [lia|]. cbn [map sequence]. rewrite E, ES. eexists; reflexivity. }
    destruct HQ as [es ES]. rewrite ES. unfold spec_compose.
    rewrite (compose_exact u l es) in HB; [rewrite total_app; replace (_ <? _) with true by lia; eexists; reflexivity| |exact ES].
    eapply Forall_impl; [|exact HV]. intros x HX e E. eapply encoded_exact; eauto. }
  induction t using ty_ind'; intros v HV HB; destruct v; try (cbn [valid] in HV; contradiction);
    try (destruct vs as [|[]]; cbn [valid] in HV; contradiction); cbn [spec_serialize]; try (eexists; reflexivity); cbn [valid encoded_bytes] in *.
  1-3: destruct HV as [_ HV]; apply HS; auto; eapply Forall_impl; [|exact HV]; auto.
  - rewrite Forall2_fun_map in HV.
    assert (HQ : exists es, sequence (map (fun fx => fst fx (snd fx))
      (combine (map (fun f x => flag (spec_variable (snd f)) (spec_serialize (snd f) x)) fs) l)) = Some es /\
      total (map (fun fx : (val -> N) * val => fst fx (snd fx))
        (combine (map (fun f x => (if spec_variable (snd f) then 4 else 0) + encoded_bytes (snd f) x) fs) l)) =
      total (fixed_lengths es) + total (variable_lengths es)).
    { induction HV as [|f x fs l HX _ IH]; [exists []; split; reflexivity|]. inversion H; subst.
      cbn [map combine total fold_right fst snd] in HB. change (fold_right N.add 0) with total in HB.
      destruct (H2 x HX) as [e E]; [lia|]. destruct (IH H3) as (es & ES & ET); [lia|].
      cbn [map combine sequence fst snd]. rewrite E, ES. eexists. split; [reflexivity|].
      pose proof (encoded_exact _ _ _ HX E) as EE.
      unfold fixed_lengths, variable_lengths, variable_parts, total in *. cbn [map fold_right fst snd] in *.
      destruct (spec_variable (snd f)); change (blen (@nil byte)) with 0; lia. }
    destruct HQ as (es & ES & ET). rewrite ES. unfold spec_compose. rewrite total_app. rewrite ET in HB.
    replace (_ <? _) with true by lia. eexists; reflexivity.
  - eauto.
  - destruct (IHt v HV) as [e E]; [lia|]. rewrite E. eexists; reflexivity.
  - apply (valid_variant vs) in HV as (u & EN & HV). rewrite !nth_error_map, EN in *. cbn [option_map] in *.
    pose proof (nth_error_In _ _ EN) as HI. rewrite Forall_forall in H. destruct (H _ HI v HV) as [e E]; [lia|].
    rewrite E. eexists; reflexivity.
  - rewrite !nth_error_map in *. destruct (nth_error ts (N.to_nat i)) as [u|] eqn:EN; [|contradiction]. cbn [option_map] in *.
    pose proof (nth_error_In _ _ EN) as HI. rewrite Forall_forall in H. apply (H _ HI v HV). exact HB.
Qed.
