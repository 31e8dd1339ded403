(** Encodings that are not the beginning of another one. *)
From Coq Require Import String.
From Coq Require Import List NArith ZArith Bool Lia ZifyBool ZifyNat ZifyN.
From Coq Require Import Strings.Byte.
From Verif Require Import Prelude Types Bitvec Valid SpecSer SpecPrefix Lib BitsLib SerProof SerSpec RoundTrip.
Import ListNotations.
Open Scope N_scope.

Definition prefix_free (t : ty) : Prop := forall v w (b x : bytes), valid t v -> valid t w ->
  spec_serialize t v = Some b -> spec_serialize t w = Some (b ++ x) -> x = [].

Lemma blen_nil_inv (x : bytes) : blen x = 0 -> x = [].
Proof. destruct x; [reflexivity|]. rewrite blen_cons. lia. Qed.

Lemma app_split (a b c d : bytes) : a ++ b = c ++ d -> blen a = blen c -> a = c /\ b = d.
Proof.
  revert c. induction a as [|y a IH]; intros [|z c] E L; rewrite ?blen_cons in L; change (blen (@nil byte)) with 0 in L; try lia.
  - auto.
  - injection E as -> E. destruct (IH c E ltac:(lia)) as [-> ->]. auto.
Qed.

Lemma fixed_from_app es1 : forall r es2,
  fixed_from r (es1 ++ es2) = fixed_from r es1 ++ fixed_from (r + total (variable_lengths es1)) es2.
Proof.
  induction es1 as [|[f b] es1 IH]; intros r es2; [cbn; rewrite N.add_0_r; reflexivity|].
  rewrite variable_lengths_cons, total_cons. destruct f; cbn [app fixed_from fst snd]; rewrite IH; cbn [app]; do 3 f_equal;
    change (blen (@nil byte)) with 0; lia.
Qed.

Lemma no_variable_parts es : Forall (fun e : bool * bytes => fst e = false) es -> concat (variable_parts es) = [].
Proof. induction 1 as [|e es HE _ IH]; [reflexivity|]. rewrite variable_parts_cons, HE. exact IH. Qed.

Lemma compose_last es1 eb es2 b : Forall (fun e : bool * bytes => fst e = false) es2 ->
  spec_compose (es1 ++ (true, eb) :: es2) = Some b ->
  exists A C V : bytes, exists o,
    b = A ++ le_bytes 4 o ++ C ++ V ++ eb /\ blen A = total (fixed_lengths es1) /\ blen C = total (fixed_lengths es2) /\
    o = total (fixed_lengths es1) + 4 + total (fixed_lengths es2) + blen V /\ o < 2 ^ 32.
Proof.
  intros HF HC. apply spec_compose_some in HC as [HS ->].
  assert (EL : total (fixed_lengths (es1 ++ (true, eb) :: es2)) = total (fixed_lengths es1) + 4 + total (fixed_lengths es2)).
  { unfold fixed_lengths. rewrite map_app, total_app. cbn [map fst]. rewrite total_cons. lia. }
  assert (EV : total (variable_lengths (es1 ++ (true, eb) :: es2)) >= total (variable_lengths es1)).
  { rewrite <- !variable_parts_blen. unfold variable_parts at 1. rewrite map_app, concat_app, blen_app. fold (variable_parts es1). lia. }
  rewrite compose_size_eq, EL in HS. rewrite EL. set (L := total (fixed_lengths es1) + 4 + total (fixed_lengths es2)) in *.
  rewrite fixed_from_app. cbn [fixed_from].
  exists (concat (fixed_from L es1)), (concat (fixed_from (L + total (variable_lengths es1) + blen eb) es2)),
    (concat (variable_parts es1)), (L + total (variable_lengths es1)).
  split; [|split; [apply fixed_from_blen|split; [apply fixed_from_blen|split; [rewrite variable_parts_blen; reflexivity|lia]]]].
  assert (EP : concat (variable_parts (es1 ++ (true, eb) :: es2)) = concat (variable_parts es1) ++ eb).
  { unfold variable_parts at 1. rewrite map_app, concat_app. cbn [map fst snd concat]. fold (variable_parts es1). fold (variable_parts es2).
    rewrite (no_variable_parts es2 HF), app_nil_r. reflexivity. }
  rewrite EP, concat_app. cbn [concat]. rewrite <- !app_assoc. reflexivity.
Qed.

Lemma compose_prefix es1 eb es2 fs1 fb fs2 b (x : bytes) :
  total (fixed_lengths es1) = total (fixed_lengths fs1) -> total (fixed_lengths es2) = total (fixed_lengths fs2) ->
  Forall (fun e : bool * bytes => fst e = false) es2 -> Forall (fun e : bool * bytes => fst e = false) fs2 ->
  spec_compose (es1 ++ (true, eb) :: es2) = Some b -> spec_compose (fs1 ++ (true, fb) :: fs2) = Some (b ++ x) -> fb = eb ++ x.
Proof.
  intros L1 L2 HE HF CE CF. apply compose_last in CE as (A & C & V & o & -> & EA & EC & EO & BO); [|exact HE].
  apply compose_last in CF as (A' & C' & V' & o' & E & EA' & EC' & EO' & BO'); [|exact HF].
  rewrite <- !app_assoc in E. apply app_split in E as [_ E]; [|congruence].
  apply app_split in E as [E4 E]; [|rewrite !blen_le_bytes; reflexivity].
  apply le_bytes_inj in E4; [|exact BO|exact BO'].
  apply app_split in E as [_ E]; [|congruence]. apply app_split in E as [_ E]; [|lia]. symmetry. exact E.
Qed.

(** ** Several parts *)

Definition part_size (t : ty) : N := if spec_variable t then 4 else fixed_size t.

Lemma parts_fixed xs es : Forall2 enc_of xs es -> Forall (fun tv => valid (fst tv) (snd tv)) xs ->
  fixed_lengths es = map (fun tv => part_size (fst tv)) xs.
Proof.
  induction 1 as [|tv e xs es [G1 G2] _ IH]; intros HV; [reflexivity|]. inversion HV as [|? ? V1 V2]; subst.
  rewrite fixed_lengths_cons, (IH V2). cbn [map]. f_equal. unfold part_size. rewrite G1.
  destruct (spec_variable (fst tv)) eqn:E; [reflexivity|]. eapply spec_serialize_fixed; eassumption.
Qed.

Lemma parts_flags xs es : Forall2 enc_of xs es -> Forall (fun t => spec_variable t = false) (map fst xs) ->
  Forall (fun e : bool * bytes => fst e = false) es.
Proof.
  induction 1 as [|tv e xs es [G1 _] _ IH]; intros HF; constructor; inversion HF; subst; [congruence|auto].
Qed.

Lemma parts_split ts1 u ts2 xs es : map fst xs = ts1 ++ u :: ts2 -> spec_variable u = true ->
  Forall (fun t => spec_variable t = false) ts2 -> Forall (fun tv => valid (fst tv) (snd tv)) xs -> encs xs = Some es ->
  exists es1 eb es2 v, es = es1 ++ (true, eb) :: es2 /\ total (fixed_lengths es1) = total (map part_size ts1) /\
    total (fixed_lengths es2) = total (map part_size ts2) /\ Forall (fun e : bool * bytes => fst e = false) es2 /\
    valid u v /\ spec_serialize u v = Some eb.
Proof.
  intros EM HU HF HV HE. apply encs_some in HE. apply map_eq_app in EM as (xs1 & xs' & -> & E1 & E2).
  destruct xs' as [|[u' v] xs2]; [discriminate|]. cbn [map fst] in E2. injection E2 as -> E2.
  apply Forall2_app_inv_l in HE as (es1 & es' & H1 & H2 & ->). inversion H2 as [|? [f eb] ? es2 [G1 G2] H3]; subst.
  cbn [fst snd] in *. apply Forall_app in HV as [V1 V2]. inversion V2 as [|? ? V3 V4]; subst. cbn [fst snd] in *.
  rewrite HU. exists es1, eb, es2, v. split; [reflexivity|].
  rewrite (parts_fixed _ _ H1 V1), (parts_fixed _ _ H3 V4), !map_map.
  split; [reflexivity|]. split; [reflexivity|]. split; [eapply parts_flags; eassumption|auto].
Qed.

Lemma parts_prefix ts1 u ts2 xs ys es fs b (x : bytes) :
  map fst xs = ts1 ++ u :: ts2 -> map fst ys = ts1 ++ u :: ts2 -> spec_variable u = true ->
  Forall (fun t => spec_variable t = false) ts2 -> prefix_free u ->
  Forall (fun tv => valid (fst tv) (snd tv)) xs -> Forall (fun tv => valid (fst tv) (snd tv)) ys ->
  encs xs = Some es -> encs ys = Some fs -> spec_compose es = Some b -> spec_compose fs = Some (b ++ x) -> x = [].
Proof.
  intros EX EY HU HF HP VX VY CX CY SX SY.
  destruct (parts_split _ _ _ _ _ EX HU HF VX CX) as (es1 & eb & es2 & v & -> & A1 & A2 & A3 & A4 & A5).
  destruct (parts_split _ _ _ _ _ EY HU HF VY CY) as (fs1 & fb & fs2 & w & -> & B1 & B2 & B3 & B4 & B5).
  assert (E : fb = eb ++ x) by (apply (compose_prefix es1 eb es2 fs1 fb fs2 b x); auto; congruence). subst fb.
  exact (HP v w eb x A4 B4 A5 B5).
Qed.

Lemma last_field (fs : list (string * ty)) :
  existsb (fun f => spec_variable (snd f)) fs = true ->
  end_shown (map (fun f => (spec_variable (snd f), self_delimiting (snd f))) fs) = true ->
  exists fs1 f fs2, fs = fs1 ++ f :: fs2 /\ spec_variable (snd f) = true /\ self_delimiting (snd f) = true /\
    Forall (fun t => spec_variable t = false) (map snd fs2).
Proof.
  induction fs as [|f fs IH]; intros HE HS; [discriminate|]. cbn [map end_shown existsb] in *.
  assert (EX : existsb fst (map (fun f : string * ty => (spec_variable (snd f), self_delimiting (snd f))) fs) =
    existsb (fun f => spec_variable (snd f)) fs).
  { clear. induction fs as [|f fs IH]; [reflexivity|]. cbn [map existsb fst]. rewrite IH. reflexivity. }
  rewrite EX in HS. destruct (existsb (fun f => spec_variable (snd f)) fs) eqn:E.
  - destruct (IH eq_refl HS) as (fs1 & g & fs2 & -> & R). exists (f :: fs1), g, fs2. auto.
  - rewrite orb_false_r in HE. rewrite HE in HS. exists [], f, fs. split; [reflexivity|]. split; [exact HE|]. split; [exact HS|].
    clear - E. induction fs as [|g fs IH]; constructor; cbn [existsb] in E; apply orb_false_iff in E as [E1 E2]; auto.
Qed.

Lemma seq_prefix t n l m es fs b (x : bytes) : 0 < n -> spec_variable t = true -> prefix_free t ->
  blen l = n -> blen m = n -> Forall (valid t) l -> Forall (valid t) m ->
  encs (map (pair t) l) = Some es -> encs (map (pair t) m) = Some fs ->
  spec_compose es = Some b -> spec_compose fs = Some (b ++ x) -> x = [].
Proof.
  intros Hn HU HP Ll Lm Vl Vm. 
  assert (K : forall (l : list val), blen l = n -> map fst (map (pair t) l) = repeat t (N.to_nat n - 1) ++ t :: []).
  { clear - Hn. intros l Ll. rewrite map_map. cbn [fst]. unfold blen in Ll.
    change ([t]) with (repeat t 1). rewrite <- repeat_app.
    replace (N.to_nat n - 1 + 1)%nat with (length l) by lia. clear. induction l; cbn [map length repeat]; congruence. }
  assert (W : forall (l : list val), Forall (valid t) l -> Forall (fun tv => valid (fst tv) (snd tv)) (map (pair t) l)).
  { intros k Hk. apply Forall_map. exact Hk. }
  apply (parts_prefix (repeat t (N.to_nat n - 1)) t []); auto.
Qed.

Lemma small_byte_inj i j : i < 256 -> j < 256 -> byte_of_N i = byte_of_N j -> i = j.
Proof.
  intros Hi Hj E. apply (f_equal byte_to_N) in E. rewrite !byte_to_N_of_N, !N.mod_small in E; auto.
Qed.

Lemma encoding_prefix_free t : legal t = true -> self_delimiting t = true -> prefix_free t.
Proof.
  induction t using ty_ind'; intros HL HS;
    match goal with |- prefix_free ?t => destruct (spec_variable t) eqn:HU end;
    try (intros v v' b x HV HW EV EW; apply (spec_serialize_fixed _ _ _ HV HU) in EV; apply (spec_serialize_fixed _ _ _ HW HU) in EW;
         rewrite blen_app in EW; apply blen_nil_inv; lia);
    try discriminate HU; try discriminate HS.
  1,2: cbn [legal self_delimiting spec_variable] in *; rewrite !andb_true_iff in HL; destruct HL as [[[L1 L2] L3] L4];
    intros v w b x HV HW EV EW; destruct v as [| | |l| | | | | |]; try contradiction; destruct w as [| | |m| | | | | |]; try contradiction;
    cbn [valid spec_serialize] in *; destruct HV as [V1 V2], HW as [W1 W2];
    destruct (sequence (map _ l)) as [es|] eqn:E; [|discriminate]; destruct (sequence (map _ m)) as [fs|] eqn:F; [|discriminate];
    apply (seq_prefix t n l m es fs b x); auto; [lia| |]; unfold encs; rewrite map_map; assumption.
  - cbn [legal self_delimiting spec_variable] in *. rewrite !andb_true_iff in HL. destruct HL as [[L1 L2] L3].
    destruct (last_field fs HU HS) as (fs1 & f & fs2 & -> & F1 & F2 & F3).
    assert (HP : prefix_free (snd f)).
    { rewrite Forall_forall in H. apply H; [apply in_or_app; right; left; reflexivity| |exact F2].
      rewrite forallb_forall in L3. apply L3. apply in_or_app. right. left. reflexivity. }
    intros v w b x HV HW EV EW; destruct v as [| | | | |l| | | |]; try contradiction; destruct w as [| | | | |m| | | |]; try contradiction.
    cbn [valid spec_serialize] in *.
    apply (Forall2_preds_combine _ (fun f => valid (snd f))) in HV as [V1 V2].
    apply (Forall2_preds_combine _ (fun f => valid (snd f))) in HW as [W1 W2].
    destruct (sequence (map _ (combine _ l))) as [es|] eqn:E; [|discriminate]. destruct (sequence (map _ (combine _ m))) as [es'|] eqn:F; [|discriminate].
    set (fs := fs1 ++ f :: fs2) in *.
    assert (K : forall (l : list val), length fs = length l -> map fst (combine (map snd fs) l) = map snd fs1 ++ snd f :: map snd fs2).
    { intros k Hk. transitivity (map snd fs); [|unfold fs; rewrite map_app; reflexivity]. clear - Hk. revert k Hk.
      induction fs as [|g gs IH]; intros [|y k] Hk; try discriminate Hk; [reflexivity|]. cbn [map combine fst]. f_equal. apply IH. injection Hk. auto. }
    assert (W : forall (l : list val), Forall (fun fx => valid (snd (fst fx)) (snd fx)) (combine fs l) ->
      Forall (fun tv => valid (fst tv) (snd tv)) (combine (map snd fs) l)).
    { intros k Hk. rewrite combine_map_l. apply Forall_map. exact Hk. }
    apply (parts_prefix (map snd fs1) (snd f) (map snd fs2) (combine (map snd fs) l) (combine (map snd fs) m) es es' b x); auto;
      unfold encs; rewrite !combine_map_l, !map_map in *; assumption.
  - cbn [legal self_delimiting spec_variable] in *. intros v w b x HV HW EV EW.
    destruct v; try contradiction; destruct w; try contradiction. cbn [valid spec_serialize] in *. exact (IHt HL HS _ _ _ _ HV HW EV EW).
  - cbn [self_delimiting] in HS. assert (L : legal t = true) by (cbn [legal] in HL; rewrite ?andb_true_iff in HL; tauto).
    intros v w b x HV HW EV EW. destruct v; try contradiction; destruct w; try contradiction; cbn [valid spec_serialize] in *.
    + injection EV as <-. cbn [app] in EW. injection EW as <-. reflexivity.
    + injection EV as <-. destruct (spec_serialize t w); cbn in EW; discriminate.
    + destruct (spec_serialize t v) as [c|]; [|discriminate]. injection EV as <-. discriminate.
    + destruct (spec_serialize t v) as [c|] eqn:EC; [|discriminate]. injection EV as <-.
      destruct (spec_serialize t w) as [d|] eqn:ED; [|discriminate]. cbn in EW. injection EW as EW. subst d.
      exact (IHt L HS v w c x HV HW EC ED).
  - cbn [legal self_delimiting] in *. rewrite andb_true_iff in HL. destruct HL as [L1 L2].
    pose proof (legal_variants_len vs L1) as LV. rewrite Forall_forall in H. rewrite forallb_forall in HS, L2.
    assert (NE : forall i y, valid (TUnion vs) (VVariant i y) -> exists u, nth_error vs (N.to_nat i) = Some (Some u) /\ valid u y /\ i < 256 /\
      spec_serialize (TUnion vs) (VVariant i y) = option_map (cons (byte_of_N i)) (spec_serialize u y)).
    { intros i y HV. cbn [valid spec_serialize] in *. rewrite nth_error_map in *. destruct (nth_error vs (N.to_nat i)) as [[u|]|] eqn:E; cbn [option_map] in HV; try (destruct vs as [|[|] ?]; contradiction).
      exists u. split; [reflexivity|]. split; [destruct vs as [|[|] ?]; exact HV|]. split; [|rewrite ?nth_error_map, ?E; cbn [option_map]; destruct vs as [|[|] ?]; reflexivity].
      assert (HI : (N.to_nat i < length vs)%nat) by (apply nth_error_Some; congruence). unfold blen in LV. lia. }
    assert (N0 : valid (TUnion vs) VNone -> nth_error vs 0 = Some None).
    { cbn [valid]. destruct vs as [|[u|] r]; cbn; try contradiction; reflexivity. }
    intros v w b x HV HW EV EW.
    assert (Cv : v = VNone \/ exists i y, v = VVariant i y) by (destruct v; try (exfalso; cbn [valid] in HV; destruct vs as [|[|] ?]; contradiction); eauto).
    assert (Cw : w = VNone \/ exists i y, w = VVariant i y) by (destruct w; try (exfalso; cbn [valid] in HW; destruct vs as [|[|] ?]; contradiction); eauto).
    destruct Cv as [->|(i & y & ->)], Cw as [->|(j & z & ->)].
    + injection EV as <-. cbn [app spec_serialize] in EW. injection EW as <-. reflexivity.
    + specialize (N0 HV). destruct (NE _ _ HW) as (u & E1 & E2 & E3 & E4). rewrite E4 in EW. injection EV as <-.
      destruct (spec_serialize u z); [|discriminate]. cbn [option_map app] in EW.
      assert (E : byte_of_N j = byte_of_N 0) by (change (byte_of_N 0) with x00; congruence).
      apply small_byte_inj in E; [|exact E3|reflexivity]. subst j. cbn [N.to_nat] in E1. congruence.
    + specialize (N0 HW). destruct (NE _ _ HV) as (u & E1 & E2 & E3 & E4). rewrite E4 in EV.
      destruct (spec_serialize u y); [|discriminate]. cbn [option_map] in EV. injection EV as <-. cbn [app spec_serialize] in EW.
      assert (E : byte_of_N i = byte_of_N 0) by (change (byte_of_N 0) with x00; congruence).
      apply small_byte_inj in E; [|exact E3|reflexivity]. subst i. cbn [N.to_nat] in E1. congruence.
    + destruct (NE _ _ HV) as (u & E1 & E2 & E3 & E4). destruct (NE _ _ HW) as (u' & F1 & F2 & F3 & F4). rewrite E4 in EV. rewrite F4 in EW.
      destruct (spec_serialize u y) as [c|] eqn:EC; [|discriminate]. destruct (spec_serialize u' z) as [d|] eqn:ED; [|discriminate].
      cbn [option_map] in EV, EW. injection EV as <-. cbn [app] in EW.
      assert (E : byte_of_N j = byte_of_N i) by congruence. apply small_byte_inj in E; [|exact F3|exact E3]. subst j.
      assert (u' = u) by congruence. subst u'. assert (d = c ++ x) by congruence. subst d.
      assert (HI : In (Some u) vs) by (eapply nth_error_In; eassumption).
      apply (H (Some u) HI (L2 _ HI) (HS _ HI) y z c x); assumption.
Qed.
