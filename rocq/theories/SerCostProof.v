(** The work of encoding. *)
From Coq Require Import String List NArith ZArith Bool Lia ZifyBool ZifyNat ZifyN.
From Coq Require Import Strings.Byte.
From Verif Require Import Prelude Types Valid SpecSer Bitvec Ser De Impls Lib SerProof SerSpec RoundTrip SpecSize SpecEffort AlikeProof SizeProof SerCost.
Import ListNotations.
Open Scope N_scope.
Ltac Zify.zify_post_hook ::= Z.div_mod_to_equations.

(** ** The results are those of the model *)

Definition erases (w : writer) (T : Serializable) : Prop := forall v buf, fst (w v buf) = serialize T v buf.

Lemma with_element_erased f w T s v : erases w T -> f = is_variable_size T ->
  fst (with_element_c f w s v) = with_element T s v.
Proof.
  intros HE ->. unfold with_element_c, with_element. rewrite <- HE. destruct (w v []) as [[eb [k|e|p]] n]; cbn [fst]; try reflexivity.
  destruct (is_variable_size T); reflexivity.
Qed.

Definition same_element (x : bool * writer * val) (y : Serializable * val) : Prop :=
  erases (snd (fst x)) (fst y) /\ fst (fst x) = is_variable_size (fst y) /\ snd x = snd y.

Lemma with_elements_erased xs ys : Forall2 same_element xs ys -> forall s,
  fst (with_elements_c s xs) = foldM (fun s e => with_element (fst e) s (snd e)) s ys.
Proof.
  induction 1 as [|[[f w] v] [T v'] xs ys (H1 & H2 & H3) _ IH]; intros s; cbn [with_elements_c foldM fst snd] in *; [reflexivity|].
  subst v'. rewrite <- (with_element_erased f w T s v H1 H2). destruct (with_element_c f w s v) as [[s'|e|p] n]; cbn [fst bind]; auto.
Qed.

Lemma elements_erased oc xs ys buf : Forall2 same_element xs ys -> fst (serialize_elements_c oc xs buf) = serialize_elements oc ys buf.
Proof.
  intros HF. unfold serialize_elements_c, serialize_elements. rewrite <- (with_elements_erased xs ys HF).
  destruct (with_elements_c serializer_default xs) as [[s|e|p] n]; reflexivity.
Qed.

Lemma selector_erased k w T v buf : erases w T -> fst (selector_c k w v buf) = selector_serialize k T v buf.
Proof.
  intros HE. unfold selector_c, selector_serialize, appending. cbn [fst u8_serialize ser_bind]. rewrite HE. reflexivity.
Qed.

Lemma encode_erased oc t : erases (encode_c oc t) (serializable oc t).
Proof.
  induction t using ty_ind'; intros v buf; cbn [encode_c serializable]; try reflexivity.
  - cbn [vector_impl serialize]. unfold vector_serialize. destruct v; try reflexivity. destruct (n =? 0); [reflexivity|].
    apply elements_erased. induction l; cbn [map]; constructor; auto. repeat split; auto.
  - cbn [array_impl serialize]. unfold vector_serialize. destruct v; try reflexivity. destruct (n =? 0); [reflexivity|].
    apply elements_erased. induction l; cbn [map]; constructor; auto. repeat split; auto.
  - cbn [list_impl serialize]. unfold list_serialize. destruct v; try reflexivity. destruct (n <? blen l); [reflexivity|].
    apply elements_erased. induction l; cbn [map]; constructor; auto. repeat split; auto.
  - cbn [container_impl serialize]. unfold container_serialize. destruct v; try reflexivity. rewrite map_length.
    destruct (Nat.eqb (length l) (length fs)); [|reflexivity]. apply elements_erased.
    revert l. induction H as [|f fs HF _ IH]; intros [|x l]; cbn [map combine]; constructor; auto. repeat split; auto.
  - cbn [newtype_impl serialize]. destruct v; try reflexivity. apply IHt.
  - cbn [option_impl serialize]. unfold option_serialize. destruct v; try reflexivity. apply selector_erased. auto.
  - cbn [union_impl serialize]. unfold union_serialize. destruct v; try reflexivity.
    + destruct vs as [|[u|] vs]; reflexivity.
    + rewrite !nth_error_map. destruct (nth_error vs (N.to_nat i)) as [[u|]|] eqn:EN; cbn [option_map]; try reflexivity.
      apply selector_erased. rewrite Forall_forall in H. exact (H _ (nth_error_In _ _ EN)).
  - cbn [transparent_impl serialize]. unfold transparent_serialize. destruct v; try reflexivity.
    rewrite !nth_error_map. destruct (nth_error ts (N.to_nat i)) as [u|] eqn:EN; cbn [option_map]; try reflexivity.
    rewrite Forall_forall in H. exact (H _ (nth_error_In _ _ EN) _ _).
Qed.

(** ** The bound *)

Definition part_bytes (p : Part) : N := match p with PFixed d => blen d | POffset _ => 4 end.

(** The sums of a serializer are those of its parts. *)
Definition summed (s : Serializer) : Prop :=
  fixed_lengths_sum s = total (map part_bytes (parts s)) /\ variable_lengths_sum s = blen (variable s).

Lemma write_parts_bytes oc ps : forall r buf, blen (fst (write_parts oc ps r buf)) <= blen buf + total (map part_bytes ps).
Proof.
  induction ps as [|[d|o] ps IH]; intros r buf; cbn [write_parts map fst]; [lia| |].
  - rewrite total_cons. cbn [part_bytes]. specialize (IH r (buf ++ d)). rewrite blen_app in IH. lia.
  - rewrite total_cons. cbn [u32_serialize ser_bind part_bytes].
    assert (HB : blen (buf ++ le_bytes 4 r) = blen buf + 4) by (rewrite blen_app, blen_le_bytes; reflexivity).
    destruct (oc && _); cbn [fst]; [lia|]. destruct (u32_add oc r (o mod 2 ^ 32)) as [r'|e|p]; cbn [fst]; [|lia|lia].
    specialize (IH r' (buf ++ le_bytes 4 r)). lia.
Qed.

Lemma serializer_bytes oc s buf : summed s ->
  snd (appending (serializer_serialize oc s) buf) <= fixed_lengths_sum s + variable_lengths_sum s.
Proof.
  intros [H1 H2]. unfold appending, serializer_serialize. cbn [snd]. destruct (_ <=? _); cbn [fst]; [lia|].
  pose proof (write_parts_bytes oc (parts s) (fixed_lengths_sum s mod 2 ^ 32) buf) as HW.
  destruct (write_parts _ _ _ _) as [b [n|e|p]]; cbn [ser_bind fst] in *; rewrite ?blen_app; lia.
Qed.

(** [e] is the number of bytes of the element. *)
Definition element_bound (k : N) (x : bool * writer * val) (e : N) : Prop :=
  snd (snd (fst x) (snd x) []) <= k * e /\
  (forall eb m, fst (snd (fst x) (snd x) []) = (eb, Ok m) -> blen eb = e).

Definition place_bytes (xe : bool * writer * val * N) : N := (if fst (fst (fst xe)) then 4 else 0) + snd xe.

Lemma with_elements_bound k xs es : Forall2 (element_bound k) xs es -> forall s, summed s ->
  snd (with_elements_c s xs) <= (k + 1) * total es /\
  (forall s', fst (with_elements_c s xs) = Ok s' -> summed s' /\
     fixed_lengths_sum s' + variable_lengths_sum s' =
     fixed_lengths_sum s + variable_lengths_sum s + total (map place_bytes (combine xs es))).
Proof.
  induction 1 as [|[[f w] v] e xs es [H1 H2] _ IH]; intros s HS; cbn [with_elements_c combine map].
  - split; [exact (N.le_0_l _)|]. intros s' HE. cbn in HE. assert (s = s') by congruence. subst. split; [auto|]. cbn. lia.
  - cbn [fst snd] in *. rewrite !total_cons. unfold with_element_c. destruct (w v []) as [[eb [m|er|p]] n]; cbn [fst snd] in *.
    2-3: split; [nia|intros s' HE; discriminate HE].
    specialize (H2 _ _ eq_refl). destruct HS as [HS1 HS2]. unfold place_bytes at 1. destruct f; cbn [fst snd].
    + match goal with |- context [with_elements_c ?s1 xs] => destruct (IH s1) as [G1 G2] end.
      { split; cbn [fixed_lengths_sum variable_lengths_sum parts variable].
        - rewrite map_app, total_app. cbn [map part_bytes total fold_right]. unfold BYTES_PER_LENGTH_OFFSET. lia.
        - rewrite blen_app. lia. }
      split; [nia|].
      intros s' HE. apply G2 in HE as [HE1 HE]. split; [auto|]. cbn [fixed_lengths_sum variable_lengths_sum] in HE. unfold BYTES_PER_LENGTH_OFFSET in HE. lia.
    + match goal with |- context [with_elements_c ?s1 xs] => destruct (IH s1) as [G1 G2] end.
      { split; cbn [fixed_lengths_sum variable_lengths_sum parts variable]; [|auto].
        rewrite map_app, total_app. cbn [map part_bytes total fold_right]. lia. }
      split; [nia|].
      intros s' HE. apply G2 in HE as [HE1 HE]. split; [auto|]. cbn [fixed_lengths_sum variable_lengths_sum] in HE. lia.
Qed.

Lemma place_least xs : forall es, length xs = length es -> total es <= total (map place_bytes (combine xs es)).
Proof.
  induction xs as [|x xs IH]; intros [|e es] HE; cbn [combine map]; try discriminate HE; [reflexivity|].
  rewrite !total_cons. injection HE as HE. specialize (IH es HE). unfold place_bytes at 1. cbn [fst snd]. lia.
Qed.

Lemma elements_work oc k xs es buf : Forall2 (element_bound k) xs es ->
  snd (serialize_elements_c oc xs buf) <= (k + 2) * total (map place_bytes (combine xs es)).
Proof.
  intros HF. pose proof (place_least xs es (Forall2_length _ _ _ HF)) as HP.
  destruct (with_elements_bound k xs es HF serializer_default) as [G1 G2]; [split; reflexivity|].
  unfold serialize_elements_c. destruct (with_elements_c serializer_default xs) as [[s|e|p] n]; cbn [fst snd] in *; try nia.
  destruct (G2 s eq_refl) as [G3 G4]. pose proof (serializer_bytes oc s buf G3). cbn [serializer_default fixed_lengths_sum variable_lengths_sum] in G4. nia.
Qed.

Lemma element_size oc t v eb m : legal t = true -> valid t v -> fst (encode_c oc t v []) = (eb, Ok m) -> blen eb = encoded_bytes t v.
Proof.
  intros HL HV HE. rewrite encode_erased in HE. pose proof (serialize_spec oc t HL v HV []) as HS.
  destruct (spec_serialize t v) as [b|] eqn:EB.
  - rewrite HS in HE. injection HE as <- _. symmetry. apply encoded_exact; auto.
  - destruct HS as (n & ext & HS & _). rewrite HS in HE. discriminate HE.
Qed.

Definition encode_linear (oc : bool) (t : ty) : Prop :=
  forall v buf, valid t v -> snd (encode_c oc t v buf) <= (2 * height t - 1) * encoded_bytes t v.

Lemma height_pos t : 1 <= height t.
Proof. destruct t; cbn [height]; lia. Qed.

Lemma seq_work oc u l buf : legal u = true -> encode_linear oc u -> Forall (valid u) l ->
  snd (serialize_elements_c oc (map (fun x => (is_variable_size (serializable oc u), encode_c oc u, x)) l) buf)
  <= (2 * (1 + height u) - 1) * total (map (fun x => (if spec_variable u then 4 else 0) + encoded_bytes u x) l).
Proof.
  intros HL HU HV. pose proof (height_pos u) as HP.
  assert (HF : Forall2 (element_bound (2 * height u - 1)) (map (fun x => (is_variable_size (serializable oc u), encode_c oc u, x)) l) (map (encoded_bytes u) l)).
  { induction HV as [|x l HX HV IH]; cbn [map]; constructor; auto. split; cbn [fst snd]; [apply HU; auto|].
    intros eb m HE. eapply element_size; eauto. }
  apply (elements_work oc _ _ _ buf) in HF.
  replace (2 * (1 + height u) - 1) with (2 * height u - 1 + 2) by lia.
  eapply N.le_trans; [exact HF|]. apply N.mul_le_mono_l. apply N.eq_le_incl. f_equal.
  clear. induction l as [|x l IH]; cbn [map combine]; [reflexivity|]. f_equal; auto.
  unfold place_bytes. cbn [fst snd]. rewrite is_variable_size_spec. reflexivity.
Qed.

Lemma leaf_work oc t v buf b : legal t = true -> valid t v -> spec_serialize t v = Some b ->
  snd (appending (serialize (serializable oc t) v) buf) <= 1 * encoded_bytes t v.
Proof.
  intros HL HV HB. unfold appending. cbn [snd]. pose proof (serialize_spec oc t HL v HV buf) as HS. rewrite HB in HS.
  rewrite HS. cbn [fst]. rewrite blen_app, (encoded_exact t v b) by auto. lia.
Qed.

Lemma selector_work h k w v buf e : (forall buf, snd (w v buf) <= (2 * h - 1) * e) -> snd (selector_c k w v buf) <= (2 * (1 + h) - 1) * (1 + e).
Proof.
  intros HW. unfold selector_c, appending. cbn [fst snd u8_serialize]. rewrite blen_app.
  match goal with |- context [w v ?b] => specialize (HW b) end. change (blen (le_bytes 1 _)) with 1. cbn [snd].
  assert ((2 * h - 1) * e <= (2 * (1 + h) - 1) * e) by (apply N.mul_le_mono_r; lia). 
  rewrite N.mul_add_distr_l. lia.
Qed.

Lemma encode_bound oc t : legal t = true -> encode_linear oc t.
Proof.
  induction t using ty_ind'; intros HL v buf HV; destruct v; try (cbn [valid] in HV; contradiction);
    try (destruct vs as [|[]]; cbn [valid] in HV; contradiction);
    try (cbn [encode_c]; eapply (leaf_work oc); [exact HL|exact HV|reflexivity]);
    cbn [legal] in HL; rewrite ?andb_true_iff in HL; cbn [encode_c encoded_bytes].
  - destruct HV as [_ HV]. cbn [height]. destruct (n =? 0); [exact (N.le_0_l _)|]. apply seq_work; auto; [apply HL|]. apply IHt, HL.
  - destruct HV as [_ HV]. cbn [height]. destruct (n =? 0); [exact (N.le_0_l _)|]. apply seq_work; auto; [apply HL|]. apply IHt, HL.
  - destruct HV as [_ HV]. cbn [height]. destruct (n <? blen l); [exact (N.le_0_l _)|]. apply seq_work; auto; [apply HL|]. apply IHt, HL.
  - cbn [valid] in HV. rewrite Forall2_fun_map in HV. destruct HL as [_ HL]. cbn [height].
    destruct (Nat.eqb _ _); [|exact (N.le_0_l _)].
    set (h := fold_right N.max 0 (map (fun f => height (snd f)) fs)).
    assert (HB : forall f, In f fs -> height (snd f) <= h) by (intros; apply (fold_max_in (fun f => height (snd f))); auto).
    clearbody h.
    assert (HF : Forall2 (element_bound (2 * h - 1))
      (combine (map (fun f => (is_variable_size (serializable oc (snd f)), encode_c oc (snd f))) fs) l)
      (map (fun fx : (val -> N) * val => fst fx (snd fx)) (combine (map (fun f => encoded_bytes (snd f)) fs) l))).
    { induction HV as [|f x fs l HX HV IH]; cbn [map combine]; constructor.
      - cbn [forallb] in HL. apply andb_true_iff in HL as [HL1 HL]. inversion H; subst. split; cbn [fst snd].
        + eapply N.le_trans; [apply H2; auto|]. apply N.mul_le_mono_r. specialize (HB f (or_introl eq_refl)). lia.
        + intros eb m HE. eapply element_size; eauto.
      - cbn [forallb] in HL. apply andb_true_iff in HL as [HL1 HL]. inversion H; subst. apply IH; auto. intros g Hg. apply HB. right. auto. }
    apply (elements_work oc _ _ _ buf) in HF.
    eapply N.le_trans; [exact HF|]. destruct fs as [|f0 fs0].
    { inversion HV; subst. cbn. lia. }
    assert (1 <= h) by (specialize (HB f0 (or_introl eq_refl)); pose proof (height_pos (snd f0)); lia).
    replace (2 * (1 + h) - 1) with (2 * h - 1 + 2) by lia. apply N.mul_le_mono_l. apply N.eq_le_incl. f_equal.
    clear -HV. induction HV as [|f x fs l _ _ IH]; cbn [map combine]; [reflexivity|]. f_equal; auto.
    unfold place_bytes. cbn [fst snd]. rewrite is_variable_size_spec. reflexivity.
  - cbn [valid height] in *. eapply N.le_trans; [apply IHt; auto|]. apply N.mul_le_mono_r. lia.
  - unfold appending. cbn [u8_serialize fst snd height]. rewrite blen_app. change (blen (le_bytes 1 _)) with 1. lia.
  - cbn [valid height] in *. apply selector_work. intros. apply IHt; auto.
  - destruct vs as [|[u|] vs]; try contradiction. unfold appending. cbn [u8_serialize fst snd height]. rewrite blen_app. change (blen (le_bytes 1 _)) with 1. lia.
  - apply valid_variant in HV as (u & EN & HV). cbn [height]. rewrite !nth_error_map, EN. cbn [option_map].
    apply selector_work. intros buf'. apply nth_error_In in EN. rewrite Forall_forall in H. destruct HL as [_ HL]. rewrite forallb_forall in HL.
    eapply N.le_trans; [apply (H _ EN (HL _ EN)); auto|]. apply N.mul_le_mono_r.
    pose proof (fold_max_in (fun o => match o with Some u => height u | None => 0 end) _ (Some u) EN). cbv beta iota in *. lia.
  - cbn [valid] in HV. rewrite nth_error_map in HV. destruct (nth_error ts (N.to_nat i)) as [u|] eqn:EN; [|contradiction].
    cbn [option_map] in HV. cbn [height]. rewrite !nth_error_map, EN. cbn [option_map].
    apply nth_error_In in EN. rewrite Forall_forall in H. destruct HL as [_ HL]. rewrite forallb_forall in HL.
    eapply N.le_trans; [apply (H _ EN (HL _ EN)); auto|]. apply N.mul_le_mono_r. pose proof (fold_max_in height ts u EN). lia.
Qed.

(** ** The bound is reached but for the offsets *)

Lemma boxed_facts oc d leaf x e : legal leaf = true -> valid leaf x -> spec_variable leaf = true -> spec_serialize leaf x = Some e ->
  (forall buf, snd (encode_c oc leaf x buf) = blen e) -> blen e + 4 * N.of_nat d < 2 ^ 32 ->
  legal (boxed_ty d leaf) = true /\ valid (boxed_ty d leaf) (boxed d x) /\ spec_variable (boxed_ty d leaf) = true /\
  height (boxed_ty d leaf) = N.of_nat d + height leaf /\
  (exists c, spec_serialize (boxed_ty d leaf) (boxed d x) = Some c /\ blen c = blen e + 4 * N.of_nat d) /\
  forall buf, snd (encode_c oc (boxed_ty d leaf) (boxed d x) buf) = (2 * N.of_nat d + 1) * blen e + 4 * N.of_nat d * N.of_nat d.
Proof.
  intros HL HV HS HE HW. induction d as [|d IH]; intros HD.
  - cbn [boxed_ty boxed]. repeat apply conj; auto; try lia. { exists e. split; [auto|lia]. } intros buf. rewrite HW. lia.
  - destruct IH as (I1 & I2 & I3 & I4 & (c & I5 & I6) & I7); [lia|].
    assert (K1 : legal (boxed_ty (S d) leaf) = true).
    { cbn [boxed_ty legal]. rewrite I1. reflexivity. }
    assert (K2 : valid (boxed_ty (S d) leaf) (boxed (S d) x)) by (cbn [boxed_ty boxed valid]; split; [vm_compute; discriminate|constructor; auto]).
    assert (KC : encoded_bytes (boxed_ty (S d) leaf) (boxed (S d) x) = blen e + 4 * N.of_nat (S d)).
    { cbn [boxed_ty boxed encoded_bytes map]. rewrite I3, (encoded_exact _ _ c I2 I5). unfold total. cbn [fold_right]. lia. }
    assert (KS : exists c, spec_serialize (boxed_ty (S d) leaf) (boxed (S d) x) = Some c).
    { apply small_serializes; auto. lia. }
    destruct KS as [c' KS]. pose proof (encoded_exact _ _ _ K2 KS) as KB. rewrite KC in KB.
    split; [exact K1|]. split; [exact K2|]. split; [reflexivity|]. split; [|split].
    + cbn [boxed_ty height]. rewrite I4. lia.
    + exists c'. auto.
    + intros buf. pose proof (serialize_spec oc _ K1 _ K2 buf) as KX. rewrite KS in KX. rewrite <- encode_erased in KX.
      cbn [boxed_ty boxed encode_c map] in *. change (1 <? blen [boxed d x]) with false in *. cbv iota in *.
      unfold serialize_elements_c in *. cbn [with_elements_c] in *.
      pose proof (serialize_spec oc _ I1 _ I2 []) as KI. rewrite I5, <- encode_erased in KI.
      unfold with_element_c in *. specialize (I7 []). destruct (encode_c oc (boxed_ty d leaf) (boxed d x) []) as [[eb [m|?|?]] n]; cbn [fst snd] in *; try discriminate KI.
      rewrite is_variable_size_spec, I3 in *. cbn [with_elements_c fst snd] in *. unfold appending in *. cbn [fst snd] in *.
      rewrite KX. cbn [fst]. rewrite blen_app. assert (eb = [] ++ c) by congruence. subst eb. cbn [app] in *. 
      rewrite I6, <- KB, I7. lia.
Qed.
