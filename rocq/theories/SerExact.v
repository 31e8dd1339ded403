(** The work of encoding from the value that is encoded. *)
From Coq Require Import String List NArith ZArith Bool Lia ZifyBool ZifyNat ZifyN.
From Coq Require Import Strings.Byte.
From Verif Require Import Prelude Types Valid SpecSer Bitvec Ser De Impls Lib SerProof SerSpec RoundTrip SpecSize SpecEffort AlikeProof SizeProof
  SerCost SerCostProof.
Import ListNotations.
Open Scope N_scope.
Ltac Zify.zify_post_hook ::= Z.div_mod_to_equations.

(** Once written, an element costs [c]. *)
Definition element_cost (x : bool * writer * val) (c : N) : Prop :=
  forall eb m, fst (snd (fst x) (snd x) []) = (eb, Ok m) ->
    snd (snd (fst x) (snd x) []) + (if fst (fst x) then blen eb else 0) = c.

Lemma with_elements_cost xs cs : Forall2 element_cost xs cs -> forall s s', fst (with_elements_c s xs) = Ok s' ->
  snd (with_elements_c s xs) = total cs.
Proof.
  induction 1 as [|[[f w] v] c xs cs HX _ IH]; intros s s' HE; cbn [with_elements_c] in *; [reflexivity|].
  unfold element_cost in HX. cbn [fst snd] in HX. unfold with_element_c in *.
  destruct (w v []) as [[eb [m|e|p]] n]; cbn [fst snd] in *; try discriminate.
  specialize (HX eb m eq_refl). rewrite total_cons.
  destruct f; cbn [fst snd] in *; rewrite (IH _ _ HE); lia.
Qed.

Lemma elements_cost oc xs cs buf b m : Forall2 element_cost xs cs -> fst (serialize_elements_c oc xs buf) = (buf ++ b, Ok m) ->
  snd (serialize_elements_c oc xs buf) = blen b + total cs.
Proof.
  intros HF HE. unfold serialize_elements_c in *. pose proof (with_elements_cost xs cs HF serializer_default) as HW.
  destruct (with_elements_c serializer_default xs) as [[s|e|p] n]; cbn [fst snd] in *; try discriminate.
  rewrite (HW s eq_refl). unfold appending in *. cbn [fst snd] in *. rewrite HE. cbn [fst]. rewrite blen_app. lia.
Qed.

Definition encode_exact (oc : bool) (t : ty) : Prop :=
  forall v buf b, valid t v -> spec_serialize t v = Some b -> snd (encode_c oc t v buf) = copies t v.

Lemma element_exact oc t v : legal t = true -> encode_exact oc t -> valid t v ->
  element_cost (is_variable_size (serializable oc t), encode_c oc t, v) (copies t v + if spec_variable t then encoded_bytes t v else 0).
Proof.
  intros HL HX HV eb m HE. cbn [fst snd] in *. rewrite is_variable_size_spec, (element_size oc t v eb m HL HV HE).
  rewrite encode_erased in HE. pose proof (serialize_spec oc t HL v HV []) as HS.
  destruct (spec_serialize t v) as [b|] eqn:EB.
  - rewrite (HX v [] b HV EB). reflexivity.
  - destruct HS as (n & ext & HS & _). rewrite HS in HE. discriminate HE.
Qed.

Lemma whole_written oc t v buf b : legal t = true -> valid t v -> spec_serialize t v = Some b ->
  exists m, fst (encode_c oc t v buf) = (buf ++ b, Ok m) /\ blen b = encoded_bytes t v.
Proof.
  intros HL HV HS. rewrite encode_erased. pose proof (serialize_spec oc t HL v HV buf) as HE. rewrite HS in HE.
  eexists. split; [exact HE|]. symmetry. apply encoded_exact; auto.
Qed.

Lemma seq_cost oc u l : legal u = true -> encode_exact oc u -> Forall (valid u) l ->
  Forall2 element_cost (map (fun x => (is_variable_size (serializable oc u), encode_c oc u, x)) l)
    (map (fun x => copies u x + if spec_variable u then encoded_bytes u x else 0) l).
Proof. intros HL HX. induction 1; cbn [map]; constructor; auto. apply element_exact; auto. Qed.

Lemma encode_copies oc : forall t, legal t = true -> encode_exact oc t.
Proof.
  assert (HLeaf : forall t v buf b, legal t = true -> valid t v -> spec_serialize t v = Some b ->
    snd (appending (serialize (serializable oc t) v) buf) = encoded_bytes t v).
  { intros t v buf b HL HV HB. unfold appending. cbn [snd]. pose proof (serialize_spec oc t HL v HV buf) as HS. rewrite HB in HS.
    rewrite HS. cbn [fst]. rewrite blen_app, (encoded_exact t v b) by auto. lia. }
  assert (HSel : forall k w v buf n, (forall buf, snd (w v buf) = n) -> snd (selector_c k w v buf) = 1 + n).
  { intros k w v buf n HW. unfold selector_c, appending. cbn [fst snd u8_serialize]. rewrite blen_app, HW.
    change (blen (le_bytes 1 _)) with 1. lia. }
  induction t using ty_ind'; intros HL v buf b HV HB; pose proof (whole_written oc _ v buf b HL HV HB) as (m & HW & HS);
    destruct v; try (cbn [valid] in HV; contradiction);
    try (destruct vs as [|[]]; cbn [valid] in HV; contradiction);
    try (exact (HLeaf _ _ buf b HL HV HB));
    cbn [legal] in HL; rewrite ?andb_true_iff in HL; cbn [encode_c copies] in *.
  - destruct HV as [_ HV]. destruct (n =? 0); [discriminate|]. rewrite (elements_cost oc _ _ buf b m (seq_cost oc t l (proj2 HL) (IHt (proj2 HL)) HV) HW), HS. reflexivity.
  - destruct HV as [_ HV]. destruct (n =? 0); [discriminate|]. rewrite (elements_cost oc _ _ buf b m (seq_cost oc t l (proj2 HL) (IHt (proj2 HL)) HV) HW), HS. reflexivity.
  - destruct HV as [_ HV]. destruct (n <? blen l); [discriminate|]. rewrite (elements_cost oc _ _ buf b m (seq_cost oc t l (proj2 HL) (IHt (proj2 HL)) HV) HW), HS. reflexivity.
  - cbn [valid] in HV. rewrite Forall2_fun_map in HV. destruct HL as [_ HL].
    destruct (Nat.eqb _ _); [|discriminate]. rewrite <- HS. eapply elements_cost; [|exact HW].
    clear - H HL HV. induction HV as [|f x fs l HX HV IH]; cbn [map combine]; constructor.
    + cbn [forallb] in HL. apply andb_true_iff in HL as [HL1 HL]. inversion H; subst. apply element_exact; auto.
    + cbn [forallb] in HL. apply andb_true_iff in HL as [HL1 HL]. inversion H; subst. apply IH; auto.
  - cbn [valid spec_serialize] in *. exact (IHt HL _ buf b HV HB).
  - cbn [valid spec_serialize] in *. apply HSel. intros buf'.
    destruct (spec_serialize t v) as [e|] eqn:E; [|discriminate]. eapply IHt; eauto.
  - destruct vs as [|[u|] vs]; try contradiction. unfold appending. cbn [u8_serialize fst snd encoded_bytes]. rewrite blen_app. change (blen (le_bytes 1 _)) with 1. lia.
  - apply valid_variant in HV as (u & EN & HV). cbn [spec_serialize] in HB. rewrite !nth_error_map, EN in *. cbn [option_map] in *.
    apply HSel. intros buf'. apply nth_error_In in EN. rewrite Forall_forall in H. destruct HL as [_ HL]. rewrite forallb_forall in HL.
    destruct (spec_serialize u v) as [e|] eqn:E; [|discriminate]. eapply (H _ EN (HL _ EN)); eauto.
  - cbn [valid] in HV. rewrite nth_error_map in HV. destruct (nth_error ts (N.to_nat i)) as [u|] eqn:EN; [|contradiction].
    cbn [option_map spec_serialize] in *. rewrite !nth_error_map, EN in *. cbn [option_map] in *.
    apply nth_error_In in EN. rewrite Forall_forall in H. destruct HL as [_ HL]. rewrite forallb_forall in HL.
    eapply (H _ EN (HL _ EN)); eauto.
Qed.
