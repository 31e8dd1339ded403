(** Later versions of a type. *)
From Coq Require Import String List NArith ZArith Bool Lia ZifyBool ZifyNat ZifyN.
From Coq Require Import Strings.Byte.
From Verif Require Import Prelude Types Bitvec Valid SpecSer SpecMerkle SpecWrite SpecAlike SpecPack SpecProve SpecFound SpecLater
  Lib AlikeProof.
Import ListNotations.
Open Scope N_scope.

(** ** Generalized indices *)

Lemma enlarges_refl t : enlarges t t.
Proof.
  unfold same_height. induction t using ty_ind'; cbn [enlarges]; unfold same_height; auto; try (split; [lia|auto]).
  - rewrite firstn_all. induction fs as [|f fs IH]; [constructor|]. inversion H; subst. cbn [map]. constructor; auto.
  - rewrite firstn_all. induction vs as [|o vs IH]; [constructor|]. inversion H; subst. cbn [map]. constructor; auto.
    destruct o; auto.
  - rewrite firstn_all. induction ts as [|u ts IH]; [constructor|]. inversion H; subst. cbn [map]. constructor; auto.
Qed.

Lemma enlarges_item u u' : enlarges u u' -> item_basic u' = item_basic u /\ (item_basic u = true -> u' = u).
Proof. destruct u, u'; cbn [enlarges item_basic]; try discriminate; try (intros [= <-]); auto; split; auto; discriminate. Qed.

Lemma enlarges_item_length u u' : enlarges u u' -> item_length_with item_basic u' = item_length_with item_basic u.
Proof.
  intros HE. destruct (enlarges_item u u' HE) as [E1 E2]. unfold item_length_with. rewrite E1.
  destruct (item_basic u); [rewrite E2; auto|reflexivity].
Qed.

Lemma enlarges_height t : forall t', enlarges t t' -> same_height item_basic t t'.
Proof.
  unfold same_height. induction t using ty_ind'; intros t' HE; destruct t'; cbn [enlarges] in HE; try discriminate; try contradiction;
    try (injection HE as <-; reflexivity); try reflexivity; try (apply HE).
  cbn [chunk_count_with]. auto.
Qed.

Lemma enlarges_resolve t : forall t', enlarges t t' -> enlarges (resolve t) (resolve t').
Proof.
  induction t using ty_ind'; intros t' HE; destruct t'; try (cbn [enlarges] in HE; discriminate); try contradiction; try exact HE.
  cbn [resolve]. apply IHt. exact HE.
Qed.

Lemma enlarges_variant vs vs' i o : enlarges (TUnion vs) (TUnion vs') -> nth_error vs i = Some o ->
  exists o', nth_error vs' i = Some o' /\
    match o, o' with Some u, Some u' => enlarges u u' | None, None => True | _, _ => False end.
Proof.
  cbn [enlarges]. intros HE EN. rewrite Forall2_fun_map in HE. destruct (Forall2_nth_l _ _ _ _ _ HE EN) as (o' & EO & HO).
  exists o'. split; [eapply firstn_nth_error; exact EO|exact HO].
Qed.

Lemma enlarges_field fs : forall fs' name pos u,
  Forall2 (fun f f' => fst f = fst f' /\ enlarges (snd f) (snd f')) fs (firstn (length fs) fs') ->
  field_position name fs = Some (pos, u) -> exists u', field_position name fs' = Some (pos, u') /\ enlarges u u'.
Proof.
  induction fs as [|[n t] fs IH]; intros fs' name pos u HF; cbn [field_position]; [discriminate|].
  destruct fs' as [|[n' t'] fs']; cbn [length firstn] in HF; inversion HF as [|? ? ? ? [HN HT] HR]; subst. cbn [fst snd] in *. subst n'.
  cbn [field_position]. destruct (String.eqb name n); [intros [= <- <-]; eauto|].
  destruct (field_position name fs) as [[pos' u1]|] eqn:EF; [|discriminate]. cbn [option_map fst snd]. intros [= <- <-].
  destruct (IH fs' name pos' u1 HR EF) as (u' & E & HE). exists u'. rewrite E. auto.
Qed.

Lemma enlarges_step t t' p w pos u : enlarges t t' -> step_with item_basic t p = Some (w, pos, u) ->
  exists u', step_with item_basic t' p = Some (w, pos, u') /\ enlarges u u'.
Proof.
  intros HE. unfold step_with. pose proof (enlarges_height t t' HE) as HH. unfold same_height in HH. rewrite HH.
  set (ww := width (chunk_count_with item_basic t)). clearbody ww. clear HH. apply enlarges_resolve in HE.
  destruct (resolve t) as [|s| | |a n|a n|a n|n|n|fs|a|a|vs|ts], (resolve t') as [|s'| | |a' n'|a' n'|a' n'|n'|n'|fs'|a'|a'|vs'|ts'];
    cbn [enlarges] in HE; try discriminate; try contradiction; destruct p as [i|name| |]; try discriminate.
  - destruct HE as (HN & _ & HE). rewrite (enlarges_item_length _ _ HE). destruct (i <? n) eqn:EI; [|discriminate].
    replace (i <? n') with true by lia. intros [= <- <- <-]. eauto.
  - destruct HE as (HN & _ & HE). rewrite (enlarges_item_length _ _ HE). destruct (i <? n) eqn:EI; [|discriminate].
    replace (i <? n') with true by lia. intros [= <- <- <-]. eauto.
  - destruct HE as (HN & _ & HE). rewrite (enlarges_item_length _ _ HE). destruct (i <? n) eqn:EI; [|discriminate].
    replace (i <? n') with true by lia. intros [= <- <- <-]. eauto.
  - intros [= <- <- <-]. exists (TUint U64). split; [reflexivity|apply enlarges_refl].
  - destruct HE as (HN & _). destruct (i <? n) eqn:EI; [|discriminate].
    replace (i <? n') with true by lia. intros [= <- <- <-]. exists TBool. split; [reflexivity|apply enlarges_refl].
  - destruct HE as (HN & _). destruct (i <? n) eqn:EI; [|discriminate].
    replace (i <? n') with true by lia. intros [= <- <- <-]. exists TBool. split; [reflexivity|apply enlarges_refl].
  - destruct HE as (_ & HE). rewrite Forall2_fun_map in HE.
    destruct (field_position name fs) as [[pos' u1]|] eqn:EF; [|discriminate]. intros [= <- <- <-].
    destruct (enlarges_field _ _ _ _ _ HE EF) as (u' & E & HU). rewrite E. eauto.
  - destruct (i =? 0); [intros [= <- <- <-]; exists TBool; split; [reflexivity|apply enlarges_refl]|].
    destruct (i =? 1); [intros [= <- <- <-]; eauto|discriminate].
  - intros [= <- <- <-]. exists (TUint U8). split; [reflexivity|apply enlarges_refl].
  - destruct (nth_error vs (N.to_nat i)) as [o|] eqn:EN; [|discriminate].
    destruct (enlarges_variant vs vs' _ _ HE EN) as (o' & E & HO). rewrite E.
    destruct o as [a|], o' as [a'|]; try contradiction; intros [= <- <- <-]; [eauto|].
    exists TBool. split; [reflexivity|apply enlarges_refl].
  - intros [= <- <- <-]. exists (TUint U8). split; [reflexivity|apply enlarges_refl].
Qed.

Lemma enlarges_gindex path : forall t t' r g, enlarges t t' ->
  gindex_from_with item_basic t r path = Some g -> gindex_from_with item_basic t' r path = Some g.
Proof.
  induction path as [|p path IH]; intros t t' r g HE; cbn [gindex_from_with]; [auto|].
  destruct (step_with item_basic t p) as [[[w pos] u]|] eqn:ES; [|discriminate].
  destruct (enlarges_step _ _ _ _ _ _ HE ES) as (u' & E & HU). rewrite E. apply IH. exact HU.
Qed.

Lemma as_unions_length u : item_length_with item_basic (as_unions u) = item_length_with item_basic u.
Proof. destruct u; reflexivity. Qed.

Lemma as_unions_count t : chunk_count_with item_basic (as_unions t) = chunk_count_with item_basic t.
Proof.
  induction t using ty_ind'; cbn [as_unions chunk_count_with]; try rewrite as_unions_length; auto.
  unfold blen. rewrite map_length. reflexivity.
Qed.

Lemma as_unions_height t t' : same_height item_basic t t' -> same_height item_basic (as_unions t) (as_unions t').
Proof. unfold same_height. rewrite !as_unions_count. auto. Qed.

Lemma enlarges_unions t : forall t', enlarges t t' -> enlarges (as_unions t) (as_unions t').
Proof.
  induction t as [|s| | |a n IH|a n IH|a n IH|n|n|fs IH|a IH|a IH|vs IH|ts IH] using ty_ind'; intros t' HE;
    destruct t' as [|s'| | |a' n'|a' n'|a' n'|n'|n'|fs'|a'|a'|vs'|ts']; cbn [enlarges] in HE; try discriminate; try contradiction;
    try (injection HE as <-; apply enlarges_refl); try apply enlarges_refl; try exact HE.
  - destruct HE as (H1 & H2 & H3). apply as_unions_height in H2. cbn [as_unions enlarges] in *. auto.
  - destruct HE as (H1 & H2 & H3). apply as_unions_height in H2. cbn [as_unions enlarges] in *. auto.
  - destruct HE as (H1 & H2 & H3). apply as_unions_height in H2. cbn [as_unions enlarges] in *. auto.
  - destruct HE as (H1 & H2). apply as_unions_height in H1. cbn [as_unions enlarges] in *. split; [exact H1|].
    rewrite map_length, firstn_map. clear H1. set (k := length fs) in *. clearbody k. rewrite Forall2_fun_map in H2.
    rewrite Forall2_fun_map. set (m := firstn k fs') in *. clearbody m. clear fs'.
    revert m H2. induction IH as [|f fs Hf _ IHfs]; intros m H2; inversion H2 as [|? f' ? m' [E1 E2] E3]; subst; cbn [map]; constructor.
    + cbn [fst snd]. auto.
    + apply IHfs. exact E3.
  - cbn [as_unions enlarges] in *. auto.
  - cbn [as_unions enlarges] in *. auto.
  - cbn [as_unions enlarges] in *. rewrite map_length, firstn_map. set (k := length vs) in *. clearbody k. rewrite Forall2_fun_map in HE.
    rewrite Forall2_fun_map. set (m := firstn k vs') in *. clearbody m. clear vs'.
    revert m HE. induction IH as [|o vs Ho _ IHvs]; intros m HE; inversion HE as [|? o' ? m' E1 E2]; subst; cbn [map]; constructor.
    + destruct o, o'; cbn [option_map opt_holds] in *; auto.
    + apply IHvs. exact E2.
  - cbn [as_unions enlarges] in *. rewrite map_length, firstn_map. set (k := length ts) in *. clearbody k. rewrite Forall2_fun_map in HE.
    rewrite Forall2_fun_map. set (m := firstn k ts') in *. clearbody m. clear ts'.
    revert m HE. induction IH as [|o vs Ho _ IHvs]; intros m HE; inversion HE as [|? o' ? m' E1 E2]; subst; cbn [map]; constructor.
    + auto.
    + apply IHvs. exact E2.
Qed.

Lemma as_unions_addressable t : addressable (as_unions t) = addressable t.
Proof.
  induction t using ty_ind'; cbn [as_unions addressable]; try rewrite as_unions_length; try congruence.
  - unfold blen. rewrite map_length. f_equal. induction H; cbn [map forallb snd]; congruence.
  - induction H as [|o vs Ho _ IH]; cbn [map forallb]; [reflexivity|]. rewrite IH. destruct o; cbn [option_map opt_holds] in *; congruence.
  - induction H; cbn [map forallb]; congruence.
Qed.

Lemma addressable_resolve t : addressable (resolve t) = addressable t.
Proof. induction t; auto. Qed.

Lemma addressable_path path : forall t, addressable t = true -> countable_path item_basic t path = true.
Proof.
  induction path as [|p path IH]; intros t HA; cbn [countable_path]; [reflexivity|]. apply andb_true_iff.
  rewrite <- addressable_resolve in HA. split.
  - unfold countable. destruct (resolve t), p; try reflexivity; cbn [addressable] in HA; lia.
  - unfold step_with. destruct (resolve t) as [|s| | |a n|a n|a n|n|n|fs|a|a|vs|ts], p as [i|name| |]; try reflexivity;
      cbn [addressable] in HA; try (apply andb_true_iff in HA; destruct HA as [HA1 HA]).
    + destruct (i <? n); auto.
    + destruct (i <? n); auto.
    + destruct (i <? n); auto.
    + apply IH. reflexivity.
    + destruct (i <? n); [apply IH|]; reflexivity.
    + destruct (i <? n); [apply IH|]; reflexivity.
    + destruct (field_position name fs) as [[pos u]|] eqn:EF; [|reflexivity]. apply IH. revert pos u EF.
      induction fs as [|[n t'] fs IHf]; intros pos u; cbn [field_position]; [discriminate|]. cbn [forallb] in HA.
      apply andb_true_iff in HA as [HA2 HA]. destruct (String.eqb name n); [intros [= <- <-]; exact HA2|].
      destruct (field_position name fs) as [[pos' u']|]; [|discriminate]. cbn [option_map fst snd]. intros [= <- <-].
      assert (HB : (blen fs <=? 2 ^ 59) = true) by (revert HA1; unfold blen; cbn [length]; lia).
      eapply IHf; auto.
    + destruct (i =? 0); [apply IH; reflexivity|]. destruct (i =? 1); auto.
    + apply IH. reflexivity.
    + destruct (nth_error vs (N.to_nat i)) as [[u|]|] eqn:EN; try (apply IH); try reflexivity.
      rewrite forallb_forall in HA. apply nth_error_In in EN. exact (HA _ EN).
    + apply IH. reflexivity.
Qed.

(** ** Roots *)

Lemma grows_refl (same : ty -> ty -> Prop) t : (forall u, same u u) -> grows same t t.
Proof.
  intros HS. induction t using ty_ind'; cbn [grows]; auto; try (split; [lia|auto]).
  - induction fs as [|f fs IH]; [constructor|]. inversion H; subst. cbn [map]. constructor; auto.
  - rewrite firstn_all. induction vs as [|o vs IH]; [constructor|]. inversion H; subst. cbn [map]. constructor; auto.
    destruct o; auto.
Qed.

Lemma grows_fields same fs fs' : grows same (TContainer fs) (TContainer fs') ->
  Forall2 (fun f f' => fst f = fst f' /\ grows same (snd f) (snd f')) fs fs'.
Proof. cbn [grows]. rewrite Forall2_fun_map. auto. Qed.

Lemma grows_variants same vs vs' : grows same (TUnion vs) (TUnion vs') ->
  Forall2 (fun o o' => match o, o' with Some u, Some u' => grows same u u' | None, None => True | _, _ => False end)
    vs (firstn (length vs) vs').
Proof. cbn [grows]. rewrite Forall2_fun_map. auto. Qed.

Lemma grows_variant same vs vs' i o : grows same (TUnion vs) (TUnion vs') -> nth_error vs i = Some o ->
  exists o', nth_error vs' i = Some o' /\
    match o, o' with Some u, Some u' => grows same u u' | None, None => True | _, _ => False end.
Proof.
  intros HE EN. apply grows_variants in HE. destruct (Forall2_nth_l _ _ _ _ _ HE EN) as (o' & EO & HO).
  exists o'. split; [eapply firstn_nth_error; exact EO|exact HO].
Qed.

Lemma grows_wider same t : forall t', grows same t t' -> wider t t'.
Proof.
  induction t as [|s| | |a n IH|a n IH|a n IH|n|n|fs IH|a IH|a IH|vs IH|ts IH] using ty_ind'; intros t' HE;
    destruct t' as [|s'| | |a' n'|a' n'|a' n'|n'|n'|fs'|a'|a'|vs'|ts']; try (cbn [grows] in HE; try discriminate; contradiction);
    try exact HE; try (cbn [grows wider] in *; intuition auto; fail).
  - apply grows_fields in HE. cbn [wider]. rewrite Forall2_fun_map. revert fs' HE.
    induction IH as [|f fs Hf _ IHfs]; intros m HE; inversion HE as [|? f' ? m' [E1 E2] E3]; subst; constructor; auto.
  - apply grows_variants in HE. cbn [wider]. rewrite Forall2_fun_map. set (m := firstn (length vs) vs') in *. clearbody m. clear vs'.
    revert m HE. induction IH as [|o vs Ho _ IHvs]; intros m HE; inversion HE as [|? o' ? m' E1 E2]; subst; constructor; auto.
    destruct o, o'; cbn [opt_holds] in *; auto.
Qed.

Lemma grows_impl (same same' : ty -> ty -> Prop) t : (forall u u', same u u' -> same' u u') ->
  forall t', grows same t t' -> grows same' t t'.
Proof.
  intros HS. induction t as [|s| | |a n IH|a n IH|a n IH|n|n|fs IH|a IH|a IH|vs IH|ts IH] using ty_ind'; intros t' HE;
    destruct t' as [|s'| | |a' n'|a' n'|a' n'|n'|n'|fs'|a'|a'|vs'|ts']; try (cbn [grows] in HE; try discriminate; contradiction);
    try exact HE; try (cbn [grows] in *; intuition auto; fail).
  - apply grows_fields in HE. cbn [grows]. rewrite Forall2_fun_map. revert fs' HE.
    induction IH as [|f fs Hf _ IHfs]; intros m HE; inversion HE as [|? f' ? m' [E1 E2] E3]; subst; constructor; auto.
  - apply grows_variants in HE. cbn [grows]. rewrite Forall2_fun_map. set (m := firstn (length vs) vs') in *. clearbody m. clear vs'.
    revert m HE. induction IH as [|o vs Ho _ IHvs]; intros m HE; inversion HE as [|? o' ? m' E1 E2]; subst; constructor; auto.
    destruct o, o'; cbn [opt_holds] in *; auto.
Qed.

Lemma wider_packed t : forall t', wider t t' -> packed t' = packed t /\ (packed t = true -> t' = t).
Proof.
  induction t as [|s| | |a n IH|a n IH|a n IH|n|n|fs IH|a IH|a IH|vs IH|ts IH] using ty_ind'; intros t' HW;
    destruct t' as [|s'| | |a' n'|a' n'|a' n'|n'|n'|fs'|a'|a'|vs'|ts']; cbn [wider] in HW; try discriminate; try contradiction;
    try (split; [reflexivity|intros; discriminate]); try (rewrite HW; auto; fail); auto.
  destruct HW as [<- HW]. cbn [packed]. destruct (IH a' HW) as [E1 E2]. split; [exact E1|]. intros HP. rewrite E2; auto.
Qed.

Lemma wider_item t t' : wider t t' -> item_basic t' = item_basic t /\ (item_basic t = true -> t' = t).
Proof. destruct t, t'; cbn [wider item_basic]; try discriminate; try (intros [= <-]); auto; split; auto; discriminate. Qed.

Lemma same_depth packs t t' : same_height packs t t' -> tree_depth (chunk_count_with packs t') = tree_depth (chunk_count_with packs t).
Proof.
  unfold same_height, width, tree_depth. intros HS. f_equal. apply N.pow_inj_r with (a := 2); [lia|exact HS].
Qed.

Section Packs.
  Context (packs : ty -> bool).
  Context (Hpacks : forall u u', wider u u' -> packs u' = packs u /\ (packs u = true -> u' = u)).

  Lemma grown_item u u' : wider u u' -> item_length_with packs u' = item_length_with packs u.
  Proof. intros HW. destruct (Hpacks u u' HW) as [E1 E2]. unfold item_length_with. rewrite E1. destruct (packs u); [rewrite E2|]; auto. Qed.

  Lemma grown_height t : forall t', grows (same_height packs) t t' -> same_height packs t t'.
  Proof.
    unfold same_height. induction t as [|s| | |a n IH|a n IH|a n IH|n|n|fs IH|a IH|a IH|vs IH|ts IH] using ty_ind'; intros t' HE;
    destruct t' as [|s'| | |a' n'|a' n'|a' n'|n'|n'|fs'|a'|a'|vs'|ts']; try (cbn [grows] in HE; try discriminate; contradiction);
      try reflexivity; try (cbn [grows] in HE; injection HE as <-; reflexivity).
    - cbn [grows] in HE. destruct HE as [<- HE]. apply grows_wider in HE. cbn [chunk_count_with]. rewrite (grown_item _ _ HE). reflexivity.
    - cbn [grows] in HE. destruct HE as [<- HE]. apply grows_wider in HE. cbn [chunk_count_with]. rewrite (grown_item _ _ HE). reflexivity.
    - apply HE.
    - apply HE.
    - apply grows_fields in HE. cbn [chunk_count_with]. unfold blen. rewrite (Forall2_length _ _ _ HE). reflexivity.
    - cbn [chunk_count_with]. apply IH. exact HE.
  Qed.

  Context (H : bytes -> bytes).

  Lemma packs_chunks u u' l : wider u u' -> (forall x, In x l -> root_with packs H u' x = root_with packs H u x) ->
    seq_chunks_with packs H u' l = seq_chunks_with packs H u l.
  Proof.
    intros HW HR. unfold seq_chunks_with. destruct (Hpacks u u' HW) as [E1 E2]. rewrite E1. destruct (packs u); [rewrite E2; auto|].
    apply map_ext_in. exact HR.
  Qed.

  Lemma root_grown t : forall t' v, grows (same_height packs) t t' -> valid t v ->
    root_with packs H t' v = root_with packs H t v.
  Proof.
    induction t as [|s| | |a n IH|a n IH|a n IH|n|n|fs IH|a IH|a IH|vs IH|ts IH] using ty_ind'; intros t' v HE HV;
    destruct t' as [|s'| | |a' n'|a' n'|a' n'|n'|n'|fs'|a'|a'|vs'|ts']; try (cbn [grows] in HE; try discriminate; contradiction);
      try (cbn [grows] in HE; injection HE as <-; reflexivity); try reflexivity;
      pose proof (same_depth _ _ _ (grown_height _ _ HE)) as HD;
      destruct v as [b|x|b|l|b|l|x| |x|i x]; try contradiction HV;
      try (cbn [valid] in HV; destruct vs as [|[]]; contradiction); cbn [root_with]; try rewrite HD.
    - destruct HE as [<- HE]. f_equal. apply (packs_chunks a a' l (grows_wider _ _ _ HE)).
      destruct HV as [_ HV]. rewrite Forall_forall in HV. intros x Hx. apply IH; auto.
    - destruct HE as [<- HE]. f_equal. apply (packs_chunks a a' l (grows_wider _ _ _ HE)).
      destruct HV as [_ HV]. rewrite Forall_forall in HV. intros x Hx. apply IH; auto.
    - destruct HE as (_ & _ & HE). f_equal. f_equal. apply (packs_chunks a a' l (grows_wider _ _ _ HE)).
      destruct HV as [_ HV]. rewrite Forall_forall in HV. intros x Hx. apply IH; auto.
    - reflexivity.
    - apply grows_fields in HE. cbn [valid] in HV. rewrite Forall2_fun_map in HV. f_equal. clear HD.
      revert fs' l HE HV. induction IH as [|f fs Hf _ IHfs]; intros fs' l HE HV; inversion HE as [|? f' ? m' [E1 E2] E3]; subst; [reflexivity|].
      inversion HV as [|? x ? l' V1 V2]; subst. cbn [map combine fst snd]. f_equal; [apply Hf; auto|apply IHfs; auto].
    - apply IH; auto.
    - reflexivity.
    - f_equal. apply IH; auto.
    - reflexivity.
    - apply valid_variant in HV as (u & EN & HV). destruct (grows_variant _ _ _ _ _ HE EN) as ([u'|] & EN' & HU); [|contradiction].
      rewrite !nth_error_map, EN, EN'. cbn [option_map]. f_equal. rewrite Forall_forall in IH. apply nth_error_In in EN. apply (IH _ EN); auto.
  Qed.

  Lemma chunks_grown t : forall t' v, grows (same_height packs) t t' -> valid t v ->
    chunks_with packs H t' v = chunks_with packs H t v.
  Proof.
    induction t as [|s| | |a n IH|a n IH|a n IH|n|n|fs IH|a IH|a IH|vs IH|ts IH] using ty_ind'; intros t' v HE HV;
    destruct t' as [|s'| | |a' n'|a' n'|a' n'|n'|n'|fs'|a'|a'|vs'|ts']; try (cbn [grows] in HE; try discriminate; contradiction);
      try (cbn [grows] in HE; injection HE as <-; reflexivity); try reflexivity;
      destruct v as [b|x|b|l|b|l|x| |x|i x]; try contradiction HV;
      try (cbn [valid] in HV; destruct vs as [|[]]; contradiction); cbn [chunks_with]; try reflexivity.
    - destruct HE as [<- HE]. apply (packs_chunks a a' l (grows_wider _ _ _ HE)).
      destruct HV as [_ HV]. rewrite Forall_forall in HV. intros x Hx. apply root_grown; auto.
    - destruct HE as [<- HE]. apply (packs_chunks a a' l (grows_wider _ _ _ HE)).
      destruct HV as [_ HV]. rewrite Forall_forall in HV. intros x Hx. apply root_grown; auto.
    - destruct HE as (_ & _ & HE). apply (packs_chunks a a' l (grows_wider _ _ _ HE)).
      destruct HV as [_ HV]. rewrite Forall_forall in HV. intros x Hx. apply root_grown; auto.
    - apply grows_fields in HE. cbn [valid] in HV. rewrite Forall2_fun_map in HV.
      revert fs' l HE HV. induction IH as [|f fs Hf _ IHfs]; intros fs' l HE HV; inversion HE as [|? f' ? m' [E1 E2] E3]; subst; [reflexivity|].
      inversion HV as [|? x ? l' V1 V2]; subst. cbn [map combine fst snd]. f_equal; [apply root_grown; auto|apply IHfs; auto].
    - apply IH; auto.
    - f_equal. apply root_grown; auto.
    - apply valid_variant in HV as (u & EN & HV). destruct (grows_variant _ _ _ _ _ HE EN) as ([u'|] & EN' & HU); [|contradiction].
      rewrite EN, EN'. f_equal. apply root_grown; auto.
  Qed.
End Packs.

(** ** Proofs *)

Lemma grows_enlarges t : forall t', grows (same_height item_basic) t t' -> enlarges t t'.
Proof.
  induction t as [|s| | |a n IH|a n IH|a n IH|n|n|fs IH|a IH|a IH|vs IH|ts IH] using ty_ind'; intros t' HE;
    destruct t' as [|s'| | |a' n'|a' n'|a' n'|n'|n'|fs'|a'|a'|vs'|ts']; try (cbn [grows] in HE; try discriminate; contradiction);
    try exact HE; try (cbn [grows] in HE; rewrite HE; apply enlarges_refl).
  - pose proof (grown_height item_basic wider_item _ _ HE) as HH. cbn [grows] in HE. destruct HE as [<- HE]. cbn [enlarges]. split; [lia|]. split; auto.
  - pose proof (grown_height item_basic wider_item _ _ HE) as HH. cbn [grows] in HE. destruct HE as [<- HE]. cbn [enlarges]. split; [lia|]. split; auto.
  - cbn [grows enlarges] in *. intuition auto.
  - pose proof (grown_height item_basic wider_item _ _ HE) as HH. apply grows_fields in HE. cbn [enlarges]. split; [exact HH|].
    rewrite (Forall2_length _ _ _ HE), firstn_all. rewrite Forall2_fun_map. clear HH. revert fs' HE.
    induction IH as [|f fs Hf _ IHfs]; intros m HE; inversion HE as [|? f' ? m' [E1 E2] E3]; subst; constructor; auto.
  - cbn [grows enlarges] in *. auto.
  - cbn [grows enlarges] in *. auto.
  - apply grows_variants in HE. cbn [enlarges]. rewrite Forall2_fun_map. set (m := firstn (length vs) vs') in *. clearbody m. clear vs'.
    revert m HE. induction IH as [|o vs Ho _ IHvs]; intros m HE; inversion HE as [|? o' ? m' E1 E2]; subst; constructor; auto.
    destruct o, o'; cbn [opt_holds] in *; auto.
Qed.

Lemma decorated_grown same t : forall t', grows same t t' -> decorated t' = decorated t.
Proof.
  unfold decorated. induction t as [|s| | |a n IH|a n IH|a n IH|n|n|fs IH|a IH|a IH|vs IH|ts IH] using ty_ind'; intros t' HE;
    destruct t' as [|s'| | |a' n'|a' n'|a' n'|n'|n'|fs'|a'|a'|vs'|ts']; try (cbn [grows] in HE; try discriminate; contradiction);
    try reflexivity. cbn [resolve]. apply IH. exact HE.
Qed.

Lemma leaves_grown t t' : grows both_heights t t' -> leaves t' = leaves t.
Proof.
  intros HE. unfold leaves. rewrite (decorated_grown _ _ _ HE).
  assert (HH : same_height item_basic t t').
  { apply grown_height; [exact wider_item|]. eapply grows_impl; [|exact HE]. intros u u' [_ HU]. exact HU. }
  unfold same_height in HH. rewrite HH. reflexivity.
Qed.

Lemma number_grown same t : forall t' v, grows same t t' -> number t' v = number t v.
Proof.
  induction t as [|s| | |a n IH|a n IH|a n IH|n|n|fs IH|a IH|a IH|vs IH|ts IH] using ty_ind'; intros t' v HE;
    destruct t' as [|s'| | |a' n'|a' n'|a' n'|n'|n'|fs'|a'|a'|vs'|ts']; try (cbn [grows] in HE; try discriminate; contradiction);
    try reflexivity; destruct v; try reflexivity. cbn [number]. apply IH. exact HE.
Qed.

Lemma tree_made_grown t t' : grows both_heights t t' -> forall v, tree_made t' v = tree_made t v.
Proof.
  intros HE v. unfold tree_made. rewrite (leaves_grown _ _ HE). f_equal.
  destruct t as [|s| | |a n|a n|a n|n|n|fs|a|a|vs|ts], t' as [|s'| | |a' n'|a' n'|a' n'|n'|n'|fs'|a'|a'|vs'|ts'];
    cbn [grows] in HE; try discriminate; try contradiction; try reflexivity; destruct v; try reflexivity.
  - rewrite (grown_item packed wider_packed a a'); [reflexivity|]. eapply grows_wider. apply HE.
  - rewrite (grown_item packed wider_packed a a'); [reflexivity|]. eapply grows_wider. apply HE.
  - rewrite (grown_item packed wider_packed a a'); [reflexivity|]. eapply grows_wider. apply HE.
Qed.

Lemma probe_grown t : forall t' v g, grows both_heights t t' -> valid t v -> probe t v g = Made -> probe t' v g = Made.
Proof.
  induction t as [|s| | |a n IH|a n IH|a n IH|n|n|fs IH|a IH|a IH|vs IH|ts IH] using ty_ind'; intros t' v g HE HV;
    destruct t' as [|s'| | |a' n'|a' n'|a' n'|n'|n'|fs'|a'|a'|vs'|ts']; try (cbn [grows] in HE; try discriminate; contradiction);
    try (cbn [grows] in HE; injection HE as <-; auto; fail); try (auto; fail);
    destruct v as [b|x|b|l|b|l|x| |x|i x]; try contradiction HV;
    try (cbn [valid] in HV; destruct vs as [|[]]; contradiction); cbn [probe];
    try (apply IH; [exact HE|exact HV]);
    rewrite (leaves_grown _ _ HE), (tree_made_grown _ _ HE);
    (destruct (g =? 0); [auto|]); set (m := N.log2 g - N.log2 (leaves _)); (destruct (m =? 0); [auto|]); try solve [auto];
    set (c := 2 ^ m + g mod 2 ^ m); try (set (j := g / 2 ^ m - leaves _); clearbody j);
    set (own := if tree_made _ _ then Made else Crashes); clearbody m c own; auto.
  - destruct HE as [<- HE]. destruct HV as [_ HV]. destruct (n <=? j); [auto|].
    destruct (nth_error l (N.to_nat j)) as [x|] eqn:EN; [|auto]. rewrite Forall_forall in HV. apply nth_error_In in EN.
    destruct (probe a x c) eqn:EP; try (cbn [and_then]; intros; discriminate). rewrite (IH _ _ _ HE (HV _ EN) EP). auto.
  - destruct HE as [<- HE]. destruct HV as [_ HV]. destruct (n <=? j); [auto|].
    destruct (nth_error l (N.to_nat j)) as [x|] eqn:EN; [|auto]. rewrite Forall_forall in HV. apply nth_error_In in EN.
    destruct (probe a x c) eqn:EP; try (cbn [and_then]; intros; discriminate). rewrite (IH _ _ _ HE (HV _ EN) EP). auto.
  - destruct HE as (HN & _ & HE). destruct HV as [_ HV]. destruct (n <=? j) eqn:EJ; [cbn [and_then]; intros; discriminate|].
    replace (n' <=? j) with false by lia.
    destruct (nth_error l (N.to_nat j)) as [x|] eqn:EN; [|auto]. rewrite Forall_forall in HV. apply nth_error_In in EN.
    destruct (probe a x c) eqn:EP; try (cbn [and_then]; intros; discriminate). rewrite (IH _ _ _ HE (HV _ EN) EP). auto.
  - apply grows_fields in HE. cbn [valid] in HV. rewrite Forall2_fun_map in HV.
    set (k := N.to_nat j). clearbody k. revert fs' l HE HV k.
    induction IH as [|f fs Hf _ IHfs]; intros fs' l HE HV k; inversion HE as [|? f' ? m' [E1 E2] E3]; subst; [auto|].
    inversion HV as [|? x ? l' V1 V2]; subst. cbn [map combine]. destruct k as [|k]; cbn [nth_error]; [|apply IHfs; auto].
    destruct (probe (snd f) x c) eqn:EP; try (cbn [and_then]; intros; discriminate). rewrite (Hf _ _ _ E2 V1 EP). auto.
  - destruct (probe a x c) eqn:EP; try (cbn [and_then]; intros; discriminate). rewrite (IH _ _ _ HE HV EP). auto.
  - destruct (blen vs <=? j); intros; discriminate.
  - apply valid_variant in HV as (u & EN & HV). destruct (grows_variant _ _ _ _ _ HE EN) as ([u'|] & EN' & HU); [|contradiction].
    rewrite !nth_error_map, EN, EN'. cbn [option_map].
    assert (HB : blen vs <= blen vs').
    { apply grows_variants in HE. pose proof (Forall2_length _ _ _ HE) as HL. rewrite firstn_length in HL. unfold blen. lia. }
    destruct (blen vs <=? j) eqn:EJ; [cbn [and_then]; intros; discriminate|]. replace (blen vs' <=? j) with false by lia.
    destruct (probe u x c) eqn:EP; try (cbn [and_then]; intros; discriminate).
    rewrite Forall_forall in IH. apply nth_error_In in EN. rewrite (IH _ EN _ _ _ HU HV EP). auto.
Qed.

Section Found.
  Context (H : bytes -> bytes).

  Lemma node_grown t t' v : grows both_heights t t' -> valid t v -> forall g, tree_node H t' v g = tree_node H t v g.
  Proof.
    intros HE HV g. unfold tree_node. rewrite (leaves_grown _ _ HE), (number_grown _ _ _ v HE).
    rewrite (chunks_grown packed wider_packed H t t' v); [reflexivity| |exact HV].
    eapply grows_impl; [|exact HE]. intros u u' [HU _]. exact HU.
  Qed.

  Lemma siblings_grown t t' v : grows both_heights t t' -> valid t v -> forall d g, siblings H t' v d g = siblings H t v d g.
  Proof.
    intros HE HV d. induction d as [|d IH]; intros g; cbn [siblings]; [reflexivity|]. rewrite (node_grown t t') by assumption. rewrite IH. reflexivity.
  Qed.

  Lemma found_grown t : forall t' v g, grows both_heights t t' -> valid t v -> probe t v g = Made -> found H t' v g = found H t v g.
  Proof.
    induction t as [|s| | |a n IH|a n IH|a n IH|n|n|fs IH|a IH|a IH|vs IH|ts IH] using ty_ind'; intros t' v g HE HV HP;
    destruct t' as [|s'| | |a' n'|a' n'|a' n'|n'|n'|fs'|a'|a'|vs'|ts']; try (cbn [grows] in HE; try discriminate; contradiction);
    try (cbn [grows] in HE; injection HE as <-; auto; fail); try (auto; fail);
    destruct v as [b|x|b|l|b|l|x| |x|i x]; try contradiction HV;
    try (cbn [valid] in HV; destruct vs as [|[]]; contradiction); cbn [found];
    try (apply IH; [exact HE|exact HV|exact HP]);
    rewrite (leaves_grown _ _ HE); rewrite (siblings_grown _ _ _ HE HV), (node_grown _ _ _ HE HV);
    set (m := N.log2 g - N.log2 (leaves _)); (destruct (m =? 0) eqn:EM; [reflexivity|]);
    set (up := siblings _ _ _ _ _); clearbody up;
    revert HP; cbn [probe]; (destruct (g =? 0); [intros; discriminate|]); fold m; rewrite EM; cbv zeta; try solve [auto];
    set (c := 2 ^ m + g mod 2 ^ m); try (set (j := g / 2 ^ m - leaves _); clearbody j);
    set (own := if tree_made _ _ then Made else Crashes); clearbody m c own; auto.
    - destruct HE as [<- HE]. destruct HV as [_ HV]. destruct (n <=? j); [intros; discriminate|].
      destruct (nth_error l (N.to_nat j)) as [x|] eqn:EN; [|auto]. rewrite Forall_forall in HV. apply nth_error_In in EN.
      destruct (probe a x c) eqn:EP; try (cbn [and_then]; intros; discriminate). rewrite (IH _ _ _ HE (HV _ EN) EP). auto.
    - destruct HE as [<- HE]. destruct HV as [_ HV]. destruct (n <=? j); [intros; discriminate|].
      destruct (nth_error l (N.to_nat j)) as [x|] eqn:EN; [|auto]. rewrite Forall_forall in HV. apply nth_error_In in EN.
      destruct (probe a x c) eqn:EP; try (cbn [and_then]; intros; discriminate). rewrite (IH _ _ _ HE (HV _ EN) EP). auto.
    - destruct HE as (HN & _ & HE). destruct HV as [_ HV]. destruct (n <=? j) eqn:EJ; [cbn [and_then]; intros; discriminate|].
      destruct (nth_error l (N.to_nat j)) as [x|] eqn:EN; [|auto]. rewrite Forall_forall in HV. apply nth_error_In in EN.
      destruct (probe a x c) eqn:EP; try (cbn [and_then]; intros; discriminate). rewrite (IH _ _ _ HE (HV _ EN) EP). auto.
    - apply grows_fields in HE. cbn [valid] in HV. rewrite Forall2_fun_map in HV.
      set (k := N.to_nat j). clearbody k. intros HP. 
      match goal with |- (fst ?A, _) = (fst ?B, _) => enough (HF : A = B) by (rewrite HF; reflexivity) end.
      revert fs' l HE HV k HP.
      induction IH as [|f fs Hf _ IHfs]; intros fs' l HE HV k HP; inversion HE as [|? f' ? m' [E1 E2] E3]; subst; [auto|].
      inversion HV as [|? x ? l' V1 V2]; subst. cbn [map combine] in *. destruct k as [|k]; cbn [nth_error] in *; [|apply IHfs; auto].
      destruct (probe (snd f) x c) eqn:EP; try (cbn [and_then] in HP; discriminate). exact (Hf _ _ _ E2 V1 EP).
    - destruct (probe a x c) eqn:EP; try (cbn [and_then]; intros; discriminate). rewrite (IH _ _ _ HE HV EP). auto.
    - apply valid_variant in HV as (u & EN & HV). destruct (grows_variant _ _ _ _ _ HE EN) as ([u'|] & EN' & HU); [|contradiction].
      rewrite !nth_error_map, EN, EN'. cbn [option_map].
      destruct (blen vs <=? j) eqn:EJ; [cbn [and_then]; intros; discriminate|].
      destruct (probe u x c) eqn:EP; try (cbn [and_then]; intros; discriminate).
      rewrite Forall_forall in IH. apply nth_error_In in EN. rewrite (IH _ EN _ _ _ HU HV EP). auto.
  Qed.
End Found.

Lemma width_between a b : a <= b -> b <= width a -> width b = width a.
Proof.
  intros H1 H2. unfold width in *. apply N.le_antisymm.
  - apply N.pow_le_mono_r; [lia|]. rewrite <- (N.log2_up_pow2 (N.log2_up a)) by lia. apply N.log2_up_le_mono. exact H2.
  - apply N.pow_le_mono_r; [lia|]. apply N.log2_up_le_mono. exact H1.
Qed.
