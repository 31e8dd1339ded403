(** Roots of types that present the same SSZ type. *)
From Coq Require Import String List NArith ZArith Bool Lia ZifyBool ZifyNat ZifyN.
From Coq Require Import Strings.Byte.
From Verif Require Import Prelude Types Bitvec Valid SpecSer SpecMerkle SpecAlike Lib SpecDecode SpecWrite AlikeProof.
Import ListNotations.
Open Scope N_scope.

Lemma core_basic t : spec_basic (core t) = spec_basic t.
Proof. induction t using ty_ind'; cbn [core spec_basic]; auto. Qed.

Lemma core_item_length t : spec_item_length (core t) = spec_item_length t.
Proof. unfold spec_item_length. rewrite core_basic, core_size. reflexivity. Qed.

Lemma core_chunk_count t : spec_chunk_count (core t) = spec_chunk_count t.
Proof.
  induction t using ty_ind'; cbn [core spec_chunk_count]; rewrite ?core_item_length; auto. apply blen_map.
Qed.

Lemma core_regular_element t : regular_element (core t) = true.
Proof. unfold regular_element. induction t using ty_ind'; cbn [core spec_basic packed]; auto. Qed.

Lemma core_serialize t : forall v, valid t v -> spec_serialize (core t) (core_val v) = spec_serialize t v.
Proof.
  induction t using ty_ind'; intros v HT; destruct v; try (cbn [valid] in HT; contradiction);
    try (destruct vs as [|[]]; cbn [valid] in HT; contradiction); try reflexivity.
  - cbn [core core_val valid spec_serialize] in *. rewrite core_variable, map_map. destruct HT as [_ HT].
    rewrite (map_ext_in _ (fun x => flag (spec_variable t) (spec_serialize t x))); [reflexivity|].
    intros x Hx. rewrite Forall_forall in HT. f_equal. auto.
  - cbn [core core_val valid spec_serialize] in *. rewrite core_variable, map_map. destruct HT as [_ HT].
    rewrite (map_ext_in _ (fun x => flag (spec_variable t) (spec_serialize t x))); [reflexivity|].
    intros x Hx. rewrite Forall_forall in HT. f_equal. auto.
  - cbn [core core_val valid spec_serialize] in *. rewrite core_variable, map_map. destruct HT as [_ HT].
    rewrite (map_ext_in _ (fun x => flag (spec_variable t) (spec_serialize t x))); [reflexivity|].
    intros x Hx. rewrite Forall_forall in HT. f_equal. auto.
  - cbn [core core_val valid spec_serialize] in *. rewrite Forall2_fun_map in HT. rewrite map_map.
    assert (E : forall (a b : option (list (bool * bytes))), a = b ->
      match a with Some es => spec_compose es | None => None end = match b with Some es => spec_compose es | None => None end)
      by (intros; subst; reflexivity).
    apply E. f_equal. clear E.
    revert l HT. induction fs as [|f fs IH]; intros l HT; inversion HT; subst; [reflexivity|].
    inversion H; subst. cbn [map combine fst snd]. f_equal; [|apply IH; auto]. rewrite core_variable. f_equal. auto.
  - cbn [core core_val valid spec_serialize] in *. auto.
  - cbn [core core_val valid spec_serialize] in *. change (N.to_nat 1) with 1%nat. cbn [nth_error map option_map].
    rewrite IHt by auto. reflexivity.
  - apply valid_variant in HT as (u & EN & HT). cbn [core core_val spec_serialize].
    rewrite !nth_error_map, EN. cbn [option_map].
    rewrite Forall_forall in H. apply nth_error_In in EN. f_equal. apply (H _ EN). auto.
  - cbn [core core_val valid spec_serialize] in *. rewrite !nth_error_map in *.
    destruct (nth_error ts (N.to_nat i)) as [u|] eqn:EN; cbn [option_map] in *; auto.
    rewrite Forall_forall in H. apply nth_error_In in EN. apply (H _ EN). auto.
Qed.

Lemma core_valid t : forall v, valid t v -> valid (core t) (core_val v).
Proof.
  induction t using ty_ind'; intros v HT; destruct v; try (cbn [valid] in HT; contradiction);
    try (destruct vs as [|[]]; cbn [valid] in HT; contradiction); try exact HT.
  - cbn [core core_val valid] in *. rewrite blen_map. destruct HT as [HN HT]. split; [exact HN|].
    apply Forall_map. eapply Forall_impl; [|exact HT]. auto.
  - cbn [core core_val valid] in *. rewrite blen_map. destruct HT as [HN HT]. split; [exact HN|].
    apply Forall_map. eapply Forall_impl; [|exact HT]. auto.
  - cbn [core core_val valid] in *. rewrite blen_map. destruct HT as [HN HT]. split; [exact HN|].
    apply Forall_map. eapply Forall_impl; [|exact HT]. auto.
  - cbn [core core_val valid] in *. rewrite Forall2_fun_map in *.
    revert l HT. induction fs as [|f fs IH]; intros l HT; inversion HT; subst; cbn [map]; constructor.
    + inversion H; subst. auto.
    + inversion H; subst. auto.
  - cbn [core core_val valid] in *. auto.
  - cbn [valid] in HT. apply IHt in HT. exact HT.
  - destruct vs as [|[]]; cbn [valid] in HT; try contradiction. exact I.
  - apply valid_variant in HT as (u & EN & HT). apply valid_variant. exists (core u). split.
    + rewrite nth_error_map, EN. reflexivity.
    + rewrite Forall_forall in H. apply nth_error_In in EN. apply (H _ EN). auto.
  - cbn [core core_val valid] in *. rewrite !nth_error_map in *.
    destruct (nth_error ts (N.to_nat i)) as [u|] eqn:EN; cbn [option_map] in *; auto.
    rewrite Forall_forall in H. apply nth_error_In in EN. apply (H _ EN). auto.
Qed.

Section Hash.
  Context (H : bytes -> bytes).

  Lemma core_elements_root u l d :
    Forall (valid u) l -> (forall v, valid u v -> spec_root H (core u) (core_val v) = spec_root H u v) ->
    spec_merkleize H d (if spec_basic (core u) then spec_pack (concat (map (basic_bytes (core u)) (map core_val l)))
                        else map (spec_root H (core u)) (map core_val l)) =
    spec_merkleize H d (if spec_basic u then spec_pack (concat (map (basic_bytes u) l)) else map (spec_root H u) l).
  Proof.
    intros HV HE. rewrite core_basic, !map_map. f_equal. rewrite Forall_forall in HV. destruct (spec_basic u).
    - f_equal. f_equal. apply map_ext_in. intros x Hx. unfold basic_bytes. rewrite core_serialize by auto. reflexivity.
    - apply map_ext_in. auto.
  Qed.

  Lemma core_root t : forall v, valid t v -> spec_root H (core t) (core_val v) = spec_root H t v.
  Proof.
    induction t using ty_ind'; intros v HT; destruct v; try (cbn [valid] in HT; contradiction);
      try (destruct vs as [|[]]; cbn [valid] in HT; contradiction); try reflexivity.
    - pose proof (core_chunk_count (TVector t n)) as HC. cbn [core] in HC.
      cbn [core core_val spec_root]. rewrite HC. destruct HT as [_ HT]. apply core_elements_root; auto.
    - pose proof (core_chunk_count (TArray t n)) as HC. cbn [core] in HC.
      cbn [core core_val spec_root]. rewrite HC. destruct HT as [_ HT]. apply core_elements_root; auto.
    - pose proof (core_chunk_count (TList t n)) as HC. cbn [core] in HC.
      cbn [core core_val spec_root]. rewrite HC, blen_map. destruct HT as [_ HT]. f_equal. apply core_elements_root; auto.
    - pose proof (core_chunk_count (TContainer fs)) as HC. cbn [core] in HC.
      cbn [core core_val spec_root valid] in *. rewrite HC. f_equal. rewrite Forall2_fun_map in HT. rewrite map_map. clear HC.
      revert l HT. induction fs as [|f fs IH]; intros l HT; inversion HT; subst; [reflexivity|].
      inversion H0; subst. cbn [map combine fst snd]. f_equal; [|apply IH; auto]. auto.
    - cbn [core core_val spec_root valid] in *. auto.
    - cbn [core core_val spec_root valid] in *. change (N.to_nat 1) with 1%nat. cbn [nth_error map option_map].
      rewrite IHt by auto. reflexivity.
    - apply valid_variant in HT as (u & EN & HT). cbn [core core_val spec_root].
      rewrite !nth_error_map, EN. cbn [option_map].
      rewrite Forall_forall in H0. apply nth_error_In in EN. f_equal. apply (H0 _ EN). auto.
    - cbn [core core_val spec_root valid] in *. rewrite !nth_error_map in *.
      destruct (nth_error ts (N.to_nat i)) as [u|] eqn:EN; cbn [option_map] in *; auto.
      rewrite Forall_forall in H0. apply nth_error_In in EN. apply (H0 _ EN). auto.
  Qed.
End Hash.
