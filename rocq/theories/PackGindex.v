(** Generalized indices of every type: those of the specification, with ssz-rs's choice of the
    element types that share a chunk. *)
From Coq Require Import String List NArith ZArith Bool Lia ZifyBool ZifyNat ZifyN.
From Coq Require Import Strings.Byte.
From Verif Require Import Prelude Types Bitvec Ser De Impls Merkleize Proofs MerkImpls Valid SpecSer SpecMerkle
  SpecPack Lib ChunkLib MerkProof TreeProof RootProof GindexProof.
Import ListNotations.
Open Scope N_scope.
Ltac Zify.zify_post_hook ::= Z.div_mod_to_equations.

(** The target of a step does not depend on the choice. *)
Lemma step_target packs t p :
  match spec_step t p with
  | Some (_, _, u) => exists w pos, step_with packs t p = Some (w, pos, u)
  | None => step_with packs t p = None
  end.
Proof.
  unfold spec_step, step_with. generalize (width (spec_chunk_count t)) (width (chunk_count_with packs t)). intros w1 w2.
  destruct (resolve t), p; eauto.
  all: try (destruct (_ <? _); eauto).
  - destruct (field_position _ _) as [[]|]; eauto.
  - destruct (_ =? 0); eauto. destruct (_ =? 1); eauto.
  - destruct (nth_error _ _) as [[]|]; eauto.
Qed.

Lemma with_item_length_pos u : 1 <= item_length_with item_basic u <= 32.
Proof. unfold item_length_with. destruct u; cbn; try lia. destruct w; cbn; lia. Qed.

Lemma with_position_lt u n i : i < n -> i * item_length_with item_basic u / 32 < (n * item_length_with item_basic u + 31) / 32.
Proof.
  intros Hi. pose proof (with_item_length_pos u) as HI. set (k := item_length_with item_basic u) in *.
  assert (i * k + k <= n * k) by nia. lia.
Qed.

Lemma with_resolve_chunk_count t : chunk_count_with item_basic (resolve t) = chunk_count_with item_basic t.
Proof. induction t; auto. Qed.

Lemma with_step_width t p w pos u : step_with item_basic t p = Some (w, pos, u) -> exists k, w = 2 ^ k /\ pos < w.
Proof.
  unfold step_with. intros HS.
  assert (HW : forall c, exists k, width c = 2 ^ k) by (intros c; exists (N.log2_up c); reflexivity).
  assert (HW2 : forall c, exists k, 2 * width c = 2 ^ k)
    by (intros c; exists (N.succ (N.log2_up c)); rewrite N.pow_succ_r'; reflexivity).
  assert (H2 : exists k, 2 = 2 ^ k) by (exists 1; reflexivity).
  set (cc := chunk_count_with item_basic t) in *. pose proof (width_ge cc) as HG.
  assert (HCC : cc = chunk_count_with item_basic (resolve t)) by (symmetry; apply with_resolve_chunk_count).
  destruct (resolve t) eqn:ER; try discriminate HS; destruct p as [i|name| |]; try discriminate HS;
    cbn [chunk_count_with] in HCC;
    repeat match type of HS with
    | (if ?b then _ else _) = _ => destruct b eqn:?; try discriminate HS
    end.
  - triple HS. destruct (HW cc) as [k Hk]. exists k. split; [auto|].
    pose proof (with_position_lt t0 n i ltac:(lia)). lia.
  - triple HS. destruct (HW cc) as [k Hk]. exists k. split; [auto|].
    pose proof (with_position_lt t0 n i ltac:(lia)). lia.
  - triple HS. destruct (HW2 cc) as [k Hk]. exists k. split; [auto|].
    pose proof (with_position_lt t0 n i ltac:(lia)). lia.
  - triple HS. destruct H2 as [k Hk]. exists k. split; [auto|]. lia.
  - triple HS. destruct (HW cc) as [k Hk]. exists k. split; [auto|]. lia.
  - triple HS. destruct (HW2 cc) as [k Hk]. exists k. split; [auto|]. lia.
  - destruct (field_position name fs) as [[q v]|] eqn:EF; [|discriminate HS]. triple HS.
    apply field_position_lt in EF as [EF _]. destruct (HW cc) as [k Hk]. exists k. split; [auto|]. lia.
  - triple HS. destruct H2 as [k Hk]. exists k. split; [auto|]. lia.
  - triple HS. destruct H2 as [k Hk]. exists k. split; [auto|]. lia.
  - triple HS. destruct H2 as [k Hk]. exists k. split; [auto|]. lia.
  - destruct (nth_error vs (N.to_nat i)) as [[v|]|]; [| |discriminate HS]; triple HS;
      (destruct H2 as [k Hk]; exists k; split; [auto|]; lia).
  - triple HS. destruct H2 as [k Hk]. exists k. split; [auto|]. lia.
Qed.

Lemma with_gindex_from_ge path : forall t root g, gindex_from_with item_basic t root path = Some g -> root <= g.
Proof.
  induction path as [|p path IH]; intros t root g; cbn [gindex_from_with].
  - intros [= <-]. lia.
  - destruct (step_with item_basic t p) as [[[w pos] u]|] eqn:E; [|discriminate]. intros Hg. apply IH in Hg.
    apply with_step_width in E as (k & -> & _). pose proof (pow2_pos k). nia.
Qed.

Lemma with_gindex_from_graft path : forall t root,
  gindex_from_with item_basic t root path = option_map (graft root) (gindex_with item_basic t path).
Proof.
  unfold gindex_with. induction path as [|p path IH]; intros t root; cbn [gindex_from_with].
  - cbn [option_map]. rewrite graft_1. reflexivity.
  - destruct (step_with item_basic t p) as [[[w pos] u]|] eqn:E; [|reflexivity].
    apply with_step_width in E as (k & -> & Hpos).
    rewrite (IH u (root * 2 ^ k + pos)), (IH u (1 * 2 ^ k + pos)).
    destruct (gindex_from_with item_basic u 1 path) as [b|] eqn:Eb; [|reflexivity]. cbn [option_map]. f_equal.
    apply with_gindex_from_ge in Eb. destruct (log2_split b Eb) as (m & y & -> & Hy & _).
    rewrite N.mul_1_l. apply graft_pow; auto.
Qed.

Lemma with_gindex_app p : forall t root q, gindex_from_with item_basic t root (p ++ q) =
  match spec_target t p, gindex_from_with item_basic t root p with
  | Some u, Some a => gindex_from_with item_basic u a q
  | _, _ => None
  end.
Proof.
  induction p as [|x p IH]; intros t root q; cbn [spec_target gindex_from_with app]; [reflexivity|].
  pose proof (step_target item_basic t x) as HT.
  destruct (spec_step t x) as [[[? ?] u]|]; [destruct HT as (w & pos & ->)|rewrite HT]; auto.
Qed.

Section Gindex.
  Context (H : bytes -> bytes) (CONTEXT : bytes) (oc : bool).
  Notation S_ := (simple_serialize H CONTEXT oc).

  Lemma with_item_length u : item_length (S_ u) = item_length_with item_basic u.
  Proof. unfold item_length_with. destruct u; try reflexivity. destruct w; reflexivity. Qed.

  Lemma with_gindex_ok path : forall t root g,
    1 <= root -> countable_path item_basic t path = true -> gindex_from_with item_basic t root path = Some g -> g < 2 ^ 64 ->
    compute_generalized_index (S_ t) root path = Ok g.
  Proof.
    induction path as [|p path IH]; intros t root g Hr HA Hg Hlt.
    { cbn [gindex_from_with] in Hg. injection Hg as <-. clear HA.
      induction t using ty_ind'; try reflexivity. exact IHt. }
    cbn [countable_path gindex_from_with] in *. apply andb_true_iff in HA as [HA HA'].
    destruct (step_with item_basic t p) as [[[w pos] u]|] eqn:ES; [|discriminate].
    pose proof (with_step_width _ _ _ _ _ ES) as (k & Hw & Hpos).
    pose proof (with_gindex_from_ge _ _ _ _ Hg) as HG.
    assert (IH' : compute_generalized_index (S_ u) (root * w + pos) path = Ok g).
    { apply IH; auto. subst w. pose proof (pow2_pos k). nia. }
    assert (Hw1 : 1 <= w) by (rewrite Hw; pose proof (pow2_pos k); lia). clear IH Hw k. assert (HU : USIZE = 2 ^ 64) by reflexivity. clear Hg HA'.
    revert ES. unfold step_with, countable in *. rewrite <- with_resolve_chunk_count.
    assert (HT : compute_generalized_index (S_ t) root (p :: path) =
                 compute_generalized_index (S_ (resolve t)) root (p :: path)).
    { clear. induction t using ty_ind'; try reflexivity. exact IHt. }
    rewrite HT. clear HT. destruct (resolve t) as [| | | |e n|e n|e n|n|n|fs| |e|vs|ts];
      destruct p as [i|name| |]; try discriminate; cbn [chunk_count_with];
      try (destruct (N.ltb_spec i n) as [Hi|]; [|discriminate]).
    - (* vector *)
      (let HS := fresh in intros HS; triple HS). 
      pose proof (with_item_length e) as HI.
      cbn [simple_serialize vector_m compute_generalized_index]. unfold vector_compute_generalized_index.
      replace (n <=? i) with false by lia. unfold seq_chunk_count, get_power_of_two_ceil. rewrite HI.
      set (k0 := item_length_with item_basic e) in *.
      pose proof (width_pos ((n * k0 + 31) / 32)) as HW.
      rewrite umul_ok by nia. cbn [bind]. rewrite umul_ok by lia. cbn [bind].
      rewrite uadd_ok by lia. cbn [bind]. rewrite next_power_of_two_width by nia. cbn [bind].
      rewrite umul_ok by lia. cbn [bind]. rewrite uadd_ok by lia. cbn [bind]. exact IH'.
    - (* array *)
      (let HS := fresh in intros HS; triple HS). 
      pose proof (with_item_length e) as HI.
      cbn [simple_serialize array_m compute_generalized_index]. unfold vector_compute_generalized_index.
      replace (n <=? i) with false by lia. unfold seq_chunk_count, get_power_of_two_ceil. rewrite HI.
      set (k0 := item_length_with item_basic e) in *.
      pose proof (width_pos ((n * k0 + 31) / 32)) as HW.
      rewrite umul_ok by nia. cbn [bind]. rewrite umul_ok by lia. cbn [bind].
      rewrite uadd_ok by lia. cbn [bind]. rewrite next_power_of_two_width by nia. cbn [bind].
      rewrite umul_ok by lia. cbn [bind]. rewrite uadd_ok by lia. cbn [bind]. exact IH'.
    - (* list *)
      (let HS := fresh in intros HS; triple HS). 
      pose proof (with_item_length e) as HI.
      cbn [simple_serialize list_m compute_generalized_index]. unfold list_compute_generalized_index.
      replace (n <=? i) with false by lia. unfold seq_chunk_count, get_power_of_two_ceil. rewrite HI.
      set (k0 := item_length_with item_basic e) in *.
      pose proof (width_pos ((n * k0 + 31) / 32)) as HW.
      rewrite umul_ok by nia. cbn [bind]. rewrite umul_ok by nia. cbn [bind].
      rewrite umul_ok by lia. cbn [bind].
      rewrite uadd_ok by lia. cbn [bind]. rewrite next_power_of_two_width by nia. cbn [bind].
      rewrite umul_ok by lia. cbn [bind]. rewrite uadd_ok by lia. cbn [bind].
      rewrite <- IH'. f_equal. lia.
    - (* list length *)
      (let HS := fresh in intros HS; triple HS).
      cbn [simple_serialize list_m compute_generalized_index]. unfold list_compute_generalized_index.
      cbn [simple_serialize uint_m compute_generalized_index] in IH'.
      unfold default_compute_generalized_index in IH'. destruct path; [|discriminate].
      rewrite umul_ok by lia. cbn [bind]. rewrite uadd_ok by lia. cbn [bind]. exact IH'.
    - (* bitvector *)
      (let HS := fresh in intros HS; triple HS).
      cbn [simple_serialize bitvector_m compute_generalized_index]. unfold bitvector_compute_generalized_index.
      replace (n <=? i) with false by lia. unfold get_power_of_two_ceil. rewrite bits_chunk_count_eq.
      pose proof (width_pos ((n + 255) / 256)) as HW.
      rewrite next_power_of_two_width by nia. cbn [bind].
      rewrite umul_ok by lia. cbn [bind]. rewrite uadd_ok by lia. cbn [bind]. exact IH'.
    - (* bitlist *)
      (let HS := fresh in intros HS; triple HS).
      cbn [simple_serialize bitlist_m compute_generalized_index]. unfold bitlist_compute_generalized_index.
      replace (n <=? i) with false by lia. unfold get_power_of_two_ceil. rewrite bits_chunk_count_eq.
      pose proof (width_pos ((n + 255) / 256)) as HW.
      rewrite umul_ok by nia. cbn [bind].
      rewrite next_power_of_two_width by nia. cbn [bind].
      rewrite umul_ok by lia. cbn [bind]. rewrite uadd_ok by lia. cbn [bind].
      cbn [bind]. replace (root * 2 * width ((n + 255) / 256) + i / 256) with (root * (2 * width ((n + 255) / 256)) + i / 256) by lia.
      exact IH'.
    - (* container *)
      destruct (field_position name fs) as [[q v]|] eqn:EF; [|discriminate]. (let HS := fresh in intros HS; triple HS).
      cbn [simple_serialize container_m compute_generalized_index]. unfold container_compute_generalized_index.
      rewrite by_field_spec, EF. unfold get_power_of_two_ceil. rewrite blen_map.
      pose proof (width_pos (blen fs)) as HW.
      rewrite next_power_of_two_width by nia. cbn [bind].
      rewrite umul_ok by lia. cbn [bind]. rewrite uadd_ok by lia. cbn [bind]. exact IH'.
    - (* option *)
      cbn [simple_serialize option_m compute_generalized_index]. unfold option_compute_generalized_index.
      destruct (N.eqb_spec i 0) as [->|].
      + (let HS := fresh in intros HS; triple HS). cbn [N.leb N.compare]. change (2 <=? 0) with false. cbv iota.
        rewrite umul_ok by lia. cbn [bind].
        cbn [simple_serialize bool_m compute_generalized_index] in IH'.
        unfold default_compute_generalized_index in IH'. unfold none_generalized_index.
        destruct path; [|discriminate]. rewrite <- IH'. f_equal. lia.
      + destruct (N.eqb_spec i 1) as [->|]; [|discriminate]. (let HS := fresh in intros HS; triple HS).
        change (2 <=? 1) with false. cbv iota. rewrite umul_ok by lia. cbn [bind].
        change (1 =? 0) with false. change (1 =? 1) with true. cbv iota. rewrite <- IH'. f_equal. lia.
    - (* option selector *)
      (let HS := fresh in intros HS; triple HS).
      cbn [simple_serialize option_m compute_generalized_index]. unfold option_compute_generalized_index.
      cbn [simple_serialize uint_m compute_generalized_index] in IH'.
      unfold default_compute_generalized_index in IH'. unfold selector_generalized_index. destruct path; [|discriminate].
      rewrite umul_ok by lia. cbn [bind]. rewrite uadd_ok by lia. cbn [bind]. exact IH'.
    - (* union *)
      cbn [simple_serialize union_m compute_generalized_index]. unfold union_compute_generalized_index.
      rewrite blen_map, nth_error_map. intros HS.
      assert (Hi : i < blen vs).
      { unfold blen. destruct (nth_error vs (N.to_nat i)) eqn:E; [|discriminate].
        assert (N.to_nat i < length vs)%nat by (apply nth_error_Some; congruence). lia. }
      replace (blen vs <=? i) with false by lia.
      destruct (nth_error vs (N.to_nat i)) as [[v|]|]; [| |discriminate]; triple HS; cbn [option_map];
        (rewrite umul_ok by lia); cbn [bind].
      + rewrite <- IH'. f_equal. lia.
      + cbn [simple_serialize bool_m compute_generalized_index] in IH'.
        unfold default_compute_generalized_index in IH'. unfold none_generalized_index.
        destruct path; [|discriminate]. rewrite <- IH'. f_equal. lia.
    - (* union selector *)
      (let HS := fresh in intros HS; triple HS).
      cbn [simple_serialize union_m compute_generalized_index]. unfold union_compute_generalized_index.
      cbn [simple_serialize uint_m compute_generalized_index] in IH'.
      unfold default_compute_generalized_index in IH'. unfold selector_generalized_index. destruct path; [|discriminate].
      rewrite umul_ok by lia. cbn [bind]. rewrite uadd_ok by lia. cbn [bind]. exact IH'.
  Qed.
End Gindex.

Lemma countable_path_app packs p : forall t q, countable_path packs t (p ++ q) = true ->
  countable_path packs t p = true /\ (forall u, spec_target t p = Some u -> countable_path packs u q = true).
Proof.
  induction p as [|x p IH]; intros t q HA; cbn [countable_path spec_target app] in *.
  - split; [reflexivity|]. intros u [= <-]. auto.
  - apply andb_true_iff in HA as [HA1 HA2]. rewrite HA1. cbn [andb].
    pose proof (step_target packs t x) as HT.
    destruct (spec_step t x) as [[[? ?] u]|]; [destruct HT as (w & pos & HT)|]; rewrite HT in *; [auto|].
    split; [reflexivity|discriminate].
Qed.

(** ** Builds with overflow checks: what a result says *)

Lemma umul_checked {E} a b c : @umul E true a b = Ok c -> c = a * b /\ c < USIZE.
Proof. unfold umul. destruct (N.ltb_spec (a * b) USIZE); [|discriminate]. intros [= <-]. auto. Qed.

Lemma uadd_checked {E} a b c : @uadd E true a b = Ok c -> c = a + b /\ c < USIZE.
Proof. unfold uadd. destruct (N.ltb_spec (a + b) USIZE); [|discriminate]. intros [= <-]. auto. Qed.

Lemma ceil_checked x c : get_power_of_two_ceil true x = Ok c -> c = width x /\ c < USIZE.
Proof.
  unfold get_power_of_two_ceil, next_power_of_two. rewrite next_pow2_width.
  destruct (N.ltb_spec (width x) USIZE); [|discriminate]. intros [= <-]. auto.
Qed.

Ltac take HS :=
  repeat match type of HS with
  | bind ?r _ = Ok _ =>
      let E := fresh "E" in destruct r eqn:E; cbn [bind] in HS; [|discriminate HS|discriminate HS];
      first [apply umul_checked in E as [-> E] | apply uadd_checked in E as [-> E] | apply ceil_checked in E as [-> E] | idtac]
  end.

Section Checked.
  Context (H : bytes -> bytes) (CONTEXT : bytes).
  Notation S_ := (simple_serialize H CONTEXT true).

  Lemma seq_count_checked u n c : seq_chunk_count true (S_ u) n = Ok c ->
    c = (n * item_length_with item_basic u + 31) / 32 /\ n * item_length_with item_basic u + 31 < USIZE.
  Proof.
    unfold seq_chunk_count. rewrite with_item_length. intros HS. take HS. injection HS as <-. auto.
  Qed.

  Lemma gindex_checked path : forall t root g, root < USIZE ->
    along (fun u => negb (is_transparent (resolve u))) t path = true ->
    compute_generalized_index (S_ t) root path = Ok g ->
    countable_path item_basic t path = true /\ gindex_from_with item_basic t root path = Some g /\ g < USIZE.
  Proof.
    induction path as [|p path IH]; intros t root g Hr HA Hg.
    { assert (E : compute_generalized_index (S_ t) root [] = Ok root).
      { clear. induction t using ty_ind'; try reflexivity. exact IHt. }
      rewrite E in Hg. injection Hg as <-. split; [reflexivity|]. split; [reflexivity|exact Hr]. }
    cbn [along countable_path gindex_from_with] in *. apply andb_true_iff in HA as [HA HA'].
    assert (HT : compute_generalized_index (S_ t) root (p :: path) =
                 compute_generalized_index (S_ (resolve t)) root (p :: path)).
    { clear. induction t using ty_ind'; try reflexivity. exact IHt. }
    rewrite HT in Hg. clear HT.
    assert (IH' : forall w pos u, step_with item_basic t p = Some (w, pos, u) ->
      root * w + pos < USIZE -> compute_generalized_index (S_ u) (root * w + pos) path = Ok g ->
      countable item_basic t p = true ->
      countable item_basic t p && match step_with item_basic t p with Some (_, _, u0) => countable_path item_basic u0 path | None => true end = true /\
      match step_with item_basic t p with
      | Some (w, pos, u) => gindex_from_with item_basic u (root * w + pos) path
      | None => None
      end = Some g /\ g < USIZE).
    { intros w pos u ES Hw HS HC. rewrite HC, ES. cbn [andb].
      pose proof (step_target item_basic t p) as HT. rewrite ES in HT.
      destruct (spec_step t p) as [[[? ?] u']|]; [|discriminate HT]. destruct HT as (? & ? & [= _ _ <-]).
      apply IH; auto. }
    clear IH HA'. revert IH'. unfold countable at 1. unfold step_with at 1. rewrite <- with_resolve_chunk_count.
    destruct (resolve t) as [| | | |e n|e n|e n|n|n|fs|nt|e|vs|ts] eqn:ER; try discriminate HA;
      try (exfalso; exact (resolve_not_newtype _ _ ER));
      destruct p as [i|name| |]; intros IH; try discriminate Hg; revert Hg;
      cbn [simple_serialize vector_m array_m list_m bitvector_m bitlist_m container_m option_m union_m
              compute_generalized_index];
      unfold vector_compute_generalized_index, list_compute_generalized_index, bitvector_compute_generalized_index,
        bitlist_compute_generalized_index, container_compute_generalized_index, option_compute_generalized_index,
        union_compute_generalized_index, selector_generalized_index, none_generalized_index;
      cbn [chunk_count_with] in IH; intros Hg; try discriminate Hg.
    - destruct (N.leb_spec n i); [discriminate Hg|]. replace (i <? n) with true in IH by lia.
      take Hg. rewrite with_item_length in *. apply seq_count_checked in E0 as [-> E0].
      eapply IH; [reflexivity|lia|exact Hg|]. change (2 ^ 64) with USIZE. lia.
    - destruct (N.leb_spec n i); [discriminate Hg|]. replace (i <? n) with true in IH by lia.
      take Hg. rewrite with_item_length in *. apply seq_count_checked in E0 as [-> E0].
      eapply IH; [reflexivity|lia|exact Hg|]. change (2 ^ 64) with USIZE. lia.
    - destruct (N.leb_spec n i); [discriminate Hg|]. replace (i <? n) with true in IH by lia.
      take Hg. rewrite with_item_length in *. apply seq_count_checked in E1 as [-> E1].
      eapply IH; [reflexivity|rewrite N.mul_assoc; lia|rewrite N.mul_assoc; exact Hg|]. change (2 ^ 64) with USIZE. lia.
    - destruct path; [|discriminate Hg]. take Hg. apply uadd_checked in Hg as [-> Hg].
      eapply IH; [reflexivity|lia|reflexivity|reflexivity].
    - destruct (N.leb_spec n i); [discriminate Hg|]. replace (i <? n) with true in IH by lia.
      rewrite bits_chunk_count_eq in Hg. take Hg.
      eapply IH; [reflexivity|lia|exact Hg|reflexivity].
    - destruct (N.leb_spec n i); [discriminate Hg|]. replace (i <? n) with true in IH by lia.
      rewrite bits_chunk_count_eq in Hg. take Hg.
      eapply IH; [reflexivity|rewrite N.mul_assoc; lia|rewrite N.mul_assoc; exact Hg|reflexivity].
    - rewrite by_field_spec in Hg. destruct (field_position name fs) as [[q u]|]; [|discriminate Hg].
      rewrite blen_map in Hg. take Hg. rewrite N.add_0_l in *.
      eapply IH; [reflexivity|lia|exact Hg|reflexivity].
    - destruct (N.leb_spec 2 i); [discriminate Hg|]. take Hg.
      destruct (N.eqb_spec i 0) as [->|].
      + destruct path; [|discriminate Hg]. injection Hg as <-.
        eapply IH; [reflexivity|lia|rewrite N.add_0_r; reflexivity|reflexivity].
      + destruct (N.eqb_spec i 1) as [->|]; [|lia].
        eapply IH; [reflexivity|lia|rewrite N.add_0_r; exact Hg|reflexivity].
    - destruct path; [|discriminate Hg]. take Hg. apply uadd_checked in Hg as [-> Hg].
      eapply IH; [reflexivity|lia|reflexivity|reflexivity].
    - rewrite blen_map, nth_error_map in Hg. destruct (N.leb_spec (blen vs) i); [discriminate Hg|].
      take Hg. destruct (nth_error vs (N.to_nat i)) as [[u|]|] eqn:EN; cbn [option_map] in Hg; [| |discriminate Hg].
      + eapply IH; [reflexivity|lia|rewrite N.add_0_r; exact Hg|reflexivity].
      + destruct path; [|discriminate Hg]. injection Hg as <-.
        eapply IH; [reflexivity|lia|rewrite N.add_0_r; reflexivity|reflexivity].
    - destruct path; [|discriminate Hg]. take Hg. apply uadd_checked in Hg as [-> Hg].
      eapply IH; [reflexivity|lia|reflexivity|reflexivity].
  Qed.
End Checked.
