(** Proofs about parts of parts. *)
From Coq Require Import String List NArith ZArith Bool Lia ZifyBool ZifyNat ZifyN.
From Coq Require Import Strings.Byte.
From Verif Require Import Prelude Types Bitvec Ser De Impls Merkleize Proofs MerkImpls Multiproofs Valid SpecSer SpecMerkle SpecMulti
  SpecPack SpecProve SpecFound SpecTree SpecBeside SpecJoin Lib SerProof SerSpec RoundTrip BitsLib ChunkLib MerkProof TreeProof RootProof GindexProof ProveProof LeafProof BindProof
  PackProof PackGindex PackProve ProbeProof FoundProof ValueTree BesideProof.
Import ListNotations.
Open Scope N_scope.
Ltac Zify.zify_post_hook ::= Z.div_mod_to_equations.

Lemma graft_assoc a b c : 1 <= b -> 1 <= c -> graft a (graft b c) = graft (graft a b) c.
Proof.
  intros Hb Hc. destruct (log2_split b Hb) as (k & x & -> & Hx & _). destruct (log2_split c Hc) as (m & y & -> & Hy & _).
  rewrite <- graft_pow by auto. f_equal. unfold graft. rewrite log2_pow_add by auto. lia.
Qed.

Section Parts.
  Context (H : bytes -> bytes) (Hlen : forall x, blen (H x) = 32).

  Lemma part_step t v p rest a z : legal t = true -> sized t = true -> valid t v -> counts t = true ->
    part_at t v (p :: rest) = Some (a, z) ->
    exists k pos u x, step_with item_basic t p = Some (k, pos, u) /\ k = 2 ^ N.of_nat (wfull t v) /\
      part_of t v pos = Some (u, x) /\ part_at u x rest = Some (a, z) /\
      forall q, leaf_with H t v (p :: q) = leaf_with H u x q.
  Proof.
    intros HL HR HV HP HE. cbn [part_at] in HE. 
    pose proof (counts_count t HP) as HCi.
    destruct (peel t v) as [r y] eqn:EP.
    destruct (with_peel_facts H t v r y EP HL HR HV) as (A1 & A2 & A3 & A4 & A5 & A6 & A7).
    assert (HFD : forall n, spec_decoration r y = Some n -> 2 * width (chunk_count_with packed t) = 2 ^ N.of_nat (wfull t v)).
    { intros n En. unfold wfull, full_depth. rewrite <- A6, En, pow2_S. unfold wdepth. rewrite tree_depth_width. reflexivity. }
    assert (HFN : spec_decoration r y = None -> width (chunk_count_with packed t) = 2 ^ N.of_nat (wfull t v)).
    { intros En. unfold wfull, full_depth. rewrite <- A6, En. unfold wdepth. rewrite tree_depth_width. reflexivity. }
    assert (HCC : chunk_count_with packed t = chunk_count_with item_basic r).
    { rewrite A1, with_resolve_chunk_count. exact HCi. }
    assert (HSeq : forall u n l i, p = Index i -> blen l <= n -> 
              (forall j, part_of r y j = if item_basic u then None else option_map (pair u) (nth_error l (N.to_nat j))) ->
              (if item_basic u then None
               else match nth_error l (N.to_nat i) with
                    | Some x => part_at u x rest
                    | None => None
                    end) = Some (a, z) ->
              i < n /\ item_basic u = false /\ exists x, nth_error l (N.to_nat i) = Some x /\ part_of t v (i * item_length_with item_basic u / 32) = Some (u, x) /\ part_at u x rest = Some (a, z)).
    { intros u n l i -> Hl Hp HE'. destruct (item_basic u) eqn:EB; [discriminate|].
      destruct (nth_error l (N.to_nat i)) as [x|] eqn:EN; [|discriminate].
      assert (HI : (N.to_nat i < length l)%nat) by (apply nth_error_Some; congruence).
      split; [unfold blen in Hl; lia|]. split; [reflexivity|]. exists x. split; [reflexivity|]. split; [|exact HE'].
      replace (i * item_length_with item_basic u / 32) with i by (unfold item_length_with; rewrite EB; lia).
      rewrite A7, Hp, EN. reflexivity. }
    destruct r as [| | | |t0 n|t0 n|t0 n|n|n|fs| |t0|vs|ts]; destruct y as [| | |l|bv|l| | |y|c y]; try discriminate HE; no_shape;
      destruct p as [i|name| |]; try discriminate HE.
    all: unfold step_with; cbn [leaf_with]; rewrite <- A1, EP; rewrite <- ?HCi.
    all: cbn [spec_decoration part_of chunk_count_with] in *.
    - destruct (HSeq t0 n l i eq_refl) as (Hi & EB & x & EN & E1 & E2); auto. 1: destruct A2; lia.
      replace (i <? n) with true by lia. do 4 eexists. split; [reflexivity|]. split; [auto; fail|]. split; [exact E1|]. split; [exact E2|].
      intros q. rewrite EB, EN. reflexivity.
    - destruct (HSeq t0 n l i eq_refl) as (Hi & EB & x & EN & E1 & E2); auto. 1: destruct A2; lia.
      replace (i <? n) with true by lia. do 4 eexists. split; [reflexivity|]. split; [auto; fail|]. split; [exact E1|]. split; [exact E2|].
      intros q. rewrite EB, EN. reflexivity.
    - destruct (HSeq t0 n l i eq_refl) as (Hi & EB & x & EN & E1 & E2); auto. 1: destruct A2; lia.
      replace (i <? n) with true by lia. do 4 eexists. split; [reflexivity|]. split; [eauto; fail|]. split; [exact E1|]. split; [exact E2|].
      intros q. rewrite EB, EN. reflexivity.
    - destruct (field_position name fs) as [[pos u]|] eqn:EF; [|discriminate].
      destruct (nth_error l (N.to_nat pos)) as [x|] eqn:EN; [|discriminate].
      apply field_position_lt in EF as [F1 F2].
      do 4 eexists. split; [reflexivity|]. split; [auto; fail|]. split; [rewrite A7, nth_error_combine, nth_error_map, F2, EN; reflexivity|].
      split; [exact HE|]. reflexivity.
    - destruct (i =? 1) eqn:E1; [|discriminate]. replace (i =? 0) with false by lia.
      do 4 eexists. split; [reflexivity|]. split; [rewrite <- (HFD _ eq_refl), HCC; reflexivity|]. split; [rewrite A7; reflexivity|].
      split; [exact HE|]. reflexivity.
    - destruct (i =? c) eqn:E1; [|discriminate]. apply N.eqb_eq in E1. subst c.
      destruct (nth_error vs (N.to_nat i)) as [[u|]|] eqn:EN; try discriminate.
      do 4 eexists. split; [reflexivity|]. split; [rewrite <- (HFD _ eq_refl), HCC; reflexivity|]. split; [rewrite A7; reflexivity|].
      split; [exact HE|]. reflexivity.
  Qed.

  Lemma along_step (P : ty -> bool) t p path k pos u : step_with item_basic t p = Some (k, pos, u) -> along P t (p :: path) = true ->
    P t = true /\ along P u path = true.
  Proof.
    intros ES HA. cbn [along] in HA. apply andb_true_iff in HA as [HP HA]. split; [exact HP|].
    pose proof (step_target item_basic t p) as HT. destruct (spec_step t p) as [[[w' pos'] u']|]; [|congruence].
    destruct HT as (w2 & pos2 & HT). rewrite ES in HT. injection HT as _ _ <-. exact HA.
  Qed.

  (** The nodes below the part are those of its own tree. *)
  Theorem part_at_ok p : forall t v a z q, legal t = true -> sized t = true -> valid t v -> along counts t (p ++ q) = true ->
    part_at t v p = Some (a, z) ->
    legal a = true /\ sized a = true /\ valid a z /\ along counts a q = true /\
    (forall q, leaf_with H t v (p ++ q) = leaf_with H a z q) /\
    exists gp, gindex_with item_basic t p = Some gp /\ 1 <= gp /\
      gindex_with item_basic t (p ++ q) = option_map (graft gp) (gindex_with item_basic a q) /\
      forall s, 2 <= s -> value_node H t v (graft gp s) = value_node H a z s.
  Proof.
    induction p as [|e p IH]; intros t v a z q HL HR HV HA HE.
    { injection HE as <- <-. repeat (split; [auto; fail|]). exists 1. split; [reflexivity|]. split; [lia|].
      assert (G1 : forall s, 1 <= s -> graft 1 s = s).
      { intros s Hs. unfold graft. destruct (N.log2_spec s ltac:(lia)). lia. }
      split.
      - cbn [app]. destruct (gindex_with item_basic t q) as [g|] eqn:EG; [|reflexivity]. cbn [option_map].
        apply with_gindex_from_ge in EG. rewrite G1 by exact EG. reflexivity.
      - intros s Hs. rewrite G1 by lia. reflexivity. }
    cbn [app] in HA. assert (HP : counts t = true) by (cbn [along] in HA; apply andb_true_iff in HA; apply HA).
    destruct (part_step t v e p a z HL HR HV HP HE) as (k & pos & u & x & ES & Ek & EX & HE' & HLf).
    destruct (along_step counts t e (p ++ q) k pos u ES HA) as [_ HA'].
    destruct (part_ok H Hlen [] true t v pos u x HP HL HR HV EX) as [D1 D2 D3 D4 D5 _].
    destruct (IH u x a z q D1 D2 D3 HA' HE') as (B1 & B2 & B3 & B4 & B5 & gp & G1 & G2 & G3 & G4).
    repeat (split; [auto; fail|]). split.
    { intros q'. cbn [app]. rewrite HLf. apply B5. }
    assert (Hpos : pos < 2 ^ N.of_nat (wfull t v)).
    { unfold wfull, full_depth. pose proof (tree_depth_width (chunk_count_with packed t)) as EW. fold (wdepth t) in EW.
      pose proof (width_ge (chunk_count_with packed t)) as HW. rewrite <- (counts_count t HP) in D4.
      destruct (spec_decoration t v); rewrite ?pow2_S; lia. }
    pose proof (pow2_pos (N.of_nat (wfull t v))) as Pf.
    exists (graft (k + pos) gp). unfold gindex_with in *. cbn [app gindex_from_with]. rewrite ES, N.mul_1_l.
    rewrite !(with_gindex_from_graft _ u (k + pos)). unfold gindex_with. rewrite G1, G3. cbn [option_map].
    split; [reflexivity|]. split; [unfold graft; pose proof (pow2_pos (N.log2 gp)); nia|]. split.
    - destruct (gindex_from_with item_basic a 1 q) as [g|] eqn:EG; [|reflexivity]. cbn [option_map]. f_equal.
      apply graft_assoc; [exact G2|]. eapply with_gindex_from_ge; eauto.
    - intros s Hs. rewrite <- graft_assoc by lia. rewrite Ek, (value_part H Hlen t v pos u x); auto.
      unfold graft. destruct (N.log2_spec s ltac:(lia)). assert (2 <= 2 ^ N.log2 s); [|nia].
      change 2 with (2 ^ 1) at 1. apply N.pow_le_mono_r; [lia|]. apply N.log2_le_pow2; lia.
  Qed.

  Lemma part_regular p : forall t v a z, legal t = true -> regular t = true -> valid t v -> part_at t v p = Some (a, z) -> regular a = true.
  Proof.
    induction p as [|e p IH]; intros t v a z HL HR HV HE.
    { assert (a = t) by (cbn [part_at] in HE; congruence). subst a. exact HR. }
    destruct (part_step t v e p a z HL (regular_sized t HR) HV (regular_counts t HR) HE) as (k & pos & u & x & ES & _ & EX & HE' & _).
    destruct (part_ok H Hlen [] true t v pos u x (regular_counts t HR) HL (regular_sized t HR) HV EX) as [D1 D2 D3 _ _ _].
    apply (IH u x a z D1); auto.
    pose proof (step_target item_basic t e) as HT. destruct (spec_step t e) as [[[w' pos'] u']|] eqn:E; [|congruence].
    destruct HT as (w2 & pos2 & HT). rewrite ES in HT. injection HT as _ _ <-. eapply step_regular; eauto.
  Qed.
End Parts.
