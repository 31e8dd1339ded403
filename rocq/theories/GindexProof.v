(** Generalized indices against the specification. *)
From Coq Require Import String List NArith ZArith Bool Lia ZifyBool ZifyNat ZifyN.
From Coq Require Import Strings.Byte.
From Verif Require Import Prelude Types Bitvec Ser De Impls Merkleize Proofs MerkImpls Valid SpecSer SpecMerkle
  Lib ChunkLib MerkProof TreeProof RootProof.
Import ListNotations.
Open Scope N_scope.
Ltac Zify.zify_post_hook ::= Z.div_mod_to_equations.

Ltac triple HS :=
  match type of HS with
  | Some (?a, ?b, ?c) = Some (?x, ?y, ?z) =>
      let E1 := fresh in let E2 := fresh in let E3 := fresh in
      assert (E1 : x = a) by congruence; assert (E2 : y = b) by congruence; assert (E3 : z = c) by congruence;
      clear HS; subst x y z
  end.

Lemma width_pos n : 1 <= width n.
Proof. unfold width. pose proof (pow2_pos (N.log2_up n)). lia. Qed.

Lemma item_length_pos u : 1 <= spec_item_length u <= 32.
Proof. unfold spec_item_length. destruct (spec_basic u) eqn:E; [apply basic_size; auto|lia]. Qed.

Lemma position_lt u n i : i < n -> i * spec_item_length u / 32 < (n * spec_item_length u + 31) / 32.
Proof.
  intros Hi. pose proof (item_length_pos u) as HI. set (k := spec_item_length u) in *.
  assert (i * k + k <= n * k) by nia. lia.
Qed.

Lemma field_position_lt {A} name (fs : list (string * A)) pos a :
  field_position name fs = Some (pos, a) ->
  pos < blen fs /\ nth_error fs (N.to_nat pos) = Some (name, a).
Proof.
  revert pos; induction fs as [|[n x] fs IH]; intros pos; cbn [field_position]; [discriminate|].
  destruct (String.eqb_spec name n) as [->|].
  - intros [= <- <-]. rewrite blen_cons. split; [lia|reflexivity].
  - destruct (field_position name fs) as [[p b]|]; [|discriminate]. cbn [option_map fst snd].
    intros HE. assert (pos = 1 + p /\ a = b) as [-> ->] by (split; congruence). clear HE.
    destruct (IH p eq_refl) as [I1 I2]. rewrite blen_cons. split; [lia|].
    replace (N.to_nat (1 + p)) with (S (N.to_nat p)) by lia. exact I2.
Qed.

Lemma resolve_chunk_count t : spec_chunk_count (resolve t) = spec_chunk_count t.
Proof. induction t; auto. Qed.

Lemma resolve_not_newtype t u : resolve t <> TNewtype u.
Proof. induction t; cbn [resolve]; auto; discriminate. Qed.

(** Steps multiply by a power of two and stay below it. *)
Lemma spec_step_width t p w pos u : spec_step t p = Some (w, pos, u) -> exists k, w = 2 ^ k /\ pos < w.
Proof.
  unfold spec_step. intros HS.
  assert (HW : forall c, exists k, width c = 2 ^ k) by (intros c; exists (N.log2_up c); reflexivity).
  assert (HW2 : forall c, exists k, 2 * width c = 2 ^ k)
    by (intros c; exists (N.succ (N.log2_up c)); rewrite N.pow_succ_r'; reflexivity).
  assert (H2 : exists k, 2 = 2 ^ k) by (exists 1; reflexivity).
  set (cc := spec_chunk_count t) in *. pose proof (width_ge cc) as HG.
  assert (HCC : cc = spec_chunk_count (resolve t)) by (symmetry; apply resolve_chunk_count).
  destruct (resolve t) eqn:ER; try discriminate HS; destruct p as [i|name| |]; try discriminate HS;
    cbn [spec_chunk_count] in HCC;
    repeat match type of HS with
    | (if ?b then _ else _) = _ => destruct b eqn:?; try discriminate HS
    end.
  - triple HS. destruct (HW cc) as [k Hk]. exists k. split; [auto|].
    pose proof (position_lt t0 n i ltac:(lia)). lia.
  - triple HS. destruct (HW cc) as [k Hk]. exists k. split; [auto|].
    pose proof (position_lt t0 n i ltac:(lia)). lia.
  - triple HS. destruct (HW2 cc) as [k Hk]. exists k. split; [auto|].
    pose proof (position_lt t0 n i ltac:(lia)). lia.
  - triple HS. destruct H2 as [k Hk]. exists k. split; [auto|]. lia.
  - triple HS. destruct (HW cc) as [k Hk]. exists k. split; [auto|]. lia.
  - triple HS. destruct (HW2 cc) as [k Hk]. exists k. split; [auto|]. lia.
  - destruct (field_position name fs) as [[q v]|] eqn:EF; [|discriminate HS]. triple HS.
    apply field_position_lt in EF as [EF _]. destruct (HW cc) as [k Hk]. exists k. split; [auto|]. lia.
  - triple HS. destruct H2 as [k Hk]. exists k. split; [auto|]. lia.
  - triple HS. destruct H2 as [k Hk]. exists k. split; [auto|]. lia.
  - triple HS. destruct H2 as [k Hk]. exists k. split; [auto|]. lia.
  - destruct (nth_error vs (N.to_nat i)) as [[v|]|]; [| |discriminate HS]; triple HS;
      (destruct H2 as [k Hk]; exists k; split; [auto|]; lia).
  - triple HS. destruct H2 as [k Hk]. exists k. split; [auto|]. lia.
Qed.

Lemma gindex_from_ge path : forall t root g, spec_gindex_from t root path = Some g -> root <= g.
Proof.
  induction path as [|p path IH]; intros t root g; cbn [spec_gindex_from].
  - intros [= <-]. lia.
  - destruct (spec_step t p) as [[[w pos] u]|] eqn:E; [|discriminate]. intros Hg. apply IH in Hg.
    apply spec_step_width in E as (k & -> & _). pose proof (pow2_pos k). nia.
Qed.

(** ** Nesting *)

Lemma graft_pow k x m y a : x < 2 ^ k -> y < 2 ^ m ->
  graft (a * 2 ^ k + x) (2 ^ m + y) = graft a (graft (2 ^ k + x) (2 ^ m + y)).
Proof.
  intros Hx Hy. unfold graft. rewrite (log2_pow_add m) by auto.
  assert (E : (2 ^ k + x) * 2 ^ m + (2 ^ m + y - 2 ^ m) = 2 ^ (k + m) + (x * 2 ^ m + y))
    by (rewrite N.pow_add_r; lia).
  rewrite E. rewrite log2_pow_add.
  - rewrite N.pow_add_r. nia.
  - rewrite N.pow_add_r. nia.
Qed.

Lemma graft_1 a : graft a 1 = a.
Proof. unfold graft. cbn. lia. Qed.

Lemma gindex_from_graft path : forall t root,
  spec_gindex_from t root path = option_map (graft root) (spec_gindex t path).
Proof.
  unfold spec_gindex. induction path as [|p path IH]; intros t root; cbn [spec_gindex_from].
  - cbn [option_map]. rewrite graft_1. reflexivity.
  - destruct (spec_step t p) as [[[w pos] u]|] eqn:E; [|reflexivity].
    apply spec_step_width in E as (k & -> & Hpos).
    rewrite (IH u (root * 2 ^ k + pos)), (IH u (1 * 2 ^ k + pos)).
    destruct (spec_gindex_from u 1 path) as [b|] eqn:Eb; [|reflexivity]. cbn [option_map]. f_equal.
    apply gindex_from_ge in Eb. destruct (log2_split b Eb) as (m & y & -> & Hy & _).
    rewrite N.mul_1_l. apply graft_pow; auto.
Qed.

Lemma spec_target_app p : forall t q, spec_target t (p ++ q) =
  match spec_target t p with Some u => spec_target u q | None => None end.
Proof.
  induction p as [|x p IH]; intros t q; cbn [spec_target app]; [reflexivity|].
  destruct (spec_step t x) as [[[w pos] u]|]; auto.
Qed.

Lemma gindex_app p : forall t root q, spec_gindex_from t root (p ++ q) =
  match spec_target t p, spec_gindex_from t root p with
  | Some u, Some a => spec_gindex_from u a q
  | _, _ => None
  end.
Proof.
  induction p as [|x p IH]; intros t root q; cbn [spec_target spec_gindex_from app]; [reflexivity|].
  destruct (spec_step t x) as [[[w pos] u]|]; auto.
Qed.

Lemma along_app f p : forall t q, along f t (p ++ q) = true ->
  along f t p = true /\ (forall u, spec_target t p = Some u -> along f u q = true).
Proof.
  induction p as [|x p IH]; intros t q HA; cbn [along spec_target app] in *.
  - split; [reflexivity|]. intros u [= <-]. auto.
  - apply andb_true_iff in HA as [HA1 HA2]. rewrite HA1. cbn [andb].
    destruct (spec_step t x) as [[[w pos] u]|]; [auto|]. split; [reflexivity|discriminate].
Qed.

Lemma graft_parent a b : 1 <= b -> graft a b / 2 ^ N.log2 b = a.
Proof.
  intros Hb. destruct (log2_split b Hb) as (m & y & -> & Hy & E). unfold graft. rewrite E.
  symmetry. apply N.div_unique with (r := 2 ^ m + y - 2 ^ m); lia.
Qed.

(** ** The model *)

Lemma next_power_of_two_width {E} oc x : width x < USIZE -> @next_power_of_two E oc x = Ok (width x).
Proof.
  intros Hx. unfold next_power_of_two. rewrite next_pow2_width.
  replace (width x <? USIZE) with true by lia. reflexivity.
Qed.

Section Gindex.
  Context (H : bytes -> bytes) (CONTEXT : bytes) (oc : bool).
  Notation S_ := (simple_serialize H CONTEXT oc).

  Lemma item_length_indexable u :
    negb (spec_basic u && is_newtype u) || (fixed_size u =? 32) = true ->
    item_length (S_ u) = spec_item_length u.
  Proof.
    intros HR. unfold spec_item_length. destruct u; try reflexivity.
    - destruct w; reflexivity.
    - cbn [spec_basic is_newtype fixed_size] in *. destruct (spec_basic u); [|reflexivity].
      cbn [andb negb orb] in HR. cbn [simple_serialize newtype_m item_length].
      unfold default_item_length, BYTES_PER_CHUNK. lia.
  Qed.

  Lemma by_field_spec parent rest name : forall fs count i,
    by_field oc count i (map (fun f => (fst f, S_ (snd f))) fs) parent rest name =
    match field_position name fs with
    | Some (pos, u) =>
        do ceil <- get_power_of_two_ceil oc count;
        do a <- umul oc parent ceil;
        do child <- uadd oc a (i + pos);
        compute_generalized_index (S_ u) child rest
    | None => Err (InvalidPathElement (Field name))
    end.
  Proof.
    induction fs as [|[n u] fs IH]; intros count i; cbn [map by_field field_position fst snd]; [reflexivity|].
    destruct (String.eqb_spec name n) as [->|].
    - rewrite N.add_0_r. reflexivity.
    - rewrite IH. destruct (field_position name fs) as [[pos v]|]; cbn [option_map fst snd]; [|reflexivity].
      replace (i + 1 + pos) with (i + (1 + pos)) by lia. reflexivity.
  Qed.

  (** The index that the model computes, when nothing overflows. *)
  Lemma gindex_ok path : forall t root g,
    1 <= root -> along indexable t path = true -> spec_gindex_from t root path = Some g -> g < 2 ^ 64 ->
    compute_generalized_index (S_ t) root path = Ok g.
  Proof.
    induction path as [|p path IH]; intros t root g Hr HA Hg Hlt.
    { cbn [spec_gindex_from] in Hg. injection Hg as <-. clear HA.
      induction t using ty_ind'; try reflexivity. exact IHt. }
    cbn [along spec_gindex_from] in *. apply andb_true_iff in HA as [HA HA'].
    destruct (spec_step t p) as [[[w pos] u]|] eqn:ES; [|discriminate].
    pose proof (spec_step_width _ _ _ _ _ ES) as (k & Hw & Hpos).
    pose proof (gindex_from_ge _ _ _ _ Hg) as HG.
    assert (IH' : compute_generalized_index (S_ u) (root * w + pos) path = Ok g).
    { apply IH; auto. subst w. pose proof (pow2_pos k). nia. }
    assert (Hw1 : 1 <= w) by (rewrite Hw; pose proof (pow2_pos k); lia). clear IH Hw k. assert (HU : USIZE = 2 ^ 64) by reflexivity. clear Hg HA'.
    revert ES. unfold spec_step, indexable in *. rewrite <- resolve_chunk_count.
    assert (HT : compute_generalized_index (S_ t) root (p :: path) =
                 compute_generalized_index (S_ (resolve t)) root (p :: path)).
    { clear. induction t using ty_ind'; try reflexivity. exact IHt. }
    rewrite HT. clear HT. destruct (resolve t) as [| | | |e n|e n|e n|n|n|fs| |e|vs|ts];
      destruct p as [i|name| |]; try discriminate; cbn [spec_chunk_count];
      try (destruct (N.ltb_spec i n) as [Hi|]; [|discriminate]).
    - (* vector *)
      (let HS := fresh in intros HS; triple HS). apply andb_true_iff in HA as [HA1 HA2].
      pose proof (item_length_indexable _ HA1) as HI.
      cbn [simple_serialize vector_m compute_generalized_index]. unfold vector_compute_generalized_index.
      replace (n <=? i) with false by lia. unfold seq_chunk_count, get_power_of_two_ceil. rewrite HI.
      set (k0 := spec_item_length e) in *.
      pose proof (width_pos ((n * k0 + 31) / 32)) as HW.
      rewrite umul_ok by nia. cbn [bind]. rewrite umul_ok by lia. cbn [bind].
      rewrite uadd_ok by lia. cbn [bind]. rewrite next_power_of_two_width by nia. cbn [bind].
      rewrite umul_ok by lia. cbn [bind]. rewrite uadd_ok by lia. cbn [bind]. exact IH'.
    - (* array *)
      (let HS := fresh in intros HS; triple HS). apply andb_true_iff in HA as [HA1 HA2].
      pose proof (item_length_indexable _ HA1) as HI.
      cbn [simple_serialize array_m compute_generalized_index]. unfold vector_compute_generalized_index.
      replace (n <=? i) with false by lia. unfold seq_chunk_count, get_power_of_two_ceil. rewrite HI.
      set (k0 := spec_item_length e) in *.
      pose proof (width_pos ((n * k0 + 31) / 32)) as HW.
      rewrite umul_ok by nia. cbn [bind]. rewrite umul_ok by lia. cbn [bind].
      rewrite uadd_ok by lia. cbn [bind]. rewrite next_power_of_two_width by nia. cbn [bind].
      rewrite umul_ok by lia. cbn [bind]. rewrite uadd_ok by lia. cbn [bind]. exact IH'.
    - (* list *)
      (let HS := fresh in intros HS; triple HS). apply andb_true_iff in HA as [HA1 HA2].
      pose proof (item_length_indexable _ HA1) as HI.
      cbn [simple_serialize list_m compute_generalized_index]. unfold list_compute_generalized_index.
      replace (n <=? i) with false by lia. unfold seq_chunk_count, get_power_of_two_ceil. rewrite HI.
      set (k0 := spec_item_length e) in *.
      pose proof (width_pos ((n * k0 + 31) / 32)) as HW.
      rewrite umul_ok by nia. cbn [bind]. rewrite umul_ok by nia. cbn [bind].
      rewrite umul_ok by lia. cbn [bind].
      rewrite uadd_ok by lia. cbn [bind]. rewrite next_power_of_two_width by nia. cbn [bind].
      rewrite umul_ok by lia. cbn [bind]. rewrite uadd_ok by lia. cbn [bind].
      rewrite <- IH'. f_equal. lia.
    - (* list length *)
      (let HS := fresh in intros HS; triple HS).
      cbn [simple_serialize list_m compute_generalized_index]. unfold list_compute_generalized_index.
      cbn [simple_serialize uint_m compute_generalized_index] in IH'.
      unfold default_compute_generalized_index in IH'. destruct path; [|discriminate].
      rewrite umul_ok by lia. cbn [bind]. rewrite uadd_ok by lia. cbn [bind]. exact IH'.
    - (* bitvector *)
      (let HS := fresh in intros HS; triple HS).
      cbn [simple_serialize bitvector_m compute_generalized_index]. unfold bitvector_compute_generalized_index.
      replace (n <=? i) with false by lia. unfold get_power_of_two_ceil. rewrite bits_chunk_count_eq.
      pose proof (width_pos ((n + 255) / 256)) as HW.
      rewrite next_power_of_two_width by nia. cbn [bind].
      rewrite umul_ok by lia. cbn [bind]. rewrite uadd_ok by lia. cbn [bind]. exact IH'.
    - (* bitlist *)
      (let HS := fresh in intros HS; triple HS).
      cbn [simple_serialize bitlist_m compute_generalized_index]. unfold bitlist_compute_generalized_index.
      replace (n <=? i) with false by lia. unfold get_power_of_two_ceil. rewrite bits_chunk_count_eq.
      pose proof (width_pos ((n + 255) / 256)) as HW.
      rewrite umul_ok by nia. cbn [bind].
      rewrite next_power_of_two_width by nia. cbn [bind].
      rewrite umul_ok by lia. cbn [bind]. rewrite uadd_ok by lia. cbn [bind].
      cbn [bind]. replace (root * 2 * width ((n + 255) / 256) + i / 256) with (root * (2 * width ((n + 255) / 256)) + i / 256) by lia.
      exact IH'.
    - (* container *)
      destruct (field_position name fs) as [[q v]|] eqn:EF; [|discriminate]. (let HS := fresh in intros HS; triple HS).
      cbn [simple_serialize container_m compute_generalized_index]. unfold container_compute_generalized_index.
      rewrite by_field_spec, EF. unfold get_power_of_two_ceil. rewrite blen_map.
      pose proof (width_pos (blen fs)) as HW.
      rewrite next_power_of_two_width by nia. cbn [bind].
      rewrite umul_ok by lia. cbn [bind]. rewrite uadd_ok by lia. cbn [bind]. exact IH'.
    - (* option *)
      cbn [simple_serialize option_m compute_generalized_index]. unfold option_compute_generalized_index.
      destruct (N.eqb_spec i 0) as [->|].
      + (let HS := fresh in intros HS; triple HS). cbn [N.leb N.compare]. change (2 <=? 0) with false. cbv iota.
        rewrite umul_ok by lia. cbn [bind].
        cbn [simple_serialize bool_m compute_generalized_index] in IH'.
        unfold default_compute_generalized_index in IH'. unfold none_generalized_index.
        destruct path; [|discriminate]. rewrite <- IH'. f_equal. lia.
      + destruct (N.eqb_spec i 1) as [->|]; [|discriminate]. (let HS := fresh in intros HS; triple HS).
        change (2 <=? 1) with false. cbv iota. rewrite umul_ok by lia. cbn [bind].
        change (1 =? 0) with false. change (1 =? 1) with true. cbv iota. rewrite <- IH'. f_equal. lia.
    - (* option selector *)
      (let HS := fresh in intros HS; triple HS).
      cbn [simple_serialize option_m compute_generalized_index]. unfold option_compute_generalized_index.
      cbn [simple_serialize uint_m compute_generalized_index] in IH'.
      unfold default_compute_generalized_index in IH'. unfold selector_generalized_index. destruct path; [|discriminate].
      rewrite umul_ok by lia. cbn [bind]. rewrite uadd_ok by lia. cbn [bind]. exact IH'.
    - (* union *)
      cbn [simple_serialize union_m compute_generalized_index]. unfold union_compute_generalized_index.
      rewrite blen_map, nth_error_map. intros HS.
      assert (Hi : i < blen vs).
      { unfold blen. destruct (nth_error vs (N.to_nat i)) eqn:E; [|discriminate].
        assert (N.to_nat i < length vs)%nat by (apply nth_error_Some; congruence). lia. }
      replace (blen vs <=? i) with false by lia.
      destruct (nth_error vs (N.to_nat i)) as [[v|]|]; [| |discriminate]; triple HS; cbn [option_map];
        (rewrite umul_ok by lia); cbn [bind].
      + rewrite <- IH'. f_equal. lia.
      + cbn [simple_serialize bool_m compute_generalized_index] in IH'.
        unfold default_compute_generalized_index in IH'. unfold none_generalized_index.
        destruct path; [|discriminate]. rewrite <- IH'. f_equal. lia.
    - (* union selector *)
      (let HS := fresh in intros HS; triple HS).
      cbn [simple_serialize union_m compute_generalized_index]. unfold union_compute_generalized_index.
      cbn [simple_serialize uint_m compute_generalized_index] in IH'.
      unfold default_compute_generalized_index in IH'. unfold selector_generalized_index. destruct path; [|discriminate].
      rewrite umul_ok by lia. cbn [bind]. rewrite uadd_ok by lia. cbn [bind]. exact IH'.
  Qed.

  (** ** Errors *)

  (** A result of index arithmetic that is not an error. *)
  Definition arith {A} (r : mres A) : Prop :=
    match r with Ok _ => True | Err _ => False | Panic p => oc = true /\ p = POverflow end.

  Lemma arith_umul a b : arith (umul oc a b).
  Proof. unfold umul. destruct (_ <? _); [exact I|]. destruct oc eqn:E; cbn; auto. Qed.
  Lemma arith_uadd a b : arith (uadd oc a b).
  Proof. unfold uadd. destruct (_ <? _); [exact I|]. destruct oc eqn:E; cbn; auto. Qed.
  Lemma arith_ceil a : arith (get_power_of_two_ceil oc a).
  Proof. unfold get_power_of_two_ceil, next_power_of_two. destruct (_ <? _); [exact I|]. destruct oc eqn:E; cbn; auto. Qed.

  Definition explained (r : mres N) (e : option MerkleizationError) : Prop :=
    match r with
    | Ok _ => e = None
    | Err x => e = Some x
    | Panic p => oc = true /\ p = POverflow
    end.

  Lemma explained_bind {A} (r : mres A) f e : arith r -> (forall a, explained (f a) e) -> explained (bind r f) e.
  Proof. destruct r; cbn; auto. contradiction. Qed.

  Lemma arith_count e n : arith (seq_chunk_count oc e n).
  Proof.
    unfold seq_chunk_count. pose proof (arith_umul n (item_length e)) as G.
    destruct (umul oc n (item_length e)) as [a| |]; cbn [bind]; auto.
    pose proof (arith_uadd a 31) as G'. destruct (uadd oc a 31); cbn [bind]; auto.
  Qed.

  Lemma gindex_errors path : forall t root,
    along (fun u => negb (is_transparent (resolve u))) t path = true ->
    explained (compute_generalized_index (S_ t) root path) (spec_path_error t path).
  Proof.
    induction path as [|p path IH]; intros t root HA.
    { assert (E : compute_generalized_index (S_ t) root [] = Ok root).
      { clear. induction t using ty_ind'; try reflexivity. exact IHt. }
      rewrite E. reflexivity. }
    cbn [along spec_path_error] in *. apply andb_true_iff in HA as [HA HA'].
    assert (HT : compute_generalized_index (S_ t) root (p :: path) =
                 compute_generalized_index (S_ (resolve t)) root (p :: path)).
    { clear. induction t using ty_ind'; try reflexivity. exact IHt. }
    rewrite HT. clear HT. unfold is_leaf_type.
    assert (IH' : match spec_step t p with
                  | Some (_, _, u) => forall root, explained (compute_generalized_index (S_ u) root path) (spec_path_error u path)
                  | None => True
                  end) by (destruct (spec_step t p) as [[[w pos] u]|]; auto).
    clear IH HA'. revert IH'. unfold spec_step.
    assert (HB : forall t0, is_leaf_type t0 = true ->
      spec_path_error t0 path = match path with [] => None | _ => Some (InvalidPath path) end).
    { intros t0 H0. destruct path; cbn [spec_path_error]; rewrite ?H0; reflexivity. }
    destruct (resolve t) as [| | | |e n|e n|e n|n|n|fs|nt|e|vs|ts] eqn:ER; try discriminate HA;
      try (exfalso; exact (resolve_not_newtype _ _ ER)); clear ER;
      destruct p as [i|name| |]; intros IH; try exact eq_refl.
    all: cbn [simple_serialize vector_m array_m list_m bitvector_m bitlist_m container_m option_m union_m
              compute_generalized_index];
      unfold vector_compute_generalized_index, list_compute_generalized_index, bitvector_compute_generalized_index,
        bitlist_compute_generalized_index, container_compute_generalized_index, option_compute_generalized_index,
        union_compute_generalized_index, selector_generalized_index, none_generalized_index; try exact eq_refl.
    - destruct (N.ltb_spec i n); [replace (n <=? i) with false by lia|replace (n <=? i) with true by lia; reflexivity].
      repeat (apply explained_bind; [first [apply arith_umul|apply arith_uadd|apply arith_ceil|apply arith_count]|intros ?]); auto.
    - destruct (N.ltb_spec i n); [replace (n <=? i) with false by lia|replace (n <=? i) with true by lia; reflexivity].
      repeat (apply explained_bind; [first [apply arith_umul|apply arith_uadd|apply arith_ceil|apply arith_count]|intros ?]); auto.
    - destruct (N.ltb_spec i n); [replace (n <=? i) with false by lia|replace (n <=? i) with true by lia; reflexivity].
      repeat (apply explained_bind; [first [apply arith_umul|apply arith_uadd|apply arith_ceil|apply arith_count]|intros ?]); auto.
    - rewrite HB by reflexivity. destruct path; [|reflexivity].
      apply explained_bind; [apply arith_umul|intros ?]. pose proof (arith_uadd a 1) as G.
      destruct (uadd oc a 1); cbn in *; auto. contradiction.
    - destruct (N.ltb_spec i n); [replace (n <=? i) with false by lia|replace (n <=? i) with true by lia; reflexivity].
      repeat (apply explained_bind; [first [apply arith_umul|apply arith_uadd|apply arith_ceil|apply arith_count]|intros ?]); auto.
    - destruct (N.ltb_spec i n); [replace (n <=? i) with false by lia|replace (n <=? i) with true by lia; reflexivity].
      repeat (apply explained_bind; [first [apply arith_umul|apply arith_uadd|apply arith_ceil|apply arith_count]|intros ?]); auto.
    - rewrite by_field_spec. destruct (field_position name fs) as [[q u]|]; [|reflexivity].
      repeat (apply explained_bind; [first [apply arith_umul|apply arith_uadd|apply arith_ceil|apply arith_count]|intros ?]); auto.
    - destruct (N.eqb_spec i 0) as [->|].
      { change (2 <=? 0) with false. cbv iota. apply explained_bind; [apply arith_umul|intros ?].
        rewrite HB by reflexivity. destruct path; reflexivity. }
      destruct (N.eqb_spec i 1) as [->|].
      { change (2 <=? 1) with false. cbv iota. apply explained_bind; [apply arith_umul|intros ?]. apply IH. }
      replace (2 <=? i) with true by lia. reflexivity.
    - rewrite HB by reflexivity. destruct path; [|reflexivity].
      apply explained_bind; [apply arith_umul|intros ?]. pose proof (arith_uadd a 1) as G.
      destruct (uadd oc a 1); cbn in *; auto. contradiction.
    - rewrite blen_map, nth_error_map.
      destruct (N.leb_spec (blen vs) i) as [Hi|Hi].
      { assert (E : nth_error vs (N.to_nat i) = None) by (apply nth_error_None; unfold blen in Hi; lia).
        rewrite E. reflexivity. }
      destruct (nth_error vs (N.to_nat i)) as [[u|]|] eqn:E; cbn [option_map].
      + apply explained_bind; [apply arith_umul|intros ?]. apply IH.
      + apply explained_bind; [apply arith_umul|intros ?]. rewrite HB by reflexivity. destruct path; reflexivity.
      + apply nth_error_None in E. unfold blen in Hi. lia.
    - rewrite HB by reflexivity. destruct path; [|reflexivity].
      apply explained_bind; [apply arith_umul|intros ?]. pose proof (arith_uadd a 1) as G.
      destruct (uadd oc a 1); cbn in *; auto. contradiction.
  Qed.

  Lemma path_error_gindex path : forall t root, spec_path_error t path = None <-> spec_gindex_from t root path <> None.
  Proof.
    induction path as [|p path IH]; intros t root; cbn [spec_path_error spec_gindex_from].
    - split; [discriminate|reflexivity].
    - destruct (is_leaf_type t) eqn:EL.
      + split; [discriminate|]. intros G. exfalso. apply G. unfold spec_step, is_leaf_type in *.
        destruct (resolve t); try discriminate EL; reflexivity.
      + destruct (spec_step t p) as [[[w pos] u]|]; [apply IH|]. split; [discriminate|]. intros G. contradiction.
  Qed.

  (** ** Transparent enums *)

  Lemma bind_ext {E A B} (r : res E A) (f g : A -> res E B) : (forall a, f a = g a) -> bind r f = bind r g.
  Proof. intros HE. destruct r; cbn [bind]; auto. Qed.

  Lemma as_unions_transparent t : is_transparent (resolve (as_unions t)) = false.
  Proof. induction t; cbn [as_unions resolve]; auto. Qed.

  Lemma as_unions_step t p w pos u : spec_step (as_unions t) p = Some (w, pos, u) -> exists u', u = as_unions u'.
  Proof.
    unfold spec_step. set (c := spec_chunk_count (as_unions t)). clearbody c.
    assert (HR : resolve (as_unions t) = as_unions (resolve t)) by (induction t; auto).
    rewrite HR. clear HR.
    assert (HN : forall s, exists s', TUint s = as_unions s') by (intros s; exists (TUint s); reflexivity).
    assert (HB : exists s', TBool = as_unions s') by (exists TBool; reflexivity).
    destruct (resolve t) as [| | | |e n|e n|e n|n|n|fs|nt|e|vs|ts] eqn:ER;
      try (exfalso; exact (resolve_not_newtype _ _ ER)); clear ER; destruct p as [i|name| |]; cbn [as_unions resolve]; try discriminate;
      try (destruct (i <? n); [|discriminate]); try (intros [= _ _ <-]; eauto; fail).
    - assert (HF : field_position name (map (fun f => (fst f, as_unions (snd f))) fs) =
                   option_map (fun q => (fst q, as_unions (snd q))) (field_position name fs)).
      { induction fs as [|[a b] fs IH]; [reflexivity|]. cbn [map field_position fst snd]. destruct (String.eqb name a); [reflexivity|].
        rewrite IH. destruct (field_position name fs) as [[]|]; reflexivity. }
      rewrite HF. destruct (field_position name fs) as [[q v]|]; cbn [option_map]; [|discriminate]. intros [= _ _ <-]. eauto.
    - destruct (i =? 0); [|destruct (i =? 1); [|discriminate]]; intros [= _ _ <-]; eauto.
    - rewrite nth_error_map. destruct (nth_error vs (N.to_nat i)) as [[v|]|]; cbn [option_map]; [| |discriminate];
        intros [= _ _ <-]; eauto.
    - rewrite nth_error_map. destruct (nth_error ts (N.to_nat i)) as [v|]; cbn [option_map]; [|discriminate];
        intros [= _ _ <-]; eauto.
  Qed.

  Lemma as_unions_along path : forall t, along (fun u => negb (is_transparent (resolve u))) (as_unions t) path = true.
  Proof.
    induction path as [|p path IH]; intros t; cbn [along]; [reflexivity|]. rewrite as_unions_transparent. cbn [negb andb].
    destruct (spec_step (as_unions t) p) as [[[w pos] u]|] eqn:E; [|reflexivity].
    destruct (as_unions_step _ _ _ _ _ E) as [u' ->]. apply IH.
  Qed.

  Lemma as_unions_item t : item_length (S_ (as_unions t)) = item_length (S_ t).
  Proof. destruct t; reflexivity. Qed.

  Lemma as_unions_gindex t : forall root path,
    compute_generalized_index (S_ (as_unions t)) root path = compute_generalized_index (S_ t) root path.
  Proof.
    induction t as [| | | |u n IH|u n IH|u n IH|n|n|fs IH|u IH|u IH|vs IH|ts IH] using ty_ind'; intros root path; try reflexivity;
      cbn [as_unions simple_serialize vector_m array_m list_m container_m newtype_m option_m union_m transparent_m
           compute_generalized_index]; try apply IH; destruct path as [|[i|name| |] path]; try reflexivity.
    - cbn [vector_compute_generalized_index]. unfold seq_chunk_count. rewrite as_unions_item.
      destruct (n <=? i); [reflexivity|].
      repeat (apply bind_ext; intros ?). apply IH.
    - cbn [vector_compute_generalized_index]. unfold seq_chunk_count. rewrite as_unions_item.
      destruct (n <=? i); [reflexivity|].
      repeat (apply bind_ext; intros ?). apply IH.
    - cbn [list_compute_generalized_index]. unfold seq_chunk_count. rewrite as_unions_item.
      destruct (n <=? i); [reflexivity|].
      repeat (apply bind_ext; intros ?). apply IH.
    - cbn [container_compute_generalized_index]. rewrite !blen_map. generalize (blen fs) as c, 0 as k.
      induction IH as [|[a u] fs Hu HF IHF]; intros c k; cbn [map fst snd by_field]; [reflexivity|].
      destruct (String.eqb name a); [|apply IHF]. repeat (apply bind_ext; intros ?). apply Hu.
    - cbn [option_compute_generalized_index]. destruct (2 <=? i); [reflexivity|]. apply bind_ext; intros ?.
      destruct (i =? 0); [reflexivity|]. destruct (i =? 1); [apply IH|reflexivity].
    - cbn [union_compute_generalized_index]. rewrite !blen_map, !nth_error_map. destruct (blen vs <=? i); [reflexivity|].
      apply bind_ext; intros ?. destruct (nth_error vs (N.to_nat i)) as [[u|]|] eqn:E; cbn [option_map]; try reflexivity.
      rewrite Forall_forall in IH. exact (IH (Some u) (nth_error_In _ _ E) _ _).
    - cbn [union_compute_generalized_index]. rewrite !blen_map, !nth_error_map. destruct (blen ts <=? i); [reflexivity|].
      apply bind_ext; intros ?. destruct (nth_error ts (N.to_nat i)) as [u|] eqn:E; cbn [option_map]; try reflexivity.
      rewrite Forall_forall in IH. exact (IH u (nth_error_In _ _ E) _ _).
  Qed.
End Gindex.
