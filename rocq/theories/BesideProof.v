(** Branches do not depend on the part that they prove. *)
From Coq Require Import String List NArith ZArith Bool Lia ZifyBool ZifyNat ZifyN.
From Coq Require Import Strings.Byte.
From Verif Require Import Prelude Types Bitvec Ser De Impls Merkleize Proofs MerkImpls Multiproofs Valid SpecSer SpecMerkle SpecMulti
  SpecPack SpecProve SpecFound SpecTree SpecBeside Lib SerProof SerSpec RoundTrip BitsLib ChunkLib MerkProof TreeProof RootProof GindexProof ProveProof LeafProof BindProof
  PackProof PackGindex PackProve ProbeProof FoundProof ValueTree.
Import ListNotations.
Open Scope N_scope.
Ltac Zify.zify_post_hook ::= Z.div_mod_to_equations.

(** ** Bytes of chunks *)

Lemma pack_at b j : chunk_at (spec_pack b) j = map (fun k => nth (32 * N.to_nat j + k)%nat b x00) (seq 0 32).
Proof.
  unfold chunk_at, spec_pack. set (f := fun j : nat => map (fun k => nth (32 * j + k)%nat b x00) (seq 0 32)).
  change (nth (N.to_nat j) (map f (seq 0 (Nat.div (length b + 31) 32))) zero_chunk = f (N.to_nat j)).
  destruct (Nat.lt_ge_cases (N.to_nat j) (Nat.div (length b + 31) 32)) as [HL|HG].
  - rewrite (nth_indep _ _ (f 0%nat)) by (rewrite map_length, seq_length; exact HL).
    rewrite map_nth, seq_nth by exact HL. reflexivity.
  - rewrite nth_overflow by (rewrite map_length, seq_length; exact HG). unfold f. symmetry.
    transitivity (map (fun _ : nat => x00) (seq 0 32)); [|reflexivity].
    apply map_ext. intros k. apply nth_overflow. lia.
Qed.

Lemma pack_same a b j : (forall k, (k < 32)%nat -> nth (32 * N.to_nat j + k)%nat a x00 = nth (32 * N.to_nat j + k)%nat b x00) ->
  chunk_at (spec_pack a) j = chunk_at (spec_pack b) j.
Proof.
  intros HN. rewrite !pack_at. apply map_ext_in. intros k Hk. apply in_seq in Hk. apply HN. lia.
Qed.

Lemma nth_concat (s : nat) (Hs : (0 < s)%nat) (ls : list bytes) : Forall (fun l => length l = s) ls -> forall m,
  nth m (concat ls) x00 = nth (m mod s)%nat (nth (m / s)%nat ls []) x00.
Proof.
  induction ls as [|l ls IH]; intros HF m; cbn [concat].
  - destruct (m / s)%nat, m, (_ mod s)%nat; reflexivity.
  - inversion HF as [|? ? E HF']; subst.
    destruct (Nat.lt_ge_cases m (length l)) as [HL|HG].
    + rewrite app_nth1 by exact HL. rewrite Nat.div_small, Nat.mod_small by exact HL. reflexivity.
    + rewrite app_nth2 by exact HG. rewrite IH by exact HF'.
      replace m with (m - length l + 1 * length l)%nat at 3 4 by lia.
      rewrite Nat.div_add, Nat.mod_add by lia. rewrite Nat.add_1_r. reflexivity.
Qed.

Lemma item_size u : item_basic u = true -> exists q, 32 = q * fixed_size u /\ 0 < fixed_size u.
Proof.
  destruct u as [|[]| | | | | | | | | | | |]; intros E; try discriminate E;
    [exists 32|exists 32|exists 16|exists 8|exists 4|exists 2|exists 4|exists 1]; vm_compute; auto.
Qed.

Lemma chunk_of s q j k : 32 = q * s -> 0 < s -> k < 32 -> (32 * j + k) / s * s / 32 = j.
Proof.
  intros E Hs Hk. assert (Hq : 0 < q) by nia.
  assert (E1 : (32 * j + k) / s = q * j + k / s).
  { replace (32 * j + k) with (k + (q * j) * s) by nia. rewrite N.div_add by lia. lia. }
  rewrite E1. pose proof (N.mul_div_le k s ltac:(lia)) as L.
  symmetry. apply (N.div_unique _ _ _ (k / s * s)); nia.
Qed.

Lemma packed_off u l m j : item_basic u = true -> legal u = true -> Forall (valid u) l -> Forall (valid u) m -> forall i,
  (forall k, k * fixed_size u / 32 <> i * fixed_size u / 32 -> nth_error l (N.to_nat k) = nth_error m (N.to_nat k)) ->
  j <> i * fixed_size u / 32 ->
  chunk_at (spec_pack (concat (map (basic_bytes u) l))) j = chunk_at (spec_pack (concat (map (basic_bytes u) m))) j.
Proof.
  intros HB HL Hl Hm i HS Hj. destruct (item_size u HB) as (q & Eq & Hs).
  assert (HSm : small u = true) by (unfold small; destruct u as [|[]| | | | | | | | | | | |]; try discriminate HB; reflexivity).
  assert (HF : forall l, Forall (valid u) l -> Forall (fun b : bytes => length b = N.to_nat (fixed_size u)) (map (basic_bytes u) l)).
  { intros l0 Hl0. rewrite Forall_map. eapply Forall_impl; [|exact Hl0]. intros x Hx.
    destruct (packed_bytes u x HSm (item_packed u HB) HL Hx) as [_ E]. unfold blen in E. lia. }
  apply pack_same. intros k Hk.
  rewrite !(nth_concat (N.to_nat (fixed_size u))) by (auto; lia). f_equal.
  set (e := ((32 * N.to_nat j + k) / N.to_nat (fixed_size u))%nat).
  assert (Ee : N.of_nat e = (32 * j + N.of_nat k) / fixed_size u).
  { unfold e. rewrite Nnat.Nat2N.inj_div. f_equal; lia. }
  assert (EN : nth_error (map (basic_bytes u) l) e = nth_error (map (basic_bytes u) m) e).
  { rewrite !nth_error_map. specialize (HS (N.of_nat e)). rewrite Nnat.Nat2N.id in HS. rewrite HS; [reflexivity|].
    rewrite Ee, (chunk_of _ q) by (auto; lia). intros E. apply Hj. exact E. }
  clearbody e. destruct (nth_error (map (basic_bytes u) l) e) as [b|] eqn:E1; symmetry in EN.
  - rewrite (nth_error_nth _ _ _ E1), (nth_error_nth _ _ _ EN). reflexivity.
  - apply nth_error_None in E1, EN. rewrite !nth_overflow by auto. reflexivity.
Qed.

Lemma packed_same u l m j : item_basic u = true -> legal u = true -> Forall (valid u) l -> Forall (valid u) m -> forall i,
  same_but (fun k => k * fixed_size u / 32 = i * fixed_size u / 32) l m -> j <> i * fixed_size u / 32 ->
  chunk_at (spec_pack (concat (map (basic_bytes u) l))) j = chunk_at (spec_pack (concat (map (basic_bytes u) m))) j.
Proof. intros HB HL Hl Hm i [_ HS]. apply packed_off; auto. Qed.

Lemma spec_bits_at bs k : nth k (spec_bits bs) x00 =
  byte_of_N (total (map (fun i => bool_to_N (nth (8 * k + i)%nat bs false) * 2 ^ N.of_nat i) (seq 0 8))).
Proof.
  unfold spec_bits. set (f := fun j : nat => byte_of_N _).
  change (nth k (map f (seq 0 (Nat.div (length bs + 7) 8))) x00 = f k).
  destruct (Nat.lt_ge_cases k (Nat.div (length bs + 7) 8)) as [HL|HG].
  - rewrite (nth_indep _ _ (f 0%nat)) by (rewrite map_length, seq_length; exact HL).
    rewrite map_nth, seq_nth by exact HL. reflexivity.
  - rewrite nth_overflow by (rewrite map_length, seq_length; exact HG). unfold f. cbn [seq map].
    rewrite !nth_overflow by lia. reflexivity.
Qed.

Lemma bits_off (a b : list bool) i j :
  (forall k, k / 256 <> i / 256 -> nth_error a (N.to_nat k) = nth_error b (N.to_nat k)) -> j <> i / 256 ->
  chunk_at (spec_pack (spec_bits a)) j = chunk_at (spec_pack (spec_bits b)) j.
Proof.
  intros HS Hj. apply pack_same. intros k Hk. rewrite !spec_bits_at. do 2 f_equal. apply map_ext_in. intros e He.
  apply in_seq in He. f_equal. f_equal.
  set (x := (8 * (32 * N.to_nat j + k) + e)%nat).
  assert (EN : nth_error a x = nth_error b x).
  { specialize (HS (N.of_nat x)). rewrite Nnat.Nat2N.id in HS. apply HS. intros E. apply Hj. rewrite <- E.
    apply (N.div_unique _ _ _ (N.of_nat (8 * k + e))); unfold x; lia. }
  clearbody x. destruct (nth_error a x) as [y|] eqn:E1; symmetry in EN.
  - rewrite (nth_error_nth _ _ _ E1), (nth_error_nth _ _ _ EN). reflexivity.
  - apply nth_error_None in E1, EN. rewrite !nth_overflow by auto. reflexivity.
Qed.

Lemma bits_same (a b : list bool) i j : same_but (fun k => k / 256 = i / 256) a b -> j <> i / 256 ->
  chunk_at (spec_pack (spec_bits a)) j = chunk_at (spec_pack (spec_bits b)) j.
Proof. intros [_ HS]. apply bits_off. exact HS. Qed.

Lemma nth_error_combine {A B} (a : list A) : forall (b : list B) i,
  nth_error (combine a b) i = match nth_error a i, nth_error b i with Some x, Some y => Some (x, y) | _, _ => None end.
Proof.
  induction a as [|x a IH]; intros [|y b] [|i]; cbn [combine nth_error]; auto. destruct (nth_error a i); reflexivity.
Qed.

(** ** Siblings *)

Lemma branch_of_graft A c : 1 <= A -> 1 <= c -> branch_of (graft A c) = map (graft A) (branch_of c) ++ branch_of A.
Proof.
  intros HA Hc. remember (N.to_nat (N.log2 c)) as n eqn:En. revert c Hc En. induction n as [|n IH]; intros c Hc En.
  - assert (c = 1) as ->; [|rewrite graft_1; reflexivity].
    destruct (N.eq_dec c 1); [auto|]. pose proof (log2_half c ltac:(lia)). lia.
  - assert (Hc2 : 2 <= c). { destruct (N.eq_dec c 1) as [->|]; [discriminate|lia]. }
    pose proof (log2_half c Hc2) as EL.
    assert (Hc' : 1 <= c / 2) by lia.
    destruct (graft_below A (c / 2) Hc') as [G1 G2].
    assert (EG : graft A c = 2 * graft A (c / 2) + c mod 2 /\ graft A (spec_sibling c) = 2 * graft A (c / 2) + (1 - c mod 2)).
    { unfold spec_sibling. destruct (N.even c) eqn:EE.
      - apply N.even_spec in EE as [k ->]. replace (2 * k / 2) with k in * by lia. replace (2 * k mod 2) with 0 by lia. rewrite <- G2, <- G1. lia.
      - assert (EO : N.odd c = true) by (rewrite <- N.negb_even, EE; reflexivity).
        apply N.odd_spec in EO as [k ->]. replace ((2 * k + 1) / 2) with k in * by lia. replace ((2 * k + 1) mod 2) with 1 by lia.
        replace (2 * k + 1 - 1) with (2 * k) by lia. rewrite <- G1, <- G2. lia. }
    destruct EG as [EG ES].
    assert (HP : 1 <= graft A (c / 2)).
    { unfold graft. pose proof (N.log2_spec (c / 2) ltac:(lia)) as [L1 L2]. nia. }
    pose proof (N.mod_lt c 2 ltac:(lia)) as HM.
    assert (Hg : 2 <= graft A c) by lia.
    rewrite (branch_of_step _ Hg), (branch_of_step _ Hc2). cbn [map app]. f_equal.
    + rewrite ES. unfold spec_sibling. destruct (N.even (graft A c)) eqn:EE.
      * apply N.even_spec in EE as [k Ek]. lia.
      * assert (EO : N.odd (graft A c) = true) by (rewrite <- N.negb_even, EE; reflexivity). apply N.odd_spec in EO as [k Ek]. lia.
    + replace (graft A c / 2) with (graft A (c / 2)) by lia. apply IH; lia.
Qed.

Lemma branch_of_ge g : 1 <= g -> Forall (fun s => 2 <= s) (branch_of g).
Proof.
  intros Hg. remember (N.to_nat (N.log2 g)) as n eqn:En. revert g Hg En. induction n as [|n IH]; intros g Hg En.
  - assert (g = 1) as ->; [|constructor]. destruct (N.eq_dec g 1); [auto|]. pose proof (log2_half g ltac:(lia)). lia.
  - assert (Hg2 : 2 <= g). { destruct (N.eq_dec g 1) as [->|]; [discriminate|lia]. }
    pose proof (log2_half g Hg2). rewrite branch_of_step by exact Hg2. constructor; [|apply IH; lia].
    unfold spec_sibling. destruct (N.even g) eqn:EE; [lia|].
    assert (EO : N.odd g = true) by (rewrite <- N.negb_even, EE; reflexivity). apply N.odd_spec in EO as [k Ek]. lia.
Qed.

(** The siblings on the way up from leaf [i] of a tree of depth [d] do not have the leaf below. *)
Lemma branch_of_off d i s : i < 2 ^ N.of_nat d -> In s (branch_of (2 ^ N.of_nat d + i)) ->
  exists e p, (e <= d)%nat /\ s = 2 ^ N.of_nat e + p /\ p < 2 ^ N.of_nat e /\ i / 2 ^ N.of_nat (d - e) <> p.
Proof.
  intros Hi. unfold branch_of. rewrite log2_pow_add, Nnat.Nat2N.id by exact Hi. intros HI.
  apply in_map_iff in HI as (k & <- & Hk). apply in_seq in Hk. destruct Hk as [_ Hk]. cbn [Nat.add] in Hk.
  exists (d - k)%nat. pose proof (pow2_pos (N.of_nat k)) as Pk.
  assert (EP : 2 ^ N.of_nat d = 2 ^ N.of_nat (d - k) * 2 ^ N.of_nat k) by (rewrite <- N.pow_add_r; f_equal; lia).
  assert (ED : (2 ^ N.of_nat d + i) / 2 ^ N.of_nat k = 2 ^ N.of_nat (d - k) + i / 2 ^ N.of_nat k).
  { rewrite EP, N.add_comm, N.div_add by lia. lia. }
  rewrite ED. replace (d - (d - k))%nat with k by lia.
  assert (Hq : i / 2 ^ N.of_nat k < 2 ^ N.of_nat (d - k)) by (apply N.div_lt_upper_bound; lia).
  assert (E2 : 2 ^ N.of_nat (d - k) = 2 * 2 ^ N.of_nat (d - k - 1)).
  { rewrite <- pow2_S. do 2 f_equal. lia. }
  set (W := 2 ^ N.of_nat (d - k)) in *. set (V := 2 ^ N.of_nat (d - k - 1)) in *. set (q := i / 2 ^ N.of_nat k) in *.
  clearbody W V q. unfold spec_sibling. destruct (N.even (W + q)) eqn:EE.
  - apply N.even_spec in EE as [x Ex]. exists (q + 1). repeat split; lia.
  - assert (EO : N.odd (W + q) = true) by (rewrite <- N.negb_even, EE; reflexivity). apply N.odd_spec in EO as [x Ex].
    exists (q - 1). repeat split; lia.
Qed.

Lemma nth_error_length {A} (l : list A) n x : nth_error l n = Some x -> (n < length l)%nat.
Proof. intros E. apply nth_error_Some. congruence. Qed.

(** ** Nodes above others *)

Definition above (g i : N) : Prop := 1 <= g /\ exists k, g = i / 2 ^ k.

Lemma above_log2 s g k : s = g / 2 ^ k -> 1 <= s -> N.log2 g = N.log2 s + k.
Proof.
  intros E Hs. destruct (log2_split s Hs) as (d & p & Es & Hp & El). rewrite El.
  assert (Pk : 0 < 2 ^ k) by apply pow2_pos.
  pose proof (N.div_mod g (2 ^ k) ltac:(lia)) as ED. pose proof (N.mod_lt g (2 ^ k) ltac:(lia)) as EM. rewrite <- E, Es in ED.
  replace g with (2 ^ (d + k) + (p * 2 ^ k + g mod 2 ^ k)) by (rewrite N.pow_add_r; lia).
  apply log2_pow_add. rewrite N.pow_add_r. nia.
Qed.

Lemma above_1 s : 1 <= s -> above 1 s.
Proof. intros Hs. split; [lia|]. exists (N.log2 s). destruct (N.log2_spec s ltac:(lia)) as [L1 L2]. rewrite N.pow_succ_r' in L2.
  apply (N.div_unique _ _ _ (s - 2 ^ N.log2 s)); lia. Qed.

Lemma above_trans a b c : above a b -> above b c -> above a c.
Proof.
  intros [A1 [k A2]] [B1 [m B2]]. split; [exact A1|]. exists (m + k). subst a b. rewrite N.div_div, N.pow_add_r; auto; apply N.pow_nonzero; lia.
Qed.

Lemma above_graft a c : 1 <= a -> 1 <= c -> above a (graft a c).
Proof. intros Ha Hc. split; [exact Ha|]. exists (N.log2 c). symmetry. apply graft_parent. exact Hc. Qed.

Lemma graft_div a c k : 1 <= c / 2 ^ k -> graft a c / 2 ^ k = graft a (c / 2 ^ k).
Proof.
  intros Hc. assert (Pk : 0 < 2 ^ k) by apply pow2_pos.
  assert (Hc1 : 1 <= c). { destruct (N.eq_dec c 0) as [->|]; [|lia]. rewrite N.div_0_l in Hc; lia. }
  destruct (log2_split c Hc1) as (m & y & -> & Hy & _).
  assert (Hk : k <= m).
  { destruct (N.le_gt_cases k m) as [|Lt]; [auto|]. rewrite N.div_small in Hc; [lia|].
    assert (2 ^ (m + 1) <= 2 ^ k) by (apply N.pow_le_mono_r; lia). rewrite N.add_1_r, N.pow_succ_r' in H. lia. }
  assert (EP : 2 ^ m = 2 ^ (m - k) * 2 ^ k) by (rewrite <- N.pow_add_r; f_equal; lia).
  assert (Hq : y / 2 ^ k < 2 ^ (m - k)) by (apply N.div_lt_upper_bound; lia).
  assert (E1 : (2 ^ m + y) / 2 ^ k = 2 ^ (m - k) + y / 2 ^ k) by (rewrite EP, N.div_add_l by lia; reflexivity).
  rewrite E1. unfold graft. rewrite !log2_pow_add by auto.
  replace (2 ^ m + y - 2 ^ m) with y by lia. rewrite (N.add_comm (2 ^ (m - k))), N.add_sub.
  rewrite EP, N.mul_assoc, N.div_add_l by lia. reflexivity.
Qed.

Lemma above_grafts a b c : 1 <= a -> above b c -> above (graft a b) (graft a c).
Proof.
  intros Ha [B1 [k ->]]. split; [|exists k; symmetry; apply graft_div; exact B1].
  unfold graft. pose proof (pow2_pos (N.log2 (c / 2 ^ k))). nia.
Qed.

Lemma deep_split F e q : q < 2 ^ e -> F < e -> exists i c, 2 ^ e + q = graft (2 ^ F + i) c /\ i < 2 ^ F /\ 2 <= c.
Proof.
  intros Hq HF. exists (q / 2 ^ (e - F)), (2 ^ (e - F) + q mod 2 ^ (e - F)).
  assert (EP : 2 ^ e = 2 ^ F * 2 ^ (e - F)) by (rewrite <- N.pow_add_r; f_equal; lia).
  assert (Pk : 2 <= 2 ^ (e - F)) by (change 2 with (2 ^ 1) at 1; apply N.pow_le_mono_r; lia).
  pose proof (N.div_mod q (2 ^ (e - F)) ltac:(lia)) as ED. pose proof (N.mod_lt q (2 ^ (e - F)) ltac:(lia)) as EM.
  split; [|split; [apply N.div_lt_upper_bound; lia|lia]].
  unfold graft. rewrite log2_pow_add by exact EM. rewrite EP. set (W := 2 ^ (e - F)) in *. set (V := 2 ^ F). clearbody W V.
  set (d := q / W) in *. set (r := q mod W) in *. clearbody d r. nia.
Qed.

Lemma branch_apart g s : 1 <= g -> In s (branch_of g) -> 1 <= s /\ ~ above s g /\ ~ above g s.
Proof.
  intros Hg HI. destruct (log2_split g Hg) as (d & i & -> & Hi & _). rewrite <- (Nnat.N2Nat.id d) in *.
  destruct (branch_of_off (N.to_nat d) i s Hi HI) as (e & p & He & -> & Hp & Hn).
  set (D := N.to_nat d) in *. clearbody D. clear d.
  assert (EP : 2 ^ N.of_nat D = 2 ^ N.of_nat e * 2 ^ N.of_nat (D - e)) by (rewrite <- N.pow_add_r; f_equal; lia).
  pose proof (pow2_pos (N.of_nat e)) as Pe. pose proof (pow2_pos (N.of_nat (D - e))) as Pd.
  assert (HX : forall k, 2 ^ N.of_nat e + p <> (2 ^ N.of_nat D + i) / 2 ^ k).
  { intros k E. apply Hn. pose proof (above_log2 _ _ k E ltac:(lia)) as EL. rewrite !log2_pow_add in EL by auto.
    replace k with (N.of_nat (D - e)) in E by lia. rewrite EP, N.div_add_l in E by lia. lia. }
  split; [lia|]. split; [intros [_ [k E]]; apply (HX k E)|].
  intros [_ [k E]]. pose proof (above_log2 _ _ k E ltac:(lia)) as EL. rewrite !log2_pow_add in EL by auto.
  assert (k = 0) by lia. subst k. assert (D = e) by lia. subst e. apply (HX 0). rewrite N.pow_0_r, N.div_1_r in *. auto.
Qed.

(** Helper nodes lie neither above nor below independent indices. *)
Lemma helper_apart gs s g : independent gs -> helper gs s -> In g gs -> 1 <= g -> 1 <= s /\ ~ above s g /\ ~ above g s.
Proof.
  intros [_ HI] [[S2 (i & Hi & HS)] HN] Hg H1.
  assert (Hs : 2 <= s /\ spec_sibling s / 2 = s / 2 /\ spec_sibling s <> s).
  { unfold spec_sibling in *. destruct (N.even s) eqn:EE.
    - apply N.even_spec in EE as [x Ex]. lia.
    - assert (EO : N.odd s = true) by (rewrite <- N.negb_even, EE; reflexivity). apply N.odd_spec in EO as [x Ex]. lia. }
  destruct Hs as (Hs & EP & _). split; [lia|]. split.
  - intros [_ [k E]]. apply HN. split; [exact Hs|]. exists g. split; [exact Hg|].
    destruct (N.eq_dec k 0) as [->|]; [left; rewrite N.pow_0_r, N.div_1_r in E; exact E|].
    right. split; [lia|]. exists k. split; [lia|exact E].
  - intros [_ [k E]]. destruct (N.eq_dec k 0) as [->|Hk].
    { apply HN. split; [exact Hs|]. exists g. split; [exact Hg|]. left. rewrite N.pow_0_r, N.div_1_r in E. auto. }
    assert (EK : forall n, n / 2 ^ k = n / 2 / 2 ^ (k - 1)).
    { intros n. rewrite N.div_div by (try apply N.pow_nonzero; lia). rewrite <- N.pow_succ_r'. do 2 f_equal. lia. }
    rewrite EK, <- EP, <- EK in E. apply (HI g i Hg Hi). split; [exact H1|].
    destruct HS as [HS|[_ (m & Hm & HS)]].
    + exists k. split; [lia|]. rewrite E, HS. reflexivity.
    + exists (m + k). split; [lia|]. rewrite E, HS, N.div_div, N.pow_add_r by (apply N.pow_nonzero; lia). reflexivity.
Qed.

Section Value.
  Context (H : bytes -> bytes) (Hlen : forall x, blen (H x) = 32).

  Lemma heap_off D f g e p i : (e <= D)%nat -> p < 2 ^ N.of_nat e -> i / 2 ^ N.of_nat (D - e) <> p ->
    (forall j, j <> i -> f j = g j) -> heap H D f (2 ^ N.of_nat e + p) = heap H D g (2 ^ N.of_nat e + p).
  Proof.
    intros He Hp Hi HF. rewrite !heap_at by auto. unfold node. apply subtree_ext. intros x Hx. unfold shifted. apply HF.
    intros E. apply Hi. symmetry. apply (N.div_unique _ _ _ x); [exact Hx|]. lia.
  Qed.

  (** Nodes of the tree of one value that are not above leaf [i]. *)
  Lemma local_off t v w i e p : valid t v -> valid t w -> spec_decoration t v = spec_decoration t w ->
    (forall j, j <> i -> chunk_at (chunks_with packed H t v) j = chunk_at (chunks_with packed H t w) j) ->
    i < 2 ^ N.of_nat (wfull t v) -> (e <= wfull t v)%nat -> p < 2 ^ N.of_nat e -> i / 2 ^ N.of_nat (wfull t v - e) <> p ->
    value_node H t v (2 ^ N.of_nat e + p) = value_node H t w (2 ^ N.of_nat e + p).
  Proof.
    intros HV HW HD HC Hi He Hp Hn.
    assert (EF : wfull t w = wfull t v) by (unfold wfull; rewrite HD; reflexivity).
    assert (HLs : N.log2 (2 ^ N.of_nat e + p) <= N.of_nat (wfull t v)) by (rewrite log2_pow_add by exact Hp; lia).
    rewrite (value_own H Hlen t v) by auto. rewrite (value_own H Hlen t w) by (rewrite ?EF; auto).
    unfold PackProve.wtree, local_tree. fold (wfull t v). fold (wfull t w). rewrite EF, <- HD.
    assert (EH : heap H (wfull t v) (chunk_at (chunks_with packed H t v)) (2 ^ N.of_nat e + p) =
                 heap H (wfull t v) (chunk_at (chunks_with packed H t w)) (2 ^ N.of_nat e + p)) by (eapply heap_off; eauto).
    destruct (spec_decoration t v); [|exact EH].
    destruct (N.eqb_spec (2 ^ N.of_nat e + p) 1) as [E1|].
    { exfalso. apply Hn. assert (e = 0%nat) as ->. { destruct e; [reflexivity|]. rewrite pow2_S in E1. pose proof (pow2_pos (N.of_nat e)). lia. }
      replace (wfull t v - 0)%nat with (wfull t v) by lia. rewrite N.div_small by exact Hi. cbn in E1. lia. }
    destruct (_ =? 3); [reflexivity|exact EH].
  Qed.

  (** One step of the path. *)
  Record agrees (t : ty) (v w : val) (p : PathElement) (path : Path) (k pos : N) (u : ty) : Prop := {
    bs_deco : spec_decoration t v = spec_decoration t w;
    bs_full : k = 2 ^ N.of_nat (wfull t v);
    bs_pos : pos < 2 ^ N.of_nat (wdepth t);
    bs_chunks : forall j, j <> pos -> chunk_at (chunks_with packed H t v) j = chunk_at (chunks_with packed H t w) j;
    bs_parts : forall j, j <> pos -> part_of t v j = part_of t w j;
    bs_part : match part_of t v pos, part_of t w pos with
              | Some (a, x), Some (b, y) => a = u /\ b = u /\ agree_off u x y path
              | None, None => True
              | _, _ => False
              end
  }.

  Lemma agree_step t v w p path k pos u : legal t = true -> sized t = true -> valid t v -> valid t w -> counts t = true ->
    agree_off t v w (p :: path) -> step_with item_basic t p = Some (k, pos, u) -> agrees t v w p path k pos u.
  Proof.
    intros HL HR HV HW HP HB ES. cbn [agree_off] in *.
    pose proof (counts_count t HP) as HCi.
    destruct (peel t v) as [r y] eqn:EP. destruct (peel t w) as [r' y'] eqn:EP'.
    destruct (with_peel_facts H t v r y EP HL HR HV) as (A1 & A2 & A3 & A4 & A5 & A6 & A7).
    destruct (with_peel_facts H t w r' y' EP' HL HR HW) as (B1 & B2 & B3 & B4 & B5 & B6 & B7).
    assert (Er : r' = r) by congruence. clear B1. subst r'.
    assert (HFD : forall n, spec_decoration r y = Some n -> 2 * width (chunk_count_with packed t) = 2 ^ N.of_nat (wfull t v)).
    { intros n En. unfold wfull, full_depth. rewrite <- A6, En, pow2_S. unfold wdepth. rewrite tree_depth_width. reflexivity. }
    assert (HFN : spec_decoration r y = None -> width (chunk_count_with packed t) = 2 ^ N.of_nat (wfull t v)).
    { intros En. unfold wfull, full_depth. rewrite <- A6, En. unfold wdepth. rewrite tree_depth_width. reflexivity. }
    assert (HCC : chunk_count_with packed t = chunk_count_with item_basic r).
    { rewrite A1, with_resolve_chunk_count. exact HCi. }
    pose proof (width_ge (chunk_count_with packed t)) as HW'.
    assert (HWD : 2 ^ N.of_nat (wdepth t) = width (chunk_count_with packed t)) by (unfold wdepth; apply tree_depth_width).
    assert (Hcounts : counts r = true).
    { rewrite A1. unfold counts. rewrite resolve_idem. exact HP. }
    assert (Eres : resolve r = r) by (rewrite A1; apply resolve_idem).
    assert (HC : (forall j, j <> pos -> chunk_at (chunks_with packed H r y) j = chunk_at (chunks_with packed H r y') j) ->
                 forall j, j <> pos -> chunk_at (chunks_with packed H t v) j = chunk_at (chunks_with packed H t w) j).
    { intros HC j Hj. rewrite <- A5, <- B5. apply HC. exact Hj. }
    (* parts in chunks of their own *)
    assert (HPart : (forall j, j <> pos -> part_of r y j = part_of r y' j) ->
                    (forall j, part_of r y j = None -> chunk_at (chunks_with packed H r y) j = zero_chunk) ->
                    (forall j, part_of r y' j = None -> chunk_at (chunks_with packed H r y') j = zero_chunk) ->
                    forall j, j <> pos -> chunk_at (chunks_with packed H r y) j = chunk_at (chunks_with packed H r y') j).
    { intros HE HZ HZ' j Hj. specialize (HE j Hj). destruct (part_of r y j) as [[a x]|] eqn:E1.
      - rewrite (pf_chunk _ _ _ _ _ _ _ _ (part_ok H Hlen [] true r y j a x Hcounts A3 A4 A2 E1)).
        rewrite (pf_chunk _ _ _ _ _ _ _ _ (part_ok H Hlen [] true r y' j a x Hcounts B3 B4 B2 (eq_sym HE))). reflexivity.
      - rewrite HZ, HZ'; auto. }
    (* elements of a sequence *)
    assert (HSeq : forall n l m i, p = Index i -> i < n -> blen l <= n -> counted u = true ->
              (forall j, part_of r y j = if item_basic u then None else option_map (pair u) (nth_error l (N.to_nat j))) ->
              (forall j, part_of r y' j = if item_basic u then None else option_map (pair u) (nth_error m (N.to_nat j))) ->
              chunks_with packed H r y = seq_chunks_with packed H u l ->
              chunks_with packed H r y' = seq_chunks_with packed H u m ->
              chunk_count_with item_basic r = (n * item_length_with item_basic u + 31) / 32 ->
              small u = true -> legal u = true -> Forall (valid u) l -> Forall (valid u) m ->
              spec_decoration r y = spec_decoration r y' ->
              pos = i * item_length_with item_basic u / 32 -> k = 2 ^ N.of_nat (wfull t v) ->
              (if item_basic u then same_but (fun j => j * fixed_size u / 32 = i * fixed_size u / 32) l m
               else
                 same_but (eq i) l m /\
                 match nth_error l (N.to_nat i), nth_error m (N.to_nat i) with
                 | Some x, Some y => agree_off u x y path
                 | _, _ => True
                 end) ->
              agrees t v w p path k pos u).
    { intros n l m i -> Hi Hl Hcn Hch Hch' Hcs Hcs' Hcc Hsm Hle Hva Hva' HD Epos Ew HBS.
      pose proof (with_position_lt u n i Hi) as Hpos.
      assert (HZ : forall l, Forall (valid u) l -> item_basic u = false -> forall j, nth_error l (N.to_nat j) = None ->
                chunk_at (seq_chunks_with packed H u l) j = zero_chunk).
      { intros l0 Hl0 EB j EN. apply chunk_at_over. rewrite with_seq_chunks_blen by auto.
        rewrite counted_item by auto. unfold item_length_with. rewrite EB. apply nth_error_None in EN. unfold blen. lia. }
      assert (HPs : forall j, j <> pos -> part_of r y j = part_of r y' j).
      { intros j Hj. rewrite Hch, Hch'. destruct (item_basic u) eqn:EB; [reflexivity|]. destruct HBS as [[_ HBS] _].
        assert (Ei : pos = i) by (rewrite Epos; unfold item_length_with; rewrite EB; lia). f_equal. apply HBS. congruence. }
      constructor; [congruence|exact Ew|rewrite HWD; lia| | |].
      - apply HC. destruct (item_basic u) eqn:EB.
        + intros j Hj. rewrite Hcs, Hcs'. unfold seq_chunks_with. rewrite item_packed by auto.
          eapply packed_same; eauto. rewrite Epos in Hj. unfold item_length_with in Hj. rewrite EB in Hj. exact Hj.
        + apply HPart.
          * exact HPs.
          * intros j Ej. rewrite Hch in Ej. rewrite Hcs. apply HZ; auto. destruct (nth_error l (N.to_nat j)); [discriminate|reflexivity].
          * intros j Ej. rewrite Hch' in Ej. rewrite Hcs'. apply HZ; auto. destruct (nth_error m (N.to_nat j)); [discriminate|reflexivity].
      - intros j Hj. rewrite A7, B7. auto.
      - rewrite A7, B7, Hch, Hch'. destruct (item_basic u) eqn:EB; [exact I|]. destruct HBS as [[HLm _] HBS].
        assert (Ei : pos = i) by (rewrite Epos; unfold item_length_with; rewrite EB; lia). rewrite Ei.
        destruct (nth_error l (N.to_nat i)) as [x|] eqn:EN; destruct (nth_error m (N.to_nat i)) as [x'|] eqn:EN'; cbn [option_map]; auto.
        + apply nth_error_None in EN'. apply nth_error_length in EN. lia.
        + apply nth_error_None in EN. apply nth_error_length in EN'. lia. }
    destruct r as [| | | |t0 n|t0 n|t0 n|n|n|fs| |t0|vs|ts]; destruct y as [| | |l|bv|l| | |z|c z]; try contradiction HB; no_shape;
      destruct y' as [| | |l'|bv'|l'| | |z'|c' z']; try contradiction HB; no_shape;
      destruct p as [i|name| |]; try contradiction HB.
    all: unfold step_with in *; rewrite <- A1 in *.
    all: unfold counts in Hcounts; rewrite Eres in Hcounts; try rewrite <- HCi in *.
    all: cbn [spec_decoration chunks_with part_of chunk_count_with] in *.
    - destruct (N.ltb_spec i n) as [Hi|]; [|discriminate]. injection ES as Ek Epos <-.
      cbn [legal sized] in A3, A4. rewrite !andb_true_iff in A3, A4.
      eapply (HSeq n l l' i); eauto; try apply A2; try apply B2; try apply A3; try apply A4. 1: destruct A2; lia. rewrite <- Ek. auto.
    - destruct (N.ltb_spec i n) as [Hi|]; [|discriminate]. injection ES as Ek Epos <-.
      cbn [legal sized] in A3, A4. rewrite !andb_true_iff in A3, A4.
      eapply (HSeq n l l' i); eauto; try apply A2; try apply B2; try apply A3; try apply A4. 1: destruct A2; lia. rewrite <- Ek. auto.
    - destruct (N.ltb_spec i n) as [Hi|]; [|discriminate]. injection ES as Ek Epos <-.
      cbn [legal sized] in A3, A4. rewrite !andb_true_iff in A3, A4.
      eapply (HSeq n l l' i); eauto; try apply A2; try apply B2; try apply A3.
      + exact (proj1 (andb_prop _ _ (proj1 A4))).
      + f_equal. unfold blen. f_equal. destruct (item_basic t0); destruct HB as [HB HB']; [exact HB|apply HB].
      + rewrite <- Ek. eauto.
    - destruct (N.ltb_spec i n) as [Hi|]; [|discriminate]. injection ES as Ek Epos <-. rewrite <- Epos.
      constructor; [congruence|rewrite <- Ek; auto|rewrite HWD; lia| |intros j Hj; rewrite A7, B7; reflexivity|rewrite A7, B7; exact I].
      rewrite Epos. apply HC. intros j Hj. apply (bits_same _ _ i); congruence.
    - destruct (N.ltb_spec i n) as [Hi|]; [|discriminate]. injection ES as Ek Epos <-. rewrite <- Epos.
      constructor; [|rewrite <- Ek; eauto|rewrite HWD; lia| |intros j Hj; rewrite A7, B7; reflexivity|rewrite A7, B7; exact I].
      + rewrite <- A6, <- B6. f_equal. rewrite <- !blen_bv_bits. unfold blen. f_equal. apply HB.
      + rewrite Epos. apply HC. intros j Hj. apply (bits_same _ _ i); congruence.
    - destruct (field_position name fs) as [[pos' u']|] eqn:EF; [|contradiction]. injection ES as Ek <- <-.
      apply field_position_lt in EF as [F1 F2].
      assert (HZ : forall m j, nth_error (combine (map snd fs) m) j = None ->
                chunk_at (map (fun fx : string * ty * val => root_with packed H (snd (fst fx)) (snd fx)) (combine fs m)) (N.of_nat j) = zero_chunk).
      { intros m j Ej. apply chunk_at_over. rewrite blen_map. apply nth_error_None in Ej. rewrite combine_length, map_length in Ej.
        unfold blen. rewrite combine_length. lia. }
      destruct HB as [[HLm HB] HB'].
      assert (HPs : forall j, j <> pos' -> nth_error (combine (map snd fs) l) (N.to_nat j) = nth_error (combine (map snd fs) l') (N.to_nat j)).
      { intros j Hj. rewrite !nth_error_combine, HB by congruence. reflexivity. }
      constructor; [congruence|rewrite <- Ek; auto|rewrite HWD; lia| | |].
      + apply HC, HPart.
        * exact HPs.
        * intros j Ej. rewrite <- (Nnat.N2Nat.id j). apply HZ. exact Ej.
        * intros j Ej. rewrite <- (Nnat.N2Nat.id j). apply HZ. exact Ej.
      + intros j Hj. rewrite A7, B7. auto.
      + rewrite A7, B7, !nth_error_combine, nth_error_map, F2. cbn [option_map].
        destruct (nth_error l (N.to_nat pos')) as [x|] eqn:EN; destruct (nth_error l' (N.to_nat pos')) as [x'|] eqn:EN'; auto.
        * apply nth_error_None in EN'. apply nth_error_length in EN. lia.
        * apply nth_error_None in EN. apply nth_error_length in EN'. lia.
    - destruct HB as [-> HB]. cbn [N.eqb Pos.eqb] in ES. injection ES as <- <- <-.
      constructor; [congruence|rewrite <- (HFD _ eq_refl), HCC; reflexivity|rewrite HWD, HCC; reflexivity| | |].
      + apply HC. intros j Hj. rewrite !chunk_at_over; [reflexivity| |]; unfold blen; cbn [length]; lia.
      + intros j Hj. rewrite A7, B7. cbn [part_of]. replace (j =? 0) with false by lia. reflexivity.
      + rewrite A7, B7. cbn [part_of N.eqb]. auto.
    - destruct HB as (-> & <- & HB).
      destruct (nth_error vs (N.to_nat c)) as [[u'|]|] eqn:EN; try contradiction. injection ES as <- <- <-.
      constructor; [congruence|rewrite <- (HFD _ eq_refl), HCC; reflexivity|rewrite HWD, HCC; reflexivity| | |].
      + apply HC. intros j Hj. rewrite !chunk_at_over; [reflexivity| |]; unfold blen; cbn [length]; lia.
      + intros j Hj. rewrite A7, B7. cbn [part_of]. replace (j =? 0) with false by lia. reflexivity.
      + rewrite A7, B7. cbn [part_of N.eqb]. rewrite ?EN. auto.
  Qed.

  Theorem node_agree path : forall t v w g s, legal t = true -> sized t = true -> valid t v -> valid t w -> along counts t path = true ->
    agree_off t v w path -> gindex_with item_basic t path = Some g -> 1 <= s -> ~ above s g -> ~ above g s ->
    value_node H t v s = value_node H t w s.
  Proof.
    induction path as [|p path IH]; intros t v w g s HL HR HV HW HA HB HG Hs N1 N2.
    { assert (g = 1) by (unfold gindex_with in HG; cbn [gindex_from_with] in HG; congruence). subst g. exfalso. apply N2, above_1, Hs. }
    unfold gindex_with in HG. cbn [gindex_from_with along] in HG, HA. apply andb_true_iff in HA as [HP HA].
    destruct (step_with item_basic t p) as [[[k pos] u]|] eqn:ES; [|discriminate].
    destruct (agree_step t v w p path k pos u HL HR HV HW HP HB ES) as [C1 C2 C3 C4 C5 C6].
    rewrite N.mul_1_l in HG. rewrite with_gindex_from_graft in HG.
    destruct (gindex_with item_basic u path) as [c|] eqn:Ec; cbn [option_map] in HG; [|discriminate].
    assert (Eg : g = graft (k + pos) c) by congruence. subst g. subst k.
    assert (HI : pos < 2 ^ N.of_nat (wfull t v)).
    { pose proof (pow2_pos (N.of_nat (wdepth t))). unfold wfull, full_depth. destruct (spec_decoration t v); rewrite ?pow2_S; lia. }
    assert (EF : wfull t w = wfull t v) by (unfold wfull; rewrite C1; reflexivity).
    pose proof (pow2_pos (N.of_nat (wfull t v))) as Pf.
    assert (Hc : 1 <= c) by (eapply with_gindex_from_ge; eauto; lia).
    destruct (log2_split s Hs) as (e & q & -> & Hq & El).
    destruct (N.le_gt_cases e (N.of_nat (wfull t v))) as [Le|Le].
    - rewrite <- (Nnat.N2Nat.id e) in *. eapply local_off; eauto; [lia|]. intros E. apply N1.
      apply (above_trans _ (2 ^ N.of_nat (wfull t v) + pos)); [|apply above_graft; lia].
      split; [lia|]. exists (N.of_nat (wfull t v - N.to_nat e)).
      assert (EP : 2 ^ N.of_nat (wfull t v) = 2 ^ N.of_nat (N.to_nat e) * 2 ^ N.of_nat (wfull t v - N.to_nat e)) by (rewrite <- N.pow_add_r; f_equal; lia).
      rewrite EP, N.div_add_l by (pose proof (pow2_pos (N.of_nat (wfull t v - N.to_nat e))); lia). rewrite E. reflexivity.
    - destruct (deep_split (N.of_nat (wfull t v)) e q Hq Le) as (i & c' & Es & Hi & Hc'). rewrite Es in *.
      assert (HT : is_transparent (resolve t) = false) by (clear - ES; unfold step_with in ES; destruct (resolve t); auto; discriminate).
      rewrite value_deep by auto. rewrite <- EF. rewrite value_deep by (rewrite ?EF; auto).
      destruct (N.eq_dec i pos) as [->|Ni]; [|rewrite C5 by auto; reflexivity].
      destruct (part_of t v pos) as [[a x]|] eqn:E1; destruct (part_of t w pos) as [[b y]|] eqn:E2; try contradiction; [|reflexivity].
      destruct C6 as (-> & -> & C6).
      destruct (part_ok H Hlen [] true t v pos u x HP HL HR HV E1) as [D1 D2 D3 D4 D5 D6].
      destruct (part_ok H Hlen [] true t w pos u y HP HL HR HW E2) as [_ _ D3' _ _ _].
      assert (HA' : along counts u path = true).
      { pose proof (step_target item_basic t p) as HT'. destruct (spec_step t p) as [[[w' pos'] u']|]; [|congruence].
        destruct HT' as (w2 & pos2 & HT'). rewrite ES in HT'. injection HT' as _ _ <-. exact HA. }
      apply (IH u x y c c'); auto; try lia; intros HX; [apply N1|apply N2]; apply above_grafts; auto; lia.
  Qed.

  Theorem branch_agree path t v w g : legal t = true -> sized t = true -> valid t v -> valid t w -> along counts t path = true ->
    agree_off t v w path -> gindex_with item_basic t path = Some g ->
    map (value_node H t v) (branch_of g) = map (value_node H t w) (branch_of g).
  Proof.
    intros HL HR HV HW HA HB HG. assert (H1 : 1 <= g) by (eapply with_gindex_from_ge; eauto; lia).
    apply map_ext_in. intros s Hs. destruct (branch_apart g s H1 Hs) as (G1 & G2 & G3). eapply node_agree; eauto.
  Qed.
End Value.

Lemma along_counts path : forall t, along provable_with t path = true -> along counts t path = true.
Proof.
  induction path as [|p path IH]; intros t HA; [reflexivity|]. cbn [along] in *. apply andb_true_iff in HA as [HP HA].
  rewrite (provable_counts t HP). cbn [andb]. destruct (spec_step t p) as [[[w pos] u]|]; auto.
Qed.

(** ** The proofs that are returned *)

Lemma sibs_branch k : forall g, N.to_nat (N.log2 g) = k -> 1 <= g -> sibs k g = branch_of g.
Proof.
  induction k as [|k IH]; intros g EN Hg.
  - assert (g = 1) as ->; [|reflexivity]. destruct (N.eq_dec g 1); [auto|]. pose proof (log2_half g ltac:(lia)). lia.
  - assert (Hg2 : 2 <= g). { destruct (N.eq_dec g 1) as [->|]; [discriminate|lia]. }
    pose proof (log2_half g Hg2). rewrite branch_of_step by exact Hg2. cbn [sibs]. f_equal; [|apply IH; lia].
    unfold spec_sibling. rewrite <- N.negb_odd. destruct (N.odd g); reflexivity.
Qed.

Section Honest.
  Context (H : bytes -> bytes) (Hlen : forall x, blen (H x) = 32).
  Context (CONTEXT : bytes) (HC : good_context H CONTEXT) (oc : bool).
  Notation S_ := (simple_serialize H CONTEXT oc).

  Lemma value_local t v g : valid t v -> 1 <= g -> g < 2 * 2 ^ N.of_nat (wfull t v) -> value_node H t v g = wtree H t v g.
  Proof.
    intros HV H1 H2. apply value_own; auto.
    assert (N.log2 g < N.of_nat (wfull t v) + 1); [|lia].
    apply N.log2_lt_pow2; [lia|]. rewrite N.add_1_r, N.pow_succ_r'. exact H2.
  Qed.

  Lemma branch_lt g : 1 <= g -> forall d s, g < 2 * 2 ^ N.of_nat d -> In s (branch_of g) -> 1 <= s /\ s < 2 * 2 ^ N.of_nat d.
  Proof.
    intros Hg d s Hd HI. split.
    { pose proof (branch_of_ge g Hg) as HG. rewrite Forall_forall in HG. specialize (HG s HI). lia. }
    destruct (log2_split g Hg) as (e & y & -> & Hy & E).
    destruct (branch_of_off (N.to_nat e) y s) as (e' & p & He & -> & Hp & _); rewrite ?Nnat.N2Nat.id; auto.
    assert (2 ^ N.of_nat e' <= 2 ^ e) by (apply N.pow_le_mono_r; lia).
    assert (2 ^ e < 2 ^ (N.of_nat d + 1)) by (rewrite N.add_1_r, N.pow_succ_r'; lia).
    assert (e <= N.of_nat d) by (apply N.pow_lt_mono_r_iff in H1; lia).
    assert (2 ^ e <= 2 ^ N.of_nat d) by (apply N.pow_le_mono_r; lia). lia.
  Qed.

  Theorem honest_ok t v g b : inner_node H provable_with t v g b -> legal t = true -> sized t = true -> valid t v -> g < 2 ^ 64 ->
    forall p, proof_index (proof p) = g ->
    compute_proof H oc (S_ t) v p =
      Ok (MkProver (MkProof b (branch (proof p) ++ map (value_node H t v) (branch_of g)) g) (root_with packed H t v)).
  Proof.
    intros HN. induction HN as [t v g HP H1 H2 HA|t v i u x c b HP HE HN IH Hc]; intros HL HR HV Hlt p Hp;
      pose proof (provable_with_depth H Hlen [] _ HP _ HV) as HD;
      pose proof (decoration_lt H Hlen [] t HL _ HV) as HDl;
      destruct (provable_with_count t HP) as (HCi & _ & HTr);
      pose proof (decoration_ok H CONTEXT oc _ HTr _ HV) as HDk;
      pose proof (with_chunks_all32 H Hlen _ _ HV) as H32;
      (assert (HF : blen (chunks_with packed H t v) <= 2 ^ N.of_nat (full_depth (wdepth t) (spec_decoration t v)))
        by (pose proof (tree_depth_width (chunk_count_with packed t)) as EW; fold (wdepth t) in EW;
            pose proof (width_ge (chunk_count_with packed t)); pose proof (with_chunks_fit H Hlen t HR HL _ HV);
            unfold full_depth; destruct (spec_decoration t v); rewrite ?pow2_S; lia));
      pose proof (with_chunk_count_ok H Hlen CONTEXT oc t HP) as HCC;
      pose proof (proj2 (with_hash_tree_root_ok H Hlen CONTEXT HC oc t HL HR v HV)) as HCh.
    - destruct (compute_proof_local H Hlen oc (wdepth t) (chunks_with packed H t v) H32 (spec_decoration t v) HDl HF HD (S_ t) v
              (chunk_count_with packed t) HCC eq_refl HCh HDk p g Hp H1 H2 HA) as (br & F1 & _ & _ & F4).
      rewrite F1. fold (wtree H t v). rewrite (wtree_root H Hlen t v HV). do 3 f_equal. f_equal.
      rewrite F4, (sibs_branch _ g) by auto. apply map_ext_in. intros s Hs.
      destruct (branch_lt g H1 _ _ H2 Hs). symmetry. apply value_local; auto.
    - destruct (part_ok H Hlen [] true t v i u x (provable_counts t HP) HL HR HV HE) as [A1 A2 A3 A4 A5 _].
      destruct (part_ok H Hlen CONTEXT oc t v i u x (provable_counts t HP) HL HR HV HE) as [_ _ _ _ _ A6].
      assert (Hi : i < 2 ^ N.of_nat (wdepth t)).
      { unfold wdepth. rewrite tree_depth_width. pose proof (width_ge (chunk_count_with packed t)). lia. }
      pose proof (pow2_pos (N.of_nat (wfull t v))) as Pf.
      assert (Hi' : i < 2 ^ N.of_nat (wfull t v)).
      { unfold wfull, full_depth. destruct (spec_decoration t v); rewrite ?pow2_S; lia. }
      set (a := 2 ^ N.of_nat (wfull t v) + i) in *.
      assert (Ha : 1 <= a) by (unfold a; lia).
      assert (Hcg : c <= graft a c).
      { unfold graft. pose proof (N.log2_spec c ltac:(lia)) as [L1 L2]. nia. }
      pose proof (IH A1 A2 A3 ltac:(lia) (set_index p c) eq_refl) as E1. rewrite <- A6 in E1.
      destruct (compute_proof_child H Hlen oc (wdepth t) (chunks_with packed H t v) H32 (spec_decoration t v) HDl HF HD (S_ t) v
              (chunk_count_with packed t) HCC eq_refl HCh HDk p _ i c (graft a c) Hp Hi Hc eq_refl Hlt E1) as (br & F1 & _ & _ & F4).
      rewrite F1. cbn [proof leaf branch set_index]. fold (wtree H t v). rewrite (wtree_root H Hlen t v HV). do 3 f_equal.
      rewrite <- app_assoc. f_equal. rewrite branch_of_graft by lia. rewrite map_app, map_map. f_equal.
      + apply map_ext_in. intros s Hs. symmetry. apply value_part; auto.
        pose proof (branch_of_ge c ltac:(lia)) as HG. rewrite Forall_forall in HG. apply HG, Hs.
      + rewrite F4. fold (wfull t v). fold a. rewrite (sibs_branch _ a).
        * apply map_ext_in. intros s Hs. destruct (branch_lt a Ha (wfull t v) s) as [S1 S2]; auto; [unfold a; lia|].
          symmetry. apply value_local; auto.
        * unfold a. rewrite log2_pow_add by auto. apply Nnat.Nat2N.id.
        * exact Ha.
  Qed.

  Theorem honest_spec t v path b g :
    legal t = true -> sized t = true -> valid t v -> provable_with t = true -> along provable_with t path = true ->
    leaf_with H t v path = Some b -> gindex_with item_basic t path = Some g -> g < 2 ^ 64 ->
    prove H oc (S_ t) v path = Ok (MkProof b (map (value_node H t v) (branch_of g)) g, root_with packed H t v).
  Proof.
    intros HL HR HV HP HA HS HG Hlt. destruct (with_leaf_node H Hlen provable_with provable_counts path t v b HL HR HV HA HS) as (g' & EG & HN).
    rewrite HG in EG. injection EG as <-.
    assert (HN' : inner_node H provable_with t v g b).
    { destruct path; [|exact HN]. destruct HN as [-> ->]. rewrite <- (wtree_root H Hlen t v HV). apply in_local; auto; try lia.
      right. right. reflexivity. }
    unfold prove, generalized_index, default_generalized_index.
    rewrite (with_gindex_ok H CONTEXT oc path t 1 g); auto; [|lia|apply along_countable; auto]. cbn [bind].
    rewrite (honest_ok t v g b HN' HL HR HV Hlt (prover_from g) eq_refl). reflexivity.
  Qed.
End Honest.
