(** The number of hashes of verification. *)
From Coq Require Import List NArith ZArith Bool Lia ZifyBool ZifyNat ZifyN Permutation Sorted.
From Coq Require Import Strings.Byte.
From Verif Require Import Prelude Types Merkleize Proofs Multiproofs SpecMerkle SpecMulti Cost CostVerify SpecVerify
  Lib GindexProof ProveProof LeafProof BindProof CostProof MultiProof.
Import ListNotations.
Open Scope N_scope.
Ltac Zify.zify_post_hook ::= Z.div_mod_to_equations.

Section Hash.
  Context (H : bytes -> bytes) (oc : bool).

  (** ** The results are those of the model *)

  Lemma derive_erased nodes : forall i index r, fst (derive_root_c H oc i nodes index r) = derive_root H oc i nodes index r.
  Proof.
    induction nodes as [|node nodes IH]; intros i index r; cbn [derive_root_c derive_root]; [reflexivity|].
    rewrite fst_bind. cbn [free fst]. destruct (upow2 oc i) as [p|e|p]; cbn [bind]; try reflexivity.
    rewrite fst_bind. cbn [free fst]. destruct (udiv index p) as [q|e|x]; cbn [bind]; try reflexivity.
    rewrite fst_bind. cbv zeta. destruct (negb (q mod 2 =? 0)); cbn [hash fst bind]; apply IH.
  Qed.

  Lemma branch_erased leaf branch depth index root :
    fst (is_valid_merkle_branch_c H oc leaf branch depth index root) = is_valid_merkle_branch H oc leaf branch depth index root.
  Proof.
    unfold is_valid_merkle_branch_c, is_valid_merkle_branch. destruct (negb (blen branch =? depth)); [reflexivity|].
    rewrite fst_bind, derive_erased. reflexivity.
  Qed.

  Lemma verify_erased p root : fst (verify_c H oc p root) = verify H oc p root.
  Proof.
    unfold verify_c, verify, is_valid_merkle_branch_for_generalized_index. destruct (log_2 (proof_index p)) as [d|]; [|reflexivity].
    rewrite fst_bind. cbn [free fst]. destruct (get_subtree_index oc (proof_index p)); cbn [bind]; try reflexivity.
    apply branch_erased.
  Qed.

  Lemma fold_erased nodes : forall i index r, fst (fold_branch_c H oc i nodes index r) = fold_branch H oc i nodes index r.
  Proof.
    induction nodes as [|node nodes IH]; intros i index r; cbn [fold_branch_c fold_branch]; [reflexivity|].
    rewrite fst_bind. cbn [free fst]. destruct (get_bit oc index i) as [b|e|p]; cbn [bind]; try reflexivity.
    rewrite fst_bind. cbv zeta. destruct b; cbn [hash fst bind]; apply IH.
  Qed.

  Lemma proof_erased leaf proof index root :
    fst (verify_merkle_proof_c H oc leaf proof index root) = verify_merkle_proof H oc leaf proof index root.
  Proof.
    unfold verify_merkle_proof_c, verify_merkle_proof, calculate_merkle_root. rewrite fst_bind. cbn [free fst].
    destruct (get_path_length index) as [d|e|p]; cbn [bind]; try reflexivity.
    rewrite fst_bind. destruct (negb (d =? blen proof)); [reflexivity|]. rewrite fold_erased. reflexivity.
  Qed.

  Lemma combine_erased fuel : forall todo m, fst (combine_nodes_c H fuel todo m) = combine_nodes H fuel todo m.
  Proof.
    induction fuel as [|fuel IH]; intros [|key rest] m; cbn [combine_nodes_c combine_nodes]; try reflexivity. cbv zeta.
    destruct (contains_key m key && contains_key m (sibling key) && negb (contains_key m (parent key))); [|apply IH].
    destruct (map_get m (sibling (N.lor key 1))) as [a|]; [|reflexivity].
    destruct (map_get m (N.lor key 1)) as [b|]; [|reflexivity].
    rewrite fst_bind. cbn [hash fst bind]. apply IH.
  Qed.

  Lemma multi_erased enum leaves proof indices root :
    fst (verify_merkle_multiproof_c H enum leaves proof indices root) = verify_merkle_multiproof H enum leaves proof indices root.
  Proof.
    unfold verify_merkle_multiproof_c, verify_merkle_multiproof. rewrite fst_bind. apply bind_ext; [|reflexivity].
    unfold calculate_multi_merkle_root_c, calculate_multi_merkle_root. destruct (negb (blen leaves =? blen indices)); [reflexivity|].
    rewrite fst_bind. cbn [free fst]. destruct (get_helper_indices enum indices) as [hs|e|p]; cbn [bind]; try reflexivity.
    destruct (negb (blen proof =? blen hs)); [reflexivity|]. cbv zeta. rewrite fst_bind, combine_erased. reflexivity.
  Qed.

  (** ** Single proofs *)

  Lemma derive_count nodes : forall i index r,
    snd (derive_root_c H oc i nodes index r) = N.min (blen nodes) (64 - i).
  Proof.
    induction nodes as [|node nodes IH]; intros i index r; cbn [derive_root_c]; [cbn [free snd]; change (blen []) with 0; lia|].
    unfold upow2. destruct (N.ltb_spec i 64) as [L|L].
    - cbn [free tally_bind fst snd]. unfold udiv. pose proof (N.pow_nonzero 2 i ltac:(lia)).
      destruct (N.eqb_spec (2 ^ i) 0); [congruence|]. cbn [free tally_bind fst snd].
      assert (E : forall x : bytes, snd (derive_root_c H oc (i + 1) nodes index x) = N.min (blen nodes) (64 - i - 1)).
      { intros x. rewrite IH. f_equal. lia. }
      destruct (negb (index / 2 ^ i mod 2 =? 0)); cbn [hash tally_bind fst snd]; rewrite E; unfold blen; cbn [length]; lia.
    - destruct oc; cbn [free tally_bind fst snd].
      + unfold blen. lia.
      + unfold udiv. cbn [N.eqb free tally_bind fst snd]. unfold blen. lia.
  Qed.

  Lemma fold_count nodes index : forall i r, i + blen nodes <= 64 ->
    snd (fold_branch_c H oc i nodes index r) = blen nodes.
  Proof.
    induction nodes as [|node nodes IH]; intros i r L; cbn [fold_branch_c]; [reflexivity|].
    assert (LN : blen (node :: nodes) = 1 + blen nodes) by (unfold blen; cbn [length]; lia). rewrite LN in *.
    unfold get_bit. destruct (N.ltb_spec i 64) as [L'|L']; [|lia]. cbn [free tally_bind fst snd].
    destruct (0 <? N.land index (N.shiftl 1 i)); cbn [hash tally_bind fst snd]; rewrite IH by lia; lia.
  Qed.

  Lemma snd_free {A B} (x : tally A) (f : A -> mres B) : snd (tally_bind x (fun a => free (f a))) = snd x.
  Proof. unfold tally_bind. destruct x as [[a|e|p] n]; cbn; lia. Qed.

  Lemma branch_count leaf branch depth index root :
    snd (is_valid_merkle_branch_c H oc leaf branch depth index root) = if blen branch =? depth then N.min depth 64 else 0.
  Proof.
    unfold is_valid_merkle_branch_c. destruct (N.eqb_spec (blen branch) depth) as [<-|NE]; cbn [negb]; [|reflexivity].
    rewrite snd_free, derive_count. f_equal.
  Qed.

  Lemma verify_count p root : proof_index p < 2 ^ 64 ->
    snd (verify_c H oc p root) =
      if (1 <=? proof_index p) && (blen (branch p) =? node_depth (proof_index p)) then node_depth (proof_index p) else 0.
  Proof.
    intros HB. unfold verify_c, node_depth. set (i := proof_index p) in *.
    destruct (N.eq_dec i 0) as [->|NE]; [reflexivity|].
    replace (log_2 i) with (Some (N.log2 i)) by (unfold log_2; destruct i; [congruence|reflexivity]).
    assert (LD : N.log2 i < 64) by (apply N.log2_lt_pow2; lia).
    assert (EI : exists x, get_subtree_index oc i = Ok x).
    { unfold get_subtree_index, get_depth. replace (log_2 i) with (Some (N.log2 i)) by (unfold log_2; destruct i; [congruence|reflexivity]).
      cbn [bind]. unfold get_index, upow2. destruct (N.ltb_spec (N.log2 i) 64); [|lia]. cbn [bind]. unfold urem.
      pose proof (N.pow_nonzero 2 (N.log2 i) ltac:(lia)). destruct (N.eqb_spec (2 ^ N.log2 i) 0); [congruence|]. eauto. }
    destruct EI as [x ->]. cbn [free tally_bind fst snd]. rewrite branch_count.
    destruct (N.leb_spec 1 i); [|lia]. cbn [andb]. destruct (blen (branch p) =? N.log2 i); lia.
  Qed.

  Lemma proof_count leaf proof index root : index < 2 ^ 64 ->
    snd (verify_merkle_proof_c H oc leaf proof index root) =
      if (1 <=? index) && (blen proof =? node_depth index) then node_depth index else 0.
  Proof.
    intros HB. unfold verify_merkle_proof_c, node_depth, get_path_length.
    destruct (N.eq_dec index 0) as [->|NE]; [reflexivity|].
    replace (log_2 index) with (Some (N.log2 index)) by (unfold log_2; destruct index; [congruence|reflexivity]).
    assert (LD : N.log2 index < 64) by (apply N.log2_lt_pow2; lia).
    cbn [free tally_bind fst snd]. rewrite snd_free. destruct (N.leb_spec 1 index); [|lia]. cbn [andb].
    rewrite N.eqb_sym. destruct (N.eqb_spec (blen proof) (N.log2 index)) as [E|NE']; cbn [negb]; [|reflexivity].
    rewrite fold_count; lia.
  Qed.
End Hash.

(** ** The nodes that a multiproof computes *)

Definition above_list (i : N) : list N := map (fun k => i / 2 ^ N.of_nat (S k)) (seq 0 (N.to_nat (N.log2 i))).

Lemma ancestor_list g i : ancestor g i <-> In g (above_list i).
Proof.
  unfold above_list. rewrite in_map_iff. split.
  - intros (Hg & k & Hk & E). exists (N.to_nat (k - 1)).
    replace (N.of_nat (S (N.to_nat (k - 1)))) with k by lia. split; [symmetry; exact E|]. apply in_seq.
    assert (k <= N.log2 i); [|lia]. destruct (N.le_gt_cases k (N.log2 i)) as [L|L]; [exact L|exfalso].
    rewrite N.div_small in E; [lia|]. destruct (N.eq_dec i 0) as [->|NE]; [apply N.neq_0_lt_0, N.pow_nonzero; lia|].
    apply N.log2_lt_pow2; lia.
  - intros (k & <- & HK). apply in_seq in HK.
    assert (Hi : 2 <= i).
    { destruct (N.le_gt_cases 2 i) as [L|L]; [exact L|]. assert (C : i = 0 \/ i = 1) by lia. destruct C as [->| ->]; cbn in HK; lia. }
    split; [|exists (N.of_nat (S k)); split; [lia|reflexivity]].
    pose proof (N.log2_spec i ltac:(lia)) as [LO _].
    apply N.div_le_lower_bound; [apply N.pow_nonzero; lia|]. rewrite N.mul_1_r.
    eapply N.le_trans; [|exact LO]. apply N.pow_le_mono_r; lia.
Qed.

Definition computed_list (indices : list N) : list N :=
  filter (fun g => negb (memN g indices)) (nodup N.eq_dec (flat_map above_list indices)).

Lemma computed_list_ok indices : work_list indices (computed_list indices).
Proof.
  unfold computed_list. split; [apply NoDup_filter, NoDup_nodup|].
  intros g. rewrite filter_In, nodup_In, in_flat_map, negb_true_iff, <- not_true_iff_false, memN_in.
  unfold to_compute. apply and_iff_compat_r. split; intros (i & HI & HA); exists i; (split; [exact HI|]); apply ancestor_list, HA.
Qed.

Lemma needed_up indices g : 1 <= g -> needed indices (2 * g) -> exists i, In i indices /\ ancestor g i.
Proof.
  intros Hg [HI|[[HS _]|(i & HI & HA)]].
  - exists (2 * g). split; [exact HI|]. replace g with (2 * g / 2) at 1 by lia. apply parent_ancestor. lia.
  - rewrite <- sibling_spec, sibling_even in HS. destruct HS as (_ & i & HI & [E|HA]).
    + exists i. split; [exact HI|]. subst i. replace g with ((2 * g + 1) / 2) at 1 by lia. apply parent_ancestor. lia.
    + exists i. split; [exact HI|]. apply (ancestor_trans g (2 * g + 1) i); [|exact HA].
      replace g with ((2 * g + 1) / 2) at 1 by lia. apply parent_ancestor. lia.
  - exists i. split; [exact HI|]. apply (ancestor_trans g (2 * g) i); [|exact HA].
    replace g with (2 * g / 2) at 1 by lia. apply parent_ancestor. lia.
Qed.

Lemma ancestor_not_helper indices g i : In i indices -> ancestor g i -> ~ helper indices g.
Proof.
  intros HI HA [HS HN]. destruct (N.eq_dec g 1) as [->|NE].
  - destruct HS as [C _]. cbn in C. lia.
  - apply HN. split; [destruct HA; lia|]. eauto.
Qed.

Section Loop.
  Context (H : bytes -> bytes) (l : list (N * bytes)).

  (** [d] lists the nodes of [m] that were not given. *)
  Definition added (m : list (N * bytes)) (d : list N) : Prop :=
    NoDup d /\ (forall g, map_get m g <> None <-> given l g <> None \/ In g d) /\ forall g, In g d -> given l g = None /\ 1 <= g.

  Lemma combine_count fuel : forall todo m d m' n, added m d ->
    combine_nodes_c H fuel todo m = (Ok m', n) -> exists d', added m' d' /\ blen d' = blen d + n.
  Proof.
    induction fuel as [|fuel IH]; intros [|key rest] m d m' n HA E; cbn [combine_nodes_c] in E.
    - injection E as -> <-. exists d. split; [exact HA|lia].
    - discriminate.
    - injection E as -> <-. exists d. split; [exact HA|lia].
    - cbv zeta in E. unfold parent in E.
      destruct (contains_key m key && contains_key m (sibling key) && negb (contains_key m (key / 2))) eqn:EC; [|exact (IH _ _ _ _ _ HA E)].
      rewrite !andb_true_iff, !contains_get, negb_true_iff, <- not_true_iff_false, contains_get in EC.
      destruct EC as [[PK PS] MP].
      assert (HK : 2 <= key).
      { destruct (N.le_gt_cases 2 key) as [L|L]; [exact L|exfalso].
        assert (C : key = 0 \/ key = 1) by lia. destruct C as [->| ->]; apply MP; assumption. }
      destruct (map_get m (sibling (N.lor key 1))) as [a|]; [|discriminate].
      destruct (map_get m (N.lor key 1)) as [b|]; [|discriminate].
      cbn [hash tally_bind fst snd] in E.
      destruct (combine_nodes_c H fuel (rest ++ [key / 2]) (map_insert m (key / 2) (H (a ++ b)))) as [r k] eqn:E'.
      cbn [fst snd] in E.
      assert (Er : r = Ok m') by congruence. assert (En : n = 1 + k) by congruence. subst r n. clear E.
      destruct HA as (ND & HM & HG).
      assert (G0 : given l (key / 2) = None).
      { destruct (given l (key / 2)) eqn:G; [|reflexivity]. exfalso. apply MP, HM. left. rewrite G. discriminate. }
      assert (HA2 : added (map_insert m (key / 2) (H (a ++ b))) (key / 2 :: d)).
      { split; [constructor; [|exact ND]|split].
        * intros C. apply MP, HM. right. exact C.
        * intros g. rewrite map_get_insert. cbn [In]. destruct (N.eqb_spec (key / 2) g) as [->|NE].
          -- split; [auto|discriminate].
          -- rewrite HM. intuition.
        * intros g [<-|HI]; [split; [exact G0|lia]|auto]. }
      destruct (IH _ _ _ _ _ HA2 E') as (d' & HA' & L').
      exists d'. split; [exact HA'|]. rewrite L'. unfold blen. cbn [length]. lia.
  Qed.
End Loop.

Section Multi.
  Context (H : bytes -> bytes) (enum : list N -> list N) (Henum : forall l, Permutation (enum l) l).

  Lemma opens_needed indices hs l : helper_list indices hs -> (forall g, given l g <> None -> In g indices \/ In g hs) ->
    forall g v, opens H l g v -> 1 <= g -> needed indices g.
  Proof.
    intros HH HG g v. induction 1 as [g v E|g a b E Ha IHa Hb IHb]; intros Hg.
    - destruct (HG g) as [HI|HI]; [congruence|left; exact HI|right; left; apply HH, HI].
    - right. right. apply needed_up; [exact Hg|]. apply IHa. lia.
  Qed.

  Theorem multi_count indices leaves proof hs root : helper_list indices hs ->
    exists d, work_list indices d /\
      snd (verify_merkle_multiproof_c H enum leaves proof indices root) =
        if (blen leaves =? blen indices) && (blen proof =? blen hs) then blen d else 0.
  Proof.
    intros HH. unfold verify_merkle_multiproof_c. rewrite snd_free. unfold calculate_multi_merkle_root_c.
    assert (HD : exists d, work_list indices d) by (eexists; apply computed_list_ok).
    destruct (N.eqb_spec (blen leaves) (blen indices)) as [L1|L1]; cbn [negb andb].
    2: { destruct HD as [d HD]. exists d. split; [exact HD|reflexivity]. }
    destruct (helper_indices_ok enum Henum indices) as (hs' & E & HH'). rewrite E. cbn [free tally_bind fst snd].
    rewrite (helper_list_unique _ _ _ HH' HH).
    destruct (N.eqb_spec (blen proof) (blen hs)) as [L2|L2]; cbn [negb].
    2: { destruct HD as [d HD]. exists d. split; [exact HD|reflexivity]. }
    clear HD. cbv zeta. rewrite snd_free.
    set (l := assigned indices leaves hs proof).
    set (m := insert_all (insert_all [] (combine indices leaves)) (combine hs proof)).
    assert (HM : forall g, map_get m g = given l g) by (intros; apply insert_all_2).
    assert (HA : forall g, given l g <> None <-> In g indices \/ In g hs).
    { intros g. apply assigned_in; unfold blen in *; lia. }
    destruct (combine_nodes_ok H l (work (sort_desc (enum (keys_of m)))) (sort_desc (enum (keys_of m))) m)
      as (m' & E' & X & O & P).
    - unfold work. lia.
    - intros g v HG. rewrite HM. exact HG.
    - intros g v _ HG. constructor. rewrite <- HM. exact HG.
    - intros k Hk PK _ _. left. apply (perm_in _ _ k (sort_desc_perm _)), (perm_in _ _ k (Henum _)), map_get_keys, PK.
    - rewrite <- combine_erased in E'.
      destruct (combine_nodes_c H (work (sort_desc (enum (keys_of m)))) (sort_desc (enum (keys_of m))) m) as [r n] eqn:EC.
      cbn [fst] in E'. subst r.
      assert (HA0 : added l m []).
      { split; [constructor|split]; [|intros g []]. intros g. rewrite HM. cbn [In]. tauto. }
      destruct (combine_count H l _ _ _ _ _ _ HA0 EC) as (d & (ND & HD & HG) & L).
      exists d. cbn [snd]. split; [|change (blen (@nil N)) with 0 in L; lia]. split; [exact ND|].
      intros g. split.
      + intros HI. destruct (HG g HI) as [G0 Hg]. split.
        * assert (HX : map_get m' g <> None) by (apply HD; right; exact HI).
          destruct (map_get m' g) as [v|] eqn:EV; [|congruence].
          assert (HN : needed indices g).
          { apply (opens_needed indices hs l HH) with (v := v); [intros; apply HA; assumption| |exact Hg]. apply O; [exact Hg|exact EV]. }
          destruct HN as [C|[C|C]]; [exfalso|exfalso|exact C]; revert G0; apply HA; [left; exact C|right; apply HH, C].
        * intros C. revert G0. apply HA. left. exact C.
      + intros [(i & HI & HAn) HN].
        assert (Hg : 1 <= g) by (destruct HAn; assumption).
        destruct (opens_exists indices H l) with (g := g) as (v & Ov); [|exact Hg|right; right; eauto|].
        { intros x [C|C]; apply HA; [auto|]. right. apply HH, C. }
        pose proof (closed_complete H l m' X P g v Ov Hg) as PR. apply HD in PR as [C|C]; [exfalso|exact C].
        apply HA in C as [C|C]; [exact (HN C)|]. exact (ancestor_not_helper indices g i HI HAn (proj1 (proj2 HH g) C)).
  Qed.
End Multi.

(** ** How many they are *)

Lemma work_unique indices d d' : work_list indices d -> work_list indices d' -> blen d = blen d'.
Proof.
  intros [N1 H1] [N2 H2]. unfold blen. f_equal. apply Permutation_length, NoDup_Permutation; try assumption.
  intros g. rewrite H1, H2. reflexivity.
Qed.

Lemma work_depths indices d : work_list indices d -> blen d <= depths indices.
Proof.
  intros [ND HD].
  assert (HI : incl d (flat_map above_list indices)).
  { intros g HG. apply HD in HG as [(i & HI & HA) _]. apply in_flat_map. exists i. split; [exact HI|]. apply ancestor_list, HA. }
  apply (NoDup_incl_length ND) in HI. clear ND HD. unfold blen.
  assert (E : N.of_nat (length (flat_map above_list indices)) = depths indices).
  { clear HI. induction indices as [|i r IH]; cbn [flat_map depths fold_right]; [reflexivity|].
    unfold above_list at 1. rewrite app_length, map_length, seq_length. unfold node_depth at 1. unfold depths in IH. lia. }
  lia.
Qed.

Lemma nodup_app {A} (a b : list A) : NoDup a -> NoDup b -> (forall x, In x a -> In x b -> False) -> NoDup (a ++ b).
Proof.
  intros HA HB. induction HA as [|x a HN HA IH]; intros HD; cbn [app]; [exact HB|]. constructor.
  - rewrite in_app_iff. intros [C|C]; [exact (HN C)|]. apply (HD x); [left; reflexivity|exact C].
  - apply IH. intros y C1 C2. apply (HD y); [right; exact C1|exact C2].
Qed.

Lemma helper_not_index indices g : helper indices g -> ~ In g indices.
Proof.
  intros [HS HN] HI. apply HN. split; [|eauto]. destruct HS as [HS _]. rewrite <- sibling_spec in HS. apply sibling_ge. exact HS.
Qed.

Lemma work_independent indices hs d : independent indices -> indices <> [] -> Forall (fun i => 1 <= i) indices ->
  helper_list indices hs -> work_list indices d -> blen d + 1 = blen indices + blen hs.
Proof.
  intros [NI HI] NE HP [HS HH] [ND HD].
  assert (NH : NoDup hs).
  { clear - HS. induction HS as [|a l HS IH HF]; constructor; auto. intros C. rewrite Forall_forall in HF. specialize (HF a C). lia. }
  assert (HDn : forall g, In g d <-> exists i, In i indices /\ ancestor g i).
  { intros g. rewrite HD. unfold to_compute. split; [tauto|]. intros (i & Hi & Ha). split; [eauto|]. intros C. exact (HI g i C Hi Ha). }
  assert (H1 : forall g, In g d -> 1 <= g) by (intros g C; apply HDn in C as (i & _ & [C _]); exact C).
  set (kids := flat_map (fun g => [2 * g; 2 * g + 1]) d).
  assert (NK : NoDup kids /\ forall x, In x kids <-> In (x / 2) d).
  { unfold kids. clear - ND. induction ND as [|g d HN ND [IH1 IH2]]; cbn [flat_map app]; [split; [constructor|intros x; reflexivity]|].
    split.
    - constructor; [|constructor; [|exact IH1]].
      + cbn [In]. rewrite IH2. replace (2 * g / 2) with g by lia. intros [C|C]; [lia|exact (HN C)].
      + rewrite IH2. replace ((2 * g + 1) / 2) with g by lia. exact HN.
    - intros x. cbn [In]. rewrite IH2. split; [intros [E|[E|C]]; auto; left; lia|].
      intros [E|C]; [|auto]. assert (x = 2 * g \/ x = 2 * g + 1) by lia. intuition. }
  destruct NK as [NK HK].
  assert (HPm : Permutation (1 :: kids) (indices ++ hs ++ d)).
  { apply NoDup_Permutation.
    - constructor; [|exact NK]. rewrite HK. change (1 / 2) with 0. intros C. specialize (H1 0 C). lia.
    - apply nodup_app; [exact NI|apply nodup_app; [exact NH|exact ND|]|].
      + intros x C1 C2. apply HH in C1. apply HDn in C2 as (i & Hi & Ha). exact (ancestor_not_helper indices x i Hi Ha C1).
      + intros x C1 C2. apply in_app_iff in C2 as [C2|C2].
        * apply HH in C2. exact (helper_not_index indices x C2 C1).
        * apply HDn in C2 as (i & Hi & Ha). exact (HI x i C1 Hi Ha).
    - assert (HNd : forall x, needed indices x <-> In x indices \/ In x hs \/ In x d).
      { intros x. unfold needed. rewrite HDn, HH. reflexivity. }
      intros x. rewrite !in_app_iff, <- HNd. cbn [In]. rewrite HK, HDn. split.
      + intros [<-|(i & Hi & Ha)].
        * apply needed_root. destruct indices as [|i r]; [congruence|]. exists i. split; [left; reflexivity|]. inversion HP; assumption.
        * assert (H2 : 1 <= x / 2) by (destruct Ha; assumption).
          destruct (needed_children indices (x / 2) H2) as [K1 K2]; [eauto|].
          assert (x = 2 * (x / 2) \/ x = 2 * (x / 2) + 1) as [E|E] by lia; rewrite E; assumption.
      + intros HN. destruct (N.eq_dec x 1) as [E|N1]; [left; congruence|right].
        assert (H2 : 2 <= x).
        { destruct HN as [C|[C|(i & _ & [C _])]]; [|destruct C as [C _]|lia].
          - rewrite Forall_forall in HP. specialize (HP x C). lia.
          - destruct C as [C _]. rewrite <- sibling_spec in C. apply sibling_ge. exact C. }
        assert (E : x = 2 * (x / 2) \/ x = 2 * (x / 2) + 1) by lia.
        assert (Hp : ancestor (x / 2) x) by (apply parent_ancestor; exact H2).
        destruct HN as [C|[[(_ & i & Hi & C) _]|(i & Hi & Ha)]].
        * exists x. auto.
        * exists i. split; [exact Hi|]. rewrite <- sibling_spec in C. rewrite <- (sibling_half x).
          assert (Hq : ancestor (sibling x / 2) (sibling x)) by (apply parent_ancestor; apply -> sibling_ge; exact H2).
          destruct C as [<-|C]; [exact Hq|]. exact (ancestor_trans _ _ _ Hq C).
        * exists i. split; [exact Hi|]. exact (ancestor_trans _ _ _ Hp Ha). }
  apply Permutation_length in HPm. cbn [length] in HPm. rewrite !app_length in HPm.
  assert (LK : length kids = (2 * length d)%nat).
  { unfold kids. clear. induction d as [|g d IH]; cbn [flat_map app length]; [reflexivity|]. rewrite IH. lia. }
  unfold blen. lia.
Qed.
