(** Multiproofs. *)
From Coq Require Import List NArith ZArith Bool Lia ZifyBool ZifyNat ZifyN Permutation Sorted.
From Coq Require Import Strings.Byte.
From Verif Require Import Prelude Types Bitvec Ser De Impls Merkleize Proofs Multiproofs SpecSer SpecMerkle SpecMulti
  Lib ChunkLib GindexProof ProveProof LeafProof BindProof.
Import ListNotations.
Open Scope N_scope.
Ltac Zify.zify_post_hook ::= Z.div_mod_to_equations.

(** ** Siblings and parents *)

Lemma half_cases j : exists h, j = 2 * h \/ j = 2 * h + 1.
Proof. exists (j / 2). lia. Qed.

Lemma sibling_even h : sibling (2 * h) = 2 * h + 1.
Proof. destruct h; reflexivity. Qed.

Lemma sibling_odd h : sibling (2 * h + 1) = 2 * h.
Proof. destruct h; reflexivity. Qed.

Lemma sibling_spec j : sibling j = spec_sibling j.
Proof.
  unfold spec_sibling. destruct (half_cases j) as [h [->| ->]].
  - rewrite sibling_even, N.even_mul. reflexivity.
  - rewrite sibling_odd, N.even_add, N.even_mul. cbn [orb N.even Bool.eqb]. lia.
Qed.

Lemma sibling_half j : sibling j / 2 = j / 2.
Proof. destruct (half_cases j) as [h [->| ->]]; rewrite ?sibling_even, ?sibling_odd; lia. Qed.

Lemma sibling_sibling j : sibling (sibling j) = j.
Proof. destruct (half_cases j) as [h [->| ->]]; rewrite ?sibling_even, ?sibling_odd, ?sibling_even, ?sibling_odd; reflexivity. Qed.

Lemma sibling_ge j : 2 <= j <-> 2 <= sibling j.
Proof. destruct (half_cases j) as [h [->| ->]]; rewrite ?sibling_even, ?sibling_odd; lia. Qed.

Lemma sibling_gt1 j : (1 <? sibling j) = (1 <? j).
Proof. destruct (half_cases j) as [h [->| ->]]; rewrite ?sibling_even, ?sibling_odd; lia. Qed.

Lemma sibling_size j : 2 <= j -> N.size (sibling j) = N.size j.
Proof.
  destruct (half_cases j) as [h [->| ->]]; rewrite ?sibling_even, ?sibling_odd; intros; destruct h; try lia; reflexivity.
Qed.

Lemma size_half j : 1 <= j -> N.size j = 1 + N.size (j / 2).
Proof.
  intros Hj. destruct (half_cases j) as [h [->| ->]].
  - replace (2 * h / 2) with h by lia. destruct h as [|p]; [lia|]. change (N.pos (Pos.succ (Pos.size p)) = 1 + N.pos (Pos.size p)). lia.
  - replace ((2 * h + 1) / 2) with h by lia. destruct h as [|p]; [reflexivity|]. change (N.pos (Pos.succ (Pos.size p)) = 1 + N.pos (Pos.size p)). lia.
Qed.

Lemma log2_half j : 2 <= j -> N.to_nat (N.log2 j) = S (N.to_nat (N.log2 (j / 2))).
Proof.
  intros Hj. destruct (half_cases j) as [h [->| ->]].
  - replace (2 * h / 2) with h by lia. rewrite N.log2_double by lia. lia.
  - replace ((2 * h + 1) / 2) with h by lia. rewrite N.log2_succ_double by lia. lia.
Qed.

Lemma div_pow_succ i k : i / 2 ^ (k + 1) = i / 2 / 2 ^ k.
Proof. rewrite N.add_1_r, N.pow_succ_r', N.div_div; [reflexivity|lia|]. apply N.pow_nonzero. lia. Qed.

Lemma div_pow_succ' i k : i / 2 ^ (k + 1) = i / 2 ^ k / 2.
Proof. rewrite N.add_1_r, N.pow_succ_r', (N.mul_comm 2), N.div_div; [reflexivity| |lia]. apply N.pow_nonzero. lia. Qed.

(** ** Paths *)

Fixpoint ups (n : nat) (f : N) : list N :=
  match n with
  | O => []
  | S n => f :: ups n (f / 2)
  end.

Definition path_list (f : N) : list N := ups (N.to_nat (N.log2 f)) f.

Lemma ups_length n : forall f, length (ups n f) = n.
Proof. induction n; intros; cbn; auto. Qed.

Lemma ups_firstn n : forall f, firstn n (ups (S n) f) = ups n f.
Proof. induction n as [|n IH]; intros f; [reflexivity|]. change (ups (S (S n)) f) with (f :: ups (S n) (f / 2)).
  cbn [firstn]. rewrite IH. reflexivity. Qed.

Lemma ups_in n : forall f j, In j (ups n f) <-> exists k, k < N.of_nat n /\ j = f / 2 ^ k.
Proof.
  induction n as [|n IH]; intros f j; cbn [ups In].
  - split; [tauto|]. intros (k & Hk & _). lia.
  - rewrite IH. split.
    + intros [<-|(k & Hk & ->)].
      * exists 0. split; [lia|]. rewrite N.pow_0_r, N.div_1_r. reflexivity.
      * exists (k + 1). split; [lia|]. symmetry. apply div_pow_succ.
    + intros (k & Hk & ->). destruct (N.eq_dec k 0) as [->|NZ].
      * left. rewrite N.pow_0_r, N.div_1_r. reflexivity.
      * right. exists (k - 1). split; [lia|]. replace k with (k - 1 + 1) at 1 by lia. apply div_pow_succ.
Qed.

Lemma collect_path fuel : forall f acc, N.size f <= N.of_nat fuel ->
  collect_up fuel parent f acc = Ok (acc ++ ups (N.to_nat (N.log2 f)) (f / 2)).
Proof.
  induction fuel as [|fuel IH]; intros f acc Hf; cbn [collect_up]; destruct (N.ltb_spec 1 f) as [L|L].
  - destruct f; [lia|]. cbn in Hf. lia.
  - assert (E : f = 0 \/ f = 1) by lia. destruct E as [->| ->]; cbn [N.log2 N.to_nat ups]; rewrite app_nil_r; reflexivity.
  - unfold parent at 2 3. rewrite IH by (rewrite (size_half f) in Hf by lia; lia).
    rewrite <- app_assoc, (log2_half f) by lia. reflexivity.
  - assert (E : f = 0 \/ f = 1) by lia. destruct E as [->| ->]; cbn [N.log2 N.to_nat ups]; rewrite app_nil_r; reflexivity.
Qed.

Lemma collect_branch fuel : forall f acc, N.size (sibling f) <= N.of_nat fuel ->
  collect_up fuel (fun f => sibling (parent f)) (sibling f) acc =
  Ok (acc ++ map sibling (ups (N.to_nat (N.log2 f)) (f / 2))).
Proof.
  induction fuel as [|fuel IH]; intros f acc Hf; cbn [collect_up]; rewrite sibling_gt1; destruct (N.ltb_spec 1 f) as [L|L].
  - rewrite sibling_size in Hf by lia. destruct f; [lia|]. cbn in Hf. lia.
  - assert (E : f = 0 \/ f = 1) by lia. destruct E as [->| ->]; cbn [N.log2 N.to_nat ups map]; rewrite app_nil_r; reflexivity.
  - unfold parent at 2 3. rewrite sibling_half. rewrite IH.
    + rewrite <- app_assoc, (log2_half f) by lia. reflexivity.
    + rewrite sibling_size, (size_half f) in Hf by lia. destruct (N.ltb_spec 1 (f / 2)) as [L'|L'].
      * rewrite sibling_size by lia. lia.
      * assert (E : f / 2 = 1) by lia. rewrite E in *. cbn. lia.
  - assert (E : f = 0 \/ f = 1) by lia. destruct E as [->| ->]; cbn [N.log2 N.to_nat ups map]; rewrite app_nil_r; reflexivity.
Qed.

Lemma path_indices_ok i : get_path_indices i = Ok (path_list i).
Proof.
  unfold get_path_indices. rewrite collect_path by lia. cbn [bind]. f_equal.
  change ([i] ++ ups (N.to_nat (N.log2 i)) (i / 2)) with (ups (S (N.to_nat (N.log2 i))) i).
  unfold drop_last. rewrite ups_length. replace (S (N.to_nat (N.log2 i)) - 1)%nat with (N.to_nat (N.log2 i)) by lia.
  apply ups_firstn.
Qed.

Lemma branch_indices_ok i : get_branch_indices i = Ok (map sibling (path_list i)).
Proof.
  unfold get_branch_indices. rewrite collect_branch by lia. cbn [bind]. f_equal.
  change ([sibling i] ++ map sibling (ups (N.to_nat (N.log2 i)) (i / 2)))
    with (map sibling (ups (S (N.to_nat (N.log2 i))) i)).
  unfold drop_last. rewrite map_length, ups_length, firstn_map.
  replace (S (N.to_nat (N.log2 i)) - 1)%nat with (N.to_nat (N.log2 i)) by lia.
  rewrite ups_firstn. reflexivity.
Qed.

Lemma path_list_in i j : In j (path_list i) <-> 2 <= j /\ exists k, j = i / 2 ^ k.
Proof.
  unfold path_list. rewrite ups_in. rewrite Nnat.N2Nat.id.
  assert (HP : forall k, 0 < 2 ^ k) by (intros; apply N.neq_0_lt_0, N.pow_nonzero; lia).
  split.
  - intros (k & Hk & ->). split; [|eauto].
    destruct (N.eq_dec i 0) as [->|NZ]; [cbn in Hk; lia|].
    pose proof (N.log2_spec i ltac:(lia)) as [LO _].
    apply N.div_le_lower_bound; [specialize (HP k); lia|].
    rewrite <- (N.pow_succ_r' 2 k) || rewrite N.mul_comm, <- N.pow_succ_r'.
    eapply N.le_trans; [|exact LO]. apply N.pow_le_mono_r; lia.
  - intros (H2 & k & ->). exists k. split; [|reflexivity].
    destruct (N.eq_dec i 0) as [->|NZ]; [rewrite N.div_0_l in H2 by (specialize (HP k); lia); lia|].
    destruct (N.lt_ge_cases k (N.log2 i)) as [L|L]; [exact L|exfalso].
    pose proof (N.log2_spec i ltac:(lia)) as [_ HI].
    assert (i / 2 ^ k < 2); [|lia].
    apply N.div_lt_upper_bound; [specialize (HP k); lia|].
    eapply N.lt_le_trans; [exact HI|]. rewrite N.mul_comm, <- N.pow_succ_r'. apply N.pow_le_mono_r; lia.
Qed.

Lemma on_path_list indices j : on_path indices j <-> exists i, In i indices /\ In j (path_list i).
Proof.
  unfold on_path, ancestor. split.
  - intros (H2 & i & HI & HJ). exists i. split; [exact HI|]. apply path_list_in. split; [exact H2|].
    destruct HJ as [->|(_ & k & _ & ->)]; [|eauto]. exists 0. rewrite N.pow_0_r, N.div_1_r. reflexivity.
  - intros (i & HI & HJ). apply path_list_in in HJ as (H2 & k & ->). split; [exact H2|]. exists i. split; [exact HI|].
    destruct (N.eq_dec k 0) as [->|NZ]; [left; rewrite N.pow_0_r, N.div_1_r; reflexivity|].
    right. split; [lia|]. exists k. split; [lia|reflexivity].
Qed.

Lemma on_path_dec indices j : on_path indices j \/ ~ on_path indices j.
Proof.
  rewrite on_path_list. destruct (existsb (fun i => existsb (N.eqb j) (path_list i)) indices) eqn:E.
  - left. apply existsb_exists in E as (i & HI & E). apply existsb_exists in E as (x & HX & E).
    apply N.eqb_eq in E. subst x. eauto.
  - right. intros (i & HI & HJ). assert (E' : existsb (fun i => existsb (N.eqb j) (path_list i)) indices = true); [|congruence].
    apply existsb_exists. exists i. split; [exact HI|]. apply existsb_exists. exists j. split; [exact HJ|]. apply N.eqb_refl.
Qed.

(** ** Sets *)

Lemma memN_in x l : memN x l = true <-> In x l.
Proof.
  unfold memN. rewrite existsb_exists. split.
  - intros (y & HI & E). apply N.eqb_eq in E. subst y. exact HI.
  - intros HI. exists x. split; [exact HI|apply N.eqb_refl].
Qed.

Lemma set_insert_in s x y : In y (set_insert s x) <-> In y s \/ y = x.
Proof.
  unfold set_insert. destruct (memN x s) eqn:E.
  - apply memN_in in E. split; [auto|]. intros [HI| ->]; auto.
  - rewrite in_app_iff. cbn. firstorder.
Qed.

Lemma set_insert_nodup s x : NoDup s -> NoDup (set_insert s x).
Proof.
  intros HN. unfold set_insert. destruct (memN x s) eqn:E; [exact HN|].
  apply (Permutation_NoDup (l := x :: s)); [apply Permutation_cons_append|].
  constructor; [|exact HN]. rewrite <- memN_in. congruence.
Qed.

Lemma set_extend_in l : forall s y, In y (set_extend s l) <-> In y s \/ In y l.
Proof.
  induction l as [|x l IH]; intros s y; cbn [set_extend fold_left In]; [tauto|].
  unfold set_extend in IH. rewrite IH, set_insert_in. firstorder.
Qed.

Lemma set_extend_nodup l : forall s, NoDup s -> NoDup (set_extend s l).
Proof.
  induction l as [|x l IH]; intros s HN; cbn [set_extend fold_left]; [exact HN|].
  apply IH, set_insert_nodup, HN.
Qed.

(** ** Sorting *)

Lemma insert_desc_perm x l : Permutation (insert_desc x l) (x :: l).
Proof.
  induction l as [|y l IH]; cbn [insert_desc]; [reflexivity|]. destruct (y <=? x); [reflexivity|].
  rewrite IH. apply perm_swap.
Qed.

Lemma sort_desc_perm l : Permutation (sort_desc l) l.
Proof. induction l as [|x l IH]; cbn; [reflexivity|]. rewrite insert_desc_perm, IH. reflexivity. Qed.

Lemma insert_desc_sorted x l : StronglySorted (fun a b => b <= a) l -> StronglySorted (fun a b => b <= a) (insert_desc x l).
Proof.
  induction 1 as [|y l HS IH HF]; cbn [insert_desc].
  - repeat constructor.
  - destruct (N.leb_spec y x) as [L|L].
    + constructor; [constructor; assumption|]. constructor; [exact L|].
      eapply Forall_impl; [|exact HF]. intros; cbn in *. lia.
    + constructor; [exact IH|]. rewrite insert_desc_perm. constructor; [lia|exact HF].
Qed.

Lemma sort_desc_sorted l : StronglySorted (fun a b => b <= a) (sort_desc l).
Proof. induction l; cbn; [constructor|]. apply insert_desc_sorted. assumption. Qed.

Lemma sort_desc_strict l : NoDup l -> StronglySorted (fun a b => b < a) (sort_desc l).
Proof.
  intros HN. assert (HN' : NoDup (sort_desc l)) by (eapply Permutation_NoDup; [symmetry; apply sort_desc_perm|exact HN]).
  pose proof (sort_desc_sorted l) as HS. revert HN'. induction HS as [|x r HS IH HF]; intros HN'; [constructor|].
  inversion HN' as [|? ? HX HR]; subst. constructor; [apply IH, HR|].
  rewrite Forall_forall in *. intros y HY. specialize (HF y HY). assert (x <> y) by congruence. lia.
Qed.

Lemma strict_unique (a : list N) : forall b,
  StronglySorted (fun a b => b < a) a -> StronglySorted (fun a b => b < a) b ->
  (forall j, In j a <-> In j b) -> a = b.
Proof.
  induction a as [|x a IH]; intros [|y b] HA HB HI; [reflexivity| | |].
  - exfalso. apply (HI y). now left.
  - exfalso. apply (HI x). now left.
  - inversion HA as [|? ? HA' FA]; inversion HB as [|? ? HB' FB]; subst.
    rewrite Forall_forall in FA, FB.
    assert (x = y).
    { assert (HX : In x (y :: b)) by (apply HI; now left). assert (HY : In y (x :: a)) by (apply HI; now left).
      destruct HX as [->|HX]; [reflexivity|]. destruct HY as [->|HY]; [reflexivity|].
      specialize (FA _ HY). specialize (FB _ HX). lia. }
    subst y. f_equal. apply IH; auto. intros j. split; intros HJ.
    + assert (HX : In j (x :: b)) by (apply HI; now right). destruct HX as [->|HX]; [|exact HX].
      specialize (FA _ HJ). lia.
    + assert (HX : In j (x :: a)) by (apply HI; now right). destruct HX as [->|HX]; [|exact HX].
      specialize (FB _ HJ). lia.
Qed.

Lemma helper_list_unique indices a b : helper_list indices a -> helper_list indices b -> a = b.
Proof.
  intros [SA IA] [SB IB]. apply strict_unique; auto. intros j. rewrite IA, IB. reflexivity.
Qed.

(** ** Helper indices *)

Lemma helper_sets indices : forall B P, exists B' P',
  foldM (fun s index =>
           do b <- get_branch_indices index;
           do p <- get_path_indices index;
           Ok (set_extend (fst s) b, set_extend (snd s) p)) (B, P) indices = Ok (B', P') /\
  (NoDup B -> NoDup B') /\
  (forall j, In j B' <-> In j B \/ exists i, In i indices /\ In (sibling j) (path_list i)) /\
  (forall j, In j P' <-> In j P \/ exists i, In i indices /\ In j (path_list i)).
Proof.
  induction indices as [|i indices IH]; intros B P; cbn [foldM].
  - exists B, P. split; [reflexivity|]. split; [auto|]. split; intros j; split; auto; intros [?|(? & [] & _)]; auto.
  - rewrite branch_indices_ok, path_indices_ok. cbn [bind fst snd].
    destruct (IH (set_extend B (map sibling (path_list i))) (set_extend P (path_list i))) as (B' & P' & E & HN & HB & HP).
    exists B', P'. split; [exact E|]. split; [intros; apply HN, set_extend_nodup; assumption|]. split; intros j.
    + rewrite HB, set_extend_in, in_map_iff. split.
      * intros [[HJ|(x & <- & HX)]|(i' & HI & HJ)]; [auto| |right; exists i'; cbn; auto].
        right. exists i. rewrite sibling_sibling. cbn. auto.
      * intros [HJ|(i' & [<-|HI] & HJ)]; [auto| |eauto].
        left. right. exists (sibling j). rewrite sibling_sibling. auto.
    + rewrite HP, set_extend_in. split.
      * intros [[HJ|HJ]|(i' & HI & HJ)]; [auto| |]; right; [exists i|exists i']; cbn; auto.
      * intros [HJ|(i' & [<-|HI] & HJ)]; [auto|auto|eauto].
Qed.

Lemma perm_in {A} (l l' : list A) x : Permutation l l' -> (In x l <-> In x l').
Proof. intros HP. split; apply Permutation_in; [|symmetry]; exact HP. Qed.

Section Enum.
  Context (enum : list N -> list N) (Henum : forall l, Permutation (enum l) l).

  Lemma helper_indices_ok indices : exists hs, get_helper_indices enum indices = Ok hs /\ helper_list indices hs.
  Proof.
    unfold get_helper_indices. destruct (helper_sets indices [] []) as (B & P & E & HN & HB & HP). rewrite E. cbn [bind].
    eexists. split; [reflexivity|]. split.
    - apply sort_desc_strict, NoDup_filter. eapply Permutation_NoDup; [symmetry; apply Henum|]. apply HN. constructor.
    - intros j. rewrite (perm_in _ _ j (sort_desc_perm _)), filter_In, (perm_in _ _ j (Henum B)), HB.
      unfold helper. rewrite <- sibling_spec, !on_path_list.
      assert (HM : negb (memN j P) = true <-> ~ exists i, In i indices /\ In j (path_list i)).
      { rewrite negb_true_iff, <- not_true_iff_false, memN_in, HP. cbn [In]. tauto. }
      rewrite HM. cbn [In]. tauto.
  Qed.
End Enum.

(** ** Maps *)

Lemma map_get_insert m k v g : map_get (map_insert m k v) g = if k =? g then Some v else map_get m g.
Proof.
  induction m as [|[x w] m IH]; cbn [map_insert map_get].
  - reflexivity.
  - destruct (N.eqb_spec x k) as [->|NE]; cbn [map_get].
    + destruct (N.eqb_spec k g); reflexivity.
    + rewrite IH. destruct (N.eqb_spec x g), (N.eqb_spec k g); try reflexivity. congruence.
Qed.

Lemma insert_all_get l : forall m g,
  map_get (insert_all m l) g = match given l g with Some v => Some v | None => map_get m g end.
Proof.
  induction l as [|[k v] l IH]; intros m g; cbn [insert_all fold_left given]; [reflexivity|].
  unfold insert_all in IH. rewrite IH. cbn [fst snd]. rewrite map_get_insert. destruct (given l g); [reflexivity|].
  destruct (k =? g); reflexivity.
Qed.

Lemma given_app a b g : given (a ++ b) g = match given b g with Some v => Some v | None => given a g end.
Proof.
  induction a as [|[k v] a IH]; cbn [app given]; [destruct (given b g); reflexivity|].
  rewrite IH. destruct (given b g); reflexivity.
Qed.

Lemma insert_all_2 a b g : map_get (insert_all (insert_all [] a) b) g = given (a ++ b) g.
Proof. rewrite !insert_all_get, given_app. destruct (given b g), (given a g); reflexivity. Qed.

Lemma map_get_keys m g : map_get m g <> None <-> In g (keys_of m).
Proof.
  unfold keys_of. induction m as [|[x w] m IH]; cbn [map_get map In fst]; [tauto|].
  destruct (N.eqb_spec x g) as [->|NE]; [split; [auto|discriminate]|]. rewrite IH. tauto.
Qed.

Lemma given_in l g : given l g <> None <-> In g (map fst l).
Proof.
  induction l as [|[k v] l IH]; cbn [given map In fst]; [tauto|].
  destruct (given l g) as [w|] eqn:E.
  - split; [intros _; right; apply IH; discriminate|discriminate].
  - destruct (N.eqb_spec k g) as [->|NE]; [split; [auto|discriminate]|].
    rewrite <- IH. split; [congruence|]. intros [->|C]; congruence.
Qed.

Lemma contains_get m k : contains_key m k = true <-> map_get m k <> None.
Proof. unfold contains_key. destruct (map_get m k); split; congruence. Qed.

(** ** The loop *)

Section Loop.
  Context (H : bytes -> bytes) (l : list (N * bytes)).

  Lemma opens_det g v : opens H l g v -> forall w, opens H l g w -> v = w.
  Proof.
    induction 1 as [g v HG|g a b HG Ha IHa Hb IHb]; intros w HW; inversion HW as [? ? HG'|? a' b' HG' Ha' Hb']; subst;
      try congruence.
    rewrite (IHa a' Ha'), (IHb b' Hb'). reflexivity.
  Qed.

  Lemma opens_some_given g v : opens H l g v -> 1 <= g -> exists h, 1 <= h /\ given l h <> None.
  Proof.
    induction 1 as [g v HG|g a b HG Ha IHa Hb IHb]; intros Hg; [exists g; split; [exact Hg|congruence]|].
    apply IHa. lia.
  Qed.

  Definition present (m : list (N * bytes)) (g : N) : Prop := map_get m g <> None.
  Definition extends (m : list (N * bytes)) : Prop := forall g v, given l g = Some v -> map_get m g = Some v.
  Definition opened (m : list (N * bytes)) : Prop := forall g v, 1 <= g -> map_get m g = Some v -> opens H l g v.
  Definition pending (m : list (N * bytes)) (todo : list N) : Prop := forall k, 2 <= k ->
    present m k -> present m (sibling k) -> ~ present m (k / 2) -> In k todo \/ In (sibling k) todo.

  Lemma sumN_app (a b : list N) : sumN (a ++ b) = sumN a + sumN b.
  Proof. unfold sumN. induction a as [|x a IH]; cbn [app fold_right]; [reflexivity|]. rewrite IH. lia. Qed.

  Lemma combine_nodes_ok fuel : forall todo m,
    sumN (map (fun k => 1 + N.size k) todo) <= N.of_nat fuel ->
    extends m -> opened m -> pending m todo ->
    exists m', combine_nodes H fuel todo m = Ok m' /\ extends m' /\ opened m' /\ pending m' [].
  Proof.
    induction fuel as [|fuel IH]; intros [|key rest] m HF HE HO HP; cbn [combine_nodes].
    - exists m. auto.
    - cbn [map sumN fold_right] in HF. lia.
    - exists m. auto.
    - cbn [map sumN fold_right] in HF. fold sumN in HF. unfold parent.
      destruct (contains_key m key && contains_key m (sibling key) && negb (contains_key m (key / 2))) eqn:E.
      + rewrite !andb_true_iff, !contains_get, negb_true_iff, <- not_true_iff_false, contains_get in E.
        destruct E as [[PK PS] MP].
        assert (HK : 2 <= key).
        { destruct (N.le_gt_cases 2 key) as [L|L]; [exact L|exfalso].
          assert (C : key = 0 \/ key = 1) by lia. destruct C as [->| ->].
          - apply MP. exact PK.
          - apply MP. exact PS. }
        assert (HLR : exists h, key / 2 = h /\ N.lor key 1 = 2 * h + 1 /\
                 map_get m (2 * h) <> None /\ map_get m (2 * h + 1) <> None).
        { destruct (half_cases key) as [h [->| ->]]; exists h.
          - rewrite sibling_even in PS. split; [lia|]. split; [destruct h; reflexivity|]. auto.
          - rewrite sibling_odd in PS. split; [lia|]. split; [destruct h; reflexivity|]. auto. }
        destruct HLR as (h & E1 & E2 & G1 & G2). rewrite E1, E2, sibling_odd in *.
        destruct (map_get m (2 * h)) as [a|] eqn:Ea; [|congruence].
        destruct (map_get m (2 * h + 1)) as [b|] eqn:Eb; [|congruence].
        assert (Hh : 1 <= h) by lia.
        apply IH.
        * rewrite map_app, sumN_app. cbn [map sumN fold_right] in *. rewrite (size_half key), E1 in HF by lia. unfold sumN in *. lia.
        * intros g v HG. rewrite map_get_insert. destruct (N.eqb_spec h g) as [->|NE]; [|auto].
          exfalso. apply MP. rewrite (HE g v HG). discriminate.
        * intros g v Hg HG. rewrite map_get_insert in HG. destruct (N.eqb_spec h g) as [->|NE]; [|auto].
          injection HG as <-. apply opens_pair; [|apply HO; [lia|exact Ea]|apply HO; [lia|exact Eb]].
          destruct (given l g) as [v|] eqn:EG; [|reflexivity]. exfalso. apply MP. rewrite (HE g v EG). discriminate.
        * unfold pending, present. intros k Hk. rewrite !map_get_insert, !in_app_iff. cbn [In].
          destruct (N.eqb_spec h k) as [->|N1]; [auto|].
          destruct (N.eqb_spec h (sibling k)) as [->|N2]; [auto 6|].
          destruct (N.eqb_spec h (k / 2)) as [->|N3]; [intros _ _ C; exfalso; apply C; discriminate|].
          intros P1 P2 P3. destruct (HP k Hk P1 P2 P3) as [[EK|HI]|[EK|HI]]; auto; exfalso; apply N3.
          -- rewrite <- E1, EK. reflexivity.
          -- rewrite <- E1, EK. apply sibling_half.
      + apply IH; auto; [unfold sumN; lia|].
        intros k Hk P1 P2 P3. destruct (HP k Hk P1 P2 P3) as [[<-|HI]|[E'|HI]]; auto; exfalso.
        * rewrite <- not_true_iff_false in E. apply E.
          rewrite !andb_true_iff, !contains_get, negb_true_iff, <- not_true_iff_false, contains_get. auto.
        * rewrite <- not_true_iff_false in E. apply E. subst key.
          rewrite !andb_true_iff, !contains_get, negb_true_iff, <- not_true_iff_false, contains_get.
          rewrite sibling_sibling, sibling_half. auto.
  Qed.

  Lemma closed_complete m : extends m -> pending m [] -> forall g v, opens H l g v -> 1 <= g -> present m g.
  Proof.
    intros HE HP g v. induction 1 as [g v HG|g a b HG Ha IHa Hb IHb]; intros Hg.
    - unfold present. rewrite (HE g v HG). discriminate.
    - specialize (IHa ltac:(lia)). specialize (IHb ltac:(lia)).
      destruct (map_get m g) as [w|] eqn:E; [unfold present; rewrite E; discriminate|exfalso].
      destruct (HP (2 * g)) as [[]|[]]; [lia|exact IHa|rewrite sibling_even; exact IHb|].
      replace (2 * g / 2) with g by lia. unfold present. rewrite E. congruence.
  Qed.
End Loop.

(** ** Which nodes are available *)

Section Available.
  Context (indices : list N).

  Definition needed (g : N) : Prop := In g indices \/ helper indices g \/ exists i, In i indices /\ ancestor g i.

  Lemma ancestor_child g i : ancestor g i -> exists c, (c = 2 * g \/ c = 2 * g + 1) /\ (c = i \/ ancestor c i).
  Proof.
    intros (Hg & k & Hk & E). exists (i / 2 ^ (k - 1)).
    replace k with (k - 1 + 1) in E by lia. rewrite div_pow_succ' in E.
    set (q := i / 2 ^ (k - 1)) in *. split; [clearbody q; lia|]. subst q.
    destruct (N.eq_dec (k - 1) 0) as [E0|NE].
    - left. rewrite E0, N.pow_0_r, N.div_1_r. reflexivity.
    - right. split; [|exists (k - 1)].
      { set (q := i / 2 ^ (k - 1)) in *. clearbody q. lia. }
      split; [lia|reflexivity].
  Qed.

  Lemma sibling_children g c : c = 2 * g \/ c = 2 * g + 1 ->
    (c = 2 * g /\ sibling c = 2 * g + 1) \/ (c = 2 * g + 1 /\ sibling c = 2 * g).
  Proof. intros [->| ->]; rewrite ?sibling_even, ?sibling_odd; auto. Qed.

  Lemma on_path_needed c : on_path indices c -> needed c.
  Proof. intros (_ & i & HI & [->|HA]); [left; exact HI|right; right; eauto]. Qed.

  Lemma needed_children g : 1 <= g -> (exists i, In i indices /\ ancestor g i) -> needed (2 * g) /\ needed (2 * g + 1).
  Proof.
    intros Hg (i & HI & HA). destruct (ancestor_child g i HA) as (c & Hc & HCI).
    assert (OC : on_path indices c) by (split; [lia|]; exists i; auto).
    assert (NC : needed c) by (apply on_path_needed, OC).
    assert (NS : needed (sibling c)).
    { destruct (on_path_dec indices (sibling c)) as [O|O]; [apply on_path_needed, O|].
      right. left. split; [|exact O]. rewrite <- sibling_spec, sibling_sibling. exact OC. }
    destruct (sibling_children g c Hc) as [[-> E]|[-> E]]; rewrite E in NS; auto.
  Qed.

  Lemma ancestor_lt g i B : ancestor g i -> i < 2 ^ B -> g < 2 ^ B.
  Proof.
    intros (_ & k & _ & ->) HB. eapply N.le_lt_trans; [|exact HB]. apply N.div_le_upper_bound.
    - apply N.pow_nonzero. lia.
    - pose proof (N.pow_nonzero 2 k ltac:(lia)). nia.
  Qed.

  Lemma indices_bound : exists B, forall i, In i indices -> i < 2 ^ B.
  Proof.
    induction indices as [|i r [B HB]]; [exists 0; intros i []|].
    exists (N.max (N.size i) B). intros j [<-|HJ].
    - eapply N.lt_le_trans; [apply N.size_gt|]. apply N.pow_le_mono_r; lia.
    - eapply N.lt_le_trans; [apply HB, HJ|]. apply N.pow_le_mono_r; lia.
  Qed.

  Lemma needed_root : (exists i, In i indices /\ 1 <= i) -> needed 1.
  Proof.
    intros (i & HI & Hi). destruct (N.eq_dec i 1) as [->|NE]; [left; exact HI|].
    right. right. exists i. split; [exact HI|]. split; [lia|]. exists (N.log2 i).
    pose proof (N.log2_spec i ltac:(lia)) as [LO UP]. split; [apply N.log2_pos; lia|].
    rewrite N.pow_succ_r' in UP. apply (N.div_unique _ _ _ (i - 2 ^ N.log2 i)); lia.
  Qed.

  Lemma opens_exists H l : (forall g, In g indices \/ helper indices g -> given l g <> None) ->
    forall g, 1 <= g -> needed g -> exists v, opens H l g v.
  Proof.
    intros HG. destruct indices_bound as [B HB].
    assert (HI : forall n g, 1 <= g -> 2 ^ B <= g * 2 ^ N.of_nat n -> needed g -> exists v, opens H l g v).
    { induction n as [|n IH]; intros g Hg Hn HN.
      - destruct HN as [HI|[HH|(i & HI & HA)]].
        + destruct (given l g) as [v|] eqn:E; [exists v; constructor; exact E|]. exfalso. apply (HG g); auto.
        + destruct (given l g) as [v|] eqn:E; [exists v; constructor; exact E|]. exfalso. apply (HG g); auto.
        + exfalso. pose proof (ancestor_lt g i B HA (HB i HI)). cbn in Hn. lia.
      - destruct (given l g) as [v|] eqn:E; [exists v; constructor; exact E|].
        destruct HN as [HI|[HH|HA]]; [exfalso; apply (HG g); auto|exfalso; apply (HG g); auto|].
        destruct (needed_children g Hg HA) as [N1 N2].
        rewrite Nat2N.inj_succ, N.pow_succ_r' in Hn.
        destruct (IH (2 * g)) as (a & Oa); [lia|nia|exact N1|].
        destruct (IH (2 * g + 1)) as (b & Ob); [lia|nia|exact N2|].
        exists (H (a ++ b)). apply opens_pair; assumption. }
    intros g Hg HN. apply (HI (N.to_nat B) g Hg); [|exact HN]. rewrite Nnat.N2Nat.id.
    pose proof (N.pow_nonzero 2 B ltac:(lia)). nia.
  Qed.
End Available.

(** ** The root of a multiproof *)

Section Root.
  Context (H : bytes -> bytes) (enum : list N -> list N) (Henum : forall l, Permutation (enum l) l).

  Definition assigned (indices : list N) (leaves : list bytes) (hs : list N) (proof : list bytes) : list (N * bytes) :=
    combine indices leaves ++ combine hs proof.

  Lemma assigned_in indices leaves hs proof g : length indices = length leaves -> length hs = length proof ->
    given (assigned indices leaves hs proof) g <> None <-> In g indices \/ In g hs.
  Proof.
    intros L1 L2. rewrite given_in. unfold assigned. rewrite map_app, in_app_iff.
    rewrite !combine_fst by assumption. reflexivity.
  Qed.

  Theorem multi_root indices leaves proof hs : helper_list indices hs ->
    let l := assigned indices leaves hs proof in
    let result := calculate_multi_merkle_root H enum leaves proof indices in
    if negb (blen leaves =? blen indices) || negb (blen proof =? blen hs) then result = Err InvalidProof
    else ((exists i, In i indices /\ 1 <= i) /\ exists r, result = Ok r /\ opens H l 1 r) \/
         ((forall i, In i indices -> i = 0) /\ result = Panic PExpect).
  Proof.
    intros HH l result. unfold result, calculate_multi_merkle_root.
    destruct (N.eqb_spec (blen leaves) (blen indices)) as [L1|L1]; cbn [negb orb]; [|reflexivity].
    destruct (helper_indices_ok enum Henum indices) as (hs' & E & HH'). rewrite E. cbn [bind].
    rewrite (helper_list_unique _ _ _ HH' HH).
    destruct (N.eqb_spec (blen proof) (blen hs)) as [L2|L2]; cbn [negb]; [|reflexivity].
    set (m := insert_all (insert_all [] (combine indices leaves)) (combine hs proof)).
    assert (HM : forall g, map_get m g = given l g) by (intros; apply insert_all_2).
    destruct (combine_nodes_ok H l (work (sort_desc (enum (keys_of m)))) (sort_desc (enum (keys_of m))) m)
      as (m' & E' & X & O & P).
    - unfold work. lia.
    - intros g v HG. rewrite HM. exact HG.
    - intros g v _ HG. constructor. rewrite <- HM. exact HG.
    - intros k Hk PK _ _. left. apply (perm_in _ _ k (sort_desc_perm _)), (perm_in _ _ k (Henum _)), map_get_keys, PK.
    - rewrite E'. cbn [bind].
      assert (HA : forall g, given l g <> None <-> In g indices \/ In g hs).
      { intros g. apply assigned_in; unfold blen in *; lia. }
      destruct (existsb (fun i => 1 <=? i) indices) eqn:EX.
      + left. apply existsb_exists in EX as (i & HI & Hi).
        assert (HX : exists i, In i indices /\ 1 <= i) by (exists i; split; [exact HI|lia]).
        split; [exact HX|].
        destruct (opens_exists indices H l) with (g := 1) as (r & Or); [|lia|apply needed_root, HX|].
        { intros g [HG|HG]; apply HA; [auto|]. right. apply HH, HG. }
        pose proof (closed_complete H l m' X P 1 r Or ltac:(lia)) as PR.
        unfold present in PR. destruct (map_get m' 1) as [r'|] eqn:ER; [|congruence].
        exists r'. split; [reflexivity|]. apply O; [lia|exact ER].
      + right.
        assert (HZ : forall i, In i indices -> i = 0).
        { intros i HI. destruct (N.eq_dec i 0); [assumption|].
          assert (C : existsb (fun i => 1 <=? i) indices = true); [|congruence].
          apply existsb_exists. exists i. split; [exact HI|lia]. }
        split; [exact HZ|].
        destruct (map_get m' 1) as [r'|] eqn:ER; [exfalso|reflexivity].
        destruct (opens_some_given H l 1 r') as (h & Hh & HG); [apply O; [lia|exact ER]|lia|].
        apply HA in HG as [HG|HG]; [specialize (HZ h HG); lia|].
        apply HH in HG as [(H2 & i & HI & [EI|(_ & k & _ & EI)]) _].
        * specialize (HZ i HI). lia.
        * rewrite (HZ i HI), N.div_0_l in EI by (apply N.pow_nonzero; lia). lia.
  Qed.
End Root.

(** ** Honest proofs *)

Section Honest.
  Context (H : bytes -> bytes) (indices hs : list N) (HH : helper_list indices hs).

  Lemma given_map (M : N -> bytes) l g v : given (map (fun k => (k, M k)) l) g = Some v -> v = M g.
  Proof.
    clear HH. induction l as [|k l IH]; cbn [map given]; [discriminate|].
    destruct (given _ g); [exact IH|]. destruct (N.eqb_spec k g) as [->|]; congruence.
  Qed.

  Lemma combine_map_pair (M : N -> bytes) l : combine l (map M l) = map (fun k => (k, M k)) l.
  Proof. clear HH. induction l; cbn; congruence. Qed.

  Lemma opens_honest M g v : merkle_over H indices M ->
    opens H (assigned indices (map M indices) hs (map M hs)) g v -> 1 <= g -> needed indices g -> v = M g.
  Proof.
    intros HM. induction 1 as [g v HG|g a b HG Ha IHa Hb IHb]; intros Hg HN.
    - unfold assigned in HG. rewrite !combine_map_pair, given_app in HG. destruct (given (map _ hs) g) eqn:E.
      + injection HG as ->. apply given_map in E. exact E.
      + apply given_map in HG. exact HG.
    - destruct HN as [HI|[HI|HA]].
      + exfalso. revert HG. apply assigned_in; rewrite ?map_length; auto.
      + exfalso. revert HG. apply assigned_in; rewrite ?map_length; auto. right. apply HH, HI.
      + destruct (needed_children indices g Hg HA) as [N1 N2].
        rewrite (IHa ltac:(lia) N1), (IHb ltac:(lia) N2). destruct HA as (i & HI & HA). symmetry. exact (HM i g HI HA).
  Qed.

  (** ** Accepted proofs *)

  Lemma ancestor_trans a b c : ancestor a b -> ancestor b c -> ancestor a c.
  Proof. clear HH.
    intros (Ha & k & Hk & ->) (_ & j & Hj & ->). split; [exact Ha|]. exists (j + k). split; [lia|].
    rewrite N.pow_add_r, N.div_div; auto; apply N.pow_nonzero; lia.
  Qed.

  Lemma ancestor_parent g h : ancestor g h -> g = h / 2 \/ ancestor g (h / 2).
  Proof. clear HH.
    intros (Hg & k & Hk & E). replace k with (k - 1 + 1) in E by lia. rewrite div_pow_succ in E.
    destruct (N.eq_dec (k - 1) 0) as [E0|NE].
    - left. rewrite E0, N.pow_0_r, N.div_1_r in E. exact E.
    - right. split; [exact Hg|]. exists (k - 1). split; [lia|exact E].
  Qed.

  Lemma parent_ancestor h : 2 <= h -> ancestor (h / 2) h.
  Proof. clear HH. intros Hh. split; [lia|]. exists 1. split; [lia|reflexivity]. Qed.

  (** Below a helper there is neither an index nor a helper. *)
  Lemma helper_bottom g h : helper indices g -> ancestor g h -> In h indices \/ helper indices h -> False.
  Proof. clear HH.
    intros [[H2 _] NP] HA HI. apply NP. rewrite <- sibling_spec, <- sibling_ge in H2. split; [exact H2|].
    destruct HI as [HI|[(HS & i & HI & HP) _]]; [eauto|].
    exists i. split; [exact HI|]. right. rewrite <- sibling_spec in HS, HP. rewrite <- sibling_ge in HS.
    assert (HPar : ancestor (h / 2) i).
    { rewrite <- sibling_half. destruct HP as [<-|HP].
      - apply parent_ancestor. rewrite <- sibling_ge. exact HS.
      - eapply ancestor_trans; [|exact HP]. apply parent_ancestor. rewrite <- sibling_ge. exact HS. }
    destruct (ancestor_parent g h HA) as [->|HA']; [exact HPar|]. eapply ancestor_trans; eauto.
  Qed.

  Context (leaves proof : list bytes) (L1 : length indices = length leaves) (L2 : length hs = length proof).
  Notation l := (assigned indices leaves hs proof).

  Lemma given_forall (P : bytes -> Prop) x g v : Forall (fun kv => P (snd kv)) x -> given x g = Some v -> P v.
  Proof. clear.
    induction x as [|[k w] x IH]; cbn [given]; [discriminate|]. intros HF. apply Forall_cons_iff in HF as [HW HF].
    specialize (IH HF). destruct (given x g); [exact IH|]. destruct (k =? g); [intros [= <-]; exact HW|discriminate].
  Qed.

  Lemma combine_forall {A} (P : bytes -> Prop) (a : list A) b : Forall P b -> Forall (fun kv => P (snd kv)) (combine a b).
  Proof. clear. intros HF. revert a. induction HF as [|y b Hy HF IH]; intros [|x a]; cbn; constructor; auto. Qed.

  Lemma opens_sound (Hlen : forall x, blen (H x) = 32) M g v : all32 leaves -> all32 proof ->
    (forall g, blen (M g) = 32) -> merkle_over H indices M ->
    opens H l g v -> 1 <= g -> needed indices g -> v = M g ->
    (forall h w, given l h = Some w -> (h = g \/ ancestor g h) ->
       (forall i, In i indices -> ~ ancestor i h) -> w = M h) \/
    exists x y, opened_input H l x /\ tree_input indices M y /\ x <> y /\ H x = H y.
  Proof.
    intros A1 A2 AM HM. induction 1 as [g v HG|g a b HG Ha IHa Hb IHb]; intros Hg HN HV.
    - left. intros h w HW [->|HA] HT; [congruence|]. exfalso.
      assert (HGI : In g indices \/ helper indices g).
      { rewrite <- (proj2 HH g). apply (assigned_in indices leaves hs proof); [auto|auto|congruence]. }
      assert (HHI : In h indices \/ helper indices h).
      { rewrite <- (proj2 HH h). apply (assigned_in indices leaves hs proof); [auto|auto|congruence]. }
      destruct HGI as [HGI|HGI]; [exact (HT g HGI HA)|]. exact (helper_bottom g h HGI HA HHI).
    - assert (HA : exists i, In i indices /\ ancestor g i).
      { destruct HN as [HI|[HI|HA]]; [exfalso|exfalso|exact HA].
        - revert HG. apply assigned_in; auto.
        - revert HG. apply assigned_in; auto. right. apply HH, HI. }
      destruct (needed_children indices g Hg HA) as [N1 N2]. destruct HA as (i & HI & HA).
      pose proof (HM i g HI HA) as EM.
      assert (B32 : forall g v, opens H l g v -> blen v = 32).
      { intros g' v' HO. inversion HO as [? ? HG'|]; subst; [|apply Hlen].
        refine (given_forall (fun v => blen v = 32) _ _ _ _ HG'). apply Forall_app. split; apply (combine_forall (fun v => blen v = 32)); assumption. }
      destruct (bytes_dec (a ++ b) (M (2 * g) ++ M (2 * g + 1))) as [EX|NX].
      + apply app_split in EX as [E1 E2]; [|rewrite AM; eapply B32; exact Ha].
        destruct (IHa ltac:(lia) N1 E1) as [IA|C]; [|right; exact C].
        destruct (IHb ltac:(lia) N2 E2) as [IB|C]; [|right; exact C].
        left. intros h w HW HA' HT.
        assert (HC : (h = 2 * g \/ ancestor (2 * g) h) \/ (h = 2 * g + 1 \/ ancestor (2 * g + 1) h)).
        { destruct HA' as [->|HA']; [congruence|].
          destruct (ancestor_child g h HA') as (c & [->| ->] & [->|HC]); auto. }
        destruct HC as [HC|HC]; [exact (IA h w HW HC HT)|exact (IB h w HW HC HT)].
      + right. exists (a ++ b), (M (2 * g) ++ M (2 * g + 1)). split; [exists g, a, b; auto|].
        split; [exists i, g; auto|]. split; [exact NX|]. congruence.
  Qed.
End Honest.

(** ** One index *)

Section Single.
  Context (H : bytes -> bytes).

  Lemma ups_sorted n : forall f, (n <= N.to_nat (N.log2 f))%nat ->
    StronglySorted (fun a b => b < a) (map sibling (ups n f)).
  Proof. clear H.
    induction n as [|n IH]; intros f Hn; cbn [ups map]; [constructor|].
    assert (Hf : 2 <= f).
    { destruct (N.le_gt_cases 2 f) as [L|L]; [exact L|]. assert (C : f = 0 \/ f = 1) by lia.
      destruct C as [->| ->]; cbn in Hn; lia. }
    rewrite (log2_half f Hf) in Hn. constructor; [apply IH; lia|].
    rewrite Forall_map, Forall_forall. intros x HX. apply ups_in in HX as (k & _ & ->).
    assert (HQ : f / 2 / 2 ^ k <= f / 2).
    { apply N.div_le_upper_bound; [apply N.pow_nonzero; lia|]. pose proof (N.pow_nonzero 2 k ltac:(lia)). nia. }
    set (q := f / 2 / 2 ^ k) in *. clearbody q.
    assert (HS : sibling q <= q + 1 /\ f <= sibling f + 1).
    { split; [destruct (half_cases q) as [h [->| ->]]|destruct (half_cases f) as [h [->| ->]]];
        rewrite ?sibling_even, ?sibling_odd; lia. }
    destruct (half_cases f) as [h [->| ->]]; destruct (half_cases q) as [h' [->| ->]];
      rewrite ?sibling_even, ?sibling_odd in *; lia.
  Qed.

  Lemma single_helpers i : helper_list [i] (map sibling (path_list i)).
  Proof. clear H.
    split; [apply ups_sorted; lia|]. intros j. unfold helper. rewrite !on_path_list, <- sibling_spec, in_map_iff. split.
    - intros (x & <- & HX). rewrite sibling_sibling. split; [exists i; cbn; auto|].
      intros (i' & [<-|[]] & HJ). apply path_list_in in HX as (H2 & a & Ea). apply path_list_in in HJ as (H2' & b & Eb).
      (* two nodes of one level on the path of one index *)
      assert (HE : a = b).
      { assert (HP : forall k, 2 ^ k <> 0) by (intros; apply N.pow_nonzero; lia).
        destruct (N.lt_trichotomy a b) as [L|[E|L]]; [exfalso|exact E|exfalso].
        - replace b with (a + 1 + (b - a - 1)) in Eb by lia.
          rewrite N.pow_add_r, <- N.div_div, div_pow_succ', <- Ea in Eb by auto.
          assert (HQ : x / 2 / 2 ^ (b - a - 1) <= x / 2).
          { apply N.div_le_upper_bound; auto. specialize (HP (b - a - 1)). nia. }
          rewrite <- Eb in HQ. pose proof (sibling_half x). lia.
        - replace a with (b + 1 + (a - b - 1)) in Ea by lia.
          rewrite N.pow_add_r, <- N.div_div, div_pow_succ', <- Eb in Ea by auto.
          assert (HQ : sibling x / 2 / 2 ^ (a - b - 1) <= sibling x / 2).
          { apply N.div_le_upper_bound; auto. specialize (HP (a - b - 1)). nia. }
          rewrite <- Ea in HQ. pose proof (sibling_half x). lia. }
      subst b. rewrite <- Ea in Eb. destruct (half_cases x) as [h [->| ->]]; rewrite ?sibling_even, ?sibling_odd in Eb; lia.
    - intros [(i' & [<-|[]] & HJ) _]. exists (sibling j). rewrite sibling_sibling. auto.
  Qed.

  (** Climbing from a node to the root opens the root. *)
  Lemma climb_opens l proof : forall f node, length proof = N.to_nat (N.log2 f) -> 1 <= f ->
    opens H l f node ->
    (forall k s, nth_error (combine (map sibling (path_list f)) proof) k = Some s -> given l (fst s) = Some (snd s)) ->
    (forall k, 0 < k -> given l (f / 2 ^ k) = None) ->
    opens H l 1 (climb H f node proof).
  Proof.
    induction proof as [|s proof IH]; intros f node HL Hf HO HS HN; cbn [climb].
    - assert (f = 1); [|subst; exact HO]. destruct (N.eq_dec f 1); [assumption|].
      pose proof (log2_half f ltac:(lia)). cbn in HL. lia.
    - assert (H2 : 2 <= f).
      { destruct (N.le_gt_cases 2 f); [assumption|]. replace f with 1 in HL by lia. discriminate HL. }
      rewrite (log2_half f H2) in HL. injection HL as HL.
      assert (HP : path_list f = f :: path_list (f / 2)) by (unfold path_list; rewrite (log2_half f H2); reflexivity).
      rewrite HP in HS. cbn [map combine] in HS.
      assert (OS : opens H l (sibling f) s) by (constructor; exact (HS 0%nat (sibling f, s) eq_refl)).
      apply IH; [exact HL|lia| | |].
      + assert (HG : given l (f / 2) = None).
        { specialize (HN 1 ltac:(lia)). exact HN. }
        destruct (half_cases f) as [h [->| ->]].
        * rewrite N.odd_mul. cbn [N.odd andb]. rewrite sibling_even in OS.
          replace (2 * h / 2) with h in * by lia. apply opens_pair; assumption.
        * rewrite N.odd_add, N.odd_mul. cbn [N.odd andb xorb]. rewrite sibling_odd in OS.
          replace ((2 * h + 1) / 2) with h in * by lia. apply opens_pair; assumption.
      + intros k x HX. exact (HS (S k) x HX).
      + intros k Hk. rewrite <- div_pow_succ. apply HN. lia.
  Qed.
End Single.

(** ** Results for [calculate_multi_merkle_root] *)

Section Results.
  Context (H : bytes -> bytes) (enum : list N -> list N) (Henum : forall l, Permutation (enum l) l).
  Notation root_of := (calculate_multi_merkle_root H enum).

  Lemma multi_honest indices hs M : helper_list indices hs -> merkle_over H indices M ->
    (exists i, In i indices /\ 1 <= i) -> root_of (map M indices) (map M hs) indices = Ok (M 1).
  Proof.
    intros HH HM HX. pose proof (multi_root H enum Henum indices (map M indices) (map M hs) hs HH) as HR. cbn zeta in HR.
    rewrite !blen_map, !N.eqb_refl in HR. cbn [negb orb] in HR. destruct HR as [(_ & r & E & HO)|(HZ & _)].
    - rewrite E. f_equal. refine (opens_honest H indices hs HH M 1 r HM HO _ _); [lia|]. apply needed_root, HX.
    - destruct HX as (i & HI & Hi). specialize (HZ i HI). lia.
  Qed.

  Lemma multi_ok_inv indices leaves proof hs r : helper_list indices hs -> root_of leaves proof indices = Ok r ->
    length indices = length leaves /\ length hs = length proof /\ (exists i, In i indices /\ 1 <= i) /\
    opens H (assigned indices leaves hs proof) 1 r.
  Proof.
    intros HH HE. pose proof (multi_root H enum Henum indices leaves proof hs HH) as HR. cbn zeta in HR. rewrite HE in HR.
    destruct (N.eqb_spec (blen leaves) (blen indices)) as [L1|]; cbn [negb orb] in HR; [|discriminate].
    destruct (N.eqb_spec (blen proof) (blen hs)) as [L2|]; cbn [negb orb] in HR; [|discriminate].
    destruct HR as [(HX & r' & [= <-] & HO)|(_ & [=])].
    unfold blen in *. repeat split; auto; lia.
  Qed.

  Lemma multi_sound (Hlen : forall x, blen (H x) = 32) indices leaves proof hs M : helper_list indices hs ->
    all32 leaves -> all32 proof -> (forall g, blen (M g) = 32) -> merkle_over H indices M ->
    root_of leaves proof indices = Ok (M 1) ->
    let l := assigned indices leaves hs proof in
    (forall h w, 1 <= h -> given l h = Some w -> (forall i, In i indices -> ~ ancestor i h) -> w = M h) \/
    exists x y, opened_input H l x /\ tree_input indices M y /\ x <> y /\ H x = H y.
  Proof.
    intros HH A1 A2 AM HM HE l. destruct (multi_ok_inv _ _ _ _ _ HH HE) as (L1 & L2 & HX & HO).
    destruct (opens_sound H indices hs HH leaves proof L1 L2 Hlen M 1 (M 1) A1 A2 AM HM HO) as [HS|C]; auto.
    - lia.
    - apply needed_root, HX.
    - left. intros h w Hh HW HT. apply HS; auto.
      destruct (N.eq_dec h 1); [now left|]. right. split; [lia|]. exists (N.log2 h).
      pose proof (N.log2_spec h ltac:(lia)) as [LO UP]. split; [apply N.log2_pos; lia|].
      rewrite N.pow_succ_r' in UP. apply (N.div_unique _ _ _ (h - 2 ^ N.log2 h)); lia.
  Qed.

  Lemma given_nodup (ks : list N) : forall vs k v, NoDup ks -> In (k, v) (combine ks vs) -> given (combine ks vs) k = Some v.
  Proof. clear H enum Henum.
    induction ks as [|a ks IH]; intros [|b vs] k v HN HI; try destruct HI.
    - injection H as -> ->. inversion HN as [|? ? HX HR]; subst. cbn [combine given].
      destruct (given (combine ks vs) k) eqn:E; [|rewrite N.eqb_refl; reflexivity]. exfalso.
      assert (HG : given (combine ks vs) k <> None) by congruence. apply given_in in HG.
      apply HX. apply in_map_iff in HG as ([k' v'] & <- & HG). exact (in_combine_l _ _ _ _ HG).
    - inversion HN as [|? ? HX HR]; subst. cbn [combine given]. rewrite (IH vs k v HR H). reflexivity.
  Qed.

  Lemma assigned_leaf indices leaves hs proof i v : helper_list indices hs -> length hs = length proof ->
    NoDup indices -> 1 <= i -> In (i, v) (combine indices leaves) -> given (assigned indices leaves hs proof) i = Some v.
  Proof. clear H enum Henum.
    intros HH HL HN Hi HI. unfold assigned. rewrite given_app.
    destruct (given (combine hs proof) i) eqn:E; [exfalso|apply given_nodup; assumption].
    assert (HG : given (combine hs proof) i <> None) by congruence. apply given_in in HG.
    rewrite combine_fst in HG by assumption. apply HH in HG as [(H2 & _) HP]. apply HP.
    rewrite <- sibling_spec, <- sibling_ge in H2. split; [exact H2|]. exists i. split; [exact (in_combine_l _ _ _ _ HI)|now left].
  Qed.

  Lemma helpers_sorted_nodup hs : StronglySorted (fun a b => b < a) hs -> NoDup hs.
  Proof. clear.
    induction 1 as [|x l HS IH HF]; constructor; auto. intros HI. rewrite Forall_forall in HF. specialize (HF x HI). lia.
  Qed.

  Lemma assigned_helper indices leaves hs proof j v : helper_list indices hs ->
    In (j, v) (combine hs proof) -> given (assigned indices leaves hs proof) j = Some v.
  Proof. clear H enum Henum.
    intros HH HI. unfold assigned. rewrite given_app, (given_nodup _ _ _ _ (helpers_sorted_nodup hs (proj1 HH)) HI). reflexivity.
  Qed.

  Lemma multi_single oc leaf proof i : 1 <= i -> i < 2 ^ 64 ->
    root_of [leaf] proof [i] = calculate_merkle_root H oc leaf proof i.
  Proof.
    intros Hi H64. rewrite calculate_root_ok by exact H64. destruct (N.eqb_spec i 0); [lia|].
    pose proof (single_helpers i) as HH. pose proof (multi_root H enum Henum [i] [leaf] proof _ HH) as HR. cbn zeta in HR.
    change (blen [leaf] =? blen [i]) with true in HR. cbn [negb orb] in HR.
    assert (HB : blen (map sibling (path_list i)) = N.log2 i).
    { rewrite blen_map. unfold blen, path_list. rewrite ups_length. lia. }
    rewrite HB in HR. destruct (N.eqb_spec (blen proof) (N.log2 i)) as [HL|HL]; cbn [negb] in HR; [|exact HR].
    destruct HR as [(_ & r & E & HO)|(HZ & _)]; [|specialize (HZ i (or_introl eq_refl)); lia].
    rewrite E. f_equal. refine (opens_det H _ _ _ HO _ _).
    apply climb_opens; auto.
    - unfold blen in HL. lia.
    - constructor. apply (assigned_leaf [i] [leaf]); auto; [unfold blen in *; lia|repeat constructor; intros []|now left].
    - intros k s HS. apply assigned_helper; [exact HH|]. destruct s. exact (nth_error_In _ _ HS).
    - intros k Hk. destruct (given _ (i / 2 ^ k)) eqn:EG; [exfalso|reflexivity].
      assert (HG : given (assigned [i] [leaf] (map sibling (path_list i)) proof) (i / 2 ^ k) <> None) by congruence.
      apply assigned_in in HG; [|reflexivity|unfold blen in *; lia].
      assert (HLT : i / 2 ^ k < i).
      { apply N.div_lt; [lia|]. apply N.pow_gt_1; lia. }
      destruct HG as [[EI|[]]|HG]; [lia|]. apply HH in HG as [HG HP]. apply HP.
      assert (H2 : 2 <= i / 2 ^ k).
      { destruct HG as [H2 _]. rewrite <- sibling_spec, <- sibling_ge in H2. exact H2. }
      split; [exact H2|]. exists i. split; [now left|]. right. split; [lia|]. exists k. auto.
  Qed.
End Results.

Lemma multi_order H enum1 enum2 leaves proof indices :
  (forall l, Permutation (enum1 l) l) -> (forall l, Permutation (enum2 l) l) ->
  calculate_multi_merkle_root H enum1 leaves proof indices = calculate_multi_merkle_root H enum2 leaves proof indices.
Proof.
  intros H1 H2. destruct (helper_indices_ok enum1 H1 indices) as (hs & _ & HH).
  pose proof (multi_root H enum1 H1 indices leaves proof hs HH) as R1.
  pose proof (multi_root H enum2 H2 indices leaves proof hs HH) as R2. cbn zeta in R1, R2.
  destruct (_ || _); [congruence|].
  destruct R1 as [((i & HI & Hi) & r & -> & O1)|(Z1 & ->)], R2 as [((i' & HI' & Hi') & r' & -> & O2)|(Z2 & ->)].
  - f_equal. exact (opens_det H _ _ _ O1 _ O2).
  - specialize (Z2 i HI). lia.
  - specialize (Z1 i' HI'). lia.
  - reflexivity.
Qed.
