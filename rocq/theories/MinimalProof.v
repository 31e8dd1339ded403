(** Multiproofs have no superfluous nodes. *)
From Coq Require Import List NArith ZArith Bool Lia ZifyBool ZifyNat ZifyN Sorted.
From Verif Require Import Prelude Types Multiproofs SpecMulti SpecMinimal Lib MultiProof.
Import ListNotations.
Open Scope N_scope.
Ltac Zify.zify_post_hook ::= Z.div_mod_to_equations.

(** [a] is [b] or lies above it. *)
Definition over (a b : N) : Prop := exists k, a = b / 2 ^ k.

Lemma over_refl a : over a a.
Proof. exists 0. rewrite N.pow_0_r, N.div_1_r. reflexivity. Qed.

Lemma over_child a b : over a b -> over (a / 2) b.
Proof.
  intros (k & ->). exists (k + 1). rewrite N.pow_add_r, N.pow_1_r, N.div_div by (try apply N.pow_nonzero; lia). reflexivity.
Qed.

Lemma over_trans a b c : over a b -> over b c -> over a c.
Proof.
  intros (k & ->) (l & ->). exists (l + k). rewrite N.pow_add_r, N.div_div by (apply N.pow_nonzero; lia). reflexivity.
Qed.

Lemma over_cases a b : over a b -> 1 <= a -> a = b \/ ancestor a b.
Proof.
  intros (k & E) Ha. destruct (N.eq_dec k 0) as [->|Hk].
  - rewrite N.pow_0_r, N.div_1_r in E. auto.
  - right. split; [exact Ha|]. exists k. split; [lia|exact E].
Qed.

Lemma over_of a b : a = b \/ ancestor a b -> over a b.
Proof. intros [->|(_ & k & _ & E)]; [apply over_refl|exists k; exact E]. Qed.

(** Two nodes over the same one are one over the other. *)
Lemma over_linear a b c : over a c -> over b c -> over a b \/ over b a.
Proof.
  intros (k & ->) (l & ->). destruct (N.le_ge_cases k l) as [L|L]; [right|left].
  - exists (l - k). rewrite N.div_div by (apply N.pow_nonzero; lia). rewrite <- N.pow_add_r. f_equal. f_equal. lia.
  - exists (k - l). rewrite N.div_div by (apply N.pow_nonzero; lia). rewrite <- N.pow_add_r. f_equal. f_equal. lia.
Qed.

Lemma over_strict a b : over a b -> a <> b -> over a (b / 2).
Proof.
  intros (k & E) Hn. destruct (N.eq_dec k 0) as [->|Hk].
  - rewrite N.pow_0_r, N.div_1_r in E. contradiction.
  - exists (k - 1). rewrite N.div_div by (try apply N.pow_nonzero; lia).
    replace (2 * 2 ^ (k - 1)) with (2 ^ k); [exact E|]. rewrite <- N.pow_succ_r'. f_equal. lia.
Qed.

Lemma over_step a b : over a b -> a <> b -> over (2 * a) b \/ over (2 * a + 1) b.
Proof.
  intros (k & E) Hn. destruct (N.eq_dec k 0) as [->|Hk].
  - rewrite N.pow_0_r, N.div_1_r in E. contradiction.
  - assert (E' : a = b / 2 ^ (k - 1) / 2).
    { rewrite N.div_div by (try apply N.pow_nonzero; lia).
      replace (2 ^ (k - 1) * 2) with (2 ^ k); [exact E|]. rewrite N.mul_comm, <- N.pow_succ_r'. f_equal. lia. }
    assert (C : b / 2 ^ (k - 1) = 2 * a \/ b / 2 ^ (k - 1) = 2 * a + 1) by lia.
    destruct C as [C|C]; [left|right]; exists (k - 1); auto.
Qed.

(** [n] is one of the indices or lies above one of them. *)
Definition used (indices : list N) (n : N) : Prop := 1 <= n /\ exists i, In i indices /\ over n i.

Lemma used_path indices n : 2 <= n -> used indices n <-> on_path indices n.
Proof.
  intros Hn. split.
  - intros (_ & i & Hi & O). split; [exact Hn|]. exists i. split; [exact Hi|]. apply over_cases; [exact O|lia].
  - intros (_ & i & Hi & O). split; [lia|]. exists i. split; [exact Hi|]. apply over_of, O.
Qed.

Lemma sibling_pair n : spec_sibling (2 * n) = 2 * n + 1 /\ spec_sibling (2 * n + 1) = 2 * n.
Proof. rewrite <- !sibling_spec. split; [apply sibling_even|apply sibling_odd]. Qed.

(** ** The helpers suffice *)

Lemma bounded_indices (indices : list N) : exists B, forall i, In i indices -> i < 2 ^ B.
Proof.
  induction indices as [|x l (B & IH)]; [exists 0; intros i []|]. exists (N.max B (N.size x)). intros i [<-|Hi].
  - eapply N.lt_le_trans; [apply N.size_gt|]. apply N.pow_le_mono_r; lia.
  - eapply N.lt_le_trans; [apply IH, Hi|]. apply N.pow_le_mono_r; lia.
Qed.

Lemma helpers_suffice indices hs : (forall j, helper indices j -> In j hs) ->
  forall n, used indices n -> computable (indices ++ hs) n.
Proof.
  intros HH. destruct (bounded_indices indices) as (B & HB).
  assert (G : forall (d : nat) n, 2 ^ B <= n * 2 ^ N.of_nat d -> used indices n -> computable (indices ++ hs) n).
  { induction d as [|d IH]; intros n Hd (Hn & i & Hi & O).
    - exfalso. destruct O as (k & ->). pose proof (HB i Hi).
      assert (i / 2 ^ k <= i) by (apply N.div_le_upper_bound; [apply N.pow_nonzero; lia|];
        pose proof (N.pow_nonzero 2 k ltac:(lia)); nia).
      cbn [N.of_nat] in Hd. rewrite N.pow_0_r in Hd. lia.
    - destruct (N.eq_dec n i) as [->|Hne]; [apply Given, in_or_app; auto|].
      assert (Hd2 : forall c, 2 * n <= c -> 2 ^ B <= c * 2 ^ N.of_nat d).
      { intros c Hc. rewrite Nat2N.inj_succ, N.pow_succ_r' in Hd. nia. }
      assert (K : forall c, 2 * n <= c -> used indices (spec_sibling c) -> 2 <= spec_sibling c -> computable (indices ++ hs) c).
      { intros c Hc U U2. destruct (on_path_dec indices c) as [P|P].
        - apply IH; [apply Hd2, Hc|]. apply used_path; [lia|exact P].
        - apply Given, in_or_app. right. apply HH. split; [|exact P]. apply used_path; assumption. }
      destruct (sibling_pair n) as [S1 S2].
      destruct (over_step _ _ O Hne) as [C|C]; apply Combined.
      + apply IH; [apply Hd2; lia|]. split; [lia|]. eauto.
      + apply K; [lia| |]; rewrite S2; [split; [lia|]; eauto|lia].
      + apply K; [lia| |]; rewrite S1; [split; [lia|]; eauto|lia].
      + apply IH; [apply Hd2; lia|]. split; [lia|]. eauto. }
  intros n Hn. apply (G (N.to_nat B)); [|exact Hn]. rewrite N2Nat.id. destruct Hn as [Hn _]. nia.
Qed.

(** ** No fewer nodes do *)

Lemma computable_given known n : computable known n -> exists k, In k known /\ over n k.
Proof.
  induction 1 as [i Hi|i _ (k & Hk & O) _ _]; [exists i; split; [exact Hi|apply over_refl]|].
  exists k. split; [exact Hk|]. replace i with (2 * i / 2) by lia. apply over_child, O.
Qed.

Lemma computable_below known n : computable known n -> ~ In n known ->
  computable known (2 * n) /\ computable known (2 * n + 1).
Proof. intros [i Hi|i C1 C2] HN; [contradiction|auto]. Qed.

Lemma path_computable indices others : independent indices ->
  (forall j, In j others -> j <> 1 /\ ~ on_path indices j) -> computable (indices ++ others) 1 ->
  forall i, In i indices -> forall (k : nat) n, n < 2 ^ N.of_nat k -> 1 <= n -> over n i -> computable (indices ++ others) n.
Proof.
  intros (_ & HI) HO C1 i Hi. induction k as [|k IH]; intros n Hk Hn O.
  - cbn [N.of_nat] in Hk. rewrite N.pow_0_r in Hk. lia.
  - destruct (N.eq_dec n 1) as [->|H1]; [exact C1|].
    assert (P : computable (indices ++ others) (n / 2)).
    { apply IH; [|lia|apply over_child, O]. rewrite Nat2N.inj_succ, N.pow_succ_r' in Hk. lia. }
    assert (A : ancestor (n / 2) i).
    { destruct O as (m & ->). split; [lia|]. exists (m + 1). split; [lia|].
      rewrite N.pow_add_r, N.pow_1_r, N.div_div by (try apply N.pow_nonzero; lia). reflexivity. }
    apply computable_below in P.
    + destruct P as [P1 P2]. assert (E : n = 2 * (n / 2) \/ n = 2 * (n / 2) + 1) by lia.
      destruct E as [E|E]; rewrite E; assumption.
    + intros Hin. apply in_app_or in Hin. destruct Hin as [Hin|Hin].
      * exact (HI _ _ Hin Hi A).
      * destruct (HO _ Hin) as [N1 N2]. apply N2. split; [destruct A; lia|]. exists i. auto.
Qed.

Lemma helper_ge indices h : helper indices h -> 2 <= h.
Proof. intros [[G _] _]. rewrite <- sibling_spec in G. apply sibling_ge, G. Qed.

Lemma helper_parent indices h : helper indices h -> exists i, In i indices /\ over (h / 2) i /\ over (spec_sibling h) i.
Proof.
  intros [(_ & i & Hi & O) _]. exists i. split; [exact Hi|]. apply over_of in O. split; [|exact O].
  rewrite <- (sibling_half h), sibling_spec. apply over_child, O.
Qed.

Lemma helper_filled indices others h : independent indices ->
  (forall j, In j others -> j <> 1 /\ ~ on_path indices j) -> computable (indices ++ others) 1 ->
  helper indices h -> exists k, In k others /\ over h k.
Proof.
  intros HI HO C1 Hh. pose proof (helper_ge _ _ Hh) as G.
  destruct (helper_parent _ _ Hh) as (i & Hi & O & OS).
  assert (P : computable (indices ++ others) (h / 2)).
  { apply (path_computable indices others HI HO C1 i Hi (N.to_nat (N.size (h / 2)))); [|lia|exact O].
    rewrite N2Nat.id. apply N.size_gt. }
  assert (A : ancestor (h / 2) i).
  { destruct OS as (m & E). rewrite <- (sibling_half h), sibling_spec, E. split.
    - rewrite <- E, <- sibling_spec, sibling_half. lia.
    - exists (m + 1). split; [lia|]. rewrite N.pow_add_r, N.pow_1_r, N.div_div by (try apply N.pow_nonzero; lia). reflexivity. }
  apply computable_below in P.
  - assert (C : computable (indices ++ others) h).
    { destruct P as [P1 P2]. assert (E : h = 2 * (h / 2) \/ h = 2 * (h / 2) + 1) by lia.
      destruct E as [E|E]; rewrite E; assumption. }
    apply computable_given in C. destruct C as (k & Hk & OK). apply in_app_or in Hk. destruct Hk as [Hk|Hk]; [|eauto].
    exfalso. destruct Hh as [_ Hh]. apply Hh. apply used_path; [exact G|]. split; [lia|]. eauto.
  - intros Hin. apply in_app_or in Hin. destruct Hin as [Hin|Hin].
    + exact (proj2 HI _ _ Hin Hi A).
    + destruct (HO _ Hin) as [N1 N2]. apply N2. split; [lia|]. exists i. auto.
Qed.

Lemma helpers_apart indices h h' k : helper indices h -> helper indices h' -> over h k -> over h' k -> h = h'.
Proof.
  assert (W : forall a b, helper indices a -> helper indices b -> over a b -> a = b).
  { intros a b Ha Hb O. destruct (N.eq_dec a b) as [E|E]; [exact E|exfalso].
    destruct (helper_parent _ _ Hb) as (i & Hi & OP & _). pose proof (helper_ge _ _ Ha).
    apply (proj2 Ha). apply used_path; [assumption|]. split; [lia|]. exists i. split; [exact Hi|].
    eapply over_trans; [apply over_strict; eassumption|exact OP]. }
  intros Hh Hh' O O'. destruct (over_linear _ _ _ O O') as [L|L]; [|symmetry]; apply W; assumption.
Qed.

Lemma distinct_images (R : N -> N -> Prop) : forall l m, NoDup l ->
  (forall x, In x l -> exists y, In y m /\ R x y) ->
  (forall x x' y, In x l -> In x' l -> R x y -> R x' y -> x = x') -> (length l <= length m)%nat.
Proof.
  induction l as [|a l IH]; intros m ND HE HU; [cbn; lia|]. inversion ND as [|? ? Na ND']; subst.
  destruct (HE a (or_introl eq_refl)) as (y & Hy & Ry). apply in_split in Hy. destruct Hy as (m1 & m2 & ->).
  rewrite app_length. cbn [length]. enough (length l <= length (m1 ++ m2))%nat by (rewrite app_length in *; lia).
  apply IH; [exact ND'| |].
  - intros x Hx. destruct (HE x (or_intror Hx)) as (z & Hz & Rz). exists z. split; [|exact Rz].
    apply in_app_or in Hz. apply in_or_app. destruct Hz as [Hz|[->|Hz]]; auto.
    exfalso. apply Na. rewrite (HU a x z); auto; cbn; auto.
  - intros x x' z Hx Hx'. apply HU; cbn; auto.
Qed.

Lemma sorted_nodup (l : list N) : StronglySorted (fun a b => b < a) l -> NoDup l.
Proof.
  induction 1 as [|a l _ IH HF]; constructor; [|exact IH]. intros Hin. rewrite Forall_forall in HF. specialize (HF a Hin). lia.
Qed.

Lemma helpers_fewest indices hs others : helper_list indices hs -> independent indices ->
  (forall j, In j others -> j <> 1 /\ ~ on_path indices j) -> computable (indices ++ others) 1 ->
  (length hs <= length others)%nat.
Proof.
  intros (HS & HH) HI HO C1. apply (distinct_images over).
  - apply sorted_nodup, HS.
  - intros x Hx. apply HH in Hx. eapply helper_filled; eassumption.
  - intros x x' y Hx Hx' O O'. apply HH in Hx, Hx'. eapply helpers_apart; eassumption.
Qed.

Lemma helpers_needed indices hs h : helper_list indices hs -> independent indices -> In h hs ->
  ~ computable (indices ++ remove N.eq_dec h hs) 1.
Proof.
  intros HL HI Hin C. pose proof (remove_length_lt N.eq_dec hs h Hin) as L.
  pose proof (helpers_fewest indices hs (remove N.eq_dec h hs) HL HI) as F.
  enough (length hs <= length (remove N.eq_dec h hs))%nat by lia. apply F; [|exact C].
  intros j Hj. apply in_remove in Hj. destruct Hj as [Hj _]. apply HL in Hj.
  split; [pose proof (helper_ge _ _ Hj); lia|apply (proj2 Hj)].
Qed.
