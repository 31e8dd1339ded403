(** Lemmas about the definitions of Prelude.v. No property statements here. *)
From Coq Require Import List NArith ZArith Bool Lia ZifyBool ZifyNat ZifyN.
From Coq Require Import Strings.Byte.
From Verif Require Import Prelude.
Import ListNotations.
Open Scope N_scope.

Ltac Zify.zify_post_hook ::= Z.div_mod_to_equations.

(** ** res *)

Lemma bind_ok_inv {E A B} (x : res E A) (f : A -> res E B) b :
  bind x f = Ok b -> exists a, x = Ok a /\ f a = Ok b.
Proof. destruct x; cbn; intros; try discriminate; eauto. Qed.

Lemma bind_ok {E A B} (x : res E A) (f : A -> res E B) a :
  x = Ok a -> bind x f = f a.
Proof. intros ->; reflexivity. Qed.

Lemma bind_panic_inv {E A B} (x : res E A) (f : A -> res E B) p :
  bind x f = Panic p -> x = Panic p \/ exists a, x = Ok a /\ f a = Panic p.
Proof. destruct x; cbn; intros; try discriminate; eauto. left; congruence. Qed.

Lemma bind_err_inv {E A B} (x : res E A) (f : A -> res E B) e :
  bind x f = Err e -> x = Err e \/ exists a, x = Ok a /\ f a = Err e.
Proof. destruct x; cbn; intros; try discriminate; eauto. left; congruence. Qed.

Lemma map_err_ok_inv {E F A} (f : E -> F) (x : res E A) a :
  map_err f x = Ok a -> x = Ok a.
Proof. destruct x; cbn; congruence. Qed.

Lemma map_err_panic_inv {E F A} (f : E -> F) (x : res E A) p :
  map_err f x = Panic p -> x = Panic p.
Proof. destruct x; cbn; congruence. Qed.

(** Decompose hypotheses about monadic code. *)
Ltac inv_res :=
  repeat match goal with
  | H : bind _ _ = Ok _ |- _ =>
      apply bind_ok_inv in H; let a := fresh "a" in let E := fresh "E" in
      destruct H as (a & E & H)
  | H : Ok _ = Ok _ |- _ => injection H as H
  | H : Err _ = Err _ |- _ => injection H as H
  | H : Panic _ = Panic _ |- _ => injection H as H
  | H : Err _ = Ok _ |- _ => discriminate H
  | H : Ok _ = Err _ |- _ => discriminate H
  | H : Panic _ = Ok _ |- _ => discriminate H
  | H : Ok _ = Panic _ |- _ => discriminate H
  | H : Panic _ = Err _ |- _ => discriminate H
  | H : Err _ = Panic _ |- _ => discriminate H
  end.

Lemma mapM_ok_iff {E A B} (f : A -> res E B) l r :
  mapM f l = Ok r <-> Forall2 (fun a b => f a = Ok b) l r.
Proof.
  revert r; induction l as [|a l IH]; intros r; cbn.
  - split.
    + intros [= <-]; constructor.
    + intros H; inversion H; reflexivity.
  - split.
    + intros H. inv_res. subst. constructor; auto. apply IH; auto.
    + intros H; inversion H as [|? b ? r' H1 H2]; subst.
      rewrite H1; cbn. apply IH in H2. rewrite H2. reflexivity.
Qed.

Lemma mapM_no_panic {E A B} (f : A -> res E B) l p :
  (forall a, In a l -> f a <> Panic p) -> mapM f l <> Panic p.
Proof.
  induction l as [|a l IH]; cbn; intros Hf H; [discriminate|].
  apply bind_panic_inv in H as [H|(b & Hb & H)].
  - exact (Hf a (or_introl eq_refl) H).
  - apply bind_panic_inv in H as [H|(c & Hc & H)]; [|discriminate].
    apply IH in H; auto.
Qed.

Lemma mapM_err_inv {E A B} (f : A -> res E B) l e :
  mapM f l = Err e -> exists a, In a l /\ f a = Err e.
Proof.
  induction l as [|a l IH]; cbn; intros H; [discriminate|].
  apply bind_err_inv in H as [H|(b & Hb & H)]; [eauto|].
  apply bind_err_inv in H as [H|(c & Hc & H)]; [|discriminate].
  destruct (IH H) as (x & Hx & Hfx); eauto.
Qed.

Lemma mapM_panic_inv {E A B} (f : A -> res E B) l p :
  mapM f l = Panic p -> exists a, In a l /\ f a = Panic p.
Proof.
  induction l as [|a l IH]; cbn; intros H; [discriminate|].
  apply bind_panic_inv in H as [H|(b & Hb & H)]; [eauto|].
  apply bind_panic_inv in H as [H|(c & Hc & H)]; [|discriminate].
  destruct (IH H) as (x & Hx & Hfx); eauto.
Qed.

(** ** Bytes *)

Lemma byte_to_N_lt b : byte_to_N b < 256.
Proof. unfold byte_to_N. pose proof (Byte.to_N_bounded b). lia. Qed.

Lemma byte_to_N_of_N n : byte_to_N (byte_of_N n) = n mod 256.
Proof.
  unfold byte_of_N, byte_to_N.
  destruct (Byte.of_N (n mod 256)) eqn:E.
  - apply Byte.to_of_N in E. exact E.
  - apply Byte.of_N_None_iff in E. pose proof (N.mod_lt n 256). lia.
Qed.

Lemma byte_of_N_to_N b : byte_of_N (byte_to_N b) = b.
Proof.
  unfold byte_of_N. rewrite N.mod_small by apply byte_to_N_lt.
  unfold byte_to_N. rewrite Byte.of_to_N. reflexivity.
Qed.

Lemma byte_to_N_inj a b : byte_to_N a = byte_to_N b -> a = b.
Proof. intros H. rewrite <- (byte_of_N_to_N a), <- (byte_of_N_to_N b). congruence. Qed.

Lemma byte_of_N_mod n : byte_of_N (n mod 256) = byte_of_N n.
Proof. apply byte_to_N_inj. rewrite !byte_to_N_of_N. rewrite N.mod_mod; lia. Qed.

Lemma byte_eqb_true a b : byte_eqb a b = true <-> a = b.
Proof.
  unfold byte_eqb. split; [apply Byte.byte_dec_bl|apply Byte.byte_dec_lb].
Qed.

Lemma byte_eqb_false a b : byte_eqb a b = false <-> a <> b.
Proof.
  destruct (byte_eqb a b) eqn:E; split; try congruence.
  - intros H. apply byte_eqb_true in E. contradiction.
  - intros _ ->. rewrite (proj2 (byte_eqb_true b b) eq_refl) in E. discriminate.
Qed.

Lemma byte_eqb_refl a : byte_eqb a a = true.
Proof. apply byte_eqb_true; reflexivity. Qed.

Lemma bytes_eqb_true a b : bytes_eqb a b = true <-> a = b.
Proof.
  revert b; induction a as [|x a IH]; destruct b as [|y b]; cbn; try (split; congruence).
  rewrite andb_true_iff, byte_eqb_true, IH. split; intros; try congruence.
  - destruct H; congruence.
  - split; congruence.
Qed.

Lemma bytes_eqb_refl a : bytes_eqb a a = true.
Proof. apply bytes_eqb_true; reflexivity. Qed.

Lemma zeros_length n : length (zeros n) = n.
Proof. apply repeat_length. Qed.

(** ** Lengths *)

Lemma blen_nil {A} : blen (@nil A) = 0.
Proof. reflexivity. Qed.

Lemma blen_cons {A} (x : A) l : blen (x :: l) = blen l + 1.
Proof. unfold blen; cbn [length]; lia. Qed.

Lemma blen_app {A} (a b : list A) : blen (a ++ b) = blen a + blen b.
Proof. unfold blen; rewrite app_length; lia. Qed.

Lemma blen_rev {A} (a : list A) : blen (rev a) = blen a.
Proof. unfold blen; rewrite rev_length; lia. Qed.

Lemma blen_map {A B} (f : A -> B) l : blen (map f l) = blen l.
Proof. unfold blen; rewrite map_length; lia. Qed.

Lemma blen_repeat {A} (x : A) n : blen (repeat x n) = N.of_nat n.
Proof. unfold blen; rewrite repeat_length; lia. Qed.

Lemma blen_zeros n : blen (zeros n) = N.of_nat n.
Proof. apply blen_repeat. Qed.

Lemma blen_0 {A} (l : list A) : blen l = 0 -> l = [].
Proof. destruct l; [auto|rewrite blen_cons; lia]. Qed.

Lemma takeN_length {A} n (l : list A) : n <= blen l -> blen (takeN n l) = n.
Proof. unfold takeN, blen; rewrite firstn_length; lia. Qed.

Lemma blen_takeN {A} n (l : list A) : blen (takeN n l) = N.min n (blen l).
Proof. unfold takeN, blen; rewrite firstn_length; lia. Qed.

Lemma blen_dropN {A} n (l : list A) : blen (dropN n l) = blen l - n.
Proof. unfold dropN, blen; rewrite skipn_length; lia. Qed.

Lemma takeN_dropN {A} n (l : list A) : takeN n l ++ dropN n l = l.
Proof. apply firstn_skipn. Qed.

Lemma takeN_all {A} n (l : list A) : blen l <= n -> takeN n l = l.
Proof. unfold takeN, blen; intros; apply firstn_all2; lia. Qed.

Lemma dropN_all {A} n (l : list A) : blen l <= n -> dropN n l = [].
Proof. unfold dropN, blen; intros; apply skipn_all2; lia. Qed.

Lemma takeN_0 {A} (l : list A) : takeN 0 l = [].
Proof. reflexivity. Qed.

Lemma dropN_0 {A} (l : list A) : dropN 0 l = l.
Proof. reflexivity. Qed.

Lemma takeN_app {A} n (a b : list A) : n = blen a -> takeN n (a ++ b) = a.
Proof.
  intros ->. unfold takeN, blen. rewrite Nnat.Nat2N.id.
  rewrite firstn_app, Nat.sub_diag, firstn_all. cbn. apply app_nil_r.
Qed.

Lemma dropN_app {A} n (a b : list A) : n = blen a -> dropN n (a ++ b) = b.
Proof.
  intros ->. unfold dropN, blen. rewrite Nnat.Nat2N.id.
  rewrite skipn_app, Nat.sub_diag, skipn_all. reflexivity.
Qed.

Lemma takeN_app_le {A} n (a b : list A) : n <= blen a -> takeN n (a ++ b) = takeN n a.
Proof.
  unfold takeN, blen; intros. rewrite firstn_app.
  replace (N.to_nat n - length a)%nat with 0%nat by lia. cbn. apply app_nil_r.
Qed.

Lemma takeN_app_ge {A} n (a b : list A) :
  blen a <= n -> takeN n (a ++ b) = a ++ takeN (n - blen a) b.
Proof.
  unfold takeN, blen; intros. rewrite firstn_app.
  rewrite firstn_all2 by lia. do 2 f_equal. lia.
Qed.

Lemma dropN_app_le {A} n (a b : list A) : n <= blen a -> dropN n (a ++ b) = dropN n a ++ b.
Proof.
  unfold dropN, blen; intros. rewrite skipn_app.
  replace (N.to_nat n - length a)%nat with 0%nat by lia. reflexivity.
Qed.

Lemma dropN_app_ge {A} n (a b : list A) :
  blen a <= n -> dropN n (a ++ b) = dropN (n - blen a) b.
Proof.
  unfold dropN, blen; intros. rewrite skipn_app.
  rewrite skipn_all2 by lia. cbn. f_equal. lia.
Qed.

Lemma skipn_skipn' {A} (a b : nat) (l : list A) : skipn a (skipn b l) = skipn (b + a) l.
Proof.
  revert l; induction b as [|b IH]; intros l; [reflexivity|].
  destruct l; [cbn; rewrite !skipn_nil; reflexivity|]. cbn. apply IH.
Qed.

Lemma dropN_dropN {A} a b (l : list A) : dropN a (dropN b l) = dropN (b + a) l.
Proof. unfold dropN. rewrite skipn_skipn'. f_equal. lia. Qed.

Lemma takeN_takeN {A} a b (l : list A) : takeN a (takeN b l) = takeN (N.min a b) l.
Proof. unfold takeN. rewrite firstn_firstn. f_equal. lia. Qed.

Lemma takeN_dropN_comm {A} a b (l : list A) :
  takeN a (dropN b l) = dropN b (takeN (b + a) l).
Proof.
  unfold takeN, dropN.
  replace (N.to_nat (b + a)) with (N.to_nat b + N.to_nat a)%nat by lia.
  apply firstn_skipn_comm.
Qed.

Lemma takeN_succ_split {A} a b (l : list A) :
  takeN (a + b) l = takeN a l ++ takeN b (dropN a l).
Proof.
  rewrite takeN_dropN_comm.
  rewrite <- (takeN_dropN a (takeN (a + b) l)) at 1.
  f_equal. rewrite takeN_takeN. f_equal. lia.
Qed.

(** ** Slices *)

Lemma get_range_some {A} a b (l : list A) :
  a <= b -> b <= blen l -> get_range a b l = Some (takeN (b - a) (dropN a l)).
Proof.
  intros. unfold get_range.
  replace (a <=? b) with true by lia. replace (b <=? blen l) with true by lia. reflexivity.
Qed.

Lemma get_range_inv {A} a b (l s : list A) :
  get_range a b l = Some s -> a <= b /\ b <= blen l /\ s = takeN (b - a) (dropN a l).
Proof.
  unfold get_range. destruct ((a <=? b) && (b <=? blen l)) eqn:E; [|discriminate].
  intros [= <-]. split; [lia|split; [lia|reflexivity]].
Qed.

Lemma slice_ok {E A} a b (l : list A) :
  a <= b -> b <= blen l -> @slice E A a b l = Ok (takeN (b - a) (dropN a l)).
Proof. intros. unfold slice. rewrite get_range_some by auto. reflexivity. Qed.

Lemma slice_inv {E A} a b (l s : list A) :
  @slice E A a b l = Ok s -> a <= b /\ b <= blen l /\ s = takeN (b - a) (dropN a l).
Proof.
  unfold slice. destruct (get_range a b l) eqn:G; [|discriminate].
  intros [= <-]. apply get_range_inv in G. auto.
Qed.

Lemma slice_panic {E A} a b (l : list A) :
  b < a \/ blen l < b -> @slice E A a b l = Panic PIndex.
Proof.
  intros. unfold slice, get_range.
  replace ((a <=? b) && (b <=? blen l)) with false by lia. reflexivity.
Qed.

Lemma slice_len {E A} a b (l s : list A) :
  @slice E A a b l = Ok s -> blen s = b - a.
Proof.
  intros H. apply slice_inv in H as (H1 & H2 & ->).
  rewrite blen_takeN, blen_dropN. lia.
Qed.

Lemma slice_app {E A} (x y z : list A) a b :
  a = blen x -> b = blen x + blen y -> @slice E A a b (x ++ y ++ z) = Ok y.
Proof.
  intros -> ->. rewrite slice_ok; rewrite ?blen_app; try lia.
  f_equal. rewrite dropN_app by reflexivity. apply takeN_app. lia.
Qed.

Lemma slice_full {E A} (l : list A) : @slice E A 0 (blen l) l = Ok l.
Proof. rewrite slice_ok by lia. f_equal. rewrite dropN_0. apply takeN_all. lia. Qed.

Lemma index_ok {E A} i (l : list A) d :
  i < blen l -> @index E A i l = Ok (nth (N.to_nat i) l d).
Proof.
  unfold index, blen; intros H. replace (i <? N.of_nat (length l)) with true by lia.
  rewrite (nth_error_nth' l d) by lia. reflexivity.
Qed.

Lemma index_inv {E A} i (l : list A) x :
  @index E A i l = Ok x -> i < blen l /\ nth_error l (N.to_nat i) = Some x.
Proof.
  unfold index. destruct (i <? blen l) eqn:L; [|discriminate].
  destruct (nth_error l (N.to_nat i)) eqn:G; [|discriminate].
  intros [= <-]. split; [lia|reflexivity].
Qed.

Lemma copy_at_ok {E A} a (src l : list A) :
  a + blen src <= blen l ->
  @copy_at E A a src l = Ok (takeN a l ++ src ++ dropN (a + blen src) l).
Proof. intros. unfold copy_at. replace (a + blen src <=? blen l) with true by lia. reflexivity. Qed.

(** ** Little-endian integers *)

Lemma le_bytes_length n x : length (le_bytes n x) = n.
Proof. revert x; induction n; cbn; auto. Qed.

Lemma blen_le_bytes n x : blen (le_bytes n x) = N.of_nat n.
Proof. unfold blen; rewrite le_bytes_length; reflexivity. Qed.

Lemma pow256_succ n : 256 ^ N.of_nat (S n) = 256 * 256 ^ N.of_nat n.
Proof. rewrite Nnat.Nat2N.inj_succ. apply N.pow_succ_r'. Qed.

Lemma pow256_pos n : 0 < 256 ^ n.
Proof. apply N.neq_0_lt_0, N.pow_nonzero. discriminate. Qed.

Lemma le_value_le_bytes n x : x < 256 ^ N.of_nat n -> le_value (le_bytes n x) = x.
Proof.
  revert x; induction n as [|n IH]; intros x Hx.
  - cbn in *. lia.
  - cbn [le_bytes le_value]. rewrite byte_to_N_of_N. rewrite IH.
    + rewrite N.mod_mod by lia. lia.
    + rewrite pow256_succ in Hx. apply N.div_lt_upper_bound; lia.
Qed.

Lemma le_bytes_le_value l : le_bytes (length l) (le_value l) = l.
Proof.
  induction l as [|b l IH]; cbn [length le_bytes le_value]; [reflexivity|].
  pose proof (byte_to_N_lt b).
  replace ((byte_to_N b + 256 * le_value l) mod 256) with (byte_to_N b) by lia.
  replace ((byte_to_N b + 256 * le_value l) / 256) with (le_value l) by lia.
  rewrite byte_of_N_to_N, IH. reflexivity.
Qed.

Lemma le_value_lt l : le_value l < 256 ^ blen l.
Proof.
  induction l as [|b l IH]; [cbn; lia|].
  unfold blen in *. cbn [length le_value]. rewrite pow256_succ.
  pose proof (byte_to_N_lt b). lia.
Qed.

Lemma le_bytes_inj n x y :
  x < 256 ^ N.of_nat n -> y < 256 ^ N.of_nat n -> le_bytes n x = le_bytes n y -> x = y.
Proof.
  intros Hx Hy H. rewrite <- (le_value_le_bytes n x), <- (le_value_le_bytes n y) by auto.
  congruence.
Qed.

Lemma le_bytes_value_n n l : length l = n -> le_bytes n (le_value l) = l.
Proof. intros <-. apply le_bytes_le_value. Qed.

(** ** chunks_exact *)

Lemma chunks_exact_fuel_concat {A} n (blocks : list (list A)) fuel :
  0 < n -> Forall (fun b => blen b = n) blocks ->
  (length (concat blocks) <= fuel)%nat ->
  chunks_exact_fuel fuel n (concat blocks) = blocks.
Proof.
  intros Hn. revert blocks; induction fuel as [|fuel IH]; intros blocks HF HL.
  - destruct blocks as [|b r]; [reflexivity|].
    inversion HF; subst. cbn in HL. rewrite app_length in HL. unfold blen in *. lia.
  - cbn [chunks_exact_fuel]. destruct blocks as [|b r].
    + change (blen (@concat A [])) with 0. replace (0 <? n) with true by lia. reflexivity.
    + inversion HF as [|? ? Hb Hr]; subst. cbn [concat] in *.
      replace (blen (b ++ concat r) <? blen b) with false by (rewrite blen_app; lia).
      rewrite takeN_app, dropN_app by reflexivity. f_equal. apply IH; auto.
      rewrite app_length in HL. unfold blen in *. lia.
Qed.

Lemma chunks_exact_concat {E A} n (blocks : list (list A)) :
  0 < n -> Forall (fun b => blen b = n) blocks ->
  @chunks_exact E A n (concat blocks) = Ok blocks.
Proof.
  intros. unfold chunks_exact. replace (n =? 0) with false by lia.
  rewrite chunks_exact_fuel_concat; auto.
Qed.

Lemma chunks_exact_fuel_inv {A} n (l : list A) fuel :
  0 < n -> (length l <= fuel)%nat -> blen l mod n = 0 ->
  Forall (fun b => blen b = n) (chunks_exact_fuel fuel n l) /\
  concat (chunks_exact_fuel fuel n l) = l.
Proof.
  intros Hn. revert l; induction fuel as [|fuel IH]; intros l HL HM.
  - destruct l; [cbn; auto|cbn in HL; lia].
  - cbn. destruct (blen l <? n) eqn:C.
    + split; [constructor|]. cbn. symmetry; apply blen_0.
      apply N.ltb_lt in C. rewrite N.mod_small in HM by auto. auto.
    + apply N.ltb_ge in C.
      destruct (IH (dropN n l)) as [H1 H2].
      * unfold dropN. rewrite skipn_length. lia.
      * rewrite blen_dropN.
        replace (blen l) with ((blen l - n) + 1 * n) in HM by lia.
        rewrite N.mod_add in HM by lia. auto.
      * split; [constructor; auto; apply takeN_length; auto|].
        cbn. rewrite H2. apply takeN_dropN.
Qed.

Lemma chunks_exact_inv {E A} n (l : list A) cs :
  @chunks_exact E A n l = Ok cs -> blen l mod n = 0 ->
  0 < n /\ Forall (fun b => blen b = n) cs /\ concat cs = l.
Proof.
  unfold chunks_exact. destruct (n =? 0) eqn:Z; [discriminate|].
  intros [= <-] HM. split; [lia|].
  apply chunks_exact_fuel_inv; auto; lia.
Qed.

Lemma concat_blen {A} n (blocks : list (list A)) :
  Forall (fun b => blen b = n) blocks -> blen (concat blocks) = n * blen blocks.
Proof.
  induction 1; [cbn; lia|]. cbn [concat]. rewrite blen_app, blen_cons. lia.
Qed.

(** ** Forall2 and friends *)

Lemma Forall2_length {A B} (R : A -> B -> Prop) l r : Forall2 R l r -> length l = length r.
Proof. induction 1; cbn; auto. Qed.

Lemma Forall2_blen {A B} (R : A -> B -> Prop) l r : Forall2 R l r -> blen l = blen r.
Proof. intros H. unfold blen. rewrite (Forall2_length _ _ _ H). reflexivity. Qed.

Lemma Forall2_weaken {A B} (R S : A -> B -> Prop) l r :
  (forall a b, R a b -> S a b) -> Forall2 R l r -> Forall2 S l r.
Proof. intros H; induction 1; constructor; auto. Qed.

Lemma Forall2_map_l {A B C} (f : A -> B) (R : B -> C -> Prop) l r :
  Forall2 R (map f l) r <-> Forall2 (fun a c => R (f a) c) l r.
Proof.
  revert r; induction l as [|a l IH]; intros r; cbn; split; intros H;
    inversion H; subst; constructor; auto; apply IH; auto.
Qed.

Lemma Forall2_nth_error {A B} (R : A -> B -> Prop) l r i a :
  Forall2 R l r -> nth_error l i = Some a -> exists b, nth_error r i = Some b /\ R a b.
Proof.
  intros H; revert i; induction H; intros [|i]; cbn; try discriminate; eauto.
  intros [= <-]; eauto.
Qed.

(** ** usize arithmetic *)

Lemma uadd_ok {E} oc a b : a + b < USIZE -> @uadd E oc a b = Ok (a + b).
Proof. intros. unfold uadd. replace (a + b <? USIZE) with true by lia. reflexivity. Qed.

Lemma umul_ok {E} oc a b : a * b < USIZE -> @umul E oc a b = Ok (a * b).
Proof.
  intros. unfold umul. replace (a * b <? USIZE) with true; auto.
  symmetry. apply N.ltb_lt. auto.
Qed.

Lemma usub_ok {E} oc a b : b <= a -> @usub E oc a b = Ok (a - b).
Proof. intros. unfold usub. replace (b <=? a) with true by lia. reflexivity. Qed.

Lemma upow2_ok {E} oc k : k < 64 -> @upow2 E oc k = Ok (2 ^ k).
Proof. intros. unfold upow2. replace (k <? 64) with true by lia. reflexivity. Qed.

Lemma last_cases {A} (l : list A) : l = [] \/ exists r x, l = r ++ [x].
Proof.
  destruct l as [|a l]; [auto|]. right.
  destruct (@exists_last _ (a :: l)) as (r & x & ->); [discriminate|eauto].
Qed.
