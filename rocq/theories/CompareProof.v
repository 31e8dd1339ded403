(** Equality and order of values. *)
From Coq Require Import List NArith ZArith Bool Lia.
From Coq Require Import Strings.Byte.
From Verif Require Import Prelude Types Bitvec Valid Lib BitsLib Compare SpecCompare.
Import ListNotations.
Open Scope N_scope.

Section val_ind.
  Context (P : val -> Prop).
  Context (HBool : forall b, P (VBool b)) (HUint : forall n, P (VUint n)) (HNode : forall b, P (VNode b)).
  Context (HSeq : forall l, Forall P l -> P (VSeq l)) (HBits : forall b, P (VBits b)).
  Context (HStruct : forall l, Forall P l -> P (VStruct l)) (HNewtype : forall v, P v -> P (VNewtype v)).
  Context (HNone : P VNone) (HSome : forall v, P v -> P (VSome v)) (HVariant : forall i v, P v -> P (VVariant i v)).

  Fixpoint val_ind' (v : val) : P v :=
    let fix all (l : list val) : Forall P l :=
      match l with
      | [] => Forall_nil _
      | x :: r => Forall_cons x (val_ind' x) (all r)
      end in
    match v with
    | VBool b => HBool b
    | VUint n => HUint n
    | VNode b => HNode b
    | VSeq l => HSeq l (all l)
    | VBits b => HBits b
    | VStruct l => HStruct l (all l)
    | VNewtype x => HNewtype x (val_ind' x)
    | VNone => HNone
    | VSome x => HSome x (val_ind' x)
    | VVariant i x => HVariant i x (val_ind' x)
    end.
End val_ind.

(** ** Equality *)
Lemma bools_eqb_true a : forall b, bools_eqb a b = true <-> a = b.
Proof.
  induction a as [|x a IH]; intros [|y b]; cbn [bools_eqb]; split; intros E; try discriminate; auto.
  - apply andb_true_iff in E. destruct E as [E1 E2]. apply eqb_prop in E1. apply IH in E2. congruence.
  - injection E as -> ->. rewrite eqb_reflx. apply IH. reflexivity.
Qed.

Lemma slice_eq_spec {A} (e : A -> A -> bool) (R : A -> A -> Prop) l :
  Forall (fun x => forall y, e x y = true <-> R x y) l ->
  forall m, slice_eq e l m = true <-> Forall2 R l m.
Proof.
  induction 1 as [|x l Hx _ IH]; intros [|y m]; cbn [slice_eq]; split; intros E; try discriminate; try (inversion E; fail); auto.
  - apply andb_true_iff in E. destruct E as [E1 E2]. constructor; [apply Hx|apply IH]; auto.
  - inversion E; subst. apply andb_true_iff. split; [apply Hx|apply IH]; auto.
Qed.

Lemma ssz_eq_spec v : forall w, ssz_eq v w = true <-> same_value v w.
Proof.
  induction v as [b|n|b|l IH|b|l IH|x IH| |x IH|i x IH] using val_ind'; intros w; destruct w as [b'|n'|b'|l'|b'|l'|y| |y|j y];
    cbn [ssz_eq]; try (split; intros E; [discriminate|inversion E; fail]).
  - rewrite eqb_true_iff. split; intros E; [subst; constructor|inversion E; reflexivity].
  - rewrite N.eqb_eq. split; intros E; [subst; constructor|inversion E; reflexivity].
  - rewrite bytes_eqb_true. split; intros E; [subst; constructor|inversion E; reflexivity].
  - rewrite (slice_eq_spec _ same_value l IH). split; intros E; [constructor; exact E|inversion E; assumption].
  - unfold bv_eqb. rewrite bools_eqb_true. split; intros E; [constructor; exact E|inversion E; assumption].
  - rewrite (slice_eq_spec _ same_value l IH). split; intros E; [constructor; exact E|inversion E; assumption].
  - rewrite IH. split; intros E; [constructor; exact E|inversion E; assumption].
  - split; intros E; [constructor|reflexivity].
  - rewrite IH. split; intros E; [constructor; exact E|inversion E; assumption].
  - rewrite andb_true_iff, N.eqb_eq, IH. split; [intros [-> E]; constructor; exact E|intros E; inversion E; subst; auto].
Qed.

Lemma all_same {A} (R : A -> A -> Prop) l : Forall (fun x => R x x) l -> Forall2 R l l.
Proof. induction 1; constructor; auto. Qed.

Lemma same_refl v : same_value v v.
Proof. induction v using val_ind'; constructor; auto using all_same. Qed.

Lemma all_sym {A} (R : A -> A -> Prop) l :
  Forall (fun x => forall y, R x y -> R y x) l -> forall m, Forall2 R l m -> Forall2 R m l.
Proof. induction 1; intros m E; inversion E; subst; constructor; auto. Qed.

Lemma same_sym v : forall w, same_value v w -> same_value w v.
Proof.
  induction v using val_ind'; intros w E; inversion E; subst; constructor; eauto using all_sym.
Qed.

Lemma all_trans {A} (R : A -> A -> Prop) l :
  Forall (fun x => forall y z, R x y -> R y z -> R x z) l ->
  forall m k, Forall2 R l m -> Forall2 R m k -> Forall2 R l k.
Proof. induction 1; intros m k E F; inversion E; subst; inversion F; subst; constructor; eauto. Qed.

Lemma same_trans v : forall w u, same_value v w -> same_value w u -> same_value v u.
Proof.
  induction v using val_ind'; intros w u E F; inversion E; subst; inversion F; subst; constructor; eauto using all_trans; congruence.
Qed.

(** Valid values have no bits left over. *)
Lemma same_list (P : val -> Prop) l :
  Forall (fun x => P x) l -> (forall x y, P x -> P y -> same_value x y -> x = y) ->
  forall m, Forall (fun x => P x) m -> Forall2 same_value l m -> l = m.
Proof.
  intros HL HE. induction HL as [|x l Hx HL IH]; intros m HM E; inversion E; subst; [reflexivity|].
  inversion HM; subst. f_equal; auto.
Qed.

Lemma same_valid t : forall v w, valid t v -> valid t w -> same_value v w -> v = w.
Proof.
  induction t as [|w'| | |t n IH|t n IH|t n IH|n|n|fs IH|t IH|t IH|vs IH|ts IH] using ty_ind';
    intros v w HV HW E; destruct E; cbn [valid] in HV, HW; try contradiction; try reflexivity;
    try (destruct vs as [|[?|] ?]; contradiction).
  - f_equal. exact (same_list (valid t) l (proj2 HV) IH m (proj2 HW) H).
  - f_equal. exact (same_list (valid t) l (proj2 HV) IH m (proj2 HW) H).
  - f_equal. exact (same_list (valid t) l (proj2 HV) IH m (proj2 HW) H).
  - f_equal. destruct HV as (O & L & C), HW as (O' & L' & C'). apply bv_ext; auto.
  - f_equal. destruct HV as (O & L & C), HW as (O' & L' & C'). apply bv_ext; auto.
  - f_equal. revert l m HV HW H. induction IH as [|f fs Hf _ IHfs]; intros l m HV HW E; cbn [map] in HV, HW;
      inversion HV; subst; inversion HW; subst; [reflexivity|]. inversion E; subst. f_equal; auto.
  - f_equal. eauto.
  - f_equal. eauto.
  - f_equal. revert HV HW. rewrite nth_error_map. destruct (nth_error vs (N.to_nat i)) as [[u|]|] eqn:EN; cbn [option_map];
      try (intros HV; exfalso; destruct vs as [|[?|] ?]; exact HV).
    intros HV HW. assert (HV' : valid u v) by (destruct vs as [|[?|] ?]; exact HV).
    assert (HW' : valid u w) by (destruct vs as [|[?|] ?]; exact HW).
    apply nth_error_In in EN. rewrite Forall_forall in IH. exact (IH _ EN v w HV' HW' E).
  - f_equal. revert HV HW. rewrite nth_error_map. destruct (nth_error ts (N.to_nat i)) as [u|] eqn:EN; cbn [option_map]; try tauto.
    intros HV HW. apply nth_error_In in EN. rewrite Forall_forall in IH. exact (IH _ EN v w HV HW E).
Qed.

(** ** Order *)
Definition join (a b : comparison) : option comparison :=
  match a, b with
  | Eq, o => Some o
  | o, Eq => Some o
  | Lt, Lt => Some Lt
  | Gt, Gt => Some Gt
  | _, _ => None
  end.

Lemma slice_anti {A} (c : A -> A -> comparison) l :
  Forall (fun x => forall y, c y x = CompOpp (c x y)) l ->
  forall m, slice_cmp c m l = CompOpp (slice_cmp c l m).
Proof.
  induction 1 as [|x l Hx _ IH]; intros [|y m]; cbn [slice_cmp CompOpp]; auto.
  rewrite Hx, IH. destruct (c x y); reflexivity.
Qed.

Lemma slice_join {A} (c : A -> A -> comparison) l :
  Forall (fun x => forall y z o, join (c x y) (c y z) = Some o -> c x z = o) l ->
  forall m k o, join (slice_cmp c l m) (slice_cmp c m k) = Some o -> slice_cmp c l k = o.
Proof.
  induction 1 as [|x l Hx _ IH]; intros [|y m] [|z k] o; cbn [slice_cmp]; try (cbn; congruence).
  - intros E. destruct (c y z); try destruct (slice_cmp c m k); cbn in E; congruence.
  - destruct (c x y); try destruct (slice_cmp c l m); cbn; congruence.
  - specialize (Hx y z). specialize (IH m k).
    destruct (c x y), (c y z); cbn [join] in *; try discriminate;
      try (rewrite (Hx _ eq_refl); auto; fail); rewrite (Hx _ eq_refl);
      try destruct (slice_cmp c l m); try destruct (slice_cmp c m k); cbn; congruence.
Qed.

Lemma N_join a b c o : join (a ?= b) (b ?= c) = Some o -> (a ?= c) = o.
Proof.
  destruct (N.compare_spec a b), (N.compare_spec b c); cbn [join]; try discriminate; intros [= <-]; subst;
    try (apply N.compare_refl); try (apply N.compare_lt_iff; lia); apply N.compare_gt_iff; lia.
Qed.

Lemma bool_join a b c o : join (bool_cmp a b) (bool_cmp b c) = Some o -> bool_cmp a c = o.
Proof. destruct a, b, c; cbn; congruence. Qed.

Lemma every {A} (P : A -> Prop) l : (forall x, P x) -> Forall P l.
Proof. intros H. apply Forall_forall. auto. Qed.

Lemma cmp_anti v : forall w, ssz_cmp w v = CompOpp (ssz_cmp v w).
Proof.
  induction v as [b|n|b|l IH|b|l IH|x IH| |x IH|i x IH] using val_ind'; intros w; destruct w as [b'|n'|b'|l'|b'|l'|y| |y|j y];
    cbn [ssz_cmp]; try apply N.compare_antisym; auto using slice_anti.
  - destruct b, b'; reflexivity.
  - apply slice_anti, every. intros. apply N.compare_antisym.
  - apply slice_anti, every. intros [|] [|]; reflexivity.
  - rewrite N.compare_antisym, IH. destruct (i ?= j); reflexivity.
Qed.

Lemma cmp_join v : forall w u o, join (ssz_cmp v w) (ssz_cmp w u) = Some o -> ssz_cmp v u = o.
Proof.
  induction v as [b|n|b|l IH|b|l IH|x IH| |x IH|i x IH] using val_ind'; intros w u; destruct w as [b'|n'|b'|l'|b'|l'|y| |y|j y];
    destruct u as [b2|n2|b2|l2|b2|l2|z| |z|k z]; cbn [ssz_cmp];
    try apply N_join;
    try (intros o; cbn; congruence);
    try (intros o; match goal with |- join ?a _ = _ -> _ => destruct a end; cbn; congruence);
    try (intros o; match goal with |- join _ ?a = _ -> _ => destruct a end; cbn; congruence).
  - apply bool_join.
  - apply slice_join, every. intros x y z o. apply N_join.
  - apply slice_join; auto.
  - apply slice_join, every. intros x y z o. apply bool_join.
  - apply slice_join; auto.
  - apply IH.
  - apply IH.
  - intros o. pose proof (N_join i j k) as HN. specialize (IH y z).
    destruct (i ?= j), (j ?= k); cbn [join] in *; try discriminate;
      try (rewrite (HN _ eq_refl); auto; fail); rewrite (HN _ eq_refl);
      try destruct (ssz_cmp x y); try destruct (ssz_cmp y z); cbn; congruence.
Qed.

Lemma slice_same {A} (c : A -> A -> comparison) (R : A -> A -> Prop) p q r s :
  (forall x y, R x y -> c x y = Eq) -> Forall2 R p q -> slice_cmp c (p ++ r) (q ++ s) = slice_cmp c r s.
Proof. intros H. induction 1; cbn [app slice_cmp]; [reflexivity|]. rewrite H; auto. Qed.

Lemma slice_same_eq {A} (c : A -> A -> comparison) (R : A -> A -> Prop) l :
  Forall (fun x => forall y, R x y -> c x y = Eq) l -> forall m, Forall2 R l m -> slice_cmp c l m = Eq.
Proof. induction 1 as [|x l Hx _ IH]; intros m E; inversion E; subst; cbn [slice_cmp]; [reflexivity|]. rewrite Hx; auto. Qed.

Lemma byte_cmp_refl x : byte_cmp x x = Eq.
Proof. apply N.compare_refl. Qed.

Lemma bool_cmp_refl x : bool_cmp x x = Eq.
Proof. destruct x; reflexivity. Qed.

Lemma slice_refl {A} (c : A -> A -> comparison) l : (forall x, c x x = Eq) -> slice_cmp c l l = Eq.
Proof. intros H. induction l; cbn [slice_cmp]; [reflexivity|]. rewrite H. auto. Qed.

Lemma same_cmp v : forall w, same_value v w -> ssz_cmp v w = Eq.
Proof.
  induction v as [b|n|b|l IH|b|l IH|x IH| |x IH|i x IH] using val_ind'; intros w E; inversion E; subst; cbn [ssz_cmp]; auto.
  - apply bool_cmp_refl.
  - apply N.compare_refl.
  - apply slice_refl, byte_cmp_refl.
  - eapply slice_same_eq; eauto.
  - match goal with H : bv_bits _ = bv_bits _ |- _ => rewrite H end. apply slice_refl, bool_cmp_refl.
  - eapply slice_same_eq; eauto.
  - rewrite N.compare_refl. auto.
Qed.

Lemma lex_slice {A} (c : A -> A -> comparison) (B : A -> A -> Prop) l m :
  (forall x, c x x = Eq) -> (forall x y, B x y -> c x y = Lt) -> lexicographic eq B l m -> slice_cmp c l m = Lt.
Proof.
  intros HR HB (p & q & r & s & -> & -> & HS & HE).
  rewrite (slice_same c eq) by (auto; intros ? ? <-; apply HR).
  destruct r as [|x r], s as [|y s]; cbn [slice_cmp]; try contradiction; [reflexivity|]. rewrite (HB _ _ HE). reflexivity.
Qed.

Definition decided {A} (c : A -> A -> comparison) (R B : A -> A -> Prop) (x y : A) : Prop :=
  match c x y with Eq => R x y | Lt => B x y | Gt => B y x end.

Lemma slice_lex {A} (c : A -> A -> comparison) (R B : A -> A -> Prop) l :
  (forall x y, R x y -> R y x) ->
  forall m,
  (forall i x y, nth_error l i = Some x -> nth_error m i = Some y -> decided c R B x y) ->
  decided (slice_cmp c) (Forall2 R) (lexicographic R B) l m.
Proof.
  intros HR. unfold decided. induction l as [|x l IH]; intros [|y m] HL; cbn [slice_cmp].
  - constructor.
  - exists [], [], [], (y :: m). repeat split. constructor.
  - exists [], [], [], (x :: l). repeat split. constructor.
  - pose proof (HL O x y eq_refl eq_refl) as Hx. specialize (IH m (fun i => HL (S i))). destruct (c x y).
    + destruct (slice_cmp c l m).
      * constructor; auto.
      * destruct IH as (p & q & r & s & -> & -> & HF & HE). exists (x :: p), (y :: q), r, s. repeat split; auto.
      * destruct IH as (p & q & r & s & -> & -> & HF & HE). exists (y :: p), (x :: q), r, s. repeat split; auto.
    + exists [], [], (x :: l), (y :: m). repeat split; auto.
    + exists [], [], (y :: m), (x :: l). repeat split; auto.
Qed.

Scheme value_before_min := Minimality for value_before Sort Prop
  with ends_before_min := Minimality for ends_before Sort Prop.
Combined Scheme before_mutual from value_before_min, ends_before_min.

Lemma before_cmp : (forall v w, value_before v w -> ssz_cmp v w = Lt) /\
  (forall l m, ends_before l m -> slice_cmp ssz_cmp l m = Lt).
Proof.
  apply before_mutual; intros; cbn [ssz_cmp slice_cmp]; auto.
  - destruct H as [-> ->]. reflexivity.
  - apply lex_slice with (B := byte_before); auto using byte_cmp_refl.
  - rewrite (slice_same ssz_cmp same_value) by auto using same_cmp. assumption.
  - apply lex_slice with (B := bool_before); auto using bool_cmp_refl. intros ? ? [-> ->]. reflexivity.
  - rewrite (slice_same ssz_cmp same_value) by auto using same_cmp. assumption.
  - rewrite (proj2 (N.compare_lt_iff i j)); auto.
  - rewrite N.compare_refl. auto.
  - rewrite H0. reflexivity.
Qed.

Lemma lex_ends l m (C : list val -> val) :
  (forall p q r s, Forall2 same_value p q -> ends_before r s -> value_before (C (p ++ r)) (C (q ++ s))) ->
  lexicographic same_value value_before l m -> value_before (C l) (C m).
Proof.
  intros H (p & q & r & s & -> & -> & HF & HE). apply H; [exact HF|].
  destruct r as [|x r], s as [|y s]; try contradiction; constructor; auto.
Qed.

Lemma seq_decided l m (C : list val -> val) :
  (forall l m, ssz_cmp (C l) (C m) = slice_cmp ssz_cmp l m) ->
  (forall l m, Forall2 same_value l m -> same_value (C l) (C m)) ->
  (forall p q r s, Forall2 same_value p q -> ends_before r s -> value_before (C (p ++ r)) (C (q ++ s))) ->
  (forall i x y, nth_error l i = Some x -> nth_error m i = Some y -> decided ssz_cmp same_value value_before x y) ->
  decided ssz_cmp same_value value_before (C l) (C m).
Proof.
  intros H1 H2 H3 HL. pose proof (slice_lex ssz_cmp same_value value_before l same_sym m HL) as HD.
  unfold decided in *. rewrite H1. destruct (slice_cmp ssz_cmp l m); auto using lex_ends.
Qed.

Lemma flat_decided {A} (c : A -> A -> comparison) (B : A -> A -> Prop) l m :
  (forall x y, decided c eq B x y) -> decided (slice_cmp c) eq (lexicographic eq B) l m.
Proof.
  intros H. assert (HD := slice_lex c eq B l (fun x y E => eq_sym E) m (fun i x y _ _ => H x y)).
  unfold decided in *. destruct (slice_cmp c l m); auto. clear H. induction HD; congruence.
Qed.

Lemma byte_decided x y : decided byte_cmp eq byte_before x y.
Proof.
  unfold decided, byte_cmp, byte_before. destruct (N.compare_spec (byte_to_N x) (byte_to_N y)) as [E|E|E]; auto.
  apply byte_to_N_inj. exact E.
Qed.

Lemma bool_decided x y : decided bool_cmp eq bool_before x y.
Proof. destruct x, y; cbn; unfold bool_before; auto. Qed.

Lemma cmp_decided t : forall v w, typed t v -> typed t w -> decided ssz_cmp same_value value_before v w.
Proof.
  assert (HU : forall n n', decided ssz_cmp same_value value_before (VUint n) (VUint n')).
  { intros n n'. unfold decided. cbn [ssz_cmp]. destruct (N.compare_spec n n'); subst; constructor; auto. }
  assert (HB : forall b b', decided ssz_cmp same_value value_before (VBits b) (VBits b')).
  { intros b b'. pose proof (flat_decided bool_cmp bool_before (bv_bits b) (bv_bits b') bool_decided) as HD.
    unfold decided in *. cbn [ssz_cmp]. destruct (slice_cmp bool_cmp _ _); constructor; auto. }
  assert (HS : forall t l m, (forall v w, typed t v -> typed t w -> decided ssz_cmp same_value value_before v w) ->
    Forall (typed t) l -> Forall (typed t) m -> decided ssz_cmp same_value value_before (VSeq l) (VSeq m)).
  { intros u l m IH HL HM. apply (seq_decided l m VSeq); [reflexivity|exact same_seq|exact before_seq|].
    intros i x y Hx Hy. rewrite Forall_forall in HL, HM. apply IH; eauto using nth_error_In. }
  assert (H1 : forall (C : val -> val) x y, (forall x y, ssz_cmp (C x) (C y) = ssz_cmp x y) ->
     (forall x y, same_value x y -> same_value (C x) (C y)) -> (forall x y, value_before x y -> value_before (C x) (C y)) ->
     decided ssz_cmp same_value value_before x y -> decided ssz_cmp same_value value_before (C x) (C y)).
  { intros C x y E1 E2 E3 HD. unfold decided in *. rewrite E1. destruct (ssz_cmp x y); auto. }
  assert (HV : forall i j x y, (i = j -> decided ssz_cmp same_value value_before x y) ->
     decided ssz_cmp same_value value_before (VVariant i x) (VVariant j y)).
  { intros i j x y HD. unfold decided. cbn [ssz_cmp]. destruct (N.compare_spec i j) as [<-|E|E].
    - specialize (HD eq_refl). unfold decided in HD.
      destruct (ssz_cmp x y); [constructor|apply before_payload|apply before_payload]; auto.
    - constructor. exact E.
    - constructor. exact E. }
  induction t as [|w'| | |t n IH|t n IH|t n IH|n|n|fs IH|t IH|t IH|vs IH|ts IH] using ty_ind'; intros v w HT HW;
    destruct v as [b|n1|b|l|b|l|x| |x|i x]; try contradiction HT; destruct w as [b'|n1'|b'|m|b'|m|y| |y|j y];
    try contradiction HW; auto;
    try (cbn [typed] in HT; destruct vs as [|[?|] ?]; contradiction); try (cbn [typed] in HW; destruct vs as [|[?|] ?]; contradiction).
  - destruct b, b'; constructor; split; reflexivity.
  - pose proof (flat_decided byte_cmp byte_before b b' byte_decided) as HD.
    unfold decided in *. cbn [ssz_cmp]. destruct (slice_cmp byte_cmp _ _); subst; constructor; auto.
  - eapply HS; eauto.
  - eapply HS; [exact IH|apply HT|apply HW].
  - eapply HS; eauto.
  - apply (seq_decided l m VStruct); [reflexivity|exact same_struct|exact before_struct|]. cbn [typed] in HT, HW.
    revert l m HT HW. induction IH as [|f fs Hf _ IHfs]; intros l m HT HW; cbn [map] in HT, HW.
    + inversion HT; subst. intros [|i] x y; discriminate.
    + inversion HT as [|? x1 ? l1 T1 T2]; subst. inversion HW as [|? x2 ? l2 T3 T4]; subst. intros [|i] x' y' E1 E2; cbn [nth_error] in E1, E2.
      * injection E1 as <-. injection E2 as <-. auto.
      * exact (IHfs l1 l2 T2 T4 i x' y' E1 E2).
  - apply (H1 VNewtype); [reflexivity|exact same_newtype|exact before_newtype|]. auto.
  - constructor.
  - constructor.
  - constructor.
  - apply (H1 VSome); [reflexivity|exact same_some|exact before_some|]. auto.
  - constructor.
  - constructor.
  - constructor.
  - apply HV. intros <-. revert HT HW. cbn [typed]. rewrite nth_error_map.
    destruct (nth_error vs (N.to_nat i)) as [[u|]|] eqn:EN; cbn [option_map];
      try (intros HT; exfalso; destruct vs as [|[?|] ?]; exact HT).
    intros HT HW. assert (HT' : typed u x) by (destruct vs as [|[?|] ?]; exact HT).
    assert (HW' : typed u y) by (destruct vs as [|[?|] ?]; exact HW).
    apply nth_error_In in EN. rewrite Forall_forall in IH. exact (IH _ EN x y HT' HW').
  - apply HV. intros <-. revert HT HW. cbn [typed]. rewrite nth_error_map.
    destruct (nth_error ts (N.to_nat i)) as [u|] eqn:EN; cbn [option_map]; try tauto.
    intros HT HW. apply nth_error_In in EN. rewrite Forall_forall in IH. exact (IH _ EN x y HT HW).
Qed.

Lemma cmp_spec t v w : typed t v -> typed t w ->
  (ssz_cmp v w = Eq <-> same_value v w) /\
  (ssz_cmp v w = Lt <-> value_before v w) /\
  (ssz_cmp v w = Gt <-> value_before w v).
Proof.
  intros HV HW. pose proof (cmp_decided t v w HV HW) as HD. unfold decided in HD.
  assert (HG : value_before w v -> ssz_cmp v w = Gt).
  { intros HB. rewrite cmp_anti. rewrite (proj1 before_cmp w v HB). reflexivity. }
  split; [split; [intros E; rewrite E in HD; exact HD|apply same_cmp]|].
  split; (split; [intros E; rewrite E in HD; exact HD|]); [apply before_cmp|exact HG].
Qed.
