(** Types with the same encodings. *)
From Coq Require Import String List NArith ZArith Bool Lia ZifyBool ZifyNat ZifyN.
From Coq Require Import Strings.Byte.
From Verif Require Import Prelude Types Bitvec Valid SpecSer SpecDecode SpecWrite SpecAlike Lib.
Import ListNotations.
Open Scope N_scope.

(** ** Larger bounds *)

Lemma wider_refl t : wider t t.
Proof.
  induction t using ty_ind'; cbn [wider]; auto; try (split; [lia|auto]).
  - lia.
  - induction fs as [|f fs IH]; [constructor|]. inversion H; subst. cbn [map]. constructor; auto.
  - rewrite firstn_all. induction vs as [|o vs IH]; [constructor|]. inversion H; subst. cbn [map]. constructor; auto.
    destruct o; auto.
Qed.

Lemma wider_variable t : forall t', wider t t' -> spec_variable t' = spec_variable t.
Proof.
  induction t using ty_ind'; intros t' HW; destruct t'; cbn [wider] in HW; try discriminate; try contradiction;
    try reflexivity; try (now inversion HW); cbn [spec_variable]; try (apply IHt; apply HW).
  revert fs0 HW. induction fs as [|f fs IH]; intros fs' HW; inversion HW; subst; [reflexivity|].
  inversion H; subst. cbn [existsb]. f_equal; [apply H3; apply H2|apply IH; auto].
Qed.

Lemma wider_size t : forall t', wider t t' -> fixed_size t' = fixed_size t.
Proof.
  induction t using ty_ind'; intros t' HW; destruct t'; cbn [wider] in HW; try discriminate; try contradiction;
    try reflexivity; try (now inversion HW); cbn [fixed_size];
    try (destruct HW as [<- HW]; f_equal; apply IHt; apply HW); try (apply IHt; apply HW).
  assert (HE : existsb (fun f => spec_variable (snd f)) fs0 = existsb (fun f => spec_variable (snd f)) fs)
    by (apply (wider_variable (TContainer fs) (TContainer fs0)); exact HW).
  rewrite HE. destruct (existsb _ fs); [reflexivity|]. clear HE. f_equal.
  revert fs0 HW. induction fs as [|f fs IH]; intros fs' HW; inversion HW; subst; [reflexivity|].
  inversion H; subst. cbn [map]. f_equal; [apply H3; apply H2|apply IH; auto].
Qed.

(** Readings of the parts. *)
Lemma read_all_iff {A} (rs : list (reading A)) l :
  read_all rs = Reads l <-> Forall2 (fun r a => r = Reads a) rs l.
Proof.
  split.
  - revert l. induction rs as [|r rs IH]; intros l; cbn [read_all]; [intros [= <-]; constructor|].
    destruct r as [a| |]; cbn [then_]; try discriminate. destruct (read_all rs) as [l'| |]; cbn [then_]; try discriminate.
    intros [= <-]. constructor; auto.
  - induction 1 as [|r a rs l HR _ IH]; [reflexivity|]. cbn [read_all]. rewrite HR. cbn [then_]. rewrite IH. reflexivity.
Qed.

Lemma then_reads {A B} (r : reading A) (f : A -> reading B) b :
  then_ r f = Reads b <-> exists a, r = Reads a /\ f a = Reads b.
Proof.
  split.
  - destruct r; cbn [then_]; try discriminate. eauto.
  - intros (a & -> & H). exact H.
Qed.

Lemma on_condition_reads {A} c (r : reading A) a : on_condition c r = Reads a <-> c = true /\ r = Reads a.
Proof. unfold on_condition. destruct c; split; [auto|intros []; auto|discriminate|intros []; discriminate]. Qed.

Lemma Forall2_map_same {A B C} (f g : A -> B) (P Q : B -> C -> Prop) l m :
  Forall2 P (map f l) m -> (forall x y, In x l -> In y m -> P (f x) y -> Q (g x) y) -> Forall2 Q (map g l) m.
Proof.
  revert m. induction l as [|x l IH]; intros m HF HI; inversion HF; subst; [constructor|].
  cbn [map]. constructor; [apply HI; cbn; auto|]. apply IH; auto. intros; apply HI; cbn; auto.
Qed.

Section Elements.
  Context (size : N) (f g : bytes -> reading val).

  Lemma read_elements_mono vr b l :
    read_elements vr size f b = Reads l -> (forall e v, In v l -> f e = Reads v -> g e = Reads v) ->
    read_elements vr size g b = Reads l.
  Proof.
    unfold read_elements. intros HR HI. destruct vr.
    - destruct b as [|x b]; [exact HR|]. remember (x :: b) as e. clear Heqe.
      apply on_condition_reads in HR as [HC HR]. apply on_condition_reads. split; [exact HC|].
      apply read_all_iff in HR. apply read_all_iff. eapply Forall2_map_same; [exact HR|].
      intros s v _ Hv. unfold read_span. destruct (snd s <? fst s); [auto|]. destruct (blen e <? snd s); auto.
    - apply on_condition_reads in HR as [HC HR]. apply on_condition_reads. split; [exact HC|].
      apply read_all_iff in HR. apply read_all_iff. eapply Forall2_map_same; [exact HR|]. cbn beta. auto.
  Qed.
End Elements.

Definition fields_of (f : ty -> bytes -> reading val) (ts : list ty) : list field :=
  map (fun t => ((spec_variable t, fixed_size t), f t)) ts.

Lemma read_fields_mono c f g ts ts' b l :
  Forall2 (fun t t' => spec_variable t' = spec_variable t /\ fixed_size t' = fixed_size t) ts ts' ->
  read_fields c (fields_of f ts) b = Reads l ->
  (forall i t t' v, nth_error ts i = Some t -> nth_error ts' i = Some t' -> nth_error l i = Some v ->
                  forall e, f t e = Reads v -> g t' e = Reads v) ->
  read_fields c (fields_of g ts') b = Reads l.
Proof.
  intros HS HR HI. unfold read_fields in *.
  assert (HF : forall h us, map fst (fields_of h us) = map (fun t => (spec_variable t, fixed_size t)) us)
    by (intros; unfold fields_of; rewrite map_map; reflexivity).
  rewrite !HF in *.
  assert (HM : map (fun t => (spec_variable t, fixed_size t)) ts' = map (fun t => (spec_variable t, fixed_size t)) ts).
  { clear -HS. induction HS as [|t t' ts ts' [H1 H2] _ IH]; [reflexivity|]. cbn [map]. rewrite H1, H2, IH. reflexivity. }
  rewrite HM. destruct (c && overrun _ _); [discriminate|].
  apply on_condition_reads in HR as [HC HR]. apply on_condition_reads. split; [exact HC|].
  apply read_all_iff in HR. apply read_all_iff. clear HC.
  set (spans := field_spans _ _ _) in *. clearbody spans. clear HM HF. unfold fields_of in *.
  revert spans l HR HI. induction HS as [|t t' ts ts' _ _ IH]; intros spans l HR HI; [exact HR|].
  destruct spans as [|s spans]; [cbn in *; exact HR|]. cbn [map combine] in *. inversion HR; subst.
  constructor; [cbn [fst snd] in *; eapply (HI 0%nat); eauto; reflexivity|].
  apply IH; auto. intros i u u1 w G1 G2 G3. apply (HI (S i) u u1 w); auto.
Qed.

Lemma Forall2_fun_map {A B} (f : A -> B -> Prop) l m :
  Forall2 (fun (P : B -> Prop) x => P x) (map f l) m <-> Forall2 f l m.
Proof.
  revert m. induction l as [|a l IH]; intros m; split; intros HF; inversion HF; subst; cbn [map]; constructor; auto;
    apply IH; auto.
Qed.

Lemma Forall2_nth_error {A B} (P : A -> B -> Prop) l m i a b :
  Forall2 P l m -> nth_error l i = Some a -> nth_error m i = Some b -> P a b.
Proof.
  intros HF. revert i. induction HF as [|x y l m HP _ IH]; intros [|i] H1 H2; try discriminate; cbn in *.
  - congruence.
  - eauto.
Qed.

Lemma Forall2_nth_l {A B} (P : A -> B -> Prop) l m i a :
  Forall2 P l m -> nth_error l i = Some a -> exists b, nth_error m i = Some b /\ P a b.
Proof.
  intros HF. revert i. induction HF as [|x y l m HP _ IH]; intros [|i] H1; try discriminate; cbn in *.
  - injection H1 as <-. eauto.
  - eauto.
Qed.

Lemma firstn_nth_error {A} n (l : list A) i a : nth_error (firstn n l) i = Some a -> nth_error l i = Some a.
Proof.
  revert l i. induction n as [|n IH]; intros [|x l] [|i] HE; cbn in *; try discriminate; auto.
Qed.

Lemma wider_variant vs vs' i u : wider (TUnion vs) (TUnion vs') -> nth_error vs i = Some u ->
  exists u', nth_error vs' i = Some u' /\
             match u, u' with Some t, Some t' => wider t t' | None, None => True | _, _ => False end.
Proof.
  cbn [wider]. rewrite Forall2_fun_map. intros HF HE. destruct (Forall2_nth_l _ _ _ _ _ HF HE) as (u' & E & HU).
  exists u'. split; [eapply firstn_nth_error; eauto|exact HU].
Qed.

Lemma wider_fields fs fs' : wider (TContainer fs) (TContainer fs') ->
  Forall2 (fun t t' => wider t t') (map snd fs) (map snd fs').
Proof. cbn [wider]. rewrite Forall2_fun_map. induction 1 as [|f f' fs fs' [_ HW] _ IH]; cbn [map]; constructor; auto. Qed.

Lemma nth_map_snd {A B} (fs : list (A * B)) i t : nth_error (map snd fs) i = Some t -> exists f, In f fs /\ snd f = t.
Proof. intros HE. apply nth_error_In, in_map_iff in HE as (f & <- & HI). eauto. Qed.

Lemma fields_of_map c fs :
  map (fun f : string * ty => ((spec_variable (snd f), fixed_size (snd f)), read c (snd f))) fs = fields_of (read c) (map snd fs).
Proof. unfold fields_of. rewrite map_map. reflexivity. Qed.

Lemma read_wider c t : forall t' b v, wider t t' -> read c t b = Reads v -> read c t' b = Reads v.
Proof.
  induction t using ty_ind'; intros t' e v HW HR;
    destruct t'; cbn [wider] in HW; try discriminate; try contradiction; try (now (inversion HW; subst; exact HR)).
  - destruct HW as [<- HW]. cbn [read] in *. rewrite (wider_variable _ _ HW), (wider_size _ _ HW).
    apply on_condition_reads in HR as [HC HR]. apply on_condition_reads. split; [exact HC|].
    apply then_reads in HR as (l & HR & HN). apply then_reads. exists l. split; [|exact HN].
    eapply read_elements_mono; [exact HR|]. intros; eapply IHt; eauto.
  - destruct HW as [<- HW]. cbn [read] in *. rewrite (wider_variable _ _ HW), (wider_size _ _ HW).
    apply on_condition_reads in HR as [HC HR]. apply on_condition_reads. split; [exact HC|].
    apply then_reads in HR as (l & HR & HN). apply then_reads. exists l. split; [|exact HN].
    eapply read_elements_mono; [exact HR|]. intros; eapply IHt; eauto.
  - destruct HW as [HN HW]. cbn [read] in *. rewrite (wider_variable _ _ HW), (wider_size _ _ HW).
    apply then_reads in HR as (l & HR & HL). apply then_reads. exists l. split.
    + eapply read_elements_mono; [exact HR|]. intros; eapply IHt; eauto.
    + apply on_condition_reads in HL as [HL HV]. apply on_condition_reads. split; [lia|exact HV].
  - cbn [read] in *. unfold read_bitlist in *. destruct (drop_false _) as [|x r]; [exact HR|].
    apply on_condition_reads in HR as [HC HV]. apply on_condition_reads. split; [lia|exact HV].
  - apply wider_fields in HW. cbn [read] in *. rewrite fields_of_map in *.
    apply then_reads in HR as (l & HR & HV). apply then_reads. exists l. split; [|exact HV].
    eapply read_fields_mono; [|exact HR|].
    + clear -HW. induction HW; constructor; auto. split; [apply wider_variable|apply wider_size]; auto.
    + intros i t t' w H1 H2 _ e' HE. pose proof (Forall2_nth_error _ _ _ _ _ _ HW H1 H2) as HW1. cbn beta in HW1.
      apply nth_map_snd in H1 as (f & HI & <-). rewrite Forall_forall in H. eapply H; eauto.
  - cbn [read] in *. apply then_reads in HR as (x & HR & HV). apply then_reads. exists x. split; [|exact HV].
    eapply IHt; eauto.
  - cbn [read] in *. destruct e as [|x e]; [exact HR|]. destruct x; try exact HR.
    apply then_reads in HR as (y & HR & HV). apply then_reads. exists y. split; [|exact HV].
    eapply IHt; eauto.
  - cbn [read] in *. destruct e as [|x e]; [exact HR|]. rewrite nth_error_map in *.
    destruct (nth_error vs (N.to_nat (byte_to_N x))) as [u|] eqn:EN; [|discriminate].
    destruct (wider_variant _ _ _ _ HW EN) as (u' & EN' & HU). rewrite EN'. cbn [option_map] in *.
    destruct u as [u|], u' as [u'|]; try contradiction; cbn [option_map] in *; [|exact HR].
    apply then_reads in HR as (y & HR & HV). apply then_reads. exists y. split; [|exact HV].
    rewrite Forall_forall in H. apply nth_error_In in EN. eapply (H _ EN); eauto.
Qed.

Lemma valid_variant vs i x : valid (TUnion vs) (VVariant i x) <->
  exists u, nth_error vs (N.to_nat i) = Some (Some u) /\ valid u x.
Proof.
  assert (E : valid (TUnion vs) (VVariant i x) =
    match nth_error (map (option_map valid) vs) (N.to_nat i) with Some (Some P) => P x | _ => False end)
    by (destruct vs as [|[]]; reflexivity).
  rewrite E, nth_error_map. destruct (nth_error vs (N.to_nat i)) as [[u|]|]; cbn [option_map]; split; intros HV;
    try contradiction; try (destruct HV as (u' & [= <-] & HV); exact HV); eauto; destruct HV as (? & ? & _); discriminate.
Qed.

Lemma valid_wider t : forall t' v, wider t t' -> valid t v -> valid t' v.
Proof.
  induction t using ty_ind'; intros t' v HW HV;
    destruct t'; cbn [wider] in HW; try discriminate; try contradiction; try (now (inversion HW; subst; exact HV));
    destruct v; try (cbn [valid] in HV; contradiction); try (destruct vs as [|[]]; cbn [valid] in HV; contradiction).
  - destruct HW as [<- HW]; cbn [valid] in HV; destruct HV as [HN HV]. cbn [valid]. split; [auto|]. eapply Forall_impl; [|exact HV]. eauto.
  - destruct HW as [<- HW]; cbn [valid] in HV; destruct HV as [HN HV]. cbn [valid]. split; [auto|]. eapply Forall_impl; [|exact HV]. eauto.
  - destruct HW as [HB HW]; cbn [valid] in HV; destruct HV as [HN HV]. cbn [valid]. split; [lia|]. eapply Forall_impl; [|exact HV]. eauto.
  - cbn [valid] in *. intuition lia.
  - cbn [valid wider] in *. rewrite Forall2_fun_map in HW. rewrite Forall2_fun_map in HV. rewrite Forall2_fun_map.
    revert l HV. induction HW as [|f f' fs fs' [_ HW] _ IH]; intros l HV; inversion HV; subst; constructor.
    + inversion H; subst. auto.
    + inversion H; subst. auto.
  - cbn [valid] in *. auto.
  - exact I.
  - cbn [valid] in *. auto.
  - destruct vs as [|[u|] vs]; try contradiction. destruct (wider_variant _ _ 0%nat None HW eq_refl) as (u' & E & HU).
    destruct u'; [contradiction|]. destruct vs0 as [|[]]; try discriminate. exact I.
  - apply valid_variant in HV as (u & EN & HV). apply valid_variant.
    destruct (wider_variant _ _ _ _ HW EN) as ([u'|] & EN' & HU); [|contradiction]. exists u'. split; [exact EN'|].
    rewrite Forall_forall in H. apply nth_error_In in EN. eapply (H _ EN); eauto.
Qed.

(** Unit variants are in front. *)
Lemma legal_unit vs i : legal_variants vs = true -> nth_error vs i = Some None -> i = 0%nat.
Proof.
  destruct vs as [|o r]; [discriminate|]. cbn [legal_variants]. intros HL HE. destruct i as [|i]; [reflexivity|].
  exfalso. rewrite !andb_true_iff, negb_true_iff in HL. destruct HL as [[_ HN] _].
  cbn [nth_error] in HE. apply nth_error_In in HE. rewrite <- not_true_iff_false in HN. apply HN.
  apply existsb_exists. exists None. auto.
Qed.

Lemma read_narrow c t : forall t' b v, wider t t' -> legal t' = true -> read c t' b = Reads v -> valid t v -> read c t b = Reads v.
Proof.
  induction t using ty_ind'; intros t' e v HW HL HR HV;
    destruct t'; cbn [wider] in HW; try discriminate; try contradiction; try (now (inversion HW; subst; exact HR)).
  - destruct HW as [<- HW]. cbn [read] in *. rewrite (wider_variable _ _ HW), (wider_size _ _ HW) in HR.
    cbn [legal] in HL. rewrite !andb_true_iff in HL.
    apply on_condition_reads in HR as [HC HR]. apply on_condition_reads. split; [exact HC|].
    apply then_reads in HR as (l & HR & HN). apply then_reads. exists l. split; [|exact HN].
    apply on_condition_reads in HN as [_ [= <-]]. cbn [valid] in HV. destruct HV as [_ HV]. rewrite Forall_forall in HV.
    eapply read_elements_mono; [exact HR|]. intros; eapply IHt; eauto. apply HL.
  - destruct HW as [<- HW]. cbn [read] in *. rewrite (wider_variable _ _ HW), (wider_size _ _ HW) in HR.
    cbn [legal] in HL. rewrite !andb_true_iff in HL.
    apply on_condition_reads in HR as [HC HR]. apply on_condition_reads. split; [exact HC|].
    apply then_reads in HR as (l & HR & HN). apply then_reads. exists l. split; [|exact HN].
    apply on_condition_reads in HN as [_ [= <-]]. cbn [valid] in HV. destruct HV as [_ HV]. rewrite Forall_forall in HV.
    eapply read_elements_mono; [exact HR|]. intros; eapply IHt; eauto. apply HL.
  - destruct HW as [HN HW]. cbn [read] in *. rewrite (wider_variable _ _ HW), (wider_size _ _ HW) in HR.
    cbn [legal] in HL. rewrite !andb_true_iff in HL.
    apply then_reads in HR as (l & HR & HQ). apply then_reads. exists l.
    apply on_condition_reads in HQ as [_ [= <-]]. cbn [valid] in HV. destruct HV as [HB HV]. rewrite Forall_forall in HV.
    split.
    + eapply read_elements_mono; [exact HR|]. intros; eapply IHt; eauto. apply HL.
    + apply on_condition_reads. split; [lia|reflexivity].
  - cbn [read] in *. unfold read_bitlist in *. destruct (drop_false _) as [|x r]; [exact HR|].
    apply on_condition_reads in HR as [HC [= <-]]. apply on_condition_reads. split; [|reflexivity].
    unfold bits_val in HV. cbn [valid bv_len] in HV. destruct HV as (_ & HB & _). unfold blen in *. rewrite rev_length in HB. lia.
  - apply wider_fields in HW. cbn [read] in *. rewrite fields_of_map in *.
    apply then_reads in HR as (l & HR & [= <-]). apply then_reads. exists l. split; [|reflexivity].
    cbn [valid] in HV. rewrite Forall2_fun_map in HV. cbn [legal] in HL. rewrite !andb_true_iff in HL. destruct HL as [_ HL].
    eapply read_fields_mono; [|exact HR|].
    + clear -HW. induction HW; constructor; auto. split; symmetry; [apply wider_variable|apply wider_size]; auto.
    + intros i t t' w H1 H2 H3 e' HE. pose proof (Forall2_nth_error _ _ _ _ _ _ HW H2 H1) as HW1. cbn beta in HW1.
      assert (HL1 : legal t = true).
      { apply nth_map_snd in H1 as (f & HI & <-). rewrite forallb_forall in HL. auto. }
      rewrite nth_error_map in H2. destruct (nth_error fs i) as [f|] eqn:EF; [|discriminate]. injection H2 as <-.
      pose proof (Forall2_nth_error _ _ _ _ _ _ HV EF H3) as HV1. cbn beta in HV1.
      rewrite Forall_forall in H. apply nth_error_In in EF. eapply (H f); eauto.
  - cbn [read] in *. apply then_reads in HR as (x & HR & [= <-]). apply then_reads. exists x. split; [|reflexivity].
    eapply IHt; eauto.
  - cbn [read] in *. destruct e as [|x e]; [exact HR|]. destruct x; try exact HR.
    apply then_reads in HR as (y & HR & [= <-]). apply then_reads. exists y. split; [|reflexivity].
    eapply IHt; eauto.
  - cbn [read] in *. destruct e as [|x e]; [exact HR|]. rewrite nth_error_map in *.
    cbn [legal] in HL. apply andb_true_iff in HL as [HLV HL].
    destruct (nth_error vs0 (N.to_nat (byte_to_N x))) as [u'|] eqn:EN'; [|discriminate]. cbn [option_map] in HR.
    destruct u' as [u'|]; cbn [option_map] in HR.
    + apply then_reads in HR as (y & HR & [= <-]). apply valid_variant in HV as (u & EN & HV). rewrite EN.
      destruct (wider_variant _ _ _ _ HW EN) as (u1 & EU & HU). rewrite EU in EN'. injection EN' as ->.
      cbn [option_map] in *. apply then_reads. exists y. split; [|reflexivity].
      rewrite Forall_forall in H. apply nth_error_In in EN. eapply (H _ EN); eauto.
      rewrite forallb_forall in HL. apply nth_error_In in EU. apply (HL _ EU).
    + pose proof (legal_unit _ _ HLV EN') as HI. apply on_condition_reads in HR as [HC [= <-]].
      cbn [valid] in HV. destruct vs as [|[u|] vs]; try contradiction.
      rewrite HI. cbn [nth_error option_map]. apply on_condition_reads. auto.
Qed.

Lemma write_wider t : forall t' v, wider t t' -> valid t v -> write t' v = write t v.
Proof.
  induction t using ty_ind'; intros t' v HW HV;
    destruct t'; cbn [wider] in HW; try discriminate; try contradiction; try (now (inversion HW; subst; reflexivity));
    destruct v; try (cbn [valid] in HV; contradiction); try (destruct vs as [|[]]; cbn [valid] in HV; contradiction).
  - destruct HW as [<- HW]; cbn [valid] in HV; destruct HV as [_ HV]. cbn [write]. rewrite (wider_variable _ _ HW). destruct (n =? 0); [reflexivity|].
    f_equal. apply map_ext_in. intros x Hx. rewrite Forall_forall in HV. f_equal. auto.
  - destruct HW as [<- HW]; cbn [valid] in HV; destruct HV as [_ HV]. cbn [write]. rewrite (wider_variable _ _ HW). destruct (n =? 0); [reflexivity|].
    f_equal. apply map_ext_in. intros x Hx. rewrite Forall_forall in HV. f_equal. auto.
  - destruct HW as [HB HW]; cbn [valid] in HV; destruct HV as [HN HV]. cbn [write]. rewrite (wider_variable _ _ HW).
    replace (n0 <? blen l) with false by lia. replace (n <? blen l) with false by lia.
    f_equal. apply map_ext_in. intros x Hx. rewrite Forall_forall in HV. f_equal. auto.
  - cbn [valid] in HV. cbn [write]. replace (n0 <? bv_len b) with false by lia. replace (n <? bv_len b) with false by lia. reflexivity.
  - cbn [write]. f_equal. cbn [valid wider] in *. rewrite Forall2_fun_map in HW. rewrite Forall2_fun_map in HV.
    revert l HV. induction HW as [|f f' fs fs' [_ HW] _ IH]; intros l HV; inversion HV; subst; [reflexivity|].
    inversion H; subst. cbn [map combine fst snd]. f_equal; [|apply IH; auto].
    rewrite (wider_variable _ _ HW). f_equal. auto.
  - cbn [write]. auto.
  - reflexivity.
  - cbn [write]. f_equal. auto.
  - reflexivity.
  - apply valid_variant in HV as (u & EN & HV). cbn [write]. rewrite !nth_error_map, EN.
    destruct (wider_variant _ _ _ _ HW EN) as ([u'|] & EN' & HU); [|contradiction]. rewrite EN'. cbn [option_map].
    rewrite Forall_forall in H. apply nth_error_In in EN. f_equal. eapply (H _ EN); eauto.
Qed.

(** ** Presentations *)

Lemma core_variable t : spec_variable (core t) = spec_variable t.
Proof.
  induction t using ty_ind'; cbn [core spec_variable]; auto.
  induction fs as [|f fs IH]; [reflexivity|]. inversion H; subst. cbn [map existsb snd]. f_equal; auto.
Qed.

Lemma core_size t : fixed_size (core t) = fixed_size t.
Proof.
  induction t using ty_ind'; cbn [core fixed_size]; auto; try (f_equal; auto; fail).
  assert (E : existsb (fun f : string * ty => spec_variable (snd f)) (map (fun f => (fst f, core (snd f))) fs)
              = existsb (fun f => spec_variable (snd f)) fs)
    by apply (core_variable (TContainer fs)).
  rewrite E. destruct (existsb _ fs); [reflexivity|]. clear E. f_equal.
  induction fs as [|f fs IH]; [reflexivity|]. inversion H; subst. cbn [map snd]. f_equal; auto.
Qed.

Lemma forallb_Forall_map {A} (f : A -> A) (p : A -> bool) l :
  Forall (fun x => p (f x) = p x) l -> forallb p (map f l) = forallb p l.
Proof. induction 1 as [|x l E _ IH]; [reflexivity|]. cbn [map forallb]. rewrite E, IH. reflexivity. Qed.

Lemma legal_variants_map (f : ty -> ty) vs : legal_variants (map (option_map f) vs) = legal_variants vs.
Proof.
  assert (E : forall l, existsb is_none (map (option_map f) l) = existsb is_none l)
    by (induction l as [|[]]; cbn [map option_map existsb is_none]; auto; now rewrite IHl).
  destruct vs as [|o r]; [reflexivity|]. cbn [map legal_variants]. rewrite E.
  unfold blen. cbn [length]. rewrite map_length. destruct o, r; reflexivity.
Qed.

Lemma core_legal t : legal t = true -> legal (core t) = true.
Proof.
  induction t using ty_ind'; intros HL; auto.
  - change (legal (TVector (core t) n) = true). cbn [legal] in *. rewrite !andb_true_iff in *.
    change (fixed_size (TVector (core t) n)) with (fixed_size (core (TVector t n))). rewrite core_size. intuition.
  - change (legal (TVector (core t) n) = true). cbn [legal] in *. rewrite !andb_true_iff in *.
    change (fixed_size (TVector (core t) n)) with (fixed_size (core (TArray t n))). rewrite core_size. intuition.
  - cbn [core legal] in *. rewrite !andb_true_iff in *. intuition.
  - cbn [legal] in HL. rewrite !andb_true_iff in HL. destruct HL as [[H1 H2] H3].
    change (legal (TContainer (map (fun f => (fst f, core (snd f))) fs)) = true). cbn [legal]. rewrite !andb_true_iff.
    change (TContainer (map (fun f => (fst f, core (snd f))) fs)) with (core (TContainer fs)). rewrite core_size.
    split; [split; [destruct fs; auto|auto]|].
    rewrite forallb_forall in *. intros g HG. apply in_map_iff in HG as (f & <- & HI). cbn [snd].
    rewrite Forall_forall in H. auto.
  - cbn [core legal] in *. apply IHt in HL. cbn [forallb]. rewrite HL. reflexivity.
  - cbn [core legal] in *. rewrite !andb_true_iff in *. destruct HL as [H1 H2].
    rewrite legal_variants_map. split; [exact H1|].
    rewrite forallb_forall in *. intros o HO. apply in_map_iff in HO as (o' & <- & HI).
    specialize (H2 _ HI). rewrite Forall_forall in H. specialize (H _ HI). destruct o'; cbn in *; auto.
  - cbn [core legal] in *. rewrite !andb_true_iff in *. destruct HL as [[H1 H2] H3].
    split; [split; [destruct ts; auto|unfold blen in *; rewrite map_length; auto]|].
    rewrite forallb_forall in *. intros o HO. apply in_map_iff in HO as (o' & <- & HI).
    rewrite Forall_forall in H. auto.
Qed.

Lemma core_typed t : forall v, typed t v -> typed (core t) (core_val v).
Proof.
  induction t using ty_ind'; intros v HT; destruct v; try (cbn [typed] in HT; contradiction);
    try (destruct vs as [|[]]; cbn [typed] in HT; contradiction); try exact HT.
  - cbn [core core_val typed] in *. apply Forall_map. eapply Forall_impl; [|exact HT]. auto.
  - cbn [core core_val typed] in *. destruct HT as [_ HT]. apply Forall_map. eapply Forall_impl; [|exact HT]. auto.
  - cbn [core core_val typed] in *. apply Forall_map. eapply Forall_impl; [|exact HT]. auto.
  - cbn [core core_val typed] in *. rewrite Forall2_fun_map in *.
    revert l HT. induction fs as [|f fs IH]; intros l HT; inversion HT; subst; cbn [map]; constructor.
    + inversion H; subst. auto.
    + inversion H; subst. auto.
  - cbn [core core_val typed] in *. auto.
  - cbn [typed] in HT. apply IHt in HT. exact HT.
  - destruct vs as [|[]]; cbn [typed] in HT; try contradiction. exact I.
  - assert (E : forall ws x, typed (TUnion ws) (VVariant i x) =
      match nth_error (map (option_map typed) ws) (N.to_nat i) with Some (Some P) => P x | _ => False end)
      by (intros; destruct ws as [|[]]; reflexivity).
    change (typed (TUnion (map (option_map core) vs)) (VVariant i (core_val v))). rewrite E in *.
    rewrite !nth_error_map in *. destruct (nth_error vs (N.to_nat i)) as [[u|]|] eqn:EN; cbn [option_map] in *; auto.
    rewrite Forall_forall in H. apply nth_error_In in EN. apply (H _ EN). auto.
  - cbn [core core_val typed] in *. rewrite !nth_error_map in *.
    destruct (nth_error ts (N.to_nat i)) as [u|] eqn:EN; cbn [option_map] in *; auto.
    rewrite Forall_forall in H. apply nth_error_In in EN. apply (H _ EN). auto.
Qed.

Lemma core_write t : forall v, typed t v -> write (core t) (core_val v) = write t v.
Proof.
  induction t using ty_ind'; intros v HT; destruct v; try (cbn [typed] in HT; contradiction);
    try (destruct vs as [|[]]; cbn [typed] in HT; contradiction); try reflexivity.
  - cbn [core core_val typed write] in *. rewrite core_variable. destruct (n =? 0); [reflexivity|]. f_equal.
    rewrite map_map. apply map_ext_in. intros x Hx. rewrite Forall_forall in HT. f_equal. auto.
  - cbn [core core_val typed write] in *. rewrite core_variable. destruct (n =? 0); [reflexivity|]. f_equal.
    rewrite map_map. apply map_ext_in. intros x Hx. destruct HT as [_ HT]. rewrite Forall_forall in HT. f_equal. auto.
  - cbn [core core_val typed write] in *. rewrite core_variable, blen_map. destruct (n <? blen l); [reflexivity|]. f_equal.
    rewrite map_map. apply map_ext_in. intros x Hx. rewrite Forall_forall in HT. f_equal. auto.
  - cbn [core core_val typed write] in *. f_equal. rewrite Forall2_fun_map in HT. rewrite map_map.
    revert l HT. induction fs as [|f fs IH]; intros l HT; inversion HT; subst; [reflexivity|].
    inversion H; subst. cbn [map combine fst snd]. f_equal; [|apply IH; auto]. rewrite core_variable. f_equal. auto.
  - cbn [core core_val typed write] in *. auto.
  - cbn [core core_val typed write] in *. change (N.to_nat 1) with 1%nat. cbn [nth_error map option_map]. f_equal. auto.
  - assert (E : forall ws x, typed (TUnion ws) (VVariant i x) =
      match nth_error (map (option_map typed) ws) (N.to_nat i) with Some (Some P) => P x | _ => False end)
      by (intros; destruct ws as [|[]]; reflexivity).
    rewrite E in HT. cbn [core core_val write].
    rewrite !nth_error_map in *. destruct (nth_error vs (N.to_nat i)) as [[u|]|] eqn:EN; cbn [option_map] in *; auto.
    rewrite Forall_forall in H. apply nth_error_In in EN. f_equal. apply (H _ EN). auto.
  - cbn [core core_val typed write] in *. rewrite !nth_error_map in *.
    destruct (nth_error ts (N.to_nat i)) as [u|] eqn:EN; cbn [option_map] in *; auto.
    rewrite Forall_forall in H. apply nth_error_In in EN. apply (H _ EN). auto.
Qed.

Definition map_reading {A B} (f : A -> B) (r : reading A) : reading B :=
  match r with Reads a => Reads (f a) | Rejects => Rejects | Crashes => Crashes end.

Lemma map_reading_then {A B C D} (f : A -> C) (g : B -> D) r (k : A -> reading B) k' :
  (forall a, map_reading g (k a) = k' (f a)) -> map_reading g (then_ r k) = then_ (map_reading f r) k'.
Proof. intros HK. destruct r; cbn; auto. Qed.

Lemma map_reading_condition {A B} (g : A -> B) c r : map_reading g (on_condition c r) = on_condition c (map_reading g r).
Proof. destruct c; reflexivity. Qed.

Lemma map_reading_all {A B} (g : A -> B) rs : map_reading (map g) (read_all rs) = read_all (map (map_reading g) rs).
Proof.
  induction rs as [|r rs IH]; [reflexivity|]. cbn [read_all map]. apply map_reading_then. intros a.
  rewrite <- IH. apply map_reading_then. reflexivity.
Qed.

Lemma core_elements vr size f g e :
  (forall x, g x = map_reading core_val (f x)) ->
  read_elements vr size g e = map_reading (map core_val) (read_elements vr size f e).
Proof.
  intros HE. unfold read_elements. destruct vr.
  - destruct e as [|x e]; [reflexivity|]. remember (x :: e) as b. clear Heqb.
    rewrite map_reading_condition, map_reading_all, map_map. f_equal. f_equal. apply map_ext. intros s.
    unfold read_span. destruct (snd s <? fst s); [reflexivity|]. destruct (blen b <? snd s); [reflexivity|]. apply HE.
  - rewrite map_reading_condition, map_reading_all, map_map. f_equal. f_equal. apply map_ext. intros s. apply HE.
Qed.

Lemma core_fields c fs b :
  Forall (fun f : string * ty => forall x, read c (core (snd f)) x = map_reading core_val (read c (snd f) x)) fs ->
  read_fields c (fields_of (read c) (map (fun f => core (snd f)) fs)) b =
  map_reading (map core_val) (read_fields c (fields_of (read c) (map snd fs)) b).
Proof.
  intros HF. unfold read_fields.
  assert (HFD : forall h us, map fst (fields_of h us) = map (fun t => (spec_variable t, fixed_size t)) us)
    by (intros; unfold fields_of; rewrite map_map; reflexivity).
  rewrite !HFD.
  assert (HM : map (fun t => (spec_variable t, fixed_size t)) (map (fun f : string * ty => core (snd f)) fs) =
               map (fun t => (spec_variable t, fixed_size t)) (map snd fs)).
  { rewrite !map_map. apply map_ext. intros f. rewrite core_variable, core_size. reflexivity. }
  rewrite HM. destruct (c && overrun _ _); [reflexivity|].
  rewrite map_reading_condition, map_reading_all, map_map. f_equal. f_equal.
  set (spans := field_spans _ _ _). clearbody spans. clear HM HFD. revert spans.
  unfold fields_of. induction HF as [|f fs HE _ IH]; intros spans; [reflexivity|].
  destruct spans as [|s spans]; [reflexivity|]. cbn [map combine fst snd]. f_equal; [apply HE|apply IH].
Qed.

Lemma core_read_last i rs rs' :
  Forall2 (fun r r' => r' = map_reading core_val r) rs rs' ->
  read_last i rs' = map_reading core_val (read_last i rs).
Proof.
  intros HF. revert i. induction HF as [|r r' rs rs' HR _ IH]; intros i; [reflexivity|].
  cbn [read_last]. rewrite IH. destruct (read_last (i + 1) rs); cbn [map_reading]; try reflexivity.
  subst r'. destruct r; reflexivity.
Qed.

Lemma core_read c t : forall b, read c (core t) b = map_reading core_val (read c t b).
Proof.
  induction t using ty_ind'; intros e.
  - cbn [core read]. destruct e as [|[] []]; reflexivity.
  - cbn [core read]. unfold on_condition. destruct (_ =? _); reflexivity.
  - cbn [core read]. unfold on_condition. destruct (_ =? _); reflexivity.
  - cbn [core read]. unfold on_condition. destruct (_ =? _); reflexivity.
  - cbn [core read]. rewrite core_variable, core_size, map_reading_condition. f_equal.
    rewrite (core_elements _ _ (read c t)) by exact IHt. symmetry. apply map_reading_then. intros l.
    rewrite blen_map, map_reading_condition. reflexivity.
  - cbn [core read]. rewrite core_variable, core_size, map_reading_condition. f_equal.
    rewrite (core_elements _ _ (read c t)) by exact IHt. symmetry. apply map_reading_then. intros l.
    rewrite blen_map, map_reading_condition. reflexivity.
  - cbn [core read]. rewrite core_variable, core_size.
    rewrite (core_elements _ _ (read c t)) by exact IHt. symmetry. apply map_reading_then. intros l.
    rewrite blen_map, map_reading_condition. reflexivity.
  - cbn [core read]. unfold read_bitvector, on_condition. destruct (_ && _); reflexivity.
  - cbn [core read]. unfold read_bitlist. destruct (drop_false _); [reflexivity|].
    unfold on_condition. destruct (_ && _); reflexivity.
  - cbn [core read]. rewrite map_map. cbn [snd].
    assert (E1 : map (fun f : string * ty => (spec_variable (core (snd f)), fixed_size (core (snd f)), read c (core (snd f)))) fs =
                 fields_of (read c) (map (fun f => core (snd f)) fs)) by (unfold fields_of; rewrite map_map; reflexivity).
    rewrite E1, fields_of_map, core_fields by exact H. symmetry. apply map_reading_then. reflexivity.
  - cbn [core read]. rewrite IHt. destruct (read c t e); reflexivity.
  - cbn [core read]. destruct e as [|x e]; [reflexivity|]. cbn [map option_map].
    destruct (N.to_nat (byte_to_N x)) as [|[|k]] eqn:EX.
    + assert (x = x00) as -> by (destruct x; try discriminate; reflexivity).
      cbn [nth_error]. destruct e as [|y e]; [reflexivity|]. unfold on_condition.
      replace (blen (y :: e) =? 0) with false; [reflexivity|]. unfold blen. cbn [length]. lia.
    + assert (x = x01) as -> by (destruct x; try discriminate; reflexivity).
      cbn [nth_error]. rewrite IHt. destruct (read c t e); reflexivity.
    + cbn [nth_error]. assert (nth_error (@nil (option (bytes -> reading val))) k = None) as -> by (destruct k; reflexivity).
      destruct x; try discriminate EX; reflexivity.
  - cbn [core read]. destruct e as [|x e]; [reflexivity|]. rewrite map_map, !nth_error_map.
    destruct (nth_error vs (N.to_nat (byte_to_N x))) as [[u|]|] eqn:EN; cbn [option_map]; [|unfold on_condition; destruct (_ =? _); reflexivity|reflexivity].
    rewrite Forall_forall in H. apply nth_error_In in EN. rewrite (H _ EN). destruct (read c u e); reflexivity.
  - cbn [core read]. destruct e as [|x e]; [reflexivity|]. remember (x :: e) as b. clear Heqb.
    rewrite map_map. apply core_read_last. induction H as [|t ts HT _ IH]; cbn [map]; constructor; auto.
Qed.
