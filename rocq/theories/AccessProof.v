(** Parts of encodings. *)
From Coq Require Import String List NArith ZArith Bool Lia ZifyBool ZifyNat ZifyN.
From Coq Require Import Strings.Byte.
From Verif Require Import Prelude Types Valid SpecSer SpecDecode SpecAccess Bitvec Ser De Impls Lib SerProof SerSpec DeProof ConProof
  RoundTrip ReadProof CodecFacts.
Import ListNotations.
Open Scope N_scope.
Ltac Zify.zify_post_hook ::= Z.div_mod_to_equations.

Lemma sub_at (F c G : bytes) : sub_bytes (F ++ c ++ G) (blen F) (blen c) = c.
Proof. rewrite sub_bytes_eq, dropN_app by reflexivity. apply takeN_app. reflexivity. Qed.

Lemma number_at (F G : bytes) p r : p = blen F -> r < 2 ^ 32 -> number (sub_bytes (F ++ le_bytes 4 r ++ G) p 4) = r.
Proof.
  intros -> Hr. pose proof (sub_at F (le_bytes 4 r) G) as HS. rewrite blen_le_bytes in HS. change (N.of_nat 4) with 4 in HS.
  rewrite HS, number_le. apply le_value_le_bytes. exact Hr.
Qed.

Definition matches (u : ty) (e : bool * bytes) : Prop := fst e = spec_variable u /\ (fst e = false -> blen (snd e) = fixed_size u).

Definition lay (F V : bytes) (es : list (bool * bytes)) (r : N) : bytes :=
  F ++ concat (fixed_from r es) ++ V ++ concat (variable_parts es).

Lemma lay_blen F V es r : blen (lay F V es r) = blen F + total (fixed_lengths es) + blen V + total (variable_lengths es).
Proof. unfold lay. rewrite !blen_app, fixed_from_blen, variable_parts_blen. lia. Qed.

Lemma lay_fixed F V c es r : lay F V ((false, c) :: es) r = lay (F ++ c) V es r.
Proof. unfold lay. cbn [fixed_from variable_parts map concat fst snd app]. rewrite <- !app_assoc. reflexivity. Qed.

Lemma lay_variable F V c es r : lay F V ((true, c) :: es) r = lay (F ++ le_bytes 4 r) (V ++ c) es (r + blen c).
Proof. unfold lay. cbn [fixed_from variable_parts map concat fst snd app]. rewrite <- !app_assoc. reflexivity. Qed.

Lemma offset_ok us es : Forall2 matches us es -> forall F V r,
  r = blen F + total (fixed_lengths es) + blen V -> blen (lay F V es r) < 2 ^ 32 ->
  offset_from us (blen F) (lay F V es r) = r.
Proof.
  induction 1 as [|u [f c] us es [HM1 HM2] _ IH]; intros F V r Hr HB; cbn [offset_from].
  - rewrite lay_blen. cbn in *. lia.
  - cbn [fst snd] in *. subst f. rewrite lay_blen in HB. rewrite fixed_lengths_cons, total_cons in *. cbn [fst snd] in *.
    destruct (spec_variable u) eqn:EV.
    + unfold lay. cbn [fixed_from concat]. rewrite <- !app_assoc. apply number_at; [reflexivity|lia].
    + rewrite variable_lengths_cons, total_cons in HB. cbn [fst snd] in HB. rewrite lay_fixed. rewrite <- HM2 by reflexivity.
      rewrite <- blen_app. apply IH; rewrite ?lay_blen, ?blen_app; lia.
Qed.

Lemma span_ok us es : Forall2 matches us es -> forall k u f c F V r,
  nth_error us k = Some u -> nth_error es k = Some (f, c) ->
  r = blen F + total (fixed_lengths es) + blen V -> blen (lay F V es r) < 2 ^ 32 ->
  exists pre post : bytes, lay F V es r = pre ++ c ++ post /\
    span_from us k (blen F) (lay F V es r) = Some (u, blen pre, blen c) /\
    forall c' : bytes, blen c' = blen c -> lay F V (change k (fun e => (fst e, c')) es) r = pre ++ c' ++ post.
Proof.
  induction 1 as [|u0 [f0 c0] us es [HM1 HM2] HF IH]; intros k u f c F V r Hu He Hr HB; [destruct k; discriminate|].
  cbn [fst snd] in *. subst f0. pose proof HB as HB'. rewrite lay_blen in HB'.
  rewrite fixed_lengths_cons, total_cons in *. rewrite variable_lengths_cons, total_cons in HB'. cbn [fst snd] in *.
  destruct k as [|k].
  - cbn [nth_error] in *. assert (u0 = u) by congruence. assert (c0 = c) by congruence. subst u0 c0. clear Hu He.
    cbn [span_from change fst]. destruct (spec_variable u) eqn:EV.
    + exists (F ++ le_bytes 4 r ++ concat (fixed_from (r + blen c) es) ++ V), (concat (variable_parts es)).
      split; [unfold lay; cbn [fixed_from variable_parts map concat fst snd app]; rewrite <- !app_assoc; reflexivity|]. split.
      * assert (HN : number (sub_bytes (lay F V ((true, c) :: es) r) (blen F) 4) = r).
        { unfold lay. cbn [fixed_from concat]. rewrite <- !app_assoc. apply number_at; [reflexivity|lia]. }
        rewrite HN. rewrite lay_variable. replace (blen F + 4) with (blen (F ++ le_bytes 4 r)).
        2:{ rewrite blen_app, blen_le_bytes. lia. }
        assert (H4 : blen (le_bytes 4 r) = 4) by apply blen_le_bytes.
        rewrite offset_ok; auto.
        -- do 2 f_equal; [|lia]. f_equal. rewrite !blen_app, fixed_from_blen, H4. lia.
        -- rewrite !blen_app, H4. lia.
        -- rewrite lay_blen, !blen_app, H4. lia.
      * intros c' Hc'. unfold lay. cbn [fixed_from variable_parts map concat fst snd app]. rewrite Hc', <- !app_assoc. reflexivity.
    + exists F, (concat (fixed_from r es) ++ V ++ concat (variable_parts es)).
      split; [rewrite lay_fixed; unfold lay; rewrite <- !app_assoc; reflexivity|]. split; [rewrite HM2 by reflexivity; reflexivity|].
      intros c' _. rewrite lay_fixed. unfold lay. rewrite <- !app_assoc. reflexivity.
  - cbn [nth_error] in *. cbn [span_from change fst]. destruct (spec_variable u0) eqn:EV.
    + assert (H4 : blen (le_bytes 4 r) = 4) by apply blen_le_bytes.
      destruct (IH k u f c (F ++ le_bytes 4 r) (V ++ c0) (r + blen c0) Hu He) as (pre & post & G1 & G2 & G3).
      * rewrite !blen_app, H4. lia.
      * rewrite <- lay_variable. exact HB.
      * exists pre, post. rewrite lay_variable. split; [exact G1|]. split.
        -- rewrite blen_app, H4 in G2. exact G2.
        -- intros c' Hc'. rewrite lay_variable. apply G3. exact Hc'.
    + destruct (IH k u f c (F ++ c0) V r Hu He) as (pre & post & G1 & G2 & G3).
      * rewrite !blen_app. lia.
      * rewrite <- lay_fixed. exact HB.
      * exists pre, post. rewrite lay_fixed. split; [exact G1|]. split.
        -- rewrite blen_app, HM2 in G2 by reflexivity. exact G2.
        -- intros c' Hc'. rewrite lay_fixed. apply G3. exact Hc'.
Qed.

Lemma compose_lay es b : spec_compose es = Some b <-> compose_size es < 2 ^ 32 /\ b = lay [] [] es (total (fixed_lengths es)).
Proof. rewrite spec_compose_some. reflexivity. Qed.

Lemma change_lengths k (c c' : bytes) es f : nth_error es k = Some (f, c) -> blen c' = blen c ->
  fixed_lengths (change k (fun e : bool * bytes => (fst e, c')) es) = fixed_lengths es /\
  variable_lengths (change k (fun e : bool * bytes => (fst e, c')) es) = variable_lengths es.
Proof.
  intros HE Hc. revert k HE. induction es as [|[f0 c0] es IH]; intros [|k] HE; try discriminate HE; cbn [change].
  - cbn [nth_error] in HE. assert (c0 = c) by congruence. subst c0.
    rewrite !fixed_lengths_cons, !variable_lengths_cons. cbn [fst snd]. destruct f0; rewrite ?Hc; auto.
  - destruct (IH k HE) as [H1 H2]. rewrite !fixed_lengths_cons, !variable_lengths_cons, H1, H2. auto.
Qed.

Lemma compose_part us es k u f c b : Forall2 matches us es -> nth_error us k = Some u -> nth_error es k = Some (f, c) ->
  spec_compose es = Some b ->
  exists pre post : bytes, b = pre ++ c ++ post /\ span_from us k 0 b = Some (u, blen pre, blen c) /\
    forall c' : bytes, blen c' = blen c -> spec_compose (change k (fun e => (fst e, c')) es) = Some (pre ++ c' ++ post).
Proof.
  intros HM Hu He HC. apply compose_lay in HC as [HS ->].
  destruct (span_ok us es HM k u f c [] [] (total (fixed_lengths es)) Hu He) as (pre & post & G1 & G2 & G3).
  - cbn. lia.
  - rewrite lay_blen. rewrite compose_size_eq in HS. cbn [blen length N.of_nat]. lia.
  - exists pre, post. split; [exact G1|]. split; [exact G2|]. intros c' Hc'.
    destruct (change_lengths k c c' es f He Hc') as [L1 L2].
    apply compose_lay. rewrite compose_size_eq, L1, L2, <- compose_size_eq. split; [exact HS|]. symmetry. apply G3. exact Hc'.
Qed.

(** ** One level *)

Lemma encs_change l k u x f (c : bytes) x' (c' : bytes) es :
  encs l = Some es -> nth_error l k = Some (u, x) -> nth_error es k = Some (f, c) ->
  spec_serialize u x' = Some c' ->
  encs (change k (fun ux => (fst ux, x')) l) = Some (change k (fun e => (fst e, c')) es).
Proof.
  intros HE Hl He HS. apply encs_some in HE. apply encs_some. revert k Hl He.
  induction HE as [|tv e l es [H1 H2] HE IH]; intros [|k] Hl He; try discriminate; cbn [change nth_error] in *.
  - assert (tv = (u, x)) by congruence. subst tv. constructor; auto. split; cbn [fst snd] in *; auto.
  - constructor; [split; auto|]. apply IH; auto.
Qed.

Lemma encs_nth l es k u x : encs l = Some es -> nth_error l k = Some (u, x) ->
  exists c, nth_error es k = Some (spec_variable u, c) /\ spec_serialize u x = Some c.
Proof.
  intros HE. apply encs_some in HE. revert k. induction HE as [|tv e l es [H1 H2] HE IH]; intros [|k] Hl; try discriminate; cbn [nth_error] in *.
  - assert (tv = (u, x)) by congruence. subst tv. cbn [fst snd] in *. exists (snd e). rewrite <- H1. destruct e; auto.
  - apply IH; auto.
Qed.

Lemma encs_matches l es : Forall (fun ux : ty * val => valid (fst ux) (snd ux)) l -> encs l = Some es -> Forall2 matches (map fst l) es.
Proof.
  intros HV HE. apply encs_some in HE. revert HV. induction HE as [|tv e l es [H1 H2] HE IH]; intros HV; cbn [map]; constructor.
  - split; [auto|]. intros HF. inversion HV; subst. apply (spec_serialize_fixed (fst tv) (snd tv)); auto. congruence.
  - inversion HV; subst. auto.
Qed.

Lemma joined_serialize t v : joined t = true -> (exists b, spec_serialize t v = Some b) ->
  spec_serialize t v = match encs (children t v) with Some es => spec_compose es | None => None end.
Proof.
  intros HJ [b HS]. destruct t; try discriminate HJ; destruct v; try discriminate HS; cbn [spec_serialize children] in *;
      unfold encs; rewrite ?map_map, ?combine_map_l, ?map_map in *; cbn [fst snd] in *; reflexivity.
Qed.

Definition put1 (v : val) (k : nat) (g : val -> val) : val :=
  match v with
  | VSeq l => VSeq (change k g l)
  | VStruct l => VStruct (change k g l)
  | VNewtype y => VNewtype (g y)
  | VSome y => VSome (g y)
  | VVariant i y => VVariant i (g y)
  | _ => v
  end.

Lemma put_cons v k rest x : put v (k :: rest) x = put1 v (N.to_nat k) (fun y => put y rest x).
Proof. destruct v; reflexivity. Qed.

Lemma change_map_pair {A B} (a : A) (g : B -> B) k l y : nth_error l k = Some y ->
  map (pair a) (change k g l) = change k (fun ab => (fst ab, g y)) (map (pair a) l).
Proof.
  revert k. induction l as [|z l IH]; intros [|k] HE; try discriminate HE; cbn [change map nth_error] in *.
  - assert (z = y) by congruence. subst z. reflexivity.
  - f_equal. auto.
Qed.

Lemma change_combine {A B} (g : B -> B) k (m : list A) l a y : nth_error (combine m l) k = Some (a, y) ->
  combine m (change k g l) = change k (fun ab => (fst ab, g y)) (combine m l).
Proof.
  revert k l. induction m as [|z m IH]; intros k l HE; [destruct k; discriminate HE|].
  destruct l as [|w l]; [destruct k; discriminate HE|]. destruct k as [|k]; cbn [change combine nth_error] in *.
  - assert (w = y) by congruence. subst w. reflexivity.
  - f_equal. auto.
Qed.

Lemma change_length {A} k (g : A -> A) l : length (change k g l) = length l.
Proof. revert k. induction l as [|z l IH]; intros [|k]; cbn; auto. Qed.

Lemma map_fst_pair {A B} (a : A) (l : list B) : map fst (map (pair a) l) = repeat a (length l).
Proof. induction l; cbn; f_equal; auto. Qed.

Lemma children_put t v k u x g : joined t = true -> nth_error (children t v) k = Some (u, x) ->
  children t (put1 v k g) = change k (fun ux => (fst ux, g x)) (children t v).
Proof.
  intros HJ HE. destruct t; try discriminate HJ; destruct v; cbn [children put1] in *;
    try (destruct k; discriminate HE); try (eapply change_combine; eauto; fail);
    apply change_map_pair; rewrite nth_error_map in HE; destruct (nth_error l k); cbn in HE; congruence.
Qed.

(** The number of entries of a list *)
Lemma entries_ok u l es b : legal u = true -> Forall (valid u) l -> encs (map (pair u) l) = Some es -> spec_compose es = Some b ->
  entries u b = blen l.
Proof.
  intros HL HV HE HC. apply encs_homogeneous in HE as (bodies & -> & HF). pose proof (Forall2_blen _ _ _ HF) as HB.
  unfold entries. destruct (spec_variable u) eqn:EV.
  - apply layout_compose in HC as [-> HS]. destruct bodies as [|c bodies].
    + destruct l; [reflexivity|]. inversion HF.
    + unfold layout in *. cbn [offs map concat]. rewrite <- app_assoc.
      match goal with |- number (sub_bytes (le_bytes 4 ?r ++ ?G) 0 4) / 4 = _ => pose proof (number_at [] G 0 r eq_refl) as HN end.
      cbn [app] in HN. rewrite HN.
      * rewrite HB. rewrite N.mul_comm, N.div_mul by lia. reflexivity.
      * rewrite blen_app, blen_le_offs in HS. lia.
  - apply compose_fixed in HC as [-> HS]. rewrite (concat_blen (fixed_size u)).
    + pose proof (legal_fixed_size u HL EV). rewrite N.mul_comm, N.div_mul by lia. auto.
    + clear - HF HV EV. revert HV. induction HF as [|v c l bodies HS HF IH]; intros HV; inversion HV; subst; constructor; auto.
      apply (spec_serialize_fixed u v); auto.
Qed.

Lemma level t v k u x b : legal t = true -> valid t v -> spec_serialize t v = Some b ->
  nth_error (children t v) k = Some (u, x) ->
  exists c pre post : bytes, spec_serialize u x = Some c /\ b = pre ++ c ++ post /\
    (no_transparent t = true -> span t b k = Some (u, blen pre, blen c)) /\
    forall g c', spec_serialize u (g x) = Some c' -> blen c' = blen c ->
      spec_serialize t (put1 v k g) = Some (pre ++ c' ++ post).
Proof.
  intros HL HV HS HE. destruct (joined t) eqn:HJ.
  - pose proof (joined_serialize t v HJ (ex_intro _ b HS)) as HS'. rewrite HS' in HS.
    destruct (encs (children t v)) as [es|] eqn:EE; [|discriminate].
    destruct (encs_nth _ _ _ _ _ EE HE) as (c & Hc & Hcs).
    assert (HVs : Forall (fun ux : ty * val => valid (fst ux) (snd ux)) (children t v)).
    { apply Forall_forall. intros [u1 x1] Hin. exact (proj2 (legal_valid_child _ _ _ _ HL HV Hin)). }
    pose proof (encs_matches _ _ HVs EE) as HM.
    assert (Hu : nth_error (map fst (children t v)) k = Some u) by (rewrite nth_error_map, HE; reflexivity).
    destruct (compose_part _ es k u _ c b HM Hu Hc HS) as (pre & post & G1 & G2 & G3).
    exists c, pre, post. split; [exact Hcs|]. split; [exact G1|]. split.
    + intros _. rewrite <- G2. destruct t; try discriminate HJ; destruct v; try (destruct k; discriminate HE); cbn [children span] in *.
      * rewrite map_fst_pair. f_equal. f_equal. cbn [valid] in HV. unfold blen in HV. lia.
      * rewrite map_fst_pair. f_equal. f_equal. cbn [valid] in HV. unfold blen in HV. lia.
      * rewrite map_fst_pair. f_equal. f_equal. cbn [valid legal] in HV, HL. rewrite andb_true_iff in HL.
        rewrite (entries_ok t l es b); auto; try tauto. unfold blen. lia.
      * f_equal. cbn [valid] in HV. apply (Forall2_preds_combine fs (fun f => valid (snd f))) in HV as [HV _].
        clear - HV. revert l HV. induction fs as [|f fs IH]; intros [|y l] HV; try discriminate HV; cbn; [reflexivity|].
        f_equal. apply IH. cbn in HV. lia.
    + intros g c' Hg Hc'.
      assert (HE' : encs (children t (put1 v k g)) = Some (change k (fun e => (fst e, c')) es)).
      { rewrite (children_put t v k u x g HJ HE). eapply encs_change; eauto. }
      specialize (G3 c' Hc'). rewrite <- G3.
      assert (HP : exists b', match encs (children t (put1 v k g)) with Some es => spec_compose es | None => None end = Some b').
      { rewrite HE', G3. eauto. }
      revert HP. destruct t; try discriminate HJ; destruct v; try (destruct k; discriminate HE);
        cbn [spec_serialize children put1] in *; unfold encs in *; rewrite ?map_map, ?combine_map_l, ?map_map in *; cbn [fst snd] in *;
        rewrite HE'; reflexivity.
  - destruct t; try discriminate HJ; destruct v; try (destruct k; discriminate HE); cbn [children] in HE.
    + destruct k as [|k]; [|destruct k; discriminate HE]. cbn in HE. assert (t = u) by congruence. assert (v = x) by congruence. subst u x.
      cbn [spec_serialize] in HS. exists b, [], []. rewrite !app_nil_r. split; [auto|]. split; [reflexivity|]. split; [reflexivity|].
      intros g c' Hg Hc'. cbn [put1 spec_serialize]. rewrite app_nil_r. exact Hg.
    + destruct k as [|k]; [|destruct k; discriminate HE]. cbn in HE. assert (t = u) by congruence. assert (v = x) by congruence. subst u x.
      cbn [spec_serialize] in HS. destruct (spec_serialize t v) as [c|] eqn:EC; [|discriminate].
      assert (b = x01 :: c) by (cbn in HS; congruence). subst b. exists c, [x01], []. rewrite !app_nil_r.
      split; [auto|]. split; [reflexivity|]. split; [reflexivity|].
      intros g c' Hg Hc'. cbn [put1 spec_serialize]. rewrite Hg, app_nil_r. reflexivity.
    + destruct (nth_error vs (N.to_nat i)) as [[w|]|] eqn:EN; try (destruct k; discriminate HE).
      destruct k as [|k]; [|destruct k; discriminate HE]. cbn in HE. assert (w = u) by congruence. assert (v = x) by congruence. subst u x.
      cbn [spec_serialize] in HS. rewrite nth_error_map, EN in HS. cbn [option_map] in HS.
      destruct (spec_serialize w v) as [c|] eqn:EC; [|discriminate].
      assert (b = byte_of_N i :: c) by (cbn in HS; congruence). subst b. exists c, [byte_of_N i], []. rewrite !app_nil_r.
      split; [auto|]. split; [reflexivity|]. split.
      * intros _. cbn [span app]. rewrite byte_to_N_of_N, N.mod_small; [rewrite EN; reflexivity|].
        cbn [legal] in HL. assert (nth_error vs (N.to_nat i) <> None) as HN by congruence. apply nth_error_Some in HN.
        rewrite andb_true_iff in HL. destruct HL as [HL _]. apply legal_variants_len in HL. unfold blen in HL. lia.
      * intros g c' Hg Hc'. cbn [put1 spec_serialize]. rewrite nth_error_map, EN. cbn [option_map]. rewrite Hg, app_nil_r. reflexivity.
    + destruct (nth_error ts (N.to_nat i)) as [w|] eqn:EN; try (destruct k; discriminate HE).
      destruct k as [|k]; [|destruct k; discriminate HE]. cbn in HE. assert (w = u) by congruence. assert (v = x) by congruence. subst u x.
      cbn [spec_serialize] in HS. rewrite nth_error_map, EN in HS. cbn [option_map] in HS.
      exists b, [], []. rewrite !app_nil_r. split; [auto|]. split; [reflexivity|]. split; [intros HN; discriminate HN|].
      intros g c' Hg Hc'. cbn [put1 spec_serialize]. rewrite nth_error_map, EN, app_nil_r. exact Hg.
Qed.

(** ** All levels *)

Lemma no_transparent_child t v k u x : no_transparent t = true -> nth_error (children t v) k = Some (u, x) -> no_transparent u = true.
Proof.
  intros HN HE. apply nth_error_In in HE. destruct t, v; try contradiction; cbn [no_transparent children] in *.
  1-3: apply in_map_iff in HE as (y & HE & _); congruence.
  - rewrite forallb_forall in HN. rewrite combine_map_l in HE. apply in_map_iff in HE as ([f y] & HE & Hin).
    apply in_combine_l in Hin. assert (snd f = u) by (cbn in HE; congruence). subst u. auto.
  - destruct HE as [HE|[]]. congruence.
  - destruct HE as [HE|[]]. congruence.
  - destruct (nth_error vs (N.to_nat i)) as [[w|]|] eqn:EN; try contradiction. destruct HE as [HE|[]].
    apply nth_error_In in EN. rewrite forallb_forall in HN. specialize (HN _ EN). cbv beta iota in HN. congruence.
  - discriminate.
Qed.

Lemma parts_ok place : forall t v b u x, legal t = true -> valid t v -> spec_serialize t v = Some b ->
  reach t v place = Some (u, x) ->
  exists c pre post : bytes, spec_serialize u x = Some c /\ b = pre ++ c ++ post /\
    (no_transparent t = true -> locate t b place = Some (u, blen pre, blen c)) /\
    forall x' c', spec_serialize u x' = Some c' -> blen c' = blen c ->
      spec_serialize t (put v place x') = Some (pre ++ c' ++ post).
Proof.
  induction place as [|k rest IH]; intros t v b u x HL HV HS HR; cbn [reach] in HR.
  - assert (t = u) by congruence. assert (v = x) by congruence. subst u x. exists b, [], []. rewrite !app_nil_r.
    split; [auto|]. split; [reflexivity|]. split; [reflexivity|]. intros x' c' Hx' _. cbn [put app]. rewrite app_nil_r. exact Hx'.
  - destruct (nth_error (children t v) (N.to_nat k)) as [[u1 x1]|] eqn:EN; [|discriminate].
    destruct (legal_valid_child _ _ _ _ HL HV (nth_error_In _ _ EN)) as [HL1 HV1].
    destruct (level t v (N.to_nat k) u1 x1 b HL HV HS EN) as (c1 & pre1 & post1 & G1 & G2 & G3 & G4).
    destruct (IH u1 x1 c1 u x HL1 HV1 G1 HR) as (c & pre & post & K1 & K2 & K3 & K4).
    exists c, (pre1 ++ pre), (post ++ post1). split; [exact K1|]. split; [rewrite G2, K2, <- !app_assoc; reflexivity|]. split.
    + intros HN. cbn [locate]. rewrite (G3 HN). rewrite G2 at 1. rewrite sub_at.
      rewrite (K3 (no_transparent_child _ _ _ _ _ HN EN)). rewrite blen_app. reflexivity.
    + intros x' c' Hx' Hc'. rewrite put_cons. rewrite (G4 (fun y => put y rest x') (pre ++ c' ++ post)).
      * rewrite <- !app_assoc. reflexivity.
      * apply K4; auto.
      * rewrite K2, !blen_app, Hc'. reflexivity.
Qed.

Lemma put1_valid t v k u x g : valid t v -> nth_error (children t v) k = Some (u, x) -> valid u (g x) -> valid t (put1 v k g).
Proof.
  intros HV HE HG. assert (HF : forall (P : val -> Prop) l k y, Forall P l -> nth_error l k = Some y -> P (g y) -> Forall P (change k g l)).
  { clear. intros P l k y HF. revert k. induction HF as [|z l HP HF IH]; intros [|k] HE HG; try discriminate HE; cbn [change nth_error] in *.
    - constructor; auto. congruence.
    - constructor; auto. }
  assert (HB : forall l : list val, blen (change k g l) = blen l) by (intros l; unfold blen; rewrite change_length; reflexivity).
  destruct t, v; try contradiction; cbn [children put1] in *; try (destruct k; discriminate HE); cbn [valid] in *; rewrite ?HB.
  1-3: rewrite nth_error_map in HE; destruct (nth_error l k) as [y|] eqn:EY; [|discriminate HE]; cbn [option_map] in HE;
    assert (u = t) by congruence; assert (y = x) by congruence; subst u y; split; [tauto|]; eapply HF; eauto; tauto.
  - clear HF HB. revert k l HE HV. induction fs as [|f fs IH]; intros k l HE HV; [destruct k; discriminate HE|].
    cbn [map] in HV. inversion HV as [|? x0 ? l' Hf HV']; subst. destruct k as [|k]; cbn [map combine change nth_error] in *; constructor; auto.
    assert (snd f = u) by congruence. assert (x0 = x) by congruence. subst. auto.
  - destruct k as [|k]; [|destruct k; discriminate HE]. cbn in HE. assert (u = t) by congruence. assert (v = x) by congruence. subst. auto.
  - destruct k as [|k]; [|destruct k; discriminate HE]. cbn in HE. assert (u = t) by congruence. assert (v = x) by congruence. subst. auto.
  - destruct (nth_error vs (N.to_nat i)) as [[w|]|] eqn:EN; try (destruct k; discriminate HE).
    destruct k as [|k]; [|destruct k; discriminate HE]. cbn in HE. assert (w = u) by congruence. assert (v = x) by congruence. subst u x.
    destruct vs as [|[|] ?]; rewrite nth_error_map, EN in *; exact HG.
  - destruct (nth_error ts (N.to_nat i)) as [w|] eqn:EN; try (destruct k; discriminate HE).
    destruct k as [|k]; [|destruct k; discriminate HE]. cbn in HE. assert (w = u) by congruence. assert (v = x) by congruence. subst u x.
    rewrite nth_error_map, EN. exact HG.
Qed.

Lemma put_valid place : forall t v u x x', legal t = true -> valid t v -> reach t v place = Some (u, x) -> valid u x' -> valid t (put v place x').
Proof.
  induction place as [|k rest IH]; intros t v u x x' HL HV HR HX; cbn [reach] in HR.
  - cbn [put]. congruence.
  - destruct (nth_error (children t v) (N.to_nat k)) as [[u1 x1]|] eqn:EN; [|discriminate].
    destruct (legal_valid_child _ _ _ _ HL HV (nth_error_In _ _ EN)) as [HL1 HV1].
    rewrite put_cons. eapply put1_valid; eauto.
Qed.

Lemma reach_put place : forall t v u x x', reach t v place = Some (u, x) -> reach t (put v place x') place = Some (u, x').
Proof.
  induction place as [|k rest IH]; intros t v u x x' HR; cbn [reach] in HR.
  - cbn [reach put]. congruence.
  - destruct (nth_error (children t v) (N.to_nat k)) as [[u1 x1]|] eqn:EN; [|discriminate].
    cbn [reach]. rewrite put_cons.
    assert (HC : nth_error (children t (put1 v (N.to_nat k) (fun y => put y rest x'))) (N.to_nat k) = Some (u1, put x1 rest x')).
    { destruct (joined t) eqn:HJ.
      - rewrite (children_put t v _ u1 x1 _ HJ EN). revert EN. generalize (children t v) (N.to_nat k).
        induction l as [|z l IHl]; intros [|j] EN; try discriminate EN; cbn [change nth_error] in *; [|auto].
        assert (z = (u1, x1)) by congruence. subst z. reflexivity.
      - destruct t; try discriminate HJ; destruct v; cbn [children put1] in *;
          try (destruct (N.to_nat k); discriminate EN);
          try (destruct (nth_error _ (N.to_nat i)) as [w|]; try destruct w as [w|]); try (destruct (N.to_nat k); discriminate EN);
          destruct (N.to_nat k) as [|j]; try (destruct j; discriminate EN); cbn [nth_error] in *; congruence. }
    rewrite HC. eapply IH. exact HR.
Qed.

Lemma reach_ok place : forall t v u x, legal t = true -> valid t v -> reach t v place = Some (u, x) -> legal u = true /\ valid u x.
Proof.
  induction place as [|k rest IH]; intros t v u x HL HV HR; cbn [reach] in HR.
  - assert (t = u) by congruence. assert (v = x) by congruence. subst. auto.
  - destruct (nth_error (children t v) (N.to_nat k)) as [[u1 x1]|] eqn:EN; [|discriminate].
    destruct (legal_valid_child _ _ _ _ HL HV (nth_error_In _ _ EN)) as [HL1 HV1]. eapply IH; eauto.
Qed.

Lemma reach_no_transparent place : forall t v u x, no_transparent t = true -> reach t v place = Some (u, x) -> no_transparent u = true.
Proof.
  induction place as [|k rest IH]; intros t v u x HN HR; cbn [reach] in HR.
  - congruence.
  - destruct (nth_error (children t v) (N.to_nat k)) as [[u1 x1]|] eqn:EN; [|discriminate].
    eapply IH; [|exact HR]. eapply no_transparent_child; eauto.
Qed.

Lemma ssz_serialize_spec_ok oc t v b : legal t = true -> valid t v -> spec_serialize t v = Some b -> ssz_serialize oc t v = Ok b.
Proof.
  intros HL HV HS. pose proof (serialize_spec oc t HL v HV []) as HH. rewrite HS in HH.
  unfold ssz_serialize, serialize_to_vec. rewrite HH. reflexivity.
Qed.
