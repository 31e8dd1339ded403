(** Characterisation of the decoders of De.v, for arbitrary element dictionaries. *)
From Coq Require Import List NArith ZArith Bool Lia ZifyBool ZifyNat ZifyN.
From Coq Require Import Strings.Byte.
From Verif Require Import Prelude Types Ser De SpecSer Lib SerProof.
Import ListNotations.
Open Scope N_scope.

Ltac Zify.zify_post_hook ::= Z.div_mod_to_equations.

(** ** Integers *)

Lemma uint_deserialize_iff n e x :
  uint_deserialize n e = Ok x <-> blen e = n /\ x = le_value e.
Proof.
  unfold uint_deserialize.
  destruct (blen e <? n) eqn:E1; [split; [discriminate|lia]|].
  destruct (n <? blen e) eqn:E2; [split; [discriminate|lia]|].
  assert (blen e = n) by lia. subst n. rewrite slice_full. cbn [bind].
  split; [intros [= <-]; auto|intros [_ ->]; auto].
Qed.

Lemma uint_deserialize_no_panic n e p : uint_deserialize n e <> Panic p.
Proof.
  unfold uint_deserialize.
  destruct (blen e <? n) eqn:E1; [discriminate|].
  destruct (n <? blen e) eqn:E2; [discriminate|].
  assert (blen e = n) by lia. subst n. rewrite slice_full. discriminate.
Qed.

Lemma u32_deserialize_le x : x < 2 ^ 32 -> u32_deserialize (le_bytes 4 x) = Ok x.
Proof.
  intros. apply uint_deserialize_iff. split; [apply blen_le_bytes|].
  symmetry. apply le_value_le_bytes. exact H.
Qed.

Lemma u32_deserialize_inv e x :
  u32_deserialize e = Ok x -> e = le_bytes 4 x /\ x < 2 ^ 32 /\ blen e = 4.
Proof.
  intros H. apply uint_deserialize_iff in H as [HL ->].
  split; [|split; [|auto]].
  - symmetry. apply le_bytes_value_n. unfold blen in HL. lia.
  - pose proof (le_value_lt e) as G. rewrite HL in G. exact G.
Qed.

(** ** Fixed-size elements *)

Lemma fixed_homogeneous_ok oc T bs vs :
  0 < size_hint T ->
  Forall2 (fun b v => deserialize T b = Ok v) bs vs ->
  Forall (fun b => blen b = size_hint T) bs ->
  deserialize_fixed_homogeneous_composite oc T (concat bs) = Ok vs.
Proof.
  intros Hs HF HL. unfold deserialize_fixed_homogeneous_composite, rem_len.
  replace (size_hint T =? 0) with false by lia. cbn [bind].
  rewrite (concat_blen _ _ HL).
  rewrite (N.mul_comm (size_hint T)), N.mod_mul by lia.
  rewrite chunks_exact_concat by auto.
  apply mapM_ok_iff in HF.
  destruct oc; cbn; exact HF.
Qed.

Lemma fixed_homogeneous_inv oc T e vs :
  blen e mod size_hint T = 0 ->
  deserialize_fixed_homogeneous_composite oc T e = Ok vs ->
  0 < size_hint T /\ exists bs, e = concat bs /\
    Forall (fun b => blen b = size_hint T) bs /\
    Forall2 (fun b v => deserialize T b = Ok v) bs vs.
Proof.
  intros HM H. unfold deserialize_fixed_homogeneous_composite in H. inv_res.
  destruct (chunks_exact_inv _ _ _ E0 HM) as (H1 & H2 & H3).
  split; [auto|]. exists a0. split; [auto|]. split; [auto|].
  apply mapM_ok_iff; auto.
Qed.

(** ** Variable-size elements *)

(** Offsets of consecutive bodies, the first one at [r]. *)
Fixpoint offs (r : N) (bodies : list bytes) : list N :=
  match bodies with
  | [] => []
  | b :: bs => r :: offs (r + blen b) bs
  end.

Lemma offs_length r bs : length (offs r bs) = length bs.
Proof. revert r; induction bs; intros; cbn; auto. Qed.

Lemma offs_bound r bs x : In x (offs r bs) -> r <= x <= r + blen (concat bs).
Proof.
  revert r; induction bs as [|b bs IH]; intros r; cbn [offs concat]; [contradiction|].
  rewrite blen_app. intros [<-|H]; [lia|]. apply IH in H. lia.
Qed.

Lemma windows2_cons {A} (a b : A) l : windows2 (a :: b :: l) = (a, b) :: windows2 (b :: l).
Proof. reflexivity. Qed.

Lemma spans_decode T pre bodies :
  mapM (deserialize_span T (pre ++ concat bodies))
       (windows2 (offs (blen pre) bodies ++ [blen pre + blen (concat bodies)]))
  = mapM (deserialize T) bodies.
Proof.
  revert pre; induction bodies as [|b bs IH]; intros pre; [reflexivity|].
  cbn [offs app concat].
  specialize (IH (pre ++ b)). rewrite <- app_assoc in IH.
  rewrite blen_app in IH.
  replace (blen pre + blen (b ++ concat bs)) with (blen pre + blen b + blen (concat bs))
    by (rewrite blen_app; lia).
  assert (HD : deserialize_span T (pre ++ b ++ concat bs) (blen pre, blen pre + blen b)
               = deserialize T b).
  { unfold deserialize_span. replace (blen pre + blen b <? blen pre) with false by lia.
    rewrite slice_app by auto. reflexivity. }
  destruct bs as [|b2 bs].
  - cbn [offs app concat windows2 mapM] in *. change (blen (@nil byte)) with 0 in *.
    rewrite N.add_0_r in *. rewrite app_nil_r in *.
    rewrite HD. reflexivity.
  - cbn [offs app] in *. rewrite windows2_cons. cbn [mapM]. rewrite HD.
    destruct (deserialize T b); cbn [bind]; try reflexivity.
    rewrite IH. reflexivity.
Qed.

Lemma concat_offs_mapM r bodies :
  Forall (fun o => o < 2 ^ 32) (offs r bodies) ->
  mapM u32_deserialize (map (le_bytes 4) (offs r bodies)) = Ok (offs r bodies).
Proof.
  intros H. apply mapM_ok_iff. apply Forall2_map_l.
  induction H; constructor; auto. apply u32_deserialize_le; auto.
Qed.

Lemma fixed_from_all_true r bodies :
  fixed_from r (map (pair true) bodies) = map (le_bytes 4) (offs r bodies).
Proof. revert r; induction bodies; intros; cbn; f_equal; auto. Qed.

Lemma variable_parts_all_true bodies : variable_parts (map (pair true) bodies) = bodies.
Proof. induction bodies; cbn; f_equal; auto. Qed.

Lemma fixed_lengths_all_true bodies :
  total (fixed_lengths (map (pair true) bodies)) = 4 * blen bodies.
Proof.
  induction bodies; [reflexivity|].
  cbn [map]. rewrite fixed_lengths_cons, total_cons, blen_cons. cbn [fst]. lia.
Qed.

(** The layout of a list of variable-size elements. *)
Definition layout (bodies : list bytes) : bytes :=
  concat (map (le_bytes 4) (offs (4 * blen bodies) bodies)) ++ concat bodies.

Lemma blen_le_offs r bodies :
  blen (concat (map (le_bytes 4) (offs r bodies))) = 4 * blen bodies.
Proof.
  rewrite (concat_blen 4).
  - rewrite blen_map. unfold blen. rewrite offs_length. lia.
  - apply Forall_map. apply Forall_forall. intros. apply blen_le_bytes.
Qed.

Lemma layout_compose bodies b :
  spec_compose (map (pair true) bodies) = Some b -> b = layout bodies /\ blen b < 2 ^ 32.
Proof.
  intros H. pose proof (spec_compose_blen _ _ H) as HL.
  apply spec_compose_some in H as [H ->].
  rewrite fixed_from_all_true, variable_parts_all_true, fixed_lengths_all_true in *.
  split; [reflexivity|lia].
Qed.

Lemma layout_compose_conv bodies :
  blen (layout bodies) < 2 ^ 32 ->
  spec_compose (map (pair true) bodies) = Some (layout bodies).
Proof.
  intros H. apply spec_compose_some. rewrite compose_size_eq.
  rewrite fixed_from_all_true, variable_parts_all_true, fixed_lengths_all_true.
  split; [|reflexivity].
  rewrite <- variable_parts_blen, variable_parts_all_true.
  unfold layout in H. rewrite blen_app, blen_le_offs in H. lia.
Qed.

Lemma variable_homogeneous_layout T bodies :
  Forall (fun o => o < 2 ^ 32) (offs (4 * blen bodies) bodies) ->
  deserialize_variable_homogeneous_composite T (layout bodies) = mapM (deserialize T) bodies.
Proof.
  intros HO. destruct bodies as [|b bs]; [reflexivity|].
  set (bodies := b :: bs) in *.
  assert (Hb : 1 <= blen bodies) by (unfold bodies; rewrite blen_cons; lia).
  assert (HL : blen (layout bodies) = 4 * blen bodies + blen (concat bodies)).
  { unfold layout. rewrite blen_app, blen_le_offs. lia. }
  unfold deserialize_variable_homogeneous_composite.
  destruct (layout bodies) as [|x l] eqn:Ex.
  { rewrite blen_nil in HL. lia. }
  rewrite <- Ex in *. clear x l Ex.
  rewrite get_range_some by (rewrite ?HL; change BYTES_PER_LENGTH_OFFSET with 4; lia).
  change (BYTES_PER_LENGTH_OFFSET - 0) with 4. rewrite dropN_0.
  assert (Hfirst : takeN 4 (layout bodies) = le_bytes 4 (4 * blen bodies)).
  { unfold layout, bodies. cbn [offs map concat]. rewrite <- !app_assoc.
    apply takeN_app. rewrite blen_le_bytes. reflexivity. }
  rewrite Hfirst.
  assert (Hr : 4 * blen bodies < 2 ^ 32).
  { unfold bodies in HO. cbn [offs] in HO. inversion HO; auto. }
  rewrite u32_deserialize_le by auto. cbn [bind].
  rewrite HL.
  replace (4 * blen bodies + blen (concat bodies) <? 4 * blen bodies) with false by lia.
  change BYTES_PER_LENGTH_OFFSET with 4.
  replace ((4 * blen bodies) mod 4 =? 0) with true by lia. cbn [negb].
  assert (Hsl : @slice DeserializeError _ 0 (4 * blen bodies) (layout bodies)
                = Ok (concat (map (le_bytes 4) (offs (4 * blen bodies) bodies)))).
  { unfold layout. rewrite <- (app_nil_l (_ ++ _)).
    apply slice_app; [reflexivity|]. rewrite blen_le_offs. cbn. lia. }
  rewrite Hsl. cbn [bind].
  rewrite chunks_exact_concat; [|lia|].
  2:{ apply Forall_map. apply Forall_forall. intros. apply blen_le_bytes. }
  cbn [bind]. rewrite concat_offs_mapM by auto. cbn [bind].
  unfold layout.
  set (pre := concat (map (le_bytes 4) _)).
  assert (Hp : 4 * blen bodies = blen pre) by (unfold pre; rewrite blen_le_offs; lia).
  rewrite Hp at 1. rewrite Hp at 1. apply spans_decode.
Qed.

Lemma spans_inv T e os o vs :
  mapM (deserialize_span T e) (windows2 ((o :: os) ++ [blen e])) = Ok vs ->
  o <= blen e ->
  exists bodies : list bytes, e = takeN o e ++ concat bodies /\ o :: os = offs o bodies /\
                 Forall2 (fun b v => deserialize T b = Ok v) bodies vs.
Proof.
  revert o vs. induction os as [|o2 os IH]; intros o vs H Ho.
  - cbn [app windows2 mapM] in H. inv_res. subst.
    unfold deserialize_span in E. replace (blen e <? o) with false in E by lia. inv_res.
    apply slice_inv in E0 as (_ & _ & ->).
    exists [dropN o e]. cbn [concat offs]. rewrite app_nil_r, takeN_dropN.
    split; [reflexivity|]. split; [reflexivity|].
    rewrite takeN_all in E by (rewrite blen_dropN; lia). repeat constructor; auto.
  - change ((o :: o2 :: os) ++ [blen e]) with (o :: o2 :: (os ++ [blen e])) in H.
    rewrite windows2_cons in H. cbn [mapM] in H. inv_res. subst.
    unfold deserialize_span in E. destruct (o2 <? o) eqn:C; [discriminate|]. inv_res.
    apply slice_inv in E1 as (H1 & H2 & ->).
    change (o2 :: os ++ [blen e]) with ((o2 :: os) ++ [blen e]) in E0.
    destruct (IH _ _ E0 H2) as (bodies & He & Hos & HF).
    exists (takeN (o2 - o) (dropN o e) :: bodies). cbn [concat offs].
    split; [|split].
    + rewrite app_assoc. rewrite <- takeN_succ_split. replace (o + (o2 - o)) with o2 by lia.
      exact He.
    + f_equal. rewrite takeN_length by (rewrite blen_dropN; lia).
      replace (o + (o2 - o)) with o2 by lia. exact Hos.
    + constructor; auto.
Qed.

(** What the decoder of variable-size elements accepts: the empty string, a first offset of
    zero (with no elements decoded), or a proper layout. *)
Lemma variable_homogeneous_inv T e vs :
  deserialize_variable_homogeneous_composite T e = Ok vs ->
  (e = [] /\ vs = []) \/
  (4 <= blen e /\ takeN 4 e = [x00; x00; x00; x00] /\ vs = []) \/
  (exists bodies : list bytes, bodies <> [] /\ e = layout bodies /\
     Forall (fun o => o < 2 ^ 32) (offs (4 * blen bodies) bodies) /\
     Forall2 (fun b v => deserialize T b = Ok v) bodies vs).
Proof.
  intros H. unfold deserialize_variable_homogeneous_composite in H.
  destruct e as [|x l]; [left; inv_res; auto|]. right.
  set (e := x :: l) in *. clearbody e. clear x l.
  destruct (get_range 0 BYTES_PER_LENGTH_OFFSET e) as [first|] eqn:EF; [|discriminate].
  apply get_range_inv in EF as (_ & HL4 & ->).
  change (BYTES_PER_LENGTH_OFFSET - 0) with 4 in H. rewrite dropN_0 in H.
  change BYTES_PER_LENGTH_OFFSET with 4 in *.
  apply bind_ok_inv in H as (r & Er & H).
  destruct (blen e <? r) eqn:C1; [discriminate|].
  destruct (r mod 4 =? 0) eqn:C2; cbn [negb] in H; [|discriminate].
  apply bind_ok_inv in H as (ob & Eob & H).
  apply bind_ok_inv in H as (cs & Ecs & H).
  apply bind_ok_inv in H as (os & Eos & H).
  apply u32_deserialize_inv in Er as (Htake & Hr & _).
  apply slice_inv in Eob as (_ & _ & ->). rewrite dropN_0, N.sub_0_r in Ecs.
  apply chunks_exact_inv in Ecs as (_ & Hcs & Hcc); [|rewrite blen_takeN; lia].
  assert (Hos : cs = map (le_bytes 4) os /\ Forall (fun o => o < 2 ^ 32) os).
  { clear - Eos. apply mapM_ok_iff in Eos.
    induction Eos as [|c o cs os Hc _ [IH1 IH2]]; [split; constructor|].
    apply u32_deserialize_inv in Hc as (-> & Ho & _). split; [cbn [map]; rewrite IH1; reflexivity|constructor; auto]. }
  destruct Hos as (-> & Hos32).
  assert (Hlen : 4 * blen os = r).
  { apply (f_equal blen) in Hcc. rewrite (concat_blen _ _ Hcs), blen_map in Hcc.
    rewrite blen_takeN in Hcc. lia. }
  destruct os as [|o os].
  - left. split; [auto|]. cbn in Hlen. subst r. split; [exact Htake|].
    cbn in H. congruence.
  - right.
    assert (Ho : o = r).
    { cbn [map concat] in Hcc. apply (f_equal (takeN 4)) in Hcc.
      rewrite takeN_app in Hcc by (rewrite blen_le_bytes; reflexivity).
      rewrite takeN_takeN in Hcc. rewrite blen_cons in Hlen.
      replace (N.min 4 r) with 4 in Hcc by lia. rewrite Htake in Hcc.
      inversion Hos32; subst. eapply (le_bytes_inj 4); eauto. }
    subst o. apply spans_inv in H; [|lia].
    destruct H as (bodies & He & Hoffs & HF).
    exists bodies.
    assert (Hb : blen bodies = blen (r :: os)).
    { rewrite Hoffs. unfold blen. rewrite offs_length. reflexivity. }
    split; [intros ->; rewrite blen_cons, blen_nil in Hb; lia|].
    rewrite Hb, Hlen. split; [|split; [rewrite <- Hoffs; auto|auto]].
    unfold layout. rewrite Hb, Hlen, <- Hoffs, Hcc. exact He.
Qed.

Lemma variable_homogeneous_zero T e :
  4 <= blen e -> takeN 4 e = [x00; x00; x00; x00] ->
  deserialize_variable_homogeneous_composite T e = Ok [].
Proof.
  intros HL Ht. unfold deserialize_variable_homogeneous_composite.
  destruct e as [|x l]; [reflexivity|]. set (e := x :: l) in *. clearbody e.
  rewrite get_range_some by (change BYTES_PER_LENGTH_OFFSET with 4; lia).
  change (BYTES_PER_LENGTH_OFFSET - 0) with 4. rewrite dropN_0, Ht.
  change (u32_deserialize [x00; x00; x00; x00]) with (@Ok DeserializeError N 0). cbn [bind].
  replace (blen e <? 0) with false by lia. cbn [N.modulo]. 
  change (negb (0 mod BYTES_PER_LENGTH_OFFSET =? 0)) with false. cbn iota.
  rewrite slice_ok by lia. cbn [bind]. change (0 - 0) with 0. rewrite dropN_0, takeN_0.
  reflexivity.
Qed.
