(** Characterisation of [ContainerDeserializer] (De.v), for arbitrary field dictionaries. *)
From Coq Require Import List NArith ZArith Bool Lia ZifyBool ZifyNat ZifyN.
From Coq Require Import Strings.Byte.
From Verif Require Import Prelude Types Ser De SpecSer Lib SerProof DeProof.
Import ListNotations.
Open Scope N_scope.

Ltac Zify.zify_post_hook ::= Z.div_mod_to_equations.

(** ** The fixed part of a container encoding *)

Inductive item : Type :=
| IFix (b : bytes)
| IOff (o : N).

Definition item_bytes (it : item) : bytes :=
  match it with IFix b => b | IOff o => le_bytes 4 o end.

Definition ibytes (items : list item) : bytes := concat (map item_bytes items).

Fixpoint segs_from (s : N) (items : list item) : list Segment :=
  match items with
  | [] => []
  | IFix b :: r => SFixed s (s + blen b) :: segs_from (s + blen b) r
  | IOff _ :: r => SOffset :: segs_from (s + 4) r
  end.

Fixpoint ioffs (items : list item) : list N :=
  match items with
  | [] => []
  | IFix _ :: r => ioffs r
  | IOff o :: r => o :: ioffs r
  end.

Definition item_for (T : Serializable) (it : item) : Prop :=
  match it with
  | IFix b => is_variable_size T = false /\ blen b = size_hint T
  | IOff o => is_variable_size T = true /\ o < 2 ^ 32
  end.

Fixpoint chain (len : N) (prev : option N) (items : list item) : Prop :=
  match items with
  | [] => True
  | IFix _ :: r => chain len prev r
  | IOff o :: r =>
      match prev with None => True | Some p => p <= o /\ o <= len end /\ chain len (Some o) r
  end.

Lemma ibytes_cons it r : ibytes (it :: r) = item_bytes it ++ ibytes r.
Proof. reflexivity. Qed.

Lemma last_opt_snoc {A} (l : list A) x : last_opt (l ++ [x]) = Some x.
Proof. unfold last_opt. rewrite rev_app_distr. reflexivity. Qed.

Lemma check_offset_ok oc e prev o :
  (match prev with None => True | Some p => p <= o /\ o <= blen e end) ->
  check_offset oc e prev o = Ok tt.
Proof.
  destruct prev as [p|]; [|reflexivity]. intros [H1 H2]. unfold check_offset.
  replace (o <? p) with false by lia. replace (blen e <? p) with false by lia.
  replace (blen e <? o) with false by lia. reflexivity.
Qed.

Lemma check_offset_inv oc e prev o u :
  check_offset oc e prev o = Ok u ->
  match prev with None => True | Some p => p <= o /\ o <= blen e end.
Proof.
  destruct prev as [p|]; [|auto]. unfold check_offset.
  destruct (o <? p) eqn:C1; [discriminate|].
  destruct (blen e <? p) eqn:C2; [intros; inv_res|].
  destruct (blen e <? o) eqn:C3; [intros; inv_res|]. lia.
Qed.

Lemma parse_fold_ok oc enc items : forall fields d pre post,
  enc = pre ++ ibytes items ++ post -> blen enc < 2 ^ 63 ->
  Forall2 item_for fields items ->
  chain (blen enc) (last_opt (offsets d)) items ->
  total_bytes_read d = blen pre ->
  foldM (parse oc enc) d fields =
  Ok {| segments := segments d ++ segs_from (blen pre) items;
        offsets := offsets d ++ ioffs items;
        total_bytes_read := blen pre + blen (ibytes items) |}.
Proof.
  induction items as [|it items IH]; intros fields d pre post He HL HF HC HT.
  - inversion HF; subst. cbn [foldM segs_from ioffs ibytes map concat].
    rewrite !app_nil_r. change (blen (@nil byte)) with 0. rewrite N.add_0_r, <- HT.
    destruct d; reflexivity.
  - inversion HF as [|T ? fields' ? Hit HF']; subst fields. clear HF. subst l'.
    rewrite ibytes_cons in *. cbn [foldM].
    assert (Hlen : blen enc = blen pre + blen (item_bytes it) + blen (ibytes items) + blen post).
    { rewrite He, !blen_app. lia. }
    destruct it as [b|o]; cbn [item_for item_bytes] in *; destruct Hit as [Hv Hs].
    + assert (HP : parse oc enc d T = Ok {| segments := segments d ++ [SFixed (blen pre) (blen pre + blen b)];
                 offsets := offsets d; total_bytes_read := blen pre + blen b |}).
      { unfold parse. rewrite Hv, HT, <- Hs.
        rewrite uadd_ok by (unfold USIZE; lia). cbn [bind].
        replace (blen enc <? blen pre) with false by lia.
        replace (blen enc <? blen pre + blen b) with false by lia. reflexivity. }
      rewrite HP. cbn [bind].
      rewrite (IH fields' _ (pre ++ b) post); cbn [segments offsets total_bytes_read]; auto.
      * cbn [segs_from ioffs]. rewrite <- !app_assoc, !blen_app. cbn [app]. do 2 f_equal. lia.
      * rewrite He, <- !app_assoc. reflexivity.
      * rewrite blen_app. reflexivity.
    + rewrite blen_le_bytes in Hlen. cbn [chain] in HC. destruct HC as [HC1 HC2].
      assert (HP : parse oc enc d T = Ok {| segments := segments d ++ [SOffset];
                 offsets := offsets d ++ [o]; total_bytes_read := blen pre + 4 |}).
      { unfold parse. rewrite Hv, HT. change BYTES_PER_LENGTH_OFFSET with 4.
        rewrite uadd_ok by (unfold USIZE; lia). cbn [bind].
        rewrite usub_ok by lia. cbn [bind].
        rewrite get_range_some by lia.
        replace (takeN (blen pre + 4 - blen pre) (dropN (blen pre) enc)) with (le_bytes 4 o).
        2:{ rewrite He. rewrite dropN_app by reflexivity. rewrite <- app_assoc.
            rewrite takeN_app; [reflexivity|]. rewrite blen_le_bytes. lia. }
        rewrite u32_deserialize_le by auto. cbn [bind].
        rewrite check_offset_ok by auto. reflexivity. }
      rewrite HP. cbn [bind].
      rewrite (IH fields' _ (pre ++ le_bytes 4 o) post); cbn [segments offsets total_bytes_read]; auto.
      * cbn [segs_from ioffs]. rewrite <- !app_assoc, !blen_app, blen_le_bytes. cbn [app].
        change (N.of_nat 4) with 4. do 2 f_equal. lia.
      * rewrite He, <- !app_assoc. reflexivity.
      * rewrite last_opt_snoc. auto.
      * rewrite blen_app, blen_le_bytes. reflexivity.
Qed.

Lemma parse_fold_inv oc enc fields : forall d d',
  blen enc < 2 ^ 63 ->
  Forall (fun T => is_variable_size T = false -> size_hint T <= 2 ^ 63) fields ->
  total_bytes_read d <= blen enc ->
  foldM (parse oc enc) d fields = Ok d' ->
  exists items,
    Forall2 item_for fields items /\
    total_bytes_read d + blen (ibytes items) <= blen enc /\
    ibytes items = takeN (blen (ibytes items)) (dropN (total_bytes_read d) enc) /\
    chain (blen enc) (last_opt (offsets d)) items /\
    d' = {| segments := segments d ++ segs_from (total_bytes_read d) items;
            offsets := offsets d ++ ioffs items;
            total_bytes_read := total_bytes_read d + blen (ibytes items) |}.
Proof.
  induction fields as [|T fields IH]; intros d d' HL HS HT H.
  - cbn [foldM] in H. inv_res. subst d'. exists []. cbn [ibytes map concat segs_from ioffs chain].
    change (blen (@nil byte)) with 0. rewrite !app_nil_r, N.add_0_r.
    split; [constructor|]. split; [auto|]. split; [reflexivity|]. split; [auto|].
    destruct d; reflexivity.
  - cbn [foldM] in H. apply bind_ok_inv in H as (d1 & HP & H).
    inversion HS as [|? ? HS1 HS2]; subst. unfold parse in HP.
    destruct (is_variable_size T) eqn:Hv.
    + change BYTES_PER_LENGTH_OFFSET with 4 in HP.
      rewrite uadd_ok in HP by (unfold USIZE; lia). cbn [bind] in HP.
      rewrite usub_ok in HP by lia. cbn [bind] in HP.
      destruct (get_range _ _ enc) as [target|] eqn:G; [|discriminate].
      apply get_range_inv in G as (_ & G2 & G3).
      apply bind_ok_inv in HP as (o & Eo & HP).
      apply bind_ok_inv in HP as (u & Ec & HP). inv_res.
      apply u32_deserialize_inv in Eo as (Eo1 & Eo2 & _).
      apply check_offset_inv in Ec.
      apply IH in H; auto; [|subst d1; cbn [total_bytes_read]; lia].
      destruct H as (items & HF & H1 & H2 & H3 & H4).
      subst d1. cbn [segments offsets total_bytes_read] in *.
      rewrite last_opt_snoc in H3.
      exists (IOff o :: items). rewrite ibytes_cons, blen_app. cbn [item_bytes].
      rewrite blen_le_bytes. change (N.of_nat 4) with 4.
      split; [constructor; [split; auto|auto]|]. split; [lia|]. split; [|split].
      * rewrite takeN_succ_split, dropN_dropN. rewrite <- H2. f_equal.
        rewrite <- Eo1, G3. f_equal. lia.
      * cbn [chain]. auto.
      * rewrite H4. cbn [segs_from ioffs]. rewrite <- !app_assoc. cbn [app]. f_equal. lia.
    + rewrite uadd_ok in HP by (unfold USIZE; specialize (HS1 eq_refl); lia). cbn [bind] in HP.
      destruct (blen enc <? total_bytes_read d) eqn:C1; [discriminate|].
      destruct (blen enc <? total_bytes_read d + size_hint T) eqn:C2.
      { rewrite usub_ok in HP by lia. discriminate. }
      inv_res.
      apply IH in H; auto; [|subst d1; cbn [total_bytes_read]; lia].
      destruct H as (items & HF & H1 & H2 & H3 & H4).
      subst d1. cbn [segments offsets total_bytes_read] in *.
      set (b := takeN (size_hint T) (dropN (total_bytes_read d) enc)).
      assert (Hb : blen b = size_hint T).
      { unfold b. apply takeN_length. rewrite blen_dropN. lia. }
      exists (IFix b :: items). rewrite ibytes_cons, blen_app. cbn [item_bytes].
      split; [constructor; [split; auto|auto]|]. split; [lia|]. split; [|split].
      * rewrite Hb, takeN_succ_split, dropN_dropN. rewrite <- H2. reflexivity.
      * cbn [chain]. auto.
      * rewrite H4. cbn [segs_from ioffs]. rewrite Hb, <- !app_assoc. cbn [app]. f_equal. lia.
Qed.

(** ** Spans *)

Definition first_off (len : N) (items : list item) : N := hd len (ioffs items).

Fixpoint spans_of (len s : N) (items : list item) : list (N * N) :=
  match items with
  | [] => []
  | IFix b :: r => (s, s + blen b) :: spans_of len (s + blen b) r
  | IOff o :: r => (o, first_off len r) :: spans_of len (s + 4) r
  end.

Definition flat (l : list (N * N)) : list N := flat_map (fun p : N * N => [fst p; snd p]) l.

Definition ascending (len : N) (prev : option N) (items : list item) : Prop :=
  match prev with None => True | Some p => p <= first_off len items end.

Lemma chain_first len p items :
  chain len (Some p) items -> p <= len -> p <= first_off len items <= len.
Proof.
  induction items as [|[b|o] items IH]; cbn; unfold first_off in *; cbn; intros H Hp; [lia|auto|].
  lia.
Qed.

Lemma finalize_loop_ok oc enc items : forall prev s total spans,
  chain (blen enc) prev items ->
  Forall (fun o => o <= blen enc) (ioffs items) ->
  total + (blen enc - first_off (blen enc) items) < USIZE ->
  finalize_loop oc enc (segs_from s items) (ioffs items ++ [blen enc]) total spans =
  Ok (total + (blen enc - first_off (blen enc) items), spans ++ flat (spans_of (blen enc) s items)).
Proof.
  induction items as [|[b|o] items IH]; intros prev s total spans HC HO HT.
  - cbn. unfold first_off; cbn. rewrite app_nil_r. f_equal. f_equal. lia.
  - cbn [segs_from ioffs finalize_loop spans_of flat flat_map fst snd app].
    rewrite (IH prev); auto. rewrite <- app_assoc. reflexivity.
  - cbn [segs_from ioffs finalize_loop spans_of flat flat_map fst snd app].
    cbn [chain] in HC. destruct HC as [_ HC].
    cbn [ioffs] in HO. inversion HO as [|? ? Ho HO']; subst.
    pose proof (chain_first _ _ _ HC Ho) as [G1 G2].
    unfold first_off in HT. cbn [ioffs hd] in HT.
    assert (Hn : exists rest, ioffs items ++ [blen enc] = first_off (blen enc) items :: rest).
    { unfold first_off. destruct (ioffs items); cbn; eauto. }
    destruct Hn as (rest & Hn). rewrite Hn.
    replace (blen enc <? o) with false by lia.
    replace (blen enc <? first_off (blen enc) items) with false by lia.
    rewrite usub_ok by lia. cbn [bind].
    rewrite uadd_ok by lia. cbn [bind]. rewrite <- Hn.
    rewrite (IH (Some o)); auto; [|lia].
    rewrite <- app_assoc. cbn [app].
    change (first_off (blen enc) (IOff o :: items)) with o. f_equal. f_equal. lia.
Qed.

Lemma finalize_loop_inv oc enc items : forall s total spans r,
  finalize_loop oc enc (segs_from s items) (ioffs items ++ [blen enc]) total spans = Ok r ->
  Forall (fun o => o <= blen enc) (ioffs items).
Proof.
  induction items as [|[b|o] items IH]; intros s total spans r H.
  - constructor.
  - cbn [segs_from ioffs finalize_loop app] in *. eauto.
  - cbn [segs_from ioffs finalize_loop app] in *.
    destruct (ioffs items ++ [blen enc]) as [|fin rest] eqn:En; [discriminate|].
    destruct (blen enc <? o) eqn:C1; [discriminate|].
    destruct (blen enc <? fin) eqn:C2; [discriminate|].
    apply bind_ok_inv in H as (size & _ & H). apply bind_ok_inv in H as (tot & _ & H).
    constructor; [lia|]. eapply IH. exact H.
Qed.

Lemma index_app2 {E A} (l r : list A) i x :
  i = blen l -> @index E A i (l ++ x :: r) = Ok x.
Proof.
  intros ->. unfold index. rewrite blen_app, blen_cons.
  replace (blen l <? blen l + (blen r + 1)) with true by lia.
  unfold blen. rewrite Nnat.Nat2N.id, nth_error_app2, Nat.sub_diag by lia. reflexivity.
Qed.

Lemma blen_flat l : blen (flat l) = 2 * blen l.
Proof. induction l; [reflexivity|]. cbn [flat flat_map app]. fold (flat l). rewrite !blen_cons. lia. Qed.

Lemma deserialize_fields_spans enc fields : forall pairs bodies sp0 i,
  Forall2 (fun (p : N * N) b => @slice DeserializeError _ (fst p) (snd p) enc = Ok b) pairs bodies ->
  length fields = length pairs -> blen sp0 = 2 * i ->
  deserialize_fields enc (sp0 ++ flat pairs) i fields =
  mapM (fun Tb => deserialize (fst Tb) (snd Tb)) (combine fields bodies).
Proof.
  induction fields as [|T fields IH]; intros pairs bodies sp0 i HF HL Hi.
  - destruct pairs; [|discriminate]. reflexivity.
  - destruct pairs as [|[a b] pairs]; [discriminate|].
    inversion HF as [|? body ? bodies' Hs HF']; subst. cbn [fst snd] in Hs.
    cbn [deserialize_fields flat flat_map fst snd app combine mapM]. fold (flat pairs).
    rewrite index_app2 by auto. cbn [bind].
    replace (sp0 ++ a :: b :: flat pairs) with ((sp0 ++ [a]) ++ b :: flat pairs)
      by (rewrite <- app_assoc; reflexivity).
    rewrite index_app2 by (rewrite blen_app; change (blen [a]) with 1; lia). cbn [bind].
    rewrite Hs. cbn [bind]. destruct (deserialize T body); cbn [bind]; try reflexivity.
    replace ((sp0 ++ [a]) ++ b :: flat pairs) with ((sp0 ++ [a; b]) ++ flat pairs)
      by (rewrite <- !app_assoc; reflexivity).
    rewrite (IH pairs bodies'); auto.
    rewrite blen_app. change (blen [a; b]) with 2. lia.
Qed.

(** ** Whole containers *)

(** The fields of an encoding: flags and encodings, as for [spec_compose]. *)
Definition field_ok (T : Serializable) (fb : bool * bytes) : Prop :=
  is_variable_size T = fst fb /\ (fst fb = false -> blen (snd fb) = size_hint T).

Fixpoint items_of (r : N) (es : list (bool * bytes)) : list item :=
  match es with
  | [] => []
  | (true, b) :: es => IOff r :: items_of (r + blen b) es
  | (false, b) :: es => IFix b :: items_of r es
  end.

Definition clayout (es : list (bool * bytes)) : bytes :=
  concat (fixed_from (total (fixed_lengths es)) es) ++ concat (variable_parts es).

Lemma items_of_bytes r es : map item_bytes (items_of r es) = fixed_from r es.
Proof.
  revert r; induction es as [|[[] b] es IH]; intros r; [reflexivity| |];
    cbn [items_of map fixed_from item_bytes]; rewrite IH; reflexivity.
Qed.

Lemma clayout_blen es : blen (clayout es) = compose_size es.
Proof.
  unfold clayout. rewrite blen_app, fixed_from_blen, variable_parts_blen, compose_size_eq.
  reflexivity.
Qed.

Lemma variable_lengths_total es : total (variable_lengths es) = blen (concat (variable_parts es)).
Proof. symmetry. apply variable_parts_blen. Qed.

Lemma first_off_items r es :
  first_off (r + total (variable_lengths es)) (items_of r es) = r \/
  (ioffs (items_of r es) = [] /\ total (variable_lengths es) = 0).
Proof.
  induction es as [|[[] b] es IH]; [right; split; reflexivity| |].
  - left. reflexivity.
  - cbn [items_of ioffs]. rewrite variable_lengths_cons, total_cons. cbn [fst snd].
    change (blen (@nil byte)) with 0. rewrite N.add_0_l. exact IH.
Qed.

Lemma items_of_chain es : forall len prev r,
  match prev with None => True | Some p => p <= r end ->
  r + total (variable_lengths es) <= len ->
  chain len prev (items_of r es).
Proof.
  induction es as [|[[] b] es IH]; intros len prev r Hp Hl; [exact I| |];
    rewrite variable_lengths_cons, total_cons in Hl; cbn [fst snd] in Hl; cbn [items_of chain].
  - split; [destruct prev; [lia|auto]|]. apply IH; lia.
  - apply IH; [auto|]. change (blen (@nil byte)) with 0 in Hl. lia.
Qed.

Lemma items_of_offs_le es : forall len r,
  r + total (variable_lengths es) <= len -> Forall (fun o => o <= len) (ioffs (items_of r es)).
Proof.
  induction es as [|[[] b] es IH]; intros len r Hl; [constructor| |];
    rewrite variable_lengths_cons, total_cons in Hl; cbn [fst snd] in Hl; cbn [items_of ioffs].
  - constructor; [lia|]. apply IH. lia.
  - apply IH. change (blen (@nil byte)) with 0 in Hl. lia.
Qed.

Lemma items_of_for fields es : forall r,
  Forall2 field_ok fields es -> Forall (fun o => o < 2 ^ 32) (ioffs (items_of r es)) ->
  Forall2 item_for fields (items_of r es).
Proof.
  intros r H; revert r; induction H as [|T [[] b] fields es [H1 H2] _ IH]; intros r HO;
    cbn [items_of ioffs] in *; [constructor| |]; constructor; cbn [fst snd] in *.
  - inversion HO; subst. split; auto.
  - inversion HO; subst. auto.
  - split; auto.
  - auto.
Qed.

Lemma spans_of_slices_gen es : forall pre s r whole v,
  s = blen pre ->
  (exists post1, whole = pre ++ concat (fixed_from r es) ++ post1) ->
  (exists post2, whole = v ++ concat (variable_parts es) ++ post2) -> blen v = r ->
  Forall2 (fun (p : N * N) b => @slice DeserializeError _ (fst p) (snd p) whole = Ok b)
    (spans_of (r + total (variable_lengths es)) s (items_of r es)) (map snd es).
Proof.
  induction es as [|[f b] es IH]; intros pre s r whole v Hs [p1 H1] [p2 H2] Hv;
    [constructor|].
  rewrite variable_lengths_cons, total_cons, variable_parts_cons in *.
  destruct f; cbn [fst snd items_of spans_of fixed_from concat map] in *.
  - constructor.
    + cbn [fst snd].
      assert (Hfo : first_off (r + (blen b + total (variable_lengths es)))
                      (items_of (r + blen b) es) = r + blen b).
      { rewrite N.add_assoc. destruct (first_off_items (r + blen b) es) as [E|[E1 E2]]; auto.
        unfold first_off. rewrite E1, E2. cbn [hd]. lia. }
      rewrite Hfo, H2, <- app_assoc. apply slice_app; auto. lia.
    + rewrite N.add_assoc.
      apply (IH (pre ++ le_bytes 4 r) (s + 4) (r + blen b) whole (v ++ b)).
      * rewrite blen_app, blen_le_bytes. subst s. reflexivity.
      * exists p1. rewrite H1, <- !app_assoc. reflexivity.
      * exists p2. rewrite H2, <- !app_assoc. reflexivity.
      * rewrite blen_app. lia.
  - change (blen (@nil byte)) with 0 in *. rewrite N.add_0_l in *. cbn [app] in *.
    constructor.
    + cbn [fst snd]. rewrite H1, <- app_assoc. subst s. apply slice_app; auto.
    + apply (IH (pre ++ b) (s + blen b) r whole v).
      * rewrite blen_app. lia.
      * exists p1. rewrite H1, <- !app_assoc. reflexivity.
      * exists p2. exact H2.
      * exact Hv.
Qed.

Lemma Forall2_len {A B} (R : A -> B -> Prop) l r : Forall2 R l r -> length l = length r.
Proof. apply Forall2_length. Qed.

Lemma spans_of_length len s items : length (spans_of len s items) = length items.
Proof. revert s; induction items as [|[] ? IH]; intros; cbn; auto. Qed.

Lemma items_of_length r es : length (items_of r es) = length es.
Proof. revert r; induction es as [|[[] ?] ? IH]; intros; cbn; auto. Qed.

Lemma container_layout oc fields es :
  Forall2 field_ok fields es ->
  blen (clayout es) < 2 ^ 63 ->
  Forall (fun o => o < 2 ^ 32) (ioffs (items_of (total (fixed_lengths es)) es)) ->
  container_deserialize oc fields (clayout es) =
  mapM (fun Tb => deserialize (fst Tb) (snd Tb)) (combine fields (map snd es)).
Proof.
  intros HF HL HO. unfold container_deserialize.
  set (r := total (fixed_lengths es)) in *. set (items := items_of r es) in *.
  assert (Hib : ibytes items = concat (fixed_from r es)).
  { unfold ibytes, items. rewrite items_of_bytes. reflexivity. }
  assert (Hr : blen (ibytes items) = r) by (rewrite Hib; apply fixed_from_blen).
  assert (Hlen : blen (clayout es) = r + total (variable_lengths es)).
  { rewrite clayout_blen, compose_size_eq. reflexivity. }
  assert (HP : foldM (parse oc (clayout es)) container_deserializer_default fields =
               Ok {| segments := segs_from 0 items; offsets := ioffs items; total_bytes_read := r |}).
  { rewrite (parse_fold_ok oc (clayout es) items fields container_deserializer_default []
               (concat (variable_parts es))); cbn [segments offsets total_bytes_read
               container_deserializer_default app]; auto.
    - change (blen (@nil byte)) with 0. rewrite Hr, N.add_0_l. reflexivity.
    - unfold clayout. fold r. rewrite Hib. reflexivity.
    - apply items_of_for; auto.
    - apply items_of_chain; cbn; auto. lia. }
  rewrite HP. cbn [bind]. unfold finalize. cbn [segments offsets total_bytes_read].
  assert (Hfirst : r + (blen (clayout es) - first_off (blen (clayout es)) items) = blen (clayout es)).
  { rewrite Hlen. unfold items. destruct (first_off_items r es) as [E|[E1 E2]].
    - rewrite E. lia.
    - unfold first_off. rewrite E1, E2. cbn [hd]. lia. }
  rewrite (finalize_loop_ok oc (clayout es) items None);
    [|apply items_of_chain; cbn; auto; lia|apply items_of_offs_le; lia|unfold USIZE; lia].
  cbn [bind]. rewrite Hfirst, N.ltb_irrefl. cbn [bind app].
  rewrite <- (app_nil_l (flat _)).
  apply deserialize_fields_spans.
  - rewrite Hlen. unfold items.
    apply (spans_of_slices_gen es [] 0 r (clayout es) (concat (fixed_from r es))).
    + reflexivity.
    + exists (concat (variable_parts es)). reflexivity.
    + exists []. rewrite app_nil_r. reflexivity.
    + apply fixed_from_blen.
  - rewrite spans_of_length. unfold items. rewrite items_of_length.
    apply (Forall2_length _ _ _ HF).
  - reflexivity.
Qed.

(** Reading the fields back off an accepted encoding. *)
Fixpoint es_of (enc : bytes) (items : list item) : list (bool * bytes) :=
  match items with
  | [] => []
  | IFix b :: r => (false, b) :: es_of enc r
  | IOff o :: r => (true, takeN (first_off (blen enc) r - o) (dropN o enc)) :: es_of enc r
  end.

Lemma es_of_spec enc items : forall prev,
  chain (blen enc) prev items ->
  Forall (fun o => o <= blen enc) (ioffs items) ->
  items_of (first_off (blen enc) items) (es_of enc items) = items /\
  concat (variable_parts (es_of enc items)) = dropN (first_off (blen enc) items) enc.
Proof.
  induction items as [|[b|o] items IH]; intros prev HC HO.
  - split; [reflexivity|]. unfold first_off. cbn. rewrite dropN_all; auto. lia.
  - cbn [chain ioffs] in *. destruct (IH _ HC HO) as [H1 H2].
    cbn [es_of items_of]. unfold first_off in *. cbn [ioffs].
    split; [rewrite H1; reflexivity|]. rewrite variable_parts_cons. cbn [fst concat app]. auto.
  - cbn [chain ioffs] in *. destruct HC as [_ HC]. inversion HO as [|? ? Ho HO']; subst.
    destruct (IH _ HC HO') as [H1 H2].
    pose proof (chain_first _ _ _ HC Ho) as [G1 G2].
    change (first_off (blen enc) (IOff o :: items)) with o.
    cbn [es_of items_of]. split.
    + rewrite takeN_length by (rewrite blen_dropN; lia).
      replace (o + (first_off (blen enc) items - o)) with (first_off (blen enc) items) by lia.
      rewrite H1. reflexivity.
    + rewrite variable_parts_cons. cbn [fst snd concat]. rewrite H2.
      replace (dropN (first_off (blen enc) items) enc)
        with (dropN (first_off (blen enc) items - o) (dropN o enc))
        by (rewrite dropN_dropN; f_equal; lia).
      apply takeN_dropN.
Qed.

Lemma es_of_field_ok enc fields items :
  Forall2 item_for fields items -> Forall2 field_ok fields (es_of enc items).
Proof.
  induction 1 as [|T [b|o] fields items H _ IH]; cbn [es_of]; constructor; auto;
    destruct H as [H1 H2]; split; cbn [fst snd]; auto. discriminate.
Qed.

Lemma item_for_offs fields items :
  Forall2 item_for fields items -> Forall (fun o => o < 2 ^ 32) (ioffs items).
Proof.
  induction 1 as [|T [b|o] fields items H _ IH]; cbn [ioffs]; auto.
  constructor; auto. apply H.
Qed.

Lemma container_stages oc fields enc d spans :
  blen enc < 2 ^ 63 ->
  Forall (fun T => is_variable_size T = false -> size_hint T <= 2 ^ 63) fields ->
  foldM (parse oc enc) container_deserializer_default fields = Ok d ->
  finalize oc enc d = Ok spans ->
  exists es, Forall2 field_ok fields es /\ enc = clayout es /\
    Forall (fun o => o < 2 ^ 32) (ioffs (items_of (total (fixed_lengths es)) es)) /\
    container_deserialize oc fields enc =
    mapM (fun Tb => deserialize (fst Tb) (snd Tb)) (combine fields (map snd es)).
Proof.
  intros HL HS HP HFin.
  destruct (parse_fold_inv oc enc fields container_deserializer_default _ HL HS (N.le_0_l _) HP)
    as (items & HF & H1 & H2 & HC & Hd).
  cbn [container_deserializer_default segments offsets total_bytes_read app] in *.
  subst d. unfold finalize in HFin. cbn [segments offsets total_bytes_read] in HFin.
  rewrite N.add_0_l in *. rewrite dropN_0 in H2.
  apply bind_ok_inv in HFin as ([tot sp] & HLoop & HFin).
  pose proof (finalize_loop_inv _ _ _ _ _ _ _ HLoop) as HO.
  rewrite (finalize_loop_ok oc enc items None) in HLoop; auto; [|unfold USIZE; lia].
  injection HLoop as Htot Hsp.
  destruct (blen enc <? tot) eqn:C1; [discriminate|].
  destruct (tot <? blen enc) eqn:C2; [discriminate|].
  destruct (es_of_spec enc items None HC HO) as [G1 G2].
  assert (Hfo : first_off (blen enc) items <= blen enc).
  { unfold first_off. destruct (ioffs items); cbn; [lia|]. inversion HO; auto. }
  assert (Hr : blen (ibytes items) = first_off (blen enc) items) by lia.
  set (es := es_of enc items) in *.
  assert (Hfix : forall r, total (fixed_lengths es) = blen (concat (fixed_from r es)))
    by (intros; symmetry; apply fixed_from_blen).
  assert (Hr2 : total (fixed_lengths es) = first_off (blen enc) items).
  { rewrite (Hfix (first_off (blen enc) items)). rewrite <- items_of_bytes, G1. exact Hr. }
  assert (He : enc = clayout es).
  { unfold clayout. rewrite Hr2, G2, <- items_of_bytes, G1.
    change (concat (map item_bytes items)) with (ibytes items).
    rewrite H2, Hr. symmetry. apply takeN_dropN. }
  assert (HFO : Forall2 field_ok fields es) by (apply es_of_field_ok; auto).
  assert (H32 : Forall (fun o => o < 2 ^ 32) (ioffs (items_of (total (fixed_lengths es)) es))).
  { rewrite Hr2, G1. eapply item_for_offs; eauto. }
  exists es. split; [auto|]. split; [auto|]. split; [auto|].
  rewrite He. apply container_layout; auto. rewrite <- He; auto.
Qed.

Lemma container_inv oc fields enc vs :
  blen enc < 2 ^ 63 ->
  Forall (fun T => is_variable_size T = false -> size_hint T <= 2 ^ 63) fields ->
  container_deserialize oc fields enc = Ok vs ->
  exists es, Forall2 field_ok fields es /\ enc = clayout es /\
    Forall (fun o => o < 2 ^ 32) (ioffs (items_of (total (fixed_lengths es)) es)) /\
    mapM (fun Tb => deserialize (fst Tb) (snd Tb)) (combine fields (map snd es)) = Ok vs.
Proof.
  intros HL HS H. pose proof H as Horig. unfold container_deserialize in H.
  apply bind_ok_inv in H as (d & HP & H). apply bind_ok_inv in H as (spans & HFin & _).
  destruct (container_stages oc fields enc d spans HL HS HP HFin) as (es & H1 & H2 & H3 & H4).
  exists es. rewrite <- H4. auto.
Qed.
