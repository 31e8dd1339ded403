(** Panics and errors of the decoders. *)
From Coq Require Import List NArith ZArith Bool Lia ZifyBool ZifyNat ZifyN.
From Coq Require Import Strings.Byte.
From Verif Require Import Prelude Types Bitvec Ser De Impls Valid SpecSer SpecErr Lib BitsLib
  SerProof SerSpec DeProof ConProof BitsDe RoundTrip DecValid.
Import ListNotations.
Open Scope N_scope.

Ltac Zify.zify_post_hook ::= Z.div_mod_to_equations.

(** [tr]: we claim that errors are truthful; [np]: we claim that there is no panic. *)
Definition good {A} (tr np : Prop) (b : bytes) (x : res DeserializeError A) : Prop :=
  match x with
  | Ok _ => True
  | Err e => tr -> truthful b e
  | Panic _ => ~ np
  end.

Lemma good_bind {A B} tr np b (x : res DeserializeError A) (f : A -> res DeserializeError B) :
  good tr np b x -> (forall a, x = Ok a -> good tr np b (f a)) -> good tr np b (bind x f).
Proof. intros H1 H2. destruct x; cbn [bind]; auto. Qed.

Lemma err_inj {E A} (a b : E) : @Err E A a = Err b -> a = b.
Proof. congruence. Qed.

Lemma truthful_sub b b' e : (forall x, In x b -> In x b') -> truthful b e -> truthful b' e.
Proof. intros H. destruct e; cbn; auto. Qed.

Lemma good_sub {A} tr np b b' (x : res DeserializeError A) :
  (forall x, In x b -> In x b') -> good tr np b x -> good tr np b' x.
Proof. intros H. destruct x; cbn; auto. intros G T. eapply truthful_sub; eauto. Qed.

Lemma good_mapM {A B} tr np b (f : A -> res DeserializeError B) l :
  (forall a, In a l -> good tr np b (f a)) -> good tr np b (mapM f l).
Proof.
  induction l as [|a l IH]; intros H; [exact I|]. cbn [mapM].
  apply good_bind; [apply H; left; auto|]. intros y _.
  apply good_bind; [apply IH; intros; apply H; right; auto|]. intros ys _. exact I.
Qed.

Lemma in_takeN {A} n (l : list A) x : In x (takeN n l) -> In x l.
Proof. intros H. rewrite <- (takeN_dropN n l). apply in_or_app. auto. Qed.

Lemma in_dropN {A} n (l : list A) x : In x (dropN n l) -> In x l.
Proof. intros H. rewrite <- (takeN_dropN n l). apply in_or_app. auto. Qed.

Lemma uint_good tr np n e : good tr np e (uint_deserialize n e).
Proof.
  unfold uint_deserialize. destruct (blen e <? n) eqn:C1; [cbn; lia|].
  destruct (n <? blen e) eqn:C2; [cbn; lia|].
  rewrite slice_ok by lia. exact I.
Qed.

(** ** Homogeneous collections *)

Lemma fixed_good tr np oc T e :
  0 < size_hint T -> blen e mod size_hint T = 0 ->
  (forall b, blen b <= blen e -> good tr np b (deserialize T b)) ->
  good tr np e (deserialize_fixed_homogeneous_composite oc T e).
Proof.
  intros Hs HM HD. unfold deserialize_fixed_homogeneous_composite, rem_len.
  replace (size_hint T =? 0) with false by lia. cbn [bind]. rewrite HM. cbn [N.eqb].
  replace (if oc then @Ok DeserializeError _ tt else Ok tt) with (@Ok DeserializeError _ tt) by (destruct oc; reflexivity).
  cbn [bind]. destruct (chunks_exact (size_hint T) e) as [cs|x|p] eqn:E.
  - cbn [bind]. apply chunks_exact_inv in E as (_ & _ & Hc); auto.
    apply good_mapM. intros b Hb. apply (good_sub tr np b).
    + intros x Hx. rewrite <- Hc. apply in_concat. eauto.
    + apply HD. rewrite <- Hc. apply blen_concat_in; auto.
  - unfold chunks_exact in E. destruct (size_hint T =? 0); discriminate.
  - unfold chunks_exact in E. destruct (size_hint T =? 0) eqn:E0; [lia|discriminate].
Qed.

Lemma variable_good tr T e :
  (forall b, blen b <= blen e -> good tr False b (deserialize T b)) ->
  good tr False e (deserialize_variable_homogeneous_composite T e).
Proof.
  intros HD. unfold deserialize_variable_homogeneous_composite.
  destruct e as [|x l]; [exact I|]. set (e := x :: l) in *. clearbody e. clear x l.
  change BYTES_PER_LENGTH_OFFSET with 4.
  destruct (get_range 0 4 e) as [first|] eqn:G.
  2:{ cbn. intros _. unfold get_range in G. destruct ((0 <=? 4) && (4 <=? blen e)) eqn:E; [discriminate|].
      change (0 <=? 4) with true in E. cbn [andb] in E. lia. }
  apply get_range_inv in G as (_ & G2 & G3).
  assert (Hsub : forall x, In x first -> In x e).
  { intros x Hx. subst first. apply in_takeN in Hx. apply in_dropN in Hx. auto. }
  apply good_bind; [apply (good_sub _ _ first); auto; apply uint_good|]. intros r _.
  destruct (blen e <? r) eqn:C1; [cbn; lia|].
  destruct (r mod 4 =? 0) eqn:C2; cbn [negb]; [|cbn; lia].
  rewrite slice_ok by lia. cbn [bind]. rewrite dropN_0, N.sub_0_r.
  destruct (chunks_exact 4 (takeN r e)) as [cs|y|p] eqn:E; [|discriminate|discriminate].
  apply chunks_exact_inv in E as (_ & _ & Hc); [|rewrite takeN_length; lia]. cbn [bind].
  apply good_bind.
  { apply good_mapM. intros b Hb. apply (good_sub _ _ b); [|apply uint_good].
    intros x Hx. apply (in_takeN r). rewrite <- Hc. apply in_concat. eauto. }
  intros os _. apply good_mapM. intros [s f] _. unfold deserialize_span.
  destruct (f <? s) eqn:C; [cbn; lia|].
  apply good_bind.
  - destruct (slice s f e) eqn:Es; [exact I| |cbn; tauto].
    unfold slice in Es. destruct (get_range s f e); discriminate.
  - intros b Hb. apply slice_inv in Hb as (_ & _ & ->). apply (good_sub _ _ (takeN (f - s) (dropN s e))).
    + intros x Hx. apply in_takeN in Hx. apply in_dropN in Hx. auto.
    + apply HD. rewrite blen_takeN, blen_dropN. lia.
Qed.

Lemma homogeneous_good oc t tr (np : Prop) e :
  legal t = true ->
  (np -> spec_variable t = false) ->
  (spec_variable t = false -> blen e mod fixed_size t = 0) ->
  (forall b, blen b <= blen e -> good tr np b (deserialize (serializable oc t) b)) ->
  good tr np e (deserialize_homogeneous_composite oc (serializable oc t) e).
Proof.
  intros HL HN HM HD. unfold deserialize_homogeneous_composite. rewrite is_variable_size_spec.
  destruct (spec_variable t) eqn:HF.
  - assert (Hnp : ~ np) by (intros G; specialize (HN G); discriminate).
    assert (G : good tr False e (deserialize_variable_homogeneous_composite (serializable oc t) e)).
    { apply variable_good. intros b Hb. specialize (HD b Hb).
      destruct (deserialize (serializable oc t) b); cbn in *; tauto. }
    destruct (deserialize_variable_homogeneous_composite _ e); cbn in *; auto.
  - apply fixed_good; auto; rewrite size_hint_spec; auto.
    pose proof (legal_fixed_size t HL HF). lia.
Qed.

(** ** Containers *)

Definition nvar (fields : list Serializable) : N := blen (filter is_variable_size fields).

Lemma nvar_cons T fields :
  nvar (T :: fields) = (if is_variable_size T then 1 else 0) + nvar fields.
Proof. unfold nvar. cbn [filter]. destruct (is_variable_size T); rewrite ?blen_cons; lia. Qed.

(** The stage [parse]. With [k] offsets read so far. *)
Lemma parse_fold_good (tr np : Prop) oc enc fields : forall d,
  blen enc < 2 ^ 63 ->
  Forall (fun T => is_variable_size T = false -> size_hint T <= 2 ^ 63) fields ->
  total_bytes_read d <= blen enc ->
  (np -> oc = false \/ blen (offsets d) + nvar fields <= 1) ->
  (tr -> oc = true \/ blen (offsets d) + nvar fields <= 1) ->
  good tr np enc (foldM (parse oc enc) d fields).
Proof.
  induction fields as [|T fields IH]; intros d HL HS HT HN HTr; [exact I|].
  cbn [foldM]. inversion HS as [|? ? HS1 HS2]; subst.
  rewrite nvar_cons in HN, HTr. unfold parse at 1.
  destruct (is_variable_size T) eqn:Hv.
  - change BYTES_PER_LENGTH_OFFSET with 4.
    rewrite uadd_ok by (unfold USIZE; lia). cbn [bind].
    rewrite usub_ok by lia. cbn [bind].
    destruct (get_range _ _ enc) as [target|] eqn:G.
    2:{ cbn. intros _. unfold get_range in G.
        destruct (_ && _) eqn:E; [discriminate|]. apply andb_false_iff in E. lia. }
    apply get_range_inv in G as (_ & G2 & G3).
    assert (Hsub : forall x, In x target -> In x enc).
    { intros x Hx. subst target. apply in_takeN in Hx. apply in_dropN in Hx. auto. }
    destruct (u32_deserialize target) as [o|er|p] eqn:Eo.
    2:{ cbn [bind]. pose proof (uint_good tr np 4 target) as GG. unfold u32_deserialize in Eo.
        rewrite Eo in GG. cbn in *. intros Ht. eapply truthful_sub; eauto. }
    2:{ exfalso. eapply uint_deserialize_no_panic; eauto. }
    cbn [bind].
    destruct (check_offset oc enc (last_opt (offsets d)) o) as [u|er|p] eqn:Ec; cbn [bind].
    + apply IH; auto; cbn [offsets total_bytes_read]; rewrite blen_app; change (blen [o]) with 1.
      * intros Hn. destruct (HN Hn); [auto|right; lia].
      * intros Hn. destruct (HTr Hn); [auto|right; lia].
    + (* an error of check_offset *)
      cbn. intros Ht. unfold check_offset in Ec.
      destruct (last_opt (offsets d)) as [p|] eqn:El; [|discriminate].
      assert (Hoc : oc = true).
      { destruct (HTr Ht) as [|Hle]; [auto|].
        assert (offsets d <> []) by (intros E; rewrite E in El; discriminate).
        destruct (offsets d); [congruence|]. rewrite blen_cons in Hle. lia. }
      subst oc. destruct (o <? p) eqn:C1; [injection Ec as <-; cbn; lia|].
      destruct (blen enc <? p) eqn:C2.
      { unfold usub in Ec. replace (p <=? blen enc) with false in Ec by lia. discriminate. }
      destruct (blen enc <? o) eqn:C3; [|discriminate].
      unfold usub in Ec. replace (o <=? blen enc) with false in Ec by lia. discriminate.
    + (* a panic of check_offset *)
      cbn. intros Hn. unfold check_offset in Ec.
      destruct (last_opt (offsets d)) as [q|] eqn:El; [|discriminate].
      assert (Hoc : oc = false).
      { destruct (HN Hn) as [|Hle]; [auto|].
        assert (offsets d <> []) by (intros E; rewrite E in El; discriminate).
        destruct (offsets d); [congruence|]. rewrite blen_cons in Hle. lia. }
      subst oc. unfold usub in Ec.
      repeat match type of Ec with
             | context [if ?c then _ else _] => destruct c; cbn [bind] in Ec; try discriminate
             end.
  - rewrite uadd_ok by (unfold USIZE; specialize (HS1 eq_refl); lia). cbn [bind].
    destruct (blen enc <? total_bytes_read d) eqn:C1; [lia|].
    destruct (blen enc <? total_bytes_read d + size_hint T) eqn:C2.
    { rewrite usub_ok by lia. cbn. lia. }
    cbn [bind]. apply IH; auto; cbn [offsets total_bytes_read]; lia.
Qed.

Lemma finalize_loop_good (tr np : Prop) oc enc items : forall prev s total spans,
  chain (blen enc) prev items ->
  total + (blen enc - first_off (blen enc) items) < USIZE ->
  good tr np enc (finalize_loop oc enc (segs_from s items) (ioffs items ++ [blen enc]) total spans).
Proof.
  induction items as [|[b|o] items IH]; intros prev s total spans HC HT.
  - exact I.
  - cbn [segs_from ioffs finalize_loop app]. apply (IH prev); auto.
  - cbn [segs_from ioffs finalize_loop app].
    cbn [chain] in HC. destruct HC as [_ HC].
    assert (Hn : exists rest, ioffs items ++ [blen enc] = first_off (blen enc) items :: rest).
    { unfold first_off. destruct (ioffs items); cbn; eauto. }
    destruct Hn as (rest & Hn). rewrite Hn.
    destruct (blen enc <? o) eqn:C1; [cbn; lia|].
    destruct (blen enc <? first_off (blen enc) items) eqn:C2; [cbn; lia|].
    pose proof (chain_first _ _ _ HC ltac:(lia)) as [G1 G2].
    unfold first_off in HT. cbn [ioffs hd] in HT.
    rewrite usub_ok by lia. cbn [bind]. rewrite uadd_ok by lia. cbn [bind]. rewrite <- Hn.
    apply (IH (Some o)); auto. lia.
Qed.

Lemma container_good (tr np : Prop) oc fields enc :
  blen enc < 2 ^ 63 ->
  Forall (fun T => is_variable_size T = false -> size_hint T <= 2 ^ 63) fields ->
  (np -> oc = false \/ nvar fields <= 1) ->
  (tr -> oc = true \/ nvar fields <= 1) ->
  Forall (fun T => forall b, blen b <= blen enc -> good tr np b (deserialize T b)) fields ->
  good tr np enc (container_deserialize oc fields enc).
Proof.
  intros HL HS HN HTr HD.
  pose proof (parse_fold_good tr np oc enc fields container_deserializer_default HL HS (N.le_0_l _)
                ltac:(intros G; destruct (HN G); auto) ltac:(intros G; destruct (HTr G); auto)) as GP.
  destruct (foldM (parse oc enc) container_deserializer_default fields) as [d| |] eqn:HP;
    [|unfold container_deserialize; rewrite HP; exact GP ..].
  assert (GF : good tr np enc (finalize oc enc d)).
  { destruct (parse_fold_inv oc enc fields container_deserializer_default _ HL HS (N.le_0_l _) HP)
      as (items & HF & H1 & H2 & HC & Hd).
    cbn [container_deserializer_default segments offsets total_bytes_read app] in *.
    subst d. unfold finalize. cbn [segments offsets total_bytes_read]. rewrite N.add_0_l in *.
    apply good_bind; [apply (finalize_loop_good tr np oc enc items None); auto; unfold USIZE; lia|].
    intros [tot spans] _. destruct (blen enc <? tot) eqn:C1; [cbn; lia|].
    destruct (tot <? blen enc) eqn:C2; [cbn; lia|]. exact I. }
  destruct (finalize oc enc d) as [spans| |] eqn:HFin;
    [|unfold container_deserialize; rewrite HP; cbn [bind]; rewrite HFin; exact GF ..].
  destruct (container_stages oc fields enc d spans HL HS HP HFin) as (es & H1 & H2 & H3 & ->).
  apply good_mapM. intros [T b] Hin. cbn [fst snd].
  assert (Hb : In b (map snd es)) by (eapply in_combine_r; eauto).
  apply in_map_iff in Hb as (e & <- & He).
  apply (good_sub _ _ (snd e)).
  - intros x Hx. rewrite H2. clear - He Hx. unfold clayout. apply in_or_app.
    revert He. generalize (total (fixed_lengths es)) as r.
    induction es as [|[f b] es IH]; intros r He; [contradiction|].
    destruct He as [<-|He].
    + cbn [snd] in Hx. destruct f; cbn [fixed_from variable_parts map fst snd concat].
      * right. apply in_or_app. auto.
      * left. apply in_or_app. auto.
    + destruct f; cbn [fixed_from fst snd concat].
      * destruct (IH (r + blen b) He); [left|right]; apply in_or_app; auto.
      * destruct (IH r He); [left|right]; cbn [variable_parts map fst concat]; rewrite ?in_app_iff; auto.
  - rewrite Forall_forall in HD. apply HD; [eapply in_combine_l; eauto|].
    rewrite H2. apply clayout_part_le; auto.
Qed.

Lemma nvar_fields oc (fs : list (String.string * ty)) :
  nvar (map (fun f => serializable oc (snd f)) fs) = blen (filter (fun f => spec_variable (snd f)) fs).
Proof.
  induction fs as [|f fs IH]; [reflexivity|]. cbn [map]. rewrite nvar_cons, is_variable_size_spec, IH.
  cbn [filter]. destruct (spec_variable (snd f)); rewrite ?blen_cons; lia.
Qed.

Lemma check_fixed_good tr np oc t n e : good tr np e (check_fixed_length (serializable oc t) n e).
Proof.
  unfold check_fixed_length. destruct (negb _); [|exact I].
  destruct (blen e <? _) eqn:C1; [cbn; lia|]. destruct (_ <? blen e) eqn:C2; [cbn; lia|]. exact I.
Qed.

Lemma in_last {A} (l : list A) x : last_opt l = Some x -> In x l.
Proof.
  unfold last_opt. destruct (rev l) as [|y r] eqn:E; [discriminate|]. intros [= <-].
  apply in_rev. rewrite E. left; auto.
Qed.

Lemma bitvector_good tr np n e : 0 < n -> good tr np e (bitvector_deserialize n e).
Proof.
  intros Hn. pose proof (bitvector_deserialize_no_panic n e) as HP.
  destruct (bitvector_deserialize n e) as [v|er|p] eqn:E; [exact I| |exfalso; eapply HP; eauto].
  cbn. intros _. unfold bitvector_deserialize in E. replace (n =? 0) with false in E by lia.
  destruct (blen e <? _) eqn:C1; [injection E as <-; cbn; lia|].
  destruct (_ <? blen e) eqn:C2; [injection E as <-; cbn; lia|].
  destruct (n mod 8 =? 0); cbn [negb] in E; [discriminate|].
  destruct (last_opt e) as [x|] eqn:El; [|discriminate].
  destruct (_ =? 0); cbn [negb] in E; [discriminate|]. injection E as <-. cbn. apply in_last; auto.
Qed.

Lemma bitlist_good tr np oc n e : n + 8 < 2 ^ 64 -> good tr np e (bitlist_deserialize oc n e).
Proof.
  intros Hn. pose proof (bitlist_deserialize_no_panic oc n e) as HP.
  destruct (bitlist_deserialize oc n e) as [v|er|p] eqn:E; [exact I| |exfalso; eapply HP; eauto].
  cbn. intros _. unfold bitlist_deserialize in E.
  destruct (rev e) as [|x r] eqn:Er; [injection E as <-; cbn [truthful]; lia|].
  rewrite bitlist_byte_length_ok in E by auto. cbn [bind] in E.
  destruct (_ <? blen e) eqn:C1; [injection E as <-; cbn [truthful]; lia|].
  destruct (byte_eqb x x00); [injection E as <-; cbn; apply in_rev; rewrite Er; left; auto|].
  apply bind_err_inv in E as [E|(a & _ & E)].
  { unfold usub in E. repeat match type of E with context [if ?c then _ else _] => destruct c end; discriminate. }
  apply bind_err_inv in E as [E|(a' & _ & E)].
  { unfold usub in E. repeat match type of E with context [if ?c then _ else _] => destruct c end; discriminate. }
  destruct (n <? bv_len _ + _) eqn:C2; [apply err_inj in E; subst er; cbn [truthful]; lia|].
  apply bind_err_inv in E as [E|(a'' & _ & E)]; [|discriminate].
  unfold slice in E. destruct (get_range _ _ _); discriminate.
Qed.

(** ** All types *)

Definition tr_ok (oc : bool) (t : ty) : Prop := oc = true \/ single_variable t = true.
Definition np_ok (oc : bool) (t : ty) : Prop :=
  no_variable_collection t = true /\ (oc = false \/ single_variable t = true).

Lemma decode_good (tr np : Prop) oc t :
  legal t = true ->
  (tr -> tr_ok oc t) -> (np -> np_ok oc t) ->
  forall b, blen b < 2 ^ 63 -> good tr np b (deserialize (serializable oc t) b).
Proof.
  unfold tr_ok, np_ok.
  induction t using ty_ind'; intros HL HTr HN b HB; cbn [serializable].
  - cbn [bool_impl deserialize]. unfold bool_deserialize.
    destruct b as [|x [|y b]]; [cbn; lia| |cbn [good truthful]; rewrite !blen_cons; lia].
    destruct (byte_eqb x x00); [exact I|]. destruct (byte_eqb x x01); [exact I|]. cbn. auto.
  - cbn [uint_impl deserialize]. apply good_bind; [apply uint_good|]. intros; exact I.
  - cbn [u256_impl uint_impl deserialize]. apply good_bind; [apply uint_good|]. intros; exact I.
  - cbn [node_impl deserialize]. unfold node_deserialize, BYTES_PER_CHUNK.
    destruct (blen b <? 32) eqn:C1; [cbn; lia|]. destruct (32 <? blen b) eqn:C2; [cbn; lia|].
    rewrite slice_ok by lia. exact I.
  - cbn [legal] in HL. rewrite !andb_true_iff in HL. destruct HL as [[[L1 L2] L3] L4].
    cbn [single_variable no_variable_collection] in *.
    cbn [vector_impl deserialize]. unfold vector_deserialize. replace (n =? 0) with false by lia.
    apply good_bind; [apply check_fixed_good|]. intros [] HC.
    apply good_bind.
    + apply homogeneous_good; auto.
      * intros G. destruct (HN G) as [G1 _]. apply andb_true_iff in G1 as [G1 _].
        apply negb_true_iff in G1. auto.
      * intros HF. rewrite (check_fixed_length_inv _ _ _ _ HC HF). apply mod_mul_ok.
      * intros b' Hb'. apply IHt; auto; [|lia].
        intros G. destruct (HN G) as [G1 G2]. apply andb_true_iff in G1 as [_ G1]. auto.
    + intros l _. unfold vector_try_from. replace (n =? 0) with false by lia.
      destruct (blen l =? n) eqn:El; [exact I|]. cbn. lia.
  - cbn [legal] in HL. rewrite !andb_true_iff in HL. destruct HL as [[[L1 L2] L3] L4].
    cbn [single_variable no_variable_collection] in *.
    cbn [array_impl deserialize]. unfold array_deserialize. replace (n =? 0) with false by lia.
    apply good_bind; [apply check_fixed_good|]. intros [] HC.
    apply good_bind.
    + apply homogeneous_good; auto.
      * intros G. destruct (HN G) as [G1 _]. apply andb_true_iff in G1 as [G1 _].
        apply negb_true_iff in G1. auto.
      * intros HF. rewrite (check_fixed_length_inv _ _ _ _ HC HF). apply mod_mul_ok.
      * intros b' Hb'. apply IHt; auto; [|lia].
        intros G. destruct (HN G) as [G1 G2]. apply andb_true_iff in G1 as [_ G1]. auto.
    + intros l _. destruct (blen l =? n) eqn:El; [exact I|]. cbn. lia.
  - cbn [legal] in HL. rewrite !andb_true_iff in HL. destruct HL as [L1 L4].
    cbn [single_variable no_variable_collection] in *.
    cbn [list_impl deserialize]. unfold list_deserialize. rewrite is_variable_size_spec, size_hint_spec.
    apply good_bind.
    { destruct (spec_variable t) eqn:HF; cbn [negb]; [exact I|].
      pose proof (legal_fixed_size t L4 HF). unfold rem_len.
      replace (fixed_size t =? 0) with false by lia. cbn [bind].
      destruct (blen b mod fixed_size t =? 0) eqn:EM; cbn [negb]; [exact I|].
      apply N.eqb_neq in EM.
      assert (blen b mod fixed_size t <= blen b) by (apply N.mod_le; lia).
      rewrite usub_ok by auto. cbn. intros _. clear -EM H0.
      revert EM H0. generalize (blen b mod fixed_size t). intros. lia. }
    intros [] HC. apply good_bind.
    + apply homogeneous_good; auto.
      * intros G. destruct (HN G) as [G1 _]. apply andb_true_iff in G1 as [G1 _].
        apply negb_true_iff in G1. auto.
      * intros HF. rewrite HF in HC. cbn [negb] in HC. unfold rem_len in HC.
        pose proof (legal_fixed_size t L4 HF).
        replace (fixed_size t =? 0) with false in HC by lia. cbn [bind] in HC.
        destruct (blen b mod fixed_size t =? 0) eqn:EM; [apply N.eqb_eq; auto|].
        cbn [negb] in HC. apply bind_ok_inv in HC as (? & _ & HC). discriminate.
      * intros b' Hb'. apply IHt; auto; [|lia].
        intros G. destruct (HN G) as [G1 G2]. apply andb_true_iff in G1 as [_ G1]. auto.
    + intros l _. destruct (n <? blen l) eqn:El; [cbn; lia|].
      unfold list_try_from. rewrite El. exact I.
  - cbn [legal] in HL. cbn [bitvector_impl deserialize]. apply bitvector_good. lia.
  - cbn [legal] in HL. cbn [bitlist_impl deserialize]. apply bitlist_good. lia.
  - cbn [legal] in HL. rewrite !andb_true_iff in HL. destruct HL as [[L1 L2] L3].
    cbn [single_variable no_variable_collection] in *.
    cbn [container_impl deserialize]. apply good_bind; [|intros; exact I].
    apply container_good; [auto|apply fields_size_ok; auto| | |].
    + intros G. destruct (HN G) as [_ [G2|G2]]; [auto|]. apply andb_true_iff in G2 as [G2 _].
      rewrite nvar_fields. right. lia.
    + intros G. destruct (HTr G) as [G2|G2]; [auto|]. apply andb_true_iff in G2 as [G2 _].
      rewrite nvar_fields. right. lia.
    + apply Forall_map. rewrite Forall_forall in *. rewrite forallb_forall in L3.
      intros f Hf b' Hb'. apply H; auto; [| |lia].
      * intros G. destruct (HTr G) as [G2|G2]; [auto|]. apply andb_true_iff in G2 as [_ G2].
        rewrite forallb_forall in G2. auto.
      * intros G. destruct (HN G) as [G1 G2]. rewrite forallb_forall in G1. split; [auto|].
        destruct G2 as [G2|G2]; [auto|]. apply andb_true_iff in G2 as [_ G2].
        rewrite forallb_forall in G2. auto.
  - cbn [newtype_impl deserialize]. apply good_bind; [|intros; exact I]. apply IHt; auto.
  - cbn [option_impl deserialize]. unfold option_deserialize.
    destruct b as [|x b]; [cbn; lia|]. rewrite blen_cons in *.
    destruct (byte_eqb x x00).
    + destruct (blen b + 1 =? 1) eqn:E; [exact I|]. cbn. lia.
    + destruct (byte_eqb x x01); [|cbn; auto].
      apply good_bind; [|intros; exact I]. apply (good_sub _ _ b); [intros; right; auto|].
      apply IHt; auto. lia.
  - cbn [legal] in HL. apply andb_true_iff in HL as [HLV HL]. rewrite forallb_forall in HL.
    rewrite Forall_forall in H. cbn [single_variable no_variable_collection] in *.
    cbn [union_impl deserialize]. unfold union_deserialize.
    destruct b as [|x b]; [cbn; lia|]. rewrite blen_cons in *. rewrite nth_error_map.
    destruct (nth_error vs (N.to_nat (byte_to_N x))) as [[t|]|] eqn:E; cbn [option_map].
    + pose proof (nth_error_In _ _ E) as Hin.
      apply good_bind; [|intros; exact I]. apply (good_sub _ _ b); [intros; right; auto|].
      apply (H _ Hin); [apply (HL _ Hin)| | |lia].
      * intros G. destruct (HTr G) as [G2|G2]; [auto|]. rewrite forallb_forall in G2. right. apply (G2 _ Hin).
      * intros G. destruct (HN G) as [G1 G2]. rewrite forallb_forall in G1. split; [apply (G1 _ Hin)|].
        destruct G2 as [G2|G2]; [auto|]. rewrite forallb_forall in G2. right. apply (G2 _ Hin).
    + destruct (blen b + 1 =? 1) eqn:E1; [exact I|]. cbn. lia.
    + cbn. auto.
  - cbn [legal] in HL. rewrite !andb_true_iff in HL. destruct HL as [[L1 L2] L3].
    rewrite forallb_forall in L3. rewrite Forall_forall in H.
    cbn [single_variable no_variable_collection] in *.
    cbn [transparent_impl deserialize]. unfold transparent_deserialize.
    destruct b as [|x b]; [cbn; lia|].
    assert (G : forall l, (forall T, In T l -> In T (map (serializable oc) ts)) ->
                good tr np (x :: b) (try_variants l (x :: b))).
    { induction l as [|T l IHl]; intros Hl; [exact (fun _ => I)|]. cbn [try_variants].
      assert (GT : good tr np (x :: b) (deserialize T (x :: b))).
      { specialize (Hl T (or_introl eq_refl)). apply in_map_iff in Hl as (t & <- & Ht).
        apply H; auto.
        * intros G. destruct (HTr G) as [G2|G2]; [auto|]. rewrite forallb_forall in G2. auto.
        * intros G. destruct (HN G) as [G1 G2]. rewrite forallb_forall in G1. split; [auto|].
          destruct G2 as [G2|G2]; [auto|]. rewrite forallb_forall in G2. auto. }
      destruct (deserialize T (x :: b)); [exact I| |exact GT].
      apply IHl. intros; apply Hl; right; auto. }
    apply G. intros T HT. apply in_rev. auto.
Qed.
