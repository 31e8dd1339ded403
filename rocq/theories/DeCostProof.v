(** The work of decoding. *)
From Coq Require Import String List NArith ZArith Bool Lia ZifyBool ZifyNat ZifyN.
From Coq Require Import Strings.Byte.
From Verif Require Import Prelude Types Valid SpecSer Bitvec Ser De Impls Lib SerProof DeProof ConProof RoundTrip ReadProof
  SpecSize SpecEffort DeCost SpecDecode.
Import ListNotations.
Open Scope N_scope.
Ltac Zify.zify_post_hook ::= Z.div_mod_to_equations.

(** ** The results are those of the model *)

Lemma fst_dbind {A B} (x : dtally A) (f : A -> dtally B) : fst (dbind x f) = bind (fst x) (fun a => fst (f a)).
Proof. destruct x as [[a|e|p] n]; reflexivity. Qed.

Lemma fst_free {A} (x : res DeserializeError A) : fst (at_no_cost x) = x.
Proof. reflexivity. Qed.

Lemma bind_ext {E A B} (x : res E A) (f g : A -> res E B) : (forall a, f a = g a) -> bind x f = bind x g.
Proof. intros HE. destruct x; cbn [bind]; auto. Qed.

Lemma mapM_erased {A B} (f : A -> dtally B) g l : (forall a, fst (f a) = g a) -> fst (mapM_c f l) = mapM g l.
Proof.
  intros HE. induction l as [|a l IH]; cbn [mapM_c mapM]; [reflexivity|]. rewrite fst_dbind, HE.
  apply bind_ext. intros b. rewrite fst_dbind, IH. reflexivity.
Qed.

Section Elements.
  Context (oc : bool) (T : Serializable) (f : decoder) (HE : forall b, fst (f b) = deserialize T b).

  Lemma elements_erased e : fst (elements_c oc T f e) = deserialize_homogeneous_composite oc T e.
  Proof.
    unfold elements_c, deserialize_homogeneous_composite. destruct (is_variable_size T).
    - unfold variable_elements_c, deserialize_variable_homogeneous_composite. destruct e as [|x l]; [reflexivity|].
      set (e := x :: l). destruct (get_range 0 BYTES_PER_LENGTH_OFFSET e) as [first|]; [|reflexivity].
      rewrite fst_dbind, fst_free. apply bind_ext. intros n.
      destruct (blen e <? n); [reflexivity|]. destruct (negb (n mod BYTES_PER_LENGTH_OFFSET =? 0)); [reflexivity|].
      rewrite fst_dbind, fst_free. apply bind_ext. intros ob.
      rewrite fst_dbind, fst_free. apply bind_ext. intros cs.
      rewrite fst_dbind, fst_free. apply bind_ext. intros os.
      apply mapM_erased. intros [s x']. unfold span_c, deserialize_span. destruct (x' <? s); [reflexivity|].
      rewrite fst_dbind, fst_free. apply bind_ext. auto.
    - unfold fixed_elements_c, deserialize_fixed_homogeneous_composite.
      rewrite fst_dbind, fst_free. apply bind_ext. intros _.
      rewrite fst_dbind, fst_free. apply bind_ext. intros cs. apply mapM_erased. auto.
  Qed.

  Lemma vector_erased n e : fst (vector_c oc T f n e) = vector_deserialize oc T n e.
  Proof.
    unfold vector_c, vector_deserialize. destruct (n =? 0); [reflexivity|].
    rewrite fst_dbind, fst_free. apply bind_ext. intros _.
    rewrite fst_dbind, elements_erased. reflexivity.
  Qed.

  Lemma array_erased n e : fst (array_c oc T f n e) = array_deserialize oc T n e.
  Proof.
    unfold array_c, array_deserialize. destruct (n =? 0); [reflexivity|].
    rewrite fst_dbind, fst_free. apply bind_ext. intros _.
    rewrite fst_dbind, elements_erased. reflexivity.
  Qed.

  Lemma list_erased n e : fst (list_c oc T f n e) = list_deserialize oc T n e.
  Proof.
    unfold list_c, list_deserialize. rewrite fst_dbind, fst_free. apply bind_ext. intros _.
    rewrite fst_dbind, elements_erased. reflexivity.
  Qed.

  Lemma option_erased e : fst (option_c f e) = option_deserialize T e.
  Proof.
    unfold option_c, option_deserialize. destruct e as [|b rest]; [reflexivity|].
    destruct (byte_eqb b x00); [reflexivity|]. destruct (byte_eqb b x01); [|reflexivity].
    rewrite fst_dbind, HE. reflexivity.
  Qed.
End Elements.

Lemma fields_erased enc spans fs Ts : Forall2 (fun f T => forall b, fst (f b) = deserialize T b) fs Ts ->
  forall i, fst (fields_c enc spans i fs) = deserialize_fields enc spans i Ts.
Proof.
  induction 1 as [|f T fs Ts HE _ IH]; intros i; cbn [fields_c deserialize_fields]; [reflexivity|].
  rewrite fst_dbind, fst_free. apply bind_ext. intros a.
  rewrite fst_dbind, fst_free. apply bind_ext. intros b.
  rewrite fst_dbind, fst_free. apply bind_ext. intros s.
  rewrite fst_dbind, HE. apply bind_ext. intros v.
  rewrite fst_dbind, IH. reflexivity.
Qed.

Lemma try_erased fs Ts : Forall2 (fun f T => forall b, fst (f b) = deserialize T b) fs Ts ->
  forall e, fst (try_c fs e) = try_variants Ts e.
Proof.
  induction 1 as [|f T fs Ts HE HF IH]; intros e; cbn [try_c try_variants]; [reflexivity|].
  rewrite <- HE. destruct (f e) as [[v|x|p] n]; cbn [fst]; auto.
  do 2 f_equal. exact (Forall2_blen _ _ _ HF).
Qed.

Lemma Forall2_rev {A B} (R : A -> B -> Prop) l r : Forall2 R l r -> Forall2 R (rev l) (rev r).
Proof. induction 1; cbn [rev]; [constructor|]. apply Forall2_app; auto. Qed.

Lemma decode_erased oc t : forall e, fst (decode_c oc t e) = ssz_deserialize oc t e.
Proof.
  unfold ssz_deserialize.
  induction t using ty_ind'; intros e; cbn [decode_c serializable]; unfold call; cbn [fst]; try reflexivity.
  - apply vector_erased. auto.
  - apply array_erased. auto.
  - apply list_erased. auto.
  - unfold container_c. cbn [container_impl deserialize]. unfold container_deserialize.
    rewrite fst_dbind, fst_free. destruct (foldM _ _ _) as [d|x|p]; cbn [bind]; try reflexivity.
    rewrite fst_dbind, fst_free. destruct (finalize oc e d) as [sp|x|p]; cbn [bind]; try reflexivity.
    rewrite fst_dbind. rewrite (fields_erased e sp _ (map (fun f => serializable oc (snd f)) fs)); [reflexivity|].
    induction H; cbn [map]; constructor; auto.
  - unfold newtype_c. rewrite fst_dbind, IHt. reflexivity.
  - apply option_erased. auto.
  - unfold union_c. cbn [union_impl deserialize]. unfold union_deserialize. destruct e as [|b rest]; [reflexivity|].
    rewrite !nth_error_map. destruct (nth_error vs (N.to_nat (byte_to_N b))) as [[u|]|] eqn:E; cbn [option_map]; try reflexivity.
    rewrite fst_dbind. apply nth_error_In in E. rewrite Forall_forall in H. specialize (H _ E). cbn [opt_holds] in H.
    rewrite H. reflexivity.
  - unfold transparent_c. cbn [transparent_impl deserialize]. unfold transparent_deserialize. destruct e as [|b rest]; [reflexivity|].
    apply try_erased. apply Forall2_rev. induction H; cbn [map]; constructor; auto.
Qed.

(** ** Bounds *)

Definition bounded (k : N) (f : decoder) : Prop := forall b, blen b < 2 ^ 63 -> snd (f b) <= k * N.max 1 (blen b).

Lemma snd_free {A B} (x : res DeserializeError A) (f : A -> dtally B) k :
  (forall a, x = Ok a -> snd (f a) <= k) -> snd (dbind (at_no_cost x) f) <= k.
Proof. intros HF. destruct x; cbn [at_no_cost dbind snd]; [rewrite N.add_0_l; auto|lia|lia]. Qed.

Lemma snd_last {A B} (x : dtally A) (f : A -> res DeserializeError B) k :
  snd x <= k -> snd (dbind x (fun a => at_no_cost (f a))) <= k.
Proof. destruct x as [[a|e|p] n]; cbn [dbind snd at_no_cost fst]; lia. Qed.

Lemma snd_then {A B} (x : dtally A) (f : A -> dtally B) k m :
  snd x <= k -> (forall a, snd (f a) <= m) -> snd (dbind x f) <= k + m.
Proof. intros HX HF. destruct x as [[a|e|p] n]; cbn [dbind snd fst] in *; [specialize (HF a)|..]; lia. Qed.

Lemma mapM_bound {A B} (f : A -> dtally B) l k : (forall a, In a l -> snd (f a) <= k) -> snd (mapM_c f l) <= k * blen l.
Proof.
  induction l as [|a l IH]; intros HF; cbn [mapM_c]; [cbn; lia|].
  rewrite blen_cons. replace (k * (blen l + 1)) with (k + k * blen l) by lia.
  apply snd_then; [apply HF; left; reflexivity|]. intros b. apply snd_last. apply IH. intros x Hx. apply HF. right. auto.
Qed.

Lemma call_bound k f : (forall b, blen b < 2 ^ 63 -> snd (f b) <= k * N.max 1 (blen b)) -> bounded (1 + k) (call f).
Proof. intros HB b Hb. unfold call. cbn [snd]. specialize (HB b Hb). lia. Qed.

Lemma bounded_le j k f : bounded j f -> j <= k -> bounded k f.
Proof. intros HB HJ b Hb. specialize (HB b Hb). nia. Qed.

(** Elements of fixed size *)

Lemma fixed_bound oc T f k e : 0 < size_hint T -> bounded k f -> blen e < 2 ^ 63 ->
  snd (fixed_elements_c oc T f e) <= k * blen e.
Proof.
  intros Hs HB He. unfold fixed_elements_c. apply snd_free. intros _ _. apply snd_free. intros cs HC.
  rewrite chunks_exact_eq in HC by auto. assert (cs = map (fun i => takeN (size_hint T) (dropN (i * size_hint T) e)) (count_to (blen e / size_hint T))) by congruence.
  clear HC. subst cs. etransitivity.
  - apply (mapM_bound f _ (k * size_hint T)). intros c Hc. apply in_map_iff in Hc as (i & <- & _).
    etransitivity; [apply HB; rewrite blen_takeN, blen_dropN; lia|].
    rewrite blen_takeN. apply N.mul_le_mono_l. lia.
  - rewrite blen_map. assert (HC : blen (count_to (blen e / size_hint T)) = blen e / size_hint T).
    { unfold count_to, blen. rewrite map_length, seq_length. lia. }
    rewrite HC. rewrite <- N.mul_assoc. apply N.mul_le_mono_l. apply N.mul_div_le. lia.
Qed.

(** Elements of variable size *)

Lemma spans_bound f k e : bounded k f -> blen e < 2 ^ 63 ->
  forall os o, o <= blen e ->
  snd (mapM_c (span_c f e) (windows2 (o :: os ++ [blen e]))) <= k * (4 * (1 + blen os) + (blen e - o)).
Proof.
  intros HB He. induction os as [|o2 os IH]; intros o Ho.
  - cbn [app windows2 mapM_c]. change (blen (@nil N)) with 0.
    replace (k * (4 * (1 + 0) + (blen e - o))) with (k * (4 + (blen e - o)) + 0) by lia.
    apply snd_then; [|intros; exact (N.le_0_l _)].
    unfold span_c. replace (blen e <? o) with false by lia. apply snd_free. intros s Hs.
    pose proof (slice_len _ _ _ _ Hs) as HL. etransitivity; [apply HB; lia|]. apply N.mul_le_mono_l. lia.
  - cbn [app]. rewrite windows2_cons. cbn [mapM_c]. unfold span_c at 1. rewrite blen_cons.
    destruct (N.ltb_spec o2 o) as [Hlt|Hge]; [exact (N.le_0_l _)|].
    destruct (@slice DeserializeError byte o o2 e) as [s|x|p] eqn:Hs; [|exact (N.le_0_l _)|exact (N.le_0_l _)].
    pose proof (slice_len _ _ _ _ Hs) as HL. apply slice_inv in Hs as (_ & H2 & _).
    specialize (IH o2 H2).
    replace (k * (4 * (1 + (blen os + 1)) + (blen e - o)))
      with (k * (4 + (o2 - o)) + k * (4 * (1 + blen os) + (blen e - o2))) by (rewrite <- N.mul_add_distr_l; f_equal; lia).
    apply snd_then.
    + cbn [at_no_cost dbind fst snd]. rewrite N.add_0_l. etransitivity; [apply HB; lia|]. apply N.mul_le_mono_l. lia.
    + intros v. apply snd_last. exact IH.
Qed.

Lemma variable_bound f k e : bounded k f -> blen e < 2 ^ 63 -> snd (variable_elements_c f e) <= k * blen e.
Proof.
  intros HB He. unfold variable_elements_c. destruct e as [|x l]; [exact (N.le_0_l _)|].
  set (e := x :: l) in *. clearbody e. clear x l.
  destruct (get_range 0 BYTES_PER_LENGTH_OFFSET e) as [first|] eqn:EF; [|exact (N.le_0_l _)].
  apply get_range_inv in EF as (_ & HL4 & ->).
  change (BYTES_PER_LENGTH_OFFSET - 0) with 4. rewrite dropN_0. change BYTES_PER_LENGTH_OFFSET with 4 in *.
  apply snd_free. intros r Er. destruct (blen e <? r) eqn:C1; [exact (N.le_0_l _)|].
  destruct (r mod 4 =? 0) eqn:C2; cbn [negb]; [|exact (N.le_0_l _)].
  apply snd_free. intros ob Eob. apply snd_free. intros cs Ecs. apply snd_free. intros os Eos.
  apply u32_deserialize_inv in Er as (Htake & Hr & _).
  apply slice_inv in Eob as (_ & _ & ->). rewrite dropN_0, N.sub_0_r in Ecs.
  apply chunks_exact_inv in Ecs as (_ & Hcs & Hcc); [|rewrite blen_takeN; lia].
  assert (Hos : cs = map (le_bytes 4) os /\ Forall (fun o => o < 2 ^ 32) os).
  { clear - Eos. apply mapM_ok_iff in Eos.
    induction Eos as [|c o cs os Hc _ [IH1 IH2]]; [split; constructor|].
    apply u32_deserialize_inv in Hc as (-> & Ho & _). split; [cbn [map]; rewrite IH1; reflexivity|constructor; auto]. }
  destruct Hos as (-> & Hos32).
  assert (Hlen : 4 * blen os = r).
  { apply (f_equal blen) in Hcc. rewrite (concat_blen _ _ Hcs), blen_map in Hcc.
    rewrite blen_takeN in Hcc. lia. }
  destruct os as [|o os]; [exact (N.le_0_l _)|].
  assert (Ho : o = r).
  { cbn [map concat] in Hcc. apply (f_equal (takeN 4)) in Hcc.
    rewrite takeN_app in Hcc by (rewrite blen_le_bytes; reflexivity).
    rewrite takeN_takeN in Hcc. rewrite blen_cons in Hlen.
    replace (N.min 4 r) with 4 in Hcc by lia. rewrite Htake in Hcc.
    inversion Hos32; subst. eapply (le_bytes_inj 4); eauto. }
  subst o. cbn [app]. etransitivity; [apply (spans_bound f k e HB He os r); lia|].
  rewrite blen_cons in Hlen. apply N.mul_le_mono_l. lia.
Qed.

Lemma elements_bound oc T f k e : (is_variable_size T = false -> 0 < size_hint T) -> bounded k f -> blen e < 2 ^ 63 ->
  snd (elements_c oc T f e) <= k * N.max 1 (blen e).
Proof.
  intros HS HB He. unfold elements_c. destruct (is_variable_size T) eqn:EV.
  - pose proof (variable_bound f k e HB He). nia.
  - pose proof (fixed_bound oc T f k e (HS eq_refl) HB He). nia.
Qed.

(** Fields. [probe] returns what it is given, which tells the bytes of each field. *)

Definition probe (T : Serializable) : Serializable :=
  {| is_variable_size := is_variable_size T; size_hint := size_hint T; serialize := serialize T;
     deserialize := fun b => Ok (VNode b) |}.

Lemma parse_probe oc e Ts : forall d, foldM (parse oc e) d (map probe Ts) = foldM (parse oc e) d Ts.
Proof. induction Ts as [|T Ts IH]; intros d; cbn [map foldM]; [reflexivity|]. change (parse oc e d (probe T)) with (parse oc e d T). apply bind_ext. auto. Qed.

Lemma fields_bound enc spans k fs Ts es :
  Forall2 (fun f T => bounded k f) fs Ts ->
  Forall2 (fun T (e : bool * bytes) => is_variable_size T = fst e /\ (fst e = false -> 0 < blen (snd e))) Ts es ->
  blen enc < 2 ^ 63 ->
  forall i, deserialize_fields enc spans i (map probe Ts) = Ok (map (fun e : bool * bytes => VNode (snd e)) es) ->
  snd (fields_c enc spans i fs) <= k * (total (fixed_lengths es) + total (variable_lengths es)).
Proof.
  intros HB HF HL. revert es HF. induction HB as [|f T fs Ts HK HB IH]; intros es HF i HD; cbn [fields_c]; [cbn; lia|].
  inversion HF as [|? [v b] ? es' [HV Hb] HF']; subst. cbn [fst snd] in *.
  cbn [map deserialize_fields] in HD. cbn [snd] in HD.
  destruct (index (2 * i) spans) as [a|x|p]; cbn [bind] in HD; try discriminate.
  destruct (index (2 * i + 1) spans) as [z|x|p]; cbn [bind] in HD; try discriminate.
  destruct (slice a z enc) as [s|x|p] eqn:ES; cbn [bind] in HD; try discriminate.
  cbn [probe deserialize bind] in HD.
  destruct (deserialize_fields enc spans (i + 1) (map probe Ts)) as [vs|x|p] eqn:ED; cbn [bind] in HD; try discriminate.
  assert (s = b) by congruence. subst s.
  assert (vs = map (fun e : bool * bytes => VNode (snd e)) es') by congruence. subst vs. clear HD.
  specialize (IH es' HF' (i + 1) ED).
  apply snd_free. intros a' Ha. assert (a' = a) by congruence. subst a'.
  apply snd_free. intros z' Hz. assert (z' = z) by congruence. subst z'.
  apply snd_free. intros s Hs. assert (s = b) by congruence. subst s.
  assert (Hc : N.max 1 (blen b) + (total (fixed_lengths es') + total (variable_lengths es')) <=
               total (fixed_lengths ((v, b) :: es')) + total (variable_lengths ((v, b) :: es'))).
  { rewrite fixed_lengths_cons, variable_lengths_cons, !total_cons. cbn [fst snd]. destruct v; [lia|]. specialize (Hb eq_refl). lia. }
  etransitivity; [|apply N.mul_le_mono_l; exact Hc]. rewrite N.mul_add_distr_l. apply snd_then.
  - apply HK. rewrite (slice_len _ _ _ _ ES). apply slice_inv in ES. lia.
  - intros w. apply snd_last. exact IH.
Qed.

Lemma mapM_probe Ts es : length Ts = length es ->
  mapM (fun Tb => deserialize (fst Tb) (snd Tb)) (combine (map probe Ts) (map snd es)) =
  Ok (map (fun e : bool * bytes => VNode (snd e)) es).
Proof.
  revert es. induction Ts as [|T Ts IH]; intros [|e es] HL; try discriminate HL; [reflexivity|].
  cbn [map combine mapM fst snd probe deserialize bind]. rewrite IH by (cbn in HL; lia). reflexivity.
Qed.

Lemma container_bound oc Ts fs k e :
  Forall2 (fun f T => bounded k f) fs Ts ->
  Forall (fun T => is_variable_size T = false -> 0 < size_hint T <= 2 ^ 63) Ts ->
  blen e < 2 ^ 63 -> snd (container_c oc Ts fs e) <= k * N.max 1 (blen e).
Proof.
  intros HB HS He. unfold container_c. apply snd_free. intros d HP. apply snd_free. intros spans HF. apply snd_last.
  rewrite <- parse_probe in HP.
  assert (HS' : Forall (fun T => is_variable_size T = false -> size_hint T <= 2 ^ 63) (map probe Ts)).
  { apply Forall_map. eapply Forall_impl; [|exact HS]. cbn [probe is_variable_size size_hint]. intros T HT HV. apply HT in HV. apply HV. }
  destruct (container_stages oc (map probe Ts) e d spans He HS' HP HF) as (es & H1 & H2 & _ & H4).
  unfold container_deserialize in H4. rewrite HP in H4. cbn [bind] in H4. rewrite HF in H4. cbn [bind] in H4.
  assert (HL : length Ts = length es) by (rewrite <- (Forall2_length _ _ _ H1), map_length; reflexivity).
  rewrite mapM_probe in H4 by auto.
  assert (H5 : Forall2 (fun T (e : bool * bytes) => is_variable_size T = fst e /\ (fst e = false -> 0 < blen (snd e))) Ts es).
  { clear - H1 HS. revert es H1. induction HS as [|T Ts HT _ IH]; intros es H1; inversion H1; subst; constructor; auto.
    destruct H2 as [G1 G2]. cbn [probe is_variable_size size_hint] in *. split; [auto|]. intros G. rewrite G2 by auto. apply HT. congruence. }
  etransitivity; [apply (fields_bound e spans k fs Ts es HB H5 He 0 H4)|].
  rewrite <- compose_size_eq, <- clayout_blen, <- H2. apply N.mul_le_mono_l. lia.
Qed.

Lemma try_bound e fs ks : Forall2 (fun (f : decoder) k => snd (f e) <= k) fs ks -> snd (try_c fs e) <= total ks.
Proof.
  induction 1 as [|f k fs ks HK _ IH]; cbn [try_c]; [exact (N.le_0_l _)|]. rewrite total_cons.
  destruct (f e) as [[v|x|p] n]; cbn [snd fst] in *; lia.
Qed.

Lemma total_rev l : total (rev l) = total l.
Proof. induction l as [|n l IH]; [reflexivity|]. cbn [rev]. rewrite total_app, IH, !total_cons. cbn. lia. Qed.

Lemma total_mul k l : total (map (fun n => n * k) l) = total l * k.
Proof. induction l as [|n l IH]; [reflexivity|]. cbn [map]. rewrite !total_cons, IH. lia. Qed.

Lemma max_in {A} (f : A -> N) l x : In x l -> f x <= fold_right N.max 0 (map f l).
Proof. induction l as [|a l IH]; [contradiction|]. intros [<-|HI]; cbn [map fold_right]; [lia|]. specialize (IH HI). lia. Qed.

Lemma decode_bound oc t : legal t = true -> bounded (effort t) (decode_c oc t).
Proof.
  assert (HS : forall u, legal u = true -> is_variable_size (serializable oc u) = false -> 0 < size_hint (serializable oc u) <= 2 ^ 63).
  { intros u HL HV. rewrite is_variable_size_spec in HV. rewrite size_hint_spec. apply (legal_fixed_size u HL HV). }
  induction t using ty_ind'; intros HL; cbn [decode_c effort].
  1-4,8-9: apply (call_bound 0); intros b _; exact (N.le_0_l _).
  - cbn [legal] in HL. apply andb_true_iff in HL as [_ HL]. apply call_bound. intros b Hb. unfold vector_c.
    destruct (n =? 0); [exact (N.le_0_l _)|]. apply snd_free. intros _ _. apply snd_last.
    apply elements_bound; auto. intros HV. apply HS; auto.
  - cbn [legal] in HL. apply andb_true_iff in HL as [_ HL]. apply call_bound. intros b Hb. unfold array_c.
    destruct (n =? 0); [exact (N.le_0_l _)|]. apply snd_free. intros _ _. apply snd_last.
    apply elements_bound; auto. intros HV. apply HS; auto.
  - cbn [legal] in HL. apply andb_true_iff in HL as [_ HL]. apply call_bound. intros b Hb. unfold list_c.
    apply snd_free. intros _ _. apply snd_last.
    apply elements_bound; auto. intros HV. apply HS; auto.
  - cbn [legal] in HL. apply andb_true_iff in HL as [_ HL]. rewrite forallb_forall in HL. rewrite Forall_forall in H.
    apply call_bound. intros b Hb. apply container_bound; auto.
    + assert (HF : forall f, In f fs -> bounded (fold_right N.max 0 (map (fun f => effort (snd f)) fs)) (decode_c oc (snd f))).
      { intros f Hf. eapply bounded_le; [apply H; auto|]. apply (max_in (fun f => effort (snd f))). auto. }
      revert HF. generalize (fold_right N.max 0 (map (fun f => effort (snd f)) fs)) as k. intros k HF.
      clear - HF. induction fs as [|f fs IH]; cbn [map]; constructor; [apply HF; left; reflexivity|].
      apply IH. intros g Hg. apply HF. right. auto.
    + apply Forall_map. apply Forall_forall. intros f Hf. apply HS. auto.
  - cbn [legal] in HL. apply call_bound. intros b Hb. unfold newtype_c. apply snd_last. apply IHt; auto.
  - cbn [legal] in HL. apply call_bound. intros b Hb. unfold option_c. destruct b as [|x rest]; [exact (N.le_0_l _)|].
    destruct (byte_eqb x x00); [exact (N.le_0_l _)|]. destruct (byte_eqb x x01); [|exact (N.le_0_l _)].
    apply snd_last. rewrite blen_cons in *. etransitivity; [apply IHt; auto; lia|]. apply N.mul_le_mono_l. lia.
  - cbn [legal] in HL. apply andb_true_iff in HL as [_ HL]. rewrite forallb_forall in HL. rewrite Forall_forall in H.
    apply call_bound. intros b Hb. unfold union_c. destruct b as [|x rest]; [exact (N.le_0_l _)|].
    rewrite nth_error_map. destruct (nth_error vs (N.to_nat (byte_to_N x))) as [[u|]|] eqn:E; cbn [option_map]; try exact (N.le_0_l _).
    apply nth_error_In in E. apply snd_last. rewrite blen_cons in *.
    etransitivity; [apply (H _ E (HL _ E)); lia|].
    pose proof (max_in (fun o => match o with Some u => effort u | None => 0 end) vs _ E) as HM. cbv beta iota in HM.
    apply N.mul_le_mono; [exact HM|lia].
  - cbn [legal] in HL. apply andb_true_iff in HL as [_ HL]. rewrite forallb_forall in HL. rewrite Forall_forall in H.
    apply call_bound. intros b Hb. unfold transparent_c. destruct b as [|x rest]; [exact (N.le_0_l _)|].
    set (b := x :: rest) in *. clearbody b. rewrite <- total_mul, <- total_rev. apply try_bound. apply Forall2_rev.
    rewrite map_map. assert (HF : forall t, In t ts -> snd (decode_c oc t b) <= effort t * N.max 1 (blen b)) by (intros t Ht; apply H; auto).
    clear - HF. induction ts as [|t ts IH]; cbn [map]; constructor; [apply HF; left; reflexivity|].
    apply IH. intros g Hg. apply HF. right. auto.
Qed.

(** ** The factor *)

Lemma effort_height t : no_transparent t = true -> effort t = height t.
Proof.
  induction t using ty_ind'; cbn [no_transparent effort height]; intros HN; try reflexivity; try (f_equal; auto; fail).
  - do 2 f_equal. apply map_ext_in. intros f Hf. rewrite forallb_forall in HN. rewrite Forall_forall in H. auto.
  - do 2 f_equal. apply map_ext_in. intros [u|] Hu; [|reflexivity]. rewrite forallb_forall in HN. rewrite Forall_forall in H.
    apply (H _ Hu (HN _ Hu)).
  - discriminate.
Qed.

Lemma twofold_legal d : legal (twofold d) = true.
Proof. induction d as [|d IH]; [reflexivity|]. cbn [twofold legal forallb]. rewrite IH. reflexivity. Qed.

Lemma twofold_err oc d : exists e, ssz_deserialize oc (twofold d) [x02] = Err e.
Proof.
  unfold ssz_deserialize. induction d as [|d [e IH]]; [eexists; reflexivity|].
  cbn [twofold serializable transparent_impl deserialize map]. unfold transparent_deserialize.
  cbn [rev app try_variants]. rewrite IH. eexists. reflexivity.
Qed.

Lemma twofold_work oc d : snd (decode_c oc (twofold d) [x02]) = 2 ^ (N.of_nat d + 1) - 1.
Proof.
  induction d as [|d IH]; [reflexivity|].
  cbn [twofold decode_c map]. unfold call, transparent_c. cbn [rev app snd]. cbn [try_c].
  destruct (twofold_err oc d) as [e HE]. rewrite <- decode_erased in HE.
  destruct (decode_c oc (twofold d) [x02]) as [r n]. cbn [fst snd] in *. subst r. cbn [fst snd at_no_cost]. rewrite IH.
  replace (N.of_nat (S d) + 1) with (N.succ (N.of_nat d + 1)) by lia. rewrite N.pow_succ_r'.
  pose proof (N.pow_nonzero 2 (N.of_nat d + 1) ltac:(lia)). change (N.max 1 (blen [x02])) with 1. lia.
Qed.

Lemma twofold_height d : height (twofold d) = N.of_nat d + 1.
Proof. induction d as [|d IH]; [reflexivity|]. cbn [twofold height map fold_right]. rewrite IH. lia. Qed.

Lemma twofold_effort d : effort (twofold d) = 2 ^ (N.of_nat d + 1) - 1.
Proof.
  induction d as [|d IH]; [reflexivity|]. cbn [twofold effort map]. rewrite !total_cons, IH. cbn [total fold_right].
  replace (N.of_nat (S d) + 1) with (N.succ (N.of_nat d + 1)) by lia. rewrite N.pow_succ_r'.
  pose proof (N.pow_nonzero 2 (N.of_nat d + 1) ltac:(lia)). lia.
Qed.
