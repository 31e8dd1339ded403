(** The work of decoding from the value that is decoded. *)
From Coq Require Import String List NArith ZArith Bool Lia ZifyBool ZifyNat ZifyN.
From Coq Require Import Strings.Byte.
From Verif Require Import Prelude Types Valid SpecSer Bitvec Ser De Impls Lib SerProof DeProof ConProof RoundTrip DecValid ReadProof AlikeProof
  SpecSize SizeProof SpecEffort DeCost SpecDecode DeCostProof.
Import ListNotations.
Open Scope N_scope.
Ltac Zify.zify_post_hook ::= Z.div_mod_to_equations.

(** ** Successful steps *)

Lemma dbind_ok {A B} (x : dtally A) (f : A -> dtally B) b : fst (dbind x f) = Ok b ->
  exists a, fst x = Ok a /\ fst (f a) = Ok b /\ snd (dbind x f) = snd x + snd (f a).
Proof. destruct x as [[a|e|p] n]; cbn [dbind fst snd]; intros HF; try discriminate. exists a. auto. Qed.

Lemma dbind_free_ok {A B} (x : res DeserializeError A) (f : A -> dtally B) b : fst (dbind (at_no_cost x) f) = Ok b ->
  exists a, x = Ok a /\ fst (f a) = Ok b /\ snd (dbind (at_no_cost x) f) = snd (f a).
Proof. intros HF. apply dbind_ok in HF as (a & HX & HF & HS). exists a. cbn [at_no_cost fst snd] in *. rewrite HS, N.add_0_l. auto. Qed.

Lemma dbind_last_ok {A B} (x : dtally A) (f : A -> res DeserializeError B) b :
  fst (dbind x (fun a => at_no_cost (f a))) = Ok b ->
  exists a, fst x = Ok a /\ f a = Ok b /\ snd (dbind x (fun a => at_no_cost (f a))) = snd x.
Proof. intros HF. apply dbind_ok in HF as (a & HX & HF & HS). exists a. cbn [at_no_cost fst snd] in *. rewrite HS, N.add_0_r. auto. Qed.

Lemma mapM_c_ok {A B} (g : A -> dtally B) l : forall r, fst (mapM_c g l) = Ok r ->
  Forall2 (fun a b => fst (g a) = Ok b) l r /\ snd (mapM_c g l) = total (map (fun a => snd (g a)) l).
Proof.
  induction l as [|a l IH]; intros r HR; cbn [mapM_c] in *.
  - cbn in HR. assert (r = []) by congruence. subst. split; [constructor|reflexivity].
  - apply dbind_ok in HR as (b & H1 & HR & HS). rewrite HS. apply dbind_last_ok in HR as (bs & H2 & HR & HS2). rewrite HS2.
    destruct (IH bs H2) as [I1 I2]. assert (r = b :: bs) by congruence. subst r. split; [constructor; auto|].
    cbn [map]. rewrite total_cons, I2. reflexivity.
Qed.

(** ** The pieces of the elements *)

Definition pieces (f : decoder) (k : N) (e : bytes) (l : list val) (work : N) : Prop :=
  exists ps : list bytes, Forall2 (fun p v => fst (f p) = Ok v) ps l /\
    work = total (map (fun p => snd (f p)) ps) /\ k * blen ps + total (map (fun p : bytes => blen p) ps) <= blen e /\
    Forall (fun p : bytes => blen p <= blen e) ps.

Lemma fixed_pieces oc T f e l : 0 < size_hint T -> fst (fixed_elements_c oc T f e) = Ok l ->
  pieces f 0 e l (snd (fixed_elements_c oc T f e)).
Proof.
  intros Hs HF. unfold fixed_elements_c in *.
  apply dbind_free_ok in HF as (u & _ & HF & ->). apply dbind_free_ok in HF as (cs & HC & HF & ->).
  apply mapM_c_ok in HF as [HF HS]. exists cs. split; [exact HF|]. split; [exact HS|].
  rewrite chunks_exact_eq in HC by auto.
  assert (cs = map (fun i => takeN (size_hint T) (dropN (i * size_hint T) e)) (count_to (blen e / size_hint T))) by congruence.
  clear HC. assert (HT : Forall (fun p : bytes => blen p <= size_hint T) cs).
  { subst cs. apply Forall_map. apply Forall_forall. intros i _. rewrite blen_takeN. lia. }
  assert (HN : blen cs = blen e / size_hint T).
  { subst cs. rewrite blen_map. unfold count_to, blen. rewrite map_length, seq_length. lia. }
  split.
  - assert (HX : total (map (fun p : bytes => blen p) cs) <= size_hint T * blen cs).
    { clear - HT. induction HT as [|p cs HP _ IH]; [cbn; lia|]. cbn [map]. rewrite total_cons, blen_cons. lia. }
    rewrite HN in HX. pose proof (N.mul_div_le (blen e) (size_hint T) ltac:(lia)). lia.
  - subst cs. apply Forall_map. apply Forall_forall. intros i _. rewrite blen_takeN, blen_dropN. lia.
Qed.

Lemma span_pieces f e : forall os o l, o <= blen e ->
  fst (mapM_c (span_c f e) (windows2 (o :: os ++ [blen e]))) = Ok l ->
  exists ps : list bytes, Forall2 (fun p v => fst (f p) = Ok v) ps l /\
    snd (mapM_c (span_c f e) (windows2 (o :: os ++ [blen e]))) = total (map (fun p => snd (f p)) ps) /\
    blen ps = 1 + blen os /\ o + total (map (fun p : bytes => blen p) ps) <= blen e /\
    Forall (fun p : bytes => blen p <= blen e) ps.
Proof.
  assert (HP : forall s x v, fst (span_c f e (s, x)) = Ok v -> exists p, fst (f p) = Ok v /\ snd (span_c f e (s, x)) = snd (f p) /\
            s <= x /\ x <= blen e /\ blen p = x - s).
  { intros s x v HF. unfold span_c in *. destruct (N.ltb_spec x s) as [|G]; [discriminate|].
    apply dbind_free_ok in HF as (p & HP & HF & ->). exists p. pose proof (slice_len _ _ _ _ HP). apply slice_inv in HP.
    repeat split; auto; tauto. }
  induction os as [|o2 os IH]; intros o l Ho HF.
  - cbn [app windows2 mapM_c] in *. apply dbind_ok in HF as (v & HV & HF & ->). apply HP in HV as (p & H1 & H2 & H3 & H4 & H5).
    cbn in HF. assert (l = [v]) by congruence. subst l. exists [p]. split; [repeat constructor; auto|].
    split; [cbn [map]; rewrite total_cons, H2; reflexivity|]. split; [reflexivity|].
    split; [cbn [map]; rewrite total_cons; cbn [total fold_right]; lia|]. repeat constructor. lia.
  - cbn [app] in *. rewrite windows2_cons in *. cbn [mapM_c] in *.
    apply dbind_ok in HF as (v & HV & HF & ->). apply HP in HV as (p & H1 & H2 & H3 & H4 & H5).
    apply dbind_last_ok in HF as (vs & HVS & HF & ->). assert (l = v :: vs) by congruence. subst l.
    destruct (IH o2 vs H4 HVS) as (ps & I1 & I2 & I3 & I4 & I5). exists (p :: ps).
    split; [constructor; auto|]. split; [cbn [map]; rewrite total_cons, H2, I2; reflexivity|].
    split; [rewrite !blen_cons; lia|]. split; [cbn [map]; rewrite total_cons; lia|]. constructor; [lia|auto].
Qed.

Lemma variable_pieces f e l : blen e < 2 ^ 63 -> fst (variable_elements_c f e) = Ok l ->
  pieces f 4 e l (snd (variable_elements_c f e)).
Proof.
  intros He HF. unfold variable_elements_c in *. destruct e as [|x r].
  { cbn in HF. assert (l = []) by congruence. subst. exists []. split; [constructor|]. split; [reflexivity|]. split; [reflexivity|constructor]. }
  set (e := x :: r) in *. clearbody e. clear x r.
  destruct (get_range 0 BYTES_PER_LENGTH_OFFSET e) as [first|] eqn:EF; [|discriminate].
  apply get_range_inv in EF as (_ & HL4 & ->).
  change (BYTES_PER_LENGTH_OFFSET - 0) with 4 in *. rewrite dropN_0 in *. change BYTES_PER_LENGTH_OFFSET with 4 in *.
  apply dbind_free_ok in HF as (r & Er & HF & ->). destruct (blen e <? r) eqn:C1; [discriminate|].
  destruct (r mod 4 =? 0) eqn:C2; cbn [negb] in *; [|discriminate].
  apply dbind_free_ok in HF as (ob & Eob & HF & ->). apply dbind_free_ok in HF as (cs & Ecs & HF & ->).
  apply dbind_free_ok in HF as (os & Eos & HF & ->).
  apply u32_deserialize_inv in Er as (Htake & Hr & _).
  apply slice_inv in Eob as (_ & _ & ->). rewrite dropN_0, N.sub_0_r in Ecs.
  apply chunks_exact_inv in Ecs as (_ & Hcs & Hcc); [|rewrite blen_takeN; lia].
  assert (Hos : cs = map (le_bytes 4) os /\ Forall (fun o => o < 2 ^ 32) os).
  { clear - Eos. apply mapM_ok_iff in Eos.
    induction Eos as [|c o cs os Hc _ [IH1 IH2]]; [split; constructor|].
    apply u32_deserialize_inv in Hc as (-> & Ho & _). split; [cbn [map]; rewrite IH1; reflexivity|constructor; auto]. }
  destruct Hos as (-> & Hos32).
  assert (Hlen : 4 * blen os = r).
  { apply (f_equal blen) in Hcc. rewrite (concat_blen _ _ Hcs), blen_map in Hcc.
    rewrite blen_takeN in Hcc. lia. }
  destruct os as [|o os].
  { cbn in HF. assert (l = []) by congruence. subst l. exists []. split; [constructor|]. split; [reflexivity|]. split; [exact (N.le_0_l _)|constructor]. }
  assert (Ho : o = r).
  { cbn [map concat] in Hcc. apply (f_equal (takeN 4)) in Hcc.
    rewrite takeN_app in Hcc by (rewrite blen_le_bytes; reflexivity).
    rewrite takeN_takeN in Hcc. rewrite blen_cons in Hlen.
    replace (N.min 4 r) with 4 in Hcc by lia. rewrite Htake in Hcc.
    inversion Hos32; subst. eapply (le_bytes_inj 4); eauto. }
  subst o. cbn [app] in *. apply span_pieces in HF as (ps & I1 & I2 & I3 & I4 & I5); [|lia].
  exists ps. rewrite blen_cons in Hlen. split; [exact I1|]. split; [exact I2|]. split; [lia|exact I5].
Qed.

Lemma element_pieces oc T f e l : (is_variable_size T = false -> 0 < size_hint T) -> blen e < 2 ^ 63 ->
  fst (elements_c oc T f e) = Ok l ->
  pieces f (if is_variable_size T then 4 else 0) e l (snd (elements_c oc T f e)).
Proof.
  intros HS He HF. unfold elements_c in *. destruct (is_variable_size T).
  - apply variable_pieces; auto.
  - apply fixed_pieces; auto.
Qed.

(** ** The pieces of the fields *)

Definition run_field (fp : decoder * bytes) : dtally val := fst fp (snd fp).

Lemma field_pieces enc spans fs Ts (es : list (bool * bytes)) : length fs = length Ts -> length fs = length es ->
  forall i vs, deserialize_fields enc spans i (map probe Ts) = Ok (map (fun e : bool * bytes => VNode (snd e)) es) ->
  fst (fields_c enc spans i fs) = Ok vs ->
  Forall2 (fun fp v => fst (run_field fp) = Ok v) (combine fs (map snd es)) vs /\
  snd (fields_c enc spans i fs) = total (map (fun fp => snd (run_field fp)) (combine fs (map snd es))).
Proof.
  revert Ts es. induction fs as [|f fs IH]; intros [|T Ts] [|[b p] es] HT HE i vs HD HF; try discriminate HT; try discriminate HE.
  - cbn in HF. assert (vs = []) by congruence. subst. split; [constructor|reflexivity].
  - cbn [fields_c] in *. cbn [map deserialize_fields] in HD. cbn [snd] in HD.
    apply dbind_free_ok in HF as (a & Ha & HF & ->). apply dbind_free_ok in HF as (z & Hz & HF & ->).
    apply dbind_free_ok in HF as (s & Hs & HF & ->). rewrite Ha in HD. cbn [bind] in HD. rewrite Hz in HD. cbn [bind] in HD.
    rewrite Hs in HD. cbn [bind probe deserialize] in HD.
    destruct (deserialize_fields enc spans (i + 1) (map probe Ts)) as [ws|x|q] eqn:ED; cbn [bind] in HD; try discriminate.
    assert (s = p) by congruence. subst s.
    assert (ws = map (fun e : bool * bytes => VNode (snd e)) es) by congruence. subst ws.
    apply dbind_ok in HF as (v & HV & HF & ->). apply dbind_last_ok in HF as (vs' & HVS & HF & ->).
    assert (vs = v :: vs') by congruence. subst vs.
    destruct (IH Ts es ltac:(cbn in HT; lia) ltac:(cbn in HE; lia) (i + 1) vs' ED HVS) as [I1 I2].
    cbn [map combine snd]. split; [constructor; [exact HV|exact I1]|]. rewrite total_cons, I2. reflexivity.
Qed.

Lemma container_pieces oc Ts fs e v : length fs = length Ts ->
  Forall (fun T => is_variable_size T = false -> 0 < size_hint T <= 2 ^ 63) Ts ->
  blen e < 2 ^ 63 -> fst (container_c oc Ts fs e) = Ok v ->
  exists (ps : list bytes) vs, v = VStruct vs /\ length ps = length Ts /\
    Forall2 (fun fp v => fst (run_field fp) = Ok v) (combine fs ps) vs /\
    snd (container_c oc Ts fs e) = total (map (fun fp => snd (run_field fp)) (combine fs ps)) /\
    total (map (fun Tp : Serializable * bytes => (if is_variable_size (fst Tp) then 4 else 0) + blen (snd Tp)) (combine Ts ps)) = blen e.
Proof.
  intros HL0 HS He HF. unfold container_c in *. apply dbind_free_ok in HF as (d & HP & HF & ->).
  apply dbind_free_ok in HF as (spans & HFin & HF & ->). apply dbind_last_ok in HF as (vs & HVS & HF & ->).
  rewrite <- parse_probe in HP.
  assert (HS' : Forall (fun T => is_variable_size T = false -> size_hint T <= 2 ^ 63) (map probe Ts)).
  { apply Forall_map. eapply Forall_impl; [|exact HS]. cbn [probe is_variable_size size_hint]. intros T HT HV. apply HT in HV. apply HV. }
  destruct (container_stages oc (map probe Ts) e d spans He HS' HP HFin) as (es & H1 & H2 & _ & H4).
  unfold container_deserialize in H4. rewrite HP in H4. cbn [bind] in H4. rewrite HFin in H4. cbn [bind] in H4.
  assert (HL : length Ts = length es) by (rewrite <- (Forall2_length _ _ _ H1), map_length; reflexivity).
  rewrite mapM_probe in H4 by auto.
  destruct (field_pieces e spans fs Ts es HL0 ltac:(congruence) 0 vs H4 HVS) as [I1 I2].
  exists (map snd es), vs. split; [congruence|]. split; [rewrite map_length; congruence|]. split; [exact I1|]. split; [exact I2|].
  apply (f_equal blen) in H2. rewrite clayout_blen, compose_size_eq in H2. rewrite H2. clear - H1.
  revert es H1. induction Ts as [|T Ts IH]; intros es H1; inversion H1 as [|? [b p] ? es' [G1 G2] H1']; subst; [reflexivity|].
  cbn [map combine snd fst]. rewrite fixed_lengths_cons, variable_lengths_cons, !total_cons, (IH _ H1'). cbn [fst snd probe is_variable_size] in *.
  rewrite G1. destruct b; [lia|]. change (blen (@nil byte)) with 0. lia.
Qed.

(** ** Work and size *)

(** [f] decodes values of [u] with the work of [passes]. *)
Definition works (u : ty) (f : decoder) : Prop := forall p v, blen p < 2 ^ 63 -> fst (f p) = Ok v ->
  encoded_bytes u v <= blen p /\ passes u v <= snd (f p) /\
  (no_transparent u = true -> blen p = encoded_bytes u v -> snd (f p) = passes u v).

Lemma works_pieces u f ps : works u f -> Forall (fun p : bytes => blen p < 2 ^ 63) ps ->
  forall l, Forall2 (fun p v => fst (f p) = Ok v) ps l ->
  total (map (encoded_bytes u) l) <= total (map (fun p : bytes => blen p) ps) /\ blen ps = blen l /\
  total (map (passes u) l) <= total (map (fun p => snd (f p)) ps) /\
  (no_transparent u = true -> total (map (fun p : bytes => blen p) ps) = total (map (encoded_bytes u) l) ->
   total (map (fun p => snd (f p)) ps) = total (map (passes u) l)).
Proof.
  intros HW HB l HF. revert HB. induction HF as [|p v ps l HP _ IH]; intros HB.
  - repeat split; try exact (N.le_0_l _); reflexivity.
  - inversion HB as [|? ? B1 B2]; subst. specialize (IH B2). destruct IH as (I1 & I2 & I3 & I4). destruct (HW p v B1 HP) as (W1 & W2 & W3).
    cbn [map]. rewrite !total_cons, !blen_cons. split; [lia|]. split; [lia|]. split; [lia|]. intros HN HE.
    rewrite I4, W3; auto; lia.
Qed.

Lemma total_shift {A} (f : A -> N) k l : total (map (fun x => k + f x) l) = k * blen l + total (map f l).
Proof. induction l as [|x l IH]; [cbn; lia|]. cbn [map]. rewrite !total_cons, IH, blen_cons. lia. Qed.

Lemma works_seq u f k e l work : works u f -> k = (if spec_variable u then 4 else 0) -> blen e < 2 ^ 63 -> pieces f k e l work ->
  total (map (passes u) l) <= work /\
  (no_transparent u = true -> blen e = total (map (fun x => k + encoded_bytes u x) l) -> work = total (map (passes u) l)).
Proof.
  intros HW HK He (ps & HF & -> & HB & HL).
  assert (HL' : Forall (fun p : bytes => blen p < 2 ^ 63) ps) by (eapply Forall_impl; [|exact HL]; intros p Hp; cbv beta in Hp; lia).
  destruct (works_pieces u f ps HW HL' l HF) as (I1 & I2 & I3 & I4). split; [exact I3|]. intros HN HE.
  apply I4; auto. rewrite total_shift in HE. rewrite <- I2 in HE. lia.
Qed.

Lemma works_fields ts fs (ps : list bytes) vs : Forall2 works ts fs -> length ps = length ts -> Forall (fun p : bytes => blen p < 2 ^ 63) ps ->
  Forall2 (fun fp v => fst (run_field fp) = Ok v) (combine fs ps) vs ->
  let room := total (map (fun tp : ty * bytes => (if spec_variable (fst tp) then 4 else 0) + blen (snd tp)) (combine ts ps)) in
  let need := total (map (fun fx : (val -> N) * val => fst fx (snd fx))
        (combine (map (fun t x => (if spec_variable t then 4 else 0) + encoded_bytes t x) ts) vs)) in
  let work := total (map (fun fp => snd (run_field fp)) (combine fs ps)) in
  let least := total (map (fun fx : (val -> N) * val => fst fx (snd fx)) (combine (map passes ts) vs)) in
  need <= room /\ least <= work /\ (forallb no_transparent ts = true -> room = need -> work = least).
Proof.
  intros HW. revert ps vs. induction HW as [|t f ts fs HT HW IH]; intros [|p ps] vs HL HB HF room need work least; try discriminate HL.
  - repeat split; try exact (N.le_0_l _); reflexivity.
  - inversion HB as [|? ? B1 B2]; subst. cbn [combine] in HF. inversion HF as [|? v ? vs' HV HF']; subst.
    unfold run_field in HV. cbn [fst snd] in HV. destruct (HT p v B1 HV) as (W1 & W2 & W3).
    destruct (IH ps vs' ltac:(cbn in HL; lia) B2 HF') as (I1 & I2 & I3).
    unfold room, need, work, least. cbn [map combine fst snd]. rewrite !total_cons. unfold run_field at 1 3. cbn [fst snd].
    split; [lia|]. split; [lia|]. cbn [forallb]. rewrite andb_true_iff. intros [N1 N2] HE. rewrite I3, W3; auto; lia.
Qed.

Lemma try_works ts fs e v : blen e < 2 ^ 63 -> Forall2 works ts fs -> fst (try_c fs e) = Ok v ->
  exists t x, nth_error (rev ts) (N.to_nat match v with VVariant i _ => i | _ => 0 end) = Some t /\
    v = VVariant match v with VVariant i _ => i | _ => 0 end x /\
    passes t x <= snd (try_c fs e).
Proof.
  intros He HW. induction HW as [|t f ts fs HT HW IH]; intros HF; cbn [try_c] in *; [discriminate|].
  destruct (f e) as [[x|y|q] n] eqn:EF; cbn [fst snd] in *; [| |discriminate].
  - assert (v = VVariant (blen fs) x) by congruence. subst v. exists t, x. split; [|split; [reflexivity|]].
    + cbn [rev]. unfold blen. rewrite Nnat.Nat2N.id, <- (Forall2_length _ _ _ HW), nth_error_app2; rewrite rev_length; [|lia].
      rewrite PeanoNat.Nat.sub_diag. reflexivity.
    + specialize (HT e x He). rewrite EF in HT. cbn [fst snd] in HT. apply HT. reflexivity.
  - destruct (IH HF) as (u & x & H1 & H2 & H3). exists u, x. split; [|split; [exact H2|lia]].
    cbn [rev]. rewrite nth_error_app1; auto. apply nth_error_Some. congruence.
Qed.

Lemma call_works oc t f : decode_c oc t = call f ->
  (forall b v, legal t = true -> blen b < 2 ^ 63 -> fst (decode_c oc t b) = Ok v -> encoded_bytes t v <= blen b) -> legal t = true ->
  (forall b v, blen b < 2 ^ 63 -> fst (f b) = Ok v -> exists k, passes t v = N.max 1 (encoded_bytes t v) + k /\ k <= snd (f b) /\
     (no_transparent t = true -> blen b = encoded_bytes t v -> snd (f b) = k)) ->
  works t (decode_c oc t).
Proof.
  intros HE HD HL HF b v Hb HV. split; [apply HD; auto|]. pose proof (HD b v HL Hb HV) as HS. rewrite HE in *. unfold call in *. cbn [fst snd] in *.
  destruct (HF b v Hb HV) as (k & -> & H1 & H2). split; [lia|]. intros HN HB. rewrite (H2 HN HB), HB. reflexivity.
Qed.

Lemma decode_works oc :
  (forall t b v, legal t = true -> blen b < 2 ^ 63 -> fst (decode_c oc t b) = Ok v -> encoded_bytes t v <= blen b) ->
  forall t, legal t = true -> works t (decode_c oc t).
Proof.
  intros HD.
  assert (HS : forall u, legal u = true -> is_variable_size (serializable oc u) = false -> 0 < size_hint (serializable oc u) <= 2 ^ 63).
  { intros u HL HV. rewrite is_variable_size_spec in HV. rewrite size_hint_spec. apply (legal_fixed_size u HL HV). }
  assert (HE : forall u b l, legal u = true -> works u (decode_c oc u) -> blen b < 2 ^ 63 ->
    fst (elements_c oc (serializable oc u) (decode_c oc u) b) = Ok l ->
    total (map (passes u) l) <= snd (elements_c oc (serializable oc u) (decode_c oc u) b) /\
    (no_transparent u = true -> blen b = total (map (fun x => (if spec_variable u then 4 else 0) + encoded_bytes u x) l) ->
     snd (elements_c oc (serializable oc u) (decode_c oc u) b) = total (map (passes u) l))).
  { intros u b l HL HW Hb HF. apply element_pieces in HF; [|intros HV; apply HS; auto|auto]. rewrite is_variable_size_spec in HF.
    eapply works_seq; eauto. }
  induction t using ty_ind'; intros HL; (eapply call_works; [cbn [decode_c]; reflexivity|intros b v; apply HD|exact HL|]).
  1-4,8-9: intros b v Hb HV; exists 0; cbn [at_no_cost fst snd] in *; split; [|split; [lia|reflexivity]]; cbn [passes]; destruct v; reflexivity.
  - cbn [legal] in HL. apply andb_true_iff in HL as [_ HL]. intros b v Hb HF. unfold vector_c in *.
    destruct (n =? 0); [discriminate|]. apply dbind_free_ok in HF as (a & _ & HF & ->). apply dbind_last_ok in HF as (l & HV & HF & ->).
    assert (v = VSeq l).
    { unfold vector_try_from in HF. destruct (n =? 0); [discriminate|]. destruct (negb (blen l =? n)); cbn in HF; congruence. }
    subst v. exists (total (map (passes t) l)). split; [reflexivity|]. exact (HE t b l HL (IHt HL) Hb HV).
  - cbn [legal] in HL. apply andb_true_iff in HL as [_ HL]. intros b v Hb HF. unfold array_c in *.
    destruct (n =? 0); [discriminate|]. apply dbind_free_ok in HF as (a & _ & HF & ->). apply dbind_last_ok in HF as (l & HV & HF & ->).
    assert (v = VSeq l) by (destruct (blen l =? n); congruence).
    subst v. exists (total (map (passes t) l)). split; [reflexivity|]. exact (HE t b l HL (IHt HL) Hb HV).
  - cbn [legal] in HL. apply andb_true_iff in HL as [_ HL]. intros b v Hb HF. unfold list_c in *.
    apply dbind_free_ok in HF as (a & _ & HF & ->). apply dbind_last_ok in HF as (l & HV & HF & ->).
    assert (v = VSeq l).
    { unfold list_try_from in HF. destruct (n <? blen l); [discriminate|]. cbn in HF. congruence. }
    subst v. exists (total (map (passes t) l)). split; [reflexivity|]. exact (HE t b l HL (IHt HL) Hb HV).
  - cbn [legal] in HL. apply andb_true_iff in HL as [_ HL]. rewrite forallb_forall in HL. rewrite Forall_forall in H.
    intros b v Hb HF. apply container_pieces in HF as (ps & vs & -> & HPL & H1 & H2 & H3); [|rewrite !map_length; reflexivity| |auto].
    2: { apply Forall_map. apply Forall_forall. intros f Hf. apply HS. auto. }
    rewrite map_length in HPL. rewrite H2.
    assert (HW : Forall2 works (map snd fs) (map (fun f => decode_c oc (snd f)) fs)).
    { clear - H HL. induction fs as [|f fs IH]; cbn [map]; constructor; [apply H; [left; reflexivity|apply HL; left; reflexivity]|].
      apply IH; [intros g Hg; apply H; right; auto|intros g Hg; apply HL; right; auto]. }
    assert (H4 : total (map (fun tp : ty * bytes => (if spec_variable (fst tp) then 4 else 0) + blen (snd tp)) (combine (map snd fs) ps)) = blen b).
    { rewrite <- H3. clear. revert ps. induction fs as [|f fs IH]; intros [|p ps]; try reflexivity. cbn [map combine fst snd].
      rewrite !total_cons, IH, is_variable_size_spec. reflexivity. }
    assert (HB : Forall (fun p : bytes => blen p < 2 ^ 63) ps).
    { rewrite <- H4 in Hb. clear - Hb HPL. revert ps HPL Hb. induction fs as [|f fs IH]; intros [|p ps] HPL Hb; try discriminate HPL; constructor.
      - cbn [map combine] in Hb. rewrite total_cons in Hb. cbn [fst snd] in Hb. lia.
      - apply IH; [cbn in HPL; lia|]. cbn [map combine] in Hb. rewrite total_cons in Hb. lia. }
    destruct (works_fields (map snd fs) _ ps vs HW ltac:(rewrite map_length; auto) HB H1) as (_ & I2 & I3).
    rewrite !map_map in I2. rewrite H4, (map_map snd passes), (map_map snd (fun t x => _ + encoded_bytes t x)) in I3.
    exists (total (map (fun fx : (val -> N) * val => fst fx (snd fx)) (combine (map (fun f => passes (snd f)) fs) vs))).
    split; [reflexivity|]. split; [exact I2|]. intros HN HEQ. apply I3; [|exact HEQ].
    cbn [no_transparent] in HN. rewrite forallb_forall in *. intros u Hu. apply in_map_iff in Hu as (f & <- & Hf). auto.
  - cbn [legal] in HL. intros b v Hb HF. unfold newtype_c in *. apply dbind_last_ok in HF as (x & HV & HF & ->).
    assert (v = VNewtype x) by congruence. subst v. destruct (IHt HL b x Hb HV) as (_ & W2 & W3).
    exists (passes t x). split; [reflexivity|]. split; [exact W2|exact W3].
  - cbn [legal] in HL. intros b v Hb HF. unfold option_c in *. destruct b as [|x rest]; [discriminate|].
    destruct (byte_eqb x x00).
    { exists 0. cbn [at_no_cost fst snd] in *. destruct (negb _); [discriminate|]. assert (v = VNone) by congruence. subst v.
      split; [reflexivity|]. split; [lia|reflexivity]. }
    destruct (byte_eqb x x01); [|discriminate]. apply dbind_last_ok in HF as (w & HV & HF & ->).
    assert (v = VSome w) by congruence. subst v. rewrite blen_cons in Hb. destruct (IHt HL rest w ltac:(lia) HV) as (_ & W2 & W3).
    exists (passes t w). split; [reflexivity|]. split; [exact W2|]. intros HN HB. apply W3; [exact HN|].
    rewrite blen_cons in HB. cbn [encoded_bytes] in HB. lia.
  - cbn [legal] in HL. apply andb_true_iff in HL as [_ HL]. rewrite forallb_forall in HL. rewrite Forall_forall in H.
    intros b v Hb HF. unfold union_c in *. destruct b as [|x rest]; [discriminate|].
    rewrite nth_error_map in *. destruct (nth_error vs (N.to_nat (byte_to_N x))) as [[u|]|] eqn:E; cbn [option_map] in *; [| |discriminate].
    + apply dbind_last_ok in HF as (w & HV & HF & ->). assert (v = VVariant (byte_to_N x) w) by congruence. subst v.
      rewrite blen_cons in Hb. pose proof (nth_error_In _ _ E) as HI. destruct (H _ HI (HL _ HI) rest w ltac:(lia) HV) as (_ & W2 & W3).
      exists (passes u w). split; [cbn [passes]; rewrite nth_error_map, E; reflexivity|]. split; [exact W2|].
      intros HN HB. cbn [no_transparent] in HN. rewrite forallb_forall in HN. apply W3; [exact (HN _ HI)|].
      rewrite blen_cons in HB. cbn [encoded_bytes] in HB. rewrite nth_error_map, E in HB. cbn [option_map] in HB. lia.
    + exists 0. cbn [at_no_cost fst snd] in *. destruct (negb _); [discriminate|]. assert (v = VNone) by congruence. subst v.
      split; [reflexivity|]. split; [lia|reflexivity].
  - cbn [legal] in HL. apply andb_true_iff in HL as [_ HL]. rewrite forallb_forall in HL. rewrite Forall_forall in H.
    intros b v Hb HF. unfold transparent_c in *. destruct b as [|x rest]; [discriminate|].
    set (b := x :: rest) in *. clearbody b.
    assert (HW : Forall2 works ts (map (decode_c oc) ts)).
    { clear - H HL. induction ts as [|t ts IH]; cbn [map]; constructor; [apply H; [left; reflexivity|apply HL; left; reflexivity]|].
      apply IH; [intros g Hg; apply H; right; auto|intros g Hg; apply HL; right; auto]. }
    apply Forall2_rev in HW. destruct (try_works _ _ _ _ Hb HW HF) as (u & w & H1 & H2 & H3). rewrite rev_involutive in H1.
    destruct v; try discriminate H2. exists (passes u w). split; [|split; [exact H3|discriminate]].
    assert (v = w) by congruence. subst. cbn [passes]. rewrite nth_error_map, H1. reflexivity.
Qed.
