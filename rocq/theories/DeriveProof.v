(** The derive macro accepts exactly the declarations of SpecDerive.v. *)
From Coq Require Import String.
From Coq Require Import List NArith ZArith Bool Lia ZifyBool ZifyNat ZifyN.
From Verif Require Import Prelude Types Derive SpecDerive SpecSer Valid Lib.
Import ListNotations.
Open Scope N_scope.

Lemma is_ssz_attr_spec a : is_ssz_attr a = true <-> names_ssz a.
Proof.
  unfold is_ssz_attr, names_ssz. destruct (attr_path a) as [|i r].
  - split; [discriminate|intros [? [=]]].
  - unfold SSZ_HELPER_ATTRIBUTE. destruct (String.eqb_spec i "ssz") as [->|E].
    + split; eauto.
    + split; [discriminate|intros [? [=]]; congruence].
Qed.

Lemma filter_ssz_nil l : filter_ssz_attrs l = [] <-> no_ssz l.
Proof.
  unfold filter_ssz_attrs, no_ssz. induction l as [|a l IH]; cbn [filter].
  - split; [intros _ a []|reflexivity].
  - destruct (is_ssz_attr a) eqn:E.
    + split; [discriminate|]. intros HN. exfalso. apply (HN a (or_introl eq_refl)). apply is_ssz_attr_spec, E.
    + rewrite IH. split.
      * intros HN b [<-|HI]; [|auto]. rewrite <- is_ssz_attr_spec. congruence.
      * intros HN b HI. apply HN. now right.
Qed.

Lemma validate_no_attrs_ok l : validate_no_attrs l = Ok tt <-> plain_fields l.
Proof.
  unfold validate_no_attrs, plain_fields. induction l as [|f l IH]; cbn [flat_map].
  - split; [intros _ f []|reflexivity].
  - destruct (filter_ssz_attrs (field_attrs f)) eqn:E; cbn [app].
    + rewrite IH. apply filter_ssz_nil in E. split.
      * intros HN g [<-|HI]; auto.
      * intros HN g HI. apply HN. now right.
    + split; [discriminate|]. intros HN. specialize (HN f (or_introl eq_refl)). apply filter_ssz_nil in HN. congruence.
Qed.

Lemma validate_no_attrs_unit l r : validate_no_attrs l = Ok r -> r = tt.
Proof. destruct r; reflexivity. Qed.

(** Variants after the first one, or all of them when there is no [None]. *)
Lemma validate_payloads tr count vs : forall i nf ahn, (i = 0 \/ nf = true \/ ahn = true) ->
  (i = 0 -> match vs with [] => True | v :: _ => variant_fields v <> Unit end) ->
  validate_variants tr count i nf ahn vs = Ok tt <-> exists ts, Forall2 payload vs ts.
Proof.
  induction vs as [|v vs IH]; intros i nf ahn HS H0; cbn [validate_variants].
  - split; [exists []; constructor|reflexivity].
  - assert (HP : forall t ts, Forall2 payload (v :: vs) (t :: ts) -> payload v t /\ Forall2 payload vs ts)
      by (intros t ts HF; inversion HF; auto).
    destruct (filter_ssz_attrs (variant_attrs v)) as [|a l] eqn:EA.
    2:{ split; [discriminate|]. intros [[|t ts] HF]; [inversion HF|]. apply HP in HF as [[HA _] _].
        apply filter_ssz_nil in HA. congruence. }
    apply filter_ssz_nil in EA.
    destruct (variant_fields v) as [fs|fs|] eqn:EF; cbn [fields_of].
    + assert (HR : ~ exists ts, Forall2 payload (v :: vs) ts).
      { intros [[|t ts] HF]; [inversion HF|]. apply HP in HF as [[_ (f & E & _)] _]. congruence. }
      split; [|tauto]. destruct (validate_no_attrs fs); discriminate.
    + destruct (N.eqb_spec (blen fs) 1) as [EB|EB]; cbn [negb].
      * destruct fs as [|f [|? ?]]; try discriminate EB; [|unfold blen in EB; cbn [length] in EB; lia].
        destruct (validate_no_attrs [f]) as [[]|e|p] eqn:EN; cbn [bind].
        -- apply validate_no_attrs_ok in EN. rewrite IH; [| |lia].
           2:{ right. destruct (N.eqb_spec i 0); [now left|]. destruct HS as [?|HS]; [lia|exact HS]. }
           split.
           ++ intros [ts HF]. exists (field_ty f :: ts). constructor; auto. split; [exact EA|]. exists f. repeat split; auto. apply EN. now left.
           ++ intros [[|t ts] HF]; [inversion HF|]. apply HP in HF as [_ HF]. eauto.
        -- split; [discriminate|]. intros [[|t ts] HF]; [inversion HF|]. apply HP in HF as [[_ (g & E & _ & HN)] _].
           rewrite EF in E. injection E as <-.
           assert (HX : validate_no_attrs [f] = Ok tt) by (apply validate_no_attrs_ok; intros g [<-|[]]; exact HN). congruence.
        -- split; [discriminate|]. intros [[|t ts] HF]; [inversion HF|]. apply HP in HF as [[_ (g & E & _ & HN)] _].
           rewrite EF in E. injection E as <-.
           assert (HX : validate_no_attrs [f] = Ok tt) by (apply validate_no_attrs_ok; intros g [<-|[]]; exact HN). congruence.
      * split; [destruct (validate_no_attrs fs); discriminate|].
        intros [[|t ts] HF]; [inversion HF|]. apply HP in HF as [[_ (g & E & _ & HN)] _].
        rewrite EF in E. injection E as ->. exfalso. apply EB. reflexivity.
    + assert (HR : ~ exists ts, Forall2 payload (v :: vs) ts).
      { intros [[|t ts] HF]; [inversion HF|]. apply HP in HF as [[_ (f & E & _)] _]. congruence. }
      split; [|tauto]. change (validate_no_attrs []) with (@Ok DerivePanic _ tt). cbn [bind].
      destruct (N.eq_dec i 0) as [Hi|Hi]; [exfalso; exact (H0 Hi eq_refl)|].
      destruct tr; [discriminate|]. destruct nf; [discriminate|]. destruct ahn; [discriminate|].
      exfalso. destruct HS as [?|[?|?]]; congruence.
Qed.

(** ** Emitted types *)

Lemma variant_types vs : forall ts, Forall2 payload vs ts -> map_panic variant_ty vs = Ok (map Some ts).
Proof.
  induction vs as [|v vs IH]; intros ts HF; inversion HF as [|? t ? ts' [HA (f & E & <- & HN)] HF']; subst; [reflexivity|].
  cbn [map_panic map]. unfold variant_ty at 1. rewrite E. cbn [bind]. rewrite (IH _ HF'). reflexivity.
Qed.

Lemma payload_types vs : forall ts, Forall2 payload vs ts -> map_panic payload_ty vs = Ok ts.
Proof.
  induction vs as [|v vs IH]; intros ts HF; inversion HF as [|? t ? ts' [HA (f & E & <- & HN)] HF']; subst; [reflexivity|].
  cbn [map_panic]. unfold payload_ty at 1. rewrite E. cbn [bind]. rewrite (IH _ HF'). reflexivity.
Qed.

Lemma payload_unique vs ts ts' : Forall2 payload vs ts -> Forall2 payload vs ts' -> ts = ts'.
Proof. intros H1 H2. apply payload_types in H1, H2. congruence. Qed.

Lemma validate_enum tr vs : validate_variants tr (blen vs) 0 false false vs = Ok tt <->
  (exists ts, Forall2 payload vs ts) \/
  (tr = false /\ exists v r ts, vs = v :: r /\ r <> [] /\ none_variant v /\ Forall2 payload r ts).
Proof.
  assert (HN : forall v r ts, none_variant v -> ~ Forall2 payload (v :: r) ts).
  { intros v r ts (_ & E & _) HF. inversion HF as [|? t ? ts' [_ (f & E' & _)] _]; subst. congruence. }
  assert (HC : (exists v r, vs = v :: r /\ variant_fields v = Unit) \/ match vs with [] => True | v :: _ => variant_fields v <> Unit end).
  { destruct vs as [|v r]; [now right|]. destruct (variant_fields v) eqn:E; [right; congruence|right; congruence|left; eauto]. }
  destruct HC as [(v & r & -> & EF)|HC].
  2:{ rewrite validate_payloads; [|now left|intros _; exact HC]. split; [now left|]. intros [HX|(_ & v & r & ts & -> & _ & (_ & E & _) & _)]; [exact HX|]. contradiction. }
  assert (HP : ~ exists ts, Forall2 payload (v :: r) ts).
  { intros [ts HF]. inversion HF as [|? t ? ts' [_ (f & E' & _)] _]; subst. congruence. }
  cbn [validate_variants]. rewrite EF. cbn [fields_of]. change (validate_no_attrs []) with (@Ok DerivePanic _ tt). cbn [bind].
  split.
  - intros HV. right. destruct (filter_ssz_attrs (variant_attrs v)) eqn:EA; [|discriminate]. apply filter_ssz_nil in EA.
    destruct tr; [discriminate|]. split; [reflexivity|].
    unfold is_valid_none_identifier in HV. destruct (String.eqb_spec (variant_ident v) "None") as [EI|]; [|discriminate].
    cbn [negb N.eqb] in HV. destruct (N.ltb_spec (blen (v :: r)) 2) as [HL|HL]; [discriminate|].
    apply validate_payloads in HV; [|right; now right|lia]. destruct HV as [ts HF].
    exists v, r, ts. split; [reflexivity|]. split; [|split; [repeat split; auto|exact HF]].
    intros ->. vm_compute in HL. congruence.
  - intros [HX|(-> & v' & r' & ts & [= <- <-] & HR & (HA & _ & HI) & HF)]; [contradiction|].
    apply filter_ssz_nil in HA. rewrite HA. unfold is_valid_none_identifier. rewrite HI. cbn [String.eqb negb N.eqb].
    change ((String.eqb "None" "None")) with true. cbn [negb].
    replace (blen (v :: r) <? 2) with false.
    2:{ destruct r; [congruence|]. rewrite !blen_cons. lia. }
    apply validate_payloads; [right; now right|lia|eauto].
Qed.

Lemma validate_plain d : validate_derive_input d [] = Ok tt <-> exists t, declares d t.
Proof.
  unfold validate_derive_input. cbn [blen length N.of_nat N.ltb N.compare andb negb]. destruct d as [[fs|fs|]|vs|].
  - destruct fs as [|f fs].
    + split; [discriminate|]. intros [t HD]. inversion HD. congruence.
    + rewrite validate_no_attrs_ok. split.
      * intros HP. eexists. constructor; [discriminate|exact HP].
      * intros [t HD]. inversion HD. assumption.
  - destruct (N.eqb_spec (blen fs) 1) as [EB|EB].
    + destruct fs as [|f [|? ?]]; try discriminate EB; [|unfold blen in EB; cbn [length] in EB; lia].
      rewrite validate_no_attrs_ok. split.
      * intros HP. eexists. constructor. exact HP.
      * intros [t HD]. inversion HD. assumption.
    + split; [discriminate|]. intros [t HD]. inversion HD. subst. exfalso. apply EB. reflexivity.
  - split; [discriminate|]. intros [t HD]. inversion HD.
  - destruct (N.eqb_spec (blen vs) 0) as [EB|EB].
    { split; [discriminate|]. intros [t HD]. inversion HD; subst; [lia|]. rewrite blen_cons in EB. lia. }
    destruct (N.ltb_spec 127 (blen vs)) as [EC|EC].
    { split; [discriminate|]. intros [t HD]. inversion HD; subst; [lia|]. rewrite blen_cons in EC. lia. }
    rewrite validate_enum. split.
    + intros [[ts HF]|(_ & v & r & ts & -> & HR & HN & HF)].
      * eexists. eapply declares_union; [lia|exact HF].
      * eexists. apply declares_union_with_none; [|exact HN|exact HF]. rewrite blen_cons in EC.
        destruct r; [congruence|]. rewrite blen_cons in *. lia.
    + intros [t HD]. inversion HD; subst; [left; eauto|]. right. split; [reflexivity|].
      exists v, vs0, ts. split; [reflexivity|]. split; [|auto]. intros ->. change (blen (@nil Variant)) with 0 in *. lia.
  - split; [discriminate|]. intros [t HD]. inversion HD.
Qed.

Lemma validate_transparent d : validate_derive_input d [Transparent] = Ok tt <-> exists t, declares_transparent d t.
Proof.
  unfold validate_derive_input. change (1 <? blen [Transparent]) with false. cbv iota zeta. destruct d as [fs|vs|].
  - cbn [andb negb]. split; [discriminate|]. intros [t HD]. inversion HD.
  - cbn [andb negb].
    destruct (N.eqb_spec (blen vs) 0) as [EB|EB].
    { split; [discriminate|]. intros [t HD]. inversion HD; subst; lia. }
    destruct (N.ltb_spec 127 (blen vs)) as [EC|EC].
    { split; [discriminate|]. intros [t HD]. inversion HD; subst; lia. }
    rewrite validate_enum. split.
    + intros [[ts HF]|[[=] _]]. eexists. eapply declares_enum; [lia|exact HF].
    + intros [t HD]. inversion HD; subst; left; eauto.
  - cbn [andb negb]. split; [discriminate|]. intros [t HD]. inversion HD.
Qed.

Lemma declares_ty d t : declares d t -> derived_ty d None = Ok t.
Proof.
  intros [fs HF HP|f HP|vs ts HB HF|v vs ts HB HN HF]; cbn [derived_ty]; auto.
  - rewrite (variant_types _ _ HF). reflexivity.
  - cbn [map_panic]. unfold variant_ty at 1. destruct HN as (_ & -> & _). cbn [bind]. rewrite (variant_types _ _ HF). reflexivity.
Qed.

Lemma declares_transparent_ty d t : declares_transparent d t -> derived_ty d (Some Transparent) = Ok t.
Proof. intros [vs ts HB HF]. cbn [derived_ty]. rewrite (payload_types _ _ HF). reflexivity. Qed.

(** ** Attributes *)

Lemma argument_ok a h : helper_of_argument a = Ok h <-> a = NPath false [("transparent"%string, false)].
Proof.
  destruct a as [lc segs| |]; cbn [helper_of_argument]; try (split; discriminate).
  destruct lc; [split; discriminate|]. destruct segs as [|[i args] [|? ?]]; try (split; discriminate).
  destruct args; [split; discriminate|]. unfold parse_helper_attr. destruct (String.eqb_spec i "transparent") as [->|E].
  - split; [reflexivity|]. destruct h. reflexivity.
  - split; [discriminate|]. intros [= ->]. congruence.
Qed.

Lemma arguments_ok l : forall hs, map_panic helper_of_argument l = Ok hs <->
  l = repeat (NPath false [("transparent"%string, false)]) (length hs).
Proof.
  induction l as [|a l IH]; intros hs; cbn [map_panic].
  - split; [intros [= <-]; reflexivity|]. destruct hs; [reflexivity|discriminate].
  - split.
    + destruct (helper_of_argument a) as [h| |] eqn:E; try discriminate. cbn [bind].
      destruct (map_panic helper_of_argument l) as [hs'| |] eqn:E'; try discriminate. cbn [bind]. intros [= <-].
      apply argument_ok in E. subst a. cbn [length repeat]. f_equal. apply IH. reflexivity.
    + destruct hs as [|h hs]; [discriminate|]. cbn [length repeat]. intros HE. injection HE as -> HL.
      assert (HA : helper_of_argument (NPath false [("transparent"%string, false)]) = Ok h) by (apply argument_ok; reflexivity).
      rewrite HA. cbn [bind]. rewrite (proj2 (IH hs) HL). reflexivity.
Qed.

Lemma extract_ok attrs : forall hs, extract_helper_attrs attrs = Ok hs <-> helper_count attrs (length hs).
Proof.
  unfold extract_helper_attrs, filter_ssz_attrs. induction attrs as [|a attrs IH]; intros hs; cbn [filter].
  - cbn. split.
    + intros [= <-]. constructor.
    + intros HC. inversion HC as [HL| |]. destruct hs; [reflexivity|discriminate].
  - destruct (is_ssz_attr a) eqn:E.
    + apply is_ssz_attr_spec in E. cbn [map_panic]. split.
      * destruct (attr_meta a) as [[|nested|]|] eqn:EM; try discriminate.
        destruct (map_panic helper_of_argument nested) as [h1| |] eqn:E1; try discriminate. cbn [bind].
        destruct (map_panic _ (filter is_ssz_attr attrs)) as [h2| |] eqn:E2; try discriminate. cbn [bind]. intros [= <-].
        cbn [concat]. rewrite app_length. apply helper_ssz; auto.
        -- unfold transparent_attr. rewrite EM. do 2 f_equal. apply arguments_ok. exact E1.
        -- apply (proj1 (IH (concat h2))). reflexivity.
      * intros HC. inversion HC as [|? ? ? HN|? ? m n HN HT HR]; subst; [contradiction|].
        unfold transparent_attr in HT. rewrite HT.
        assert (HE : hs = repeat Transparent m ++ repeat Transparent n).
        { rewrite <- repeat_app. replace (m + n)%nat with (length hs) by lia. clear. induction hs as [|[] hs IH]; cbn; congruence. }
        assert (E1 : map_panic helper_of_argument (repeat (NPath false [("transparent"%string, false)]) m) = Ok (repeat Transparent m))
          by (apply arguments_ok; rewrite repeat_length; reflexivity).
        rewrite E1. cbn [bind].
        assert (E2 : helper_count attrs (length (repeat Transparent n))) by (rewrite repeat_length; exact HR).
        apply IH in E2. destruct (map_panic _ (filter is_ssz_attr attrs)) as [h2| |] eqn:E3; try discriminate.
        cbn [bind] in *. injection E2 as E2. rewrite HE, <- E2. reflexivity.
    + rewrite IH. assert (HN : ~ names_ssz a) by (rewrite <- is_ssz_attr_spec; congruence). split.
      * intros HC. constructor; auto.
      * intros HC. inversion HC; subst; [assumption|contradiction].
Qed.

(** ** The derive macros *)

Lemma derive_plain_ok attrs d t : derive_without_attrs (MkInput attrs d) = Ok t <-> declares d t.
Proof.
  unfold derive_without_attrs. cbn [input_data]. split.
  - destruct (validate_derive_input d []) as [[]| |] eqn:E; try discriminate. cbn [bind]. intros HT.
    apply validate_plain in E as [t' HD]. rewrite (declares_ty _ _ HD) in HT. injection HT as <-. exact HD.
  - intros HD. rewrite (proj2 (validate_plain d)) by eauto. cbn [bind]. apply declares_ty. exact HD.
Qed.

Lemma derive_attrs_ok attrs d t : derive_with_attrs (MkInput attrs d) = Ok t <->
  (helper_count attrs 0 /\ declares d t) \/ (helper_count attrs 1 /\ declares_transparent d t).
Proof.
  unfold derive_with_attrs. cbn [input_data input_attrs]. split.
  - destruct (extract_helper_attrs attrs) as [hs| |] eqn:E; try discriminate. cbn [bind]. apply extract_ok in E.
    destruct hs as [|[] [|h hs]].
    + destruct (validate_derive_input d []) as [[]| |] eqn:EV; try discriminate. cbn [bind hd_error]. intros HT.
      left. split; [exact E|]. apply validate_plain in EV as [t' HD]. rewrite (declares_ty _ _ HD) in HT. injection HT as <-. exact HD.
    + destruct (validate_derive_input d [Transparent]) as [[]| |] eqn:EV; try discriminate. cbn [bind hd_error]. intros HT.
      right. split; [exact E|]. apply validate_transparent in EV as [t' HD].
      rewrite (declares_transparent_ty _ _ HD) in HT. injection HT as <-. exact HD.
    + unfold validate_derive_input. assert (HB : (1 <? blen (Transparent :: h :: hs)) = true) by (rewrite !blen_cons; lia).
      rewrite HB. cbn [bind]. intros HX. discriminate HX.
  - intros [[HC HD]|[HC HD]].
    + change 0%nat with (length (@nil HelperAttr)) in HC. apply extract_ok in HC. rewrite HC. cbn [bind hd_error].
      rewrite (proj2 (validate_plain d)) by eauto. cbn [bind]. apply declares_ty. exact HD.
    + change 1%nat with (length [Transparent]) in HC. apply extract_ok in HC. rewrite HC. cbn [bind hd_error].
      rewrite (proj2 (validate_transparent d)) by eauto. cbn [bind]. apply declares_transparent_ty. exact HD.
Qed.

Lemma map_panic_total {A B} (f : A -> res DerivePanic B) l : (forall a p, f a <> Panic p) -> forall p, map_panic f l <> Panic p.
Proof.
  intros HF. induction l as [|a l IH]; intros p; cbn [map_panic]; [discriminate|].
  destruct (f a) eqn:E; cbn [bind]; [|discriminate|exfalso; exact (HF _ _ E)].
  destruct (map_panic f l); cbn [bind]; try discriminate. exfalso. exact (IH _ eq_refl).
Qed.

(** ** Legality *)

Lemma payload_declared vs : forall ts, Forall2 payload vs ts -> flat_map (fun v => types_in (variant_fields v)) vs = ts.
Proof.
  induction vs as [|v vs IH]; intros ts HF; inversion HF as [|? t ? ts' [HA (f & E & <- & HN)] HF']; subst; [reflexivity|].
  cbn [flat_map]. rewrite E. cbn [types_in map app]. now rewrite (IH _ HF').
Qed.

Lemma declares_legal d t : declares d t \/ declares_transparent d t ->
  Forall (fun u => legal u = true) (declared_types d) -> fixed_size t <= MAX_SIZE -> legal t = true.
Proof.
  intros [HD|HD] HL HM; (destruct HD as [fs HF HP|f HP|vs ts HB HF|v vs ts HB HN HF] || destruct HD as [vs ts HB HF]);
    cbn [legal]; cbn [declared_types types_in] in HL; rewrite ?Forall_forall in HL.
  - rewrite !andb_true_iff. split; [split|].
    + destruct fs; [congruence|reflexivity].
    + cbn [fixed_size] in *. lia.
    + apply forallb_forall. intros x HX. apply in_map_iff in HX as (f & <- & HX). apply HL. cbn [snd]. apply in_map. exact HX.
  - apply HL. now left.
  - rewrite (payload_declared _ _ HF) in HL. pose proof (Forall2_length _ _ _ HF) as HLn. rewrite andb_true_iff. split.
    + unfold legal_variants. destruct ts as [|t ts]; [destruct vs; [unfold blen in HB; cbn [length] in HB; lia|discriminate HLn]|]. cbn [map].
      rewrite !andb_true_iff. split; [split|].
      * unfold blen in *. cbn [length] in *. rewrite map_length. lia.
      * apply negb_true_iff. clear. induction ts; auto.
      * reflexivity.
    + apply forallb_forall. intros x HX. apply in_map_iff in HX as (u & <- & HX). apply HL. exact HX.
  - destruct HN as (_ & HU & _). cbn [flat_map] in HL. rewrite HU in HL. cbn [types_in app] in HL.
    rewrite (payload_declared _ _ HF) in HL. pose proof (Forall2_length _ _ _ HF) as HLn. rewrite andb_true_iff. split.
    + unfold legal_variants. rewrite !andb_true_iff. split; [split|].
      * unfold blen in *. cbn [length] in *. rewrite map_length. lia.
      * apply negb_true_iff. clear. induction ts; auto.
      * destruct ts; [destruct vs; [unfold blen in HB; cbn [length] in HB; lia|discriminate HLn]|]. reflexivity.
    + apply forallb_forall. intros x [<-|HX]; [reflexivity|]. apply in_map_iff in HX as (u & <- & HX). apply HL. exact HX.
  - rewrite (payload_declared _ _ HF) in HL. pose proof (Forall2_length _ _ _ HF) as HLn. rewrite !andb_true_iff. split; [split|].
    + destruct ts; [destruct vs; [unfold blen in HB; cbn [length] in HB; lia|discriminate HLn]|]. reflexivity.
    + unfold blen in *. lia.
    + apply forallb_forall. intros x HX. apply HL. exact HX.
Qed.

Lemma derive_legal input t : derive_without_attrs input = Ok t \/ derive_with_attrs input = Ok t ->
  Forall (fun u => legal u = true) (declared_types (input_data input)) -> fixed_size t <= MAX_SIZE -> legal t = true.
Proof.
  destruct input as [attrs d]. cbn [input_data]. intros [HD|HD]; apply declares_legal.
  - left. apply derive_plain_ok in HD. exact HD.
  - apply derive_attrs_ok in HD as [[_ HD]|[_ HD]]; [now left|now right].
Qed.

Lemma validate_helpers d h1 h2 hs : validate_derive_input d (h1 :: h2 :: hs) = Err TooManyHelpers.
Proof.
  unfold validate_derive_input. assert (HB : (1 <? blen (h1 :: h2 :: hs)) = true) by (rewrite !blen_cons; lia).
  rewrite HB. reflexivity.
Qed.

Lemma map_panic_err {A B} (f : A -> res DerivePanic B) (e : DerivePanic) l :
  (forall a, f a <> Err e) -> map_panic f l <> Err e.
Proof.
  intros HF. induction l as [|a l IH]; cbn [map_panic]; [discriminate|].
  destruct (f a) eqn:E; cbn [bind]; [|intros [= ->]; exact (HF _ E)|discriminate].
  destruct (map_panic f l); cbn [bind]; congruence.
Qed.

Lemma extract_supported attrs : extract_helper_attrs attrs <> Err NotSupported.
Proof.
  unfold extract_helper_attrs. destruct (map_panic _ _) eqn:E; cbn [bind]; try discriminate. intros [= ->].
  revert E. apply map_panic_err. intros a. destruct (attr_meta a) as [[|nested|]|]; try discriminate.
  apply map_panic_err. intros [lc segs| |]; cbn [helper_of_argument]; try discriminate.
  destruct lc; [discriminate|]. destruct segs as [|[i [|]] [|? ?]]; try discriminate.
  unfold parse_helper_attr. destruct (String.eqb _ _); discriminate.
Qed.

Lemma no_attrs_supported fs : validate_no_attrs fs <> Err NotSupported.
Proof. unfold validate_no_attrs. destruct (flat_map _ _); discriminate. Qed.

Lemma variants_supported tr count vs : forall i nf ahn, validate_variants tr count i nf ahn vs <> Err NotSupported.
Proof.
  induction vs as [|v vs IH]; intros i nf ahn; cbn [validate_variants]; [discriminate|].
  destruct (filter_ssz_attrs _); [|discriminate].
  destruct (validate_no_attrs (fields_of _)) eqn:E; cbn [bind]; [|intros [= ->]; exact (no_attrs_supported _ E)|discriminate].
  destruct (variant_fields v) as [l|l|]; [discriminate| |].
  - destruct (negb _); [discriminate|].
    destruct (validate_no_attrs l) eqn:E'; cbn [bind]; [apply IH|intros [= ->]; exact (no_attrs_supported _ E')|discriminate].
  - repeat (match goal with |- (if ?b then _ else _) <> _ => destruct b end; [discriminate|]). apply IH.
Qed.

Lemma validate_supported d hs : validate_derive_input d hs <> Err NotSupported.
Proof.
  unfold validate_derive_input. destruct (1 <? blen hs); [discriminate|]. cbv zeta.
  match goal with |- (if ?b then _ else _) <> _ => destruct b end; [discriminate|].
  destruct d as [[[|f fs]|fs|]|vs|]; try discriminate.
  - apply no_attrs_supported.
  - destruct (blen fs =? 1); [apply no_attrs_supported|discriminate].
  - destruct (blen vs =? 0); [discriminate|]. destruct (127 <? blen vs); [discriminate|]. apply variants_supported.
Qed.

Lemma derive_supported input : derive_without_attrs input <> Err NotSupported /\ derive_with_attrs input <> Err NotSupported.
Proof.
  destruct input as [attrs d]. split.
  - unfold derive_without_attrs. cbn [input_data]. destruct (validate_derive_input d []) as [[]| |] eqn:E; cbn [bind].
    + apply validate_plain in E as [t HD]. rewrite (declares_ty _ _ HD). discriminate.
    + intros [= ->]. exact (validate_supported _ _ E).
    + discriminate.
  - unfold derive_with_attrs. cbn [input_data input_attrs]. destruct (extract_helper_attrs attrs) as [hs| |] eqn:EX; cbn [bind].
    + destruct hs as [|[] [|h hs]].
      * destruct (validate_derive_input d []) as [[]| |] eqn:E; cbn [bind hd_error].
        -- apply validate_plain in E as [t HD]. rewrite (declares_ty _ _ HD). discriminate.
        -- intros [= ->]. exact (validate_supported _ _ E).
        -- discriminate.
      * destruct (validate_derive_input d [Transparent]) as [[]| |] eqn:E; cbn [bind hd_error].
        -- apply validate_transparent in E as [t HD]. rewrite (declares_transparent_ty _ _ HD). discriminate.
        -- intros [= ->]. exact (validate_supported _ _ E).
        -- discriminate.
      * rewrite validate_helpers. discriminate.
    + intros [= ->]. exact (extract_supported _ EX).
    + discriminate.
Qed.
