(** Summaries keep roots, indices and proofs. *)
From Coq Require Import String List NArith ZArith Bool Lia ZifyBool ZifyNat ZifyN.
From Coq Require Import Strings.Byte.
From Verif Require Import Prelude Types Bitvec Valid SpecSer SpecMerkle SpecPack SpecProve SpecFound SpecSummary
  Lib ChunkLib MerkProof AlikeProof SerSpec RoundTrip RootProof PackProof LaterProof.
Import ListNotations.
Open Scope N_scope.

Lemma each_nth {A} (fs : list (mask -> A)) : forall ms i, nth_error (each fs ms) i = option_map (fun f => f (nth i ms Keep)) (nth_error fs i).
Proof.
  induction fs as [|f fs IH]; intros ms [|i]; cbn [each nth_error option_map]; auto.
  - destruct ms; reflexivity.
  - rewrite IH. destruct ms as [|m ms]; [destruct i|]; reflexivity.
Qed.

Lemma each_length {A} (fs : list (mask -> A)) : forall ms, length (each fs ms) = length fs.
Proof. induction fs as [|f fs IH]; intros ms; cbn [each length]; auto. Qed.

(** ** Types *)

Lemma summary_packed t m : packed t = false -> packed (summary_ty t m) = match m with Cut => true | _ => false end.
Proof.
  intros HP. destruct m; cbn [summary_ty].
  - destruct t; exact HP.
  - destruct t; reflexivity.
  - destruct t; try exact HP; try reflexivity; cbn [summary_ty].
    + destruct (packed t); reflexivity.
    + cbn [packed] in HP. rewrite HP. reflexivity.
    + destruct (packed t); reflexivity.
Qed.

Lemma summary_keep t : summary_ty t Keep = t.
Proof. destruct t; reflexivity. Qed.
Lemma summary_cut t : summary_ty t Cut = TNode.
Proof. destruct t; reflexivity. Qed.
Lemma summary_val_keep H t v : summary_val H t v Keep = v.
Proof. destruct t; reflexivity. Qed.
Lemma summary_val_cut H t v : summary_val H t v Cut = VNode (root_with packed H t v).
Proof. destruct t; reflexivity. Qed.

Lemma summary_item_length t m : packed t = false -> item_length_with packed (summary_ty t m) = 32 /\ item_length_with item_basic (summary_ty t m) = 32.
Proof.
  intros HP. pose proof (summary_packed t m HP) as HQ. unfold item_length_with. rewrite HQ. destruct m.
  - rewrite summary_keep. destruct t; try discriminate HP; auto.
  - rewrite summary_cut. auto.
  - split; [reflexivity|]. destruct (summary_ty t (Below ms)); try discriminate HQ; reflexivity.
Qed.

Lemma plain_item_length t : packed t = false -> item_length_with packed t = 32 /\ item_length_with item_basic t = 32.
Proof. intros HP. rewrite <- (summary_keep t). apply summary_item_length. exact HP. Qed.

Lemma summary_count t : forall m, inside t m = true ->
  chunk_count_with packed (summary_ty t m) = chunk_count_with packed t /\
  chunk_count_with item_basic (summary_ty t m) = chunk_count_with item_basic t.
Proof.
  induction t using ty_ind'; intros m HI; destruct m as [| |ms]; try discriminate HI; cbn [summary_ty]; auto.
  - destruct (packed t) eqn:EP; [auto|]. cbn [chunk_count_with]. destruct (summary_item_length t (hd Keep ms) EP) as [-> ->].
    destruct (plain_item_length t EP) as [-> ->]. auto.
  - destruct (packed t) eqn:EP; [auto|]. cbn [chunk_count_with]. destruct (summary_item_length t (hd Keep ms) EP) as [-> ->].
    destruct (plain_item_length t EP) as [-> ->]. auto.
  - destruct (packed t) eqn:EP; [auto|]. cbn [chunk_count_with]. destruct (summary_item_length t (hd Keep ms) EP) as [-> ->].
    destruct (plain_item_length t EP) as [-> ->]. auto.
  - cbn [chunk_count_with]. unfold blen. rewrite combine_length, each_length, !map_length, Nat.min_id. auto.
  - cbn [chunk_count_with]. cbn [inside] in HI. auto.
Qed.

Lemma summary_addressable t : forall m, addressable t = true -> addressable (summary_ty t m) = true.
Proof.
  induction t using ty_ind'; intros m HA; destruct m as [| |ms]; cbn [summary_ty]; try exact HA; try reflexivity.
  - destruct (packed t) eqn:EP; [exact HA|]. cbn [addressable] in *. destruct (summary_item_length t (hd Keep ms) EP) as [_ ->].
    destruct (plain_item_length t EP) as [_ E]. rewrite E in HA. apply andb_true_iff in HA as [H1 H2]. rewrite H1. cbn [andb]. auto.
  - destruct (packed t) eqn:EP; [exact HA|]. cbn [addressable] in *. destruct (summary_item_length t (hd Keep ms) EP) as [_ ->].
    destruct (plain_item_length t EP) as [_ E]. rewrite E in HA. apply andb_true_iff in HA as [H1 H2]. rewrite H1. cbn [andb]. auto.
  - destruct (packed t) eqn:EP; [exact HA|]. cbn [addressable] in *. destruct (summary_item_length t (hd Keep ms) EP) as [_ ->].
    destruct (plain_item_length t EP) as [_ E]. rewrite E in HA. apply andb_true_iff in HA as [H1 H2]. rewrite H1. cbn [andb]. auto.
  - cbn [addressable] in *. apply andb_true_iff in HA as [H1 H2]. apply andb_true_iff. split.
    + unfold blen in *. rewrite combine_length, each_length, !map_length, Nat.min_id. exact H1.
    + clear H1. revert ms. induction H as [|f fs Hf _ IH]; intros ms; cbn [map each combine forallb]; [reflexivity|].
      cbn [forallb] in H2. apply andb_true_iff in H2 as [H1 H2]. cbn [snd]. rewrite Hf, IH; auto.
  - cbn [addressable] in *. auto.
  - cbn [addressable] in *. auto.
  - cbn [addressable] in *. revert ms. induction H as [|o vs Ho _ IH]; intros ms; cbn [map each forallb]; [reflexivity|].
    cbn [forallb] in HA. apply andb_true_iff in HA as [H1 H2]. rewrite IH by auto. destruct o; cbn [option_map opt_holds] in *; [rewrite Ho; auto|reflexivity].
  - cbn [addressable] in *. revert ms. induction H as [|o vs Ho _ IH]; intros ms; cbn [map each forallb]; [reflexivity|].
    cbn [forallb] in HA. apply andb_true_iff in HA as [H1 H2]. rewrite IH by auto. rewrite Ho; auto.
Qed.

(** ** Indices *)

Lemma summary_resolve t : forall m, if inside t m then exists k, k <> Cut /\ resolve (summary_ty t m) = summary_ty (resolve t) k
  else resolve (summary_ty t m) = TNode.
Proof.
  induction t using ty_ind'; intros m; destruct m as [| |ms]; cbn [inside];
    try (rewrite summary_keep; exists Keep; split; [discriminate|rewrite summary_keep; reflexivity]);
    try (rewrite summary_cut; reflexivity);
    try (exists (Below ms); split; [discriminate|]; cbn [summary_ty resolve]; try (destruct (packed t)); reflexivity).
  cbn [summary_ty resolve]. apply IHt.
Qed.

Lemma summary_field fs : forall ms name pos u', field_position name (combine (map fst fs) (each (map (fun f => summary_ty (snd f)) fs) ms)) = Some (pos, u') ->
  exists u k, field_position name fs = Some (pos, u) /\ u' = summary_ty u k.
Proof.
  induction fs as [|[n t] fs IH]; intros ms name pos u'; cbn [map each combine field_position fst snd]; [discriminate|].
  destruct (String.eqb name n); [intros [= <- <-]; eauto|].
  destruct (field_position name (combine _ _)) as [[q w]|] eqn:EF; [|discriminate]. cbn [option_map fst snd].
  intros E. assert (1 + q = pos) by congruence. assert (w = u') by congruence. subst.
  destruct (IH _ _ _ _ EF) as (u & k & EU & EK). rewrite EU. cbn [option_map fst snd]. eauto.
Qed.

Lemma summary_step t m p w pos u' : step_with item_basic (summary_ty t m) p = Some (w, pos, u') ->
  exists u k, step_with item_basic t p = Some (w, pos, u) /\ u' = summary_ty u k.
Proof.
  unfold step_with. pose proof (summary_resolve t m) as HR. destruct (inside t m) eqn:HI.
  2:{ rewrite HR. destruct p; discriminate. }
  destruct (summary_count t m HI) as [_ ->]. set (ww := width (chunk_count_with item_basic t)). clearbody ww.
  destruct HR as (k & HK & ->). destruct k as [| |ms]; [|congruence|].
  - rewrite summary_keep. intros E. exists u', Keep. rewrite summary_keep. auto.
  - assert (HID : forall w0 pos0 u0, Some (w0, pos0, u0) = Some (w, pos, u') -> exists u k, Some (w0, pos0, u0) = Some (w, pos, u) /\ u' = summary_ty u k).
    { intros w0 pos0 u0 E. exists u', Keep. rewrite summary_keep. auto. }
    destruct (resolve t) as [|s| | |a n|a n|a n|n|n|fs|a|a|vs|ts]; cbn [summary_ty]; try (destruct p; discriminate).
    + destruct (packed a) eqn:EP; [intros E; exists u', Keep; rewrite summary_keep; auto|]. destruct p as [i|name| |]; try discriminate.
      destruct (i <? n); [|discriminate]. destruct (summary_item_length a (hd Keep ms) EP) as [_ ->]. destruct (plain_item_length a EP) as [_ ->].
      intros [= <- <- <-]. eauto.
    + destruct (packed a) eqn:EP; [intros E; exists u', Keep; rewrite summary_keep; auto|]. destruct p as [i|name| |]; try discriminate.
      destruct (i <? n); [|discriminate]. destruct (summary_item_length a (hd Keep ms) EP) as [_ ->]. destruct (plain_item_length a EP) as [_ ->].
      intros [= <- <- <-]. eauto.
    + destruct (packed a) eqn:EP; [intros E; exists u', Keep; rewrite summary_keep; auto|]. destruct p as [i|name| |]; try discriminate; [|apply HID].
      destruct (i <? n); [|discriminate]. destruct (summary_item_length a (hd Keep ms) EP) as [_ ->]. destruct (plain_item_length a EP) as [_ ->].
      intros [= <- <- <-]. eauto.
    + destruct p; try discriminate. destruct (i <? n); [apply HID|discriminate].
    + destruct p; try discriminate. destruct (i <? n); [apply HID|discriminate].
    + destruct p; try discriminate. destruct (field_position name (combine _ _)) as [[q x]|] eqn:EF; [|discriminate].
      destruct (summary_field _ _ _ _ _ EF) as (u & k & EU & EK). rewrite EU. intros [= <- <- <-]. subst. eauto.
    + destruct p; try discriminate; [|apply HID]. destruct (i =? 0); [apply HID|]. destruct (i =? 1); [|discriminate]. intros [= <- <- <-]. eauto.
    + destruct p; try discriminate; [|apply HID]. rewrite each_nth, nth_error_map. destruct (nth_error vs (N.to_nat i)) as [[u|]|]; cbn [option_map];
        [intros [= <- <- <-]; eauto|apply HID|discriminate].
Qed.

Lemma summary_gindex path : forall t m r g,
  gindex_from_with item_basic (summary_ty t m) r path = Some g -> gindex_from_with item_basic t r path = Some g.
Proof.
  induction path as [|p path IH]; intros t m r g; cbn [gindex_from_with]; [auto|].
  destruct (step_with item_basic (summary_ty t m) p) as [[[w pos] u']|] eqn:ES; [|discriminate].
  destruct (summary_step _ _ _ _ _ _ ES) as (u & k & E & ->). rewrite E. apply IH.
Qed.

Lemma as_unions_packed t : packed (as_unions t) = packed t.
Proof. induction t; auto. Qed.

Lemma summary_unions t : forall m, as_unions (summary_ty t m) = summary_ty (as_unions t) m.
Proof.
  induction t using ty_ind'; intros m; destruct m as [| |ms];
    try (rewrite !summary_keep; reflexivity); try (rewrite !summary_cut; reflexivity); try reflexivity; cbn [summary_ty as_unions].
  - rewrite as_unions_packed. destruct (packed t); [reflexivity|]. cbn [as_unions]. rewrite IHt. reflexivity.
  - rewrite as_unions_packed. destruct (packed t); [reflexivity|]. cbn [as_unions]. rewrite IHt. reflexivity.
  - rewrite as_unions_packed. destruct (packed t); [reflexivity|]. cbn [as_unions]. rewrite IHt. reflexivity.
  - f_equal. revert ms. induction H as [|f fs Hf _ IH]; intros ms; cbn [map each combine fst snd]; [reflexivity|]. rewrite Hf, IH. reflexivity.
  - rewrite IHt. reflexivity.
  - rewrite IHt. reflexivity.
  - f_equal. revert ms. induction H as [|o vs Ho _ IH]; intros ms; cbn [map each option_map]; [reflexivity|]. rewrite IH.
    destruct o; cbn [option_map opt_holds] in *; [rewrite Ho|]; reflexivity.
  - f_equal. revert ms. induction H as [|o vs Ho _ IH]; intros ms; cbn [map each option_map]; [reflexivity|]. rewrite IH, Ho. reflexivity.
Qed.

(** ** Roots *)

Section Hash.
  Context (H : bytes -> bytes) (Hlen : forall x, blen (H x) = 32).

  Lemma summary_valid t : forall m v, valid t v -> valid (summary_ty t m) (summary_val H t v m).
  Proof.
    assert (HCUT : forall u v, valid u v -> valid (summary_ty u Cut) (summary_val H u v Cut)).
    { intros u v HV. rewrite summary_cut, summary_val_cut. cbn [valid]. apply with_blen; auto. }
    assert (HSEQ : forall u l k, (forall v, valid u v -> valid (summary_ty u k) (summary_val H u v k)) -> Forall (valid u) l ->
      Forall (valid (summary_ty u k)) (map (fun x => summary_val H u x k) l)).
    { intros u l k HU HL. rewrite Forall_map. eapply Forall_impl; [|exact HL]. exact HU. }
    induction t as [|s| | |a n IH|a n IH|a n IH|n|n|fs IH|a IH|a IH|vs IH|ts IH] using ty_ind'; intros m v HV; destruct m as [| |ms];
      try (rewrite summary_keep, summary_val_keep; exact HV); try (apply HCUT; exact HV); try exact HV;
      destruct v as [b|x|b|l|b|l|x| |x|i x]; try contradiction HV;
      try (cbn [valid] in HV; destruct vs as [|[]]; contradiction); cbn [summary_ty summary_val].
    - destruct HV as [HB HV]. destruct (packed a); [split; auto|]. split; [unfold blen in *; rewrite map_length; exact HB|]. apply HSEQ; auto.
    - destruct HV as [HB HV]. destruct (packed a); [split; auto|]. split; [unfold blen in *; rewrite map_length; exact HB|]. apply HSEQ; auto.
    - destruct HV as [HB HV]. destruct (packed a); [split; auto|]. split; [unfold blen in *; rewrite map_length; exact HB|]. apply HSEQ; auto.
    - cbn [valid] in *. rewrite Forall2_fun_map in HV. revert l HV ms. induction IH as [|f fs Hf _ IHfs]; intros l HV ms; inversion HV; subst; cbn [map each combine]; constructor; auto.
      cbn [fst snd]. auto.
    - cbn [valid] in *. auto.
    - exact I.
    - cbn [valid] in *. auto.
    - destruct vs as [|[u|] vs]; try contradiction. exact I.
    - apply valid_variant in HV as (u & EN & HV). rewrite nth_error_map, EN. cbn [option_map valid]. rewrite !nth_error_map, each_nth, nth_error_map, EN. cbn [option_map].
      rewrite Forall_forall in IH. pose proof (IH _ (nth_error_In _ _ EN) (nth (N.to_nat i) ms Keep) x HV) as HX.
      destruct (each _ ms) as [|[|] ?]; exact HX.
    - apply valid_payload in HV as (u & EN & HV). rewrite nth_error_map, EN. cbn [option_map valid]. rewrite !nth_error_map, each_nth, nth_error_map, EN. cbn [option_map].
      rewrite Forall_forall in IH. apply (IH _ (nth_error_In _ _ EN)). exact HV.
  Qed.

  Lemma node_root r : blen r = 32 -> root_with packed H TNode (VNode r) = r.
  Proof. intros HB. cbn [root_with]. unfold basic_bytes. cbn [spec_serialize]. rewrite spec_pack_32 by exact HB. reflexivity. Qed.

  Definition root_kept (t : ty) : Prop := forall m v, valid t v ->
    root_with packed H (summary_ty t m) (summary_val H t v m) = root_with packed H t v.

  Lemma seq_kept u l k : packed u = false -> root_kept u -> Forall (valid u) l ->
    seq_chunks_with packed H (summary_ty u k) (map (fun x => summary_val H u x k) l) = seq_chunks_with packed H u l.
  Proof.
    intros HP HU HV. unfold seq_chunks_with. rewrite HP, (summary_packed u k HP).
    assert (HM : map (root_with packed H (summary_ty u k)) (map (fun x => summary_val H u x k) l) = map (root_with packed H u) l).
    { rewrite map_map. clear -HU HV. induction HV; cbn [map]; [reflexivity|]. rewrite IHHV, HU by auto. reflexivity. }
    destruct k as [| |ms]; auto. rewrite summary_cut.
    rewrite <- (spec_pack_concat32 (map (root_with packed H u) l)).
    - do 2 f_equal. rewrite map_map. apply map_ext. intros x. rewrite summary_val_cut. reflexivity.
    - unfold all32. rewrite Forall_map. eapply Forall_impl; [|exact HV]. intros x Hx. apply with_blen; auto.
  Qed.

  Definition kids_kept (t : ty) : Prop :=
    match t with
    | TVector u _ | TArray u _ | TList u _ | TOption u => root_kept u
    | TContainer fs => Forall (fun f => root_kept (snd f)) fs
    | TUnion vs => Forall (opt_holds root_kept) vs
    | TTransparent ts => Forall root_kept ts
    | TNewtype _ => False
    | _ => True
    end.

  Lemma chunks_below t ms v : kids_kept t -> valid t v ->
    chunks_with packed H (summary_ty t (Below ms)) (summary_val H t v (Below ms)) = chunks_with packed H t v.
  Proof.
    destruct t as [|s| | |a n|a n|a n|n|n|fs|a|a|vs|ts]; intros HK HV; try contradiction HK; try reflexivity;
      destruct v as [b|x|b|l|b|l|x| |x|i x]; try contradiction HV;
      try (cbn [valid] in HV; destruct vs as [|[]]; contradiction); cbn [summary_ty summary_val kids_kept] in *.
    - destruct (packed a) eqn:EP; [reflexivity|]. cbn [chunks_with]. apply seq_kept; auto. apply HV.
    - destruct (packed a) eqn:EP; [reflexivity|]. cbn [chunks_with]. apply seq_kept; auto. apply HV.
    - destruct (packed a) eqn:EP; [reflexivity|]. cbn [chunks_with]. apply seq_kept; auto. apply HV.
    - cbn [chunks_with valid] in *. rewrite Forall2_fun_map in HV. revert l HV ms.
      induction HK as [|f fs Hf _ IHfs]; intros l HV ms; inversion HV; subst; cbn [map each combine]; [reflexivity|].
      rewrite IHfs by auto. cbn [fst snd]. rewrite Hf by auto. reflexivity.
    - reflexivity.
    - cbn [chunks_with valid] in *. rewrite HK by auto. reflexivity.
    - reflexivity.
    - apply valid_variant in HV as (u & EN & HV). rewrite nth_error_map, EN. cbn [option_map chunks_with]. rewrite each_nth, nth_error_map, EN. cbn [option_map].
      rewrite Forall_forall in HK. rewrite (HK _ (nth_error_In _ _ EN)) by auto. reflexivity.
    - apply valid_payload in HV as (u & EN & HV). rewrite nth_error_map, EN. cbn [option_map chunks_with]. rewrite each_nth, nth_error_map, EN. cbn [option_map].
      rewrite Forall_forall in HK. rewrite (HK _ (nth_error_In _ _ EN)) by auto. reflexivity.
  Qed.

  Lemma number_kept t : forall m v, inside t m = true -> valid t v ->
    number (summary_ty t m) (summary_val H t v m) = number t v /\
    spec_decoration (summary_ty t m) (summary_val H t v m) = spec_decoration t v.
  Proof.
    induction t as [|s| | |a n IH|a n IH|a n IH|n|n|fs IH|a IH|a IH|vs IH|ts IH] using ty_ind'; intros m v HI HV; destruct m as [| |ms];
      try discriminate HI; try (rewrite summary_keep, summary_val_keep; auto; fail); auto;
      destruct v as [b|x|b|l|b|l|x| |x|i x]; try contradiction HV;
      try (cbn [valid] in HV; destruct vs as [|[]]; contradiction); cbn [summary_ty summary_val]; auto.
    - destruct (packed a); [auto|]. cbn [number spec_decoration]. auto.
    - destruct (packed a); [auto|]. cbn [number spec_decoration]. auto.
    - destruct (packed a); [auto|]. cbn [number spec_decoration]. unfold blen. rewrite map_length. auto.
    - cbn [number spec_decoration]. apply IH; auto.
    - apply valid_variant in HV as (u & EN & HV). rewrite nth_error_map, EN. auto.
    - apply valid_payload in HV as (u & EN & HV). rewrite nth_error_map, EN. auto.
  Qed.

  Lemma roots_kept t : root_kept t.
  Proof.
    assert (HB : forall u, kids_kept u -> root_kept u).
    { intros u HK m v HV. destruct m as [| |ms].
      - rewrite summary_keep, summary_val_keep. reflexivity.
      - rewrite summary_cut, summary_val_cut. apply node_root, with_blen; auto.
      - assert (HI : inside u (Below ms) = true) by (destruct u; auto; contradiction HK).
        rewrite !with_root_of_chunks by (auto using summary_valid). rewrite chunks_below by auto.
        destruct (summary_count u (Below ms) HI) as [-> _]. destruct (number_kept u (Below ms) v HI HV) as [_ ->]. reflexivity. }
    induction t using ty_ind'; try (apply HB; cbn [kids_kept]; auto; fail).
    intros m v HV. destruct m as [| |ms].
    - rewrite summary_keep, summary_val_keep. reflexivity.
    - rewrite summary_cut, summary_val_cut. apply node_root, with_blen; auto.
    - destruct v; try contradiction HV. cbn [summary_ty summary_val root_with]. apply IHt. exact HV.
  Qed.

  Lemma chunks_kept t : forall m v, inside t m = true -> valid t v ->
    chunks_with packed H (summary_ty t m) (summary_val H t v m) = chunks_with packed H t v.
  Proof.
    induction t using ty_ind'; intros m v HI HV; destruct m as [| |ms]; try discriminate HI;
      try (rewrite summary_keep, summary_val_keep; reflexivity);
      try (apply chunks_below; [cbn [kids_kept]; auto; try exact (roots_kept _); apply Forall_forall; intros x _; try exact (roots_kept _); try (destruct x; cbn [opt_holds]; auto; exact (roots_kept _))|exact HV]).
    destruct v; try contradiction HV. cbn [summary_ty summary_val chunks_with]. apply IHt; auto.
  Qed.

  (** ** Proofs *)

  Lemma leaves_kept t m : inside t m = true -> leaves (summary_ty t m) = leaves t.
  Proof.
    intros HI. unfold leaves. destruct (summary_count t m HI) as [_ ->].
    assert (HD : decorated (summary_ty t m) = decorated t); [|rewrite HD; reflexivity].
    unfold decorated. pose proof (summary_resolve t m) as HR. rewrite HI in HR. destruct HR as (k & HK & ->).
    destruct k as [| |ms]; [rewrite summary_keep; reflexivity|congruence|].
    destruct (resolve t); cbn [summary_ty]; try (destruct (packed t0)); reflexivity.
  Qed.

  Lemma tree_made_kept t m v : inside t m = true -> valid t v -> (match t with TNewtype _ => False | _ => True end) ->
    tree_made (summary_ty t m) (summary_val H t v m) = tree_made t v.
  Proof.
    intros HI HV HN. unfold tree_made. rewrite leaves_kept by auto. f_equal.
    destruct m as [| |ms]; [rewrite summary_keep, summary_val_keep; reflexivity|destruct t; discriminate HI|].
    destruct t as [|s| | |a n|a n|a n|n|n|fs|a|a|vs|ts]; try contradiction HN; try reflexivity;
      destruct v as [b|x|b|l|b|l|x| |x|i x]; try contradiction HV; cbn [summary_ty summary_val]; try reflexivity.
    - destruct (packed a) eqn:EP; [reflexivity|]. unfold blen. rewrite map_length.
      destruct (summary_item_length a (hd Keep ms) EP) as [-> _]. destruct (plain_item_length a EP) as [-> _]. reflexivity.
    - destruct (packed a) eqn:EP; [reflexivity|]. unfold blen. rewrite map_length.
      destruct (summary_item_length a (hd Keep ms) EP) as [-> _]. destruct (plain_item_length a EP) as [-> _]. reflexivity.
    - destruct (packed a) eqn:EP; [reflexivity|]. unfold blen. rewrite map_length.
      destruct (summary_item_length a (hd Keep ms) EP) as [-> _]. destruct (plain_item_length a EP) as [-> _]. reflexivity.
  Qed.

  Lemma node_kept t m v : inside t m = true -> valid t v -> forall g, tree_node H (summary_ty t m) (summary_val H t v m) g = tree_node H t v g.
  Proof.
    intros HI HV g. unfold tree_node. rewrite leaves_kept, chunks_kept by auto. destruct (number_kept t m v HI HV) as [-> _]. reflexivity.
  Qed.

  Lemma siblings_kept t m v : inside t m = true -> valid t v ->
    forall d g, siblings H (summary_ty t m) (summary_val H t v m) d g = siblings H t v d g.
  Proof.
    intros HI HV d. induction d as [|d IH]; intros g; cbn [siblings]; [reflexivity|]. rewrite node_kept, IH by auto. reflexivity.
  Qed.

  (** Nothing is found below a root. *)
  Lemma probe_cut t : forall m v g, inside t m = false -> valid t v -> 2 <= g -> probe (summary_ty t m) (summary_val H t v m) g <> Made.
  Proof.
    assert (HC : forall r g, 2 <= g -> probe TNode (VNode r) g <> Made).
    { intros r g Hg. cbn [probe]. replace (g =? 0) with false by lia. change (leaves TNode) with 1. change (N.log2 1) with 0.
      rewrite N.sub_0_r. assert (1 <= N.log2 g) by (change 1 with (N.log2 2); apply N.log2_le_mono; exact Hg).
      replace (N.log2 g =? 0) with false by lia. discriminate. }
    induction t using ty_ind'; intros m v g HI HV Hg; destruct m as [| |ms]; try discriminate HI;
      try (rewrite summary_cut, summary_val_cut; apply HC; exact Hg).
    destruct v; try contradiction HV. cbn [summary_ty summary_val probe]. apply IHt; auto.
  Qed.

  Lemma inner_kept_all I' I own (F' F : bytes * list bytes) up : (I' = Made -> I = Made /\ F' = F) -> and_then I' own = Made ->
    and_then I own = Made /\ (fst F', snd F' ++ up) = (fst F, snd F ++ up).
  Proof. intros HI HA. destruct I'; try discriminate HA. destruct (HI eq_refl) as [-> ->]. split; [exact HA|reflexivity]. Qed.

  Definition proof_kept (t : ty) : Prop := forall m v g, inside t m = true -> valid t v ->
    probe (summary_ty t m) (summary_val H t v m) g = Made ->
    probe t v g = Made /\ found H (summary_ty t m) (summary_val H t v m) g = found H t v g.

  Lemma inner_kept u k x c : proof_kept u -> valid u x -> 2 <= c -> probe (summary_ty u k) (summary_val H u x k) c = Made ->
    probe u x c = Made /\ found H (summary_ty u k) (summary_val H u x k) c = found H u x c.
  Proof.
    intros HU HV Hc HP. destruct (inside u k) eqn:EI; [apply HU; auto|]. destruct (probe_cut u k x c EI HV Hc HP).
  Qed.

  Lemma proofs_kept t : proof_kept t.
  Proof.
    assert (HC : forall m g, (m =? 0) = false -> 2 <= 2 ^ m + g mod 2 ^ m).
    { intros m g Hm. assert (2 ^ 1 <= 2 ^ m) by (apply N.pow_le_mono_r; lia). change (2 ^ 1) with 2 in *. lia. }
    induction t as [|s| | |a n IH|a n IH|a n IH|n|n|fs IH|a IH|a IH|vs IH|ts IH] using ty_ind'; intros m v g HI HV; destruct m as [| |ms];
      try discriminate HI; try (rewrite summary_keep, summary_val_keep; intros HP; split; [exact HP|reflexivity]);
      try (intros HP; split; [exact HP|reflexivity]);
      destruct v as [b|x|b|l|b|l|x| |x|i x]; try contradiction HV;
      try (cbn [valid] in HV; destruct vs as [|[]]; contradiction);
      try (cbn [summary_ty summary_val probe found]; apply IH; [exact HI|exact HV]);
      match type of HI with inside ?t _ = true =>
        pose proof (leaves_kept t (Below ms) HI) as EL;
        match type of HV with valid _ ?v =>
          pose proof (tree_made_kept t (Below ms) v HI HV I) as ET;
          pose proof (node_kept t (Below ms) v HI HV) as EN;
          pose proof (siblings_kept t (Below ms) v HI HV) as ES
        end
      end; cbn [summary_ty summary_val] in *.
    - destruct (packed a) eqn:EP; [intros HP; split; [exact HP|reflexivity]|]. cbn [probe found]. rewrite EL, ET, EN, ES. clear EL ET EN ES.
      destruct (g =? 0); [discriminate|]. set (m := N.log2 g - N.log2 (leaves _)). destruct (m =? 0) eqn:EM; [auto|].
      specialize (HC m g EM). set (c := 2 ^ m + g mod 2 ^ m) in *. set (j := g / 2 ^ m - leaves _). apply inner_kept_all.
      destruct (n <=? j); [discriminate|]. rewrite nth_error_map. destruct HV as [_ HV]. rewrite Forall_forall in HV.
      destruct (nth_error l (N.to_nat j)) as [x|] eqn:EX; cbn [option_map]; [|discriminate]. apply inner_kept; auto. apply HV. eapply nth_error_In; eauto.
    - destruct (packed a) eqn:EP; [intros HP; split; [exact HP|reflexivity]|]. cbn [probe found]. rewrite EL, ET, EN, ES. clear EL ET EN ES.
      destruct (g =? 0); [discriminate|]. set (m := N.log2 g - N.log2 (leaves _)). destruct (m =? 0) eqn:EM; [auto|].
      specialize (HC m g EM). set (c := 2 ^ m + g mod 2 ^ m) in *. set (j := g / 2 ^ m - leaves _). apply inner_kept_all.
      destruct (n <=? j); [discriminate|]. rewrite nth_error_map. destruct HV as [_ HV]. rewrite Forall_forall in HV.
      destruct (nth_error l (N.to_nat j)) as [x|] eqn:EX; cbn [option_map]; [|discriminate]. apply inner_kept; auto. apply HV. eapply nth_error_In; eauto.
    - destruct (packed a) eqn:EP; [intros HP; split; [exact HP|reflexivity]|]. cbn [probe found]. rewrite EL, ET, EN, ES. clear EL ET EN ES.
      destruct (g =? 0); [discriminate|]. set (m := N.log2 g - N.log2 (leaves _)). destruct (m =? 0) eqn:EM; [auto|].
      specialize (HC m g EM). set (c := 2 ^ m + g mod 2 ^ m) in *. set (j := g / 2 ^ m - leaves _). apply inner_kept_all.
      destruct (n <=? j); [discriminate|]. rewrite nth_error_map. destruct HV as [_ HV]. rewrite Forall_forall in HV.
      destruct (nth_error l (N.to_nat j)) as [x|] eqn:EX; cbn [option_map]; [|discriminate]. apply inner_kept; auto. apply HV. eapply nth_error_In; eauto.
    - cbn [probe found]. rewrite EL, ET, EN, ES. clear EL ET EN ES.
      destruct (g =? 0); [discriminate|]. set (m := N.log2 g - N.log2 (leaves _)). destruct (m =? 0) eqn:EM; [auto|].
      specialize (HC m g EM). set (c := 2 ^ m + g mod 2 ^ m) in *. set (j := N.to_nat (g / 2 ^ m - leaves _)). apply inner_kept_all.
      cbn [valid] in HV. rewrite Forall2_fun_map in HV. clearbody c j m. clear HI. revert l HV ms j.
      induction IH as [|f fs Hf _ IHfs]; intros l HV ms j; inversion HV; subst; cbn [map each combine]; [destruct j; discriminate|].
      destruct j as [|j]; cbn [nth_error fst snd]; [|apply IHfs; auto]. apply inner_kept; auto.
    - cbn [probe found]. rewrite EL, ET, EN, ES. clear EL ET EN ES.
      destruct (g =? 0); [discriminate|]. set (m := N.log2 g - N.log2 (leaves _)). destruct (m =? 0) eqn:EM; [auto|].
      discriminate.
    - cbn [probe found]. rewrite EL, ET, EN, ES. clear EL ET EN ES.
      destruct (g =? 0); [discriminate|]. set (m := N.log2 g - N.log2 (leaves _)). destruct (m =? 0) eqn:EM; [auto|].
      specialize (HC m g EM). set (c := 2 ^ m + g mod 2 ^ m) in *. apply inner_kept_all. apply inner_kept; auto.
    - cbn [probe found]. rewrite EL, ET, EN, ES. clear EL ET EN ES.
      destruct (g =? 0); [discriminate|]. set (m := N.log2 g - N.log2 (leaves _)). destruct (m =? 0) eqn:EM; [auto|].
      unfold blen. rewrite each_length, map_length. destruct (_ <=? _); discriminate.
    - apply valid_variant in HV as (u & EV & HV). rewrite nth_error_map, EV in *. cbn [option_map] in *.
      cbn [probe found]. rewrite EL, ET, EN, ES. clear EL ET EN ES.
      destruct (g =? 0); [discriminate|]. set (m := N.log2 g - N.log2 (leaves _)). destruct (m =? 0) eqn:EM; [auto|].
      specialize (HC m g EM). set (c := 2 ^ m + g mod 2 ^ m) in *. set (j := g / 2 ^ m - leaves _). apply inner_kept_all.
      unfold blen. rewrite each_length, map_length. destruct (_ <=? j); [discriminate|].
      rewrite !nth_error_map, each_nth, nth_error_map, EV. cbn [option_map]. apply inner_kept; auto.
      rewrite Forall_forall in IH. exact (IH _ (nth_error_In _ _ EV)).
    - apply valid_payload in HV as (u & EV & HV). rewrite nth_error_map, EV in *. cbn [option_map] in *.
      cbn [probe found]. rewrite EL, ET, EN, ES. clear EL ET EN ES.
      destruct (g =? 0); [discriminate|]. set (m := N.log2 g - N.log2 (leaves _)). destruct (m =? 0) eqn:EM; [auto|].
      specialize (HC m g EM). set (c := 2 ^ m + g mod 2 ^ m) in *. set (j := g / 2 ^ m - leaves _). apply inner_kept_all.
      unfold blen. rewrite each_length, map_length. destruct (_ <=? j); [discriminate|].
      rewrite !nth_error_map, each_nth, nth_error_map, EV. cbn [option_map]. apply inner_kept; auto.
      rewrite Forall_forall in IH. exact (IH _ (nth_error_In _ _ EV)).
  Qed.
End Hash.
