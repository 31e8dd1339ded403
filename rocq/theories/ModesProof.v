(** Builds with and without overflow checks. *)
From Coq Require Import String List NArith ZArith Bool Lia ZifyBool ZifyNat ZifyN.
From Coq Require Import Strings.Byte.
From Verif Require Import Prelude Types Bitvec Ser De Impls Api Valid Merkleize Proofs MerkImpls Multiproofs Text Lib SpecModes.
Import ListNotations.
Open Scope N_scope.

(** ** Sequencing *)

Lemma ma_refl {E A} (r : res E A) : modes_agree r r.
Proof. destruct r as [a|e|[]]; cbn; auto. Qed.

Lemma ma_bind {E A B} (x y : res E A) (f g : A -> res E B) :
  modes_agree x y -> (forall a, x = Ok a -> modes_agree (f a) (g a)) -> modes_agree (bind x f) (bind y g).
Proof. destruct x as [a|e|[]]; cbn [modes_agree]; intros HX HF; subst; cbn [bind modes_agree]; auto. Qed.

Lemma ma_map_err {E F A} (f : E -> F) (x y : res E A) : modes_agree x y -> modes_agree (map_err f x) (map_err f y).
Proof. destruct x as [a|e|[]]; cbn [modes_agree]; intros HX; subst; cbn [map_err modes_agree]; auto. Qed.

Lemma ma_mapM {E A B} (f g : A -> res E B) l : (forall a, In a l -> modes_agree (f a) (g a)) -> modes_agree (mapM f l) (mapM g l).
Proof.
  induction l as [|a l IH]; intros HF; cbn [mapM]; [apply ma_refl|]. apply ma_bind; [apply HF; left; reflexivity|]. intros y _.
  apply ma_bind; [apply IH; intros b Hb; apply HF; right; exact Hb|]. intros ys _. apply ma_refl.
Qed.

Lemma ma_foldM {E A S} (f g : S -> A -> res E S) l : (forall s a, In a l -> modes_agree (f s a) (g s a)) -> forall s,
  modes_agree (foldM f s l) (foldM g s l).
Proof.
  induction l as [|a l IH]; intros HF s; cbn [foldM]; [apply ma_refl|]. apply ma_bind; [apply HF; left; reflexivity|]. intros y _.
  apply IH. intros. apply HF. right. auto.
Qed.

Lemma ma_foldM2 {E A B S} (f : S -> A -> res E S) (g : S -> B -> res E S) l m :
  Forall2 (fun a b => forall s, modes_agree (f s a) (g s b)) l m -> forall s, modes_agree (foldM f s l) (foldM g s m).
Proof.
  induction 1 as [|a b l m HF _ IH]; intros s; cbn [foldM]; [apply ma_refl|]. apply ma_bind; [apply HF|]. intros y _. apply IH.
Qed.

(** ** Arithmetic *)

Lemma ma_uadd {E} a b : @modes_agree E _ (uadd true a b) (uadd false a b).
Proof. unfold uadd. destruct (_ <? _); cbn; auto. Qed.
Lemma ma_umul {E} a b : @modes_agree E _ (umul true a b) (umul false a b).
Proof. unfold umul. destruct (_ <? _); cbn; auto. Qed.
Lemma ma_usub {E} a b : @modes_agree E _ (usub true a b) (usub false a b).
Proof. unfold usub. destruct (_ <=? _); cbn; auto. Qed.
Lemma ma_upow2 {E} a : @modes_agree E _ (upow2 true a) (upow2 false a).
Proof. unfold upow2. destruct (_ <? _); cbn; auto. Qed.
Lemma ma_next {E} a : @modes_agree E _ (next_power_of_two true a) (next_power_of_two false a).
Proof. unfold next_power_of_two. destruct (_ <? _); cbn; auto. Qed.
Lemma ma_u32_add {E} a b : @modes_agree E _ (u32_add true a b) (u32_add false a b).
Proof. unfold u32_add. destruct (_ <? _); cbn; auto. Qed.

Ltac modes1 :=
  match goal with
  | |- modes_agree ?x ?x => apply ma_refl
  | |- modes_agree (uadd true _ _) (uadd false _ _) => apply ma_uadd
  | |- modes_agree (umul true _ _) (umul false _ _) => apply ma_umul
  | |- modes_agree (usub true _ _) (usub false _ _) => apply ma_usub
  | |- modes_agree (upow2 true _) (upow2 false _) => apply ma_upow2
  | |- modes_agree (next_power_of_two true _) (next_power_of_two false _) => apply ma_next
  | |- modes_agree (get_power_of_two_ceil true _) (get_power_of_two_ceil false _) => apply ma_next
  | |- modes_agree (map_err _ _) (map_err _ _) => apply ma_map_err
  | H : _ |- _ => solve [apply H]
  | |- modes_agree (bind _ _) (bind _ _) => apply ma_bind; [|let a := fresh "a" in intros a _; try (destruct a; [idtac])]
  | |- modes_agree (if ?b then _ else _) (if ?b then _ else _) => destruct b
  | |- modes_agree (match ?x with _ => _ end) (match ?x with _ => _ end) => destruct x
  | |- modes_agree (let x := _ in _) _ => cbv zeta
  end.
Ltac modes := repeat modes1.

(** ** Serializing *)

Lemma wa_refl (x : ser_result) : writes_agree x x.
Proof. unfold writes_agree. destruct (snd x) as [a|e|[]]; auto. Qed.

Lemma wa_bind x y f g : writes_agree x y -> (forall b n, writes_agree (f b n) (g b n)) -> writes_agree (ser_bind x f) (ser_bind y g).
Proof.
  unfold writes_agree at 1. destruct x as [b [n|e|[]]]; cbn [snd]; intros HX HF; subst; cbn [ser_bind]; try (apply HF); try apply wa_refl;
  unfold writes_agree; cbn [snd]; auto.
Qed.

(** Two implementations of a type. *)
Record impls_agree (T U : Serializable) : Prop := {
  ia_variable : is_variable_size U = is_variable_size T;
  ia_hint : size_hint U = size_hint T;
  ia_write : forall v buf, writes_agree (serialize T v buf) (serialize U v buf);
  ia_read : forall b, modes_agree (deserialize T b) (deserialize U b)
}.

Lemma ia_refl T : impls_agree T T.
Proof. constructor; auto; intros; [apply wa_refl|apply ma_refl]. Qed.

Lemma ma_write_parts ps : forall r buf, writes_agree (write_parts true ps r buf) (write_parts false ps r buf).
Proof.
  induction ps as [|[d|o] ps IH]; intros r buf; cbn [write_parts]; [apply wa_refl|apply IH|].
  apply wa_bind; [apply wa_refl|]. intros b n. cbn [andb]. destruct (negb _); [exact I|].
  unfold u32_add. destruct (_ <? _); [apply IH|exact I].
Qed.

Lemma ma_with_element T U s v : impls_agree T U -> modes_agree (with_element T s v) (with_element U s v).
Proof.
  intros HI. unfold with_element. pose proof (ia_write T U HI v []) as HW. rewrite (ia_variable T U HI). unfold writes_agree in HW.
  destruct (serialize T v []) as [b [n|e|[]]]; cbn [snd] in HW; try exact I; rewrite HW; try reflexivity.
  destruct (is_variable_size T); reflexivity.
Qed.

Lemma wa_elements xs ys buf : Forall2 (fun x y => impls_agree (fst x) (fst y) /\ snd y = snd x) xs ys ->
  writes_agree (serialize_elements true xs buf) (serialize_elements false ys buf).
Proof.
  intros HF. unfold serialize_elements.
  assert (HM : modes_agree (foldM (fun s e => with_element (fst e) s (snd e)) serializer_default xs)
                           (foldM (fun s e => with_element (fst e) s (snd e)) serializer_default ys)).
  { apply ma_foldM2. eapply Forall2_weaken; [|exact HF]. intros [T v] [U w] [H1 H2] s. cbn [fst snd] in *. subst w. apply ma_with_element. exact H1. }
  destruct (foldM _ serializer_default xs) as [s|e|[]]; cbn [modes_agree] in HM; try exact I; rewrite HM; try apply wa_refl.
  unfold serializer_serialize. destruct (_ <=? _); [apply wa_refl|]. apply wa_bind; [apply ma_write_parts|]. intros. apply wa_refl.
Qed.

Lemma wa_vector T U n v buf : impls_agree T U -> writes_agree (vector_serialize true T n v buf) (vector_serialize false U n v buf).
Proof.
  intros HI. unfold vector_serialize. destruct v; try apply wa_refl. destruct (n =? 0); [apply wa_refl|]. apply wa_elements.
  induction l; cbn [map]; constructor; auto.
Qed.

Lemma wa_list T U n v buf : impls_agree T U -> writes_agree (list_serialize true T n v buf) (list_serialize false U n v buf).
Proof.
  intros HI. unfold list_serialize. destruct v; try apply wa_refl. destruct (n <? blen l); [apply wa_refl|]. apply wa_elements.
  induction l; cbn [map]; constructor; auto.
Qed.

Lemma wa_container fs gs v buf : Forall2 impls_agree fs gs -> writes_agree (container_serialize true fs v buf) (container_serialize false gs v buf).
Proof.
  intros HI. unfold container_serialize. destruct v; try apply wa_refl. rewrite <- (Forall2_length _ _ _ HI). destruct (Nat.eqb _ _); [|apply wa_refl].
  apply wa_elements. revert l. induction HI; intros [|w r]; cbn [combine]; constructor; auto.
Qed.

Lemma wa_selector k T U v buf : impls_agree T U -> writes_agree (selector_serialize k T v buf) (selector_serialize k U v buf).
Proof.
  intros HI. unfold selector_serialize. apply wa_bind; [apply wa_refl|]. intros b n. apply wa_bind; [apply (ia_write T U HI)|]. intros. apply wa_refl.
Qed.

(** ** Deserializing *)

Lemma ma_elements T U b : impls_agree T U -> modes_agree (deserialize_homogeneous_composite true T b) (deserialize_homogeneous_composite false U b).
Proof.
  intros HI. unfold deserialize_homogeneous_composite. rewrite (ia_variable T U HI). destruct (is_variable_size T).
  - unfold deserialize_variable_homogeneous_composite. destruct b as [|x b]; [apply ma_refl|].
    assert (HS : forall a, modes_agree (deserialize_span T (x :: b) a) (deserialize_span U (x :: b) a)).
    { intros [s f]. unfold deserialize_span. pose proof (ia_read T U HI). modes. }
    destruct (get_range _ _ _); [|apply ma_refl]. apply ma_bind; [apply ma_refl|]. intros ol _. destruct (_ <? _); [apply ma_refl|].
    destruct (negb _); [apply ma_refl|]. apply ma_bind; [apply ma_refl|]. intros ob _. apply ma_bind; [apply ma_refl|]. intros cs _.
    apply ma_bind; [apply ma_refl|]. intros os _. apply ma_mapM. auto.
  - unfold deserialize_fixed_homogeneous_composite. rewrite (ia_hint T U HI). unfold rem_len, chunks_exact.
    destruct (size_hint T =? 0); cbn [bind]; [reflexivity|]. destruct (_ =? 0); cbn [bind]; [|exact I].
    apply ma_mapM. intros. apply (ia_read T U HI).
Qed.

Lemma ma_check_length T U n b : impls_agree T U -> modes_agree (check_fixed_length T n b) (check_fixed_length U n b).
Proof. intros HI. unfold check_fixed_length. rewrite (ia_variable T U HI), (ia_hint T U HI). apply ma_refl. Qed.

Lemma ma_vector T U n b : impls_agree T U -> modes_agree (vector_deserialize true T n b) (vector_deserialize false U n b).
Proof.
  intros HI. unfold vector_deserialize. destruct (n =? 0); [apply ma_refl|]. apply ma_bind; [apply ma_check_length; auto|]. intros _ _.
  apply ma_bind; [apply ma_elements; auto|]. intros. apply ma_refl.
Qed.

Lemma ma_array T U n b : impls_agree T U -> modes_agree (array_deserialize true T n b) (array_deserialize false U n b).
Proof.
  intros HI. unfold array_deserialize. destruct (n =? 0); [apply ma_refl|]. apply ma_bind; [apply ma_check_length; auto|]. intros _ _.
  apply ma_bind; [apply ma_elements; auto|]. intros. apply ma_refl.
Qed.

Lemma ma_list T U n b : impls_agree T U -> modes_agree (list_deserialize true T n b) (list_deserialize false U n b).
Proof.
  intros HI. unfold list_deserialize. rewrite (ia_variable T U HI), (ia_hint T U HI). apply ma_bind; [modes|]. intros _ _.
  apply ma_bind; [apply ma_elements; auto|]. intros. apply ma_refl.
Qed.

Lemma ma_bitlist n b : modes_agree (bitlist_deserialize true n b) (bitlist_deserialize false n b).
Proof. unfold bitlist_deserialize, bitlist_byte_length. cbv zeta. modes. Qed.

Lemma ma_parse b d T U : impls_agree T U -> modes_agree (parse true b d T) (parse false b d U).
Proof.
  intros HI. unfold parse, check_offset. cbv zeta. rewrite (ia_variable T U HI), (ia_hint T U HI). modes.
Qed.

Lemma ma_finalize_loop b segs : forall offs total spans, modes_agree (finalize_loop true b segs offs total spans) (finalize_loop false b segs offs total spans).
Proof. induction segs as [|[s f|] segs IH]; intros offs total spans; cbn [finalize_loop]; modes. Qed.

Lemma ma_fields b spans fs gs : Forall2 impls_agree fs gs -> forall i, modes_agree (deserialize_fields b spans i fs) (deserialize_fields b spans i gs).
Proof.
  induction 1 as [|T U fs gs HI _ IH]; intros i; cbn [deserialize_fields]; [apply ma_refl|]. pose proof (ia_read T U HI). modes.
Qed.

Lemma ma_container fs gs b : Forall2 impls_agree fs gs -> modes_agree (container_deserialize true fs b) (container_deserialize false gs b).
Proof.
  intros HI. unfold container_deserialize. apply ma_bind.
  { apply ma_foldM2. eapply Forall2_weaken; [|exact HI]. intros T U HTU s. apply ma_parse. exact HTU. }
  intros d _. apply ma_bind.
  { unfold finalize. apply ma_bind; [apply ma_finalize_loop|]. intros [t s] _. apply ma_refl. }
  intros spans _. apply ma_fields. exact HI.
Qed.

Lemma ma_try fs gs b : Forall2 impls_agree fs gs -> modes_agree (try_variants fs b) (try_variants gs b).
Proof.
  induction 1 as [|T U fs gs HI HF IH]; cbn [try_variants]; [apply ma_refl|]. pose proof (ia_read T U HI b) as HR.
  replace (blen gs) with (blen fs) by (unfold blen; rewrite (Forall2_length _ _ _ HF); reflexivity).
  destruct (deserialize T b) as [v|e|[]]; cbn [modes_agree] in HR; try exact I; rewrite HR; auto; apply ma_refl.
Qed.

Lemma Forall2_map_in {A B C} (P : B -> C -> Prop) (f : A -> B) (g : A -> C) l : (forall a, In a l -> P (f a) (g a)) -> Forall2 P (map f l) (map g l).
Proof.
  induction l as [|a l IH]; intros HP; cbn [map]; constructor; [apply HP; left; reflexivity|]. apply IH. intros b Hb. apply HP. right. exact Hb.
Qed.

Lemma impls_modes t : impls_agree (serializable true t) (serializable false t).
Proof.
  induction t using ty_ind'; cbn [serializable]; try apply ia_refl.
  - constructor; cbn [vector_impl is_variable_size size_hint serialize deserialize].
    + apply (ia_variable _ _ IHt). + rewrite (ia_hint _ _ IHt). reflexivity. + intros. apply wa_vector; auto. + intros. apply ma_vector; auto.
  - constructor; cbn [array_impl is_variable_size size_hint serialize deserialize].
    + apply (ia_variable _ _ IHt). + rewrite (ia_hint _ _ IHt). reflexivity. + intros. apply wa_vector; auto. + intros. apply ma_array; auto.
  - constructor; cbn [list_impl is_variable_size size_hint serialize deserialize]; auto.
    + intros. apply wa_list; auto. + intros. apply ma_list; auto.
  - constructor; cbn [bitlist_impl is_variable_size size_hint serialize deserialize]; auto.
    + intros. apply wa_refl. + intros. apply ma_bitlist.
  - rewrite Forall_forall in H.
    assert (HF : Forall2 impls_agree (map (fun f => serializable true (snd f)) fs) (map (fun f => serializable false (snd f)) fs))
      by (apply Forall2_map_in; exact H).
    assert (HE : existsb is_variable_size (map (fun f => serializable false (snd f)) fs) = existsb is_variable_size (map (fun f => serializable true (snd f)) fs)).
    { clear H. induction HF as [|T U l m HI _ IH]; cbn [existsb]; [reflexivity|]. rewrite IH, (ia_variable T U HI). reflexivity. }
    constructor; cbn [container_impl is_variable_size size_hint serialize deserialize]; auto.
    + rewrite HE.
      assert (HS : map size_hint (map (fun f => serializable false (snd f)) fs) = map size_hint (map (fun f => serializable true (snd f)) fs)).
      { clear H HE. induction HF as [|T U l m HI _ IH]; cbn [map]; [reflexivity|]. rewrite IH, (ia_hint T U HI). reflexivity. }
      rewrite HS. reflexivity.
    + intros. apply wa_container. exact HF.
    + intros b. apply ma_bind; [apply ma_container; exact HF|]. intros. apply ma_refl.
  - constructor; cbn [newtype_impl is_variable_size size_hint serialize deserialize]; rewrite ?(ia_variable _ _ IHt), ?(ia_hint _ _ IHt); auto.
    + intros. destruct v; try apply wa_refl. apply (ia_write _ _ IHt).
    + intros b. apply ma_bind; [apply (ia_read _ _ IHt)|]. intros. apply ma_refl.
  - constructor; cbn [option_impl is_variable_size size_hint serialize deserialize]; auto.
    + intros. unfold option_serialize. destruct v; try apply wa_refl. apply wa_selector. exact IHt.
    + intros b. unfold option_deserialize. pose proof (ia_read _ _ IHt). modes.
  - rewrite Forall_forall in H. constructor; cbn [union_impl is_variable_size size_hint serialize deserialize]; auto.
    + intros. unfold union_serialize. destruct v; try apply wa_refl.
      * destruct vs as [|[]]; apply wa_refl.
      * rewrite !nth_error_map. destruct (nth_error vs (N.to_nat i)) as [[u|]|] eqn:E; cbn [option_map]; try apply wa_refl.
        apply wa_selector. exact (H _ (nth_error_In _ _ E)).
    + intros b. unfold union_deserialize. destruct b as [|x b]; [apply ma_refl|]. rewrite !nth_error_map.
      destruct (nth_error vs (N.to_nat (byte_to_N x))) as [[u|]|] eqn:E; cbn [option_map]; try apply ma_refl.
      pose proof (ia_read _ _ (H _ (nth_error_In _ _ E))). modes.
  - rewrite Forall_forall in H. constructor; cbn [transparent_impl is_variable_size size_hint serialize deserialize]; auto.
    + intros. unfold transparent_serialize. destruct v; try apply wa_refl.
      rewrite !nth_error_map. destruct (nth_error ts (N.to_nat i)) as [u|] eqn:E; cbn [option_map]; try apply wa_refl.
      apply (ia_write _ _ (H _ (nth_error_In _ _ E))).
    + intros b. unfold transparent_deserialize. destruct b as [|x b]; [apply ma_refl|]. apply ma_try. rewrite <- !map_rev. apply Forall2_map_in.
      intros u Hu. apply H. apply in_rev. exact Hu.
Qed.

Lemma serialize_modes t v : modes_agree (ssz_serialize true t v) (ssz_serialize false t v).
Proof.
  unfold ssz_serialize, serialize_to_vec. pose proof (ia_write _ _ (impls_modes t) v []) as HW. unfold writes_agree in HW.
  destruct (serialize (serializable true t) v []) as [b [n|e|[]]]; cbn [snd] in HW; try exact I; rewrite HW; reflexivity.
Qed.

(** ** Roots, indices and proofs *)

Record types_agree (T U : SimpleSerialize) : Prop := {
  ta_ser : impls_agree (ser T) (ser U);
  ta_root : forall v, modes_agree (hash_tree_root T v) (hash_tree_root U v);
  ta_composite : is_composite_type U = is_composite_type T;
  ta_item : item_length U = item_length T;
  ta_count : modes_agree (chunk_count T) (chunk_count U);
  ta_index : forall i path, modes_agree (compute_generalized_index T i path) (compute_generalized_index U i path);
  ta_chunks : forall v, modes_agree (chunks T v) (chunks U v);
  ta_prove : forall v i p, modes_agree (prove_element T v i p) (prove_element U v i p);
  ta_decoration : forall v, decoration U v = decoration T v
}.

Lemma ta_refl T : types_agree T T.
Proof. constructor; auto using ia_refl, ma_refl. Qed.

Lemma ma_ser_to_merkle x y : writes_agree x y -> modes_agree (ser_to_merkle x) (ser_to_merkle y).
Proof.
  unfold writes_agree. destruct x as [b [n|e|[]]]; cbn [snd]; intros HX; try exact I; subst; apply ma_refl.
Qed.

Lemma ma_pack T U l : impls_agree T U -> modes_agree (pack T l) (pack U l).
Proof.
  intros HI. unfold pack. apply ma_bind; [|intros; apply ma_refl]. apply ma_foldM. intros s a _. apply ma_ser_to_merkle. apply (ia_write _ _ HI).
Qed.

Section Hash.
  Context (H : bytes -> bytes) (CONTEXT : bytes).

  Lemma ma_assert b : modes_agree (debug_assert true b) (debug_assert false b).
  Proof. unfold debug_assert. cbn [andb]. destruct b; cbn [negb modes_agree]; auto. Qed.

  Lemma ma_assert_power n : modes_agree (do p <- next_power_of_two true n; debug_assert true (p =? n)) (Ok tt).
  Proof.
    unfold next_power_of_two. destruct (_ <? _); cbn [bind]; [|exact I]. unfold debug_assert. cbn [andb]. destruct (negb _); exact I || reflexivity.
  Qed.

  Lemma ma_pair height k i last layer : modes_agree (merkleize_pair H CONTEXT true height k i last layer) (merkleize_pair H CONTEXT false height k i last layer).
  Proof. unfold merkleize_pair. cbv zeta. modes. Qed.

  Lemma ma_layer fuel : forall height k limit i last layer,
    modes_agree (merkleize_layer H CONTEXT true fuel height k limit i last layer) (merkleize_layer H CONTEXT false fuel height k limit i last layer).
  Proof.
    induction fuel as [|fuel IH]; intros; cbn [merkleize_layer]; destruct (_ <? limit); try apply ma_refl; destruct (last <? i); try apply ma_refl.
    apply ma_bind; [apply ma_pair|]. intros. apply IH.
  Qed.

  Lemma ma_layers n : forall height last layer,
    modes_agree (merkleize_layers H CONTEXT true n height last layer) (merkleize_layers H CONTEXT false n height last layer).
  Proof.
    induction n as [|n IH]; intros; cbn [merkleize_layers]; [apply ma_refl|]. cbv zeta. apply ma_bind; [apply ma_upow2|]. intros.
    apply ma_bind; [apply ma_layer|]. intros. apply IH.
  Qed.

  Lemma ma_padding chunks n : modes_agree (merkleize_chunks_with_virtual_padding H CONTEXT true chunks n)
                                          (merkleize_chunks_with_virtual_padding H CONTEXT false chunks n).
  Proof.
    unfold merkleize_chunks_with_virtual_padding. apply ma_bind; [apply ma_assert|]. intros _ _.
    apply ma_bind; [apply ma_assert_power|]. intros _ _. apply ma_bind; [apply ma_assert|]. intros _ _. cbv zeta.
    destruct (_ =? 0); [apply ma_refl|]. apply ma_bind; [apply ma_layers|]. intros. apply ma_refl.
  Qed.

  Lemma ma_merkleize chunks limit : modes_agree (merkleize H CONTEXT true chunks limit) (merkleize H CONTEXT false chunks limit).
  Proof.
    unfold merkleize. apply ma_bind; [apply ma_assert|]. intros _ _. cbv zeta. apply ma_bind; [apply ma_next|]. intros.
    destruct limit; [|apply ma_padding]. destruct (_ <? _); [apply ma_refl|]. apply ma_bind; [apply ma_next|]. intros. apply ma_padding.
  Qed.

  Lemma ma_fill f g : (forall v, modes_agree (f v) (g v)) -> forall l i c, modes_agree (fill_chunks f i l c) (fill_chunks g i l c).
  Proof. intros HF. induction l as [|v l IH]; intros i c; cbn [fill_chunks]; modes. Qed.

  Lemma ma_tree_range i : modes_agree (tree_range true i) (tree_range false i).
  Proof. unfold tree_range. modes. Qed.

  Lemma ma_tree_index t i : modes_agree (tree_index true t i) (tree_index false t i).
  Proof. unfold tree_index. apply ma_bind; [apply ma_tree_range|]. intros [] _. apply ma_refl. Qed.

  Lemma ma_tree_write t i n : modes_agree (tree_write true t i n) (tree_write false t i n).
  Proof.
    unfold tree_write. apply ma_bind; [apply ma_tree_index|]. intros. destruct (_ =? _); [|apply ma_refl].
    apply ma_bind; [apply ma_tree_range|]. intros [] _. apply ma_refl.
  Qed.

  Lemma ma_tree_decoration t d : modes_agree (tree_mix_in_decoration H true t d) (tree_mix_in_decoration H false t d).
  Proof.
    unfold tree_mix_in_decoration. apply ma_bind; [apply ma_refl|]. intros. apply ma_bind; [apply ma_tree_write|]. intros.
    apply ma_bind; [apply ma_tree_index|]. intros. apply ma_bind; [apply ma_tree_index|]. intros. apply ma_tree_write.
  Qed.

  Lemma ma_tree c n : modes_agree (compute_merkle_tree H true c n) (compute_merkle_tree H false c n).
  Proof.
    unfold compute_merkle_tree. apply ma_bind; [apply ma_assert|]. intros _ _. apply ma_bind; [apply ma_assert_power|]. intros _ _.
    modes. apply ma_foldM. intros s i _. unfold tree_step. cbv zeta. modes.
  Qed.

  Lemma ma_get_index i d : modes_agree (get_index true i d) (get_index false i d).
  Proof. unfold get_index. modes. Qed.

  Lemma ma_coordinates i n : modes_agree (compute_local_merkle_coordinates true i n) (compute_local_merkle_coordinates false i n).
  Proof. unfold compute_local_merkle_coordinates. modes. apply ma_get_index. Qed.

  Lemma ma_branches n : forall t i p, modes_agree (extend_branches true n t i p) (extend_branches false n t i p).
  Proof.
    induction n as [|n IH]; intros; cbn [extend_branches]; [apply ma_refl|]. apply ma_bind.
    { destruct (negb _); [apply ma_tree_index|]. apply ma_bind; [apply ma_uadd|]. intros. apply ma_tree_index. }
    intros. apply ma_bind; [apply ma_refl|]. intros. apply IH.
  Qed.

  Lemma ma_proof T U v p : types_agree T U -> modes_agree (compute_proof H true T v p) (compute_proof H false U v p).
  Proof.
    intros HT. unfold compute_proof. cbv zeta. apply ma_bind; [apply (ta_count T U HT)|]. intros. apply ma_bind; [apply ma_next|]. intros.
    rewrite (ta_decoration T U HT). apply ma_bind; [modes|]. intros. apply ma_bind; [apply ma_coordinates|]. intros [[ld li] lg] _.
    apply ma_bind.
    { destruct (_ <? _); [|apply ma_refl]. modes. }
    intros. apply ma_bind; [apply (ta_chunks T U HT)|]. intros. apply ma_bind; [apply ma_tree|]. intros.
    apply ma_bind; [destruct (decoration T v); [apply ma_tree_decoration|apply ma_refl]|]. intros.
    apply ma_bind; [destruct (negb _); [apply ma_bind; [apply ma_tree_index|]; intros; apply ma_refl|apply ma_refl]|]. intros.
    apply ma_bind; [apply ma_branches|]. intros. apply ma_bind; [apply ma_tree_index|]. intros. apply ma_refl.
  Qed.

  Lemma ma_assemble T U v : types_agree T U -> modes_agree (assemble_chunks T v) (assemble_chunks U v).
  Proof.
    intros HT. unfold assemble_chunks. rewrite (ta_composite T U HT). destruct v; try apply ma_refl.
    destruct (is_composite_type T); [apply ma_fill, (ta_root T U HT)|apply ma_pack, (ta_ser T U HT)].
  Qed.

  Lemma ma_seq_count T U n : types_agree T U -> modes_agree (seq_chunk_count true T n) (seq_chunk_count false U n).
  Proof. intros HT. unfold seq_chunk_count. rewrite (ta_item T U HT). modes. Qed.

  Lemma ma_vector_index T U n i path : types_agree T U ->
    modes_agree (vector_compute_generalized_index true T n i path) (vector_compute_generalized_index false U n i path).
  Proof.
    intros HT. unfold vector_compute_generalized_index. rewrite (ta_item T U HT). destruct path as [|[j|f| |] path]; try apply ma_refl.
    destruct (n <=? j); [apply ma_refl|]. apply ma_bind; [apply ma_umul|]. intros. cbv zeta. apply ma_bind; [apply ma_seq_count, HT|]. intros.
    modes.
  Qed.

  Lemma ma_list_index T U n i path : types_agree T U ->
    modes_agree (list_compute_generalized_index true T n i path) (list_compute_generalized_index false U n i path).
  Proof.
    intros HT. unfold list_compute_generalized_index. rewrite (ta_item T U HT). destruct path as [|[j|f| |] path]; try apply ma_refl.
    - destruct (n <=? j); [apply ma_refl|]. apply ma_bind; [apply ma_umul|]. intros. cbv zeta. apply ma_bind; [apply ma_umul|]. intros.
      apply ma_bind; [apply ma_seq_count, HT|]. intros. modes.
    - modes.
  Qed.

  Lemma ma_seq_prove T U n v i p : types_agree T U -> modes_agree (seq_prove_element H true T n v i p) (seq_prove_element H false U n v i p).
  Proof.
    intros HT. unfold seq_prove_element. destruct v; try apply ma_refl. destruct (n <=? i); [apply ma_refl|].
    apply ma_bind; [apply ma_refl|]. intros. apply ma_proof, HT.
  Qed.

  Lemma ma_vector_root T U v : types_agree T U -> modes_agree (vector_hash_tree_root H CONTEXT true T v) (vector_hash_tree_root H CONTEXT false U v).
  Proof. intros HT. unfold vector_hash_tree_root. apply ma_bind; [apply ma_assemble, HT|]. intros. apply ma_merkleize. Qed.

  Lemma ma_list_root T U n v : types_agree T U -> modes_agree (list_hash_tree_root H CONTEXT true T n v) (list_hash_tree_root H CONTEXT false U n v).
  Proof.
    intros HT. unfold list_hash_tree_root. destruct v; try apply ma_refl. apply ma_bind; [apply ma_assemble, HT|]. intros.
    apply ma_bind; [|intros; apply ma_refl]. rewrite (ta_composite T U HT). destruct (is_composite_type T); [apply ma_merkleize|].
    apply ma_bind; [|intros; apply ma_merkleize]. unfold list_inherent_chunk_count. rewrite (ia_hint _ _ (ta_ser T U HT)). modes.
  Qed.

  Lemma ma_fill_fields fs gs : Forall2 types_agree fs gs -> forall l i c, modes_agree (fill_fields i (combine fs l) c) (fill_fields i (combine gs l) c).
  Proof.
    induction 1 as [|T U fs gs HT _ IH]; intros [|v l] i c; cbn [combine fill_fields]; try apply ma_refl.
    apply ma_bind; [apply (ta_root T U HT)|]. intros. apply ma_bind; [apply ma_refl|]. intros. apply IH.
  Qed.

  Definition named_agree (f g : string * SimpleSerialize) : Prop := fst g = fst f /\ types_agree (snd f) (snd g).

  Lemma ma_by_field count fs gs : Forall2 named_agree fs gs -> forall i parent rest field,
    modes_agree (by_field true count i fs parent rest field) (by_field false count i gs parent rest field).
  Proof.
    induction 1 as [|[a T] [b U] fs gs [HA HT] _ IH]; intros; cbn [by_field fst snd] in *; [apply ma_refl|]. subst b.
    destruct (String.eqb field a); [|apply IH]. cbv zeta. modes.
  Qed.

  Lemma named_types fs gs : Forall2 named_agree fs gs -> Forall2 types_agree (map snd fs) (map snd gs).
  Proof. induction 1 as [|f g fs gs [_ HT] _ IH]; cbn [map]; constructor; auto. Qed.

  Lemma ma_assemble_fields fs gs v : Forall2 types_agree fs gs -> modes_agree (container_assemble_chunks fs v) (container_assemble_chunks gs v).
  Proof.
    intros HF. unfold container_assemble_chunks, blen. rewrite <- (Forall2_length _ _ _ HF). destruct v; try apply ma_refl.
    destruct (Nat.eqb _ _); [|apply ma_refl]. apply ma_fill_fields, HF.
  Qed.

  Lemma ma_container_prove fs gs v i p : Forall2 types_agree fs gs ->
    modes_agree (container_prove_element H true fs v i p) (container_prove_element H false gs v i p).
  Proof.
    intros HF. unfold container_prove_element. rewrite <- (Forall2_blen _ _ _ HF). destruct v; try apply ma_refl.
    destruct (_ <=? i); [apply ma_refl|]. generalize (N.to_nat i) as k. intros k.
    revert l k. induction HF as [|T U fs gs HT _ IH]; intros [|x l] [|k]; cbn [combine nth_error]; try apply ma_refl; [apply ma_proof, HT|apply IH].
  Qed.

  Lemma Forall2_nth_both {A B} (P : A -> B -> Prop) l m : Forall2 P l m -> forall k,
    (nth_error l k = None /\ nth_error m k = None) \/ exists a b, nth_error l k = Some a /\ nth_error m k = Some b /\ P a b.
  Proof. induction 1 as [|a b l m HP _ IH]; intros [|k]; cbn [nth_error]; eauto 6. Qed.

  Definition variant_agree (f g : option SimpleSerialize) : Prop :=
    match f, g with
    | Some T, Some U => types_agree T U
    | None, None => True
    | _, _ => False
    end.

  Lemma ma_union_chunks fs gs v : Forall2 variant_agree fs gs -> modes_agree (union_chunks fs v) (union_chunks gs v).
  Proof.
    intros HF. unfold union_chunks. destruct v; try apply ma_refl.
    - destruct HF as [|[] [] fs gs HP _]; cbn [variant_agree] in *; try contradiction; apply ma_refl.
    - destruct (Forall2_nth_both _ _ _ HF (N.to_nat i)) as [[-> ->]|(a & b & -> & -> & HP)]; [apply ma_refl|].
      destruct a, b; cbn [variant_agree] in HP; try contradiction; [apply (ta_root _ _ HP)|apply ma_refl].
  Qed.

  Lemma ma_union_root fs gs v : Forall2 variant_agree fs gs -> modes_agree (union_hash_tree_root H fs v) (union_hash_tree_root H gs v).
  Proof.
    intros HF. unfold union_hash_tree_root. destruct v; try apply ma_refl.
    - destruct HF as [|[] [] fs gs HP _]; cbn [variant_agree] in *; try contradiction; apply ma_refl.
    - destruct (Forall2_nth_both _ _ _ HF (N.to_nat i)) as [[-> ->]|(a & b & -> & -> & HP)]; [apply ma_refl|].
      destruct a, b; cbn [variant_agree] in HP; try contradiction; [|apply ma_refl].
      apply ma_bind; [apply (ta_root _ _ HP)|]. intros. apply ma_refl.
  Qed.

  Lemma ma_selector i path : modes_agree (selector_generalized_index true i path) (selector_generalized_index false i path).
  Proof. unfold selector_generalized_index. modes. Qed.

  Lemma ma_union_index fs gs i path : Forall2 variant_agree fs gs ->
    modes_agree (union_compute_generalized_index true fs i path) (union_compute_generalized_index false gs i path).
  Proof.
    intros HF. unfold union_compute_generalized_index. rewrite <- (Forall2_blen _ _ _ HF).
    destruct path as [|[j|f| |] path]; try apply ma_refl; [|apply ma_selector].
    destruct (_ <=? j); [apply ma_refl|]. apply ma_bind; [apply ma_umul|]. intros.
    destruct (Forall2_nth_both _ _ _ HF (N.to_nat j)) as [[-> ->]|(x & y & -> & -> & HP)]; [apply ma_refl|].
    destruct x, y; cbn [variant_agree] in HP; try contradiction; [apply (ta_index _ _ HP)|apply ma_refl].
  Qed.

  Lemma ma_union_prove fs gs v i p : Forall2 variant_agree fs gs ->
    modes_agree (union_prove_element H true fs v i p) (union_prove_element H false gs v i p).
  Proof.
    intros HF. unfold union_prove_element. rewrite <- (Forall2_blen _ _ _ HF). destruct (_ <=? i); [apply ma_refl|].
    destruct v; try apply ma_refl; [apply ma_proof, ta_refl|].
    destruct (Forall2_nth_both _ _ _ HF (N.to_nat i0)) as [[-> ->]|(x & y & -> & -> & HP)]; [apply ma_refl|].
    destruct x, y; cbn [variant_agree] in HP; try contradiction; [apply ma_proof, HP|apply ma_refl].
  Qed.

  (** Only for equal terms: comparing the two builds by computation takes long. *)
  Ltac same := solve [cbn [unwrap option_chunks fill_fields]; match goal with |- modes_agree ?x ?x => apply ma_refl end].

  Lemma types_modes t : types_agree (simple_serialize H CONTEXT true t) (simple_serialize H CONTEXT false t).
  Proof.
    assert (HSer : forall oc u, ser (simple_serialize H CONTEXT oc u) = serializable oc u).
    { intros oc. induction u using ty_ind'; cbn [simple_serialize serializable ser uint_m u256_m node_m bool_m vector_m array_m list_m bitvector_m bitlist_m
        container_m newtype_m option_m union_m transparent_m]; try reflexivity; try (rewrite IHu; reflexivity).
      - f_equal. rewrite !map_map. apply map_ext_in. cbn [snd]. rewrite Forall_forall in H0. exact H0.
      - f_equal. rewrite !map_map. apply map_ext_in. intros [u|] Hu; [|reflexivity]. cbn [option_map]. rewrite Forall_forall in H0. rewrite (H0 _ Hu). reflexivity.
      - f_equal. rewrite !map_map. apply map_ext_in. rewrite Forall_forall in H0. exact H0. }
    assert (HI : forall u, impls_agree (ser (simple_serialize H CONTEXT true u)) (ser (simple_serialize H CONTEXT false u)))
      by (intros u; rewrite !HSer; apply impls_modes).
    assert (HV : forall vs, Forall (fun o => match o with Some u => types_agree (simple_serialize H CONTEXT true u) (simple_serialize H CONTEXT false u)
                                                     | None => True end) vs ->
      Forall2 variant_agree (map (option_map (simple_serialize H CONTEXT true)) vs) (map (option_map (simple_serialize H CONTEXT false)) vs)).
    { induction 1 as [|[u|] vs HU _ IH]; cbn [map option_map]; constructor; auto. }
    assert (HT : forall ts, Forall (fun u => types_agree (simple_serialize H CONTEXT true u) (simple_serialize H CONTEXT false u)) ts ->
      Forall2 variant_agree (map Some (map (simple_serialize H CONTEXT true) ts)) (map Some (map (simple_serialize H CONTEXT false) ts))).
    { induction 1 as [|u ts HU _ IH]; cbn [map]; constructor; auto. }
    assert (HF : forall fs, Forall (fun f => types_agree (simple_serialize H CONTEXT true (snd f)) (simple_serialize H CONTEXT false (snd f))) fs ->
      Forall2 named_agree (map (fun f : string * ty => (fst f, simple_serialize H CONTEXT true (snd f))) fs)
                          (map (fun f : string * ty => (fst f, simple_serialize H CONTEXT false (snd f))) fs)).
    { induction 1 as [|u ts HU _ IH]; cbn [map]; constructor; [split; [reflexivity|exact HU]|auto]. }
    induction t using ty_ind'; (constructor; [apply HI|..]);
      try (specialize (HV _ H0)); try (specialize (HT _ H0)); try (specialize (HF _ H0); pose proof (named_types _ _ HF)); cbn [simple_serialize];
      cbn [simple_serialize hash_tree_root is_composite_type item_length chunk_count compute_generalized_index chunks prove_element decoration
           uint_m u256_m node_m bool_m vector_m array_m list_m bitvector_m bitlist_m container_m newtype_m option_m union_m transparent_m];
      intros; first [assumption | match goal with |- ?x = ?x => reflexivity end | same | idtac].
    - intros. apply ma_vector_root, IHt.
    - apply ma_seq_count, IHt.
    - intros. apply ma_vector_index, IHt.
    - intros. apply ma_assemble, IHt.
    - intros. apply ma_seq_prove, IHt.
    - intros. apply ma_vector_root, IHt.
    - apply (ta_composite _ _ IHt).
    - apply ma_seq_count, IHt.
    - intros. apply ma_vector_index, IHt.
    - intros. apply ma_assemble, IHt.
    - intros. apply ma_seq_prove, IHt.
    - intros. apply ma_list_root, IHt.
    - apply ma_seq_count, IHt.
    - intros. apply ma_list_index, IHt.
    - intros. apply ma_assemble, IHt.
    - intros. apply ma_seq_prove, IHt.
    - intros. apply ma_bind; [apply ma_refl|]. intros. apply ma_merkleize.
    - intros. unfold bitvector_compute_generalized_index. cbv zeta. modes.
    - intros. unfold bitlist_hash_tree_root. destruct v; try same. apply ma_bind; [apply ma_refl|]. intros.
      apply ma_bind; [apply ma_merkleize|]. intros. apply ma_refl.
    - intros. unfold bitlist_compute_generalized_index. cbv zeta. modes.
    - intros. apply ma_bind; [apply ma_assemble_fields; auto|]. intros. apply ma_merkleize.
    - rewrite (Forall2_blen _ _ _ HF). apply ma_refl.
    - intros. unfold container_compute_generalized_index. rewrite <- (Forall2_blen _ _ _ HF).
      destruct path as [|[j|f| |] path]; try same. apply ma_by_field. exact HF.
    - intros. apply ma_assemble_fields. auto.
    - intros. apply ma_container_prove. auto.
    - intros. destruct v; try same. cbn [unwrap fill_fields]. apply ma_bind; [|intros; apply ma_merkleize].
      apply ma_bind; [apply (ta_root _ _ IHt)|]. intros. apply ma_refl.
    - apply (ta_count _ _ IHt).
    - apply (ta_index _ _ IHt).
    - intros. destruct v; try same. apply (ta_chunks _ _ IHt).
    - intros. destruct v; try same. apply (ta_prove _ _ IHt).
    - intros. destruct v; try reflexivity. apply (ta_decoration _ _ IHt).
    - intros. unfold option_hash_tree_root. apply ma_bind; [|intros; apply ma_refl]. destruct v; try same. apply (ta_root _ _ IHt).
    - intros. unfold option_compute_generalized_index. destruct path as [|[j|f| |] path]; try same; [|apply ma_selector].
      destruct (2 <=? j); [apply ma_refl|]. apply ma_bind; [apply ma_umul|]. intros. destruct (j =? 0); [apply ma_refl|].
      destruct (j =? 1); [apply (ta_index _ _ IHt)|apply ma_refl].
    - intros. destruct v; try same. apply (ta_root _ _ IHt).
    - intros. unfold option_prove_element. destruct (2 <=? i); [apply ma_refl|]. destruct v; try same; [apply ma_proof, ta_refl|apply ma_proof, IHt].
    - intros. apply ma_union_root, HV.
    - intros. apply ma_union_index, HV.
    - intros. apply ma_union_chunks, HV.
    - intros. apply ma_union_prove, HV.
    - intros. apply ma_union_chunks, HT.
    - intros. apply ma_union_index, HT.
    - intros. apply ma_union_chunks, HT.
    - intros. apply ma_union_prove, HT.
  Qed.

  (** ** Verification *)

  Lemma ma_derive nodes : forall i idx r, modes_agree (derive_root H true i nodes idx r) (derive_root H false i nodes idx r).
  Proof. induction nodes as [|n nodes IH]; intros; cbn [derive_root]; [apply ma_refl|]. cbv zeta. modes. Qed.

  Lemma ma_branch l b d i r : modes_agree (is_valid_merkle_branch H true l b d i r) (is_valid_merkle_branch H false l b d i r).
  Proof.
    unfold is_valid_merkle_branch. destruct (negb _); [apply ma_refl|]. apply ma_bind; [apply ma_derive|]. intros. apply ma_refl.
  Qed.

  Lemma ma_verify p r : modes_agree (verify H true p r) (verify H false p r).
  Proof.
    unfold verify, is_valid_merkle_branch_for_generalized_index. destruct (log_2 _); [|apply ma_refl].
    apply ma_bind; [|intros; apply ma_branch]. unfold get_subtree_index. apply ma_bind; [apply ma_refl|]. intros. apply ma_get_index.
  Qed.

  Lemma ma_fold_branch nodes : forall i idx r, modes_agree (fold_branch H true i nodes idx r) (fold_branch H false i nodes idx r).
  Proof.
    induction nodes as [|n nodes IH]; intros; cbn [fold_branch]; [apply ma_refl|]. apply ma_bind; [|intros; apply IH].
    unfold get_bit. destruct (_ <? _); [apply ma_refl|exact I].
  Qed.

  Lemma ma_merkle_proof l b i r : modes_agree (verify_merkle_proof H true l b i r) (verify_merkle_proof H false l b i r).
  Proof.
    unfold verify_merkle_proof, calculate_merkle_root. apply ma_bind; [|intros; apply ma_refl]. apply ma_bind; [apply ma_refl|]. intros.
    destruct (negb _); [apply ma_refl|apply ma_fold_branch].
  Qed.
End Hash.

Lemma prove_modes H t v path : modes_agree (ssz_prove H true t v path) (ssz_prove H false t v path).
Proof.
  unfold ssz_prove, prove, ssz, generalized_index. pose proof (types_modes H (CONTEXT_of (compute_zero_hashes H)) t) as HT.
  apply ma_bind; [apply (ta_index _ _ HT)|]. intros. apply ma_bind; [apply ma_proof, HT|]. intros. apply ma_refl.
Qed.

(** ** Text *)

Record serdes_agree (S T : Serde) : Prop := {
  sa_write : forall v, modes_agree (to_json S v) (to_json T v);
  sa_read : forall j, modes_agree (from_json S j) (from_json T j);
  sa_missing : when_missing T = when_missing S
}.

Lemma sa_refl S : serdes_agree S S.
Proof. constructor; auto using ma_refl. Qed.

Definition entry_agree (f g : string * Serde) : Prop := fst g = fst f /\ serdes_agree (snd f) (snd g).

Lemma ma_write_fields fs gs : Forall2 entry_agree fs gs -> forall l, modes_agree (write_fields fs l) (write_fields gs l).
Proof.
  induction 1 as [|[a S] [b T] fs gs [HA HS] _ IH]; intros [|v l]; cbn [write_fields fst snd] in *; try apply ma_refl. subst b.
  apply ma_bind; [apply (sa_write _ _ HS)|]. intros. apply ma_bind; [apply IH|]. intros. apply ma_refl.
Qed.

Lemma ma_read_items fs gs : Forall2 entry_agree fs gs -> forall js, modes_agree (read_items fs js) (read_items gs js).
Proof.
  induction 1 as [|[a S] [b T] fs gs [HA HS] _ IH]; intros [|v l]; cbn [read_items fst snd] in *; try apply ma_refl.
  apply ma_bind; [apply (sa_read _ _ HS)|]. intros. apply ma_bind; [apply IH|]. intros. apply ma_refl.
Qed.

Lemma ma_finish fs gs : Forall2 entry_agree fs gs -> forall slots, modes_agree (finish_fields fs slots) (finish_fields gs slots).
Proof.
  induction 1 as [|[a S] [b T] fs gs [HA HS] _ IH]; intros [|s slots]; cbn [finish_fields fst snd] in *; try apply ma_refl. subst b.
  rewrite (sa_missing _ _ HS). apply ma_bind; [apply ma_refl|]. intros. apply ma_bind; [apply IH|]. intros. apply ma_refl.
Qed.

Lemma ma_entry fs gs : Forall2 entry_agree fs gs -> forall slots e, modes_agree (read_entry fs slots e) (read_entry gs slots e).
Proof.
  intros HF slots [name j]. unfold read_entry. cbn [fst snd].
  assert (HX : forall slots, match fill fs slots name j, fill gs slots name j with
                             | Some r, Some r' => modes_agree r r' | None, None => True | _, _ => False end).
  { induction HF as [|[a S] [b T] fs gs [HA HS] _ IH]; intros [|s sl]; cbn [fill fst snd] in *; auto. subst b.
    destruct (String.eqb a name).
    - destruct s; [apply ma_refl|]. apply ma_bind; [apply (sa_read _ _ HS)|]. intros. apply ma_refl.
    - specialize (IH sl). destruct (fill fs sl name j), (fill gs sl name j); cbn [option_map]; auto.
      apply ma_bind; [exact IH|]. intros. apply ma_refl. }
  specialize (HX slots). destruct (fill fs slots name j), (fill gs slots name j); try contradiction; [exact HX|apply ma_refl].
Qed.

Lemma serde_modes foreign t : serdes_agree (serde true foreign t) (serde false foreign t).
Proof.
  assert (HV : forall S T l, serdes_agree S T -> modes_agree (vec_to_json S l) (vec_to_json T l)).
  { intros S T l HS. unfold vec_to_json. apply ma_bind; [apply ma_mapM; intros; apply (sa_write _ _ HS)|]. intros. apply ma_refl. }
  assert (HR : forall S T j, serdes_agree S T -> modes_agree (vec_from_json S j) (vec_from_json T j)).
  { intros S T j HS. unfold vec_from_json. destruct j; try apply ma_refl. apply ma_mapM. intros. apply (sa_read _ _ HS). }
  induction t using ty_ind'; cbn [serde]; try apply sa_refl.
  - constructor; [intros v|intros j|reflexivity]; cbn [vector_serde to_json from_json].
    + destruct v; try apply ma_refl. apply HV, IHt.
    + apply ma_bind; [apply HR, IHt|]. intros. apply ma_refl.
  - constructor; [intros v|intros j|reflexivity]; cbn [list_serde to_json from_json].
    + destruct v; try apply ma_refl. apply HV, IHt.
    + apply ma_bind; [apply HR, IHt|]. intros. apply ma_refl.
  - constructor; [intros v|intros j|reflexivity]; cbn [bitlist_serde to_json from_json].
    + destruct v; try apply ma_refl. unfold bitlist_byte_length. apply ma_bind; [modes|]. intros.
      apply ma_bind; [apply ma_map_err, serialize_modes|]. intros. apply ma_refl.
    + apply ma_bind; [apply ma_refl|]. intros. apply ma_map_err. unfold bitlist_try_from_bytes. apply ma_map_err, ma_bitlist.
  - assert (HF : Forall2 entry_agree (map (fun f => (fst f, serde true foreign (snd f))) fs) (map (fun f => (fst f, serde false foreign (snd f))) fs)).
    { apply Forall2_map_in. rewrite Forall_forall in H. intros f Hf. split; [reflexivity|]. apply H, Hf. }
    constructor; [intros v|intros j|reflexivity]; cbn [container_serde to_json from_json].
    + destruct v; try apply ma_refl. apply ma_bind; [apply ma_write_fields, HF|]. intros. apply ma_refl.
    + destruct j; try apply ma_refl.
      * apply ma_bind; [apply ma_read_items, HF|]. intros. apply ma_refl.
      * rewrite !map_map. apply ma_bind; [apply ma_foldM; intros; apply ma_entry, HF|]. intros.
        apply ma_bind; [apply ma_finish, HF|]. intros. apply ma_refl.
  - constructor; [intros v|intros j|reflexivity]; cbn [newtype_serde to_json from_json].
    + destruct v; try apply ma_refl. apply (sa_write _ _ IHt).
    + apply ma_bind; [apply (sa_read _ _ IHt)|]. intros. apply ma_refl.
  - constructor; [intros v|intros j|reflexivity]; cbn [option_serde to_json from_json].
    + destruct v; try apply ma_refl. apply (sa_write _ _ IHt).
    + destruct j; try apply ma_refl; (apply ma_bind; [apply (sa_read _ _ IHt)|]; intros; apply ma_refl).
Qed.

Lemma ma_write_bits len bits : forall i w f, modes_agree (write_bits true len i w bits f) (write_bits false len i w bits f).
Proof.
  induction bits as [|b bits IH]; intros; cbn [write_bits]; [apply ma_refl|]. cbv zeta. apply ma_bind.
  { unfold next_written. cbn [andb]. destruct (w =? _); [exact I|reflexivity]. }
  intros. apply ma_bind; [|intros; apply IH]. destruct (_ =? 0); [|apply ma_refl]. apply ma_bind; [apply ma_usub|]. intros. apply ma_refl.
Qed.

Lemma debug_modes n b : modes_agree (bitlist_debug true n b) (bitlist_debug false n b) /\ modes_agree (bitvector_debug true n b) (bitvector_debug false n b).
Proof. split; (apply ma_bind; [apply ma_write_bits|]; intros; apply ma_refl). Qed.
