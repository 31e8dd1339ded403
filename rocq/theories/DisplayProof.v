(** Different errors have different texts. *)
From Coq Require Import String Ascii.
From Coq Require Import List NArith ZArith Bool Lia ZifyBool ZifyNat ZifyN.
From Coq Require Import DecimalString DecimalN HexadecimalString HexadecimalN.
From Verif Require Import Prelude Types Ser Text Display Lib.
Import ListNotations.
Open Scope string_scope.
Open Scope N_scope.

(** ** Runs of characters of one kind *)

Fixpoint only (P : ascii -> bool) (s : string) : bool :=
  match s with
  | EmptyString => true
  | String c r => P c && only P r
  end.

Definition ends (P : ascii -> bool) (s : string) : bool :=
  match s with
  | EmptyString => true
  | String c _ => negb (P c)
  end.

Lemma only_split P a b r s :
  only P a = true -> only P b = true -> ends P r = true -> ends P s = true ->
  a ++ r = b ++ s -> a = b /\ r = s.
Proof.
  revert b. induction a as [|c a IH]; intros b Ha Hb Hr Hs E.
  - destruct b as [|d b]; [split; auto|]. cbn in E. subst r. cbn in Hr, Hb.
    apply andb_true_iff in Hb as [Hd _]. rewrite Hd in Hr. discriminate.
  - cbn in Ha. apply andb_true_iff in Ha as [Hc Ha]. destruct b as [|d b].
    + cbn in E. subst s. cbn in Hs. rewrite Hc in Hs. discriminate.
    + cbn in E, Hb. apply andb_true_iff in Hb as [_ Hb]. injection E as -> E.
      destruct (IH b Ha Hb Hr Hs E) as [-> ->]. auto.
Qed.

Definition is_digit (c : ascii) : bool := (48 <=? N_of_ascii c) && (N_of_ascii c <=? 57).

Definition is_hex (c : ascii) : bool :=
  is_digit c || ((97 <=? N_of_ascii c) && (N_of_ascii c <=? 102)).

Lemma decimal_only n : only is_digit (decimal n) = true.
Proof.
  unfold decimal, DecimalString.NilZero.string_of_uint.
  assert (G : forall d, only is_digit (DecimalString.NilEmpty.string_of_uint d) = true)
    by (induction d; cbn [DecimalString.NilEmpty.string_of_uint only]; try rewrite IHd; reflexivity).
  destruct (N.to_uint n) eqn:E; try apply G. reflexivity.
Qed.

Lemma lower_hex_only n : only is_hex (lower_hex n) = true.
Proof.
  unfold lower_hex, HexadecimalString.NilZero.string_of_uint.
  assert (G : forall d, only is_hex (HexadecimalString.NilEmpty.string_of_uint d) = true)
    by (induction d; cbn [HexadecimalString.NilEmpty.string_of_uint only]; try rewrite IHd; reflexivity).
  destruct (N.to_hex_uint n) eqn:E; try apply G. reflexivity.
Qed.

Lemma to_uint_nil n : N.to_uint n <> Decimal.Nil.
Proof.
  destruct n as [|p]; [discriminate|]. apply DecimalPos.Unsigned.to_uint_nonnil.
Qed.

Lemma to_hex_uint_nil n : N.to_hex_uint n <> Hexadecimal.Nil.
Proof.
  destruct n as [|p]; [discriminate|]. apply HexadecimalPos.Unsigned.to_uint_nonnil.
Qed.

Lemma decimal_inj n m : decimal n = decimal m -> n = m.
Proof.
  unfold decimal. intros E. apply (f_equal DecimalString.NilZero.uint_of_string) in E.
  rewrite !DecimalString.NilZero.usu in E by apply to_uint_nil. injection E as E. apply DecimalN.Unsigned.to_uint_inj, E.
Qed.

Lemma lower_hex_inj n m : lower_hex n = lower_hex m -> n = m.
Proof.
  unfold lower_hex. intros E. apply (f_equal HexadecimalString.NilZero.uint_of_string) in E.
  rewrite !HexadecimalString.NilZero.usu in E by apply to_hex_uint_nil.
  injection E as E. apply HexadecimalN.Unsigned.to_uint_inj, E.
Qed.

Lemma decimal_split n m r s :
  ends is_digit r = true -> ends is_digit s = true -> decimal n ++ r = decimal m ++ s -> n = m /\ r = s.
Proof.
  intros Hr Hs E. destruct (only_split _ _ _ _ _ (decimal_only n) (decimal_only m) Hr Hs E) as [D ?].
  split; [apply decimal_inj, D|auto].
Qed.

Lemma lower_hex_split n m r s :
  ends is_hex r = true -> ends is_hex s = true -> lower_hex n ++ r = lower_hex m ++ s -> n = m /\ r = s.
Proof.
  intros Hr Hs E. destruct (only_split _ _ _ _ _ (lower_hex_only n) (lower_hex_only m) Hr Hs E) as [D ?].
  split; [apply lower_hex_inj, D|auto].
Qed.

(** A number is not empty, and does not begin with another character. *)
Lemma decimal_starts n : exists c r, decimal n = String c r /\ is_digit c = true.
Proof.
  pose proof (decimal_only n) as H. destruct (decimal n) as [|c r] eqn:E.
  - exfalso. revert E. unfold decimal, DecimalString.NilZero.string_of_uint.
    pose proof (to_uint_nil n). destruct (N.to_uint n); cbn; congruence.
  - exists c, r. split; [reflexivity|]. cbn in H. apply andb_true_iff in H. apply H.
Qed.

Lemma decimal_other n r c s : is_digit c = false -> decimal n ++ r = String c s -> False.
Proof.
  intros Hc E. destruct (decimal_starts n) as (d & t & D & Hd). rewrite D in E. cbn in E. injection E as -> _. congruence.
Qed.

Lemma append_nil_r s : s ++ "" = s.
Proof. induction s as [|c s IH]; cbn; [|rewrite IH]; reflexivity. Qed.

(** A number at the end of the text. *)
Lemma decimal_end n m : decimal n = decimal m -> n = m /\ True.
Proof. intros E. split; [apply decimal_inj, E|exact I]. Qed.

(** ** Quoted strings *)

(** Reads back one character. *)
Definition unescape (s : string) : option (ascii * string) :=
  match s with
  | EmptyString => None
  | String c r =>
      if Ascii.eqb c "\" then
        match r with
        | String "0" q => Some (ascii_of_N 0, q)
        | String "t" q => Some (ascii_of_N 9, q)
        | String "n" q => Some (ascii_of_N 10, q)
        | String "r" q => Some (ascii_of_N 13, q)
        | String "\" q => Some ("\"%char, q)
        | String "u" (String _ (String h (String l q))) =>
            if Ascii.eqb l "}" then
              match hex_value h with Some x => Some (ascii_of_N x, q) | None => None end
            else
              match hex_value h, hex_value l, q with
              | Some x, Some y, String _ q => Some (ascii_of_N (16 * x + y), q)
              | _, _, _ => None
              end
        | String d q => Some (d, q)
        | EmptyString => None
        end
      else Some (c, r)
  end.

Lemma unescape_char c r : unescape (escape_char c ++ r) = Some (c, r).
Proof. destruct c as [[|] [|] [|] [|] [|] [|] [|] [|]]; reflexivity. Qed.

Lemma escape_char_start c : exists d r, escape_char c = String d r /\ Ascii.eqb d quote = false.
Proof.
  destruct c as [[|] [|] [|] [|] [|] [|] [|] [|]]; (eexists; eexists; split; [reflexivity|reflexivity]).
Qed.

Lemma append_assoc a b c : (a ++ b) ++ c = a ++ (b ++ c).
Proof. induction a as [|x a IH]; cbn; [|rewrite IH]; reflexivity. Qed.

Lemma escape_split s t p q : escape s ++ String quote p = escape t ++ String quote q -> s = t /\ p = q.
Proof.
  revert t. induction s as [|c s IH]; intros [|d t] E; cbn [escape append] in E; rewrite ?append_assoc in E.
  - injection E as E. auto.
  - destruct (escape_char_start d) as (x & r & D & H). rewrite D in E. cbn [append] in E.
    injection E as E _. subst x. discriminate.
  - destruct (escape_char_start c) as (x & r & D & H). rewrite D in E. cbn [append] in E.
    injection E as E _. subst x. discriminate.
  - apply (f_equal unescape) in E. rewrite !unescape_char in E. injection E as -> E.
    destruct (IH _ E) as [-> ->]. auto.
Qed.

Local Opaque decimal lower_hex escape.

(** Follows two equal texts until they differ or a number is reached. *)
Ltac walk E :=
  rewrite ?append_assoc in E; cbn [append] in E;
  try discriminate E;
  try (exfalso; apply decimal_other in E; [exact E|reflexivity]);
  try (exfalso; symmetry in E; apply decimal_other in E; [exact E|reflexivity]).

Ltac strip E := repeat (match type of E with String _ _ = String _ _ => injection E as E end).

Ltac follow E :=
  walk E; strip E; walk E;
  try (apply decimal_split in E; [|reflexivity|reflexivity]; let D := fresh "D" in destruct E as [D E]; follow E).

Lemma path_element_split x y r s :
  path_element_debug x ++ r = path_element_debug y ++ s -> x = y /\ r = s.
Proof.
  intros E. destruct x as [i|f| |], y as [j|g| |]; unfold path_element_debug, string_debug in E; follow E.
  - subst. strip E. auto.
  - change (String "034" ?z) with (String quote z) in E.
    apply escape_split in E as [-> E]. strip E. auto.
  - auto.
  - auto.
Qed.

Lemma path_concat_split p q r s :
  String.concat ", " (map path_element_debug p) ++ String "]" r
  = String.concat ", " (map path_element_debug q) ++ String "]" s -> p = q /\ r = s.
Proof.
  assert (S : forall e z w, path_element_debug e ++ z <> String "]" w) by (intros [i|f| |] z w; discriminate).
  assert (U : forall e l, String.concat ", " (map path_element_debug (e :: l))
    = path_element_debug e ++ match l with [] => "" | _ => ", " ++ String.concat ", " (map path_element_debug l) end).
  { intros e [|f l]; [cbn [map String.concat]; rewrite append_nil_r; reflexivity|reflexivity]. }
  revert q. induction p as [|x p IH]; intros [|y q] E.
  - cbn in E. injection E as E. auto.
  - rewrite U, append_assoc in E. symmetry in E. apply S in E. destruct E.
  - rewrite U, append_assoc in E. apply S in E. destruct E.
  - rewrite !U, !append_assoc in E. apply path_element_split in E as [-> E].
    destruct p as [|x' p], q as [|y' q]; try discriminate E.
    + cbn in E. injection E as E. auto.
    + change ((", " ++ ?a) ++ ?b) with (String "," (String " " (a ++ b))) in E.
      injection E as E. destruct (IH (y' :: q) E) as [[= -> ->] ->]. auto.
Qed.

(** ** The error types *)

Lemma type_error_text_inj a b : type_error_text a = type_error_text b -> a = b.
Proof.
  intros E. destruct a as [n], b as [m]. unfold type_error_text in E. follow E. apply decimal_inj in E. congruence.
Qed.

Lemma instance_error_text_inj a b : instance_error_text a = instance_error_text b -> a = b.
Proof.
  intros E. destruct a as [n m|n m], b as [k l|k l]; unfold instance_error_text in E; follow E.
  - congruence.
  - apply decimal_inj in E. congruence.
Qed.

Local Opaque type_error_text instance_error_text.

Lemma serialize_error_text_inj a b : serialize_error_text a = serialize_error_text b -> a = b.
Proof.
  intros E. destruct a, b; unfold serialize_error_text in E; follow E.
  - congruence.
  - apply instance_error_text_inj in E. congruence.
  - apply type_error_text_inj in E. congruence.
Qed.

Lemma byte_to_N_inj x y : byte_to_N x = byte_to_N y -> x = y.
Proof.
  intros E. apply (f_equal byte_of_N) in E. rewrite !byte_of_N_to_N in E. exact E.
Qed.

Lemma deserialize_error_text_inj a b : deserialize_error_text a = deserialize_error_text b -> a = b.
Proof.
  intros E. destruct a, b; unfold deserialize_error_text in E; try reflexivity; follow E.
  - congruence.
  - congruence.
  - apply lower_hex_split in E as [E _]; [|reflexivity|reflexivity]. apply byte_to_N_inj in E. congruence.
  - apply instance_error_text_inj in E. congruence.
  - apply type_error_text_inj in E. congruence.
  - congruence.
  - apply decimal_inj in E. congruence.
Qed.

Local Opaque serialize_error_text deserialize_error_text.

Lemma merkleization_error_text_inj a b : merkleization_error_text a = merkleization_error_text b -> a = b.
Proof.
  intros E. destruct a, b; unfold merkleization_error_text, path_debug in E; try reflexivity; follow E.
  all: try (match type of E with context [path_element_debug ?e] => destruct e; discriminate E end).
  - apply serialize_error_text_inj in E. congruence.
  - apply decimal_inj in E. congruence.
  - rewrite <- (append_nil_r (path_element_debug e)), <- (append_nil_r (path_element_debug e0)) in E.
    apply path_element_split in E as [-> _]. reflexivity.
  - apply path_concat_split in E as [-> _]. reflexivity.
Qed.

Local Opaque merkleization_error_text.

Lemma error_text_inj a b : error_text a = error_text b -> a = b.
Proof.
  intros E. destruct a, b; unfold error_text in E; follow E; f_equal.
  - apply serialize_error_text_inj, E.
  - apply deserialize_error_text_inj, E.
  - apply merkleization_error_text_inj, E.
  - apply instance_error_text_inj, E.
  - apply type_error_text_inj, E.
Qed.
