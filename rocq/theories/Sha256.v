(** SHA-256 (FIPS 180-4), for concrete examples. Words are numbers below 2^32. *)
From Coq Require Import List NArith Bool.
From Coq Require Import Strings.Byte.
From Verif Require Import Prelude.
Import ListNotations.
Open Scope N_scope.

Definition mask32 : N := 4294967295.
Definition add32 (a b : N) : N := N.land (a + b) mask32.
Definition rotr (n x : N) : N := N.lor (N.shiftr x n) (N.land (N.shiftl x (32 - n)) mask32).
Definition not32 (x : N) : N := N.lxor x mask32.
Definition ch (x y z : N) : N := N.lxor (N.land x y) (N.land (not32 x) z).
Definition maj (x y z : N) : N := N.lxor (N.lxor (N.land x y) (N.land x z)) (N.land y z).
Definition bsig0 (x : N) : N := N.lxor (N.lxor (rotr 2 x) (rotr 13 x)) (rotr 22 x).
Definition bsig1 (x : N) : N := N.lxor (N.lxor (rotr 6 x) (rotr 11 x)) (rotr 25 x).
Definition ssig0 (x : N) : N := N.lxor (N.lxor (rotr 7 x) (rotr 18 x)) (N.shiftr x 3).
Definition ssig1 (x : N) : N := N.lxor (N.lxor (rotr 17 x) (rotr 19 x)) (N.shiftr x 10).

Definition K256 : list N :=
  [1116352408; 1899447441; 3049323471; 3921009573; 961987163; 1508970993; 2453635748; 2870763221;
   3624381080; 310598401; 607225278; 1426881987; 1925078388; 2162078206; 2614888103; 3248222580;
   3835390401; 4022224774; 264347078; 604807628; 770255983; 1249150122; 1555081692; 1996064986;
   2554220882; 2821834349; 2952996808; 3210313671; 3336571891; 3584528711; 113926993; 338241895;
   666307205; 773529912; 1294757372; 1396182291; 1695183700; 1986661051; 2177026350; 2456956037;
   2730485921; 2820302411; 3259730800; 3345764771; 3516065817; 3600352804; 4094571909; 275423344;
   430227734; 506948616; 659060556; 883997877; 958139571; 1322822218; 1537002063; 1747873779;
   1955562222; 2024104815; 2227730452; 2361852424; 2428436474; 2756734187; 3204031479; 3329325298].

Definition IV256 : list N :=
  [1779033703; 3144134277; 1013904242; 2773480762; 1359893119; 2600822924; 528734635; 1541459225].

(** Big-endian words of a byte string. *)
Fixpoint be_words (l : bytes) : list N :=
  match l with
  | a :: b :: c :: d :: r =>
      (((byte_to_N a * 256 + byte_to_N b) * 256 + byte_to_N c) * 256 + byte_to_N d) :: be_words r
  | _ => []
  end.

Definition be_bytes (n : nat) (x : N) : bytes := rev (le_bytes n x).

(** One round for message word [w] with constant [k]. *)
Definition sha_round (s : list N) (kw : N * N) : list N :=
  match s with
  | [a; b; c; d; e; f; g; h] =>
      let t1 := add32 (add32 (add32 h (bsig1 e)) (ch e f g)) (add32 (fst kw) (snd kw)) in
      let t2 := add32 (bsig0 a) (maj a b c) in
      [add32 t1 t2; a; b; c; add32 d t1; e; f; g]
  | _ => s
  end.

(** The message schedule: [window] holds the last 16 words, oldest first. *)
Fixpoint schedule (n : nat) (window : list N) : list N :=
  match n with
  | O => []
  | S n =>
      match window with
      | w0 :: r =>
          let w1 := nth 0 r 0 in
          let w9 := nth 8 r 0 in
          let w14 := nth 13 r 0 in
          let next := add32 (add32 (ssig1 w14) w9) (add32 (ssig0 w1) w0) in
          w0 :: schedule n (r ++ [next])
      | [] => []
      end
  end.

Definition compress (s : list N) (block : bytes) : list N :=
  let w := schedule 64 (be_words block) in
  let s' := fold_left sha_round (combine K256 w) s in
  map (fun ab => add32 (fst ab) (snd ab)) (combine s s').

(** Padding: a one bit, zeros, and the bit length in 64 bits. *)
Definition sha_pad (m : bytes) : bytes :=
  let l := length m in
  m ++ [x80] ++ zeros (Nat.modulo (119 - Nat.modulo l 64) 64) ++ be_bytes 8 (8 * blen m).

Fixpoint sha_blocks (n : nat) (s : list N) (m : bytes) : list N :=
  match n with
  | O => s
  | S n => sha_blocks n (compress s (firstn 64 m)) (skipn 64 m)
  end.

Definition sha256 (m : bytes) : bytes :=
  let p := sha_pad m in
  concat (map (be_bytes 4) (sha_blocks (Nat.div (length p) 64) IV256 p)).

Fixpoint hex_digits (l : bytes) : list N :=
  match l with
  | [] => []
  | b :: r => byte_to_N b / 16 :: byte_to_N b mod 16 :: hex_digits r
  end.
