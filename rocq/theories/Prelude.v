(** Outcomes, machine arithmetic, byte strings and slices.

    Everything here models the Rust core library as used by /repo/ssz-rs; definitions that
    stand for a particular Rust construct say so. *)
From Coq Require Import List NArith Bool.
From Coq Require Import Strings.Byte.
Import ListNotations.
Open Scope N_scope.

(** Why a Rust computation panicked. [PIllTyped] is not a Rust panic: it marks a model value
    that the Rust type could not hold; [PFuel] marks exhausted recursion fuel. Both are proved
    unreachable wherever a theorem speaks about results. *)
Inductive panic : Type :=
| POverflow      (* arithmetic overflow with overflow checks on *)
| PIndex         (* slice index or range out of bounds *)
| PDivZero       (* remainder by zero, or a zero chunk size *)
| PExpect        (* unwrap / expect *)
| PAssert        (* assert! / debug_assert! *)
| PAlloc         (* capacity overflow *)
| PUnreachable   (* unreachable! *)
| PFuel
| PIllTyped.

(** [Result<A, E>] extended with panics. *)
Inductive res (E A : Type) : Type :=
| Ok (a : A)
| Err (e : E)
| Panic (p : panic).
Arguments Ok {E A} a.
Arguments Err {E A} e.
Arguments Panic {E A} p.

Definition bind {E A B} (x : res E A) (f : A -> res E B) : res E B :=
  match x with
  | Ok a => f a
  | Err e => Err e
  | Panic p => Panic p
  end.

(** The [?] operator. *)
Notation "'do' x <- e ; k" := (bind e (fun x => k))
  (at level 200, x pattern, e at level 100, k at level 200, right associativity).

(** [map_err] / [From] conversion of errors. *)
Definition map_err {E F A} (f : E -> F) (x : res E A) : res F A :=
  match x with
  | Ok a => Ok a
  | Err e => Err (f e)
  | Panic p => Panic p
  end.

Definition is_ok {E A} (x : res E A) : bool :=
  match x with Ok _ => true | _ => false end.

Definition is_panic {E A} (x : res E A) : bool :=
  match x with Panic _ => true | _ => false end.

(** [iter().map(f).collect::<Result<Vec<_>, _>>()]: stops at the first failure. *)
Fixpoint mapM {E A B} (f : A -> res E B) (l : list A) : res E (list B) :=
  match l with
  | [] => Ok []
  | x :: r => do y <- f x; do ys <- mapM f r; Ok (y :: ys)
  end.

(** A [for] loop with [?] inside: threads a state through a list. *)
Fixpoint foldM {E A S} (f : S -> A -> res E S) (s : S) (l : list A) : res E S :=
  match l with
  | [] => Ok s
  | x :: r => do s' <- f s x; foldM f s' r
  end.

(** ** Bytes *)

Definition bytes := list byte.

(** Length as a [usize]. *)
Definition blen {A} (l : list A) : N := N.of_nat (length l).

Definition byte_to_N (b : byte) : N := Byte.to_N b.

(** [x as u8] *)
Definition byte_of_N (n : N) : byte :=
  match Byte.of_N (n mod 256) with
  | Some b => b
  | None => x00
  end.

Definition zero_byte : byte := x00.

Definition zeros (n : nat) : bytes := repeat zero_byte n.

(** [to_le_bytes] of an [n]-byte integer. *)
Fixpoint le_bytes (n : nat) (x : N) : bytes :=
  match n with
  | O => []
  | S n' => byte_of_N (x mod 256) :: le_bytes n' (x / 256)
  end.

(** [from_le_bytes] *)
Fixpoint le_value (l : bytes) : N :=
  match l with
  | [] => 0
  | b :: r => byte_to_N b + 256 * le_value r
  end.

Definition byte_eqb (a b : byte) : bool := Byte.eqb a b.

Fixpoint bytes_eqb (a b : bytes) : bool :=
  match a, b with
  | [], [] => true
  | x :: a', y :: b' => byte_eqb x y && bytes_eqb a' b'
  | _, _ => false
  end.

(** ** usize arithmetic (64 bit) *)

Definition USIZE : N := 2 ^ 64.

(** [a + b], [a * b], [a - b] on usize: with overflow checks ([oc = true]) an overflow panics,
    without them the result wraps. *)
Definition uadd {E} (oc : bool) (a b : N) : res E N :=
  if a + b <? USIZE then Ok (a + b)
  else if oc then Panic POverflow else Ok ((a + b) mod USIZE).

Definition umul {E} (oc : bool) (a b : N) : res E N :=
  if a * b <? USIZE then Ok (a * b)
  else if oc then Panic POverflow else Ok ((a * b) mod USIZE).

Definition usub {E} (oc : bool) (a b : N) : res E N :=
  if b <=? a then Ok (a - b)
  else if oc then Panic POverflow else Ok ((USIZE + a - b) mod USIZE).

(** [2usize.pow(k)] *)
Definition upow2 {E} (oc : bool) (k : N) : res E N :=
  if k <? 64 then Ok (2 ^ k)
  else if oc then Panic POverflow else Ok 0.

(** [usize::next_power_of_two]: in release mode it wraps to 0 above 2^63. *)
Definition next_pow2 (x : N) : N :=
  if x <=? 1 then 1 else 2 ^ (N.size (x - 1)).

Definition next_power_of_two {E} (oc : bool) (x : N) : res E N :=
  if next_pow2 x <? USIZE then Ok (next_pow2 x)
  else if oc then Panic POverflow else Ok 0.

Fixpoint pos_ctz (p : positive) : N :=
  match p with
  | xO q => 1 + pos_ctz q
  | _ => 0
  end.

(** [usize::trailing_zeros] *)
Definition trailing_zeros (x : N) : N :=
  match x with
  | 0 => 64
  | Npos p => pos_ctz p
  end.

(** [usize::div_ceil] *)
Definition div_ceil (a b : N) : N :=
  if a mod b =? 0 then a / b else a / b + 1.

(** ** Slices *)

Definition takeN {A} (n : N) (l : list A) : list A := firstn (N.to_nat n) l.
Definition dropN {A} (n : N) (l : list A) : list A := skipn (N.to_nat n) l.

(** [l.get(a..b)] *)
Definition get_range {A} (a b : N) (l : list A) : option (list A) :=
  if (a <=? b) && (b <=? blen l) then Some (takeN (b - a) (dropN a l)) else None.

(** [&l[a..b]] *)
Definition slice {E A} (a b : N) (l : list A) : res E (list A) :=
  match get_range a b l with
  | Some s => Ok s
  | None => Panic PIndex
  end.

(** [&l[i]] *)
Definition index {E A} (i : N) (l : list A) : res E A :=
  if i <? blen l then
    match nth_error l (N.to_nat i) with
    | Some x => Ok x
    | None => Panic PIndex
    end
  else Panic PIndex.

(** [l[a .. a + src.len()].copy_from_slice(src)] *)
Definition copy_at {E A} (a : N) (src l : list A) : res E (list A) :=
  if a + blen src <=? blen l
  then Ok (takeN a l ++ src ++ dropN (a + blen src) l)
  else Panic PIndex.

(** [l.chunks_exact(n)] collected; a zero chunk size panics. *)
Fixpoint chunks_exact_fuel {A} (fuel : nat) (n : N) (l : list A) : list (list A) :=
  match fuel with
  | O => []
  | S f => if blen l <? n then [] else takeN n l :: chunks_exact_fuel f n (dropN n l)
  end.

Definition chunks_exact {E A} (n : N) (l : list A) : res E (list (list A)) :=
  if n =? 0 then Panic PDivZero else Ok (chunks_exact_fuel (length l) n l).

(** [l.windows(2)] *)
Fixpoint windows2 {A} (l : list A) : list (A * A) :=
  match l with
  | a :: ((b :: _) as r) => (a, b) :: windows2 r
  | _ => []
  end.
