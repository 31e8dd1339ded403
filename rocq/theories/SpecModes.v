(** Results of builds with and without overflow checks and debug assertions. Independent of the model. *)
From Verif Require Import Prelude.

(** The same result, unless the first build stops at an overflow or an assertion. *)
Definition modes_agree {E A} (checked unchecked : res E A) : Prop :=
  match checked with
  | Panic POverflow | Panic PAssert => True
  | _ => unchecked = checked
  end.

(** The same for writers, of which the bytes in the buffer are compared too. *)
Definition writes_agree {E A} (checked unchecked : bytes * res E A) : Prop :=
  match snd checked with
  | Panic POverflow | Panic PAssert => True
  | _ => unchecked = checked
  end.
