(** Concrete types and values for the examples. *)
From Coq Require Import List NArith Bool Lia String.
From Coq Require Import Strings.Byte.
From Verif Require Import Prelude Types Bitvec SpecSer SpecMerkle SpecPack SpecRoot Valid Lib BitsLib.
Import ListNotations.
Open Scope N_scope.

Definition bits_of (l : list bool) : bitvec := BitVec (spec_bits l) (blen l).

Lemma bits_of_ok l : bv_ok (bits_of l) = true.
Proof. apply bv_ok_len, spec_bits_length. Qed.

Lemma bits_of_clean l : bv_clean (bits_of l).
Proof.
  intros i Hi. unfold bits_of in *. cbn [bv_len bv_raw] in *. rewrite raw_bit_spec_bits.
  apply nth_overflow. unfold blen in Hi. lia.
Qed.

(** struct { a: u16, b: List<List<u8, 4>, 3>, c: Bitlist<9>, d: Option<u8>, e: Bitvector<5>,
    f: enum { None, u16, List<bool, 2> }, g: Vector<u8, 2>, h: Wrapper([bool; 3]), i: Node, j: U256 } *)
Definition sample_ty : ty :=
  TContainer
    [("a"%string, TUint U16); ("b"%string, TList (TList (TUint U8) 4) 3); ("c"%string, TBitlist 9);
     ("d"%string, TOption (TUint U8)); ("e"%string, TBitvector 5);
     ("f"%string, TUnion [None; Some (TUint U16); Some (TList TBool 2)]);
     ("g"%string, TVector (TUint U8) 2); ("h"%string, TNewtype (TArray TBool 3));
     ("i"%string, TNode); ("j"%string, TU256)].

Definition sample_val : val :=
  VStruct
    [VUint 513; VSeq [VSeq [VUint 7]; VSeq []; VSeq [VUint 8; VUint 9]];
     VBits (bits_of [true; false; true]); VSome (VUint 255);
     VBits (bits_of [true; true; false; false; true]);
     VVariant 2 (VSeq [VBool true]); VSeq [VUint 3; VUint 4];
     VNewtype (VSeq [VBool true; VBool false; VBool true]);
     VNode (zeros 31 ++ [x05]); VUint (2 ^ 255 + 1)].

Ltac solve_valid :=
  cbn [valid map snd fst option_map]; unfold blen;
  repeat first
    [ exact I | progress (split; [reflexivity || lia || idtac|]) | apply bits_of_ok | apply bits_of_clean
    | match goal with |- Forall2 _ _ _ => constructor end
    | match goal with |- Forall _ _ => constructor end
    | progress cbn [valid map snd fst option_map nth_error N.to_nat Pos.to_nat Pos.iter_op Nat.add length N.of_nat Pos.of_succ_nat Pos.succ]
    | reflexivity | discriminate | lia | split ].

Lemma sample_valid : valid sample_ty sample_val.
Proof. unfold sample_ty, sample_val. solve_valid. Qed.

(** Whether a value and all values inside it are in memory. *)
Definition memory_fits (t : ty) (v : val) : bool :=
  match t, v with
  | TVector u _, VSeq l | TArray u _, VSeq l | TList u _, VSeq l => blen l * item_length_with packed u <? 2 ^ 63
  | (TBitvector _ | TBitlist _), VBits b => bv_len b <? 2 ^ 63
  | _, _ => true
  end.

Fixpoint all_fit (fuel : nat) (t : ty) (v : val) : bool :=
  match fuel with
  | O => false
  | S fuel => memory_fits t v && forallb (fun p => all_fit fuel (fst p) (snd p)) (children t v)
  end.

Lemma memory_fits_ok t v : memory_fits t v = true -> in_memory t v.
Proof. destruct t, v; cbn [memory_fits in_memory]; intros E; try exact I; apply N.ltb_lt, E. Qed.

Lemma all_fit_ok fuel t v : all_fit fuel t v = true -> forall u y, part t v u y -> in_memory u y.
Proof.
  intros E u y HP. revert fuel E. induction HP as [t v|t v t1 v1 t2 v2 HI HP IH]; intros [|fuel] E; try discriminate;
    cbn [all_fit] in E; apply andb_true_iff in E as [E1 E2].
  - apply memory_fits_ok, E1.
  - rewrite forallb_forall in E2. exact (IH fuel (E2 _ HI)).
Qed.
