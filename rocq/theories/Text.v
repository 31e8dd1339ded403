(** Text forms: serde support of the collections (feature "serde") and Debug output of bit
    collections and of trees.

    serde's data model is the type [json] (what serde_json reads and writes). Serde support of
    types defined outside ssz-rs (bool, integers, U256, Node, arrays) and of enums is a parameter.
    Structs and Option are as written by serde itself. The errors of serde are not told apart. *)
From Coq Require Import String Ascii.
From Coq Require Import List NArith Bool.
From Coq Require Import Strings.Byte.
From Coq Require Import DecimalString DecimalN.
From Verif Require Import Prelude Types Bitvec Ser De Impls Api.
Import ListNotations.
Open Scope N_scope.

(** ** Hexadecimal text: the crate const-hex, used through alloy_primitives *)

Definition hex_digit (n : N) : ascii :=
  match String.get (N.to_nat n) "0123456789abcdef" with Some c => c | None => "0"%char end.

Fixpoint hex_encode (b : bytes) : string :=
  match b with
  | [] => ""
  | x :: r => String (hex_digit (byte_to_N x / 16)) (String (hex_digit (byte_to_N x mod 16)) (hex_encode r))
  end.

(** Both cases are read. *)
Definition hex_value (c : ascii) : option N :=
  let n := N_of_ascii c in
  if (48 <=? n) && (n <=? 57) then Some (n - 48)
  else if (97 <=? n) && (n <=? 102) then Some (n - 87)
  else if (65 <=? n) && (n <=? 70) then Some (n - 55)
  else None.

Fixpoint hex_decode (s : string) : option bytes :=
  match s with
  | EmptyString => Some []
  | String a (String b r) =>
      match hex_value a, hex_value b, hex_decode r with
      | Some h, Some l, Some x => Some (byte_of_N (16 * h + l) :: x)
      | _, _, _ => None
      end
  | String _ EmptyString => None
  end.

(** An optional prefix "0x". *)
Definition strip_prefix (s : string) : string :=
  match s with
  | String a (String b r) => if (Ascii.eqb a "0" && Ascii.eqb b "x")%bool then r else s
  | _ => s
  end.

(** [Bytes::from_hex] *)
Definition bytes_from_hex (s : string) : option bytes := hex_decode (strip_prefix s).

(** [B256::from_hex]: exactly 64 digits *)
Definition node_from_hex (s : string) : option bytes :=
  let d := strip_prefix s in
  if Nat.eqb (String.length d) 64 then hex_decode d else None.

(** ** serde *)

Inductive json : Type :=
| JNull
| JBool (b : bool)
| JNum (n : N)
| JStr (s : string)
| JArr (l : list json)
| JObj (l : list (string * json)).

Inductive JsonError : Type :=
| JShape                        (* another kind of JSON value, text that is not hexadecimal *)
| JMissingField (name : string)
| JDuplicateField (name : string)
| JLength                       (* a struct given as an array of another length *)
| JCustomSer (e : SerializeError)   (* serde::ser::Error::custom *)
| JCustom (e : Error).              (* serde::de::Error::custom *)

Notation jres := (res JsonError).

Record Serde : Type := {
  to_json : val -> jres json;
  from_json : json -> jres val;
  (** What serde takes for a field that is missing. *)
  when_missing : option val
}.

Definition j_ill_typed {A} : jres A := Panic PIllTyped.

(** alloy_primitives::serde_hex::serialize and deserialize *)
Definition hex_to_json (b : bytes) : json := JStr (String.append "0x" (hex_encode b)).

Definition hex_from_json (j : json) : jres bytes :=
  match j with
  | JStr s => match bytes_from_hex s with Some b => Ok b | None => Err JShape end
  | _ => Err JShape
  end.

(** [Vec<T>] *)
Definition vec_to_json (T : Serde) (l : list val) : jres json := do js <- mapM (to_json T) l; Ok (JArr js).

Definition vec_from_json (T : Serde) (j : json) : jres (list val) :=
  match j with
  | JArr js => mapM (from_json T) js
  | _ => Err JShape
  end.

(** List: list.rs:17 (derived, transparent) and list.rs:302-330 *)
Definition list_serde (n : N) (T : Serde) : Serde := {|
  to_json v := match v with VSeq l => vec_to_json T l | _ => j_ill_typed end;
  from_json j :=
    do data <- vec_from_json T j;
    do l <- map_err (fun e => JCustom (snd e)) (list_try_from n data);
    Ok (VSeq l);
  when_missing := None |}.

(** Vector: vector.rs:19 (derived, transparent) and vector.rs:289-318 *)
Definition vector_serde (n : N) (T : Serde) : Serde := {|
  to_json v := match v with VSeq l => vec_to_json T l | _ => j_ill_typed end;
  from_json j :=
    do data <- vec_from_json T j;
    do l <- map_err (fun e => JCustom (snd e)) (vector_try_from n data);
    Ok (VSeq l);
  when_missing := None |}.

(** Bitvector: bitvector.rs:240-261 *)
Definition bitvector_serde (oc : bool) (n : N) : Serde := {|
  to_json v := do b <- map_err JCustomSer (ssz_serialize oc (TBitvector n) v); Ok (hex_to_json b);
  from_json j :=
    do data <- hex_from_json j;
    map_err JCustom (bitvector_try_from_bytes n data);
  when_missing := None |}.

(** Bitlist: bitlist.rs:257-279 *)
Definition bitlist_serde (oc : bool) (n : N) : Serde := {|
  to_json v :=
    match v with
    | VBits b =>
        do byte_count <- bitlist_byte_length oc (bv_len b);
        do b <- map_err JCustomSer (ssz_serialize oc (TBitlist n) v);
        Ok (hex_to_json b)
    | _ => j_ill_typed
    end;
  from_json j :=
    do data <- hex_from_json j;
    map_err JCustom (bitlist_try_from_bytes oc n data);
  when_missing := None |}.

(** [Option<T>]: null or the value *)
Definition option_serde (T : Serde) : Serde := {|
  to_json v :=
    match v with
    | VNone => Ok JNull
    | VSome x => to_json T x
    | _ => j_ill_typed
    end;
  from_json j :=
    match j with
    | JNull => Ok VNone
    | _ => do v <- from_json T j; Ok (VSome v)
    end;
  when_missing := Some VNone |}.

(** A derived newtype struct: as its field *)
Definition newtype_serde (T : Serde) : Serde := {|
  to_json v := match v with VNewtype x => to_json T x | _ => j_ill_typed end;
  from_json j := do v <- from_json T j; Ok (VNewtype v);
  when_missing := None |}.

(** A derived struct: an object; unknown keys are skipped; also read from an array *)
Fixpoint write_fields (fs : list (string * Serde)) (l : list val) : jres (list (string * json)) :=
  match fs, l with
  | [], [] => Ok []
  | (name, T) :: fs', v :: l' =>
      do j <- to_json T v; do r <- write_fields fs' l'; Ok ((name, j) :: r)
  | _, _ => j_ill_typed
  end.

(** The slot of a key gets a value, unless it has one. [None]: no such field. *)
Fixpoint fill (fs : list (string * Serde)) (slots : list (option val)) (name : string) (j : json)
  : option (jres (list (option val))) :=
  match fs, slots with
  | (f, T) :: fs', s :: slots' =>
      if String.eqb f name then
        Some match s with
             | Some _ => Err (JDuplicateField name)
             | None => do v <- from_json T j; Ok (Some v :: slots')
             end
      else option_map (fun r => do x <- r; Ok (s :: x)) (fill fs' slots' name j)
  | _, _ => None
  end.

Definition read_entry (fs : list (string * Serde)) (slots : list (option val)) (e : string * json)
  : jres (list (option val)) :=
  match fill fs slots (fst e) (snd e) with
  | Some r => r
  | None => Ok slots
  end.

Fixpoint finish_fields (fs : list (string * Serde)) (slots : list (option val)) : jres (list val) :=
  match fs, slots with
  | [], [] => Ok []
  | (f, T) :: fs', s :: slots' =>
      do v <- match s, when_missing T with
              | Some v, _ => Ok v
              | None, Some v => Ok v
              | None, None => Err (JMissingField f)
              end;
      do r <- finish_fields fs' slots'; Ok (v :: r)
  | _, _ => j_ill_typed
  end.

Fixpoint read_items (fs : list (string * Serde)) (js : list json) : jres (list val) :=
  match fs, js with
  | [], [] => Ok []
  | (_, T) :: fs', j :: js' => do v <- from_json T j; do r <- read_items fs' js'; Ok (v :: r)
  | _, _ => Err JLength
  end.

Definition container_serde (fs : list (string * Serde)) : Serde := {|
  to_json v :=
    match v with
    | VStruct l => do r <- write_fields fs l; Ok (JObj r)
    | _ => j_ill_typed
    end;
  from_json j :=
    match j with
    | JObj entries =>
        do slots <- foldM (read_entry fs) (map (fun _ => None) fs) entries;
        do l <- finish_fields fs slots; Ok (VStruct l)
    | JArr js => do l <- read_items fs js; Ok (VStruct l)
    | _ => Err JShape
    end;
  when_missing := None |}.

(** The impls for every type; [foreign] gives those that are not modelled. *)
Fixpoint serde (oc : bool) (foreign : ty -> Serde) (t : ty) : Serde :=
  match t with
  | TVector u n => vector_serde n (serde oc foreign u)
  | TList u n => list_serde n (serde oc foreign u)
  | TBitvector n => bitvector_serde oc n
  | TBitlist n => bitlist_serde oc n
  | TContainer fs => container_serde (map (fun f => (fst f, serde oc foreign (snd f))) fs)
  | TNewtype u => newtype_serde (serde oc foreign u)
  | TOption u => option_serde (serde oc foreign u)
  | _ => foreign t
  end.

(** ** Debug output *)

(** A number formatted with [{}] *)
Definition decimal (n : N) : string := NilZero.string_of_uint (N.to_uint n).

(** The loop of bitlist.rs:33-43 and bitvector.rs:42-52. [bits_written] is an i32 (the type that
    Rust gives to an integer without constraints), kept as its 32 bits. *)
Definition next_written (oc : bool) (bits_written : N) : res unit N :=
  if oc && (bits_written =? 2 ^ 31 - 1) then Panic POverflow else Ok ((bits_written + 1) mod 2 ^ 32).

Fixpoint write_bits (oc : bool) (len index bits_written : N) (bits : list bool) (f : string) : res unit string :=
  match bits with
  | [] => Ok f
  | bit :: r =>
      let f := String.append f (if bit then "1" else "0") in
      do bits_written <- next_written oc bits_written;
      (* a multiple of 4 in two's complement *)
      do separate <- (if bits_written mod 4 =? 0 then do last <- usub oc len 1; Ok (negb (index =? last)) else Ok false);
      write_bits oc len (index + 1) bits_written r (if separate : bool then String.append f "_" else f)
  end.

(** bitlist.rs:30-47 *)
Definition bitlist_debug (oc : bool) (n : N) (b : bitvec) : res unit string :=
  let f := String.append (String.append (String.append "Bitlist<len=" (decimal (bv_len b))) (String.append ", cap=" (decimal n))) ">[" in
  do f <- write_bits oc (bv_len b) 0 0 (bv_bits b) f;
  Ok (String.append f "]").

(** bitvector.rs:39-56 *)
Definition bitvector_debug (oc : bool) (n : N) (b : bitvec) : res unit string :=
  let f := String.append (String.append "Bitvector<" (decimal n)) ">[" in
  do f <- write_bits oc (bv_len b) 0 0 (bv_bits b) f;
  Ok (String.append f "]").

(** Bytes as text, as [from_hex] takes them *)
Fixpoint text_of (b : bytes) : string :=
  match b with
  | [] => EmptyString
  | x :: r => String (ascii_of_byte x) (text_of r)
  end.

(** [slice::chunks(32)] *)
Fixpoint chunks_32 (fuel : nat) (b : bytes) : list bytes :=
  match fuel, b with
  | S fuel, _ :: _ => firstn 32 b :: chunks_32 fuel (skipn 32 b)
  | _, _ => []
  end.

(** [Tree::nodes] and [Debug for Tree], merkleize.rs:255-258, 279-284: the nodes that are formatted *)
Definition tree_debug (tree : bytes) : res unit (list bytes) :=
  mapM (fun chunk => match node_from_hex (text_of chunk) with Some n => Ok n | None => Panic PExpect end)
       (chunks_32 (length tree) tree).
