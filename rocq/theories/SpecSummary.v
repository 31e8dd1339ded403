(** Summaries: parts of a value replaced by their roots, as a block header does with the body of the
    block. *)
From Coq Require Import String List NArith Bool.
From Verif Require Import Prelude Types SpecMerkle SpecPack.
Import ListNotations.
Open Scope N_scope.

(** What becomes of a part: it stays, it is replaced by its root, or some of its own parts are. The
    elements of a collection have one mask for all of them; fields and variants without a mask stay. *)
Inductive mask : Type := Keep | Cut | Below (ms : list mask).

Fixpoint each {A} (fs : list (mask -> A)) (ms : list mask) : list A :=
  match fs with
  | [] => []
  | f :: r => f (hd Keep ms) :: each r (tl ms)
  end.

(** Elements that share chunks have no roots of their own and stay. An array of other elements becomes a
    [Vector]; an array of roots would be packed in a collection. *)
Fixpoint summary_ty (t : ty) (m : mask) {struct t} : ty :=
  match m with
  | Keep => t
  | Cut => TNode
  | Below ms =>
      match t with
      | TVector u n | TArray u n => if packed u then t else TVector (summary_ty u (hd Keep ms)) n
      | TList u n => if packed u then t else TList (summary_ty u (hd Keep ms)) n
      | TContainer fs => TContainer (combine (map fst fs) (each (map (fun f => summary_ty (snd f)) fs) ms))
      | TNewtype u => TNewtype (summary_ty u (hd Keep ms))
      | TOption u => TOption (summary_ty u (hd Keep ms))
      | TUnion vs => TUnion (each (map (fun o k => option_map (fun u => summary_ty u k) o) vs) ms)
      | TTransparent ts => TTransparent (each (map summary_ty ts) ms)
      | _ => t
      end
  end.

Section Hash.
  Context (H : bytes -> bytes).

  Fixpoint summary_val (t : ty) (v : val) (m : mask) {struct t} : val :=
    match m with
    | Keep => v
    | Cut => VNode (root_with packed H t v)
    | Below ms =>
        match t, v with
        | TVector u _, VSeq l | TArray u _, VSeq l | TList u _, VSeq l =>
            if packed u then v else VSeq (map (fun x => summary_val u x (hd Keep ms)) l)
        | TContainer fs, VStruct l =>
            VStruct (each (map (fun fx : (val -> mask -> val) * val => fst fx (snd fx))
                             (combine (map (fun f => summary_val (snd f)) fs) l)) ms)
        | TNewtype u, VNewtype x => VNewtype (summary_val u x (hd Keep ms))
        | TOption u, VSome x => VSome (summary_val u x (hd Keep ms))
        | TUnion vs, VVariant i x =>
            match nth_error (map (option_map summary_val) vs) (N.to_nat i) with
            | Some (Some f) => VVariant i (f x (nth (N.to_nat i) ms Keep))
            | _ => v
            end
        | TTransparent ts, VVariant i x =>
            match nth_error (map summary_val ts) (N.to_nat i) with
            | Some f => VVariant i (f x (nth (N.to_nat i) ms Keep))
            | None => v
            end
        | _, _ => v
        end
    end.
End Hash.

(** The value as a whole, without the newtypes around it, is not replaced. *)
Fixpoint inside (t : ty) (m : mask) : bool :=
  match m with
  | Keep => true
  | Cut => false
  | Below ms => match t with TNewtype u => inside u (hd Keep ms) | _ => true end
  end.
