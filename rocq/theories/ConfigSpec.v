(* Specification vocabulary for configs, independent of the functions of
   ConfigModel: what a tree means as a function from name sequences to values,
   and when a tree is well formed. *)
From Coq Require Import Ascii List Bool Arith ZArith Sorting.Sorted.
From Verif Require Import ConfigModel.
Import ListNotations.

(* byte-wise lexicographic order on strings *)
Inductive slt : str -> str -> Prop :=
| slt_nil y t : slt [] (y :: t)
| slt_head x y s t : (N_of_ascii x < N_of_ascii y)%N -> slt (x :: s) (y :: t)
| slt_tail x s t : slt s t -> slt (x :: s) (x :: t).
Definition sle (a b : str) : Prop := slt a b \/ a = b.

(* value of the first entry with the given key *)
Fixpoint assoc (n : str) (es : list (str * slot)) : slot :=
  match es with
  | [] => None
  | (k, v) :: t => if list_eq_dec ascii_dec k n then v else assoc n t
  end.

(* an object: a config that is not an array *)
Definition object (v : value) : Prop :=
  match v with
  | VConf (Some c) => ckind c <> KArray
  | _ => False
  end.
Definition child (v : value) (n : str) : slot :=
  match v with
  | VConf (Some (Conf KArray _)) => None
  | VConf (Some (Conf _ es)) => assoc n es
  | _ => None
  end.
(* the value reached from v by following names *)
Fixpoint vget (v : value) (p : list str) : option value :=
  match p with
  | [] => Some v
  | n :: rest => match child v n with Some v' => vget v' rest | None => None end
  end.
(* a possibly null config read by names *)
Definition cget (b : option conf) (p : list str) : option value := vget (VConf b) p.

Definition prefix (p q : list str) : Prop := exists r, q = p ++ r.
Definition proper_prefix (p q : list str) : Prop := exists n r, q = p ++ n :: r.
Definition diverges (p q : list str) : Prop := ~ prefix p q /\ ~ prefix q p.

(* what each back end keeps about its keys *)
Definition keys_ok (k : kind) (ks : list str) : Prop :=
  match k with
  | KMap => StronglySorted slt ks
  | KMulti => StronglySorted sle ks
  | KOrdered => NoDup ks
  | KArray => Forall (fun s => s = []) ks
  end.
Inductive wf : conf -> Prop :=
| wf_intro k es : keys_ok k (map fst es) ->
    (forall n c, In (n, Some (VConf (Some c))) es -> wf c) -> wf (Conf k es).
(* no object of the tree has two entries with one key *)
Inductive single : conf -> Prop :=
| single_intro k es : (k <> KArray -> NoDup (map fst es)) ->
    (forall n c, In (n, Some (VConf (Some c))) es -> single c) -> single (Conf k es).
(* no entry of an object is null *)
Inductive solid : conf -> Prop :=
| solid_intro k es : (k <> KArray -> forall n, ~ In (n, None) es) ->
    (forall n c, In (n, Some (VConf (Some c))) es -> solid c) -> solid (Conf k es).
(* keys of objects are names: not empty, without the path separator *)
Definition plain_key (n : str) : Prop := n <> [] /\ ~ In default_sep n.
Inductive plain : conf -> Prop :=
| plain_intro k es : (k <> KArray -> forall n v, In (n, v) es -> plain_key n) ->
    (forall n c, In (n, Some (VConf (Some c))) es -> plain c) -> plain (Conf k es).
(* every object of the tree is a plain map *)
Inductive maps_only : conf -> Prop :=
| maps_intro k es : k = KMap \/ k = KArray ->
    (forall n c, In (n, Some (VConf (Some c))) es -> maps_only c) -> maps_only (Conf k es).
Definition on (P : conf -> Prop) (b : option conf) : Prop :=
  match b with None => True | Some c => P c end.
Definition on_value (P : conf -> Prop) (v : value) : Prop :=
  match v with VConf (Some c) => P c | _ => True end.
(* no object of the tree is a multimap *)
Inductive mono : conf -> Prop :=
| mono_intro k es : k <> KMulti ->
    (forall n c, In (n, Some (VConf (Some c))) es -> mono c) -> mono (Conf k es).
(* reading p in b meets something that is not an object before the end *)
Definition blocked (b : option conf) (p : list str) : Prop :=
  exists q v, q <> [] /\ proper_prefix q p /\ cget b q = Some v /\ ~ object v.
