(* What users of a configuration see, whatever the document behind it. *)
From Coq Require Import String Ascii List Bool Arith NArith ZArith.
From Verif Require Import ConvertModel ConfigModel BackModel.
Import ListNotations.
Local Open Scope nat_scope.

(* ---- the contract of a back end ---- *)
Definition consistent {V} (b : backend V) : Prop :=
  (* exactly the indices below the size answer *)
  (forall i, b_at b i <> None <-> i < b_size b) /\
  (* what a key finds is what is at the index found *)
  (forall k i v, b_find b k = Found i v -> b_at b i = Some (k, v)) /\
  (* a key is found iff it is one of the keys, and nothing crashes *)
  (forall k, b_find b k <> Crash /\ (b_find b k = NotFound <-> ~ In k (b_keys b))) /\
  (* the keys are those of the entries, and there are none without the property *)
  (b_assoc b = true -> length (b_keys b) = b_size b /\
                       forall i k v, b_at b i = Some (k, v) -> nth_error (b_keys b) i = Some k) /\
  (b_assoc b = false -> b_keys b = [] /\ forall i k v, b_at b i = Some (k, v) -> k = []) /\
  (b_multi b = true -> b_assoc b = true).
Definition distinct {V} (b : backend V) : Prop := b_multi b = false -> NoDup (b_keys b).

(* ---- what is in a configuration ---- *)
Inductive tree :=
  | TNone | TInt (z : Z) | TReal (bits : N) | TBool (b : bool) | TStr (s : str)
  | TNode (assoc : bool) (es : list (str * tree)).

(* a handle shows a tree: read by value and by index, all the way down.  [get] reads
   a value, [back] makes the back end of a sub-configuration *)
Section Shows.
Context {V : Type} (get : V -> stored V) (back : V -> backend V).
Inductive shows : V -> tree -> Prop :=
  | shows_none : forall v, get v = SNone -> shows v TNone
  | shows_int : forall v z, get v = SInt z -> shows v (TInt z)
  | shows_real : forall v b, get v = SReal b -> shows v (TReal b)
  | shows_bool : forall v b, get v = SBool b -> shows v (TBool b)
  | shows_str : forall v s, get v = SStr s -> shows v (TStr s)
  | shows_conf : forall v c a es, get v = SConf c -> shows_in c a es -> shows v (TNode a es)
with shows_in : V -> bool -> list (str * tree) -> Prop :=
  | shows_entries : forall c a es,
      b_assoc (back c) = a -> b_size (back c) = length es ->
      (forall i k t, nth_error es i = Some (k, t) -> exists v, b_at (back c) i = Some (k, v) /\ shows v t) ->
      shows_in c a es.
End Shows.

(* the contents of a manual configuration *)
Fixpoint conf_tree (c : conf) : tree :=
  match c with
  | Conf k es =>
      TNode (is_assoc k)
        (map (fun e => match e with
                       | (key, s) =>
                           (if is_assoc k then key else [],
                            match s with
                            | None => TNone
                            | Some (VInt z) => TInt z
                            | Some (VReal b) => TReal b
                            | Some (VBool b) => TBool b
                            | Some (VStr s) => TStr s
                            | Some (VConf (Some c')) => conf_tree c'
                            | Some (VConf None) => TNone
                            end)
                       end) es)
  end.
(* the contents of documents *)
Fixpoint json_tree (j : json) : tree :=
  match j with
  | JNull => TNone
  | JInt z => TInt z
  | JUInt n => TInt (wrap64 n)
  | JFloat b => TReal b
  | JStr s => TStr s
  | JBool b => TBool b
  | JArr l => TNode false (map (fun x => ([], json_tree x)) l)
  | JObj l => TNode true (map (fun e => match e with (k, v) => (k, json_tree v) end) l)
  end.
Fixpoint xml_tree (e : xml) : tree :=
  match e with
  | Elem _ a t [] => match a, t with
                     | Some s, _ => TStr s
                     | None, Some s => TStr s
                     | None, None => TNode true []
                     end
  | Elem _ _ _ l => TNode true (map (fun c => (x_name c, xml_tree c)) l)
  end.
(* a root element is a configuration even if it has text *)
Definition xml_root_tree (e : xml) : tree := TNode true (map (fun c => (x_name c, xml_tree c)) (x_children e)).
Fixpoint yaml_tree (y : yaml) : tree :=
  match y with
  | YNull => TNode true []
  | YScalar s => TStr s
  | YSeq l => TNode false (map (fun x => ([], yaml_tree x)) l)
  | YMap l => TNode true (map (fun e => match e with (k, v) => (scalar k, yaml_tree v) end) l)
  end.

(* the back end of a node that is one *)
Definition yaml_back (y : yaml) : backend yaml :=
  match yaml_backend y with Some b => b | None => Backend _ 0 (fun _ => None) (fun _ => NotFound) [] false false false end.

(* ---- looking up ---- *)
Inductive step := Key (k : str) | Idx (i : nat).
Fixpoint first (k : str) {V} (es : list (str * V)) : option V :=
  match es with
  | [] => None
  | (k', v) :: t => if seqb k k' then Some v else first k t
  end.
Definition last_ (k : str) {V} (es : list (str * V)) : option V := first k (rev es).
(* of entries with equal keys the first, or the last *)
Fixpoint lookup (use_last : bool) (p : list step) (t : tree) : option tree :=
  match p with
  | [] => Some t
  | s :: p' =>
      match s, t with
      | Key k, TNode true es =>
          match (if use_last then last_ k es else first k es) with Some t' => lookup use_last p' t' | None => None end
      | Idx i, TNode false es =>
          match nth_error es i with Some (_, t') => lookup use_last p' t' | None => None end
      | _, _ => None
      end
  end.
(* a scalar with its value, or whether it is a map, or the length of an array *)
Definition shape (t : tree) : tree + option nat :=
  match t with
  | TNode true _ => inr None
  | TNode false es => inr (Some (length es))
  | _ => inl t
  end.

(* no key twice, anywhere *)
Fixpoint unique_keys (t : tree) : Prop :=
  match t with
  | TNode a es =>
      (a = true -> NoDup (map fst es)) /\
      fold_right and True (map (fun e => match e with (_, v) => unique_keys v end) es)
  | _ => True
  end.
(* keys ascending and so unique, anywhere *)
Fixpoint ascending (l : list str) : Prop :=
  match l with
  | a :: ((b :: _) as t) => scmp a b = Lt /\ ascending t
  | _ => True
  end.
Fixpoint sorted_keys (t : tree) : Prop :=
  match t with
  | TNode a es =>
      (a = true -> ascending (map fst es)) /\
      fold_right and True (map (fun e => match e with (_, v) => sorted_keys v end) es)
  | _ => True
  end.
(* every scalar and every key is of some sort *)
Section Every.
Context (scalar_ok : tree -> Prop) (key_ok : str -> Prop).
Fixpoint every (t : tree) : Prop :=
  match t with
  | TNode a es =>
      (a = true -> Forall key_ok (map fst es)) /\
      fold_right and True (map (fun e => match e with (_, v) => every v end) es)
  | _ => scalar_ok t
  end.
End Every.
Definition int64 (z : Z) : Prop := (- 2 ^ 63 <= z < 2 ^ 63)%Z.
(* what JSON text can hold *)
Definition json_scalar (utf8 : str -> bool) (t : tree) : Prop :=
  match t with
  | TInt z => int64 z
  | TReal b => finite b = true
  | TStr s => utf8 s = true
  | _ => True
  end.
(* what XML text can hold: no NUL, no carriage return *)
Definition xml_plain (s : str) : Prop := ~ In "000"%char s /\ ~ In "013"%char s.
Definition xml_scalar_ok (real_text : N -> str) (t : tree) : Prop :=
  match t with
  | TReal b => xml_plain (real_text b) /\ forallb is_space (real_text b) = false
  | TStr s => xml_plain s
  | _ => True
  end.

(* the view through text: every scalar is a string, a missing value an empty map *)
Section Views.
Context (real_text : N -> str).
(* XML: arrays are maps with the key "i" throughout; written as text, blank strings
   are empty maps *)
Fixpoint xml_view (text_value : bool) (t : tree) : tree :=
  match t with
  | TNone => TNode true []
  | TInt z => TStr (int_to_string z)
  | TReal b => TStr (real_text b)
  | TBool b => TStr (bool_text b)
  | TStr s => if text_value && forallb is_space s then TNode true [] else TStr s
  | TNode a es =>
      TNode true (map (fun e : str * tree => match e with (k, v) => (if a then k else chars "i", xml_view text_value v) end) es)
  end.
Fixpoint yaml_view (t : tree) : tree :=
  match t with
  | TNone => TNode true []
  | TInt z => TStr (int_to_string z)
  | TReal b => TStr (real_text b)
  | TBool b => TStr (bool_text b)
  | TStr s => TStr s
  | TNode a es => TNode a (map (fun e => match e with (k, v) => (k, yaml_view v) end) es)
  end.
End Views.

(* ---- ini ---- *)
Definition line := (str * str * str)%type.
(* the values of the lines of a section with a name, in order *)
Definition line_values (section name : str) (lines : list line) : list str :=
  map snd (filter (fun l => seqb section (fst (fst l)) && seqb name (snd (fst l))) lines).
Definition values_of (name : str) (l : list (str * str)) : list str :=
  map snd (filter (fun e => seqb name (fst e)) l).
Fixpoint not_descending (l : list str) : Prop :=
  match l with
  | a :: ((b :: _) as t) => scmp a b <> Gt /\ not_descending t
  | _ => True
  end.

(* the value at a path of indices, in maps and arrays alike *)
Fixpoint at_indices (p : list nat) (t : tree) : option tree :=
  match p with
  | [] => Some t
  | i :: p' => match t with
               | TNode _ es => match nth_error es i with Some (_, t') => at_indices p' t' | None => None end
               | _ => None
               end
  end.
