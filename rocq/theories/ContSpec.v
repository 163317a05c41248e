(* What the conversion of containers should do, stated on the values alone. *)
From Coq Require Import Ascii List Bool Arith NArith ZArith Sorting.Sorted.
From Verif Require Import ConvertModel ConvertSpec ConfigModel ConfigSpec ContModel.
Import ListNotations.

(* integer types of 2 to 64 bits *)
Fixpoint proper_ty (t : ty) : Prop :=
  match t with
  | TInt _ n => (1 < n <= 64)%Z
  | TVec t | TMap t | TWrap _ t => proper_ty t
  | _ => True
  end.
(* the values a C++ object of the type can have: numbers in range, maps in the
   order of their keys without repetition *)
Fixpoint valid (t : ty) : den t -> Prop :=
  match t with
  | TInt s n => in_range (Int s n)
  | TVec t => Forall (valid t)
  | TMap t => fun l => StronglySorted slt (map fst l) /\ Forall (fun e => valid t (snd e)) l
  | TWrap _ t => fun o => forall x, o = Some x -> valid t x
  | _ => fun _ => True
  end.
(* there is something to write: neither an empty optional, nor a null pointer,
   nor a null config *)
Fixpoint present (t : ty) : den t -> bool :=
  match t with
  | TConf => fun c => match c with Some _ => true | None => false end
  | TWrap _ t => fun o => match o with Some x => present t x | None => false end
  | _ => fun _ => true
  end.
(* an empty optional or a null pointer *)
Definition hollow (t : ty) : den t -> Prop :=
  match t with
  | TWrap _ _ => fun o => o = None
  | _ => fun _ => False
  end.
(* no empty optional or null pointer is inside another one or at the outermost level *)
Fixpoint storable (t : ty) : den t -> Prop :=
  match t with
  | TVec t => Forall (fun x => hollow t x \/ storable t x)
  | TMap t => Forall (fun e => hollow t (snd e) \/ storable t (snd e))
  | TWrap _ t => fun o => match o with Some x => storable t x | None => False end
  | _ => fun _ => True
  end.
(* the value without the elements that have nothing to write *)
Fixpoint pruned (t : ty) : den t -> den t :=
  match t with
  | TVec t => fun l => map (pruned t) (filter (present t) l)
  | TMap t => fun l => map (fun e => (fst e, pruned t (snd e))) (filter (fun e => present t (snd e)) l)
  | TWrap _ t => option_map (pruned t)
  | _ => fun v => v
  end.
(* nothing of it is left out *)
Fixpoint full (t : ty) : den t -> Prop :=
  match t with
  | TVec t => Forall (fun x => present t x = true /\ full t x)
  | TMap t => Forall (fun e => present t (snd e) = true /\ full t (snd e))
  | TWrap _ t => fun o => forall x, o = Some x -> full t x
  | _ => fun _ => True
  end.

(* when a stored value can be read as a double, and as what *)
Inductive as_double (to_real : Z -> N) (real_of_string : text -> option N) : value -> N -> Prop :=
  | AD_real r : as_double to_real real_of_string (VReal r) r
  | AD_integer z : as_double to_real real_of_string (VInt z) (to_real z)
  | AD_string s r : real_of_string s = Some r -> as_double to_real real_of_string (VStr s) r.
(* the same value in the words of ConvertSpec *)
Inductive stored_as : value -> ConvertModel.value N (option conf) -> Prop :=
  | SA_integer z : stored_as (VInt z) (VInteger z)
  | SA_real r : stored_as (VReal r) (ConvertModel.VReal r)
  | SA_boolean b : stored_as (VBool b) (VBoolean b)
  | SA_string s : stored_as (VStr s) (VString s)
  | SA_config c : stored_as (VConf c) (VConfig c).

(* the value of a key in a sequence of entries: that of its first entry *)
Fixpoint first_of {A} (k : str) (l : list (str * A)) : option A :=
  match l with
  | [] => None
  | (k', v) :: t => if list_eq_dec ascii_dec k' k then Some v else first_of k t
  end.
(* all values of a key, in order *)
Definition has_key {A} (k : str) (e : str * A) : bool := if list_eq_dec ascii_dec (fst e) k then true else false.
Definition all_of {A} (k : str) (l : list (str * A)) : list A := map snd (filter (has_key k) l).
