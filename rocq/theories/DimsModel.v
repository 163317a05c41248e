(* Extents and strides as values: dimensionality and strides_array, the functions
   dims and strides that make them, and the accessors width, height, depth, layers
   and length (/repo/include/yato/container_base.h 138-713), in release and debug
   builds, with the integer arithmetic of C++ (IterModel).

   Simplifications.
   - SizeType is an integer type of 8, 16, 32 or 64 bits, not bool; int has 32 bits.
   - operator[] of std::array does not check its argument, and iterators are read
     and written inside their range only: they then are operator[].
   - A range is the list of its values; distance() is its length.
   - std::array of a strides_array made from too short a range keeps indeterminate
     values (None); reading one is undefined.
   - A call that does not compile is None where this can be asked. *)
From Coq Require Import List Bool Arith ZArith.
From Verif Require Import ConvertModel IterModel.
Import ListNotations.
Open Scope Z_scope.

Inductive exn := OutOfRange | RuntimeError.
Inductive result (A : Type) := Ok (x : A) | Raise (e : exn) | Undefined | Stopped.
Arguments Ok {A}. Arguments Raise {A}. Arguments Undefined {A}. Arguments Stopped {A}.
Definition lift {A} (x : out A) : result A :=
  match x with Val a => Ok a | Undef => Undefined | Stop => Stopped end.
Definition andThen {A B} (x : result A) (f : A -> result B) : result B :=
  match x with Ok a => f a | Raise e => Raise e | Undefined => Undefined | Stopped => Stopped end.

(* dimensionality<N, ty> (142-291, 313-430) and strides_array<N, ty> (467-573);
   N is the length *)
Inductive family := Extents | Strides.
Record dimsobj := MkDims { fam : family; ty : ity; slots : list (option Z) }.
Definition rank (d : dimsobj) : nat := length (slots d).

(* a number of its type, as it is written in a call *)
Definition arg := (ity * Z)%type.

(* 433-441 dims, 600-608 strides, with the constructors 177-184 and 481-484: every
   argument is checked, then all are stored *)
Fixpoint narrow_all (debug : bool) (t : ity) (args : list arg) : result (list (option Z)) :=
  match args with
  | [] => Ok []
  | (from, v) :: rest =>
      andThen (lift (narrow debug t from v)) (fun x =>
      andThen (narrow_all debug t rest) (fun xs => Ok (Some x :: xs)))
  end.
Definition make (debug : bool) (f : family) (t : ity) (args : list arg) : option (result dimsobj) :=
  match f, args with
  | Strides, [] => None                    (* strides_array<0> has no such constructor *)
  | _, _ => Some (andThen (narrow_all debug t args) (fun xs => Ok (MkDims f t xs)))
  end.

(* 187-193, 486-492; with N = 0 (324-327, 546-549) the range is not looked at *)
Definition blank (f : family) : option Z := match f with Extents => Some 0 | Strides => None end.
Definition from_range (debug : bool) (f : family) (t : ity) (n : nat) (vs : list Z) : result dimsobj :=
  match n with
  | O => Ok (MkDims f t [])
  | _ =>
      if debug && negb (Nat.eqb (length vs) n) then Stopped
      else if Nat.ltb n (length vs) then Undefined
      else Ok (MkDims f t (map (fun v => Some (cast t v)) vs ++ repeat (blank f) (n - length vs)))
  end.

(* 206-216, 342-352, 502-512, 551-561 *)
Definition read (d : dimsobj) (i : nat) : result Z :=
  match slots d with
  | [] => Raise RuntimeError
  | _ => match nth_error (slots d) i with Some (Some v) => Ok v | _ => Undefined end
  end.
(* 218-226, 354-362; strides_array has no at *)
Definition at_ (d : dimsobj) (i : nat) : result Z :=
  match slots d with
  | [] => Raise RuntimeError
  | _ => if Nat.ltb i (rank d) then read d i else Raise OutOfRange
  end.
(* 244-266, 380-402 *)
Definition front (d : dimsobj) : result Z := read d 0.
Definition back (d : dimsobj) : result Z := read d (rank d - 1).

(* an assignment to operator[] or through an iterator; the value is converted *)
Fixpoint replace (l : list (option Z)) (i : nat) (v : Z) : list (option Z) :=
  match l, i with
  | [], _ => []
  | _ :: r, O => Some v :: r
  | x :: r, S j => x :: replace r j v
  end.
Definition write (d : dimsobj) (i : nat) (v : Z) : result dimsobj :=
  match slots d with
  | [] => Raise RuntimeError
  | _ => if Nat.ltb i (rank d) then Ok (MkDims (fam d) (ty d) (replace (slots d) i (cast (ty d) v)))
         else Undefined
  end.
(* an assignment to at() *)
Definition write_at (d : dimsobj) (i : nat) (v : Z) : result dimsobj :=
  match slots d with
  | [] => Raise RuntimeError
  | _ => if Nat.ltb i (rank d) then write d i v else Raise OutOfRange
  end.

(* a * b, returned as a number of type t *)
Definition times (t : ity) (a b : Z) : result Z :=
  lift (IterModel.bind (arith (promoted t) (a * b)) (fun v => Val (cast t v))).
(* 160-166: the recursion goes from idx to the last extent; [rest] are the extents
   from idx on and is not empty.  The operands of * are evaluated in some order:
   reading an extent does nothing else *)
Fixpoint product_from (t : ity) (rest : list (option Z)) : result Z :=
  match rest with
  | [] => Undefined
  | [x] => match x with Some v => Ok v | None => Undefined end
  | x :: r => match x with
              | Some v => andThen (product_from t r) (fun p => times t v p)
              | None => Undefined
              end
  end.
(* 238-242, 374-378; for an idx from N - 1 on, the last extent *)
Definition total_size (d : dimsobj) (idx : nat) : result Z :=
  match slots d with
  | [] => Ok 0
  | _ => product_from (ty d) (skipn (Nat.min idx (rank d - 1)) (slots d))
  end.

(* 286-290, 424-428: the extents after the first, through a range *)
Definition sub_dims (d : dimsobj) : dimsobj := MkDims (fam d) (ty d) (tl (slots d)).

(* == of numbers of two types: the usual arithmetic conversions *)
Definition common (t u : ity) : ity :=
  let t := promoted t in
  let u := promoted u in
  if Bool.eqb (signed t) (signed u) then if width t <? width u then u else t
  else
    let s := if signed t then t else u in
    let n := if signed t then u else t in
    if width s <=? width n then n else s.
Definition same_number (t u : ity) (a b : Z) : bool :=
  cast (common t u) a =? cast (common t u) b.
(* 293-298, 576-581: std::equal, for two objects of one N *)
Fixpoint equal_from (t u : ity) (l m : list (option Z)) : result bool :=
  match l, m with
  | [], [] => Ok true
  | Some a :: r, Some b :: s => if same_number t u a b then equal_from t u r s else Ok false
  | _, _ => Undefined
  end.
Definition equals (d e : dimsobj) : result bool := equal_from (ty d) (ty e) (slots d) (slots e).
(* 300-305, 583-588 *)
Definition differs (d e : dimsobj) : result bool := andThen (equals d e) (fun b => Ok (negb b)).

(* 643-711: which argument of size() an accessor of a container with n dimensions
   passes; None: there is no such accessor *)
Inductive accessor := Length | Width | Height | Depth | Layers.
Definition asked (a : accessor) (n : nat) : option nat :=
  match a, n with
  | Length, 1%nat => Some 0%nat
  | Width, 2%nat => Some 1%nat
  | Height, 2%nat => Some 0%nat
  | Width, 3%nat => Some 2%nat
  | Height, 3%nat => Some 1%nat
  | Depth, 3%nat => Some 0%nat
  | Layers, 4%nat => Some 0%nat
  | Depth, 4%nat => Some 1%nat
  | Height, 4%nat => Some 2%nat
  | Width, 4%nat => Some 3%nat
  | _, _ => None
  end.

(* ---- a program ---- *)
(* objects are numbered as they are made; assignments are between objects of one type *)
Inductive call :=
| Make (f : family) (t : ity) (args : list arg)
| FromRange (f : family) (t : ity) (n : nat) (vs : list Z)
| Copy (k : nat)                       (* a copy of object k *)
| Assign (k j : nat)                   (* k = j *)
| Write (k i : nat) (v : Z)
| WriteAt (k i : nat) (v : Z)
| SubDims (k : nat).
Definition put (objs : list dimsobj) (k : nat) (d : dimsobj) : list dimsobj :=
  firstn k objs ++ d :: skipn (S k) objs.
Definition fam_eqb (f g : family) : bool :=
  match f, g with Extents, Extents => true | Strides, Strides => true | _, _ => false end.
Definition ity_eqb (t u : ity) : bool :=
  match t, u with
  | Int s n, Int r m => Bool.eqb s r && (n =? m)
  | Bool, Bool => true
  | _, _ => false
  end.
Definition same_type (d e : dimsobj) : bool :=
  fam_eqb (fam d) (fam e) && ity_eqb (ty d) (ty e) && Nat.eqb (rank d) (rank e).
(* the objects after the call; a call that does not compile leaves them *)
Definition step (debug : bool) (objs : list dimsobj) (c : call) : result (list dimsobj) :=
  match c with
  | Make f t args =>
      match make debug f t args with
      | Some r => andThen r (fun d => Ok (objs ++ [d]))
      | None => Ok objs
      end
  | FromRange f t n vs => andThen (from_range debug f t n vs) (fun d => Ok (objs ++ [d]))
  | Copy k => match nth_error objs k with Some d => Ok (objs ++ [d]) | None => Ok objs end
  | Assign k j =>
      match nth_error objs k, nth_error objs j with
      | Some d, Some e => if same_type d e then Ok (put objs k e) else Ok objs
      | _, _ => Ok objs
      end
  | Write k i v =>
      match nth_error objs k with
      | Some d => andThen (write d i v) (fun d' => Ok (put objs k d'))
      | None => Ok objs
      end
  | WriteAt k i v =>
      match nth_error objs k with
      | Some d => match fam d with
                  | Extents => andThen (write_at d i v) (fun d' => Ok (put objs k d'))
                  | Strides => Ok objs
                  end
      | None => Ok objs
      end
  | SubDims k =>
      match nth_error objs k with
      | Some d => match fam d with
                  | Extents => Ok (objs ++ [sub_dims d])
                  | Strides => Ok objs
                  end
      | None => Ok objs
      end
  end.
(* an exception is caught and leaves the objects as they were *)
Fixpoint run (debug : bool) (objs : list dimsobj) (cs : list call) : result (list dimsobj) :=
  match cs with
  | [] => Ok objs
  | c :: r =>
      match step debug objs c with
      | Raise _ => run debug objs r
      | Ok o => run debug o r
      | Undefined => Undefined
      | Stopped => Stopped
      end
  end.
