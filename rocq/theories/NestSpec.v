(* What a program expects of optionals made from optionals. *)
From Coq Require Import List Bool Arith.
From Verif Require Import NestModel.
Import ListNotations.

(* how many optionals are around what *)
Fixpoint depth (t : ty) : nat := match t with Opt t' => S (depth t') | _ => 0 end.
Fixpoint base (t : ty) : ty := match t with Opt t' => base t' | _ => t end.

(* no std::optional inside *)
Definition plain (t : ty) : Prop := match base t with Std _ => False | _ => True end.

Definition optional (t : ty) : Prop := match t with Opt _ => True | _ => False end.

(* the values of a type *)
Fixpoint typed (t : ty) (v : value) {struct v} : Prop :=
  match t, v with
  | Num, VNum _ | Flag, VFlag _ => True
  | Any, VAny c => match c with Some (u, x) => typed u x | None => True end
  | Opt u, VOpt c | Std u, VStd c => match c with Some x => typed u x | None => True end
  | _, _ => False
  end.

(* a const variable or a temporary *)
Definition settled (c : cat) : Prop := match c with ConstL | R => True | _ => False end.

(* what is at the bottom of a nested optional, if every level has a value *)
Fixpoint core (t : ty) (v : value) : option value :=
  match t with
  | Opt t' => match v with VOpt (Some x) => core t' x | _ => None end
  | _ => Some v
  end.

(* one more level, around the value at the bottom *)
Fixpoint deepen (t : ty) (v : value) : value :=
  match t with
  | Opt t' => match v with VOpt (Some x) => VOpt (Some (deepen t' x)) | _ => VOpt None end
  | _ => VOpt (Some v)
  end.

(* one optional follows another: both are empty, or the value of the one is made from that of the other *)
Definition follows (made : value -> value -> Prop) (o : option value) (r : value) : Prop :=
  match o with
  | None => r = VOpt None
  | Some x => exists w, made x w /\ r = VOpt (Some w)
  end.

(* the number a number or bool counts as *)
Definition amount (v : value) : nat :=
  match v with
  | VNum n => n
  | VFlag true => 1
  | _ => 0
  end.
