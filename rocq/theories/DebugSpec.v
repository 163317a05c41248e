(* When a debug build stops a program that is right in a release build. *)
From Coq Require Import List Bool Arith.
From Verif Require Import VecWorld VecSpec.
Import ListNotations.

Section Spec.
Context {V : Type}.
Notation vop := (@vop V).

Definition nothing {A} (l : list A) : bool := match l with [] => true | _ => false end.
(* caps: the capacities of the vectors *)
Definition halts (op : vop) (ls : list (list V)) (caps : list nat) : bool :=
  match op with
  | Make n _ => n =? 0
  | MakeRange l => nothing l
  | MakeCopy j => nothing (nth j ls [])
  | CopyAssign i j => (i =? j) || nothing (nth j ls [])
  | MoveAssign i j => i =? j
  | Assign i n _ => (n =? 0) && (nth i caps 0 =? 0)
  | _ => false
  end.
(* the same without capacities, for the user who does not know them: an empty
   vector is not given zero values *)
Definition prudent (op : vop) (ls : list (list V)) : Prop :=
  match op with
  | Make n _ => n <> 0
  | MakeRange l => l <> []
  | MakeCopy j => nth j ls [] <> []
  | CopyAssign i j => i <> j /\ nth j ls [] <> []
  | MoveAssign i j => i <> j
  | Assign i n _ => n = 0 -> nth i ls [] <> []
  | _ => True
  end.
(* when nothing throws *)
Fixpoint prudent_play (ops : list vop) (ls : list (list V)) : Prop :=
  match ops with [] => True | op :: t => prudent op ls /\ prudent_play t (effect op ls) end.
End Spec.
