(* What C71-C73 speak about. *)
From Coq Require Import List Bool Arith.
From Verif Require Import IoModel.
Import ListNotations.

Section Spec.
Context {Byte : Type}.
(* the bytes told to handlers *)
Fixpoint told_bytes (l : list (event Byte)) : list Byte :=
  match l with
  | [] => []
  | Told _ (Received d) :: t => d ++ told_bytes t
  | _ :: t => told_bytes t
  end.
Definition is_told (e : event Byte) : bool := match e with Told _ _ => true | _ => false end.
(* the writes that were handled, whatever became of them *)
Fixpoint handled_writes (l : list (event Byte)) : list (list Byte) :=
  match l with
  | [] => []
  | Wrote d _ _ :: t | Dropped d :: t => d :: handled_writes t
  | _ :: t => handled_writes t
  end.
(* the bytes that got through *)
Fixpoint sent_bytes (l : list (event Byte)) : list Byte :=
  match l with
  | [] => []
  | Wrote d n _ :: t => firstn n d ++ sent_bytes t
  | _ :: t => sent_bytes t
  end.
Fixpoint mail_writes (l : list (rmsg Byte)) : list (list Byte) :=
  match l with
  | [] => []
  | MWrite d :: t => d :: mail_writes t
  | _ :: t => mail_writes t
  end.
(* what the actions ask for *)
Fixpoint writes (xs : list (action Byte)) : list (list Byte) :=
  match xs with
  | [] => []
  | Tell (MWrite d) :: t => d :: writes t
  | _ :: t => writes t
  end.
Fixpoint assigns (xs : list (action Byte)) : list nat :=
  match xs with
  | [] => []
  | Tell (MAssign h) :: t => h :: assigns t
  | _ :: t => assigns t
  end.
(* a write went wrong *)
Definition write_failed (e : event Byte) : Prop :=
  match e with Wrote _ _ ok => ok = false | Dropped _ => True | _ => False end.
End Spec.
Fixpoint sends {Byte Addr} (xs : list (uaction Byte Addr)) : list (list Byte * Addr) :=
  match xs with
  | [] => []
  | USend d a :: t => (d, a) :: sends t
  | _ :: t => sends t
  end.
Definition handler_of {Addr} (c : command Addr) : option nat :=
  match c with TcpBind h _ | UdpBind h _ => Some h | TcpConnect h _ => h end.
