(* What sharing attributes should look like: every access happens at one moment. *)
From Coq Require Import List Bool Arith.
From Verif Require Import AtomModel.
Import ListNotations.

(* attributes as one list of types and values; an operation at one moment *)
Inductive oper := OSet (k : nat) (x : option (nat * nat)) | OGet (k t : nat) | OHas (k : nat).
Inductive reply := Absent | Mismatch | Gave (v : nat).
Definition perform (o : oper) (s : list (nat * nat)) : reply * list (nat * nat) :=
  match o with
  | OSet k x =>
      match nth_error s k, x with
      | None, _ => (Absent, s)
      | Some (t, _), Some (u, w) => if u =? t then (Gave w, firstn k s ++ (t, w) :: skipn (S k) s) else (Mismatch, s)
      | Some _, None => (Mismatch, s)
      end
  | OGet k t =>
      match nth_error s k with
      | None => (Absent, s)
      | Some (u, v) => (if u =? t then Gave v else Mismatch, s)
      end
  | OHas k => (match nth_error s k with None => Absent | Some _ => Gave 0 end, s)
  end.

(* what a call does and returns: a copy reads the attributes one after the other *)
Definition opers (types : list nat) (c : call) : list oper :=
  match c with
  | CSet k x => [OSet k x]
  | CGet k t | CGetOr k t _ | CGetOpt k t => [OGet k t]
  | CHas k => [OHas k]
  | CClear _ => []
  | CCopy => map (fun p => OGet (fst p) (snd p)) (combine (seq 0 (length types)) types)
  end.
Definition answer (types : list nat) (c : call) (rs : list reply) : option result :=
  match c, rs with
  | CSet _ _, [Gave _] => Some (RBool true)
  | CSet _ _, [Absent] => Some (RBool false)
  | CSet _ _, [Mismatch] => Some RBadCast
  | CGet _ _, [Gave v] => Some (RVal v)
  | CGet _ _, [_] => Some RBadAttribute
  | CGetOr _ _ _, [Gave v] => Some (RVal v)
  | CGetOr _ _ d, [_] => Some (RVal d)
  | CGetOpt _ _, [Gave v] => Some (ROpt (Some v))
  | CGetOpt _ _, [_] => Some (ROpt None)
  | CHas _, [Gave _] => Some (RBool true)
  | CHas _, [_] => Some (RBool false)
  | CCopy, _ => Some (RCopy (combine types (map (fun r => match r with Gave v => v | _ => 0 end) rs)))
  | _, _ => None
  end.

(* a history with the moments at which operations happen *)
Inductive moment := Seen (e : event) | Now (i : nat) (o : oper) (r : reply).
Definition observed (h : list moment) : list event := flat_map (fun m => match m with Seen e => [e] | Now _ _ _ => [] end) h.
(* each operation lies between the call and the return of its thread: state of a
   thread: between calls, or in call c after the replies rs *)
Definition within := option (call * list reply).
Inductive follows (types : list nat) (i : nat) : within -> list moment -> Prop :=
| F_end w : follows types i w []
| F_call c h : follows types i (Some (c, [])) h -> follows types i None (Seen (Call i c) :: h)
| F_now c rs o r h : nth_error (opers types c) (length rs) = Some o -> follows types i (Some (c, rs ++ [r])) h ->
    follows types i (Some (c, rs)) (Now i o r :: h)
| F_return c rs r h : length rs = length (opers types c) -> answer types c rs = Some r -> follows types i None h ->
    follows types i (Some (c, rs)) (Seen (Return i r) :: h)
| F_other w m h : (match m with Seen (Call j _) | Seen (Return j _) | Now j _ _ => j end) <> i -> follows types i w h -> follows types i w (m :: h).
(* the replies are those of the operations performed one after the other *)
Fixpoint performed (s : list (nat * nat)) (h : list moment) : Prop :=
  match h with
  | [] => True
  | Seen _ :: t => performed s t
  | Now _ o r :: t => fst (perform o s) = r /\ performed (snd (perform o s)) t
  end.
Definition linearizable (regs : list (nat * nat)) (es : list event) : Prop :=
  exists h, observed h = es /\ (forall i, follows (map fst regs) i None h) /\ performed regs h.

Definition no_clear (c : call) : bool := match c with CClear _ => false | _ => true end.
(* the steps of its own a call needs at most *)
Definition cost (n : nat) (c : call) : nat := match c with CCopy => 4 * n + 3 | _ => 7 end.
