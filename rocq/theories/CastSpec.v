(* What a user of any relies on when reading it and keeping references.

   An any is empty, or has an item in it: an object of some type with a value.
   An item has a serial number, by which a reference finds it, whichever any it
   is in; an item that is in no any is gone. *)
From Coq Require Import List Bool Arith.
From Verif Require Import CastModel.
Import ListNotations.

Section Spec.
Context {V : Type}.
Variable copyable : nat -> bool.
Variable husk : V -> V.

Record item := MkItem { serial : nat; ity : sty; ival : V }.

(* for each any of the program that exists: its item, if it has one *)
Definition contents := nat -> option (option item).

Definition content (w : cworld V) : contents := fun i =>
  match cvars w i with
  | None => None
  | Some None => Some None
  | Some (Some a) => match cheap w a with
                     | Some (s, v) => Some (Some (MkItem a s v))
                     | None => None
                     end
  end.

(* asking an any for its item as a type *)
Inductive reply := Mismatch | Gives (x : item) | WrongClass.
Definition ask (s : sty) (c : option (option item)) : reply :=
  match c with
  | Some (Some x) => if tbase s =? tbase (ity x)
                     then (if same_class s (ity x) then Gives x else WrongClass)
                     else Mismatch
  | _ => Mismatch
  end.

(* the type get_or is called for *)
Definition asked (o : sty) (const_any : bool) : sty :=
  if const_any then plain (tbase o) else MkTy (tconst o) false (tbase o).

Definition is_there (c : option (option item)) : Prop := c <> None.
Definition can_copy (s : sty) : bool := copyable (tbase s) && negb (tconst s).

(* an item with its number, in some any *)
Definition alive (c : contents) (x : item) : Prop := exists i, c i = Some (Some x).

(* what a reference shows *)
Definition shows (c : contents) (m : nat -> sty * V) (p : place) (s : sty) (v : V) : Prop :=
  match p with
  | Payload n => exists x, alive c x /\ serial x = n /\ ity x = s /\ ival x = v
  | Mine k => m k = (s, v)
  | Ended => False
  end.

(* Which calls are allowed. *)
Definition allowed (o : cop V) (c : contents) (m : nat -> sty * V) (r : nat -> option place) : Prop :=
  match o with
  | NewEmpty i | NewValue i _ _ | NewInPlace i _ _ => c i = None
  | NewCopy i j | NewMove i j => c i = None /\ is_there (c j)
  | Delete i | AssignValue i _ _ | Emplace i _ _ | Clear i | Empty i | IsType i _ => is_there (c i)
  | Swap i j | CopyAssign i j | MoveAssign i j => is_there (c i) /\ is_there (c j)
  | Get _ i s | GetOpt i s | AnyCast i s _ => is_there (c i) /\ ask s (c i) <> WrongClass
  | GetOr _ i k q => is_there (c i) /\ ask (asked (fst (m k)) q) (c i) <> WrongClass
  | GetOrTemp _ i t _ => is_there (c i) /\ ask (plain t) (c i) <> WrongClass
  | GetUnsafe _ i s | TakeUnsafe i s _ => exists x, ask s (c i) = Gives x
  | Read q | MoveOut q => exists p s v, r q = Some p /\ shows c m p s v
  | Write q _ => exists p s v, r q = Some p /\ shows c m p s v /\ tconst s = false
  end.

(* What a call shows. *)
Definition result (o : cop V) (c : contents) (m : nat -> sty * V) (r : nat -> option place) (x : seen V) : Prop :=
  match o with
  | NewCopy _ j | CopyAssign _ j =>
      x = match c j with
          | Some (Some y) => if can_copy (ity y) then Nothing else Exception
          | _ => Nothing
          end
  | Empty i => x = Answer (match c i with Some (Some _) => false | _ => true end)
  | IsType i s => x = Answer (match c i with Some (Some y) => tbase (ity y) =? tbase s | _ => false end)
  | Get _ i s => x = match ask s (c i) with Gives _ => Nothing | _ => Exception end
  | GetOrTemp _ i t v => x = Value (match ask (plain t) (c i) with Gives y => ival y | _ => v end)
  | TakeUnsafe i s _ => exists y, ask s (c i) = Gives y /\ x = Value (ival y)
  | GetOpt i s => x = Maybe (match ask s (c i) with Gives y => Some (ival y) | _ => None end)
  | AnyCast i s _ => x = match ask s (c i) with Gives y => Value (ival y) | _ => Exception end
  | Read q | MoveOut q => exists p s v, r q = Some p /\ shows c m p s v /\ x = Value v
  | _ => x = Nothing
  end.

(* a copy of an item is another item *)
Definition renew (n : nat) (c : option (option item)) : option (option item) :=
  match c with
  | Some (Some x) => Some (Some (MkItem n (ity x) (ival x)))
  | _ => c
  end.

(* item n gets another value, wherever it is *)
Definition revalue (n : nat) (f : V -> V) (c : option (option item)) : option (option item) :=
  match c with
  | Some (Some x) => if serial x =? n then Some (Some (MkItem n (ity x) (f (ival x)))) else c
  | _ => c
  end.
Definition through (p : option place) (f : V -> V) (c : option (option item)) : option (option item) :=
  match p with Some (Payload n) => revalue n f c | _ => c end.

Definition drop_const (s : sty) : sty := plain (tbase s).

(* a value a const object does not lose *)
Definition lose (s : sty) (v : V) : V := if tconst s then v else husk v.
Definition spent (c : option (option item)) : option (option item) :=
  match c with
  | Some (Some x) => Some (Some (MkItem (serial x) (ity x) (lose (ity x) (ival x))))
  | _ => c
  end.

Definition went (x : seen V) : bool := match x with Exception => false | _ => true end.

(* What is in the anys after a call; n is the serial number of an item made by it. *)
Definition after (o : cop V) (n : nat) (r : nat -> option place) (x : seen V) (c : contents) : contents :=
  match o with
  | NewEmpty i | Clear i => put c i (Some None)
  | NewValue i s v | AssignValue i s v => put c i (Some (Some (MkItem n (drop_const s) v)))
  | NewInPlace i s v | Emplace i s v => put c i (Some (Some (MkItem n s v)))
  | NewCopy i j | CopyAssign i j => if went x then put c i (renew n (c j)) else c
  | NewMove i j => put (put c j (Some None)) i (c j)
  | MoveAssign i j => if i =? j then put c i (Some None) else put (put c j (Some None)) i (c j)
  | Delete i => put c i None
  | Swap i j => put (put c j (c i)) i (c j)
  | TakeUnsafe i _ q => if q then c else put c i (spent (c i))
  | Write q v => fun i => through (r q) (fun _ => v) (c i)
  | MoveOut q => fun i => match r q with
                          | Some (Payload n) => match c i with
                                                | Some (Some y) => if serial y =? n then spent (c i) else c i
                                                | _ => c i
                                                end
                          | _ => c i
                          end
  | _ => c
  end.

(* What the references of the program refer to after a call. *)
Definition rebound (o : cop V) (c : contents) (m : nat -> sty * V) (r : nat -> option place) : nat -> option place :=
  match o with
  | Get q i s => match ask s (c i) with Gives x => put r q (Some (Payload (serial x))) | _ => r end
  | GetUnsafe q i s => match ask s (c i) with Gives x => put r q (Some (Payload (serial x))) | _ => r end
  | GetOr q i k b => put r q (Some (match ask (asked (fst (m k)) b) (c i) with
                                    | Gives x => Payload (serial x)
                                    | _ => Mine k
                                    end))
  | GetOrTemp q i t _ => put r q (Some (match ask (plain t) (c i) with Gives x => Payload (serial x) | _ => Ended end))
  | _ => r
  end.

(* The program's own objects change through references only. *)
Definition mine_after (o : cop V) (r : nat -> option place) (m : nat -> sty * V) : nat -> sty * V :=
  match o with
  | Write q v => match r q with Some (Mine k) => put m k (fst (m k), v) | _ => m end
  | MoveOut q => match r q with Some (Mine k) => put m k (fst (m k), lose (fst (m k)) (snd (m k))) | _ => m end
  | _ => m
  end.

(* Follow a payload: the any it is in after a call, if it is in [i] before. *)
Definition follow (i : nat) (o : cop V) (x : seen V) : option nat :=
  match o with
  | NewMove k j => Some (if j =? i then k else i)
  | Swap k j => Some (if k =? i then j else if j =? i then k else i)
  | MoveAssign k j => if k =? i then None else Some (if j =? i then k else i)
  | Delete k | AssignValue k _ _ | Emplace k _ _ | Clear k => if k =? i then None else Some i
  | CopyAssign k _ => if (k =? i) && went x then None else Some i
  | _ => Some i
  end.
Fixpoint tracked (i : nat) (l : list (cop V)) (xs : list (seen V)) : option nat :=
  match l, xs with
  | o :: l', x :: xs' => match follow i o x with
                         | Some j => tracked j l' xs'
                         | None => None
                         end
  | _, _ => Some i
  end.

(* the reference q is not bound again *)
Definition binds (o : cop V) : option nat :=
  match o with
  | Get r _ _ | GetOr r _ _ _ | GetOrTemp r _ _ _ | GetUnsafe r _ _ => Some r
  | _ => None
  end.
Definition keeps (q : nat) (l : list (cop V)) : Prop := Forall (fun o => binds o <> Some q) l.

(* types without const and reference, as programs normally write them *)
Definition is_plain (s : sty) : Prop := tconst s = false /\ tref s = false.
Definition plain_call (m : nat -> sty * V) (o : cop V) : Prop :=
  match o with
  | NewInPlace _ s _ | Emplace _ s _ | Get _ _ s | GetUnsafe _ _ s | TakeUnsafe _ s _ | GetOpt _ s | AnyCast _ s _ =>
      is_plain s
  | GetOr _ _ k q => q = true \/ tconst (fst (m k)) = false
  | _ => True
  end.

(* calls that do not use a reference, and do not tell any what it holds *)
Definition checked_call (o : cop V) : bool :=
  match o with
  | Read _ | Write _ _ | MoveOut _ | GetUnsafe _ _ _ | TakeUnsafe _ _ _ => false
  | _ => true
  end.

(* new anys are new, the others exist *)
Definition declared (o : cop V) (c : contents) : Prop :=
  match o with
  | NewEmpty i | NewValue i _ _ | NewInPlace i _ _ => c i = None
  | NewCopy i j | NewMove i j => c i = None /\ is_there (c j)
  | Delete i | AssignValue i _ _ | Emplace i _ _ | Clear i | Empty i | IsType i _ | Get _ i _ | GetOr _ i _ _
  | GetOrTemp _ i _ _ | GetUnsafe _ i _ | TakeUnsafe i _ _ | GetOpt i _ | AnyCast i _ _ => is_there (c i)
  | Swap i j | CopyAssign i j | MoveAssign i j => is_there (c i) /\ is_there (c j)
  | Read _ | Write _ _ | MoveOut _ => True
  end.

(* states of programs *)
Definition reachable (m : nat -> sty * V) (w : cworld V) : Prop :=
  exists l xs, crun copyable husk l (cstart m) = Some (xs, w).
Definition plainly (m : nat -> sty * V) (w : cworld V) : Prop :=
  exists l xs, crun copyable husk l (cstart m) = Some (xs, w) /\ Forall (plain_call m) l.

End Spec.
Arguments item : clear implicits.
