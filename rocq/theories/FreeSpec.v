(* What programs over filter iterators without an end mean: ++ goes to the next accepted
   element, reads past the sequence if there is none, and never returns if the sequence is
   infinite and has none. *)
From Coq Require Import List Bool Arith.
From Verif Require Import FreeModel.
Import ListNotations.

Section Spec.
Variable V : Type.
Variable s : nat -> option V.
Definition accepted (p : V -> bool) (q : nat) : Prop := exists a, s q = Some a /\ p a = true.
Definition rejected (p : V -> bool) (q : nat) : Prop := exists a, s q = Some a /\ p a = false.
Inductive found := At (r : nat) | Out | Never.
(* from q on *)
Definition ahead (p : V -> bool) (q : nat) (f : found) : Prop :=
  match f with
  | At r => q <= r /\ (forall i, q <= i < r -> rejected p i) /\ accepted p r
  | Out => exists r, q <= r /\ (forall i, q <= i < r -> rejected p i) /\ s r = None
  | Never => forall i, q <= i -> rejected p i
  end.
(* before q *)
Definition behind (p : V -> bool) (q : nat) (f : found) : Prop :=
  match f with
  | At r => r < q /\ (forall i, r < i < q -> rejected p i) /\ accepted p r
  | Out => (forall i, i < q -> rejected p i) \/ exists r, r < q /\ (forall i, r < i < q -> rejected p i) /\ s r = None
  | Never => False
  end.

Definition marks := nat -> option (nat * (V -> bool)).
Definition is (st : marks) (x : nat) (i : option (nat * (V -> bool))) : marks := fun y => if y =? x then i else st y.
Inductive next := Step (o : seen V) (st : marks) | Wrong | Hangs.
Definition lands (f : found) (g : nat -> marks) : next :=
  match f with At r => Step Nothing (g r) | Out => Wrong | Never => Hangs end.
Definition moves (st : marks) (x : nat) (dir : (V -> bool) -> nat -> found -> Prop) (g : nat * (V -> bool) -> nat -> marks) (n : next) : Prop :=
  match st x with
  | None => n = Wrong
  | Some (q, p) => exists f, dir p q f /\ n = lands f (g (q, p))
  end.
Definition after (p : V -> bool) (q : nat) : found -> Prop := ahead p (S q).

Definition means (o : eop V) (st : marks) (n : next) : Prop :=
  match o with
  | Make x b p => exists f, ahead p b f /\ n = lands f (fun r => is st x (Some (r, p)))
  | Copy x y => n = match st y with None => Wrong | Some i => Step Nothing (if x =? y then st else is st x (Some i)) end
  | Move x y => n = match st y with None => Wrong | Some i => Step Nothing (if x =? y then st else is (is st x (Some i)) y None) end
  | Swap x y => n = match st x, st y with Some i, Some j => Step Nothing (is (is st x (Some j)) y (Some i)) | _, _ => Wrong end
  | Inc x => moves st x after (fun i r => is st x (Some (r, snd i))) n
  | Dec x => moves st x behind (fun i r => is st x (Some (r, snd i))) n
  | PostInc z x => moves st x after (fun i r => is (is st x (Some (r, snd i))) z (Some i)) n
  | PostDec z x => moves st x behind (fun i r => is (is st x (Some (r, snd i))) z (Some i)) n
  | Read x => match st x with
              | None => n = Wrong
              | Some (q, _) => match s q with Some v => n = Step (Value v) st | None => n = Wrong end
              end
  | Same x y => n = match st x, st y with Some i, Some j => Step (Answer (fst i =? fst j)) st | _, _ => Wrong end
  | Differ x y => n = match st x, st y with Some i, Some j => Step (Answer (negb (fst i =? fst j))) st | _, _ => Wrong end
  | SameAs x q => n = match st x with Some i => Step (Answer (fst i =? q)) st | None => Wrong end
  end.
Inductive tells : list (eop V) -> marks -> list (seen V) * ending -> Prop :=
| T_end st : tells [] st ([], Finished)
| T_step o os st a st' l e : means o st (Step a st') -> tells os st' (l, e) -> tells (o :: os) st (a :: l, e)
| T_wrong o os st : means o st Wrong -> tells (o :: os) st ([], Undefined)
| T_hangs o os st : means o st Hangs -> tells (o :: os) st ([], Forever).
End Spec.
