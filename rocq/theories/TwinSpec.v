(* What C105 is about. *)
From Coq Require Import List Bool Arith.
From Verif Require Import TreeModel FlowModel TwinModel.
Import ListNotations.

(* the same action without names *)
Definition nameless (x : naction) : faction :=
  match x with
  | Act y => y
  | NewTop g _ => FEnv (CreateTop g)
  | NewChild p _ => FEnv (CreateChild p)
  end.
(* the path an action gives to a new actor *)
Definition gives (n : nstate) (x : naction) : option path :=
  match x with
  | Act _ => None
  | NewTop g nm => Some [nm; g]
  | NewChild p nm => Some (nm :: name n p)
  end.

(* the cell of an actor is gone: destroyed on its way to the parent, or by it *)
Definition cell_gone (f : fstate) (b : nat) : Prop :=
  (gone (nd (base f) b) = true \/ att (nd (base f) b) = true) /\ forall a, ~ In b (kids (nd (base f) a)).
(* a new actor gets the path of an older one only if P holds of that one *)
Definition reuses (P : fstate -> nat -> Prop) (n : nstate) (x : naction) : Prop :=
  match gives n x with
  | None => True
  | Some p => forall b, b < size (base (flow n)) -> name n b = p -> P (flow n) b
  end.
Definition mailbox_closed (f : fstate) (b : nat) : Prop := opn (nd (base f) b) = false.
Definition post_stop_ran (f : fstate) (b : nat) : Prop := stopped (nd (base f) b) = true.
(* pre_start succeeds, and stop() is called only on attached actors, as in C91 *)
Definition nbehaved (n : nstate) (x : naction) : Prop :=
  match x with Act y => fbehaved (flow n) y | _ => True end.

Fixpoint all_along (P : nstate -> naction -> Prop) (n : nstate) (xs : list naction) : Prop :=
  match xs with
  | [] => True
  | x :: t => P n x /\ match nstep n x with None => True | Some n' => all_along P n' t end
  end.
Definition both (P Q : nstate -> naction -> Prop) (n : nstate) (x : naction) : Prop := P n x /\ Q n x.

(* every path is used again only when its former cell is gone *)
Definition careful (n : nstate) : Prop := exists xs, all_along (reuses cell_gone) ninit xs /\ nrun ninit xs = Some n.
(* every path is used again only when the mailbox of its former actor is closed,
   in the regime of C91 *)
Definition orderly (n : nstate) : Prop := exists xs, all_along (both nbehaved (reuses mailbox_closed)) ninit xs /\ nrun ninit xs = Some n.
(* the regime of C91 alone *)
Definition behaving (n : nstate) : Prop := exists xs, all_along nbehaved ninit xs /\ nrun ninit xs = Some n.

Definition nown (x : naction) : bool := match x with Act y => own y | _ => false end.
Definition nquiet (n : nstate) : Prop := forall x, nown x = true -> nstep n x = None.

(* the thread of a is about to use the cell of a, which has been destroyed *)
Definition uses_dead (n : nstate) (a : nat) : Prop :=
  dead n a = true /\
  ((exists ok f', fstep (flow n) (FHandle a ok) = Some f') \/
   (exists b m l, todo (flow n) a = ESys b m :: l) \/ (exists b u l, todo (flow n) a = EUsr b u :: l)).

(* ---- watching ---- *)
Definition asker (r : request) : nat := match r with Watch w | Unwatch w => w end.
(* the last request by an actor of that path asks to watch *)
Fixpoint wants (nm : nat -> path) (p : path) (rs : list request) (now : bool) : bool :=
  match rs with
  | [] => now
  | r :: t => wants nm p t (if same_path (nm (asker r)) p then match r with Watch _ => true | Unwatch _ => false end else now)
  end.
Definition last_watches (w : nat) (rs : list request) : Prop :=
  exists l1 l2, rs = l1 ++ Watch w :: l2 /\ forall r, In r l2 -> asker r <> w.
