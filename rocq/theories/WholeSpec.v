(* What a system of actors should do when it is left alone. *)
From Coq Require Import List Bool Arith.
From Verif Require Import MailboxModel WholeModel.
Import ListNotations.

(* steps that are not caused from outside, of threads other than those in B *)
Definition own (B : list nat) (x : action) : Prop :=
  match x with
  | Tell _ _ _ | Spurious _ => False
  | CallerSchedules _ _ => True
  | Enter w | Go w _ => ~ In w B
  end.
(* the messages of kind k told to actor a, in order *)
Definition told_to (a : nat) (k : kind) (l : list (nat * kind * msg job)) : list (msg job) :=
  flat_map (fun e => match e with (b, k', m) => if (b =? a) && kind_eqb k k' then [m] else [] end) l.
(* the messages of kind k that actor a has begun to handle, in order *)
Definition handled_by (b : box) (k : kind) : list (msg job) := handled_of job k (log b).
(* thread w is running actor a, or is about to schedule it *)
Definition occupied (a : nat) (x : wstate) : Prop :=
  match x with Work b _ _ tell => b = a \/ tell = Some a | _ => False end.
(* what the messages that actor a has begun to handle ask for, among n actors *)
Definition msgs_of (n a : nat) (l : list (nat * kind * job)) : list (nat * kind * msg job) :=
  flat_map (fun e => match e with (j, k, x) => if j <? n then [(j, k, Msg a x)] else [] end) l.
Definition asked_by (n a : nat) (b : box) : list (nat * kind * msg job) :=
  flat_map (fun e => match e with Handled _ m _ => msgs_of n a (sends_of (m_payload m)) | Accepted _ _ => [] end) (log b).
Fixpoint asked (n a : nat) (bs : list box) : list (nat * kind * msg job) :=
  match bs with [] => [] | b :: t => asked_by n a b ++ asked n (S a) t end.
(* what was told from outside *)
Definition outside (n : nat) (xs : list action) : list (nat * kind * msg job) :=
  flat_map (fun x => match x with Tell j k m => if j <? n then [(j, k, m)] else [] | _ => [] end) xs.
Definition reachable (tp n t : nat) (xs : list action) (s : state) : Prop := run tp (init n t) xs = Some s.
(* none of the threads other than those in B can take a step *)
Definition settled (tp : nat) (B : list nat) (s : state) : Prop := forall x, own B x -> step tp s x = None.
Definition in_handler (s : state) (w : nat) : Prop := exists a id todo tell, nth_error (workers s) w = Some (Work a id todo tell).
