(* What a listener should do, stated on what is observed. *)
From Coq Require Import List Bool Arith.
From Verif Require Import ListenModel.
Import ListNotations.

(* connections on their way to a remote, or with one, the oldest first *)
Definition live (s : state) : list nat := map fst (kids s) ++ attaches (sys s) ++ accepts (mail s).
(* no connection comes from an address and port of which an older connection is still there *)
Definition apart (xs : list action) : Prop :=
  forall xs1 n xs2 s1, xs = xs1 ++ Accept n :: xs2 -> run state0 xs1 = Some s1 ->
    ~ In n (map (name_of s1) (live s1)).
(* a peer disappeared before its remote had started *)
Definition vanished (x : action) : bool := match x with Handle false | KidStarts _ false => true | _ => false end.
(* the listener and its remotes have handled all they were sent but for what makes remotes end *)
Definition settled (s : state) : Prop := mail s = [] /\ sys s = [] /\ forall c, ~ In (c, New) (kids s).
Definition detaches (l : list smsg) : list nat :=
  flat_map (fun m => match m with SDetach n => [n] | _ => [] end) l.
(* what a listener and its remotes do when nobody connects or tells them anything, and the peers answer: remotes start
   and end, and the listener handles its system messages *)
Definition leaving (x : action) : bool := match x with KidStarts _ true | KidEnds _ | HandleSys => true | _ => false end.
