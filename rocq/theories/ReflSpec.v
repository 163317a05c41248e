(* What C75 speaks about. *)
From Coq Require Import List Bool Arith Sorted.
From Verif Require Import ReflModel.
Import ListNotations.

(* the data members and the methods in the order of their declaration, with positions
   counted from 1 over both *)
Fixpoint data_from (i : nat) (ds : list decl) : list info :=
  match ds with
  | [] => []
  | Var n t _ :: r => DataInfo n t i :: data_from (S i) r
  | Method _ _ :: r => data_from (S i) r
  end.
Definition data_of (ds : list decl) : list info := data_from 1 ds.
Fixpoint methods_from (i : nat) (ds : list decl) : list info :=
  match ds with
  | [] => []
  | Method n t :: r => FuncInfo n t i :: methods_from (S i) r
  | Var _ _ _ :: r => methods_from (S i) r
  end.
Definition methods_of (ds : list decl) : list info := methods_from 1 ds.
Fixpoint vars (ds : list decl) : list nat := match ds with [] => [] | Var n _ _ :: r => n :: vars r | _ :: r => vars r end.
Fixpoint method_names (ds : list decl) : list nat := match ds with [] => [] | Method n _ :: r => n :: method_names r | _ :: r => method_names r end.
Definition name_of (i : info) : nat := match i with DataInfo n _ _ | FuncInfo n _ _ => n end.
Definition before (i j : info) : Prop := name_of i < name_of j.
Definition no_memory_limit (q : query) : Prop := match q with Members m | GetByName _ m => m = None end.
(* the answer to a query is right, or an exception where that is allowed *)
Definition answered (may_throw : bool) (ds : list decl) (q : query) (a : answer) : Prop :=
  match q, a with
  | Members _, AList (Returned l) => StronglySorted before l /\ (forall i, In i l <-> In i (data_of ds)) /\ length l = length (data_of ds)
  | GetByName n _, AInfo (Returned (Some i)) => In i (data_of ds) /\ name_of i = n
  | GetByName n _, AInfo (Returned None) => ~ In n (vars ds)
  | Members _, AList Threw | GetByName _ _, AInfo Threw => may_throw = true
  | _, _ => False
  end.
