(* C84: attributes shared by threads. *)
From Coq Require Import List Bool Arith Lia.
From Verif Require Import AtomModel AtomSpec AtomProofs.
Import ListNotations.

(* threads that set, read and copy, but do not clear: nothing is undefined, and every
   access happens at one moment between its call and its return; a copy reads the
   attributes one after the other *)
Theorem C84_linearizable : forall regs progs is, forallb (forallb no_clear) progs = true ->
  exists s es, run (start regs progs) is = Ok (s, es) /\ linearizable regs es.
Proof.
  intros regs progs is C. destruct (run_sim _ is _ _ _ (inv_start regs progs C)) as (s & es & h & R & O & F & P).
  exists s, es. split; [exact R|]. exists h. auto.
Qed.
(* no thread waits for another: a call returns after a number of steps of its own *)
Theorem C84_wait_free : forall regs progs is s es i p, run (start regs progs) is = Ok (s, es) -> nth_error progs i = Some p ->
  list_sum (map (cost (length regs)) p) <= count_occ Nat.eq_dec is i ->
  flat_map (fun e => match e with Call j c => if j =? i then [c] else [] | Return _ _ => [] end) es = p /\
  length (flat_map (fun e => match e with Return j r => if j =? i then [r] else [] | Call _ _ => [] end) es) = length p.
Proof.
  intros regs progs is s es i p R N L. destruct (run_rest is _ i (Thread p Idle) s es R) as [C D].
  - unfold start. cbn [threads]. rewrite nth_error_map, N. reflexivity.
  - unfold rest_thread, start. cbn [todo at_ rest mem]. rewrite registered_attrs. unfold attrs_of. rewrite map_length, combine_length, seq_length, !map_length, Nat.min_id. lia.
  - cbn [todo at_ pending] in *. auto.
Qed.
Print Assumptions C84_linearizable.
Print Assumptions C84_wait_free.

(* two threads: one sets an attribute, to a wrong type and then rightly, while the
   other reads it; then a copy *)
Example C84_ex : run (start [(7, 1); (8, 5)] [[CSet 0 (Some (8, 2)); CSet 0 (Some (7, 3)); CSet 4 None]; [CGet 0 7; CGetOpt 0 7; CCopy]])
  ([0;1;1;1;1;1;0;0;0;0;1;0;0;0] ++ repeat 1 7 ++ repeat 0 6 ++ repeat 1 30 ++ repeat 0 3) =
  Ok (State (Shared [Attr 7 (Some 0); Attr 8 (Some 1)] [Some (7, 3); Some (8, 5)]) [Thread [] Idle; Thread [] Idle],
    [Call 0 (CSet 0 (Some (8, 2))); Call 1 (CGet 0 7); Return 0 RBadCast; Call 0 (CSet 0 (Some (7, 3))); Return 1 (RVal 1); Call 1 (CGetOpt 0 7);
     Return 0 (RBool true); Call 0 (CSet 4 None); Return 1 (ROpt (Some 1)); Call 1 CCopy; Return 1 (RCopy [(7, 3); (8, 5)]); Return 0 (RBool false)]).
Proof. vm_compute. reflexivity. Qed.
Example C84_ex_calls : forallb (forallb no_clear) [[CSet 0 (Some (8, 2)); CSet 0 (Some (7, 3)); CSet 4 None]; [CGet 0 7; CGetOpt 0 7; CCopy]] = true /\
  list_sum (map (cost 2) [CSet 0 (Some (8, 2)); CSet 0 (Some (7, 3)); CSet 4 None]) = 21.
Proof. split; reflexivity. Qed.

(* one would expect clear_attribute to be safe as well: a thread that is reading the
   attribute loads from a destroyed object *)
Theorem C84_clear_refuted : exists regs progs is, run (start regs progs) is = Undef /\ Forall (fun p => length p = 1) progs.
Proof. exists [(7, 1)], [[CGet 0 7]; [CClear 0]], [0;0;0;0;0;1;1;1;0]. split; [reflexivity|repeat constructor]. Qed.
(* or an exception leaves the getter with a default, which is noexcept *)
Theorem C84_default_refuted : exists regs progs is s es, run (start regs progs) is = Ok (s, es) /\ In (Call 0 (CGetOr 0 7 5)) es /\ In (Return 0 RBadCast) es /\
  calls_of 0 es = [CGetOr 0 7 5].
Proof.
  exists [(7, 1)], [[CGetOr 0 7 5]; [CClear 0]], [0;0;0;1;1;0;0]. do 2 eexists. split; [reflexivity|]. split; [left; reflexivity|]. split; [do 2 right; left; reflexivity|reflexivity].
Qed.
(* one would expect a copy to be the attributes of some moment: it mixes moments *)
Theorem C84_snapshot_refuted : exists regs progs is s es l, run (start regs progs) is = Ok (s, es) /\ In (Return 0 (RCopy l)) es /\
  forall is1 is2 s1 es1, is = is1 ++ is2 -> run (start regs progs) is1 = Ok (s1, es1) -> heap (mem s1) <> map Some l.
Proof.
  exists [(7, 0); (7, 0)], [[CCopy]; [CSet 0 (Some (7, 1)); CSet 1 (Some (7, 1))]], [0;0;0;0;0;1;1;1;1;1;1;1;1;1;1;1;1;0;0;0;0;0;0].
  exists (State (Shared [Attr 7 (Some 0); Attr 7 (Some 1)] [Some (7, 1); Some (7, 1)]) [Thread [] Idle; Thread [] Idle]).
  exists [Call 0 CCopy; Call 1 (CSet 0 (Some (7, 1))); Return 1 (RBool true); Call 1 (CSet 1 (Some (7, 1))); Return 1 (RBool true); Return 0 (RCopy [(7, 0); (7, 1)])].
  exists [(7, 0); (7, 1)]. split; [reflexivity|]. split; [do 5 right; left; reflexivity|]. intros is1 is2 s1 es1 E R.
  assert (L : length is1 < 24) by (apply (f_equal (@length nat)) in E; rewrite app_length in E; cbn in E; lia).
  assert (F : is1 = firstn (length is1) (is1 ++ is2)) by (rewrite firstn_app, Nat.sub_diag, firstn_all, app_nil_r; reflexivity).
  rewrite <- E in F. rewrite F in R. clear E F. revert R L. generalize (length is1). intros n R L H.
  do 24 (destruct n as [|n]; [vm_compute in R; injection R as <- <-; discriminate|]). lia.
Qed.
Print Assumptions C84_clear_refuted.
Print Assumptions C84_default_refuted.
Print Assumptions C84_snapshot_refuted.
