(* C78: scope guards.  C79: algorithms over tuples.  C80: singletons. *)
From Coq Require Import List Bool Arith Permutation Lia.
From Verif Require Import UtilModel UtilProofs.
Import ListNotations.

(* As long as no guard is assigned to or moved from twice, every action whose guard was
   made runs exactly once: it has run or its guard is still there. *)
Theorem C78_once : forall throws keeps lenient os s, decent os -> grun throws keeps lenient os gstate0 = GOk s ->
  exists rest, Permutation (made s) (called s ++ rest) /\
    forall a, In a rest <-> exists v g, In (v, g) (guards s) /\ invoke g = true /\ action g = Some a.
Proof.
  intros throws keeps lenient os s D R. destruct (grun_inv throws keeps lenient os gstate0 D (ginv0 _)) as (_ & _ & K).
  destruct (K s R) as [_ _ _ H]. exists (pending (guards s)). split; [exact H|]. intros a. unfold pending. rewrite in_flat_map. split.
  - intros ([v g] & I & L). unfold live in L. cbn in L. destruct (invoke g) eqn:IV; [|contradiction]. destruct (action g) eqn:AC; [|contradiction].
    destruct L as [<-|[]]. eauto.
  - intros (v & g & I & IV & AC). exists (v, g). split; [exact I|]. unfold live. cbn. rewrite IV, AC. left. reflexivity.
Qed.
(* so that all have run when no guard is left *)
Theorem C78_all : forall throws keeps lenient os s, decent os -> grun throws keeps lenient os gstate0 = GOk s -> guards s = [] ->
  Permutation (made s) (called s).
Proof.
  intros throws keeps lenient os s D R G. destruct (grun_inv throws keeps lenient os gstate0 D (ginv0 _)) as (_ & _ & K).
  destruct (K s R) as [_ _ _ H]. rewrite G in H. cbn in H. rewrite app_nil_r in H. exact H.
Qed.
(* the destruction of a guard runs its action and lets no exception out *)
Theorem C78_destroy : forall throws keeps lenient v s g,
  find v (guards s) = Some g -> exists s', gstep throws keeps lenient (Destroy v) s = GOk s' /\
    (forall a, invoke g = true -> action g = Some a -> called s' = a :: called s) /\ (invoke g = false -> called s' = called s).
Proof.
  intros throws keeps lenient v s g F. cbn [gstep]. rewrite F. cbn [guards]. destruct (invoke g) eqn:IV.
  - destruct (action g) as [a|].
    + exists (GState (drop v (guards s)) (made s) (a :: called s)). split; [destruct (throws a); reflexivity|]. split; [intros b _ [= <-]; reflexivity|discriminate].
    + eexists. split; [reflexivity|]. split; discriminate.
  - eexists. split; [reflexivity|]. split; [discriminate|reflexivity].
Qed.
(* nested scopes run their actions in reverse order of declaration, whatever throws *)
Theorem C78_scopes : forall throws keeps lenient vs, NoDup (map fst vs) ->
  exists m, grun throws keeps lenient (map (fun p => Make (fst p) (snd p)) vs ++ map (fun p => Destroy (fst p)) (rev vs)) gstate0 =
    GOk (GState [] m (map snd vs)).
Proof. intros throws keeps lenient vs N. eexists. rewrite (scopes throws keeps lenient vs gstate0 N); [cbn [guards called gstate0]; rewrite !app_nil_r; reflexivity|reflexivity]. Qed.
Print Assumptions C78_once.
Print Assumptions C78_all.
Print Assumptions C78_destroy.
Print Assumptions C78_scopes.
Example C78_ex : decent [Make 1 11; Make 2 12; MoveMake 3 1; Destroy 1; Destroy 3; Destroy 2] /\
  grun (Nat.eqb 11) true false [Make 1 11; Make 2 12; MoveMake 3 1; Destroy 1; Destroy 3; Destroy 2] gstate0 = GOk (GState [] [12; 11] [12; 11]).
Proof. split; [split; repeat constructor; cbn; tauto|reflexivity]. Qed.
(* the move constructor does not look whether there is an action left to move: a lambda
   is run twice *)
Theorem C78_twice_refuted : exists os s, Forall (fun o => assigns o = false) os /\ grun (fun _ => false) true false os gstate0 = GOk s /\
  made s = [11] /\ called s = [11; 11] /\ guards s = [].
Proof. exists [Make 1 11; MoveMake 2 1; MoveMake 3 1; Destroy 3; Destroy 2; Destroy 1]. eexists. split; [repeat constructor|]. repeat split. Qed.
(* the assignment returns nothing, which is undefined *)
Theorem C78_assign_refuted : exists os, NoDup (sources os) /\ grun (fun _ => false) true false os gstate0 = GUB.
Proof. exists [Make 1 11; Make 2 12; MoveAssign 1 2]. split; [constructor|reflexivity]. Qed.
(* and where that does no harm, it drops the old action, and loses the new one if the
   guard assigned to had been moved from *)
Theorem C78_lost_refuted : (exists os s, grun (fun _ => false) true true os gstate0 = GOk s /\ made s = [12; 11] /\ called s = [12] /\ guards s = []) /\
  (exists os s, grun (fun _ => false) true true os gstate0 = GOk s /\ made s = [12; 11] /\ called s = [11] /\ guards s = []).
Proof.
  split.
  - exists [Make 1 11; Make 2 12; MoveAssign 1 2; Destroy 1; Destroy 2]. eexists. repeat split.
  - exists [Make 1 11; Make 2 12; MoveMake 3 1; MoveAssign 1 2; Destroy 1; Destroy 2; Destroy 3]. eexists. repeat split.
Qed.
Print Assumptions C78_twice_refuted.
Print Assumptions C78_assign_refuted.
Print Assumptions C78_lost_refuted.

Section Tuples.
Context {E St R : Type}.
(* all_of calls its predicate on the elements in order up to the first that fails it *)
Theorem C79_all_of : forall (p : E -> St -> option (bool * St)) es s,
  (forall s1, all_of p es s = Some (true, s1) <-> calls p es s (repeat true (length es)) s1) /\
  (forall s1, all_of p es s = Some (false, s1) <-> exists pre e post s0, es = pre ++ e :: post /\ calls p pre s (repeat true (length pre)) s0 /\ p e s0 = Some (false, s1)) /\
  (all_of p es s = None <-> fails p true es s).
Proof. exact all_of_iff. Qed.
(* any_of up to the first that meets it *)
Theorem C79_any_of : forall (p : E -> St -> option (bool * St)) es s,
  (forall s1, any_of p es s = Some (false, s1) <-> calls p es s (repeat false (length es)) s1) /\
  (forall s1, any_of p es s = Some (true, s1) <-> exists pre e post s0, es = pre ++ e :: post /\ calls p pre s (repeat false (length pre)) s0 /\ p e s0 = Some (true, s1)) /\
  (any_of p es s = None <-> fails p false es s).
Proof. exact any_of_iff. Qed.
(* for_each calls its functor on every element once, in order *)
Theorem C79_for_each : forall (f : E -> St -> option St) es s,
  (forall s1, for_each f es s = Some s1 <-> visits f es s s1) /\
  (for_each f es s = None <-> exists pre e post s0, es = pre ++ e :: post /\ visits f pre s s0 /\ f e s0 = None).
Proof. exact for_each_iff. Qed.
(* transform calls its functor on every element once, in some order, and puts each result
   at the place of its element *)
Theorem C79_transform : forall (f : E -> St -> option (R * St)) es order s out s1,
  Permutation order (seq 0 (length es)) -> transform f es order s = Some (out, s1) ->
  exists rs, made_calls f es order s rs s1 /\ length out = length es /\ forall i r, In (i, r) rs -> nth_error out i = Some (Some r).
Proof. exact transform_calls. Qed.
(* so that the order does not matter to results that do not depend on the state *)
Theorem C79_transform_pure : forall (f : E -> St -> option (R * St)) es order s (g : E -> R),
  (forall e x, exists x', f e x = Some (g e, x')) -> Permutation order (seq 0 (length es)) ->
  exists s1, transform f es order s = Some (map (fun e => Some (g e)) es, s1).
Proof. exact transform_pure. Qed.
End Tuples.
Print Assumptions C79_all_of.
Print Assumptions C79_any_of.
Print Assumptions C79_for_each.
Print Assumptions C79_transform.
Print Assumptions C79_transform_pure.
(* a predicate that counts its calls *)
Definition counting (e k : nat) : option (bool * nat) := Some (e <? 3, S k).
Example C79_ex : all_of counting [1; 5; 2] 0 = Some (false, 2) /\ any_of counting [4; 5; 2; 9] 0 = Some (true, 3) /\
  transform (fun e (k : nat) => Some (e + e, S k)) [7; 8; 9] [2; 0; 1] 0 = Some ([Some 14; Some 16; Some 18], 3).
Proof. repeat split. Qed.
(* the results of a functor with a state depend on the order *)
Theorem C79_order_refuted : exists (f : nat -> nat -> option (nat * nat)) es o1 o2 r1 r2,
  Permutation o1 (seq 0 (length es)) /\ Permutation o2 (seq 0 (length es)) /\ transform f es o1 0 = Some r1 /\ transform f es o2 0 = Some r2 /\ fst r1 <> fst r2.
Proof.
  exists (fun e k => Some (k, S k)), [7; 8], [0; 1], [1; 0]. do 2 eexists. split; [apply Permutation_refl|]. split; [apply perm_swap|].
  split; [reflexivity|]. split; [reflexivity|discriminate].
Qed.
(* an argument passed as an rvalue is forwarded to every call: a functor that takes it by
   value finds it empty from the second call on *)
Definition appending (rvalue : bool) (e : nat) (arg : list nat) : option (list nat * list nat) :=
  let '(taken, rest) := forward rvalue true [] arg in Some (e :: taken, rest).
Theorem C79_forward_refuted : exists es arg order, transform (appending false) es order arg = Some ([Some [1; 9]; Some [2; 9]], arg) /\
  transform (appending true) es order arg = Some ([Some [1; 9]; Some [2]], []).
Proof. exists [1; 2], [9], [0; 1]. split; reflexivity. Qed.
Print Assumptions C79_order_refuted.
Print Assumptions C79_forward_refuted.

(* In one thread: calls throw until the first creation that succeeds, and from then on
   all give that object; there is no other, and it is destroyed once at the end. *)
Theorem C80_single : forall oks, exists k, k <= length oks /\
  (forall i, i < k -> nth_error oks i = Some false) /\ (k < length oks -> nth_error oks k = Some true) /\
  fst (uses oks sstate0) = repeat None k ++ repeat (Some 0) (length oks - k) /\
  let s := snd (uses oks sstate0) in
  objects s = (if k <? length oks then 1 else 0) /\ destroyed s = [] /\ destroyed (finish s) = seq 0 (objects s).
Proof.
  intros oks. destruct (uses_split oks) as (k & L & A & B & U). exists k. rewrite U. cbn [fst snd]. repeat (split; [assumption || reflexivity|]).
  destruct (k <? length oks); repeat split.
Qed.
(* In several threads: if the object was made before, all get it and it stays. *)
Theorem C80_threads : forall is s n k m, instance_ s = Some n -> mrun is (MState s (repeat AtTest k)) = Some m ->
  shared m = s /\ forall i r, nth_error (at_ m) i = Some (Has r) -> r = Some n.
Proof.
  intros is s n k m N R. assert (I : settled n s (MState s (repeat AtTest k))).
  { split; [reflexivity|]. cbn. apply Forall_forall. intros p P. apply repeat_spec in P. auto. }
  destruct (mrun_settled _ _ _ _ _ N I R) as [S F]. split; [exact S|]. intros i r X. apply nth_error_In in X. rewrite Forall_forall in F.
  destruct (F _ X) as [Y|[Y|Y]]; congruence.
Qed.
Print Assumptions C80_single.
Print Assumptions C80_threads.
Example C80_ex : fst (uses [false; true; true; false] sstate0) = [None; Some 0; Some 0; Some 0].
Proof. reflexivity. Qed.
Example C80_threads_ex : exists m, mrun [0; 1; 1; 0] (MState (SState (Some 4) 5 []) (repeat AtTest 2)) = Some m /\ at_ m = [Has (Some 4); Has (Some 4)].
Proof. eexists. split; reflexivity. Qed.
(* otherwise a thread may be left with an object that is destroyed *)
Theorem C80_race_refuted : exists is m, mrun is (MState sstate0 [AtTest; AtTest]) = Some m /\
  nth_error (at_ m) 0 = Some (Has (Some 0)) /\ nth_error (at_ m) 1 = Some (Has (Some 1)) /\ destroyed (shared m) = [0].
Proof. exists [0; 1; 0; 1; 0; 0; 1; 1]. eexists. split; [reflexivity|]. repeat split. Qed.
Print Assumptions C80_race_refuted.
