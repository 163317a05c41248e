(* C94: the answer to a question is the answer to that question *)
From Coq Require Import List Bool Arith Lia.
From Verif Require Import TalkModel TalkSpec TalkProofs TalkLive.
Import ListNotations.

Lemma the_asker V copyable is_pill S react ms xs s k to v : run V copyable is_pill S react (fresh V S ms) xs = Some s -> nth_error (asks xs) k = Some (to, v) ->
  exists a, nth_error (askers s) k = Some a /\ a_to a = to /\ a_asked a = v.
Proof.
  intros R A. pose proof (run_ghost _ _ _ _ _ _ _ _ R) as G. cbn in G. rewrite <- G, nth_error_map in A.
  destruct (nth_error (askers s) k) as [a|]; [|discriminate]. injection A as <- <-. eauto.
Qed.

(* How to show who answers what: if every handler keeps the assertions about its memory and about
   what it sends, then every future that gets a value gets one that is asserted for its question,
   or it is empty; for any actors, any schedule, time-outs and stops at any time. *)
Theorem C94_rule : forall V copyable is_pill S react Good Ans Mem, proved_right (V := V) (S := S) copyable Good Ans Mem react ->
  forall ms xs s, (forall i st, nth_error ms i = Some st -> Mem (fun _ => None) i st) ->
  run V copyable is_pill S react (fresh V S ms) xs = Some s ->
  forall k q, nth_error (asks xs) k = Some q -> exists a, nth_error (askers s) k = Some a /\
    forall c, result a = Answer c -> c = Null \/ Ans q c.
Proof.
  intros V copyable is_pill S react Good Ans Mem PR ms xs s M R k [to v] A.
  destruct (the_asker _ _ _ _ _ _ _ _ _ _ _ R A) as (a & E & <- & <-). exists a. split; [exact E|].
  pose proof (run_inv V S copyable is_pill react Good Ans Mem PR xs _ _ (fresh_inv V S copyable react Good Ans Mem PR ms M) R) as [_ I]. exact (proj2 (I k a E)).
Qed.
Print Assumptions C94_rule.

(* Actors that forward what they do not know with std::move, and answer sender() otherwise: the
   future of a question gets nothing but the answer the network has for this question. *)
Theorem C94_right_answer : forall V copyable is_pill (route : nat -> V -> choice) n xs s,
  run V copyable is_pill unit (router route Taken) (fresh V unit (repeat tt n)) xs = Some s ->
  forall k to v, nth_error (asks xs) k = Some (to, v) -> exists a, nth_error (askers s) k = Some a /\
    forall c, result a = Answer c -> c = Null \/ exists w, c = Val w /\ answer route to v w.
Proof.
  intros V copyable is_pill route n xs s R k to v A.
  destruct (C94_rule V copyable is_pill unit _ _ _ _ (router_right copyable is_pill route) _ xs s (fun _ _ _ => Logic.I) R k (to, v) A) as (a & E & H). exists a. split; [exact E|exact H].
Qed.
Print Assumptions C94_right_answer.

(* It does get it, once nothing more happens, if its timer did not fire and no actor was stopped. *)
Theorem C94_answered : forall V copyable is_pill (route : nat -> V -> choice) n xs s k to v w,
  (forall i u j, route i u = Next j -> j < n) -> (forall i u x, route i u = Reply x -> is_pill x = false) ->
  run V copyable is_pill unit (router route Taken) (fresh V unit (repeat tt n)) xs = Some s ->
  Forall (polite is_pill k) xs -> (forall x, own x -> step V copyable is_pill unit (router route Taken) s x = None) ->
  nth_error (asks xs) k = Some (to, v) -> to < n -> answer route to v w -> copyable w = true ->
  exists a, nth_error (askers s) k = Some a /\ result a = Answer (Val w).
Proof.
  intros V copyable is_pill route n xs s k to v w Hn Hp R P St A L Aw C.
  destruct (the_asker _ _ _ _ _ _ _ _ _ _ _ R A) as (a & E & <- & <-). exists a. split; [exact E|].
  eapply settled_answer with (n := n); eauto.
  - eapply run_safe; eauto.
  - eapply run_live; eauto.
    + apply fresh_inv with (react := router route Taken); [exact (router_right copyable is_pill route)|auto].
    + apply fresh_live.
Qed.
Print Assumptions C94_answered.

(* And something more does not happen for ever, if questions are not passed on in a circle. *)
Theorem C94_settles : forall V copyable is_pill (route : nat -> V -> choice) (rank : nat -> V -> nat) n xs s,
  (forall i v j, route i v = Next j -> rank j v < rank i v) ->
  run V copyable is_pill unit (router route Taken) (fresh V unit (repeat tt n)) xs = Some s -> Forall unnamed xs ->
  exists N, forall ys s', Forall own ys -> run V copyable is_pill unit (router route Taken) s ys = Some s' -> length ys <= N.
Proof.
  intros V copyable is_pill route rank n xs s Hr R U. exists (total copyable rank s). intros ys s' F H.
  eapply own_run; eauto. eapply run_anon; eauto using fresh_anon.
Qed.
Print Assumptions C94_settles.

(* With forward(message, next) in place of forward(std::move(message), next) no question that is
   passed on is answered: what arrives is an any in an any. *)
Theorem C94_plain_forward_lost : forall V copyable is_pill (route : nat -> V -> choice) n xs s,
  run V copyable is_pill unit (router route Plain) (fresh V unit (repeat tt n)) xs = Some s ->
  forall k to v, nth_error (asks xs) k = Some (to, v) -> exists a, nth_error (askers s) k = Some a /\
    forall c, result a = Answer c -> c = Null \/ exists w, c = Val w /\ route to v = Reply w.
Proof.
  intros V copyable is_pill route n xs s R k to v A.
  refine (match C94_rule V copyable is_pill unit _
    (fun q i p => (i = fst q /\ p = Val (snd q)) \/ exists u, p = Nest u)
    (fun q c => exists w, c = Val w /\ route (fst q) (snd q) = Reply w) (fun _ _ _ => True) _ _ xs s (fun _ _ _ => Logic.I) R k (to, v) A with ex_intro _ a (conj E H) => ex_intro _ a (conj E H) end).
  split; [auto|intros; left; auto|]. intros qs i st from p _ F. split; [exact Logic.I|]. intros to' src c. unfold router. cbn [snd].
  destruct p as [|u|p]; cbn; try tauto. destruct (route i u) as [j|w|] eqn:Er; cbn; try tauto.
  - destruct (copyable u); cbn; [|tauto]. intros [[= <- <- <-]|[]]. split; [|discriminate]. intros x [= <-] k' ->.
    destruct (F k' eq_refl) as (q & Hq & _). exists q. split; [exact Hq|]. right. eauto.
  - intros [[= <- <- <-]|[]]. split; [intros x -> k' [=]|]. intros k' ->. destruct (F k' eq_refl) as (q & Hq & [[-> [= ->]]|(u' & [=])]).
    exists q. split; [exact Hq|]. eauto.
Qed.
Print Assumptions C94_plain_forward_lost.

(* ---- examples ---- *)
(* actor 0 knows the even numbers, passes the others on to 1, which knows those below 10, then 2 *)
Definition route_ex (i v : nat) : @choice nat :=
  match i with
  | 0 => if Nat.even v then Reply (v * 2) else Next 1
  | 1 => if v <? 10 then Reply (v + 100) else Next 2
  | 2 => if v <? 20 then Reply (v + 1000) else Ignore
  | _ => Ignore
  end.
Fixpoint go_on (fuel : nat) (s : state nat unit) (how : arg nat) : list (action nat) * state nat unit :=
  match fuel with
  | 0 => ([], s)
  | S f =>
      let try_ := fix t (l : list (action nat)) := match l with [] => None | x :: r => match step nat (fun v => negb (v =? 1013)) (fun v => v =? 77) unit (router route_ex how) s x with Some s' => Some (x, s') | None => t r end end in
      match try_ (flat_map (fun i => [Go i; Take i; Halt i]) [2; 0; 1] ++ flat_map (fun i => [AskTake i; AskHalt i; AskStart i]) [3; 1; 0; 2]) with
      | Some (x, s') => let (l, r) := go_on f s' how in (x :: l, r)
      | None => ([], s)
      end
  end.
Definition xs_ex : list (action nat) := [Ask 0 4; Ask 0 7; Send 0 5 None; Ask 0 11; Ask 1 3].
Definition from_ex (how : arg nat) (xs : list (action nat)) : state nat unit :=
  match run nat (fun v => negb (v =? 1013)) (fun v => v =? 77) unit (router route_ex how) (fresh nat unit (repeat tt 3)) xs with Some s => s | None => fresh nat unit [] end.
Definition ex (how : arg nat) (xs : list (action nat)) := go_on 200 (from_ex how xs) how.
Example C94_ex : run nat (fun v => negb (v =? 1013)) (fun v => v =? 77) unit (router route_ex Taken) (fresh nat unit (repeat tt 3)) (xs_ex ++ fst (ex Taken xs_ex)) = Some (snd (ex Taken xs_ex)) /\
  map result (askers (snd (ex Taken xs_ex))) = [Answer (Val 8); Answer (Val 107); Answer (Val 1011); Answer (Val 103)] /\
  Forall (polite (fun v => v =? 77) 1) (xs_ex ++ fst (ex Taken xs_ex)) /\ Forall unnamed (xs_ex ++ fst (ex Taken xs_ex)) /\
  answer route_ex 0 11 1011 /\ (forall i u x, route_ex i u = Reply x -> (x =? 77) = false).
Proof.
  split; [vm_compute; reflexivity|]. split; [vm_compute; reflexivity|]. split; [vm_compute; repeat constructor; try discriminate|]. split; [vm_compute; repeat constructor|].
  split; [do 2 (eapply answer_next; [reflexivity|]); apply answer_here; reflexivity|].
  intros [|[|[|i]]] u x; cbn; [destruct (Nat.even u)|destruct (u <=? 9)|destruct (u <=? 19)|]; intros [= <-]; apply Nat.eqb_neq; lia.
Qed.
Definition rank_ex (i v : nat) : nat := 3 - i.
Example C94_ex_rank : forall i v j, route_ex i v = Next j -> j < 3 /\ rank_ex j v < rank_ex i v.
Proof. intros [|[|[|i]]] v j; cbn; [destruct (Nat.even v)|destruct (v <=? 9)|destruct (v <=? 19)|]; intros [= <-]; unfold rank_ex; lia. Qed.
Example C94_ex_rest : forall x, own x -> step nat (fun v => negb (v =? 1013)) (fun v => v =? 77) unit (router route_ex Taken) (snd (ex Taken xs_ex)) x = None.
Proof.
  intros [| | | |i|i|i|i|i|i] H; try destruct H; vm_compute (snd (ex Taken xs_ex)); cbn [step];
    unfold take, go, halt, ask_start, ask_take, ask_halt; cbn [actors askers];
    do 5 (try (destruct i as [|i]; [reflexivity|])); try reflexivity; destruct i; reflexivity.
Qed.

(* one would expect a forwarded question to be answered *)
Theorem C94_plain_forward_refuted : exists (route : nat -> nat -> choice) xs s a,
  run nat (fun _ => true) (fun _ => false) unit (router route Plain) (fresh nat unit (repeat tt 2)) xs = Some s /\
  (forall x, own x -> step nat (fun _ => true) (fun _ => false) unit (router route Plain) s x = None) /\
  asks xs = [(0, 5)] /\ Forall (polite (fun _ => false) 0) xs /\ answer route 0 5 6 /\ nth_error (askers s) 0 = Some a /\ result a = Unset.
Proof.
  exists (fun i v => if i =? 0 then Next 1 else Reply (v + 1)), [Ask 0 5; AskStart 0; Take 0; Go 0; Go 0; Take 1; Go 1]. eexists. eexists.
  split; [vm_compute; reflexivity|]. split.
  { intros [| | | |i|i|i|i|i|i] H; try destruct H; cbn [step]; unfold take, go, halt, ask_start, ask_take, ask_halt; cbn [actors askers];
      do 3 (try (destruct i as [|i]; [reflexivity|])); try reflexivity; destruct i; reflexivity. }
  split; [reflexivity|]. split; [repeat constructor|]. split; [eapply answer_next; [reflexivity|]; apply answer_here; reflexivity|]. split; reflexivity.
Qed.
Print Assumptions C94_plain_forward_refuted.

(* nor does an answer arrive that can only be moved: it is copied into the future *)
Theorem C94_move_only_answer_refuted : exists (route : nat -> nat -> choice) copyable xs s a,
  run nat copyable (fun _ => false) unit (router route Taken) (fresh nat unit (repeat tt 1)) xs = Some s /\
  (forall x, own x -> step nat copyable (fun _ => false) unit (router route Taken) s x = None) /\
  asks xs = [(0, 5)] /\ Forall (polite (fun _ => false) 0) xs /\ answer route 0 5 6 /\ nth_error (askers s) 0 = Some a /\ result a = Unset.
Proof.
  exists (fun i v => Reply (v + 1)), (fun v => negb (v =? 6)), [Ask 0 5; AskStart 0; Take 0; Go 0; Go 0; AskTake 0]. eexists. eexists.
  split; [vm_compute; reflexivity|]. split.
  { intros [| | | |i|i|i|i|i|i] H; try destruct H; cbn [step]; unfold take, go, halt, ask_start, ask_take, ask_halt; cbn [actors askers];
      do 3 (try (destruct i as [|i]; [reflexivity|])); try reflexivity; destruct i; reflexivity. }
  split; [reflexivity|]. split; [repeat constructor|]. split; [apply answer_here; reflexivity|]. split; reflexivity.
Qed.
Print Assumptions C94_move_only_answer_refuted.
