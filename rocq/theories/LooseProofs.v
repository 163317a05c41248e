(* Proofs about filter iterators that lost their end. *)
From Coq Require Import List Bool Arith Lia.
From Verif Require FiltModel.
From Verif Require Import FreeModel FreeSpec FreeProofs LooseModel.
Import ListNotations.
Set Default Proof Using "Type".

Section Proofs.
Context {V : Type}.
Implicit Types (m : list V) (p : V -> bool).

Lemma skipn_at m q a : nth_error m q = Some a -> skipn q m = a :: skipn (S q) m.
Proof. revert q. induction m as [|b m IH]; intros [|q] H; cbn in *; try discriminate; [congruence|]. now apply IH. Qed.
Lemma skip_ok pol k m q e p c r c' : FiltModel.skip_forward V pol k m q e p c = Some (r, c') -> r <> e ->
  (exists a, nth_error m r = Some a /\ p a = true) /\ (pol <> FiltModel.Plain -> c' = nth_error m r).
Proof.
  revert q c. induction k as [|k IH]; intros q c H N; [discriminate|]. cbn [FiltModel.skip_forward] in H.
  destruct (Nat.eqb_spec q e) as [->|_]; [congruence|]. destruct (nth_error m q) as [a|] eqn:X; [|discriminate].
  destruct (p a) eqn:P; [|exact (IH _ _ H N)].
  injection H as <- <-. split; [eauto|]. intros K. rewrite X. destruct pol; [congruence|reflexivity|reflexivity].
Qed.
Lemma back_ok pol k m q p c r c' : FiltModel.skip_backward V pol k m q p c = Some (r, c') ->
  (exists a, nth_error m r = Some a /\ p a = true) /\ (pol <> FiltModel.Plain -> c' = nth_error m r).
Proof.
  revert q c. induction k as [|k IH]; intros q c H; [discriminate|]. cbn [FiltModel.skip_backward] in H.
  destruct (nth_error m q) as [a|] eqn:X; [|discriminate].
  destruct (p a) eqn:P.
  - injection H as <- <-. split; [eauto|]. intros K. rewrite X. destruct pol; [congruence|reflexivity|reflexivity].
  - destruct q as [|q]; [discriminate|]. exact (IH _ _ H).
Qed.
Definition sits (c : bool) m e p (i : FiltModel.iter V) : Prop :=
  FiltModel.last i = e /\ FiltModel.pred i = p /\
  (FiltModel.pos i <> e -> (exists a, nth_error m (FiltModel.pos i) = Some a /\ p a = true) /\
                           (c = true -> FiltModel.cached i = nth_error m (FiltModel.pos i))).
Lemma made_sits kept c m b e p ds i : made V kept c m b e p ds = Some i -> sits c m e p i.
Proof.
  assert (L : forall k q x r y, FiltModel.skip_forward V (ended kept c) k m q e p x = Some (r, y) -> sits c m e p (FiltModel.Iter r e p y)).
  { intros k q x r y H. split; [reflexivity|]. split; [reflexivity|]. cbn [FiltModel.pos FiltModel.cached]. intros N.
    destruct (skip_ok _ _ _ _ _ _ _ _ _ H N) as (A & B). split; [exact A|]. intros ->. apply B. unfold ended. destruct kept; discriminate. }
  assert (B : forall k q x r y, FiltModel.skip_backward V (ended kept c) k m q p x = Some (r, y) -> sits c m e p (FiltModel.Iter r e p y)).
  { intros k q x r y H. split; [reflexivity|]. split; [reflexivity|]. cbn [FiltModel.pos FiltModel.cached]. intros _.
    destruct (back_ok _ _ _ _ _ _ _ _ H) as (A & B). split; [exact A|]. intros ->. apply B. unfold ended. destruct kept; discriminate. }
  unfold made, FiltModel.make, FiltModel.landed. destruct (_ && _); [|discriminate].
  destruct (FiltModel.skip_forward _ _ _ _ _ _ _ _) as [[r y]|] eqn:Q; [|discriminate]. cbn [option_map FiltModel.last FiltModel.pred fst snd].
  pose proof (L _ _ _ _ _ Q) as S. revert S. generalize (FiltModel.Iter r e p y). clear Q r y.
  induction ds as [|d ds IH]; intros j S H; cbn [moved] in H; [injection H as <-; exact S|]. destruct S as (E & P & _).
  destruct d.
  - unfold FiltModel.forward, FiltModel.landed in H. rewrite E, P in H. destruct (_ <? _); [|discriminate].
    destruct (FiltModel.skip_forward _ _ _ _ _ _ _ _) as [[r y]|] eqn:Q; [|discriminate]. exact (IH _ (L _ _ _ _ _ Q) H).
  - unfold FiltModel.backward, FiltModel.landed in H. rewrite E, P in H. destruct (FiltModel.pos j); [discriminate|].
    destruct (FiltModel.skip_backward _ _ _ _ _ _ _) as [[r y]|] eqn:Q; [|discriminate]. exact (IH _ (B _ _ _ _ _ Q) H).
Qed.

(* the search without an end *)
Lemma seek m p q : match filter p (skipn q m) with
  | [] => q <= length m -> ahead V (nth_error m) p q Out
  | a :: l => exists r, ahead V (nth_error m) p q (At r) /\ nth_error m r = Some a /\ filter p (skipn (S r) m) = l
  end.
Proof.
  remember (length m - q) as d eqn:D. revert q D. induction d as [|d IH]; intros q D.
  - rewrite skipn_all2 by lia. cbn [filter]. intros L. exists q. split; [lia|]. split; [lia|]. apply nth_error_None. lia.
  - destruct (nth_error m q) as [a|] eqn:X; [|apply nth_error_None in X; lia]. rewrite (skipn_at m q a X). cbn [filter].
    destruct (p a) eqn:P.
    + exists q. split; [|auto]. split; [lia|]. split; [lia|]. exists a. auto.
    + specialize (IH (S q) ltac:(lia)). destruct (filter p (skipn (S q) m)) as [|v l].
      * intros L. destruct IH as (r & A & B & C); [lia|]. exists r. split; [lia|]. split; [|exact C].
        intros i H. destruct (Nat.eq_dec i q) as [->|]; [exists a; auto|apply B; lia].
      * destruct IH as (r & (A & B & C) & E). exists r. split; [|exact E]. split; [lia|]. split; [|exact C].
        intros i H. destruct (Nat.eq_dec i q) as [->|]; [exists a; auto|apply B; lia].
Qed.
Definition shown (l : list V) : list (seen V) := flat_map (fun v => [Value v; Nothing]) l.
Lemma tour_tells m p n q a l st : st 0 = Some (q, p) -> nth_error m q = Some a -> filter p (skipn (S q) m) = l ->
  tells V (nth_error m) (tour V n) st
    (if n <=? length l then (shown (firstn n (a :: l)), Finished) else (shown (removelast (a :: l)) ++ [Value (List.last l a)], Undefined)).
Proof.
  revert q a l st. induction n as [|n IH]; intros q a l st S0 X F; [constructor|]. cbn [tour].
  assert (Q : S q <= length m) by (apply nth_error_Some; congruence).
  pose proof (seek m p (S q)) as K. rewrite F in K. destruct l as [|v l].
  - cbn. econstructor; [cbn [means]; rewrite S0, X; reflexivity|]. apply T_wrong. cbn [means]. unfold moves. rewrite S0.
    exists Out. split; [exact (K Q)|reflexivity].
  - destruct K as (r & A & B & C).
    set (st' := is V st 0 (Some (r, p))). specialize (IH r v l st' eq_refl B C).
    assert (E : (if S n <=? length (v :: l) then (shown (firstn (S n) (a :: v :: l)), Finished)
                 else (shown (removelast (a :: v :: l)) ++ [Value (List.last (v :: l) a)], Undefined)) =
                let z := (if n <=? length l then (shown (firstn n (v :: l)), Finished) else (shown (removelast (v :: l)) ++ [Value (List.last l v)], Undefined)) in
                (Value a :: Nothing :: fst z, snd z)).
    { cbn [length Nat.leb]. destruct (n <=? length l); cbn [fst snd].
      - reflexivity.
      - f_equal. change (removelast (a :: v :: l)) with (a :: removelast (v :: l)). cbn [shown flat_map app]. unfold shown. do 2 f_equal. f_equal. f_equal.
        f_equal. clear. revert a v. induction l as [|u l IH]; intros a v; [reflexivity|]. cbn [List.last] in *. destruct l; [reflexivity|]. apply (IH a v). }
    rewrite E. destruct (if n <=? length l then _ else _) as [z1 z2]. cbn [fst snd].
    econstructor; [cbn [means]; rewrite S0, X; reflexivity|]. econstructor; [|exact IH]. cbn [means]. unfold moves. rewrite S0.
    exists (At r). split; [exact A|reflexivity].
Qed.
End Proofs.
