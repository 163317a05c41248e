(* C24: attributes hold what was last set. *)
From Coq Require Import List Bool Arith Lia.
From Verif Require Import LifeModel AnyModel AttrModel AttrSpec.
From Verif Require AttrProofs.
Import ListNotations.

(* operator< of the keys is a strict total order *)
Definition strict_order {K : Type} (ltb : K -> K -> bool) : Prop :=
  (forall a, ltb a a = false) /\
  (forall a b c, ltb a b = true -> ltb b c = true -> ltb a c = true) /\
  (forall a b, ltb a b = true \/ a = b \/ ltb b a = true).
(* and keq its equality *)
Definition equality {K : Type} (keq : K -> K -> bool) : Prop := forall a b, keq a b = true <-> a = b.

Lemma keq_is {K : Type} (ltb keq : K -> K -> bool) : strict_order ltb -> equality keq -> forall a b, keq a b = same_key ltb a b.
Proof.
  intros [A [B C]] E a b. apply eq_true_iff_eq. rewrite (E a b), AttrProofs.keq_spec by assumption. reflexivity.
Qed.

Lemma latest_ext {K V : Type} (e e' : K -> K -> bool) : (forall a b, e a b = e' a b) ->
  forall k (l : list (K * option (any V))), latest e k l = latest e' k l.
Proof.
  intros H k l. induction l as [|[q x] l IH]; [reflexivity|]. cbn. rewrite IH, H.
  replace (existsb (fun p => e (fst p) k) l) with (existsb (fun p => e' (fst p) k) l); [reflexivity|].
  clear - H. induction l as [|p l IH]; [reflexivity|]. cbn. rewrite H, IH. reflexivity.
Qed.

(* However maps are made, set, cleared, copied, moved, swapped and deleted, every
   read of every map gives what was last set under the key, or its absence; all
   operations go on working, and exactly the copies of uncopyable values throw. *)
Theorem C24_map_histories (K V : Type) (ltb : K -> K -> bool) (copyable : nat -> bool) :
  strict_order ltb ->
  forall (w : maps K V) (st : state K V), reach (same_key ltb) copyable ltb w st ->
  (forall i, w i = None <-> st i = None) /\
  (forall i m f, w i = Some m -> st i = Some f -> shows ltb m f) /\
  (forall o, legal copyable o st -> exists w' st', step (same_key ltb) copyable ltb o st w w' st').
Proof. intros [A [B C]] w st H. exact (AttrProofs.map_histories ltb A B C copyable w st H). Qed.
Print Assumptions C24_map_histories.

(* and the any that is stored holds what set_attribute was given *)
Theorem C24_map_set_stores (K V : Type) (ltb : K -> K -> bool) (copyable : nat -> bool) :
  strict_order ltb ->
  forall (w w' : maps K V) (st : state K V) i k x, reach (same_key ltb) copyable ltb w st ->
  exec ltb copyable (Set_ i k x) w = Some (w', Ret true) ->
  exists m c, w' i = Some m /\ get ltb k m = Ret c /\ holds x c.
Proof.
  intros S w w' st i k x R E. assert (S' := S). destruct S' as [A [B C]].
  destruct (C24_map_histories K V ltb copyable S w st R) as (X & Y & Z). cbn [exec] in E. destruct (w i) as [m|] eqn:W; [|discriminate].
  destruct (arg_ok copyable x) eqn:O; [|discriminate]. injection E as <-.
  destruct (st i) as [f|] eqn:Sti; [|apply X in Sti; congruence].
  destruct (Z (Set_ i k x)) as (w2 & st2 & [(E & Sa & M)|(E & _)]); [cbn; congruence| |cbn [exec] in E; rewrite W, O in E; discriminate].
  cbn [exec] in E. rewrite W, O in E. injection E as <-.
  set (m' := insert_or_assign ltb k (any_of x) m) in *. exists m', (any_of x).
  assert (U : upd w i (Some m') i = Some m') by (unfold upd; now rewrite Nat.eqb_refl).
  split; [exact U|]. split; [|destruct x; reflexivity].
  assert (R2 : reach (same_key ltb) copyable ltb (upd w i (Some m')) st2).
  { apply (Reach_step _ _ _ w st (Set_ i k x)); [exact R|cbn; congruence|]. left. split; [|split; [exact Sa|exact M]]. cbn [exec]. rewrite W, O. reflexivity. }
  destruct (C24_map_histories K V ltb copyable S _ _ R2) as (_ & Y2 & _).
  specialize (Sa i). cbn [effect] in Sa. rewrite Sti in Sa. unfold put in Sa. rewrite Nat.eqb_refl in Sa.
  destruct (st2 i) as [g|] eqn:G; [|destruct Sa]. specialize (Y2 i m' g U G k). rewrite (Sa k) in Y2. unfold with_key in Y2.
  replace (same_key ltb k k) with true in Y2 by (symmetry; unfold same_key; now rewrite A). apply Y2.
Qed.
Print Assumptions C24_map_set_stores.

(* One map: reads after any sequence of sets and clears give the last one for
   the key. *)
Theorem C24_map_last_write (K V : Type) (ltb keq : K -> K -> bool) :
  strict_order ltb -> equality keq ->
  forall l : list (K * option (any V)), shows ltb (play ltb l) (fun k => latest keq k l).
Proof.
  intros S E l k. rewrite (latest_ext _ _ (keq_is ltb keq S E)). destruct S as [A [B C]]. exact (AttrProofs.last_write ltb A B C l k).
Qed.
Print Assumptions C24_map_last_write.

Lemma nat_order : strict_order Nat.ltb.
Proof.
  split; [intros a; apply Nat.ltb_irrefl|]. split.
  - intros a b c. rewrite !Nat.ltb_lt. lia.
  - intros a b. rewrite !Nat.ltb_lt. lia.
Qed.

Example a_map :
  let l := [(5, Some (Some (Plain 0 50))); (2, Some (Some (Plain 0 20))); (5, Some (Some (Plain 1 51))); (2, None); (7, Some None)] in
  get_as Nat.ltb 5 1 (play Nat.ltb l) = Ret 51 /\ get_as Nat.ltb 5 0 (play Nat.ltb l) = BadAttribute /\
  has Nat.ltb 2 (play Nat.ltb l) = false /\ has Nat.ltb 7 (play Nat.ltb l) = true /\ latest Nat.eqb 5 l = Some (Some (Plain 1 51)).
Proof. vm_compute. repeat split. Qed.

(* two maps, one a copy, one of its attributes then changed; the copy of an
   uncopyable one throws *)
Example maps_reached : exists w st, reach (same_key Nat.ltb) (fun t => t =? 0) Nat.ltb (w : maps nat nat) st /\
  (exists m, w 1 = Some m /\ get_as Nat.ltb 5 0 m = Ret 50) /\
  (exists m, w 0 = Some m /\ get_as Nat.ltb 5 1 m = Ret 51) /\
  must_throw (fun t => t =? 0) (NewCopy 2 0) st.
Proof.
  set (o1 := New 0 : op nat nat). set (o2 := Set_ 0 5 (Value 0 50) : op nat nat). set (o3 := NewCopy 1 0 : op nat nat). set (o4 := Set_ 0 5 (Value 1 51) : op nat nat).
  set (run := fun (o : op nat nat) w => match exec Nat.ltb (fun t => t =? 0) o w with Some (w', _) => w' | None => w end).
  set (eff := effect (same_key Nat.ltb) : op nat nat -> state nat nat -> state nat nat).
  exists (run o4 (run o3 (run o2 (run o1 (fun _ => None))))), (eff o4 (eff o3 (eff o2 (eff o1 nothing)))).
  split; [|split; [|split]].
  - assert (C : ~ must_throw (fun t => t =? 0) o3 (eff o2 (eff o1 nothing))).
    { intros [f [A B]]. apply B. cbn in A. injection A as <-. intros k c. unfold with_key. destruct (same_key Nat.ltb k 5); [|discriminate].
      intros X. injection X as <-. reflexivity. }
    apply (Reach_step _ _ _ (run o3 (run o2 (run o1 (fun _ => None)))) (eff o3 (eff o2 (eff o1 nothing))) o4).
    + apply (Reach_step _ _ _ (run o2 (run o1 (fun _ => None))) (eff o2 (eff o1 nothing)) o3).
      * apply (Reach_step _ _ _ (run o1 (fun _ => None)) (eff o1 nothing) o2).
        -- apply (Reach_step _ _ _ (fun _ => None) nothing o1); [apply Reach_start|reflexivity|].
           left. split; [reflexivity|]. split; [apply AttrProofs.same_refl|intros []].
        -- discriminate.
        -- left. split; [reflexivity|]. split; [apply AttrProofs.same_refl|intros []].
      * split; [reflexivity|discriminate].
      * left. split; [reflexivity|]. split; [apply AttrProofs.same_refl|exact C].
    + discriminate.
    + left. split; [reflexivity|]. split; [apply AttrProofs.same_refl|intros []].
  - eexists. split; reflexivity.
  - eexists. split; reflexivity.
  - eexists. split; [reflexivity|]. intros H. specialize (H 5 (Some (Plain 1 51)) eq_refl). discriminate.
Qed.

(* atomic_attributes: an attribute registered with one type and not cleared holds
   the last value accepted; setting accepts values of that type, throws for
   others, and returns false for unknown keys, without effect. *)
Theorem C24_atomic_last_write (K V : Type) (eqb : K -> K -> bool) : equality eqb ->
  forall k (l : list (aop K V)), regular eqb k l ->
  match current eqb k l with
  | None => ahas eqb k (arun eqb l) = false /\
      (forall c, set eqb k c (arun eqb l) = (arun eqb l, Ret false)) /\
      forall t d, aget_as eqb k t (arun eqb l) = BadAttribute /\ aget_as_or eqb k t d (arun eqb l) = d /\ aget_optional eqb k t (arun eqb l) = None
  | Some (u, v) => ahas eqb k (arun eqb l) = true /\
      (forall x, snd (set eqb k (Some (Plain u x)) (arun eqb l)) = Ret true) /\
      (forall c, (forall x, c <> Some (Plain u x)) -> set eqb k c (arun eqb l) = (arun eqb l, BadCast)) /\
      forall t d, if u =? t
        then aget_as eqb k t (arun eqb l) = Ret v /\ aget_as_or eqb k t d (arun eqb l) = v /\ aget_optional eqb k t (arun eqb l) = Some v
        else aget_as eqb k t (arun eqb l) = BadAttribute /\ aget_as_or eqb k t d (arun eqb l) = d /\ aget_optional eqb k t (arun eqb l) = None
  end.
Proof. intros E k l. exact (AttrProofs.atomic_last_write eqb E k l). Qed.
Print Assumptions C24_atomic_last_write.

Definition history : list (aop nat nat) :=
  [Register 1 0 10; Register 2 1 20; SetA 1 (Some (Plain 0 11)); SetA 1 (Some (Plain 1 12)); Register 1 0 13; SetA 2 (Some (Plain 1 21)); SetA 9 (Some (Plain 0 1))].

Lemma history_regular k : regular Nat.eqb k history.
Proof.
  split.
  - intros q H. cbn in H. repeat (destruct H as [H|H]; [discriminate|]). destruct H.
  - intros q q' t t' v v' H H' E E'. apply Nat.eqb_eq in E, E'. subst. cbn in H, H'.
    repeat (destruct H as [H|H]; [try discriminate; injection H as <- <- <-|]); try destruct H;
    repeat (destruct H' as [H'|H']; [try discriminate; injection H'; intros; congruence|]); destruct H'.
Qed.

Example an_atomic_history : (forall k, regular Nat.eqb k history) /\ current Nat.eqb 1 history = Some (0, 13) /\ current Nat.eqb 2 history = Some (1, 21) /\ current Nat.eqb 9 history = None.
Proof. split; [exact history_regular|]. repeat split. Qed.

(* Setting values changes neither the keys nor any type, so that threads that
   only set and get share nothing but the atomics. *)
Theorem C24_atomic_set_keeps_shape (K V : Type) (eqb : K -> K -> bool) (l : list (K * option (val V))) (m : atomics K V) :
  let m' := fold_left (fun m p => fst (set eqb (fst p) (snd p) m)) l m in
  map (fun p => (fst p, assigner (snd p), option_map fst (value (snd p)))) m' =
  map (fun p => (fst p, assigner (snd p), option_map fst (value (snd p)))) m.
Proof. exact (AttrProofs.set_keeps_shape eqb l m). Qed.
Print Assumptions C24_atomic_set_keeps_shape.

Example shape_kept :
  let m' := fold_left (fun m p => fst (set Nat.eqb (fst p) (snd p) m)) [(1, Some (Plain 0 5)); (2, Some (Plain 0 6))] (arun Nat.eqb history) in
  m' <> arun Nat.eqb history /\ map fst m' = [1; 2].
Proof. vm_compute. split; [discriminate|reflexivity]. Qed.

(* a copy holds the same *)
Theorem C24_atomic_copy (K V : Type) (eqb : K -> K -> bool) : equality eqb ->
  forall l : list (aop K V), (forall k, regular eqb k l) -> copy eqb (arun eqb l) = Ret (arun eqb l).
Proof. intros E l. exact (AttrProofs.atomic_copy eqb E l). Qed.
Print Assumptions C24_atomic_copy.

Example a_copy : copy Nat.eqb (arun Nat.eqb history) = Ret [(1, MkInfo 0 (Some (0, 13))); (2, MkInfo 1 (Some (1, 21)))].
Proof. reflexivity. Qed.

(* A cleared attribute cannot be set again, whatever it is set to, though it is
   still reported to exist; and the attributes cannot be copied any more. *)
Theorem C24_atomic_cleared_refuted (K V : Type) (eqb : K -> K -> bool) : equality eqb ->
  forall k (l : list (aop K V)) x, afind eqb k (arun eqb l) = Some x ->
  let m := clear eqb k (arun eqb l) in
  ahas eqb k m = true /\ (forall c, set eqb k c m = (m, BadCast)) /\ copy eqb m = BadCast.
Proof. intros E k l x. exact (AttrProofs.cleared_is_stuck eqb E k l x). Qed.
Print Assumptions C24_atomic_cleared_refuted.

Example cleared : set Nat.eqb 1 (Some (Plain 0 5)) (clear Nat.eqb 1 (arun Nat.eqb history)) = (clear Nat.eqb 1 (arun Nat.eqb history), BadCast).
Proof. reflexivity. Qed.

(* Registering a key again with another type returns false, yet the value is
   gone and none can be set any more. *)
Theorem C24_atomic_reregister_refuted (K V : Type) (eqb : K -> K -> bool) : equality eqb ->
  forall k (l : list (aop K V)) x t v, afind eqb k (arun eqb l) = Some x -> t <> assigner x ->
  snd (register eqb k t v (arun eqb l)) = false /\
  let m := fst (register eqb k t v (arun eqb l)) in
  (forall c, set eqb k c m = (m, BadCast)) /\ aget_as eqb k (assigner x) m = BadAttribute /\ copy eqb m = BadCast.
Proof. intros E k l x t v. exact (AttrProofs.reregistered_is_stuck eqb E k l x t v). Qed.
Print Assumptions C24_atomic_reregister_refuted.

Example reregistered : let m := fst (register Nat.eqb 1 7 70 (arun Nat.eqb history)) in
  snd (register Nat.eqb 1 7 70 (arun Nat.eqb history)) = false /\ aget_as Nat.eqb 1 0 m = BadAttribute /\ aget_as Nat.eqb 1 7 m = Ret 70.
Proof. repeat split. Qed.

(* Setting an attribute whose key the validator rejects succeeds. *)
Theorem C24_map_validator_ignored_refuted :
  exists (valid : nat -> bool) (w : maps nat nat) k x w' m,
    is_valid valid k = false /\ exec Nat.ltb (fun _ => true) (Set_ 0 k x) w = Some (w', Ret true) /\ w' 0 = Some m /\ has Nat.ltb k m = true.
Proof.
  exists (fun k => k <? 3), (upd (fun _ => None) 0 (Some [])), 5, (Value 0 1). eexists. eexists. split; [reflexivity|]. repeat split.
Qed.
Print Assumptions C24_map_validator_ignored_refuted.

(* An any that is neither const nor moved is stored as a value of type any: the
   typed read does not find what it holds. *)
Theorem C24_map_lvalue_any_refuted :
  exists (w w' : maps nat nat) m,
    exec Nat.ltb (fun _ => true) (Set_ 0 1 (LvalueAny (Some (Plain 0 42)))) w = Some (w', Ret true) /\ w' 0 = Some m /\ get_as Nat.ltb 1 0 m = BadAttribute.
Proof. exists (upd (fun _ => None) 0 (Some [])). eexists. eexists. split; [reflexivity|]. repeat split. Qed.
Print Assumptions C24_map_lvalue_any_refuted.
