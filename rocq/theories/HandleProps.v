(* C76: handles of found config values. *)
From Coq Require Import List Bool Arith Permutation Lia.
From Verif Require Import HandleModel HandleProofs.
Import ListNotations.

(* whatever a program does with results, nothing undefined happens: no handle is
   released twice, after its backend is gone, or by another backend *)
Theorem C76_safe : forall os bs, run os (state0 bs) <> HUB.
Proof. intros os bs. exact (proj1 (run_inv os _ (inv0 bs))). Qed.
(* each handle is released at most once; what was released had been handed out by that
   backend *)
Theorem C76_once : forall os bs s, run os (state0 bs) = HOk s -> NoDup (released s) /\ forall p, In p (released s) -> In p (handed s).
Proof.
  intros os bs s R. destruct (run_inv os _ (inv0 bs)) as [_ B]. specialize (B s R). split.
  - pose proof (h_uniq _ B) as U. apply (Permutation_NoDup (Permutation_map snd (h_hist _ B))) in U. rewrite map_app in U.
    apply NoDup_map_inv with (f := snd). clear -U. induction (map snd (released s)) as [|x l IH]; [constructor|]. cbn in U. inversion U as [|? ? A C]; subst.
    constructor; [|auto]. intros X. apply A, in_or_app. auto.
  - intros p I. apply (Permutation_in _ (Permutation_sym (h_hist _ B))), in_or_app. left. exact I.
Qed.
(* and when no result is left all have been *)
Theorem C76_no_leak : forall os bs s, run os (state0 bs) = HOk s -> vars s = [] -> Permutation (released s) (handed s).
Proof.
  intros os bs s R V. destruct (run_inv os _ (inv0 bs)) as [_ B]. specialize (B s R). pose proof (h_own _ B) as O. rewrite V in O. cbn in O.
  apply Permutation_nil in O. rewrite (h_hist _ B), O, app_nil_r. reflexivity.
Qed.
(* a non-empty result can be used: its backend lives, even when the user let it go, and
   its handle is neither released nor that of another result *)
Theorem C76_valid : forall os bs s v r h, run os (state0 bs) = HOk s -> get v (vars s) = Some r -> value r = Some h ->
  exists b, parent r = Some b /\ alive b s = true /\ In (b, h) (handed s) /\ ~ In (b, h) (released s) /\
    forall w q, get w (vars s) = Some q -> value q = Some h -> w = v.
Proof.
  intros os bs s v r h R G V. destruct (run_inv os _ (inv0 bs)) as [_ B]. specialize (B s R). apply get_in in G as IN.
  pose proof (h_par _ B _ _ IN) as HP. rewrite V in HP. destruct (parent r) as [b|] eqn:P; [|destruct HP; [discriminate|reflexivity]].
  exists b. split; [reflexivity|]. split; [exact (alive_parent _ _ _ _ IN P)|].
  pose proof (owned_in _ _ _ _ _ IN V P) as O. apply (Permutation_in _ (h_own _ B)) in O.
  pose proof (h_uniq _ B) as U. apply (Permutation_NoDup (Permutation_map snd (h_hist _ B))) in U. rewrite map_app in U.
  split; [apply (Permutation_in _ (Permutation_sym (h_hist _ B))), in_or_app; right; exact O|]. split.
  - intros X. apply (in_map snd) in X, O. cbn in X, O. revert X O U. generalize (map snd (released s)) (map snd (out s)). clear. intros l m X O U.
    induction l as [|y l IH]; [contradiction|]. cbn in U. inversion U as [|? ? A C]; subst. destruct X as [->|X]; [apply A, in_or_app; auto|auto].
  - intros w q GW VQ. apply get_in in GW as IW. destruct (Nat.eq_dec w v) as [|NE]; [assumption|exfalso].
    pose proof (h_par _ B _ _ IW) as HQ. rewrite VQ in HQ. destruct (parent q) as [c|] eqn:PQ; [|destruct HQ; [discriminate|reflexivity]].
    assert (UO : NoDup (map snd (owned (vars s)))).
    { apply (Permutation_NoDup (Permutation_map snd (Permutation_sym (h_own _ B)))). clear -U. induction (map snd (released s)) as [|y l IH]; [exact U|].
      cbn in U. inversion U. auto. }
    clear -UO IN IW V P VQ PQ NE. revert UO IN IW. induction (vars s) as [|[u x] l IH]; intros UO IN IW; [contradiction|].
    cbn [owned flat_map snd] in UO. fold (owned l) in UO. rewrite map_app in UO.
    assert (UL : NoDup (map snd (owned l))).
    { clear -UO. induction (map snd (own x)) as [|y m IH]; [exact UO|]. cbn in UO. inversion UO. auto. }
    assert (HX : forall g y, own x = [(g, y)] -> ~ In y (map snd (owned l))).
    { intros g y E. rewrite E in UO. cbn in UO. inversion UO. assumption. }
    destruct IN as [[= -> ->]|IN], IW as [[= -> ->]|IW]; [contradiction| | |auto].
    + apply (HX b h); [unfold own; rewrite V, P; reflexivity|]. apply (in_map snd _ (c, h)). exact (owned_in _ _ _ _ _ IW VQ PQ).
    + apply (HX c h); [unfold own; rewrite VQ, PQ; reflexivity|]. apply (in_map snd _ (b, h)). exact (owned_in _ _ _ _ _ IN V P).
Qed.
(* a find is remembered with its position, its key and a new handle of the backend *)
Theorem C76_found : forall v b i k s s', step (FindIndex v b i (Some k)) s = HOk s' \/ step (FindKey v b k (Some i)) s = HOk s' ->
  get v (vars s') = Some (Result (Some b) i k (Some (next s))) /\ handed s' = (b, next s) :: handed s.
Proof.
  intros v b i k s s' H. assert (C : construct v b i k true s = HOk s') by (destruct H; assumption). clear H. unfold construct in C.
  destruct (fresh_var v s && existsb (Nat.eqb b) (held s)); [|discriminate]. injection C as <-. cbn. unfold get. cbn. rewrite Nat.eqb_refl. auto.
Qed.
(* a move passes the entry on and leaves an empty result *)
Theorem C76_move : forall o v w s s' r, o = MoveConstruct v w \/ o = MoveAssign v w -> v <> w ->
  step o s = HOk s' -> get w (vars s) = Some r ->
  get v (vars s') = Some r /\ exists q, get w (vars s') = Some q /\ value q = None /\ parent q = None.
Proof.
  intros o v w s s' r [-> | ->] NE H G; cbn [step] in H; rewrite G in H.
  - destruct (fresh_var v s); [|discriminate]. injection H as <-. cbn [vars]. rewrite !get_cons, Nat.eqb_refl, get_set.
    destruct (Nat.eqb_spec v w); [contradiction|]. rewrite Nat.eqb_refl, G. cbn. split; [reflexivity|]. eexists. repeat split; reflexivity.
  - destruct (get v (vars s)) as [old|] eqn:GV; [|discriminate]. destruct (release old s) as [s1| |] eqn:R; [|discriminate|discriminate].
    assert (EV : vars s1 = vars s).
    { unfold release in R. destruct (value old); [|injection R as <-; reflexivity]. destruct (parent old); [|discriminate].
      destruct (alive _ s && existsb _ (out s)); [|discriminate]. injection R as <-. reflexivity. }
    destruct (Nat.eqb_spec v w); [contradiction|]. injection H as <-. cbn [vars]. rewrite EV, !get_set, !Nat.eqb_refl.
    destruct (Nat.eqb_spec v w); [contradiction|]. destruct (Nat.eqb_spec w v); [subst; contradiction|]. rewrite GV, G. cbn.
    split; [reflexivity|]. eexists. repeat split; reflexivity.
Qed.
(* a new result without arguments is empty; letting a config go affects that backend
   only, which stays alive as long as some result came from it *)
Theorem C76_default : forall v s s', step (Default v) s = HOk s' -> get v (vars s') = Some (Result None 0 0 None) /\ handed s' = handed s /\ held s' = held s.
Proof.
  intros v s s' H. cbn in H. destruct (fresh_var v s); [|discriminate]. injection H as <-. cbn. unfold get. cbn. rewrite Nat.eqb_refl. auto.
Qed.
Theorem C76_drop : forall b s, exists s', step (DropBackend b) s = HOk s' /\ vars s' = vars s /\ out s' = out s /\ released s' = released s /\
  (forall c, In c (held s') <-> In c (held s) /\ c <> b) /\
  (alive b s' = true <-> exists v r, In (v, r) (vars s) /\ parent r = Some b) /\ (forall c, c <> b -> alive c s' = alive c s).
Proof.
  intros b s. eexists. split; [reflexivity|]. cbn [vars out released held].
  assert (F : forall c, In c (filter (fun c => negb (c =? b)) (held s)) <-> In c (held s) /\ c <> b).
  { intros c. rewrite filter_In, negb_true_iff, Nat.eqb_neq. reflexivity. }
  do 3 (split; [reflexivity|]). split; [exact F|]. split; [|intros c NE].
  - unfold alive. cbn [held vars]. rewrite orb_true_iff. split.
    + intros [X|X]; apply existsb_exists in X.
      * destruct X as (c & I & E). apply Nat.eqb_eq in E. subst c. apply F in I. tauto.
      * destruct X as ([v r] & I & E). exists v, r. split; [exact I|]. cbn in E. destruct (parent r) as [c|]; [|discriminate]. apply Nat.eqb_eq in E. now subst.
    + intros (v & r & I & E). right. apply existsb_exists. exists (v, r). split; [exact I|]. cbn. rewrite E. apply Nat.eqb_refl.
  - unfold alive. cbn [held vars]. f_equal. apply eq_true_iff_eq. rewrite !existsb_exists. split; intros (d & I & E); exists d; (split; [|exact E]); apply Nat.eqb_eq in E; subst d; apply F in I || apply F; tauto.
Qed.
Print Assumptions C76_default.
Print Assumptions C76_drop.
Print Assumptions C76_safe.
Print Assumptions C76_once.
Print Assumptions C76_no_leak.
Print Assumptions C76_valid.
Print Assumptions C76_found.
Print Assumptions C76_move.

Example C76_ex : run [FindIndex 1 7 0 (Some 5); Default 2; FindKey 3 8 9 (Some 4); MoveAssign 2 1; DropBackend 7; MoveAssign 3 2; MoveConstruct 4 3;
    FindKey 5 8 1 None; MoveAssign 4 4; Destroy 1; Destroy 2] (state0 [7; 8]) =
  HOk (State [(5, Result (Some 8) 0 1 None); (4, Result (Some 7) 0 0 None); (3, Result None 0 0 None)] [8] [] 2 [(8, 1); (7, 0)] [(7, 0); (8, 1)]).
Proof. reflexivity. Qed.
(* assigning a result to itself, which only a debug build refuses, empties it *)
Theorem C76_self_refuted : exists s s' r, run [FindIndex 1 7 0 (Some 5)] (state0 [7]) = HOk s /\ step (MoveAssign 1 1) s = HOk s' /\
  get 1 (vars s) = Some r /\ value r = Some 0 /\ get 1 (vars s') = Some (Result (Some 7) 0 0 None).
Proof. do 3 eexists. repeat split; reflexivity. Qed.
Print Assumptions C76_self_refuted.
