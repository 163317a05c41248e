(* Proofs about TokenModel. *)
From Coq Require Import List Bool Arith Lia.
From Verif Require Import TokenModel.
Import ListNotations.

Section Proofs.
Variable A : Type.
Variable sep : A -> bool.
Notation split := (split A sep).
Notation move := (move_iterator A sep).

Lemma split_nonnil s : split s <> [].
Proof. destruct s as [|c t]; simpl; [discriminate|]. destruct (sep c); [discriminate|]. destruct (split t); discriminate. Qed.

Lemma move_suffix s : exists p, s = p ++ move s /\ Forall (fun c => sep c = false) p.
Proof.
  induction s as [|c t IH]; simpl; [exists []; auto|].
  destruct (sep c) eqn:E; [exists []; auto|]. destruct IH as (p & Hp & HF). exists (c::p). simpl. split; [congruence|auto].
Qed.
Lemma move_len s : length (move s) <= length s.
Proof. destruct (move_suffix s) as (p & E & _). rewrite E at 2. rewrite app_length. lia. Qed.
Lemma move_eq_len s : length (move s) = length s -> move s = s.
Proof.
  destruct (move_suffix s) as (p & E & _). intros H. rewrite E in H at 2. rewrite app_length in H.
  destruct p; [rewrite E at 2; reflexivity|simpl in H; lia].
Qed.
(* first segment and the rest *)
Definition first_seg s := range_of A s (move s).
Lemma split_move s : split s = first_seg s :: match move s with [] => [] | _ :: r => split r end.
Proof.
  unfold first_seg, range_of. induction s as [|c t IH]; simpl; [reflexivity|].
  destruct (sep c) eqn:E.
  - simpl; rewrite Nat.sub_diag. reflexivity.
  - rewrite IH. pose proof (move_len t).
    replace (match length (move t) with 0 => S (length t) | S l => length t - l end) with (S (length t - length (move t))) by
      (destruct (length (move t)); lia). reflexivity.
Qed.
Lemma it_eqb_nil (t : list A) : it_eqb A t [] = is_nil A t.
Proof. destruct t; reflexivity. Qed.
Lemma first_seg_nil s : is_nil A (first_seg s) = it_eqb A s (move s).
Proof.
  unfold first_seg, range_of, it_eqb. pose proof (move_len s).
  destruct (Nat.eqb_spec (length s) (length (move s))) as [->|N]; [rewrite Nat.sub_diag; reflexivity|].
  destruct s; simpl in *; [lia|]. destruct (length (move_iterator A sep (a::s))) eqn:E;
  simpl in E; rewrite E; simpl; [reflexivity|]. simpl in N. rewrite E in N.
  destruct (length s - n) eqn:E2; [lia|reflexivity].
Qed.

Definition good (t : tok A) := tend t = move (tbegin t).

(* skip = false *)
Lemma next_false fuel s : fuel > 0 ->
  next_token A sep fuel (Tok s (move s) false) =
  Some (match move s with [] => Tok [] [] false | _ :: r => Tok r (move r) false end).
Proof. destruct fuel; [lia|]. intros _. simpl. destruct (move s); reflexivity. Qed.

Definition drop_trailing (l : list (list A)) := if is_nil A (last l []) then removelast l else l.

Lemma drop_trailing_cons x l : l <> [] -> drop_trailing (x :: l) = x :: drop_trailing l.
Proof. intros H. unfold drop_trailing. destruct l; [congruence|]. simpl. destruct (is_nil A (last (l::l0) [])) eqn:E; simpl in *; rewrite ?E; reflexivity. Qed.

Lemma collect_false inner fuel s : inner > 0 -> fuel > length s ->
  collect A sep fuel inner (Tok s (move s) false) = Some (drop_trailing (split s)).
Proof.
  intros Hi. revert s; induction fuel as [|fuel IH]; intros s Hf; [lia|].
  simpl. unfold has_next. simpl. rewrite it_eqb_nil. destruct s as [|c t].
  - reflexivity.
  - remember (c::t) as s eqn:Es. assert (Hs : is_nil A s = false) by (subst; reflexivity).
    assert (Hr : is_nil A (range_of A s []) = false) by (subst; reflexivity).
    clear Es. rewrite Hs. simpl negb. cbv beta iota. unfold next. rewrite next_false by exact Hi.
    rewrite split_move. unfold peek. simpl tbegin. simpl tend. unfold first_seg.
    pose proof (move_len s) as L. destruct (move s) as [|d r].
    + destruct fuel; [destruct s; simpl in Hf, Hs; [discriminate|lia]|]. simpl collect. 
      unfold drop_trailing. simpl last. rewrite Hr. reflexivity.
    + rewrite IH by (simpl in *; lia). rewrite drop_trailing_cons by apply split_nonnil. reflexivity.
Qed.

(* skip = true *)
Notation nonnil := (filter (fun l => negb (is_nil A l))).
Definition nes (s : list A) := nonnil (split s).
Definition rest_of (e : list A) : list (list A) := match e with [] => [] | _ :: r => nes r end.

Lemma nes_move s : nes s = if is_nil A (first_seg s) then rest_of (move s) else first_seg s :: rest_of (move s).
Proof.
  unfold nes. rewrite split_move. simpl filter. destruct (is_nil A (first_seg s)); simpl negb; cbv beta iota;
  destruct (move s); reflexivity.
Qed.

Lemma next_true fuel b e : fuel > length e -> exists b',
  next_token A sep fuel (Tok b e true) = Some (Tok b' (move b') true) /\
  (b' = [] /\ rest_of e = [] \/
   length b' < length e /\ is_nil A (first_seg b') = false /\ rest_of e = first_seg b' :: rest_of (move b')).
Proof.
  revert b e; induction fuel as [|fuel IH]; intros b e Hf; [lia|].
  destruct e as [|c r]; simpl.
  - exists []. auto.
  - rewrite <- first_seg_nil. destruct (is_nil A (first_seg r)) eqn:E.
    + destruct (IH r (move r)) as (b' & E' & D); [pose proof (move_len r); simpl in Hf; lia|].
      exists b'. split; [exact E'|]. 
      assert (Hr : nes r = rest_of (move r)).
      { rewrite nes_move, E. reflexivity. }
      rewrite Hr. pose proof (move_len r). destruct D as [[-> D]|(L & D1 & D2)]; [left; auto|right].
      repeat split; [simpl; lia|exact D1|exact D2].
    + exists r. split; [reflexivity|]. right. repeat split; [lia|exact E|].
      rewrite nes_move, E. reflexivity.
Qed.

Lemma collect_true inner fuel b : inner > length b -> fuel > length b ->
  (b = [] \/ is_nil A (first_seg b) = false) ->
  collect A sep fuel inner (Tok b (move b) true) = Some (nes b).
Proof.
  intros Hi Hf; revert b Hi Hf; induction fuel as [|fuel IH]; intros b Hi Hf Hb; [lia|].
  simpl. unfold has_next. simpl. rewrite it_eqb_nil. destruct b as [|c t]; [reflexivity|].
  destruct Hb as [Hb|Hb]; [discriminate|].
  set (b := c::t) in *. simpl negb. cbv beta iota. unfold next.
  destruct (next_true inner b (move b)) as (b' & E & D); [pose proof (move_len b); lia|].
  rewrite E. unfold peek. simpl tbegin. simpl tend.
  pose proof (move_len b).
  rewrite IH.
  - assert (Hr : nes b = first_seg b :: rest_of (move b)).
    { rewrite nes_move, Hb. reflexivity. }
    rewrite Hr. f_equal. f_equal. destruct D as [[-> D]|(L & D1 & D2)].
    + symmetry. rewrite D. reflexivity.
    + rewrite D2, nes_move, D1. reflexivity.
  - destruct D as [[-> D]|(L & D1 & D2)]; simpl in *; lia.
  - destruct D as [[-> D]|(L & D1 & D2)]; simpl in *; lia.
  - destruct D as [[-> D]|(L & D1 & D2)]; auto.
Qed.

Lemma tokens_false s : tokens A sep s false = Some (segments_but_trailing_empty A sep s).
Proof. unfold tokens, make. simpl andb. cbv beta iota. apply (collect_false (S (length s)) (S (S (length s))) s); lia. Qed.

Lemma tokens_true s : tokens A sep s true = Some (nonempty_segments A sep s).
Proof.
  unfold tokens, make. simpl tbegin. simpl tend. simpl andb. rewrite <- first_seg_nil.
  destruct (is_nil A (first_seg s)) eqn:E.
  - destruct (next_true (S (length s)) s (move s)) as (b' & E' & D); [pose proof (move_len s); lia|].
    rewrite E'. pose proof (move_len s).
    assert (Hr : nonempty_segments A sep s = rest_of (move s)).
    { change (nonempty_segments A sep s) with (nes s). rewrite nes_move, E. reflexivity. }
    rewrite Hr. rewrite collect_true.
    + f_equal. destruct D as [[-> D]|(L & D1 & D2)]; [rewrite D; reflexivity|].
      rewrite D2, nes_move, D1. reflexivity.
    + destruct D as [[-> D]|(L & D1 & D2)]; simpl in *; lia.
    + destruct D as [[-> D]|(L & D1 & D2)]; simpl in *; lia.
    + destruct D as [[-> D]|(L & D1 & D2)]; auto.
  - apply collect_true; try lia. right; exact E.
Qed.

(* the spec function itself *)
Lemma split_segments_clean s : Forall (fun seg => Forall (fun c => sep c = false) seg) (split s).
Proof.
  induction s as [|c t IH]; simpl; [repeat constructor|]. destruct (sep c) eqn:E; [constructor; auto|].
  destruct (split t) as [|h r]; [repeat constructor; exact E|]. inversion IH; subst. constructor; auto.
Qed.
Lemma split_glue s : exists seps, Forall (fun c => sep c = true) seps /\
  length (split s) = S (length seps) /\ glue A (split s) seps = s.
Proof.
  induction s as [|c t IH]; simpl; [exists []; auto|]. destruct IH as (seps & HF & HL & HG).
  destruct (sep c) eqn:E.
  - exists (c::seps). simpl. split; [auto|]. split; [lia|]. destruct (split t) eqn:Es; [simpl in HL; lia|].
    change (c :: glue A (l :: l0) seps = c :: t). rewrite HG. reflexivity.
  - exists seps. split; [auto|]. destruct (split t) as [|h r] eqn:Es; [simpl in HL; lia|]. simpl in *.
    split; [exact HL|]. destruct r, seps; simpl in *; try congruence; try (rewrite HG; reflexivity).
Qed.
(* and it is the only such list of segments *)
Lemma glue_unique segs : forall seps s,
  Forall (fun seg => Forall (fun c => sep c = false) seg) segs ->
  Forall (fun c => sep c = true) seps -> length segs = S (length seps) -> glue A segs seps = s -> segs = split s.
Proof.
  assert (Hpre : forall x s', Forall (fun c => sep c = false) x ->
      split (x ++ s') = match split s' with [] => [] | h :: r => (x ++ h) :: r end).
  { induction x as [|c x IH]; intros s' Hx; simpl.
    - destruct (split s') eqn:E; [exfalso; revert E; apply split_nonnil|reflexivity].
    - inversion Hx; subst. rewrite H1, IH by assumption. destruct (split s') eqn:E; [exfalso; revert E; apply split_nonnil|reflexivity]. }
  induction segs as [|x segs IH]; intros seps s Hs Hp HL HG; [simpl in HL; lia|].
  inversion Hs as [|? ? Hx Hs']; subst. destruct segs as [|y segs].
  - simpl. rewrite <- (app_nil_r x) at 2. rewrite Hpre by exact Hx. simpl. rewrite app_nil_r. reflexivity.
  - destruct seps as [|c seps]; [simpl in HL; lia|]. inversion Hp; subst.
    change (glue A (x::y::segs) (c::seps)) with (x ++ c :: glue A (y::segs) seps).
    rewrite Hpre by exact Hx. simpl split. rewrite H1. rewrite app_nil_r. f_equal.
    apply (IH seps); auto.
Qed.

(* an exhausted iterator stays exhausted, with an empty token *)
Lemma exhausted_stays t t' r fuel : good t -> has_next A t = false -> next A sep fuel t = Some (r, t') ->
  r = [] /\ has_next A t' = false.
Proof.
  unfold good, has_next. destruct t as [b e sk]. simpl. rewrite it_eqb_nil. intros G H. destruct b; [|discriminate].
  simpl in G. subst e. unfold next. destruct fuel; simpl; [discriminate|]. intros E; inversion E; subst. auto.
Qed.
Lemma make_good fuel s sk t : make A sep fuel s sk = Some t -> good t.
Proof.
  unfold make. destruct (sk && _) eqn:E; [|intros H; inversion H; reflexivity].
  clear E. generalize (move s) at 1. revert s. induction fuel as [|fuel IH]; intros s l; simpl; [discriminate|].
  destruct l as [|c r]; [intros H; inversion H; reflexivity|].
  destruct (sk && _); [apply IH|intros H; inversion H; reflexivity].
Qed.
Lemma next_good fuel t r t' : next A sep fuel t = Some (r, t') -> good t -> good t'.
Proof.
  unfold next. destruct (next_token A sep fuel t) as [t1|] eqn:E; [|discriminate]. intros H; inversion H; subst. intros _.
  clear H. revert t E. induction fuel as [|fuel IH]; intros t E; simpl in E; [discriminate|].
  destruct (tend t) as [|c l]; [inversion E; reflexivity|].
  destruct (skip_empty t && _); [eapply IH; exact E|inversion E; reflexivity].
Qed.

Lemma steps_good n fuel t t' : steps A sep n fuel t = Some t' -> good t -> good t'.
Proof.
  revert t; induction n as [|n IH]; intros t E G; simpl in E; [congruence|].
  destruct (next A sep fuel t) as [[r t1]|] eqn:E1; [|discriminate]. eapply IH; [exact E|]. eapply next_good; eassumption.
Qed.
Lemma exhausted_reachable s sk n fuel t0 t r t' :
  make A sep fuel s sk = Some t0 -> steps A sep n fuel t0 = Some t -> has_next A t = false ->
  next A sep fuel t = Some (r, t') -> r = [] /\ has_next A t' = false.
Proof.
  intros E0 E1 H E2. eapply exhausted_stays; [|exact H|exact E2]. eapply steps_good; [exact E1|]. eapply make_good; exact E0.
Qed.
(* next() never runs out of the fuel given by the string length *)
Definition fits (n : nat) (t : tok A) := length (tbegin t) <= n /\ length (tend t) <= n.
Lemma next_fits n t : fits n t -> exists r t', next A sep (S n) t = Some (r, t') /\ fits n t'.
Proof.
  intros [_ H]. unfold next.
  assert (G : forall f t, length (tend t) < f -> exists t', next_token A sep f t = Some t' /\ length (tbegin t') <= length (tend t) /\ length (tend t') <= length (tend t)).
  { clear t H. induction f as [|f IH]; intros t L; [lia|]. simpl. destruct (tend t) as [|c l]; [eexists; split; [reflexivity|simpl; lia]|].
    pose proof (move_len l). destruct (skip_empty t && _).
    - destruct (IH (Tok l (move l) (skip_empty t))) as (t' & E & L1 & L2); [simpl in *; lia|]. exists t'. split; [exact E|]. simpl in *. lia.
    - eexists. split; [reflexivity|]. simpl. lia. }
  destruct (G (S n) t) as (t' & E & L1 & L2); [lia|]. rewrite E. eexists _, _. split; [reflexivity|]. split; lia.
Qed.
Lemma make_fits s sk : exists t, make A sep (S (length s)) s sk = Some t /\ fits (length s) t.
Proof.
  unfold make. pose proof (move_len s) as L. cbn [tbegin tend]. destruct (sk && it_eqb A s (move s)).
  - destruct (next_fits (length s) (Tok s (move s) sk)) as (r & t' & E & F); [split; cbn; lia|].
    exists t'. split; [|exact F]. unfold next in E. destruct (next_token A sep (S (length s)) (Tok s (move s) sk)); [|discriminate].
    injection E as _ ->. reflexivity.
  - eexists. split; [reflexivity|]. split; cbn; lia.
Qed.
Lemma steps_total m n t : fits m t -> exists t', steps A sep n (S m) t = Some t' /\ fits m t'.
Proof.
  revert t. induction n as [|n IH]; intros t F; cbn [steps]; [eauto|].
  destruct (next_fits m t F) as (r & t' & -> & F'). exact (IH t' F').
Qed.
End Proofs.
