(* Proofs about programs over token iterators. *)
From Coq Require Import List Bool Arith Lia.
From Verif Require Import TokenModel TokenProofs CursModel CursSpec.
Import ListNotations.

Section Curs.
Variable A : Type.
Variable sep : A -> bool.
Variable s : list A.
Notation move := (move_iterator A sep).
Notation n := (length s).
Definition todo (skip : bool) (b : list A) : list (nat * nat) :=
  filter (wanted A s skip) (spans (n - length b) (split A sep b)).
Definition holds (t : tok A) (l : list (nat * nat)) : Prop :=
  tend t = move (tbegin t) /\ length (tbegin t) <= n /\ l = todo (skip_empty t) (tbegin t) /\
  (skip_empty t = true -> tbegin t <> [] -> length (move (tbegin t)) < length (tbegin t)).

Lemma first_len b : length (first_seg A sep b) = length b - length (move b).
Proof. unfold first_seg, range_of. rewrite firstn_length. lia. Qed.
Lemma todo_nil skip : todo skip [] = [].
Proof.
  unfold todo. cbn [split spans filter length]. rewrite Nat.sub_0_r, Nat.add_0_r. unfold wanted. cbn [fst snd].
  destruct skip; rewrite Nat.ltb_irrefl; reflexivity.
Qed.
Lemma todo_step skip b : b <> [] -> length b <= n ->
  todo skip b = (if wanted A s skip (n - length b, n - length (move b)) then [(n - length b, n - length (move b))] else []) ++
                match move b with [] => [] | _ :: r => todo skip r end.
Proof.
  intros Hb Hn. unfold todo at 1. rewrite split_move. cbn [spans filter]. rewrite first_len. pose proof (move_len A sep b) as M.
  replace (n - length b + (length b - length (move b))) with (n - length (move b)) by lia.
  assert (E : filter (wanted A s skip) (spans (S (n - length (move b))) match move b with [] => [] | _ :: r => split A sep r end) =
    match move b with [] => [] | _ :: r => todo skip r end).
  { destruct (move b) as [|c r]; [reflexivity|]. unfold todo. cbn [length] in *. replace (n - length r) with (S (n - S (length r))) by lia. reflexivity. }
  rewrite E. destruct (wanted A s skip (n - length b, n - length (move b))); reflexivity.
Qed.

(* the token in front *)
Lemma holds_here t l : holds t l -> here A s l = (n - length (tbegin t), n - length (tend t)) /\
  is_end l = negb (has_next A t) /\
  (tbegin t <> [] -> tl l = match tend t with [] => [] | _ :: r => todo (skip_empty t) r end).
Proof.
  intros (E & Le & -> & S). unfold has_next. rewrite it_eqb_nil, negb_involutive. destruct (tbegin t) as [|c b] eqn:B.
  - rewrite todo_nil, E. cbn. rewrite Nat.sub_0_r. split; [reflexivity|]. split; [reflexivity|congruence].
  - rewrite todo_step by (congruence || exact Le). rewrite <- E.
    assert (W : wanted A s (skip_empty t) (n - length (c :: b), n - length (tend t)) = true).
    { unfold wanted. cbn [fst snd]. destruct (skip_empty t); apply Nat.ltb_lt.
      - pose proof (S eq_refl) as S'. rewrite E. assert (length (move (c :: b)) < length (c :: b)) by (apply S'; congruence). lia.
      - cbn [length] in *. lia. }
    rewrite W. cbn [app here is_end is_nil tl]. auto.
Qed.

(* an unwanted token is no token *)
Lemma todo_empty b : length b <= n -> length b = length (move b) ->
  todo true b = match move b with [] => [] | _ :: q => todo true q end.
Proof.
  intros Le E. destruct b as [|d r]; [rewrite todo_nil; reflexivity|]. rewrite (todo_step true (d :: r)) by (congruence || exact Le).
  unfold wanted. cbn [fst snd]. rewrite <- E, Nat.ltb_irrefl. reflexivity.
Qed.

(* next_token drops the unwanted tokens *)
Lemma skip_spec fuel : forall t, length (tend t) < fuel -> length (tend t) <= n ->
  exists t', next_token A sep fuel t = Some t' /\ skip_empty t' = skip_empty t /\
    holds t' (match tend t with [] => [] | _ :: r => todo (skip_empty t) r end).
Proof.
  induction fuel as [|fuel IH]; intros t F Le; [lia|]. cbn [next_token]. destruct (tend t) as [|c r] eqn:E.
  - eexists. split; [reflexivity|]. split; [reflexivity|]. split; [reflexivity|]. cbn [tbegin skip_empty length].
    split; [lia|]. split; [now rewrite todo_nil|congruence].
  - cbn [tbegin tend skip_empty length] in *. pose proof (move_len A sep r) as M.
    destruct (skip_empty t && it_eqb A r (move r)) eqn:K.
    + apply andb_true_iff in K as [K1 K2]. apply Nat.eqb_eq in K2.
      destruct (IH (Tok r (move r) (skip_empty t))) as (t' & N & Sk & H); cbn [tend skip_empty] in *; [lia|lia|].
      exists t'. split; [exact N|]. split; [exact Sk|].
      replace (todo (skip_empty t) r) with (match move r with [] => [] | _ :: q => todo (skip_empty t) q end); [exact H|].
      rewrite K1. symmetry. apply todo_empty; [lia|exact K2].
    + eexists. split; [reflexivity|]. split; [reflexivity|]. split; [reflexivity|]. cbn [tbegin skip_empty]. split; [lia|]. split; [reflexivity|].
      intros S _. rewrite S in K. cbn [andb] in K. apply Nat.eqb_neq in K. lia.
Qed.

Lemma make_holds skip : exists t, make A sep (fuel A s) s skip = Some t /\ holds t (all_tokens A sep s skip).
Proof.
  assert (E : all_tokens A sep s skip = todo skip s) by (unfold all_tokens, todo; now rewrite Nat.sub_diag).
  rewrite E. unfold make. cbn [tbegin tend]. pose proof (move_len A sep s) as M. destruct (skip && it_eqb A s (move s)) eqn:K.
  - apply andb_true_iff in K as [K1 K2]. apply Nat.eqb_eq in K2.
    destruct (skip_spec (fuel A s) (Tok s (move s) skip)) as (t' & N & _ & H); cbn [tend] in *; [unfold fuel; lia|lia|].
    exists t'. split; [exact N|]. cbn [skip_empty] in H. rewrite K1 in *. rewrite todo_empty by (lia || exact K2). exact H.
  - eexists. split; [reflexivity|]. split; [reflexivity|]. cbn [tbegin skip_empty]. split; [lia|]. split; [reflexivity|].
    intros S _. rewrite S in K. cbn [andb] in K. apply Nat.eqb_neq in K. lia.
Qed.

Lemma next_holds t l : holds t l -> exists t', next_token A sep (fuel A s) t = Some t' /\ holds t' (tl l).
Proof.
  intros H. destruct (holds_here t l H) as (_ & _ & T). destruct H as (E & Le & L & S). pose proof (move_len A sep (tbegin t)) as M.
  destruct (skip_spec (fuel A s) t) as (t' & N & _ & H'); [unfold fuel; rewrite E; lia|rewrite E; lia|].
  exists t'. split; [exact N|]. destruct (tbegin t) as [|c b] eqn:B.
  - rewrite L, todo_nil. cbn in E. rewrite E in H'. exact H'.
  - rewrite T by congruence. exact H'.
Qed.

Lemma same_equal t u l k : holds t l -> holds u k -> equal A t u = same A s l k.
Proof.
  intros H K. destruct (holds_here t l H) as (X & _). destruct (holds_here u k K) as (Y & _).
  unfold equal, same, it_eqb. rewrite X, Y. cbn [fst snd].
  destruct H as (E & Le & _). destruct K as (E' & Le' & _).
  pose proof (move_len A sep (tbegin t)). pose proof (move_len A sep (tbegin u)). rewrite <- E in *. rewrite <- E' in *.
  f_equal; match goal with |- (?a =? ?b) = (?c =? ?d) => destruct (Nat.eqb_spec a b), (Nat.eqb_spec c d); try reflexivity; lia end.
Qed.
Lemma unequal_equal t u : unequal A t u = negb (equal A t u).
Proof. unfold unequal, equal. now rewrite negb_andb. Qed.

Definition agree (st : store A) (sl : left) : Prop :=
  forall x, match st x, sl x with Some t, Some l => holds t l | None, None => True | _, _ => False end.
Lemma agree_upd st sl x t l : agree st sl -> holds t l -> agree (upd A st x t) (setl sl x l).
Proof. intros G H y. unfold upd, setl. destruct (y =? x); [exact H|apply G]. Qed.

Lemma exec_says debug o st sl : agree st sl ->
  match says A sep s debug o sl with
  | None => exec A sep s debug o st = Wrong
  | Some (_, _, true) => exec A sep s debug o st = Stopped
  | Some (x, sl', false) => exists st', exec A sep s debug o st = Ok x st' /\ agree st' sl'
  end.
Proof.
  intros G.
  assert (ADV : forall (x : nat) (show : bool),
    match option_map (fun l => (if show then Range (fst (here A s l)) (snd (here A s l)) else Nothing, setl sl x (tl l), debug && is_end l)) (sl x) with
    | None => do_next A sep s debug st x show = Wrong
    | Some (_, _, true) => do_next A sep s debug st x show = Stopped
    | Some (o, sl', false) => exists st', do_next A sep s debug st x show = Ok o st' /\ agree st' sl'
    end).
  { intros x show. unfold do_next. pose proof (G x) as Gx. destruct (st x) as [t|], (sl x) as [l|]; try contradiction; [|reflexivity].
    cbn [option_map]. destruct (holds_here t l Gx) as (X & Y & _). rewrite <- Y. destruct (debug && is_end l); [reflexivity|].
    destruct (next_holds t l Gx) as (t' & N & H'). rewrite N. eexists. split; [|apply agree_upd; [exact G|exact H']].
    unfold range_at. rewrite X. reflexivity. }
  assert (LOOK : forall x f g, (forall t l, holds t l -> f t = g l) ->
    match option_map (fun l : list (nat * nat) => (g l, sl, false)) (sl x) with
    | None => look A st x f = Wrong
    | Some (_, _, true) => look A st x f = Stopped
    | Some (o, sl', false) => exists st', look A st x f = Ok o st' /\ agree st' sl'
    end).
  { intros x f g FG. unfold look. pose proof (G x) as Gx. destruct (st x) as [t|], (sl x) as [l|]; try contradiction; [|reflexivity].
    cbn [option_map]. exists st. rewrite (FG t l Gx). auto. }
  destruct o as [x skip|x y|x|x|x|x|x|x|x y|x y|x|x]; cbn [exec says]; try exact (ADV x true); try exact (ADV x false).
  - destruct (make_holds skip) as (t & M & H). rewrite M. eexists. split; [reflexivity|]. now apply agree_upd.
  - pose proof (G y) as Gy. destruct (st y) as [t|], (sl y) as [l|]; try contradiction; [|reflexivity].
    cbn [option_map]. eexists. split; [reflexivity|]. now apply agree_upd.
  - apply LOOK. intros t l H. destruct (holds_here t l H) as (X & _). unfold range_at. now rewrite X.
  - apply LOOK. intros t l H. destruct (holds_here t l H) as (_ & Y & _). now rewrite Y, negb_involutive.
  - apply LOOK. intros t l H. destruct (holds_here t l H) as (_ & Y & _). now rewrite Y.
  - pose proof (G x) as Gx. pose proof (G y) as Gy. destruct (st x) as [t|], (sl x) as [l|]; try contradiction; [|reflexivity].
    destruct (st y) as [u|], (sl y) as [k|]; try contradiction; [|reflexivity]. exists st. now rewrite (same_equal t u l k).
  - pose proof (G x) as Gx. pose proof (G y) as Gy. destruct (st x) as [t|], (sl x) as [l|]; try contradiction; [|reflexivity].
    destruct (st y) as [u|], (sl y) as [k|]; try contradiction; [|reflexivity]. exists st. now rewrite unequal_equal, (same_equal t u l k).
  - apply LOOK. intros t l H. destruct (holds_here t l H) as (_ & Y & _). now rewrite Y.
  - apply LOOK. intros t l H. destruct (holds_here t l H) as (_ & Y & _). now rewrite Y, negb_involutive.
Qed.

Lemma run_story debug os : forall st sl, agree st sl -> run A sep s debug os st = story A sep s debug os sl.
Proof.
  induction os as [|o os IH]; intros st sl G; cbn [run story]; [reflexivity|].
  pose proof (exec_says debug o st sl G) as X. destruct (says A sep s debug o sl) as [[[x sl'] [|]]|]; [now rewrite X| |now rewrite X].
  destruct X as (st' & E & G'). rewrite E. now rewrite (IH st' sl' G').
Qed.
End Curs.

(* ---- the tokens ---- *)
Lemma spans_sorted {A} (segs : list (list A)) : forall k p, In p (spans k segs) -> k <= fst p /\ fst p <= snd p.
Proof.
  induction segs as [|x r IH]; intros k p; cbn; [contradiction|]. intros [<-|I]; [cbn; lia|]. apply IH in I. lia.
Qed.
(* positions further on begin further on *)
Lemma spans_apart {A} (f : nat * nat -> bool) (segs : list (list A)) : forall k i j p q,
  nth_error (filter f (spans k segs)) i = Some p -> nth_error (filter f (spans k segs)) j = Some q -> i < j -> snd p < fst q.
Proof.
  induction segs as [|x r IH]; intros k i j p q; cbn [spans filter]; [destruct i; discriminate|].
  destruct (f (k, k + length x)); [|apply IH]. destruct i as [|i]; cbn.
  - intros [= <-] J L. destruct j as [|j]; [lia|]. cbn in J. apply nth_error_In in J. apply filter_In in J as [J _].
    apply spans_sorted in J. cbn. lia.
  - intros I J L. destruct j as [|j]; [lia|]. cbn in J. eapply IH; eauto. lia.
Qed.
