(* C59: matching an any or a variant. *)
From Coq Require Import List Bool Arith Lia.
From Verif Require Import MatchModel MatchSpec MatchProofs.
Import ListNotations.

(* A stored value goes to the first case that takes it; if there is none, to the
   last default case, and without one bad_match_error is thrown. *)
Theorem C59_first_case : forall copyable movable cases a t,
  (exists i p, matches copyable movable cases a (Some t) = Called i p /\ first_with (takes copyable movable t a) cases i) \/
  (falls_through cases (matches copyable movable cases a (Some t)) /\
   Forall (fun c => ~ takes copyable movable t a c) cases).
Proof.
  intros copyable movable cases a t. destruct (split_first copyable movable t a cases) as [(l1 & c & l2 & E & T & F)|F].
  - left. exists (length l1), (pass movable c a). split; [apply (match_first copyable movable cases a t l1 c l2); assumption|].
    exists l1, c, l2. auto.
  - right. split; [|exact F]. rewrite match_none by assumption. apply default_ok.
Qed.
Print Assumptions C59_first_case.

(* types: 2 int, 3 string (copyable and movable), 4 a type that can only be moved *)
Definition c59_copyable (t : nat) : bool := t <? 4.
Definition c59_movable (t : nat) : bool := true.
Definition c59_cases : list case :=
  [Case 2 ByValue; Case 3 RRef; Case 3 Ref; Case empty_t ByValue; Case default_t ByValue; Case 4 ByValue].
Notation c59 := (matches c59_copyable c59_movable c59_cases).

Example C59_first_case_example :
  c59 ConstL (Some 2) = Called 0 ACopy /\ c59 MutL (Some 3) = Called 2 TheObject /\ c59 MutR (Some 3) = Called 1 TheObject /\
  c59 ConstL (Some 3) = CalledDefault 4 /\ c59 ConstL (Some 4) = CalledDefault 4 /\ c59 MutR (Some 4) = Called 5 MovedOut /\
  c59 MutL (Some 9) = CalledDefault 4 /\ c59 MutL None = CalledEmpty 3.
Proof. repeat split. Qed.

(* An empty one goes to the last case for emptiness, else the last default case,
   and never to a case for values. *)
Theorem C59_empty : forall copyable movable cases a,
  (exists i, matches copyable movable cases a None = CalledEmpty i /\ last_with (fun c => arg c = empty_t) cases i) \/
  (falls_through cases (matches copyable movable cases a None) /\ Forall (fun c => arg c <> empty_t) cases).
Proof.
  intros copyable movable cases a. destruct (match_empty copyable movable cases a) as [H|[H F]]; [left; exact H|right].
  split; [|exact F]. rewrite H. apply default_ok.
Qed.
Print Assumptions C59_empty.

Example C59_empty_example :
  matches c59_copyable c59_movable [Case 2 ByValue; Case default_t ConstRef] MutL None = CalledDefault 1 /\
  matches c59_copyable c59_movable [Case 2 ByValue] MutL None = BadMatch.
Proof. split; reflexivity. Qed.

(* Whatever is matched, the value is never taken for one of another type. *)
Theorem C59_right_type : forall copyable movable cases a stored,
  matches copyable movable cases a stored <> WrongType /\
  (forall i p, matches copyable movable cases a stored = Called i p ->
     exists c, nth_error cases i = Some c /\ stored = Some (arg c)).
Proof.
  intros copyable movable cases a [t|].
  - destruct (split_first copyable movable t a cases) as [(l1 & c & l2 & E & T & F)|F].
    + rewrite (match_first copyable movable cases a t l1 c l2 E T F). split; [discriminate|]. intros i p H. injection H as <- <-.
      exists c. rewrite E, nth_error_app2, Nat.sub_diag by lia. split; [reflexivity|]. destruct T as [-> _]. reflexivity.
    + rewrite match_none by assumption. destruct (default_ok cases) as [(i & -> & _)|[-> _]]; split; discriminate.
  - destruct (match_empty copyable movable cases a) as [(i & -> & _)|[-> _]]; [split; discriminate|].
    destruct (default_ok cases) as [(i & -> & _)|[-> _]]; split; discriminate.
Qed.
Print Assumptions C59_right_type.

(* A value is moved out only if an rvalue that is not const was matched; a case that
   can change it or move from it is called only with access of that kind. *)
Theorem C59_access : forall copyable movable cases a stored i p c,
  matches copyable movable cases a stored = Called i p -> nth_error cases i = Some c ->
  (p = MovedOut <-> shape c = ByValue /\ constant a = false /\ lvalue a = false /\ movable (arg c) = true) /\
  (p = ACopy -> shape c = ByValue /\ copyable (arg c) = true) /\
  (p = TheObject <-> shape c <> ByValue) /\
  (shape c = Ref -> constant a = false /\ lvalue a = true) /\
  (shape c = RRef -> constant a = false /\ lvalue a = false) /\
  (shape c = ConstRRef -> lvalue a = false).
Proof.
  intros copyable movable cases a [t|] i p c M E.
  - destruct (split_first copyable movable t a cases) as [(l1 & d & l2 & El & T & F)|F].
    + rewrite (match_first copyable movable cases a t l1 d l2 El T F) in M. injection M as <- <-.
      rewrite El, nth_error_app2, Nat.sub_diag in E by lia. injection E as ->. destruct T as [<- T]. unfold pass.
      destruct (shape c) eqn:Sh; cbn in T; destruct a; cbn in T; cbn [constant lvalue]; destruct (movable (arg c)) eqn:Mv;
        destruct (copyable (arg c)) eqn:Cp; repeat split; intros; try discriminate; try congruence; intuition congruence.
    + rewrite match_none in M by assumption. destruct (default_ok cases) as [(j & D & _)|[D _]]; rewrite D in M; discriminate.
  - destruct (match_empty copyable movable cases a) as [(j & D & _)|[D _]]; rewrite D in M; [discriminate|].
    destruct (default_ok cases) as [(j & D' & _)|[D' _]]; rewrite D' in M; discriminate.
Qed.
Print Assumptions C59_access.

Example C59_access_example : c59 MutR (Some 4) = Called 5 MovedOut /\ c59 ConstR (Some 4) = CalledDefault 4 /\
  c59 MutL (Some 3) = Called 2 TheObject.
Proof. repeat split. Qed.

(* Every case but the first of its kind is dead: after a case T or const T & of a
   copyable type no other case of that type is called. *)
Theorem C59_dead_cases : forall copyable movable l1 c l2 a stored i p,
  copyable (arg c) = true -> shape c = ByValue \/ shape c = ConstRef ->
  matches copyable movable (l1 ++ c :: l2) a stored = Called i p -> stored = Some (arg c) -> i <= length l1.
Proof.
  intros copyable movable l1 c l2 a stored i p C S M ->.
  destruct (split_first copyable movable (arg c) a (l1 ++ c :: l2)) as [(m1 & d & m2 & El & T & F)|F].
  - rewrite (match_first copyable movable _ a (arg c) m1 d m2 El T F) in M. injection M as <- <-.
    destruct (le_lt_dec (length m1) (length l1)) as [L|L]; [exact L|]. exfalso. rewrite Forall_forall in F. apply (F c).
    + apply (nth_error_In m1 (length l1)). rewrite <- (nth_error_app1 m1 (d :: m2)) by exact L. rewrite <- El.
      rewrite nth_error_app2, Nat.sub_diag by lia. reflexivity.
    + split; [reflexivity|]. destruct S as [-> | ->]; auto.
  - exfalso. rewrite Forall_forall in F. apply (F c); [apply in_or_app; right; left; reflexivity|].
    split; [reflexivity|]. destruct S as [-> | ->]; auto.
Qed.
Print Assumptions C59_dead_cases.

Example C59_dead_cases_example :
  matches c59_copyable c59_movable [Case 3 ConstRef; Case 3 RRef] MutR (Some 3) = Called 0 TheObject.
Proof. reflexivity. Qed.

(* Of several default cases the last is used, unlike other cases. *)
Theorem C59_first_default_refuted : exists copyable movable cases a t,
  compiles cases = true /\ first_with (fun c => arg c = default_t) cases 0 /\
  matches copyable movable cases a (Some t) = CalledDefault 1.
Proof.
  exists c59_copyable, c59_movable, [Case default_t ByValue; Case default_t ConstRef], MutL, 2. split; [reflexivity|].
  split; [|reflexivity]. exists [], (Case default_t ByValue), [Case default_t ConstRef]. repeat split. constructor.
Qed.
Print Assumptions C59_first_default_refuted.

(* A matcher with cases for all the types there are can still throw: the case may
   need access the matched object does not give. *)
Theorem C59_type_is_enough_refuted : exists copyable movable cases a t,
  compiles cases = true /\ (exists c, In c cases /\ arg c = t) /\ copyable t = true /\
  matches copyable movable cases a (Some t) = BadMatch.
Proof.
  exists c59_copyable, c59_movable, [Case 3 RRef], MutL, 3. split; [reflexivity|]. split; [exists (Case 3 RRef); cbn; auto|].
  split; reflexivity.
Qed.
Print Assumptions C59_type_is_enough_refuted.

Lemma at_middle (P : case -> Prop) cases i c : nth_error cases i = Some c -> last_with P cases i -> P c.
Proof.
  intros E (l1 & d & l2 & -> & H & _ & ->). rewrite nth_error_app2, Nat.sub_diag in E by lia. injection E as <-. exact H.
Qed.
(* What is called for a tag is the case for that tag and not for the other: one for
   emptiness only when there is no value, a default only when no case takes it. *)
Theorem C59_tags : forall copyable movable cases a stored i c,
  nth_error cases i = Some c ->
  (matches copyable movable cases a stored = CalledEmpty i -> stored = None /\ arg c = empty_t /\ arg c <> default_t) /\
  (matches copyable movable cases a stored = CalledDefault i -> arg c = default_t /\ arg c <> empty_t).
Proof.
  intros copyable movable cases a stored i c E.
  assert (D : matches copyable movable cases a stored = CalledDefault i -> arg c = default_t).
  { intros M. assert (F : falls_through cases (CalledDefault i)).
    { destruct stored as [t|].
      - destruct (C59_first_case copyable movable cases a t) as [(j & p & M' & _)|[F _]]; rewrite M in *; [discriminate|exact F].
      - destruct (C59_empty copyable movable cases a) as [(j & M' & _)|[F _]]; rewrite M in *; [discriminate|exact F]. }
    destruct F as [(j & J & L)|[J _]]; [|discriminate]. injection J as <-. 
    exact (at_middle _ _ _ _ E L). }
  split; intros M; [|split; [auto|rewrite (D M); discriminate]].
  assert (L : stored = None /\ last_with (fun c => arg c = empty_t) cases i).
  { destruct stored as [t|].
    - destruct (C59_first_case copyable movable cases a t) as [(j & p & M' & _)|[F _]]; rewrite M in *; [discriminate|]. destruct F as [(j & J & _)|[J _]]; discriminate.
    - destruct (C59_empty copyable movable cases a) as [(j & M' & L)|[F _]]; rewrite M in *; [injection M' as <-; auto|]. destruct F as [(j & J & _)|[J _]]; discriminate. }
  destruct L as [-> L]. pose proof (at_middle _ _ _ _ E L) as X. cbn in X. split; [reflexivity|]. split; [exact X|]. rewrite X. discriminate.
Qed.
Print Assumptions C59_tags.
