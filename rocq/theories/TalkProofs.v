(* Proofs for C94 *)
From Coq Require Import List Bool Arith Lia.
From Verif Require Import TalkModel TalkSpec.
Import ListNotations.

Lemma nth_upd {A} (l : list A) i j x : nth_error (upd l i x) j = if i =? j then match nth_error l j with Some _ => Some x | None => None end else nth_error l j.
Proof.
  revert i j. induction l as [|y l IH]; intros i j; [destruct i, j; cbn; try reflexivity; destruct (i =? j); reflexivity|].
  destruct i, j; cbn [upd nth_error]; try reflexivity. rewrite IH. reflexivity.
Qed.
Lemma len_upd {A} (l : list A) i x : length (upd l i x) = length l.
Proof. revert i. induction l as [|y l IH]; intros [|i]; cbn; auto. Qed.
Lemma map_upd {A B} (f : A -> B) (l : list A) i x : (forall y, nth_error l i = Some y -> f y = f x) -> map f (upd l i x) = map f l.
Proof.
  revert i. induction l as [|y l IH]; intros [|i] H; cbn; auto; f_equal; auto.
  symmetry. apply H. reflexivity.
Qed.

Lemma some_inj {A} (x y : A) : Some x = Some y -> y = x. Proof. congruence. Qed.

Section Rule.
Variables (V S : Type) (copyable is_pill : V -> bool).
Variable react : nat -> S -> ref -> any V -> S * list (cmd V).
Notation any := (any V). Notation state := (state V S).

Lemma clone_copy a : clone V copyable a = if can_copy copyable a then Some a else None.
Proof. induction a as [|v|a IH]; cbn; auto. rewrite IH. destruct (can_copy copyable a); reflexivity. Qed.

Lemma sent_step from p c t x :
  In x (sent copyable from p (c :: t)) <->
  match c with
  | Throw => False
  | StopSelf => In x (sent copyable from p t)
  | Tell to y src => match arg_val V copyable y p with Some (a, p') => x = (to, source src, a) \/ In x (sent copyable from p' t) | None => False end
  | Forward y to => match arg_val V copyable y p with Some (a, p') => x = (to, from, a) \/ In x (sent copyable from p' t) | None => False end
  end.
Proof.
  destruct c as [to y src|y to| |]; [| |reflexivity|reflexivity];
    destruct y; cbn [sent arg_val]; rewrite ?clone_copy; destruct (can_copy copyable p); cbn [In]; unfold source; intuition (subst; auto).
Qed.

Definition qs_of (s : state) (k : nat) : option question := match nth_error (askers s) k with Some a => Some (a_to a, a_asked a) | None => None end.

(* the ghosts are the questions *)
Lemma askers_upd (s : state) k a b : nth_error (askers s) k = Some b -> a_to a = a_to b -> a_asked a = a_asked b ->
  map (fun a => (a_to a, a_asked a)) (askers (set_asker V S s k a)) = map (fun a => (a_to a, a_asked a)) (askers s).
Proof. intros H E1 E2. cbn. apply map_upd. intros y Hy. replace y with b by congruence. congruence. Qed.
Lemma deliver_ghost to m (s : state) : map (fun a => (a_to a, a_asked a)) (askers (deliver V S to m s)) = map (fun a => (a_to a, a_asked a)) (askers s).
Proof.
  destruct to as [|i|k]; cbn; [reflexivity| |].
  - destruct (nth_error (actors s) i) as [a|]; [destruct (open a)|]; reflexivity.
  - destruct (nth_error (askers s) k) as [a|] eqn:E; [|reflexivity]. destruct (a_open a); [|reflexivity]. eapply askers_upd; eauto.
Qed.
Lemma step_ghost s x s' : step V copyable is_pill S react s x = Some s' ->
  map (fun a => (a_to a, a_asked a)) (askers s') = map (fun a => (a_to a, a_asked a)) (askers s) ++ asks [x].
Proof.
  assert (K : forall s' : state, map (fun a => (a_to a, a_asked a)) (askers s') = map (fun a => (a_to a, a_asked a)) (askers s) ->
    map (fun a => (a_to a, a_asked a)) (askers s') = map (fun a => (a_to a, a_asked a)) (askers s) ++ []) by (intros; rewrite app_nil_r; auto).
  destruct x as [to v from|to v|k|i|i|i|i|k|k|k]; cbn [step asks flat_map app].
  - intros H. apply some_inj in H as ->. apply K, deliver_ghost.
  - intros H. apply some_inj in H as ->. rewrite deliver_ghost. cbn. rewrite map_app. reflexivity.
  - destruct (nth_error (askers s) k) as [a|] eqn:E; [|discriminate]. intros [= <-]. apply K. destruct (a_open a); [|reflexivity]. eapply askers_upd; eauto.
  - destruct (nth_error (actors s) i) as [a|] eqn:E; [|discriminate]. intros [= <-]. apply K. destruct (open a); reflexivity.
  - unfold take. destruct (nth_error (actors s) i) as [[[|m q] [] [] me [c|]]|]; try discriminate.
    destruct (pill V is_pill (m_load m)); [intros [= <-]; apply K; reflexivity|].
    destruct (react i me (m_from m) (m_load m)). intros [= <-]. apply K. reflexivity.
  - unfold go. destruct (nth_error (actors s) i) as [[q o st me [[[from p] cs]|]]|]; try discriminate.
    destruct cs as [|[to y src|y to| |] t]; try (intros [= <-]; apply K; reflexivity);
      (destruct (arg_val V copyable y p) as [[a p']|]; intros H; apply some_inj in H as ->; apply K; [rewrite deliver_ghost|]; reflexivity).
  - unfold halt. destruct (nth_error (actors s) i) as [[q [] [] me [c|]]|]; try discriminate. intros [= <-]. apply K. reflexivity.
  - unfold ask_start. destruct (nth_error (askers s) k) as [[q [] st [] r t v]|] eqn:E; try discriminate. intros [= <-]. apply K. eapply askers_upd; eauto.
  - unfold ask_take. destruct (nth_error (askers s) k) as [[[|m q] [] [] [] r t v]|] eqn:E; try discriminate.
    destruct (pill V is_pill (m_load m)); [intros [= <-]; apply K; eapply askers_upd; eauto|].
    destruct r; [destruct (clone V copyable (m_load m))| |]; intros [= <-]; apply K; eapply askers_upd; eauto.
  - unfold ask_halt. destruct (nth_error (askers s) k) as [[q [] [] st r t v]|] eqn:E; try discriminate. intros [= <-]. apply K. eapply askers_upd; eauto.
Qed.
Lemma asks_app (xs ys : list (action V)) : asks (xs ++ ys) = asks xs ++ asks ys.
Proof. unfold asks. apply flat_map_app. Qed.
Lemma run_ghost xs : forall s s', run V copyable is_pill S react s xs = Some s' ->
  map (fun a => (a_to a, a_asked a)) (askers s') = map (fun a => (a_to a, a_asked a)) (askers s) ++ asks xs.
Proof.
  induction xs as [|x xs IH]; cbn [run]; intros s s' H.
  - injection H as <-. cbn. rewrite app_nil_r. reflexivity.
  - destruct (step V copyable is_pill S react s x) as [s1|] eqn:E; [|discriminate].
    rewrite (IH _ _ H), (step_ghost _ _ _ E), <- app_assoc. f_equal. change (x :: xs) with ([x] ++ xs). rewrite asks_app. reflexivity.
Qed.
Lemma qs_ghost (s : state) k : qs_of s k = nth_error (map (fun a => (a_to a, a_asked a)) (askers s)) k.
Proof. unfold qs_of. rewrite nth_error_map. destruct (nth_error (askers s) k); reflexivity. Qed.

Variable Good : @question V -> nat -> any -> Prop.
Variable Ans : @question V -> any -> Prop.
Variable Mem : (nat -> option (@question V)) -> nat -> S -> Prop.
Hypothesis R : proved_right copyable Good Ans Mem react.

Definition actor_ok qs i (a : actor V S) : Prop :=
  Mem qs i (mem a) /\ (forall m, In m (queue a) -> from_ok Good qs i (m_from m) (m_load m)) /\
  (forall from p cs, cur a = Some (from, p, cs) -> forall to src x, In (to, src, x) (sent copyable from p cs) -> fine Good Ans qs to src x).
Definition asker_ok (a : asker V) : Prop :=
  (forall m, In m (a_queue a) -> Ans (a_to a, a_asked a) (m_load m)) /\
  (forall c, result a = Answer c -> c = Null \/ Ans (a_to a, a_asked a) c).
Definition inv_at qs (s : state) : Prop :=
  (forall i a, nth_error (actors s) i = Some a -> actor_ok qs i a) /\
  (forall k a, nth_error (askers s) k = Some a -> asker_ok a).
Definition inv (s : state) : Prop := inv_at (qs_of s) s.

Lemma fine_more qs qs' to src x : (forall k q, qs k = Some q -> qs' k = Some q) -> fine Good Ans qs to src x -> fine Good Ans qs' to src x.
Proof.
  intros E [H1 H2]. split.
  - intros i Hi k Hk. destruct (H1 i Hi k Hk) as (q & ? & ?). eauto.
  - intros k Hk. destruct (H2 k Hk) as (q & ? & ?). eauto.
Qed.
Lemma actor_ok_more qs qs' i a : (forall k q, qs k = Some q -> qs' k = Some q) -> actor_ok qs i a -> actor_ok qs' i a.
Proof.
  intros E (H1 & H2 & H3). split; [eapply (more_questions _ _ _ _ _ R); eauto|]. split.
  - intros m Hm k Hk. destruct (H2 m Hm k Hk) as (q & ? & ?). eauto.
  - intros. eapply fine_more; eauto.
Qed.
Lemma set_actor_inv qs s i a : inv_at qs s -> actor_ok qs i a -> inv_at qs (set_actor V S s i a).
Proof.
  intros [H1 H2] Ha. split; [|exact H2]. intros j b. cbn. rewrite nth_upd. destruct (Nat.eqb_spec i j) as [->|_]; [|apply H1].
  destruct (nth_error (actors s) j); [|discriminate]. intros [= <-]. exact Ha.
Qed.
Lemma set_asker_inv qs s k a : inv_at qs s -> asker_ok a -> inv_at qs (set_asker V S s k a).
Proof.
  intros [H1 H2] Ha. split; [exact H1|]. intros j b. cbn. rewrite nth_upd. destruct (Nat.eqb_spec k j) as [->|_]; [|apply H2].
  destruct (nth_error (askers s) j); [|discriminate]. intros [= <-]. exact Ha.
Qed.
Lemma deliver_inv qs s to src x : (forall k q, qs k = Some q -> qs_of s k = Some q) -> inv_at qs s -> fine Good Ans qs to src x -> inv_at qs (deliver V S to (Message src x) s).
Proof.
  intros Q H F. destruct to as [|i|k]; cbn [deliver]; [exact H| |].
  - destruct (nth_error (actors s) i) as [a|] eqn:E; [|exact H]. destruct (open a); [|exact H]. apply set_actor_inv; [exact H|].
    destruct (proj1 H i a E) as (H1 & H2 & H3). split; [exact H1|]. split; [|exact H3]. cbn. intros m Hm. apply in_app_iff in Hm as [Hm|[<-|[]]]; [auto|].
    cbn. destruct F as [F _]. apply F. reflexivity.
  - destruct (nth_error (askers s) k) as [a|] eqn:E; [|exact H]. destruct (a_open a); [|exact H]. apply set_asker_inv; [exact H|].
    destruct (proj2 H k a E) as (H1 & H2). split; [|exact H2]. cbn. intros m Hm. apply in_app_iff in Hm as [Hm|[<-|[]]]; [auto|].
    cbn. destruct F as [_ F]. destruct (F k eq_refl) as (q & Hq & HA). apply Q in Hq. unfold qs_of in Hq. rewrite E in Hq. injection Hq as <-. exact HA.
Qed.

Lemma step_inv s x s' : inv s -> step V copyable is_pill S react s x = Some s' -> inv s'.
Proof.
  intros I H. pose proof (step_ghost _ _ _ H) as G.
  assert (Q : (match x with Ask _ _ => False | _ => True end) -> forall k, qs_of s' k = qs_of s k).
  { intros Hx k. rewrite !qs_ghost, G. destruct x; cbn; try rewrite app_nil_r; tauto. }
  assert (M : forall qs s1, (forall k q, qs k = Some q -> qs_of s1 k = Some q) -> inv_at qs s1 -> inv s1).
  { intros qs s1 E [A B]. split; [|exact B]. intros i a Hi. eapply actor_ok_more; [exact E|]. apply A, Hi. }
  assert (K : match x with Ask _ _ => False | _ => True end -> inv_at (qs_of s) s' -> inv s').
  { intros Hx. apply M. intros k q Hq. rewrite (Q Hx k). exact Hq. }
  destruct x as [to v from|to v|k|i|i|i|i|k|k|k]; cbn [step] in H.
  - apply some_inj in H as ->. apply K; [exact Logic.I|]. apply deliver_inv; [auto|exact I|]. split; [|discriminate]. intros i _ k. destruct from; discriminate.
  - apply some_inj in H as ->. clear Q K. set (s1 := State (actors s) (askers s ++ [Mk_asker [] true false false Unset to v])) in *.
    assert (E1 : forall k q, qs_of s k = Some q -> qs_of s1 k = Some q).
    { intros k q. unfold qs_of, s1. cbn. destruct (nth_error (askers s) k) as [a|] eqn:E; [|discriminate].
      rewrite nth_error_app1 by (apply nth_error_Some; congruence). rewrite E. auto. }
    assert (I1 : inv_at (qs_of s1) s1).
    { split.
      - intros i a Hi. eapply actor_ok_more; [exact E1|]. apply (proj1 I). exact Hi.
      - intros k a Hk. unfold s1 in Hk. cbn in Hk. destruct (Nat.lt_ge_cases k (length (askers s))) as [L|L].
        + rewrite nth_error_app1 in Hk by exact L. exact (proj2 I k a Hk).
        + rewrite nth_error_app2 in Hk by exact L. destruct (k - length (askers s)) as [|n]; [|destruct n; discriminate].
          injection Hk as <-. split; [intros m []|discriminate]. }
    apply (M (qs_of s1)).
    { intros k q Hq. rewrite qs_ghost in Hq |- *. rewrite deliver_ghost. exact Hq. }
    apply deliver_inv; [auto|exact I1|]. split; [|discriminate]. intros i [= <-] k [= <-]. exists (to, v). split; [|apply (at_first _ _ _ _ _ R)].
    unfold qs_of, s1. cbn. rewrite nth_error_app2 by lia. rewrite Nat.sub_diag. reflexivity.
  - destruct (nth_error (askers s) k) as [a|] eqn:E; [|discriminate]. apply some_inj in H as ->. destruct (a_open a); [|exact I].
    apply K; [exact Logic.I|]. apply set_asker_inv; [exact I|]. exact (proj2 I k a E).
  - destruct (nth_error (actors s) i) as [a|] eqn:E; [|discriminate]. apply some_inj in H as ->. destruct (open a); [|exact I].
    apply K; [exact Logic.I|]. apply set_actor_inv; [exact I|]. exact (proj1 I i a E).
  - apply K; [exact Logic.I|]. unfold take in H. destruct (nth_error (actors s) i) as [[[|m q] [] [] me [c|]]|] eqn:E; try discriminate.
    destruct (proj1 I i _ E) as (H1 & H2 & H3). cbn in H1, H2, H3.
    destruct (pill V is_pill (m_load m)).
    + apply some_inj in H as ->. apply set_actor_inv; [exact I|]. split; [exact H1|]. split; [|discriminate]. intros m' Hm. apply H2. right. exact Hm.
    + destruct (handlers _ _ _ _ _ R (qs_of s) i me (m_from m) (m_load m) H1 (H2 m (or_introl eq_refl))) as [A B].
      destruct (react i me (m_from m) (m_load m)) as [me' cs]. apply some_inj in H as ->. apply set_actor_inv; [exact I|]. split; [exact A|]. split.
      * intros m' Hm. apply H2. right. exact Hm.
      * cbn. intros from p cs' [= <- <- <-]. exact B.
  - apply K; [exact Logic.I|]. unfold go in H. destruct (nth_error (actors s) i) as [[q o st me [[[from p] cs]|]]|] eqn:E; try discriminate.
    destruct (proj1 I i _ E) as (H1 & H2 & H3). cbn in H1, H2, H3. specialize (H3 from p cs eq_refl).
    assert (Z : inv_at (qs_of s) (set_actor V S s i (Mk_actor q o st me None))).
    { apply set_actor_inv; [exact I|]. split; [exact H1|]. split; [exact H2|discriminate]. }
    assert (T : forall st' p' t, (forall y, In y (sent copyable from p' t) -> In y (sent copyable from p cs)) -> inv_at (qs_of s) (set_actor V S s i (Mk_actor q o st' me (Some (from, p', t))))).
    { intros st' p' t Hs. apply set_actor_inv; [exact I|]. split; [exact H1|]. split; [exact H2|]. cbn. intros ? ? ? [= <- <- <-] to src x Hx. apply H3, Hs, Hx. }
    destruct cs as [|[to y src|y to| |] t]; try (apply some_inj in H as ->; exact Z).
    + pose proof (sent_step from p (Tell to y src) t) as SS. cbn beta iota in SS. destruct (arg_val V copyable y p) as [[a p']|] eqn:EA; apply some_inj in H as ->; [|exact Z].
      apply deliver_inv; [auto| |apply H3; apply (proj2 (SS _)); left; reflexivity]. apply T. intros z Hz. apply (proj2 (SS _)). right. exact Hz.
    + pose proof (sent_step from p (Forward y to) t) as SS. cbn beta iota in SS. destruct (arg_val V copyable y p) as [[a p']|] eqn:EA; apply some_inj in H as ->; [|exact Z].
      apply deliver_inv; [auto| |apply H3; apply (proj2 (SS _)); left; reflexivity]. apply T. intros z Hz. apply (proj2 (SS _)). right. exact Hz.
    + apply some_inj in H as ->. apply T. intros z Hz. exact Hz.
  - apply K; [exact Logic.I|]. unfold halt in H. destruct (nth_error (actors s) i) as [[q [] [] me [c|]]|] eqn:E; try discriminate. apply some_inj in H as ->.
    apply set_actor_inv; [exact I|]. destruct (proj1 I i _ E) as (H1 & H2 & H3). split; [exact H1|]. split; [intros m []|discriminate].
  - apply K; [exact Logic.I|]. unfold ask_start in H. destruct (nth_error (askers s) k) as [[q [] st [] r t v]|] eqn:E; try discriminate. apply some_inj in H as ->.
    apply set_asker_inv; [exact I|]. exact (proj2 I k _ E).
  - apply K; [exact Logic.I|]. unfold ask_take in H. destruct (nth_error (askers s) k) as [[[|m q] [] [] [] r t v]|] eqn:E; try discriminate.
    destruct (proj2 I k _ E) as (H1 & H2). cbn in H1, H2.
    assert (T : forall b r', (r' = r \/ r' = Unset \/ exists c, clone V copyable (m_load m) = Some c /\ r' = Answer c) -> inv_at (qs_of s) (set_asker V S s k (Mk_asker q true b true r' t v))).
    { intros b r' Hr. apply set_asker_inv; [exact I|]. split; cbn.
      - intros m' Hm. apply H1. right. exact Hm.
      - intros c Hc. destruct Hr as [->|[->|(c' & Hc' & ->)]]; [auto|discriminate|]. injection Hc as ->. right. rewrite clone_copy in Hc'.
        destruct (can_copy copyable (m_load m)); [|discriminate]. injection Hc' as <-. apply H1. left. reflexivity. }
    destruct (pill V is_pill (m_load m)); [apply some_inj in H as ->; apply T; auto|].
    destruct r as [|c|]; [destruct (clone V copyable (m_load m)) as [c|] eqn:EC| |]; apply some_inj in H as ->; apply T; eauto.
  - apply K; [exact Logic.I|]. unfold ask_halt in H. destruct (nth_error (askers s) k) as [[q [] [] st r t v]|] eqn:E; try discriminate. apply some_inj in H as ->.
    destruct (proj2 I k _ E) as (H1 & H2). apply set_asker_inv; [exact I|]. split; [intros m []|]. cbn. intros c. destruct r as [|c'|]; [destruct st| |]; intros [= <-]; auto.
Qed.
Lemma run_inv xs : forall s s', inv s -> run V copyable is_pill S react s xs = Some s' -> inv s'.
Proof.
  induction xs as [|x xs IH]; cbn [run]; intros s s' I H; [congruence|].
  destruct (step V copyable is_pill S react s x) as [s1|] eqn:E; [|discriminate]. eapply IH; [|exact H]. eapply step_inv; eauto.
Qed.
Lemma fresh_inv ms : (forall i st, nth_error ms i = Some st -> Mem (fun _ => None) i st) -> inv (fresh V S ms).
Proof.
  intros H. split; [|intros [|k] a; discriminate]. intros i a. cbn. rewrite nth_error_map. destruct (nth_error ms i) as [st|] eqn:E; [|discriminate]. intros [= <-].
  split; [|split; [intros m []|discriminate]]. cbn. eapply (more_questions _ _ _ _ _ R); [|apply H, E]. discriminate.
Qed.
End Rule.
