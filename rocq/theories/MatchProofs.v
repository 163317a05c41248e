(* Proofs about matching. *)
From Coq Require Import List Bool Arith Lia.
From Verif Require Import MatchModel MatchSpec.
Import ListNotations.

Lemma find_snoc t l c n : n <= length l -> find_match_case t (l ++ c) n = find_match_case t l n.
Proof.
  induction n as [|n IH]; intros L; cbn [find_match_case]; [reflexivity|].
  rewrite nth_error_app1 by lia. rewrite IH by lia. reflexivity.
Qed.

Lemma find_ok t l : match find_match_case t l (length l) with
  | Some i => last_with (fun c => arg c = t) l i
  | None => Forall (fun c => arg c <> t) l
  end.
Proof.
  induction l as [|c l IH] using rev_ind; [constructor|]. rewrite app_length, Nat.add_comm. cbn [length Nat.add find_match_case].
  rewrite nth_error_app2, Nat.sub_diag by lia. cbn [nth_error]. destruct (Nat.eqb_spec (arg c) t) as [E|E].
  - exists l, c, []. split; [reflexivity|]. split; [exact E|]. split; [constructor|reflexivity].
  - rewrite find_snoc by lia. destruct (find_match_case t l (length l)) as [i|].
    + destruct IH as (l1 & d & l2 & -> & P & F & ->). exists l1, d, (l2 ++ [c]). split; [rewrite <- app_assoc; reflexivity|].
      split; [exact P|]. split; [|reflexivity]. apply Forall_app. split; [exact F|]. constructor; [exact E|constructor].
    + apply Forall_app. split; [exact IH|]. constructor; [exact E|constructor].
Qed.

Lemma default_ok cases : falls_through cases (on_default cases).
Proof.
  unfold on_default, falls_through. pose proof (find_ok default_t cases) as H.
  destruct (find_match_case default_t cases (length cases)) as [i|]; [left; exists i|right]; auto.
Qed.

Section Proofs.
Variables copyable movable : nat -> bool.

Lemma takes_spec t a c : takes copyable movable t a c <-> arg c = t /\ callable copyable movable c a = true.
Proof.
  unfold takes, callable. split.
  - intros [<- H]. split; [reflexivity|]. destruct (shape c), a; cbn in *; try tauto; try (destruct H; discriminate); try discriminate;
      rewrite ?orb_true_iff; intuition discriminate.
  - intros [<- H]. split; [reflexivity|]. destruct (shape c), a; cbn in *; try tauto; try discriminate;
      rewrite ?orb_true_iff in *; intuition.
Qed.

Lemma takes_dec t a c : {takes copyable movable t a c} + {~ takes copyable movable t a c}.
Proof.
  destruct (Nat.eq_dec (arg c) t) as [E|E]; [|right; rewrite takes_spec; tauto].
  destruct (callable copyable movable c a) eqn:K; [left|right]; rewrite takes_spec; [tauto|]. intros [_ H]. congruence.
Qed.

Lemma invoke_ok t cases a o : forall rest done, cases = done ++ rest ->
  (forall l1 c l2, rest = l1 ++ c :: l2 -> Forall (fun d => ~ takes copyable movable t a d) l1 -> takes copyable movable t a c ->
     invoke_case copyable movable t cases a o (length rest) = Called (length done + length l1) (pass movable c a)) /\
  (Forall (fun d => ~ takes copyable movable t a d) rest -> invoke_case copyable movable t cases a o (length rest) = o).
Proof.
  induction rest as [|c rest IH]; intros done E.
  - split; [|reflexivity]. intros [|? ?] c0 l2 H; discriminate.
  - destruct (IH (done ++ [c])) as [IH1 IH2]; [rewrite <- app_assoc; exact E|]. cbn [length invoke_case].
    assert (EI : length cases - S (length rest) = length done) by (rewrite E, app_length; cbn [length]; lia).
    rewrite EI. assert (EN : nth_error cases (length done) = Some c) by (rewrite E, nth_error_app2, Nat.sub_diag by lia; reflexivity).
    rewrite EN. split.
    + intros [|d l1] c' l2 H F T.
      * injection H as <- <-. apply takes_spec in T. destruct T as [T1 T2]. rewrite T2. subst t. rewrite Nat.eqb_refl. unfold get_unsafe.
        rewrite Nat.eqb_refl. f_equal. cbn [length]. lia.
      * injection H as <- ->. inversion F as [|? ? N F']; subst. rewrite (IH1 l1 c' l2 eq_refl F' T).
        rewrite takes_spec in N. rewrite app_length. cbn [length].
        destruct (callable copyable movable c a); [|f_equal; lia].
        destruct (Nat.eqb_spec (arg c) t); [tauto|]. f_equal. lia.
    + intros F. inversion F as [|? ? N F']; subst. rewrite (IH2 F'). rewrite takes_spec in N.
      destruct (callable copyable movable c a); [|reflexivity]. destruct (Nat.eqb_spec (arg c) t); [tauto|reflexivity].
Qed.

Lemma split_first t a l : (exists l1 c l2, l = l1 ++ c :: l2 /\ takes copyable movable t a c /\ Forall (fun d => ~ takes copyable movable t a d) l1) \/
  Forall (fun d => ~ takes copyable movable t a d) l.
Proof.
  induction l as [|c l [(l1 & d & l2 & -> & T & F)|F]]; [right; constructor| |].
  - left. destruct (takes_dec t a c) as [K|K]; [exists [], c, (l1 ++ d :: l2); auto|]. exists (c :: l1), d, l2. auto.
  - destruct (takes_dec t a c) as [K|K]; [left; exists [], c, l; auto|right; auto].
Qed.

Lemma match_value cases a t : matches copyable movable cases a (Some t) =
  invoke_case copyable movable t cases a (on_default cases) (length cases).
Proof. unfold matches. destruct (find_match_case empty_t cases (length cases)); reflexivity. Qed.

Lemma match_first cases a t l1 c l2 : cases = l1 ++ c :: l2 -> takes copyable movable t a c ->
  Forall (fun d => ~ takes copyable movable t a d) l1 ->
  matches copyable movable cases a (Some t) = Called (length l1) (pass movable c a).
Proof.
  intros E T F. rewrite match_value. destruct (invoke_ok t cases a (on_default cases) cases [] eq_refl) as [H _].
  apply (H l1 c l2 E F T).
Qed.

Lemma match_none cases a t : Forall (fun d => ~ takes copyable movable t a d) cases ->
  matches copyable movable cases a (Some t) = on_default cases.
Proof.
  intros F. rewrite match_value. destruct (invoke_ok t cases a (on_default cases) cases [] eq_refl) as [_ H]. apply (H F).
Qed.

Lemma match_empty cases a :
  (exists i, matches copyable movable cases a None = CalledEmpty i /\ last_with (fun c => arg c = empty_t) cases i) \/
  (matches copyable movable cases a None = on_default cases /\ Forall (fun c => arg c <> empty_t) cases).
Proof.
  unfold matches. pose proof (find_ok empty_t cases) as H. destruct (find_match_case empty_t cases (length cases)) as [i|].
  - left. exists i. auto.
  - right. auto.
Qed.
End Proofs.
