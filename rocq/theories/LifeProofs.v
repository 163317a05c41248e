(* Counting the places that hold objects. *)
From Coq Require Import List Bool Arith Lia Permutation.
Import ListNotations.

Definition counted (P : nat -> bool) (n : nat) : Prop :=
  exists l, NoDup l /\ (forall i, In i l <-> P i = true) /\ length l = n.

Lemma counted_ext P Q n : counted P n -> (forall i, P i = Q i) -> counted Q n.
Proof.
  intros [l [N [I L]]] E. exists l. split; [assumption|]. split; [|assumption]. intros i. rewrite I, E. reflexivity.
Qed.

Lemma counted_none : counted (fun _ => false) 0.
Proof. exists []. split; [constructor|]. split; [|reflexivity]. cbn. intros i. split; [intros []|discriminate]. Qed.

Lemma counted_add P Q n i : counted P n -> P i = false -> Q i = true -> (forall k, k <> i -> Q k = P k) -> counted Q (S n).
Proof.
  intros [l [N [I L]]] E X H. exists (i :: l). split.
  - constructor; [|assumption]. rewrite I, E. discriminate.
  - split; [|cbn; lia]. intros k. cbn. rewrite I. destruct (Nat.eq_dec k i) as [->|D].
    + split; auto.
    + rewrite (H k D). split; [intros [A|A]; [congruence|assumption]|auto].
Qed.

Lemma counted_del P Q n i : counted P n -> P i = true -> Q i = false -> (forall k, k <> i -> Q k = P k) ->
  exists m, n = S m /\ counted Q m.
Proof.
  intros [l [N [I L]]] E X H.
  assert (A : In i l) by (rewrite I; assumption).
  destruct (in_split _ _ A) as [l1 [l2 ->]]. exists (length (l1 ++ l2)).
  rewrite app_length in L |- *. cbn in L. split; [lia|].
  exists (l1 ++ l2). split; [exact (NoDup_remove_1 _ _ _ N)|]. split; [|apply app_length].
  pose proof (NoDup_remove_2 _ _ _ N) as D. intros k.
  destruct (Nat.eq_dec k i) as [->|F].
  - split; [intros G; contradiction|congruence].
  - rewrite (H k F), <- I, !in_app_iff. cbn. split; [tauto|]. intros [G|[G|G]]; auto. congruence.
Qed.

Lemma counted_length P n l : counted P n -> NoDup l -> (forall i, In i l <-> P i = true) -> length l = n.
Proof.
  intros [m [N [I L]]] Nl Il. rewrite <- L. apply Permutation_length. apply NoDup_Permutation; [assumption..|].
  intros i. rewrite I, Il. reflexivity.
Qed.
