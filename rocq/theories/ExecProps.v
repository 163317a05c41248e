(* Property theorems for execution contexts: C51. *)
From Coq Require Import String List Bool.
From Verif Require Import ExecModel.
Import ListNotations.

Lemma find_first c cs n : find_execution (c :: cs) n = Some c.
Proof. reflexivity. Qed.

(* C51: an actor gets the context it names exactly if that is the first one. *)
Theorem C51_named_context_iff_first :
  forall (cs : list context) (n : string) (c : context), registered cs n c ->
    (find_execution cs n = Some c <-> exists post, cs = c :: post).
Proof.
  intros cs n c (pre & post & -> & N & F). destruct pre as [|d pre]; simpl app.
  - split; [intros _; now exists post|reflexivity].
  - rewrite find_first. split.
    + intros E. inversion E; subst. inversion F; subst. contradiction.
    + intros [p E]. inversion E; subst. reflexivity.
Qed.
Print Assumptions C51_named_context_iff_first.
Example C51_first_example :
  registered [Context "a" 1; Context "b" 2] "b" (Context "b" 2) /\ registered [Context "a" 1; Context "b" 2] "a" (Context "a" 1).
Proof.
  split; [exists [Context "a" 1], []|exists [], [Context "b" 2]]; repeat split; repeat constructor. discriminate.
Qed.

(* C51: without a configured default_executor every actor without properties
   runs on the built-in default context. *)
Theorem C51_default_context_works :
  forall (configured : list context) (d : nat),
    exists sys, init_executors None configured d = Some sys /\
      actor_context sys None = Some (Context "default" d).
Proof. intros. eexists. split; reflexivity. Qed.
Print Assumptions C51_default_context_works.

(* C51 fails: a registered context other than the first is never used. *)
Theorem C51_named_context_refuted :
  exists configured sys c, init_executors None configured 0 = Some sys /\
    registered (snd sys) "pinned" c /\ actor_context sys (Some "pinned"%string) <> Some c.
Proof.
  exists [Context "pinned" 1]. eexists. exists (Context "pinned" 1). split; [reflexivity|]. split.
  - exists [Context "default" 0], []. repeat split. repeat constructor. discriminate.
  - discriminate.
Qed.
Print Assumptions C51_named_context_refuted.

(* C51 fails: a default executor that is not registered is accepted. *)
Theorem C51_unknown_default_rejected_refuted :
  exists configured sys, init_executors (Some "nowhere"%string) configured 0 = Some sys /\
    forall c, ~ registered (snd sys) "nowhere" c.
Proof.
  exists [Context "pinned" 1]. eexists. split; [reflexivity|]. intros c (pre & post & E & N & _). simpl in E.
  destruct pre as [|d [|x pre]]; inversion E; subst; discriminate.
Qed.
Print Assumptions C51_unknown_default_rejected_refuted.
