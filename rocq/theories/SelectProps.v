(* C52: finding an actor by path. *)
From Coq Require Import List Bool Arith Ascii String Lia.
From Verif Require Import ActorPathModel ActorPathProofs SelectModel SelectProofs.
Import ListNotations.

Lemma find_own_path root sys sc names :
  path_of root = path_root ++ sys -> well_named root -> slash_free sys -> sc <> unknown ->
  names <> [] -> Forall (fun n => n <> [] /\ slash_free n) names ->
  (forall u, In u (nodes root) -> path_of u = show sys sc names -> find_actor root (show sys sc names) = Some [(Selector, Success (id_of u))]) /\
  ((forall u, In u (nodes root) -> path_of u <> show sys sc names) -> find_actor root (show sys sc names) = Some [(Selector, Failure)]).
Proof.
  intros P W S U N F. assert (A := parce_show sys sc names S U N F).
  destruct (find_actor_spec root sys (show sys sc names) _ P W A) as [(u & I & E & R)|[NO R]]; cbn [e_scope e_names] in *; split.
  - intros v Iv Ev. rewrite R. do 4 f_equal.
    assert (NE : tail_of (scope_to_str sc :: names) = tail_of (scope_to_str sc :: names)) by reflexivity.
    assert (FF : Forall (fun n => n <> [] /\ slash_free n) (scope_to_str sc :: names)).
    { constructor; [|exact F]. split; [destruct sc; discriminate|apply scope_slash_free]. }
    rewrite <- (tail_show sys sc names N), <- P in E, Ev.
    assert (D1 := descend_complete root _ u W FF I E). assert (D2 := descend_complete root _ v W FF Iv Ev). congruence.
  - intros H. exfalso. eapply H; eassumption.
  - intros v Iv Ev. exfalso. eapply NO; eassumption.
  - intros _. exact R.
Qed.
Lemma one_answer root target answers : find_actor root target = Some answers ->
  exists a ids, answers = (Selector, a) :: map (fun i => (Nobody, Success i)) ids.
Proof.
  unfold find_actor. destruct (parce target false) as [e| |]; [|intros H; injection H as <-; exists Failure, []; reflexivity|discriminate].
  intros H. injection H as <-. replace (rev (e_names e) ++ [scope_to_str (e_scope e)]) with (rev (scope_to_str (e_scope e) :: e_names e)) by reflexivity.
  destruct (select_first (scope_to_str (e_scope e) :: e_names e) root Selector) as [junk ->]. eauto.
Qed.

(* C52: in a tree whose siblings have different names, asking for a path of this
   system gives exactly one answer: the actor with that path if there is one,
   failure otherwise. *)
Theorem C52_find_by_own_path :
  forall (root : tree) (sys : str) (sc : scope) (names : list str),
    path_of root = path_root ++ sys -> well_named root -> slash_free sys -> sc <> unknown ->
    names <> [] -> Forall (fun n => n <> [] /\ slash_free n) names ->
    (forall u, In u (nodes root) -> path_of u = show sys sc names ->
       find_actor root (show sys sc names) = Some [(Selector, Success (id_of u))]) /\
    ((forall u, In u (nodes root) -> path_of u <> show sys sc names) ->
       find_actor root (show sys sc names) = Some [(Selector, Failure)]).
Proof. exact find_own_path. Qed.
Print Assumptions C52_find_by_own_path.

Definition s (x : string) : str := list_ascii_of_string x.
Definition ex_root : tree :=
  Node 0 (s "yato://main")
    [Node 1 (s "yato://main/system") []; Node 2 (s "yato://main/temp") [];
     Node 3 (s "yato://main/user")
       [Node 5 (s "yato://main/user/a") [Node 6 (s "yato://main/user/a/x") []; Node 7 (s "yato://main/user/a/y") []];
        Node 8 (s "yato://main/user/b") [Node 9 (s "yato://main/user/b/x") []]];
     Node 4 (s "yato://main/remote") []].
Ltac cok n := exists n; split; [discriminate|]; split; [unfold slash_free; vm_compute; intuition congruence|reflexivity].
Lemma ex_well_named : well_named ex_root.
Proof.
  assert (ND : forall l : list str, (if list_eq_dec (list_eq_dec ascii_dec) (nodup (list_eq_dec ascii_dec) l) l then true else false) = true -> NoDup l).
  { intros l H. destruct (list_eq_dec (list_eq_dec ascii_dec) (nodup (list_eq_dec ascii_dec) l) l) as [e|]; [|discriminate]. rewrite <- e. apply NoDup_nodup. }
  repeat (apply well_named_kids; split; [apply ND; vm_compute; reflexivity|]; repeat (apply Forall_cons; [split|]); try apply Forall_nil).
  all: try match goal with
  | |- child_ok ?p (Node _ ?q _) => let n := eval vm_compute in (get_name q) in cok n
  end.
Qed.
Example C52_example :
  find_actor ex_root (s "yato://main/user/a/y") = Some [(Selector, Success 7)] /\
  find_actor ex_root (s "yato://main/user/b/x") = Some [(Selector, Success 9)] /\
  find_actor ex_root (s "yato://main/user/b/y") = Some [(Selector, Failure)] /\
  find_actor ex_root (s "yato://main/user/a/y/z") = Some [(Selector, Failure)].
Proof. repeat split. Qed.

(* C52: for any string: what the parser makes of it is what is looked up, in
   this system; strings the parser rejects fail. *)
Theorem C52_find_any_path :
  forall (root : tree) (sys target : str) (e : elements),
    path_of root = path_root ++ sys -> well_named root -> parce target false = Accept e ->
    (exists u, In u (nodes root) /\ path_of u = show sys (e_scope e) (e_names e)
       /\ find_actor root target = Some [(Selector, Success (id_of u))]) \/
    ((forall u, In u (nodes root) -> path_of u <> show sys (e_scope e) (e_names e))
       /\ find_actor root target = Some [(Selector, Failure)]).
Proof. exact find_actor_spec. Qed.
Print Assumptions C52_find_any_path.
Example C52_any_example :
  well_named ex_root /\ find_actor ex_root (s "yato://main/user//a/y/") = Some [(Selector, Success 7)] /\
  find_actor ex_root (s "yato://main/nowhere/a") = Some [(Selector, Failure)].
Proof. split; [apply ex_well_named|]. repeat split. Qed.

(* C52: even when siblings share a name, the selector gets exactly one answer;
   the other answers have lost their address. *)
Theorem C52_exactly_one_answer :
  forall (root : tree) (target : str) (answers : list (receiver * answer)),
    find_actor root target = Some answers ->
    exists a ids, answers = (Selector, a) :: map (fun i => (Nobody, Success i)) ids.
Proof. exact one_answer. Qed.
Print Assumptions C52_exactly_one_answer.
Definition ex_twins : tree :=
  Node 0 (s "yato://main") [Node 3 (s "yato://main/user") [Node 5 (s "yato://main/user/a") []; Node 6 (s "yato://main/user/a") [Node 7 (s "yato://main/user/a/x") []]]].
Example C52_twins_example :
  find_actor ex_twins (s "yato://main/user/a") = Some [(Selector, Success 5); (Nobody, Success 6)].
Proof. reflexivity. Qed.

(* C52: with twins, an existing actor may be reported missing. *)
Theorem C52_twins_find_refuted :
  exists root u target, In u (nodes root) /\ path_of u = target /\
    find_actor root target = Some [(Selector, Failure); (Nobody, Success 6)].
Proof.
  exists ex_twins, (Node 7 (s "yato://main/user/a/x") []), (s "yato://main/user/a/x").
  split; [vm_compute; auto 6|]. split; reflexivity.
Qed.
Print Assumptions C52_twins_find_refuted.

(* C52: the system name in the path is ignored. *)
Theorem C52_foreign_system_rejected_refuted :
  exists root u target, well_named root /\ (forall v, In v (nodes root) -> path_of v <> target) /\
    In u (nodes root) /\ find_actor root target = Some [(Selector, Success (id_of u))].
Proof.
  exists ex_root, (Node 7 (s "yato://main/user/a/y") []), (s "yato://other/user/a/y").
  split; [apply ex_well_named|]. split.
  - intros v H. vm_compute in H. repeat (destruct H as [<-|H]; [vm_compute; discriminate|]). destruct H.
  - split; [vm_compute; auto 10|reflexivity].
Qed.
Print Assumptions C52_foreign_system_rejected_refuted.
