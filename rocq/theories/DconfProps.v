(* C109: the copying functions of config in a debug build. *)
From Coq Require Import String Ascii List Bool Arith ZArith Lia.
From Verif Require Import ConfigModel ConfigSpec ConfigProofs ConfigCopy ConfigPath ConfigWf ConfigProps DconfModel DconfSpec DconfProofs.
Import ListNotations.

(* {a: 1, b: {c: 2}}, and the same with a null config in b *)
Definition c109_inner : conf := obj KMap [("c"%string, Some (int 2))].
Definition c109_conf : conf := obj KMap [("a"%string, Some (int 1)); ("b"%string, sub c109_inner)].
Definition c109_null : conf := obj KMap [("a"%string, Some (int 1)); ("b"%string, sub (obj KMap [("d"%string, Some (VConf None))]))].

(* The release build behaves as ConfigModel says; a debug build either stops the
   program or behaves the same. *)
Theorem C109_same_as_release : forall o b,
  drun false o b = Run (release o b) /\
  (drun true o b = Stop \/ drun true o b = Run (release o b)).
Proof.
  intros o b. split.
  - destruct (run_agrees false o b) as [E | [E _]]; [exact E|discriminate].
  - destruct (run_agrees true o b) as [E | [_ E]]; auto.
Qed.
Print Assumptions C109_same_as_release.
Example C109_same_as_release_example :
  drun true (RWithout (dot "b.c")) (Some c109_conf) =
    Run (Ok (Some (obj KMap [("a"%string, Some (int 1)); ("b"%string, sub (obj KMap []))]))) /\
  drun true (RWithout (dot "a.x")) (Some c109_conf) = Stop.
Proof. split; reflexivity. Qed.

(* clone stops exactly when some config of the tree has a null config in it *)
Theorem C109_clone_stops : forall b, drun true RClone b = Stop <-> exists c, b = Some c /\ holed c.
Proof. exact clone_stops. Qed.
Print Assumptions C109_clone_stops.
Example C109_clone_stops_example :
  holed c109_null /\ drun true RClone (Some c109_null) = Stop /\ drun true RClone (Some c109_conf) = Run (Ok (Some c109_conf)).
Proof.
  split; [|split; reflexivity]. eapply holed_below; [right; left; reflexivity|]. eapply holed_here. left. reflexivity.
Qed.

(* with_value and with_only_path stop exactly when the path has no names *)
Theorem C109_with_stops : forall b p v, drun true (RWith p v) b = Stop <-> names_of p = [].
Proof.
  intros b p v. rewrite <- names_tok. cbn [drun]. split.
  - intros H. destruct (tokenize p) as [|n rest] eqn:E; [reflexivity|]. exfalso. revert H. apply bind_runs; [|discriminate].
    apply bind_runs; [|discriminate]. apply with_runs. discriminate.
  - intros ->. reflexivity.
Qed.
Print Assumptions C109_with_stops.
Theorem C109_only_stops : forall b p, drun true (ROnly p) b = Stop <-> names_of p = [].
Proof.
  intros b p. rewrite <- names_tok. cbn [drun]. split.
  - intros H. destruct (tokenize p) as [|n rest] eqn:E; [reflexivity|]. exfalso. revert H. apply only_runs. discriminate.
  - intros ->. reflexivity.
Qed.
Print Assumptions C109_only_stops.
Example C109_with_stops_example :
  names_of (dot "..") = [] /\ drun true (RWith (dot "..") (int 5)) (Some c109_conf) = Stop /\
  drun true (RWith (dot "a.x") (int 5)) (Some c109_conf) =
    Run (Ok (Some (obj KMap [("a"%string, sub (obj KMap [("x"%string, Some (int 5))])); ("b"%string, sub c109_inner)]))).
Proof. repeat split. Qed.
Example C109_only_stops_example :
  drun true (ROnly (dot "")) None = Stop /\
  drun true (ROnly (dot "b.c")) (Some c109_conf) = Run (Ok (Some (obj KMap [("b"%string, sub c109_inner)]))).
Proof. split; reflexivity. Qed.

(* without_path stops exactly when the path has no names, or reading it meets,
   before its end, something that is not a config or is a null config *)
Theorem C109_without_stops : forall b p, on single b ->
  (drun true (RWithout p) b = Stop <->
   names_of p = [] \/
   exists q v, q <> [] /\ proper_prefix q (names_of p) /\ cget b q = Some v /\ leaf v).
Proof.
  intros b p Hs. rewrite <- names_tok. cbn [drun]. destruct (tokenize p) as [|n rest] eqn:E.
  - split; [left; reflexivity|reflexivity].
  - rewrite (without_stops (n :: rest) b) by (auto; discriminate). split; [intros H; right; exact H|].
    intros [H|H]; [discriminate|exact H].
Qed.
Print Assumptions C109_without_stops.
Lemma c109_single : single c109_conf.
Proof.
  constructor.
  - intros _. cbn. repeat constructor; cbn; intuition discriminate.
  - intros n c [H|[H|[]]]; [discriminate|]. injection H as _ <-. constructor.
    + intros _. cbn. repeat constructor; cbn; intuition.
    + intros m d [H|[]]. discriminate.
Qed.
Example C109_without_stops_example :
  on single (Some c109_conf) /\ proper_prefix [s_ "a"] (names_of (dot "a.x")) /\ cget (Some c109_conf) [s_ "a"] = Some (int 1) /\ leaf (int 1) /\
  drun true (RWithout (dot "x.y")) (Some c109_conf) = Run (Ok (Some c109_conf)).
Proof.
  split; [exact c109_single|]. split; [exists (s_ "x"), []; reflexivity|]. split; [reflexivity|]. split; [intros c; discriminate|reflexivity].
Qed.
(* with several entries of one key it may also throw before it stops; it stops
   only if one of the ways along the names is cut short *)
Theorem C109_without_needs : forall b p, drun true (RWithout p) b = Stop ->
  names_of p = [] \/ exists c, b = Some c /\ cut_short (names_of p) c.
Proof.
  intros b p H. rewrite <- names_tok. cbn [drun] in H. destruct (tokenize p) as [|n rest] eqn:E; [left; reflexivity|right].
  apply without_cut; [discriminate|exact H].
Qed.
Print Assumptions C109_without_needs.
Definition c109_multi : conf := obj KMulti [("a"%string, sub c109_inner); ("a"%string, Some (int 1))].
Example C109_without_needs_example :
  cut_short (names_of (dot "a.x")) c109_multi /\ drun true (RWithout (dot "a.x")) (Some c109_multi) = Stop /\
  drun true (RWithout (dot "a.x")) (Some (obj KMulti [("a"%string, sub (Conf KArray [])); ("a"%string, Some (int 1))])) = Run Throw.
Proof.
  split; [|split; reflexivity]. eapply cut_here; [discriminate|right; left; reflexivity|intros c; discriminate].
Qed.

(* the other functions never stop *)
Theorem C109_never_stops : forall debug b,
  drun debug RShallow b <> Stop /\
  (forall white names, drun debug (RFilter white names) b <> Stop) /\
  (forall other p, drun debug (RMerge other p) b <> Stop).
Proof.
  intros debug b. split; [apply shallow_runs|]. split; [discriminate|]. intros other [|]; cbn [drun];
    (apply bind_runs; [apply merge_runs|discriminate]).
Qed.
Print Assumptions C109_never_stops.
Example C109_never_stops_example :
  drun true RShallow (Some c109_null) = Run (Ok (Some c109_null)) /\
  drun true (RMerge (Some c109_conf) PLeft) (Some c109_null) =
    Run (Ok (Some (obj KMap [("a"%string, Some (int 1));
                             ("b"%string, sub (obj KMap [("c"%string, Some (int 2)); ("d"%string, Some (VConf None))]))]))) /\
  drun true (RFilter true [s_ "b"]) (Some c109_conf) = Run (Ok (Some (obj KMap [("b"%string, sub c109_inner)]))).
Proof. repeat split. Qed.

(* A program that never stores a null config with with_value has, in a debug
   build, no null config inside any of its configs and can clone all of them. *)
Theorem C109_debug_configs : forall b, dmade b ->
  (forall c, b = Some c -> ~ holed c) /\ drun true RClone b = Run (Ok b).
Proof.
  intros b H. assert (Hf : forall c, b = Some c -> ~ holed c).
  { intros c ->. apply full_holed. apply (dmade_full _ H). }
  split; [exact Hf|]. destruct (C109_same_as_release RClone b) as [_ [E | E]].
  - apply clone_stops in E as (c & Hc & Hh). destruct (Hf c Hc Hh).
  - rewrite E. cbn [release]. unfold clone. rewrite clone_id; [reflexivity|lia|]. apply made_wf, dmade_made, H.
Qed.
Print Assumptions C109_debug_configs.
Example C109_debug_configs_example : dmade (Some c109_conf) /\
  exists c, dmade (Some c) /\ e_val (at_path (Some c) (dot "b.e")) = Some (VConf (Some c109_conf)).
Proof.
  assert (Hi : dmade (Some c109_inner)).
  { apply (dmade_build KMap [OPut (s_ "c") (int 2)]); [|reflexivity]. intros o c [<-|[]]; discriminate. }
  assert (Hc : dmade (Some c109_conf)).
  { apply (dmade_build KMap [OPut (s_ "b") (VConf (Some c109_inner)); OPut (s_ "a") (int 1)]); [|reflexivity].
    intros o c [<-|[<-|[]]]; [intros [= <-]; exact Hi|discriminate]. }
  split; [exact Hc|]. eexists. split.
  - apply (dmade_request (Some c109_conf) (RWith (dot "b.e") (VConf (Some c109_conf)))); [exact Hc| | |reflexivity].
    + intros c [= <-]. exact Hc.
    + intros [].
  - reflexivity.
Qed.

(* So the two builds differ: a release build copies a config with a null config
   in it (1), makes an entry with the empty name for a path without names (2),
   and puts a null config in the place of a scalar met by without_path (3),
   after which the clone of a release build is one a debug build refuses. *)
Theorem C109_builds_agree_refuted :
  (exists b, made b /\ exists b', release RClone b = Ok b' /\ drun true RClone b = Stop) /\
  (exists b p v b', release (RWith p v) b = Ok b' /\ drun true (RWith p v) b = Stop /\ b' <> b) /\
  (exists b p c, made b /\ release (RWithout p) b = Ok (Some c) /\ holed c /\ drun true (RWithout p) b = Stop /\
     drun true RClone (Some c) = Stop).
Proof.
  assert (Hc : made (Some (obj KMap [("a"%string, Some (int 1))]))).
  { apply (made_build KMap [OPut (s_ "a") (int 1)]); [|reflexivity]. intros o c [<-|[]]; discriminate. }
  split; [|split].
  - exists (Some (obj KMap [("a"%string, Some (VConf None))])). split.
    + apply (made_with None (dot "a") (VConf None)); [constructor|discriminate|reflexivity].
    + eexists. split; reflexivity.
  - exists (Some c109_conf), (dot "."), (int 5). eexists. split; [reflexivity|]. split; [reflexivity|discriminate].
  - exists (Some (obj KMap [("a"%string, Some (int 1))])), (dot "a.x"). eexists. split; [exact Hc|]. split; [reflexivity|].
    split; [|split; reflexivity]. eapply holed_here. left. reflexivity.
Qed.
Print Assumptions C109_builds_agree_refuted.
