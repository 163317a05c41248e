(* C105: actors that share a path. *)
From Coq Require Import List Bool Arith Lia.
From Verif Require Import TreeModel TreeProofs TreeRegime TreeTerm FlowModel FlowProofs FlowSim FlowTerm FlowProps TwinModel TwinSpec TwinProofs.
Import ListNotations.

Definition legal (x : naction) : Prop := forall y, x = Act y -> creates y = false.
Lemma same_steps n x : Fine n -> legal x -> option_map flow (nstep n x) = fstep (flow n) (nameless x).
Proof. intros F L. assert (S := step_same n x F L). destruct (nstep n x); simpl; symmetry; exact S. Qed.

(* C105: as long as a path is used again only when its former cell is gone, the
   actors do exactly what they would do if references named actors and not
   paths, so everything C91 says holds. *)
Theorem C105_paths_as_good_as_identities :
  forall n : nstate, careful n ->
    freachable (flow n) /\ forall x, legal x -> option_map flow (nstep n x) = fstep (flow n) (nameless x).
Proof. intros n H. destruct (careful_inv n H) as (F & _ & R). split; [exact R|]. intros x L. now apply same_steps. Qed.
Print Assumptions C105_paths_as_good_as_identities.

(* C105: then the references of two actors whose cells exist are equal only if
   they are the same actor. *)
Theorem C105_equal_references :
  forall (n : nstate) (a b : nat), careful n -> a < size (base (flow n)) -> b < size (base (flow n)) ->
    ~ cell_gone (flow n) a -> ~ cell_gone (flow n) b -> name n a = name n b -> a = b.
Proof.
  intros n a b H La Lb Ga Gb E. destruct (careful_inv n H) as (_ & U & _). destruct (Nat.lt_trichotomy a b) as [L|[L|L]]; [|exact L|].
  - destruct Ga. apply (U a b); [lia|exact E].
  - destruct Gb. apply (U b a); [lia|now symmetry].
Qed.
Print Assumptions C105_equal_references.

(* C105: and no thread touches a destroyed cell: whoever is destroyed handles
   nothing any more and has only its mailbox to close and its end to report. *)
Theorem C105_no_destroyed_cell_used :
  forall (n : nstate) (a : nat), careful n \/ orderly n ->
    ~ uses_dead n a /\
    (dead n a = true -> (forall ok, nstep n (Act (FHandle a ok)) = None) /\
       (todo (flow n) a = [EClose; ENotify] \/ (opn (nd (base (flow n)) a) = false /\ (todo (flow n) a = [ENotify] \/ todo (flow n) a = [])))).
Proof.
  intros n a H. assert (F : Fine n) by (destruct H as [H|H]; [apply (careful_inv n H)|apply (orderly_inv n H)]). split; [now apply fine_no_use|].
  intros Dd. split; [|exact (fine_dead n a F Dd)]. intros ok. cbn [nstep]. rewrite Dd. reflexivity.
Qed.
Print Assumptions C105_no_destroyed_cell_used.

(* C105: in the regime of C91 it is enough that the mailbox of the former actor
   is closed, even if its parent has not yet handled its farewell: an execution
   is one of C91, *)
Theorem C105_reuse_after_closing :
  forall n : nstate, orderly n ->
    fwell (flow n) /\ forall x, legal x -> option_map flow (nstep n x) = fstep (flow n) (nameless x).
Proof. intros n H. assert (O := orderly_inv n H). split; [apply O|]. intros x L. apply same_steps; [apply O|exact L]. Qed.
Print Assumptions C105_reuse_after_closing.

(* only actors whose post_stop has run are destroyed, *)
Theorem C105_destroyed_have_stopped :
  forall (n : nstate) (a : nat), orderly n -> dead n a = true -> stopped (nd (base (flow n)) a) = true.
Proof. intros n a H. assert (O := orderly_inv n H). apply fine_dead_stopped; [apply O|exact O]. Qed.
Print Assumptions C105_destroyed_have_stopped.

(* and shutdown completes. *)
Theorem C105_shutdown_completes :
  forall n : nstate, orderly n -> requested_shutdown (flow n) ->
    exists M, forall xs n', forallb nown xs = true -> nrun n xs = Some n' ->
      length xs <= M /\
      (nquiet n' -> (forall a, a = 0 \/ att (nd (base (flow n')) a) = true -> opn (nd (base (flow n')) a) = false /\ stopped (nd (base (flow n')) a) = true /\ told (flow n') a = true)
                    /\ shutdown_returns (flow n') = true).
Proof.
  intros n H Rq. assert (O := orderly_inv n H). assert (W : fwell (flow n)) by apply O. destruct (C91_shutdown_completes (flow n) W Rq) as [M X]. exists M. intros xs n' F R.
  destruct (orderly_run xs n n' O F R) as (O' & R' & F'). destruct (X _ _ F' R') as [L Y]. rewrite map_length in L. split; [exact L|]. intros Q.
  destruct (Y (orderly_quiet n' (proj1 O') Q)) as (Y1 & Y2 & _). auto.
Qed.
Print Assumptions C105_shutdown_completes.
Theorem C105_comes_to_rest :
  forall n : nstate, orderly n -> exists xs n', forallb nown xs = true /\ nrun n xs = Some n' /\ nquiet n'.
Proof.
  intros n H. assert (O := orderly_inv n H). assert (W : fwell (flow n)) by apply O. destruct (C91_comes_to_rest (flow n) W) as (xs & f' & F & R & Q).
  destruct (orderly_back xs n f' O F R) as (n' & X1 & X2 & X3 & X4). exists (map Act xs), n'. split; [exact X1|]. split; [exact X2|]. apply quiet_back; [apply X4|now rewrite X3].
Qed.
Print Assumptions C105_comes_to_rest.

(* C105: a watched actor tells one actor for every path whose last request was to
   watch it, and no other. *)
Theorem C105_watchers_by_path :
  forall (nm : nat -> path) (rs : list request),
    NoDup (map nm (told_of nm rs)) /\ (forall p, In p (map nm (told_of nm rs)) <-> wants nm p rs false = true) /\
    (forall w, In w (told_of nm rs) -> In (Watch w) rs).
Proof.
  intros nm rs. destruct (told_paths nm rs) as [A B]. split; [exact A|]. split; [exact B|]. intros w H. destruct (served_asked nm rs [] w H) as [[]|X]. exact X.
Qed.
Print Assumptions C105_watchers_by_path.
(* If those who ask have different paths, it tells each actor whose last request
   was to watch it, once. *)
Theorem C105_watchers :
  forall (nm : nat -> path) (rs : list request),
    (forall r r', In r rs -> In r' rs -> nm (asker r) = nm (asker r') -> asker r = asker r') ->
    NoDup (told_of nm rs) /\ forall w, In w (told_of nm rs) <-> last_watches w rs.
Proof. exact told_exactly. Qed.
Print Assumptions C105_watchers.

(* ---- examples ---- *)
Fixpoint npick (n : nstate) (l : list nat) : option naction :=
  match l with
  | [] => None
  | a :: l' => match nstep n (Act (FEmit a)) with
               | Some _ => Some (Act (FEmit a))
               | None => match nstep n (Act (FHandle a true)) with Some _ => Some (Act (FHandle a true)) | None => npick n l' end
               end
  end.
Fixpoint nsettle (k : nat) (n : nstate) (l : list nat) : list naction :=
  match k with
  | 0 => []
  | S k' => match npick n l with
            | None => []
            | Some x => match nstep n x with Some n' => x :: nsettle k' n' l | None => [] end
            end
  end.
Definition nafter (xs : list naction) : nstate := match nrun ninit xs with Some n => n | None => ninit end.
(* do x and let everybody come to rest *)
Definition also (xs : list naction) (x : naction) : list naction := let ys := xs ++ [x] in ys ++ nsettle 200 (nafter ys) (seq 0 12).
Definition all_of (xs : list naction) : list naction := fold_left also xs [].
Ltac nquieten := intros x; destruct x as [x|g0 nm0|p0 nm0]; [|intros Hx; discriminate Hx..]; destruct x as [a [|]|a|y]; intros Hx; try discriminate Hx; do 14 (destruct a as [|a]; [vm_compute; reflexivity|]); vm_compute; reflexivity.

(* the user's actor 9 with a child 1 is stopped; another 9 with another child 1
   takes its place, and the system is shut down *)
Definition ex_again : list naction :=
  all_of [NewTop 3 9; NewChild 5 1; Act (FEnv (SendStop 5)); NewTop 3 9; NewChild 7 1].
Definition ex_again_down : list naction := all_of [NewTop 3 9; NewChild 5 1; Act (FEnv (SendStop 5)); NewTop 3 9; NewChild 7 1; Act (FEnv (Shutdown true))].
Example ex_again_names : let n := nafter ex_again in
  map (name n) (seq 5 4) = [[9; 3]; [1; 9; 3]; [9; 3]; [1; 9; 3]] /\ map (dead n) (seq 5 4) = [true; true; false; false] /\
  map (fun a => stopped (nd (base (flow n)) a)) (seq 5 4) = [true; true; false; false] /\ kids (nd (base (flow n)) 3) = [7] /\ kids (nd (base (flow n)) 7) = [8].
Proof. vm_compute. repeat split. Qed.

(* deciding the regimes, for the examples *)
Definition ok_reuse (P : fstate -> nat -> bool) (n : nstate) (x : naction) : bool :=
  match gives n x with
  | None => true
  | Some p => forallb (fun b => negb (same_path (name n b) p) || P (flow n) b) (seq 0 (size (base (flow n))))
  end.
Definition ok_gone (f : fstate) (b : nat) : bool :=
  (gone (nd (base f) b) || att (nd (base f) b)) && forallb (fun a => negb (existsb (Nat.eqb b) (kids (nd (base f) a)))) (seq 0 (size (base f))).
Definition ok_closed (f : fstate) (b : nat) : bool := negb (opn (nd (base f) b)).
Definition ok_stopped (f : fstate) (b : nat) : bool := stopped (nd (base f) b).
Definition ok_behaved (n : nstate) (x : naction) : bool :=
  match x with
  | Act (FHandle _ ok) => ok
  | Act (FEnv (SendStop a)) => (a =? 0) || att (nd (base (flow n)) a)
  | _ => true
  end.
Fixpoint ok_run (P : nstate -> naction -> bool) (n : nstate) (xs : list naction) : bool :=
  match xs with
  | [] => true
  | x :: t => P n x && match nstep n x with None => true | Some n' => ok_run P n' t end
  end.
Lemma ok_reuse_sound (P : fstate -> nat -> bool) (Q : fstate -> nat -> Prop) n x : (forall b, P (flow n) b = true -> Q (flow n) b) -> ok_reuse P n x = true -> reuses Q n x.
Proof.
  unfold ok_reuse, reuses. destruct (gives n x); [|auto]. intros S H b L E. rewrite forallb_forall in H. assert (X := H b ltac:(apply in_seq; lia)). rewrite E, same_path_refl in X. now apply S.
Qed.
Lemma ok_behaved_sound n x : ok_behaved n x = true -> nbehaved n x.
Proof.
  destruct x as [[a ok|a|y]|g nm|p nm]; simpl; auto. destruct y; simpl; auto. intros H. apply orb_true_iff in H. rewrite Nat.eqb_eq in H. exact H.
Qed.
Lemma ok_run_sound (P : nstate -> naction -> bool) (Q : nstate -> naction -> Prop) : (forall n x, P n x = true -> Q n x) -> forall xs n, ok_run P n xs = true -> all_along Q n xs.
Proof.
  intros S. induction xs as [|x xs IH]; intros n H; simpl in *; [exact I|]. apply andb_true_iff in H. destruct H as [H1 H2]. split; [auto|]. destruct (nstep n x); auto.
Qed.
Definition ok_orderly (n : nstate) (x : naction) : bool := ok_behaved n x && ok_reuse ok_closed n x.
Definition ok_hasty (n : nstate) (x : naction) : bool := ok_behaved n x && ok_reuse ok_stopped n x.
Lemma ok_orderly_sound n x : ok_orderly n x = true -> both nbehaved (reuses mailbox_closed) n x.
Proof.
  intros H. apply andb_true_iff in H. destruct H as [H1 H2]. split; [now apply ok_behaved_sound|]. revert H2. apply ok_reuse_sound. intros b H. now apply negb_true_iff in H.
Qed.
Lemma ok_hasty_sound n x : ok_hasty n x = true -> both nbehaved (reuses post_stop_ran) n x.
Proof. intros H. apply andb_true_iff in H. destruct H as [H1 H2]. split; [now apply ok_behaved_sound|]. revert H2. apply ok_reuse_sound. auto. Qed.
Lemma ok_gone_sound f b : Known f -> ok_gone f b = true -> cell_gone f b.
Proof.
  intros (s & (R & Sn & C) & _) H. apply andb_true_iff in H. destruct H as [H1 H2]. split; [now apply orb_true_iff|]. intros a I. rewrite forallb_forall in H2.
  destruct (Nat.lt_ge_cases a (size (base f))) as [L|L]; [|rewrite (n_gone _ Sn a L) in I; destruct I].
  assert (X := H2 a ltac:(apply in_seq; lia)). apply negb_true_iff in X. assert (Y : existsb (Nat.eqb b) (kids (nd (base f) a)) = true) by (apply existsb_exists; exists b; split; [exact I|apply Nat.eqb_refl]). congruence.
Qed.
Lemma ok_careful_sound xs : forall n, Fine n -> ok_run (ok_reuse ok_gone) n xs = true -> all_along (reuses cell_gone) n xs.
Proof.
  induction xs as [|x xs IH]; intros n F H; simpl in *; [exact I|]. apply andb_true_iff in H. destruct H as [H1 H2].
  assert (R : reuses cell_gone n x) by (revert H1; apply ok_reuse_sound; intros b; apply ok_gone_sound, F). split; [exact R|]. destruct (nstep n x) as [n'|] eqn:E; [|exact I]. apply IH; [|exact H2].
  eapply fine_step; [exact F|apply reuses_frees, R|exact E].
Qed.
Lemma is_careful xs n : nrun ninit xs = Some n -> ok_run (ok_reuse ok_gone) ninit xs = true -> careful n.
Proof. intros H1 H2. exists xs. split; [apply ok_careful_sound; [apply fine_init|exact H2]|exact H1]. Qed.
Lemma is_orderly xs n : nrun ninit xs = Some n -> ok_run ok_orderly ninit xs = true -> orderly n.
Proof. intros H1 H2. exists xs. split; [apply (ok_run_sound ok_orderly); [apply ok_orderly_sound|exact H2]|exact H1]. Qed.
Lemma is_behaving xs n : nrun ninit xs = Some n -> ok_run ok_behaved ninit xs = true -> behaving n.
Proof. intros H1 H2. exists xs. split; [apply (ok_run_sound ok_behaved); [apply ok_behaved_sound|exact H2]|exact H1]. Qed.

Example C105_example :
  exists n, careful n /\ orderly n /\ name n 5 = name n 7 /\ dead n 5 = true /\ stopped (nd (base (flow n)) 7) = false /\
    kids (nd (base (flow n)) 3) = [7] /\ kids (nd (base (flow n)) 7) = [8] /\ ~ cell_gone (flow n) 7.
Proof.
  eexists. split; [apply (is_careful ex_again); vm_compute; reflexivity|]. split; [apply (is_orderly ex_again); vm_compute; reflexivity|].
  split; [vm_compute; reflexivity|]. split; [vm_compute; reflexivity|]. split; [vm_compute; reflexivity|]. split; [vm_compute; reflexivity|]. split; [vm_compute; reflexivity|].
  intros [_ G]. apply (G 3). vm_compute. auto.
Qed.
Example C105_example_down :
  exists n, careful n /\ orderly n /\ requested_shutdown (flow n) /\ nquiet n /\ shutdown_returns (flow n) = true /\ map (fun a => stopped (nd (base (flow n)) a)) (seq 0 9) = repeat true 9.
Proof.
  eexists. split; [apply (is_careful ex_again_down); vm_compute; reflexivity|]. split; [apply (is_orderly ex_again_down); vm_compute; reflexivity|].
  split; [vm_compute; reflexivity|]. split; [nquieten|]. split; vm_compute; reflexivity.
Qed.
(* the second 9 exists while the guardian still has the cell of the first: the
   first has closed its mailbox and its farewell is waiting *)
Definition A (x : faction) : naction := Act x.
Definition ex_soon : list naction :=
  all_of [NewTop 3 9] ++ [A (FEnv (SendStop 5)); A (FHandle 5 true); A (FEmit 5); A (FEmit 5); NewTop 3 9].
Example C105_example_soon :
  exists n, orderly n /\ name n 5 = name n 6 /\ dead n 5 = false /\ kids (nd (base (flow n)) 3) = [5] /\ sysq (nd (base (flow n)) 3) = [SDetach 5] /\
    usrq (nd (base (flow n)) 0) = [UAdd 3 6].
Proof. eexists. split; [apply (is_orderly ex_soon); vm_compute; reflexivity|]. vm_compute. repeat split. Qed.

(* ---- what goes wrong ---- *)
(* C105: of two living children with the same path the older is destroyed when
   the younger stops: it is in the middle of its life, its post_stop will not
   run, and the messages waiting for it are never handled. *)
Definition ex_twins : list naction := all_of [NewTop 3 9; NewTop 3 9] ++ [A (FEnv (SendUser 5 false))] ++ [A (FEnv (SendStop 6)); A (FHandle 6 true); A (FEmit 6); A (FEmit 6); A (FEmit 6); A (FHandle 3 true)].
Theorem C105_living_twin_destroyed_refuted :
  exists n, behaving n /\ dead n 5 = true /\ stopped (nd (base (flow n)) 5) = false /\ started (nd (base (flow n)) 5) = true /\ opn (nd (base (flow n)) 5) = true /\
    usrq (nd (base (flow n)) 5) = [UOther] /\ uses_dead n 5 /\
    stopped (nd (base (flow n)) 6) = true /\ kids (nd (base (flow n)) 3) = [6].
Proof.
  eexists. split; [apply (is_behaving ex_twins); vm_compute; reflexivity|]. split; [vm_compute; reflexivity|]. split; [vm_compute; reflexivity|]. split; [vm_compute; reflexivity|].
  split; [vm_compute; reflexivity|]. split; [vm_compute; reflexivity|]. split; [|split; vm_compute; reflexivity].
  split; [vm_compute; reflexivity|]. left. exists true. eexists. vm_compute. reflexivity.
Qed.
Print Assumptions C105_living_twin_destroyed_refuted.
(* with everything below it *)
Definition ex_twins_deep : list naction := all_of [NewTop 3 9; NewChild 5 1; NewChild 6 2; NewTop 3 9; A (FEnv (SendStop 8))].
Theorem C105_living_subtree_destroyed_refuted :
  exists n, behaving n /\ map (dead n) [5; 6; 7; 8] = [true; true; true; false] /\ map (fun a => stopped (nd (base (flow n)) a)) [5; 6; 7; 8] = [false; false; false; true].
Proof. eexists. split; [apply (is_behaving ex_twins_deep); vm_compute; reflexivity|]. vm_compute. split; reflexivity. Qed.
Print Assumptions C105_living_subtree_destroyed_refuted.

(* C105: after that shutdown() never returns: the guardian poisons the cell that
   is left, whose actor has gone, and waits. *)
Definition ex_hang : list naction := all_of [NewTop 3 9; NewTop 3 9; A (FEnv (SendStop 6)); A (FEnv (Shutdown true))].
Theorem C105_twins_hang_refuted :
  exists n, behaving n /\ requested_shutdown (flow n) /\ nquiet n /\ shutdown_returns (flow n) = false /\ opn (nd (base (flow n)) 3) = true /\ kids (nd (base (flow n)) 3) = [6] /\
    opn (nd (base (flow n)) 6) = false.
Proof.
  eexists. split; [apply (is_behaving ex_hang); vm_compute; reflexivity|]. split; [vm_compute; reflexivity|]. split; [nquieten|]. vm_compute. repeat split.
Qed.
Print Assumptions C105_twins_hang_refuted.

(* C105: that post_stop of the former actor has run - which is when it tells its
   watchers - is not enough: if the new actor of that path stops before the old
   one has sent its farewell, the old cell is destroyed under its own thread. *)
Definition ex_hasty : list naction :=
  all_of [NewTop 3 9] ++ [A (FEnv (SendStop 5)); A (FHandle 5 true); NewTop 3 9; A (FHandle 0 true); A (FEmit 0); A (FHandle 3 true); A (FEmit 3); A (FHandle 6 true);
                          A (FEnv (SendStop 6)); A (FHandle 6 true); A (FEmit 6); A (FHandle 3 true)].
Theorem C105_reuse_after_post_stop_refuted :
  exists xs n, all_along (both nbehaved (reuses post_stop_ran)) ninit xs /\ nrun ninit xs = Some n /\ uses_dead n 5 /\ todo (flow n) 5 = [ESys 3 (SDetach 5); EClose; ENotify].
Proof.
  exists ex_hasty. eexists. split; [apply (ok_run_sound ok_hasty); [apply ok_hasty_sound|vm_compute; reflexivity]|]. split; [vm_compute; reflexivity|]. split; [|vm_compute; reflexivity].
  split; [vm_compute; reflexivity|]. right. left. exists 3, (SDetach 5), [EClose; ENotify]. vm_compute. reflexivity.
Qed.
Print Assumptions C105_reuse_after_post_stop_refuted.

(* C105: an actor whose path is that of a former watcher asks to watch and is
   not told; the dead one is. *)
Definition ex_paths (a : nat) : path := match a with 5 | 6 => [9; 3] | _ => [a; 3] end.
Example C105_watchers_example : told_of ex_paths [Watch 5; Watch 7; Unwatch 5; Watch 5; Watch 8; Unwatch 8; Watch 7] = [7; 5].
Proof. reflexivity. Qed.
Theorem C105_watcher_twin_refuted :
  exists nm rs w, last_watches w rs /\ ~ In w (told_of nm rs) /\ exists v, v <> w /\ In v (told_of nm rs).
Proof.
  exists ex_paths, [Watch 5; Watch 6], 6. split; [exists [Watch 5], []; split; [reflexivity|intros r []]|]. split; [vm_compute; lia|]. exists 5. split; [lia|vm_compute; auto].
Qed.
Print Assumptions C105_watcher_twin_refuted.
(* and taking its own request back takes back that of its twin *)
Theorem C105_unwatch_twin_refuted :
  exists nm rs w, last_watches w rs /\ ~ In w (told_of nm rs) /\ told_of nm rs = [].
Proof.
  exists ex_paths, [Watch 5; Unwatch 6], 5. split; [exists [], [Unwatch 6]; split; [reflexivity|intros r [<-|[]]; simpl; lia]|]. split; [vm_compute; lia|reflexivity].
Qed.
Print Assumptions C105_unwatch_twin_refuted.
