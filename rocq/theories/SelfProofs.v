(* Proofs about SelfModel. *)
From Coq Require Import List Bool Arith Lia.
From Verif Require Import SelfModel SelfSpec.
Import ListNotations.

Lemma where_app (l : list event) (e : event) : where_ (l ++ [e]) = move (where_ l) e.
Proof. unfold where_. now rewrite fold_left_app. Qed.
Lemma count_app (p : event -> bool) (l m : list event) : count p (l ++ m) = count p l + count p m.
Proof. induction l as [|x l IH]; [reflexivity|]. cbn [count app]. rewrite IH. lia. Qed.

Definition phase_of (w : place) : life_phase :=
  match w with InConstructor => Building | InDestructor => Dead | _ => Alive end.
Definition sender_of (w : place) : option nat := match w with InReceive _ f => Some f | _ => None end.
Definition runner_ok (w : place) (c : consumer) : Prop :=
  match w with InReceive d _ => c = d | Between => True | _ => c = Own end.

Record Inv (s : state) : Prop := {
  I_ph : ph s = phase_of (where_ (trace s));
  I_snd : snd s = sender_of (where_ (trace s));
  I_run : runner_ok (where_ (trace s)) (running s);
  I_len : count pushes (trace s) = length (stack s) + count pops (trace s);
  I_top : forall k, latest k (rev (trace s)) = nth_error (stack s) k;
  I_dead : forall n, In n (dead s) <-> destroyed n (trace s);
  I_own : where_ (trace s) <> InConstructor -> stack s <> []
}.

Lemma inv_depth (s : state) : Inv s -> depth (trace s) = length (stack s).
Proof. intros H. unfold depth. rewrite (I_len _ H). lia. Qed.

Lemma inv_force (s : state) : Inv s -> in_force (trace s) = hd_error (stack s).
Proof. intros H. unfold in_force. rewrite (I_top _ H). now destruct (stack s). Qed.

Lemma dead_in (s : state) (n : nat) : existsb (Nat.eqb n) (dead s) = true <-> In n (dead s).
Proof.
  rewrite existsb_exists. split.
  - intros (x & Hx & E). apply Nat.eqb_eq in E. now subst x.
  - intros H. exists n. split; [exact H|apply Nat.eqb_refl].
Qed.

Lemma gone_iff (s : state) (c : consumer) : Inv s ->
  (gone s c = true <-> exists n, c = Obj n /\ destroyed n (trace s)).
Proof.
  intros H. destruct c as [|n]; cbn [gone].
  - split; [discriminate|]. intros (n & E & _). discriminate.
  - rewrite dead_in, (I_dead _ H). split.
    + intros D. now exists n.
    + intros (m & E & D). injection E as ->. exact D.
Qed.

(* code runs in these places *)
Definition busy (w : place) : Prop := w <> Between.

Lemma orphan_iff (s : state) : Inv s -> busy (where_ (trace s)) ->
  (gone s (running s) = true <-> orphan (trace s)).
Proof.
  intros H B. rewrite (gone_iff _ _ H). unfold orphan. pose proof (I_run _ H) as R.
  destruct (where_ (trace s)) as [|c f| | |] eqn:W; cbn [runner_ok] in R.
  - rewrite R. split; [intros (n & E & _); discriminate|intros (n & f & E & _); discriminate].
  - rewrite R. split.
    + intros (n & -> & D). now exists n, f.
    + intros (n & g & E & D). injection E as -> ->. now exists n.
  - rewrite R. split; [intros (n & E & _); discriminate|intros (n & f & E & _); discriminate].
  - now contradiction B.
  - rewrite R. split; [intros (n & E & _); discriminate|intros (n & f & E & _); discriminate].
Qed.

Section Self.
Variable me : nat.

Definition right_answer (past : list event) (o : op) (v : outcome) : Prop :=
  ((orphan past \/ deletes_again o past) /\ v = Undefined) \/
  (~ orphan past /\ ~ deletes_again o past /\
   v = table me (where_ past) (depth past) (in_force past) o).

Lemma ask_right (s : state) (o : op) : Inv s -> busy (where_ (trace s)) ->
  right_answer (trace s) o (Datatypes.snd (ask me s o)).
Proof.
  intros H B. unfold right_answer. pose proof (orphan_iff s H B) as OI.
  unfold ask. destruct (gone s (running s)) eqn:G.
  { left. split; [left; now apply OI|reflexivity]. }
  assert (NO : ~ orphan (trace s)) by (intros X; apply OI in X; discriminate).
  assert (ND : (forall n, o <> ODelete n) -> ~ deletes_again o (trace s)).
  { intros X (n & E & _). now apply (X n). }
  rewrite (inv_depth _ H), (inv_force _ H).
  pose proof (I_ph _ H) as P. pose proof (I_snd _ H) as S. clear OI.
  unfold context, log_noexcept, log_here.
  destruct o as [| | |w|w|n|[b|] [|]| | |t|n]; cbn [table].
  all: try (right; split; [exact NO|split; [apply ND; discriminate|]]).
  all: try (rewrite P; destruct (where_ (trace s)); reflexivity).
  all: try (rewrite S; destruct (where_ (trace s)); reflexivity).
  - destruct (stack s) as [|x t]; [reflexivity|]. reflexivity.
  - reflexivity.
  - destruct (stack s) as [|x [|y t]]; cbn [Datatypes.snd length Nat.leb hd_error]; [| |reflexivity];
      rewrite P; destruct (where_ (trace s)); reflexivity.
  - destruct (existsb (Nat.eqb n) (dead s)) eqn:E.
    + left. split; [right|reflexivity]. exists n. split; [reflexivity|]. apply (I_dead _ H). now apply dead_in.
    + right. split; [exact NO|]. split; [|reflexivity].
      intros (m & Em & D). injection Em as <-. apply (I_dead _ H) in D. apply dead_in in D. congruence.
Qed.

Lemma ask_trace (s : state) (o : op) : trace (Datatypes.fst (ask me s o)) = trace s.
Proof.
  unfold ask. destruct (gone s (running s)); [reflexivity|].
  destruct o as [| | |w|w|n|[b|] [|]| | |t|n]; try reflexivity.
  - now destruct (stack s).
  - now destruct (stack s) as [|x [|y t]].
  - now destruct (SelfModel.snd s).
  - now destruct (SelfModel.snd s).
  - now destruct (existsb (Nat.eqb n) (dead s)).
Qed.

(* an event that leaves everything of the past but the place as it is *)
Lemma inv_same (s : state) (e : event) :
  Inv s -> pushes e = false -> pops e = false ->
  (forall k back, latest k (e :: back) = latest k back) ->
  (forall n, e <> Did (ODelete n) (Value Nothing)) ->
  move (where_ (trace s)) e = where_ (trace s) ->
  Inv (log_event s e).
Proof.
  intros H P Q L D M. constructor; cbn [log_event ph stack snd dead running trace].
  - rewrite where_app, M. apply (I_ph _ H).
  - rewrite where_app, M. apply (I_snd _ H).
  - rewrite where_app, M. apply (I_run _ H).
  - rewrite !count_app. cbn [count]. rewrite P, Q. pose proof (I_len _ H). lia.
  - intros k. rewrite rev_app_distr. cbn [rev app]. rewrite L. apply (I_top _ H).
  - intros n. unfold destroyed. rewrite in_app_iff. cbn [In]. rewrite (I_dead _ H n). unfold destroyed.
    split; [now left|]. intros [X|[X|[]]]; [exact X|]. now contradiction (D n).
  - rewrite where_app, M. apply (I_own _ H).
Qed.

Lemma ask_inv (s : state) (o : op) (s1 : state) (v : outcome) : Inv s -> busy (where_ (trace s)) ->
  ask me s o = (s1, v) -> Inv (log_event s1 (Did o v)) /\ where_ (trace s1 ++ [Did o v]) = where_ (trace s).
Proof.
  intros H B E.
  assert (T : trace s1 = trace s) by (rewrite <- (ask_trace s o), E; reflexivity).
  split; [|rewrite where_app, T; reflexivity].
  unfold ask in E. destruct (gone s (running s)).
  { injection E as <- <-. apply inv_same; try reflexivity; try exact H.
    - destruct o as [| | |w|w|n|[b|] [|]| | |t|n]; reflexivity.
    - destruct o as [| | |w|w|n|[b|] [|]| | |t|n]; reflexivity.
    - intros k back. destruct o as [| | |w|w|n|[b|] [|]| | |t|n]; reflexivity.
    - discriminate. }
  destruct o as [| | |w|w|n|[b|] d| | |t|n].
  - injection E as <- <-. apply inv_same; try reflexivity; try exact H; discriminate.
  - injection E as <- <-. apply inv_same; try reflexivity; try exact H; discriminate.
  - injection E as <- <-. apply inv_same; try reflexivity; try exact H; discriminate.
  - injection E as <- <-. apply inv_same; try reflexivity; try exact H; discriminate.
  - injection E as <- <-. apply inv_same; try reflexivity; try exact H; discriminate.
  - injection E as <- <-. apply inv_same; try reflexivity; try exact H; discriminate.
  - destruct d.
    + destruct (stack s) as [|x st] eqn:Es; injection E as <- <-.
      { apply inv_same; try reflexivity; try exact H; discriminate. }
      constructor; cbn [log_event with_stack ph stack snd dead running trace].
      * rewrite where_app. apply (I_ph _ H).
      * rewrite where_app. apply (I_snd _ H).
      * rewrite where_app. apply (I_run _ H).
      * rewrite !count_app. cbn [count pushes pops]. pose proof (I_len _ H) as X. rewrite Es in X. cbn [length] in *. lia.
      * intros k. rewrite rev_app_distr. cbn [rev app latest]. destruct k as [|k]; [reflexivity|].
        rewrite (I_top _ H), Es. reflexivity.
      * intros n. unfold destroyed. rewrite in_app_iff. cbn [In]. rewrite (I_dead _ H n).
        split; [now left|]. intros [X|[X|[]]]; [exact X|discriminate].
      * intros _. discriminate.
    + injection E as <- <-. constructor; cbn [log_event with_stack ph stack snd dead running trace].
      * rewrite where_app. apply (I_ph _ H).
      * rewrite where_app. apply (I_snd _ H).
      * rewrite where_app. apply (I_run _ H).
      * rewrite !count_app. cbn [count pushes pops]. pose proof (I_len _ H) as X. cbn [length] in *. lia.
      * intros k. rewrite rev_app_distr. cbn [rev app latest]. destruct k as [|k]; [reflexivity|].
        rewrite (I_top _ H). reflexivity.
      * intros n. unfold destroyed. rewrite in_app_iff. cbn [In]. rewrite (I_dead _ H n).
        split; [now left|]. intros [X|[X|[]]]; [exact X|discriminate].
      * intros _. discriminate.
  - injection E as <- <-. apply inv_same; try reflexivity; try exact H; discriminate.
  - assert (Lg : Inv (log_event s (Did OUnbecome (log_noexcept s)))).
    { assert (X : pops (Did OUnbecome (log_noexcept s)) = false)
        by (unfold log_noexcept, log_here; now destruct (ph s)).
      apply inv_same; try reflexivity; try exact H; try exact X; try discriminate.
      intros k back. unfold log_noexcept, log_here. now destruct (ph s). }
    destruct (stack s) as [|x [|y st]] eqn:Es; injection E as <- <-; [exact Lg|exact Lg|].
    constructor; cbn [log_event with_stack ph stack snd dead running trace].
    + rewrite where_app. apply (I_ph _ H).
    + rewrite where_app. apply (I_snd _ H).
    + rewrite where_app. apply (I_run _ H).
    + rewrite !count_app. cbn [count pushes pops]. pose proof (I_len _ H) as X. rewrite Es in X. cbn [length] in *. lia.
    + intros k. rewrite rev_app_distr. cbn [rev app latest]. rewrite (I_top _ H), Es. reflexivity.
    + intros n. unfold destroyed. rewrite in_app_iff. cbn [In]. rewrite (I_dead _ H n).
      split; [now left|]. intros [X|[X|[]]]; [exact X|discriminate].
    + intros _. discriminate.
  - destruct (SelfModel.snd s); injection E as <- <-; apply inv_same; try reflexivity; try exact H; discriminate.
  - destruct (SelfModel.snd s); injection E as <- <-; apply inv_same; try reflexivity; try exact H; discriminate.
  - destruct (existsb (Nat.eqb n) (dead s)) eqn:X; injection E as <- <-.
    { apply inv_same; try reflexivity; try exact H; discriminate. }
    constructor; cbn [log_event ph stack snd dead running trace].
    + rewrite where_app. apply (I_ph _ H).
    + rewrite where_app. apply (I_snd _ H).
    + rewrite where_app. apply (I_run _ H).
    + rewrite !count_app. cbn [count pushes pops]. pose proof (I_len _ H). lia.
    + intros k. rewrite rev_app_distr. cbn [rev app latest]. apply (I_top _ H).
    + intros m. unfold destroyed. rewrite in_app_iff. cbn [In]. rewrite (I_dead _ H m). unfold destroyed.
      split.
      * intros [->|Y]; [right; now left|now left].
      * intros [Y|[Y|[]]]; [now right|left; congruence].
    + rewrite where_app. apply (I_own _ H).
Qed.

(* ---- the trace is right ---- *)
Definition right_event (past : list event) (e : event) : Prop :=
  match e with
  | Did o v => where_ past <> Between /\ right_answer past o v
  | Called c f => where_ past = Between /\ in_force past = Some c /\ forall n, c = Obj n -> ~ destroyed n past
  | CalledDead n => where_ past = Between /\ in_force past = Some (Obj n) /\ destroyed n past
  | NoTop => False
  | Hook | Poisoned | Dying => where_ past = Between
  | Born | NoCell => where_ past = InConstructor
  | Ended _ => where_ past = InHook \/ exists c f, where_ past = InReceive c f
  | Freed _ => where_ past = InDestructor
  end.

Definition Right (tr : list event) : Prop :=
  forall pre e post, tr = pre ++ e :: post -> right_event pre e /\ (fatal e = true -> post = []).
Definition Quiet (tr : list event) : Prop := forallb (fun e => negb (fatal e)) tr = true.

Lemma quiet_app (l : list event) (e : event) : Quiet l -> fatal e = false -> Quiet (l ++ [e]).
Proof. unfold Quiet. intros H F. rewrite forallb_app, H. cbn. now rewrite F. Qed.

Lemma quiet_in (l : list event) (e : event) : Quiet l -> In e l -> fatal e = false.
Proof.
  intros H I. pose proof (proj1 (forallb_forall _ _) H e I) as X. cbv beta in X. now destruct (fatal e).
Qed.

Lemma snoc_split (A : Type) (l : list A) (x : A) (pre : list A) (e : A) (post : list A) :
  l ++ [x] = pre ++ e :: post ->
  (post = [] /\ pre = l /\ e = x) \/ (exists post', post = post' ++ [x] /\ l = pre ++ e :: post').
Proof.
  destruct post as [|y post] using rev_ind.
  - intros E. apply app_inj_tail in E as [-> ->]. now left.
  - intros E. right. exists post. rewrite app_comm_cons, app_assoc in E. apply app_inj_tail in E as [-> ->]. now split.
Qed.

Lemma right_snoc (l : list event) (e : event) : Right l -> Quiet l -> right_event l e -> Right (l ++ [e]).
Proof.
  intros H Q R pre x post E. apply snoc_split in E as [(-> & -> & ->)|(post' & -> & E)].
  - now split.
  - destruct (H pre x post' E) as [A B]. split; [exact A|]. intros F. rewrite E in Q.
    rewrite (quiet_in _ _ Q (in_elt x pre post')) in F. discriminate.
Qed.

Definition Good (s : state) : Prop := Inv s /\ Right (trace s) /\ Quiet (trace s).
(* the program is over *)
Definition Over (s : state) : Prop := Right (trace s) /\ exists l e, trace s = l ++ [e] /\ Quiet l /\ fatal e = true.

Lemma exec_good (p : prog) : forall s, Good s -> busy (where_ (trace s)) ->
  match exec me s p with
  | Left_ s' _ => Good s' /\ where_ (trace s') = where_ (trace s)
  | Stop s' => Over s'
  end.
Proof.
  induction p as [| |o k IH]; intros s G B; cbn [exec]; [now split|now split|].
  destruct G as (H & R & Q). destruct (ask me s o) as [s1 v] eqn:E.
  destruct (ask_inv s o s1 v H B E) as [H1 W].
  assert (T : trace s1 = trace s) by (rewrite <- (ask_trace s o), E; reflexivity).
  assert (RE : right_event (trace s) (Did o v)).
  { split; [exact B|]. pose proof (ask_right s o H B) as X. now rewrite E in X. }
  assert (R1 : Right (trace s ++ [Did o v])) by now apply right_snoc.
  destruct (ends v) eqn:Ev.
  - split; cbn [log_event trace]; rewrite T; [exact R1|]. exists (trace s), (Did o v).
    split; [reflexivity|]. split; [exact Q|]. destruct v; try discriminate Ev; reflexivity.
  - assert (G1 : Good (log_event s1 (Did o v))).
    { split; [exact H1|]. cbn [log_event trace]. rewrite T. split; [exact R1|]. apply quiet_app; [exact Q|].
      destruct v; try discriminate Ev; reflexivity. }
    specialize (IH v (log_event s1 (Did o v)) G1). cbn [log_event trace] in IH. rewrite W in IH.
    specialize (IH B). cbn [log_event trace] in IH. exact IH.
Qed.

(* the places between which the turns move *)
Lemma inv_move (s : state) (f : option nat) (c : consumer) (e : event) (q : life_phase) :
  Inv s -> where_ (trace s) <> InConstructor ->
  pushes e = false -> pops e = false -> (forall k back, latest k (e :: back) = latest k back) ->
  (forall n, e <> Did (ODelete n) (Value Nothing)) ->
  q = phase_of (move (where_ (trace s)) e) -> f = sender_of (move (where_ (trace s)) e) ->
  runner_ok (move (where_ (trace s)) e) c ->
  Inv (State q (stack s) f (dead s) c (trace s ++ [e])).
Proof.
  intros H N P Q L D Eq Ef Ec. constructor; cbn [ph stack snd dead running trace].
  - now rewrite where_app.
  - now rewrite where_app.
  - now rewrite where_app.
  - rewrite !count_app. cbn [count]. rewrite P, Q. pose proof (I_len _ H). lia.
  - intros k. rewrite rev_app_distr. cbn [rev app]. rewrite L. apply (I_top _ H).
  - intros n. unfold destroyed. rewrite in_app_iff. cbn [In]. rewrite (I_dead _ H n). unfold destroyed.
    split; [now left|]. intros [X|[X|[]]]; [exact X|]. now contradiction (D n).
  - intros _. now apply (I_own _ H).
Qed.

Lemma take_good (t : turn) (s : state) : Good s -> where_ (trace s) = Between ->
  match take me s t with
  | Left_ s' _ => Good s' /\ where_ (trace s') = Between
  | Stop s' => Over s'
  end.
Proof.
  intros G W. pose proof G as (H & R & Q).
  assert (NC : where_ (trace s) <> InConstructor) by (rewrite W; discriminate).
  assert (Ph : ph s = Alive) by (rewrite (I_ph _ H), W; reflexivity).
  assert (Sn : SelfModel.snd s = None) by (rewrite (I_snd _ H), W; reflexivity).
  destruct t as [p|f code|]; cbn [take].
  - assert (G1 : Good (set_turn s (SelfModel.snd s) Own Hook)).
    { split.
      - apply inv_move; try reflexivity; try exact H; try exact NC; try discriminate; [now rewrite Ph|exact Sn].
      - split; [apply right_snoc; [exact R|exact Q|exact W]|now apply quiet_app]. }
    assert (W1 : where_ (trace (set_turn s (SelfModel.snd s) Own Hook)) = InHook)
      by (cbn [set_turn trace]; now rewrite where_app).
    assert (B1 : busy (where_ (trace (set_turn s (SelfModel.snd s) Own Hook)))) by (rewrite W1; discriminate).
    pose proof (exec_good p _ G1 B1) as X.
    destruct (exec me (set_turn s (SelfModel.snd s) Own Hook) p) as [s' threw|s']; [|exact X].
    destruct X as [(H' & R' & Q') W']. rewrite W1 in W'. split.
    + split; [|split].
      * assert (Y : Inv (State Alive (stack s') None (dead s') (running s') (trace s' ++ [Ended threw]))).
        { apply inv_move; try reflexivity; try exact H'; try discriminate. now rewrite W'. }
        assert (P' : ph s' = Alive) by (rewrite (I_ph _ H'), W'; reflexivity).
        assert (S' : SelfModel.snd s' = None) by (rewrite (I_snd _ H'), W'; reflexivity).
        unfold log_event. rewrite P', S'. exact Y.
      * apply right_snoc; [exact R'|exact Q'|]. left. exact W'.
      * now apply quiet_app.
    + cbn [log_event trace]. now rewrite where_app.
  - pose proof (I_own _ H NC) as NE. destruct (stack s) as [|c st] eqn:Es; [congruence|].
    assert (F : in_force (trace s) = Some c) by (rewrite (inv_force _ H), Es; reflexivity).
    pose proof (gone_iff s c H) as Gi. destruct (gone s c).
    + destruct (proj1 Gi eq_refl) as (n & -> & D). split; cbn [log_event trace].
      * apply right_snoc; [exact R|exact Q|]. split; [exact W|]. now split.
      * exists (trace s), (CalledDead n). now repeat split.
    + assert (ND : forall n, c = Obj n -> ~ destroyed n (trace s)).
      { intros n -> D. assert (X : false = true) by (apply Gi; now exists n). discriminate. }
      assert (G1 : Good (set_turn s (Some f) c (Called c f))).
      { split.
        - apply inv_move; try reflexivity; try exact H; try exact NC; try discriminate. now rewrite Ph.
        - split; [apply right_snoc; [exact R|exact Q|now repeat split]|now apply quiet_app]. }
      assert (W1 : where_ (trace (set_turn s (Some f) c (Called c f))) = InReceive c f)
        by (cbn [set_turn trace]; now rewrite where_app).
      assert (B1 : busy (where_ (trace (set_turn s (Some f) c (Called c f))))) by (rewrite W1; discriminate).
      pose proof (exec_good (code c) _ G1 B1) as X.
      destruct (exec me (set_turn s (Some f) c (Called c f)) (code c)) as [s' threw|s']; [|exact X].
      destruct X as [(H' & R' & Q') W']. rewrite W1 in W'. split.
      * split; [|split].
        -- apply inv_move; try reflexivity; try exact H'; try discriminate; [now rewrite W'|].
           rewrite (I_ph _ H'), W'. reflexivity.
        -- apply right_snoc; [exact R'|exact Q'|]. right. now exists c, f.
        -- now apply quiet_app.
      * cbn [trace]. now rewrite where_app.
  - split.
    + split; [|split].
      * apply inv_same; try reflexivity; try exact H; discriminate.
      * apply right_snoc; [exact R|exact Q|exact W].
      * now apply quiet_app.
    + cbn [log_event trace]. rewrite where_app. exact W.
Qed.

Lemma take_all_good (ts : list turn) : forall s, Good s -> where_ (trace s) = Between ->
  match take_all me s ts with
  | Left_ s' _ => Good s' /\ where_ (trace s') = Between
  | Stop s' => Over s'
  end.
Proof.
  induction ts as [|t ts IH]; intros s G W; cbn [take_all]; [now split|].
  pose proof (take_good t s G W) as X. destruct (take me s t) as [s' b|s']; [|exact X].
  destruct X as [G' W']. now apply IH.
Qed.

Lemma unborn_good : Good unborn.
Proof.
  split; [|split].
  - constructor; cbn; try reflexivity; try tauto; try easy. intros [|k]; reflexivity.
  - intros pre e post E. cbn in E. destruct pre; discriminate.
  - reflexivity.
Qed.

Lemma build_good (p : prog) :
  match build me p with
  | Left_ s' _ => Good s' /\ where_ (trace s') = Between
  | Stop s' => Over s'
  end.
Proof.
  unfold build. pose proof (exec_good p unborn unborn_good ltac:(discriminate)) as X.
  destruct (exec me unborn p) as [s' threw|s']; [|exact X]. destruct X as [(H & R & Q) W].
  change (where_ (trace unborn)) with InConstructor in W. destruct threw.
  - split; cbn [log_event trace].
    + apply right_snoc; [exact R|exact Q|exact W].
    + exists (trace s'), NoCell. now repeat split.
  - split; [split; [|split]|]; cbn [trace].
    + constructor; cbn [ph stack snd dead running trace].
      * now rewrite where_app.
      * rewrite where_app. cbn [move sender_of]. rewrite (I_snd _ H), W. reflexivity.
      * now rewrite where_app.
      * rewrite !count_app. cbn [count pushes pops length]. pose proof (I_len _ H). lia.
      * intros k. rewrite rev_app_distr. cbn [rev app latest]. destruct k as [|k]; [reflexivity|]. apply (I_top _ H).
      * intros n. unfold destroyed. rewrite in_app_iff. cbn [In]. rewrite (I_dead _ H n).
        split; [now left|]. intros [Y|[Y|[]]]; [exact Y|discriminate].
      * intros _. discriminate.
    + apply right_snoc; [exact R|exact Q|exact W].
    + now apply quiet_app.
    + now rewrite where_app.
Qed.

Lemma life_good (ctor : prog) (ts : list turn) (dtor : prog) :
  match life me ctor ts dtor with
  | Left_ s' _ => Right (trace s') /\ Quiet (trace s')
  | Stop s' => Over s'
  end.
Proof.
  unfold life. pose proof (build_good ctor) as X. destruct (build me ctor) as [s b|s]; [|exact X].
  destruct X as [G W]. pose proof (take_all_good ts s G W) as Y.
  destruct (take_all me s ts) as [s1 b1|s1]; [|exact Y]. destruct Y as [(H & R & Q) W1].
  unfold destroy.
  assert (G2 : Good (State Dead (stack s1) (SelfModel.snd s1) (dead s1) Own (trace s1 ++ [Dying]))).
  { split; [|split].
    - apply inv_move; try reflexivity; try exact H; try discriminate; [rewrite W1; discriminate|].
      rewrite (I_snd _ H), W1. reflexivity.
    - apply right_snoc; [exact R|exact Q|exact W1].
    - now apply quiet_app. }
  assert (W2 : where_ (trace (State Dead (stack s1) (SelfModel.snd s1) (dead s1) Own (trace s1 ++ [Dying]))) = InDestructor)
    by (cbn [trace]; now rewrite where_app).
  assert (B2 : busy (where_ (trace (State Dead (stack s1) (SelfModel.snd s1) (dead s1) Own (trace s1 ++ [Dying])))))
    by (rewrite W2; discriminate).
  pose proof (exec_good dtor _ G2 B2) as Z.
  destruct (exec me (State Dead (stack s1) (SelfModel.snd s1) (dead s1) Own (trace s1 ++ [Dying])) dtor) as [s3 threw|s3]; [|exact Z].
  destruct Z as [(H3 & R3 & Q3) W3]. rewrite W2 in W3. destruct threw.
  - split; cbn [log_event trace]; [apply right_snoc; [exact R3|exact Q3|exact W3]|].
    exists (trace s3), (Freed true). now repeat split.
  - cbn [log_event trace]. split; [apply right_snoc; [exact R3|exact Q3|exact W3]|now apply quiet_app].
Qed.

Lemma history_right (ctor : prog) (ts : list turn) (dtor : prog) : Right (history me ctor ts dtor).
Proof.
  unfold history. pose proof (life_good ctor ts dtor) as X. destruct (life me ctor ts dtor) as [s b|s]; apply X.
Qed.

Lemma stops_iff (ctor : prog) (ts : list turn) (dtor : prog) :
  (exists s, life me ctor ts dtor = Stop s) <-> (exists e, In e (history me ctor ts dtor) /\ fatal e = true).
Proof.
  unfold history. pose proof (life_good ctor ts dtor) as X. destruct (life me ctor ts dtor) as [s b|s]; cbn [ending].
  - split; [intros (s' & E); discriminate|]. intros (e & I & F). rewrite (quiet_in _ _ (proj2 X) I) in F. discriminate.
  - split; [|intros _; now exists s]. intros _. destruct X as (_ & l & e & E & _ & F). exists e. rewrite E.
    split; [apply in_app_iff; right; now left|exact F].
Qed.

(* ---- careful actors ---- *)
Lemma exec_calls (p : prog) : forall s, count is_call (trace (ending (exec me s p))) = count is_call (trace s).
Proof.
  induction p as [| |o k IH]; intros s; cbn [exec]; [reflexivity|reflexivity|].
  destruct (ask me s o) as [s1 v] eqn:E.
  assert (T : trace s1 = trace s) by (rewrite <- (ask_trace s o), E; reflexivity).
  destruct (ends v); [|rewrite IH]; cbn [ending log_event trace]; rewrite T, count_app; cbn [count is_call]; lia.
Qed.

Definition fine_in (w : place) (P : op -> Prop) : Prop :=
  forall s o, Inv s -> where_ (trace s) = w -> dead s = [] -> P o -> ends (Datatypes.snd (ask me s o)) = false.

Lemma ask_dead (s : state) (o : op) : receive_call o -> dead (Datatypes.fst (ask me s o)) = dead s.
Proof.
  intros R. unfold ask. destruct (gone s (running s)); [reflexivity|].
  destruct o as [| | |w|w|n|[b|] [|]| | |t|n]; try reflexivity; [| | | |contradiction R].
  - now destruct (stack s).
  - now destruct (stack s) as [|x [|y t]].
  - now destruct (SelfModel.snd s).
  - now destruct (SelfModel.snd s).
Qed.

Lemma exec_fine (w : place) (P : op -> Prop) : w <> Between -> fine_in w P -> (forall o, P o -> receive_call o) ->
  forall p, only P p -> forall s, Good s -> where_ (trace s) = w -> dead s = [] ->
  exists s' threw, exec me s p = Left_ s' threw /\ dead s' = [] /\ (never_throws p -> threw = false).
Proof.
  intros NB F D p O. induction O as [| |o k Po Ok IH]; intros s G W Z; cbn [exec].
  - exists s, false. now repeat split.
  - exists s, true. split; [reflexivity|]. split; [exact Z|]. intros X. inversion X.
  - destruct (ask me s o) as [s1 v] eqn:E. destruct G as (H & R & Q).
    pose proof (F s o H W Z Po) as Fo. rewrite E in Fo. cbn [Datatypes.snd] in Fo. rewrite Fo.
    assert (B : busy (where_ (trace s))) by (rewrite W; exact NB).
    destruct (ask_inv s o s1 v H B E) as [H1 W1].
    assert (T : trace s1 = trace s) by (rewrite <- (ask_trace s o), E; reflexivity).
    assert (Z1 : dead s1 = []).
    { pose proof (ask_dead s o (D o Po)) as X. rewrite E in X. cbn [Datatypes.fst] in X. now rewrite X. }
    assert (G1 : Good (log_event s1 (Did o v))).
    { split; [exact H1|]. cbn [log_event trace]. rewrite T. split.
      - apply right_snoc; [exact R|exact Q|]. split; [exact B|]. pose proof (ask_right s o H B) as X. now rewrite E in X.
      - apply quiet_app; [exact Q|]. destruct v; try discriminate Fo; reflexivity. }
    destruct (IH v (log_event s1 (Did o v)) G1) as (s' & threw & Ex & Z' & N).
    + cbn [log_event trace]. rewrite W1. exact W.
    + exact Z1.
    + exists s', threw. split; [exact Ex|]. split; [exact Z'|]. intros NT. inversion NT as [|o' k' X E1]. now apply N.
Qed.

Lemma gone_none (s : state) (c : consumer) : dead s = [] -> gone s c = false.
Proof. intros Z. destruct c; cbn [gone]; [reflexivity|]. now rewrite Z. Qed.

Lemma fine_ctor : fine_in InConstructor ctor_call.
Proof.
  intros s o H W Z C. unfold ask. rewrite (gone_none s _ Z). pose proof (I_ph _ H) as P. rewrite W in P.
  unfold context, log_here. cbn [phase_of] in P.
  destruct o as [| | |w|w|n|[b|] [|]| | |t|n]; cbn [ctor_call] in C; try contradiction C; rewrite ?P; reflexivity.
Qed.
Lemma fine_hook : fine_in InHook hook_call.
Proof.
  intros s o H W Z C. unfold ask. rewrite (gone_none s _ Z). pose proof (I_ph _ H) as P. rewrite W in P.
  assert (NE : stack s <> []) by (apply (I_own _ H); rewrite W; discriminate).
  unfold context, log_noexcept, log_here. cbn [phase_of] in P.
  destruct o as [| | |w|w|n|[b|] [|]| | |t|n]; cbn [hook_call] in C; try contradiction C; rewrite ?P; try reflexivity.
  - destruct (stack s); [congruence|reflexivity].
  - destruct (stack s) as [|x [|y t]]; reflexivity.
Qed.
Lemma fine_receive (c : consumer) (f : nat) : fine_in (InReceive c f) receive_call.
Proof.
  intros s o H W Z C. unfold ask. rewrite (gone_none s _ Z). pose proof (I_ph _ H) as P. rewrite W in P.
  pose proof (I_snd _ H) as S. rewrite W in S.
  assert (NE : stack s <> []) by (apply (I_own _ H); rewrite W; discriminate).
  unfold context, log_noexcept, log_here. cbn [phase_of] in P. cbn [sender_of] in S.
  destruct o as [| | |w|w|n|[b|] [|]| | |t|n]; cbn [receive_call] in C; try contradiction C; rewrite ?P, ?S; try reflexivity.
  - destruct (stack s); [congruence|reflexivity].
  - destruct (stack s) as [|x [|y t]]; reflexivity.
Qed.
Lemma fine_dtor : fine_in InDestructor dtor_call.
Proof.
  intros s o H W Z C. unfold ask. rewrite (gone_none s _ Z). pose proof (I_ph _ H) as P. rewrite W in P.
  assert (NE : stack s <> []) by (apply (I_own _ H); rewrite W; discriminate).
  unfold context, log_noexcept, log_here. cbn [phase_of] in P.
  destruct o as [| | |w|w|n|[b|] [|]| | |t|n]; cbn [dtor_call] in C; try contradiction C; rewrite ?P; try reflexivity.
  destruct (stack s); [congruence|reflexivity].
Qed.

Fixpoint messages (ts : list turn) : nat :=
  match ts with [] => 0 | t :: r => (if is_message t then 1 else 0) + messages r end.

Lemma take_fine (t : turn) (s : state) : careful_turn t -> Good s -> where_ (trace s) = Between -> dead s = [] ->
  exists s', take me s t = Left_ s' false /\ dead s' = [] /\
    count is_call (trace s') = (if is_message t then 1 else 0) + count is_call (trace s).
Proof.
  intros C G W Z. pose proof G as (H & R & Q).
  assert (NC : where_ (trace s) <> InConstructor) by (rewrite W; discriminate).
  assert (Ph : ph s = Alive) by (rewrite (I_ph _ H), W; reflexivity).
  assert (Sn : SelfModel.snd s = None) by (rewrite (I_snd _ H), W; reflexivity).
  destruct t as [p|f code|]; cbn [take is_message].
  - set (s0 := set_turn s (SelfModel.snd s) Own Hook).
    assert (G1 : Good s0).
    { split.
      - apply inv_move; try reflexivity; try exact H; try exact NC; try discriminate; [now rewrite Ph|exact Sn].
      - split; [apply right_snoc; [exact R|exact Q|exact W]|now apply quiet_app]. }
    assert (W1 : where_ (trace s0) = InHook) by (cbn [s0 set_turn trace]; now rewrite where_app).
    destruct (exec_fine InHook hook_call ltac:(discriminate) fine_hook ltac:(now intros []) p C s0 G1 W1 Z)
      as (s' & threw & E & Z' & _).
    pose proof (exec_calls p s0) as K. rewrite E in *. cbn [ending] in K.
    eexists. split; [reflexivity|]. split; [exact Z'|]. cbn [log_event trace]. rewrite count_app, K.
    cbn [s0 set_turn trace]. rewrite count_app. cbn [count is_call]. lia.
  - pose proof (I_own _ H NC) as NE. destruct (stack s) as [|c st] eqn:Es; [congruence|].
    rewrite (gone_none s c Z). set (s0 := set_turn s (Some f) c (Called c f)).
    assert (F : in_force (trace s) = Some c) by (rewrite (inv_force _ H), Es; reflexivity).
    assert (G1 : Good s0).
    { split.
      - apply inv_move; try reflexivity; try exact H; try exact NC; try discriminate. now rewrite Ph.
      - split; [|now apply quiet_app]. apply right_snoc; [exact R|exact Q|]. split; [exact W|]. split; [exact F|].
        intros n _ D. apply (I_dead _ H) in D. now rewrite Z in D. }
    assert (W1 : where_ (trace s0) = InReceive c f) by (cbn [s0 set_turn trace]; now rewrite where_app).
    destruct (exec_fine (InReceive c f) receive_call ltac:(discriminate) (fine_receive c f) ltac:(now intros []) (code c) (C c) s0 G1 W1 Z)
      as (s' & threw & E & Z' & _).
    pose proof (exec_calls (code c) s0) as K. rewrite E in *. cbn [ending] in K.
    eexists. split; [reflexivity|]. split; [exact Z'|]. cbn [trace]. rewrite count_app, K.
    cbn [s0 set_turn trace]. rewrite count_app. cbn [count is_call]. lia.
  - eexists. split; [reflexivity|]. split; [exact Z|]. cbn [log_event trace]. rewrite count_app. cbn [count is_call]. lia.
Qed.

Lemma take_all_fine (ts : list turn) : Forall careful_turn ts ->
  forall s, Good s -> where_ (trace s) = Between -> dead s = [] ->
  exists s', take_all me s ts = Left_ s' false /\ Good s' /\ where_ (trace s') = Between /\ dead s' = [] /\
    count is_call (trace s') = messages ts + count is_call (trace s).
Proof.
  intros C. induction C as [|t ts Ct C IH]; intros s G W Z; cbn [take_all messages].
  - exists s. now repeat (split; [first [reflexivity|assumption]|]).
  - destruct (take_fine t s Ct G W Z) as (s1 & E & Z1 & K). pose proof (take_good t s G W) as X. rewrite E in *.
    destruct X as [G1 W1]. destruct (IH s1 G1 W1 Z1) as (s' & E' & G' & W' & Z' & K').
    exists s'. repeat (split; [assumption|]). rewrite K', K. lia.
Qed.

Lemma careful_life (ctor : prog) (ts : list turn) (dtor : prog) :
  only ctor_call ctor -> never_throws ctor -> Forall careful_turn ts -> only dtor_call dtor -> never_throws dtor ->
  exists s, life me ctor ts dtor = Left_ s false /\ count is_call (trace s) = messages ts.
Proof.
  intros Oc Nc Ct Od Nd. unfold life.
  pose proof (build_good ctor) as Bg. unfold build in *.
  destruct (exec_fine InConstructor ctor_call ltac:(discriminate) fine_ctor
              ltac:(now intros [| | |w|w|n|[b|] [|]| | |t|n]) ctor Oc unborn unborn_good eq_refl eq_refl)
    as (s1 & threw & E & Z & N).
  pose proof (exec_calls ctor unborn) as K. rewrite E in *. cbn [ending] in K. rewrite (N Nc) in *.
  destruct Bg as [G1 W1].
  destruct (take_all_fine ts Ct _ G1 W1 Z) as (s2 & E2 & G2 & W2 & Z2 & K2). rewrite E2.
  unfold destroy. set (s0 := State Dead (stack s2) (SelfModel.snd s2) (dead s2) Own (trace s2 ++ [Dying])).
  pose proof G2 as (H & R & Q).
  assert (G3 : Good s0).
  { split; [|split].
    - apply inv_move; try reflexivity; try exact H; try discriminate; [rewrite W2; discriminate|].
      rewrite (I_snd _ H), W2. reflexivity.
    - apply right_snoc; [exact R|exact Q|exact W2].
    - now apply quiet_app. }
  assert (W3 : where_ (trace s0) = InDestructor) by (cbn [s0 trace]; now rewrite where_app).
  destruct (exec_fine InDestructor dtor_call ltac:(discriminate) fine_dtor
              ltac:(now intros [| | |w|w|n|[b|] [|]| | |t|n]) dtor Od s0 G3 W3 Z2)
    as (s3 & threw3 & E3 & Z3 & N3).
  pose proof (exec_calls dtor s0) as K3. rewrite E3 in *. cbn [ending] in K3. rewrite (N3 Nd).
  eexists. split; [reflexivity|]. cbn [log_event trace]. rewrite count_app, K3. cbn [s0 trace]. rewrite count_app, K2.
  cbn [trace]. rewrite count_app, K. cbn. lia.
Qed.

(* ---- what is thrown stays in the turn ---- *)
Definition same (a b : state) : Prop :=
  ph a = ph b /\ stack a = stack b /\ SelfModel.snd a = SelfModel.snd b /\ dead a = dead b /\ running a = running b /\
  map forget (trace a) = map forget (trace b).

Lemma same_ask (a b : state) (o : op) : same a b ->
  same (Datatypes.fst (ask me a o)) (Datatypes.fst (ask me b o)) /\
  Datatypes.snd (ask me a o) = Datatypes.snd (ask me b o).
Proof.
  intros S. pose proof S as (P & St & Sn & D & Ru & T).
  unfold ask, gone, context, log_noexcept, log_here. rewrite P, St, Sn, D, Ru.
  destruct (match running b with Own => false | Obj n => existsb (Nat.eqb n) (dead b) end); [now split|].
  destruct o as [| | |w|w|n|[x|] [|]| | |t|n]; try (now split).
  - destruct (stack b) as [|y st]; [now split|]. split; [|reflexivity]. repeat split; assumption.
  - destruct (stack b) as [|y [|z st]]; [now split|now split|]. split; [|reflexivity]. repeat split; assumption.
  - destruct (SelfModel.snd b); now split.
  - destruct (SelfModel.snd b); now split.
  - destruct (existsb (Nat.eqb n) (dead b)); [now split|]. split; [|reflexivity]. repeat split; assumption.
Qed.

Lemma same_log (a b : state) (e f : event) : same a b -> forget e = forget f -> same (log_event a e) (log_event b f).
Proof.
  intros (P & St & Sn & D & Ru & T) E. repeat split; cbn [log_event ph stack snd dead running trace]; try assumption.
  rewrite !map_app, T. cbn [map]. now rewrite E.
Qed.

Lemma same_exec (p : prog) : forall a b, same a b ->
  match exec me a p, exec me b (caught p) with
  | Left_ x _, Left_ y _ => same x y
  | Stop x, Stop y => same x y
  | _, _ => False
  end.
Proof.
  induction p as [| |o k IH]; intros a b S; cbn [exec caught]; [exact S|exact S|].
  destruct (same_ask a b o S) as [S1 V]. destruct (ask me a o) as [a1 v]. destruct (ask me b o) as [b1 v'].
  cbn [Datatypes.fst Datatypes.snd] in *. subst v'.
  pose proof (same_log a1 b1 (Did o v) (Did o v) S1 eq_refl) as S2.
  destruct (ends v); [exact S2|]. apply IH. exact S2.
Qed.

Lemma same_exec2 (p : prog) : forall a b, same a b ->
  match exec me a p, exec me b p with
  | Left_ x u, Left_ y w => same x y /\ u = w
  | Stop x, Stop y => same x y
  | _, _ => False
  end.
Proof.
  induction p as [| |o k IH]; intros a b S; cbn [exec]; [now split|now split|].
  destruct (same_ask a b o S) as [S1 V]. destruct (ask me a o) as [a1 v]. destruct (ask me b o) as [b1 v'].
  cbn [Datatypes.fst Datatypes.snd] in *. subst v'.
  pose proof (same_log a1 b1 (Did o v) (Did o v) S1 eq_refl) as S2.
  destruct (ends v); [exact S2|]. apply IH. exact S2.
Qed.

Lemma same_take (t : turn) (a b : state) : same a b ->
  match take me a t, take me b (caught_turn t) with
  | Left_ x _, Left_ y _ => same x y
  | Stop x, Stop y => same x y
  | _, _ => False
  end.
Proof.
  intros S. pose proof S as (P & St & Sn & D & Ru & T). destruct t as [p|f code|]; cbn [take caught_turn].
  - assert (S1 : same (set_turn a (SelfModel.snd a) Own Hook) (set_turn b (SelfModel.snd b) Own Hook)).
    { repeat split; cbn [set_turn ph stack snd dead running trace]; try assumption; try reflexivity. rewrite !map_app, T. reflexivity. }
    pose proof (same_exec p _ _ S1) as X.
    destruct (exec me (set_turn a (SelfModel.snd a) Own Hook) p) as [x u|x],
             (exec me (set_turn b (SelfModel.snd b) Own Hook) (caught p)) as [y w|y]; try contradiction X; [|exact X].
    now apply same_log.
  - rewrite St. destruct (stack b) as [|c st] eqn:Eb; [now apply same_log|].
    assert (Gn : gone a c = gone b c) by (unfold gone; now rewrite D). rewrite Gn.
    destruct (gone b c); [now apply same_log|].
    assert (S1 : same (set_turn a (Some f) c (Called c f)) (set_turn b (Some f) c (Called c f))).
    { repeat split; cbn [set_turn ph stack snd dead running trace]; try assumption; try congruence. rewrite !map_app, T. reflexivity. }
    pose proof (same_exec (code c) _ _ S1) as X.
    destruct (exec me (set_turn a (Some f) c (Called c f)) (code c)) as [x u|x],
             (exec me (set_turn b (Some f) c (Called c f)) (caught (code c))) as [y w|y]; try contradiction X; [|exact X].
    destruct X as (P' & St' & Sn' & D' & Ru' & T').
    repeat split; cbn [ph stack snd dead running trace]; try assumption; try reflexivity. rewrite !map_app, T'. reflexivity.
  - now apply same_log.
Qed.

Lemma same_take_all (ts : list turn) : forall a b, same a b ->
  match take_all me a ts, take_all me b (map caught_turn ts) with
  | Left_ x _, Left_ y _ => same x y
  | Stop x, Stop y => same x y
  | _, _ => False
  end.
Proof.
  induction ts as [|t ts IH]; intros a b S; cbn [take_all map]; [exact S|].
  pose proof (same_take t a b S) as X.
  destruct (take me a t) as [x u|x], (take me b (caught_turn t)) as [y w|y]; try contradiction X; [|exact X].
  now apply IH.
Qed.

Lemma caught_history (ctor : prog) (ts : list turn) (dtor : prog) :
  map forget (history me ctor ts dtor) = map forget (history me ctor (map caught_turn ts) dtor).
Proof.
  unfold history, life. destruct (build me ctor) as [s u|s]; [|reflexivity].
  assert (S : same s s) by (repeat split).
  pose proof (same_take_all ts s s S) as X.
  destruct (take_all me s ts) as [x w|x], (take_all me s (map caught_turn ts)) as [y z|y]; try contradiction X; [|apply X].
  destruct X as (P & St & Sn & D & Ru & T). unfold destroy.
  assert (S1 : same (State Dead (stack x) (SelfModel.snd x) (dead x) Own (trace x ++ [Dying]))
                    (State Dead (stack y) (SelfModel.snd y) (dead y) Own (trace y ++ [Dying]))).
  { repeat split; cbn [ph stack snd dead running trace]; try assumption; try reflexivity. rewrite !map_app, T. reflexivity. }
  pose proof (same_exec2 dtor _ _ S1) as Y.
  destruct (exec me (State Dead (stack x) (SelfModel.snd x) (dead x) Own (trace x ++ [Dying])) dtor) as [a u1|a],
           (exec me (State Dead (stack y) (SelfModel.snd y) (dead y) Own (trace y ++ [Dying])) dtor) as [b u2|b];
    try contradiction Y; [|apply Y].
  destruct Y as [S2 <-]. destruct u1; cbn [ending]; apply (same_log a b _ _ S2 eq_refl).
Qed.
End Self.
