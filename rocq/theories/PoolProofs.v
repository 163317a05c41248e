(* Proofs about PoolModel. *)
From Coq Require Import List Bool Arith Lia Permutation.
From Verif Require Import PoolModel.
Import ListNotations.

Definition cnt (f : wstate -> bool) (l : list wstate) := length (filter f l).
Definition is_ready (x : wstate) : bool := match x with Ready => true | _ => false end.
Definition is_exited (x : wstate) : bool := match x with Exited => true | _ => false end.

Record PI (n : nat) (s : state) : Prop := {
  pi_fifo : accepted s = began s ++ tasks s;
  pi_len : length (workers s) = n;
  pi_wake : existsb is_waiting (workers s) = true -> length (tasks s) <= cnt is_ready (workers s) /\ stop s = false;
  pi_exit : existsb is_exited (workers s) = true -> tasks s = [] /\ stop s = true;
  pi_prog : Permutation (began s) (in_progress s ++ ended s)
}.

Lemma update_length l i x : length (update l i x) = length l.
Proof. revert i. induction l; intros []; simpl; auto. Qed.
Lemma cnt_update f l i x y : nth_error l i = Some x ->
  cnt f (update l i y) + (if f x then 1 else 0) = cnt f l + (if f y then 1 else 0).
Proof.
  unfold cnt. revert i. induction l as [|z l IH]; intros [|i] H; simpl in *; try discriminate.
  - inversion H; subst. destruct (f x), (f y); simpl; lia.
  - specialize (IH i H). destruct (f z); simpl; lia.
Qed.
Lemma cnt_existsb f l : existsb f l = true <-> cnt f l > 0.
Proof.
  unfold cnt. induction l as [|z l IH]; simpl; [split; [discriminate|lia]|].
  destruct (f z); simpl; [split; [lia|reflexivity]|exact IH].
Qed.
Lemma cnt_le f l : cnt f l <= length l.
Proof. unfold cnt. induction l as [|z l IH]; simpl; [lia|]. destruct (f z); simpl; lia. Qed.
Lemma prog_update l i x y : nth_error l i = Some x ->
  Permutation ((match x with Running t => [t] | _ => [] end) ++ flat_map (fun w => match w with Running t => [t] | _ => [] end) (update l i y))
              ((match y with Running t => [t] | _ => [] end) ++ flat_map (fun w => match w with Running t => [t] | _ => [] end) l).
Proof.
  revert i. induction l as [|z l IH]; intros [|i] H; simpl in *; try discriminate.
  - inversion H; subst. rewrite !app_assoc. apply Permutation_app_tail. apply Permutation_app_comm.
  - specialize (IH i H).
    rewrite (Permutation_app_swap_app _ (match z with Running t => [t] | _ => [] end)).
    rewrite (Permutation_app_swap_app _ (match z with Running t => [t] | _ => [] end)).
    apply Permutation_app_head. exact IH.
Qed.
Lemma notify_all_spec l : cnt is_waiting (notify_all l) = 0 /\
  cnt is_exited (notify_all l) = cnt is_exited l /\ length (notify_all l) = length l /\
  flat_map (fun w => match w with Running t => [t] | _ => [] end) (notify_all l) = flat_map (fun w => match w with Running t => [t] | _ => [] end) l.
Proof.
  unfold cnt. induction l as [|z l (IH1 & IH2 & IH3 & IH4)]; simpl; [repeat split|].
  destruct z; simpl; rewrite ?IH1, ?IH2, ?IH3, ?IH4; repeat split.
Qed.
Lemma notify_one_cases l w l' : notify_one l w = Some l' ->
  (cnt is_waiting l = 0 /\ l' = l) \/ (nth_error l w = Some Waiting /\ l' = update l w Ready).
Proof.
  unfold notify_one. destruct (existsb is_waiting l) eqn:E.
  - destruct (nth_error l w) as [[| | |]|]; try discriminate. intros H; inversion H; auto.
  - intros H. inversion H; subst. left. split; [|reflexivity].
    destruct (cnt is_waiting l') eqn:C; [reflexivity|]. assert (K : existsb is_waiting l' = true) by (apply cnt_existsb; lia). congruence.
Qed.

Lemma init_PI n : PI n (init n).
Proof.
  constructor; simpl.
  - reflexivity.
  - apply repeat_length.
  - intros H. exfalso. induction n; simpl in H; [discriminate|auto].
  - intros H. exfalso. induction n; simpl in H; [discriminate|auto].
  - unfold in_progress; simpl. induction n; simpl; auto.
Qed.

Lemma pos_existsb f l : existsb f l = false <-> cnt f l = 0.
Proof.
  split; intros H.
  - destruct (cnt f l) eqn:C; [reflexivity|]. assert (K : existsb f l = true) by (apply cnt_existsb; lia). congruence.
  - destruct (existsb f l) eqn:C; [|reflexivity]. apply cnt_existsb in C. lia.
Qed.

Lemma step_PI n s x s' : PI n s -> step s x = Some s' -> PI n s'.
Proof.
  intros [F L W E P] H. unfold step in H. destruct (crashed s) eqn:Cr; [discriminate|]. unfold in_progress in *.
  rewrite cnt_existsb in W, E.
  destruct x as [t w| |w|w|w th].
  - destruct (stop s) eqn:St.
    + inversion H; subst. constructor; simpl; rewrite ?cnt_existsb; auto.
    + destruct (notify_one (workers s) w) as [ws|] eqn:N; [|discriminate]. inversion H; subst; clear H.
      apply notify_one_cases in N. destruct N as [[C ->]|[N ->]].
      * constructor; simpl; rewrite ?cnt_existsb; auto.
        -- now rewrite F, app_assoc.
        -- lia.
        -- intros K. destruct (E K). discriminate.
      * pose proof (cnt_update is_waiting _ _ _ Ready N). pose proof (cnt_update is_ready _ _ _ Ready N).
        pose proof (cnt_update is_exited _ _ _ Ready N). simpl in *.
        constructor; simpl; rewrite ?cnt_existsb.
        -- now rewrite F, app_assoc.
        -- now rewrite update_length.
        -- intros K. rewrite app_length; simpl. destruct W as [W _]; [lia|]. split; [lia|reflexivity].
        -- intros K. destruct E as [_ E]; [lia|]. discriminate.
        -- pose proof (prog_update _ _ _ Ready N) as Q; simpl in Q. unfold in_progress; simpl. now rewrite Q.
  - inversion H; subst; clear H. destruct (notify_all_spec (workers s)) as (N1 & N2 & N3 & N4).
    constructor; simpl; rewrite ?cnt_existsb.
    + exact F.
    + congruence.
    + lia.
    + rewrite N2. intros K. destruct (E K). auto.
    + unfold in_progress; simpl. now rewrite N4.
  - destruct (nth_error (workers s) w) as [[| | |]|] eqn:N; try discriminate.
    destruct (tasks s) as [|t r] eqn:T.
    + destruct (stop s) eqn:St; inversion H; subst; clear H.
      * pose proof (cnt_update is_waiting _ _ _ Exited N). pose proof (prog_update _ _ _ Exited N) as Q; simpl in *.
        constructor; simpl; rewrite ?cnt_existsb; auto; [now rewrite update_length| |unfold in_progress; simpl; now rewrite Q].
        intros K. destruct W as [_ W]; [lia|]. discriminate.
      * pose proof (cnt_update is_exited _ _ _ Waiting N). pose proof (prog_update _ _ _ Waiting N) as Q; simpl in *.
        constructor; simpl; rewrite ?cnt_existsb; auto; [now rewrite update_length|intros; split; [lia|reflexivity]| |unfold in_progress; simpl; now rewrite Q].
        intros K. destruct E as [_ E]; [lia|]. discriminate.
    + inversion H; subst; clear H. pose proof (cnt_update is_waiting _ _ _ (Running t) N).
      pose proof (cnt_update is_ready _ _ _ (Running t) N).
      pose proof (cnt_update is_exited _ _ _ (Running t) N). pose proof (prog_update _ _ _ (Running t) N) as Q; simpl in *.
      constructor; simpl; rewrite ?cnt_existsb; auto.
      * now rewrite F, <- app_assoc.
      * now rewrite update_length.
      * intros K. destruct W as [W W']; [lia|]. split; [lia|exact W'].
      * intros K. destruct E as [E _]; [lia|]. discriminate.
      * unfold in_progress; simpl. rewrite Q. simpl. rewrite Permutation_app_comm. simpl. now constructor.
  - destruct (nth_error (workers s) w) as [[| | |]|] eqn:N; try discriminate. inversion H; subst; clear H.
    pose proof (cnt_update is_waiting _ _ _ Ready N). pose proof (cnt_update is_ready _ _ _ Ready N).
    pose proof (cnt_update is_exited _ _ _ Ready N). pose proof (prog_update _ _ _ Ready N) as Q; simpl in *.
    constructor; simpl; rewrite ?cnt_existsb; auto.
    + now rewrite update_length.
    + intros K. destruct W as [W W']; [lia|]. split; [lia|exact W'].
    + intros K. apply E. lia.
    + unfold in_progress; simpl. now rewrite Q.
  - destruct (nth_error (workers s) w) as [[| |t|]|] eqn:N; try discriminate. inversion H; subst; clear H.
    pose proof (cnt_update is_waiting _ _ _ Ready N). pose proof (cnt_update is_ready _ _ _ Ready N).
    pose proof (cnt_update is_exited _ _ _ Ready N). pose proof (prog_update _ _ _ Ready N) as Q; simpl in *.
    constructor; simpl; rewrite ?cnt_existsb; auto.
    + now rewrite update_length.
    + intros K. destruct W as [W W']; [lia|]. split; [lia|exact W'].
    + intros K. apply E. lia.
    + unfold in_progress; simpl. rewrite P, <- Q. simpl.
      rewrite app_assoc. apply Permutation_cons_append.
Qed.

Lemma run_PI n xs s s' : PI n s -> run s xs = Some s' -> PI n s'.
Proof.
  revert s. induction xs as [|x xs IH]; simpl; intros s I H; [now inversion H; subst|].
  destruct (step s x) as [s1|] eqn:E; [|discriminate]. eapply IH; [eapply step_PI; eassumption|exact H].
Qed.
Lemma reachable_PI n s : reachable n s -> PI n s.
Proof. intros [xs H]. eapply run_PI; [apply init_PI|exact H]. Qed.

Lemma fifo n s : reachable n s -> accepted s = began s ++ tasks s.
Proof. intros R. apply (reachable_PI _ _ R). Qed.
Lemma progress n s : reachable n s -> Permutation (began s) (in_progress s ++ ended s).
Proof. intros R. apply (reachable_PI _ _ R). Qed.

Lemma no_running l : (forall w, In w l -> match w with Running _ => False | _ => True end) ->
  flat_map (fun w => match w with Running t => [t] | _ => [] end) l = [].
Proof.
  induction l as [|w l IH]; intros A; [reflexivity|]. simpl. rewrite IH by (intros; apply A; now right).
  specialize (A w (or_introl eq_refl)). destruct w; [reflexivity..|destruct A|reflexivity].
Qed.
Lemma exited_all n s : n > 0 -> reachable n s -> all_exited s -> began s = accepted s /\ Permutation (ended s) (accepted s).
Proof.
  intros Hn R A. apply reachable_PI in R. destruct R as [F L W E P].
  assert (X : existsb is_exited (workers s) = true).
  { unfold all_exited in A. destruct (workers s) as [|w l]; [simpl in L; lia|]. inversion A; subst. reflexivity. }
  destruct (E X) as [T _]. rewrite T, app_nil_r in F. split; [congruence|].
  assert (Z : in_progress s = []).
  { unfold in_progress. apply no_running. unfold all_exited in A. rewrite Forall_forall in A. intros w I. now rewrite (A w I). }
  rewrite Z in P. simpl in P. rewrite F. now symmetry.
Qed.

Lemma no_lost_wakeup n s : n > 0 -> reachable n s -> crashed s = false -> tasks s <> [] ->
  exists x s', own_step x = true /\ step s x = Some s'.
Proof.
  intros Hn R C T. apply reachable_PI in R. destruct R as [F L W E P].
  assert (X : existsb is_exited (workers s) = false) by (destruct (existsb is_exited (workers s)) eqn:K; [destruct (E eq_refl); contradiction|reflexivity]).
  assert (K : exists i w, nth_error (workers s) i = Some w /\ (w = Ready \/ exists t, w = Running t)).
  { destruct (existsb is_waiting (workers s)) eqn:Q.
    - destruct (W eq_refl) as [W1 _]. assert (existsb is_ready (workers s) = true) by (apply cnt_existsb; destruct (tasks s); [contradiction|simpl in W1; lia]).
      apply existsb_exists in H. destruct H as (w & I & J). destruct w; try discriminate. apply In_nth_error in I. destruct I as [i I]. exists i, Ready. auto.
    - destruct (workers s) as [|w l]; [simpl in L; lia|]. exists 0, w. split; [reflexivity|].
      simpl in X, Q. destruct w; simpl in *; try discriminate; [now left|right; eauto]. }
  destruct K as (i & w & N & [->|[t ->]]).
  - exists (Enter i). unfold step. rewrite C, N. destruct (tasks s); [contradiction|]. eexists. split; reflexivity.
  - exists (Finish i false). unfold step. rewrite C, N. eexists. split; reflexivity.
Qed.

(* termination of the workers *)
Definition weight (w : wstate) : nat := match w with Ready => 1 | Running _ => 2 | _ => 0 end.
Definition measure (s : state) : nat := 2 * length (tasks s) + list_sum (map weight (workers s)).
Lemma sum_update l i x y : nth_error l i = Some x ->
  list_sum (map weight (update l i y)) + weight x = list_sum (map weight l) + weight y.
Proof.
  unfold list_sum. revert i. induction l as [|z l IH]; intros [|i] H; simpl in *; try discriminate.
  - inversion H; subst. lia.
  - specialize (IH i H). lia.
Qed.
Lemma own_decreases s x s' : own_step x = true -> step s x = Some s' -> measure s' < measure s /\ accepted s' = accepted s /\ stop s' = stop s /\ crashed s' = false.
Proof.
  unfold step, measure. destruct (crashed s); [discriminate|]. destruct x as [| |w| |w [|]]; try discriminate; intros _ H.
  - destruct (nth_error (workers s) w) as [[| | |]|] eqn:N; try discriminate.
    destruct (tasks s) as [|t r]; [destruct (stop s)|]; inversion H; subst; simpl.
    + pose proof (sum_update _ _ _ Exited N). simpl in *. repeat split; lia.
    + pose proof (sum_update _ _ _ Waiting N). simpl in *. repeat split; lia.
    + pose proof (sum_update _ _ _ (Running t) N). simpl in *. repeat split; lia.
  - destruct (nth_error (workers s) w) as [[| |t|]|] eqn:N; try discriminate. inversion H; subst; simpl.
    pose proof (sum_update _ _ _ Ready N). simpl in *. repeat split; lia.
Qed.
Lemma own_run xs s s' : Forall (fun x => own_step x = true) xs -> run s xs = Some s' ->
  length xs + measure s' <= measure s /\ accepted s' = accepted s /\ stop s' = stop s /\ (crashed s = false -> crashed s' = false).
Proof.
  intros F. revert s. induction F as [|x xs Hx F IH]; simpl; intros s H; [inversion H; subst; repeat split; auto|].
  destruct (step s x) as [s1|] eqn:E; [|discriminate]. destruct (own_decreases s x s1 Hx E) as (D & A & St & C).
  destruct (IH s1 H) as (D' & A' & St' & C'). repeat split; try congruence; try lia. auto.
Qed.
Lemma run_app xs ys s : run s (xs ++ ys) = match run s xs with None => None | Some s' => run s' ys end.
Proof. revert s. induction xs as [|x xs IH]; simpl; intros s; [reflexivity|]. destruct (step s x); [apply IH|reflexivity]. Qed.
Lemma reachable_run n s xs s' : reachable n s -> run s xs = Some s' -> reachable n s'.
Proof. intros [ys H] K. exists (ys ++ xs). now rewrite run_app, H. Qed.

Lemma stuck n s : n > 0 -> reachable n s -> crashed s = false -> (forall x, own_step x = true -> step s x = None) ->
  tasks s = [] /\ in_progress s = [] /\ (stop s = true -> all_exited s).
Proof.
  intros Hn R C S.
  assert (T : tasks s = []).
  { destruct (tasks s) eqn:T; [reflexivity|]. destruct (no_lost_wakeup n s Hn R C) as (x & s' & O & E); [congruence|]. rewrite (S x O) in E. discriminate. }
  assert (NR : forall i, nth_error (workers s) i <> Some Ready /\ forall t, nth_error (workers s) i <> Some (Running t)).
  { intros i. split.
    - intros N. specialize (S (Enter i) eq_refl). unfold step in S. rewrite C, N, T in S. destruct (stop s); discriminate.
    - intros t N. specialize (S (Finish i false) eq_refl). unfold step in S. rewrite C, N in S. discriminate. }
  split; [exact T|]. split.
  - unfold in_progress.
    apply no_running. intros w I. apply In_nth_error in I. destruct I as [i I]. destruct w; auto. destruct (NR i) as [_ K]. exact (K t I).
  - intros St. unfold all_exited. apply Forall_forall. intros w I. pose proof (reachable_PI n s R) as [F L W E P].
    assert (I' := I). apply In_nth_error in I. destruct I as [i I]. destruct w; try reflexivity.
    + destruct (NR i) as [K _]. contradiction.
    + destruct W as [_ W]; [apply existsb_exists; exists Waiting; auto|congruence].
    + destruct (NR i) as [_ K]. now apply K in I.
Qed.
Lemma drains n s xs s' : n > 0 -> reachable n s -> crashed s = false -> Forall (fun x => own_step x = true) xs -> run s xs = Some s' ->
  length xs <= measure s /\
  ((forall x, own_step x = true -> step s' x = None) ->
   began s' = accepted s /\ Permutation (ended s') (accepted s) /\ (stop s = true -> all_exited s')).
Proof.
  intros Hn R C F H. destruct (own_run xs s s' F H) as (M & A & St & C'). split; [lia|]. intros S.
  assert (R' := reachable_run n s xs s' R H). destruct (stuck n s' Hn R' (C' C) S) as (T & P & X).
  pose proof (fifo n s' R') as Fi. rewrite T, app_nil_r in Fi. pose proof (progress n s' R') as Pr. rewrite P in Pr. simpl in Pr.
  split; [congruence|]. split; [rewrite <- A, Fi; now symmetry|]. intros K. apply X. congruence.
Qed.
