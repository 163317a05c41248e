Require Import List Bool Arith Lia.
Import ListNotations.
From Verif Require Import LastModel.

Definition b2n (b : bool) : nat := if b then 1 else 0.

(** Number of elements with a property. *)
Fixpoint num (f : listener -> bool) (ls : list listener) : nat :=
  match ls with [] => 0 | x :: r => b2n (f x) + num f r end.

(** Occurrences of a connection in messages. *)
Fixpoint inmsgs (c : nat) (ls : list listener) : nat :=
  match ls with [] => 0 | x :: r => count_occ Nat.eq_dec (l_msgs x) c + inmsgs c r end.

Definition occ (c : nat) (s : state) : nat :=
  inmsgs c (lst s) + count_occ Nat.eq_dec (map snd (ops s)) c
  + count_occ Nat.eq_dec (map fst (rem s)) c.

(** An acceptor which only the running handler keeps. *)
Definition extra (s : state) : nat :=
  match io s with
  | AccTell l _ | AccArm l _ | AccEnd l _ =>
      match nth_error (lst s) l with
      | Some x => b2n (negb (l_acc x))
      | None => 0
      end
  | _ => 0
  end.

Definition okl (x : listener) : Prop :=
  (l_acc x = true -> l_cell x = true /\ l_phase x = Running) /\
  (l_cell x = false -> l_phase x = Closed) /\
  (l_cell x = false -> l_held x = 0 -> l_msgs x = []).

(** [k] uses of the context are about to end. *)
Record inv (k : nat) (s : state) : Prop := {
  i_count : count s = k + b2n (tcp s) + b2n (udp s) + num l_cell (lst s) + num l_acc (lst s) + extra s;
  i_ok : forall l x, nth_error (lst s) l = Some x -> okl x;
  i_cell : num l_cell (lst s) > 0 -> tcp s = true;
  i_tcp : forall c, In (c, PTcp) (rem s) -> tcp s = true;
  i_udp : forall c, In (c, PUdp) (rem s) -> udp s = true;
  i_lis : forall c l, In (c, PListener l) (rem s) ->
          exists x, nth_error (lst s) l = Some x /\ l_cell x = true /\ l_phase x = Running;
  i_live : svc s = Live <-> count s > 0;
  i_gone : svc s = Gone -> io s = Idle /\ ops s = [];
  i_occ : forall c, occ c s <= 1;
  i_next : forall c, occ c s > 0 -> c < next s;
  i_io : forall c, In c (held_by_io (io s)) -> c < next s;
  i_tell : forall l c, io s = AccTell l c -> occ c s = 0;
  i_ops : forall l c, In (l, c) (ops s) -> exists x, nth_error (lst s) l = Some x;
  i_lock : forall l, locks l (io s) = true ->
           exists x, nth_error (lst s) l = Some x /\ l_phase x <> New;
  i_sys : sys s = false -> tcp s = false /\ udp s = false /\ svc s <> Closing
}.

Lemma upd_split : forall ls l x, nth_error ls l = Some x ->
  exists a b, ls = a ++ x :: b /\ length a = l /\ forall v, upd l v ls = a ++ v :: b.
Proof.
  induction ls as [|y r IH]; intros l x H; [destruct l; discriminate|].
  destruct l as [|l].
  - injection H as <-. exists [], r. auto.
  - destruct (IH l x H) as (a & b & E & L & U). exists (y :: a), b.
    subst r. simpl. split; [reflexivity|]. split; [lia|]. intros v. cbn [upd]. now rewrite U.
Qed.

Lemma nth_upd : forall ls l x v k, nth_error ls l = Some x ->
  nth_error (upd l v ls) k = if Nat.eqb k l then Some v else nth_error ls k.
Proof.
  induction ls as [|y r IH]; intros l x v k H; [destruct l; discriminate|].
  destruct l as [|l], k as [|k]; cbn [upd nth_error Nat.eqb]; try reflexivity.
  cbn [nth_error] in H. eapply IH; eauto.
Qed.

Lemma num_upd : forall f ls l x v, nth_error ls l = Some x ->
  num f (upd l v ls) + b2n (f x) = num f ls + b2n (f v).
Proof.
  induction ls as [|y r IH]; intros l x v H; [destruct l; discriminate|].
  destruct l as [|l]; cbn [upd num nth_error] in *.
  - injection H as <-. lia.
  - specialize (IH l x v H). lia.
Qed.

Lemma inmsgs_upd : forall c ls l x v, nth_error ls l = Some x ->
  inmsgs c (upd l v ls) + count_occ Nat.eq_dec (l_msgs x) c
  = inmsgs c ls + count_occ Nat.eq_dec (l_msgs v) c.
Proof.
  induction ls as [|y r IH]; intros l x v H; [destruct l; discriminate|].
  destruct l as [|l]; cbn [upd inmsgs nth_error] in *.
  - injection H as <-. lia.
  - specialize (IH l x v H). lia.
Qed.

Lemma num_app : forall f a b, num f (a ++ b) = num f a + num f b.
Proof. induction a; intros; cbn [app num]; [reflexivity|]. rewrite IHa. lia. Qed.

Lemma inmsgs_app : forall c a b, inmsgs c (a ++ b) = inmsgs c a + inmsgs c b.
Proof. induction a; intros; cbn [app inmsgs]; [reflexivity|]. rewrite IHa. lia. Qed.

Lemma num_pos : forall f ls l x, nth_error ls l = Some x -> f x = true -> num f ls > 0.
Proof.
  induction ls as [|y r IH]; intros l x H E; [destruct l; discriminate|].
  destruct l as [|l]; cbn [num nth_error] in *.
  - injection H as <-. rewrite E. cbn [b2n]. lia.
  - specialize (IH l x H E). lia.
Qed.

Lemma num_zero : forall f ls l x, num f ls = 0 -> nth_error ls l = Some x -> f x = false.
Proof.
  intros f ls l x Z H. destruct (f x) eqn:E; [|reflexivity].
  pose proof (num_pos f ls l x H E). lia.
Qed.

Lemma exists_num : forall f ls, existsb f ls = false -> num f ls = 0.
Proof.
  induction ls as [|y r IH]; cbn [existsb num]; intros; [reflexivity|].
  apply orb_false_iff in H as [A B]. rewrite A, (IH B). reflexivity.
Qed.

Lemma occ_remove_op : forall l c d os,
  existsb (fun o => Nat.eqb (fst o) l && Nat.eqb (snd o) c) os = true ->
  count_occ Nat.eq_dec (map snd (remove_first
     (fun o : nat * nat => Nat.eqb (fst o) l && Nat.eqb (snd o) c) os)) d
  + (if Nat.eq_dec c d then 1 else 0) = count_occ Nat.eq_dec (map snd os) d.
Proof.
  induction os as [|[a b] r IH]; cbn [existsb]; intros H; [discriminate|].
  cbn [remove_first fst snd] in *.
  destruct (Nat.eqb a l && Nat.eqb b c) eqn:E.
  - apply andb_prop in E as [_ E]. apply Nat.eqb_eq in E. subst b. cbn [map snd count_occ].
    destruct (Nat.eq_dec c d); lia.
  - cbn [orb] in H. specialize (IH H). cbn [map snd count_occ]. destruct (Nat.eq_dec b d); lia.
Qed.

Lemma occ_remove_rem : forall c d rs,
  existsb (Nat.eqb c) (map fst rs) = true ->
  count_occ Nat.eq_dec (map fst (remove_first
     (fun r : nat * parent => Nat.eqb c (fst r)) rs)) d
  + (if Nat.eq_dec c d then 1 else 0) = count_occ Nat.eq_dec (map fst rs) d.
Proof.
  induction rs as [|[a b] r IH]; cbn [map existsb]; intros H; [discriminate|].
  cbn [remove_first fst snd] in *.
  destruct (Nat.eqb c a) eqn:E.
  - apply Nat.eqb_eq in E. subst a. cbn [map fst count_occ].
    destruct (Nat.eq_dec c d); lia.
  - cbn [orb] in H. specialize (IH H). cbn [map fst count_occ]. destruct (Nat.eq_dec a d); lia.
Qed.

Lemma in_remove : forall (A : Type) (f : A -> bool) xs x, In x (remove_first f xs) -> In x xs.
Proof.
  induction xs as [|y r IH]; intros x H; [destruct H|]. cbn [remove_first] in H.
  destruct (f y); [right; exact H|]. destruct H as [->|H]; [now left|right; auto].
Qed.

Lemma drop_cases : forall c s,
  drop c s = s \/ (svc s = Gone /\ existsb (Nat.eqb c) (owners s) = false /\
                   drop c s = set_bad (Some DeadSocket) s).
Proof.
  intros c s. unfold drop. destruct (existsb _ _); [now left|].
  destruct (svc s); auto.
Qed.

Lemma drop_none : forall c s, bad (drop c s) = None -> drop c s = s.
Proof.
  intros c s H. destruct (drop_cases c s) as [E|(_ & _ & E)]; [exact E|].
  rewrite E in H. discriminate.
Qed.

Lemma drop_alive : forall c s, svc s <> Gone -> drop c s = s.
Proof. intros c s H. destruct (drop_cases c s) as [E|(G & _)]; [exact E|contradiction]. Qed.

Lemma drops_none : forall cs s, bad (drops cs s) = None -> drops cs s = s.
Proof.
  induction cs as [|c r IH]; intros s H; [reflexivity|]. cbn [drops fold_right] in *.
  fold (drops r s) in *. pose proof (drop_none _ _ H) as E. rewrite E in *. auto.
Qed.

Lemma drops_alive : forall cs s, svc s <> Gone -> drops cs s = s.
Proof.
  induction cs as [|c r IH]; intros s H; [reflexivity|]. cbn [drops fold_right].
  fold (drops r s). rewrite (IH s H). now apply drop_alive.
Qed.

Lemma inv_init : inv 0 init.
Proof.
  constructor; cbn; try tauto; try lia; try (intros; discriminate).
  - intros l x H. destruct l; discriminate.
  - split; [lia|reflexivity].
Qed.

Lemma release_inv : forall s, inv 1 s -> sys s = true -> inv 0 (release false s).
Proof.
  intros s I Y. pose proof (i_count _ _ I) as C. unfold release.
  assert (L : svc s = Live) by (apply (i_live _ _ I); lia).
  destruct (count s) as [|[|n]] eqn:N; [lia| |].
  - destruct I. constructor; cbn [svc count tcp udp sys lst ops rem io next set_svc set_count];
      auto; try discriminate; try lia.
    + split; [discriminate|lia].
    + rewrite Y. discriminate.
  - destruct I. constructor; cbn [svc count tcp udp sys lst ops rem io next set_svc set_count];
      auto; try lia.
    + split; [cbn [Nat.pred]; lia|auto].
Qed.

Lemma release_io_inv : forall s, inv 1 s -> bad (release true s) = None ->
  inv 0 (release true s).
Proof.
  intros s I B. pose proof (i_count _ _ I) as C. unfold release in *.
  assert (L : svc s = Live) by (apply (i_live _ _ I); lia).
  destruct (count s) as [|[|n]] eqn:N; [lia|discriminate|].
  destruct I. constructor; cbn [svc count tcp udp sys lst ops rem io next set_svc set_count];
    auto; try lia.
  + split; [cbn [Nat.pred]; lia|auto].
Qed.

Lemma extra_put : forall l x v s, nth_error (lst s) l = Some x ->
  extra (put l v s) + (if locks l (io s) then b2n (negb (l_acc x)) else 0)
  = extra s + (if locks l (io s) then b2n (negb (l_acc v)) else 0).
Proof.
  intros l x v s H. unfold extra, put. cbn [io lst set_lst].
  destruct (io s) as [|k c|k c|k c|c]; cbn [locks]; try lia;
    rewrite (nth_upd _ _ _ v k H); destruct (Nat.eqb k l) eqn:E; try lia;
    apply Nat.eqb_eq in E; subst k; rewrite H; lia.
Qed.

Lemma put_inv : forall k k' l x v s, inv k s -> nth_error (lst s) l = Some x ->
  okl v ->
  k' + b2n (l_cell v) + b2n (l_acc v) + (if locks l (io s) then b2n (negb (l_acc v)) else 0)
   = k + b2n (l_cell x) + b2n (l_acc x) + (if locks l (io s) then b2n (negb (l_acc x)) else 0) ->
  (forall c, count_occ Nat.eq_dec (l_msgs v) c <= count_occ Nat.eq_dec (l_msgs x) c) ->
  (l_cell v = true -> l_cell x = true) ->
  ((l_cell v = true /\ l_phase v = Running) \/ forall c, ~ In (c, PListener l) (rem s)) ->
  (l_phase v = New -> l_phase x = New) ->
  inv k' (put l v s).
Proof.
  intros k k' l x v s I H V K M Ce R PN.
  pose proof (extra_put l x v s H) as X.
  pose proof (num_upd l_cell _ _ _ v H) as NC. pose proof (num_upd l_acc _ _ _ v H) as NA.
  assert (O : forall c, occ c (put l v s) <= occ c s).
  { intros c. unfold occ, put. cbn [lst ops rem set_lst].
    pose proof (inmsgs_upd c _ _ _ v H). specialize (M c). lia. }
  destruct I.
  constructor; try (unfold put; cbn [svc count tcp udp sys lst ops rem io next set_lst]; auto; fail).
  - unfold put at 1 2 3 4 5. cbn [svc count tcp udp sys lst ops rem io next set_lst]. lia.
  - unfold put. cbn [lst set_lst]. intros j y. rewrite (nth_upd _ _ _ v j H).
    destruct (Nat.eqb j l); intros E; [injection E as <-; exact V|eauto].
  - unfold put. cbn [lst tcp set_lst]. intros P. apply i_cell0.
    destruct (l_cell v) eqn:CV.
    + rewrite (Ce eq_refl) in NC. lia.
    + cbn [b2n] in NC. lia.
  - unfold put. cbn [lst rem set_lst]. intros c j Hin. rewrite (nth_upd _ _ _ v j H).
    destruct (Nat.eqb j l) eqn:E.
    + apply Nat.eqb_eq in E. subst j. destruct R as [[R1 R2]|R]; [|destruct (R c Hin)].
      exists v. auto.
    + eauto.
  - intros c. specialize (O c). specialize (i_occ0 c). lia.
  - intros c P. apply i_next0. specialize (O c). lia.
  - unfold put at 1. cbn [io set_lst]. intros j c E. specialize (O c).
    specialize (i_tell0 j c E). lia.
  - unfold put. cbn [lst ops set_lst]. intros j c Hin. rewrite (nth_upd _ _ _ v j H).
    destruct (Nat.eqb j l); eauto.
  - unfold put. cbn [lst io set_lst]. intros j Hin. rewrite (nth_upd _ _ _ v j H).
    destruct (Nat.eqb j l) eqn:E; [|eauto]. apply Nat.eqb_eq in E. subst j.
    destruct (i_lock0 l Hin) as (y & Y1 & Y2). rewrite H in Y1. injection Y1 as <-.
    exists v. split; [reflexivity|]. auto.
Qed.

Lemma phase_eqb_eq : forall p q, phase_eqb p q = true -> p = q.
Proof. intros [] []; cbn; congruence. Qed.

Lemma parent_eqb_refl : forall p, parent_eqb p p = true.
Proof. intros []; cbn; auto using Nat.eqb_refl. Qed.

Lemma childless_none : forall p s c, childless p s = true -> ~ In (c, p) (rem s).
Proof.
  intros p s c H Hin. unfold childless in H. apply negb_true_iff in H.
  assert (E : existsb (fun r => parent_eqb (snd r) p) (rem s) = true).
  { apply existsb_exists. exists (c, p). split; [exact Hin|]. apply parent_eqb_refl. }
  congruence.
Qed.

Lemma occ_fresh : forall s c, inv 0 s -> next s <= c -> occ c s = 0.
Proof.
  intros s c I L. destruct (occ c s) eqn:E; [reflexivity|].
  assert (c < next s) by (apply (i_next _ _ I); lia). lia.
Qed.

Ltac prj := cbn [svc count tcp udp sys lst ops rem io next bad set_svc set_count set_tcp set_udp
  set_sys set_lst set_ops set_rem set_io set_next set_bad put start_accept] in *.

Ltac old I := first
  [ exact (i_ok _ _ I) | exact (i_cell _ _ I) | exact (i_tcp _ _ I) | exact (i_udp _ _ I)
  | exact (i_lis _ _ I) | exact (i_live _ _ I) | exact (i_gone _ _ I) | exact (i_occ _ _ I)
  | exact (i_next _ _ I) | exact (i_io _ _ I) | exact (i_tell _ _ I) | exact (i_ops _ _ I)
  | exact (i_lock _ _ I) | exact (i_sys _ _ I) | exact (i_count _ _ I) ].

Lemma bind_inv : forall s, inv 0 s -> tcp s = true ->
  inv 0 (set_count (S (count s))
           (set_lst (lst s ++ [{| l_cell := true; l_phase := New; l_acc := false;
                                  l_held := 0; l_msgs := [] |}]) s)).
Proof.
  intros s I T.
  assert (G : forall l x, nth_error (lst s) l = Some x ->
     forall v, nth_error (lst s ++ [v]) l = Some x).
  { intros l x H v. rewrite nth_error_app1; [exact H|]. apply nth_error_Some. congruence. }
  constructor; prj; try old I.
  - rewrite !num_app. cbn [num l_cell l_acc b2n]. pose proof (i_count _ _ I) as C.
    assert (E : extra s = extra (set_count (S (count s)) (set_lst (lst s ++
       [{| l_cell := true; l_phase := New; l_acc := false; l_held := 0; l_msgs := [] |}]) s))).
    { unfold extra. prj. pose proof (i_lock _ _ I) as L.
      destruct (io s) as [|k c|k c|k c|c]; try reflexivity;
      (destruct (L k) as (x & X & _); [cbn; apply Nat.eqb_refl|]; rewrite X, (G _ _ X); reflexivity). }
    rewrite <- E. lia.
  - intros l x H. destruct (Nat.lt_ge_cases l (length (lst s))) as [L|L].
    + rewrite nth_error_app1 in H by exact L. exact (i_ok _ _ I _ _ H).
    + rewrite nth_error_app2 in H by exact L.
      destruct (l - length (lst s)) as [|n]; cbn in H; [|destruct n; discriminate].
      injection H as <-. unfold okl; cbn; repeat split; intros; congruence.
  - auto.
  - intros c l H. destruct (i_lis _ _ I c l H) as (x & X & Y). exists x. auto.
  - pose proof (i_live _ _ I). pose proof (i_count _ _ I). rewrite T in *. cbn [b2n] in *.
    split; [lia|intros _; apply H; lia].
  - intros c. unfold occ. prj. rewrite inmsgs_app. cbn [inmsgs l_msgs count_occ].
    pose proof (i_occ _ _ I c). unfold occ in *. lia.
  - intros c. unfold occ. prj. rewrite inmsgs_app. cbn [inmsgs l_msgs count_occ].
    pose proof (i_next _ _ I c). unfold occ in *. intros; apply H; lia.
  - intros l c E. pose proof (i_tell _ _ I l c E) as O. unfold occ in *. prj.
    rewrite inmsgs_app. cbn [inmsgs l_msgs count_occ]. lia.
  - intros l c H. destruct (i_ops _ _ I l c H) as [x X]. eauto.
  - intros l H. destruct (i_lock _ _ I l H) as (x & X & Y). eauto.
Qed.

(** Giving a fresh connection to the service. *)
Lemma arm_inv : forall s l x, inv 0 s -> nth_error (lst s) l = Some x -> svc s <> Gone ->
  inv 0 (start_accept l s).
Proof.
  intros s l x I H G. pose proof (occ_fresh s (next s) I (le_n _)) as F.
  constructor; prj; try old I.
  - intros E. contradiction.
  - intros c. unfold occ in *. prj. rewrite map_app, count_occ_app. cbn [map snd count_occ].
    pose proof (i_occ _ _ I c). unfold occ in *.
    destruct (Nat.eq_dec (next s) c); [subst c|]; lia.
  - intros c. unfold occ in *. prj. rewrite map_app, count_occ_app. cbn [map snd count_occ].
    pose proof (i_next _ _ I c). unfold occ in *.
    destruct (Nat.eq_dec (next s) c); [lia|]. intros P. assert (c < next s) by (apply H0; lia). lia.
  - intros c P. pose proof (i_io _ _ I c P). lia.
  - intros k c E. pose proof (i_tell _ _ I k c E) as O.
    assert (c < next s) by (apply (i_io _ _ I); rewrite E; cbn; auto).
    unfold occ in *. prj. rewrite map_app, count_occ_app. cbn [map snd count_occ].
    destruct (Nat.eq_dec (next s) c); lia.
  - intros k c P. apply in_app_or in P as [P|[P|[]]]; [exact (i_ops _ _ I k c P)|].
    injection P as <- _. eauto.
Qed.

(** The handler lets go of what it keeps. *)
Lemma idle_inv : forall s, inv 0 s -> (forall l, locks l (io s) = false) -> inv 0 (set_io Idle s).
Proof.
  intros s I L.
  assert (X : extra s = 0).
  { unfold extra. destruct (io s) as [|k c|k c|k c|c]; try reflexivity;
    specialize (L k); cbn in L; rewrite Nat.eqb_refl in L; discriminate. }
  constructor; prj; try old I.
  - pose proof (i_count _ _ I). unfold extra at 1. prj. lia.
  - intros G. split; [reflexivity|]. apply (i_gone _ _ I G).
  - cbn. tauto.
  - discriminate.
  - cbn. discriminate.
Qed.

Lemma rem_inv : forall s p, inv 0 s ->
  (p = PTcp /\ tcp s = true) \/ (p = PUdp /\ udp s = true) ->
  inv 0 (set_next (S (next s)) (set_rem (rem s ++ [(next s, p)]) s)).
Proof.
  intros s p I P. pose proof (occ_fresh s (next s) I (le_n _)) as F.
  constructor; prj; try old I.
  - intros c H. apply in_app_or in H as [H|[H|[]]]; [exact (i_tcp _ _ I c H)|].
    injection H as _ ->. destruct P as [[_ P]|[P _]]; [exact P|discriminate].
  - intros c H. apply in_app_or in H as [H|[H|[]]]; [exact (i_udp _ _ I c H)|].
    injection H as _ ->. destruct P as [[P _]|[_ P]]; [discriminate|exact P].
  - intros c l H. apply in_app_or in H as [H|[H|[]]]; [exact (i_lis _ _ I c l H)|].
    injection H as _ ->. destruct P as [[P _]|[P _]]; discriminate.
  - intros c. unfold occ in *. prj. rewrite map_app, count_occ_app. cbn [map fst count_occ].
    pose proof (i_occ _ _ I c). unfold occ in *.
    destruct (Nat.eq_dec (next s) c); [subst c|]; lia.
  - intros c. unfold occ in *. prj. rewrite map_app, count_occ_app. cbn [map fst count_occ].
    pose proof (i_next _ _ I c). unfold occ in *.
    destruct (Nat.eq_dec (next s) c); [lia|]. intros Q. assert (c < next s) by (apply H; lia). lia.
  - intros c Q. pose proof (i_io _ _ I c Q). lia.
  - intros k c E. pose proof (i_tell _ _ I k c E) as O.
    assert (c < next s) by (apply (i_io _ _ I); rewrite E; cbn; auto).
    unfold occ in *. prj. rewrite map_app, count_occ_app. cbn [map fst count_occ].
    destruct (Nat.eq_dec (next s) c); lia.
Qed.

Lemma occ_in_rem : forall c s, existsb (Nat.eqb c) (map fst (rem s)) = true -> occ c s > 0.
Proof.
  intros c s H. apply existsb_exists in H as (d & D & E). apply Nat.eqb_eq in E. subst d.
  unfold occ. apply (count_occ_In Nat.eq_dec) in D. lia.
Qed.

Lemma remote_inv : forall s c, inv 0 s -> existsb (Nat.eqb c) (map fst (rem s)) = true ->
  inv 0 (set_rem (remove_first (fun r => Nat.eqb c (fst r)) (rem s)) s).
Proof.
  intros s c I H.
  assert (O : forall d, occ d (set_rem (remove_first (fun r => Nat.eqb c (fst r)) (rem s)) s) <= occ d s).
  { intros d. unfold occ. prj. pose proof (occ_remove_rem c d _ H). lia. }
  constructor; prj; try old I.
  - intros d P. apply in_remove in P. exact (i_tcp _ _ I d P).
  - intros d P. apply in_remove in P. exact (i_udp _ _ I d P).
  - intros d l P. apply in_remove in P. exact (i_lis _ _ I d l P).
  - intros d. specialize (O d). pose proof (i_occ _ _ I d). lia.
  - intros d P. apply (i_next _ _ I). specialize (O d). lia.
  - intros k d E. specialize (O d). pose proof (i_tell _ _ I k d E). lia.
Qed.

Lemma op_in : forall l c os,
  existsb (fun o : nat * nat => Nat.eqb (fst o) l && Nat.eqb (snd o) c) os = true -> In (l, c) os.
Proof.
  intros l c os H. apply existsb_exists in H as ([a b] & D & E). cbn in E.
  apply andb_prop in E as [E1 E2]. apply Nat.eqb_eq in E1, E2. now subst.
Qed.

Lemma ops_inv : forall s l c, inv 0 s ->
  existsb (fun o => Nat.eqb (fst o) l && Nat.eqb (snd o) c) (ops s) = true ->
  inv 0 (set_ops (remove_first (fun o => Nat.eqb (fst o) l && Nat.eqb (snd o) c) (ops s)) s)
  /\ occ c (set_ops (remove_first (fun o => Nat.eqb (fst o) l && Nat.eqb (snd o) c) (ops s)) s) = 0
  /\ c < next s.
Proof.
  intros s l c I H.
  assert (O : forall d, occ d (set_ops (remove_first
     (fun o => Nat.eqb (fst o) l && Nat.eqb (snd o) c) (ops s)) s)
     + (if Nat.eq_dec c d then 1 else 0) = occ d s).
  { intros d. unfold occ. prj. pose proof (occ_remove_op l c d _ H). lia. }
  split; [|split].
  - constructor; prj; try old I.
    + intros G. destruct (i_gone _ _ I G) as [A B]. rewrite B in H. discriminate.
    + intros d. specialize (O d). pose proof (i_occ _ _ I d). lia.
    + intros d P. apply (i_next _ _ I). specialize (O d). lia.
    + intros k d E. specialize (O d). pose proof (i_tell _ _ I k d E). lia.
    + intros k d P. apply in_remove in P. exact (i_ops _ _ I k d P).
  - specialize (O c). destruct (Nat.eq_dec c c); [|contradiction].
    pose proof (i_occ _ _ I c). lia.
  - apply (i_next _ _ I). specialize (O c). destruct (Nat.eq_dec c c); [|contradiction]. lia.
Qed.

Lemma cell_live : forall s l x, inv 0 s -> nth_error (lst s) l = Some x -> l_cell x = true ->
  tcp s = true /\ sys s = true /\ svc s = Live.
Proof.
  intros s l x I H C. pose proof (num_pos l_cell _ _ _ H C) as P.
  pose proof (i_cell _ _ I P) as T. split; [exact T|]. split.
  - destruct (sys s) eqn:Y; [reflexivity|]. destruct (i_sys _ _ I Y) as [E _]. congruence.
  - apply (i_live _ _ I). rewrite (i_count _ _ I), T. cbn [b2n]. lia.
Qed.

Lemma lock_live : forall s l, inv 0 s -> locks l (io s) = true -> svc s = Live.
Proof.
  intros s l I L. destruct (i_lock _ _ I l L) as (x & X & _). apply (i_live _ _ I).
  rewrite (i_count _ _ I). unfold extra.
  assert (E : match io s with AccTell k _ | AccArm k _ | AccEnd k _ =>
                match nth_error (lst s) k with Some y => b2n (negb (l_acc y)) | None => 0 end
              | _ => 0 end = b2n (negb (l_acc x))).
  { destruct (io s) as [|k c|k c|k c|c]; cbn in L; try discriminate;
      apply Nat.eqb_eq in L; subst k; now rewrite X. }
  rewrite E. destruct (l_acc x) eqn:A; cbn [negb b2n]; [|lia].
  pose proof (num_pos l_acc _ _ _ X A). lia.
Qed.

(** A change of what the handler does, with the same acceptor and connection. *)
Lemma phase_inv : forall s w, inv 0 s -> (forall l, locks l w = locks l (io s)) ->
  extra (set_io w s) = extra s ->
  held_by_io w = held_by_io (io s) -> (forall l c, w <> AccTell l c) -> svc s <> Gone ->
  inv 0 (set_io w s).
Proof.
  intros s w I L X H N G. constructor; prj; try old I.
  - rewrite X. exact (i_count _ _ I).
  - contradiction.
  - rewrite H. exact (i_io _ _ I).
  - intros l c E. destruct (N l c E).
  - intros l E. rewrite L in E. exact (i_lock _ _ I l E).
Qed.

(** The accept message is enqueued. *)
Lemma msg_inv : forall s l c x, inv 0 s -> nth_error (lst s) l = Some x ->
  (l_cell x = true \/ l_held x > 0) ->
  occ c s = 0 -> c < next s -> (forall k d, io s <> AccTell k d) ->
  inv 0 (put l {| l_cell := l_cell x; l_phase := l_phase x; l_acc := l_acc x;
                  l_held := l_held x; l_msgs := l_msgs x ++ [c] |} s).
Proof.
  intros s l c x I H V Z F N.
  set (v := {| l_cell := l_cell x; l_phase := l_phase x; l_acc := l_acc x;
               l_held := l_held x; l_msgs := l_msgs x ++ [c] |}).
  pose proof (extra_put l x v s H) as X.
  pose proof (num_upd l_cell _ _ _ v H) as NC. pose proof (num_upd l_acc _ _ _ v H) as NA.
  assert (O : forall d, occ d (put l v s) = occ d s + (if Nat.eq_dec c d then 1 else 0)).
  { intros d. unfold occ. prj. pose proof (inmsgs_upd d _ _ _ v H) as E.
    change (l_msgs v) with (l_msgs x ++ [c]) in E.
    rewrite count_occ_app in E. cbn [count_occ] in E. destruct (Nat.eq_dec c d); lia. }
  change (l_cell v) with (l_cell x) in *. change (l_acc v) with (l_acc x) in *.
  assert (D : lst (put l v s) = upd l v (lst s)) by reflexivity.
  constructor; try (prj; old I); try rewrite D.
  - change (count (put l v s)) with (count s). change (tcp (put l v s)) with (tcp s).
    change (udp (put l v s)) with (udp s). pose proof (i_count _ _ I). lia.
  - intros j y. rewrite (nth_upd _ _ _ v j H).
    destruct (Nat.eqb j l); intros E; [injection E as <-|exact (i_ok _ _ I _ _ E)].
    destruct (i_ok _ _ I _ _ H) as (A1 & A2 & A3). split; [exact A1|]. split; [exact A2|].
    cbn. intros B1 B2. destruct V as [V|V]; [congruence|lia].
  - change (tcp (put l v s)) with (tcp s). intros P. apply (i_cell _ _ I). lia.
  - intros d j P. rewrite (nth_upd _ _ _ v j H). destruct (i_lis _ _ I d j P) as (y & Y1 & Y2).
    destruct (Nat.eqb j l) eqn:E; [|eauto]. apply Nat.eqb_eq in E. subst j.
    rewrite H in Y1. injection Y1 as <-. exists v. auto.
  - intros d. rewrite O. pose proof (i_occ _ _ I d). destruct (Nat.eq_dec c d); [subst d|]; lia.
  - intros d. rewrite O. change (next (put l v s)) with (next s). intros P.
    destruct (Nat.eq_dec c d); [lia|]. apply (i_next _ _ I). lia.
  - intros k d E. destruct (N k d E).
  - intros j d P. rewrite (nth_upd _ _ _ v j H). destruct (Nat.eqb j l); [eauto|exact (i_ops _ _ I j d P)].
  - intros j P. rewrite (nth_upd _ _ _ v j H). destruct (i_lock _ _ I j P) as (y & Y1 & Y2).
    destruct (Nat.eqb j l) eqn:E; [|eauto]. apply Nat.eqb_eq in E. subst j.
    rewrite H in Y1. injection Y1 as <-. exists v. auto.
Qed.


Lemma count_inv : forall s k, inv k s -> svc s = Live -> inv (S k) (set_count (S (count s)) s).
Proof.
  intros s k I L. constructor; prj; try old I.
  - pose proof (i_count _ _ I). unfold extra in *. prj. lia.
  - split; [lia|auto].
Qed.

Lemma mtcp_inv : forall s, inv 0 s -> tcp s = true -> num l_cell (lst s) = 0 ->
  childless PTcp s = true -> inv 1 (set_tcp false s).
Proof.
  intros s I T N C. constructor; prj; try old I.
  - pose proof (i_count _ _ I) as K. rewrite T in K. unfold extra in *. prj. cbn [b2n] in *. lia.
  - lia.
  - intros c P. destruct (childless_none _ _ c C P).
  - intros P. destruct (i_sys _ _ I P). congruence.
Qed.

Lemma mudp_inv : forall s, inv 0 s -> udp s = true -> childless PUdp s = true ->
  inv 1 (set_udp false s).
Proof.
  intros s I T C. constructor; prj; try old I.
  - pose proof (i_count _ _ I) as K. rewrite T in K. unfold extra in *. prj. cbn [b2n] in *. lia.
  - intros c P. destruct (childless_none _ _ c C P).
  - intros P. destruct (i_sys _ _ I P) as (_ & P2 & _). congruence.
Qed.

Ltac okv := unfold okl in *; cbn; intuition congruence.

Theorem step_inv : forall e s s', inv 0 s -> step e s = Some s' -> bad s' = None -> inv 0 s'.
Proof.
  intros e s s' I H B. unfold step in H. destruct (bad s) eqn:B0; [discriminate|].
  destruct e.
  - (* Bind *)
    destruct (tcp s) eqn:T; [|discriminate]. injection H as <-. now apply bind_inv.
  - (* Start *)
    destruct (nth_error (lst s) l) as [x|] eqn:X; [|discriminate].
    destruct (l_cell x && phase_eqb (l_phase x) New) eqn:G; [|discriminate].
    apply andb_prop in G as [G1 G2]. apply phase_eqb_eq in G2. injection H as <-.
    pose proof (i_ok _ _ I _ _ X) as OK. destruct OK as (A1 & A2 & A3).
    destruct (cell_live _ _ _ I X G1) as (T & Y & L).
    assert (NA : l_acc x = false).
    { destruct (l_acc x) eqn:A; [|reflexivity]. destruct (A1 eq_refl). congruence. }
    assert (NL : locks l (io s) = false).
    { destruct (locks l (io s)) eqn:E; [|reflexivity].
      destruct (i_lock _ _ I l E) as (y & Y1 & Y2). congruence. }
    eapply arm_inv; [|prj; rewrite (nth_upd _ _ _ _ l X), Nat.eqb_refl; reflexivity|prj; congruence].
    change (inv 0 (put l {| l_cell := true; l_phase := Running; l_acc := true;
             l_held := l_held x; l_msgs := l_msgs x |} (set_count (S (count s)) s))).
    eapply put_inv; [apply count_inv; [exact I|exact L]|exact X|okv| |reflexivity|auto|left; auto|discriminate].
    change (io (set_count (S (count s)) s)) with (io s). rewrite NL, G1, NA. reflexivity.
  - (* StartFail *)
    destruct (nth_error (lst s) l) as [x|] eqn:X; [|discriminate].
    destruct (l_cell x && phase_eqb (l_phase x) New) eqn:G; [|discriminate].
    apply andb_prop in G as [G1 G2]. apply phase_eqb_eq in G2. injection H as <-.
    pose proof (i_ok _ _ I _ _ X) as OK. destruct OK as (A1 & A2 & A3).
    assert (NA : l_acc x = false).
    { destruct (l_acc x) eqn:A; [|reflexivity]. destruct (A1 eq_refl). congruence. }
    eapply put_inv; [exact I|exact X|okv| |reflexivity|auto|left; auto|discriminate].
    rewrite G1, NA. reflexivity.
  - (* Complete *)
    destruct (is_idle (io s) && negb (is_gone (svc s)) &&
      existsb (fun o => Nat.eqb (fst o) l && Nat.eqb (snd o) c) (ops s)) eqn:G; [|discriminate].
    apply andb_prop in G as [G G3]. apply andb_prop in G as [G1 G2].
    destruct (ops_inv s l c I G3) as (I1 & O & F).
    destruct (nth_error (lst s) l) as [x|] eqn:X; [|discriminate].
    assert (E : io s = Idle) by (destruct (io s); [reflexivity|discriminate..]).
    destruct (l_acc x) eqn:A; injection H as <-.
    + set (s1 := set_ops (remove_first (fun o => Nat.eqb (fst o) l && Nat.eqb (snd o) c) (ops s)) s) in *.
      destruct (i_ok _ _ I _ _ X) as (A1 & _ & _). destruct (A1 A) as [A2 A3].
      destruct (cell_live _ _ _ I X A2) as (_ & _ & L).
      constructor; try (change (inv 0 s1) in I1; prj; old I1).
      * pose proof (i_count _ _ I1) as K. unfold extra in *. subst s1. prj. rewrite E in K.
        rewrite X, A. cbn [negb b2n]. exact K.
      * subst s1. prj. intros Q. congruence.
      * prj. intros d [<-|[]]. exact F.
      * intros k d Q. injection Q as <- <-. exact O.
      * subst s1. prj. intros k Q. cbn in Q. apply Nat.eqb_eq in Q. subst k. exists x.
        split; [exact X|congruence].
    + apply drop_none in B. rewrite B. exact I1.
  - (* Tell *)
    destruct (io s) as [|l c|l c|l c|c] eqn:E; try discriminate.
    destruct (sys s) eqn:Y; [|injection H as <-; discriminate].
    destruct (nth_error (lst s) l) as [x|] eqn:X; [|discriminate].
    assert (L : svc s = Live).
    { apply (lock_live s l I). rewrite E. cbn. apply Nat.eqb_refl. }
    assert (I1 : inv 0 (set_io (AccArm l c) s)).
    { apply phase_inv; [exact I|rewrite E; reflexivity| |rewrite E; reflexivity|discriminate|congruence].
      unfold extra. prj. rewrite E. reflexivity. }
    destruct ((l_cell x || Nat.ltb 0 (l_held x)) && negb (phase_eqb (l_phase x) Closed)) eqn:G;
      injection H as <-; [|exact I1].
    apply andb_prop in G as [G1 G2].
    apply msg_inv; [exact I1|exact X| |exact (i_tell _ _ I l c E)| |discriminate].
    + apply orb_prop in G1 as [G1|G1]; [now left|right; now apply Nat.ltb_lt in G1].
    + prj. apply (i_io _ _ I). rewrite E. cbn. auto.
  - (* Arm *)
    destruct (io s) as [|l c|l c|l c|c] eqn:E; try discriminate. injection H as <-.
    assert (LK : locks l (io s) = true) by (rewrite E; cbn; apply Nat.eqb_refl).
    pose proof (lock_live s l I LK) as L. destruct (i_lock _ _ I l LK) as (x & X & _).
    eapply arm_inv; [|exact X|prj; congruence].
    apply phase_inv; [exact I|rewrite E; reflexivity| |rewrite E; reflexivity|discriminate|congruence].
    unfold extra. prj. rewrite E. reflexivity.
  - (* End *)
    destruct (io s) as [|l c|l c|l c|c] eqn:E; try discriminate.
    assert (LK : locks l (io s) = true) by (rewrite E; cbn; apply Nat.eqb_refl).
    pose proof (lock_live s l I LK) as L.
    destruct (nth_error (lst s) l) as [x|] eqn:X; [|discriminate]. injection H as <-.
    assert (XE : extra s = b2n (negb (l_acc x))) by (unfold extra; rewrite E, X; reflexivity).
    assert (I1 : inv (b2n (negb (l_acc x))) (set_io Idle s)).
    { constructor; prj; try old I.
      - pose proof (i_count _ _ I). unfold extra at 1. prj. lia.
      - congruence.
      - cbn. tauto.
      - discriminate.
      - cbn. discriminate. }
    pose proof (drop_none _ _ B) as D. rewrite D in *.
    destruct (l_acc x) eqn:A; [exact I1|]. apply release_io_inv; assumption.
  - (* Take *)
    destruct (nth_error (lst s) l) as [x|] eqn:X; [|discriminate].
    destruct (l_msgs x) as [|c r] eqn:M; [discriminate|].
    destruct (l_cell x && phase_eqb (l_phase x) Running) eqn:G; [|discriminate].
    apply andb_prop in G as [G1 G2]. apply phase_eqb_eq in G2.
    pose proof (i_ok _ _ I _ _ X) as OK.
    set (v := {| l_cell := l_cell x; l_phase := l_phase x; l_acc := l_acc x;
                 l_held := l_held x; l_msgs := r |}) in *.
    assert (I1 : inv 0 (put l v s)).
    { eapply put_inv; [exact I|exact X| |reflexivity| |auto|left; auto|auto].
      - destruct OK as (A1 & A2 & A3). split; [exact A1|]. split; [exact A2|]. cbn. congruence.
      - intros d. rewrite M. cbn [v l_msgs count_occ]. destruct (Nat.eq_dec c d); lia. }
    assert (OC : forall d, occ d (put l v s) + (if Nat.eq_dec c d then 1 else 0) = occ d s).
    { intros d. unfold occ. prj. pose proof (inmsgs_upd d _ _ _ v X) as Q. rewrite M in Q.
      cbn [v l_msgs count_occ] in Q. destruct (Nat.eq_dec c d); lia. }
    injection H as <-. destruct ok.
    + assert (OC2 : forall d, occ d (set_rem (rem s ++ [(c, PListener l)]) (put l v s)) = occ d s).
      { intros d. rewrite <- OC. unfold occ. prj. rewrite map_app, count_occ_app.
        cbn [map fst count_occ]. destruct (Nat.eq_dec c d); lia. }
      constructor; try (prj; old I1).
      * prj. intros d P. apply in_app_or in P as [P|[P|[]]]; [exact (i_tcp _ _ I d P)|discriminate].
      * prj. intros d P. apply in_app_or in P as [P|[P|[]]]; [exact (i_udp _ _ I d P)|discriminate].
      * prj. intros d j P. apply in_app_or in P as [P|[P|[]]]; [exact (i_lis _ _ I1 d j P)|].
        injection P as <- <-. rewrite (nth_upd _ _ _ v l X), Nat.eqb_refl. exists v. auto.
      * intros d. rewrite OC2. exact (i_occ _ _ I d).
      * intros d. rewrite OC2. exact (i_next _ _ I d).
      * intros k d P. rewrite OC2. exact (i_tell _ _ I k d P).
    + apply drop_none in B. rewrite B. exact I1.
  - (* Connect *)
    destruct (tcp s) eqn:T; [|discriminate]. injection H as <-. apply rem_inv; auto.
  - (* UdpBind *)
    destruct (udp s) eqn:T; [|discriminate]. injection H as <-. apply rem_inv; auto.
  - (* RecvBegin *)
    destruct (is_idle (io s) && negb (is_gone (svc s)) && existsb (Nat.eqb c) (map fst (rem s))) eqn:G;
      [|discriminate].
    apply andb_prop in G as [G G3]. apply andb_prop in G as [G1 G2]. injection H as <-.
    assert (E : io s = Idle) by (destruct (io s); [reflexivity|discriminate..]).
    constructor; prj; try old I.
    + pose proof (i_count _ _ I) as K. unfold extra in *. prj. rewrite E in K. exact K.
    + intros Q. rewrite Q in G2. discriminate.
    + intros d [<-|[]]. apply (i_next _ _ I). now apply occ_in_rem.
    + discriminate.
    + cbn. discriminate.
  - (* RecvEnd *)
    destruct (io s) as [|l c|l c|l c|c] eqn:E; try discriminate.
    destruct (sys s) eqn:Y; [|injection H as <-; discriminate]. injection H as <-.
    apply drop_none in B. rewrite B. apply idle_inv; [exact I|]. rewrite E. reflexivity.
  - (* EndRemote *)
    destruct (existsb (Nat.eqb c) (map fst (rem s))) eqn:G; [|discriminate]. injection H as <-.
    apply drop_none in B. rewrite B. now apply remote_inv.
  - (* Stop *)
    destruct (nth_error (lst s) l) as [x|] eqn:X; [|discriminate].
    destruct (l_cell x && phase_eqb (l_phase x) Running && childless (PListener l) s) eqn:G; [|discriminate].
    apply andb_prop in G as [G G3]. apply andb_prop in G as [G1 G2]. apply phase_eqb_eq in G2.
    destruct (cell_live _ _ _ I X G1) as (T & Y & L). injection H as <-.
    set (v := {| l_cell := true; l_phase := Stopped; l_acc := false;
                 l_held := l_held x; l_msgs := l_msgs x |}) in *.
    assert (I1 : inv (b2n (l_acc x && negb (locks l (io s)))) (put l v s)).
    { eapply put_inv; [exact I|exact X|okv| |reflexivity|auto| |discriminate].
      - rewrite G1. cbn [v l_cell l_acc b2n negb].
        destruct (l_acc x), (locks l (io s)); reflexivity.
      - right. intros c. now apply childless_none. }
    destruct (l_acc x && negb (locks l (io s))); [apply release_inv; assumption|exact I1].
  - (* Close *)
    destruct (nth_error (lst s) l) as [x|] eqn:X; [|discriminate].
    destruct (l_cell x && phase_eqb (l_phase x) Stopped) eqn:G; [|discriminate].
    apply andb_prop in G as [G1 G2]. apply phase_eqb_eq in G2. injection H as <-.
    pose proof (i_ok _ _ I _ _ X) as OK. destruct OK as (A1 & A2 & A3).
    assert (NA : l_acc x = false).
    { destruct (l_acc x) eqn:A; [|reflexivity]. destruct (A1 eq_refl). congruence. }
    eapply put_inv; [exact I|exact X|okv| |reflexivity|auto| |discriminate].
    + rewrite G1, NA. reflexivity.
    + right. intros c P. destruct (i_lis _ _ I c l P) as (y & Y1 & Y2 & Y3). congruence.
  - (* Free *)
    destruct (nth_error (lst s) l) as [x|] eqn:X; [|discriminate].
    destruct (l_cell x && phase_eqb (l_phase x) Closed && childless (PListener l) s) eqn:G; [|discriminate].
    apply andb_prop in G as [G G3]. apply andb_prop in G as [G1 G2]. apply phase_eqb_eq in G2.
    destruct (cell_live _ _ _ I X G1) as (T & Y & L).
    pose proof (i_ok _ _ I _ _ X) as OK. destruct OK as (A1 & A2 & A3).
    assert (NA : l_acc x = false).
    { destruct (l_acc x) eqn:A; [|reflexivity]. destruct (A1 eq_refl). congruence. }
    destruct (Nat.eqb (l_held x) 0) eqn:Hd; injection H as <-.
    + apply drops_none in B. rewrite B. apply release_inv; [|exact Y].
      eapply put_inv; [exact I|exact X|okv| |cbn; intros; lia|discriminate| |discriminate].
      * rewrite G1, NA. reflexivity.
      * right. intros c. now apply childless_none.
    + apply release_inv; [|exact Y]. apply Nat.eqb_neq in Hd.
      eapply put_inv; [exact I|exact X|okv| |reflexivity|discriminate| |discriminate].
      * rewrite G1, NA. reflexivity.
      * right. intros c. now apply childless_none.
  - (* Grab *)
    destruct (nth_error (lst s) l) as [x|] eqn:X; [|discriminate].
    destruct (l_cell x || Nat.ltb 0 (l_held x)) eqn:G; [|discriminate]. injection H as <-.
    pose proof (i_ok _ _ I _ _ X) as OK.
    eapply put_inv; [exact I|exact X|okv|reflexivity|reflexivity|auto| |auto].
    destruct (l_cell x) eqn:C.
    + destruct (phase_eqb (l_phase x) Running) eqn:P.
      * left. apply phase_eqb_eq in P. auto.
      * right. intros c Q. destruct (i_lis _ _ I c l Q) as (y & Y1 & Y2 & Y3).
        rewrite X in Y1. injection Y1 as <-. rewrite Y3 in P. discriminate.
    + right. intros c Q. destruct (i_lis _ _ I c l Q) as (y & Y1 & Y2 & Y3). congruence.
  - (* Let *)
    destruct (nth_error (lst s) l) as [x|] eqn:X; [|discriminate].
    destruct (l_held x) as [|h] eqn:Hd; [discriminate|].
    pose proof (i_ok _ _ I _ _ X) as OK.
    destruct (negb (l_cell x) && Nat.eqb h 0) eqn:G; injection H as <-.
    + apply andb_prop in G as [G1 G2]. apply negb_true_iff in G1.
      apply drops_none in B. rewrite B.
      eapply put_inv; [exact I|exact X| | |cbn; intros; lia|discriminate| |].
      * destruct OK as (A1 & A2 & A3). split; [|split]; cbn; auto.
        intros Q. destruct (A1 Q). congruence.
      * rewrite G1. reflexivity.
      * right. intros c Q. destruct (i_lis _ _ I c l Q) as (y & Y1 & Y2 & Y3). congruence.
      * cbn. auto.
    + eapply put_inv; [exact I|exact X| |reflexivity|reflexivity|auto| |auto].
      * destruct OK as (A1 & A2 & A3). split; [exact A1|split; [exact A2|]]. cbn. intros Q1 Q2.
        rewrite Q1, Q2 in G. discriminate.
      * destruct (l_cell x) eqn:C.
        -- destruct (phase_eqb (l_phase x) Running) eqn:P.
           ++ left. apply phase_eqb_eq in P. auto.
           ++ right. intros c Q. destruct (i_lis _ _ I c l Q) as (y & Y1 & Y2 & Y3).
              rewrite X in Y1. injection Y1 as <-. rewrite Y3 in P. discriminate.
        -- right. intros c Q. destruct (i_lis _ _ I c l Q) as (y & Y1 & Y2 & Y3). congruence.
  - (* FreeTcp *)
    destruct (tcp s && negb (existsb l_cell (lst s)) && childless PTcp s) eqn:G; [|discriminate].
    apply andb_prop in G as [G G3]. apply andb_prop in G as [G1 G2]. apply negb_true_iff in G2.
    injection H as <-. apply release_inv; [apply mtcp_inv; auto using exists_num|].
    prj. destruct (sys s) eqn:Y; [reflexivity|]. destruct (i_sys _ _ I Y). congruence.
  - (* FreeUdp *)
    destruct (udp s && childless PUdp s) eqn:G; [|discriminate].
    apply andb_prop in G as [G1 G2]. injection H as <-.
    apply release_inv; [now apply mudp_inv|].
    prj. destruct (sys s) eqn:Y; [reflexivity|]. destruct (i_sys _ _ I Y) as (_ & Q & _). congruence.
  - (* Join *)
    destruct (is_closing (svc s) && is_idle (io s)) eqn:G; [|discriminate].
    apply andb_prop in G as [G1 G2]. injection H as <-.
    assert (E : io s = Idle) by (destruct (io s); [reflexivity|discriminate..]).
    assert (OC : forall d, occ d (set_ops [] (set_svc Gone s)) <= occ d s)
      by (intros d; unfold occ; prj; cbn; lia).
    assert (Z : count s = 0).
    { destruct (count s) eqn:N; [reflexivity|].
      assert (Q : svc s = Live) by (apply (i_live _ _ I); lia). rewrite Q in G1. discriminate. }
    constructor; prj; try old I.
    + split; [discriminate|lia].
    + auto.
    + intros d. specialize (OC d). pose proof (i_occ _ _ I d). lia.
    + intros d P. apply (i_next _ _ I). specialize (OC d). lia.
    + intros k d P. congruence.
    + intros k d [].
    + intros Y. destruct (i_sys _ _ I Y) as (Q1 & Q2 & _). repeat split; auto; discriminate.
  - (* FreeSys *)
    destruct (sys s && negb (tcp s) && negb (udp s) && negb (is_closing (svc s))) eqn:G; [|discriminate].
    apply andb_prop in G as [G G4]. apply andb_prop in G as [G G3]. apply andb_prop in G as [G1 G2].
    apply negb_true_iff in G2, G3. injection H as <-.
    constructor; prj; try old I.
    intros _. split; [exact G2|split; [exact G3|]]. intros Q. rewrite Q in G4. discriminate.
Qed.

(** Executions. *)
Lemma run_app : forall a b s, run (a ++ b) s =
  match run a s with Some t => run b t | None => None end.
Proof.
  induction a as [|e r IH]; intros b s; [reflexivity|]. cbn [app run].
  destruct (step e s); [apply IH|reflexivity].
Qed.

Lemma step_ok : forall e s s', step e s = Some s' -> bad s = None.
Proof. intros e s s' H. unfold step in H. destruct (bad s); [discriminate|reflexivity]. Qed.

Lemma run_inv_from : forall es s s', inv 0 s -> run es s = Some s' -> bad s' = None -> inv 0 s'.
Proof.
  induction es as [|e r IH]; intros s s' I H B; cbn [run] in H.
  - injection H as <-. exact I.
  - destruct (step e s) as [t|] eqn:E; [|discriminate].
    assert (BT : bad t = None).
    { destruct r as [|e2 r]; cbn [run] in H; [injection H as <-; exact B|].
      destruct (step e2 t) eqn:E2; [|discriminate]. eapply step_ok; eauto. }
    eapply IH; [|exact H|exact B]. eapply step_inv; eauto.
Qed.

Lemma run_inv : forall es s, run es init = Some s -> bad s = None -> inv 0 s.
Proof. intros. eapply run_inv_from; eauto using inv_init. Qed.

(** A Boolean view of the owners of the context. *)
Definition owned (s : state) : Prop :=
  tcp s = true \/ udp s = true \/
  (exists l x, nth_error (lst s) l = Some x /\ (l_cell x = true \/ l_acc x = true)) \/
  (exists l, locks l (io s) = true).

Lemma num_ex : forall f ls, num f ls > 0 -> exists l x, nth_error ls l = Some x /\ f x = true.
Proof.
  induction ls as [|y r IH]; cbn [num]; intros H; [lia|].
  destruct (f y) eqn:E.
  - exists 0, y. auto.
  - destruct (IH H) as (l & x & X & F). exists (S l), x. auto.
Qed.

Lemma owned_live : forall s, inv 0 s -> (owned s <-> svc s = Live).
Proof.
  intros s I. split.
  - intros [T|[U|[(l & x & X & [C|A])|(l & L)]]].
    + apply (i_live _ _ I). rewrite (i_count _ _ I), T. cbn [b2n]. lia.
    + apply (i_live _ _ I). rewrite (i_count _ _ I), U. cbn [b2n]. lia.
    + eapply cell_live; eauto.
    + destruct (i_ok _ _ I _ _ X) as (A1 & _). destruct (A1 A). eapply cell_live; eauto.
    + eapply lock_live; eauto.
  - intros L. apply (i_live _ _ I) in L. rewrite (i_count _ _ I) in L. unfold owned.
    destruct (tcp s); [auto|]. destruct (udp s); [auto|]. cbn [b2n] in L. right; right.
    destruct (Nat.eq_dec (num l_cell (lst s)) 0) as [Z|Z].
    + destruct (Nat.eq_dec (num l_acc (lst s)) 0) as [Y|Y].
      * right. unfold extra in L. destruct (io s) as [|k c|k c|k c|c]; try lia;
          exists k; cbn; apply Nat.eqb_refl.
      * left. destruct (num_ex l_acc (lst s)) as (l & x & X & F); [lia|]. exists l, x. auto.
    + left. destruct (num_ex l_cell (lst s)) as (l & x & X & F); [lia|]. exists l, x. auto.
Qed.

Lemma rem_live : forall s c p, inv 0 s -> In (c, p) (rem s) -> svc s = Live /\ sys s = true.
Proof.
  intros s c p I H.
  assert (O : tcp s = true \/ udp s = true).
  { destruct p as [| |l].
    - left. exact (i_tcp _ _ I c H).
    - right. exact (i_udp _ _ I c H).
    - left. destruct (i_lis _ _ I c l H) as (x & X & C & _). eapply cell_live; eauto. }
  split.
  - apply (owned_live s I). unfold owned. tauto.
  - destruct (sys s) eqn:Y; [reflexivity|]. destruct (i_sys _ _ I Y) as (A & B & _).
    destruct O; congruence.
Qed.

Lemma recv_sys : forall s c, inv 0 s -> io s = Recv c -> sys s = true.
Proof.
  intros s c I E. destruct (sys s) eqn:Y; [reflexivity|].
  destruct (i_sys _ _ I Y) as (A & B & C). exfalso.
  destruct (svc s) eqn:V; [|congruence|].
  - apply (owned_live s I) in V. destruct V as [V|[V|[(l & x & X & D)|(l & L)]]]; try congruence.
    + assert (CE : l_cell x = true).
      { destruct D as [D|D]; [exact D|]. destruct (i_ok _ _ I _ _ X) as (A1 & _). now destruct (A1 D). }
      destruct (cell_live _ _ _ I X CE). congruence.
    + rewrite E in L. discriminate.
  - destruct (i_gone _ _ I V). congruence.
Qed.

(** What each fault takes. *)
Definition causes (f : fault) (e : event) (s : state) : Prop :=
  match f with
  | SelfJoin => e = End /\ (exists l c, io s = AccEnd l c) /\ tcp s = false /\ udp s = false
  | DeadSystem => e = Tell /\ (exists l c, io s = AccTell l c) /\ sys s = false
  | DeadSocket => exists l x, e = Let l /\ svc s = Gone /\ nth_error (lst s) l = Some x /\
                    l_cell x = false /\ l_held x = 1 /\ l_msgs x <> []
  end.

Lemma release_bad : forall s, bad (release false s) = bad s.
Proof. intros s. unfold release. destruct (count s) as [|[|n]]; reflexivity. Qed.

Lemma release_gone : forall s, svc s <> Gone -> svc (release false s) <> Gone.
Proof. intros s H. unfold release. destruct (count s) as [|[|n]]; prj; congruence. Qed.

Lemma release_io_svc : forall s, svc (release true s) = svc s.
Proof. intros s. unfold release. destruct (count s) as [|[|n]]; reflexivity. Qed.

Lemma alive_cells : forall s, inv 0 s -> tcp s = false -> forall l x,
  nth_error (lst s) l = Some x -> l_cell x = false /\ l_acc x = false.
Proof.
  intros s I T l x X.
  assert (C : l_cell x = false).
  { destruct (l_cell x) eqn:C; [|reflexivity]. destruct (cell_live _ _ _ I X C). congruence. }
  split; [exact C|]. destruct (l_acc x) eqn:A; [|reflexivity].
  destruct (i_ok _ _ I _ _ X) as (A1 & _). destruct (A1 A). congruence.
Qed.

Lemma step_causes : forall e s s' f, inv 0 s -> step e s = Some s' -> bad s' = Some f ->
  causes f e s.
Proof.
  intros e s s' f I H B. pose proof (step_ok _ _ _ H) as B0. unfold step in H. rewrite B0 in H.
  destruct e.
  - destruct (tcp s); [|discriminate]. injection H as <-. prj. congruence.
  - destruct (nth_error (lst s) l) as [x|]; [|discriminate].
    destruct (_ && _); [|discriminate]. injection H as <-. prj. congruence.
  - destruct (nth_error (lst s) l) as [x|]; [|discriminate].
    destruct (_ && _); [|discriminate]. injection H as <-. prj. congruence.
  - destruct (is_idle (io s)); [|discriminate].
    destruct (is_gone (svc s)) eqn:G; [discriminate|]. cbn [negb andb] in H.
    destruct (existsb _ _); [|discriminate].
    destruct (nth_error (lst s) l) as [x|]; [|discriminate].
    destruct (l_acc x); injection H as <-; [prj; congruence|].
    rewrite drop_alive in B; [prj; congruence|]. prj. intros Q. rewrite Q in G. discriminate.
  - destruct (io s) as [|l c|l c|l c|c] eqn:E; try discriminate.
    destruct (sys s) eqn:Y.
    + destruct (nth_error (lst s) l) as [x|]; [|discriminate].
      destruct (_ && _); injection H as <-; prj; congruence.
    + injection H as <-. prj. injection B as <-. cbn. eauto.
  - destruct (io s) as [|l c|l c|l c|c] eqn:E; try discriminate. injection H as <-. prj. congruence.
  - destruct (io s) as [|l c|l c|l c|c] eqn:E; try discriminate.
    destruct (nth_error (lst s) l) as [x|] eqn:X; [|discriminate]. injection H as <-.
    assert (L : svc s = Live).
    { apply (lock_live s l I). rewrite E. cbn. apply Nat.eqb_refl. }
    rewrite drop_alive in B by (destruct (l_acc x); [|rewrite release_io_svc]; prj; congruence).
    destruct (l_acc x) eqn:A; [prj; congruence|].
    unfold release in B. prj. destruct (count s) as [|[|n]] eqn:N; prj; try congruence.
    injection B as <-. cbn. split; [reflexivity|]. split; [eauto|].
    pose proof (i_count _ _ I) as K. unfold extra in K. rewrite E, X, A, N in K. cbn [negb b2n] in K.
    destruct (tcp s), (udp s); cbn [b2n] in K; first [lia|auto].
  - destruct (nth_error (lst s) l) as [x|] eqn:X; [|discriminate].
    destruct (l_msgs x) as [|c r]; [discriminate|].
    destruct (l_cell x && phase_eqb (l_phase x) Running) eqn:G; [|discriminate].
    apply andb_prop in G as [G1 G2]. destruct (cell_live _ _ _ I X G1) as (T & Y & L).
    injection H as <-. destruct ok; [prj; congruence|].
    rewrite drop_alive in B by (prj; congruence). prj. congruence.
  - destruct (tcp s); [|discriminate]. injection H as <-. prj. congruence.
  - destruct (udp s); [|discriminate]. injection H as <-. prj. congruence.
  - destruct (_ && _); [|discriminate]. injection H as <-. prj. congruence.
  - destruct (io s) as [|l c|l c|l c|c] eqn:E; try discriminate.
    rewrite (recv_sys s c I E) in H. injection H as <-.
    rewrite drop_alive in B; [prj; congruence|]. prj. intros G. destruct (i_gone _ _ I G). congruence.
  - destruct (existsb (Nat.eqb c) (map fst (rem s))) eqn:G; [|discriminate]. injection H as <-.
    rewrite drop_alive in B; [prj; congruence|]. prj.
    apply existsb_exists in G as (d & D & _). apply in_map_iff in D as ([a p] & _ & D).
    destruct (rem_live s a p I D). congruence.
  - destruct (nth_error (lst s) l) as [x|]; [|discriminate].
    destruct (_ && _); [|discriminate]. injection H as <-.
    destruct (_ && _); [rewrite release_bad in B|]; prj; congruence.
  - destruct (nth_error (lst s) l) as [x|]; [|discriminate].
    destruct (_ && _); [|discriminate]. injection H as <-. prj. congruence.
  - destruct (nth_error (lst s) l) as [x|] eqn:X; [|discriminate].
    destruct (l_cell x && phase_eqb (l_phase x) Closed && childless (PListener l) s) eqn:G; [|discriminate].
    apply andb_prop in G as [G G3]. apply andb_prop in G as [G1 G2].
    destruct (cell_live _ _ _ I X G1) as (T & Y & L).
    destruct (Nat.eqb (l_held x) 0); injection H as <-.
    + rewrite drops_alive in B by (apply release_gone; prj; congruence).
      rewrite release_bad in B. prj. congruence.
    + rewrite release_bad in B. prj. congruence.
  - destruct (nth_error (lst s) l) as [x|]; [|discriminate].
    destruct (_ || _); [|discriminate]. injection H as <-. prj. congruence.
  - destruct (nth_error (lst s) l) as [x|] eqn:X; [|discriminate].
    destruct (l_held x) as [|h] eqn:Hd; [discriminate|].
    destruct (negb (l_cell x) && Nat.eqb h 0) eqn:G; injection H as <-; [|prj; congruence].
    apply andb_prop in G as [G1 G2]. apply negb_true_iff in G1. apply Nat.eqb_eq in G2. subst h.
    destruct (svc s) eqn:V; try (rewrite drops_alive in B by (prj; congruence); prj; congruence).
    destruct f.
    + exfalso. revert B. generalize (l_msgs x). intros cs.
      induction cs as [|c r IH]; cbn [drops fold_right]; [prj; congruence|].
      fold (drops r (put l {| l_cell := false; l_phase := l_phase x; l_acc := l_acc x;
                              l_held := 0; l_msgs := [] |} s)).
      match goal with |- bad (drop c ?t) = _ -> _ => destruct (drop_cases c t) as [D|(_ & _ & D)];
        rewrite D; [exact IH|prj; discriminate] end.
    + exists l, x. repeat split; auto. intros M. rewrite M in B. cbn [drops fold_right] in B.
      prj. congruence.
    + exfalso. revert B. generalize (l_msgs x). intros cs.
      induction cs as [|c r IH]; cbn [drops fold_right]; [prj; congruence|].
      fold (drops r (put l {| l_cell := false; l_phase := l_phase x; l_acc := l_acc x;
                              l_held := 0; l_msgs := [] |} s)).
      match goal with |- bad (drop c ?t) = _ -> _ => destruct (drop_cases c t) as [D|(_ & _ & D)];
        rewrite D; [exact IH|prj; discriminate] end.
  - destruct (_ && _); [|discriminate]. injection H as <-. rewrite release_bad in B. prj. congruence.
  - destruct (_ && _); [|discriminate]. injection H as <-. rewrite release_bad in B. prj. congruence.
  - destruct (_ && _); [|discriminate]. injection H as <-. prj. congruence.
  - destruct (_ && _); [|discriminate]. injection H as <-. prj. congruence.
Qed.

(** Fields which the ends of shared pointers leave alone. *)
Lemma drop_fields : forall c s, tcp (drop c s) = tcp s /\ udp (drop c s) = udp s /\
  io (drop c s) = io s /\ lst (drop c s) = lst s /\ svc (drop c s) = svc s /\
  owners (drop c s) = owners s.
Proof.
  intros c s. destruct (drop_cases c s) as [E|(_ & _ & E)]; rewrite E; repeat split.
Qed.

Lemma drops_fields : forall cs s, tcp (drops cs s) = tcp s /\ udp (drops cs s) = udp s /\
  io (drops cs s) = io s /\ lst (drops cs s) = lst s /\ svc (drops cs s) = svc s /\
  owners (drops cs s) = owners s.
Proof.
  induction cs as [|c r IH]; intros s; [repeat split|]. cbn [drops fold_right].
  fold (drops r s). destruct (drop_fields c (drops r s)) as (A & B & C & D & E & F).
  destruct (IH s) as (A' & B' & C' & D' & E' & F').
  rewrite A, B, C, D, E, F. repeat split; assumption.
Qed.

Lemma release_fields : forall b s, tcp (release b s) = tcp s /\ udp (release b s) = udp s /\
  io (release b s) = io s /\ lst (release b s) = lst s /\
  (svc (release b s) = Gone -> svc s = Gone).
Proof.
  intros b s. unfold release. destruct (count s) as [|[|n]]; destruct b; repeat split; prj; auto; discriminate.
Qed.

Lemma drops_dead : forall cs s, cs <> [] -> svc s = Gone ->
  (forall c, In c cs -> ~ In c (owners s)) -> bad (drops cs s) = Some DeadSocket.
Proof.
  intros [|c r] s N G F; [congruence|]. cbn [drops fold_right]. fold (drops r s).
  destruct (drops_fields r s) as (_ & _ & _ & _ & V & O).
  unfold drop. rewrite O, V, G.
  assert (E : existsb (Nat.eqb c) (owners s) = false).
  { destruct (existsb (Nat.eqb c) (owners s)) eqn:E; [|reflexivity].
    apply existsb_exists in E as (d & D & Q). apply Nat.eqb_eq in Q. subst d.
    destruct (F c (or_introl eq_refl) D). }
  rewrite E. reflexivity.
Qed.

Lemma in_msgs_occ : forall c ls, In c (concat (map l_msgs ls)) -> inmsgs c ls > 0.
Proof.
  induction ls as [|x r IH]; cbn [map concat inmsgs]; intros H; [destruct H|].
  apply in_app_or in H as [H|H]; [apply (count_occ_In Nat.eq_dec) in H; lia|].
  specialize (IH H). lia.
Qed.

Lemma causes_step : forall f e s, inv 0 s -> bad s = None -> causes f e s ->
  exists s', step e s = Some s' /\ bad s' = Some f.
Proof.
  intros f e s I B0 C. destruct f; cbn in C.
  - destruct C as (-> & (l & c & E) & T & U). unfold step. rewrite B0, E.
    assert (LK : locks l (io s) = true) by (rewrite E; cbn; apply Nat.eqb_refl).
    destruct (i_lock _ _ I l LK) as (x & X & _). rewrite X.
    pose proof (lock_live s l I LK) as L.
    destruct (alive_cells s I T l x X) as [Ce A]. rewrite A.
    pose proof (i_count _ _ I) as K. unfold extra in K. rewrite E, X, A, T, U in K.
    cbn [negb b2n] in K.
    assert (Z1 : num l_cell (lst s) = 0).
    { destruct (num l_cell (lst s)) eqn:N; [reflexivity|].
      assert (tcp s = true) by (apply (i_cell _ _ I); lia). congruence. }
    assert (Z2 : num l_acc (lst s) = 0).
    { destruct (num l_acc (lst s)) eqn:N; [reflexivity|].
      destruct (num_ex l_acc (lst s)) as (k & y & Y & F); [lia|].
      destruct (alive_cells s I T k y Y). congruence. }
    eexists. split; [reflexivity|].
    rewrite drop_alive by (rewrite release_io_svc; prj; congruence).
    unfold release. prj. rewrite K, Z1, Z2. reflexivity.
  - destruct C as (l & x & -> & G & X & Ce & Hd & M). unfold step. rewrite B0, X, Hd, Ce.
    cbn [negb andb Nat.eqb]. eexists. split; [reflexivity|].
    apply drops_dead; [exact M|exact G|]. intros c Hc Ho.
    destruct (i_gone _ _ I G) as [E O].
    assert (R : rem s = []).
    { destruct (rem s) as [|[d p] r] eqn:R; [reflexivity|].
      destruct (rem_live s d p I) as [Q _]; [rewrite R; now left|congruence]. }
    unfold owners in Ho. prj. rewrite O, R, E in Ho. cbn [map held_by_io app] in Ho.
    rewrite app_nil_r in Ho. apply in_msgs_occ in Ho.
    pose proof (inmsgs_upd c _ _ _ {| l_cell := false; l_phase := l_phase x; l_acc := l_acc x;
                            l_held := 0; l_msgs := [] |} X) as Q.
    cbn [l_msgs count_occ] in Q. apply (count_occ_In Nat.eq_dec) in Hc.
    pose proof (i_occ _ _ I c) as OC. unfold occ in OC. lia.
  - destruct C as (-> & (l & c & E) & Y). unfold step. rewrite B0, E, Y.
    eexists. split; reflexivity.
Qed.

Definition unlocked (s : state) : Prop := forall l, locks l (io s) = false.
Definition unread (s : state) : Prop := exists l x, nth_error (lst s) l = Some x /\ l_msgs x <> [].

Lemma unlocked_step : forall e s s', inv 0 s -> step e s = Some s' ->
  (tcp s = false -> udp s = false -> unlocked s) ->
  (e = FreeTcp /\ udp s = false \/ e = FreeUdp /\ tcp s = false -> unlocked s) ->
  tcp s' = false -> udp s' = false -> unlocked s'.
Proof.
  intros e s s' I H Q A T U. pose proof (step_ok _ _ _ H) as B0. unfold step in H. rewrite B0 in H.
  unfold unlocked in *.
  destruct e.
  - destruct (tcp s) eqn:TE; [|discriminate]. injection H as <-. prj. congruence.
  - destruct (nth_error (lst s) l) as [x|]; [|discriminate].
    destruct (_ && _); [|discriminate]. injection H as <-. prj. auto.
  - destruct (nth_error (lst s) l) as [x|]; [|discriminate].
    destruct (_ && _); [|discriminate]. injection H as <-. prj. auto.
  - destruct (_ && _); [|discriminate].
    destruct (nth_error (lst s) l) as [x|] eqn:X; [|discriminate].
    destruct (l_acc x) eqn:AC; injection H as <-.
    + prj. destruct (alive_cells s I T l x X). congruence.
    + match goal with H : tcp (drop ?c ?t) = _ |- _ =>
        destruct (drop_fields c t) as (F1 & F2 & F3 & _) end.
      rewrite F1 in T. rewrite F2 in U. rewrite F3. prj. auto.
  - destruct (io s) as [|l c|l c|l c|c] eqn:E; try discriminate.
    destruct (sys s); [|injection H as <-; prj; rewrite E; auto].
    destruct (nth_error (lst s) l) as [x|]; [|discriminate].
    destruct (_ && _); injection H as <-; prj; intros k; exact (Q T U k).
  - destruct (io s) as [|l c|l c|l c|c] eqn:E; try discriminate. injection H as <-. prj.
    intros k. exact (Q T U k).
  - destruct (io s) as [|l c|l c|l c|c] eqn:E; try discriminate.
    destruct (nth_error (lst s) l) as [x|]; [|discriminate]. injection H as <-.
    match goal with H : tcp (drop ?c ?t) = _ |- _ =>
      destruct (drop_fields c t) as (F1 & F2 & F3 & _) end.
    rewrite F3. destruct (l_acc x); [prj; reflexivity|].
    destruct (release_fields true (set_io Idle s)) as (_ & _ & G & _). rewrite G. reflexivity.
  - destruct (nth_error (lst s) l) as [x|]; [|discriminate].
    destruct (l_msgs x) as [|c r]; [discriminate|].
    destruct (_ && _); [|discriminate]. injection H as <-. destruct ok; [prj; auto|].
    match goal with H : tcp (drop ?c ?t) = _ |- _ =>
      destruct (drop_fields c t) as (F1 & F2 & F3 & _) end.
    rewrite F1 in T. rewrite F2 in U. rewrite F3. prj. auto.
  - destruct (tcp s) eqn:TE; [|discriminate]. injection H as <-. prj. congruence.
  - destruct (udp s) eqn:TE; [|discriminate]. injection H as <-. prj. congruence.
  - destruct (_ && _); [|discriminate]. injection H as <-. prj. reflexivity.
  - destruct (io s) as [|l c|l c|l c|c] eqn:E; try discriminate.
    destruct (sys s); injection H as <-; [|prj; rewrite E; reflexivity].
    destruct (drop_fields c (set_io Idle s)) as (F1 & F2 & F3 & _). rewrite F3. reflexivity.
  - destruct (existsb _ _); [|discriminate]. injection H as <-.
    match goal with H : tcp (drop ?c ?t) = _ |- _ =>
      destruct (drop_fields c t) as (F1 & F2 & F3 & _) end.
    rewrite F1 in T. rewrite F2 in U. rewrite F3. prj. auto.
  - destruct (nth_error (lst s) l) as [x|]; [|discriminate].
    destruct (_ && _); [|discriminate]. injection H as <-.
    destruct (_ && _); [|prj; auto].
    match goal with H : tcp (release ?b ?t) = _ |- _ =>
      destruct (release_fields b t) as (F1 & F2 & F3 & _) end.
    rewrite F1 in T. rewrite F2 in U. rewrite F3. prj. auto.
  - destruct (nth_error (lst s) l) as [x|]; [|discriminate].
    destruct (_ && _); [|discriminate]. injection H as <-. prj. auto.
  - destruct (nth_error (lst s) l) as [x|]; [|discriminate].
    destruct (_ && _); [|discriminate].
    destruct (Nat.eqb (l_held x) 0); injection H as <-.
    + match goal with H : tcp (drops ?c ?t) = _ |- _ =>
        destruct (drops_fields c t) as (G1 & G2 & G3 & _) end.
      rewrite G1 in T. rewrite G2 in U. rewrite G3.
      match goal with H : tcp (release ?b ?t) = _ |- _ =>
        destruct (release_fields b t) as (F1 & F2 & F3 & _) end.
      rewrite F1 in T. rewrite F2 in U. rewrite F3. prj. auto.
    + match goal with H : tcp (release ?b ?t) = _ |- _ =>
        destruct (release_fields b t) as (F1 & F2 & F3 & _) end.
      rewrite F1 in T. rewrite F2 in U. rewrite F3. prj. auto.
  - destruct (nth_error (lst s) l) as [x|]; [|discriminate].
    destruct (_ || _); [|discriminate]. injection H as <-. prj. auto.
  - destruct (nth_error (lst s) l) as [x|]; [|discriminate].
    destruct (l_held x) as [|h]; [discriminate|].
    destruct (_ && _); injection H as <-; [|prj; auto].
    match goal with H : tcp (drops ?c ?t) = _ |- _ =>
      destruct (drops_fields c t) as (G1 & G2 & G3 & _) end.
    rewrite G1 in T. rewrite G2 in U. rewrite G3. prj. auto.
  - destruct (_ && _); [|discriminate]. injection H as <-.
    match goal with H : tcp (release ?b ?t) = _ |- _ =>
      destruct (release_fields b t) as (F1 & F2 & F3 & _) end.
    rewrite F2 in U. rewrite F3. prj. apply A. left. auto.
  - destruct (_ && _); [|discriminate]. injection H as <-.
    match goal with H : tcp (release ?b ?t) = _ |- _ =>
      destruct (release_fields b t) as (F1 & F2 & F3 & _) end.
    rewrite F1 in T. rewrite F3. prj. apply A. right. auto.
  - destruct (_ && _); [|discriminate]. injection H as <-. prj. auto.
  - destruct (_ && _); [|discriminate]. injection H as <-. prj. auto.
Qed.

Lemma unread_upd : forall l v x ls, nth_error ls l = Some x -> (l_msgs x = [] -> l_msgs v = []) ->
  (exists k y, nth_error (upd l v ls) k = Some y /\ l_msgs y <> []) ->
  exists k y, nth_error ls k = Some y /\ l_msgs y <> [].
Proof.
  intros l v x ls X V (k & y & Y & M). rewrite (nth_upd _ _ _ v k X) in Y.
  destruct (Nat.eqb k l); [|eauto]. injection Y as <-. exists l, x. split; [exact X|auto].
Qed.

(** Once the service is gone, no message appears. *)
Lemma unread_step : forall e s s', inv 0 s -> step e s = Some s' -> svc s' = Gone ->
  unread s' -> unread s /\ (svc s = Gone \/ e = Join).
Proof.
  intros e s s' I H G R. pose proof (step_ok _ _ _ H) as B0. unfold step in H. rewrite B0 in H.
  unfold unread in *.
  destruct e.
  - destruct (tcp s) eqn:T; [|discriminate]. injection H as <-. prj. exfalso.
    assert (svc s = Live) by (apply (owned_live s I); unfold owned; auto). congruence.
  - destruct (nth_error (lst s) l) as [x|] eqn:X; [|discriminate].
    destruct (_ && _); [|discriminate]. injection H as <-. prj.
    split; [eapply unread_upd; [exact X| |exact R]; cbn; auto|auto].
  - destruct (nth_error (lst s) l) as [x|] eqn:X; [|discriminate].
    destruct (_ && _); [|discriminate]. injection H as <-. prj.
    split; [eapply unread_upd; [exact X| |exact R]; cbn; auto|auto].
  - destruct (_ && _); [|discriminate].
    destruct (nth_error (lst s) l) as [x|] eqn:X; [|discriminate].
    destruct (l_acc x) eqn:AC; injection H as <-; [prj; auto|].
    match goal with H : svc (drop ?c ?t) = _ |- _ =>
      destruct (drop_fields c t) as (_ & _ & _ & F1 & F2 & _) end.
    rewrite F1 in R. rewrite F2 in G. prj. auto.
  - destruct (io s) as [|l c|l c|l c|c] eqn:E; try discriminate. exfalso.
    assert (L : svc s = Live).
    { apply (lock_live s l I). rewrite E. cbn. apply Nat.eqb_refl. }
    destruct (sys s); [|injection H as <-; prj; congruence].
    destruct (nth_error (lst s) l) as [x|]; [|discriminate].
    destruct (_ && _); injection H as <-; prj; congruence.
  - destruct (io s) as [|l c|l c|l c|c] eqn:E; try discriminate. injection H as <-. prj. auto.
  - destruct (io s) as [|l c|l c|l c|c] eqn:E; try discriminate.
    destruct (nth_error (lst s) l) as [x|]; [|discriminate]. injection H as <-.
    match goal with H : svc (drop ?c ?t) = _ |- _ =>
      destruct (drop_fields c t) as (_ & _ & _ & F1 & F2 & _) end.
    rewrite F1 in R. rewrite F2 in G. destruct (l_acc x); [prj; auto|].
    destruct (release_fields true (set_io Idle s)) as (_ & _ & _ & G1 & G2).
    rewrite G1 in R. prj. auto.
  - destruct (nth_error (lst s) l) as [x|] eqn:X; [|discriminate].
    destruct (l_msgs x) as [|c r] eqn:M; [discriminate|].
    destruct (_ && _); [|discriminate]. injection H as <-. destruct ok.
    + prj. split; [eapply unread_upd; [exact X| |exact R]; cbn; congruence|auto].
    + match goal with H : svc (drop ?c ?t) = _ |- _ =>
        destruct (drop_fields c t) as (_ & _ & _ & F1 & F2 & _) end.
      rewrite F1 in R. rewrite F2 in G. prj. split; [eapply unread_upd; [exact X| |exact R]; cbn; congruence|auto].
  - destruct (tcp s); [|discriminate]. injection H as <-. prj. auto.
  - destruct (udp s); [|discriminate]. injection H as <-. prj. auto.
  - destruct (_ && _); [|discriminate]. injection H as <-. prj. auto.
  - destruct (io s) as [|l c|l c|l c|c] eqn:E; try discriminate.
    destruct (sys s); injection H as <-; [|prj; auto].
    destruct (drop_fields c (set_io Idle s)) as (_ & _ & _ & F1 & F2 & _).
    rewrite F1 in R. rewrite F2 in G. prj. auto.
  - destruct (existsb _ _); [|discriminate]. injection H as <-.
    match goal with H : svc (drop ?c ?t) = _ |- _ =>
      destruct (drop_fields c t) as (_ & _ & _ & F1 & F2 & _) end.
    rewrite F1 in R. rewrite F2 in G. prj. auto.
  - destruct (nth_error (lst s) l) as [x|] eqn:X; [|discriminate].
    destruct (_ && _); [|discriminate]. injection H as <-.
    destruct (_ && _).
    + match goal with H : svc (release ?b ?t) = _ |- _ =>
        destruct (release_fields b t) as (_ & _ & _ & F1 & F2) end.
      rewrite F1 in R. apply F2 in G. prj. split; [eapply unread_upd; [exact X| |exact R]; cbn; auto|auto].
    + prj. split; [eapply unread_upd; [exact X| |exact R]; cbn; auto|auto].
  - destruct (nth_error (lst s) l) as [x|] eqn:X; [|discriminate].
    destruct (_ && _); [|discriminate]. injection H as <-. prj.
    split; [eapply unread_upd; [exact X| |exact R]; cbn; auto|auto].
  - destruct (nth_error (lst s) l) as [x|] eqn:X; [|discriminate].
    destruct (_ && _); [|discriminate].
    destruct (Nat.eqb (l_held x) 0); injection H as <-.
    + match goal with H : svc (drops ?c ?t) = _ |- _ =>
        destruct (drops_fields c t) as (_ & _ & _ & G1 & G2 & _) end.
      rewrite G1 in R. rewrite G2 in G.
      match goal with H : svc (release ?b ?t) = _ |- _ =>
        destruct (release_fields b t) as (_ & _ & _ & F1 & F2) end.
      rewrite F1 in R. apply F2 in G. prj. split; [eapply unread_upd; [exact X| |exact R]; cbn; auto|auto].
    + match goal with H : svc (release ?b ?t) = _ |- _ =>
        destruct (release_fields b t) as (_ & _ & _ & F1 & F2) end.
      rewrite F1 in R. apply F2 in G. prj. split; [eapply unread_upd; [exact X| |exact R]; cbn; auto|auto].
  - destruct (nth_error (lst s) l) as [x|] eqn:X; [|discriminate].
    destruct (_ || _); [|discriminate]. injection H as <-. prj.
    split; [eapply unread_upd; [exact X| |exact R]; cbn; auto|auto].
  - destruct (nth_error (lst s) l) as [x|] eqn:X; [|discriminate].
    destruct (l_held x) as [|h]; [discriminate|].
    destruct (_ && _); injection H as <-.
    + match goal with H : svc (drops ?c ?t) = _ |- _ =>
        destruct (drops_fields c t) as (_ & _ & _ & G1 & G2 & _) end.
      rewrite G1 in R. rewrite G2 in G. prj. split; [eapply unread_upd; [exact X| |exact R]; cbn; auto|auto].
    + prj. split; [eapply unread_upd; [exact X| |exact R]; cbn; auto|auto].
  - destruct (_ && _); [|discriminate]. injection H as <-.
    match goal with H : svc (release ?b ?t) = _ |- _ =>
      destruct (release_fields b t) as (_ & _ & _ & F1 & F2) end.
    rewrite F1 in R. apply F2 in G. prj. auto.
  - destruct (_ && _); [|discriminate]. injection H as <-.
    match goal with H : svc (release ?b ?t) = _ |- _ =>
      destruct (release_fields b t) as (_ & _ & _ & F1 & F2) end.
    rewrite F1 in R. apply F2 in G. prj. auto.
  - destruct (_ && _); [|discriminate]. injection H as <-. prj. auto.
  - destruct (_ && _); [|discriminate]. injection H as <-. prj. auto.
Qed.

(** No manager is the last to go while an accept is being handled. *)
Definition calm (es : list event) : Prop :=
  forall a e b t, es = a ++ e :: b -> run a init = Some t ->
    (e = FreeTcp /\ udp t = false) \/ (e = FreeUdp /\ tcp t = false) ->
    forall l, locks l (io t) = false.

(** Nobody keeps unread messages of a listener when the service goes. *)
Definition tidy (es : list event) : Prop :=
  forall a b t, es = a ++ Join :: b -> run a init = Some t ->
    forall l x, nth_error (lst t) l = Some x -> l_msgs x = [].

Lemma calm_prefix : forall a b, calm (a ++ b) -> calm a.
Proof.
  intros a b H c e d t E. apply (H c e (d ++ b)). rewrite E, <- app_assoc. reflexivity.
Qed.

Lemma tidy_prefix : forall a b, tidy (a ++ b) -> tidy a.
Proof.
  intros a b H c d t E. apply (H c (d ++ b)). rewrite E, <- app_assoc. reflexivity.
Qed.

Lemma run_snoc : forall es e s, run (es ++ [e]) init = Some s ->
  exists t, run es init = Some t /\ step e t = Some s.
Proof.
  intros es e s H. rewrite run_app in H. destruct (run es init) as [t|]; [|discriminate].
  cbn [run] in H. destruct (step e t) eqn:E; [|discriminate]. injection H as <-. eauto.
Qed.

Lemma calm_run : forall es s, run es init = Some s -> calm es ->
  bad s <> Some SelfJoin /\ bad s <> Some DeadSystem /\
  (bad s = None -> tcp s = false -> udp s = false -> unlocked s).
Proof.
  induction es as [|e es IH] using rev_ind; intros s H C.
  - injection H as <-. cbn. repeat split; try discriminate.
  - destruct (run_snoc _ _ _ H) as (t & R & E). pose proof (step_ok _ _ _ E) as B.
    destruct (IH t R (calm_prefix _ _ C)) as (_ & _ & Q). specialize (Q B).
    pose proof (run_inv _ _ R B) as I. split; [|split].
    + intros F. pose proof (step_causes _ _ _ _ I E F) as (_ & (l & c & X) & T & U).
      specialize (Q T U l). rewrite X in Q. cbn in Q. rewrite Nat.eqb_refl in Q. discriminate.
    + intros F. pose proof (step_causes _ _ _ _ I E F) as (_ & (l & c & X) & Y).
      destruct (i_sys _ _ I Y) as (T & U & _).
      specialize (Q T U l). rewrite X in Q. cbn in Q. rewrite Nat.eqb_refl in Q. discriminate.
    + intros B2. apply (unlocked_step e t s I E Q).
      intros D. exact (C es e [] t eq_refl R D).
Qed.

Lemma tidy_run : forall es s, run es init = Some s -> tidy es ->
  bad s <> Some DeadSocket /\ (svc s = Gone -> ~ unread s).
Proof.
  induction es as [|e es IH] using rev_ind; intros s H C.
  - injection H as <-. cbn. split; discriminate.
  - destruct (run_snoc _ _ _ H) as (t & R & E). pose proof (step_ok _ _ _ E) as B.
    destruct (IH t R (tidy_prefix _ _ C)) as (_ & Q).
    pose proof (run_inv _ _ R B) as I. split.
    + intros F. pose proof (step_causes _ _ _ _ I E F) as (l & x & _ & G & X & _ & _ & M).
      apply (Q G). exists l, x. auto.
    + intros G U. destruct (unread_step e t s I E G U) as [U2 [G2|J]].
      * exact (Q G2 U2).
      * subst e. destruct U2 as (l & x & X & M). apply M. exact (C es [] t eq_refl R l x X).
Qed.

(** An orderly end can always be reached. *)
Definition prank (p : phase) : nat :=
  match p with New => 4 | Running => 3 | Stopped => 2 | Closed => 1 end.
Definition wio (w : work) : nat :=
  match w with AccTell _ _ => 3 | AccArm _ _ => 2 | AccEnd _ _ | Recv _ => 1 | Idle => 0 end.
Definition wone (x : listener) : nat := l_held x + (if l_cell x then prank (l_phase x) else 0).
Fixpoint wl (ls : list listener) : nat :=
  match ls with [] => 0 | x :: r => wone x + wl r end.
Definition weight (s : state) : nat :=
  wio (io s) + length (rem s) + wl (lst s) + b2n (tcp s) + b2n (udp s)
  + b2n (negb (is_gone (svc s))).

Lemma wl_upd : forall ls l x v, nth_error ls l = Some x -> wl (upd l v ls) + wone x = wl ls + wone v.
Proof.
  induction ls as [|y r IH]; intros l x v H; [destruct l; discriminate|].
  destruct l as [|l]; cbn [upd wl nth_error] in *.
  - injection H as <-. lia.
  - specialize (IH l x v H). lia.
Qed.

Lemma wl_pos : forall ls, wl ls > 0 -> exists l x, nth_error ls l = Some x /\ wone x > 0.
Proof.
  induction ls as [|y r IH]; cbn [wl]; intros H; [lia|].
  destruct (Nat.eq_dec (wone y) 0) as [Z|Z].
  - destruct IH as (l & x & X & W); [lia|]. exists (S l), x. auto.
  - exists 0, y. split; [reflexivity|lia].
Qed.

Lemma weight_drop : forall c s, weight (drop c s) = weight s.
Proof.
  intros c s. destruct (drop_cases c s) as [E|(_ & _ & E)]; rewrite E; reflexivity.
Qed.

Lemma weight_drops : forall cs s, weight (drops cs s) = weight s.
Proof.
  induction cs as [|c r IH]; intros s; [reflexivity|]. cbn [drops fold_right].
  fold (drops r s). now rewrite weight_drop.
Qed.

Lemma weight_release : forall b s, svc s = Live -> weight (release b s) = weight s.
Proof.
  intros b s L. unfold release, weight. destruct (count s) as [|[|n]]; destruct b; prj; rewrite ?L; reflexivity.
Qed.

Lemma length_remove : forall c (rs : list (nat * parent)),
  existsb (Nat.eqb c) (map fst rs) = true ->
  S (length (remove_first (fun r => Nat.eqb c (fst r)) rs)) = length rs.
Proof.
  induction rs as [|[a b] r IH]; cbn [map existsb]; intros H; [discriminate|].
  cbn [remove_first fst] in *. destruct (Nat.eqb c a); [reflexivity|].
  cbn [orb] in H. cbn [length]. now rewrite (IH H).
Qed.

Definition kept (s : state) : Prop :=
  inv 0 s /\ bad s = None /\ svc s <> Gone /\ (tcp s = false -> udp s = false -> unlocked s).

Lemma kept_sys : forall s l c, kept s -> io s = AccTell l c -> sys s = true.
Proof.
  intros s l c (I & B & G & U) E. destruct (sys s) eqn:Y; [reflexivity|].
  destruct (i_sys _ _ I Y) as (T1 & T2 & _). specialize (U T1 T2 l). rewrite E in U.
  cbn in U. rewrite Nat.eqb_refl in U. discriminate.
Qed.

(** The next step towards the end. *)
Lemma next_step : forall s, kept s ->
  exists e s', step e s = Some s' /\ weight s' < weight s /\
    (e = Join -> ~ unread s) /\
    ((e = FreeTcp \/ e = FreeUdp) -> io s = Idle) /\ (svc s' = Gone -> e = Join).
Proof.
  intros s K. pose proof K as (I & B & G & U).
  assert (SD : forall c t, svc t <> Gone -> svc (drop c t) <> Gone)
    by (intros c t; destruct (drop_fields c t) as (_ & _ & _ & _ & E & _); now rewrite E).
  assert (SDS : forall c t, svc t <> Gone -> svc (drops c t) <> Gone)
    by (intros c t; destruct (drops_fields c t) as (_ & _ & _ & _ & E & _); now rewrite E).
  assert (SR : forall b t, svc t <> Gone -> svc (release b t) <> Gone)
    by (intros b t; destruct (release_fields b t) as (_ & _ & _ & _ & E); auto).
  destruct (io s) as [|l c|l c|l c|c] eqn:E.
  - (* idle *)
    destruct (rem s) as [|[c p] r] eqn:R.
    + destruct (Nat.eq_dec (wl (lst s)) 0) as [W|W].
      * assert (NC : num l_cell (lst s) = 0).
        { destruct (num l_cell (lst s)) eqn:N; [reflexivity|].
          destruct (num_ex l_cell (lst s)) as (l & x & X & F); [lia|].
          pose proof (wl_upd _ _ _ {| l_cell := false; l_phase := New; l_acc := false;
             l_held := 0; l_msgs := [] |} X) as Q. unfold wone in Q at 2. cbn in Q.
          unfold wone in Q. rewrite F in Q. destruct (l_phase x); cbn in Q; lia. }
        assert (XB : existsb l_cell (lst s) = false).
        { destruct (existsb l_cell (lst s)) eqn:XB; [|reflexivity].
          apply existsb_exists in XB as (x & Xi & F). apply In_nth_error in Xi as (l & X).
          pose proof (num_pos l_cell _ _ _ X F). lia. }
        destruct (tcp s) eqn:T.
        -- exists FreeTcp. assert (L : svc s = Live) by (apply (owned_live s I); unfold owned; auto).
           eexists. split; [unfold step; rewrite B, T, XB; unfold childless; rewrite R; reflexivity|].
           split; [|split; [discriminate|split; [auto|]]].
           ++ rewrite weight_release by (prj; exact L). unfold weight. prj. rewrite T. cbn [b2n]. lia.
           ++ intros Q. destruct (SR false (set_tcp false s)); [prj; congruence|exact Q].
        -- destruct (udp s) eqn:V.
           ++ exists FreeUdp. assert (L : svc s = Live) by (apply (owned_live s I); unfold owned; auto).
              eexists. split; [unfold step; rewrite B, V; unfold childless; rewrite R; reflexivity|].
              split; [|split; [discriminate|split; [auto|]]].
              ** rewrite weight_release by (prj; exact L). unfold weight. prj. rewrite V. cbn [b2n]. lia.
              ** intros Q. destruct (SR false (set_udp false s)); [prj; congruence|exact Q].
           ++ assert (L : svc s = Closing).
              { destruct (svc s) eqn:L; [|reflexivity|congruence]. exfalso.
                apply (i_live _ _ I) in L. rewrite (i_count _ _ I), T, V, NC in L.
                unfold extra in L. rewrite E in L. cbn [b2n] in L.
                destruct (num_ex l_acc (lst s)) as (l & x & X & F); [lia|].
                destruct (alive_cells s I T l x X). congruence. }
              exists Join. eexists. split; [unfold step; rewrite B, L, E; reflexivity|].
              split; [|split; [|split; [intros [Q|Q]; discriminate|auto]]].
              ** unfold weight. prj. rewrite L. cbn [is_gone negb b2n]. lia.
              ** intros _ (l & x & X & M). apply M.
                 destruct (i_ok _ _ I _ _ X) as (_ & _ & A3). apply A3.
                 { exact (num_zero _ _ _ _ NC X). }
                 pose proof (wl_upd _ _ _ {| l_cell := false; l_phase := New; l_acc := false;
                    l_held := 0; l_msgs := [] |} X) as Q. unfold wone in Q at 2. cbn in Q.
                 unfold wone in Q. lia.
      * destruct (wl_pos (lst s)) as (l & x & X & P); [lia|].
        assert (CH : forall p, childless p s = true) by (intros p; unfold childless; rewrite R; reflexivity).
        destruct (l_held x) as [|h] eqn:Hd.
        -- assert (Ce : l_cell x = true).
           { unfold wone in P. rewrite Hd in P. destruct (l_cell x); [reflexivity|lia]. }
           destruct (cell_live _ _ _ I X Ce) as (T & Y & L).
           destruct (l_phase x) eqn:Ph.
           ++ exists (StartFail l). eexists. split; [unfold step; rewrite B, X, Ce, Ph; reflexivity|].
              split; [|split; [discriminate|split; [intros [Q|Q]; discriminate|prj; congruence]]].
              unfold weight. prj.
              match goal with |- context[upd l ?v _] => pose proof (wl_upd _ _ _ v X) as Q end.
              unfold wone in Q at 1 2. cbn [l_held l_cell l_phase prank] in Q.
              rewrite Hd, Ce, Ph in *. cbn [prank] in Q. lia.
           ++ exists (Stop l). eexists. split; [unfold step; rewrite B, X, Ce, Ph, CH; reflexivity|].
              assert (WS : forall v, l_held v = 0 -> l_cell v = true -> l_phase v = Stopped ->
                           weight (put l v s) < weight s).
              { intros v V1 V2 V3. unfold weight. prj. pose proof (wl_upd _ _ _ v X) as Q.
                unfold wone in Q at 1 2. rewrite V1, V2, V3, Hd, Ce, Ph in Q. cbn [prank] in Q. lia. }
              split; [|split; [discriminate|split; [intros [Q|Q]; discriminate|]]].
              ** destruct (l_acc x && negb (locks l (io s))).
                 --- rewrite weight_release by (prj; exact L). apply WS; [exact Hd|reflexivity|reflexivity].
                 --- apply WS; [exact Hd|reflexivity|reflexivity].
              ** destruct (l_acc x && negb (locks l (io s))); [|prj; congruence].
                 intros Q. eapply SR in Q; [destruct Q|prj; congruence].
           ++ exists (Close l). eexists. split; [unfold step; rewrite B, X, Ce, Ph; reflexivity|].
              split; [|split; [discriminate|split; [intros [Q|Q]; discriminate|prj; congruence]]].
              unfold weight. prj.
              match goal with |- context[upd l ?v _] => pose proof (wl_upd _ _ _ v X) as Q end.
              unfold wone in Q at 1 2. cbn [l_held l_cell l_phase prank] in Q.
              rewrite Hd, Ce, Ph in *. cbn [prank] in Q. lia.
           ++ exists (Free l). eexists.
              split; [unfold step; rewrite B, X, Ce, Ph, CH, Hd; reflexivity|].
              split; [|split; [discriminate|split; [intros [Q|Q]; discriminate|]]].
              ** rewrite weight_drops, weight_release by (prj; exact L). unfold weight. prj.
                 match goal with |- context[upd l ?v _] => pose proof (wl_upd _ _ _ v X) as Q end.
                 unfold wone in Q at 1 2. cbn [l_held l_cell l_phase prank] in Q.
                 rewrite Hd, Ce, Ph in *. cbn [prank] in Q. lia.
              ** intros Q. eapply SDS in Q; [destruct Q|]. apply SR. prj. congruence.
        -- exists (Let l).
           destruct (negb (l_cell x) && Nat.eqb h 0) eqn:Z; eexists;
             (split; [unfold step; rewrite B, X, Hd, Z; reflexivity|]).
           ++ split; [|split; [discriminate|split; [intros [Q|Q]; discriminate|]]].
              ** rewrite weight_drops. unfold weight. prj.
                 match goal with |- context[upd l ?v _] => pose proof (wl_upd _ _ _ v X) as Q end.
                 unfold wone in Q at 1 2. cbn [l_held l_cell l_phase prank] in Q.
                 rewrite Hd in Q. lia.
              ** intros Q. eapply SDS in Q; [destruct Q|]. prj. exact G.
           ++ split; [|split; [discriminate|split; [intros [Q|Q]; discriminate|prj; congruence]]].
              unfold weight. prj.
              match goal with |- context[upd l ?v _] => pose proof (wl_upd _ _ _ v X) as Q end.
              unfold wone in Q at 1 2. cbn [l_held l_cell l_phase prank] in Q.
              rewrite Hd in Q. destruct (l_cell x); lia.
    + exists (EndRemote c).
      assert (XB : existsb (Nat.eqb c) (map fst (rem s)) = true).
      { rewrite R. cbn [map fst existsb]. now rewrite Nat.eqb_refl. }
      eexists. split; [unfold step; rewrite B, XB; reflexivity|].
      split; [|split; [discriminate|split; [intros [Q|Q]; discriminate|]]].
      * rewrite weight_drop. pose proof (length_remove c _ XB) as Q. unfold weight. prj. lia.
      * intros Q. eapply SD in Q; [destruct Q|]. prj. exact G.
  - exists Tell. rewrite <- E in *. pose proof (kept_sys s l c K E) as Y.
    assert (LK : locks l (io s) = true) by (rewrite E; cbn; apply Nat.eqb_refl).
    destruct (i_lock _ _ I l LK) as (x & X & _).
    destruct ((l_cell x || Nat.ltb 0 (l_held x)) && negb (phase_eqb (l_phase x) Closed)) eqn:Z;
      eexists; (split; [unfold step; rewrite B, E, Y, X, Z; reflexivity|]);
      (split; [|split; [discriminate|split; [intros [Q|Q]; discriminate|prj; congruence]]]);
      unfold weight; prj; rewrite E.
    + match goal with |- context[upd l ?v _] => pose proof (wl_upd _ _ _ v X) as Q end.
      unfold wone in Q at 1 2. cbn [l_held l_cell l_phase prank] in Q. cbn [wio]. lia.
    + cbn [wio]. lia.
  - exists Arm. eexists. split; [unfold step; rewrite B, E; reflexivity|].
    split; [|split; [discriminate|split; [intros [Q|Q]; discriminate|prj; congruence]]].
    unfold weight. prj. rewrite E. cbn [wio]. lia.
  - exists End. assert (LK : locks l (io s) = true) by (rewrite E; cbn; apply Nat.eqb_refl).
    destruct (i_lock _ _ I l LK) as (x & X & _). pose proof (lock_live s l I LK) as L.
    eexists. split; [unfold step; rewrite B, E, X; reflexivity|].
    split; [|split; [discriminate|split; [intros [Q|Q]; discriminate|]]].
    + rewrite weight_drop. destruct (l_acc x); [|rewrite weight_release by (prj; exact L)];
        unfold weight; prj; rewrite E; cbn [wio]; lia.
    + intros Q. eapply SD in Q; [destruct Q|]. destruct (l_acc x); [|apply SR]; prj; exact G.
  - exists RecvEnd. eexists. split; [unfold step; rewrite B, E, (recv_sys s c I E); reflexivity|].
    split; [|split; [discriminate|split; [intros [Q|Q]; discriminate|]]].
    + rewrite weight_drop. unfold weight. prj. rewrite E. cbn [wio]. lia.
    + intros Q. eapply SD in Q; [destruct Q|]. prj. exact G.
Qed.

Lemma can_end : forall n s, weight s <= n -> kept s ->
  exists es s', run es s = Some s' /\ bad s' = None /\ svc s' = Gone /\ ~ unread s'.
Proof.
  induction n as [|n IH]; intros s W K;
    destruct (next_step s K) as (e & s' & E & D & J & F & GJ); [lia|].
  pose proof K as (I & B & G & U).
  assert (B' : bad s' = None).
  { destruct (bad s') as [f|] eqn:B'; [|reflexivity]. exfalso.
    pose proof (step_causes _ _ _ _ I E B') as C. destruct f; cbn in C.
    - destruct C as (_ & (l & c & X) & T1 & T2). specialize (U T1 T2 l). rewrite X in U.
      cbn in U. rewrite Nat.eqb_refl in U. discriminate.
    - destruct C as (l & x & _ & G2 & _). congruence.
    - destruct C as (_ & (l & c & X) & Y). rewrite (kept_sys s l c K X) in Y. discriminate. }
  pose proof (step_inv _ _ _ I E B') as I'.
  destruct (is_gone (svc s')) eqn:Z.
  - assert (Q : svc s' = Gone) by (destruct (svc s'); [discriminate..|reflexivity]).
    exists [e], s'. cbn [run]. rewrite E. repeat split; auto.
    intros R. apply (J (GJ Q)). now destruct (unread_step e s s' I E Q R).
  - destruct (IH s') as (es & t & R & B2 & G2 & N); [lia| |].
    + split; [exact I'|]. split; [exact B'|]. split; [intros Q; rewrite Q in Z; discriminate|].
      apply (unlocked_step e s s' I E U). intros Q l. rewrite F; [reflexivity|tauto].
    + exists (e :: es), t. cbn [run]. rewrite E. auto.
Qed.
