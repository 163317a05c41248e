From Coq Require Import List Bool Arith Lia Permutation Sorting.Sorted.
From Verif Require Import ListenModel ListenSpec.
Import ListNotations.

Lemma accepts_app : forall a b, accepts (a ++ b) = accepts a ++ accepts b.
Proof. intros. apply flat_map_app. Qed.
Lemma attaches_app : forall a b, attaches (a ++ b) = attaches a ++ attaches b.
Proof. intros. apply flat_map_app. Qed.
Lemma detaches_app : forall a b, detaches (a ++ b) = detaches a ++ detaches b.
Proof. intros. apply flat_map_app. Qed.
Lemma set_kid_fst : forall c k l, map fst (set_kid c k l) = map fst l.
Proof. intros c k. induction l as [|[d q] l IH]; [reflexivity|]. cbn. destruct (d =? c); cbn; [|rewrite IH]; reflexivity. Qed.
Lemma kid_in : forall c k l, kid c l = Some k -> In (c, k) l.
Proof.
  intros c k. induction l as [|[d q] l IH]; cbn; [discriminate|]. destruct (Nat.eqb_spec d c) as [->|]; [intros [= ->]; auto|auto].
Qed.
Lemma in_set_kid : forall c k l d q, In (d, q) (set_kid c k l) -> In (d, q) l \/ (d = c /\ q = k /\ exists q0, kid c l = Some q0).
Proof.
  intros c k. induction l as [|[e r] l IH]; cbn; intros d q H; [destruct H|]. destruct (Nat.eqb_spec e c) as [->|N].
  - destruct H as [H|H]; [injection H as <- <-; right; eauto|auto].
  - destruct H as [H|H]; [auto|]. destruct (IH d q H) as [X|X]; auto.
Qed.
Lemma in_set_kid_nodup : forall c k l d q, NoDup (map fst l) -> In (d, q) (set_kid c k l) -> (d = c /\ q = k) \/ (d <> c /\ In (d, q) l).
Proof.
  intros c k. induction l as [|[e r] l IH]; cbn; intros d q N H; [destruct H|]. inversion N as [|x y N1 N2]; subst.
  destruct (Nat.eqb_spec e c) as [->|NE].
  - destruct H as [H|H]; [injection H as <- <-; auto|]. right. split; [|auto]. intros ->. apply N1. apply in_map with (f := fst) in H. exact H.
  - destruct H as [H|H]; [injection H as <- <-; auto|]. destruct (IH d q N2 H) as [X|[X Y]]; auto.
Qed.
Lemma remove_spec : forall f n l ks r, remove_name f n l = (ks, r) ->
  match r with
  | None => ks = l /\ ~ In n (map f (map fst l))
  | Some c => exists a k b, l = a ++ (c, k) :: b /\ ks = a ++ b /\ f c = n
  end.
Proof.
  intros f n. induction l as [|[d q] l IH]; cbn; intros ks r H.
  - injection H as <- <-. auto.
  - destruct (Nat.eqb_spec (f d) n) as [E|E].
    + injection H as <- <-. exists [], q, l. auto.
    + destruct (remove_name f n l) as [t' r'] eqn:R. injection H as <- <-. specialize (IH t' r' eq_refl). destruct r' as [c|].
      * destruct IH as (a & k & b & -> & -> & F). exists ((d, q) :: a), k, b. auto.
      * destruct IH as [-> N]. split; [reflexivity|]. intros [X|X]; auto.
Qed.

(* ---- what always holds ---- *)
Definition place (s : state) : list nat := live s ++ closed s.
Definition started (k : kstate) : bool := match k with Running | Ended => true | _ => false end.
Record inv (s : state) : Prop := Inv {
  i_place : Permutation (place s) (seq 0 (length (names s)));
  i_sorted : StronglySorted lt (live s);
  i_acc : match ph s with
          | Fresh => acceptor s = false /\ armed s = false /\ kids s = [] /\ accepts (mail s) = [] /\ attaches (sys s) = []
          | Alive => acceptor s = true /\ armed s = true
          | Stopping => acceptor s = true /\ armed s = true /\ kids s <> []
          | Gone | Destroyed => acceptor s = false /\ kids s = []
          end;
  i_told : NoDup (told s);
  i_kids : forall c k, In (c, k) (kids s) -> (In c (told s) <-> started k = true);
  i_where : forall c, In c (told s) -> In c (map fst (kids s)) \/ In c (closed s);
  i_lost : forall c, In c (lost s) -> In c (closed s) /\ ~ In c (told s)
}.
Lemma inv0 : inv state0.
Proof. constructor; cbn; auto; try constructor; try (intros; contradiction). Qed.

Lemma place_nodup : forall s, inv s -> NoDup (place s).
Proof. intros s I. eapply Permutation_NoDup; [apply Permutation_sym; exact (i_place _ I)|apply seq_NoDup]. Qed.
Lemma place_bound : forall s c, inv s -> In c (place s) -> c < length (names s).
Proof. intros s c I H. apply (Permutation_in _ (i_place _ I)) in H. apply in_seq in H. lia. Qed.
Lemma sorted_snoc : forall l n, StronglySorted lt l -> (forall c, In c l -> c < n) -> StronglySorted lt (l ++ [n]).
Proof.
  induction l as [|x l IH]; intros n S B; cbn; [repeat constructor|]. inversion S as [|y z S1 S2]; subst. constructor.
  - apply IH; auto. intros c H. apply B. right. exact H.
  - apply Forall_app. split; [exact S2|]. constructor; [apply B; left; reflexivity|constructor].
Qed.
Lemma sorted_drop : forall (a : list nat) x b, StronglySorted lt (a ++ x :: b) -> StronglySorted lt (a ++ b).
Proof.
  induction a as [|y a IH]; intros x b S; cbn in *; inversion S as [|y' z S1 S2]; subst; [exact S1|].
  constructor; [exact (IH _ _ S1)|]. apply Forall_app in S2 as [P Q]. inversion Q; subst. apply Forall_app; auto.
Qed.
Lemma snoc_seq : forall l n, Permutation l (seq 0 n) -> Permutation (l ++ [n]) (seq 0 (S n)).
Proof. intros l n H. rewrite seq_S. cbn [Nat.add]. apply Permutation_app_tail. exact H. Qed.
Lemma told_bound : forall s c, inv s -> In c (told s) -> In c (place s).
Proof.
  intros s c I H. unfold place, live. destruct (i_where _ I c H) as [X|X]; rewrite !in_app_iff; auto.
Qed.

(* the same lists, but for other messages *)
Lemma inv_same : forall s s', inv s -> live s' = live s -> kids s' = kids s -> names s' = names s -> told s' = told s -> closed s' = closed s -> lost s' = lost s ->
  ph s' = ph s -> acceptor s' = acceptor s -> armed s' = armed s ->
  (ph s = Fresh -> accepts (mail s') = accepts (mail s) /\ attaches (sys s') = attaches (sys s)) -> inv s'.
Proof.
  intros s s' [P So A T K W L] E1 E2 E3 E4 E5 E6 E7 E8 E9 E10.
  constructor; unfold place in *; rewrite ?E1, ?E2, ?E3, ?E4, ?E5, ?E6, ?E7, ?E8, ?E9; auto.
  destruct (ph s); auto. destruct (E10 eq_refl) as [-> ->]. exact A.
Qed.
(* a connection leaves the live ones and is closed *)
Lemma inv_close : forall s s' a c b, inv s -> live s = a ++ c :: b -> live s' = a ++ b -> closed s' = closed s ++ [c] ->
  names s' = names s -> told s' = told s -> (forall d k, In (d, k) (kids s') -> In (d, k) (kids s)) ->
  (forall d, In d (map fst (kids s)) -> d = c \/ In d (map fst (kids s'))) ->
  (lost s' = lost s \/ (lost s' = lost s ++ [c] /\ ~ In c (told s))) ->
  match ph s' with
  | Fresh => False
  | Alive => acceptor s' = true /\ armed s' = true
  | Stopping => acceptor s' = true /\ armed s' = true /\ kids s' <> []
  | Gone | Destroyed => acceptor s' = false /\ kids s' = []
  end -> inv s'.
Proof.
  intros s s' a c b I E1 E2 E3 E4 E5 E6 E7 E8 E9. pose proof I as [P So A T K W L]. constructor; rewrite ?E4, ?E5.
  - rewrite <- P. unfold place. rewrite E1, E2, E3, <- !app_assoc. cbn.
    apply Permutation_app_head. rewrite app_assoc. apply Permutation_sym. rewrite Permutation_app_comm. cbn.
    rewrite Permutation_app_comm. apply Permutation_cons_append.
  - rewrite E2. apply sorted_drop with c. rewrite <- E1. exact So.
  - destruct (ph s'); auto. contradiction.
  - exact T.
  - intros d k H. apply K. apply E6. exact H.
  - intros d H. rewrite E3. destruct (W d H) as [X|X]; [|right; apply in_app_iff; auto].
    destruct (E7 d X) as [-> |Y]; [right; apply in_app_iff; right; left; reflexivity|auto].
  - intros d H. rewrite E3. destruct E8 as [E8|[E8 N]]; rewrite E8 in H.
    + destruct (L d H). split; [apply in_app_iff; auto|auto].
    + apply in_app_iff in H as [H|[<-|[]]]; [destruct (L d H); split; [apply in_app_iff; auto|auto]|].
      split; [apply in_app_iff; right; left; reflexivity|exact N].
Qed.

Ltac sm I := eapply inv_same; [exact I|..]; unfold live; cbn; rewrite ?accepts_app, ?attaches_app; cbn; rewrite ?app_nil_r; try reflexivity.

Lemma accept_inv : forall s n, inv s -> armed s = true -> inv (accept s n).
Proof.
  intros s n I AR. pose proof I as [P So A T K W L]. unfold accept. destruct n as [n|].
  - set (c := length (names s)).
    assert (Fr : ~ In c (told s)) by (intros H; apply (told_bound _ _ I) in H; apply (place_bound _ _ I) in H; unfold c in H; lia).
    destruct (acceptor s) eqn:AC.
    + constructor; cbn [names set_mail told closed lost kids acceptor armed ph mail sys]; auto.
      * rewrite app_length. cbn [length]. rewrite Nat.add_1_r. rewrite <- (snoc_seq _ _ P). unfold place, live. cbn [names set_mail told closed lost kids acceptor armed ph mail sys].
        rewrite accepts_app. cbn [accepts flat_map app]. rewrite <- !app_assoc. do 3 apply Permutation_app_head. apply Permutation_app_comm.
      * unfold live. cbn [names set_mail told closed lost kids acceptor armed ph mail sys]. rewrite accepts_app. cbn [accepts flat_map app]. rewrite !app_assoc. rewrite <- (app_assoc (map fst (kids s))).
        apply sorted_snoc; [exact So|]. intros d H. apply (place_bound _ _ I). unfold place. apply in_app_iff. auto.
      * destruct (ph s); try (destruct A; congruence); rewrite ?AC, ?AR in *; auto.
    + constructor; cbn [names set_closed told closed lost kids acceptor armed ph mail sys]; auto.
      * rewrite app_length. cbn [length]. rewrite Nat.add_1_r. rewrite <- (snoc_seq _ _ P). unfold place, live. cbn [names set_closed told closed lost kids acceptor armed ph mail sys].
        rewrite !app_assoc. reflexivity.
      * destruct (ph s); try (destruct A; congruence); try (destruct A as (? & ? & ?); congruence); destruct A; auto.
      * intros d H. destruct (W d H); auto. right. apply in_app_iff. auto.
      * intros d H. destruct (L d H). split; auto. apply in_app_iff. auto.
  - destruct (acceptor s) eqn:AC.
    + sm I; auto.
    + constructor; cbn; auto. destruct (ph s); try (destruct A; congruence); try (destruct A as (? & ? & ?); congruence); destruct A; auto.
Qed.
Lemma stop_inv : forall s, inv s -> ph s = Alive \/ ph s = Stopping -> kids s = [] -> inv (stop_impl s).
Proof. intros s [P So A T K W L] F E. constructor; cbn; auto. Qed.

Lemma not_told : forall s c, inv s -> In c (attaches (sys s) ++ accepts (mail s)) -> ~ In c (told s).
Proof.
  intros s c I H T. pose proof (place_nodup _ I) as N. unfold place, live in N. rewrite <- app_assoc in N.
  assert (N2 : NoDup ((attaches (sys s) ++ accepts (mail s)) ++ map fst (kids s) ++ closed s)).
  { eapply Permutation_NoDup; [|exact N]. rewrite !app_assoc. apply Permutation_app_tail. rewrite <- app_assoc. apply Permutation_app_comm. }
  apply in_split in H as (a & b & E). rewrite E, <- app_assoc in N2. cbn in N2. apply NoDup_remove_2 in N2. apply N2.
  rewrite !in_app_iff. destruct (i_where _ I c T); auto.
Qed.
Lemma kids_nodup : forall s, inv s -> NoDup (map fst (kids s)).
Proof.
  intros s I. pose proof (place_nodup _ I) as N. unfold place, live in N. rewrite <- !app_assoc in N.
  revert N. generalize (attaches (sys s) ++ accepts (mail s) ++ closed s). generalize (map fst (kids s)). clear.
  induction l as [|x l IH]; intros l0 N; [constructor|]. inversion N; subst. constructor; [|eauto]. intros H. apply H1. apply in_app_iff. auto.
Qed.

Lemma receive_inv : forall m t there s, inv s -> mail s = m :: t -> sys s = [] -> ph s = Alive \/ ph s = Stopping -> inv (receive m there (set_mail s t)).
Proof.
  intros m t there s I M Sy F. assert (NF : ph s <> Fresh) by (destruct F as [-> | ->]; discriminate).
  destruct m as [[c|]| | |]; cbn [receive].
  - destruct there.
    + sm I; rewrite ?M, ?Sy; cbn; try reflexivity; try contradiction.
    + eapply (inv_close s _ (map fst (kids s)) c (accepts t)); [exact I|..]; unfold live; cbn; rewrite ?M, ?Sy; cbn; auto.
      * right. split; [reflexivity|]. apply not_told; [exact I|]. rewrite M, Sy. left. reflexivity.
      * pose proof (i_acc _ I) as A. destruct F as [F|F]; rewrite F in *; exact A.
  - sm I; rewrite ?M; try reflexivity; contradiction.
  - sm I; rewrite ?M; cbn; try reflexivity; contradiction.
  - sm I; rewrite ?M; cbn; try reflexivity; contradiction.
  - sm I; rewrite ?M; cbn; try reflexivity; contradiction.
Qed.
Lemma receive_system_inv : forall m t s, inv s -> sys s = m :: t -> ph s = Alive \/ ph s = Stopping -> inv (receive_system m (set_sys s t)).
Proof.
  intros m t s I Sy F. assert (NF : ph s <> Fresh) by (destruct F as [-> | ->]; discriminate).
  pose proof (i_acc _ I) as A.
  assert (I1 : forall m, attaches [m] = [] -> sys s = m :: t -> inv (set_sys s t)).
  { intros m' E E'. sm I; rewrite ?E'; cbn; try reflexivity; [|contradiction]. cbn in E. rewrite app_nil_r in E. rewrite E. reflexivity. }
  destruct m as [|c|n]; cbn [receive_system].
  - cbn [kids set_sys]. destruct (kids s) eqn:K.
    + apply stop_inv; auto. exact (I1 _ (eq_refl : attaches [SStop] = []) Sy).
    + specialize (I1 _ (eq_refl : attaches [SStop] = []) Sy). destruct I1 as [P So _ T K' W L]. constructor; cbn; auto. rewrite K.
      destruct F as [F|F]; rewrite F in A; destruct A as [A1 A2]; repeat split; auto; try discriminate. destruct A2; auto.
  - cbn [ph set_sys]. destruct F as [F|F]; rewrite F.
    + pose proof I as [P So _ T K W L]. constructor; cbn; rewrite ?F; auto.
      * rewrite <- P. unfold place, live. cbn. rewrite Sy, map_app, <- !app_assoc. reflexivity.
      * unfold live in *. cbn. rewrite Sy in So. rewrite map_app, <- !app_assoc. exact So.
      * rewrite F in A. exact A.
      * intros d k H. apply in_app_iff in H as [H|[H|[]]]; [auto|]. injection H as <- <-. split; [|discriminate].
        intros H. exfalso. apply (not_told s c I); [rewrite Sy; left; reflexivity|exact H].
      * intros d H. rewrite map_app. destruct (W d H); [left; apply in_app_iff|]; auto.
    + eapply (inv_close s _ (map fst (kids s)) c (attaches t ++ accepts (mail s))); [exact I|..]; unfold live; cbn; rewrite ?Sy; cbn; auto.
      rewrite F in *. exact A.
  - change (name_of (set_sys s t)) with (name_of s). cbn [kids set_sys ph]. destruct (remove_name (name_of s) n (kids s)) as [ks r] eqn:R.
    pose proof (remove_spec _ _ _ _ _ R) as E. destruct r as [c|].
    + destruct E as (a & k & b & EK & -> & _).
      assert (G : forall p acc arm, match p with
          | Fresh => False | Alive => acc = true /\ arm = true | Stopping => acc = true /\ arm = true /\ a ++ b <> []
          | Gone | Destroyed => acc = false /\ a ++ b = [] end ->
          inv (State p acc arm (mail s) t (a ++ b) (names s) (told s) (closed s ++ [c]) (lost s))).
      { intros p acc arm G. eapply (inv_close s _ (map fst a) c (map fst b ++ attaches t ++ accepts (mail s))); [exact I|..]; unfold live; cbn; auto.
        - rewrite EK, Sy, map_app. cbn. rewrite <- app_assoc. reflexivity.
        - rewrite map_app, <- app_assoc. reflexivity.
        - intros d q H. rewrite EK. apply in_app_iff in H. apply in_app_iff. cbn. tauto.
        - intros d H. rewrite EK, map_app in H. rewrite map_app, in_app_iff. apply in_app_iff in H. cbn in H. intuition.
        }
      destruct F as [F|F]; rewrite F in A |- *.
      * apply (G (ph s) (acceptor s) (armed s)). rewrite F. exact A.
      * destruct (a ++ b) as [|x l] eqn:AB.
        -- apply (G Gone false (armed s)). auto.
        -- apply (G (ph s) (acceptor s) (armed s)). rewrite F. destruct A as (A1 & A2 & _). repeat split; auto. discriminate.
    + destruct E as [-> _].
      assert (E : set_kids (set_sys s t) (kids s) = set_sys s t) by reflexivity. rewrite E. specialize (I1 _ (eq_refl : attaches [SDetach n] = []) Sy).
      destruct F as [F|F]; rewrite F in A |- *; [exact I1|]. destruct (kids s) eqn:K; [destruct A as (_ & _ & A); contradiction|exact I1].
Qed.
Lemma step_inv : forall x s s', inv s -> step s x = Some s' -> inv s'.
Proof.
  intros x s s' I H. destruct x as [bd|n| |m| |there| |c there|c|]; cbn [step] in H.
  - destruct (ph s) eqn:F; try discriminate. pose proof I as [P So A T K W L]. rewrite F in A. destruct A as (A1 & A2 & A3 & _).
    destruct bd; injection H as <-; constructor; cbn; auto.
  - destruct (armed s) eqn:AR; [|discriminate]. injection H as <-. apply accept_inv; auto.
  - destruct (armed s) eqn:AR; [|discriminate]. injection H as <-. apply accept_inv; auto.
  - destruct m as [o| | |]; [discriminate| | |]; injection H as <-; destruct (is_open s); auto; sm I; auto.
  - injection H as <-. destruct (is_open s); auto. sm I; auto.
  - destruct (ph s) eqn:F; try discriminate; destruct (sys s) eqn:Sy; try discriminate; destruct (mail s) as [|m t] eqn:M; try discriminate;
      injection H as <-; apply receive_inv; auto.
  - destruct (ph s) eqn:F; try discriminate; destruct (sys s) as [|m t] eqn:Sy; try discriminate; injection H as <-; apply receive_system_inv; auto.
  - destruct (kid c (kids s)) as [[]|] eqn:KC; try discriminate. pose proof (kid_in _ _ _ KC) as IN. pose proof (kids_nodup _ I) as ND.
    pose proof I as [P So A T K W L].
    assert (A' : match ph s with
          | Fresh => acceptor s = false /\ armed s = false /\ set_kid c (if there then Running else Failed) (kids s) = [] /\ accepts (mail s) = [] /\ attaches (sys s) = []
          | Alive => acceptor s = true /\ armed s = true
          | Stopping => acceptor s = true /\ armed s = true /\ set_kid c (if there then Running else Failed) (kids s) <> []
          | Gone | Destroyed => acceptor s = false /\ set_kid c (if there then Running else Failed) (kids s) = []
          end).
    { destruct (kids s) as [|[d q] l]; [discriminate|]. destruct (ph s); auto; try (destruct A as (? & ?); discriminate);
        try (destruct A as (? & ? & ? & ?); discriminate). destruct A as (? & ? & ?). cbn. destruct (d =? c); repeat split; auto; discriminate. }
    destruct there; injection H as <-; constructor; cbn [names set_kids told closed lost kids acceptor armed ph mail sys]; auto.
    + unfold place, live in *. cbn. rewrite set_kid_fst. exact P.
    + unfold live in *. cbn. rewrite set_kid_fst. exact So.
    + apply (Permutation_NoDup (l := c :: told s)); [apply Permutation_cons_append|]. constructor; [|exact T].
      intros X. apply (K c New IN) in X. discriminate.
    + intros d k X. rewrite in_app_iff. apply in_set_kid_nodup in X; [|exact ND]. destruct X as [[-> ->]|[N X]].
      * split; [reflexivity|]. right. left. reflexivity.
      * rewrite <- (K d k X). split; [intros [Y|[Y|[]]]; [exact Y|congruence]|auto].
    + intros d X. rewrite set_kid_fst. apply in_app_iff in X as [X|[<-|[]]]; [auto|]. left. apply in_map with (f := fst) in IN. exact IN.
    + intros d X. destruct (L d X) as [L1 L2]. split; [exact L1|]. intros Y. apply in_app_iff in Y as [Y|[<-|[]]]; [auto|].
      pose proof (place_nodup _ I) as N. unfold place, live in N. rewrite <- !app_assoc in N.
      apply in_map with (f := fst) in IN. cbn in IN. apply in_split in IN as (a & b & E). rewrite E, <- app_assoc in N. cbn in N.
      apply NoDup_remove_2 in N. apply N. rewrite !in_app_iff. auto 8.
    + unfold place, live in *. cbn. rewrite set_kid_fst. exact P.
    + unfold live in *. cbn. rewrite set_kid_fst. exact So.
    + intros d k X. apply in_set_kid_nodup in X; [|exact ND]. destruct X as [[-> ->]|[N X]]; [|exact (K d k X)]. exact (K c New IN).
    + intros d X. rewrite set_kid_fst. auto.
  - destruct (kid c (kids s)) as [[]|] eqn:KC; try discriminate. pose proof (kid_in _ _ _ KC) as IN. pose proof (kids_nodup _ I) as ND.
    injection H as <-. pose proof I as [P So A T K W L].
    constructor; cbn [names set_kids set_sys told closed lost kids acceptor armed ph mail sys]; auto.
    + unfold place, live in *. cbn. rewrite set_kid_fst, attaches_app. cbn. rewrite app_nil_r. exact P.
    + unfold live in *. cbn. rewrite set_kid_fst, attaches_app. cbn. rewrite app_nil_r. exact So.
    + destruct (kids s) as [|[d q] l]; [discriminate|]. destruct (ph s); auto; try (destruct A as (? & ?); discriminate);
        try (destruct A as (? & ? & ? & ?); discriminate). destruct A as (? & ? & ?). cbn. destruct (d =? c); repeat split; auto; discriminate.
    + intros d k X. apply in_set_kid_nodup in X; [|exact ND]. destruct X as [[-> ->]|[N X]]; [exact (K c Running IN)|exact (K d k X)].
    + intros d X. rewrite set_kid_fst. auto.
  - destruct (ph s) eqn:F; try discriminate. injection H as <-. pose proof I as [P So A T K W L]. rewrite F in A. destruct A as [A1 A2].
    constructor; cbn; auto.
    + rewrite <- P. unfold place, live. cbn. rewrite A2. cbn. rewrite app_nil_r. rewrite Permutation_app_comm.
      apply Permutation_app_tail. apply Permutation_app_comm.
    + constructor.
    + intros d k [].
    + intros d X. right. rewrite !in_app_iff. destruct (W d X) as [Y|Y]; auto.
    + intros d X. rewrite !in_app_iff. destruct (L d X). auto.
Qed.
Lemma run_inv : forall xs s s', inv s -> run s xs = Some s' -> inv s'.
Proof.
  induction xs as [|x xs IH]; intros s s' I H; cbn [run] in H; [injection H as <-; exact I|].
  destruct (step s x) as [s1|] eqn:E; [|discriminate]. exact (IH _ _ (step_inv _ _ _ I E) H).
Qed.
Lemma reach_inv : forall xs s, run state0 xs = Some s -> inv s.
Proof. intros xs s H. exact (run_inv _ _ _ inv0 H). Qed.

(* ---- with one connection per address and port at a time ---- *)
Definition ended (e : nat * kstate) : bool := match snd e with Ended => true | _ => false end.
Record tidy (s : state) : Prop := Tidy {
  t_names : NoDup (map (name_of s) (live s));
  t_det : Permutation (detaches (sys s)) (map (fun e => name_of s (fst e)) (filter ended (kids s)));
  t_closed : ph s = Fresh \/ ph s = Alive -> forall c, In c (closed s) -> In c (told s) \/ In c (lost s)
}.
Lemma tidy0 : tidy state0.
Proof. constructor; cbn; [constructor|constructor|intros _ c []]. Qed.
Lemma tidy_same : forall s s', tidy s -> live s' = live s -> kids s' = kids s -> names s' = names s -> detaches (sys s') = detaches (sys s) ->
  (ph s' = Fresh \/ ph s' = Alive -> forall c, In c (closed s') -> In c (told s') \/ In c (lost s')) -> tidy s'.
Proof.
  intros s s' [N D C] E1 E2 E3 E4 E5. assert (E : name_of s' = name_of s) by (unfold name_of; rewrite E3; reflexivity).
  constructor; [rewrite E, E1; exact N|rewrite E4, E2, E; exact D|exact E5].
Qed.
Lemma not_ended_set : forall (g : nat * kstate -> nat) c k l q, k <> Ended -> kid c l = Some q -> q <> Ended ->
  map g (filter ended (set_kid c k l)) = map g (filter ended l).
Proof.
  intros g c k l q N. induction l as [|[d r] l IH]; cbn; [discriminate|]. destruct (Nat.eqb_spec d c) as [->|NE]; intros H Q.
  - injection H as ->. cbn. unfold ended at 1 3. cbn. destruct k, q; try congruence; reflexivity.
  - cbn. destruct (ended (d, r)); cbn; rewrite (IH H Q); reflexivity.
Qed.
Lemma ended_set : forall (g : nat * kstate -> nat) c l, (forall k k', g (c, k) = g (c, k')) -> kid c l = Some Running ->
  Permutation (map g (filter ended (set_kid c Ended l))) (g (c, Ended) :: map g (filter ended l)).
Proof.
  intros g c l G. induction l as [|[d r] l IH]; cbn; [discriminate|]. destruct (Nat.eqb_spec d c) as [->|NE]; intros H.
  - injection H as ->. cbn. reflexivity.
  - cbn. destruct (ended (d, r)); cbn; rewrite (IH H); [apply perm_swap|reflexivity].
Qed.
Lemma nodup_drop : forall (a : list nat) x b, NoDup (a ++ x :: b) -> NoDup (a ++ b).
Proof. intros a x b H. exact (NoDup_remove_1 _ _ _ H). Qed.
Lemma name_stable : forall s n c, c < length (names s) -> nth c (names s ++ [n]) 0 = name_of s c.
Proof. intros s n c H. unfold name_of. apply app_nth1. exact H. Qed.
Lemma map_inj_in : forall (f : nat -> nat) l x y, NoDup (map f l) -> In x l -> In y l -> f x = f y -> x = y.
Proof.
  intros f l x y. induction l as [|z l IH]; cbn; intros N X Y E; [destruct X|]. inversion N as [|p q N1 N2]; subst.
  destruct X as [->|X], Y as [->|Y]; auto.
  - exfalso. apply N1. rewrite E. apply in_map. exact Y.
  - exfalso. apply N1. rewrite <- E. apply in_map. exact X.
Qed.
Lemma kid_unique : forall (l : list (nat * kstate)) c k k', NoDup (map fst l) -> In (c, k) l -> In (c, k') l -> k = k'.
Proof.
  intros l c k k'. induction l as [|[d q] l IH]; cbn; intros N X Y; [destruct X|]. inversion N as [|p r N1 N2]; subst.
  destruct X as [X|X], Y as [Y|Y]; [congruence| | |auto].
  - injection X as -> ->. exfalso. apply N1. apply in_map with (f := fst) in Y. exact Y.
  - injection Y as -> ->. exfalso. apply N1. apply in_map with (f := fst) in X. exact X.
Qed.

Lemma detach_kid : forall s n t ks r, inv s -> tidy s -> sys s = SDetach n :: t -> remove_name (name_of s) n (kids s) = (ks, r) ->
  exists a c b, kids s = a ++ (c, Ended) :: b /\ ks = a ++ b /\ r = Some c /\ name_of s c = n.
Proof.
  intros s n t ks r I [N D C] Sy R. rewrite Sy in D. cbn in D.
  assert (X : In n (map (fun e => name_of s (fst e)) (filter ended (kids s)))).
  { apply (Permutation_in _ D). left. reflexivity. }
  apply in_map_iff in X as ([c0 k0] & E0 & X). apply filter_In in X as [X Y]. destruct k0; try discriminate. cbn [fst] in E0.
  pose proof (remove_spec _ _ _ _ _ R) as E. destruct r as [c|].
  - destruct E as (a & k & b & EK & -> & Ec). exists a, c, b.
    assert (c = c0).
    { apply (map_inj_in (name_of s) (live s)); [exact N| | |congruence]; unfold live; apply in_app_iff; left; apply in_map_iff.
      - exists (c, k). split; [reflexivity|]. rewrite EK. apply in_app_iff. right. left. reflexivity.
      - exists (c0, Ended). auto. }
    subst c0. assert (k = Ended).
    { apply (kid_unique (kids s) c); [exact (kids_nodup _ I)| |exact X]. rewrite EK. apply in_app_iff. right. left. reflexivity. }
    subst k. auto.
  - destruct E as [_ E]. exfalso. apply E. rewrite map_map. apply in_map_iff. exists (c0, Ended). auto.
Qed.
Lemma step_tidy : forall x s s', inv s -> tidy s -> (forall n, x = Accept n -> ~ In n (map (name_of s) (live s))) -> step s x = Some s' -> tidy s'.
Proof.
  intros x s s' I TD AP H. destruct x as [bd|n| |m| |there| |c there|c|]; cbn [step] in H.
  - destruct (ph s) eqn:F; try discriminate. destruct bd; injection H as <-; (eapply tidy_same; [exact TD|..]; try reflexivity).
    + intros _. cbn. apply (t_closed _ TD). auto.
    + cbn. intros [X|X]; discriminate.
  - destruct (armed s) eqn:AR; [|discriminate]. injection H as <-. unfold accept. destruct (acceptor s) eqn:AC.
    + destruct TD as [N D C]. constructor; cbn [names set_mail told closed lost kids acceptor armed ph mail sys]; auto.
      * match goal with |- NoDup (map (name_of ?s') _) => set (s2 := s') end.
        assert (EL : live s2 = live s ++ [length (names s)]).
        { unfold live, s2. cbn. rewrite accepts_app. cbn. rewrite !app_assoc. reflexivity. }
        rewrite EL, map_app. cbn [map].
        assert (E : map (name_of s2) (live s) = map (name_of s) (live s)).
        { apply map_ext_in. intros c X. unfold name_of at 1. cbn. apply name_stable. apply (place_bound _ _ I). unfold place. apply in_app_iff. auto. }
        rewrite E. eapply Permutation_NoDup; [apply Permutation_cons_append|].
        assert (EN : name_of s2 (length (names s)) = n) by (unfold name_of; cbn; apply nth_middle).
        rewrite EN. constructor; [|exact N]. apply AP. reflexivity.
      * rewrite D. erewrite map_ext_in; [reflexivity|]. intros [c k] X. cbn. symmetry. unfold name_of at 1. cbn. apply name_stable.
        apply filter_In in X as [X _]. apply (place_bound _ _ I). unfold place, live. apply in_app_iff. left. apply in_app_iff. left.
        apply in_map with (f := fst) in X. exact X.
    + pose proof (i_acc _ I) as A. rewrite AC, AR in A. destruct TD as [N D C]. constructor; cbn [names set_closed told closed lost kids acceptor armed ph mail sys].
      * unfold live in *. cbn. erewrite map_ext_in; [exact N|]. intros c X. cbn. unfold name_of at 1. cbn. apply name_stable.
        apply (place_bound _ _ I). unfold place, live. apply in_app_iff. auto.
      * rewrite D. erewrite map_ext_in; [reflexivity|]. intros [c k] X. cbn. symmetry. unfold name_of at 1. cbn. apply name_stable.
        apply filter_In in X as [X _]. apply (place_bound _ _ I). unfold place, live. apply in_app_iff. left. apply in_app_iff. left.
        apply in_map with (f := fst) in X. exact X.
      * intros [X|X]; rewrite X in A; destruct A as [? A]; try discriminate. destruct A; discriminate.
  - destruct (armed s); [|discriminate]. injection H as <-. unfold accept. destruct (acceptor s); (eapply tidy_same; [exact TD|..]; try reflexivity).
    + unfold live. cbn. rewrite accepts_app. cbn. rewrite app_nil_r. reflexivity.
    + exact (t_closed _ TD).
    + exact (t_closed _ TD).
  - destruct m as [o| | |]; [discriminate| | |]; injection H as <-; destruct (is_open s); auto; (eapply tidy_same; [exact TD|..]; try reflexivity;
      [unfold live; cbn; rewrite accepts_app; cbn; rewrite app_nil_r; reflexivity|exact (t_closed _ TD)]).
  - injection H as <-. destruct (is_open s); auto. eapply tidy_same; [exact TD|..]; try reflexivity; [| |exact (t_closed _ TD)].
    + unfold live. cbn. rewrite attaches_app. cbn. rewrite app_nil_r. reflexivity.
    + cbn. rewrite detaches_app. cbn. rewrite app_nil_r. reflexivity.
  - assert (X : exists m t, mail s = m :: t /\ sys s = [] /\ s' = receive m there (set_mail s t)).
    { destruct (ph s) eqn:F; try discriminate; destruct (sys s) eqn:Sy; try discriminate; destruct (mail s) as [|m t] eqn:M; try discriminate;
      injection H as <-; exists m, t; auto. }
    destruct X as (m & t & M & Sy & ->). clear H. destruct m as [[c|]| | |]; cbn [receive].
    + destruct there.
      * eapply tidy_same; [exact TD|..]; try reflexivity; [| |exact (t_closed _ TD)]; unfold live; cbn; rewrite ?M, ?Sy; reflexivity.
      * destruct TD as [N D C]. constructor; cbn [names set_mail told closed lost kids acceptor armed ph mail sys].
        -- unfold live in *. cbn. rewrite M, Sy in N. rewrite Sy. cbn in N |- *. rewrite map_app in N |- *. exact (nodup_drop _ _ _ N).
        -- exact D.
        -- intros F d X. rewrite in_app_iff. apply in_app_iff in X as [X|[X|[]]]; [destruct (C F d X); auto|auto]. right. right. left. exact X.
    + eapply tidy_same; [exact TD|..]; try reflexivity; [|exact (t_closed _ TD)]; unfold live; cbn; rewrite M; reflexivity.
    + eapply tidy_same; [exact TD|..]; try reflexivity; [|exact (t_closed _ TD)]; unfold live; cbn; rewrite M, accepts_app; cbn; rewrite app_nil_r; reflexivity.
    + eapply tidy_same; [exact TD|..]; try reflexivity; [| |exact (t_closed _ TD)]; unfold live; cbn; rewrite ?M, ?Sy; cbn; reflexivity.
    + eapply tidy_same; [exact TD|..]; try reflexivity; [|exact (t_closed _ TD)]; unfold live; cbn; rewrite M; reflexivity.
  - assert (X : exists m t, sys s = m :: t /\ s' = receive_system m (set_sys s t) /\ (ph s = Alive \/ ph s = Stopping)).
    { destruct (ph s) eqn:F; try discriminate; destruct (sys s) as [|m t] eqn:Sy; try discriminate; injection H as <-; exists m, t; auto. }
    destruct X as (m & t & Sy & -> & F). clear H. destruct m as [|c|n]; cbn [receive_system].
    + cbn [kids set_sys]. destruct (kids s) eqn:K.
      * eapply tidy_same; [exact TD|..]; try reflexivity; try (unfold live; cbn; rewrite Sy; reflexivity); try (cbn; rewrite Sy; reflexivity).
        cbn. intros [X|X]; discriminate.
      * eapply tidy_same; [exact TD|..]; try reflexivity; try (unfold live; cbn; rewrite Sy; reflexivity); try (cbn; rewrite Sy; reflexivity).
        cbn. intros [X|X]; discriminate.
    + cbn [ph set_sys]. destruct F as [F|F]; rewrite F; destruct TD as [N D C]; constructor; cbn [names set_sys set_kids set_closed told closed lost kids acceptor armed ph mail sys].
      * replace (live (set_kids (set_sys s t) (kids s ++ [(c, New)]))) with (live s); [exact N|].
        unfold live. cbn. rewrite Sy, map_app, <- app_assoc. reflexivity.
      * rewrite filter_app. cbn. rewrite app_nil_r. rewrite Sy in D. exact D.
      * rewrite F in *. auto.
      * unfold live in *. cbn. rewrite Sy in N. cbn in N. rewrite map_app in N |- *. exact (nodup_drop _ _ _ N).
      * rewrite Sy in D. exact D.
      * rewrite F. intros [X|X]; discriminate.
    + change (name_of (set_sys s t)) with (name_of s). cbn [kids set_sys ph]. destruct (remove_name (name_of s) n (kids s)) as [ks r] eqn:R.
      destruct (detach_kid _ _ _ _ _ I TD Sy R) as (a & c & b & EK & -> & -> & EN).
      assert (G : forall p acc arm, (p = Fresh \/ p = Alive -> ph s = Alive) -> tidy (State p acc arm (mail s) t (a ++ b) (names s) (told s) (closed s ++ [c]) (lost s))).
      { intros p acc arm G. destruct TD as [N D C]. constructor; cbn [names set_sys set_kids set_closed told closed lost kids acceptor armed ph mail sys].
        - change (name_of _) with (name_of s). unfold live in *. cbn. rewrite EK, Sy in N. cbn in N. rewrite !map_app, <- ?app_assoc in N |- *. cbn in N.
          rewrite <- ?app_assoc in *. exact (nodup_drop _ _ _ N).
        - change (name_of _) with (name_of s). rewrite EK, Sy, !filter_app in D. cbn in D. rewrite map_app in D. cbn in D. rewrite EN in D.
          apply Permutation_cons_app_inv in D. rewrite filter_app, map_app. exact D.
        - intros P d X. specialize (G P). apply in_app_iff in X as [X|[X|[]]]; [apply C; auto|]. subst d. left.
          apply (i_kids _ I c Ended); [|reflexivity]. rewrite EK. apply in_app_iff. right. left. reflexivity. }
      destruct F as [F|F]; rewrite F.
      * apply (G (ph s) (acceptor s) (armed s)). auto.
      * destruct (a ++ b) as [|x l] eqn:AB.
        -- apply (G Gone false (armed s)). intros [X|X]; discriminate.
        -- apply (G (ph s) (acceptor s) (armed s)). intros [X|X]; congruence.
  - destruct (kid c (kids s)) as [[]|] eqn:KC; try discriminate. destruct TD as [N D C].
    destruct there; injection H as <-; constructor; cbn [names set_sys set_kids set_closed told closed lost kids acceptor armed ph mail sys].
    + unfold live in *. cbn. rewrite set_kid_fst. exact N.
    + erewrite not_ended_set; [exact D|discriminate|exact KC|discriminate].
    + intros F d X. rewrite in_app_iff. destruct (C F d X); auto.
    + unfold live in *. cbn. rewrite set_kid_fst. exact N.
    + erewrite not_ended_set; [exact D|discriminate|exact KC|discriminate].
    + exact C.
  - destruct (kid c (kids s)) as [[]|] eqn:KC; try discriminate. injection H as <-. destruct TD as [N D C].
    constructor; cbn [names set_sys set_kids set_closed told closed lost kids acceptor armed ph mail sys].
    + unfold live in *. cbn. rewrite set_kid_fst, attaches_app. cbn. rewrite app_nil_r. exact N.
    + change (name_of _) with (name_of s). rewrite detaches_app. cbn. rewrite ended_set; [|reflexivity|exact KC]. cbn. rewrite <- D. apply Permutation_sym, Permutation_cons_append.
    + exact C.
  - destruct (ph s) eqn:F; try discriminate. injection H as <-. destruct TD as [N D C].
    pose proof (i_acc _ I) as A. rewrite F in A. destruct A as [A1 A2].
    constructor; cbn [names set_sys set_kids set_closed told closed lost kids acceptor armed ph mail sys].
    + constructor.
    + constructor.
    + intros [X|X]; discriminate.
Qed.
Lemma run_app : forall xs ys s, run s (xs ++ ys) = match run s xs with None => None | Some s1 => run s1 ys end.
Proof. induction xs as [|x xs IH]; intros ys s; cbn [run app]; [reflexivity|]. destruct (step s x); [apply IH|reflexivity]. Qed.
Lemma run_tidy : forall ys xs s1 s, apart (xs ++ ys) -> run state0 xs = Some s1 -> tidy s1 -> run s1 ys = Some s -> tidy s.
Proof.
  induction ys as [|y ys IH]; intros xs s1 s AP R1 T R; cbn [run] in R; [injection R as <-; exact T|].
  destruct (step s1 y) as [s2|] eqn:E; [|discriminate]. apply (IH (xs ++ [y]) s2 s).
  - rewrite <- app_assoc. exact AP.
  - rewrite run_app, R1. cbn [run]. rewrite E. reflexivity.
  - apply (step_tidy y s1 s2 (reach_inv _ _ R1) T); [|exact E]. intros n ->. exact (AP xs n ys s1 eq_refl R1).
  - exact R.
Qed.
Lemma reach_tidy : forall xs s, apart xs -> run state0 xs = Some s -> tidy s.
Proof. intros xs s AP H. exact (run_tidy xs [] state0 s AP eq_refl tidy0 H). Qed.

(* without vanishing peers *)
Lemma step_fine : forall x s s', step s x = Some s' -> vanished x = false ->
  (lost s = [] /\ forall c, ~ In (c, Failed) (kids s)) -> lost s' = [] /\ forall c, ~ In (c, Failed) (kids s').
Proof.
  intros x s s' H V [L K]. destruct x as [bd|n| |m| |there| |c there|c|]; cbn [step] in H.
  - destruct (ph s); try discriminate. destruct bd; injection H as <-; auto.
  - destruct (armed s); [|discriminate]. injection H as <-. unfold accept. destruct (acceptor s); auto.
  - destruct (armed s); [|discriminate]. injection H as <-. unfold accept. destruct (acceptor s); auto.
  - destruct m as [o| | |]; [discriminate| | |]; injection H as <-; destruct (is_open s); auto.
  - injection H as <-. destruct (is_open s); auto.
  - destruct there; [|discriminate].
    assert (G : forall m t, lost (receive m true (set_mail s t)) = [] /\ forall c, ~ In (c, Failed) (kids (receive m true (set_mail s t)))).
    { intros [[c|]| | |] t; cbn; auto. }
    destruct (ph s); try discriminate; destruct (sys s); try discriminate; destruct (mail s); try discriminate; injection H as <-; apply G.
  - assert (G : forall m t, lost (receive_system m (set_sys s t)) = [] /\ forall c, ~ In (c, Failed) (kids (receive_system m (set_sys s t)))).
    { intros [|c|n] t; cbn [receive_system].
      - cbn [kids set_sys]. destruct (kids s) eqn:E; cbn; [rewrite E|rewrite E]; auto.
      - cbn [ph set_sys]. destruct (ph s); cbn; split; auto; intros d X; try (apply in_app_iff in X as [X|[X|[]]]; [|discriminate]); exact (K d X).
      - change (name_of (set_sys s t)) with (name_of s). cbn [kids set_sys ph]. destruct (remove_name (name_of s) n (kids s)) as [ks r] eqn:R.
        assert (KS : forall c, ~ In (c, Failed) ks).
        { pose proof (remove_spec _ _ _ _ _ R) as E. destruct r as [c|]; [|destruct E as [-> _]; exact K].
          destruct E as (a & k & b & E & -> & _). intros d X. apply (K d). rewrite E. apply in_app_iff in X. apply in_app_iff. cbn. tauto. }
        destruct r, (ph s), ks; cbn; auto. }
    destruct (ph s); try discriminate; destruct (sys s); try discriminate; injection H as <-; apply G.
  - destruct there; [|discriminate]. destruct (kid c (kids s)) as [[]|]; try discriminate. injection H as <-. cbn. split; [exact L|].
    intros d X. apply in_set_kid in X as [X|(_ & X & _)]; [exact (K d X)|discriminate].
  - destruct (kid c (kids s)) as [[]|]; try discriminate. injection H as <-. cbn. split; [exact L|].
    intros d X. apply in_set_kid in X as [X|(_ & X & _)]; [exact (K d X)|discriminate].
  - destruct (ph s); try discriminate. injection H as <-. cbn. auto.
Qed.
Lemma run_fine : forall xs s s', run s xs = Some s' -> existsb vanished xs = false ->
  (lost s = [] /\ forall c, ~ In (c, Failed) (kids s)) -> lost s' = [] /\ forall c, ~ In (c, Failed) (kids s').
Proof.
  induction xs as [|x xs IH]; intros s s' H V K; cbn [run] in H; [injection H as <-; exact K|].
  cbn [existsb] in V. apply orb_false_iff in V as [V1 V2]. destruct (step s x) as [s1|] eqn:E; [|discriminate].
  exact (IH _ _ H V2 (step_fine _ _ _ E V1 K)).
Qed.

(* a remote whose start failed keeps a stopping listener for ever *)
Definition stuck (c : nat) (s : state) : Prop :=
  ph s = Stopping /\ acceptor s = true /\ armed s = true /\ kids s = [(c, Failed)] /\ detaches (sys s) = [].
Lemma stuck_step : forall c x s s', stuck c s -> step s x = Some s' -> stuck c s' /\ told s' = told s.
Proof.
  intros c x s s' (P & A & R & K & D) H. unfold stuck. destruct x as [bd|n| |m| |there| |d there|d|]; cbn [step] in H; rewrite ?P, ?R in H; try discriminate.
  - injection H as <-. unfold accept. rewrite A. cbn. rewrite ?A. auto 6.
  - injection H as <-. unfold accept. rewrite A. cbn. auto 6.
  - unfold is_open in H. rewrite P in H. destruct m as [o| | |]; [discriminate| | |]; injection H as <-; cbn; auto 6.
  - unfold is_open in H. rewrite P in H. injection H as <-. cbn. rewrite detaches_app, D. auto 6.
  - destruct (sys s) eqn:Sy; [|discriminate]. destruct (mail s) as [|m t]; [discriminate|]. injection H as <-.
    destruct m as [[e|]| | |]; cbn [receive]; [destruct there|..]; cbn; rewrite ?detaches_app, ?Sy; cbn; auto 6.
  - destruct (sys s) as [|m t] eqn:Sy; [discriminate|]. injection H as <-. destruct m as [|e|n]; cbn [receive_system].
    + cbn [kids set_sys]. rewrite K. cbn. auto 6.
    + cbn [ph set_sys]. rewrite P. cbn. rewrite P. auto 6.
    + discriminate.
  - rewrite K in H. cbn in H. destruct (c =? d); discriminate.
  - rewrite K in H. cbn in H. destruct (c =? d); discriminate.
Qed.
Lemma stuck_run : forall c xs s s', stuck c s -> run s xs = Some s' -> stuck c s' /\ told s' = told s.
Proof.
  induction xs as [|x xs IH]; intros s s' H R; cbn [run] in R; [injection R as <-; auto|].
  destruct (step s x) as [s1|] eqn:E; [|discriminate]. destruct (stuck_step _ _ _ _ H E) as [H1 T1]. destruct (IH _ _ H1 R) as [H2 T2].
  split; [exact H2|congruence].
Qed.

(* a destroyed mailbox stays empty *)
Lemma empty_step : forall x s s', inv s -> step s x = Some s' -> (ph s = Destroyed -> mail s = [] /\ sys s = []) -> ph s' = Destroyed -> mail s' = [] /\ sys s' = [].
Proof.
  intros x s s' I E G D. pose proof (i_acc _ I) as A. destruct x as [bd|n| |m| |there| |c there|c|]; cbn [step] in E.
  - destruct (ph s); try discriminate. destruct bd; injection E as <-; discriminate.
  - destruct (armed s); [|discriminate]. injection E as <-. unfold accept in *. destruct (acceptor s) eqn:AC; cbn in D |- *; [rewrite D in A; destruct A; discriminate|auto].
  - destruct (armed s); [|discriminate]. injection E as <-. unfold accept in *. destruct (acceptor s) eqn:AC; cbn in D |- *; [rewrite D in A; destruct A; discriminate|auto].
  - destruct m as [o| | |]; [discriminate| | |]; injection E as <-; unfold is_open in *; destruct (ph s) eqn:P; cbn in D; try congruence; auto.
  - injection E as <-; unfold is_open in *; destruct (ph s) eqn:P; cbn in D; try congruence; auto.
  - exfalso. destruct (ph s) eqn:P; try discriminate; destruct (sys s); try discriminate; destruct (mail s) as [|m t]; try discriminate;
      injection E as <-; destruct m as [[e|]| | |]; cbn in D; try destruct there; cbn in D; congruence.
  - exfalso. destruct (ph s) eqn:P; try discriminate; destruct (sys s) as [|m t]; try discriminate; injection E as <-;
      destruct m as [|e|n]; cbn [receive_system kids set_sys ph] in D; rewrite ?P in D;
      try (destruct (kids s); cbn in D; congruence); try (cbn in D; congruence);
      destruct (remove_name _ n (kids s)) as [[|] [|]]; cbn in D; congruence.
  - destruct (kid c (kids s)) as [[]|] eqn:KC; try discriminate. assert (D0 : ph s = Destroyed) by (destruct there; injection E as <-; exact D).
    rewrite D0 in A. destruct A as [_ A]. rewrite A in KC. discriminate.
  - destruct (kid c (kids s)) as [[]|] eqn:KC; try discriminate. assert (D0 : ph s = Destroyed) by (injection E as <-; exact D).
    rewrite D0 in A. destruct A as [_ A]. rewrite A in KC. discriminate.
  - destruct (ph s); try discriminate. injection E as <-. auto.
Qed.
Lemma empty_run : forall xs s s', inv s -> (ph s = Destroyed -> mail s = [] /\ sys s = []) -> run s xs = Some s' -> ph s' = Destroyed -> mail s' = [] /\ sys s' = [].
Proof.
  induction xs as [|x xs IH]; intros s s' I G R D; cbn [run] in R; [injection R as <-; auto|].
  destruct (step s x) as [s1|] eqn:E; [|discriminate]. exact (IH _ _ (step_inv _ _ _ I E) (fun D' => empty_step _ _ _ I E G D') R D).
Qed.

(* ---- a stopping listener stops ---- *)
Definition kid_weight (k : kstate) : nat := match k with New => 4 | Running => 3 | Failed => 0 | Ended => 1 end.
Definition sys_weight (m : smsg) : nat := match m with SAttach _ => 6 | _ => 1 end.
Definition weight (s : state) : nat := list_sum (map (fun e => kid_weight (snd e)) (kids s)) + list_sum (map sys_weight (sys s)).
Lemma set_kid_weight : forall c k l q, kid c l = Some q ->
  list_sum (map (fun e => kid_weight (snd e)) (set_kid c k l)) + kid_weight q = list_sum (map (fun e => kid_weight (snd e)) l) + kid_weight k.
Proof.
  intros c k. induction l as [|[d p] l IH]; intros q H; cbn in H; [discriminate|]. cbn [set_kid]. destruct (d =? c).
  - injection H as ->. cbn. unfold list_sum. lia.
  - specialize (IH q H). cbn. unfold list_sum in *. lia.
Qed.
Lemma leaving_step : forall x s s', leaving x = true -> step s x = Some s' -> weight s' < weight s.
Proof.
  intros x s s' V H. destruct x as [bd|n| |m| |there| |c there|c|]; try discriminate; cbn [step] in H.
  - assert (G : forall m t, sys s = m :: t -> weight (receive_system m (set_sys s t)) < weight s).
    { intros m t E. unfold weight. rewrite E. cbn [map list_sum fold_right]. destruct m as [|c|n]; cbn [receive_system].
      - destruct (kids s) as [|e l] eqn:K; cbn [set_sys kids sys stop_impl set_ph sys_weight]; rewrite ?K; cbn; rewrite ?K; unfold list_sum; cbn; lia.
      - destruct (ph (set_sys s t)); cbn [set_sys set_kids set_closed kids sys sys_weight]; rewrite ?map_app, ?list_sum_app; cbn; unfold list_sum; lia.
      - destruct (remove_name (name_of (set_sys s t)) n (kids (set_sys s t))) as [ks r] eqn:R. pose proof (remove_spec _ _ _ _ _ R) as P. cbn [kids set_sys] in P.
        assert (L : list_sum (map (fun e => kid_weight (snd e)) ks) <= list_sum (map (fun e => kid_weight (snd e)) (kids s))).
        { destruct r as [c|]; [|destruct P as [-> _]; lia]. destruct P as (a & k & b & -> & -> & _). rewrite !map_app, !list_sum_app. cbn. unfold list_sum. lia. }
        destruct r, (ph (set_sys s t)), ks; cbn [set_sys set_kids set_closed kids sys stop_impl sys_weight] in *; unfold list_sum in *; cbn in *; lia. }
    destruct (ph s); try discriminate; destruct (sys s) as [|m t] eqn:E; try discriminate; injection H as <-; apply G; reflexivity.
  - destruct there; [|discriminate]. destruct (kid c (kids s)) as [[| | |]|] eqn:K; try discriminate. injection H as <-. unfold weight. cbn [kids sys].
    pose proof (set_kid_weight c Running (kids s) New K) as W. cbn [kid_weight] in W. lia.
  - destruct (kid c (kids s)) as [[| | |]|] eqn:K; try discriminate. injection H as <-. unfold weight. cbn [set_sys set_kids kids sys]. rewrite map_app, list_sum_app.
    pose proof (set_kid_weight c Ended (kids s) Running K) as W. cbn [kid_weight] in W. cbn. unfold list_sum in *. lia.
Qed.
Lemma leaving_run : forall ys s s', forallb leaving ys = true -> run s ys = Some s' -> length ys + weight s' <= weight s.
Proof.
  induction ys as [|y ys IH]; intros s s' V H; cbn [run] in H; [injection H as <-; cbn; lia|]. cbn in V. apply andb_prop in V as [V1 V2].
  destruct (step s y) as [s1|] eqn:E; [|discriminate]. pose proof (leaving_step _ _ _ V1 E). pose proof (IH _ _ V2 H). cbn. lia.
Qed.
Definition leaves (s : state) : Prop := (forall c, ~ In (c, Failed) (kids s)) /\ (ph s = Stopping \/ ph s = Gone).
Lemma leaves_step : forall x s s', leaving x = true -> step s x = Some s' -> leaves s -> leaves s'.
Proof.
  intros x s s' V H [F P]. destruct x as [bd|n| |m| |there| |c there|c|]; try discriminate; cbn [step] in H.
  - assert (PS : ph s = Stopping) by (destruct (ph s); try discriminate; destruct P; auto; discriminate). rewrite PS in H. destruct (sys s) as [|m t] eqn:E; [discriminate|]. injection H as <-.
    destruct m as [|c|n]; cbn [receive_system].
    + cbn [set_sys kids]. destruct (kids s) as [|e l] eqn:K; split; cbn; rewrite ?K; auto.
    + cbn [set_sys ph]. rewrite PS. split; cbn; rewrite ?PS; auto.
    + destruct (remove_name (name_of (set_sys s t)) n (kids (set_sys s t))) as [ks r] eqn:R. pose proof (remove_spec _ _ _ _ _ R) as Q. cbn [kids set_sys] in Q.
      assert (L : forall c, ~ In (c, Failed) ks).
      { intros c X. apply (F c). destruct r as [d|]; [|destruct Q as [-> _]; exact X]. destruct Q as (a & k & b & -> & -> & _). rewrite in_app_iff in *. destruct X; [auto|right; right; assumption]. }
      cbn [set_sys ph]. rewrite PS. destruct r, ks; split; cbn; rewrite ?PS; auto.
  - destruct there; [|discriminate]. destruct (kid c (kids s)) as [[| | |]|] eqn:K; try discriminate. injection H as <-. split; [|exact P]. cbn.
    intros d X. apply in_set_kid in X as [X|(_ & X & _)]; [exact (F d X)|discriminate].
  - destruct (kid c (kids s)) as [[| | |]|] eqn:K; try discriminate. injection H as <-. split; [|exact P]. cbn.
    intros d X. apply in_set_kid in X as [X|(_ & X & _)]; [exact (F d X)|discriminate].
Qed.
Lemma leaves_run : forall ys s s', forallb leaving ys = true -> run s ys = Some s' -> leaves s -> inv s -> tidy s -> leaves s' /\ inv s' /\ tidy s'.
Proof.
  induction ys as [|y ys IH]; intros s s' V H L I T; cbn [run] in H; [injection H as <-; auto|]. cbn in V. apply andb_prop in V as [V1 V2].
  destruct (step s y) as [s1|] eqn:E; [|discriminate]. apply (IH s1 s' V2 H); [exact (leaves_step _ _ _ V1 E L)|exact (step_inv _ _ _ I E)|].
  apply (step_tidy y s s1 I T); [|exact E]. intros n ->. discriminate.
Qed.
Lemma kid_of : forall l c k, NoDup (map fst l) -> In (c, k) l -> kid c l = Some k.
Proof.
  induction l as [|[d q] l IH]; intros c k N H; [destruct H|]. inversion N; subst. cbn. destruct H as [H|H]; [injection H as -> ->; rewrite Nat.eqb_refl; reflexivity|].
  destruct (Nat.eqb_spec d c) as [->|NE]; [|auto]. exfalso. apply H2. apply in_map with (f := fst) in H. exact H.
Qed.
