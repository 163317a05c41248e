From Coq Require Import List Bool Arith Lia.
From Verif Require Import IoModel IoSpec.
Import ListNotations.

Section P.
Context {Byte : Type}.
Notation conn := (conn Byte).
Notation event := (event Byte).
Notation rmsg := (rmsg Byte).
Notation action := (action Byte).

Lemma told_app : forall a b : list event, told_bytes (a ++ b) = told_bytes a ++ told_bytes b.
Proof. intros a b. induction a as [|[|h [d|]|d n ok|d] a IH]; cbn; rewrite ?IH, ?app_assoc; reflexivity. Qed.
Lemma hw_app : forall a b : list event, handled_writes (a ++ b) = handled_writes a ++ handled_writes b.
Proof. intros a b. induction a as [|[|h [d|]|d n ok|d] a IH]; cbn; rewrite ?IH; reflexivity. Qed.
Lemma sb_app : forall a b : list event, sent_bytes (a ++ b) = sent_bytes a ++ sent_bytes b.
Proof. intros a b. induction a as [|[|h [d|]|d n ok|d] a IH]; cbn; rewrite ?IH, ?app_assoc; reflexivity. Qed.
Lemma mw_app : forall a b : list rmsg, mail_writes (a ++ b) = mail_writes a ++ mail_writes b.
Proof. intros a b. induction a as [|[] a IH]; cbn; rewrite ?IH; reflexivity. Qed.
Fixpoint mail_assigns (l : list rmsg) : list nat :=
  match l with [] => [] | MAssign h :: t => h :: mail_assigns t | _ :: t => mail_assigns t end.
Lemma ma_app : forall a b : list rmsg, mail_assigns (a ++ b) = mail_assigns a ++ mail_assigns b.
Proof. intros a b. induction a as [|[] a IH]; cbn; rewrite ?IH; reflexivity. Qed.
Definition pcm (m : rmsg) : nat := match m with MPeerClosed => 1 | _ => 0 end.
Definition pce (e : event) : nat := match e with Told _ Closed => 1 | _ => 0 end.
Definition sum {B} (f : B -> nat) (l : list B) : nat := list_sum (map f l).
Lemma sum_app : forall B (f : B -> nat) a b, sum f (a ++ b) = sum f a + sum f b.
Proof. intros. unfold sum. rewrite map_app, list_sum_app. reflexivity. Qed.
Lemma sum_cons : forall B (f : B -> nat) x b, sum f (x :: b) = f x + sum f b.
Proof. reflexivity. Qed.
Lemma sum_one : forall B (f : B -> nat) x, sum f [x] = f x.
Proof. intros. unfold sum. cbn. lia. Qed.
Local Arguments sum : simpl never.
Lemma snoc_inv : forall B (l l1 : list B) x y l2, l ++ [x] = l1 ++ y :: l2 ->
  (l2 = [] /\ x = y /\ l = l1) \/ (exists l3, l2 = l3 ++ [x] /\ l = l1 ++ y :: l3).
Proof.
  intros B l l1 x y l2 H. destruct (exists_last (l := y :: l2) ltac:(discriminate)) as [t [z E]].
  rewrite E, app_assoc in H. apply app_inj_tail in H as [H <-]. destruct t as [|y' t].
  - cbn in E. injection E as -> ->. rewrite app_nil_r in H. left. auto.
  - cbn in E. injection E as <- ->. right. exists t. auto.
Qed.

(* what always holds *)
Record inv (ws : list (list Byte)) (hs : list nat) (s : conn) : Prop := Inv {
  i_bytes : arrived s = told_bytes (log s) ++ incoming s;
  i_who : forall h t, In (Told h t) (log s) -> receiver s = Some h;
  i_full : forall h d, In (Told h (Received d)) (log s) -> d <> [];
  i_writes : handled_writes (log s) ++ mail_writes (mail s) = ws;
  i_wire : wire s = sent_bytes (log s);
  i_size : forall d n ok, In (Wrote d n ok) (log s) -> n <= length d /\ (ok = true -> n = length d);
  i_assign : match receiver s with None => mail_assigns (mail s) = hs | Some h => exists t, hs = h :: t end;
  i_first : match ph s with
            | Fresh => log s = [] /\ receiver s = None
            | _ => exists l, log s = Connected :: l /\ ~ In Connected l
            end;
  i_idle : receiver s = None -> armed s = false /\ watched s = false
}.
Lemma conn0_inv : inv [] [] (conn0 Byte).
Proof. constructor; cbn; auto; intros; contradiction. Qed.

Definition new_write (x : action) : list (list Byte) := match x with Tell (MWrite d) => [d] | _ => [] end.
Definition new_assign (x : action) : list nat := match x with Tell (MAssign h) => [h] | _ => [] end.
Lemma writes_cons : forall x xs, writes (x :: xs) = new_write x ++ writes xs.
Proof. intros [] xs; try reflexivity. destruct m; reflexivity. Qed.
Lemma assigns_cons : forall x xs, assigns (x :: xs) = new_assign x ++ assigns xs.
Proof. intros [] xs; try reflexivity. destruct m; reflexivity. Qed.

Ltac mk I := destruct I as [Ib Iw If Iwr Iwi Isz Ia Ifi Iid].

Lemma first_snoc : forall (p : phase) (l : list event) (r : option nat) e, e <> Connected ->
  p <> Fresh ->
  match p with Fresh => l = [] /\ r = None | _ => exists l', l = Connected :: l' /\ ~ In Connected l' end ->
  match p with Fresh => l ++ [e] = [] /\ r = None | _ => exists l', l ++ [e] = Connected :: l' /\ ~ In Connected l' end.
Proof.
  intros p l r e N F H. destruct p; [destruct (F eq_refl)| | |];
    (destruct H as (l' & -> & H); exists (l' ++ [e]); split; [reflexivity|]; intros I; apply in_app_iff in I as [I|[I|[]]]; [exact (H I)|exact (N I)]).
Qed.

(* the mailbox gains a message that is no write and no assignment *)
Lemma mail_inv : forall ws hs s m, inv ws hs s -> mail_writes [m] = [] -> mail_assigns [m] = [] -> inv ws hs (set_mail s (mail s ++ [m])).
Proof.
  intros ws hs s m I W A. mk I. constructor; cbn; auto.
  - rewrite mw_app, W, app_nil_r. exact Iwr.
  - destruct (receiver s); [exact Ia|]. rewrite ma_app, A, app_nil_r. exact Ia.
Qed.
Lemma complete_inv : forall ws hs o s s', inv ws hs s -> complete o s = Some s' -> inv ws hs s'.
Proof.
  intros ws hs o s s' I H.
  assert (Idle : inv ws hs (Conn (ph s) (mail s) (receiver s) false (incoming s) (peer_done s) (wire s) (watched s) (arrived s) (log s))).
  { mk I. constructor; cbn; auto. intros E. destruct (Iid E). auto. }
  unfold complete in H. destruct (ph s) eqn:P; [| | |injection H as <-; rewrite ?P; exact Idle];
   (destruct (receiver s) as [h|] eqn:R; [|injection H as <-; rewrite ?P, ?R; exact Idle]);
   (destruct o as [n| | | |]).
  all: try (injection H as <-; first
     [ exact (mail_inv _ _ _ MPeerClosed Idle eq_refl eq_refl) | exact (mail_inv _ _ _ MError I eq_refl eq_refl) ]).
  all: try (destruct (incoming s) eqn:In0; [|discriminate]; destruct (peer_done s) eqn:D; [|discriminate]; injection H as <-;
     exact (mail_inv _ _ _ MPeerClosed Idle eq_refl eq_refl)).
  all: destruct ((0 <? n) && (n <=? length (incoming s))) eqn:E; [|discriminate]; injection H as <-;
    apply andb_true_iff in E as [E1 E2]; apply Nat.ltb_lt in E1; apply Nat.leb_le in E2; clear Idle; mk I.
  1: rewrite P, R in Ifi; destruct Ifi; discriminate.
  all: constructor; cbn; rewrite ?told_app, ?hw_app, ?sb_app; cbn; rewrite ?app_nil_r, ?P, ?R in *; auto;
    try discriminate.
  all: try (rewrite <- app_assoc, firstn_skipn; exact Ib).
  all: try (intros h' t' Ht; apply in_app_iff in Ht as [Ht|[Ht|[]]]; [exact (Iw _ _ Ht)|injection Ht as <- _; reflexivity]).
  all: try (intros h' d Ht; apply in_app_iff in Ht as [Ht|[Ht|[]]]; [exact (If _ _ Ht)|injection Ht as _ <-; destruct (incoming s); [cbn in E2; lia|destruct n; [lia|discriminate]]]).
  all: try (intros d n' ok Ht; apply in_app_iff in Ht as [Ht|[Ht|[]]]; [exact (Isz _ _ _ Ht)|discriminate]).
  all: destruct Ifi as (l' & El & Nl); exists (l' ++ [Told h (Received (firstn n (incoming s)))]); split; [rewrite El; reflexivity|];
    intros I; apply in_app_iff in I as [I|[I|[]]]; [exact (Nl I)|discriminate].
Qed.

Lemma react_inv : forall ws hs m n err s t, inv ws hs s -> ph s = Alive -> mail s = m :: t ->
  (forall d, m = MWrite d -> n <= length d) -> inv ws hs (react m n err (set_mail s t)).
Proof.
  intros ws hs m n err s t I P M W. mk I. rewrite P in Ifi. rewrite M in Iwr, Ia.
  assert (F : forall e, e <> Connected -> exists l', log s ++ [e] = Connected :: l' /\ ~ In Connected l').
  { intros e N. exact (first_snoc Alive (log s) None e N ltac:(discriminate) Ifi). }
  destruct m as [d|h| | | | |]; unfold react.
  - unfold write. cbn [receiver set_mail]. destruct (receiver s) as [h|] eqn:R.
    + constructor; cbn; rewrite ?told_app, ?hw_app, ?sb_app, ?P; cbn; rewrite ?app_nil_r; auto.
      * intros h' t' Ht. apply in_app_iff in Ht as [Ht|[Ht|[]]]; [exact (Iw _ _ Ht)|discriminate].
      * intros h' d' Ht. apply in_app_iff in Ht as [Ht|[Ht|[]]]; [exact (If _ _ Ht)|discriminate].
      * rewrite <- app_assoc. exact Iwr.
      * rewrite Iwi. reflexivity.
      * intros d' n' ok Ht. apply in_app_iff in Ht as [Ht|[Ht|[]]]; [exact (Isz _ _ _ Ht)|]. injection Ht as <- <- <-.
        split; [auto|]. intros E. apply andb_true_iff in E as [_ E]. apply Nat.eqb_eq in E. exact E.
      * apply F. discriminate.
    + constructor; cbn; rewrite ?told_app, ?hw_app, ?sb_app, ?P, ?R; cbn; rewrite ?app_nil_r; auto.
      * intros h' t' Ht. apply in_app_iff in Ht as [Ht|[Ht|[]]]; [exact (Iw _ _ Ht)|discriminate].
      * intros h' d' Ht. apply in_app_iff in Ht as [Ht|[Ht|[]]]; [exact (If _ _ Ht)|discriminate].
      * rewrite <- app_assoc. exact Iwr.
      * intros d' n' ok Ht. apply in_app_iff in Ht as [Ht|[Ht|[]]]; [exact (Isz _ _ _ Ht)|discriminate].
      * apply F. discriminate.
  - cbn [receiver set_mail]. destruct (receiver s) as [h'|] eqn:R.
    + constructor; cbn; rewrite ?P, ?R; auto.
    + constructor; cbn; rewrite ?P; auto; try discriminate.
      * intros h' t' Ht. specialize (Iw _ _ Ht). discriminate.
      * cbn in Ia. exists (mail_assigns t). auto.
  - constructor; cbn; rewrite ?P; auto.
  - cbn [receiver set_mail]. destruct (receiver s) as [h'|] eqn:R.
    + constructor; cbn; rewrite ?told_app, ?hw_app, ?sb_app, ?mw_app, ?P, ?R; cbn; rewrite ?app_nil_r; auto.
      * intros h t' Ht. apply in_app_iff in Ht as [Ht|[Ht|[]]]; [exact (Iw _ _ Ht)|injection Ht as <- _; reflexivity].
      * intros h d' Ht. apply in_app_iff in Ht as [Ht|[Ht|[]]]; [exact (If _ _ Ht)|discriminate].
      * intros d' n' ok Ht. apply in_app_iff in Ht as [Ht|[Ht|[]]]; [exact (Isz _ _ _ Ht)|discriminate].
      * apply F. discriminate.
    + constructor; cbn; rewrite ?mw_app, ?ma_app, ?P, ?R; cbn; rewrite ?app_nil_r; auto.
  - constructor; cbn; rewrite ?mw_app, ?ma_app, ?P; cbn; rewrite ?app_nil_r; auto.
  - constructor; cbn; auto.
  - constructor; cbn; rewrite ?P; auto.
Qed.

Lemma step_inv : forall ws hs x s s', inv ws hs s -> step s x = Some s' -> inv (ws ++ new_write x) (hs ++ new_assign x) s'.
Proof.
  intros ws hs x s s' I H.
  assert (Same : forall s', inv ws hs s' -> new_write x = [] -> new_assign x = [] -> inv (ws ++ new_write x) (hs ++ new_assign x) s')
    by (intros s0 I0 -> ->; rewrite !app_nil_r; exact I0).
  destruct x as [|m|d| |o|n err| |]; unfold step in H; try (apply Same; [|reflexivity|reflexivity]); clear Same.
  - destruct (ph s) eqn:P; try discriminate. injection H as <-. mk I. rewrite P in Ifi. destruct Ifi as [L R].
    constructor; cbn; rewrite ?L in *; cbn; auto; try (intros; contradiction).
    + intros h t [E|[]]. discriminate.
    + intros h d [E|[]]. discriminate.
    + intros d n ok [E|[]]. discriminate.
    + exists []. auto.
  - destruct (from_outside m) eqn:F; [|discriminate]. injection H as <-.
    destruct m as [d|h| | | | |]; try discriminate; cbn [new_write new_assign]; rewrite ?app_nil_r;
      try (apply mail_inv; [exact I|reflexivity|reflexivity]).
    + mk I. constructor; cbn; auto.
      * rewrite mw_app, app_assoc, Iwr. reflexivity.
      * destruct (receiver s); [exact Ia|]. rewrite ma_app. cbn. rewrite app_nil_r. exact Ia.
    + mk I. constructor; cbn; auto.
      * rewrite mw_app. cbn. rewrite app_nil_r. exact Iwr.
      * destruct (receiver s); [destruct Ia as [t ->]; eexists; reflexivity|]. rewrite ma_app, Ia. reflexivity.
  - destruct (peer_done s); [discriminate|]. injection H as <-. mk I. constructor; cbn; auto.
    rewrite Ib, app_assoc. reflexivity.
  - injection H as <-. mk I. constructor; cbn; auto.
  - destruct (armed s); [|discriminate]. exact (complete_inv _ _ _ _ _ I H).
  - destruct (ph s) eqn:P; try discriminate. destruct (mail s) as [|m t] eqn:M; [discriminate|].
    assert (E : s' = react m n err (set_mail s t) /\ forall d, m = MWrite d -> n <= length d).
    { destruct m as [d|h| | | | |]; try (injection H as <-; split; [reflexivity|discriminate]).
      destruct (n <=? length d) eqn:L; [|discriminate]. injection H as <-. split; [reflexivity|].
      intros d' [= <-]. apply Nat.leb_le. exact L. }
    destruct E as [-> W]. apply react_inv; auto.
  - destruct (watched s) eqn:W; [|discriminate]. injection H as <-. mk I. constructor; cbn; auto.
    + rewrite mw_app. cbn. rewrite app_nil_r. exact Iwr.
    + destruct (receiver s); [exact Ia|]. rewrite ma_app. cbn. rewrite app_nil_r. exact Ia.
    + intros E. destruct (Iid E). auto.
  - destruct (ph s) eqn:P; try discriminate. injection H as <-. mk I. rewrite P in Ifi. constructor; cbn; auto.
Qed.
Lemma run_inv : forall xs ws hs s s', inv ws hs s -> run s xs = Some s' -> inv (ws ++ writes xs) (hs ++ assigns xs) s'.
Proof.
  induction xs as [|x xs IH]; intros ws hs s s' I H; cbn [run] in H.
  - injection H as <-. cbn. rewrite !app_nil_r. exact I.
  - destruct (step s x) as [s1|] eqn:E; [|discriminate]. rewrite writes_cons, assigns_cons, !app_assoc.
    exact (IH _ _ _ _ (step_inv _ _ _ _ _ I E) H).
Qed.
Lemma reach_inv : forall xs s, run (conn0 Byte) xs = Some s -> inv (writes xs) (assigns xs) s.
Proof. intros xs s H. exact (run_inv _ _ _ _ _ conn0_inv H). Qed.

Lemma write_whole : forall l : list event, (forall e, In e l -> ~ write_failed e) ->
  (forall d n ok, In (Wrote d n ok) l -> n <= length d /\ (ok = true -> n = length d)) ->
  sent_bytes l = concat (handled_writes l).
Proof.
  induction l as [|e l IH]; intros F Z; [reflexivity|].
  assert (E : sent_bytes l = concat (handled_writes l)) by (apply IH; intros; [apply F; right|apply (Z d n ok); right]; assumption).
  destruct e as [|h [d|]|d n ok|d]; cbn; auto.
  - rewrite E. destruct (Z d n ok (or_introl eq_refl)) as [_ Zn].
    destruct ok; [rewrite (Zn eq_refl), firstn_all; reflexivity|destruct (F _ (or_introl eq_refl) eq_refl)].
  - destruct (F _ (or_introl eq_refl) I).
Qed.

(* ---- the end of a connection, while the handler lives ---- *)
Definition quiet_action (x : action) : Prop := x <> HandlerEnds.
Record fin (s : conn) : Prop := Fin {
  f_once : sum pcm (mail s) + sum pce (log s) <= 1;
  f_arm : sum pcm (mail s) + sum pce (log s) = 1 -> armed s = false /\ receiver s <> None;
  f_noterm : ~ In MTerminated (mail s);
  f_last : forall l1 h l2, log s = l1 ++ Told h Closed :: l2 -> forall e, In e l2 -> is_told e = false
}.
Lemma sum_in : forall B (f : B -> nat) l x, In x l -> f x <= sum f l.
Proof. induction l as [|y l IH]; intros x []; rewrite sum_cons; [subst; lia|]. specialize (IH _ H). lia. Qed.
Lemma no_closed : forall (l : list event), sum pce l = 0 -> forall l1 h l2, l = l1 ++ Told h Closed :: l2 -> False.
Proof. intros l Z l1 h l2 ->. rewrite sum_app, sum_cons in Z. cbn in Z. lia. Qed.
Lemma last_snoc : forall (l : list event) e,
  (forall l1 h l2, l = l1 ++ Told h Closed :: l2 -> forall e, In e l2 -> is_told e = false) ->
  (is_told e = true -> sum pce l = 0) ->
  forall l1 h l2, l ++ [e] = l1 ++ Told h Closed :: l2 -> forall e', In e' l2 -> is_told e' = false.
Proof.
  intros l e H N l1 h l2 E e' I. apply snoc_inv in E as [(-> & _ & _) | (l3 & -> & E)]; [destruct I|].
  apply in_app_iff in I as [I|[<-|[]]]; [exact (H _ _ _ E _ I)|].
  destruct (is_told e) eqn:T; [|reflexivity]. exfalso. exact (no_closed _ (N eq_refl) _ _ _ E).
Qed.
Lemma fin_step : forall ws hs x s s', inv ws hs s -> fin s -> x <> HandlerEnds -> step s x = Some s' -> fin s'.
Proof.
  intros ws hs x s s' I F Q H. pose proof (i_idle _ _ _ I) as Iid. destruct F as [F1 F2 F3 F4].
  destruct x as [|m|d| |o|n err| |]; unfold step in H.
  - destruct (ph s); try discriminate. injection H as <-. constructor; cbn; rewrite ?sum_app, ?sum_one; cbn; rewrite ?Nat.add_0_r; auto.
    apply last_snoc; [exact F4|discriminate].
  - destruct (from_outside m) eqn:O; [|discriminate]. injection H as <-.
    assert (Z : pcm m = 0) by (destruct m; try discriminate; reflexivity).
    constructor; cbn [mail log armed receiver set_mail]; rewrite ?sum_app, ?sum_one, ?Z; rewrite ?Nat.add_0_r; auto.
    intros J. apply in_app_iff in J as [J|[J|[]]]; [exact (F3 J)|subst; discriminate].
  - destruct (peer_done s); [discriminate|]. injection H as <-. constructor; auto.
  - injection H as <-. constructor; auto.
  - destruct (armed s) eqn:A; [|discriminate].
    assert (Z : sum pcm (mail s) + sum pce (log s) = 0) by (destruct (Nat.eq_dec (sum pcm (mail s) + sum pce (log s)) 1) as [E|E]; [destruct (F2 E); discriminate|lia]).
    assert (Idle : fin (Conn (ph s) (mail s) (receiver s) false (incoming s) (peer_done s) (wire s) (watched s) (arrived s) (log s))).
    { constructor; cbn; auto. intros E. lia. }
    assert (PC : receiver s <> None -> fin (Conn (ph s) (mail s ++ [MPeerClosed]) (receiver s) false (incoming s) (peer_done s) (wire s) (watched s) (arrived s) (log s))).
    { intros R. constructor; cbn; rewrite ?sum_app, ?sum_one; cbn; auto; try lia.
      intros J. apply in_app_iff in J as [J|[J|[]]]; [exact (F3 J)|discriminate]. }
    unfold complete in H. destruct (ph s) eqn:P; [| | |injection H as <-; exact Idle];
     (destruct (receiver s) as [h|] eqn:R; [|injection H as <-; exact Idle]);
     (destruct o as [n| | | |]).
    all: try (destruct (incoming s); [|discriminate]; destruct (peer_done s); [|discriminate]).
    all: try (injection H as <-; unfold set_mail; cbn; apply PC; discriminate).
    all: try (injection H as <-; constructor; cbn; rewrite ?sum_app, ?sum_one, ?R; cbn; rewrite ?Nat.add_0_r; auto; try (intros E; lia);
       intros J; apply in_app_iff in J as [J|[J|[]]]; [exact (F3 J)|discriminate]).
    all: destruct ((0 <? n) && (n <=? length (incoming s))); [|discriminate]; injection H as <-;
      constructor; cbn; rewrite ?sum_app, ?sum_one; cbn; rewrite ?Nat.add_0_r; auto; try lia;
      apply last_snoc; [exact F4|intros _; lia].
  - destruct (ph s) eqn:P; try discriminate. destruct (mail s) as [|m t] eqn:M; [discriminate|].
    assert (E : s' = react m n err (set_mail s t)).
    { destruct m as [d|h| | | | |]; try (injection H as <-; reflexivity). destruct (n <=? length d); [injection H as <-; reflexivity|discriminate]. }
    clear H. subst s'. rewrite sum_cons in F1, F2.
    destruct m as [d|h| | | | |]; cbn [pcm] in F1, F2; unfold react.
    + unfold write. cbn [receiver set_mail]. destruct (receiver s) as [h|] eqn:R;
        constructor; cbn; rewrite ?sum_app, ?sum_one, ?R; cbn; rewrite ?Nat.add_0_r; auto;
        try (intros J; apply F3; right; exact J); apply last_snoc; auto; discriminate.
    + cbn [receiver set_mail]. destruct (receiver s) as [h'|] eqn:R; constructor; cbn; rewrite ?R; auto;
        try (intros J; apply F3; right; exact J). intros E. destruct (F2 E). contradiction.
    + constructor; cbn; auto. intros J; apply F3; right; exact J.
    + destruct (receiver s) as [h'|] eqn:R.
      2:{ exfalso. destruct (F2 ltac:(lia)). contradiction. }
      assert (Z : sum pce (log s) = 0) by lia. assert (Z2 : sum pcm t = 0) by lia.
      destruct (F2 ltac:(lia)) as [A _].
      constructor; cbn [receiver set_mail set_log log mail armed ph]; rewrite ?R; cbn [receiver set_mail set_log log mail armed ph]; rewrite ?sum_app, ?sum_one, ?Z, ?Z2; cbn; auto; try lia.
      * intros _. split; [exact A|rewrite R; discriminate].
      * intros J. apply in_app_iff in J as [J|[J|[]]]; [apply F3; right; exact J|discriminate].
      * apply last_snoc; auto.
    + exfalso. apply F3. left. reflexivity.
    + constructor; cbn; auto. intros J; apply F3; right; exact J.
    + constructor; cbn; auto. intros J; apply F3; right; exact J.
  - destruct (Q eq_refl).
  - destruct (ph s); try discriminate. injection H as <-. constructor; auto.
Qed.
Lemma fin_run : forall xs ws hs s s', inv ws hs s -> fin s -> ~ In HandlerEnds xs -> run s xs = Some s' -> fin s'.
Proof.
  induction xs as [|x xs IH]; intros ws hs s s' I F Q H; cbn [run] in H.
  - injection H as <-. exact F.
  - destruct (step s x) as [s1|] eqn:E; [|discriminate].
    apply (IH _ _ _ _ (step_inv _ _ _ _ _ I E)); auto.
    + apply (fin_step _ _ x _ _ I F); auto. intros ->. apply Q. left. reflexivity.
    + intros J. apply Q. right. exact J.
Qed.
Lemma fin0 : fin (conn0 Byte).
Proof. constructor; cbn; auto; try (unfold sum; cbn; lia); try (intros l1 h l2 E; destruct l1; discriminate). Qed.

(* a clean end: all that the peer sent has been told *)
Definition drained (s : conn) : Prop := 1 <= sum pcm (mail s) + sum pce (log s) -> incoming s = [] /\ peer_done s = true.
Lemma drained_step : forall ws hs x s s', inv ws hs s -> fin s -> drained s ->
  x <> HandlerEnds -> x <> Complete Reset -> x <> Complete Spurious -> step s x = Some s' -> drained s'.
Proof.
  intros ws hs x s s' I F D Q Q1 Q2 H. unfold drained in *. destruct F as [F1 F2 F3 F4].
  destruct x as [|m|d| |o|n err| |]; unfold step in H.
  - destruct (ph s); try discriminate. injection H as <-. cbn. rewrite sum_app, sum_one. cbn. rewrite Nat.add_0_r. exact D.
  - destruct (from_outside m) eqn:O; [|discriminate]. injection H as <-.
    assert (Z : pcm m = 0) by (destruct m; try discriminate; reflexivity).
    cbn [mail log incoming peer_done set_mail]. rewrite sum_app, sum_one, Z. rewrite !Nat.add_0_r. exact D.
  - destruct (peer_done s) eqn:E; [discriminate|]. injection H as <-. cbn. intros L. destruct (D L). discriminate.
  - injection H as <-. cbn. intros L. destruct (D L). auto.
  - destruct (armed s) eqn:A; [|discriminate].
    assert (Z : sum pcm (mail s) + sum pce (log s) = 0) by (destruct (Nat.eq_dec (sum pcm (mail s) + sum pce (log s)) 1) as [E|E]; [destruct (F2 E); discriminate|lia]).
    unfold complete in H. destruct (ph s) eqn:P; [| | |injection H as <-; exact D];
     (destruct (receiver s) as [h|] eqn:R; [|injection H as <-; exact D]);
     (destruct o as [n| | | |]); try (destruct (Q1 eq_refl)); try (destruct (Q2 eq_refl)).
    all: try (destruct (incoming s) eqn:E1; [|discriminate]; destruct (peer_done s) eqn:E2; [|discriminate]; injection H as <-; cbn; auto).
    all: try (injection H as <-; cbn; rewrite sum_app, sum_one; cbn; intros L; lia).
    all: destruct ((0 <? n) && (n <=? length (incoming s))); [|discriminate]; injection H as <-; cbn; rewrite sum_app, sum_one; cbn; intros L; lia.
  - destruct (ph s) eqn:P; try discriminate. destruct (mail s) as [|m t] eqn:M; [discriminate|].
    assert (E : s' = react m n err (set_mail s t)).
    { destruct m as [d|h| | | | |]; try (injection H as <-; reflexivity). destruct (n <=? length d); [injection H as <-; reflexivity|discriminate]. }
    clear H. subst s'. rewrite sum_cons in D.
    destruct m as [d|h| | | | |]; cbn [pcm] in D; unfold react; cbn [pcm Nat.add] in D.
    + unfold write. cbn [receiver set_mail]. destruct (receiver s) as [h|] eqn:R; cbn; rewrite sum_app, sum_one; cbn; rewrite ?Nat.add_0_r; exact D.
    + cbn [receiver set_mail]. destruct (receiver s) as [h'|] eqn:R; exact D.
    + exact D.
    + intros _. destruct (D ltac:(lia)) as [D1 D2]. cbn. destruct (receiver s); cbn; auto.
    + exfalso. apply F3. left. reflexivity.
    + exact D.
    + exact D.
  - destruct (Q eq_refl).
  - destruct (ph s); try discriminate. injection H as <-. exact D.
Qed.
Lemma drained_run : forall xs ws hs s s', inv ws hs s -> fin s -> drained s ->
  ~ In HandlerEnds xs -> ~ In (Complete Reset) xs -> ~ In (Complete Spurious) xs -> run s xs = Some s' -> drained s'.
Proof.
  induction xs as [|x xs IH]; intros ws hs s s' I F D Q Q1 Q2 H; cbn [run] in H.
  - injection H as <-. exact D.
  - destruct (step s x) as [s1|] eqn:E; [|discriminate]. cbn in Q, Q1, Q2.
    assert (N : x <> HandlerEnds) by (intros ->; tauto). assert (N1 : x <> Complete Reset) by (intros ->; tauto).
    assert (N2 : x <> Complete Spurious) by (intros ->; tauto).
    apply (IH _ _ _ _ (step_inv _ _ _ _ _ I E)); try tauto.
    + exact (fin_step _ _ _ _ _ I F N E).
    + exact (drained_step _ _ _ _ _ I F D N N1 N2 E).
Qed.
(* while the actor runs: with a handler, a wait is pending or the end is on its way; a
   handler that has ended was heard of or is on its way *)
Record live (s : conn) : Prop := Live {
  l_fresh : ph s = Fresh -> receiver s = None;
  l_idle : receiver s = None -> watched s = false;
  l_armed : ph s = Fresh \/ ph s = Alive -> receiver s <> None -> armed s = true \/ In MPeerClosed (mail s) \/ In MPoison (mail s);
  l_ended : ph s = Fresh \/ ph s = Alive -> receiver s <> None -> watched s = false ->
    In MTerminated (mail s) \/ In MPeerClosed (mail s) \/ In MPoison (mail s)
}.
Lemma live0 : live (conn0 Byte).
Proof. constructor; cbn; auto; contradiction. Qed.
Lemma live_mail : forall s m, live s -> live (set_mail s (mail s ++ [m])).
Proof.
  intros s m [F I A E]. constructor; cbn; auto; intros.
  - rewrite !in_app_iff. destruct (A H H0) as [?|[?|?]]; auto.
  - rewrite !in_app_iff. destruct (E H H0 H1) as [?|[?|?]]; auto.
Qed.
Ltac linv H := let F := fresh "F" in let I := fresh "I" in let A := fresh "A" in let E := fresh "E" in destruct H as [F I A E].
Lemma live_step : forall x s s', live s -> step s x = Some s' -> live s'.
Proof.
  intros x s s' L H. destruct x as [|m|d| |o|n err| |]; cbn [step] in H.
  - destruct (ph s) eqn:P; try discriminate. injection H as <-. destruct L as [F I A E]. specialize (F P).
    constructor; cbn; rewrite ?F; intros; try contradiction; try discriminate; auto.
  - destruct (from_outside m); [|discriminate]. injection H as <-. apply live_mail; exact L.
  - destruct (peer_done s); [discriminate|]. injection H as <-. destruct L as [F I A E]. constructor; cbn; auto.
  - injection H as <-. destruct L as [F I A E]. constructor; cbn; auto.
  - destruct (armed s) eqn:AR; [|discriminate]. destruct L as [F I A E]. unfold complete in H.
    assert (K : forall s0, ph s0 = ph s -> receiver s0 = receiver s -> watched s0 = watched s ->
              (ph s = Fresh \/ ph s = Alive -> receiver s <> None -> armed s0 = true \/ In MPeerClosed (mail s0) \/ In MPoison (mail s0)) ->
              (forall m, In m (mail s) -> In m (mail s0)) -> live s0).
    { intros s0 E1 E2 E3 K1 K2. constructor; rewrite ?E1, ?E2, ?E3; auto. intros P R W. destruct (E P R W) as [X|[X|X]]; auto. }
    destruct (ph s) eqn:P; [| | |injection H as <-; apply K; cbn; rewrite ?P; auto; intros [X|X]; discriminate];
     (destruct (receiver s) as [h|] eqn:R; [|injection H as <-; apply K; cbn; rewrite ?P, ?R; auto; intros _ X; contradiction]).
    all: destruct o as [n| | | |].
    all: try (destruct ((0 <? n) && (n <=? length (incoming s))); [|discriminate]; injection H as <-; apply K; cbn; rewrite ?P, ?R; auto; fail).
    all: try (destruct (incoming s); [|discriminate]; destruct (peer_done s); [|discriminate]).
    all: injection H as <-; apply K; cbn; rewrite ?P, ?R, ?AR; auto;
      first [intros m M; apply in_app_iff; left; exact M | intros _ _; right; left; apply in_app_iff; right; left; reflexivity].
  - destruct (ph s) eqn:P; try discriminate. destruct (mail s) as [|m t] eqn:M; [discriminate|].
    assert (H' : s' = react m n err (set_mail s t)).
    { destruct m as [d|h| | | | |]; try (injection H as <-; reflexivity). destruct (n <=? length d); [|discriminate]. injection H as <-. reflexivity. }
    subst s'. destruct L as [F I A E]. rewrite P, M in A, E. specialize (A (or_intror eq_refl)). specialize (E (or_intror eq_refl)).
    assert (K : forall s0, ph s0 = Alive -> receiver s0 = receiver s -> watched s0 = watched s -> armed s0 = armed s ->
              (forall q, In q t -> In q (mail s0)) -> (m = MPeerClosed -> In MPoison (mail s0)) -> (m = MTerminated -> In MPeerClosed (mail s0)) ->
              m <> MPoison -> live s0).
    { intros s0 E1 E2 E3 E4 K1 K2 K3 K4. constructor; rewrite ?E1, ?E2, ?E3, ?E4; auto; try discriminate.
      - intros _ R. destruct (A R) as [X|[[X|X]|[X|X]]]; auto; contradiction.
      - intros _ R W. destruct (E R W) as [[X|X]|[[X|X]|[X|X]]]; auto; contradiction. }
    destruct m as [d|h| | | | |]; unfold react.
    + unfold write. cbn [receiver set_mail]. destruct (receiver s) eqn:R; apply K; cbn; rewrite ?P, ?R; auto; discriminate.
    + cbn [receiver set_mail]. destruct (receiver s) eqn:R.
      * apply K; cbn; rewrite ?P, ?R; auto; discriminate.
      * constructor; cbn; auto; try discriminate. rewrite P; discriminate.
    + apply K; cbn; rewrite ?P; auto; discriminate.
    + cbn [receiver set_mail]. destruct (receiver s) eqn:R; apply K; cbn; rewrite ?P, ?R; auto; try discriminate;
        intros; apply in_app_iff; auto; right; left; reflexivity.
    + apply K; cbn; rewrite ?P; auto; try discriminate; intros; apply in_app_iff; auto; right; left; reflexivity.
    + constructor; cbn; auto; try discriminate; intros [X|X]; discriminate.
    + apply K; cbn; rewrite ?P; auto; discriminate.
  - destruct (watched s) eqn:W; [|discriminate]. injection H as <-. destruct L as [F I A E]. constructor; cbn; auto; intros.
    + rewrite !in_app_iff. destruct (A H H0) as [?|[?|?]]; auto.
    + left. apply in_app_iff. right. left. reflexivity.
  - destruct (ph s) eqn:P; try discriminate. injection H as <-. destruct L as [F I A E].
    constructor; cbn; auto; try discriminate; intros [X|X]; discriminate.
Qed.
Lemma live_run : forall xs s s', live s -> run s xs = Some s' -> live s'.
Proof.
  induction xs as [|x xs IH]; intros s s' L H; cbn [run] in H; [injection H as <-; exact L|].
  destruct (step s x) as [s1|] eqn:E; [|discriminate]. exact (IH _ _ (live_step _ _ _ L E) H).
Qed.
(* a handler that has ended stays the handler and is not watched again *)
Lemma ended_step : forall x s s', live s -> step s x = Some s' -> (receiver s <> None /\ watched s = false) \/ x = HandlerEnds ->
  receiver s' <> None /\ watched s' = false.
Proof.
  intros x s s' L H C. destruct x as [|m|d| |o|n err| |]; cbn [step] in H;
    try (destruct C as [C|C]; [|discriminate]).
  - destruct (ph s); try discriminate. injection H as <-. exact C.
  - destruct (from_outside m); [|discriminate]. injection H as <-. exact C.
  - destruct (peer_done s); [discriminate|]. injection H as <-. exact C.
  - injection H as <-. exact C.
  - destruct (armed s); [|discriminate]. unfold complete in H. destruct (ph s); destruct (receiver s) eqn:R; destruct o;
      repeat (match type of H with context[if ?b then _ else _] => destruct b; try discriminate | context[match incoming s with _ => _ end] => destruct (incoming s); try discriminate end);
      injection H as <-; cbn; rewrite ?R; exact C.
  - destruct (ph s); try discriminate. destruct (mail s) as [|m t]; [discriminate|].
    assert (H' : s' = react m n err (set_mail s t)).
    { destruct m as [d|h| | | | |]; try (injection H as <-; reflexivity). destruct (n <=? length d); [|discriminate]. injection H as <-. reflexivity. }
    subst s'. destruct (receiver s) eqn:R; [|destruct C; contradiction].
    destruct m; unfold react, write; cbn [receiver set_mail]; rewrite ?R; cbn; rewrite ?R; exact C.
  - destruct (watched s) eqn:W; [|discriminate]. injection H as <-. cbn. split; [|reflexivity].
    intros R. rewrite (l_idle _ L R) in W. discriminate.
  - destruct (ph s); try discriminate. injection H as <-. exact C.
Qed.
Lemma ended_run : forall xs s s', live s -> run s xs = Some s' -> (receiver s <> None /\ watched s = false) \/ In HandlerEnds xs ->
  receiver s' <> None /\ watched s' = false.
Proof.
  induction xs as [|x xs IH]; intros s s' L H C; cbn [run] in H.
  - injection H as <-. destruct C as [C|[]]. exact C.
  - destruct (step s x) as [s1|] eqn:E; [|discriminate]. apply (IH _ _ (live_step _ _ _ L E) H).
    destruct C as [C|[C|C]]; [left|left|right; exact C]; apply (ended_step _ _ _ L E); auto.
Qed.
Lemma ended_gone : forall xs s, run (conn0 Byte) xs = Some s -> In HandlerEnds xs -> mail s = [] -> ph s = Stopping \/ ph s = Destroyed.
Proof.
  intros xs s H I M. pose proof (live_run _ _ _ live0 H) as L. destruct (ended_run _ _ _ live0 H (or_intror I)) as [R W].
  destruct (ph s) eqn:P; auto; destruct (l_ended _ L) as [X|[X|X]]; auto; rewrite M in X; destruct X.
Qed.

End P.

(* ---- UDP ---- *)
Section U.
Context {Byte Addr : Type}.
Variable cap : nat.
Notation sock := (sock Byte Addr).
Definition cut (p : list Byte * Addr) : list Byte * Addr := (firstn (Nat.min (length (fst p)) cap) (fst p), snd p).
Record uinv (ss : list (list Byte * Addr)) (s : sock) : Prop := UInv {
  u_all : uph s = UAlive -> map cut (packets s) = utold s ++ (match finished s, origin s with Some n, Some a => [(firstn n (buffer s), a)] | _, _ => [] end) ++ map cut (queued s);
  u_prefix : exists rest, map cut (packets s) = utold s ++ rest;
  u_origin : finished s <> None -> origin s <> None;
  u_arm : uarmed s = true -> finished s = None;
  u_live : uph s = UAlive -> finished s = None -> uarmed s = true;
  u_out : outgoing s = ss
}.
Lemma ustep_inv : forall ss x s s', uinv ss s -> ustep cap s x = UOk s' ->
  uinv (ss ++ match x with USend d a => [(d, a)] | _ => [] end) s'.
Proof.
  intros ss x s s' [U1 U2 U3 U4 U5 U6] H. destruct x as [d a| | | |d a| |]; unfold ustep in H; rewrite ?app_nil_r.
  - injection H as <-. constructor; cbn; auto.
    + intros E. rewrite !map_app, (U1 E), <- !app_assoc. reflexivity.
    + destruct U2 as [rest U2]. exists (rest ++ [cut (d, a)]). rewrite map_app, U2, app_assoc. reflexivity.
  - destruct (uarmed s) eqn:A; [|destruct (queued s), (uph s); discriminate].
    destruct (queued s) as [|[d a] t] eqn:Qu; [destruct (uph s); discriminate|].
    destruct (uph s) eqn:P; try discriminate. injection H as <-.
    constructor; cbn; auto; try discriminate.
    intros _. rewrite (U1 eq_refl). rewrite (U4 eq_refl). cbn. f_equal. f_equal.
    unfold cut. cbn. f_equal. rewrite firstn_app, firstn_firstn, Nat.min_id.
    rewrite firstn_length. replace (Nat.min (length d) cap - Nat.min (Nat.min (length d) cap) (length d)) with 0 by lia.
    cbn. rewrite app_nil_r. reflexivity.
  - destruct (finished s) as [n|] eqn:F; [|discriminate]. destruct (uph s) eqn:P.
    + destruct (origin s) as [a|] eqn:O; [|discriminate]. injection H as <-.
      constructor; cbn; auto; try congruence.
      * intros _. rewrite (U1 eq_refl), <- app_assoc. reflexivity.
      * exists (map cut (queued s)). rewrite (U1 eq_refl), <- app_assoc. reflexivity.
    + injection H as <-. constructor; cbn; auto; congruence.
    + injection H as <-. constructor; cbn; auto; congruence.
  - destruct (uarmed s) eqn:A; [|discriminate]. destruct (uph s) eqn:P; [|discriminate|discriminate]. injection H as <-.
    constructor; rewrite ?P; auto; intros; congruence.
  - destruct (uph s) eqn:P; try discriminate. injection H as <-. constructor; cbn; auto. rewrite U6. reflexivity.
  - destruct (uph s) eqn:P; try discriminate. injection H as <-. constructor; cbn; auto; discriminate.
  - destruct (uph s) eqn:P; try discriminate. injection H as <-. constructor; cbn; auto; discriminate.
Qed.
Lemma urun_inv : forall xs ss s s', uinv ss s -> urun cap s xs = UOk s' -> uinv (ss ++ sends xs) s'.
Proof.
  induction xs as [|x xs IH]; intros ss s s' I H; cbn [urun] in H.
  - injection H as <-. cbn. rewrite app_nil_r. exact I.
  - destruct (ustep cap s x) as [s1| |] eqn:E; try discriminate.
    pose proof (IH _ _ _ (ustep_inv _ _ _ _ I E) H) as J. rewrite <- app_assoc in J.
    destruct x; cbn in *; exact J.
Qed.
Lemma sock0_inv : forall b, uinv [] (sock0 b).
Proof. intros b. constructor; cbn; auto; try congruence. exists []. reflexivity. Qed.
Lemma ustep_safe : forall ss x s, uinv ss s -> uph s = UAlive -> x <> UDestroyReceiver ->
  ustep cap s x <> UUB /\ forall s', ustep cap s x = UOk s' -> uph s' = UAlive.
Proof.
  intros ss x s [U1 U2 U3 U4 U5 U6] P N. destruct x as [d a| | | |d a| |]; unfold ustep; rewrite ?P; try (destruct (N eq_refl));
    try (split; [discriminate|intros s' [= <-]; auto]).
  - destruct (uarmed s); [|destruct (queued s); split; discriminate]. destruct (queued s) as [|[d a] t]; [split; discriminate|].
    split; [discriminate|intros s' [= <-]; reflexivity].
  - destruct (finished s) as [n|]; [|split; discriminate]. destruct (origin s) as [a|]; [|exfalso; apply U3; congruence].
    split; [discriminate|intros s' [= <-]; reflexivity].
  - destruct (uarmed s); [|split; discriminate]. split; [discriminate|intros s' [= <-]; exact P].
Qed.
Lemma urun_safe : forall xs ss s, uinv ss s -> uph s = UAlive -> ~ In UDestroyReceiver xs -> urun cap s xs <> UUB /\ (forall s', urun cap s xs = UOk s' -> uph s' = UAlive).
Proof.
  induction xs as [|x xs IH]; intros ss s I P N; cbn [urun].
  - split; [discriminate|]. intros s' [= <-]. exact P.
  - assert (Nx : x <> UDestroyReceiver) by (intros ->; apply N; left; reflexivity).
    destruct (ustep_safe _ _ _ I P Nx) as [A B]. destruct (ustep cap s x) as [s1| |] eqn:E; [|split; discriminate|destruct (A eq_refl)].
    apply (IH _ _ (ustep_inv _ _ _ _ I E) (B _ eq_refl)). intros J. apply N. right. exact J.
Qed.
Lemma cut_whole : forall ps : list (list Byte * Addr), (forall p, In p ps -> length (fst p) <= cap) -> map cut ps = ps.
Proof.
  induction ps as [|[d a] ps IH]; intros H; [reflexivity|]. cbn [map]. rewrite IH by (intros; apply H; right; assumption).
  unfold cut. cbn. specialize (H _ (or_introl eq_refl)). cbn in H. rewrite Nat.min_l by exact H. rewrite firstn_all. reflexivity.
Qed.
End U.
