(* Proofs for C94: networks of routers *)
From Coq Require Import List Bool Arith Lia.
From Verif Require Import TalkModel TalkSpec TalkProofs.
Import ListNotations.

Section Net.
Context {V : Type}.
Variables (copyable is_pill : V -> bool) (route : nat -> V -> @choice V).
Notation any := (any V). Notation state := (state V unit).
Notation react := (router route Taken).
Notation step := (step V copyable is_pill unit react).
Notation run := (run V copyable is_pill unit react).

Lemma answer_fun i v w w' : answer route i v w -> answer route i v w' -> w = w'.
Proof. intros H. revert w'. induction H as [i v w E|i v j w E H IH]; intros w' H'; inversion H'; subst; try congruence. apply IH. congruence. Qed.

(* passing on keeps the answer *)
Definition good (q : @question V) (i : nat) (p : any) : Prop :=
  p = Val (snd q) /\ forall w, answer route i (snd q) w <-> answer route (fst q) (snd q) w.
Definition ans (q : @question V) (a : any) : Prop := exists w, a = Val w /\ answer route (fst q) (snd q) w.
Lemma router_right : proved_right copyable good ans (fun _ _ _ => True) react.
Proof.
  split; [auto|intros; split; cbn; [reflexivity|tauto]|].
  intros qs i st from p _ F. split; [exact Logic.I|]. intros to src a. unfold router. cbn [snd].
  destruct p as [|v|p]; cbn; try tauto. destruct (route i v) as [j|w|] eqn:E; cbn; try tauto.
  - intros [[= <- <- <-]|[]]. split; [|discriminate]. intros x [= <-] k ->. destruct (F k eq_refl) as (q & Hq & [= ->] & G). exists q. split; [exact Hq|].
    split; [reflexivity|]. intros w. rewrite <- G. split; intros H; [econstructor 2; eauto|inversion H; subst; congruence].
  - intros [[= <- <- <-]|[]]. split; [intros x -> k [=]|]. intros k ->. destruct (F k eq_refl) as (q & Hq & [= ->] & G). exists q. split; [exact Hq|].
    exists w. split; [reflexivity|]. apply G. constructor. exact E.
Qed.
Lemma run_safe n xs s : run (fresh V unit (repeat tt n)) xs = Some s -> inv V unit copyable good ans (fun _ _ _ => True) s.
Proof. apply run_inv; [exact router_right|]. apply fresh_inv with (react := react); [exact router_right|auto]. Qed.

(* ---- every question is being worked on ---- *)
Variable n : nat.
Variable k : nat.
Hypothesis Hnext : forall i v j, route i v = Next j -> j < n.
Hypothesis Hpill : forall i v w, route i v = Reply w -> is_pill w = false.

Definition has (a : actor V unit) : Prop :=
  (exists m, In m (queue a) /\ m_from m = Asker k) \/ (exists p c cs, cur a = Some (Asker k, p, c :: cs)).
Definition tok (s : state) : Prop :=
  (exists i a, nth_error (actors s) i = Some a /\ has a) \/ (exists a, nth_error (askers s) k = Some a /\ a_queue a <> []).
Lemma tok_actor s i a a' : nth_error (actors s) i = Some a -> (has a -> has a') -> tok s -> tok (set_actor V unit s i a').
Proof.
  intros E H [(j & b & Hb & T)|T]; [left|right; exact T]. destruct (Nat.eq_dec i j) as [->|Nij].
  - exists j, a'. cbn. rewrite nth_upd, Nat.eqb_refl, E. split; [reflexivity|]. apply H. congruence.
  - exists j, b. cbn. rewrite nth_upd. destruct (Nat.eqb_spec i j); [congruence|]. auto.
Qed.
Lemma tok_asker s j a a' : nth_error (askers s) j = Some a -> (j = k -> a_queue a <> [] -> a_queue a' <> []) -> tok s -> tok (set_asker V unit s j a').
Proof.
  intros E H [T|(b & Hb & T)]; [left; exact T|right]. destruct (Nat.eq_dec j k) as [->|Njk].
  - exists a'. cbn. rewrite nth_upd, Nat.eqb_refl, E. split; [reflexivity|]. apply H; congruence.
  - exists b. cbn. rewrite nth_upd. destruct (Nat.eqb_spec j k); [congruence|]. auto.
Qed.
Lemma tok_deliver s to m : tok s -> tok (deliver V unit to m s).
Proof.
  intros T. destruct to as [|i|j]; cbn [deliver]; [exact T| |].
  - destruct (nth_error (actors s) i) as [a|] eqn:E; [|exact T]. destruct (open a); [|exact T]. eapply tok_actor; eauto.
    intros [(m' & Hm & F)|C]; [left|right; exact C]. exists m'. cbn. split; [apply in_app_iff; auto|exact F].
  - destruct (nth_error (askers s) j) as [a|] eqn:E; [|exact T]. destruct (a_open a); [|exact T]. eapply tok_asker; eauto.
    cbn. intros _ _ X. destruct (a_queue a); discriminate.
Qed.

Definition plain_cmds (i : nat) (from : ref) (p : any) (cs : list (cmd V)) : Prop :=
  cs = [] \/ (exists v j, p = Val v /\ route i v = Next j /\ cs = [Forward Taken (Actor j)]) \/
  (exists v w, p = Val v /\ route i v = Reply w /\ cs = [Tell from (Value w) (Some (Actor i))]).
Definition nopill (m : message V) : Prop := pill V is_pill (m_load m) = false.
Definition actor_live i (a : actor V unit) : Prop :=
  open a = true /\ stopping a = false /\ (forall m, In m (queue a) -> nopill m) /\
  (forall from p cs, cur a = Some (from, p, cs) -> pill V is_pill p = false /\ plain_cmds i from p cs).
Definition asker_live (s : state) (a : asker V) : Prop :=
  (forall m, In m (a_queue a) -> nopill m) /\ result a <> Answer Null /\ result a <> Broken /\
  (result a = Unset -> a_open a = true /\ a_stopping a = false /\ tok s).
Definition answerable (a : asker V) : Prop :=
  a_to a < n /\ exists w, answer route (a_to a) (a_asked a) w /\ copyable w = true.
Definition live (s : state) : Prop :=
  length (actors s) = n /\ (forall i a, nth_error (actors s) i = Some a -> actor_live i a) /\
  (forall a, nth_error (askers s) k = Some a -> answerable a -> asker_live s a).

Definition polite (x : action V) : Prop :=
  match x with
  | Send _ v _ => is_pill v = false
  | Ask _ v => is_pill v = false
  | Stop _ => False
  | Timeout j => j <> k
  | _ => True
  end.

Lemma plain_nopill i from p cs to src a : pill V is_pill p = false -> plain_cmds i from p cs -> In (to, src, a) (sent copyable from p cs) -> pill V is_pill a = false.
Proof.
  intros Hp [->|[(v & j & -> & E & ->)|(v & w & -> & E & ->)]]; cbn; [tauto| |]; intros [[= <- <- <-]|[]]; [exact Hp|]. cbn. eapply Hpill; eauto.
Qed.
Lemma live_actor s i a a' : live s -> nth_error (actors s) i = Some a -> actor_live i a' -> (has a -> has a') -> live (set_actor V unit s i a').
Proof.
  intros (L1 & L2 & L3) E Ha Hh. split; [cbn; rewrite len_upd; exact L1|]. split.
  - intros j b. cbn. rewrite nth_upd. destruct (Nat.eqb_spec i j) as [<-|_]; [|apply L2]. rewrite E. intros [= <-]. exact Ha.
  - intros b Hb A. cbn in Hb. destruct (L3 b Hb A) as (A1 & A2 & A3 & A4). split; [exact A1|]. split; [exact A2|]. split; [exact A3|]. intros U. destruct (A4 U) as (B1 & B2 & B3).
    split; [exact B1|]. split; [exact B2|]. eapply tok_actor; eauto.
Qed.
(* as above, but it may be that the token is lost if it comes back with the delivery *)
Lemma live_deliver s to src a : length (actors s) = n -> (forall i b, nth_error (actors s) i = Some b -> actor_live i b) -> pill V is_pill a = false ->
  (forall b, nth_error (askers s) k = Some b -> answerable b ->
     (forall m, In m (a_queue b) -> nopill m) /\ result b <> Answer Null /\ result b <> Broken /\
     (result b = Unset -> a_open b = true /\ a_stopping b = false /\
        (tok s \/ (exists j, to = Actor j /\ j < n /\ src = Asker k) \/ to = Asker k))) ->
  live (deliver V unit to (Message src a) s).
Proof.
  intros L1 L2 Hp L3. destruct to as [|i|j]; cbn [deliver].
  - split; [exact L1|]. split; [exact L2|]. intros b Hb A. destruct (L3 b Hb A) as (A1 & A2 & A3 & A4). split; [exact A1|]. split; [exact A2|]. split; [exact A3|].
    intros U. destruct (A4 U) as (B1 & B2 & [B3|[(j & X & _)|X]]); try discriminate. auto.
  - destruct (nth_error (actors s) i) as [b|] eqn:E.
    + destruct (L2 i b E) as (O1 & O2 & O3 & O4). rewrite O1. split; [cbn; rewrite len_upd; exact L1|]. split.
      * intros j c. cbn. rewrite nth_upd. destruct (Nat.eqb_spec i j) as [<-|_]; [|apply L2]. rewrite E. intros [= <-].
        split; [reflexivity|]. split; [exact O2|]. split; [|exact O4]. cbn. intros m Hm. apply in_app_iff in Hm as [Hm|[<-|[]]]; [auto|exact Hp].
      * intros c Hc A. cbn in Hc. destruct (L3 c Hc A) as (A1 & A2 & A3 & A4). split; [exact A1|]. split; [exact A2|]. split; [exact A3|]. intros U.
        destruct (A4 U) as (B1 & B2 & B3). split; [exact B1|]. split; [exact B2|]. destruct B3 as [B3|[(j & [= <-] & Hj & ->)|X]]; [| |discriminate].
        -- eapply tok_actor; eauto. intros [(m' & Hm & F)|C]; [left|right; exact C]. exists m'. cbn. split; [apply in_app_iff; auto|exact F].
        -- left. exists i. eexists. cbn. rewrite nth_upd, Nat.eqb_refl, E. split; [reflexivity|]. left. eexists. cbn. split; [apply in_app_iff; right; left; reflexivity|reflexivity].
    + split; [exact L1|]. split; [exact L2|]. intros b Hb A. destruct (L3 b Hb A) as (A1 & A2 & A3 & A4). split; [exact A1|]. split; [exact A2|]. split; [exact A3|].
      intros U. destruct (A4 U) as (B1 & B2 & B3). split; [exact B1|]. split; [exact B2|]. destruct B3 as [B3|[(j & [= <-] & Hj & ->)|X]]; [exact B3| |discriminate].
      apply nth_error_None in E. lia.
  - destruct (nth_error (askers s) j) as [b|] eqn:E.
    + destruct (a_open b) eqn:O.
      * split; [exact L1|]. split; [exact L2|]. intros c Hc A. cbn in Hc. rewrite nth_upd in Hc. destruct (Nat.eqb_spec j k) as [->|Njk].
        -- rewrite E in Hc. injection Hc as <-. destruct (L3 b E A) as (A1 & A2 & A3 & A4). cbn. split; [|split; [exact A2|]; split; [exact A3|]].
           ++ cbn. intros m Hm. apply in_app_iff in Hm as [Hm|[<-|[]]]; [auto|exact Hp].
           ++ intros U. destruct (A4 U) as (B1 & B2 & _). split; [reflexivity|]. split; [exact B2|]. right. eexists. cbn. rewrite nth_upd, Nat.eqb_refl, E. split; [reflexivity|]. cbn. intros X. destruct (a_queue b); discriminate.
        -- destruct (L3 c Hc A) as (A1 & A2 & A3 & A4). split; [exact A1|]. split; [exact A2|]. split; [exact A3|]. intros U. destruct (A4 U) as (B1 & B2 & [B3|[(x & X & _)|[= X]]]); [|discriminate|congruence].
           split; [exact B1|]. split; [exact B2|]. eapply tok_asker; eauto; intros; congruence.
      * split; [exact L1|]. split; [exact L2|]. intros c Hc A. destruct (L3 c Hc A) as (A1 & A2 & A3 & A4). split; [exact A1|]. split; [exact A2|]. split; [exact A3|]. intros U. destruct (A4 U) as (B1 & B2 & [B3|[(x & X & _)|[= ->]]]); [|discriminate|congruence]. auto.
    + split; [exact L1|]. split; [exact L2|]. intros c Hc A. destruct (L3 c Hc A) as (A1 & A2 & A3 & A4). split; [exact A1|]. split; [exact A2|]. split; [exact A3|]. intros U. destruct (A4 U) as (B1 & B2 & [B3|[(x & X & _)|[= ->]]]); [|discriminate|congruence]. auto.
Qed.
Lemma live_asker s j a a' : live s -> nth_error (askers s) j = Some a -> a_to a' = a_to a -> a_asked a' = a_asked a ->
  (j = k -> answerable a -> asker_live s a -> asker_live (set_asker V unit s j a') a') -> live (set_asker V unit s j a').
Proof.
  intros (L1 & L2 & L3) E T1 T2 H. split; [exact L1|]. split; [exact L2|]. intros b Hb A. cbn in Hb. rewrite nth_upd in Hb. destruct (Nat.eqb_spec j k) as [->|Njk].
  - rewrite E in Hb. injection Hb as <-. assert (A' : answerable a) by (unfold answerable in *; rewrite <- T1, <- T2; exact A). apply H; auto.
  - destruct (L3 b Hb A) as (A1 & A2 & A3 & A4). split; [exact A1|]. split; [exact A2|]. split; [exact A3|]. intros U. destruct (A4 U) as (B1 & B2 & B3).
    split; [exact B1|]. split; [exact B2|]. eapply tok_asker; eauto; intros; congruence.
Qed.

Lemma step_live s x s' : inv V unit copyable good ans (fun _ _ _ => True) s -> live s -> polite x -> step s x = Some s' -> live s'.
Proof.
  intros I L P H. pose proof L as (L1 & L2 & L3). destruct x as [to v from|to v|j|i|i|i|i|j|j|j]; cbn [TalkModel.step] in H; cbn [polite] in P.
  - apply some_inj in H as ->. apply live_deliver; auto. intros b Hb A. destruct (L3 b Hb A) as (A1 & A2 & A3 & A4). intuition.
  - apply some_inj in H as ->. apply live_deliver; auto. cbn. intros b Hb A. destruct (Nat.lt_ge_cases k (length (askers s))) as [Lt|Ge].
    + rewrite nth_error_app1 in Hb by exact Lt. destruct (L3 b Hb A) as (A1 & A2 & A3 & A4). split; [exact A1|]. split; [exact A2|]. split; [exact A3|]. intros U. destruct (A4 U) as (B1 & B2 & B3).
      split; [exact B1|]. split; [exact B2|]. left. destruct B3 as [B3|(c & Hc & B3)]; [left; exact B3|right]. exists c. cbn. rewrite nth_error_app1 by exact Lt. auto.
    + rewrite nth_error_app2 in Hb by exact Ge. destruct (k - length (askers s)) as [|d] eqn:D; [|destruct d; discriminate]. injection Hb as <-.
      split; [intros m []|]. split; [discriminate|]. split; [discriminate|]. intros _. split; [reflexivity|]. split; [reflexivity|]. right. left. exists to. split; [reflexivity|].
      split; [exact (proj1 A)|]. f_equal. lia.
  - destruct (nth_error (askers s) j) as [a|] eqn:E; [|discriminate]. apply some_inj in H as ->. destruct (a_open a); [|exact L]. eapply live_asker; eauto; intros; contradiction.
  - contradiction.
  - unfold take in H. destruct (nth_error (actors s) i) as [[[|m q] [] [] me [c|]]|] eqn:E; try discriminate.
    destruct (L2 i _ E) as (_ & _ & O3 & _). cbn in O3. pose proof (O3 m (or_introl eq_refl)) as Np. unfold nopill in Np. rewrite Np in H.
    destruct (react i me (m_from m) (m_load m)) as [me' cs] eqn:ER. apply some_inj in H as ->.
    assert (PC : plain_cmds i (m_from m) (m_load m) cs).
    { unfold router in ER. injection ER as _ <-. destruct (m_load m) as [|v|p] eqn:EL; try (left; reflexivity). destruct (route i v) as [j|w|] eqn:Er.
      - right; left. eauto 6.
      - right; right. eauto 6.
      - left; reflexivity. }
    assert (AL : actor_live i (Mk_actor q true false me' (Some (m_from m, m_load m, cs)))).
    { split; [reflexivity|]. split; [reflexivity|]. cbn. split; [intros; apply O3; auto|]. intros ? ? ? [= <- <- <-]. split; [exact Np|exact PC]. }
    split; [cbn; rewrite len_upd; exact L1|]. split.
    + intros j b. cbn. rewrite nth_upd. destruct (Nat.eqb_spec i j) as [<-|_]; [|apply L2]. rewrite E. intros [= <-]. exact AL.
    + intros b Hb A. cbn in Hb. destruct (L3 b Hb A) as (A1 & A2 & A3 & A4). split; [exact A1|]. split; [exact A2|]. split; [exact A3|]. intros U. destruct (A4 U) as (B1 & B2 & B3).
      split; [exact B1|]. split; [exact B2|]. eapply tok_actor; eauto. intros [(m' & [Hm|Hm] & F)|(? & ? & ? & X)]; [|left; exists m'; auto|discriminate X].
      subst m'. right. cbn. destruct (proj1 I i _ E) as (_ & I2 & _). destruct (I2 m (or_introl eq_refl) k F) as (q0 & Hq0 & Gv & G).
      unfold qs_of in Hq0. rewrite Hb in Hq0. injection Hq0 as <-. cbn in Gv, G. destruct A as (_ & w & Aw & _). apply G in Aw.
      unfold router in ER. injection ER as _ <-. rewrite Gv. rewrite F. inversion Aw as [? ? ? Er|? ? ? ? Er]; subst; rewrite Er; eauto.
  - unfold go in H. destruct (nth_error (actors s) i) as [[q o st me [[[from p] cs]|]]|] eqn:E; try discriminate.
    destruct (L2 i _ E) as (O1 & O2 & O3 & O4). cbn in O1, O2, O3. subst o st. destruct (O4 _ _ _ eq_refl) as (Np & PC).
    assert (AN : forall p', actor_live i (Mk_actor q true false me (Some (from, p', [])) : actor V unit) \/ pill V is_pill p' = true).
    { intros p'. destruct (pill V is_pill p') eqn:Ep; [auto|left]. split; [reflexivity|]. split; [reflexivity|]. split; [exact O3|]. cbn. intros ? ? ? [= <- <- <-]. split; [exact Ep|left; reflexivity]. }
    destruct PC as [->|[(v & j & -> & Er & ->)|(v & w & -> & Er & ->)]].
    + apply some_inj in H as ->. eapply live_actor; eauto.
      * split; [reflexivity|]. split; [reflexivity|]. split; [exact O3|discriminate].
      * intros [X|(? & ? & ? & [=])]. left. exact X.
    + cbn [arg_val] in H. apply some_inj in H as ->.
      destruct (AN Null) as [AL|X]; [|discriminate X].
      apply live_deliver; [cbn; rewrite len_upd; exact L1| |exact Np|].
      * intros x b. cbn. rewrite nth_upd. destruct (Nat.eqb_spec i x) as [<-|_]; [|apply L2]. rewrite E. intros [= <-]. exact AL.
      * intros b Hb A. cbn in Hb. destruct (L3 b Hb A) as (A1 & A2 & A3 & A4). split; [exact A1|]. split; [exact A2|]. split; [exact A3|]. intros U. destruct (A4 U) as (B1 & B2 & B3).
        split; [exact B1|]. split; [exact B2|].
        assert (Dec : from = Asker k \/ from <> Asker k) by (destruct from as [|x|x]; try (right; discriminate); destruct (Nat.eq_dec x k) as [->|]; [left; reflexivity|right; congruence]).
        destruct Dec as [->|Nf].
        -- right. left. exists j. split; [reflexivity|]. split; [eapply Hnext; eauto|reflexivity].
        -- left. eapply tok_actor; eauto. intros [X|(? & ? & ? & [=])]; [left; exact X|congruence].
    + cbn [arg_val] in H. apply some_inj in H as ->.
      destruct (AN (Val v)) as [AL|X]; [|congruence].
      apply live_deliver; [cbn; rewrite len_upd; exact L1| |cbn; eapply Hpill; eauto|].
      * intros x b. cbn. rewrite nth_upd. destruct (Nat.eqb_spec i x) as [<-|_]; [|apply L2]. rewrite E. intros [= <-]. exact AL.
      * intros b Hb A. cbn in Hb. destruct (L3 b Hb A) as (A1 & A2 & A3 & A4). split; [exact A1|]. split; [exact A2|]. split; [exact A3|]. intros U. destruct (A4 U) as (B1 & B2 & B3).
        split; [exact B1|]. split; [exact B2|].
        assert (Dec : from = Asker k \/ from <> Asker k) by (destruct from as [|x|x]; try (right; discriminate); destruct (Nat.eq_dec x k) as [->|]; [left; reflexivity|right; congruence]).
        destruct Dec as [->|Nf]; [auto|]. left. eapply tok_actor; eauto. intros [X|(? & ? & ? & [=])]; [left; exact X|congruence].
  - unfold halt in H. destruct (nth_error (actors s) i) as [[q [] [] me [c|]]|] eqn:E; try discriminate. destruct (L2 i _ E) as (_ & O2 & _). discriminate O2.
  - unfold ask_start in H. destruct (nth_error (askers s) j) as [[q [] st [] r t v]|] eqn:E; try discriminate. apply some_inj in H as ->. eapply live_asker; eauto.
    intros -> _ (A1 & A2 & A3 & A4). split; [exact A1|]. split; [exact A2|]. split; [exact A3|]. intros U. destruct (A4 U) as (B1 & B2 & B3). split; [reflexivity|]. split; [exact B2|]. eapply tok_asker; eauto.
  - unfold ask_take in H. destruct (nth_error (askers s) j) as [[[|m q] [] [] [] r t v]|] eqn:E; try discriminate.
    destruct (Nat.eq_dec j k) as [->|Njk].
    + assert (Aj : answerable (Mk_asker (m :: q) true false true r t v) -> asker_live s (Mk_asker (m :: q) true false true r t v)) by (intros; apply L3; auto).
      assert (X : forall s1, s' = set_asker V unit s k s1 -> (a_to s1 = t /\ a_asked s1 = v /\ a_queue s1 = q) -> (answerable (Mk_asker (m :: q) true false true r t v) -> result s1 <> Unset /\ result s1 <> Answer Null /\ result s1 <> Broken) -> live s').
      { intros s1 -> (T1 & T2 & T3) Z. eapply live_asker; eauto. intros _ A (A1 & A2 & A3 & A4). destruct (Z A) as (Z1 & Z2 & Z3). split; [rewrite T3; intros; apply A1; right; auto|]. split; [exact Z2|]. split; [exact Z3|]. contradiction. }
      destruct (pill V is_pill (m_load m)) eqn:Ep.
      { apply some_inj in H as ->. eapply X; [reflexivity|auto|]. intros A. destruct (Aj A) as (A1 & _). specialize (A1 m (or_introl eq_refl)). unfold nopill in A1. congruence. }
      destruct r as [|c|].
      * destruct (proj2 I k _ E) as (I1 & _). specialize (I1 m (or_introl eq_refl)). cbn in I1. destruct I1 as (w' & El & Aw'). rewrite El in H. cbn [clone] in H.
        destruct (copyable w') eqn:Cw; apply some_inj in H as ->; (eapply X; [reflexivity|auto|]).
        -- cbn. intros A. split; [discriminate|]. split; discriminate.
        -- intros (_ & w & Aw & Cw'). cbn in Aw, Aw'. rewrite (answer_fun _ _ _ _ Aw' Aw) in Cw. congruence.
      * apply some_inj in H as ->. eapply X; [reflexivity|auto|]. intros A. destruct (Aj A) as (_ & A2 & A3 & _). cbn in *. split; [discriminate|]. auto.
      * apply some_inj in H as ->. eapply X; [reflexivity|auto|]. intros A. destruct (Aj A) as (_ & A2 & A3 & _). cbn in *. contradiction.
    + destruct (pill V is_pill (m_load m)); [|destruct r; [destruct (clone V copyable (m_load m))| |]]; apply some_inj in H as ->; eapply live_asker; eauto; intros; contradiction.
  - unfold ask_halt in H. destruct (nth_error (askers s) j) as [[q [] [] st r t v]|] eqn:E; try discriminate. apply some_inj in H as ->. eapply live_asker; eauto.
    intros -> _ (A1 & A2 & A3 & A4). destruct r as [|c|]; cbn in *.
    + destruct (A4 eq_refl) as (_ & X & _). discriminate.
    + split; [intros m []|]. split; [exact A2|]. split; [discriminate|]. discriminate.
    + contradiction.
Qed.
Lemma run_live xs : forall s s', inv V unit copyable good ans (fun _ _ _ => True) s -> live s -> Forall polite xs -> run s xs = Some s' -> live s'.
Proof.
  induction xs as [|x xs IH]; cbn [TalkModel.run]; intros s s' I L F H; [congruence|]. destruct (step s x) as [s1|] eqn:E; [|discriminate]. inversion F; subst.
  eapply IH; [| |eassumption|exact H]; [eapply step_inv; eauto using router_right|eapply step_live; eauto].
Qed.
Lemma fresh_live : live (fresh V unit (repeat tt n)).
Proof.
  split; [cbn; rewrite map_length, repeat_length; reflexivity|]. split.
  - intros i a. cbn. rewrite nth_error_map. destruct (nth_error (repeat tt n) i); [|discriminate]. intros [= <-]. split; [reflexivity|]. split; [reflexivity|]. split; [intros m []|discriminate].
  - cbn. destruct k; discriminate.
Qed.

Lemma settled_answer s a w : inv V unit copyable good ans (fun _ _ _ => True) s -> live s -> (forall x, own x -> step s x = None) ->
  nth_error (askers s) k = Some a -> a_to a < n -> answer route (a_to a) (a_asked a) w -> copyable w = true -> result a = Answer (Val w).
Proof.
  intros I L St E Ha Aw Cw. destruct L as (L1 & L2 & L3). assert (A : answerable a) by (split; eauto). destruct (L3 a E A) as (A1 & A2 & A3 & A4).
  destruct (result a) as [|c|] eqn:Er; [|destruct (proj2 I k a E) as (_ & Ic); destruct (Ic c Er) as [->|(w' & -> & Aw')]; [congruence|]; rewrite (answer_fun _ _ _ _ Aw' Aw); reflexivity|congruence].
  exfalso. destruct (A4 eq_refl) as (B1 & B2 & [(i & b & Hb & T)|(a' & Ha' & T)]).
  - destruct (L2 i b Hb) as (O1 & O2 & O3 & O4). destruct b as [q o st me c]. cbn in *. subst o st.
    destruct c as [[[from p] cs]|].
    + specialize (St (Go i) Logic.I). cbn in St. unfold go in St. rewrite Hb in St. destruct cs as [|[to y src|y to| |] t]; try discriminate St; destruct (arg_val V copyable y p) as [[? ?]|]; discriminate St.
    + destruct T as [(m & Hm & _)|(? & ? & ? & X)]; [|discriminate X]. destruct q as [|m0 q]; [destruct Hm|]. specialize (St (Take i) Logic.I). cbn in St. unfold take in St. rewrite Hb in St.
      destruct (pill V is_pill (m_load m0)); [discriminate|]. destruct (react i me (m_from m0) (m_load m0)). discriminate St.
  - assert (a' = a) as -> by congruence. destruct a as [q o st sd r t v]. cbn in *. subst o st r. destruct q as [|m q]; [congruence|]. destruct sd.
    + specialize (St (AskTake k) Logic.I). cbn in St. unfold ask_take in St. rewrite E in St. destruct (pill V is_pill (m_load m)); [discriminate|]. destruct (clone V copyable (m_load m)); discriminate.
    + specialize (St (AskStart k) Logic.I). cbn in St. unfold ask_start in St. rewrite E in St. discriminate.
Qed.
End Net.

(* ---- the network comes to rest ---- *)
Section Rest.
Context {V : Type}.
Variables (copyable is_pill : V -> bool) (route : nat -> V -> @choice V) (rank : nat -> V -> nat).
Hypothesis Hrank : forall i v j, route i v = Next j -> rank j v < rank i v.
Notation any := (any V). Notation state := (state V unit).
Notation react := (router route Taken).
Notation step := (step V copyable is_pill unit react).
Notation run := (run V copyable is_pill unit react).

Definition weight (to : ref) (a : any) : nat :=
  match to with
  | Nobody => 0
  | Asker _ => 2
  | Actor i => match a with Val v => 6 + 4 * rank i v | _ => 2 end
  end.
Fixpoint sum {A} (f : A -> nat) (l : list A) : nat := match l with [] => 0 | x :: t => f x + sum f t end.
Definition curw (c : option (ref * any * list (cmd V))) : nat :=
  match c with
  | None => 0
  | Some (from, p, cs) => 1 + 2 * length cs + sum (fun x => weight (fst (fst x)) (snd x)) (sent copyable from p cs)
  end.
Definition actorw (i : nat) (a : actor V unit) : nat :=
  (if open a then sum (fun m => weight (Actor i) (m_load m)) (queue a) + (if stopping a then 1 else 0) else 0) + curw (cur a) + (if open a then 0 else if cur a then 1 else 0).
Definition askerw (a : asker V) : nat :=
  if a_open a then 2 * length (a_queue a) + (if a_stopping a then 1 else 0) + (if a_started a then 0 else 1) else 0.
Fixpoint sumi (i : nat) (l : list (actor V unit)) : nat := match l with [] => 0 | a :: t => actorw i a + sumi (S i) t end.
Definition total (s : state) : nat := sumi 0 (actors s) + sum askerw (askers s).

Lemma sum_app {A} (f : A -> nat) l l' : sum f (l ++ l') = sum f l + sum f l'.
Proof. induction l; cbn; lia. Qed.
Lemma sum_upd {A} (f : A -> nat) l i x y : nth_error l i = Some y -> sum f (upd l i x) + f y = sum f l + f x.
Proof. revert i. induction l as [|z l IH]; intros [|i] H; try discriminate; cbn in *; [injection H as ->; lia|]. specialize (IH i H). lia. Qed.
Lemma sumi_upd l : forall b i x y, nth_error l i = Some y -> sumi b (upd l i x) + actorw (b + i) y = sumi b l + actorw (b + i) x.
Proof.
  induction l as [|z l IH]; intros b [|i] x y H; try discriminate; cbn in *; [injection H as ->; rewrite Nat.add_0_r; lia|].
  specialize (IH (S b) i x y H). rewrite Nat.add_succ_r. cbn in IH. lia.
Qed.
Lemma total_actor s i a b : nth_error (actors s) i = Some a -> total (set_actor V unit s i b) + actorw i a = total s + actorw i b.
Proof. intros H. unfold total. cbn. pose proof (sumi_upd _ 0 i b a H) as X. cbn in X. lia. Qed.
Lemma total_asker s k a b : nth_error (askers s) k = Some a -> total (set_asker V unit s k b) + askerw a = total s + askerw b.
Proof. intros H. unfold total. cbn. pose proof (sum_upd askerw _ k b a H) as X. lia. Qed.
Lemma total_deliver s to m : total (deliver V unit to m s) <= total s + weight to (m_load m).
Proof.
  destruct to as [|i|k]; cbn [deliver]; [lia| |].
  - destruct (nth_error (actors s) i) as [a|] eqn:E; [|lia]. destruct (open a) eqn:O; [|lia].
    pose proof (total_actor s i a (Mk_actor (queue a ++ [m]) true (stopping a) (mem a) (cur a)) E) as X.
    unfold actorw in X. cbn [open queue stopping cur] in X. rewrite O in X. rewrite sum_app in X. cbn [sum] in X. lia.
  - destruct (nth_error (askers s) k) as [a|] eqn:E; [|lia]. destruct (a_open a) eqn:O; [|lia].
    pose proof (total_asker s k a (Mk_asker (a_queue a ++ [m]) true (a_stopping a) (a_started a) (result a) (a_to a) (a_asked a)) E) as X.
    unfold askerw in X. cbn [a_open a_queue a_stopping a_started] in X. rewrite O in X. rewrite app_length in X. cbn [length weight] in X |- *. lia.
Qed.

(* no actor is a sender: questions and anonymous messages only *)
Definition not_actor (r : ref) : Prop := forall i, r <> Actor i.
Definition anon_actor (a : actor V unit) : Prop :=
  (forall m, In m (queue a) -> not_actor (m_from m)) /\
  (forall from p cs, cur a = Some (from, p, cs) -> forall to src x, In (to, src, x) (sent copyable from p cs) -> forall i, to = Actor i -> not_actor src).
Definition anon (s : state) : Prop := forall i a, nth_error (actors s) i = Some a -> anon_actor a.
Lemma anon_set s i a : anon s -> anon_actor a -> anon (set_actor V unit s i a).
Proof. intros H Ha j b. cbn. rewrite nth_upd. destruct (Nat.eqb i j); [|apply H]. destruct (nth_error (actors s) j); [|discriminate]. intros [= <-]. exact Ha. Qed.
Lemma anon_deliver s to src a : anon s -> (forall i, to = Actor i -> not_actor src) -> anon (deliver V unit to (Message src a) s).
Proof.
  intros H F. destruct to as [|i|k]; cbn [deliver]; [exact H| |].
  - destruct (nth_error (actors s) i) as [b|] eqn:E; [|exact H]. destruct (open b); [|exact H]. apply anon_set; [exact H|]. destruct (H i b E) as [H1 H2]. split; [|exact H2].
    cbn. intros m Hm. apply in_app_iff in Hm as [Hm|[<-|[]]]; [auto|]. exact (F i eq_refl).
  - destruct (nth_error (askers s) k) as [b|]; [|exact H]. destruct (a_open b); exact H.
Qed.
Definition unnamed (x : action V) : Prop := match x with Send _ _ (Some _) => False | _ => True end.
Lemma router_sent i st from p to src x : not_actor from -> In (to, src, x) (sent copyable from p (snd (react i st from p))) -> forall j, to = Actor j -> not_actor src.
Proof.
  intros F. unfold router. cbn [snd]. destruct p as [|v|p]; cbn; try tauto. destruct (route i v) as [j|w|]; cbn; try tauto.
  - intros [[= <- <- <-]|[]] ? _. exact F.
  - intros [[= <- <- <-]|[]] j ->. destruct (F j eq_refl).
Qed.
Lemma step_anon s x s' : anon s -> unnamed x -> step s x = Some s' -> anon s'.
Proof.
  intros A U H. destruct x as [to v from|to v|k|i|i|i|i|k|k|k]; cbn [TalkModel.step] in H.
  - apply some_inj in H as ->. apply anon_deliver; [exact A|]. destruct from; [contradiction|]. intros i _ j. discriminate.
  - apply some_inj in H as ->. apply anon_deliver; [exact A|]. intros i _ j. discriminate.
  - destruct (nth_error (askers s) k) as [a|]; [|discriminate]. apply some_inj in H as ->. destruct (a_open a); exact A.
  - destruct (nth_error (actors s) i) as [a|] eqn:E; [|discriminate]. apply some_inj in H as ->. destruct (open a); [|exact A]. apply anon_set; [exact A|]. exact (A i a E).
  - unfold take in H. destruct (nth_error (actors s) i) as [[[|m q] [] [] me [c|]]|] eqn:E; try discriminate. destruct (A i _ E) as [A1 A2]. cbn in A1.
    destruct (pill V is_pill (m_load m)).
    + apply some_inj in H as ->. apply anon_set; [exact A|]. split; [intros m' Hm; apply A1; right; exact Hm|discriminate].
    + pose proof (router_sent i me (m_from m) (m_load m)) as RS. destruct (react i me (m_from m) (m_load m)) as [me' cs]. apply some_inj in H as ->. apply anon_set; [exact A|].
      split; [intros m' Hm; apply A1; right; exact Hm|]. cbn. intros ? ? ? [= <- <- <-] to src x Hx. eapply RS; [apply A1; left; reflexivity|exact Hx].
  - unfold go in H. destruct (nth_error (actors s) i) as [[q o st me [[[from p] cs]|]]|] eqn:E; try discriminate. destruct (A i _ E) as [A1 A2]. cbn in A1. specialize (A2 from p cs eq_refl).
    assert (Z : anon (set_actor V unit s i (Mk_actor q o st me None))) by (apply anon_set; [exact A|]; split; [exact A1|discriminate]).
    assert (T : forall st' p' t, (forall y, In y (sent copyable from p' t) -> In y (sent copyable from p cs)) -> anon (set_actor V unit s i (Mk_actor q o st' me (Some (from, p', t))))).
    { intros st' p' t Hs. apply anon_set; [exact A|]. split; [exact A1|]. cbn. intros ? ? ? [= <- <- <-] to src x Hx. eapply A2, Hs, Hx. }
    destruct cs as [|[to y src|y to| |] t]; try (apply some_inj in H as ->; exact Z).
    + pose proof (sent_step V copyable is_pill from p (Tell to y src) t) as SS. cbn beta iota in SS. destruct (arg_val V copyable y p) as [[a p']|] eqn:EA; apply some_inj in H as ->; [|exact Z].
      apply anon_deliver; [|eapply A2; apply (proj2 (SS _)); left; reflexivity]. apply T. intros z Hz. apply (proj2 (SS _)). right. exact Hz.
    + pose proof (sent_step V copyable is_pill from p (Forward y to) t) as SS. cbn beta iota in SS. destruct (arg_val V copyable y p) as [[a p']|] eqn:EA; apply some_inj in H as ->; [|exact Z].
      apply anon_deliver; [|eapply A2; apply (proj2 (SS _)); left; reflexivity]. apply T. intros z Hz. apply (proj2 (SS _)). right. exact Hz.
    + apply some_inj in H as ->. apply T. auto.
  - unfold halt in H. destruct (nth_error (actors s) i) as [[q [] [] me [c|]]|] eqn:E; try discriminate. apply some_inj in H as ->. apply anon_set; [exact A|]. split; [intros m []|discriminate].
  - unfold ask_start in H. destruct (nth_error (askers s) k) as [[q [] st [] r t v]|]; try discriminate. apply some_inj in H as ->. exact A.
  - unfold ask_take in H. destruct (nth_error (askers s) k) as [[[|m q] [] [] [] r t v]|]; try discriminate.
    destruct (pill V is_pill (m_load m)); [|destruct r; [destruct (clone V copyable (m_load m))| |]]; apply some_inj in H as ->; exact A.
  - unfold ask_halt in H. destruct (nth_error (askers s) k) as [[q [] [] st r t v]|]; try discriminate. apply some_inj in H as ->. exact A.
Qed.
Lemma run_anon xs : forall s s', anon s -> Forall unnamed xs -> run s xs = Some s' -> anon s'.
Proof.
  induction xs as [|x xs IH]; cbn [TalkModel.run]; intros s s' A F H; [injection H as <-; exact A|]. destruct (step s x) as [s1|] eqn:E; [|discriminate]. inversion F; subst.
  eapply IH; [|eassumption|exact H]. eapply step_anon; eauto.
Qed.
Lemma fresh_anon ms : anon (fresh V unit ms).
Proof. intros i a. cbn. rewrite nth_error_map. destruct (nth_error ms i); [|discriminate]. intros [= <-]. split; [intros m []|discriminate]. Qed.

Lemma sent_sum from p c t : sum (fun x => weight (fst (fst x)) (snd x)) (sent copyable from p (c :: t)) =
  match c with
  | Throw => 0
  | StopSelf => sum (fun x => weight (fst (fst x)) (snd x)) (sent copyable from p t)
  | Tell to y src => match arg_val V copyable y p with Some (a, p') => weight to a + sum (fun x => weight (fst (fst x)) (snd x)) (sent copyable from p' t) | None => 0 end
  | Forward y to => match arg_val V copyable y p with Some (a, p') => weight to a + sum (fun x => weight (fst (fst x)) (snd x)) (sent copyable from p' t) | None => 0 end
  end.
Proof.
  destruct c as [to y src|y to| |]; [| |reflexivity|reflexivity];
    destruct y; cbn [sent arg_val]; rewrite ?clone_copy; destruct (can_copy copyable p); reflexivity.
Qed.
Lemma own_step s x s' : anon s -> own x -> step s x = Some s' -> total s' < total s.
Proof.
  intros A O H. destruct x as [to v from|to v|k|i|i|i|i|k|k|k]; cbn [TalkModel.step] in H; try contradiction.
  - unfold take in H. destruct (nth_error (actors s) i) as [[[|m q] [] [] me [c|]]|] eqn:E; try discriminate. destruct (A i _ E) as [A1 _]. specialize (A1 m (or_introl eq_refl)).
    destruct (pill V is_pill (m_load m)) eqn:Ep.
    + apply some_inj in H as ->. pose proof (total_actor s i _ (Mk_actor q true true me None) E) as X. unfold actorw in X. cbn [open queue stopping cur sum curw] in X.
      assert (2 <= weight (Actor i) (m_load m)) by (cbn; destruct (m_load m); lia). lia.
    + destruct (react i me (m_from m) (m_load m)) as [me' cs] eqn:ER. apply some_inj in H as ->.
      pose proof (total_actor s i _ (Mk_actor q true false me' (Some (m_from m, m_load m, cs))) E) as X. unfold actorw in X. cbn [open queue stopping cur sum curw] in X.
      assert (1 + 2 * length cs + sum (fun x => weight (fst (fst x)) (snd x)) (sent copyable (m_from m) (m_load m) cs) < weight (Actor i) (m_load m)).
      { unfold router in ER. injection ER as _ <-. destruct (m_load m) as [|v|p]; cbn; try lia. destruct (route i v) as [j|w|] eqn:Er; cbn; try lia.
        - specialize (Hrank i v j Er). lia.
        - destruct (m_from m) as [|j|j]; cbn; try lia. destruct (A1 j eq_refl). }
      lia.
  - unfold go in H. destruct (nth_error (actors s) i) as [[q o st me [[[from p] cs]|]]|] eqn:E; try discriminate.
    assert (Z : forall st' c', curw c' < curw (Some (from, p, cs)) -> (st' = st \/ 1 + curw c' < curw (Some (from, p, cs))) -> total (set_actor V unit s i (Mk_actor q o st' me c')) + (curw (Some (from, p, cs)) - curw c' - (if st' then if st then 0 else 1 else 0)) <= total s).
    { intros st' c' Lt Hst. pose proof (total_actor s i _ (Mk_actor q o st' me c') E) as X. unfold actorw in X. cbn [open queue stopping cur] in X.
      destruct o, c', st', st; destruct Hst as [Hst|Hst]; try discriminate Hst; lia. }
    destruct cs as [|c t].
    + apply some_inj in H as ->. specialize (Z st None). cbn [curw sent sum length] in Z. destruct st; lia.
    + assert (CW : curw (Some (from, p, c :: t)) = 3 + 2 * length t + sum (fun x => weight (fst (fst x)) (snd x)) (sent copyable from p (c :: t))) by (cbn [curw length]; lia).
      rewrite sent_sum in CW. destruct c as [to y src|y to| |].
      * destruct (arg_val V copyable y p) as [[a p']|]; apply some_inj in H as ->.
        -- specialize (Z st (Some (from, p', t))). rewrite CW in Z. cbn [curw] in Z.
           pose proof (total_deliver (set_actor V unit s i (Mk_actor q o st me (Some (from, p', t)))) to (Message (source src) a)) as D. cbn [m_load] in D. destruct st; lia.
        -- specialize (Z st None). rewrite CW in Z. cbn [curw] in Z. destruct st; lia.
      * destruct (arg_val V copyable y p) as [[a p']|]; apply some_inj in H as ->.
        -- specialize (Z st (Some (from, p', t))). rewrite CW in Z. cbn [curw] in Z.
           pose proof (total_deliver (set_actor V unit s i (Mk_actor q o st me (Some (from, p', t)))) to (Message from a)) as D. cbn [m_load] in D. destruct st; lia.
        -- specialize (Z st None). rewrite CW in Z. cbn [curw] in Z. destruct st; lia.
      * apply some_inj in H as ->. specialize (Z true (Some (from, p, t))). rewrite CW in Z. cbn [curw] in Z. destruct st; lia.
      * apply some_inj in H as ->. specialize (Z st None). rewrite CW in Z. cbn [curw] in Z. destruct st; lia.
  - unfold halt in H. destruct (nth_error (actors s) i) as [[q [] [] me [c|]]|] eqn:E; try discriminate. apply some_inj in H as ->.
    pose proof (total_actor s i _ (Mk_actor [] false true me None) E) as X. unfold actorw in X. cbn [open queue stopping cur sum curw] in X. lia.
  - unfold ask_start in H. destruct (nth_error (askers s) k) as [[q [] st [] r t v]|] eqn:E; try discriminate. apply some_inj in H as ->.
    pose proof (total_asker s k _ (Mk_asker q true st true r t v) E) as X. unfold askerw in X. cbn [a_open a_queue a_stopping a_started length] in X. destruct st; lia.
  - unfold ask_take in H. destruct (nth_error (askers s) k) as [[[|m q] [] [] [] r t v]|] eqn:E; try discriminate.
    assert (Z : forall b r', total (set_asker V unit s k (Mk_asker q true b true r' t v)) < total s).
    { intros b r'. pose proof (total_asker s k _ (Mk_asker q true b true r' t v) E) as X. unfold askerw in X. cbn [a_open a_queue a_stopping a_started length] in X. destruct b; lia. }
    destruct (pill V is_pill (m_load m)); [|destruct r; [destruct (clone V copyable (m_load m))| |]]; apply some_inj in H as ->; apply Z.
  - unfold ask_halt in H. destruct (nth_error (askers s) k) as [[q [] [] st r t v]|] eqn:E; try discriminate. apply some_inj in H as ->.
    match goal with |- total (set_asker _ _ _ _ ?a) < _ => pose proof (total_asker s k _ a E) as X end. unfold askerw in X. cbn [a_open a_queue a_stopping a_started length] in X. destruct st; lia.
Qed.
Lemma own_run ys : forall s s', anon s -> Forall own ys -> run s ys = Some s' -> length ys <= total s.
Proof.
  induction ys as [|x ys IH]; cbn [TalkModel.run length]; intros s s' A F H; [lia|]. destruct (step s x) as [s1|] eqn:E; [|discriminate]. inversion F; subst.
  pose proof (own_step _ _ _ A H2 E). assert (A1 : anon s1) by (eapply step_anon; eauto; destruct x; cbn in *; tauto). specialize (IH _ _ A1 H3 H). lia.
Qed.
End Rest.
