(* Proofs about the tcp manager's children, DialModel.v *)
From Coq Require Import List Bool Arith Lia.
From Verif Require Import ActorPathModel.
From Verif Require PortModel PortProofs.
From Verif Require Import DialModel.
Import ListNotations.
Notation first_named := PortModel.first_named.
Notation drop_first := PortModel.drop_first.
Notation none := PortModel.none.
Notation mem_in := PortProofs.mem_in.
Notation mem_out := PortProofs.mem_out.
Notation str_eqb_eq := PortProofs.str_eqb_eq.
Notation nodup_map_eq := PortProofs.nodup_map_eq.
Notation nodup_snoc := PortProofs.nodup_snoc.
Notation nodup_map_filter := PortProofs.nodup_map_filter.
Notation nodup_cons_out := PortProofs.nodup_cons_out.
Notation to_string_inj := PortProofs.to_string_inj.
Notation valid_name := PortProofs.valid_name.
Notation first_named_some := PortProofs.first_named_some.
Notation first_named_none := PortProofs.first_named_none.
Notation drop_first_in := PortProofs.drop_first_in.
Notation drop_first_other := PortProofs.drop_first_other.
Notation drop_first_nodup := PortProofs.drop_first_nodup.
Notation drop_first_gone := PortProofs.drop_first_gone.

Lemma get_in : forall n s k, get n s = Some k -> In k (items s) /\ num k = n.
Proof. intros n s k H. apply find_some in H. destruct H as [I E]. apply Nat.eqb_eq in E. auto. Qed.
Lemma get_some : forall s k, NoDup (map num (items s)) -> In k (items s) -> get (num k) s = Some k.
Proof.
  intros s k N I. unfold get. destruct (find _ (items s)) as [k'|] eqn:F.
  - apply find_some in F. destruct F as [I' E]. apply Nat.eqb_eq in E.
    f_equal. eapply nodup_map_eq; eauto.
  - exfalso. pose proof (find_none _ _ F _ I) as X. cbn in X. now rewrite Nat.eqb_refl in X.
Qed.


(* ---- numbers ---- *)
Record items_ok (s : state) : Prop := {
  p_num : NoDup (map num (items s));
  p_next : forall k, In k (items s) -> num k < next s
}.
Definition keeps (g : item -> item) : Prop := forall k, num (g k) = num k /\ asked (g k) = asked k /\ owner (g k) = owner k /\ what (g k) = what k /\ point (g k) = point k.
Lemma io_items : forall s s', items_ok s -> (exists g, keeps g /\ items s' = map g (items s)) -> next s' = next s -> items_ok s'.
Proof.
  intros s s' P (g & K & E) N. constructor; rewrite ?E, ?N.
  - rewrite map_map. rewrite (map_ext _ num); [apply P|]. intros k. apply K.
  - intros k I. apply in_map_iff in I. destruct I as (k0 & <- & I). destruct (K k0) as (A & _). rewrite A. now apply P.
Qed.
Lemma io_same : forall s s', items_ok s -> items s' = items s -> next s' = next s -> items_ok s'.
Proof.
  intros s s' P E N. apply (io_items s s' P); auto. exists (fun k => k). split; [intros k; auto 6|]. now rewrite map_id.
Qed.
Lemma io_update : forall s n p, items_ok s -> items_ok (update n p s).
Proof.
  intros s n p P. eapply io_items; [exact P| |reflexivity].
  exists (fun k => if num k =? n then set_ph p k else k). split; [|reflexivity]. intros k. destruct (num k =? n); cbn; auto 6.
Qed.
Lemma io_tell : forall s h m, items_ok s -> items_ok (tell h m s).
Proof. intros s h m P. unfold tell. destruct (PortModel.mem h (gone s)); auto. now apply (io_same s). Qed.
Lemma io_maybe : forall s, items_ok s -> items_ok (maybe_stop s).
Proof. intros s P. unfold maybe_stop. destruct (stopping s && none (kids s)); auto. now apply (io_same s). Qed.
Lemma io_create : forall s h a w e, items_ok s -> items_ok (create h a w e s).
Proof.
  intros s h a w e P. constructor; cbn.
  - rewrite map_app. cbn. apply nodup_snoc; [apply P|]. intros J. apply in_map_iff in J. destruct J as (k & E & J). apply (p_next _ P) in J. lia.
  - intros k I. apply in_app_iff in I. destruct I as [I|[<-|[]]]; [|cbn; lia]. apply (p_next _ P) in I. lia.
Qed.
Lemma io_start : forall s k ok pick, items_ok s -> items_ok (start k ok pick s).
Proof.
  intros s k ok pick P. unfold start. destruct (what k).
  - destruct (ok && _ && _); [apply (io_same (update (num k) Active s)); auto|]; now apply io_update.
  - destruct ok; [apply io_tell|]; now apply io_update.
Qed.
Lemma io_serve : forall s m, items_ok s -> items_ok (serve m s).
Proof.
  intros s m P. destruct m as [n|m]; cbn [serve].
  - destruct (stopping s); [now apply io_update|]. destruct (get n s) as [k|]; [|exact P]. apply io_update. now apply (io_same s).
  - apply io_maybe. destruct (first_named m (kids s)) as [n|]; [|exact P]. apply io_update. now apply (io_same s).
Qed.
Lemma io_init : items_ok init.
Proof. constructor; cbn; [constructor|easy]. Qed.
Lemma is_phase_eq : forall p q, is_phase p q = true <-> p = q.
Proof. destruct p, q; cbn; split; congruence. Qed.

Section S.
Variable resolve : str -> option ip.
Notation step := (step resolve).
Notation run := (run resolve).

Lemma io_bind : forall s h a, items_ok s -> items_ok (bind resolve h a s).
Proof.
  intros s h a P. unfold bind. destruct (resolve _); [|now apply (io_same s)]. destruct (is_valid_actor_name _); [|exact P].
  now apply io_tell, io_create.
Qed.
Lemma io_connect : forall s h a ok, items_ok s -> items_ok (connect resolve h a ok s).
Proof.
  intros s h a ok P. unfold connect. destruct h as [h|]; [|exact P]. destruct (resolve _); [|now apply (io_same s)].
  destruct ok; [|now apply io_tell]. destruct (is_valid_actor_name _); [|exact P]. now apply io_create.
Qed.
Lemma io_step : forall s e s', items_ok s -> step s e = Some s' -> items_ok s'.
Proof.
  intros s e s' P H. unfold DialModel.step in H. destruct (broken s); [discriminate|]. destruct e.
  - destruct (stopped s); [discriminate|]. injection H as <-. now apply io_bind.
  - destruct (stopped s); [discriminate|]. injection H as <-. now apply io_connect.
  - destruct (notes s) as [|m t]; [discriminate|]. destruct (stopped s); [discriminate|]. injection H as <-.
    apply io_serve. now apply (io_same s).
  - destruct (notes s) as [|m t]; [discriminate|]. destruct (stopped s); [|discriminate]. injection H as <-.
    destruct m; [apply io_update|]; now apply (io_same s).
  - destruct (stopping s); [discriminate|]. injection H as <-. apply io_maybe. now apply (io_same s).
  - destruct (get n s) as [k|]; [|discriminate]. destruct (is_phase (ph k) Idle); [|discriminate]. injection H as <-. now apply io_start.
  - destruct (get n s) as [k|]; [|discriminate]. destruct (is_phase (ph k) Active && is_open n s); [|discriminate]. injection H as <-. now apply io_tell.
  - destruct (get n s) as [k|]; [|discriminate]. destruct (is_phase (ph k) Active); [|discriminate]. injection H as <-.
    apply (io_same (update n Ended s)); auto. now apply io_update.
  - destruct (get n s) as [k|]; [|discriminate]. destruct ((is_phase (ph k) Ended || is_phase (ph k) Leaving) && is_open n s); [|discriminate]. injection H as <-.
    now apply (io_same s).
  - destruct (get n s) as [k|]; [|discriminate]. destruct (is_phase (ph k) Leaving); [|discriminate]. injection H as <-.
    constructor; cbn; [apply nodup_map_filter, P|]. intros k0 I. apply filter_In in I. now apply P.
  - injection H as <-. now apply (io_same s).
  - destruct ((snd e =? 0) || existsb (clash e) (listening s)); [discriminate|]. injection H as <-. now apply (io_same s).
  - injection H as <-. now apply (io_same s).
Qed.
Lemma io_run : forall es s s', items_ok s -> run s es = Some s' -> items_ok s'.
Proof.
  induction es as [|e es IH]; cbn; intros s s' P H; [congruence|]. destruct (step s e) as [s1|] eqn:E; [|discriminate].
  eapply IH; [|exact H]. eapply io_step; eauto.
Qed.
Lemma run_app : forall es es' s s', run s (es ++ es') = Some s' <-> exists s1, run s es = Some s1 /\ run s1 es' = Some s'.
Proof.
  induction es as [|e es IH]; cbn; intros es' s s'; [split; [intros H; exists s; auto|intros (s1 & E & H); congruence]|].
  destruct (step s e) as [s1|]; [apply IH|]. split; [discriminate|]. now intros (s2 & X & _).
Qed.

(* ---- a manager that never stops: more children than will report their end ---- *)
Definition alive (k : item) : bool := is_phase (ph k) Idle || is_phase (ph k) Active.
Definition reports (m : note) : bool := match m with Detach _ => true | _ => false end.
Definition count {A} (f : A -> bool) (l : list A) : nat := List.length (filter f l).
Definition owed (s : state) : nat := count reports (notes s) + count alive (items s).
Lemma count_app : forall A (f : A -> bool) a b, count f (a ++ b) = count f a + count f b.
Proof. intros A f a b. unfold count. now rewrite filter_app, app_length. Qed.
Definition bit (b : bool) : nat := if b then 1 else 0.
Lemma count_cons : forall A (f : A -> bool) a l, count f (a :: l) = bit (f a) + count f l.
Proof. intros A f a l. unfold count. cbn. destruct (f a); reflexivity. Qed.
Lemma count_nil : forall A (f : A -> bool), count f [] = 0. Proof. reflexivity. Qed.
Arguments count : simpl never.
Definition becomes (p : phase) : bool := is_phase p Idle || is_phase p Active.
Lemma count_chg : forall l n p k, NoDup (map num l) -> In k l -> num k = n ->
  count alive (map (fun k => if num k =? n then set_ph p k else k) l) + bit (alive k) = count alive l + bit (becomes p).
Proof.
  induction l as [|x l IH]; intros n p k N I E; [destruct I|]. cbn [map] in *. apply NoDup_cons_iff in N. destruct N as [N1 N2].
  rewrite !count_cons. destruct I as [->|I].
  - rewrite E, Nat.eqb_refl.
    assert (X : map (fun k => if num k =? n then set_ph p k else k) l = l).
    { transitivity (map (fun k : item => k) l); [|apply map_id]. apply map_ext_in. intros y J. destruct (Nat.eqb_spec (num y) n) as [e|]; [|reflexivity].
      exfalso. apply N1. rewrite E, <- e. now apply in_map. }
    rewrite X. change (alive (set_ph p k)) with (becomes p). lia.
  - assert (H : num x <> n) by (intros X; apply N1; rewrite X, <- E; now apply in_map).
    apply Nat.eqb_neq in H. rewrite H. specialize (IH n p k N2 I E). lia.
Qed.
Lemma count_none : forall l n p, ~ In n (map num l) -> map (fun k => if num k =? n then set_ph p k else k) l = l.
Proof.
  intros l n p N. transitivity (map (fun k : item => k) l); [|apply map_id]. apply map_ext_in. intros y J.
  destruct (Nat.eqb_spec (num y) n) as [e|]; [|reflexivity]. exfalso. apply N. rewrite <- e. now apply in_map.
Qed.
(* with a phase that is not alive the count does not grow *)
Lemma count_le : forall s n p, items_ok s -> count alive (items (update n p s)) <= count alive (items s) + bit (becomes p).
Proof.
  intros s n p P. cbn [items update with_items]. destruct (in_dec Nat.eq_dec n (map num (items s))) as [I|I].
  - apply in_map_iff in I. destruct I as (k & E & I). pose proof (count_chg (items s) n p k (p_num _ P) I E). lia.
  - rewrite count_none by exact I. lia.
Qed.
Lemma count_filter : forall (f g : item -> bool) l, count f (filter g l) <= count f l.
Proof. induction l as [|x l IH]; cbn [filter]; [apply le_n|]. destruct (g x); rewrite ?count_cons; lia. Qed.
Lemma drop_len : forall m l n, first_named m l = Some n -> S (List.length (drop_first m l)) = List.length l.
Proof.
  induction l as [|[n' m'] l IH]; cbn; intros n H; [discriminate|]. destruct (str_eqb m' m); [reflexivity|]. cbn. f_equal. eauto.
Qed.
Lemma maybe_frame : forall s, items (maybe_stop s) = items s /\ notes (maybe_stop s) = notes s /\ kids (maybe_stop s) = kids s /\ told (maybe_stop s) = told s /\
  gone (maybe_stop s) = gone s /\ next (maybe_stop s) = next s /\ open (maybe_stop s) = open s /\ others (maybe_stop s) = others s.
Proof. intros s. unfold maybe_stop. destruct (stopping s && none (kids s)); cbn; auto 9. Qed.
Lemma tell_frame : forall h m s, items (tell h m s) = items s /\ notes (tell h m s) = notes s /\ kids (tell h m s) = kids s /\ stopped (tell h m s) = stopped s /\
  gone (tell h m s) = gone s /\ next (tell h m s) = next s /\ open (tell h m s) = open s /\ others (tell h m s) = others s /\ stopping (tell h m s) = stopping s.
Proof. intros h m s. unfold tell. destruct (PortModel.mem h (gone s)); cbn; auto 12. Qed.
(* d: by how much there are too many *)
Definition excess (d : nat) (s : state) : Prop := owed s + d <= List.length (kids s).
Lemma ex_same : forall d s s', excess d s -> items s' = items s -> notes s' = notes s -> kids s' = kids s -> excess d s'.
Proof. unfold excess, owed. intros d s s' X -> -> ->. exact X. Qed.
Lemma ex_tell : forall d s h m, excess d s -> excess d (tell h m s).
Proof. intros d s h m X. destruct (tell_frame h m s) as (A & B & C & _). now apply (ex_same d s). Qed.
Lemma ex_create : forall d s h a w e, excess d s -> excess d (create h a w e s).
Proof. intros d s h a w e X. unfold excess, owed, create in *. cbn [items notes kids with_next with_notes with_items]. rewrite !count_app, !count_cons, !count_nil. cbn [bit reports alive is_phase ph orb]. lia. Qed.
Lemma ex_update : forall d s n p, items_ok s -> becomes p = false -> excess d s -> excess d (update n p s).
Proof.
  intros d s n p P B X. pose proof (count_le s n p P) as Y. rewrite B in Y. unfold excess, owed in *.
  change (notes (update n p s)) with (notes s). change (kids (update n p s)) with (kids s). cbn [bit] in Y. lia.
Qed.
Lemma ex_step : forall d s e s', items_ok s -> excess d s -> step s e = Some s' -> excess d s'.
Proof.
  intros d s e s' P X H. unfold DialModel.step in H. destruct (broken s); [discriminate|]. destruct e.
  - destruct (stopped s); [discriminate|]. injection H as <-. unfold bind. destruct (resolve _); [|now apply (ex_same d s)].
    destruct (is_valid_actor_name _); [|exact X]. now apply ex_tell, ex_create.
  - destruct (stopped s); [discriminate|]. injection H as <-. unfold connect. destruct h as [h|]; [|exact X].
    destruct (resolve _); [|now apply (ex_same d s)]. destruct ok; [|now apply ex_tell]. destruct (is_valid_actor_name _); [|exact X]. now apply ex_create.
  - destruct (notes s) as [|m t] eqn:E; [discriminate|]. destruct (stopped s); [discriminate|]. injection H as <-.
    assert (P' : items_ok (with_notes t s)) by now apply (io_same s).
    unfold excess, owed in *. rewrite E, count_cons in X. destruct m as [n|m]; cbn [serve reports bit] in *.
    + destruct (stopping _).
      * pose proof (count_le (with_notes t s) n Leaving P') as Y. cbn [becomes is_phase orb bit] in Y.
        change (notes (update n Leaving (with_notes t s))) with t. change (kids (update n Leaving (with_notes t s))) with (kids s). cbn [items with_notes] in *. lia.
      * destruct (get n _) as [k|]; [|cbn; lia].
        set (s1 := with_kids _ _). assert (P1 : items_ok s1) by now apply (io_same s).
        pose proof (count_le s1 n Idle P1) as Y. cbn [becomes is_phase orb bit] in Y.
        change (notes (update n Idle s1)) with t. change (kids (update n Idle s1)) with (kids s ++ [(n, to_string (asked k))]).
        rewrite app_length. cbn [List.length]. change (items s1) with (items s) in Y. lia.
    + destruct (maybe_frame (match first_named m (kids (with_notes t s)) with
        | Some n => update n Leaving (with_kids (drop_first m (kids (with_notes t s))) (with_notes t s)) | None => with_notes t s end)) as (A & B & C & _).
      rewrite A, B, C. change (kids (with_notes t s)) with (kids s). destruct (first_named m (kids s)) as [n|] eqn:F; [|cbn; lia].
      set (s1 := with_kids _ _). assert (P1 : items_ok s1) by now apply (io_same s).
      pose proof (count_le s1 n Leaving P1) as Y. cbn [becomes is_phase orb bit] in Y.
      change (notes (update n Leaving s1)) with t. change (kids (update n Leaving s1)) with (drop_first m (kids s)).
      apply drop_len in F. change (items s1) with (items s) in Y. lia.
  - destruct (notes s) as [|m t] eqn:E; [discriminate|]. destruct (stopped s); [|discriminate]. injection H as <-.
    assert (X' : excess d (with_notes t s)).
    { unfold excess, owed in *. rewrite E, count_cons in X. cbn. lia. }
    destruct m; [|exact X']. apply ex_update; auto. now apply (io_same s).
  - destruct (stopping s); [discriminate|]. injection H as <-. destruct (maybe_frame (with_stops true false s)) as (A & B & C & _). now apply (ex_same d s).
  - destruct (get n s) as [k|] eqn:G; [|discriminate]. destruct (is_phase (ph k) Idle) eqn:I; [|discriminate]. injection H as <-.
    apply get_in in G. destruct G as [G N]. apply is_phase_eq in I.
    assert (Y : excess d (update (num k) Active s)).
    { unfold excess, owed in *. pose proof (count_chg (items s) (num k) Active k (p_num _ P) G eq_refl) as Y. unfold alive at 2 in Y. rewrite I in Y.
      cbn [is_phase becomes orb bit] in Y. change (notes (update (num k) Active s)) with (notes s). change (kids (update (num k) Active s)) with (kids s).
      change (items (update (num k) Active s)) with (map (fun k0 => if num k0 =? num k then set_ph Active k0 else k0) (items s)). lia. }
    unfold start. destruct (what k).
    + destruct (ok && _ && _); [now apply (ex_same d (update (num k) Active s))|now apply ex_update].
    + destruct ok; [now apply ex_tell|now apply ex_update].
  - destruct (get n s) as [k|]; [|discriminate]. destruct (is_phase (ph k) Active && is_open n s); [|discriminate]. injection H as <-. now apply ex_tell.
  - destruct (get n s) as [k|] eqn:G; [|discriminate]. destruct (is_phase (ph k) Active) eqn:I; [|discriminate]. injection H as <-.
    apply get_in in G. destruct G as [G N]. apply is_phase_eq in I. unfold excess, owed in *.
    pose proof (count_chg (items s) n Ended k (p_num _ P) G N) as Y. unfold alive at 2 in Y. rewrite I in Y. cbn [is_phase becomes orb bit] in Y.
    cbn [notes items kids with_notes with_items update]. rewrite count_app, count_cons, count_nil. cbn [bit reports]. lia.
  - destruct (get n s) as [k|]; [|discriminate]. destruct ((is_phase (ph k) Ended || is_phase (ph k) Leaving) && is_open n s); [|discriminate]. injection H as <-.
    now apply (ex_same d s).
  - destruct (get n s) as [k|]; [|discriminate]. destruct (is_phase (ph k) Leaving); [|discriminate]. injection H as <-.
    unfold excess, owed in *. cbn. pose proof (count_filter alive (fun k => negb (num k =? n)) (items s)). lia.
  - injection H as <-. now apply (ex_same d s).
  - destruct ((snd e =? 0) || existsb (clash e) (listening s)); [discriminate|]. injection H as <-. now apply (ex_same d s).
  - injection H as <-. now apply (ex_same d s).
Qed.
Lemma ex_run : forall es d s s', items_ok s -> excess d s -> run s es = Some s' -> excess d s'.
Proof.
  induction es as [|e es IH]; cbn; intros d s s' P X H; [congruence|]. destruct (step s e) as [s1|] eqn:E; [|discriminate].
  eapply (IH d s1); [eapply io_step|eapply ex_step|]; eauto.
Qed.
Lemma ex_init : excess 0 init.
Proof. apply le_n. Qed.
(* a manager that has stopped has no children *)
Definition at_end (s : state) : Prop := stopped s = true -> kids s = [] /\ stopping s = true.
Lemma end_tell : forall h m s, at_end s -> at_end (tell h m s).
Proof. intros h m s X U. destruct (tell_frame h m s) as (_ & _ & C & D & _ & _ & _ & _ & E). rewrite C, E. apply X. congruence. Qed.
Lemma end_maybe : forall s, at_end s -> at_end (maybe_stop s).
Proof.
  intros s X. unfold maybe_stop. destruct (stopping s && none (kids s)) eqn:E; [|exact X]. intros _. cbn. apply andb_true_iff in E.
  destruct E as [_ E]. destruct (kids s); [auto|discriminate].
Qed.
Lemma end_step : forall s e s', at_end s -> step s e = Some s' -> at_end s'.
Proof.
  intros s e s' X H. unfold DialModel.step in H. destruct (broken s); [discriminate|]. destruct e.
  - destruct (stopped s) eqn:U; [discriminate|]. injection H as <-. unfold bind. destruct (resolve _); [|intros V; cbn in V; congruence].
    destruct (is_valid_actor_name _); [|exact X]. apply end_tell. intros V. cbn in V. congruence.
  - destruct (stopped s) eqn:U; [discriminate|]. injection H as <-. unfold connect. destruct h as [h|]; [|exact X]. destruct (resolve _); [|intros V; cbn in V; congruence].
    destruct ok; [|now apply end_tell]. destruct (is_valid_actor_name _); [|exact X]. intros V. cbn in V. congruence.
  - destruct (notes s) as [|m t] eqn:E; [discriminate|]. destruct (stopped s) eqn:U; [discriminate|]. injection H as <-.
    destruct m as [n|m]; cbn [serve].
    + destruct (stopping (with_notes t s)); [intros V; cbn in V; congruence|]. destruct (get n (with_notes t s)); intros V; cbn in V; congruence.
    + apply end_maybe. destruct (first_named m (kids (with_notes t s))); intros V; cbn in V; congruence.
  - destruct (notes s) as [|m t] eqn:E; [discriminate|]. destruct (stopped s); [|discriminate]. injection H as <-. destruct m; exact X.
  - destruct (stopping s) eqn:ST; [discriminate|]. injection H as <-. apply end_maybe. intros V. discriminate.
  - destruct (get n s) as [k|]; [|discriminate]. destruct (is_phase (ph k) Idle); [|discriminate]. injection H as <-. unfold start.
    destruct (what k); [destruct (ok && _ && _); exact X|]. destruct ok; [apply end_tell|]; exact X.
  - destruct (get n s) as [k|]; [|discriminate]. destruct (is_phase (ph k) Active && is_open n s); [|discriminate]. injection H as <-. now apply end_tell.
  - destruct (get n s) as [k|]; [|discriminate]. destruct (is_phase (ph k) Active); [|discriminate]. injection H as <-. exact X.
  - destruct (get n s) as [k|]; [|discriminate]. destruct ((is_phase (ph k) Ended || is_phase (ph k) Leaving) && is_open n s); [|discriminate]. injection H as <-. exact X.
  - destruct (get n s) as [k|]; [|discriminate]. destruct (is_phase (ph k) Leaving); [|discriminate]. injection H as <-. exact X.
  - injection H as <-. exact X.
  - destruct ((snd e =? 0) || existsb (clash e) (listening s)); [discriminate|]. injection H as <-. exact X.
  - injection H as <-. exact X.
Qed.
Lemma end_run : forall es s s', at_end s -> run s es = Some s' -> at_end s'.
Proof.
  induction es as [|e es IH]; cbn; intros s s' X H; [injection H as <-; exact X|]. destruct (step s e) as [s1|] eqn:E; [|discriminate].
  eapply (IH s1); [eapply end_step|]; eauto.
Qed.
Lemma end_init : at_end init. Proof. intros H. discriminate. Qed.
Lemma never_stops : forall es d s s', items_ok s -> at_end s -> excess (S d) s -> run s es = Some s' -> stopped s' = false /\ kids s' <> [].
Proof.
  intros es d s s' P A X H. pose proof (ex_run es (S d) s s' P X H) as Y. pose proof (end_run es s s' A H) as B. unfold excess in Y.
  assert (Z : kids s' <> []) by (intros Z; rewrite Z in Y; cbn in Y; lia). split; [|exact Z].
  destruct (stopped s') eqn:U; [|reflexivity]. destruct (B U) as [C _]. now destruct Z.
Qed.
(* a start that fails *)
Lemma fails_excess : forall d s n ok pick s' k, items_ok s -> excess d s -> step s (Start n ok pick) = Some s' -> In k (items s') -> num k = n -> ph k = Failed ->
  excess (S d) s'.
Proof.
  intros d s n ok pick s' k P X H I N F. unfold DialModel.step in H. destruct (broken s); [discriminate|].
  destruct (get n s) as [k0|] eqn:G; [|discriminate]. destruct (is_phase (ph k0) Idle) eqn:J; [|discriminate]. injection H as <-.
  apply get_in in G. destruct G as [G N0]. apply is_phase_eq in J.
  assert (Y : excess (S d) (update (num k0) Failed s)).
  { unfold excess, owed in *. pose proof (count_chg (items s) (num k0) Failed k0 (p_num _ P) G eq_refl) as Y. unfold alive at 2 in Y. rewrite J in Y.
    cbn [is_phase becomes orb bit] in Y. change (notes (update (num k0) Failed s)) with (notes s). change (kids (update (num k0) Failed s)) with (kids s).
    change (items (update (num k0) Failed s)) with (map (fun k1 => if num k1 =? num k0 then set_ph Failed k1 else k1) (items s)). lia. }
  assert (Z : forall s1, items s1 = items (update (num k0) Active s) -> In k (items s1) -> False).
  { intros s1 E I1. rewrite E in I1. cbn in I1. apply in_map_iff in I1. destruct I1 as (k1 & E1 & I1).
    destruct (Nat.eqb_spec (num k1) (num k0)) as [Q|Q]; subst k; [discriminate|]. cbn in N. congruence. }
  unfold start in *. destruct (what k0).
  - destruct (ok && _ && _); [|exact Y]. exfalso. eapply Z; [|exact I]. reflexivity.
  - destruct ok; [|exact Y]. exfalso. eapply Z; [|exact I]. now destruct (tell_frame (owner k0) (Connected (point k0) (num k0)) (update (num k0) Active s)).
Qed.
(* a running child that is destroyed because a child of its name reported its end *)
Lemma killed_excess : forall d s m t s' k k', items_ok s -> excess d s -> notes s = Detach m :: t -> step s Serve = Some s' ->
  In k (items s) -> alive k = true -> In k' (items s') -> num k' = num k -> alive k' = false -> excess (S d) s'.
Proof.
  intros d s m t s' k k' P X E H I A I' N' A'. unfold DialModel.step in H. destruct (broken s); [discriminate|]. rewrite E in H.
  destruct (stopped s); [discriminate|]. injection H as <-. unfold excess, owed in *. rewrite E, count_cons in X. cbn [reports bit serve] in *.
  destruct (maybe_frame (match first_named m (kids s) with
        | Some n => update n Leaving (with_kids (drop_first m (kids s)) (with_notes t s)) | None => with_notes t s end)) as (B & C & D & _).
  rewrite B in I'. rewrite B, C, D. clear B C D.
  destruct (first_named m (kids s)) as [n|] eqn:F.
  - apply drop_len in F. cbn [items notes kids update with_items with_kids with_notes] in *.
    assert (Q : num k = n).
    { apply in_map_iff in I'. destruct I' as (k1 & E1 & I1). destruct (Nat.eqb_spec (num k1) n) as [Q|Q]; subst k'; [cbn in N'; congruence|].
      rewrite (nodup_map_eq _ _ num (items s) k1 k (p_num _ P) I1 I N') in A'. congruence. }
    pose proof (count_chg (items s) n Leaving k (p_num _ P) I Q) as Y. rewrite A in Y. cbn [bit becomes is_phase orb] in Y. lia.
  - cbn in I'. rewrite (nodup_map_eq _ _ num (items s) k' k (p_num _ P) I' I N') in A'. congruence.
Qed.


(* ---- who listens where ---- *)

Inductive apart : list endpoint -> Prop :=
| apart_nil : apart []
| apart_cons : forall e l, apart l -> (forall f, In f l -> clash e f = false) -> apart (e :: l).
Lemma clash_sym : forall e f, clash e f = clash f e.
Proof.
  intros [a p] [b q]. unfold clash. cbn. rewrite (Nat.eqb_sym p q), (Nat.eqb_sym a b). destruct (q =? p), (b =? a), (a =? 0), (b =? 0); reflexivity.
Qed.
Lemma apart_snoc : forall l e, apart l -> (forall f, In f l -> clash e f = false) -> apart (l ++ [e]).
Proof.
  induction l as [|x l IH]; cbn; intros e A D; [constructor; [constructor|easy]|]. inversion A as [|? ? A1 A2]; subst.
  constructor; [apply IH; auto|]. intros f I. apply in_app_iff in I. destruct I as [I|[<-|[]]]; [auto|]. rewrite clash_sym. auto.
Qed.
Lemma apart_filter : forall (f : nat * endpoint -> bool) l, apart (map snd l) -> apart (map snd (filter f l)).
Proof.
  induction l as [|x l IH]; cbn; intros A; [constructor|]. inversion A as [|? ? A1 A2]; subst. destruct (f x); [|auto]. cbn. constructor; [auto|].
  intros e I. apply A2. apply in_map_iff in I. destruct I as (y & E & I). apply filter_In in I. apply in_map_iff. exists y. tauto.
Qed.
Definition holder (p : phase) : Prop := p = Active \/ p = Ended \/ p = Leaving.
Record open_ok (s : state) : Prop := {
  o_apart : apart (map snd (open s));
  o_others : forall e f, In e (map snd (open s)) -> In f (others s) -> clash e f = false;
  o_nodup : NoDup (map fst (open s));
  o_item : forall n e, In (n, e) (open s) -> snd e <> 0 /\ exists k, In k (items s) /\ num k = n /\ what k = Server /\ holder (ph k) /\
    fst e = fst (point k) /\ (snd (point k) <> 0 -> e = point k);
  o_active : forall k, In k (items s) -> ph k = Active -> what k = Server -> In (num k) (map fst (open s))
}.
Lemma oo_same : forall s s', open_ok s -> items s' = items s -> open s' = open s -> others s' = others s -> open_ok s'.
Proof. intros s s' [A B C D E] E1 E2 E3. constructor; rewrite ?E1, ?E2, ?E3; assumption. Qed.
Lemma oo_tell : forall s h m, open_ok s -> open_ok (tell h m s).
Proof. intros s h m O. destruct (tell_frame h m s) as (A & _ & _ & _ & _ & _ & B & C & _). now apply (oo_same s). Qed.
Lemma oo_create : forall s h a w e, open_ok s -> open_ok (create h a w e s).
Proof.
  intros s h a w e [A B C D E]. constructor; cbn; auto.
  - intros n f I. destruct (D n f I) as (Z & k & J & X). split; [exact Z|]. exists k. rewrite in_app_iff. auto.
  - intros k I Q W. apply in_app_iff in I. destruct I as [I|[<-|[]]]; [auto|discriminate].
Qed.
(* a change of phase that keeps or drops holders in the allowed direction *)
Lemma oo_update : forall s n p, open_ok s -> (p = Active -> forall k, In k (items s) -> num k = n -> what k = Client) ->
  (holder p \/ forall k, In k (items s) -> num k = n -> ~ holder (ph k)) -> open_ok (update n p s).
Proof.
  intros s n p O Q R. pose proof O as [A B C D E]. constructor; cbn [open others update with_items]; auto.
  - intros m f I. destruct (D m f I) as (Z & k & J & N & W & H & X). split; [exact Z|].
    exists (if num k =? n then set_ph p k else k). split; [cbn; apply in_map_iff; now exists k|].
    destruct (Nat.eqb_spec (num k) n) as [Y|Y]; cbn; [|auto]. split; [exact N|]. split; [exact W|]. split; [|exact X].
    destruct R as [R|R]; [exact R|]. exfalso. now apply (R k).
  - intros k I Y W. cbn in I. apply in_map_iff in I. destruct I as (k0 & E0 & I). destruct (Nat.eqb_spec (num k0) n) as [Z|Z].
    + subst k. cbn in *. assert (what k0 = Client) by (now apply Q). congruence.
    + subst k. auto.
Qed.
Lemma oo_leave : forall s n, open_ok s -> open_ok (update n Leaving s).
Proof. intros s n O. apply oo_update; [exact O|discriminate|]. left. unfold holder. auto. Qed.
Lemma clear_all : forall e l, existsb (clash e) l = false -> forall f, In f l -> clash e f = false.
Proof.
  intros e l H f I. destruct (clash e f) eqn:C; [|reflexivity].
  assert (existsb (clash e) l = true) by (apply existsb_exists; now exists f). congruence.
Qed.
Lemma oo_step : forall s e s', items_ok s -> open_ok s -> (forall n, In (Attach n) (notes s) -> forall k, In k (items s) -> num k = n -> ph k = Made) ->
  step s e = Some s' -> open_ok s'.
Proof.
  intros s e s' P O M H. unfold DialModel.step in H. destruct (broken s); [discriminate|]. destruct e.
  - destruct (stopped s); [discriminate|]. injection H as <-. unfold bind. destruct (resolve _); [|now apply (oo_same s)].
    destruct (is_valid_actor_name _); [|exact O]. now apply oo_tell, oo_create.
  - destruct (stopped s); [discriminate|]. injection H as <-. unfold connect. destruct h as [h|]; [|exact O].
    destruct (resolve _); [|now apply (oo_same s)]. destruct ok; [|now apply oo_tell]. destruct (is_valid_actor_name _); [|exact O]. now apply oo_create.
  - destruct (notes s) as [|m t] eqn:E; [discriminate|]. destruct (stopped s); [discriminate|]. injection H as <-.
    assert (O' : open_ok (with_notes t s)) by now apply (oo_same s). destruct m as [n|m]; cbn [serve].
    + destruct (stopping _); [now apply oo_leave|]. destruct (get n _) as [k|]; [|exact O'].
      apply oo_update; [now apply (oo_same s)|discriminate|]. right. intros k0 I N. rewrite (M n (or_introl eq_refl) k0 I N). intros [X|[X|X]]; discriminate.
    + destruct (maybe_frame (match first_named m (kids (with_notes t s)) with
        | Some n => update n Leaving (with_kids (drop_first m (kids (with_notes t s))) (with_notes t s)) | None => with_notes t s end)) as (A & _ & _ & _ & _ & _ & B & C).
      eapply oo_same; [|exact A|exact B|exact C]. destruct (first_named m _); [apply oo_leave; now apply (oo_same s)|exact O'].
  - destruct (notes s) as [|m t] eqn:E; [discriminate|]. destruct (stopped s); [|discriminate]. injection H as <-.
    destruct m; [apply oo_leave|]; now apply (oo_same s).
  - destruct (stopping s); [discriminate|]. injection H as <-. destruct (maybe_frame (with_stops true false s)) as (A & _ & _ & _ & _ & _ & B & C).
    now apply (oo_same s).
  - destruct (get n s) as [k|] eqn:G; [|discriminate]. destruct (is_phase (ph k) Idle) eqn:J; [|discriminate]. injection H as <-.
    apply get_in in G. destruct G as [G N]. apply is_phase_eq in J.
    assert (Q : forall k', In k' (items s) -> num k' = num k -> k' = k) by (intros k' I' N'; now apply (nodup_map_eq _ _ num (items s)); [apply P|..]).
    assert (NH : forall k', In k' (items s) -> num k' = num k -> ~ holder (ph k')).
    { intros k' I' N'. rewrite (Q k' I' N'), J. intros [X|[X|X]]; discriminate. }
    unfold start. destruct (what k) eqn:W.
    + set (e := (fst (point k), if snd (point k) =? 0 then pick else snd (point k))).
      destruct (ok && negb (snd e =? 0) && negb (existsb (clash e) (listening s))) eqn:T; [|apply oo_update; [exact O|discriminate|auto]].
      apply andb_true_iff in T. destruct T as [T T2]. apply andb_true_iff in T. destruct T as [_ T1]. apply negb_true_iff in T1, T2. apply Nat.eqb_neq in T1.
      pose proof (clear_all _ _ T2) as D. destruct O as [A B C D0 E0]. constructor; cbn [open others with_open update with_items].
      * rewrite map_app. apply apart_snoc; [exact A|]. intros f I. apply D. unfold listening. apply in_app_iff. auto.
      * intros f g I1 I2. rewrite map_app in I1. apply in_app_iff in I1. destruct I1 as [I1|[<-|[]]]; [auto|]. apply D. unfold listening. apply in_app_iff. auto.
      * rewrite map_app. apply nodup_snoc; [exact C|]. intros I. apply in_map_iff in I. destruct I as ([m f] & E & I). cbn in E. subst m.
        destruct (D0 _ _ I) as (_ & k' & I' & N' & _ & H' & _). now apply (NH k').
      * intros m f I. apply in_app_iff in I. destruct I as [I|[I|[]]].
        -- destruct (D0 m f I) as (Z & k' & I' & N' & W' & H' & X). split; [exact Z|]. exists k'. split; [|auto].
           cbn. apply in_map_iff. exists k'. split; [|exact I']. destruct (Nat.eqb_spec (num k') (num k)) as [Y|Y]; [|reflexivity].
           exfalso. now apply (NH k').
        -- injection I as <- <-. split; [exact T1|]. exists (set_ph Active k). split; [cbn; apply in_map_iff; exists k; now rewrite Nat.eqb_refl|].
           cbn. split; [reflexivity|]. split; [exact W|]. split; [unfold holder; auto|]. split; [reflexivity|]. intros X. apply Nat.eqb_neq in X. unfold e. rewrite X. now destruct (point k).
      * intros k' I' Y W'. cbn in I'. rewrite map_app. apply in_app_iff. apply in_map_iff in I'. destruct I' as (k0 & E1 & I'). destruct (Nat.eqb_spec (num k0) (num k)) as [Z|Z].
        -- right. subst k'. cbn. auto.
        -- left. subst k'. auto.
    + destruct ok; [apply oo_tell|]; apply oo_update; auto; try discriminate. intros _ k' I' N'. now rewrite (Q k' I' N').
  - destruct (get n s) as [k|]; [|discriminate]. destruct (is_phase (ph k) Active && is_open n s); [|discriminate]. injection H as <-. now apply oo_tell.
  - destruct (get n s) as [k|] eqn:G; [|discriminate]. destruct (is_phase (ph k) Active) eqn:J; [|discriminate]. injection H as <-.
    apply (oo_same (update n Ended s)); auto. apply oo_update; [exact O|discriminate|]. left. unfold holder. auto.
  - destruct (get n s) as [k|] eqn:G; [|discriminate]. destruct ((is_phase (ph k) Ended || is_phase (ph k) Leaving) && is_open n s) eqn:J; [|discriminate]. injection H as <-.
    apply get_in in G. destruct G as [G N]. apply andb_true_iff in J. destruct J as [J _]. rewrite orb_true_iff, !is_phase_eq in J.
    destruct O as [A B C D E]. constructor; cbn.
    + now apply apart_filter.
    + intros f g I. apply B. apply in_map_iff in I. destruct I as (y & E1 & I). apply filter_In in I. apply in_map_iff. exists y. tauto.
    + now apply nodup_map_filter.
    + intros m f I. apply filter_In in I. now apply D.
    + intros k' I' Y W. apply in_map_iff. pose proof (E k' I' Y W) as X. apply in_map_iff in X. destruct X as ([m f] & E1 & X). exists (m, f). split; [exact E1|].
      apply filter_In. split; [exact X|]. cbn in *. apply negb_true_iff, Nat.eqb_neq. intros Z.
      assert (k' = k) by (apply (nodup_map_eq _ _ num (items s)); [apply P|..]; congruence). destruct J; congruence.
  - destruct (get n s) as [k|] eqn:G; [|discriminate]. destruct (is_phase (ph k) Leaving) eqn:J; [|discriminate]. injection H as <-.
    apply get_in in G. destruct G as [G N]. apply is_phase_eq in J.
    destruct O as [A B C D E]. constructor; cbn.
    + now apply apart_filter.
    + intros f g I. apply B. apply in_map_iff in I. destruct I as (y & E1 & I). apply filter_In in I. apply in_map_iff. exists y. tauto.
    + now apply nodup_map_filter.
    + intros m f I. apply filter_In in I. destruct I as [I I2]. destruct (D m f I) as (Z & k' & I' & N' & X). split; [exact Z|]. exists k'. split; [|auto].
      apply filter_In. split; [exact I'|]. rewrite N'. exact I2.
    + intros k' I' Y W. apply filter_In in I'. destruct I' as [I' I2]. apply in_map_iff. pose proof (E k' I' Y W) as X. apply in_map_iff in X. destruct X as ([m f] & E1 & X).
      exists (m, f). split; [exact E1|]. apply filter_In. split; [exact X|]. cbn in *. now rewrite E1.
  - injection H as <-. now apply (oo_same s).
  - destruct ((snd e =? 0) || existsb (clash e) (listening s)) eqn:T; [discriminate|]. injection H as <-. apply orb_false_iff in T. destruct T as [_ T].
    pose proof (clear_all _ _ T) as D1. destruct O as [A B C D E]. constructor; cbn; auto. intros f g I [<-|J]; [|auto].
    rewrite clash_sym. apply D1. unfold listening. apply in_app_iff. auto.
  - injection H as <-. destruct O as [A B C D E]. constructor; cbn; auto. intros f g I J. apply filter_In in J. now apply B.
Qed.


(* ---- messages to attach a child ---- *)
Definition att (m : note) : list nat := match m with Attach n => [n] | Detach _ => [] end.
Definition pending (s : state) : list nat := flat_map att (notes s).
Record made_ok (s : state) : Prop := {
  m_nodup : NoDup (map fst (kids s) ++ pending s);
  m_next : forall n, In n (map fst (kids s) ++ pending s) -> n < next s;
  m_made : forall n k, In n (pending s) -> In k (items s) -> num k = n -> ph k = Made
}.
Lemma in_pending : forall s n, In (Attach n) (notes s) <-> In n (pending s).
Proof.
  intros s n. unfold pending. rewrite in_flat_map. split.
  - intros I. exists (Attach n). cbn. auto.
  - intros ([m|m] & I & J); cbn in J; [|easy]. destruct J as [->|[]]. exact I.
Qed.
Lemma pend_app : forall l m, flat_map att (l ++ [m]) = flat_map att l ++ att m.
Proof. intros l m. rewrite flat_map_app. cbn. now rewrite app_nil_r. Qed.
Lemma mo_same : forall s s', made_ok s -> items s' = items s -> kids s' = kids s -> notes s' = notes s -> next s' = next s -> made_ok s'.
Proof. intros s s' [A B C] E1 E2 E3 E4. constructor; unfold pending; rewrite ?E1, ?E2, ?E3, ?E4; assumption. Qed.
Lemma mo_tell : forall s h m, made_ok s -> made_ok (tell h m s).
Proof. intros s h m O. destruct (tell_frame h m s) as (A & B & C & _ & _ & D & _). now apply (mo_same s). Qed.
Lemma mo_create : forall s h a w e, items_ok s -> made_ok s -> made_ok (create h a w e s).
Proof.
  intros s h a w e P [A B C]. constructor; unfold pending in *; cbn; rewrite ?pend_app; cbn.
  - rewrite app_assoc. apply nodup_snoc; [exact A|]. intros I. apply B in I. lia.
  - intros n I. rewrite app_assoc in I. apply in_app_iff in I. destruct I as [I|[<-|[]]]; [|lia]. apply B in I. lia.
  - intros n k I J N. apply in_app_iff in J. destruct J as [J|[<-|[]]]; [|reflexivity]. apply in_app_iff in I. destruct I as [I|[I|[]]]; [now apply (C n)|].
    apply (p_next _ P) in J. lia.
Qed.
Lemma mo_update : forall s n p, made_ok s -> ~ In n (pending s) -> made_ok (update n p s).
Proof.
  intros s n p [A B C] N. constructor; cbn [kids next update with_items]; auto. intros m k I J E. change (pending (update n p s)) with (pending s) in I.
  cbn in J. apply in_map_iff in J. destruct J as (k0 & E0 & J). destruct (Nat.eqb_spec (num k0) n) as [X|X]; subst k.
  - cbn in E. exfalso. apply N. congruence.
  - now apply (C m).
Qed.
Lemma nodup_app_out : forall (A : Type) (a b : list A) x, NoDup (a ++ x :: b) -> ~ In x a /\ ~ In x b /\ NoDup (a ++ b).
Proof.
  intros A a b x N. pose proof (NoDup_remove_1 _ _ _ N) as N1. pose proof (NoDup_remove_2 _ _ _ N) as N2. rewrite in_app_iff in N2. tauto.
Qed.
Lemma nodup_app_not : forall (A : Type) (a b : list A) x, NoDup (a ++ b) -> In x a -> ~ In x b.
Proof.
  induction a as [|y a IH]; cbn; intros b x N I J; [easy|]. apply NoDup_cons_iff in N. destruct N as [N1 N2]. destruct I as [->|I]; [|now apply (IH b x)].
  apply N1. apply in_app_iff. auto.
Qed.
Lemma drop_nodup_app : forall m l b, NoDup (map fst l ++ b) -> NoDup (map fst (drop_first m l) ++ b).
Proof.
  induction l as [|[n' m'] l IH]; cbn; intros b N; [exact N|]. apply NoDup_cons_iff in N. destruct N as [N1 N2]. destruct (str_eqb m' m); [exact N2|].
  cbn. constructor; [|auto]. intros I. apply N1. apply in_app_iff in I. apply in_app_iff. destruct I as [I|I]; [|auto]. left.
  apply in_map_iff in I. destruct I as (x & E & I). rewrite <- E. apply in_map. eapply drop_first_in; eauto.
Qed.
Lemma mo_step : forall s e s', items_ok s -> made_ok s -> step s e = Some s' -> made_ok s'.
Proof.
  intros s e s' P M H. unfold DialModel.step in H. destruct (broken s); [discriminate|]. destruct e.
  - destruct (stopped s); [discriminate|]. injection H as <-. unfold bind. destruct (resolve _); [|now apply (mo_same s)].
    destruct (is_valid_actor_name _); [|exact M]. now apply mo_tell, mo_create.
  - destruct (stopped s); [discriminate|]. injection H as <-. unfold connect. destruct h as [h|]; [|exact M].
    destruct (resolve _); [|now apply (mo_same s)]. destruct ok; [|now apply mo_tell]. destruct (is_valid_actor_name _); [|exact M]. now apply mo_create.
  - destruct (notes s) as [|m t] eqn:E; [discriminate|]. destruct (stopped s); [discriminate|]. injection H as <-.
    destruct M as [A B C]. unfold pending in *. rewrite E in *. destruct m as [n|m]; cbn [serve flat_map att app] in *.
    + apply nodup_app_out in A. destruct A as (A1 & A2 & A3).
      assert (M' : made_ok (with_notes t s)).
      { constructor; unfold pending; cbn; [exact A3| |].
        - intros x I. apply B. rewrite in_app_iff in *. cbn. tauto.
        - intros x k I. apply C. now right. }
      destruct (stopping _); [apply mo_update; [exact M'|exact A2]|]. destruct (get n _) as [k|]; [|exact M'].
      apply mo_update; [|exact A2]. constructor; unfold pending; cbn.
      * rewrite map_app. cbn. rewrite <- app_assoc. cbn. apply (Permutation.Permutation_NoDup (l := n :: map fst (kids s) ++ flat_map att t)).
        { apply Permutation.Permutation_middle. } constructor; [|exact A3]. rewrite in_app_iff. tauto.
      * intros x I. apply B. rewrite map_app in I. rewrite !in_app_iff in *. cbn in *. tauto.
      * intros x k0 I. apply C. now right.
    + assert (M' : made_ok (with_notes t s)) by (constructor; unfold pending; cbn; assumption).
      destruct (maybe_frame (match first_named m (kids (with_notes t s)) with
        | Some n => update n Leaving (with_kids (drop_first m (kids (with_notes t s))) (with_notes t s)) | None => with_notes t s end)) as (F1 & F2 & F3 & _ & _ & F4 & _).
      eapply mo_same; [|exact F1|exact F3|exact F2|exact F4]. change (kids (with_notes t s)) with (kids s).
      destruct (first_named m (kids s)) as [n|] eqn:F; [|exact M']. apply mo_update.
      * constructor; unfold pending; cbn; [now apply drop_nodup_app| |exact C]. intros x I. apply B. rewrite in_app_iff in *. destruct I as [I|I]; [left|auto].
        apply in_map_iff in I. destruct I as (y & E1 & I). rewrite <- E1. apply in_map. eapply drop_first_in; eauto.
      * unfold pending. cbn. apply (nodup_app_not _ _ _ _ A). apply first_named_some in F. apply (in_map fst) in F. exact F.
  - destruct (notes s) as [|m t] eqn:E; [discriminate|]. destruct (stopped s); [|discriminate]. injection H as <-.
    destruct M as [A B C]. unfold pending in *. rewrite E in *. destruct m as [n|m]; cbn [flat_map att app] in *.
    + apply nodup_app_out in A. destruct A as (A1 & A2 & A3). apply mo_update; [|exact A2]. constructor; unfold pending; cbn; [exact A3| |].
      * intros x I. apply B. rewrite in_app_iff in *. cbn. tauto.
      * intros x k I. apply C. now right.
    + constructor; unfold pending; cbn; assumption.
  - destruct (stopping s); [discriminate|]. injection H as <-. destruct (maybe_frame (with_stops true false s)) as (F1 & F2 & F3 & _ & _ & F4 & _). now apply (mo_same s).
  - destruct (get n s) as [k|] eqn:G; [|discriminate]. destruct (is_phase (ph k) Idle) eqn:J; [|discriminate]. injection H as <-.
    apply get_in in G. destruct G as [G N]. apply is_phase_eq in J.
    assert (Q : ~ In (num k) (pending s)) by (intros I; pose proof (m_made _ M _ k I G eq_refl); congruence).
    unfold start. destruct (what k).
    + destruct (ok && _ && _); [apply (mo_same (update (num k) Active s)); auto|]; now apply mo_update.
    + destruct ok; [apply mo_tell|]; now apply mo_update.
  - destruct (get n s) as [k|]; [|discriminate]. destruct (is_phase (ph k) Active && is_open n s); [|discriminate]. injection H as <-. now apply mo_tell.
  - destruct (get n s) as [k|] eqn:G; [|discriminate]. destruct (is_phase (ph k) Active) eqn:J; [|discriminate]. injection H as <-.
    apply get_in in G. destruct G as [G N]. apply is_phase_eq in J. subst n.
    assert (Q : ~ In (num k) (pending s)) by (intros I; pose proof (m_made _ M _ k I G eq_refl); congruence).
    pose proof (mo_update s (num k) Ended M Q) as [A B C]. constructor; unfold pending in *; cbn [notes kids items next with_notes update with_items] in *; rewrite ?pend_app; cbn [att]; rewrite ?app_nil_r; assumption.
  - destruct (get n s) as [k|]; [|discriminate]. destruct ((is_phase (ph k) Ended || is_phase (ph k) Leaving) && is_open n s); [|discriminate]. injection H as <-. now apply (mo_same s).
  - destruct (get n s) as [k|]; [|discriminate]. destruct (is_phase (ph k) Leaving); [|discriminate]. injection H as <-.
    destruct M as [A B C]. constructor; cbn; auto. intros m k0 I J. apply filter_In in J. now apply C.
  - injection H as <-. now apply (mo_same s).
  - destruct ((snd e =? 0) || existsb (clash e) (listening s)); [discriminate|]. injection H as <-. now apply (mo_same s).
  - injection H as <-. now apply (mo_same s).
Qed.
Lemma mo_init : made_ok init. Proof. constructor; cbn; [constructor|easy|easy]. Qed.
Lemma oo_init : open_ok init. Proof. constructor; cbn; try constructor; easy. Qed.
Lemma all_run : forall es s s', items_ok s -> made_ok s -> open_ok s -> run s es = Some s' -> items_ok s' /\ made_ok s' /\ open_ok s'.
Proof.
  induction es as [|e es IH]; cbn; intros s s' P M O H; [injection H as <-; auto|]. destruct (step s e) as [s1|] eqn:E; [|discriminate].
  eapply (IH s1); [eapply io_step|eapply mo_step|eapply oo_step|]; eauto. intros n I k J N. apply in_pending in I. now apply (m_made _ M n).
Qed.

(* ---- children with names of their own ---- *)
Definition attached (p : phase) : Prop := p = Idle \/ p = Active \/ p = Failed \/ p = Ended.
Definition uniq (l : list item) : Prop := forall a b, In a l -> In b l -> ph a <> Leaving -> ph b <> Leaving -> asked a = asked b -> num a = num b.
Record kids_ok (s : state) : Prop := {
  k_uniq : uniq (items s);
  k_kid : forall n m, In (n, m) (kids s) -> exists k, In k (items s) /\ num k = n /\ m = to_string (asked k) /\ attached (ph k);
  k_all : forall k, In k (items s) -> attached (ph k) -> In (num k, to_string (asked k)) (kids s);
  k_nodup : NoDup (map fst (kids s));
  k_notes : NoDup (notes s);
  k_made : forall n, In (Attach n) (notes s) <-> exists k, In k (items s) /\ num k = n /\ ph k = Made;
  k_ended : forall m, stopped s = false -> (In (Detach m) (notes s) <-> exists k, In k (items s) /\ m = to_string (asked k) /\ ph k = Ended);
  k_stopped : stopped s = true -> stopping s = true /\ kids s = [];
  k_waits : stopping s = true -> stopped s = false -> kids s <> []
}.

Lemma ko_same : forall s s', kids_ok s -> items s' = items s -> kids s' = kids s -> notes s' = notes s ->
  stopping s' = stopping s -> stopped s' = stopped s -> kids_ok s'.
Proof. intros s s' [A B C D E F G H I] E1 E2 E3 E4 E5. constructor; rewrite ?E1, ?E2, ?E3, ?E4, ?E5; assumption. Qed.
Lemma ko_tell : forall s h m, kids_ok s -> kids_ok (tell h m s).
Proof. intros s h m K. unfold tell. destruct (PortModel.mem h (gone s)); auto. now apply (ko_same s). Qed.
(* the itemets after a change of the phase of one of them *)
Lemma in_chg : forall n p s k', In k' (items (update n p s)) <->
  (exists k, In k (items s) /\ num k = n /\ k' = set_ph p k) \/ (In k' (items s) /\ num k' <> n).
Proof.
  intros n p s k'. unfold update. cbn. rewrite in_map_iff. split.
  - intros (k & E & I). destruct (Nat.eqb_spec (num k) n) as [N|N]; [left; exists k; auto|right; subst; auto].
  - intros [(k & I & N & E)|[I N]].
    + exists k. rewrite N, Nat.eqb_refl. auto.
    + exists k'. apply Nat.eqb_neq in N. rewrite N. auto.
Qed.
Lemma num_eq : forall s a b, items_ok s -> In a (items s) -> In b (items s) -> num a = num b -> a = b.
Proof. intros s a b P. apply nodup_map_eq, P. Qed.
Lemma uniq_chg : forall s n p, uniq (items s) -> (p = Leaving \/ forall k, In k (items s) -> num k = n -> ph k <> Leaving) -> uniq (items (update n p s)).
Proof.
  intros s n p U C a b Ia Ib La Lb E.
  assert (T : forall x, In x (items (update n p s)) -> ph x <> Leaving -> exists y, In y (items s) /\ num y = num x /\ asked y = asked x /\ ph y <> Leaving).
  { intros x I L. apply in_chg in I. destruct I as [(k & I & N & ->)|[I N]]; [|exists x; auto]. exists k. cbn. split; [exact I|]. split; [reflexivity|]. split; [reflexivity|].
    destruct C as [->|C]; [now destruct L|now apply C]. }
  destruct (T a Ia La) as (a' & A1 & A2 & A3 & A4). destruct (T b Ib Lb) as (b' & B1 & B2 & B3 & B4).
  rewrite <- A2, <- B2. apply U; congruence.
Qed.
Lemma name_eq : forall s a b, items_ok s -> kids_ok s -> In a (items s) -> In b (items s) -> ph a <> Leaving -> ph b <> Leaving -> to_string (asked a) = to_string (asked b) -> a = b.
Proof. intros s a b P K Ia Ib La Lb E. apply to_string_inj in E. apply (num_eq s); auto. now apply (k_uniq _ K). Qed.
Lemma att_not : forall p, attached p -> p <> Leaving /\ p <> Made.
Proof. intros p [->|[->|[->| ->]]]; split; discriminate. Qed.
Lemma ko_init : kids_ok init.
Proof.
  constructor; cbn.
  - intros a b [].
  - easy.
  - easy.
  - constructor.
  - constructor.
  - intros n. split; [easy|]. now intros (k & [] & _).
  - intros m _. split; [easy|]. now intros (k & [] & _).
  - easy.
  - easy.
Qed.
Definition present (s : state) : list address := map asked (filter (fun k => negb (is_phase (ph k) Leaving)) (items s)).
Lemma ko_create : forall s h a w e, items_ok s -> kids_ok s -> stopped s = false -> ~ In a (present s) -> kids_ok (create h a w e s).
Proof.
  intros s h a w e P K U Z.
  assert (PR : forall k, In k (items s) -> ph k <> Leaving -> asked k <> a).
  { intros k I L E. apply Z. unfold present. apply in_map_iff. exists k. split; [exact E|]. apply filter_In. split; [exact I|].
    apply negb_true_iff. destruct (is_phase (ph k) Leaving) eqn:X; [|reflexivity]. apply is_phase_eq in X. now destruct L. }
  assert (F : forall k, In k (items s) -> num k <> next s) by (intros k I; apply (p_next _ P) in I; lia).
  constructor; cbn [items notes kids stopping stopped create with_next with_notes with_items].
  - intros x y Ix Iy Lx Ly E. apply in_app_iff in Ix, Iy. destruct Ix as [Ix|[<-|[]]], Iy as [Iy|[<-|[]]]; [now apply K| | |reflexivity]; exfalso.
    + now apply (PR x).
    + now apply (PR y).
  - intros n m I. destruct (k_kid _ K _ _ I) as (k & I' & X). exists k. rewrite in_app_iff. auto.
  - intros k I B. apply in_app_iff in I. destruct I as [I|[<-|[]]]; [now apply K|]. unfold attached in B; cbn in B; intuition discriminate.
  - apply K.
  - apply nodup_snoc; [apply K|]. intros I. apply (k_made _ K) in I. destruct I as (k & I & N & _). now apply (F k).
  - intros n. rewrite in_app_iff. rewrite (k_made _ K). cbn. split.
    + intros [(k & I & X)|[X|[]]]; [exists k; rewrite in_app_iff; auto|]. injection X as <-.
      eexists. rewrite in_app_iff. split; [right; now left|auto].
    + intros (k & I & N & M). apply in_app_iff in I. destruct I as [I|[<-|[]]]; [left; exists k; auto|right; left; now rewrite <- N].
  - intros m _. rewrite in_app_iff. rewrite (k_ended _ K m U). split.
    + intros [(k & I & X)|[X|[]]]; [exists k; rewrite in_app_iff; auto|discriminate].
    + intros (k & I & N & M). apply in_app_iff in I. destruct I as [I|[<-|[]]]; [left; exists k; auto|discriminate].
  - apply K.
  - apply K.
Qed.
Lemma ko_leave : forall s n t, items_ok s -> kids_ok s -> notes s = Attach n :: t -> kids_ok (update n Leaving (with_notes t s)).
Proof.
  intros s n t P K E. pose proof (k_notes _ K) as N. rewrite E in N. apply nodup_cons_out in N. destruct N as [N1 N2].
  assert (M : exists k, In k (items s) /\ num k = n /\ ph k = Made) by (apply (k_made _ K); rewrite E; now left).
  destruct M as (k & I & Nk & Mk).
  assert (Q : forall k', In k' (items s) -> num k' = n -> k' = k) by (intros k' I' N'; apply (num_eq s); congruence).
  constructor; cbn [kids notes stopping stopped update with_items with_notes].
  - apply (uniq_chg (with_notes t s) n Leaving); [apply K|auto].
  - intros m x J. destruct (k_kid _ K _ _ J) as (k' & I' & A & B & C). exists k'.
    split; [|auto]. apply in_chg. right. split; [exact I'|]. intros X. rewrite (Q _ I' X), Mk in C. unfold attached in C; intuition discriminate.
  - intros k' I' B. apply in_chg in I'. destruct I' as [(k0 & I0 & _ & ->)|[I' _]]; [unfold attached in B; cbn in B; intuition discriminate|now apply K].
  - apply K.
  - exact N2.
  - intros m. split.
    + intros J. assert (J' : In (Attach m) (notes s)) by (rewrite E; now right). apply (k_made _ K) in J'.
      destruct J' as (k' & I' & A & B). exists k'. split; [|auto]. apply in_chg. right. split; [exact I'|]. intros X. apply N1. congruence.
    + intros (k' & I' & A & B). apply in_chg in I'. destruct I' as [(k0 & I0 & _ & ->)|[I' D]]; [discriminate|].
      assert (J : In (Attach m) (notes s)) by (apply (k_made _ K); exists k'; auto). rewrite E in J. destruct J as [J|J]; [|exact J].
      exfalso. apply D. congruence.
  - intros m U. transitivity (In (Detach m) (notes s)).
    + rewrite E. cbn. split; [auto|]. intros [X|X]; [discriminate|exact X].
    + rewrite (k_ended _ K m U). split; intros (k' & I' & A & B).
      * exists k'. split; [|auto]. apply in_chg. right. split; [exact I'|]. intros X. rewrite (Q _ I' X) in B. congruence.
      * apply in_chg in I'. destruct I' as [(k0 & I0 & _ & ->)|[I' D]]; [discriminate|]. exists k'. auto.
  - apply K.
  - apply K.
Qed.
Lemma ko_attach : forall s n t k0, items_ok s -> kids_ok s -> notes s = Attach n :: t -> stopping s = false -> get n s = Some k0 ->
  kids_ok (update n Idle (with_kids (kids s ++ [(n, to_string (asked k0))]) (with_notes t s))).
Proof.
  intros s n t k P K E ST G. pose proof (k_notes _ K) as N. rewrite E in N. apply nodup_cons_out in N. destruct N as [N1 N2].
  apply get_in in G. destruct G as [I Nk].
  assert (Q : forall k', In k' (items s) -> num k' = n -> k' = k) by (intros k' I' N'; apply (num_eq s); congruence).
  assert (Mk : ph k = Made).
  { assert (M : exists k, In k (items s) /\ num k = n /\ ph k = Made) by (apply (k_made _ K); rewrite E; now left).
    destruct M as (k' & I' & N' & M'). rewrite <- (Q k' I' N'). exact M'. }
  constructor; cbn [kids notes stopping stopped update with_items with_notes with_kids].
  - apply (uniq_chg (with_notes t s) n Idle); [apply K|]. right. intros k' I' N'. rewrite (Q k' I' N'), Mk. discriminate.
  - intros m x J. apply in_app_iff in J. destruct J as [J|[J|[]]].
    + destruct (k_kid _ K _ _ J) as (k' & I' & A & B & C). exists k'.
      split; [|auto]. apply in_chg. right. split; [exact I'|]. intros X. rewrite (Q _ I' X), Mk in C. unfold attached in C; intuition discriminate.
    + injection J as <- <-. exists (set_ph Idle k). split; [apply in_chg; left; exists k; auto|]. cbn. unfold attached. auto 8.
  - intros k' I' B. apply in_app_iff. apply in_chg in I'. destruct I' as [(k0 & I0 & A & ->)|[I' _]].
    + right. left. rewrite (Q k0 I0 A). cbn. congruence.
    + left. now apply K.
  - rewrite map_app. cbn. apply nodup_snoc; [apply K|]. intros J. apply in_map_iff in J. destruct J as ([m x] & A & J). cbn in A. subst m.
    destruct (k_kid _ K _ _ J) as (k' & I' & A & B & C). rewrite (Q _ I' A), Mk in C. unfold attached in C; intuition discriminate.
  - exact N2.
  - intros m. split.
    + intros J. assert (J' : In (Attach m) (notes s)) by (rewrite E; now right). apply (k_made _ K) in J'.
      destruct J' as (k' & I' & A & B). exists k'. split; [|auto]. apply in_chg. right. split; [exact I'|]. intros X. apply N1. congruence.
    + intros (k' & I' & A & B). apply in_chg in I'. destruct I' as [(k0 & I0 & _ & ->)|[I' D]]; [discriminate|].
      assert (J : In (Attach m) (notes s)) by (apply (k_made _ K); exists k'; auto). rewrite E in J. destruct J as [J|J]; [|exact J].
      exfalso. apply D. congruence.
  - intros m U. transitivity (In (Detach m) (notes s)).
    + rewrite E. cbn. split; [auto|]. intros [X|X]; [discriminate|exact X].
    + rewrite (k_ended _ K m U). split; intros (k' & I' & A & B).
      * exists k'. split; [|auto]. apply in_chg. right. split; [exact I'|]. intros X. rewrite (Q _ I' X) in B. congruence.
      * apply in_chg in I'. destruct I' as [(k0 & I0 & _ & ->)|[I' D]]; [discriminate|]. exists k'. auto.
  - intros U. destruct (k_stopped _ K U) as [X _]. congruence.
  - congruence.
Qed.
(* with ports asked for, the report of a child that ended removes that child *)
Lemma detach_own : forall s m t, items_ok s -> kids_ok s -> stopped s = false -> notes s = Detach m :: t ->
  exists k, In k (items s) /\ m = to_string (asked k) /\ ph k = Ended /\ first_named m (kids s) = Some (num k).
Proof.
  intros s m t P K U E. assert (J : In (Detach m) (notes s)) by (rewrite E; now left). apply (k_ended _ K m U) in J.
  destruct J as (k & I & A & B). exists k. split; [exact I|]. split; [exact A|]. split; [exact B|].
  destruct (first_named m (kids s)) as [n|] eqn:F.
  - apply first_named_some in F. apply (k_kid _ K) in F. destruct F as (k' & I' & N' & A' & C').
    apply att_not in C'. rewrite (name_eq s k k' P K I I'); [congruence|congruence|tauto|congruence].
  - exfalso. apply (first_named_none _ _ F (num k)). rewrite A. apply K; [exact I|]. unfold attached. auto 8.
Qed.
Lemma ko_detach : forall s m t, items_ok s -> kids_ok s -> stopped s = false -> notes s = Detach m :: t ->
  kids_ok (serve (Detach m) (with_notes t s)).
Proof.
  intros s m t P K U E. destruct (detach_own s m t P K U E) as (k & I & A & B & F).
  pose proof (k_notes _ K) as N. rewrite E in N. apply nodup_cons_out in N. destruct N as [N1 N2].
  assert (Q : forall k', In k' (items s) -> num k' = num k -> k' = k) by (intros k' I' N'; apply (num_eq s); congruence).
  assert (QN : forall k', In k' (items s) -> ph k' <> Leaving -> to_string (asked k') = m -> k' = k) by (intros k' I' L' N'; apply (name_eq s); congruence).
  cbn [serve]. change (kids (with_notes t s)) with (kids s). rewrite F.
  set (s1 := update (num k) Leaving (with_kids (drop_first m (kids s)) (with_notes t s))).
  assert (KK : forall n x, In (n, x) (drop_first m (kids s)) <-> In (n, x) (kids s) /\ n <> num k).
  { intros n x. split.
    - intros J. split; [eapply drop_first_in; eauto|]. intros ->. apply (drop_first_gone m (kids s) (num k) F (k_nodup _ K)).
      apply in_map_iff. now exists (num k, x).
    - intros [J D]. apply drop_first_other; [exact J|]. intros ->. destruct (k_kid _ K _ _ J) as (k' & I' & A' & B' & C').
      apply att_not in C'. apply D. rewrite <- A'. f_equal. apply QN; [exact I'|tauto|congruence]. }
  assert (W : forall a b, (stopped (with_stops a b s1) = true -> a = true /\ kids s1 = []) -> (a = true -> b = false -> kids s1 <> []) -> kids_ok (with_stops a b s1)).
  { intros a b W1 W2. constructor; cbn [kids notes stopping stopped update with_items with_notes with_kids with_stops s1].
    - apply (uniq_chg (with_kids (drop_first m (kids s)) (with_notes t s)) (num k) Leaving); [apply K|auto].
    - intros n x J. apply KK in J. destruct J as [J D]. destruct (k_kid _ K _ _ J) as (k' & I' & A' & B' & C').
      exists k'. split; [|auto]. apply in_chg. right. split; [exact I'|congruence].
    - intros k' I' X. apply in_chg in I'. destruct I' as [(k0 & I0 & A' & ->)|[I' D]]; [unfold attached in X; cbn in X; intuition discriminate|].
      apply KK. split; [now apply K|exact D].
    - apply drop_first_nodup, K.
    - exact N2.
    - intros n. transitivity (In (Attach n) (notes s)).
      + rewrite E. cbn. split; [auto|]. intros [X|X]; [discriminate|exact X].
      + rewrite (k_made _ K). split; intros (k' & I' & A' & B').
        * exists k'. split; [|auto]. apply in_chg. right. split; [exact I'|]. intros X. rewrite (Q _ I' X) in B'. congruence.
        * apply in_chg in I'. destruct I' as [(k0 & I0 & _ & ->)|[I' D]]; [discriminate|]. exists k'. auto.
    - intros x _. split.
      + intros J. assert (J' : In (Detach x) (notes s)) by (rewrite E; now right). apply (k_ended _ K x U) in J'.
        destruct J' as (k' & I' & A' & B'). exists k'. split; [|auto]. apply in_chg. right. split; [exact I'|]. intros X.
        rewrite (Q _ I' X) in A'. congruence.
      + intros (k' & I' & A' & B'). apply in_chg in I'. destruct I' as [(k0 & I0 & _ & ->)|[I' D]]; [discriminate|].
        assert (J : In (Detach x) (notes s)) by (apply (k_ended _ K x U); exists k'; auto). rewrite E in J. destruct J as [J|J]; [|exact J].
        exfalso. apply D. f_equal. apply QN; [exact I'|congruence|congruence].
    - exact W1.
    - exact W2. }
  assert (S1 : s1 = with_stops (stopping s) false s1).
  { transitivity (with_stops (stopping s) (stopped s) s1); [reflexivity|now rewrite U]. }
  unfold maybe_stop. destruct (stopping s1 && none (kids s1)) eqn:M.
  - apply andb_true_iff in M. destruct M as [M1 M2]. apply W; [|discriminate]. intros _. split; [reflexivity|].
    destruct (kids s1); [reflexivity|discriminate].
  - rewrite S1. apply W; [discriminate|]. intros X _ Y. rewrite Y in M. change (stopping s1) with (stopping s) in M. rewrite X in M. discriminate.
Qed.
Lemma ko_phase : forall s n p q, items_ok s -> kids_ok s -> get n s = Some p -> attached (ph p) -> attached q -> q <> Ended -> ph p <> Ended ->
  kids_ok (update n q s).
Proof.
  intros s n k q P K G B C D1 D2. apply get_in in G. destruct G as [I Nk].
  assert (Q : forall k', In k' (items s) -> num k' = n -> k' = k) by (intros k' I' N'; apply (num_eq s); congruence).
  constructor; cbn [kids notes stopping stopped update with_items]; try apply K.
  - apply uniq_chg; [apply K|]. right. intros k' I' N'. rewrite (Q k' I' N'). now apply att_not in B.
  - intros m x J. destruct (k_kid _ K _ _ J) as (k' & I' & A' & B' & C'). destruct (Nat.eq_dec m n) as [->|X].
    + exists (set_ph q k'). split; [apply in_chg; left; exists k'; auto|]. cbn. auto.
    + exists k'. split; [|auto]. apply in_chg. right. split; [exact I'|congruence].
  - intros k' I' X. apply in_chg in I'. destruct I' as [(k0 & I0 & A' & ->)|[I' _]].
    + cbn. apply K; [exact I0|]. now rewrite (Q k0 I0 A').
    + now apply K.
  - intros m. rewrite (k_made _ K). split; intros (k' & I' & A' & B').
    + exists k'. split; [|auto]. apply in_chg. right. split; [exact I'|]. intros X. rewrite (Q _ I' X) in B'. rewrite B' in B. unfold attached in B; cbn in B; intuition discriminate.
    + apply in_chg in I'. destruct I' as [(k0 & I0 & _ & ->)|[I' D]]; [cbn in B'; rewrite B' in C; unfold attached in C; intuition discriminate|]. exists k'. auto.
  - intros m U. rewrite (k_ended _ K m U). split; intros (k' & I' & A' & B').
    + exists k'. split; [|auto]. apply in_chg. right. split; [exact I'|]. intros X. rewrite (Q _ I' X) in B'. congruence.
    + apply in_chg in I'. destruct I' as [(k0 & I0 & _ & ->)|[I' D]]; [cbn in B'; congruence|]. exists k'. auto.
Qed.
Lemma ko_end : forall s n k, items_ok s -> kids_ok s -> get n s = Some k -> ph k = Active ->
  kids_ok (with_notes (notes s ++ [Detach (to_string (asked k))]) (update n Ended s)).
Proof.
  intros s n k P K G B. apply get_in in G. destruct G as [I Nk].
  assert (Q : forall k', In k' (items s) -> num k' = n -> k' = k) by (intros k' I' N'; apply (num_eq s); congruence).
  assert (U : stopped s = false).
  { destruct (stopped s) eqn:U; [|reflexivity]. destruct (k_stopped _ K U) as [_ X].
    assert (J : In (num k, to_string (asked k)) (kids s)) by (apply K; unfold attached; auto 8). rewrite X in J. destruct J. }
  constructor; cbn [kids notes stopping stopped update with_items with_notes]; try apply K.
  - apply (uniq_chg s n Ended); [apply K|]. right. intros k' I' N'. rewrite (Q k' I' N'), B. discriminate.
  - intros m x J. destruct (k_kid _ K _ _ J) as (k' & I' & A' & B' & C'). destruct (Nat.eq_dec m n) as [->|X].
    + exists (set_ph Ended k'). split; [apply in_chg; left; exists k'; auto|]. cbn. unfold attached. auto 8.
    + exists k'. split; [|auto]. apply in_chg. right. split; [exact I'|congruence].
  - intros k' I' X. apply in_chg in I'. destruct I' as [(k0 & I0 & A' & ->)|[I' _]].
    + cbn. apply K; [exact I0|]. rewrite (Q k0 I0 A'). unfold attached. auto 8.
    + now apply K.
  - apply nodup_snoc; [apply K|]. intros J. apply (k_ended _ K _ U) in J. destruct J as (k' & I' & A' & B').
    rewrite (name_eq s k k' P K I I') in B; congruence.
  - intros m. rewrite in_app_iff. cbn. rewrite (k_made _ K). split.
    + intros [(k' & I' & A' & B')|[X|[]]]; [|discriminate].
      exists k'. split; [|auto]. apply in_chg. right. split; [exact I'|]. intros X. rewrite (Q _ I' X) in B'. congruence.
    + intros (k' & I' & A' & B'). apply in_chg in I'. destruct I' as [(k0 & I0 & _ & ->)|[I' D]]; [discriminate|]. left. exists k'. auto.
  - intros m _. rewrite in_app_iff. cbn. rewrite (k_ended _ K m U). split.
    + intros [(k' & I' & A' & B')|[X|[]]].
      * exists k'. split; [|auto]. apply in_chg. right. split; [exact I'|]. intros X. rewrite (Q _ I' X) in B'. congruence.
      * injection X as <-. exists (set_ph Ended k). split; [apply in_chg; left; exists k; auto|]. cbn. auto.
    + intros (k' & I' & A' & B'). apply in_chg in I'. destruct I' as [(k0 & I0 & N0 & ->)|[I' D]].
      * right. left. rewrite A'. cbn. now rewrite (Q k0 I0 N0).
      * left. exists k'. auto.
Qed.
Lemma ko_close : forall s n k, items_ok s -> kids_ok s -> get n s = Some k -> ph k = Leaving ->
  kids_ok (release n (with_items (filter (fun k => negb (num k =? n)) (items s)) s)).
Proof.
  intros s n k P K G B. apply get_in in G. destruct G as [I Nk].
  assert (Q : forall k', In k' (items s) -> num k' = n -> k' = k) by (intros k' I' N'; apply (num_eq s); congruence).
  assert (FI : forall k', In k' (filter (fun k => negb (num k =? n)) (items s)) <-> In k' (items s) /\ num k' <> n).
  { intros k'. rewrite filter_In, negb_true_iff, Nat.eqb_neq. tauto. }
  constructor; cbn [kids notes stopping stopped items with_items release with_open]; try apply K.
  - intros a b Ia Ib. apply FI in Ia, Ib. apply K; tauto.
  - intros m x J. destruct (k_kid _ K _ _ J) as (k' & I' & A' & B' & C'). exists k'. rewrite FI. split; [|auto]. split; [exact I'|].
    intros X. rewrite (Q _ I' X), B in C'. unfold attached in C'; intuition discriminate.
  - intros k' I'. apply FI in I'. now apply K.
  - intros m. rewrite (k_made _ K). split; intros (k' & I' & A' & B').
    + exists k'. rewrite FI. split; [|auto]. split; [exact I'|]. intros X. rewrite (Q _ I' X) in B'. congruence.
    + apply FI in I'. exists k'. tauto.
  - intros m U. rewrite (k_ended _ K m U). split; intros (k' & I' & A' & B').
    + exists k'. rewrite FI. split; [|auto]. split; [exact I'|]. intros X. rewrite (Q _ I' X) in B'. congruence.
    + apply FI in I'. exists k'. tauto.
Qed.
(* an address is used again only when the former child is gone *)
Definition fresh (s : state) (e : event) : Prop :=
  match e with
  | Bind _ a => ~ In a (present s)
  | Connect (Some _) a true => ~ In a (present s)
  | _ => True
  end.
Fixpoint spaced (s : state) (es : list event) : Prop :=
  match es with
  | [] => True
  | e :: t => fresh s e /\ match step s e with Some s' => spaced s' t | None => True end
  end.
Lemma ko_start : forall s n k ok pick, items_ok s -> kids_ok s -> get n s = Some k -> ph k = Idle -> kids_ok (start k ok pick s).
Proof.
  intros s n k ok pick P K G A. assert (N : num k = n) by now apply get_in in G. rewrite <- N in G.
  assert (X : forall q, q = Active \/ q = Failed -> kids_ok (update (num k) q s)).
  { intros q Q. apply (ko_phase s (num k) k); auto; unfold attached; auto; destruct Q as [-> | ->]; auto; try congruence; discriminate. }
  unfold start. destruct (what k).
  - destruct (ok && _ && _); [apply (ko_same (update (num k) Active s)); auto|auto].
  - destruct ok; [apply ko_tell|]; auto.
Qed.
Lemma ko_step : forall s e s', items_ok s -> kids_ok s -> fresh s e -> step s e = Some s' -> kids_ok s'.
Proof.
  intros s e s' P K Z H. unfold DialModel.step in H. destruct (broken s); [discriminate|]. destruct e.
  - destruct (stopped s) eqn:U; [discriminate|]. injection H as <-. unfold bind. destruct (resolve _); [|now apply (ko_same s)].
    destruct (is_valid_actor_name _); [|exact K]. now apply ko_tell, ko_create.
  - destruct (stopped s) eqn:U; [discriminate|]. injection H as <-. unfold connect. destruct h as [h|]; [|exact K].
    destruct (resolve _); [|now apply (ko_same s)]. destruct ok; [|now apply ko_tell]. destruct (is_valid_actor_name _); [|exact K]. now apply ko_create.
  - destruct (notes s) as [|m t] eqn:E; [discriminate|]. destruct (stopped s) eqn:U; [discriminate|]. injection H as <-.
    destruct m as [n|m]; [|now apply ko_detach].
    cbn [serve]. change (stopping (with_notes t s)) with (stopping s). destruct (stopping s) eqn:ST; [now apply ko_leave|].
    change (get n (with_notes t s)) with (get n s). destruct (get n s) as [k|] eqn:G; [exact (ko_attach s n t k P K E ST G)|].
    exfalso. assert (J : In (Attach n) (notes s)) by (rewrite E; now left). apply (k_made _ K) in J. destruct J as (k & I & N & _).
    rewrite <- N, (get_some s k (p_num _ P) I) in G. discriminate.
  - destruct (notes s) as [|m t] eqn:E; [discriminate|]. destruct (stopped s) eqn:U; [|discriminate]. injection H as <-.
    destruct m as [n|m]; [now apply ko_leave|].
    pose proof (k_notes _ K) as N. rewrite E in N. apply nodup_cons_out in N. destruct N as [N1 N2].
    constructor; cbn [kids notes stopping stopped items with_notes]; try apply K; [exact N2| |congruence].
    intros n. rewrite <- (k_made _ K), E. cbn. split; [auto|]. intros [X|X]; [discriminate|exact X].
  - destruct (stopping s) eqn:ST; [discriminate|]. injection H as <-.
    assert (U : stopped s = false) by (destruct (stopped s) eqn:U; [destruct (k_stopped _ K U); congruence|reflexivity]).
    unfold maybe_stop. cbn. destruct (kids s) eqn:E; cbn.
    + constructor; cbn.
      * apply K.
      * rewrite E. intros n m [].
      * intros k I A. now apply (k_all _ K).
      * apply K.
      * apply K.
      * apply K.
      * discriminate.
      * auto.
      * discriminate.
    + constructor; cbn.
      * apply K.
      * apply K.
      * apply K.
      * apply K.
      * apply K.
      * apply K.
      * intros m _. apply (k_ended _ K m U).
      * discriminate.
      * intros _ _ X. congruence.
  - destruct (get n s) as [k|] eqn:G; [|discriminate]. destruct (is_phase (ph k) Idle) eqn:A; [|discriminate]. injection H as <-.
    apply is_phase_eq in A. now apply (ko_start s n).
  - destruct (get n s) as [k|]; [|discriminate]. destruct (is_phase (ph k) Active && is_open n s); [|discriminate]. injection H as <-. now apply ko_tell.
  - destruct (get n s) as [k|] eqn:G; [|discriminate]. destruct (is_phase (ph k) Active) eqn:A; [|discriminate]. injection H as <-.
    apply is_phase_eq in A. now apply ko_end.
  - destruct (get n s) as [k|]; [|discriminate]. destruct ((is_phase (ph k) Ended || is_phase (ph k) Leaving) && is_open n s); [|discriminate]. injection H as <-. now apply (ko_same s).
  - destruct (get n s) as [k|] eqn:G; [|discriminate]. destruct (is_phase (ph k) Leaving) eqn:A; [|discriminate]. injection H as <-.
    apply is_phase_eq in A. eapply ko_close; eauto.
  - injection H as <-. now apply (ko_same s).
  - destruct ((snd e =? 0) || existsb (clash e) (listening s)); [discriminate|]. injection H as <-. now apply (ko_same s).
  - injection H as <-. now apply (ko_same s).
Qed.
Lemma ok_run : forall es s s', items_ok s -> kids_ok s -> spaced s es -> run s es = Some s' -> items_ok s' /\ kids_ok s'.
Proof.
  induction es as [|e es IH]; cbn; intros s s' P K F H; [injection H as <-; auto|]. destruct (step s e) as [s1|] eqn:E; [|discriminate].
  destruct F as [F1 F2]. eapply (IH s1); [eapply io_step|eapply ko_step| |]; eauto.
Qed.


(* ---- what runs, stays, and what has failed, too ---- *)
Definition same_item (k k' : item) : Prop := num k' = num k /\ asked k' = asked k /\ owner k' = owner k /\ what k' = what k /\ point k' = point k.
Lemma same_refl : forall k, same_item k k. Proof. intros k. unfold same_item. auto 6. Qed.
Lemma same_trans : forall a b c, same_item a b -> same_item b c -> same_item a c.
Proof. unfold same_item. intros a b c (A & B & C & D & E) (F & G & H & I & J). repeat split; congruence. Qed.
Definition firm (p : phase) : Prop := p = Active \/ p = Failed.
Lemma stays_step : forall s e s' k, items_ok s -> kids_ok s -> step s e = Some s' -> In k (items s) -> firm (ph k) ->
  exists k', In k' (items s') /\ same_item k k' /\ (ph k' = ph k \/ (ph k = Active /\ e = Stop (num k) /\ ph k' = Ended)).
Proof.
  intros s e s' k P K H I A.
  assert (ID : forall s2, items s2 = items s -> exists k', In k' (items s2) /\ same_item k k' /\ (ph k' = ph k \/ (ph k = Active /\ e = Stop (num k) /\ ph k' = Ended))).
  { intros s2 E. exists k. rewrite E. split; [exact I|]. split; [apply same_refl|auto]. }
  assert (CR : forall s2 x, items s2 = items s ++ [x] -> exists k', In k' (items s2) /\ same_item k k' /\ (ph k' = ph k \/ (ph k = Active /\ e = Stop (num k) /\ ph k' = Ended))).
  { intros s2 x E. exists k. rewrite E, in_app_iff. split; [auto|]. split; [apply same_refl|auto]. }
  assert (CH : forall n p k0, In k0 (items s) -> num k0 = n -> ~ firm (ph k0) -> forall s2, items s2 = items (update n p s) ->
    exists k', In k' (items s2) /\ same_item k k' /\ (ph k' = ph k \/ (ph k = Active /\ e = Stop (num k) /\ ph k' = Ended))).
  { intros n p k0 I0 N0 D s2 E. exists k. rewrite E. split; [|split; [apply same_refl|auto]]. apply in_chg. right. split; [exact I|].
    intros X. apply D. rewrite (num_eq s k0 k P I0 I); [exact A|congruence]. }
  assert (NF : forall p, p = Made \/ p = Idle \/ p = Ended \/ p = Leaving -> ~ firm p).
  { intros p X [Y|Y]; destruct X as [X|[X|[X|X]]]; congruence. }
  unfold DialModel.step in H. destruct (broken s); [discriminate|]. destruct e.
  - destruct (stopped s) eqn:U; [discriminate|]. injection H as <-. unfold bind. destruct (resolve _); [|now apply ID].
    destruct (is_valid_actor_name _); [|now apply ID]. eapply CR. destruct (tell_frame h (Bound a) (create h a Server (i, PortModel.port a) s)) as (X & _). exact X.
  - destruct (stopped s) eqn:U; [discriminate|]. injection H as <-. unfold connect. destruct h as [h|]; [|now apply ID]. destruct (resolve _); [|now apply ID].
    destruct ok; [|apply ID; now destruct (tell_frame h (CommandFail a) s)]. destruct (is_valid_actor_name _); [|now apply ID]. eapply CR. reflexivity.
  - destruct (notes s) as [|m t] eqn:E; [discriminate|]. destruct (stopped s) eqn:U; [discriminate|]. injection H as <-.
    destruct m as [n|m].
    + assert (J : In (Attach n) (notes s)) by (rewrite E; now left). apply (k_made _ K) in J. destruct J as (k0 & I0 & N0 & M0).
      cbn [serve]. change (stopping (with_notes t s)) with (stopping s). destruct (stopping s).
      * apply (CH n Leaving k0); auto.
      * destruct (get n (with_notes t s)) as [k1|]; [|now apply ID]. apply (CH n Idle k0); auto.
    + destruct (detach_own s m t P K U E) as (k0 & I0 & N0 & M0 & F). cbn [serve].
      change (kids (with_notes t s)) with (kids s). rewrite F. apply (CH (num k0) Leaving k0); auto.
      destruct (maybe_frame (update (num k0) Leaving (with_kids (drop_first m (kids s)) (with_notes t s)))) as (X & _). exact X.
  - destruct (notes s) as [|m t] eqn:E; [discriminate|]. destruct (stopped s); [|discriminate]. injection H as <-.
    destruct m as [n|m]; [|now apply ID].
    assert (J : In (Attach n) (notes s)) by (rewrite E; now left). apply (k_made _ K) in J. destruct J as (k0 & I0 & N0 & M0).
    apply (CH n Leaving k0); auto.
  - destruct (stopping s); [discriminate|]. injection H as <-. apply ID. destruct (maybe_frame (with_stops true false s)) as (X & _). exact X.
  - destruct (get n s) as [k0|] eqn:G; [|discriminate]. destruct (is_phase (ph k0) Idle) eqn:B; [|discriminate]. injection H as <-.
    apply is_phase_eq in B. apply get_in in G. destruct G as [I0 N0].
    assert (Y : forall p s2, items s2 = items (update (num k0) p s) -> exists k', In k' (items s2) /\ same_item k k' /\ (ph k' = ph k \/ (ph k = Active /\ Start n ok pick = Stop (num k) /\ ph k' = Ended))).
    { intros p. apply (CH (num k0) p k0); auto. }
    unfold start. destruct (what k0).
    + destruct (ok && _ && _); eapply Y; reflexivity.
    + destruct ok; [|eapply Y; reflexivity]. eapply Y. destruct (tell_frame (owner k0) (Connected (point k0) (num k0)) (update (num k0) Active s)) as (X & _). exact X.
  - destruct (get n s) as [k0|]; [|discriminate]. destruct (is_phase (ph k0) Active && is_open n s); [|discriminate]. injection H as <-. apply ID.
    now destruct (tell_frame (owner k0) (Connected e n) s).
  - destruct (get n s) as [k0|] eqn:G; [|discriminate]. destruct (is_phase (ph k0) Active) eqn:B; [|discriminate]. injection H as <-.
    apply is_phase_eq in B. apply get_in in G. destruct G as [I0 N0]. destruct (Nat.eq_dec (num k) n) as [X|X].
    + assert (k = k0) by (apply (num_eq s); congruence). subst k0.
      exists (set_ph Ended k). split; [|split; [unfold same_item; cbn; auto 6|right; split; [exact B|split; [congruence|reflexivity]]]].
      apply (in_chg n Ended s). left. exists k. auto.
    + exists k. split; [|split; [apply same_refl|auto]]. apply (in_chg n Ended s). right. auto.
  - destruct (get n s) as [k0|]; [|discriminate]. destruct ((is_phase (ph k0) Ended || is_phase (ph k0) Leaving) && is_open n s); [|discriminate]. injection H as <-. now apply ID.
  - destruct (get n s) as [k0|] eqn:G; [|discriminate]. destruct (is_phase (ph k0) Leaving) eqn:B; [|discriminate]. injection H as <-.
    apply is_phase_eq in B. apply get_in in G. destruct G as [I0 N0]. exists k. split; [|split; [apply same_refl|auto]].
    cbn. apply filter_In. split; [exact I|]. apply negb_true_iff, Nat.eqb_neq. intros X.
    assert (k = k0) by (apply (num_eq s); auto; congruence). subst k0. destruct A; congruence.
  - injection H as <-. now apply ID.
  - destruct ((snd e =? 0) || existsb (clash e) (listening s)); [discriminate|]. injection H as <-. now apply ID.
  - injection H as <-. now apply ID.
Qed.
Lemma stays_run : forall es s s' k, items_ok s -> kids_ok s -> spaced s es -> run s es = Some s' -> In k (items s) -> firm (ph k) ->
  (ph k = Active -> ~ In (Stop (num k)) es) -> exists k', In k' (items s') /\ same_item k k' /\ ph k' = ph k.
Proof.
  induction es as [|e es IH]; cbn; intros s s' k P K F H I A N.
  - injection H as <-. exists k. split; [exact I|]. split; [apply same_refl|reflexivity].
  - destruct (step s e) as [s1|] eqn:E; [|discriminate]. destruct F as [F1 F2].
    destruct (stays_step s e s1 k P K E I A) as (k1 & I1 & S1 & B). destruct B as [B|[B1 [B _]]]; [|exfalso; apply (N B1); auto].
    destruct (IH s1 s' k1) as (k' & I' & S' & A'); auto; [eapply io_step; eauto|eapply ko_step; eauto|now rewrite B| |].
    + intros Q. rewrite B in Q. destruct S1 as [X _]. rewrite X. specialize (N Q). tauto.
    + exists k'. split; [exact I'|]. split; [eapply same_trans; eauto|congruence].
Qed.

(* ---- the end ---- *)
Definition own (e : event) : Prop :=
  match e with Serve | Discard | Start _ _ _ | Stop _ | Free _ | Close _ => True | _ => False end.
Definition weight (p : phase) : nat := match p with Made => 7 | Idle => 6 | Active => 4 | Ended => 2 | Failed => 1 | Leaving => 1 end.
Fixpoint total (l : list item) : nat := match l with [] => 0 | k :: t => weight (ph k) + total t end.
Definition measure (s : state) : nat := List.length (notes s) + total (items s) + List.length (open s).
Lemma total_chg : forall l n p k, NoDup (map num l) -> In k l -> num k = n ->
  total (map (fun k => if num k =? n then set_ph p k else k) l) + weight (ph k) = total l + weight p.
Proof.
  induction l as [|x l IH]; cbn; intros n p k N I E; [easy|]. apply NoDup_cons_iff in N. destruct N as [N1 N2]. destruct I as [->|I].
  - rewrite E, Nat.eqb_refl. cbn.
    assert (X : map (fun k => if num k =? n then set_ph p k else k) l = l).
    { transitivity (map (fun k : item => k) l); [|apply map_id]. apply map_ext_in. intros y J. destruct (Nat.eqb_spec (num y) n); [|reflexivity].
      exfalso. apply N1. rewrite E, <- e. now apply in_map. }
    rewrite X. lia.
  - assert (num x <> n) by (intros X; apply N1; rewrite X, <- E; now apply in_map).
    apply Nat.eqb_neq in H. rewrite H. specialize (IH n p k N2 I E). lia.
Qed.
Lemma total_filter : forall l n k, In k l -> num k = n -> total (filter (fun k => negb (num k =? n)) l) < total l.
Proof.
  induction l as [|x l IH]; cbn; intros n k I E; [easy|].
  assert (LE : total (filter (fun k => negb (num k =? n)) l) <= total l).
  { clear. induction l as [|x l IH]; cbn; [lia|]. destruct (num x =? n); cbn; lia. }
  assert (W : 0 < weight (ph x)) by (destruct (ph x); cbn; lia).
  destruct I as [->|I]; [rewrite E, Nat.eqb_refl; cbn; lia|]. specialize (IH n k I E). destruct (num x =? n); cbn; lia.
Qed.
Lemma filter_len : forall A (f : A -> bool) l, List.length (filter f l) <= List.length l.
Proof. induction l as [|x l IH]; cbn; [lia|]. destruct (f x); cbn; lia. Qed.
Lemma filter_lt : forall A (f : A -> bool) l, existsb (fun x => negb (f x)) l = true -> List.length (filter f l) < List.length l.
Proof.
  induction l as [|x l IH]; cbn; intros H; [discriminate|]. pose proof (filter_len A f l). destruct (f x); cbn in *; [apply IH in H|]; lia.
Qed.
Lemma measure_step : forall s e s', items_ok s -> kids_ok s -> own e -> step s e = Some s' -> measure s' < measure s.
Proof.
  intros s e s' P K O H. unfold measure. unfold DialModel.step in H. destruct (broken s); [discriminate|]. destruct e; cbn in O; try easy.
  - destruct (notes s) as [|m t] eqn:E; [discriminate|]. destruct (stopped s) eqn:U; [discriminate|]. injection H as <-.
    destruct m as [n|m].
    + assert (J : In (Attach n) (notes s)) by (rewrite E; now left). apply (k_made _ K) in J. destruct J as (k0 & I0 & N0 & M0).
      cbn [serve]. change (stopping (with_notes t s)) with (stopping s). destruct (stopping s).
      * cbn. pose proof (total_chg _ n Leaving k0 (p_num _ P) I0 N0) as T. rewrite M0 in T. cbn in T. lia.
      * destruct (get n (with_notes t s)) as [k1|]; [|cbn; lia].
        cbn. pose proof (total_chg _ n Idle k0 (p_num _ P) I0 N0) as T. rewrite M0 in T. cbn in T. lia.
    + destruct (detach_own s m t P K U E) as (k0 & I0 & N0 & M0 & F). cbn [serve].
      change (kids (with_notes t s)) with (kids s). rewrite F.
      destruct (maybe_frame (update (num k0) Leaving (with_kids (drop_first m (kids s)) (with_notes t s)))) as (X1 & X2 & _ & _ & _ & _ & X3 & _).
      rewrite X1, X2, X3. cbn. pose proof (total_chg _ (num k0) Leaving k0 (p_num _ P) I0 eq_refl) as T. rewrite M0 in T. cbn in T. lia.
  - destruct (notes s) as [|m t] eqn:E; [discriminate|]. destruct (stopped s); [|discriminate]. injection H as <-.
    destruct m as [n|m]; [|cbn; lia].
    assert (J : In (Attach n) (notes s)) by (rewrite E; now left). apply (k_made _ K) in J. destruct J as (k0 & I0 & N0 & M0).
    cbn. pose proof (total_chg _ n Leaving k0 (p_num _ P) I0 N0) as T. rewrite M0 in T. cbn in T. lia.
  - destruct (get n s) as [k0|] eqn:G; [|discriminate]. destruct (is_phase (ph k0) Idle) eqn:B; [|discriminate]. injection H as <-.
    apply is_phase_eq in B. apply get_in in G. destruct G as [I0 N0].
    pose proof (total_chg _ (num k0) Active k0 (p_num _ P) I0 eq_refl) as T1. pose proof (total_chg _ (num k0) Failed k0 (p_num _ P) I0 eq_refl) as T2. rewrite B in T1, T2. cbn in T1, T2.
    unfold start. destruct (what k0).
    + destruct (ok && _ && _); cbn; [rewrite app_length; cbn|]; lia.
    + destruct ok; [|cbn; lia]. destruct (tell_frame (owner k0) (Connected (point k0) (num k0)) (update (num k0) Active s)) as (X1 & X2 & _ & _ & _ & _ & X3 & _).
      rewrite X1, X2, X3. cbn. lia.
  - destruct (get n s) as [k0|] eqn:G; [|discriminate]. destruct (is_phase (ph k0) Active) eqn:B; [|discriminate]. injection H as <-.
    apply is_phase_eq in B. apply get_in in G. destruct G as [I0 N0].
    cbn. rewrite app_length. cbn. pose proof (total_chg _ n Ended k0 (p_num _ P) I0 N0) as T. rewrite B in T. cbn in T. lia.
  - destruct (get n s) as [k0|]; [|discriminate]. destruct ((is_phase (ph k0) Ended || is_phase (ph k0) Leaving) && is_open n s) eqn:B; [|discriminate]. injection H as <-.
    apply andb_true_iff in B. destruct B as [_ B]. unfold is_open in B. cbn.
    assert (X : List.length (filter (fun x : nat * endpoint => negb (fst x =? n)) (open s)) < List.length (open s)).
    { apply filter_lt. rewrite <- B. clear. induction (open s) as [|x l IH]; [reflexivity|]. cbn. now rewrite negb_involutive, IH. }
    lia.
  - destruct (get n s) as [k0|] eqn:G; [|discriminate]. destruct (is_phase (ph k0) Leaving) eqn:B; [|discriminate]. injection H as <-.
    apply get_in in G. destruct G as [I0 N0]. cbn. pose proof (total_filter _ n k0 I0 N0). pose proof (filter_len _ (fun x : nat * endpoint => negb (fst x =? n)) (open s)). lia.
Qed.
Lemma own_fresh : forall s e, own e -> fresh s e. Proof. destruct e; cbn; tauto. Qed.
Lemma measure_run : forall es s s', items_ok s -> kids_ok s -> Forall own es -> run s es = Some s' -> List.length es + measure s' <= measure s.
Proof.
  induction es as [|e es IH]; cbn; intros s s' P K F H; [injection H as <-; lia|]. destruct (step s e) as [s1|] eqn:E; [|discriminate].
  inversion F as [|? ? F1 F2]; subst. pose proof (measure_step s e s1 P K F1 E).
  assert (P1 : items_ok s1) by (eapply io_step; eauto). assert (K1 : kids_ok s1) by (exact (ko_step s e s1 P K (own_fresh s e F1) E)).
  specialize (IH s1 s' P1 K1 F2 H). lia.
Qed.
Lemma rest : forall s, items_ok s -> kids_ok s -> open_ok s -> broken s = false -> stopping s = true -> (forall e, own e -> step s e = None) ->
  (forall k, In k (items s) -> ph k = Failed) /\ open s = [] /\ (stopped s = true <-> items s = []).
Proof.
  intros s P K O BR ST R.
  assert (R' : forall e, own e -> step s e <> None -> False) by (intros e X Y; now apply Y, R).
  assert (N : notes s = []).
  { destruct (notes s) as [|m t] eqn:E; [reflexivity|]. exfalso. destruct (stopped s) eqn:U.
    - apply (R' Discard I). unfold DialModel.step. now rewrite BR, E, U.
    - apply (R' Serve I). unfold DialModel.step. now rewrite BR, E, U. }
  assert (X : forall k, In k (items s) -> ph k = Failed).
  { intros k J. pose proof (get_some s k (p_num _ P) J) as G. destruct (ph k) eqn:Q; [| | |reflexivity| |]; exfalso.
    - assert (Y : In (Attach (num k)) (notes s)) by (apply (k_made _ K); exists k; auto). rewrite N in Y. destruct Y.
    - apply (R' (Start (num k) true 0) I). unfold DialModel.step. now rewrite BR, G, Q.
    - apply (R' (Stop (num k)) I). unfold DialModel.step. now rewrite BR, G, Q.
    - destruct (stopped s) eqn:U.
      + destruct (k_stopped _ K U) as [_ Y]. assert (Z : In (num k, to_string (asked k)) (kids s)) by (apply K; unfold attached; auto 8). rewrite Y in Z. destruct Z.
      + assert (Y : In (Detach (to_string (asked k))) (notes s)) by (apply (k_ended _ K _ U); exists k; auto). rewrite N in Y. destruct Y.
    - apply (R' (Close (num k)) I). unfold DialModel.step. now rewrite BR, G, Q. }
  split; [exact X|]. split.
  - destruct (open s) as [|[n e] l] eqn:E; [reflexivity|]. exfalso. destruct (o_item _ O n e) as (_ & k & J & _ & _ & [H|[H|H]] & _); [rewrite E; now left|..];
      rewrite (X k J) in H; discriminate.
  - split.
    + intros U. destruct (items s) as [|k l] eqn:E; [reflexivity|]. exfalso. destruct (k_stopped _ K U) as [_ Y].
      assert (J : In k (items s)) by (rewrite E; now left).
      assert (Z : In (num k, to_string (asked k)) (kids s)) by (apply K; [exact J|]; unfold attached; rewrite (X k) by (rewrite <- E; exact J); auto).
      rewrite Y in Z. destruct Z.
    + intros E. destruct (stopped s) eqn:U; [reflexivity|]. exfalso. pose proof (k_waits _ K ST U) as W. destruct (kids s) as [|[n m] l] eqn:F; [easy|].
      destruct (k_kid _ K n m) as (k & J & _); [rewrite F; now left|]. rewrite E in J. destruct J.
Qed.

(* ---- who is told of connections ---- *)
Definition by_ (n : nat) (l : list (nat * answer)) : list (nat * endpoint) :=
  flat_map (fun x => match snd x with Connected e m => if m =? n then [(fst x, e)] else [] | _ => [] end) l.
Lemma by_app : forall n a b, by_ n (a ++ b) = by_ n a ++ by_ n b.
Proof. intros n a b. unfold by_. apply flat_map_app. Qed.
Lemma by_one : forall n h e m, by_ n [(h, Connected e m)] = if m =? n then [(h, e)] else [].
Proof. intros n h e m. unfold by_. cbn. destruct (m =? n); reflexivity. Qed.
Arguments by_ : simpl never.
Definition before (p : phase) : Prop := p = Made \/ p = Idle \/ p = Failed.
Definition heard_ok (s : state) (k : item) : Prop :=
  Forall (fun x => fst x = owner k) (by_ (num k) (told s)) /\
  (before (ph k) -> by_ (num k) (told s) = []) /\
  (what k = Client -> (by_ (num k) (told s) = [] \/ by_ (num k) (told s) = [(owner k, point k)]) /\
    (ph k = Active \/ ph k = Ended -> ~ In (owner k) (gone s) -> by_ (num k) (told s) = [(owner k, point k)])).
Record D (s : state) : Prop := {
  d_next : forall n, next s <= n -> by_ n (told s) = [];
  d_item : forall k, In k (items s) -> heard_ok s k
}.
Lemma D_frame : forall s s', D s -> next s' = next s -> (forall n, by_ n (told s') = by_ n (told s)) -> (forall h, In h (gone s) -> In h (gone s')) ->
  (forall k', In k' (items s') -> exists k, In k (items s) /\ same_item k k' /\ (before (ph k') -> before (ph k)) /\
     (ph k' = Active \/ ph k' = Ended -> ph k = Active \/ ph k = Ended)) -> D s'.
Proof.
  intros s s' [A B] N T G F. constructor.
  - intros n L. rewrite T. apply A. lia.
  - intros k' I'. destruct (F k' I') as (k & I & (S1 & _ & S2 & S3 & S4) & F1 & F2). destruct (B k I) as (B1 & B2 & B3).
    unfold heard_ok. rewrite S1, S2, S3, S4, !T. split; [exact B1|]. split; [auto|]. intros W. destruct (B3 W) as [C1 C2]. split; [exact C1|].
    intros X Y. apply C2; auto.
Qed.
Lemma self_frame : forall s k', In k' (items s) -> exists k, In k (items s) /\ same_item k k' /\ (before (ph k') -> before (ph k)) /\
     (ph k' = Active \/ ph k' = Ended -> ph k = Active \/ ph k = Ended).
Proof. intros s k' I. exists k'. split; [exact I|]. split; [apply same_refl|]. auto. Qed.
Lemma D_same : forall s s', D s -> next s' = next s -> told s' = told s -> (forall h, In h (gone s) -> In h (gone s')) -> items s' = items s -> D s'.
Proof. intros s s' X N T G E. apply (D_frame s); auto; [intros n; now rewrite T|]. rewrite E. apply self_frame. Qed.
Lemma D_tell : forall s h m, D s -> (forall e n, m <> Connected e n) -> D (tell h m s).
Proof.
  intros s h m X C. destruct (tell_frame h m s) as (A & _ & _ & _ & B & E & _). apply (D_frame s); auto.
  - intros n. unfold tell. destruct (PortModel.mem h (gone s)); [reflexivity|]. cbn. rewrite by_app. unfold by_ at 2. cbn.
    destruct m; [now rewrite app_nil_r|now destruct (C remote through)|now rewrite app_nil_r].
  - rewrite B. auto.
  - rewrite A. apply self_frame.
Qed.
Lemma D_create : forall s h a w e, items_ok s -> D s -> D (create h a w e s).
Proof.
  intros s h a w e P [A B]. constructor; cbn.
  - intros n L. apply A. lia.
  - intros k I. apply in_app_iff in I. destruct I as [I|[<-|[]]]; [exact (B k I)|].
    unfold heard_ok. cbn. rewrite (A (next s)) by lia. split; [constructor|]. split; [reflexivity|]. intros _. split; [auto|]. intros [X|X]; discriminate.
Qed.
Lemma D_update : forall s n p, D s -> (forall k, In k (items s) -> num k = n -> before p -> before (ph k)) ->
  (forall k, In k (items s) -> num k = n -> p = Active \/ p = Ended -> ph k = Active \/ ph k = Ended) -> D (update n p s).
Proof.
  intros s n p X F1 F2. apply (D_frame s); auto. intros k' I. apply in_chg in I. destruct I as [(k & I & N & ->)|[I _]]; [|now apply self_frame].
  exists k. split; [exact I|]. split; [unfold same_item; cbn; auto 6|]. cbn. split; [now apply F1|now apply F2].
Qed.
Lemma D_leave : forall s n, D s -> D (update n Leaving s).
Proof. intros s n X. apply D_update; [exact X| |]; intros k I N Y; unfold before in Y; intuition discriminate. Qed.
Lemma D_step : forall s e s', items_ok s -> made_ok s -> open_ok s -> D s -> step s e = Some s' -> D s'.
Proof.
  intros s e s' P M O X H. unfold DialModel.step in H. destruct (broken s); [discriminate|]. destruct e.
  - destruct (stopped s); [discriminate|]. injection H as <-. unfold bind. destruct (resolve _); [|now apply (D_same s)].
    destruct (is_valid_actor_name _); [|exact X]. apply D_tell; [now apply D_create|discriminate].
  - destruct (stopped s); [discriminate|]. injection H as <-. unfold connect. destruct h as [h|]; [|exact X].
    destruct (resolve _); [|now apply (D_same s)]. destruct ok; [|apply D_tell; [exact X|discriminate]]. destruct (is_valid_actor_name _); [|exact X]. now apply D_create.
  - destruct (notes s) as [|m t] eqn:E; [discriminate|]. destruct (stopped s); [discriminate|]. injection H as <-.
    assert (X' : D (with_notes t s)) by now apply (D_same s). destruct m as [n|m]; cbn [serve].
    + destruct (stopping _); [now apply D_leave|]. destruct (get n _) as [k|]; [|exact X'].
      apply D_update; [now apply (D_same s)| |intros k0 _ _ [Y|Y]; discriminate]. intros k0 I N _.
      left. apply (m_made _ M n); auto. apply in_pending. rewrite E. now left.
    + destruct (maybe_frame (match first_named m (kids (with_notes t s)) with
        | Some n => update n Leaving (with_kids (drop_first m (kids (with_notes t s))) (with_notes t s)) | None => with_notes t s end)) as (F1 & _ & _ & F2 & F3 & F4 & _).
      eapply D_same; [|exact F4|exact F2|intros h; rewrite F3; auto|exact F1].
      destruct (first_named m _) as [n|]; [apply D_leave; now apply (D_same s)|exact X'].
  - destruct (notes s) as [|m t] eqn:E; [discriminate|]. destruct (stopped s); [|discriminate]. injection H as <-.
    destruct m; [apply D_leave|]; now apply (D_same s).
  - destruct (stopping s); [discriminate|]. injection H as <-. destruct (maybe_frame (with_stops true false s)) as (F1 & _ & _ & F2 & F3 & F4 & _).
    apply (D_same s); auto. rewrite F3. auto.
  - destruct (get n s) as [k|] eqn:G; [|discriminate]. destruct (is_phase (ph k) Idle) eqn:J; [|discriminate]. injection H as <-.
    apply get_in in G. destruct G as [G N]. apply is_phase_eq in J.
    assert (Q : forall k', In k' (items s) -> num k' = num k -> k' = k) by (intros k' I' N'; now apply (num_eq s)).
    destruct (d_item _ X k G) as (B1 & B2 & B3). assert (Z : by_ (num k) (told s) = []) by (apply B2; rewrite J; unfold before; auto).
    assert (FL : D (update (num k) Failed s)).
    { apply D_update; [exact X| |intros k0 _ _ [Y|Y]; discriminate]. intros k0 I0 N0 _. rewrite (Q k0 I0 N0), J. unfold before. auto. }
    assert (OTH : forall k', In k' (items (update (num k) Active s)) -> (k' = set_ph Active k) \/ (In k' (items s) /\ num k' <> num k)).
    { intros k' I'. apply in_chg in I'. destruct I' as [(k0 & I0 & N0 & ->)|I']; [left; now rewrite (Q k0 I0 N0)|auto]. }
    unfold start. destruct (what k) eqn:W.
    + destruct (ok && _ && _); [|exact FL]. constructor; cbn [told next with_open update with_items]; [apply X|]. intros k' I'.
      destruct (OTH k' I') as [->|[I2 N2]]; [|exact (d_item _ X k' I2)].
      unfold heard_ok. cbn. rewrite Z, W. split; [constructor|]. split; [reflexivity|discriminate].
    + destruct ok; [|exact FL]. destruct (tell_frame (owner k) (Connected (point k) (num k)) (update (num k) Active s)) as (F1 & _ & _ & _ & F2 & F3 & _).
      assert (TL : forall m, by_ m (told (tell (owner k) (Connected (point k) (num k)) (update (num k) Active s))) =
        by_ m (told s) ++ (if PortModel.mem (owner k) (gone s) then [] else if num k =? m then [(owner k, point k)] else [])).
      { intros m. unfold tell. change (gone (update (num k) Active s)) with (gone s). destruct (PortModel.mem (owner k) (gone s)); [cbn; now rewrite app_nil_r|].
        cbn. now rewrite by_app, by_one. }
      constructor.
      * intros m L. rewrite F3 in L. cbn in L. rewrite TL, (d_next _ X m L). destruct (PortModel.mem _ _); [reflexivity|].
        destruct (Nat.eqb_spec (num k) m) as [Y|Y]; [|reflexivity]. apply (p_next _ P) in G. lia.
      * rewrite F1. intros k' I'. destruct (OTH k' I') as [->|[I2 N2]].
        -- unfold heard_ok. rewrite F2, TL. cbn [num owner ph what point set_ph gone update with_items]. rewrite Z, Nat.eqb_refl. cbn [app]. unfold before.
           destruct (PortModel.mem (owner k) (gone s)) eqn:ME.
           ++ split; [constructor|]. split; [reflexivity|]. intros _. split; [auto|]. intros _ Y. apply mem_in in ME. now destruct Y.
           ++ split; [repeat constructor|]. split; [intuition discriminate|]. auto.
        -- destruct (d_item _ X k' I2) as (C1 & C2 & C3). unfold heard_ok. rewrite F2, TL. apply Nat.eqb_neq in N2. rewrite Nat.eqb_sym in N2. rewrite N2.
           replace (if PortModel.mem (owner k) (gone s) then [] else []) with (@nil (nat * endpoint)) by (destruct (PortModel.mem _ _); reflexivity).
           rewrite app_nil_r. auto.
  - destruct (get n s) as [k|] eqn:G; [|discriminate]. destruct (is_phase (ph k) Active && is_open n s) eqn:J; [|discriminate]. injection H as <-.
    apply get_in in G. destruct G as [G N]. apply andb_true_iff in J. destruct J as [J1 J2]. apply is_phase_eq in J1.
    assert (W : what k = Server).
    { unfold is_open in J2. apply existsb_exists in J2. destruct J2 as ([m f] & I & Y). apply Nat.eqb_eq in Y. cbn in Y. subst m.
      destruct (o_item _ O n f I) as (_ & k' & I' & N' & W' & _). rewrite <- (num_eq s k' k P I' G); congruence. }
    destruct (tell_frame (owner k) (Connected e n) s) as (F1 & _ & _ & _ & F2 & F3 & _).
    assert (TL : forall m, by_ m (told (tell (owner k) (Connected e n) s)) = by_ m (told s) ++ (if PortModel.mem (owner k) (gone s) then [] else if n =? m then [(owner k, e)] else [])).
    { intros m. unfold tell. destruct (PortModel.mem (owner k) (gone s)); [now rewrite app_nil_r|]. cbn. now rewrite by_app, by_one. }
    constructor.
    + intros m L. rewrite F3 in L. rewrite TL, (d_next _ X m L). destruct (PortModel.mem _ _); [reflexivity|].
      destruct (Nat.eqb_spec n m) as [Y|Y]; [|reflexivity]. apply (p_next _ P) in G. lia.
    + rewrite F1. intros k' I'. destruct (d_item _ X k' I') as (C1 & C2 & C3). unfold heard_ok. rewrite F2, TL.
      destruct (Nat.eqb_spec n (num k')) as [Y|Y].
      * assert (k' = k) by (apply (num_eq s); congruence). subst k'. rewrite W, J1. split; [|split; [|discriminate]].
        -- apply Forall_app. split; [exact C1|]. destruct (PortModel.mem _ _); repeat constructor.
        -- intros [Z|[Z|Z]]; discriminate.
      * replace (if PortModel.mem (owner k) (gone s) then [] else []) with (@nil (nat * endpoint)) by (destruct (PortModel.mem _ _); reflexivity).
        rewrite app_nil_r. auto.
  - destruct (get n s) as [k|] eqn:G; [|discriminate]. destruct (is_phase (ph k) Active) eqn:J; [|discriminate]. injection H as <-.
    apply get_in in G. destruct G as [G N]. apply is_phase_eq in J. apply (D_same (update n Ended s)); auto. apply D_update; [exact X| |].
    + intros k0 _ _ [Y|[Y|Y]]; discriminate.
    + intros k0 I0 N0 _. rewrite (num_eq s k0 k P I0 G) by congruence. auto.
  - destruct (get n s) as [k|]; [|discriminate]. destruct ((is_phase (ph k) Ended || is_phase (ph k) Leaving) && is_open n s); [|discriminate]. injection H as <-. now apply (D_same s).
  - destruct (get n s) as [k|]; [|discriminate]. destruct (is_phase (ph k) Leaving); [|discriminate]. injection H as <-.
    apply (D_frame s); auto. cbn. intros k' I. apply filter_In in I. now apply self_frame.
  - injection H as <-. apply (D_same s); auto. intros h' I. now right.
  - destruct ((snd e =? 0) || existsb (clash e) (listening s)); [discriminate|]. injection H as <-. now apply (D_same s).
  - injection H as <-. now apply (D_same s).
Qed.
Lemma D_init : D init. Proof. constructor; cbn; [reflexivity|easy]. Qed.
Lemma D_run : forall es s s', items_ok s -> made_ok s -> open_ok s -> D s -> run s es = Some s' -> D s'.
Proof.
  induction es as [|e es IH]; cbn; intros s s' P M O X H; [injection H as <-; exact X|]. destruct (step s e) as [s1|] eqn:E; [|discriminate].
  eapply (IH s1); [eapply io_step|eapply mo_step|eapply oo_step|eapply D_step|]; eauto. intros n I k J N. apply in_pending in I. now apply (m_made _ M n).
Qed.

End S.
