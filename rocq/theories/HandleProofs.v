From Coq Require Import List Bool Arith Permutation Lia.
From Verif Require Import HandleModel.
Import ListNotations.

Definition own (r : result) : list (nat * nat) :=
  match value r, parent r with Some h, Some b => [(b, h)] | _, _ => [] end.
Definition owned (l : list (nat * result)) : list (nat * nat) := flat_map (fun p => own (snd p)) l.
Record inv (s : state) : Prop := {
  h_keys : NoDup (map fst (vars s));
  h_own  : Permutation (owned (vars s)) (out s);
  h_par  : forall v r, In (v, r) (vars s) -> value r <> None -> parent r <> None;
  h_hist : Permutation (handed s) (released s ++ out s);
  h_uniq : NoDup (map snd (handed s));
  h_next : forall b h, In (b, h) (handed s) -> h < next s }.
Lemma inv0 : forall bs, inv (state0 bs).
Proof. intros bs. constructor; cbn; try constructor; intros; contradiction. Qed.

Lemma get_in : forall v l r, get v l = Some r -> In (v, r) l.
Proof.
  intros v l r H. unfold get in H. destruct (find (fun p => fst p =? v) l) as [[v' r']|] eqn:F; [|discriminate].
  apply find_some in F as [I E]. apply Nat.eqb_eq in E. cbn in *. injection H as ->. subst. exact I.
Qed.
Lemma get_none : forall v l, get v l = None -> ~ In v (map fst l).
Proof.
  intros v l H I. apply in_map_iff in I as [p [E I]]. unfold get in H. destruct (find (fun p => fst p =? v) l) eqn:F; [discriminate|].
  pose proof (find_none _ _ F _ I) as X. cbn in X. rewrite E, Nat.eqb_refl in X. discriminate.
Qed.
Lemma in_get : forall v r l, NoDup (map fst l) -> In (v, r) l -> get v l = Some r.
Proof.
  intros v r l. induction l as [|[w q] l IH]; intros N I; [contradiction|]. unfold get in *. cbn [find fst]. inversion N as [|? ? A B]; subst.
  destruct (Nat.eqb_spec w v) as [->|E].
  - destruct I as [[= <-]|I]; [reflexivity|]. destruct A. apply in_map_iff. exists (v, r). auto.
  - destruct I as [[= <- <-]|I]; [contradiction|]. apply IH; assumption.
Qed.
Lemma get_cons : forall v w r l, get v ((w, r) :: l) = if w =? v then Some r else get v l.
Proof. intros. unfold get. cbn. destruct (w =? v); reflexivity. Qed.
Lemma set_keys : forall v r l, map fst (set v r l) = map fst l.
Proof. intros v r l. induction l as [|p l IH]; cbn; [reflexivity|]. destruct (Nat.eqb_spec (fst p) v); cbn; congruence. Qed.
Lemma get_set : forall v r l w, get w (set v r l) = if (w =? v) then option_map (fun _ => r) (get v l) else get w l.
Proof.
  intros v r l w. induction l as [|[u q] l IH]; cbn [set fst]; [destruct (w =? v); reflexivity|].
  destruct (Nat.eqb_spec u v) as [->|N].
  - rewrite !get_cons, Nat.eqb_refl. rewrite (Nat.eqb_sym v w). destruct (w =? v); reflexivity.
  - rewrite !get_cons, IH. destruct (Nat.eqb_spec w v) as [E|M].
    + subst w. destruct (Nat.eqb_spec u v); [contradiction|]. reflexivity.
    + reflexivity.
Qed.
Lemma owned_set : forall v r old l, get v l = Some old -> Permutation (own old ++ owned (set v r l)) (own r ++ owned l).
Proof.
  intros v r old l. induction l as [|[u q] l IH]; intros H; [discriminate|]. rewrite get_cons in H. cbn [set fst].
  destruct (Nat.eqb_spec u v) as [->|N]; cbn [owned flat_map snd].
  - injection H as ->. fold (owned l). apply Permutation_app_swap_app.
  - fold (owned l) (owned (set v r l)). rewrite Permutation_app_swap_app, (IH H). apply Permutation_app_swap_app.
Qed.
Lemma owned_del : forall v old l, get v l = Some old -> Permutation (own old ++ owned (del v l)) (owned l).
Proof.
  intros v old l. induction l as [|[u q] l IH]; intros H; [discriminate|]. rewrite get_cons in H. cbn [del fst].
  destruct (Nat.eqb_spec u v) as [->|N]; cbn [owned flat_map snd].
  - injection H as ->. reflexivity.
  - fold (owned l) (owned (del v l)). rewrite Permutation_app_swap_app, (IH H). reflexivity.
Qed.
Lemma del_in : forall v l p, In p (del v l) -> In p l.
Proof. intros v l p. induction l as [|q l IH]; cbn; [auto|]. destruct (fst q =? v); cbn; intuition. Qed.
Lemma del_keys : forall v l, NoDup (map fst l) -> NoDup (map fst (del v l)) /\ ~ In v (map fst (del v l)).
Proof.
  intros v l. induction l as [|[u q] l IH]; intros N; cbn [del map fst]; [split; [constructor|auto]|]. inversion N as [|? ? A B]; subst.
  destruct (Nat.eqb_spec u v) as [->|E]; [auto|]. destruct (IH B) as [C D]. cbn [map fst]. split.
  - constructor; [|exact C]. intros I. apply A. apply in_map_iff in I as [p [<- I]]. apply in_map, (del_in v). exact I.
  - intros [F|F]; auto.
Qed.
Lemma set_in : forall v r l w q, In (w, q) (set v r l) -> (w = v /\ q = r) \/ In (w, q) l.
Proof.
  intros v r l w q. induction l as [|[u x] l IH]; cbn [set fst]; [contradiction|]. destruct (Nat.eqb_spec u v) as [->|N].
  - intros [[= -> ->]|I]; [left; auto|right; right; exact I].
  - intros [[= -> ->]|I]; [right; left; reflexivity|]. destruct (IH I) as [?|?]; [left; auto|right; right; auto].
Qed.
Lemma eqp_ok : forall p q, eqp p q = true <-> p = q.
Proof.
  intros [a b] [c d]. unfold eqp. cbn. rewrite andb_true_iff, !Nat.eqb_eq. split; [intros [-> ->]; reflexivity|intros [= -> ->]; auto].
Qed.
Lemma drop_perm : forall p l, In p l -> Permutation (p :: drop_one p l) l.
Proof.
  intros p l. induction l as [|q l IH]; intros I; [contradiction|]. cbn [drop_one]. destruct (eqp p q) eqn:E; [apply eqp_ok in E; subst; reflexivity|].
  destruct I as [->|I]; [rewrite (proj2 (eqp_ok p p) eq_refl) in E; discriminate|]. rewrite perm_swap, (IH I). reflexivity.
Qed.
Lemma alive_parent : forall s v r b, In (v, r) (vars s) -> parent r = Some b -> alive b s = true.
Proof.
  intros s v r b I P. unfold alive. apply orb_true_iff. right. apply existsb_exists. exists (v, r). split; [exact I|]. cbn. rewrite P. apply Nat.eqb_refl.
Qed.
Lemma owned_in : forall v r l b h, In (v, r) l -> value r = Some h -> parent r = Some b -> In (b, h) (owned l).
Proof.
  intros v r l b h I V P. unfold owned. apply in_flat_map. exists (v, r). split; [exact I|]. cbn. unfold own. rewrite V, P. left. reflexivity.
Qed.
(* a release by a live result *)
Lemma release_ok : forall s v r, inv s -> get v (vars s) = Some r ->
  exists s', release r s = HOk s' /\ vars s' = vars s /\ held s' = held s /\ next s' = next s /\ handed s' = handed s /\
    Permutation (own r ++ out s') (out s) /\ released s' = own r ++ released s.
Proof.
  intros s v r I G. apply get_in in G as IN. unfold release, own. destruct (value r) as [h|] eqn:V; [|exists s; repeat split; reflexivity].
  pose proof (h_par _ I _ _ IN) as HP. rewrite V in HP. destruct (parent r) as [b|] eqn:P; [|destruct HP; [discriminate|reflexivity]].
  rewrite (alive_parent _ _ _ _ IN P). pose proof (owned_in _ _ _ _ _ IN V P) as O.
  apply (Permutation_in _ (h_own _ I)) in O.
  assert (E : existsb (eqp (b, h)) (out s) = true) by (apply existsb_exists; exists (b, h); split; [exact O|apply eqp_ok; reflexivity]).
  rewrite E. cbn [andb]. eexists. split; [reflexivity|]. cbn. repeat split. apply drop_perm. exact O.
Qed.
Lemma step_inv : forall o s, inv s -> step o s <> HUB /\ forall s', step o s = HOk s' -> inv s'.
Proof.
  intros o s I. destruct I as [K OW P H U N] eqn:EI. clear EI.
  assert (C : forall v b i k found, construct v b i k found s <> HUB /\ forall s', construct v b i k found s = HOk s' -> inv s').
  { intros v b i k found. unfold construct, fresh_var. destruct (get v (vars s)) eqn:G; cbn [andb]; [split; discriminate|].
    destruct (existsb (Nat.eqb b) (held s)); [|split; discriminate]. apply get_none in G.
    destruct found; split; try discriminate; intros s' [= <-]; constructor; cbn.
    - constructor; assumption.
    - constructor. exact OW.
    - intros w r [[= <- <-]|X]; [discriminate|apply (P _ _ X)].
    - rewrite <- Permutation_middle. constructor. exact H.
    - constructor; [|exact U]. intros X. apply in_map_iff in X as [[b' h'] [E X]]. cbn in E. subst. apply N in X. lia.
    - intros b' h' [[= <- <-]|X]; [lia|]. apply N in X. lia.
    - constructor; assumption.
    - exact OW.
    - intros w r [[= <- <-]|X]; [cbn; contradiction|apply (P _ _ X)].
    - exact H.
    - exact U.
    - exact N. }
  destruct o as [v|v b i found|v b k found|v w|v w|v|b]; cbn [step].
  - unfold fresh_var. destruct (get v (vars s)) eqn:G; [split; discriminate|]. apply get_none in G. split; [discriminate|]. intros s' [= <-].
    constructor; cbn; auto; [constructor; assumption|]. intros w r [[= <- <-]|X]; [cbn; contradiction|apply (P _ _ X)].
  - destruct found; apply C.
  - destruct found; apply C.
  - destruct (get w (vars s)) as [r|] eqn:G; [|split; discriminate]. unfold fresh_var. destruct (get v (vars s)) eqn:F; [split; discriminate|].
    split; [discriminate|]. intros s' [= <-]. apply get_none in F. constructor; cbn; auto.
    + constructor; rewrite set_keys; assumption.
    + pose proof (owned_set w (moved_from r) r (vars s) G) as Q. change (own (moved_from r)) with (@nil (nat * nat)) in Q. cbn [app] in Q.
      fold (owned (set w (moved_from r) (vars s))). rewrite Q. exact OW.
    + intros u q [[= <- <-]|X]; [apply (P w), get_in; exact G|]. apply set_in in X as [[-> ->]|X]; [cbn; contradiction|apply (P _ _ X)].
  - destruct (get v (vars s)) as [old|] eqn:GV; [|split; discriminate]. destruct (get w (vars s)) as [r|] eqn:GW; [|split; discriminate].
    destruct (release_ok _ _ _ I GV) as (s1 & -> & EV & EH & EN & ED & EO & ER). rewrite EV, EH, EN, ED, ER.
    assert (HH : Permutation (handed s) ((own old ++ released s) ++ out s1)).
    { rewrite H, <- EO, app_assoc. apply Permutation_app_tail, Permutation_app_comm. }
    destruct (Nat.eqb_spec v w) as [->|VW]; (split; [discriminate|]; intros s' [= <-]; constructor; cbn; rewrite ?set_keys; auto).
    + rewrite GV in GW. injection GW as ->. pose proof (owned_set w (Result (parent r) (index r) 0 None) r (vars s) GV) as Q. cbn [own value app] in Q.
      rewrite OW in Q. change (own {| parent := parent r; index := index r; key := 0; value := None |}) with (@nil (nat * nat)) in Q. cbn [app] in Q.
      rewrite <- EO in Q. apply Permutation_app_inv_l in Q. exact Q.
    + intros u q X. apply set_in in X as [[-> ->]|X]; [cbn; contradiction|apply (P _ _ X)].
    + pose proof (owned_set w (moved_from r) r (vars s) GW) as Q. change (own (moved_from r)) with (@nil (nat * nat)) in Q. cbn [app] in Q.
      assert (GV' : get v (set w (moved_from r) (vars s)) = Some old).
      { rewrite get_set. destruct (Nat.eqb_spec v w); [contradiction|exact GV]. }
      pose proof (owned_set v r old _ GV') as Q2. rewrite Q, OW, <- EO in Q2. apply Permutation_app_inv_l in Q2. exact Q2.
    + intros u q X. apply set_in in X as [[-> ->]|X]; [apply (P w), get_in; exact GW|].
      apply set_in in X as [[-> ->]|X]; [cbn; contradiction|apply (P _ _ X)].
  - destruct (get v (vars s)) as [r|] eqn:G; [|split; discriminate].
    destruct (release_ok _ _ _ I G) as (s1 & -> & EV & EH & EN & ED & EO & ER). rewrite EV, EH, EN, ED, ER.
    split; [discriminate|]. intros s' [= <-]. constructor; cbn; auto.
    + apply del_keys. exact K.
    + pose proof (owned_del v r (vars s) G) as Q. rewrite OW, <- EO in Q. apply Permutation_app_inv_l in Q. exact Q.
    + intros u q X. apply (P u). exact (del_in _ _ _ X).
    + rewrite H, <- EO, app_assoc. apply Permutation_app_tail, Permutation_app_comm.
  - split; [discriminate|]. intros s' [= <-]. constructor; cbn; auto.
Qed.
Lemma run_inv : forall os s, inv s -> run os s <> HUB /\ forall s', run os s = HOk s' -> inv s'.
Proof.
  induction os as [|o os IH]; intros s I; cbn [run].
  - split; [discriminate|]. intros s' [= <-]. exact I.
  - destruct (step_inv o s I) as [A B]. destruct (step o s) as [s1| |] eqn:E; [apply IH, B; reflexivity|split; discriminate|contradiction].
Qed.
