(* Proofs about programs over filter iterators. *)
From Coq Require Import List Bool Arith Lia.
From Verif Require Import FiltModel FiltSpec.
Import ListNotations.
Set Default Proof Using "Type".

Section Proofs.
Context {V : Type}.
Implicit Types (m l : list V) (p : V -> bool).

Definition okay p m q : bool := match nth_error m q with Some a => p a | None => false end.

Lemma accepted_S p m b k :
  accepted V p m b (S k) = if okay p m b then b :: accepted V p m (S b) k else accepted V p m (S b) k.
Proof. unfold accepted, okay. cbn [seq filter]. reflexivity. Qed.
Lemma accepted_0 p m b : accepted V p m b 0 = [].
Proof. reflexivity. Qed.
Lemma nth_some m q : q < length m -> exists a, nth_error m q = Some a.
Proof.
  intros H. destruct (nth_error m q) as [a|] eqn:E; [eauto|]. apply nth_error_None in E. lia.
Qed.

Lemma settle_at p m e : settle V p m e e = Some e.
Proof. unfold settle. rewrite Nat.leb_refl, Nat.sub_diag. reflexivity. Qed.
Lemma settle_okay p m q e : q < length m -> q <> e -> okay p m q = true -> settle V p m q e = Some q.
Proof.
  intros L N K. unfold settle. destruct (Nat.leb_spec q e).
  - replace (e - q) with (S (e - S q)) by lia. rewrite accepted_S, K. reflexivity.
  - replace (length m - q) with (S (length m - S q)) by lia. rewrite accepted_S, K. reflexivity.
Qed.
Lemma settle_not p m q e : q < length m -> q <> e -> okay p m q = false -> settle V p m q e = settle V p m (S q) e.
Proof.
  intros L N K. unfold settle. destruct (Nat.leb_spec q e), (Nat.leb_spec (S q) e); try lia.
  - replace (e - q) with (S (e - S q)) by lia. rewrite accepted_S, K. reflexivity.
  - replace (length m - q) with (S (length m - S q)) by lia. rewrite accepted_S, K. reflexivity.
Qed.
Lemma settle_out p m e : e < length m -> settle V p m (length m) e = None.
Proof.
  intros L. unfold settle. destruct (Nat.leb_spec (length m) e); [lia|]. rewrite Nat.sub_diag. reflexivity.
Qed.

Lemma forward_plain k m q e p c : q <= length m -> e <= length m -> length m - q < k ->
  skip_forward V Plain k m q e p c = option_map (fun r => (r, c)) (settle V p m q e).
Proof.
  revert q. induction k as [|k IH]; intros q Lq Le Lk; [lia|]. cbn [skip_forward].
  destruct (Nat.eqb_spec q e) as [->|N]; [now rewrite settle_at|].
  destruct (Nat.eq_dec q (length m)) as [->|Nq].
  - rewrite settle_out by lia. destruct (nth_error m (length m)) eqn:X; [|reflexivity].
    assert (nth_error m (length m) <> None) by congruence. apply nth_error_Some in H. lia.
  - destruct (nth_some m q) as (a & X); [lia|]. rewrite X. cbn [save].
    destruct (p a) eqn:Pa.
    + rewrite settle_okay; [reflexivity|lia|assumption|unfold okay; now rewrite X].
    + rewrite settle_not; [apply IH; lia|lia|assumption|unfold okay; now rewrite X].
Qed.
(* caching changes what is cached only *)
Lemma forward_cached pol k m q e p c c1 : pol <> Plain ->
  match skip_forward V Plain k m q e p c with
  | None => skip_forward V pol k m q e p c1 = None
  | Some (r, _) => exists c', skip_forward V pol k m q e p c1 = Some (r, c') /\
      (c1 <> None \/ q <> e -> c' <> None) /\ (r <> e -> c' = nth_error m r)
  end.
Proof.
  intros NP. revert q c c1. induction k as [|k IH]; intros q c c1; [reflexivity|]. cbn [skip_forward].
  destruct (Nat.eqb_spec q e) as [->|N].
  - exists c1. split; [reflexivity|]. split; [intros [H|H]; congruence|congruence].
  - destruct (nth_error m q) as [a|] eqn:X; [|reflexivity].
    assert (S : save V pol c1 a = Some a) by (destruct pol; [congruence|reflexivity|reflexivity]).
    rewrite S. destruct (p a).
    + exists (Some a). split; [reflexivity|]. split; [discriminate|now rewrite X].
    + cbn [save]. specialize (IH (Datatypes.S q) c (Some a)).
      destruct (skip_forward V Plain k m (Datatypes.S q) e p c) as [[r c2]|]; [|exact IH].
      destruct IH as (c' & E & A & B). exists c'. split; [exact E|]. split; [|exact B].
      intros _. apply A. left. discriminate.
Qed.

Lemma behind_S p m q : behind V p m (S q) = if okay p m q then Some q else behind V p m q.
Proof.
  unfold behind, accepted. rewrite seq_S. cbn [plus]. rewrite filter_app. cbn [filter].
  fold (okay p m q). destruct (okay p m q).
  - rewrite rev_app_distr. reflexivity.
  - rewrite app_nil_r. reflexivity.
Qed.
Lemma backward_plain k m q p c : q < length m -> q < k ->
  skip_backward V Plain k m q p c = option_map (fun r => (r, c)) (behind V p m (S q)).
Proof.
  revert q. induction k as [|k IH]; intros q L Lk; [lia|]. cbn [skip_backward].
  destruct (nth_some m q L) as (a & X). rewrite X, behind_S. unfold okay at 1. rewrite X. cbn [save].
  destruct (p a); [reflexivity|]. destruct q as [|q]; [reflexivity|]. apply IH; lia.
Qed.
Lemma backward_cached pol k m q p c c1 : pol <> Plain ->
  match skip_backward V Plain k m q p c with
  | None => skip_backward V pol k m q p c1 = None
  | Some (r, _) => exists c', skip_backward V pol k m q p c1 = Some (r, c') /\ c' <> None /\ c' = nth_error m r
  end.
Proof.
  intros NP. revert q c c1. induction k as [|k IH]; intros q c c1; [reflexivity|]. cbn [skip_backward].
  destruct (nth_error m q) as [a|] eqn:X; [|reflexivity].
  assert (S : save V pol c1 a = Some a) by (destruct pol; [congruence|reflexivity|reflexivity]).
  rewrite S. destruct (p a).
  - exists (Some a). split; [reflexivity|]. split; [discriminate|now rewrite X].
  - destruct q as [|q]; [reflexivity|]. apply IH.
Qed.

Lemma store_replaced q v l : q < length l -> store V q v l = replaced V q v l.
Proof.
  unfold replaced. revert q. induction l as [|a l IH]; intros q L; cbn in L; [lia|].
  destruct q as [|q]; [reflexivity|]. cbn [store firstn skipn app]. f_equal. apply IH. lia.
Qed.
Lemma store_length q v l : length (store V q v l) = length l.
Proof. revert q. induction l as [|a l IH]; intros [|q]; cbn; auto. Qed.

Lemma settle_le p m b e r : b <= length m -> e <= length m -> settle V p m b e = Some r -> r <= length m.
Proof.
  intros Lb Le. remember (length m - b) as d eqn:D. revert b Lb D. induction d as [|d IH]; intros b Lb D S.
  - assert (b = length m) by lia. subst b. destruct (Nat.eq_dec e (length m)) as [->|N].
    + rewrite settle_at in S. injection S as <-. lia.
    + rewrite settle_out in S by lia. discriminate.
  - destruct (Nat.eq_dec b e) as [->|N].
    + rewrite settle_at in S. injection S as <-. lia.
    + destruct (okay p m b) eqn:K.
      * rewrite settle_okay in S by (assumption || lia). injection S as <-. lia.
      * rewrite settle_not in S by (assumption || lia). apply (IH (Datatypes.S b)); [lia|lia|exact S].
Qed.
Lemma behind_lt p m q r : behind V p m q = Some r -> r < q.
Proof.
  induction q as [|q IH]; [discriminate|]. rewrite behind_S. destruct (okay p m q).
  - intros H. injection H as <-. lia.
  - intros H. specialize (IH H). lia.
Qed.

(* ---- without caching: positions ---- *)
Definition body (i : mark V) : iter V := Iter (place i) (stop i) (test i) None.
Definition rel (s : sheet V) (w : world V) : Prop :=
  data w = values s /\
  (forall x, vars w x = option_map body (marks s x)) /\
  (forall x i, marks s x = Some i -> place i <= length (values s) /\ stop i <= length (values s)).

Definition matched (a : option (seen V * sheet V)) (b : option (seen V * world V)) : Prop :=
  match a, b with
  | Some (o, s), Some (o', w) => o = o' /\ rel s w
  | None, None => True
  | _, _ => False
  end.

Lemma rel_at s w x i : rel s w -> place i <= length (values s) -> stop i <= length (values s) ->
  rel (at_ V s x i) (set V w x (Some (body i))).
Proof.
  intros (D & E & B) L1 L2. split; [exact D|]. split.
  - intros y. cbn [at_ set vars marks]. destruct (y =? x); [reflexivity|apply E].
  - intros y j. cbn [at_ marks values]. destruct (y =? x); [|apply B]. intros H. injection H as <-. auto.
Qed.
Lemma rel_gone s w x : rel s w -> rel (gone V s x) (set V w x None).
Proof.
  intros (D & E & B). split; [exact D|]. split.
  - intros y. cbn [gone set vars marks]. destruct (y =? x); [reflexivity|apply E].
  - intros y j. cbn [gone marks values]. destruct (y =? x); [discriminate|apply B].
Qed.
Lemma rel_same s w x i : rel s w -> marks s x = Some i -> rel (at_ V s x i) w.
Proof.
  intros (D & E & B) M. split; [exact D|]. split.
  - intros y. cbn [at_ marks]. destruct (Nat.eqb_spec y x) as [->|]; [|apply E]. rewrite E, M. reflexivity.
  - intros y j. cbn [at_ marks values]. destruct (Nat.eqb_spec y x) as [->|]; [|apply B]. intros H. injection H as <-. now apply (B x).
Qed.
Lemma rel_put s w q v : rel s w -> q < length (values s) ->
  rel (Sheet (marks s) (replaced V q v (values s))) (World (vars w) (store V q v (data w))).
Proof.
  intros (D & E & B) L. split.
  - cbn [data values]. rewrite D. now apply store_replaced.
  - split; [exact E|]. intros x i H. cbn [values]. rewrite <- store_replaced, store_length by assumption. exact (B x i H).
Qed.

Lemma forward_next m i : place i <= length m -> stop i <= length m ->
  forward V Plain m (body i) =
  option_map (fun q => body (Mark q (stop i) (test i))) (ahead V (test i) m (place i) (stop i)).
Proof.
  intros L1 L2. unfold forward, ahead. cbn [body pos last pred cached].
  destruct (Nat.ltb_spec (place i) (length m)); [|reflexivity].
  unfold landed. rewrite forward_plain; [|lia|lia|unfold fuel; lia].
  destruct (settle V (test i) m (S (place i)) (stop i)); reflexivity.
Qed.
Lemma backward_prev m i : place i <= length m ->
  backward V Plain m (body i) =
  option_map (fun q => body (Mark q (stop i) (test i))) (behind V (test i) m (place i)).
Proof.
  intros L1. unfold backward. cbn [body pos last pred cached]. destruct (place i) as [|q]; [reflexivity|].
  unfold landed. rewrite backward_plain; [|lia|unfold fuel; lia]. destruct (behind V (test i) m (S q)); reflexivity.
Qed.
Lemma ahead_le p m q e r : e <= length m -> ahead V p m q e = Some r -> r <= length m.
Proof.
  unfold ahead. intros L. destruct (Nat.ltb_spec q (length m)); [|discriminate]. apply settle_le; lia.
Qed.

Lemma does_exec o s w : rel s w -> matched (does V o s) (exec V Plain o w).
Proof.
  intros R. pose proof R as (D & E & B).
  assert (MV : forall x f g keep,
    (forall i, place i <= length (values s) -> stop i <= length (values s) ->
       g (data w) (body i) = option_map (fun q => body (Mark q (stop i) (test i))) (f i)) ->
    (forall i q, place i <= length (values s) -> stop i <= length (values s) -> f i = Some q -> q <= length (values s)) ->
    matched (moved V s x f keep)
      (match keep with Some z => post V Plain w z x g | None => step V w x g end)).
  { intros x f g keep G L. unfold moved, post, step, with1, copy. rewrite !E.
    destruct (marks s x) as [i|] eqn:M; cbn [option_map]; [|destruct keep; exact I].
    destruct (B x i M) as (L1 & L2). rewrite (G i L1 L2). destruct (f i) as [q|] eqn:F; cbn [option_map].
    - pose proof (L i q L1 L2 F) as Lq.
      destruct keep as [z|]; cbn [matched]; (split; [reflexivity|]).
      + apply rel_at; [apply rel_at; assumption|exact L1|exact L2].
      + apply rel_at; assumption.
    - destruct keep; exact I. }
  assert (FW : forall i, place i <= length (values s) -> stop i <= length (values s) ->
     forward V Plain (data w) (body i) = option_map (fun q => body (Mark q (stop i) (test i))) (next V s i)).
  { intros i L1 L2. rewrite D. now apply forward_next. }
  assert (BW : forall i, place i <= length (values s) -> stop i <= length (values s) ->
     backward V Plain (data w) (body i) = option_map (fun q => body (Mark q (stop i) (test i))) (prev V s i)).
  { intros i L1 L2. rewrite D. now apply backward_prev. }
  assert (FL : forall i q, place i <= length (values s) -> stop i <= length (values s) -> next V s i = Some q -> q <= length (values s)).
  { intros i q _ L2 H. exact (ahead_le _ _ _ _ _ L2 H). }
  assert (BL : forall i q, place i <= length (values s) -> stop i <= length (values s) -> prev V s i = Some q -> q <= length (values s)).
  { intros i q L1 _ H. apply behind_lt in H. lia. }
  destruct o as [x b e p|x y|x y|x y|x|x|z x|z x|x|x v|q v|x y|x y|x q|x q]; cbn [does exec].
  - unfold make. rewrite D. destruct (Nat.leb_spec b (length (values s))); [|exact I].
    destruct (Nat.leb_spec e (length (values s))); [|exact I]. cbn [andb].
    unfold landed. rewrite forward_plain; [|lia|lia|unfold fuel; lia].
    destruct (settle V p (values s) b e) as [r|] eqn:S; cbn [option_map matched]; [|exact I].
    split; [reflexivity|]. apply settle_le in S; [|assumption|assumption].
    exact (rel_at s w x (Mark r e p) R S H0).
  - unfold with1, copy. rewrite E. destruct (marks s y) as [i|] eqn:M; cbn [option_map]; [|exact I].
    destruct (Nat.eqb_spec x y) as [->|]; cbn [matched]; (split; [reflexivity|]).
    + now apply rel_same.
    + destruct (B y i M). now apply rel_at.
  - unfold with1. rewrite E. destruct (marks s y) as [i|] eqn:M; cbn [option_map]; [|exact I].
    destruct (x =? y); cbn [matched]; (split; [reflexivity|]); [exact R|].
    destruct (B y i M). apply rel_gone. now apply rel_at.
  - unfold with1. rewrite !E. destruct (marks s x) as [i|] eqn:Mx, (marks s y) as [j|] eqn:My; cbn [option_map]; try exact I.
    cbn [matched]. split; [reflexivity|]. destruct (B x i Mx), (B y j My).
    apply rel_at; [now apply rel_at|assumption|assumption].
  - exact (MV x (next V s) (forward V Plain) None FW FL).
  - exact (MV x (prev V s) (backward V Plain) None BW BL).
  - exact (MV x (next V s) (forward V Plain) (Some z) FW FL).
  - exact (MV x (prev V s) (backward V Plain) (Some z) BW BL).
  - unfold with1, read. rewrite E. destruct (marks s x) as [i|] eqn:M; cbn [option_map]; [|exact I].
    rewrite D. cbn [body pos]. destruct (nth_error (values s) (place i)); cbn [option_map matched]; auto.
  - unfold with1. rewrite E. destruct (marks s x) as [i|] eqn:M; cbn [option_map]; [|exact I].
    rewrite D. cbn [body pos]. destruct (Nat.ltb_spec (place i) (length (values s))); cbn [matched]; [|exact I].
    split; [reflexivity|]. rewrite <- D at 2. now apply rel_put.
  - rewrite D. destruct (Nat.ltb_spec q (length (values s))); cbn [matched]; [|exact I].
    split; [reflexivity|]. rewrite <- D at 2. now apply rel_put.
  - unfold with1. rewrite !E. destruct (marks s x), (marks s y); cbn [option_map matched]; auto.
    rewrite negb_involutive. auto.
  - unfold with1. rewrite !E. destruct (marks s x), (marks s y); cbn [option_map matched]; auto.
  - unfold with1. rewrite !E, D. destruct (marks s x); cbn [option_map matched]; [|exact I].
    destruct (q <=? length (values s)); cbn [matched]; [|exact I]. rewrite negb_involutive. auto.
  - unfold with1. rewrite !E, D. destruct (marks s x); cbn [option_map matched]; [|exact I].
    destruct (q <=? length (values s)); cbn [matched]; auto.
Qed.

Lemma story_run os s w : rel s w -> run V Plain os w = story V os s.
Proof.
  revert s w. induction os as [|o os IH]; intros s w R; cbn [run story].
  - destruct R as (D & _). now rewrite D.
  - pose proof (does_exec o s w R) as M.
    destruct (does V o s) as [[a s']|], (exec V Plain o w) as [[b w']|]; cbn [matched] in M; try contradiction; [|reflexivity].
    destruct M as (-> & R'). now rewrite (IH s' w' R').
Qed.

(* ---- a whole sequence: numbers ---- *)
Definition rank p l q : nat := length (filter p (firstn q l)).
Definition settled p l q : Prop := q <= length l /\ (q = length l \/ okay p l q = true).

Lemma firstn_next l q a : nth_error l q = Some a -> firstn (S q) l = firstn q l ++ [a].
Proof.
  revert q. induction l as [|b l IH]; intros [|q] H; try discriminate.
  - injection H as <-. reflexivity.
  - cbn [firstn app]. cbn [nth_error] in H. f_equal. now apply IH.
Qed.
Lemma rank_S p l q : q < length l -> rank p l (S q) = rank p l q + (if okay p l q then 1 else 0).
Proof.
  intros L. destruct (nth_some l q L) as (a & X). unfold rank, okay. rewrite (firstn_next l q a X), X.
  rewrite filter_app, app_length. cbn [filter]. destruct (p a); reflexivity.
Qed.
Lemma rank_full p l : rank p l (length l) = length (filter p l).
Proof. unfold rank. now rewrite firstn_all. Qed.
Lemma rank_le p l q r : q <= r -> r <= length l -> rank p l q <= rank p l r.
Proof.
  intros H. induction H as [|r H IH]; intros L; [lia|]. rewrite rank_S by lia.
  assert (r <= length l) by lia. specialize (IH H0). lia.
Qed.
Lemma rank_lt p l q r : q < r -> r <= length l -> okay p l q = true -> rank p l q < rank p l r.
Proof.
  intros H L K. pose proof (rank_le p l (S q) r H L) as X. rewrite rank_S, K in X by lia. lia.
Qed.
Lemma rank_inj p l q r : settled p l q -> settled p l r -> (rank p l q =? rank p l r) = (q =? r).
Proof.
  intros (Lq & Sq) (Lr & Sr). destruct (Nat.eqb_spec q r) as [->|N]; [apply Nat.eqb_refl|].
  apply Nat.eqb_neq. intros E. destruct (Nat.lt_ge_cases q r) as [H|H].
  - destruct Sq as [->|Sq]; [lia|]. pose proof (rank_lt p l q r H Lr Sq). lia.
  - destruct Sr as [->|Sr]; [lia|]. assert (r < q) by lia. pose proof (rank_lt p l r q H0 Lq Sr). lia.
Qed.
Lemma settle_rank p l b r : b <= length l -> settle V p l b (length l) = Some r ->
  settled p l r /\ rank p l r = rank p l b.
Proof.
  intros Lb. remember (length l - b) as d eqn:D. revert b Lb D. induction d as [|d IH]; intros b Lb D S.
  - assert (b = length l) by lia. subst b. rewrite settle_at in S. injection S as <-. split; [split; [lia|now left]|reflexivity].
  - destruct (okay p l b) eqn:K.
    + rewrite settle_okay in S by (assumption || lia). injection S as <-. split; [split; [lia|now right]|reflexivity].
    + rewrite settle_not in S by (assumption || lia). destruct (IH (Datatypes.S b)) as (A & B); [lia|lia|exact S|].
      split; [exact A|]. rewrite B, rank_S, K by lia. lia.
Qed.
Lemma settle_some p l b : b <= length l -> exists r, settle V p l b (length l) = Some r.
Proof. intros L. unfold settle. apply Nat.leb_le in L. rewrite L. eauto. Qed.
Lemma behind_rank p l q : q <= length l ->
  match behind V p l q with
  | Some r => settled p l r /\ rank p l q = S (rank p l r)
  | None => rank p l q = 0
  end.
Proof.
  induction q as [|q IH]; intros L; [reflexivity|]. rewrite behind_S, rank_S by lia.
  destruct (okay p l q) eqn:K.
  - split; [split; [lia|now right]|lia].
  - rewrite Nat.add_0_r. apply IH. lia.
Qed.
Lemma filter_nth p l q a : nth_error l q = Some a -> p a = true -> nth_error (filter p l) (rank p l q) = Some a.
Proof.
  unfold rank. revert q. induction l as [|b l IH]; intros [|q] H P; try discriminate; cbn [nth_error] in H.
  - injection H as ->. cbn [filter firstn length]. rewrite P. reflexivity.
  - cbn [firstn filter]. destruct (p b); cbn [length nth_error]; now apply IH.
Qed.
Lemma read_rank p l q : settled p l q -> nth_error (filter p l) (rank p l q) = nth_error l q.
Proof.
  intros (L & [->|K]).
  - rewrite rank_full. transitivity (@None V); [|symmetry]; apply nth_error_None; lia.
  - unfold okay in K. destruct (nth_error l q) as [a|] eqn:X; [|discriminate]. now apply filter_nth.
Qed.

Definition ranked p l (s : sheet V) (t : numbers) : Prop :=
  values s = l /\
  forall x, match marks s x with
            | Some i => t x = Some (rank p l (place i)) /\ settled p l (place i) /\ stop i = length l /\ test i = p
            | None => t x = None
            end.
Definition told p l (a : option (seen V * sheet V)) (b : option (seen V * numbers)) : Prop :=
  match a, b with
  | Some (o, s), Some (o', t) => o = o' /\ ranked p l s t
  | None, None => True
  | _, _ => False
  end.
Lemma ranked_at p l s t x i : ranked p l s t -> settled p l (place i) -> stop i = length l -> test i = p ->
  ranked p l (at_ V s x i) (is t x (Some (rank p l (place i)))).
Proof.
  intros (D & E) A B C. split; [exact D|]. intros y. unfold is. cbn [at_ marks].
  destruct (y =? x); [auto|apply E].
Qed.
Lemma ranked_gone p l s t x : ranked p l s t -> ranked p l (gone V s x) (is t x None).
Proof.
  intros (D & E). split; [exact D|]. intros y. unfold is. cbn [gone marks]. destruct (y =? x); [reflexivity|apply E].
Qed.

Lemma does_tells p l o s t : whole V p l o -> ranked p l s t -> told p l (does V o s) (tells V (filter p l) o t).
Proof.
  intros W R. pose proof R as (D & E).
  assert (MV : forall x f g keep,
    (forall i, settled p l (place i) -> stop i = length l -> test i = p ->
       match f i with
       | Some q => settled p l q /\ g (rank p l (place i)) = Some (rank p l q)
       | None => g (rank p l (place i)) = None
       end) ->
    told p l (moved V s x f keep) (shifted V t x g keep)).
  { intros x f g keep G. unfold moved, shifted. pose proof (E x) as Ex. destruct (marks s x) as [i|].
    - destruct Ex as (-> & A & B & C). specialize (G i A B C). destruct (f i) as [q|].
      + destruct G as (Sq & ->). cbn [told]. split; [reflexivity|].
        pose proof (ranked_at p l s t x (Mark q (stop i) (test i)) R Sq B C) as R1.
        destruct keep as [z|]; [|exact R1]. exact (ranked_at p l _ _ z i R1 A B C).
      + rewrite G. exact I.
    - rewrite Ex. exact I. }
  assert (UP : forall i, settled p l (place i) -> stop i = length l -> test i = p ->
       match next V s i with
       | Some q => settled p l q /\ up V (filter p l) (rank p l (place i)) = Some (rank p l q)
       | None => up V (filter p l) (rank p l (place i)) = None
       end).
  { intros i (L & K) B C. unfold next, ahead, up. rewrite D, B, C.
    destruct (Nat.ltb_spec (place i) (length l)) as [H|H].
    - destruct (settle_some p l (S (place i)) H) as (r & Sr). rewrite Sr.
      destruct (settle_rank p l _ r H Sr) as (A1 & A2). split; [exact A1|]. rewrite A2.
      destruct K as [K|K]; [lia|]. rewrite rank_S, K by exact H.
      pose proof (rank_lt p l (place i) (length l) H (le_n _) K) as X. rewrite rank_full in X.
      apply Nat.ltb_lt in X. rewrite X. f_equal. lia.
    - assert (X : place i = length l) by lia. rewrite X, rank_full, Nat.ltb_irrefl. reflexivity. }
  assert (DN : forall i, settled p l (place i) -> stop i = length l -> test i = p ->
       match prev V s i with
       | Some q => settled p l q /\ down (rank p l (place i)) = Some (rank p l q)
       | None => down (rank p l (place i)) = None
       end).
  { intros i (L & K) B C. unfold prev. rewrite D, C. pose proof (behind_rank p l (place i) L) as X.
    destruct (behind V p l (place i)) as [r|].
    - destruct X as (A1 & A2). split; [exact A1|]. rewrite A2. reflexivity.
    - rewrite X. reflexivity. }
  destruct o as [x b e p'|x y|x y|x y|x|x|z x|z x|x|x v|q v|x y|x y|x q|x q]; cbn [does tells whole] in *; try contradiction.
  - destruct W as (Wb & -> & ->). rewrite D. rewrite Nat.leb_refl.
    assert (Lb : b <= length l) by (destruct Wb; lia). pose proof Lb as Lb'. apply Nat.leb_le in Lb'. rewrite Lb'. cbn [andb].
    destruct (settle_some p l b Lb) as (r & Sr). rewrite Sr. cbn [option_map told]. split; [reflexivity|].
    destruct (settle_rank p l b r Lb Sr) as (A1 & A2).
    assert (X : (if b =? 0 then 0 else length (filter p l)) = rank p l r).
    { rewrite A2. destruct (Nat.eqb_spec b 0) as [->|N]; [reflexivity|]. destruct Wb as [Wb|Wb]; [lia|]. now rewrite Wb, rank_full. }
    rewrite X. exact (ranked_at p l s t x (Mark r (length l) p) R A1 eq_refl eq_refl).
  - pose proof (E y) as Ey. destruct (marks s y) as [i|].
    + destruct Ey as (-> & A & B & C). cbn [option_map told]. split; [reflexivity|]. now apply ranked_at.
    + rewrite Ey. exact I.
  - pose proof (E y) as Ey. destruct (marks s y) as [i|].
    + destruct Ey as (-> & A & B & C). cbn [option_map told]. split; [reflexivity|].
      destruct (x =? y); [exact R|]. apply ranked_gone. now apply ranked_at.
    + rewrite Ey. exact I.
  - pose proof (E x) as Ex. pose proof (E y) as Ey. destruct (marks s x) as [i|].
    + destruct Ex as (-> & A & B & C). destruct (marks s y) as [j|].
      * destruct Ey as (-> & A' & B' & C'). cbn [told]. split; [reflexivity|]. apply ranked_at; auto. now apply ranked_at.
      * rewrite Ey. exact I.
    + rewrite Ex. exact I.
  - exact (MV x (next V s) (up V (filter p l)) None UP).
  - exact (MV x (prev V s) down None DN).
  - exact (MV x (next V s) (up V (filter p l)) (Some z) UP).
  - exact (MV x (prev V s) down (Some z) DN).
  - pose proof (E x) as Ex. destruct (marks s x) as [i|].
    + destruct Ex as (-> & A & B & C). rewrite D, read_rank by exact A.
      destruct (nth_error l (place i)); cbn [option_map told]; auto.
    + rewrite Ex. exact I.
  - pose proof (E x) as Ex. pose proof (E y) as Ey. destruct (marks s x) as [i|].
    + destruct Ex as (-> & A & B & C). destruct (marks s y) as [j|].
      * destruct Ey as (-> & A' & B' & C'). cbn [told]. rewrite rank_inj by assumption. auto.
      * rewrite Ey. exact I.
    + rewrite Ex. exact I.
  - pose proof (E x) as Ex. pose proof (E y) as Ey. destruct (marks s x) as [i|].
    + destruct Ex as (-> & A & B & C). destruct (marks s y) as [j|].
      * destruct Ey as (-> & A' & B' & C'). cbn [told]. rewrite rank_inj by assumption. auto.
      * rewrite Ey. exact I.
    + rewrite Ex. exact I.
Qed.
Lemma tale_story p l os s t : Forall (whole V p l) os -> ranked p l s t ->
  story V os s = option_map (fun obs => (obs, l)) (tale V (filter p l) os t).
Proof.
  intros W. revert s t. induction W as [|o os Wo W IH]; intros s t R; cbn [story tale].
  - destruct R as (-> & _). reflexivity.
  - pose proof (does_tells p l o s t Wo R) as M.
    destruct (does V o s) as [[a s']|], (tells V (filter p l) o t) as [[b t']|]; cbn [told] in M; try contradiction; [|reflexivity].
    destruct M as (-> & R'). rewrite (IH s' t' R'). destruct (tale V (filter p l) os t'); reflexivity.
Qed.

(* ---- caching ---- *)
(* the same place; what is cached is the element there, unless the iterator is at its end *)
Definition caches (pol : policy) m (i j : iter V) : Prop :=
  pos j = pos i /\ last j = last i /\ pred j = pred i /\ last i = length m /\
  (pos i <> length m -> cached j = nth_error m (pos i)) /\
  (pol = OnHeap -> cached j <> None).
Definition twin pol (w v : world V) : Prop :=
  data v = data w /\
  forall x, match vars w x, vars v x with
            | Some i, Some j => caches pol (data w) i j
            | None, None => True
            | _, _ => False
            end.
Definition follows pol (a b : option (seen V * world V)) : Prop :=
  match a with
  | None => True
  | Some (o, w) => match b with Some (o', v) => o = o' /\ twin pol w v /\ data w = data v | None => False end
  end.
Lemma twin_set pol w v x i j : twin pol w v -> caches pol (data w) i j -> twin pol (set V w x (Some i)) (set V v x (Some j)).
Proof.
  intros (D & E) C. split; [exact D|]. intros y. cbn [set vars data]. destruct (y =? x); [exact C|apply E].
Qed.
Lemma twin_gone pol w v x : twin pol w v -> twin pol (set V w x None) (set V v x None).
Proof.
  intros (D & E). split; [exact D|]. intros y. cbn [set vars data]. destruct (y =? x); [exact I|apply E].
Qed.
Lemma caches_copy pol m i j : caches pol m i j -> copy V pol j = Some j.
Proof.
  intros (_ & _ & _ & _ & _ & C). unfold copy. destruct pol; [reflexivity|reflexivity|].
  destruct (cached j); [reflexivity|]. exfalso. now apply C.
Qed.
Lemma caches_forward pol m i j i' : pol <> Plain -> caches pol m i j -> forward V Plain m i = Some i' ->
  exists j', forward V pol m j = Some j' /\ caches pol m i' j'.
Proof.
  intros NP (A & B & C & D & E & F). unfold forward. rewrite A, B, C.
  destruct (Nat.ltb_spec (pos i) (length m)) as [H|]; [|discriminate].
  pose proof (forward_cached pol (fuel V m) m (S (pos i)) (last i) (pred i) (cached i) (cached j) NP) as X.
  destruct (skip_forward V Plain (fuel V m) m (S (pos i)) (last i) (pred i) (cached i)) as [[r c]|]; [|discriminate].
  destruct X as (c' & -> & P & Q). cbn [landed option_map fst snd]. intros Z. injection Z as <-.
  eexists. split; [reflexivity|]. unfold caches. cbn [pos last pred cached]. rewrite <- D.
  split; [reflexivity|]. split; [exact B|]. split; [exact C|]. split; [reflexivity|]. split; [exact Q|].
  intros O. apply P. left. now apply F.
Qed.
Lemma caches_backward pol m i j i' : pol <> Plain -> caches pol m i j -> backward V Plain m i = Some i' ->
  exists j', backward V pol m j = Some j' /\ caches pol m i' j'.
Proof.
  intros NP (A & B & C & D & E & F). unfold backward. rewrite A, C.
  destruct (pos i) as [|q]; [discriminate|].
  pose proof (backward_cached pol (fuel V m) m q (pred i) (cached i) (cached j) NP) as X.
  destruct (skip_backward V Plain (fuel V m) m q (pred i) (cached i)) as [[r c]|]; [|discriminate].
  destruct X as (c' & -> & P & Q). cbn [landed option_map fst snd]. intros Z. injection Z as <-.
  eexists. split; [reflexivity|]. unfold caches. cbn [pos last pred cached].
  split; [reflexivity|]. split; [exact B|]. split; [exact C|]. split; [exact D|]. split; [intros _; exact Q|].
  intros _. exact P.
Qed.
Lemma exec_follows pol o w v : pol <> Plain -> reading V (length (data w)) o ->
  (pol = OnHeap -> started V (length (data w)) o) ->
  twin pol w v -> follows pol (exec V Plain o w) (exec V pol o v).
Proof.
  intros NP RD ST R. pose proof R as (D & E).
  assert (STEP : forall x f, (forall i j i', caches pol (data w) i j -> f Plain (data w) i = Some i' ->
      exists j', f pol (data w) j = Some j' /\ caches pol (data w) i' j') ->
      follows pol (step V w x (f Plain)) (step V v x (f pol))).
  { intros x f F. unfold step, with1. pose proof (E x) as Ex. rewrite D.
    destruct (vars w x) as [i|]; [|exact I]. destruct (vars v x) as [j|]; [|contradiction].
    destruct (f Plain (data w) i) as [i'|] eqn:X; cbn [option_map follows]; [|exact I].
    destruct (F i j i' Ex X) as (j' & -> & C). cbn [option_map]. split; [reflexivity|].
    split; [now apply twin_set|symmetry; exact D]. }
  assert (POST : forall z x f, (forall i j i', caches pol (data w) i j -> f Plain (data w) i = Some i' ->
      exists j', f pol (data w) j = Some j' /\ caches pol (data w) i' j') ->
      follows pol (post V Plain w z x (f Plain)) (post V pol v z x (f pol))).
  { intros z x f F. unfold post, with1. pose proof (E x) as Ex. rewrite D.
    destruct (vars w x) as [i|]; [|exact I]. destruct (vars v x) as [j|]; [|contradiction]. cbn [copy].
    destruct (f Plain (data w) i) as [i'|] eqn:X; cbn [option_map follows]; [|exact I].
    destruct (F i j i' Ex X) as (j' & -> & C). rewrite (caches_copy pol (data w) i j Ex). split; [reflexivity|].
    split; [|symmetry; exact D]. apply twin_set; [now apply twin_set|exact Ex]. }
  assert (FW : forall i j i', caches pol (data w) i j -> forward V Plain (data w) i = Some i' ->
      exists j', forward V pol (data w) j = Some j' /\ caches pol (data w) i' j') by (intros; now apply caches_forward with i).
  assert (BW : forall i j i', caches pol (data w) i j -> backward V Plain (data w) i = Some i' ->
      exists j', backward V pol (data w) j = Some j' /\ caches pol (data w) i' j') by (intros; now apply caches_backward with i).
  destruct o as [x b e p|x y|x y|x y|x|x|z x|z x|x|x a|q a|x y|x y|x q|x q]; cbn [reading started] in *; try contradiction; cbn [exec].
  - subst e. unfold make. rewrite D. destruct ((b <=? length (data w)) && (length (data w) <=? length (data w))); [|exact I].
    pose proof (forward_cached pol (fuel V (data w)) (data w) b (length (data w)) p None None NP) as X.
    destruct (skip_forward V Plain (fuel V (data w)) (data w) b (length (data w)) p None) as [[r c]|]; [|exact I].
    destruct X as (c' & -> & P & Q). cbn [landed option_map fst snd follows]. split; [reflexivity|]. split; [|symmetry; exact D].
    apply twin_set; [exact R|]. unfold caches. cbn [pos last pred cached].
    split; [reflexivity|]. split; [reflexivity|]. split; [reflexivity|]. split; [reflexivity|]. split; [exact Q|].
    intros O. apply P. right. now apply ST.
  - unfold with1. pose proof (E y) as Ey. destruct (vars w y) as [i|]; [|exact I]. destruct (vars v y) as [j|]; [|contradiction].
    rewrite (caches_copy pol (data w) i j Ey). cbn [copy option_map]. destruct (x =? y); cbn [follows]; (split; [reflexivity|]).
    + split; [exact R|symmetry; exact D].
    + split; [now apply twin_set|symmetry; exact D].
  - unfold with1. pose proof (E y) as Ey. destruct (vars w y) as [i|]; [|exact I]. destruct (vars v y) as [j|]; [|contradiction].
    destruct (x =? y); cbn [follows]; (split; [reflexivity|]).
    + split; [exact R|symmetry; exact D].
    + split; [apply twin_gone; now apply twin_set|symmetry; exact D].
  - unfold with1. pose proof (E x) as Ex. pose proof (E y) as Ey.
    destruct (vars w x) as [i|]; [|exact I]. destruct (vars v x) as [j|]; [|contradiction].
    destruct (vars w y) as [i'|]; [|exact I]. destruct (vars v y) as [j'|]; [|contradiction].
    cbn [follows]. split; [reflexivity|]. split; [|symmetry; exact D]. apply twin_set; [now apply twin_set|exact Ex].
  - exact (STEP x (fun q => forward V q) FW).
  - exact (STEP x (fun q => backward V q) BW).
  - exact (POST z x (fun q => forward V q) FW).
  - exact (POST z x (fun q => backward V q) BW).
  - unfold with1, read. pose proof (E x) as Ex. destruct (vars w x) as [i|]; [|exact I]. destruct (vars v x) as [j|]; [|contradiction].
    destruct Ex as (_ & _ & _ & _ & C & _).
    destruct (nth_error (data w) (pos i)) as [a|] eqn:X; cbn [option_map follows]; [|exact I].
    assert (N : pos i <> length (data w)).
    { assert (nth_error (data w) (pos i) <> None) as Y by congruence. apply nth_error_Some in Y. lia. }
    rewrite (C N). destruct pol; [congruence| |]; cbn [option_map]; auto.
  - unfold with1. pose proof (E x) as Ex. pose proof (E y) as Ey.
    destruct (vars w x) as [i|]; [|exact I]. destruct (vars v x) as [j|]; [|contradiction].
    destruct (vars w y) as [i'|]; [|exact I]. destruct (vars v y) as [j'|]; [|contradiction].
    destruct Ex as (-> & _), Ey as (-> & _). cbn [follows]. auto.
  - unfold with1. pose proof (E x) as Ex. pose proof (E y) as Ey.
    destruct (vars w x) as [i|]; [|exact I]. destruct (vars v x) as [j|]; [|contradiction].
    destruct (vars w y) as [i'|]; [|exact I]. destruct (vars v y) as [j'|]; [|contradiction].
    destruct Ex as (-> & _), Ey as (-> & _). cbn [follows]. auto.
  - unfold with1. pose proof (E x) as Ex. rewrite D.
    destruct (vars w x) as [i|]; [|exact I]. destruct (vars v x) as [j|]; [|contradiction].
    destruct Ex as (-> & _). destruct (q <=? length (data w)); cbn [follows]; auto.
  - unfold with1. pose proof (E x) as Ex. rewrite D.
    destruct (vars w x) as [i|]; [|exact I]. destruct (vars v x) as [j|]; [|contradiction].
    destruct Ex as (-> & _). destruct (q <=? length (data w)); cbn [follows]; auto.
Qed.
Lemma exec_data pol o w r w' : reading V (length (data w)) o -> exec V pol o w = Some (r, w') -> data w' = data w.
Proof.
  destruct o; cbn [reading exec]; try contradiction; unfold step, post, with1; intros _ H;
    repeat match type of H with
    | context [match ?a with _ => _ end] => lazymatch a with context [match _ with _ => _ end] => fail | _ => destruct a end
    | option_map _ ?a = _ => destruct a; cbn [option_map] in H
    end; try discriminate; injection H as <- <-; reflexivity.
Qed.
Lemma run_follows pol os w v r : pol <> Plain -> Forall (reading V (length (data w))) os ->
  (pol = OnHeap -> Forall (started V (length (data w))) os) -> twin pol w v ->
  run V Plain os w = Some r -> run V pol os v = Some r.
Proof.
  intros NP. revert w v r. induction os as [|o os IH]; intros w v r RD ST R H; cbn [run] in *.
  - injection H as <-. destruct R as (-> & _). reflexivity.
  - pose proof (Forall_inv RD) as RD1. apply Forall_inv_tail in RD.
    assert (F : follows pol (exec V Plain o w) (exec V pol o v)).
    { apply exec_follows; auto. intros O. exact (Forall_inv (ST O)). }
    destruct (exec V Plain o w) as [[a w']|] eqn:X; [|discriminate]. cbn [follows] in F.
    destruct (exec V pol o v) as [[b v']|]; [|contradiction]. destruct F as (<- & T & _).
    pose proof (exec_data Plain o w a w' RD1 X) as DW.
    destruct (run V Plain os w') as [q|] eqn:Y; [|discriminate]. cbn [option_map] in H.
    rewrite (IH w' v' q); [exact H| | |exact T|exact Y].
    + rewrite DW. exact RD.
    + intros O. rewrite DW. exact (Forall_inv_tail (ST O)).
Qed.
End Proofs.
