(* Proofs about attributes. *)
From Coq Require Import List Bool Arith Lia.
From Verif Require Import LifeModel AnyModel AttrModel AttrSpec.
Import ListNotations.

Section Map.
Context {K V : Type}.
Variable ltb : K -> K -> bool.
Hypothesis ltb_irrefl : forall a, ltb a a = false.
Hypothesis ltb_trans : forall a b c, ltb a b = true -> ltb b c = true -> ltb a c = true.
Hypothesis ltb_total : forall a b, ltb a b = true \/ a = b \/ ltb b a = true.
Variable copyable : nat -> bool.

Notation keq := (same_key ltb).

Lemma keq_spec a b : keq a b = true <-> a = b.
Proof.
  unfold same_key. rewrite andb_true_iff, !negb_true_iff. split.
  - intros [A B]. destruct (ltb_total a b) as [C|[C|C]]; congruence.
  - intros ->. rewrite ltb_irrefl. auto.
Qed.
Lemma keq_false a b : keq a b = false <-> a <> b.
Proof. rewrite <- not_true_iff_false, keq_spec. reflexivity. Qed.

Notation attrs := (attrs K V).

(* the list is sorted: every key is below those after it *)
Fixpoint sorted (m : attrs) : Prop :=
  match m with
  | [] => True
  | (k, _) :: m' => (forall q y, In (q, y) m' -> ltb k q = true) /\ sorted m'
  end.

Lemma find_above (m : attrs) k : (forall q y, In (q, y) m -> ltb k q = true) -> find ltb k m = None.
Proof.
  destruct m as [|[q y] m]; intros H; cbn; [reflexivity|].
  assert (A : ltb k q = true) by (apply (H q y); left; reflexivity). rewrite A.
  destruct (ltb q k) eqn:B; [|reflexivity]. pose proof (ltb_trans _ _ _ A B) as C. rewrite ltb_irrefl in C. discriminate.
Qed.

(* find in a sorted list is plain search *)
Lemma find_cons k q y (m : attrs) : sorted ((q, y) :: m) -> find ltb k ((q, y) :: m) = if keq q k then Some y else find ltb k m.
Proof.
  intros [H _]. cbn. destruct (keq q k) eqn:E.
  - apply keq_spec in E. subst q. rewrite ltb_irrefl. reflexivity.
  - destruct (ltb q k) eqn:A; [reflexivity|]. apply keq_false in E.
    destruct (ltb_total q k) as [B|[B|B]]; [congruence|congruence|]. rewrite B. symmetry. apply find_above.
    intros p z I. apply (ltb_trans _ q); [assumption|apply (H p z I)].
Qed.

Lemma insert_in k x (m : attrs) q y : In (q, y) (insert_or_assign ltb k x m) -> q = k \/ In (q, y) m \/ exists z, In (q, z) m.
Proof.
  induction m as [|[p z] m IH]; cbn; [intros [A|[]]; left; congruence|].
  destruct (ltb p k); [|destruct (ltb k p)]; cbn.
  - intros [A|A]; [right; left; left; assumption|]. destruct (IH A) as [B|[B|[u B]]]; [left; assumption|right; left; right; assumption|].
    right. right. exists u. right. assumption.
  - intros [A|A]; [left; congruence|]. right. left. assumption.
  - intros [A|A]; [|right; left; right; assumption]. right. right. exists z. left. congruence.
Qed.

Lemma insert_sorted k x (m : attrs) : sorted m -> sorted (insert_or_assign ltb k x m).
Proof.
  induction m as [|[p z] m IH]; intros S; cbn [insert_or_assign]; [cbn; split; [intros q y []|exact I]|].
  destruct S as [A B]. destruct (ltb p k) eqn:C; [|destruct (ltb k p) eqn:D]; cbn [sorted].
  - split; [|apply IH; assumption]. intros q y J. destruct (insert_in k x m q y J) as [->|[E|[u E]]]; [assumption|apply (A q y E)|apply (A q u E)].
  - split; [|split; assumption]. intros q y [J|J]; [injection J as <- <-; assumption|]. apply (ltb_trans _ p); [assumption|apply (A q y J)].
  - split; assumption.
Qed.

Lemma erase_in k (m : attrs) q y : In (q, y) (erase ltb k m) -> In (q, y) m.
Proof.
  induction m as [|[p z] m IH]; cbn; [intros []|]. destruct (ltb p k); [|destruct (ltb k p)]; cbn; [|auto|auto].
  intros [A|A]; auto.
Qed.
Lemma erase_sorted k (m : attrs) : sorted m -> sorted (erase ltb k m).
Proof.
  induction m as [|[p z] m IH]; intros S; cbn [erase]; [exact I|]. destruct S as [A B].
  destruct (ltb p k); [|destruct (ltb k p)]; cbn [sorted]; [|split; assumption|assumption].
  split; [|apply IH; assumption]. intros q y J. apply (A q y). exact (erase_in _ _ _ _ J).
Qed.

Lemma find_insert k x (m : attrs) q : sorted m -> find ltb q (insert_or_assign ltb k x m) = if keq q k then Some x else find ltb q m.
Proof.
  induction m as [|[p z] m IH]; intros S.
  - cbn. unfold same_key. destruct (ltb k q), (ltb q k); reflexivity.
  - pose proof (insert_sorted k x _ S) as S'. rewrite (find_cons q p z m S). pose proof S as [A B]. cbn [insert_or_assign] in *.
    destruct (ltb p k) eqn:C; [|destruct (ltb k p) eqn:D].
    + rewrite find_cons by assumption. rewrite IH by assumption. destruct (keq p q) eqn:E; [|reflexivity].
      apply keq_spec in E. subst p. destruct (keq q k) eqn:F; [|reflexivity]. apply keq_spec in F. subst. rewrite ltb_irrefl in C. discriminate.
    + rewrite find_cons by assumption. rewrite (find_cons q p z m S). destruct (keq k q) eqn:E.
      * apply keq_spec in E. subst k. assert (Q : keq q q = true) by (apply keq_spec; reflexivity). rewrite Q. reflexivity.
      * assert (Q : keq q k = false) by (apply keq_false; apply keq_false in E; congruence). rewrite Q. reflexivity.
    + assert (Q : p = k) by (destruct (ltb_total p k) as [E|[E|E]]; congruence). subst p.
      rewrite find_cons by assumption. destruct (keq k q) eqn:E.
      * apply keq_spec in E. subst k. assert (Q : keq q q = true) by (apply keq_spec; reflexivity). rewrite Q. reflexivity.
      * assert (Q : keq q k = false) by (apply keq_false; apply keq_false in E; congruence). rewrite Q. reflexivity.
Qed.

Lemma find_erase k (m : attrs) q : sorted m -> find ltb q (erase ltb k m) = if keq q k then None else find ltb q m.
Proof.
  induction m as [|[p z] m IH]; intros S.
  - cbn. destruct (keq q k); reflexivity.
  - pose proof (erase_sorted k _ S) as S'. rewrite (find_cons q p z m S). pose proof S as [A B]. cbn [erase] in *.
    destruct (ltb p k) eqn:C; [|destruct (ltb k p) eqn:D].
    + rewrite find_cons by assumption. rewrite IH by assumption. destruct (keq p q) eqn:E; [|reflexivity].
      apply keq_spec in E. subst p. destruct (keq q k) eqn:F; [|reflexivity]. apply keq_spec in F. subst. rewrite ltb_irrefl in C. discriminate.
    + rewrite (find_cons q p z m S). destruct (keq q k) eqn:E; [|reflexivity]. apply keq_spec in E. subst k.
      destruct (keq p q) eqn:F; [apply keq_spec in F; subst; rewrite ltb_irrefl in D; discriminate|].
      apply find_above. intros r y J. apply (ltb_trans _ p); [assumption|apply (A r y J)].
    + assert (Q : p = k) by (destruct (ltb_total p k) as [E|[E|E]]; congruence). subst p.
      destruct (keq q k) eqn:E.
      * apply keq_spec in E. subst k. apply find_above. exact A.
      * assert (Q : keq k q = false) by (apply keq_false; apply keq_false in E; congruence). rewrite Q. reflexivity.
Qed.

Notation state := (state K V).

Definition agrees (m : option attrs) (f : option (K -> option (any V))) : Prop :=
  match m, f with
  | Some m, Some f => sorted m /\ forall k, find ltb k m = f k
  | None, None => True
  | _, _ => False
  end.
Definition R (w : maps K V) (st : state) : Prop := forall i, agrees (w i) (st i).

Lemma R_start : R (fun _ => None) nothing.
Proof. intros i. exact I. Qed.

Lemma R_upd w (st : state) i m f : R w st -> agrees m f -> R (upd w i m) (put st i f).
Proof. intros H A k. unfold upd, put. destruct (k =? i); [assumption|apply H]. Qed.

Lemma R_some w (st : state) i : R w st -> st i <> None -> exists m f, w i = Some m /\ st i = Some f /\ sorted m /\ forall k, find ltb k m = f k.
Proof.
  intros H N. specialize (H i). unfold agrees in H. destruct (w i) as [m|], (st i) as [f|]; try contradiction; try congruence.
  exists m, f. destruct H. auto.
Qed.
Lemma R_none w (st : state) i : R w st -> st i = None -> w i = None.
Proof. intros H N. specialize (H i). rewrite N in H. destruct (w i); [destruct H|reflexivity]. Qed.

Lemma clone_copyable (x : val V) : clone_ok copyable x = true <-> deep_copyable copyable x.
Proof.
  revert x. fix IH 1. intros [t v|[y|]]; cbn; [reflexivity|apply IH|]. split; auto.
Qed.

Lemma in_find (m : attrs) k c : sorted m -> In (k, c) m -> find ltb k m = Some c.
Proof.
  induction m as [|[p z] m IH]; intros S J; [destruct J|]. rewrite find_cons by assumption. destruct J as [J|J].
  - injection J as -> ->. assert (Q : keq k k = true) by (apply keq_spec; reflexivity). rewrite Q. reflexivity.
  - pose proof S as [A B]. specialize (A k c J). assert (Q : keq p k = false) by (unfold same_key; rewrite A; reflexivity). rewrite Q. apply IH; assumption.
Qed.
Lemma find_in (m : attrs) k c : sorted m -> find ltb k m = Some c -> In (k, c) m.
Proof.
  induction m as [|[p z] m IH]; intros S J; [discriminate|]. rewrite find_cons in J by assumption. destruct (keq p k) eqn:E.
  - apply keq_spec in E. subst p. injection J as ->. left. reflexivity.
  - right. apply IH; [apply S|assumption].
Qed.

Lemma copies_spec (m : attrs) f : sorted m -> (forall k, find ltb k m = f k) -> copies copyable m = true <-> all_copyable copyable f.
Proof.
  intros S F. unfold copies. rewrite forallb_forall. split.
  - intros H k c E. rewrite <- F in E. apply find_in in E; [|assumption]. specialize (H _ E). cbn in H. destruct c as [x|]; cbn; [apply clone_copyable; assumption|exact I].
  - intros H [k c] J. apply in_find in J; [|assumption]. rewrite F in J. specialize (H k c J). cbn. destruct c as [x|]; cbn in H; [apply clone_copyable; assumption|reflexivity].
Qed.

Lemma arg_spec i k (x : arg V) (st : state) : arg_ok copyable x = true <-> ~ must_throw copyable (Set_ i k x) st.
Proof.
  assert (G : forall c : val V, clone_ok copyable c = true <-> ~ ~ deep_copyable copyable c).
  { intros c. rewrite <- clone_copyable. destruct (clone_ok copyable c); split; intros H; try congruence. exfalso. apply H. discriminate. }
  destruct x as [t v|[c|]|[c|]|c]; cbn; try (apply G); split; auto.
Qed.

Lemma same_refl (st : state) : same st st.
Proof. intros i. destruct (st i); auto. Qed.

Notation effect := (effect keq).

Lemma done o w w' (st : state) : exec ltb copyable o w = Some (w', Ret true) -> R w' (effect o st) -> ~ must_throw copyable o st ->
  exists w1 st', step keq copyable ltb o st w w1 st' /\ R w1 st'.
Proof. intros A B C. exists w', (effect o st). split; [left; split; [assumption|split; [apply same_refl|assumption]]|assumption]. Qed.
Lemma threw o w (st : state) : exec ltb copyable o w = Some (w, BadCast) -> R w st -> must_throw copyable o st ->
  exists w1 st', step keq copyable ltb o st w w1 st' /\ R w1 st'.
Proof. intros A B C. exists w, st. split; [right; split; [assumption|split; [apply same_refl|assumption]]|assumption]. Qed.

Lemma agrees_look w (st : state) i : R w st -> agrees (w i) (st i).
Proof. intros H. apply H. Qed.

Theorem every_step o w (st : state) : R w st -> legal copyable o st -> exists w' st', step keq copyable ltb o st w w' st' /\ R w' st'.
Proof.
  intros H L. destruct o; cbn [legal] in L.
  - eapply done; [cbn; rewrite (R_none w st i H L); reflexivity| |intros []]. apply R_upd; [assumption|]. split; [exact I|reflexivity].
  - destruct (R_some w st i H L) as [m [f [A [B [C D]]]]]. destruct (arg_ok copyable x) eqn:E.
    + eapply done; [cbn; rewrite A, E; reflexivity| |apply (arg_spec i k x st); assumption].
      cbn [AttrSpec.effect]. rewrite B. apply R_upd; [assumption|]. split; [apply insert_sorted; assumption|].
      intros q. rewrite find_insert by assumption. unfold with_key. destruct (keq q k); [reflexivity|apply D].
    + apply threw; [cbn; rewrite A, E; reflexivity|assumption|].
      destruct x as [t v|[c|]|[c|]|c]; cbn in E; try discriminate; cbn [must_throw any_copyable]; intros G; apply clone_copyable in G; congruence.
  - destruct (R_some w st i H L) as [m [f [A [B [C D]]]]]. eapply done; [cbn; rewrite A; reflexivity| |intros []].
    cbn [AttrSpec.effect]. rewrite B. apply R_upd; [assumption|]. split; [apply erase_sorted; assumption|].
    intros q. rewrite find_erase by assumption. unfold with_key. destruct (keq q k); [reflexivity|apply D].
  - destruct L as [L J]. destruct (R_some w st j H J) as [m [f [A [B [C D]]]]]. pose proof (copies_spec m f C D) as S.
    destruct (copies copyable m) eqn:E.
    + eapply done; [cbn; rewrite (R_none w st i H L), A, E; reflexivity| |].
      * cbn [AttrSpec.effect]. rewrite B. apply R_upd; [assumption|split; assumption].
      * intros [g [G1 G2]]. apply G2. replace g with f by congruence. apply S. reflexivity.
    + apply threw; [cbn; rewrite (R_none w st i H L), A, E; reflexivity|assumption|].
      exists f. split; [assumption|]. intros G. apply S in G. congruence.
  - destruct L as [L J]. destruct (R_some w st j H J) as [m [f [A [B [C D]]]]].
    eapply done; [cbn; rewrite (R_none w st i H L), A; reflexivity| |intros []].
    cbn [AttrSpec.effect]. rewrite B. apply R_upd; [apply R_upd; [assumption|]|split; assumption]. split; [exact I|reflexivity].
  - destruct L as [L [g [J Q]]]. destruct (R_some w st j H ltac:(congruence)) as [m [f [A [B [C D]]]]].
    destruct (R_some w st i H L) as [n [h [A' _]]].
    destruct (Nat.eqb_spec i j) as [->|N].
    + eapply done; [cbn; rewrite A, Nat.eqb_refl; reflexivity| |intros []]. intros q. cbn [AttrSpec.effect]. unfold put.
      destruct (Nat.eqb_spec q j) as [->|]; apply H.
    + assert (E : copies copyable m = true).
      { apply (copies_spec m f C D). replace f with g by congruence. apply Q. assumption. }
      eapply done; [cbn; rewrite A', A, E; apply Nat.eqb_neq in N; rewrite N; reflexivity| |intros []].
      cbn [AttrSpec.effect]. rewrite B. apply R_upd; [assumption|split; assumption].
  - destruct L as [L [J N]]. destruct (R_some w st j H J) as [m [f [A [B [C D]]]]]. destruct (R_some w st i H L) as [n [h [A' _]]].
    apply Nat.eqb_neq in N. eapply done; [cbn; rewrite A', A, N; reflexivity| |intros []].
    cbn [AttrSpec.effect]. rewrite B. apply R_upd; [apply R_upd; [assumption|]|split; assumption]. split; [exact I|reflexivity].
  - destruct L as [L J]. destruct (R_some w st j H J) as [m [f [A [B [C D]]]]]. destruct (R_some w st i H L) as [n [h [A' [B' [C' D']]]]].
    eapply done; [cbn; rewrite A', A; reflexivity| |intros []].
    cbn [AttrSpec.effect]. rewrite B, B'. apply R_upd; [apply R_upd; [assumption|]|]; split; assumption.
  - destruct (R_some w st i H L) as [m [f [A [B [C D]]]]]. eapply done; [cbn; rewrite A; reflexivity| |intros []].
    apply R_upd; [assumption|exact I].
Qed.

Lemma shows_find (m : attrs) f : (forall k, find ltb k m = f k) -> shows ltb m f.
Proof.
  intros F k. rewrite <- F. destruct (find ltb k m) as [c|] eqn:E.
  - unfold has, get, get_as, get_as_or, get_optional, get. rewrite E. split; [reflexivity|]. split; [reflexivity|]. split.
    + intros t v d ->. cbn. rewrite Nat.eqb_refl. auto.
    + intros t d N. destruct c as [[u v|a]|]; cbn; auto. destruct (Nat.eqb_spec u t) as [->|]; [|auto]. exfalso. apply (N v). reflexivity.
  - unfold has, get, get_as, get_as_or, get_optional, get. rewrite E. split; [reflexivity|]. split; [reflexivity|]. intros t d. auto.
Qed.

Lemma R_same w (st st' : state) : R w st -> same st st' -> R w st'.
Proof.
  intros H S i. specialize (H i). specialize (S i). unfold agrees in *. destruct (w i) as [m|], (st i) as [f|], (st' i) as [g|]; try contradiction; auto.
  destruct H as [A B]. split; [assumption|]. intros k. rewrite B. apply S.
Qed.
Lemma same_sym (st st' : state) : same st st' -> same st' st.
Proof. intros S i. specialize (S i). destruct (st i), (st' i); try contradiction; auto. Qed.
Lemma same_trans (a b c : state) : same a b -> same b c -> same a c.
Proof.
  intros S T i. specialize (S i). specialize (T i). destruct (a i), (b i), (c i); try contradiction; auto. intros k. rewrite S. apply T.
Qed.

Lemma reach_R w (st : state) : reach keq copyable ltb w st -> R w st.
Proof.
  induction 1 as [|w st o w' st' H IH L S]; [exact R_start|].
  destruct (every_step o w st IH L) as [w1 [st1 [[[A [B _]]|[A [B _]]] R1]]]; destruct S as [[A' [B' _]]|[A' [B' _]]];
    rewrite A in A'; injection A'; try discriminate; intros <-.
  - apply (R_same _ st1); [assumption|]. apply (same_trans _ (effect o st)); [assumption|apply same_sym; assumption].
  - apply (R_same _ st1); [assumption|]. apply (same_trans _ st); [assumption|apply same_sym; assumption].
Qed.

Theorem map_histories w (st : state) : reach keq copyable ltb w st ->
  (forall i, w i = None <-> st i = None) /\
  (forall i m f, w i = Some m -> st i = Some f -> shows ltb m f) /\
  (forall o, legal copyable o st -> exists w' st', step keq copyable ltb o st w w' st').
Proof.
  intros H. apply reach_R in H. split; [|split].
  - intros i. specialize (H i). destruct (w i), (st i); cbn in H; split; try discriminate; try reflexivity; contradiction.
  - intros i m f A B. specialize (H i). rewrite A, B in H. apply shows_find. apply H.
  - intros o L. destruct (every_step o w st H L) as [w' [st' [S _]]]. exists w', st'. assumption.
Qed.

Lemma play_spec (l : list (K * option (any V))) : sorted (play ltb l) /\ forall k, find ltb k (play ltb l) = latest keq k l.
Proof.
  induction l as [|p l IH] using rev_ind; [split; [exact I|reflexivity]|].
  unfold play in *. rewrite fold_left_app. cbn [fold_left]. match type of IH with sorted ?x /\ _ => set (m := x) in * end. destruct IH as [S F].
  assert (G : forall k, latest keq k (l ++ [p]) = if keq (fst p) k then snd p else latest keq k l).
  { intros k. clear. induction l as [|[q x] l IH]; cbn [latest app].
    - destruct p as [q x]. cbn. reflexivity.
    - rewrite existsb_app, IH. cbn. rewrite orb_false_r. destruct (keq (fst p) k); [rewrite orb_true_r; reflexivity|rewrite orb_false_r]. reflexivity. }
  assert (C : forall a b, keq a b = keq b a) by (intros a b; unfold same_key; apply andb_comm).
  destruct p as [q [c|]]; cbn [fst snd] in *.
  - split; [apply insert_sorted; assumption|]. intros k. rewrite find_insert, G, F, C by assumption. reflexivity.
  - split; [apply erase_sorted; assumption|]. intros k. rewrite find_erase, G, F, C by assumption. reflexivity.
Qed.

Theorem last_write (l : list (K * option (any V))) : shows ltb (play ltb l) (fun k => latest keq k l).
Proof. apply shows_find. apply play_spec. Qed.
End Map.

Section Atomic.
Context {K V : Type}.
Variable eqb : K -> K -> bool.
Hypothesis eqb_spec : forall a b, eqb a b = true <-> a = b.
Notation atomics := (atomics K V).

Lemma eqb_false a b : eqb a b = false <-> a <> b.
Proof. rewrite <- not_true_iff_false, eqb_spec. reflexivity. Qed.
Lemma eqb_refl a : eqb a a = true.
Proof. apply eqb_spec. reflexivity. Qed.

Lemma afind_aput k x (m : atomics) q : afind eqb q (aput eqb k x m) =
  if eqb k q then match afind eqb k m with Some _ => Some x | None => None end else afind eqb q m.
Proof.
  induction m as [|[p y] m IH]; cbn; [destruct (eqb k q); reflexivity|].
  destruct (eqb p k) eqn:E; cbn; [|destruct (eqb p q) eqn:F].
  - apply eqb_spec in E. subst p. destruct (eqb k q) eqn:F; reflexivity.
  - apply eqb_spec in F. subst p. destruct (eqb k q) eqn:G; [apply eqb_spec in G; subst; rewrite eqb_refl in E; discriminate|reflexivity].
  - rewrite IH. reflexivity.
Qed.
Lemma afind_app k q x (m : atomics) : afind eqb k (m ++ [(q, x)]) =
  match afind eqb k m with Some y => Some y | None => if eqb q k then Some x else None end.
Proof. induction m as [|[p y] m IH]; cbn; [reflexivity|]. destruct (eqb p k); [reflexivity|apply IH]. Qed.

(* the value found, for a key never cleared and registered with one type only *)
Lemma current_spec k (l : list (aop K V)) : regular eqb k l ->
  afind eqb k (arun eqb l) = option_map (fun p => MkInfo (fst p) (Some p)) (current eqb k l).
Proof.
  induction l as [|o l IH] using rev_ind; intros Rg; [reflexivity|].
  unfold arun, current in *. rewrite !fold_left_app. cbn [fold_left]. match type of IH with context [afind eqb k ?x] => set (m := x) in * end. set (c := fold_left (upon eqb k) l None) in *.
  assert (Rl : regular eqb k l).
  { destruct Rg as [A B]. split; [intros q Q; apply A, in_or_app; auto|].
    intros q q' t t' v v' Q Q'. apply (B q q' t t' v v'); apply in_or_app; auto. }
  specialize (IH Rl).
  assert (T : forall t v, c = Some (t, v) -> exists q v', In (Register q t v') l /\ eqb q k = true).
  { unfold c. clear. induction l as [|o l IH] using rev_ind; [discriminate|]. intros t v. rewrite fold_left_app. cbn [fold_left].
    assert (G : forall t v, fold_left (upon eqb k) l None = Some (t, v) -> exists q v', In (Register q t v') (l ++ [o]) /\ eqb q k = true).
    { intros t0 v0 E. destruct (IH t0 v0 E) as [q [v' [Q1 Q2]]]. exists q, v'. split; [apply in_or_app; auto|assumption]. }
    destruct o as [q u w|q [[u w|a]|]|q]; cbn [upon]; try apply G.
    - destruct (eqb q k) eqn:E; [|apply G]. intros X. injection X as -> ->. exists q, v. split; [apply in_or_app; right; left; reflexivity|assumption].
    - destruct (eqb q k) eqn:E; [|apply G]. destruct (fold_left (upon eqb k) l None) as [[t0 v0]|] eqn:F; [|discriminate].
      intros X. assert (Y : t0 = t) by (destruct (u =? t0); congruence). subst t0. apply (G t v0). reflexivity. }
  destruct o as [q t v|q x|q]; cbn [aexec upon].
  - unfold register. destruct (afind eqb q m) as [y|] eqn:E; cbn [fst].
    + rewrite afind_aput, E. destruct (eqb q k) eqn:F; [|exact IH]. apply eqb_spec in F. subst q. rewrite E in IH.
      destruct c as [[u w]|] eqn:C; [|discriminate]. cbn in IH. injection IH as ->. cbn.
      destruct (T u w eq_refl) as [q [v' [Q1 Q2]]]. destruct Rg as [_ B].
      assert (X : u = t) by (apply (B q k u t v' v); [apply in_or_app; auto|apply in_or_app; right; left; reflexivity|assumption|apply eqb_refl]).
      subst u. reflexivity.
    + rewrite afind_app, IH. destruct (eqb q k) eqn:F.
      * apply eqb_spec in F. subst q. rewrite E in IH. destruct c; [discriminate|]. reflexivity.
      * destruct c as [[u w]|]; reflexivity.
  - assert (D : x = None \/ (exists a, x = Some (Inner a)) \/ exists u w, x = Some (Plain u w)) by (destruct x as [[u w|a]|]; eauto).
    destruct D as [->|[[a ->]|[u [w ->]]]].
    + unfold set. destruct (afind eqb q m) as [y|]; [destruct (value y) as [[? ?]|]|]; exact IH.
    + unfold set. destruct (afind eqb q m) as [y|]; [destruct (value y) as [[? ?]|]|]; exact IH.
    + unfold set. destruct (eqb q k) eqn:F.
      * apply eqb_spec in F. subst q. rewrite IH. destruct c as [[t v]|] eqn:C; cbn.
        -- rewrite Nat.eqb_refl. cbn. destruct (u =? t); cbn; [|rewrite IH; reflexivity]. rewrite afind_aput, eqb_refl, IH. reflexivity.
        -- rewrite IH. reflexivity.
      * destruct (afind eqb q m) as [y|] eqn:E; [|exact IH]. destruct (value y) as [[t v]|]; [|exact IH].
        destruct ((t =? assigner y) && (u =? assigner y)); cbn; [|exact IH]. rewrite afind_aput, F. exact IH.
  - destruct Rg as [A _]. assert (A' : eqb q k = false) by (apply A, in_or_app; right; left; reflexivity).
    unfold clear. destruct (afind eqb q m) as [y|] eqn:E; [|exact IH]. rewrite afind_aput, A'. exact IH.
Qed.

Theorem atomic_last_write k (l : list (aop K V)) : regular eqb k l ->
  match current eqb k l with
  | None => ahas eqb k (arun eqb l) = false /\
      (forall c, set eqb k c (arun eqb l) = (arun eqb l, Ret false)) /\
      forall t d, aget_as eqb k t (arun eqb l) = BadAttribute /\ aget_as_or eqb k t d (arun eqb l) = d /\ aget_optional eqb k t (arun eqb l) = None
  | Some (u, v) => ahas eqb k (arun eqb l) = true /\
      (forall x, snd (set eqb k (Some (Plain u x)) (arun eqb l)) = Ret true) /\
      (forall c, (forall x, c <> Some (Plain u x)) -> set eqb k c (arun eqb l) = (arun eqb l, BadCast)) /\
      forall t d, if u =? t
        then aget_as eqb k t (arun eqb l) = Ret v /\ aget_as_or eqb k t d (arun eqb l) = v /\ aget_optional eqb k t (arun eqb l) = Some v
        else aget_as eqb k t (arun eqb l) = BadAttribute /\ aget_as_or eqb k t d (arun eqb l) = d /\ aget_optional eqb k t (arun eqb l) = None
  end.
Proof.
  intros Rg. pose proof (current_spec k l Rg) as C. destruct (current eqb k l) as [[u v]|]; cbn in C;
    unfold ahas, set, aget_as, aget_as_or, aget_optional; rewrite C; cbn.
  - rewrite Nat.eqb_refl. cbn. split; [reflexivity|]. split; [reflexivity|]. split.
    + intros c N. destruct c as [[t x|a]|]; try reflexivity. destruct (Nat.eqb_spec t u) as [->|]; [|reflexivity]. exfalso. apply (N x). reflexivity.
    + intros t d. destruct (u =? t); auto.
  - split; [reflexivity|]. split; [reflexivity|]. auto.
Qed.

(* setting does not change the keys, their types, or what clears *)
Definition shape (m : atomics) : list (K * nat * option nat) :=
  map (fun p => (fst p, assigner (snd p), option_map fst (value (snd p)))) m.

Theorem set_keeps_shape (l : list (K * option (val V))) (m : atomics) :
  shape (fold_left (fun m p => fst (set eqb (fst p) (snd p) m)) l m) = shape m.
Proof.
  revert m. induction l as [|[k c] l IH]; intros m; cbn [fold_left fst snd]; [reflexivity|]. rewrite IH. clear IH.
  unfold set. destruct (afind eqb k m) as [y|] eqn:E; [|reflexivity]. destruct (value y) as [[u v]|] eqn:F; [|reflexivity].
  destruct c as [[t x|a]|]; try reflexivity. destruct ((u =? assigner y) && (t =? assigner y)) eqn:G; cbn [fst]; [|reflexivity].
  clear G. induction m as [|[q z] m IH]; [reflexivity|]. cbn [afind aput] in *. destruct (eqb q k).
  - injection E as ->. unfold shape. cbn. rewrite F. reflexivity.
  - unfold shape in *. cbn [map]. rewrite IH by assumption. reflexivity.
Qed.

(* copies *)
Lemma copy_from_whole (todo : atomics) : forall done,
  NoDup (map fst (done ++ todo)) ->
  (forall k x, In (k, x) todo -> exists v, value x = Some (assigner x, v)) -> copy_from eqb done todo = Ret (done ++ todo).
Proof.
  induction todo as [|[k x] todo IH]; intros done N H; cbn [copy_from]; [rewrite app_nil_r; reflexivity|].
  assert (E : afind eqb k done = None).
  { destruct (afind eqb k done) as [y|] eqn:F; [|reflexivity]. exfalso. rewrite map_app in N. cbn in N. apply NoDup_remove_2 in N. apply N.
    apply in_or_app. left. clear - F eqb_spec. induction done as [|[q z] done IH]; [discriminate|]. cbn in F |- *. destruct (eqb q k) eqn:G.
    - left. apply eqb_spec in G. assumption.
    - right. apply IH. assumption. }
  rewrite E. destruct (H k x (or_introl eq_refl)) as [v G]. rewrite G, Nat.eqb_refl. rewrite IH.
  - rewrite <- app_assoc. cbn. destruct x as [a b]. cbn in *. subst b. reflexivity.
  - rewrite <- app_assoc. cbn. rewrite !map_app in *. exact N.
  - intros q y Q. apply (H q y). right. assumption.
Qed.

Lemma aput_keys k x (m : atomics) : map fst (aput eqb k x m) = map fst m.
Proof. induction m as [|[q y] m IH]; cbn; [reflexivity|]. destruct (eqb q k); cbn; [reflexivity|]. rewrite IH. reflexivity. Qed.

Lemma arun_keys (l : list (aop K V)) : NoDup (map fst (arun eqb l)).
Proof.
  unfold arun. induction l as [|o l IH] using rev_ind; [constructor|]. rewrite fold_left_app. cbn [fold_left].
  match type of IH with context [map fst ?x] => set (m := x) in * end. destruct o as [q t v|q x|q]; cbn [aexec].
  - unfold register. destruct (afind eqb q m) eqn:E; cbn [fst]; [rewrite aput_keys; assumption|].
    rewrite map_app. cbn. apply NoDup_rev in IH. rewrite <- (rev_involutive (map fst m ++ [q])). apply NoDup_rev. rewrite rev_app_distr. cbn.
    constructor; [|assumption]. rewrite <- in_rev. clear - E eqb_spec. induction m as [|[p y] m IH]; [intros []|]. cbn in E. destruct (eqb p q) eqn:F; [discriminate|].
    intros [G|G]; [cbn in G; subst; apply eqb_false in F; congruence|]. apply IH; assumption.
  - unfold set. destruct (afind eqb q m) as [y|]; [|assumption]. destruct (value y) as [[u v]|]; [|assumption].
    destruct x as [[t x|a]|]; [|assumption|assumption]. destruct ((u =? assigner y) && (t =? assigner y)); cbn [fst]; [rewrite aput_keys|]; assumption.
  - unfold clear. destruct (afind eqb q m); [rewrite aput_keys|]; assumption.
Qed.

Lemma afind_in k x (m : atomics) : NoDup (map fst m) -> In (k, x) m -> afind eqb k m = Some x.
Proof.
  induction m as [|[q y] m IH]; intros N J; [destruct J|]. cbn in *. inversion N; subst. destruct J as [J|J].
  - injection J as -> ->. rewrite eqb_refl. reflexivity.
  - destruct (eqb q k) eqn:E; [|apply IH; assumption]. apply eqb_spec in E. subst. exfalso. apply H1. apply in_map_iff. exists (k, x). auto.
Qed.

Theorem atomic_copy (l : list (aop K V)) : (forall k, regular eqb k l) -> copy eqb (arun eqb l) = Ret (arun eqb l).
Proof.
  intros Rg. unfold copy. apply (copy_from_whole _ []); [apply arun_keys|]. intros k x J. apply afind_in in J; [|apply arun_keys].
  rewrite (current_spec k l (Rg k)) in J. destruct (current eqb k l) as [[u v]|]; [|discriminate]. cbn in J. injection J as <-. exists v. reflexivity.
Qed.

Lemma copy_from_bad k x (todo : atomics) : forall done, NoDup (map fst (done ++ todo)) -> In (k, x) todo ->
  (forall v, value x <> Some (assigner x, v)) -> copy_from eqb done todo = BadCast.
Proof.
  induction todo as [|[q y] todo IH]; intros done N J B; [destruct J|]. cbn [copy_from].
  assert (E : afind eqb q done = None).
  { destruct (afind eqb q done) as [z|] eqn:F; [|reflexivity]. exfalso. rewrite map_app in N. cbn in N. apply NoDup_remove_2 in N. apply N.
    apply in_or_app. left. clear - F eqb_spec. induction done as [|[p z'] done IH]; [discriminate|]. cbn in F |- *. destruct (eqb p q) eqn:G.
    - left. apply eqb_spec in G. assumption.
    - right. apply IH. assumption. }
  rewrite E. destruct J as [J|J].
  - injection J as -> ->. destruct (value x) as [[u v]|] eqn:F; [|reflexivity]. destruct (Nat.eqb_spec u (assigner x)) as [->|]; [|reflexivity].
    exfalso. apply (B v). reflexivity.
  - destruct (value y) as [[u v]|]; [|reflexivity]. destruct (u =? assigner y); [|reflexivity]. apply IH; [|assumption|assumption].
    rewrite <- app_assoc. cbn. rewrite !map_app in *. exact N.
Qed.

Lemma afind_aput_in k x (m : atomics) y : afind eqb k m = Some y -> In (k, x) (aput eqb k x m).
Proof.
  induction m as [|[q z] m IH]; cbn; [discriminate|]. destruct (eqb q k) eqn:E; intros H.
  - apply eqb_spec in E. subst. left. reflexivity.
  - right. apply IH. assumption.
Qed.

Theorem cleared_is_stuck k (l : list (aop K V)) x : afind eqb k (arun eqb l) = Some x ->
  let m := clear eqb k (arun eqb l) in
  ahas eqb k m = true /\ (forall c, set eqb k c m = (m, BadCast)) /\ copy eqb m = BadCast.
Proof.
  intros E m. unfold m, clear. rewrite E.
  assert (F : afind eqb k (aput eqb k (MkInfo (assigner x) None) (arun eqb l)) = Some (MkInfo (assigner x) None)) by (rewrite afind_aput, eqb_refl, E; reflexivity).
  split; [unfold ahas; rewrite F; reflexivity|]. split.
  - intros c. unfold set. rewrite F. cbn. destruct c as [[? ?|?]|]; reflexivity.
  - apply (copy_from_bad k (MkInfo (assigner x) None)); [cbn; rewrite aput_keys; apply arun_keys|exact (afind_aput_in _ _ _ _ E)|discriminate].
Qed.

Theorem reregistered_is_stuck k (l : list (aop K V)) x t v : afind eqb k (arun eqb l) = Some x -> t <> assigner x ->
  snd (register eqb k t v (arun eqb l)) = false /\
  let m := fst (register eqb k t v (arun eqb l)) in
  (forall c, set eqb k c m = (m, BadCast)) /\ aget_as eqb k (assigner x) m = BadAttribute /\ copy eqb m = BadCast.
Proof.
  intros E N. unfold register. rewrite E. cbn. split; [reflexivity|].
  assert (F : afind eqb k (aput eqb k (MkInfo (assigner x) (Some (t, v))) (arun eqb l)) = Some (MkInfo (assigner x) (Some (t, v)))) by (rewrite afind_aput, eqb_refl, E; reflexivity).
  assert (T : (t =? assigner x) = false) by (apply Nat.eqb_neq; assumption).
  split; [|split].
  - intros c. unfold set. rewrite F. cbn. rewrite T. destruct c as [[? ?|?]|]; reflexivity.
  - unfold aget_as. rewrite F. cbn. rewrite T. reflexivity.
  - apply (copy_from_bad k (MkInfo (assigner x) (Some (t, v)))); [cbn; rewrite aput_keys; apply arun_keys|exact (afind_aput_in _ _ _ _ E)|].
    cbn. intros u U. congruence.
Qed.
End Atomic.
