(* Proofs about the debug build of dynamic_array. *)
From Coq Require Import List Bool Arith Lia.
From Verif Require Import LifeModel DynModel DynSpec DynProofs DdynModel.
Import ListNotations.

Section Proofs.
Context {V : Type}.
Variable zero : V.
Variable std_alloc : nat.
Variables propagates_move propagates_swap : bool.
Notation world := (dworld V).
Notation exec := (exec zero std_alloc propagates_move propagates_swap).
Notation d_exec := (d_exec zero std_alloc propagates_move propagates_swap).

(* the array has no memory *)
Definition bare (i : nat) (w : world) : Prop := exists f, arrays w i = Some f /\ m_data f = None.

Lemma put_bare i a n (w : world) : forall w', put_fields i (Some (MkFields a n None)) w = Done tt w' -> bare i w'.
Proof. intros w' H. injection H as <-. exists (MkFields a n None). cbn. rewrite upd_same. auto. Qed.

Lemma destroy_bare i (w w' : world) : destroy_all i w = Done tt w' -> bare i w'.
Proof.
  unfold destroy_all, dbind. unfold fields_of at 1. destruct (arrays w i) as [f|] eqn:A; [|discriminate].
  destruct (m_data f) as [b|] eqn:D.
  - destruct (unmake_all b (m_size f) w); try discriminate. destruct (give_back _ _ _ _) as [u w2|w2|]; try discriminate. apply put_bare.
  - intros H. injection H as <-. exists f. auto.
Qed.

Lemma allocate_ok i n (w : world) : bare i w -> d_allocate i n w = Some (allocate i n w).
Proof.
  intros (f & A & D). unfold d_allocate, bbind, plain. unfold fields_of at 1. rewrite A. unfold require at 1, no_memory at 1. rewrite D.
  assert (X : forall w', allocate i n w = Done tt w' -> exists f', arrays w' i = Some f' /\ no_memory f' = false).
  { intros w'. unfold allocate, dbind. unfold fields_of at 1. rewrite A. cbn [put_fields]. unfold next_fails. cbn [fails].
    destruct (fails w) as [|b r].
    - cbn. intros H. injection H as <-. cbn. rewrite upd_same. eauto.
    - destruct b; cbn; [discriminate|]. intros H. injection H as <-. cbn. rewrite upd_same. eauto. }
  destruct (allocate i n w) as [[] w'|w'|] eqn:E; try reflexivity.
  destruct (X w' eq_refl) as (f' & A' & N). unfold fields_of. rewrite A'. unfold require. rewrite N. reflexivity.
Qed.

Lemma body_ok {A} i n (m : DM A) (w : world) : bare i w -> bbind (d_allocate i n) (fun _ => plain m) w = Some (dbind (allocate i n) (fun _ => m) w).
Proof. intros B. unfold bbind, dbind, plain. rewrite (allocate_ok _ _ _ B). destruct (allocate i n w); reflexivity. Qed.

Lemma born_ok i a n (m : DM unit) (w : world) :
  d_born i a (bbind (d_allocate i n) (fun _ => plain m)) w = Some (born i a (dbind (allocate i n) (fun _ => m)) w).
Proof.
  unfold d_born, born. destruct (arrays w i); [reflexivity|]. unfold bbind at 1, plain at 1. unfold dbind at 1.
  destruct (put_fields i (Some (MkFields a 0 None)) w) as [[] w1|w1|] eqn:E; try discriminate E.
  rewrite (body_ok i n m w1 (put_bare _ _ _ _ _ E)). destruct (dbind (allocate i n) (fun _ => m) w1); reflexivity.
Qed.

Lemma again_ok {A} i n (m : DM A) (w : world) :
  bbind (plain (destroy_all i)) (fun _ => bbind (d_allocate i n) (fun _ => plain m)) w =
  Some (dbind (destroy_all i) (fun _ => dbind (allocate i n) (fun _ => m)) w).
Proof.
  unfold bbind at 1, plain at 1. unfold dbind at 1. destruct (destroy_all i w) as [[] w1|w1|] eqn:E; try reflexivity.
  rewrite (body_ok i n m w1 (destroy_bare _ _ _ E)). reflexivity.
Qed.

Definition indexes (o : op V) : option (nat * nat) :=
  match o with Write i k _ | AssignOwn i _ k => Some (i, k) | _ => None end.

Lemma operations o (w : world) : indexes o = None -> d_exec o w = Some (exec o w).
Proof.
  destruct o; cbn [indexes]; intros H; try discriminate; cbn [DdynModel.d_exec DynModel.exec]; try reflexivity.
  - apply born_ok.
  - apply born_ok.
  - apply born_ok.
  - apply again_ok.
  - apply again_ok.
  - apply again_ok.
Qed.

Lemma index_bounds i k (w : world) f : arrays w i = Some f -> k < m_size f -> m_data f <> None -> d_index i k w = Some (index i k w).
Proof.
  intros A K D. unfold d_index, bbind, plain, require. unfold fields_of. rewrite A. apply Nat.ltb_lt in K. rewrite K.
  unfold no_memory. destruct (m_data f); [reflexivity|congruence].
Qed.

(* operations that use operator[]: the assertions stop exactly those with a wrong index *)
Lemma indexed o i k (w : world) f : indexes o = Some (i, k) -> arrays w i = Some f ->
  (m_size f <= k \/ m_data f = None -> d_exec o w = None) /\
  (k < m_size f -> m_data f <> None -> d_exec o w = Some (exec o w)).
Proof.
  intros H A. split.
  - intros X. assert (Y : d_index i k w = None).
    { unfold d_index, bbind, plain, require, fields_of, no_memory. rewrite A. destruct X as [X|X].
      - apply Nat.ltb_ge in X. now rewrite X.
      - rewrite X. destruct (k <? m_size f); reflexivity. }
    destruct o; cbn in H; try discriminate; injection H as -> ->; cbn [DdynModel.d_exec]; unfold bbind at 1; now rewrite Y.
  - intros K D. pose proof (index_bounds i k w f A K D) as Y. destruct (m_data f) as [b|] eqn:M; [|congruence].
    assert (P : index i k w = match peek b k w with Done v w' => Done v w' | Threw w' => Threw w' | Undef => Undef end).
    { unfold index, dbind, fields_of. rewrite A, M. destruct (peek b k w); reflexivity. }
    assert (Q : peek b k w = Undef \/ exists v, peek b k w = Done v w).
    { unfold peek. destruct (blocks w b) as [[x cs]|]; auto. destruct (nth_error cs k) as [[v|]|]; eauto. }
    destruct o; cbn in H; try discriminate; injection H as -> ->; cbn [DdynModel.d_exec DynModel.exec]; unfold bbind at 1; rewrite Y, P.
    + destruct Q as [Q|[v Q]]; rewrite Q.
      * unfold dbind, fields_of. rewrite A, M, Q. reflexivity.
      * assert (FO : fields_of i w = Done f w) by (unfold fields_of; now rewrite A).
        assert (RH : forall (g : fields -> DM unit), dbind (fields_of i) g w = g f w) by (intros g; unfold dbind; now rewrite FO).
        assert (RP : forall (g : V -> DM unit), dbind (peek b k) g w = g v w) by (intros g; unfold dbind; now rewrite Q).
        rewrite RH, M, RP. unfold bbind at 1, plain at 1. rewrite FO, M. destruct n; apply again_ok.
    + destruct Q as [Q|[u Q]]; rewrite Q; [|reflexivity]. unfold dbind, fields_of. rewrite A, M. unfold scribble, dbind. now rewrite Q.
Qed.

(* what the debug build says of the arrays *)
Lemma nth_places (a : arr V) l k : length l <= sz a ->
  nth_error (snd (places a l)) k =
    match nth_error l k with Some v => Some (Some v) | None => if k <? sz a then Some None else None end.
Proof.
  intros L. unfold places. cbn [snd]. destruct (nth_error l k) as [v|] eqn:E.
  - rewrite nth_error_app1 by (rewrite map_length; apply nth_error_Some; congruence). rewrite nth_error_map, E. reflexivity.
  - apply nth_error_None in E. rewrite nth_error_app2 by now rewrite map_length. rewrite map_length.
    destruct (Nat.ltb_spec k (sz a)).
    + rewrite nth_error_repeat by lia. reflexivity.
    + apply nth_error_None. rewrite repeat_length. lia.
Qed.
Lemma index_is (w : world) (st : state V) f i a : Rf w st f -> var st i = Some a ->
  forall k, index i k w = match elems a with
    | Some l => match nth_error l k with Some v => Done v w | None => Undef end
    | None => Undef end.
Proof.
  intros (R1 & R2 & _) H k. unfold index, dbind, fields_of. rewrite R1, H. cbn [option_map fld m_data].
  destruct (elems a) as [l|] eqn:E; [|reflexivity]. destruct (R2 i a l (conj H E)) as (B & L & _).
  unfold peek. rewrite B. pose proof (nth_places a l k L) as N. unfold places in *. cbn [snd] in N. rewrite N.
  destruct (nth_error l k); [reflexivity|]. destruct (k <? sz a); reflexivity.
Qed.
End Proofs.
