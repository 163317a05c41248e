(* C117: the debug build of dynamic_array. *)
From Coq Require Import List Bool Arith Lia.
From Verif Require Import LifeModel DynModel DynSpec DynProofs DdynModel DdynProofs.
Import ListNotations.

(* ---- specification ---- *)
(* the index an operation hands to operator[] *)
Definition uses (V : Type) (o : op V) (i k : nat) : Prop :=
  (exists v, o = Write i k v) \/ exists n, o = AssignOwn i n k.

(* What the assertions make of the accesses.  None: the program ends; Some Undef: undefined. *)
Definition guarded (V : Type) (w : dworld V) (st : state V) : Prop :=
  forall i a, var st i = Some a ->
    (forall k, d_index i k w = None <-> sz a <= k \/ elems a = None) /\
    (forall k, d_at i k w = None <-> k < sz a /\ elems a = None) /\
    (forall k, d_at i k w = Some (Threw w) <-> sz a <= k) /\
    (d_front i w = None <-> sz a = 0 \/ elems a = None) /\
    (d_back i w = None <-> sz a = 0 \/ elems a = None) /\
    (forall l k v, elems a = Some l -> nth_error l k = Some v -> d_index i k w = Some (Done v w) /\ d_at i k w = Some (Done v w)) /\
    (forall v l, elems a = Some (v :: l) -> d_front i w = Some (Done v w)) /\
    (forall v l, elems a = Some (l ++ [v]) -> whole a -> d_back i w = Some (Done v w)) /\
    (whole a -> d_front i w <> Some Undef /\ d_back i w <> Some Undef /\ forall k, d_index i k w <> Some Undef /\ d_at i k w <> Some Undef).

Lemma guarded_R (V : Type) (w : dworld V) (st : state V) : R w st -> guarded V w st.
Proof.
  intros (f & H) i a A. pose proof (index_is w st f i a H A) as X. destruct H as (R1 & R2 & _).
  assert (F : arrays w i = Some (fld (f i) a)) by (rewrite R1, A; reflexivity).
  assert (LE : forall l, elems a = Some l -> length l <= sz a) by (intros l E; now destruct (R2 i a l (conj A E)) as (_ & L & _)).
  assert (NM : no_memory (fld (f i) a) = match elems a with None => true | _ => false end).
  { unfold no_memory, fld. cbn. destruct (elems a); reflexivity. }
  assert (DI : forall k, d_index i k w = if (k <? sz a) && (match elems a with None => false | _ => true end) then Some (index i k w) else None).
  { intros k. unfold d_index, bbind, plain, require, fields_of. rewrite F. cbn [m_size fld]. fold (fld (f i) a). rewrite NM.
    destruct (k <? sz a), (elems a); reflexivity. }
  assert (DA : forall k, d_at i k w = if sz a <=? k then Some (Threw w) else d_index i k w).
  { intros k. unfold d_at, bbind, plain, fields_of. rewrite F. cbn [m_size fld]. destruct (sz a <=? k); reflexivity. }
  assert (DF : d_front i w = if negb (sz a =? 0) && (match elems a with None => false | _ => true end) then Some (index i 0 w) else None).
  { unfold d_front, bbind, plain, require, fields_of, front. rewrite F. cbn [m_size fld]. fold (fld (f i) a). rewrite NM.
    destruct (sz a =? 0), (elems a); reflexivity. }
  assert (DK : d_back i w = if negb (sz a =? 0) && (match elems a with None => false | _ => true end) then Some (index i (sz a - 1) w) else None).
  { unfold d_back, bbind, plain, require, fields_of, back, dbind, fields_of. rewrite F. cbn [m_size fld]. fold (fld (f i) a). rewrite NM.
    destruct (sz a =? 0), (elems a); cbn [negb andb]; try rewrite F; reflexivity. }
  assert (ND : forall k y z, index i k w = y -> y = z -> index i k w = z) by congruence.
  split; [|split; [|split; [|split; [|split; [|split; [|split; [|split]]]]]]].
  - intros k. rewrite DI. destruct (Nat.ltb_spec k (sz a)), (elems a); cbn; split; intros Y; try discriminate; auto; destruct Y; try lia; discriminate.
  - intros k. rewrite DA, DI. destruct (Nat.leb_spec (sz a) k); [split; [discriminate|lia]|].
    destruct (Nat.ltb_spec k (sz a)); [|lia]. destruct (elems a); cbn; split; intros Y; try discriminate; auto. now destruct Y.
  - intros k. rewrite DA, DI, X. destruct (Nat.leb_spec (sz a) k); [tauto|]. split; [|lia].
    destruct (Nat.ltb_spec k (sz a)); [|lia]. destruct (elems a) as [l|]; cbn; [destruct (nth_error l k)|]; discriminate.
  - rewrite DF. destruct (Nat.eqb_spec (sz a) 0), (elems a); cbn; split; intros Y; try discriminate; auto; destruct Y; try lia; discriminate.
  - rewrite DK. destruct (Nat.eqb_spec (sz a) 0), (elems a); cbn; split; intros Y; try discriminate; auto; destruct Y; try lia; discriminate.
  - intros l k v E N. rewrite DA, DI, X, E, N. specialize (LE l E).
    assert (k < length l) by (apply nth_error_Some; congruence). destruct (Nat.leb_spec (sz a) k); [lia|]. destruct (Nat.ltb_spec k (sz a)); [auto|lia].
  - intros v l E. rewrite DF, X, E. specialize (LE _ E). cbn in LE. destruct (Nat.eqb_spec (sz a) 0); [lia|reflexivity].
  - intros v l E W. unfold whole in W. rewrite E in W. rewrite DK, X, E, <- W, app_length. cbn [length].
    destruct (Nat.eqb_spec (length l + 1) 0); [lia|]. cbn [negb andb]. replace (length l + 1 - 1) with (length l) by lia.
    rewrite nth_error_app2, Nat.sub_diag by lia. reflexivity.
  - intros W.
    assert (Y : forall k, k < sz a -> elems a <> None -> exists v, index i k w = Done v w).
    { intros k K E. rewrite X. unfold whole in W. destruct (elems a) as [l|]; [|congruence]. destruct (nth_error l k) as [v|] eqn:N; [eauto|].
      apply nth_error_None in N. lia. }
    assert (Z : forall k, d_index i k w <> Some Undef).
    { intros k. rewrite DI. destruct (Nat.ltb_spec k (sz a)); [|discriminate]. destruct (elems a) as [l|] eqn:E; [|discriminate]. cbn.
      destruct (Y k) as (v & Q); [auto|congruence|]. rewrite Q. discriminate. }
    split; [|split].
    + rewrite DF. destruct (Nat.eqb_spec (sz a) 0); [discriminate|]. destruct (elems a) as [l|] eqn:E; [|discriminate]. cbn.
      destruct (Y 0) as (v & Q); [lia|congruence|]. rewrite Q. discriminate.
    + rewrite DK. destruct (Nat.eqb_spec (sz a) 0); [discriminate|]. destruct (elems a) as [l|] eqn:E; [|discriminate]. cbn.
      destruct (Y (sz a - 1)) as (v & Q); [lia|congruence|]. rewrite Q. discriminate.
    + intros k. split; [apply Z|]. rewrite DA. destruct (sz a <=? k); [discriminate|apply Z].
Qed.

(* No assertion of an operation fires, in whatever state, other than that of an index;
   that one fires exactly if the index is outside or there is no memory.  What is not
   stopped does what the release build does. *)
Theorem C117_operations (V : Type) (zero : V) (std_alloc : nat) (pm ps : bool) (o : op V) (w : dworld V) :
  ((forall i k, ~ uses V o i k) -> d_exec zero std_alloc pm ps o w = Some (exec zero std_alloc pm ps o w)) /\
  forall i k f, uses V o i k -> arrays w i = Some f ->
    (m_size f <= k \/ m_data f = None -> d_exec zero std_alloc pm ps o w = None) /\
    (k < m_size f -> m_data f <> None -> d_exec zero std_alloc pm ps o w = Some (exec zero std_alloc pm ps o w)).
Proof.
  split.
  - intros N. apply operations. destruct o; try reflexivity; exfalso; eapply N; [right; eauto|left; eauto].
  - intros i k f [(v & ->)|(n & ->)] A; apply (indexed zero std_alloc pm ps _ i k w f); auto.
Qed.
Print Assumptions C117_operations.

Notation d_exec0 := (d_exec 0 0 false true).
Notation run0 := (run 0 0 false true).
Example C117_operations_example : exists w, run0 [NewList 0 [5; 6; 7] 0; New 1 0] (dstart []) = Some w /\
  d_exec0 (Write 0 3 9) w = None /\ d_exec0 (Write 1 0 9) w = None /\ (exists w', d_exec0 (Write 0 2 9) w = Some (Done tt w') /\ index 0 2 w' = Done 9 w') /\
  (exists w', d_exec0 (Assign 0 2 4) w = Some (Done tt w')) /\ d_exec0 (AssignOwn 0 1 3) w = None /\ d_exec0 (AssignOwn 0 1 2) w = Some Undef.
Proof.
  eexists. split; [vm_compute; reflexivity|]. split; [reflexivity|]. split; [reflexivity|].
  split; [eexists; split; vm_compute; reflexivity|]. split; [eexists; vm_compute; reflexivity|]. split; reflexivity.
Qed.

(* Whatever a program does with its arrays and wherever an allocation or a constructor
   throws: operator[], front and back end the program exactly if the index is outside or
   the memory was lost; at throws exactly if it is outside; the rest is the value; on an
   array that did not lose elements nothing is undefined. *)
Theorem C117_access (V : Type) (zero : V) (std_alloc : nat) (pm ps : bool) :
  exists Rel : dworld V -> state V -> Prop,
    (forall oracle, Rel (dstart oracle) nothing) /\
    (forall (w : dworld V) (st : state V) (o : op V), Rel w st -> legal ps o st ->
       d_exec zero std_alloc pm ps o w = Some (exec zero std_alloc pm ps o w) /\
       exists w' st', step zero std_alloc pm ps o st w w' st' /\ Rel w' st') /\
    (forall (w : dworld V) (st : state V), Rel w st -> guarded V w st).
Proof.
  exists R. split; [apply R_start|]. split.
  - intros w st o H L. split; [|destruct (every_step_works zero std_alloc pm ps o w st H L) as [w' [st' [A [B _]]]]; exists w', st'; auto].
    destruct (indexes o) as [[i k]|] eqn:I; [|now apply operations].
    destruct o; cbn in I; try discriminate; [destruct L|]. injection I as -> ->. cbn in L. destruct L as (a & l & A & E & K).
    destruct H as (f & R1 & R2 & _). destruct (R2 i a l (conj A E)) as (_ & LE & _).
    apply (indexed zero std_alloc pm ps (Write i k v) i k w (fld (f i) a)); [reflexivity|rewrite R1, A; reflexivity|cbn; lia|].
    cbn. rewrite E. discriminate.
  - apply guarded_R.
Qed.
Print Assumptions C117_access.
Example C117_access_example : exists w, run0 [NewList 0 [5; 6; 7] 0; NewMove 1 0; NewSize 2 0 0] (dstart []) = Some w /\
  d_index 0 0 w = None /\ d_front 0 w = None /\ d_index 1 2 w = Some (Done 7 w) /\ d_index 1 3 w = None /\ d_at 1 3 w = Some (Threw w) /\
  d_back 1 w = Some (Done 7 w) /\ d_back 2 w = None.
Proof. eexists. split; [vm_compute; reflexivity|]. vm_compute. repeat split. Qed.

(* in a release build these are undefined *)
Theorem C117_release_refuted : exists w, run0 [NewList 0 [5; 6; 7] 0; NewMove 1 0] (dstart []) = Some w /\
  front 0 w = Undef /\ d_front 0 w = None /\ index 1 3 w = Undef /\ d_index 1 3 w = None.
Proof. eexists. split; [vm_compute; reflexivity|]. vm_compute. repeat split. Qed.
Print Assumptions C117_release_refuted.
(* after an assignment in which the allocation fails at does not throw but ends the program *)
Theorem C117_failed_allocation_refuted : exists w, run0 [NewList 0 [5; 6; 7] 0; Assign 0 2 9] (dstart [false; false; false; false; true]) = Some w /\
  size 0 w = Done 2 w /\ d_at 0 0 w = None /\ at_ 0 0 w = Undef.
Proof. eexists. split; [vm_compute; reflexivity|]. vm_compute. repeat split. Qed.
Print Assumptions C117_failed_allocation_refuted.
(* after one in which an element's constructor throws an element that was not built is
   read, debug build or not *)
Theorem C117_failed_constructor_refuted : exists w, run0 [NewList 0 [5; 6; 7] 0; Assign 0 2 9] (dstart [false; false; false; false; false; false; true]) = Some w /\
  size 0 w = Done 2 w /\ d_index 0 0 w = Some (Done 9 w) /\ d_index 0 1 w = Some Undef /\ d_at 0 1 w = Some Undef.
Proof. eexists. split; [vm_compute; reflexivity|]. vm_compute. repeat split. Qed.
Print Assumptions C117_failed_constructor_refuted.
