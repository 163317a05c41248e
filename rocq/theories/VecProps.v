(* C06 - C09: the one-dimensional vector. *)
From Coq Require Import List Bool Arith Lia.
From Verif Require Import VecModel VecWorld VecSpec VecProofs VecRaw VecOps VecRun.
Import ListNotations.

Definition never : nat -> bool := fun _ => false.
Definition at_ (k : nat) : nat -> bool := Nat.eqb k.

Section Props.
Context {V : Type}.

Lemma sees_all : forall (m : @mem V) vs ls, wgood m vs ls -> Forall2 (sees m) vs ls.
Proof. intros m vs ls (H & _). eapply Forall2_impl; [|exact H]. apply vgood_sees. Qed.

(* C06: whatever a program does with vectors within their preconditions, nothing
   undefined happens, each vector holds the list the list operations give, its
   capacity covers it, exactly the erroneous calls throw, and in the end every
   element is destroyed and every block freed, once. *)
Theorem C06_vectors_are_lists : forall half (ops : list (@vop V)), legal_all ops [] ->
  exists vs m, run never never half ops [] mem0 = Some (errors ops [], vs, m) /\
    Forall2 (sees m) vs (play ops []) /\
    exists m', destruct_all vs m = Ok tt m' /\ forall b, blk m' b = None.
Proof.
  intros half ops L.
  destruct (run_quiet never never half (fun _ => eq_refl) (fun _ => eq_refl) ops [] mem0 [] wgood0 L) as (vs & m & E & W).
  exists vs, m. split; auto. split; [apply sees_all; auto|]. eapply destruct_all_spec; eauto.
Qed.

(* C07: the states reached by legal operations when element constructors throw at
   any moments, and allocations too except in insertions. The program sees the
   outcome of each operation and the contents before it chooses the next one. *)
Inductive reach (fails nomem : nat -> bool) (half : nat) : list vec -> @mem V -> list (list V) -> Prop :=
  | R_start : reach fails nomem half [] mem0 []
  | R_step vs m ls op vs' m' ls' : reach fails nomem half vs m ls -> legal ls op -> (inserts op -> forall t, nomem t = false) ->
      exec fails nomem half op vs m = Ok vs' m' \/ exec fails nomem half op vs m = Exc vs' m' ->
      Forall2 (sees m') vs' ls' -> reach fails nomem half vs' m' ls'.

Lemma list_nth_eq : forall (xs ys : list V), (forall k, nth_error xs k = nth_error ys k) -> xs = ys.
Proof.
  induction xs as [|x xs IH]; intros [|y ys] H; auto; try (specialize (H 0); discriminate).
  pose proof (H 0) as H0. injection H0 as ->. f_equal. apply IH. intros k. apply (H (S k)).
Qed.
Lemma sees_det : forall (m : @mem V) v xs ys, sees m v xs -> sees m v ys -> xs = ys.
Proof.
  intros m v xs ys (S1 & _ & R1) (S2 & _ & R2). apply list_nth_eq. intros k.
  destruct (nth_error xs k) as [x|] eqn:E1, (nth_error ys k) as [y|] eqn:E2; auto.
  - destruct (R1 _ _ E1) as (b1 & B1 & D1), (R2 _ _ E2) as (b2 & B2 & D2). congruence.
  - apply nth_error_None in E2. assert (k < length xs) by (apply nth_error_Some; congruence). lia.
  - apply nth_error_None in E1. assert (k < length ys) by (apply nth_error_Some; congruence). lia.
Qed.
Lemma sees_all_det : forall (m : @mem V) vs ls ls', Forall2 (sees m) vs ls -> Forall2 (sees m) vs ls' -> ls = ls'.
Proof.
  induction vs as [|v vs IH]; intros ls ls' H H'; inversion H; inversion H'; subst; auto.
  f_equal; eauto. eapply sees_det; eauto.
Qed.
Lemma reach_good : forall fails nomem half vs m ls, reach fails nomem half vs m ls -> wgood m vs ls.
Proof.
  intros fails nomem half vs m ls R. induction R as [|vs m ls op vs' m' ls' R IH L NI E S]; [apply wgood0|].
  pose proof (exec_spec fails nomem half op m vs ls IH L NI) as P.
  destruct E as [E|E]; rewrite E in P; destruct P as (ls2 & W & _);
    rewrite (sees_all_det _ _ _ _ S (sees_all _ _ _ W)); auto.
Qed.

(* nothing undefined happens; an operation that returns has done its work; one
   that throws reports an error of its own, having changed nothing, or left what
   damaged allows; and at any time all can be destroyed and freed, once *)
Theorem C07_any_throw : forall fails nomem half vs m ls, reach fails nomem half vs m ls ->
  Forall2 (sees m) vs ls /\
  (exists m', destruct_all vs m = Ok tt m' /\ forall b, blk m' b = None) /\
  forall op, legal ls op -> (inserts op -> forall t, nomem t = false) ->
    match exec fails nomem half op vs m with
    | Ok vs' m' => exists ls', result op ls = Some ls' /\ Forall2 (sees m') vs' ls'
    | Exc vs' m' => exists ls', ((result op ls = None /\ ls' = ls) \/ damaged op ls ls') /\ Forall2 (sees m') vs' ls'
    | Bad => False
    end.
Proof.
  intros fails nomem half vs m ls R. pose proof (reach_good _ _ _ _ _ _ R) as W.
  split; [apply sees_all; auto|]. split; [eapply destruct_all_spec; eauto|]. intros op L NI.
  pose proof (exec_spec fails nomem half op m vs ls W L NI) as P.
  destruct (exec fails nomem half op vs m) as [vs' m'|vs' m'|]; auto.
  - destruct P as (ls' & W' & H). exists ls'. split; auto. apply sees_all; auto.
  - destruct P as (ls' & W' & H). exists ls'. split; [|apply sees_all; auto].
    destruct H as [[? ?]|[_ H]]; auto.
Qed.

(* of appending, resizing, reserving, shrinking and copying nothing is lost when
   they throw *)
Definition strong (op : @vop V) : Prop :=
  match op with
  | InsertOne _ _ _ | InsertCount _ _ _ _ | InsertRange _ _ _ | EraseOne _ _ | EraseRange _ _ _ | Assign _ _ _ => False
  | _ => True
  end.
Theorem C07_strong_guarantee : forall fails nomem half vs m ls op, reach fails nomem half vs m ls ->
  legal ls op -> strong op ->
  match exec fails nomem half op vs m with
  | Ok vs' m' => exists ls', result op ls = Some ls' /\ Forall2 (sees m') vs' ls'
  | Exc vs' m' => Forall2 (sees m') vs' ls
  | Bad => False
  end.
Proof.
  intros fails nomem half vs m ls op R L St. pose proof (reach_good _ _ _ _ _ _ R) as W.
  pose proof (exec_spec fails nomem half op m vs ls W L ltac:(destruct op; simpl in *; tauto)) as P.
  destruct (exec fails nomem half op vs m) as [vs' m'|vs' m'|]; auto.
  - destruct P as (ls' & W' & H). exists ls'. split; auto. apply sees_all; auto.
  - destruct P as (ls' & W' & H). destruct H as [[_ ->]|[_ [->|(i & xs & new & ys & _ & _ & _ & D)]]].
    1,2: apply sees_all; auto.
    destruct op; simpl in *; contradiction.
Qed.

(* swapping, moving, clearing and removing the last element never throw *)
Definition no_throw (op : @vop V) (ls : list (list V)) : Prop :=
  match op with
  | MakeEmpty | MakeMove _ | MoveAssign _ _ | Swap _ _ | Clear _ => True
  | PopBack i => nth i ls [] <> []
  | _ => False
  end.
Theorem C07_no_throw : forall fails nomem half vs m ls op, reach fails nomem half vs m ls ->
  legal ls op -> no_throw op ls ->
  exists vs' m' ls', exec fails nomem half op vs m = Ok vs' m' /\ result op ls = Some ls' /\ Forall2 (sees m') vs' ls'.
Proof.
  intros fails nomem half vs m ls op R L N.
  pose proof (C07_strong_guarantee fails nomem half vs m ls op R L ltac:(destruct op; simpl in *; tauto)) as P.
  pose proof (sees_all _ _ _ (reach_good _ _ _ _ _ _ R)) as S.
  destruct (exec fails nomem half op vs m) as [vs' m'|vs' m'|] eqn:E; [|exfalso|contradiction].
  { destruct P as (ls' & A & B). eauto 6. }
  destruct op; simpl in N; try contradiction; cbn [exec] in E; unfold on in E; try discriminate;
    repeat match type of E with context [nth_error vs ?k] => destruct (nth_error vs k) as [w|] eqn:?; try discriminate end.
  - unfold pop_back in E. destruct (vsize w) eqn:Ev.
    + destruct (Forall2_nth _ _ _ _ _ S Heqo) as (xs & Hx & Sx). destruct Sx as [Sx _].
      rewrite (nth_error_nth _ _ [] Hx) in N. destruct xs; [contradiction|simpl in Sx; lia].
    + destruct (ptr (vraw w)); [|discriminate]. unfold andthen in E. destruct (destroy1 n0 n m) eqn:D; discriminate.
  - unfold clear, andthen in E. destruct (destroy_all w m) eqn:D; discriminate.
  - unfold move_assign, andthen in E.
    repeat (match type of E with context [match ?x with _ => _ end] => destruct x end; try discriminate).
  - repeat (match type of E with context [match ?x with _ => _ end] => destruct x end; try discriminate); discriminate.
Qed.

(* C08: appending an element of the vector itself is right while the capacity
   suffices ... *)
Theorem C08_push_back_alias_in_place : forall half (ops : list (@vop V)) i k xs x vs m fl v,
  legal_all ops [] -> run never never half ops [] mem0 = Some (fl, vs, m) ->
  nth_error (play ops []) i = Some xs -> nth_error xs k = Some x ->
  nth_error vs i = Some v -> vsize v < cap (vraw v) ->
  exists vs' m', exec never never half (PushBack i (Elem i k)) vs m = Ok vs' m' /\
    Forall2 (sees m') vs' (upd (play ops []) i (xs ++ [x])).
Proof.
  intros half ops i k xs x vs m fl v L R Hx Hk Hv Hc.
  destruct (run_quiet never never half (fun _ => eq_refl) (fun _ => eq_refl) ops [] mem0 [] wgood0 L) as (vs1 & m1 & E & W).
  rewrite R in E. injection E as -> <- <-.
  destruct (Forall2_nth_r _ _ _ _ _ (proj1 W) Hx) as (v' & Hv' & G). rewrite Hv in Hv'. injection Hv' as <-.
  destruct (alias_read m v xs k x G Hk) as (b & Hb & Rd).
  assert (Lk : k < length xs) by (apply nth_error_Some; congruence).
  cbn [exec]. unfold with_src, resolve, on. rewrite Hv. rewrite (proj2 G) in *.
  destruct (Nat.ltb_spec k (length xs)); [|lia]. rewrite Hb. cbn [option_map].
  pose proof (push_alias_in_place never never half m v xs k x b G (proj1 (proj2 W)) Hk Hb Hc) as P.
  destruct (push_back never never half v (Ref b k) m) as [v2 m2|v2 m2|]; [|exfalso|contradiction].
  - do 2 eexists. split; [reflexivity|]. apply sees_all. eapply world_upd; eauto.
  - destruct P as [_ [[t T]|[t T]]]; discriminate.
Qed.

(* ... and wrong each time the vector is full: the element is read after its
   block was freed *)
Theorem C08_push_back_alias_full : forall half (ops : list (@vop V)) i k xs vs m fl v,
  legal_all ops [] -> run never never half ops [] mem0 = Some (fl, vs, m) ->
  nth_error (play ops []) i = Some xs -> k < length xs ->
  nth_error vs i = Some v -> vsize v = cap (vraw v) ->
  exec never never half (PushBack i (Elem i k)) vs m = Bad.
Proof.
  intros half ops i k xs vs m fl v L R Hx Hk Hv Hc.
  destruct (run_quiet never never half (fun _ => eq_refl) (fun _ => eq_refl) ops [] mem0 [] wgood0 L) as (vs1 & m1 & E & W).
  rewrite R in E. injection E as -> <- <-.
  destruct (Forall2_nth_r _ _ _ _ _ (proj1 W) Hx) as (v' & Hv' & G). rewrite Hv in Hv'. injection Hv' as <-.
  destruct (nth_error xs k) as [x|] eqn:Ex; [|apply nth_error_None in Ex; lia].
  destruct (alias_read m v xs k x G Ex) as (b & Hb & Rd).
  cbn [exec]. unfold with_src, resolve, on. rewrite Hv. rewrite (proj2 G) in *.
  destruct (Nat.ltb_spec k (length xs)); [|lia]. rewrite Hb. cbn [option_map].
  pose proof (push_back_spec never never half m v xs (Ext x) x G (proj1 (proj2 W)) eq_refl ltac:(intros _ ? ? H0; discriminate)) as P0.
  pose proof (push_alias_bad never never half m v xs k b G (proj1 (proj2 W)) Hk Hb Hc) as P.
  destruct (push_back never never half v (Ref b k) m) as [v2 m2|v2 m2|] eqn:E2; [contradiction| |auto].
  exfalso. unfold push_back, prepare_push_back in E2.
  pose proof (push_prep_spec never never half m (vraw v) xs (S (vsize v)) (proj1 G) (proj1 (proj2 W)) ltac:(rewrite (proj2 G); lia)) as Q.
  rewrite (proj2 G) in *. unfold prepare_push_back in Q.
  destruct (if cap (vraw v) <? S (length xs) then _ else _) as [r3 m3|r3 m3|]; [| |contradiction].
  - destruct (ptr r3) as [b3|]; [|discriminate]. unfold construct in E2.
    destruct (blk m3 b3) as [l3|]; [|discriminate]. destruct (nth_error l3 (length xs)) as [[|]|]; try discriminate.
    destruct (read m3 (Ref b k)); discriminate.
  - destruct Q as (_ & _ & [[t T]|[t T]]); discriminate.
Qed.

(* assigning an element of the vector to all of it, within the capacity, reads a
   destroyed element *)
Theorem C08_assign_alias : forall half (ops : list (@vop V)) i k n xs vs m fl v,
  legal_all ops [] -> run never never half ops [] mem0 = Some (fl, vs, m) ->
  nth_error (play ops []) i = Some xs -> k < length xs ->
  nth_error vs i = Some v -> 0 < n <= cap (vraw v) ->
  exec never never half (Assign i n (Elem i k)) vs m = Bad.
Proof.
  intros half ops i k n xs vs m fl v L R Hx Hk Hv Hc.
  destruct (run_quiet never never half (fun _ => eq_refl) (fun _ => eq_refl) ops [] mem0 [] wgood0 L) as (vs1 & m1 & E & W).
  rewrite R in E. injection E as -> <- <-.
  destruct (Forall2_nth_r _ _ _ _ _ (proj1 W) Hx) as (v' & Hv' & G). rewrite Hv in Hv'. injection Hv' as <-.
  destruct (nth_error xs k) as [x|] eqn:Ex; [|apply nth_error_None in Ex; lia].
  destruct (alias_read m v xs k x G Ex) as (b & Hb & Rd).
  cbn [exec]. unfold with_src, resolve, on. rewrite Hv, (proj2 G).
  destruct (Nat.ltb_spec k (length xs)); [|lia]. rewrite Hb. cbn [option_map].
  rewrite (assign_alias_bad never never half m v xs n k b G (proj1 (proj2 W)) Hk Hb); auto; lia.
Qed.

(* C09: the policy *)
Theorem C09_policy : forall half old new, old < new ->
  new <= increase half old new /\ old < increase half old new /\
  (old < half -> 2 * old <= increase half old new /\ 2 * old < 2 * half).
Proof.
  intros half old new H. unfold increase. destruct (Nat.ltb_spec old half); lia.
Qed.

(* C09: n appends to an empty vector cost at most 4 n element constructions and
   allocations together *)
Theorem C09_amortised : forall half (l : list V), length l <= half ->
  exists fl v m, run never never half (MakeEmpty :: map (fun x => PushBack 0 (Val x)) l) [] mem0 = Some (fl, [v], m) /\
    tick m <= 4 * length l /\ sees m v l.
Proof.
  intros half l H. cbn [run exec app].
  assert (W : wgood (@mem0 V) [vec0] [[]]).
  { apply (world_add mem0 [] []); [apply wgood0|]. apply vafter_refl; [split; [split|]; auto|apply wgood0]. }
  destruct (pushes_gen never never half (fun _ => eq_refl) (fun _ => eq_refl) l mem0 vec0 [] W ltac:(simpl; lia)) as (fl & v & m & E & C).
  rewrite E. exists (false :: fl), v, m. split; auto. split.
  - cbn [vec0 vraw cap length tick mem0] in C. destruct C as [[C1 C2]|[C1 C2]]; lia.
  - assert (La : forall l (ls : list V), legal_all (map (fun x => PushBack 0 (Val x)) l) [ls] /\ play (map (fun x => PushBack 0 (Val x)) l) [ls] = [ls ++ l]).
    { clear. induction l as [|x l IH]; intros ls; cbn [map legal_all play].
      - rewrite app_nil_r; auto.
      - unfold effect. cbn [result value nth upd]. destruct (IH (ls ++ [x])) as [I1 I2].
        split; [split; auto|]. + econstructor; try reflexivity; exact I. + rewrite I2, <- app_assoc. auto. }
    destruct (La l []) as [L1 L2].
    destruct (run_quiet never never half (fun _ => eq_refl) (fun _ => eq_refl) _ _ mem0 [[]] W L1) as (vs1 & m1 & E1 & W1).
    rewrite E in E1. injection E1 as _ <- <-. rewrite L2 in W1.
    apply sees_all in W1. inversion W1; auto.
Qed.

(* and, from any vector, k appends cost at most 4 k plus the number of elements
   it already holds *)
Theorem C09_amortised_any : forall half (ops : list (@vop V)) (l xs : list V), legal_all ops [] -> play ops [] = [xs] ->
  length xs + length l <= half ->
  exists fl v m fl' v' m', run never never half ops [] mem0 = Some (fl, [v], m) /\
    run never never half (map (fun x => PushBack 0 (Val x)) l) [v] m = Some (fl', [v'], m') /\
    tick m' <= tick m + 4 * length l + length xs.
Proof.
  intros half ops l xs L P H.
  destruct (run_quiet never never half (fun _ => eq_refl) (fun _ => eq_refl) ops [] mem0 [] wgood0 L) as (vs & m & E & W).
  rewrite P in W. pose proof (Forall2_len _ _ _ (proj1 W)) as Len. destruct vs as [|v [|]]; try discriminate.
  destruct (pushes_gen never never half (fun _ => eq_refl) (fun _ => eq_refl) l m v xs W H) as (fl & v' & m' & E' & C).
  do 6 eexists. split; [exact E|]. split; [exact E'|].
  assert (Lc : length xs <= cap (vraw v)). { destruct W as (H2 & _). inversion H2 as [|? ? ? ? [G _]]. apply (good_cap _ _ _ G). }
  destruct C as [[C1 C2]|[C1 C2]]; lia.
Qed.
End Props.

(* C07: inserting when the allocation fails forgets the elements: the vector is
   empty afterwards although its block still holds them, and they are never
   destroyed *)
Theorem C07_insert_out_of_memory_refuted : exists nomem (ops : list (@vop nat)) fl v m,
  legal_all ops [] /\ run never nomem 100 ops [] mem0 = Some (fl, [v], m) /\
  play (removelast ops) [] = [[7]] /\ fl = [false; false; true] /\
  vsize v = 0 /\ destruct_all [v] m = Bad.
Proof.
  exists (at_ 2), [MakeEmpty; PushBack 0 (Val 7); InsertOne 0 0 (Val 8)].
  do 3 eexists. split.
  - cbn [legal_all effect result value nth upd app]. repeat split.
    + constructor. + econstructor; try reflexivity; exact I.
    + econstructor; try reflexivity; first [exact I|simpl; lia].
  - split; [vm_compute; reflexivity|]. vm_compute. auto.
Qed.
(* C08: so push_back(v[0]) is not safe *)
Theorem C08_push_back_alias_refuted : exists (ops : list (@vop nat)) fl v m,
  legal_all ops [] /\ run never never 100 ops [] mem0 = Some (fl, [v], m) /\ play ops [] = [[7]] /\
  exec never never 100 (PushBack 0 (Elem 0 0)) [v] m = Bad.
Proof.
  exists [MakeEmpty; PushBack 0 (Val 7)]. do 3 eexists. split.
  - cbn [legal_all effect result value nth upd app]. repeat split.
    + constructor. + econstructor; try reflexivity; exact I.
  - split; [vm_compute; reflexivity|]. vm_compute. auto.
Qed.
(* C08: inserting an element of the vector before itself inserts another one,
   or reads a destroyed one *)
Definition three : list (@vop nat) := [MakeEmpty; Reserve 0 8; PushBack 0 (Val 1); PushBack 0 (Val 2); PushBack 0 (Val 3)].
Theorem C08_insert_alias_refuted : exists fl v m v' m',
  legal_all three [] /\ run never never 100 three [] mem0 = Some (fl, [v], m) /\
  exec never never 100 (InsertOne 0 0 (Elem 0 2)) [v] m = Ok [v'] m' /\ sees m' v' [2; 1; 2; 3] /\
  exec never never 100 (InsertOne 0 0 (Elem 0 0)) [v] m = Bad.
Proof.
  do 5 eexists. split; [|split; [vm_compute; reflexivity|split; [vm_compute; reflexivity|split; [|vm_compute; reflexivity]]]].
  - cbn [three legal_all effect result value nth upd app]. repeat split; econstructor; try reflexivity; exact I.
  - split; [reflexivity|]. split; [simpl; lia|]. intros k x H.
    exists 0. split; [reflexivity|]. destruct k as [|[|[|[|k]]]]; simpl in H; try (injection H as <-; reflexivity).
    destruct k; discriminate.
Qed.

(* ---- examples meeting the hypotheses ---- *)
Definition tour : list (@vop nat) :=
  [MakeEmpty; PushBack 0 (Val 1); PushBack 0 (Val 2); InsertCount 0 1 3 (Val 9); MakeCopy 0; EraseRange 0 1 3;
   InsertRange 1 5 [Elem 0 0; Elem 0 2]; PopBack 0; Resize 0 6 (Elem 0 1); Swap 0 1; MakeMove 1; PopBack 1;
   Assign 0 2 (Elem 2 0); CopyAssign 1 2; MoveAssign 2 0; Shrink 1; Clear 0; Reserve 0 4].
Ltac legal_tac :=
  match goal with
  | |- legal _ _ => econstructor; try reflexivity; simpl; repeat first [lia | constructor | discriminate | auto]
  end.
Example C06_tour_legal : legal_all tour [] /\
  play tour [] = [[]; [1; 9; 9; 9; 9; 9]; [1; 1]] /\
  errors tour [] = [false; false; false; false; false; false; false; false; false; false; false; true; false; false; false; false; false; false].
Proof.
  split; [|split; vm_compute; reflexivity].
  cbn [tour legal_all effect result value values nth upd app nth_error erase_at insert_at concat repeat firstn skipn Nat.sub Nat.add length Nat.ltb Nat.leb removelast].
  repeat (split; [legal_tac|]); exact I.
Qed.
Example C06_tour_runs : exists vs m, run never never 1000 tour [] mem0 = Some (errors tour [], vs, m) /\ length vs = 3.
Proof. do 2 eexists. split; [vm_compute; reflexivity|reflexivity]. Qed.
(* the copy constructor throws in the middle of an insertion: the prefix stays *)
Example C07_insert_throws : exists vs m, run (at_ 5) never 1000 (three ++ [InsertOne 0 1 (Val 9)]) [] mem0
    = Some ([false; false; false; false; false; true], vs, m) /\ Forall2 (sees m) vs [[1; 2]].
Proof.
  do 2 eexists. split; [vm_compute; reflexivity|]. constructor; [|constructor].
  split; [reflexivity|]. split; [simpl; lia|]. intros k x H.
  exists 0. split; [reflexivity|]. destruct k as [|[|k]]; simpl in H; try (injection H as <-; reflexivity).
  destruct k; discriminate.
Qed.
(* a failed reservation, after which the program goes on *)
Example C07_reached : exists vs m, reach never (at_ 5) 1000 vs m [[7; 8]] /\ legal [[7; 8]] (Reserve 0 50) /\
  strong (@Reserve nat 0 50) /\ exists vs' m', exec never (at_ 5) 1000 (Reserve 0 50) vs m = Exc vs' m'.
Proof.
  do 2 eexists. split.
  - eapply R_step with (op := PushBack 0 (Val 8)) (ls := [[7]]).
    + eapply R_step with (op := PushBack 0 (Val 7)) (ls := [[]]).
      * eapply R_step with (op := MakeEmpty); [apply R_start|constructor|intros []|left; reflexivity|].
        constructor; [|constructor]. split; [reflexivity|split; [simpl; lia|]]. intros [|k] x H; discriminate.
      * eapply L_push; reflexivity || exact I.
      * intros [].
      * left; vm_compute; reflexivity.
      * constructor; [|constructor]. split; [reflexivity|split; [simpl; lia|]]. intros [|[|k]] x H; try discriminate.
        exists 0. split; auto.
    + eapply L_push; reflexivity || exact I.
    + intros [].
    + left; vm_compute; reflexivity.
    + constructor; [|constructor]. split; [reflexivity|split; [simpl; lia|]].
      intros [|[|[|k]]] x H; try discriminate; exists 1; split; auto.
  - split; [eapply L_reserve; reflexivity|]. split; [exact I|]. do 2 eexists. vm_compute. reflexivity.
Qed.
Example C09_run : exists fl v m, run never never 1000 (MakeEmpty :: map (fun x => PushBack 0 (Val x)) (seq 0 20)) [] mem0 = Some (fl, [v], m)
  /\ tick m = 20 + 6 + 31 /\ cap (vraw v) = 32.
Proof. do 3 eexists. split; [vm_compute; reflexivity|]. vm_compute. auto. Qed.

Print Assumptions C06_vectors_are_lists.
Print Assumptions C07_any_throw.
Print Assumptions C07_strong_guarantee.
Print Assumptions C07_no_throw.
Print Assumptions C07_insert_out_of_memory_refuted.
Print Assumptions C08_push_back_alias_in_place.
Print Assumptions C08_push_back_alias_full.
Print Assumptions C08_push_back_alias_refuted.
Print Assumptions C08_assign_alias.
Print Assumptions C08_insert_alias_refuted.
Print Assumptions C09_policy.
Print Assumptions C09_amortised.
Print Assumptions C09_amortised_any.
