(* C99: vectors of trivial elements, which are copied with memcpy and memmove and
   never destroyed. *)
From Coq Require Import List Bool Arith Lia.
From Verif Require Import VecModel VecWorld VecSpec VecProofs VecRaw VecOps VecRun VecProps TrivModel TrivSpec TrivProofs TrivRun.
Import ListNotations.

Section Props.
Context {V : Type}.
Notation mem := (@mem V).

Lemma t_run_quiet : forall half ptrs ops vs (m : mem) ls, tgood m vs ls -> t_legal_all ops ls ->
  exists vs' m', t_run never half ptrs ops vs m = Some (errors ops ls, vs', m') /\ tgood m' vs' (play ops ls).
Proof.
  intros half ptrs. induction ops as [|op ops IH]; intros vs m ls T L.
  - exists vs, m. auto.
  - destruct L as [L1 L2]. cbn [t_run errors play]. pose proof (t_exec_full never half ptrs op m vs ls T L1) as P.
    destruct (t_exec never half ptrs op vs m) as [vs1 m1|vs1 m1|]; [| |contradiction].
    + destruct P as (ls1 & T1 & R). unfold effect in *. rewrite R in *. destruct (IH vs1 m1 ls1 T1 L2) as (vs' & m' & E & T'). rewrite E. eauto.
    + destruct P as (ls1 & T1 & [[R ->]|[N _]]); [|discriminate]. unfold effect in *. rewrite R in *.
      destruct (IH vs1 m1 ls T1 L2) as (vs' & m' & E & T'). rewrite E. eauto.
Qed.

(* whatever a program does with vectors of trivial elements within their
   preconditions, and whichever of the ranges it passes are pointers: nothing
   undefined happens - in particular memcpy never gets overlapping ranges -, each
   vector holds the list the list operations give, exactly the erroneous calls
   throw, and in the end every block is freed, once *)
Theorem C99_vectors_are_lists : forall half ptrs (ops : list (@vop V)), t_legal_all ops [] ->
  exists vs m, t_run never half ptrs ops [] mem0 = Some (errors ops [], vs, m) /\
    Forall2 (sees m) vs (play ops []) /\
    exists m', t_destruct_all vs m = Ok tt m' /\ forall b, blk m' b = None.
Proof.
  intros half ptrs ops L. destruct (t_run_quiet half ptrs ops [] mem0 [] tgood0 L) as (vs & m & E & T).
  exists vs, m. split; auto. split; [apply tgood_sees; auto|]. eapply t_destruct_all_spec; eauto.
Qed.

(* the vectors of trivial elements and those of other elements go through the same
   states: the same blocks, capacities, sizes and times, and the same elements *)
Theorem C99_as_other_elements : forall half ptrs (ops : list (@vop V)), legal_all ops [] ->
  exists fl vs m mt, run never never half ops [] mem0 = Some (fl, vs, m) /\
    t_run never half ptrs ops [] mem0 = Some (fl, vs, mt) /\ tick mt = tick m /\
    (forall b, blk m b = None <-> blk mt b = None) /\
    forall b k x, read m (Ref b k) = Some x -> read mt (Ref b k) = Some x.
Proof.
  intros half ptrs ops L.
  assert (K : forall ops vs (m mt : mem) ls, wgood m vs ls -> Rel m mt -> legal_all ops ls ->
    exists fl vs' m' mt', run never never half ops vs m = Some (fl, vs', m') /\
      t_run never half ptrs ops vs mt = Some (fl, vs', mt') /\ Rel m' mt').
  { clear. induction ops as [|op ops IH]; intros vs m mt ls W R L.
    - exists [], vs, m, mt. auto.
    - destruct L as [L1 L2]. cbn [run t_run]. pose proof (sim_exec never half ptrs op m mt vs ls W L1 R) as S.
      pose proof (exec_spec never never half op m vs ls W L1 ltac:(auto)) as P. unfold exec_post in P.
      change (exec (fun _ => false) never half op vs m) with (exec never never half op vs m) in S.
      destruct (exec never never half op vs m) as [vs1 m1|vs1 m1|]; [| |contradiction]; destruct S as (mt1 & -> & R1).
      + destruct P as (ls1 & W1 & H). unfold effect in L2. rewrite H in L2.
        destruct (IH vs1 m1 mt1 ls1 W1 R1 L2) as (fl & vs' & m' & mt' & E1 & E2 & R'). rewrite E1, E2. exists (false :: fl), vs', m', mt'. auto.
      + destruct P as (ls1 & W1 & [[H ->]|[[[t X]|[t X]] _]]); [|discriminate|discriminate]. unfold effect in L2. rewrite H in L2.
        destruct (IH vs1 m1 mt1 ls W1 R1 L2) as (fl & vs' & m' & mt' & E1 & E2 & R'). rewrite E1, E2. exists (true :: fl), vs', m', mt'. auto. }
  destruct (K ops [] mem0 mem0 [] wgood0) as (fl & vs & m & mt & E1 & E2 & R); auto.
  { split; [auto|]. split; [auto|]. split; [intros b; exact I|auto]. }
  exists fl, vs, m, mt. split; auto. split; auto. destruct R as (A & B & C & D). split; auto. split.
  - intros b. specialize (C b). destruct (blk m b), (blk mt b); split; intros; try discriminate; auto; contradiction.
  - intros b k x. apply rel_read. split; auto.
Qed.

(* the states reached when any allocations fail; the program sees the outcome of
   each operation and the contents before it chooses the next one *)
Inductive t_reach (nomem : nat -> bool) (half : nat) (ptrs : nat -> bool) : list vec -> mem -> list (list V) -> Prop :=
  | TR_start : t_reach nomem half ptrs [] mem0 []
  | TR_step vs m ls op vs' m' ls' : t_reach nomem half ptrs vs m ls -> t_legal ls op ->
      t_exec nomem half ptrs op vs m = Ok vs' m' \/ t_exec nomem half ptrs op vs m = Exc vs' m' ->
      Forall2 (sees m') vs' ls' -> t_reach nomem half ptrs vs' m' ls'.
Lemma t_reach_good : forall nomem half ptrs vs m ls, t_reach nomem half ptrs vs m ls -> tgood m vs ls.
Proof.
  intros nomem half ptrs vs m ls R. induction R as [|vs m ls op vs' m' ls' R IH L E S]; [apply tgood0|].
  pose proof (t_exec_full nomem half ptrs op m vs ls IH L) as P.
  destruct E as [E|E]; rewrite E in P; destruct P as (ls2 & T & _);
    rewrite (sees_all_det _ _ _ _ S (tgood_sees _ _ _ T)); auto.
Qed.

(* nothing undefined happens and nothing leaks, even when an insertion finds no
   memory: an operation returns having done its work, or reports an error of its own
   having changed nothing, or its allocation failed - then nothing changed, but the
   vector to insert into lost its elements *)
Theorem C99_any_allocation_fails : forall nomem half ptrs vs m ls, t_reach nomem half ptrs vs m ls ->
  Forall2 (sees m) vs ls /\
  (exists m', t_destruct_all vs m = Ok tt m' /\ forall b, blk m' b = None) /\
  forall op, t_legal ls op ->
    match t_exec nomem half ptrs op vs m with
    | Ok vs' m' => exists ls', result op ls = Some ls' /\ Forall2 (sees m') vs' ls'
    | Exc vs' m' => exists ls', ((result op ls = None /\ ls' = ls) \/ (nomem (tick m) = true /\ ls' = starved op ls)) /\
        Forall2 (sees m') vs' ls'
    | Bad => False
    end.
Proof.
  intros nomem half ptrs vs m ls R. pose proof (t_reach_good _ _ _ _ _ _ R) as T.
  split; [apply tgood_sees; auto|]. split; [eapply t_destruct_all_spec; eauto|]. intros op L.
  pose proof (t_exec_full nomem half ptrs op m vs ls T L) as P.
  destruct (t_exec nomem half ptrs op vs m) as [vs' m'|vs' m'|]; auto.
  - destruct P as (ls' & T' & H). exists ls'. split; auto. apply tgood_sees; auto.
  - destruct P as (ls' & T' & H). exists ls'. split; auto. apply tgood_sees; auto.
Qed.

(* insert(off, n, v[k]) and insert(off, v[k]) within the capacity: the reference
   is read after the right part was moved, so for k >= off + n the element n places
   before v[k] is inserted *)
Theorem C99_insert_own_element : forall nomem half ptrs vs m ls i v xs off n k, t_reach nomem half ptrs vs m ls ->
  nth_error vs i = Some v -> nth_error ls i = Some xs -> off <= length xs -> k < length xs ->
  0 < n -> length xs + n <= cap (vraw v) ->
  exists y, inserted xs off n k = Some y /\
    forall op, op = InsertCount i off n (Elem i k) \/ (n = 1 /\ op = InsertOne i off (Elem i k)) ->
    exists vs' m', t_exec nomem half ptrs op vs m = Ok vs' m' /\
      Forall2 (sees m') vs' (upd ls i (insert_at off (repeat y n) xs)).
Proof.
  intros nomem half ptrs vs m ls i v xs off n k R Hv Hx Lo Lk Ln Lc. pose proof (t_reach_good _ _ _ _ _ _ R) as T.
  assert (Y : exists y, inserted xs off n k = Some y).
  { unfold inserted. destruct (k <? off + n).
    - destruct (nth_error xs k) eqn:E; [eauto|apply nth_error_None in E; lia].
    - destruct (nth_error xs (k - n)) eqn:E; [eauto|apply nth_error_None in E; lia]. }
  destruct Y as (y & Hy). exists y. split; auto. intros op Hop.
  destruct (insert_own_in_place nomem half m vs ls i v xs off n k y T Hv Hx Lo Lk Lc Ln Hy) as (b & Pb & v' & m' & E & T').
  destruct (tgood_get _ _ _ _ _ T Hx) as (v1 & Hv1 & S & _ & _). rewrite Hv in Hv1. injection Hv1 as <-.
  exists (upd vs i v'), m'. split; [|apply tgood_sees; auto].
  destruct Hop as [->|[-> ->]]; cbn [t_exec]; unfold with_src, resolve, on; rewrite Hv, S;
    (destruct (Nat.ltb_spec k (length xs)); [|lia]); rewrite Pb; cbn [option_map].
  - unfold t_insert_count. rewrite S. destruct (Nat.ltb_spec (length xs) off); [lia|]. destruct (Nat.eqb_spec n 0); [lia|]. rewrite E. auto.
  - unfold t_insert_one. rewrite S. destruct (Nat.ltb_spec (length xs) off); [lia|]. cbn [repeat] in E. rewrite E. auto.
Qed.
(* beyond the capacity the reference is read after its block was freed; so does
   push_back; within the capacity push_back is right *)
Theorem C99_own_element_full : forall nomem half ptrs vs m ls i v xs off n k, t_reach nomem half ptrs vs m ls ->
  nth_error vs i = Some v -> nth_error ls i = Some xs -> off <= length xs -> k < length xs ->
  0 < n -> cap (vraw v) < length xs + n -> nomem (tick m) = false ->
  t_exec nomem half ptrs (InsertCount i off n (Elem i k)) vs m = Bad /\
  (n = 1 -> t_exec nomem half ptrs (InsertOne i off (Elem i k)) vs m = Bad /\
            t_exec nomem half ptrs (PushBack i (Elem i k)) vs m = Bad).
Proof.
  intros nomem half ptrs vs m ls i v xs off n k R Hv Hx Lo Lk Ln Lc N. pose proof (t_reach_good _ _ _ _ _ _ R) as T.
  destruct (tgood_get _ _ _ _ _ T Hx) as (v1 & Hv1 & S & Lx & P). rewrite Hv in Hv1. injection Hv1 as <-.
  destruct (ptr (vraw v)) as [b|] eqn:Pb; [|destruct P as [_ ->]; cbn in Lk; lia].
  assert (Q : forall op, t_exec nomem half ptrs op vs m = t_exec (fun _ => false) half ptrs op vs m).
  { intros op. destruct (once_exec nomem half ptrs op vs m) as [E|[E _]]; [auto|congruence]. }
  rewrite !Q. clear Q. split.
  - cbn [t_exec]; unfold with_src, resolve, on; rewrite Hv, S. destruct (Nat.ltb_spec k (length xs)); [|lia]. rewrite Pb. cbn [option_map].
    unfold t_insert_count. rewrite S. destruct (Nat.ltb_spec (length xs) off); [lia|]. destruct (Nat.eqb_spec n 0); [lia|].
    rewrite insert_own_full; auto. lia.
  - intros ->. split; cbn [t_exec]; unfold with_src, resolve, on; rewrite Hv, S; (destruct (Nat.ltb_spec k (length xs)); [|lia]);
      rewrite Pb; cbn [option_map].
    + unfold t_insert_one. rewrite S. destruct (Nat.ltb_spec (length xs) off); [lia|].
      change [Ref b k] with (repeat (@Ref V b k) 1). rewrite (insert_own_full half v off 1 k b m); auto. lia.
    + rewrite push_own_full; auto. lia.
Qed.
Theorem C99_push_back_own_element : forall nomem half ptrs vs m ls i v xs k x, t_reach nomem half ptrs vs m ls ->
  nth_error vs i = Some v -> nth_error ls i = Some xs -> nth_error xs k = Some x -> vsize v < cap (vraw v) ->
  exists vs' m', t_exec nomem half ptrs (PushBack i (Elem i k)) vs m = Ok vs' m' /\
    Forall2 (sees m') vs' (upd ls i (xs ++ [x])).
Proof.
  intros nomem half ptrs vs m ls i v xs k x R Hv Hx Hk C. pose proof (t_reach_good _ _ _ _ _ _ R) as T.
  pose proof (push_own_in_place half ptrs m vs ls i v xs k x T Hv Hx Hk C) as P.
  assert (Q : t_exec nomem half ptrs (PushBack i (Elem i k)) vs m = t_exec (fun _ => false) half ptrs (PushBack i (Elem i k)) vs m).
  { cbn [t_exec]. unfold with_src. destruct (resolve vs (Elem i k)); auto. unfold on. rewrite Hv.
    unfold t_push_back, t_prepare_push_back. destruct (Nat.ltb_spec (cap (vraw v)) (S (vsize v))); [lia|auto]. }
  rewrite Q. destruct (t_exec _ half ptrs (PushBack i (Elem i k)) vs m) as [vs' m'|vs' m'|]; try contradiction.
  exists vs', m'. split; auto. apply tgood_sees; auto.
Qed.
End Props.
Print Assumptions C99_vectors_are_lists.
Print Assumptions C99_as_other_elements.
Print Assumptions C99_any_allocation_fails.
Print Assumptions C99_insert_own_element.
Print Assumptions C99_own_element_full.
Print Assumptions C99_push_back_own_element.

(* inserting v[2] of 1 2 3 in front inserts 2, silently *)
Theorem C99_insert_own_element_refuted : exists half ptrs (ops : list (@vop nat)) vs m vs' m',
  t_reach never half ptrs vs m [[1; 2; 3]] /\
  t_run never half ptrs ops [] mem0 = Some (errors ops [], vs, m) /\
  t_exec never half ptrs (InsertOne 0 0 (Elem 0 2)) vs m = Ok vs' m' /\
  Forall2 (sees m') vs' [[2; 1; 2; 3]] /\ ~ Forall2 (sees m') vs' [insert_at 0 [3] [1; 2; 3]].
Proof.
  set (ops := [MakeRange [Val 1; Val 2; Val 3]; Reserve 0 8]).
  assert (L : t_legal_all ops []).
  { split; [left; apply (L_range _ _ [1; 2; 3]); reflexivity|]. split; [left; eapply L_reserve; reflexivity|]. exact I. }
  destruct (t_exec never 100 never (MakeRange [Val 1; Val 2; Val 3]) [] mem0) as [vs1 m1|vs1 m1|] eqn:E1; try discriminate E1.
  assert (T1 : t_reach never 100 never vs1 m1 [[1; 2; 3]]).
  { eapply TR_step; [apply TR_start|exact (proj1 L)|left; exact E1|].
    pose proof (t_exec_full never 100 never _ _ _ _ tgood0 (proj1 L)) as P. rewrite E1 in P.
    destruct P as (ls' & T & H). injection H as <-. apply tgood_sees; auto. }
  destruct (t_exec never 100 never (Reserve 0 8) vs1 m1) as [vs2 m2|vs2 m2|] eqn:E2;
    [|exfalso; injection E1 as <- <-; discriminate E2|exfalso; injection E1 as <- <-; discriminate E2].
  assert (T2 : t_reach never 100 never vs2 m2 [[1; 2; 3]]).
  { eapply TR_step; [exact T1|exact (proj1 (proj2 L))|left; exact E2|].
    pose proof (t_exec_full never 100 never _ _ _ _ (t_reach_good _ _ _ _ _ _ T1) (proj1 (proj2 L))) as P. rewrite E2 in P.
    destruct P as (ls' & T & H). injection H as <-. apply tgood_sees; auto. }
  assert (EV : vs2 = [Vec (RV (Some 1) 8) 3]). { injection E1 as <- <-. injection E2 as <- <-. reflexivity. }
  destruct (C99_insert_own_element never 100 never vs2 m2 _ 0 (Vec (RV (Some 1) 8) 3) [1; 2; 3] 0 1 2 T2) as (y & Hy & K);
    try (subst vs2; reflexivity); try (cbn; lia).
  injection Hy as <-. destruct (K (InsertOne 0 0 (Elem 0 2))) as (vs' & m' & E3 & S3); auto.
  exists 100, never, ops, vs2, m2, vs', m'. split; auto. split.
  { subst ops. cbn [t_run]. rewrite E1, E2. reflexivity. }
  split; auto. split; auto. intros S4. pose proof (sees_all_det _ _ _ _ S3 S4). discriminate.
Qed.
Print Assumptions C99_insert_own_element_refuted.

(* ---- examples ---- *)
Section Examples.
(* a program that inserts within the capacity, erases and assigns an element of its own *)
Let prog : list (@vop nat) :=
  [MakeRange [Val 1; Val 2; Val 3; Val 4]; Reserve 0 12; InsertCount 0 1 2 (Val 7); EraseRange 0 0 2;
   MakeCopy 0; InsertRange 1 1 [Elem 0 0; Elem 0 1; Elem 0 2]; Assign 0 3 (Elem 0 2)].
Example ex_legal : t_legal_all prog [].
Proof.
  cbv [prog t_legal_all].
  split; [left; eapply L_range; reflexivity|].
  split; [left; eapply L_reserve; reflexivity|].
  split; [left; eapply L_insn; [reflexivity|cbn; lia|reflexivity|exact I]|].
  split; [left; eapply L_eran; [reflexivity|cbn; lia|cbn; lia]|].
  split; [left; eapply L_copy; reflexivity|].
  split; [left; eapply L_insr; [reflexivity|cbn; lia|reflexivity|repeat constructor; cbn; lia]|].
  split; [right; do 5 eexists; split; [reflexivity|split; reflexivity]|exact I].
Qed.
Example ex_run : forall p, option_map (fun r => match r with (fl, vs, m) => (fl, map vsize vs,
    map (fun v => match ptr (vraw v) with Some b => map (fun k => read m (Ref b k)) (seq 0 (vsize v)) | None => [] end) vs) end)
    (t_run never 100 (fun _ => p) prog [] mem0) =
  Some (repeat false 7, [3; 7], [map Some [3; 3; 3]; map Some [7; 7; 2; 3; 2; 3; 4]]).
Proof. intros [|]; vm_compute; reflexivity. Qed.
(* the second allocation fails: the insertion throws, its vector is empty then *)
Example ex_starved : option_map (fun r => match r with (fl, vs, m) => (fl, map vsize vs) end)
    (t_run (fun t => t =? 4) 100 never [MakeRange [Val 1; Val 2; Val 3]; InsertOne 0 1 (Val 9); PushBack 0 (Val 5)] [] mem0) =
  Some ([false; true; false], [1]).
Proof. vm_compute. reflexivity. Qed.
Example ex_overlap : forall (m : @mem nat) lt, blk m 0 = Some lt -> memcpy 0 0 2 0 1 m = Bad.
Proof. intros. reflexivity. Qed.
End Examples.
