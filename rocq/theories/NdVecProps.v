(* C11: the N-D vector is a list of slices. *)
From Coq Require Import List Bool Arith Lia.
From Verif Require Import VecModel VecWorld VecSpec VecProofs VecRaw VecOps VecProps NdVecModel NdVecSpec NdVecProofs.
Import ListNotations.

Section Props.
Context {V : Type}.
Notation mem := (@mem V).
Notation arr := (@arr V).

(* the vector owns everything that is allocated *)
Definition alone (m : mem) (r : rv) : Prop := forall b, ptr r <> Some b -> blk m b = None.
Definition valid (m : mem) (v : nvec) (a : arr) : Prop := ngood m v a /\ fresh m /\ alone m (nraw v).

Lemma alone_after : forall m r m' r' ys, alone m r -> after m r m' r' ys -> alone m' r'.
Proof.
  intros m r m' r' ys A (_ & (_ & O & _ & D) & _) b H.
  assert (DEC : ptr r = Some b \/ ptr r <> Some b).
  { destruct (ptr r) as [c|]; [destruct (Nat.eq_dec c b); [left|right]; congruence|right; discriminate]. }
  destruct DEC as [E|E]; [destruct (D b E); [congruence|auto]|]. rewrite O; auto.
Qed.
Lemma valid_after : forall m v m' v' a a', valid m v a -> nafter m v m' v' a' -> valid m' v' a'.
Proof.
  intros m v m' v' a a' (G & F & A) (W & Af & D). split; [|split].
  - split; [|split]; auto. apply Af.
  - apply Af.
  - eapply alone_after; eauto.
Qed.
Lemma valid_sees : forall m v a, valid m v a -> nsees m v a.
Proof.
  intros m [r ds] a ((W & G & D) & _). cbn [nraw descs] in *. subst ds. pose proof W as (W1 & W2 & W3).
  unfold nsees. rewrite total_init. cbn [nraw]. split; [unfold extents; apply init_sizes_fst|]. split; auto.
  rewrite <- (flat_len a W). split; [eapply good_cap; eauto|].
  intros k s Hk. assert (Ls : length s = vol (sub a)) by (rewrite Forall_forall in W1; apply W1; eapply nth_error_In; eauto).
  split; auto. intros j x Hj.
  assert (Hjl : j < length s) by (apply nth_error_Some; congruence).
  assert (E : nth_error (flat a) (k * vol (sub a) + j) = Some x).
  { apply nth_error_split in Hk. destruct Hk as (l1 & l2 & E & <-). unfold flat. rewrite E, concat_app. simpl.
    rewrite E in W1. apply Forall_app in W1. destruct W1 as [Wl _].
    pose proof (concat_len _ _ Wl) as CL. rewrite <- CL. rewrite nth_error_app2 by lia.
    replace (length (concat l1) + j - length (concat l1)) with j by lia. rewrite nth_error_app1; auto. }
  unfold good in G. destruct (ptr r) as [b|].
  - exists b. split; auto. simpl. destruct G as (_ & _ & ->). rewrite nth_error_app1.
    + unfold somes. rewrite nth_error_map, E. auto.
    + rewrite somes_len. apply nth_error_Some. congruence.
  - destruct G as [_ Z]. rewrite Z in E. destruct (k * vol (sub a) + j); discriminate.
Qed.
Lemma valid_destruct : forall m v a, valid m v a -> exists m', ndestruct v m = Ok tt m' /\ forall b, blk m' b = None.
Proof.
  intros m [r ds] a (G & F & A). assert (D : ds = init_sizes (length (slices a) :: sub a)) by apply G. subst ds.
  destruct (destruct_vec_spec m _ _ (as_vec m r a G) F) as (m' & E & (N & O & W & D) & F'). exists m'. split; auto.
  intros b. cbn [vraw] in *. cbn [nraw] in A.
  assert (DEC : ptr r = Some b \/ ptr r <> Some b).
  { destruct (ptr r) as [c|]; [destruct (Nat.eq_dec c b); [left|right]; congruence|right; discriminate]. }
  destruct DEC as [H|H]; [destruct (D b H); [discriminate|auto]|]. rewrite O by (auto; discriminate). auto.
Qed.
Lemma empty_descs : forall d, repeat (0, 0) (S d) = init_sizes (0 :: repeat 0 d).
Proof. induction d; [auto|]. rewrite init_sizes_cons. cbn [repeat] in *. rewrite IHd. auto. Qed.
Lemma valid_empty : forall d, 0 < d -> valid mem0 (nempty (S d)) (Arr (repeat 0 d) []).
Proof.
  intros d Hd. split; [|split].
  - split; [|split].
    + split; [constructor|]. split; cbn [slices sub]; [congruence|]. destruct d; [lia|discriminate].
    + split; auto.
    + cbn [nempty descs slices length sub]. apply empty_descs.
  - intros b _; reflexivity.
  - intros b _; reflexivity.
Qed.
Lemma valid_make : forall fails nomem n r x v m, r <> [] -> n = 0 \/ vol r <> 0 ->
  nmake fails nomem (n :: r) (Ext x) mem0 = Ok v m -> valid m v (@shape_of V (n :: r) (repeat x (vol (n :: r)))).
Proof.
  intros fails nomem n r x v m Hr Hn E. unfold nmake in E. rewrite total_init in E.
  destruct (shaped n r (repeat x (vol (n :: r))) Hr Hn) as (S1 & S2 & S3).
  { rewrite repeat_length; auto. }
  destruct (Nat.eqb_spec (n * vol r) 0) as [Z|Z].
  - injection E as <- <-. split; [|split]; try (intros b _; reflexivity). split; auto. split; [|cbn [descs]; rewrite S3; auto].
    rewrite S2. cbn [vol]. rewrite Z. split; auto.
  - rewrite (init_value_range fails nomem) in E.
    pose proof (init_range_spec fails nomem mem0 (repeat (Ext x) (n * vol r)) (repeat x (n * vol r)) (n * vol r)) as P.
    specialize (P ltac:(intros b _; reflexivity) ltac:(apply Forall2_repeat; reflexivity) ltac:(symmetry; apply repeat_length)).
    destruct (init_from_range fails nomem (RV None 0) (n * vol r) (repeat (Ext x) (n * vol r)) mem0) as [r' m1|r' m1|]; try discriminate.
    injection E as <- <-. destruct P as [P _]. split; [|split].
    + split; auto. split; [cbn [nraw]; rewrite S2; apply P|]. cbn [descs]. rewrite S3; auto.
    + apply P.
    + cbn [nraw]. apply (alone_after mem0 (RV None 0) m1 r' _ (fun b _ => eq_refl) P).
Qed.

(* ---- nothing throws but the functions themselves ---- *)
Lemma nrun_quiet : forall half ops (m : mem) v a, valid m v a -> nlegal_all ops a ->
  exists v' m', nrun never never half ops v m = Some (nerrors ops a, v', m') /\ valid m' v' (nplay ops a).
Proof.
  intros half. induction ops as [|op ops IH]; intros m v a Va L.
  - exists v, m. auto.
  - destruct L as [L1 L2]. cbn [nrun nerrors nplay].
    destruct Va as (G & F & A).
    pose proof (nexec_spec never never half op m v a G F L1 (fun _ _ => eq_refl)) as P.
    destruct (nexec never never half op v m) as [[v1 it] m1|[v1 it] m1|]; [| |contradiction]; cbn [npost] in P.
    + destruct P as (a1 & R & Af & _). unfold neffect in *. rewrite R in *.
      destruct (IH m1 v1 a1 (valid_after _ _ _ _ _ _ (conj G (conj F A)) Af) L2) as (v' & m' & E & V'). rewrite E. eauto.
    + destruct P as (a1 & Af & [[R ->]|[[[t T]|[t T]] _]]); [|discriminate|discriminate].
      unfold neffect in *. rewrite R in *.
      destruct (IH m1 v1 a (valid_after _ _ _ _ _ _ (conj G (conj F A)) Af) L2) as (v' & m' & E & V'). rewrite E. eauto.
Qed.

(* C11: whatever a program does with a vector of any number of dimensions, within
   the preconditions, the vector holds the slices the list operations give, with
   the extents expected; exactly the erroneous calls throw; nothing undefined
   happens, and in the end everything is destroyed and freed, once. *)
Theorem C11_slices_are_a_list : forall half d (ops : list (@nop V)), 0 < d -> nlegal_all ops (Arr (repeat 0 d) []) ->
  exists v m, nrun never never half ops (nempty (S d)) mem0 = Some (nerrors ops (Arr (repeat 0 d) []), v, m) /\
    nsees m v (nplay ops (Arr (repeat 0 d) [])) /\
    exists m', ndestruct v m = Ok tt m' /\ forall b, blk m' b = None.
Proof.
  intros half d ops Hd L. destruct (nrun_quiet half ops mem0 _ _ (valid_empty d Hd) L) as (v & m & E & Va).
  exists v, m. split; auto. split; [apply valid_sees; auto|]. eapply valid_destruct; eauto.
Qed.

(* ---- anything may throw ---- *)
(* the states reached from the default constructor or vector(extents, value);
   allocations do not fail in insertions *)
Inductive nreach (fails nomem : nat -> bool) (half : nat) : @nvec -> mem -> arr -> Prop :=
  | R_empty d : 0 < d -> nreach fails nomem half (nempty (S d)) mem0 (Arr (repeat 0 d) [])
  | R_make n r x v m : r <> [] -> n = 0 \/ vol r <> 0 -> nmake fails nomem (n :: r) (Ext x) mem0 = Ok v m ->
      nreach fails nomem half v m (shape_of (n :: r) (repeat x (vol (n :: r))))
  | R_step v m a op v' it m' a' : nreach fails nomem half v m a -> nlegal a op -> (ninserts op -> forall t, nomem t = false) ->
      nexec fails nomem half op v m = Ok (v', it) m' \/ nexec fails nomem half op v m = Exc (v', it) m' ->
      nsees m' v' a' -> nreach fails nomem half v' m' a'.

Lemma concat_nth_eq : forall k (l1 l2 : list (list V)), length l1 = length l2 ->
  Forall (fun s => length s = k) l1 -> Forall (fun s => length s = k) l2 ->
  (forall i s t, nth_error l1 i = Some s -> nth_error l2 i = Some t -> forall j, nth_error s j = nth_error t j) -> l1 = l2.
Proof.
  intros k. induction l1 as [|s l1 IH]; intros [|t l2] L F1 F2 H; try discriminate; auto.
  f_equal.
  - apply list_nth_eq. apply (H 0 s t); auto.
  - inversion F1; inversion F2; subst. apply IH; auto. intros i; apply (H (S i)).
Qed.
Lemma nsees_det : forall (m : mem) v a a', nsees m v a -> nsees m v a' -> a = a'.
Proof.
  intros m v [s1 l1] [s2 l2] (E1 & _ & _ & R1) (E2 & _ & _ & R2). cbn [sub slices] in *.
  rewrite E1 in E2. injection E2 as L ->. f_equal.
  assert (F1 : Forall (fun s => length s = vol s2) l1).
  { apply Forall_forall. intros s Hs. apply In_nth_error in Hs. destruct Hs as (i & Hi). apply (R1 i s Hi). }
  assert (F2 : Forall (fun s => length s = vol s2) l2).
  { apply Forall_forall. intros s Hs. apply In_nth_error in Hs. destruct Hs as (i & Hi). apply (R2 i s Hi). }
  apply (concat_nth_eq (vol s2)); auto. intros i s t Hs Ht j.
  destruct (R1 i s Hs) as (Ls & Q1), (R2 i t Ht) as (Lt & Q2).
  destruct (nth_error s j) as [x|] eqn:X, (nth_error t j) as [y|] eqn:Y; auto.
  - destruct (Q1 _ _ X) as (b1 & B1 & D1), (Q2 _ _ Y) as (b2 & B2 & D2). congruence.
  - apply nth_error_None in Y. assert (j < length s) by (apply nth_error_Some; congruence). lia.
  - apply nth_error_None in X. assert (j < length t) by (apply nth_error_Some; congruence). lia.
Qed.
Lemma nreach_valid : forall fails nomem half v m a, nreach fails nomem half v m a -> valid m v a.
Proof.
  intros fails nomem half v m a R. induction R as [d Hd|n r x v m Hr Hn E|v m a op v' it m' a' R IH L NI E S].
  - apply valid_empty; auto.
  - eapply valid_make; eauto.
  - destruct IH as (G & F & A). pose proof (nexec_spec fails nomem half op m v a G F L NI) as P.
    destruct E as [E|E]; rewrite E in P; cbn [npost] in P.
    + destruct P as (a1 & _ & Af & _). pose proof (valid_after _ _ _ _ _ _ (conj G (conj F A)) Af) as Va.
      rewrite (nsees_det _ _ _ _ S (valid_sees _ _ _ Va)). auto.
    + destruct P as (a1 & Af & _). pose proof (valid_after _ _ _ _ _ _ (conj G (conj F A)) Af) as Va.
      rewrite (nsees_det _ _ _ _ S (valid_sees _ _ _ Va)). auto.
Qed.

(* an operation that returns has done its work and returns the iterator to the
   first slice inserted, or to the slice after those erased; one that throws
   reports an error of its own having changed nothing, or leaves whole slices as
   ndamaged allows; and at any time everything can be destroyed and freed, once *)
Theorem C11_any_throw : forall fails nomem half v m a, nreach fails nomem half v m a ->
  nsees m v a /\
  (exists m', ndestruct v m = Ok tt m' /\ forall b, blk m' b = None) /\
  forall op, nlegal a op -> (ninserts op -> forall t, nomem t = false) ->
    match nexec fails nomem half op v m with
    | Ok (v', it) m' => exists a', nresult op a = Some a' /\ nsees m' v' a' /\
        match returned op a with Some k => it = Some (k * vol (sub a')) | None => True end
    | Exc (v', _) m' => exists a', ((nresult op a = None /\ a' = a) \/ ndamaged op a a') /\ nsees m' v' a'
    | Bad => False
    end.
Proof.
  intros fails nomem half v m a R. pose proof (nreach_valid _ _ _ _ _ _ R) as Va.
  split; [apply valid_sees; auto|]. split; [eapply valid_destruct; eauto|]. intros op L NI.
  destruct Va as (G & F & A). pose proof (nexec_spec fails nomem half op m v a G F L NI) as P.
  destruct (nexec fails nomem half op v m) as [[v' it] m'|[v' it] m'|]; auto; cbn [npost] in P.
  - destruct P as (a' & Re & Af & It). exists a'. split; auto. split; auto.
    apply valid_sees. exact (valid_after _ _ _ _ _ _ (conj G (conj F A)) Af).
  - destruct P as (a' & Af & H). exists a'. split; [destruct H as [H|[_ H]]; auto|].
    apply valid_sees. exact (valid_after _ _ _ _ _ _ (conj G (conj F A)) Af).
Qed.

(* in numbers: the extents, the total size and the extents of the slices stay what
   they have to be in every reachable state *)
Theorem C11_size_is_volume : forall fails nomem half v m a, nreach fails nomem half v m a ->
  total_size v = vol (extents v) /\ total_size v <= cap (nraw v) /\
  forall op it v' m', nlegal a op -> (ninserts op -> forall t, nomem t = false) -> top v <> 0 ->
    match op with NResizeAll _ _ | NAssign _ _ => False | _ => True end ->
    (nexec fails nomem half op v m = Ok (v', it) m' \/ nexec fails nomem half op v m = Exc (v', it) m') ->
    tl (extents v') = tl (extents v).
Proof.
  intros fails nomem half v m a R. destruct (C11_any_throw _ _ _ _ _ _ R) as ((S1 & S2 & S3 & _) & _ & K).
  split; [rewrite S1, S2; auto|]. split; auto. intros op it v' m' L NI T NR E.
  assert (NE : slices a <> []).
  { intros Z. apply T. unfold top, extents in *. destruct (descs v) as [|[n t] ds]; [discriminate|].
    cbn [map fst] in S1. rewrite Z in S1. injection S1 as -> _. auto. }
  specialize (K op L NI). rewrite S1. cbn [tl].
  destruct E as [E|E]; rewrite E in K.
  - destruct K as (a' & Re & (S1' & _) & _). rewrite S1'. cbn [tl].
    destruct op; cbn [nresult] in Re; try contradiction;
      repeat match type of Re with context [if ?c then _ else _] => destruct c; try discriminate end;
      try (unfold adopt in Re; destruct (slices a); [congruence|]); injection Re as <-; auto.
  - destruct K as (a' & [[_ ->]|(D & _)] & (S1' & _)); rewrite S1'; auto.
Qed.
End Props.

(* ---- where slices have no elements, and other surprises ---- *)
(* two slices without elements: the second replaces the first *)
Theorem C11_empty_slices_refuted : exists (v : nvec) (m : @mem nat),
  nrun never never 100 [NPush [2; 0] []; NPush [2; 0] []] (nempty 3) mem0 = Some ([false; false], v, m) /\ extents v = [1; 2; 0].
Proof. do 2 eexists. split; vm_compute; reflexivity. Qed.

(* the iterator returned by an insertion of nothing at slice 1 of 3 slices of two
   elements does not point to slice 1 but to slice 2 *)
Theorem C11_empty_insert_iterator_refuted : exists (v v' : nvec) (m m' : @mem nat) fl it,
  nrun never never 100 [NAssign [3; 2] 7] (nempty 2) mem0 = Some (fl, v, m) /\
  nexec never never 100 (NInsert 1 0 [2] [8; 9]) v m = Ok (v', Some it) m' /\ it = 2 * 2 /\
  nexec never never 100 (NEraseRange 1 1) v m = Ok (v', Some it) m'.
Proof. do 6 eexists. split; [vm_compute; reflexivity|]. split; [vm_compute; reflexivity|]. split; vm_compute; reflexivity. Qed.

(* erase(begin, end) of a default constructed vector divides by zero *)
Theorem C11_erase_all_of_default_refuted : nexec never never 100 (NEraseRange 0 0) (nempty 2) (@mem0 nat) = Bad.
Proof. reflexivity. Qed.

(* an insertion that cannot allocate forgets the slices without destroying them:
   the block cannot be freed properly any more *)
Theorem C11_insert_out_of_memory_refuted : exists nomem (v : nvec) (m : @mem nat) fl,
  nrun never nomem 100 [NAssign [1; 2] 7; NInsert 0 1 [2] [8; 9]] (nempty 2) mem0 = Some (fl, v, m) /\
  fl = [false; true] /\ extents v = [0; 2] /\ ndestruct v m = Bad.
Proof. exists (at_ 3). do 3 eexists. split; [vm_compute; reflexivity|]. repeat split; vm_compute; reflexivity. Qed.

(* ---- examples ---- *)
Definition tour3 : list (@nop nat) :=
  [NPush [2; 2] [1; 2; 3; 4]; NPush [2; 2] [5; 6; 7; 8]; NPush [1; 4] [0; 0; 0; 0]; NInsert 1 2 [2; 2] [9; 9; 9; 9];
   NInsertRange 0 [2; 2] [[10; 11; 12; 13]; [14; 15; 16; 17]]; NErase 1; NEraseRange 1 3; NResize 4 20; NPop; NShrink; NCopy].
Example C11_example_legal : nlegal_all tour3 (Arr [0; 0] []).
Proof.
  repeat split; cbn; try constructor; cbn; try lia; try discriminate; auto; repeat constructor.
Qed.
Example C11_example : nplay tour3 (Arr [0; 0] []) =
  Arr [2; 2] [[10; 11; 12; 13]; [9; 9; 9; 9]; [5; 6; 7; 8]].
Proof. reflexivity. Qed.
Example C11_example_errors : nerrors tour3 (Arr [0; 0] []) = [false; false; true; false; false; false; false; false; false; false; false].
Proof. reflexivity. Qed.
(* the third construction of an insertion throws: whole slices are kept *)
Example C11_example_throw : exists (v v' : nvec) (m m' : @mem nat) fl it,
  nrun (at_ 14) never 100 [NAssign [2; 2] 7; NReserve 20] (nempty 2) mem0 = Some (fl, v, m) /\
  nexec (at_ 14) never 100 (NInsert 1 2 [2] [8; 9]) v m = Exc (v', it) m' /\
  nsees m' v' (Arr [2] [[7; 7]; [8; 9]]).
Proof.
  do 6 eexists. split; [vm_compute; reflexivity|]. split; [vm_compute; reflexivity|].
  split; [reflexivity|]. split; [reflexivity|]. split; [vm_compute; lia|].
  intros [|[|k]] s H; try (injection H as <-); try (destruct k; discriminate);
    (split; [reflexivity|]); intros [|[|j]] x Hx; try (injection Hx as <-); try (destruct j; discriminate);
    eexists; split; vm_compute; reflexivity.
Qed.

Print Assumptions C11_slices_are_a_list.
Print Assumptions C11_any_throw.
Print Assumptions C11_size_is_volume.
Print Assumptions C11_empty_slices_refuted.
Print Assumptions C11_empty_insert_iterator_refuted.
Print Assumptions C11_erase_all_of_default_refuted.
Print Assumptions C11_insert_out_of_memory_refuted.
