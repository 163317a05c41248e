(* C90: the N-D vector in a debug build. *)
From Coq Require Import List Bool Arith Lia.
From Verif Require Import VecModel VecWorld VecSpec VecProofs VecRaw VecOps VecProps NdVecModel NdVecSpec NdVecProofs NdVecProps
  DebugModel DebugProofs DebugNdModel DebugNdSpec DebugNdProofs.
Import ListNotations.

Section Props.
Context {V : Type}.

(* C90: in every state a vector of any number of dimensions can reach, whatever
   throws, a legal call is stopped exactly when it assigns no elements to a vector
   without capacity, and otherwise does what it does in a release build *)
Theorem C90_stops_exactly : forall fails nomem half v (m : @mem V) a op, nreach fails nomem half v m a ->
  nlegal a op -> (ninserts op -> forall t, nomem t = false) ->
  dnexec fails nomem half op v m = if nhalts op (cap (nraw v)) then Stop else Run (nexec fails nomem half op v m).
Proof.
  intros fails nomem half v m a op R L NI. destruct (nreach_valid _ _ _ _ _ _ R) as (G & F & _).
  apply dnexec_spec with (a := a); auto.
Qed.

(* the constructor with extents stops nothing, even without elements *)
Theorem C90_constructor : forall fails nomem n r (x : V),
  dnmake fails nomem (n :: r) (Ext x) mem0 = Run (nmake fails nomem (n :: r) (Ext x) mem0) /\
  nmake fails nomem (n :: r) (Ext x) mem0 <> Bad.
Proof.
  intros fails nomem n r x.
  assert (NB : nmake fails nomem (n :: r) (Ext x) mem0 <> Bad).
  { unfold nmake. rewrite total_init. destruct (n * vol r =? 0); [discriminate|].
    rewrite (init_value_range fails nomem).
    pose proof (init_range_spec fails nomem mem0 (repeat (Ext x) (n * vol r)) (repeat x (n * vol r)) (n * vol r)) as P.
    specialize (P ltac:(intros b _; reflexivity) ltac:(apply Forall2_repeat; reflexivity) ltac:(symmetry; apply repeat_length)).
    destruct (init_from_range fails nomem (RV None 0) (n * vol r) (repeat (Ext x) (n * vol r)) mem0); try discriminate. contradiction. }
  split; auto using dnmake_run.
Qed.

(* nor does the destructor, and everything is freed *)
Theorem C90_destructor : forall fails nomem half v (m : @mem V) a, nreach fails nomem half v m a ->
  exists m', dndestruct v m = Run (Ok tt m') /\ forall b, blk m' b = None.
Proof.
  intros fails nomem half v m a R. destruct (valid_destruct m v a (nreach_valid _ _ _ _ _ _ R)) as (m' & E & F).
  exists m'. split; auto. rewrite dndestruct_run; rewrite E; auto. discriminate.
Qed.

(* pop_back of an empty vector, undefined in a release build, throws *)
Theorem C90_pop_empty : forall fails nomem half v (m : @mem V) a, nreach fails nomem half v m a -> slices a = [] ->
  dnexec fails nomem half NPop v m = Run (Exc (v, None) m) /\ nexec fails nomem half NPop v m = Bad.
Proof.
  intros fails nomem half [r ds] m a R E. destruct (nreach_valid _ _ _ _ _ _ R) as ((_ & _ & D) & _). cbn [descs] in D.
  rewrite E in D. cbn [length] in D. cbn [dnexec nexec]. unfold dnpop, npop. subst ds. rewrite top_init. auto.
Qed.

(* a program that assigns no empty extents to an empty vector runs in a debug
   build as in a release build *)
Theorem C90_debug_is_release : forall half d (ops : list (@nop V)), 0 < d ->
  nlegal_all ops (Arr (repeat 0 d) []) -> nprudent_play ops (Arr (repeat 0 d) []) ->
  exists v m, dnrun never never half ops (nempty (S d)) mem0 = Some (Some (nerrors ops (Arr (repeat 0 d) []), v, m)) /\
    nrun never never half ops (nempty (S d)) mem0 = Some (nerrors ops (Arr (repeat 0 d) []), v, m) /\
    nsees m v (nplay ops (Arr (repeat 0 d) [])).
Proof.
  intros half d ops Hd L Q. destruct (C11_slices_are_a_list half d ops Hd L) as (v & m & E & S & _).
  exists v, m. split; auto. rewrite (dnrun_quiet V half ops mem0 _ _ (valid_empty d Hd) L Q), E. reflexivity.
Qed.
End Props.

(* C90: a legal call that a debug build stops *)
Theorem C90_assign_nothing_refuted : exists (op : @nop nat), nlegal (Arr [0] []) op /\
  (exists v m, nexec never never 100 op (nempty 2) mem0 = Ok v m) /\ dnexec never never 100 op (nempty 2) mem0 = Stop.
Proof.
  exists (NAssign [0; 4] 7). split; [constructor; auto|]. split; [do 2 eexists; vm_compute; reflexivity|vm_compute; reflexivity].
Qed.
(* C90: slices without elements (outside nlegal) are accepted by push_back in a
   release build, and stop a debug build when the vector has no memory *)
Theorem C90_push_empty_slice_refuted : exists sd,
  (exists v m, nexec never never 100 (NPush sd []) (nempty 3) (@mem0 nat) = Ok v m /\ extents (fst v) = [1; 2; 0]) /\
  dnexec never never 100 (NPush sd []) (nempty 3) (@mem0 nat) = Stop.
Proof. exists [2; 0]. split; [do 2 eexists; split; vm_compute; reflexivity|vm_compute; reflexivity]. Qed.

(* ---- examples meeting the hypotheses ---- *)
Example C90_tour : nprudent_play tour3 (Arr [0; 0] []) /\
  exists v m, dnrun never never 100 tour3 (nempty 3) mem0 = Some (Some (nerrors tour3 (Arr [0; 0] []), v, m)).
Proof.
  split; [|do 2 eexists; vm_compute; reflexivity].
  cbn [tour3 nprudent_play nprudent neffect nresult]. repeat split; intros; try discriminate; auto.
Qed.
Example C90_reached : exists v (m : @mem nat), nreach never never 100 v m (shape_of [0; 3] (repeat 5 0)) /\
  nlegal (@shape_of nat [0; 3] (repeat 5 0)) (NAssign [0; 2] 1) /\ nhalts (@NAssign nat [0; 2] 1) (cap (nraw v)) = true /\
  nlegal (@shape_of nat [0; 3] (repeat 5 0)) (NAssign [2; 2] 1) /\ nhalts (@NAssign nat [2; 2] 1) (cap (nraw v)) = false.
Proof.
  do 2 eexists. split; [eapply (R_make never never 100 0 [3] 5); [discriminate|auto|reflexivity]|].
  repeat split; auto; constructor; auto. right. discriminate.
Qed.

Print Assumptions C90_stops_exactly.
Print Assumptions C90_constructor.
Print Assumptions C90_destructor.
Print Assumptions C90_pop_empty.
Print Assumptions C90_debug_is_release.
Print Assumptions C90_assign_nothing_refuted.
Print Assumptions C90_push_empty_slice_refuted.
